(** OptModel.v - model of pyverilog/dataflow/optimizer.py:20-374 (class VerilogOptimizer):
    constant folding and widths. *)
From Verif Require Import Base ScopeModel DfModel BindModel LitModel.
Local Open Scope Z_scope.

Definition isEval (t : df) : bool := match t with DEval _ _ _ _ => true | _ => false end.
Definition isConcat (t : df) : bool := match t with DConcat _ => true | _ => false end.

(** optimizer.py:24-28 - the optimizer's dictionaries: declared signals, and known constants
    (DFEvalValue nodes). default_width is 32, level is 2. *)
Record optenv := OptEnv { o_terms : ndict term; o_const : ndict df }.
Definition default_width : Z := 32.

(** Integer payloads. Operations on floats, strings and None are not modelled. *)
Definition as_int (v : pyval) : res Z := match v with PInt z => Ok z | _ => Err Unmodelled end.
(** The attribute [.value] of a node, used as an integer: DFEvalValue has it; constants have a
    string there; other nodes and None have none (AttributeError). *)
Definition value_attr (t : df) : res pyval :=
  match t with
  | DEval v _ _ _ => Ok v
  | DInt s | DFloat s | DStr s => Ok (PStr s)
  | _ => Err AttributeError
  end.
Definition int_attr (t : df) : res Z :=
  do v <- value_attr t; match v with PInt z => Ok z | PFloat _ => Err Unmodelled | _ => Err TypeError end.

(** range(n) *)
Definition zseq (n : Z) : list Z := map Z.of_nat (seq 0 (Z.to_nat n)).
(** v & (1 << i) == 0 *)
Definition bit_clear (v i : Z) : bool := Z.land v (Z.shiftl 1 i) =? 0.

(** Python's int(a / b) for ints: the quotient correctly rounded to a 53-bit binary float,
    then truncated. Overflow above 2^1024. (Results too small for a normal float truncate to 0
    whatever their rounding.) *)
Definition round_half_even (num den : Z) : Z :=
  let q := num / den in
  let r := num mod den in
  if 2 * r <? den then q else if den <? 2 * r then q + 1 else if Z.even q then q else q + 1.
Definition float_div_trunc (a b : Z) : res Z :=
  let n := Z.abs a in
  let d := Z.abs b in
  if n =? 0 then Ok 0 else
  let e0 := Z.log2 n - Z.log2 d - 53 in
  let num e := if 0 <=? e then n else n * 2 ^ (- e) in
  let den e := if 0 <=? e then d * 2 ^ e else d in
  let e := if 2 ^ 53 * den e0 <=? num e0 then e0 + 1 else e0 in
  let m := round_half_even (num e) (den e) in
  let v := if 0 <=? e then m * 2 ^ e else m / 2 ^ (- e) in
  if 2 ^ 1024 <=? v then Err OverflowError else Ok (Z.sgn a * Z.sgn b * v).

Definition b2z (b : bool) : Z := if b then 1 else 0.

(** optimizer.py:185-283 - _evalOperator on integers. Result PNone for an operator without a
    case. Powers with a negative exponent are floats (not modelled). *)
Definition nthZ (l : list Z) (i : nat) : res Z := match nth_error l i with Some z => Ok z | None => Err IndexError end.
Definition eval_unary (o : op) (a w : Z) : res pyval :=
  match o with
  | Uminus => Ok (PInt (-1 * a))
  | Ulnot => Ok (PInt (if a =? 0 then 1 else 0))
  | Unot => Ok (PInt (fold_left (fun r i => if bit_clear a i then Z.lor r (Z.shiftl 1 i) else r) (zseq w) 0))
  | Uand => Ok (PInt (if existsb (bit_clear a) (zseq w) then 0 else 1))
  | Unand => Ok (PInt (if existsb (bit_clear a) (zseq w) then 1 else 0))
  | Uor => Ok (PInt (if existsb (fun i => negb (bit_clear a i)) (zseq w) then 1 else 0))
  | Unor => Ok (PInt (if existsb (fun i => negb (bit_clear a i)) (zseq w) then 0 else 1))
  | Uxor => Ok (PInt (fold_left (fun r i => if bit_clear a i then r else if r =? 0 then 1 else 0) (zseq w) 0))
  | Uxnor => Ok (PInt (fold_left (fun r i => if bit_clear a i then r else if r =? 0 then 1 else 0) (zseq w) 1))
  | _ => Ok PNone
  end.
Definition eval_binary (o : op) (a b : Z) : res pyval :=
  match o with
  | Power => if b <? 0 then (if a =? 0 then Err ZeroDivisionError else Err Unmodelled) else Ok (PInt (a ^ b))
  | Times => Ok (PInt (a * b))
  | Divide => if b =? 0 then Err ZeroDivisionError else do q <- float_div_trunc a b; Ok (PInt q)
  | Mod => if b =? 0 then Err ZeroDivisionError else Ok (PInt (a mod b))
  | Plus => Ok (PInt (a + b))
  | Minus => Ok (PInt (a - b))
  | Sll => if b <? 0 then Err ValueError else Ok (PInt (Z.shiftl a b))
  | Srl | Sra => if b <? 0 then Err ValueError else Ok (PInt (Z.shiftr a b))
  | LessThan => Ok (PInt (b2z (a <? b)))
  | GreaterThan => Ok (PInt (b2z (b <? a)))
  | LessEq => Ok (PInt (b2z (a <=? b)))
  | GreaterEq => Ok (PInt (b2z (b <=? a)))
  | Eq | Eql => Ok (PInt (b2z (a =? b)))
  | NotEq | NotEql => Ok (PInt (b2z (negb (a =? b))))
  | And => Ok (PInt (Z.land a b))
  | Xor => Ok (PInt (Z.lxor a b))
  | Xnor => Ok (PInt (Z.lnot (Z.lxor a b)))
  | Or => Ok (PInt (Z.lor a b))
  | Land => Ok (PInt (b2z (negb (a =? 0) && negb (b =? 0))))
  | Lor => Ok (PInt (b2z (negb (a =? 0) || negb (b =? 0))))
  | _ => Ok PNone
  end.
Definition is_unary (o : op) : bool :=
  match o with Uplus | Uminus | Ulnot | Unot | Uand | Unand | Uor | Unor | Uxor | Uxnor => true | _ => false end.
(** Operators without a case at all: Uplus and Sla. *)
Definition no_case (o : op) : bool := match o with Uplus | Sla => true | _ => false end.
Definition evalOperator_int (o : op) (vs : list Z) (w : Z) : res pyval :=
  if no_case o then Ok PNone
  else if is_unary o then do a <- nthZ vs 0; eval_unary o a w
  else do a <- nthZ vs 0; do b <- nthZ vs 1; eval_binary o a b.

(** optimizer.py:172-183 - evalOperator. A width of None cannot be compared (TypeError). *)
Fixpoint op_args (l : list df) (w : Z) : res (list Z * Z) :=
  match l with
  | [] => Ok ([], w)
  | DEval v w' _ _ :: r =>
      match w' with
      | None => Err TypeError
      | Some x => do a <- as_int v; do p <- op_args r (if w <? x then x else w); Ok (a :: fst p, snd p)
      end
  | _ :: _ => Err TypeError
  end.
Definition evalOperator (o : op) (l : list df) : res df :=
  do p <- op_args l 0;
  do r <- evalOperator_int o (fst p) (snd p);
  Ok (DEval r (Some (snd p)) false false).

(** optimizer.py:352-356 - isCondTrue on a DFEvalValue's value. *)
Definition val_true (v : pyval) : res bool :=
  match v with PInt z => Ok (negb (z =? 0)) | PFloat _ => Err Unmodelled | _ => Ok true end.

(** optimizer.py:358-363 - evalPartselect. For msb below lsb - 1, 2 ** width is a float. *)
Definition evalPartselect (v m l : Z) : res df :=
  let width := m - l + 1 in
  if l <? 0 then Err ValueError else
  let p := Z.shiftr v l in
  if width <? 0 then (if 0 <? p then Err Unmodelled else Ok (DEval (PInt p) (Some width) false false))
  else Ok (DEval (PInt (if 2 ^ width <=? p then p mod 2 ^ width else p)) (Some width) false false).

(** The characters x, z, X, Z in a literal (optimizer.py:90-93). *)
Fixpoint has_xz (s : string) : bool :=
  match s with EmptyString => false | String c r => in_str ["x"%char; "z"%char; "X"%char; "Z"%char] c || has_xz r end.

(** optimizer.py:340-350 - evalConcat, on folded nodes: getWidth of a DFEvalValue is its width
    or 32. *)
Fixpoint evalConcat_go (l : list df) (acc sum : Z) : res (Z * Z) :=
  match l with
  | [] => Ok (acc, sum)
  | DEval v w _ _ :: r =>
      let w := match w with Some w => w | None => default_width end in
      if w <? 0 then Err ValueError else
      do a <- as_int v; evalConcat_go r (Z.lor (Z.shiftl acc w) a) (sum + w)
  | _ :: _ => Err AttributeError
  end.
Definition evalConcat (l : list df) : res df :=
  do p <- evalConcat_go l 0 0; Ok (DEval (PInt (fst p)) (Some (snd p)) false false).

Section Opt.
  Variable E : optenv.

  (** optimizer.py:66-161 - optimizeConstant. [k] bounds the depth of recursion (through trees
      and through the declared ranges of parameters). FormatError is not imported there
      (NameError). *)
  Fixpoint optC (k : nat) (t : df) : res df :=
    match k with
    | O => Err OutOfFuel
    | S k =>
      match t with
      | DNone => Ok DNone
      | DBranch c a b =>
          do c' <- optC k c; do a' <- optC k a; do b' <- optC k b;
          match c' with
          | DEval v _ _ _ => do z <- val_true v; Ok (if z then a' else b')
          | _ => Ok (DBranch c' a' b')
          end
      | DEval _ _ _ _ | DUndef _ | DHiz _ => Ok t
      | DDelay _ => Err NameError
      | DInt s =>
          if has_xz s then do w <- int_width s; Ok (DUndef w)
          else do v <- int_eval s; do w <- int_width s; Ok (DEval (PInt v) (Some w) false false)
      | DFloat s => Ok (DEval (PFloat s) (Some default_width) true false)
      | DStr s => Ok (DEval (PStr s) None false true)
      | DOp l o =>
          do l' <- mapM (optC k) l;
          if forallb isEval l' then evalOperator o l' else mkOp l' o
      | DTerm n =>
          match dget (o_const E) n with
          | None => Ok t
          | Some c =>
              match dget (o_terms E) n with
              | None => Err KeyError
              | Some tm =>
                  match c with
                  | DEval v w _ _ =>
                      if is_none (t_msb tm) || is_none (t_lsb tm) then Ok (DEval v w false false)
                      else
                        do m <- optC k (t_msb tm); do l <- optC k (t_lsb tm);
                        match m, l with
                        | DEval mv _ _ _, DEval lv _ _ _ =>
                            do mz <- as_int mv; do lz <- as_int lv; Ok (DEval v (Some (mz - lz + 1)) false false)
                        | _, _ => Ok (DEval v w false false)
                        end
                  | _ => Err AttributeError
                  end
              end
          end
      | DConcat l =>
          do l' <- mapM (optC k) l;
          if forallb isEval l' then evalConcat l' else Ok (DConcat l')
      | DPart v m l =>
          do v' <- optC k v; do m' <- optC k m; do l' <- optC k l;
          match v', m' with
          | DEval vv _ _ _, DEval mv _ _ _ =>
              do mz <- as_int mv; do lz <- int_attr l'; do vz <- as_int vv; evalPartselect vz mz lz
          | _, _ => Ok (DPart v' m' l')
          end
      | DPtr v p =>
          match v with
          | DTerm n =>
              match dget (o_terms E) n with
              | None => Err KeyError
              | Some tm =>
                  do v' <- optC k v; do p' <- optC k p;
                  match t_dims tm with
                  | Some _ => Ok (DPtr v' p')
                  | None => if isEval v' && isEval p' then Err TypeError (* :365-367, DFEvalValue >> DFEvalValue *)
                            else Ok (DPtr v' p')
                  end
              end
          | _ => Ok t
          end
      | DSys s l => do l' <- mapM (optC k) l; Ok (DSys s l')
      end
    end.

  (** |msb - lsb| + 1 of optimized bounds (optimizer.py:308-311, 321-324). *)
  Definition range_width (k : nat) (m l : df) : res Z :=
    do m' <- optC k m; do mz <- int_attr m'; do l' <- optC k l; do lz <- int_attr l'; Ok (Z.abs (mz - lz) + 1).

  (** optimizer.py:22 - compare_ops ('LassEq' is misspelt, so LessEq is not in it). *)
  Definition compare_op (o : op) : bool :=
    match o with LessThan | GreaterThan | GreaterEq | Eq | NotEq | Eql | NotEql => true | _ => false end.

  (** optimizer.py:285-338 - getWidth. *)
  Fixpoint getWidth (k : nat) (t : df) : res Z :=
    match t with
    | DNone | DFloat _ | DStr _ => Ok default_width
    | DUndef w | DHiz w => Ok w
    | DInt s => int_width s
    | DEval _ w _ _ => Ok (match w with Some w => w | None => default_width end)
    | DTerm n =>
        match dget (o_terms E) n with
        | None => Err KeyError
        | Some tm => range_width k (t_msb tm) (t_lsb tm)
        end
    | DBranch _ a b => do x <- getWidth k a; do y <- getWidth k b; Ok (Z.max x y)
    | DPart _ m l => range_width k m l
    | DOp l o =>
        if compare_op o then Ok 1
        else match o with
             | Land | Lor => Ok 1
             | _ => do ws <- mapM (getWidth k) l; Ok (fold_left (fun a w => if a <? w then w else a) ws 0)
             end
    | DConcat l => do ws <- mapM (getWidth k) l; Ok (fold_left Z.add ws 0)
    | DPtr v _ =>
        match v with
        | DTerm n =>
            match dget (o_terms E) n with
            | None => Err KeyError
            | Some tm => match t_dims tm with Some _ => range_width k (t_msb tm) (t_lsb tm) | None => Ok 1 end
            end
        | _ => Ok 1
        end
    | DDelay _ | DSys _ _ => Err NameError
    end.
End Opt.
