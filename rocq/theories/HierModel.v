(** HierModel.v - model of pyverilog/dataflow/optimizer.py:55-64 and 376-992:
    simplification of trees. *)
From Verif Require Import Base ScopeModel DfModel BindModel LitModel OptModel.
Local Open Scope Z_scope.

Definition pint (z : Z) : df := DEval (PInt z) (Some 32) false false. (* DFEvalValue(z), width 32 by default *)
Definition pintw (z w : Z) : df := DEval (PInt z) (Some w) false false.

(** Python's [and]: the right operand is only evaluated if the left one is true. *)
Definition andM (a b : res bool) : res bool := do x <- a; if x then b else Ok false.
Notation "a &&! b" := (andM a b) (at level 55, right associativity).
(** A chain of [if c: return r]. *)
Fixpoint rules {A} (l : list (res bool * res A)) (d : res A) : res A :=
  match l with [] => d | (c, r) :: l' => do b <- c; if b then r else rules l' d end.

(** node.nextnodes[i]; IndexError if it has fewer, AttributeError if it has none at all. *)
Definition nextnode (t : df) (i : nat) : res df :=
  match t with
  | DOp l _ | DConcat l | DSys _ l => match nth_error l i with Some x => Ok x | None => Err IndexError end
  | _ => Err AttributeError
  end.
Definition is_op (o : op) (t : df) : bool := match t with DOp _ o' => op_beq o o' | _ => false end.
(** x.value == 0, x.value > 0 and x.value != y.value, on DFEvalValue nodes. *)
Definition val_zero (t : df) : res bool :=
  match t with DEval (PInt z) _ _ _ => Ok (z =? 0) | DEval (PFloat _) _ _ _ => Err Unmodelled | _ => Ok false end.
Definition val_pos (t : df) : res bool :=
  match t with DEval (PInt z) _ _ _ => Ok (0 <? z) | DEval (PFloat _) _ _ _ => Err Unmodelled | _ => Err TypeError end.
Definition val_ne (a b : df) : res bool := do x <- value_attr a; do y <- value_attr b; Ok (negb (pyval_eqb x y)).

Section Hier.
  Variable E : optenv.
  (** int(math.log(value, 2)) if that logarithm, as a float, is a whole number
      (optimizer.py:516-522). *)
  Variable log2i : Z -> option Z.
  (** DFNode.tocode(), used as sort key. *)
  Variable tocode : df -> res string.

  (** optimizer.py:440-443, 445-514 - takePart. Bounds must be integers. [go] is the loop of
      lines 463-477: nodes from the least significant one. *)
  Record cut := Cut { c_used : list df; c_sum : Z; c_lsb : Z; c_lsboff : Z; c_msb : Z; c_msboff : Z }.
  Fixpoint take_go (k : nat) (l : list (df * Z)) (lsbcut msbcut off : Z) (use : bool) (c : cut) : res cut :=
    match l with
    | [] => Ok c
    | (n, w) :: r =>
        let hit := (off <=? lsbcut) && (lsbcut <? off + w) in
        let c := if hit then Cut (c_used c) (c_sum c) off (lsbcut - off) (c_msb c) (c_msboff c) else c in
        let use := use || hit in
        do c <- (if use then do n' <- optC E k n; Ok (Cut (c_used c ++ [n']) (c_sum c + w) (c_lsb c) (c_lsboff c) (c_msb c) (c_msboff c)) else Ok c);
        if (off <=? msbcut) && (msbcut <? off + w)
        then Ok (Cut (c_used c) (c_sum c) (c_lsb c) (c_lsboff c) (off + w - 1) (off + w - 1 - msbcut))
        else take_go k r lsbcut msbcut (off + w) use c
    end.
  (** optimizer.py:496-513 - the loop over the used nodes, from the least significant one. *)
  Fixpoint take_trim (k : nat) (l : list df) (widlist : list Z) (lsboff msboff : Z) (first : bool) : res (list df) :=
    match l with
    | [] => Ok []
    | n :: r =>
        do w <- match widlist with w :: _ => Ok w | [] => Err IndexError end;
        do n' <- (if first && (0 <? lsboff) then optC E k (DPart n (pint (w - 1)) (pint lsboff))
                  else if (match r with [] => true | _ => false end) && (0 <? msboff) then optC E k (DPart n (pint (w - msboff - 1)) (pint 0))
                  else optC E k n);
        do r' <- take_trim k r (tl widlist) lsboff msboff false;
        Ok (n' :: r')
    end.
  Definition takePart (k : nat) (nodes : list df) (m l : Z) : res df :=
    do widlist <- mapM (getWidth E k) (rev nodes);
    let lsbcut := Z.min m l in
    let msbcut := Z.max m l in
    let cutwidth := msbcut - lsbcut + 1 in
    do c <- take_go k (combine (rev nodes) widlist) lsbcut msbcut 0 false (Cut [] 0 (-1) (-1) (-1) (-1));
    let used := rev (c_used c) in
    match used with
    | [] => Ok (DUndef cutwidth)
    | u :: us =>
        if c_msboff c <? 0 then
          if c_lsboff c =? 0 then Ok (DConcat (DUndef (cutwidth - c_sum c) :: used))
          else
            let v := match us with [] => u | _ => DConcat used end in
            Ok (DConcat [DUndef (cutwidth - c_sum c + c_lsboff c); DPart v (pint (c_sum c - 1)) (pint (c_lsb c + c_lsboff c))])
        else if (c_lsboff c =? 0) && (c_msboff c =? 0) then
          Ok (match us with [] => u | _ => DConcat used end)
        else
          match us with
          | [] => Ok (DPart u (pint (c_msb c - c_msboff c)) (pint (c_lsb c + c_lsboff c)))
          | _ =>
              do r <- take_trim k (c_used c) widlist (c_lsboff c) (c_msboff c) true;
              Ok (DPart (DConcat (rev r)) (pint (c_msb c - c_msboff c)) (pint (c_lsb c + c_lsboff c)))
          end
    end.

  (** optimizer.py:524-546 - replaceOperator. *)
  Definition pow2 (t : df) : option Z := match t with DEval (PInt z) _ _ _ => if z <=? 0 then None else log2i z | _ => None end.
  Definition replaceOperator (t : df) : res df :=
    match t with
    | DOp l Times =>
        do b <- nextnode t 1;
        match pow2 b with
        | Some p => do a <- nextnode t 0; mkOp [a; pint p] Sll
        | None =>
            do a <- nextnode t 0;
            match pow2 a with Some p => mkOp [b; pint p] Sll | None => Ok t end
        end
    | DOp l Divide =>
        do b <- nextnode t 1;
        match pow2 b with Some p => do a <- nextnode t 0; mkOp [a; pint p] Sra | None => Ok t end
    | _ => Ok t
    end.

  (** optimizer.py:661-695 - mergeIdenticalNodes. *)
  Definition mergeIdentical (t : df) : res df :=
    match t with
    | DOp [_] _ => Ok t
    | DOp l o =>
        do a <- nextnode t 0; do b <- nextnode t 1;
        do e <- df_eq a b;
        if e then
          match o with
          | And | Or | Land | Lor => Ok a
          | LessThan | GreaterThan | NotEq | NotEql => Ok (pintw 0 1)
          | LessEq | GreaterEq | Eq | Eql => Ok (pintw 1 1)
          | _ => Ok t
          end
        else Ok t
    | _ => Ok t
    end.

  (** t is an [o] node whose operand i satisfies c. *)
  Definition opn (o : op) (t : df) : res bool := Ok (is_op o t).
  Definition eqn (t : df) (i : nat) (u : df) : res bool := do x <- nextnode t i; df_eq x u.
  Definition eqnn (t : df) (i : nat) (u : df) (j : nat) : res bool := do x <- nextnode t i; do y <- nextnode u j; df_eq x y.
  Definition evn (t : df) (i : nat) : res bool := do x <- nextnode t i; Ok (isEval x).
  Definition nenn (t : df) (i : nat) (u : df) (j : nat) : res bool := do x <- nextnode t i; do y <- nextnode u j; val_ne x y.
  Definition opnn (o : op) (t : df) (i : nat) : res bool := do x <- nextnode t i; Ok (is_op o x).

  (** optimizer.py:697-879 - mergeStaticNodes. *)
  Definition st_and (k : nat) (t a b : df) : res df :=
    let zero := do w <- getWidth E k t; Ok (pintw 0 w) in
    let one_bit := do w <- getWidth E k t; Ok (if w =? 1 then pintw 0 1 else t) in
    rules [ (Ok (isEval a) &&! val_zero a, zero);
            (Ok (isEval b) &&! val_zero b, zero);
            (opn Unot a &&! eqn a 0 b, zero);
            (opn Unot b &&! eqn b 0 a, zero);
            (opn Ulnot a &&! eqn a 0 b, one_bit);
            (opn Ulnot b &&! eqn b 0 a, one_bit) ] (Ok t).
  Definition st_or (k : nat) (t a b : df) : res df :=
    let allones := do w <- getWidth E k t; do v <- eval_unary Unot 0 w; Ok (DEval v (Some w) false false) in
    let one_bit := do w <- getWidth E k t; Ok (if w =? 1 then pintw 1 1 else t) in
    rules [ (Ok (isEval a) &&! val_zero a, Ok b);
            (Ok (isEval b) &&! val_zero b, Ok a);
            (opn Unot a &&! eqn a 0 b, allones);
            (opn Unot b &&! eqn b 0 a, allones);
            (opn Ulnot a &&! eqn a 0 b, one_bit);
            (opn Ulnot b &&! eqn b 0 a, one_bit) ] (Ok t).
  Definition st_land (k : nat) (t a b : df) : res df :=
    let zero := Ok (pintw 0 1) in
    let one_bit := do w <- getWidth E k t; Ok (if w =? 1 then pintw 0 1 else t) in
    let eqs i j := opn Eq a &&! opn Eq b &&! eqnn a i b j &&! evn a (1 - i) &&! evn b (1 - j) &&! nenn a (1 - i) b (1 - j) in
    let ne x y i := opn Ulnot x &&! opnn Eq x 0 &&! opn Eq y
                    &&! (do x0 <- nextnode x 0; eqnn x0 i y 0)
                    &&! (do x0 <- nextnode x 0; evn x0 (1 - i)) &&! evn y 1
                    &&! (do x0 <- nextnode x 0; nenn x0 (1 - i) y 1) in
    rules [ (Ok (isEval a) &&! val_zero a, zero);
            (Ok (isEval b) &&! val_zero b, zero);
            (Ok (isEval a) &&! val_pos a, Ok b);
            (Ok (isEval b) &&! val_pos b, Ok a);
            (opn Unot a &&! eqn a 0 b, one_bit);
            (opn Unot b &&! eqn b 0 a, one_bit);
            (opn Ulnot a &&! eqn a 0 b, zero);
            (opn Ulnot b &&! eqn b 0 a, zero);
            (eqs 0%nat 0%nat, zero); (eqs 1%nat 1%nat, zero); (eqs 0%nat 1%nat, zero); (eqs 1%nat 0%nat, zero);
            (ne a b 0%nat, Ok b); (ne a b 1%nat, Ok b); (ne b a 0%nat, Ok a); (ne b a 1%nat, Ok a) ] (Ok t).
  Definition st_lor (t a b : df) : res df :=
    let one := Ok (pintw 1 1) in
    let absorb x y i := opn Land x &&! opn Land y &&! opnn Ulnot x i
                        &&! (do xi <- nextnode x i; eqnn xi 0 y 0) &&! eqnn x (1 - i) y 1 in
    rules [ (Ok (isEval a) &&! val_zero a, Ok b);
            (Ok (isEval b) &&! val_zero b, Ok a);
            (Ok (isEval a) &&! val_pos a, one);
            (Ok (isEval b) &&! val_pos b, one);
            (opn Unot a &&! eqn a 0 b, one);
            (opn Unot b &&! eqn b 0 a, one);
            (opn Ulnot a &&! eqn a 0 b, one);
            (opn Ulnot b &&! eqn b 0 a, one);
            (absorb a b 0%nat, nextnode a 1); (absorb a b 1%nat, nextnode a 0);
            (absorb b a 0%nat, nextnode b 1); (absorb b a 1%nat, nextnode b 0) ] (Ok t).
  Definition mergeStatic (k : nat) (t : df) : res df :=
    match t with
    | DOp [_] _ => Ok t
    | DOp l o =>
        do a <- nextnode t 0; do b <- nextnode t 1;
        match o with
        | And => st_and k t a b
        | Or => st_or k t a b
        | Land => st_land k t a b
        | Lor => st_lor t a b
        | _ => Ok t
        end
    | _ => Ok t
    end.

  (** optimizer.py:881-992 - mergeLand, _mergeLand, mergeLor, _mergeLor. A tuple is inr. *)
  Fixpoint memM (x : df) (l : list df) : res bool :=
    match l with [] => Ok false | y :: r => do e <- df_eq x y; if e then Ok true else memM x r end.
  Definition negation (t : df) : res df :=
    match t with DOp l Ulnot => nextnode t 0 | _ => mkOp [t] Ulnot end.
  Fixpoint dedup (l acc : list df) : res (option (list df)) :=
    match l with
    | [] => Ok (Some acc)
    | x :: r =>
        do n <- negation x;
        do c <- memM n acc;
        if c then Ok None
        else do s <- memM x acc; dedup r (if s then acc else acc ++ [x])
    end.
  Definition sort_desc (l : list df) : res (list df) :=
    do keys <- mapM tocode l;
    Ok (map snd (sort_by (fun a b => String.leb (fst b) (fst a)) (combine keys l))).
  Definition flat (x : df + list df) : list df := match x with inl t => [t] | inr l => l end.
  Definition chain_merge (unit : Z) (l : list df) : res (df + list df) :=
    do d <- dedup l [];
    match d with
    | None => Ok (inr [pintw unit 1])
    | Some l' => do s <- sort_desc l'; Ok (inr s)
    end.
  (** The loop that joins a tuple again (optimizer.py:887-892, 929-934). *)
  Fixpoint join (o : op) (acc : df) (l : list df) : res df :=
    match l with [] => Ok acc | x :: r => do a <- mkOp [acc; x] o; join o a r end.
  Definition unflat (o : op) (x : df + list df) : res df :=
    match x with inl t => Ok t | inr [] => Ok DNone | inr (t :: r) => join o t r end.
  Fixpoint land_go (t : df) : res (df + list df) :=
    match t with
    | DOp l Land =>
        match l with
        | a :: b :: _ => do x <- land_go a; do y <- land_go b; chain_merge 0 (flat x ++ flat y)
        | a :: _ => do x <- land_go a; Err IndexError
        | [] => Err IndexError
        end
    | _ => Ok (inl t)
    end.
  Definition mergeLand (t : df) : res df := do x <- land_go t; unflat Land x.
  Fixpoint lor_go (t : df) : res (df + list df) :=
    match t with
    | DOp l Land => do r <- mergeLand t; Ok (inl r)
    | DOp l Lor =>
        match l with
        | a :: b :: _ => do x <- lor_go a; do y <- lor_go b; chain_merge 1 (flat x ++ flat y)
        | a :: _ => do x <- lor_go a; Err IndexError
        | [] => Err IndexError
        end
    | _ => Ok (inl t)
    end.
  Definition mergeLor (t : df) : res df := do x <- lor_go t; unflat Lor x.

  (** optimizer.py:560-575 - mergeConcat_constant. [cs] is constvallist; ret_nodes is kept
      reversed. *)
  Fixpoint mc_constant (l : list df) (cs : list df) (ret : list df) : res (list df) :=
    match l with
    | [] => Ok (rev ret)
    | n :: r =>
        if isEval n then
          do c <- evalConcat (cs ++ [n]);
          mc_constant r (cs ++ [n]) (c :: match cs with [] => ret | _ => tl ret end)
        else mc_constant r [] (n :: ret)
    end.
  (** optimizer.py:577-591 - mergeConcat_undefined. *)
  Fixpoint mc_undefined (l : list df) (width : Z) (ret : list df) : list df :=
    match l with
    | [] => rev ret
    | DUndef w :: r => mc_undefined r (width + w) (DUndef (width + w) :: if 0 <? width then tl ret else ret)
    | n :: r => mc_undefined r 0 (n :: ret)
    end.
  (** optimizer.py:593-621 - mergeConcat_partselect. *)
  Definition val_succ_eq (a b : df) : res bool :=       (* a.value == b.value + 1 *)
    do x <- value_attr a; do y <- int_attr b; Ok (pyval_eqb x (PInt (y + 1))).
  Fixpoint mc_part (k : nat) (l : list df) (last : df) (ret : list df) : res (list df) :=
    match l with
    | [] => Ok (rev ret)
    | n :: r =>
        match last, n with
        | DPart (DTerm x) m l, DPart (DTerm y) m' l' =>
            if negb (chain_eq x y) then mc_part k r n (n :: ret)
            else
              do adj <- val_succ_eq l m';
              if adj then
                do w <- getWidth E k (DTerm x); do mz <- int_attr m; do lz <- int_attr l';
                let new := if w =? mz - lz + 1 then DTerm x else DPart (DTerm x) m l' in
                mc_part k r new (new :: tl ret)
              else mc_part k r n (n :: ret)
        | _, _ => mc_part k r n (n :: ret)
        end
    end.
  (** optimizer.py:623-659 - mergeConcat_branch. *)
  Definition arm (k : nat) (t other : df) : res df :=
    if is_none t then do w <- getWidth E k other; Ok (DUndef w) else Ok t.
  Fixpoint mc_branch (k : nat) (l : list df) (last : df) (ret : list df) : res (list df) :=
    match l with
    | [] => Ok (rev ret)
    | n :: r =>
        match last, n with
        | DBranch c a b, DBranch c' a' b' =>
            do e <- df_eq c c';
            if e then
              do ta <- arm k a b; do ta' <- arm k a' b'; do fb <- arm k b a; do fb' <- arm k b' a';
              let new := DBranch c (DConcat [ta; ta']) (DConcat [fb; fb']) in
              mc_branch k r new (new :: tl ret)
            else mc_branch k r n (n :: ret)
        | _, _ => mc_branch k r n (n :: ret)
        end
    end.
  Definition single (l : list df) : df := match l with [t] => t | _ => DConcat l end.
  (** optimizer.py:548-558 - mergeConcat. *)
  Definition mergeConcat (k : nat) (l : list df) : res df :=
    do l1 <- mc_constant l [] [];
    let l2 := mc_undefined l1 0 [] in
    do l3 <- mc_part k l2 DNone [];
    match single l3 with
    | DConcat l3 => do l4 <- mc_branch k l3 DNone []; Ok (single l4)
    | t => Ok t
    end.

  (** optimizer.py:376-438 - optimizeHierarchy. *)
  Fixpoint optH (k : nat) (t : df) : res df :=
    match t with
    | DNone | DInt _ | DFloat _ | DStr _ | DEval _ _ _ _ | DUndef _ | DHiz _ | DTerm _ => Ok t
    | DBranch c a b =>
        do c' <- optH k c; do a' <- optH k a; do b' <- optH k b;
        match c' with
        | DEval v _ _ _ => do z <- val_true v; Ok (if z then a' else b')
        | _ => do e <- df_eq a' b'; Ok (if e then a' else DBranch c' a' b')
        end
    | DOp l o =>
        do l' <- mapM (optH k) l;
        do t1 <- mkOp l' o;
        do t2 <- replaceOperator t1;
        do t3 <- mergeIdentical t2;
        do t4 <- mergeStatic k t3;
        mergeLor t4
    | DPart v m l =>
        do m' <- optH k m; do l' <- optH k l; do v' <- optH k v;
        match v', m', l' with
        | DConcat nodes, DEval mv _ _ _, DEval lv _ _ _ => do mz <- as_int mv; do lz <- as_int lv; takePart k nodes mz lz
        | _, DEval mv _ _ _, DEval lv _ _ _ =>
            do z <- val_zero l';
            if z then do w <- getWidth E k v'; do mz <- int_attr m'; Ok (if w =? mz + 1 then v' else DPart v' m' l')
            else Ok (DPart v' m' l')
        | _, _, _ => Ok (DPart v' m' l')
        end
    | DPtr v p =>
        do p' <- optH k p; do v' <- optH k v;
        match v', p' with
        | DConcat nodes, DEval pv _ _ _ => do pz <- as_int pv; takePart k nodes pz pz
        | _, _ => Ok (DPtr v' p')
        end
    | DConcat l =>
        do l' <- (fix go (l : list df) : res (list df) :=
                    match l with
                    | [] => Ok []
                    | n :: r => do x <- match n with DConcat l' => Ok l' | _ => do n' <- optH k n; Ok [n'] end; do y <- go r; Ok (x ++ y)
                    end) l;
        mergeConcat k l'
    | DSys s l => do l' <- mapM (optH k) l; Ok (DSys s l')
    | DDelay _ => Err NameError
    end.

  (** optimizer.py:59-64 - optimize: level 2. *)
  Definition optimize (k : nat) (t : df) : res df :=
    do t1 <- optC E k t; do t2 <- optH k t1; do t3 <- optC E k t2; optH k t3.
End Hier.
