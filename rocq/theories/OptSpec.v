(** OptSpec.v - values and widths of dataflow trees, independent of the optimizer. *)
From Verif Require Import Base ScopeModel DfModel BindModel LitModel LitSpec OptModel.
Local Open Scope Z_scope.

(** ** Operators, on unbounded integers *)
Definition bz (b : bool) : Z := if b then 1 else 0.
(** Number of one bits among the w lowest. *)
Definition ones (a w : Z) : Z := fold_right Z.add 0 (map (fun i => bz (Z.testbit a (Z.of_nat i))) (seq 0 (Z.to_nat w))).
(** The w lowest bits of a, as a number. *)
Definition low (a w : Z) : Z := a mod 2 ^ w.
Definition all_ones (w : Z) : Z := 2 ^ w - 1.

(** Operators whose result is one bit. *)
Definition bool_op (o : op) : bool :=
  match o with
  | Ulnot | Uand | Unand | Uor | Unor | Uxor | Uxnor | LessThan | GreaterThan | LessEq | GreaterEq
  | Eq | NotEq | Eql | NotEql | Land | Lor => true
  | _ => false
  end.
(** Operators whose result depends on the width of their operand: bitwise negation and the
    reductions. *)
Definition width_op (o : op) : bool :=
  match o with Unot | Uand | Unand | Uor | Unor | Uxor | Uxnor => true | _ => false end.
(** Operators as wide as their left operand. *)
Definition left_op (o : op) : bool :=
  match o with Power | Sll | Srl | Sla | Sra => true | _ => false end.

(** The value of an operator with operands of width (at most) w; None if it has none, as for a
    division by zero. *)
Definition op_value (o : op) (vs : list Z) (w : Z) : option Z :=
  match o, vs with
  | Uplus, [a] => Some a
  | Uminus, [a] => Some (- a)
  | Ulnot, [a] => Some (bz (a =? 0))
  | Unot, [a] => Some (all_ones w - low a w)
  | Uand, [a] => Some (bz (low a w =? all_ones w))
  | Unand, [a] => Some (bz (negb (low a w =? all_ones w)))
  | Uor, [a] => Some (bz (negb (low a w =? 0)))
  | Unor, [a] => Some (bz (low a w =? 0))
  | Uxor, [a] => Some (ones a w mod 2)
  | Uxnor, [a] => Some (1 - ones a w mod 2)
  | Power, [a; b] => if b <? 0 then None else Some (a ^ b)
  | Times, [a; b] => Some (a * b)
  | Divide, [a; b] => if b =? 0 then None else Some (Z.quot a b)
  | Mod, [a; b] => if b =? 0 then None else Some (Z.rem a b)
  | Plus, [a; b] => Some (a + b)
  | Minus, [a; b] => Some (a - b)
  | Sll, [a; b] | Sla, [a; b] => if b <? 0 then None else Some (a * 2 ^ b)
  | Srl, [a; b] => if b <? 0 then None else Some ((if a <? 0 then low a w else a) / 2 ^ b)
  | Sra, [a; b] => if b <? 0 then None else Some (a / 2 ^ b)
  | LessThan, [a; b] => Some (bz (a <? b))
  | GreaterThan, [a; b] => Some (bz (b <? a))
  | LessEq, [a; b] => Some (bz (a <=? b))
  | GreaterEq, [a; b] => Some (bz (b <=? a))
  | Eq, [a; b] | Eql, [a; b] => Some (bz (a =? b))
  | NotEq, [a; b] | NotEql, [a; b] => Some (bz (negb (a =? b)))
  | And, [a; b] => Some (Z.land a b)
  | Or, [a; b] => Some (Z.lor a b)
  | Xor, [a; b] => Some (Z.lxor a b)
  | Xnor, [a; b] => Some (all_ones w - low (Z.lxor a b) w)
  | Land, [a; b] => Some (bz (negb (a =? 0) && negb (b =? 0)))
  | Lor, [a; b] => Some (bz (negb (a =? 0) || negb (b =? 0)))
  | _, _ => None
  end.

(** Where the code's constant arithmetic is exact: Uplus, Sla and Xnor are not supported,
    division goes through floats, remainder and logical shift are wrong for negative numbers. *)
Definition exact (o : op) (vs : list Z) : Prop :=
  match o, vs with
  | Uplus, _ | Sla, _ | Xnor, _ => False
  | Divide, [a; b] => Z.abs a <= 2 ^ 53
  | Mod, [a; b] => 0 <= a /\ 0 < b
  | Srl, [a; b] => 0 <= a
  | _, _ => True
  end.

(** ** Trees *)
(** A valuation: values and widths of signals, elements of arrays, results of system calls. *)
Record venv := VEnv { e_val : chain -> Z; e_wid : chain -> Z; e_arr : chain -> bool; e_elem : chain -> Z -> Z;
                      e_sys : string -> list Z -> Z }.

Fixpoint all_some {A} (l : list (option A)) : option (list A) :=
  match l with
  | [] => Some []
  | Some x :: r => match all_some r with Some xs => Some (x :: xs) | None => None end
  | None :: _ => None
  end.
Definition maxw (ws : list Z) : Z := fold_right Z.max 0 ws.
Definition obind {A B} (x : option A) (f : A -> option B) : option B := match x with Some a => f a | None => None end.
(** The bits of a concatenation, most significant part first. *)
Fixpoint cat (l : list (Z * Z)) (acc : Z) : Z :=
  match l with [] => acc | (v, w) :: r => cat r (acc * 2 ^ w + low v w) end.
Definition sum (ws : list Z) : Z := fold_right Z.add 0 ws.
Definition nonneg (ws : list Z) : bool := forallb (fun w => 0 <=? w) ws.

(** [ev rho t]: the value and the width of a tree, where they are defined. Undefined and
    high-impedance parts have a width only; a branch is as wide as its wider arm. *)
Fixpoint ev (rho : venv) (t : df) : option Z * option Z :=
  match t with
  | DTerm n => (Some (e_val rho n), Some (e_wid rho n))
  | DInt s => (if has_xz s then None else match int_eval s with Ok v => Some v | Err _ => None end,
               match int_width s with Ok w => Some w | Err _ => None end)
  | DEval v w _ _ => (match v with PInt z => Some z | _ => None end, w)
  | DUndef w | DHiz w => (None, Some w)
  | DOp l o =>
      let rs := map (ev rho) l in
      let vs := all_some (map fst rs) in
      let ws := all_some (map snd rs) in
      (obind vs (fun vs => if width_op o || op_beq o Srl || op_beq o Xnor
                           then obind ws (fun ws => op_value o vs (maxw ws)) else op_value o vs 0),
       if bool_op o then Some 1
       else if left_op o then match map snd rs with w :: _ => w | [] => None end
       else obind ws (fun ws => Some (maxw ws)))
  | DPart v m l =>
      match fst (ev rho m), fst (ev rho l) with
      | Some m, Some l => if (0 <=? l) && (l <=? m)
                          then (obind (fst (ev rho v)) (fun x => Some (low (x / 2 ^ l) (m - l + 1))), Some (m - l + 1))
                          else (None, None)
      | _, _ => (None, None)
      end
  | DPtr v p =>
      match v with
      | DTerm n => if e_arr rho n then (obind (fst (ev rho p)) (fun i => Some (e_elem rho n i)), Some (e_wid rho n))
                   else (obind (fst (ev rho p)) (fun i => if i <? 0 then None else Some (low (e_val rho n / 2 ^ i) 1)), Some 1)
      | _ => (obind (fst (ev rho v)) (fun x => obind (fst (ev rho p)) (fun i =>
               if i <? 0 then None else Some (low (x / 2 ^ i) 1))), Some 1)
      end
  | DConcat l =>
      let rs := map (ev rho) l in
      match all_some (map snd rs) with
      | Some ws => if nonneg ws then (obind (all_some (map fst rs)) (fun vs => Some (cat (combine vs ws) 0)), Some (sum ws)) else (None, None)
      | None => (None, None)
      end
  | DBranch c a b =>
      (obind (fst (ev rho c)) (fun x => if x =? 0 then fst (ev rho b) else fst (ev rho a)),
       match a, b with
       | DNone, DNone => None
       | _, DNone => snd (ev rho a)
       | DNone, _ => snd (ev rho b)
       | _, _ => obind (snd (ev rho a)) (fun x => obind (snd (ev rho b)) (fun y => Some (Z.max x y)))
       end)
  | DSys s l => (obind (all_some (map (fun x => fst (ev rho x)) l)) (fun vs => Some (e_sys rho s vs)), Some 32)
  | DNone | DFloat _ | DStr _ | DDelay _ => (None, None)
  end.
Definition value (rho : venv) (t : df) : option Z := fst (ev rho t).
Definition width (rho : venv) (t : df) : option Z := snd (ev rho t).

(** ** Constant expressions *)
(** [folds E t v w]: t is built from unsigned literals, known parameters (with their declared
    range, if any) and supported operators; v is its value and w the width recorded with it:
    of a parameter its declared width, of an operator the width of the widest operand. *)
Inductive folds (E : optenv) : df -> Z -> Z -> Prop :=
| f_int s w n : literal s "" w n -> folds E (DInt s) n (match w with Some w => w | None => 32 end)
| f_eval v w : folds E (DEval (PInt v) (Some w) false false) v w
| f_term_plain n v w f g tm : dget (o_const E) n = Some (DEval (PInt v) (Some w) f g) ->
    dget (o_terms E) n = Some tm -> t_msb tm = DNone \/ t_lsb tm = DNone -> folds E (DTerm n) v w
| f_term_range n v w f g tm m l wm wl : dget (o_const E) n = Some (DEval (PInt v) w f g) ->
    dget (o_terms E) n = Some tm -> t_msb tm <> DNone -> t_lsb tm <> DNone ->
    folds E (t_msb tm) m wm -> folds E (t_lsb tm) l wl -> folds E (DTerm n) v (m - l + 1)
| f_op l o vs ws v : folds_list E l vs ws -> op_value o vs (maxw ws) = Some v -> exact o vs ->
    folds E (DOp l o) v (maxw ws)
| f_concat l vs ws : folds_list E l vs ws -> Forall2 (fun v w => 0 <= w /\ 0 <= v < 2 ^ w) vs ws ->
    folds E (DConcat l) (cat (combine vs ws) 0) (sum ws)
| f_part x m l v wv mv wm lv wl : folds E x v wv -> folds E m mv wm -> folds E l lv wl -> 0 <= lv <= mv -> 0 <= v ->
    folds E (DPart x m l) (low (v / 2 ^ lv) (mv - lv + 1)) (mv - lv + 1)
| f_branch c a b vc wc va wa vb wb : folds E c vc wc -> folds E a va wa -> folds E b vb wb ->
    folds E (DBranch c a b) (if vc =? 0 then vb else va) (if vc =? 0 then wb else wa)
with folds_list (E : optenv) : list df -> list Z -> list Z -> Prop :=
| fl_nil : folds_list E [] [] []
| fl_cons t l v w vs ws : folds E t v w -> folds_list E l vs ws -> folds_list E (t :: l) (v :: vs) (w :: ws).

(** A constant expression by its shape: literals without x and z digits, known parameters,
    operators, concatenations, part selects and branches of constant expressions. *)
Inductive const_expr (E : optenv) : df -> Prop :=
| ce_int s : has_xz s = false -> const_expr E (DInt s)
| ce_eval v w f g : const_expr E (DEval v w f g)
| ce_term n c : dget (o_const E) n = Some c -> const_expr E (DTerm n)
| ce_op l o : Forall (const_expr E) l -> const_expr E (DOp l o)
| ce_concat l : Forall (const_expr E) l -> const_expr E (DConcat l)
| ce_part v m l : const_expr E v -> const_expr E m -> const_expr E l -> const_expr E (DPart v m l)
| ce_branch c a b : const_expr E c -> const_expr E a -> const_expr E b -> const_expr E (DBranch c a b).

(** The valuation agrees with the known parameters, and arrays are not parameters. *)
Definition agrees (E : optenv) (rho : venv) : Prop :=
  (forall n c, dget (o_const E) n = Some c -> exists v w, folds E (DTerm n) v w /\ e_val rho n = v /\ e_wid rho n = w) /\
  (forall n tm, dget (o_terms E) n = Some tm -> (e_arr rho n = true <-> t_dims tm <> None)) /\
  (forall n c, dget (o_const E) n = Some c -> e_arr rho n = false).

(** ** Where folding is safe *)
(** Made of constants only. *)
Fixpoint constant_only (E : optenv) (t : df) : bool :=
  match t with
  | DTerm n => dmem (o_const E) n
  | DInt _ | DFloat _ | DStr _ | DEval _ _ _ _ => true
  | DOp l _ | DConcat l => forallb (constant_only E) l
  | DPart v m _ => constant_only E v && constant_only E m
  | DBranch c a b => constant_only E c && (constant_only E a || constant_only E b)
  | _ => false
  end.
(** [keeps_width rho t]: the width recorded when t is folded is t's width: no one-bit
    operators, shifts or powers on top, no branches between arms of different widths. *)
Fixpoint keeps_width (rho : venv) (t : df) : Prop :=
  match t with
  | DOp l o => bool_op o = false /\ left_op o = false /\ fold_right (fun t P => keeps_width rho t /\ P) True l
  | DConcat l => fold_right (fun t P => keeps_width rho t /\ P) True l
  | DBranch _ a b => keeps_width rho a /\ keeps_width rho b /\ width rho a = width rho b
  | _ => True
  end.
Definition all_keep (rho : venv) (l : list df) : Prop := Forall (keeps_width rho) l.

(** [fold_safe E rho t]: constant operations in t are exact; operands of concatenations, bitwise
    negations and reductions keep their width; constant parts of concatenations fit their
    width. *)
Inductive fold_safe (E : optenv) (rho : venv) : df -> Prop :=
| fs_none : fold_safe E rho DNone
| fs_term n : fold_safe E rho (DTerm n)
| fs_int s : fold_safe E rho (DInt s)
| fs_float s : fold_safe E rho (DFloat s)
| fs_str s : fold_safe E rho (DStr s)
| fs_eval v w f g : fold_safe E rho (DEval v w f g)
| fs_undef w : fold_safe E rho (DUndef w)
| fs_hiz w : fold_safe E rho (DHiz w)
| fs_delay t : fold_safe E rho (DDelay t)
| fs_op l o : Forall (fold_safe E rho) l ->
    (width_op o = true \/ o = Srl \/ o = Xnor -> all_keep rho l) ->
    (forallb (constant_only E) l = true -> forall vs, all_some (map (value rho) l) = Some vs -> exact o vs) ->
    fold_safe E rho (DOp l o)
| fs_part v m l : fold_safe E rho v -> fold_safe E rho m -> fold_safe E rho l ->
    (constant_only E v = true -> constant_only E m = true -> forall x, value rho v = Some x -> 0 <= x) ->
    fold_safe E rho (DPart v m l)
| fs_ptr v p : fold_safe E rho v -> fold_safe E rho p -> fold_safe E rho (DPtr v p)
| fs_concat l : Forall (fold_safe E rho) l -> all_keep rho l ->
    (forallb (constant_only E) l = true -> forall t v w, In t l -> value rho t = Some v -> width rho t = Some w -> 0 <= v < 2 ^ w) ->
    fold_safe E rho (DConcat l)
| fs_branch c a b : fold_safe E rho c -> fold_safe E rho a -> fold_safe E rho b -> fold_safe E rho (DBranch c a b)
| fs_sys s l : Forall (fold_safe E rho) l -> fold_safe E rho (DSys s l).
