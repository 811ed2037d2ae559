(** HierSpec.v - when simplifying a tree is sound: contexts, and conditions on trees. *)
From Verif Require Import Base ScopeModel DfModel BindModel OptModel OptSpec.
Local Open Scope Z_scope.

(** Names that match are one signal. (Only wildcard names match without being equal.) *)
Definition respects (rho : venv) : Prop := forall n m, chain_eq n m = true ->
  e_val rho n = e_val rho m /\ e_wid rho n = e_wid rho m /\ e_arr rho n = e_arr rho m /\ forall i, e_elem rho n i = e_elem rho m i.
(** Signals have their declared width, and values that fit it. *)
Definition declared (E : optenv) (rho : venv) : Prop := forall n tm, dget (o_terms E) n = Some tm ->
  (exists m l wm wl, folds E (t_msb tm) m wm /\ folds E (t_lsb tm) l wl /\ e_wid rho n = Z.abs (m - l) + 1) /\
  0 <= e_val rho n < 2 ^ e_wid rho n /\ (e_arr rho n = true <-> t_dims tm <> None).

(** Truth of a tree: whether its value is non-zero. *)
Definition truth (rho : venv) (t : df) : option bool := obind (value rho t) (fun v => Some (negb (v =? 0))).
(** Zero or one. *)
Definition bit (rho : venv) (t : df) : Prop := exists v, value rho t = Some v /\ (v = 0 \/ v = 1).
(** One bit wide, zero or one. *)
Definition onebit (rho : venv) (t : df) : Prop := width rho t = Some 1 /\ bit rho t.
(** It has a width, and the value (if defined) fits it. *)
Definition fits (rho : venv) (t : df) : Prop := exists w, width rho t = Some w /\ 0 <= w /\ forall v, value rho t = Some v -> 0 <= v < 2 ^ w.

(** [heads Q t]: every node that simplification might bring to the top of t satisfies Q. *)
Fixpoint heads (Q : df -> Prop) (t : df) : Prop :=
  match t with
  | DOp l (And | Or | Land | Lor) => fold_right (fun x P => heads Q x /\ P) True l
  | DBranch _ a b => heads Q a /\ heads Q b
  | DConcat l => fold_right (fun x P => heads Q x /\ P) True l
  | _ => Q t
  end.
(** No negation. *)
Definition no_not (t : df) : Prop := match t with DOp _ (Unot | Ulnot) => False | _ => True end.
(** Bitwise negation only of one-bit operands. *)
Definition bit_not (rho : venv) (t : df) : Prop := match t with DOp l Unot => Forall (onebit rho) l | _ => True end.

Definition leaf (t : df) : bool :=
  match t with DNone | DTerm _ | DInt _ | DFloat _ | DStr _ | DEval _ _ _ _ | DUndef _ | DHiz _ => true | _ => false end.
Definition logical (o : op) : bool := match o with And | Or | Land | Lor | Ulnot => true | _ => false end.
Definition arity (o : op) : nat := if is_unary o then 1%nat else 2%nat.
(** Operators whose value depends on the width of their operands. *)
Definition by_width (o : op) : bool := width_op o || op_beq o Srl || op_beq o Xnor.

(** Trees whose value and width are preserved: operators other than & | && || * and / on
    signals, constants, slices and elements. *)
Inductive rigid : df -> Prop :=
| r_leaf t : leaf t = true -> rigid t
| r_op o l : logical o = false \/ o = Ulnot -> o <> Times -> o <> Divide -> length l = arity o -> Forall rigid l -> rigid (DOp l o)
| r_slice n m l wm wl f g f' g' : rigid (DPart (DTerm n) (DEval (PInt m) wm f g) (DEval (PInt l) wl f' g'))
| r_ptr n p : rigid p -> rigid (DPtr (DTerm n) p).

(** Slices lie within the signal; the arms of a branch have one width; not a concatenation. *)
Definition whole (rho : venv) (t : df) : Prop :=
  match t with
  | DPart (DTerm n) (DEval (PInt m) _ _ _) _ => m < e_wid rho n
  | DBranch _ a b => is_none a = false /\ is_none b = false /\ exists w, width rho a = Some w /\ width rho b = Some w
  | DConcat _ => False
  | _ => True
  end.
(** Elements of a concatenation. *)
Definition element (rho : venv) (t : df) : Prop := fits rho t /\ whole rho t.

(** What must be preserved: whether the value is zero, or the value. *)
Inductive ctx := CTruth | CValue.
Definition preserved (rho : venv) (c : ctx) (t t' : df) : Prop :=
  match c with
  | CTruth => forall b, truth rho t = Some b -> truth rho t' = Some b
  | CValue => forall v, value rho t = Some v -> value rho t' = Some v
  end.

(** [safe rho c t]: trees for which simplification preserves what c asks for. *)
Inductive safe (rho : venv) : ctx -> df -> Prop :=
| s_rigid c t : rigid t -> safe rho c t
| s_delay c t : safe rho c (DDelay t)
| s_sys c s l : Forall (safe rho CValue) l -> safe rho c (DSys s l)
| s_branch c x a b : safe rho CTruth x -> safe rho c a -> safe rho c b -> safe rho c (DBranch x a b)
| s_lnot c x : safe rho CTruth x -> safe rho c (DOp [x] Ulnot)
(** Where only truth matters, && and || must not have a multi-bit ~x as operand. *)
| s_logic_truth o a b : o = Land \/ o = Lor -> safe rho CTruth a -> safe rho CTruth b ->
    heads (bit_not rho) a -> heads (bit_not rho) b -> safe rho CTruth (DOp [a; b] o)
(** Where the value matters, their operands must be 0 or 1. *)
| s_logic_value o a b : o = Land \/ o = Lor -> safe rho CValue a -> safe rho CValue b ->
    heads (bit_not rho) a -> heads (bit_not rho) b -> bit rho a -> bit rho b -> safe rho CValue (DOp [a; b] o)
| s_and c a b : safe rho CValue a -> safe rho CValue b -> safe rho c (DOp [a; b] And)
(** x | ~x becomes a constant of the optimizer's width, which may be wrong. *)
| s_or c a b : safe rho CValue a -> safe rho CValue b -> heads no_not a -> heads no_not b -> safe rho c (DOp [a; b] Or)
(** Division by a power of two becomes an arithmetic shift. *)
| s_op c o l : logical o = false -> length l = arity o -> Forall (safe rho CValue) l -> (by_width o = true -> Forall rigid l) ->
    (o = Divide -> exists a b v, l = [a; b] /\ value rho a = Some v /\ 0 <= v) -> safe rho c (DOp l o)
| s_part c n m l : safe rho CValue m -> safe rho CValue l -> safe rho c (DPart (DTerm n) m l)
| s_ptr c n p : safe rho CValue p -> safe rho c (DPtr (DTerm n) p)
| s_concat c l : Forall (fun t => element rho t /\ rigid t \/
    exists l', t = DConcat l' /\ Forall (fun t => element rho t /\ rigid t) l') l -> safe rho c (DConcat l).
