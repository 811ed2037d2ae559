(** DfSpec.v - specification of dataflow trees: sameness of trees, and what a tree means. *)
From Verif Require Import Base ScopeModel DfModel.

(** [occurs p t]: some node of the tree satisfies p. *)
Fixpoint occurs (p : df -> bool) (t : df) : bool :=
  p t ||
  match t with
  | DOp l _ | DConcat l | DSys _ l => existsb (occurs p) l
  | DPart v m l => occurs p v || occurs p m || occurs p l
  | DPtr v q => occurs p v || occurs p q
  | DBranch c a b => occurs p c || occurs p a || occurs p b
  | DDelay a => occurs p a
  | _ => false
  end.
Definition isDelay (t : df) : bool := match t with DDelay _ => true | _ => false end.
Definition isSys (t : df) : bool := match t with DSys _ _ => true | _ => false end.
Definition isUndef (t : df) : bool := match t with DUndef _ => true | _ => false end.
Definition isHiz (t : df) : bool := match t with DHiz _ => true | _ => false end.
Definition no_delay (t : df) : Prop := occurs isDelay t = false.

(** A signal reference with a wildcard ('any') component. *)
Definition wild_term (t : df) : bool :=
  match t with DTerm n => existsb (fun l => scopetype_eqb (stype l) STany) n | _ => false end.

(** Two trees are the same tree, node by node, up to matching signal names [R]. *)
Inductive same (R : chain -> chain -> Prop) : df -> df -> Prop :=
| same_none : same R DNone DNone
| same_term n m : R n m -> same R (DTerm n) (DTerm m)
| same_int s : same R (DInt s) (DInt s)
| same_float s : same R (DFloat s) (DFloat s)
| same_str s : same R (DStr s) (DStr s)
| same_op l l' o : Forall2 (same R) l l' -> same R (DOp l o) (DOp l' o)
| same_part v m l v' m' l' : same R v v' -> same R m m' -> same R l l' ->
    same R (DPart v m l) (DPart v' m' l')
| same_ptr v p v' p' : same R v v' -> same R p p' -> same R (DPtr v p) (DPtr v' p')
| same_concat l l' : Forall2 (same R) l l' -> same R (DConcat l) (DConcat l')
| same_branch c t f c' t' f' : same R c c' -> same R t t' -> same R f f' ->
    same R (DBranch c t f) (DBranch c' t' f')
| same_eval v w f s : same R (DEval v w f s) (DEval v w f s)
| same_undef w : same R (DUndef w) (DUndef w)
| same_hiz w : same R (DHiz w) (DHiz w)
| same_sys s l l' : Forall2 (same R) l l' -> same R (DSys s l) (DSys s l').

(** An interpretation of dataflow trees: any domain of values with any meaning for signals,
    constants, operators and so on. Only branches have a fixed meaning: the condition's
    truth selects an arm. [i_none] is the value of a missing part. *)
Record interp := Interp {
  dom : Type;
  i_none : dom;
  i_term : chain -> dom;
  i_const : df -> dom;                      (* constants, undefined, high impedance *)
  i_op : op -> list dom -> dom;
  i_part : dom -> dom -> dom -> dom;
  i_ptr : dom -> dom -> dom;
  i_concat : list dom -> dom;
  i_delay : dom -> dom;
  i_sys : string -> list dom -> dom;
  i_truth : dom -> bool
}.

Fixpoint eval (I : interp) (t : df) : dom I :=
  match t with
  | DNone => i_none I
  | DTerm n => i_term I n
  | DInt _ | DFloat _ | DStr _ | DEval _ _ _ _ | DUndef _ | DHiz _ => i_const I t
  | DOp l o => i_op I o (map (eval I) l)
  | DPart v m l => i_part I (eval I v) (eval I m) (eval I l)
  | DPtr v p => i_ptr I (eval I v) (eval I p)
  | DConcat l => i_concat I (map (eval I) l)
  | DBranch c a b => if i_truth I (eval I c) then eval I a else eval I b
  | DDelay a => i_delay I (eval I a)
  | DSys s l => i_sys I s (map (eval I) l)
  end.

(** A slice or element of a missing part is missing. *)
Definition none_strict (I : interp) : Prop :=
  (forall m l, i_part I (i_none I) m l = i_none I) /\
  (forall p, i_ptr I (i_none I) p = i_none I).
