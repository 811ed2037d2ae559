(** SplitSpec.v - what the list of paths of a branch tree should be. *)
From Verif Require Import Base ScopeModel DfModel DfSpec.

(** The leaf a branch tree selects under an interpretation. *)
Fixpoint pick (I : interp) (t : df) : df :=
  match t with
  | DBranch c a b => if i_truth I (eval I c) then pick I a else pick I b
  | _ => t
  end.
(** All conditions of a path hold. *)
Definition holds (I : interp) (cs : list df) : Prop := Forall (fun c => i_truth I (eval I c) = true) cs.
(** Logical not negates truth. *)
Definition not_law (I : interp) : Prop := forall v, i_truth I (i_op I Ulnot [v]) = negb (i_truth I v).
(** Conditions on the spine of branches are present. *)
Fixpoint conds_present (t : df) : bool :=
  match t with
  | DBranch c a b => negb (is_none c) && conds_present a && conds_present b
  | _ => true
  end.
(** The tree has a present leaf. *)
Fixpoint has_leaf (t : df) : bool :=
  match t with DBranch _ a b => has_leaf a || has_leaf b | DNone => false | _ => true end.
(** No nested branch is without any leaf. *)
Fixpoint no_hollow (t : df) : bool :=
  match t with
  | DBranch _ a b => (negb (isBranch a) || has_leaf a) && (negb (isBranch b) || has_leaf b)
                     && no_hollow a && no_hollow b
  | _ => true
  end.
