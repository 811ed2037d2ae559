(** FsmSpec.v - transition graphs, cycles and enabled transitions. *)
From Verif Require Import Base ScopeModel DfModel DfSpec TransModel BindModel BindSpec FsmModel.
Local Open Scope Z_scope.

(** There is a transition from a to b. *)
Definition edge (m : list (Z * cdict)) (a b : Z) : Prop := exists dd c, zget m a = Some dd /\ In (c, b) dd.
(** [walk m a l]: starting in a, the states of l can be visited in turn. *)
Inductive walk (m : list (Z * cdict)) : Z -> list Z -> Prop :=
| walk_nil a : walk m a []
| walk_cons a b l : edge m a b -> walk m b l -> walk m a (b :: l).
(** A closed walk, listed from any state on it; a simple cycle repeats no state. *)
Definition closed_walk (m : list (Z * cdict)) (l : list Z) : Prop := l <> [] /\ walk m (last l 0) l.
Definition cycle (m : list (Z * cdict)) (l : list Z) : Prop := closed_walk m l /\ NoDup l.
(** Listed from its least state. *)
Definition least_first (l : list Z) : Prop :=
  match l with [] => False | x :: r => Forall (fun y => x <= y) r end.

(** [stutter m c l]: l is c with some states that have a transition to themselves listed twice. *)
Inductive stutter (m : list (Z * cdict)) : list Z -> list Z -> Prop :=
| st_nil : stutter m [] []
| st_once x c l : stutter m c l -> stutter m (x :: c) (x :: l)
| st_twice x c l : edge m x x -> stutter m c l -> stutter m (x :: c) (x :: x :: l).

(** Number of times the state occurs in the loops. *)
Definition occurrences (s : Z) (ls : list (list Z)) : Z := Z.of_nat (count_occ Z.eq_dec (concat ls) s).

(** Enabled transitions of a state under an interpretation: no condition, or a true one. *)
Definition cond_true (I : interp) (c : df) : Prop := c = DNone \/ i_truth I (eval I c) = true.
Definition enabled (I : interp) (dd : cdict) (dst : Z) : Prop := exists c, In (c, dst) dd /\ cond_true I c.
Definition goes (I : interp) (m : list (Z * cdict)) (s d : Z) : Prop := exists dd, zget m s = Some dd /\ enabled I dd d.

(** Interpretations in which || and integer constants have their meaning as conditions. *)
Definition logical (I : interp) : Prop :=
  (forall a b, i_truth I (i_op I Lor [a; b]) = i_truth I a || i_truth I b) /\
  (forall v w f g, i_truth I (i_const I (DEval (PInt v) w f g)) = (0 <? v)).
(** A condition simplifier keeps truth, in the interpretations P, and returns plain trees. *)
Definition keeps_truth (P : interp -> Prop) (plain : df -> Prop) (optimize : df -> res df) : Prop :=
  forall a b r, plain a -> plain b -> optimize (DOp [a; b] Lor) = Ok r ->
    plain r /\ r <> DNone /\ forall I, P I -> i_truth I (eval I r) = i_truth I (eval I (DOp [a; b] Lor)).

(** Dictionaries without repeated keys, whose conditions contain no delay node and no wildcard
    name. *)
Definition plains (dd : cdict) : Prop := Forall (fun p => plain_tree (fst p)) dd.
Definition wf_cond (dd : cdict) : Prop := plains dd /\ NoDup (map fst dd).
Definition wf_fsm (m : list (Z * cdict)) : Prop := NoDup (map fst m) /\ forall s dd, zget m s = Some dd -> wf_cond dd.
(** The machine has a transition from s to d with condition c. *)
Definition trans (m : list (Z * cdict)) (s : Z) (c : df) (d : Z) : Prop := exists dd, zget m s = Some dd /\ In (c, d) dd.

(** Two different targets of a state are not enabled by exactly the same interpretations. *)
Definition distinguishable (P : interp -> Prop) (dd : cdict) : Prop :=
  forall d1 d2, In d1 (map snd dd) -> In d2 (map snd dd) -> d1 <> d2 ->
    exists I, P I /\ ~ (enabled I dd d1 <-> enabled I dd d2).
