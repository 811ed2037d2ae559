(** ScopeFlatSpec.v - the visible components of a name, loop iterations included. *)
From Verif Require Import Base ScopeModel ScopeSpec.

(** The visible components of a name, each with the index of the loop iteration it sits in:
    scopes that are not printed are dropped, a loop iteration shows on the printed scope it
    encloses. Component names are non-empty and free of underscores. *)
Definition shown_label (l : label) : Prop :=
  unprintable (stype l) = false /\ sname l <> EmptyString /\ has_char "_"%char (sname l) = false.
Inductive shows : chain -> list (string * option Z) -> Prop :=
| shows_nil : shows [] []
| shows_hidden : forall l c v, unprintable (stype l) = true -> (stype l = STfor -> sloop l = None) ->
    shows c v -> shows (l :: c) v
| shows_name : forall l c v, shown_label l -> shows c v -> shows (l :: c) ((sname l, None) :: v)
| shows_iteration : forall f i l c v, stype f = STfor -> sloop f = Some i -> shown_label l ->
    shows c v -> shows (f :: l :: c) ((sname l, Some i) :: v).
