(** ScopeSpec.v - what the names mean, without the model's comparison functions. *)
From Verif Require Import Base ScopeModel.

(** The path a chain denotes: component names with their loop indices. *)
Definition path (c : chain) : list (string * option Z) := map (fun l => (sname l, sloop l)) c.

(** No component is a wildcard. *)
Definition no_any (c : chain) : Prop := Forall (fun l => stype l <> STany) c.

(** Two chains agree: same path, and equal scope kinds wherever neither is a wildcard. *)
Definition agree (a b : chain) : Prop :=
  Forall2 (fun x y => sname x = sname y /\ sloop x = sloop y /\
                      (stype x = STany \/ stype y = STany \/ stype x = stype y)) a b.

(** Plain hierarchical names as a user thinks of them: printable scopes, no loop index,
    non-empty components without underscore. *)
Fixpoint has_char (c : ascii) (s : string) : bool :=
  match s with
  | EmptyString => false
  | String d r => Ascii.eqb c d || has_char c r
  end.
Definition plain (c : chain) : Prop :=
  Forall (fun l => unprintable (stype l) = false /\ sname l <> EmptyString /\
                   has_char "_"%char (sname l) = false) c.
