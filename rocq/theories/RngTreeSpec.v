(** RngTreeSpec.v - when a condition tree is true. *)
From Verif Require Import Base ScopeModel DfModel ActiveModel.
Local Open Scope Z_scope.

Inductive number (val : chain -> Z) : df -> Z -> Prop :=
| n_term n : number val (DTerm n) (val n)
| n_int z w f : number val (DEval (PInt z) w f false) z.
Inductive tree_true (val : chain -> Z) : df -> Prop :=
| t_le a b x y : number val a x -> number val b y -> x <= y -> tree_true val (DOp [a; b] LessEq)
| t_ge a b x y : number val a x -> number val b y -> y <= x -> tree_true val (DOp [a; b] GreaterEq)
| t_and a b : tree_true val a -> tree_true val b -> tree_true val (DOp [a; b] Land)
| t_left a b : tree_true val a -> tree_true val (DOp [a; b] Lor)
| t_right a b : tree_true val b -> tree_true val (DOp [a; b] Lor)
| t_number a x : number val a x -> x <> 0 -> tree_true val a.

(** The value reaches a bound of a range from above. *)
Definition above (r : rng) (x : Z) : Prop := (exists a, fst r = Some a /\ a <= x) /\ match snd r with None => True | Some b => b <= x end.
(** Terms with ranges that all have a lower bound. *)
Definition given (t : aterm) : Prop := a_ranges t <> [] /\ Forall (fun r => fst r <> None) (a_ranges t).
