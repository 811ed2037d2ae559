(** RngSpec.v - conditions on signals, and expressions that say the same. *)
From Verif Require Import Base ScopeModel DfModel BindModel LitSpec LexModel ExprModel ActiveModel ActiveSpec.
Local Open Scope Z_scope.

(** A condition holds if the value of each of its signals is in the ranges listed for it. *)
Definition meets (d : ndict aterm) (val : chain -> Z) : Prop := forall k t, In (k, t) d -> in_ranges (a_ranges t) (val (a_name t)).

(** The number an expression stands for, and whether it is true (of the expressions that occur here). *)
Inductive stands (val : string -> Z) : expr -> Z -> Prop :=
| st_id s : stands val (XId s) (val s)
| st_int s z : numeral 10 s z -> stands val (XInt s) z.
Inductive true_of (val : string -> Z) : expr -> Prop :=
| t_le a b x y : stands val a x -> stands val b y -> x <= y -> true_of val (XBin LessEq a b)
| t_and a b : true_of val a -> true_of val b -> true_of val (XBin Land a b)
| t_left a b : true_of val a -> true_of val (XBin Lor a b)
| t_right a b : true_of val b -> true_of val (XBin Lor a b)
| t_num a x : stands val a x -> x <> 0 -> true_of val a.

(** Terms as the analysis makes them: some range, with a lower bound that is not negative. *)
Definition printable (t : aterm) : Prop := a_ranges t <> [] /\ Forall (fun r => exists a, fst r = Some a /\ 0 <= a /\ forall b, snd r = Some b -> 0 <= b) (a_ranges t).
Definition bounded (t : aterm) : Prop := Forall (fun r => fst r <> None /\ snd r <> None) (a_ranges t).
