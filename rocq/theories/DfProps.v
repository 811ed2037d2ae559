(** DfProps.v - C09. *)
From Verif Require Import Base ScopeModel ScopeSpec DfModel DfSpec DfProofs.
Local Open Scope string_scope.

(** C09: comparing a delay-free tree never fails and answers True exactly for trees that are
    the same node by node, up to name matching (C06). *)
Theorem C09_equality_structural : forall a, no_delay a -> forall b,
  exists r, df_eq a b = Ok r /\ (r = true <-> same (fun n m => agree n m) a b).
Proof.
  exact (fun a Ha b => match df_eq_ok a Ha b with
   | ex_intro _ r (conj E H) => ex_intro _ r (conj E (iff_trans H (same_Req_agree a b))) end).
Qed.
Print Assumptions C09_equality_structural.

Theorem C09_equality_reflexive : forall t, no_delay t -> df_eq t t = Ok true.
Proof. exact df_eq_refl. Qed.
Print Assumptions C09_equality_reflexive.

Theorem C09_equality_symmetric : forall a b, no_delay a -> no_delay b -> df_eq a b = df_eq b a.
Proof. exact df_eq_sym. Qed.
Print Assumptions C09_equality_symmetric.

Theorem C09_equal_trees_hash_equal : forall a b, no_delay a -> df_eq a b = Ok true ->
  exists h, df_hash a = Ok h /\ df_hash b = Ok h.
Proof. exact df_eq_hash. Qed.
Print Assumptions C09_equal_trees_hash_equal.

(** Without wildcard names equality is identity. *)
Theorem C09_equality_is_identity : forall a b, no_delay a ->
  occurs wild_term a = false -> occurs wild_term b = false ->
  df_eq a b = Ok true -> a = b.
Proof. exact df_eq_identity. Qed.
Print Assumptions C09_equality_is_identity.

(** Delay nodes cannot be compared or hashed at all. *)
Theorem C09_delay_refuted : exists t, df_eq t t = Err AttributeError /\ df_hash t = Err AttributeError.
Proof. exists (DDelay (DInt "1")). split; reflexivity. Qed.
Print Assumptions C09_delay_refuted.

Example C09_witness :
  let t := DBranch (DOp [DTerm [Label "top" STmodule None; Label "c" STsignal None]; DInt "1"] Eq)
                   (DEval (PInt 3) (Some 8%Z) false false) DNone in
  no_delay t /\ df_eq t t = Ok true /\ occurs wild_term t = false.
Proof. repeat split. Qed.
