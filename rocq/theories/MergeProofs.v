(** MergeProofs.v - merging of assignments. *)
From Verif Require Import Base ScopeModel DfModel BindModel OptModel OptSpec OptArith OptProofs OptProofs2 MergeModel MergeSpec HierProofs HierConcat.
Require Import Coq.Sorting.Permutation Coq.Sorting.Sorted.
Local Open Scope Z_scope.

(** ** mergeTree *)
Section Tree.
  Variable optimize : df -> res df.
  Variable holds : df -> bool.
  Hypothesis Hdf : forall x y, df_eq x y = Ok true -> holds x = holds y.

  Lemma append_chosen a t : chosen holds (appendTail a t) = if is_none (chosen holds t) then chosen holds a else chosen holds t.
  Proof. induction t; cbn; auto. destruct (holds t1); auto. Qed.

  Definition keeps (t : df) : Prop := forall c c', In c (conds t) -> optimize c = Ok c' -> holds c' = holds c.

  (** What mergeTree computes, for any two trees. *)
  Lemma mergeTree_spec first : forall second t, keeps first -> keeps second -> mergeTree optimize first second = Ok t ->
    (is_none (chosen holds second) = true -> chosen holds t = chosen holds first) /\
    (is_none (chosen holds first) = true -> chosen holds t = chosen holds second) /\
    (chosen holds t = chosen holds first \/ chosen holds t = chosen holds second) /\
    (no_overwrite optimize first second -> chosen holds t = if is_none (chosen holds second) then chosen holds first else chosen holds second).
  Proof.
    assert (forall x, is_none x = true -> x = DNone) as N by (intros []; now try discriminate).
    assert (forall f s t, chosen holds t = (if is_none (chosen holds s) then chosen holds f else chosen holds s) ->
      (is_none (chosen holds s) = true -> chosen holds t = chosen holds f) /\ (is_none (chosen holds f) = true -> chosen holds t = chosen holds s) /\
      (chosen holds t = chosen holds f \/ chosen holds t = chosen holds s) /\
      (no_overwrite optimize f s -> chosen holds t = if is_none (chosen holds s) then chosen holds f else chosen holds s)) as Later.
    { intros f s t ->. split; [intros ->; auto|]. split; [|split; [destruct (is_none _); auto|auto]]. intros E. destruct (is_none (chosen holds s)) eqn:F; auto. rewrite (N _ E), (N _ F). auto. }
    induction first as [ |n|s|s|s|l o IH|v m l IHv IHm IHl|v p IHv IHp|l IH|c a b _ IHa IHb|v w f g|w|w|t0 IH|s l IH] using df_ind'; intros second t K1 K2 H;
      try (destruct second as [ |?|?|?|?|? ?|? ? ?|? ?|?|c' a' b'|? ? ? ?|?|?|?|? ?]; cbn [mergeTree] in H; try (injection H as <-; apply Later; reflexivity);
           try (injection H as <-; apply Later; match goal with |- _ = if is_none ?x then _ else _ => destruct (is_none x) eqn:F end; [rewrite (N _ F); reflexivity|reflexivity]);
           unbind H; injection H as <-; apply Later; cbn [chosen]; rewrite (K2 c' _ ltac:(cbn; auto) B), !append_chosen; destruct (holds c'); reflexivity).
    destruct second as [ |?|?|?|?|? ?|? ? ?|? ?|?|c' a' b'|? ? ? ?|?|?|?|? ?]; cbn [mergeTree] in H; try (injection H as <-; apply Later; reflexivity).
    all: try (unbind H; injection H as <-; pose proof (K1 c _ ltac:(cbn; auto) B) as Hc;
              cbn [chosen is_none no_overwrite]; rewrite Hc, !append_chosen; split; [discriminate|]; destruct (holds c);
              (split; [intros ->; reflexivity|]; split; [match goal with |- context [is_none (chosen holds ?z)] => destruct (is_none (chosen holds z)) end; cbn [chosen]; tauto|tauto])).
    unbind H. unbind H. unbind H. rename r into x, r0 into y. pose proof (K1 c _ ltac:(cbn; auto) B) as Hc. pose proof (K2 c' _ ltac:(cbn; auto) B0) as Hc'. destruct r1.
    - unbind H. unbind H. injection H as <-. pose proof (Hdf _ _ B1) as Hxy.
      assert (forall u, In u (conds a) \/ In u (conds b) -> In u (conds (DBranch c a b))) as I1 by (intros u [K|K]; cbn; rewrite in_app_iff; auto).
      assert (forall u, In u (conds a') \/ In u (conds b') -> In u (conds (DBranch c' a' b'))) as I2 by (intros u [K|K]; cbn; rewrite in_app_iff; auto).
      destruct (IHa a' r ltac:(intros ? ? Q; apply K1; auto) ltac:(intros ? ? Q; apply K2; auto) B2) as (A1 & A2 & A3 & A4).
      destruct (IHb b' r0 ltac:(intros ? ? Q; apply K1; auto) ltac:(intros ? ? Q; apply K2; auto) B3) as (B1' & B2' & B3' & B4').
      cbn [chosen no_overwrite]. rewrite <- Hc, <- Hc', <- Hxy. destruct (holds x).
      + split; auto. split; auto. split; auto. intros Q. apply A4. apply Q. eauto.
      + split; auto. split; auto. split; auto. intros Q. apply B4'. apply Q. eauto.
    - injection H as <-. apply Later. cbn [chosen]. rewrite Hc'. rewrite !append_chosen. cbn [chosen]. destruct (holds c'); reflexivity.
  Qed.
End Tree.
