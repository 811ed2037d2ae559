From Coq Require Import Relations.
From Verif Require Import Base ScopeModel ScopeProofs DfModel DfSpec BindModel LitModel LitSpec LitProofs OptModel OptSpec MergeModel WalkModel WalkSpec WalkProofs.
Local Open Scope Z_scope.

Lemma Forall2_in_r {A B} (R : A -> B -> Prop) l l' y : Forall2 R l l' -> In y l' -> exists x, In x l /\ R x y.
Proof. induction 1 as [|a b l l' H1 H2 IH]; [contradiction|]. intros [<-|H]; [exists a; cbn; auto|]. destruct (IH H) as (x & K1 & K2). exists x. cbn; auto. Qed.

(** ** Leaves *)
Section Leaves.
  Variable terms : ndict term.
  Variable combination : chain -> bool.
  Variable tree_of : chain -> df -> res df.
  Notation walk := (walk terms combination tree_of).

  (** Why a signal is left in the result. *)
  Definition kept (visited : list chain) (n : chain) : Prop :=
    smem visited n = true \/ (exists t, dget terms n = Some t /\ (top_input n t \/ clocked combination n t \/ t_dims t <> None)) \/ loops tree_of n.
  Definition from (t : df) (n : chain) : Prop := exists k, In k (signals t) /\ (k = n \/ clos_trans _ (uses tree_of) k n).

  Lemma select_signals src v m l r : select terms src v m l = Ok r -> forall n, In n (signals r) -> In n (signals (DPart v m l)).
  Proof.
    unfold select. intros H n. destruct v; try (injection H as <-; tauto). destruct (getTerm_str _ _); [|discriminate].
    do 4 (apply bind_ok in H as (? & _ & H)). injection H as <-. cbn. rewrite ?app_nil_r, !in_app_iff. tauto.
  Qed.
  Lemma index_signals src v p r : index terms src v p = Ok r -> forall n, In n (signals r) -> In n (signals (DPtr v p)).
  Proof.
    unfold index. intros H n. destruct src; try (injection H as <-; tauto). apply bind_ok in H as (a & _ & H). destruct (_ && _); injection H as <-; [|tauto]. cbn. rewrite in_app_iff. tauto.
  Qed.
  Lemma from_in t u n : (forall k, In k (signals t) -> In k (signals u)) -> from t n -> from u n.
  Proof. intros H (k & H1 & H2). exists k. auto. Qed.

  Lemma walk_leaves fuel : forall t visited step m l p t', walk fuel visited step m l p t = Ok t' ->
    forall n, In n (signals t') -> kept visited n /\ from t n.
  Proof.
    assert (forall visited t a n, (forall k, In k (signals a) -> In k (signals t)) -> kept visited n /\ from a n -> kept visited n /\ from t n) as HS by (intros ? ? ? ? H [K1 K2]; split; [exact K1|eapply from_in; eauto]).
    induction fuel as [fuel IHf] using lt_wf_ind; intros t.
    induction t as [|n|s|s|s|xs o IH|v a b IHv IHa IHb|v q IHv IHq|xs IH|c x y IHc IHx IHy|v w f g|w|w|x IHx|s xs IH] using df_ind'; intros visited step m l p t' H; rewrite walk_eq in H; try (injection H as <-; intros ? []); try discriminate.
    - apply bind_ok in H as ([[q s]|] & E & H).
      + apply (expand_some terms combination tree_of) in E as (E1 & t & E2 & _). apply bind_ok in H as (d & E3 & H). destruct fuel as [|f]; [discriminate|].
        intros k Hk. destruct (IHf f (Nat.lt_succ_diag_r f) _ _ _ _ _ _ _ H k Hk) as [K1 (j & K2 & K3)].
        assert (clos_trans _ (uses tree_of) n k) as KT.
        { assert (uses tree_of n j) as U by (exists q, d; auto). destruct K3 as [-> |K3]; [now apply t_step|]. eapply t_trans; [apply t_step, U|exact K3]. }
        split; [|exists n; split; [left; reflexivity|now right]]. destruct K1 as [K1|K1]; [|now right]. cbn [smem existsb] in K1. apply orb_true_iff in K1 as [K1|K1]; [|now left]. right. right. exists n. split; [exact K1|exact KT].
      + injection H as <-. intros k [<-|[]]. split; [|exists n; split; [left; reflexivity|now left]]. apply (expand_none terms combination tree_of) in E as [E|(t & E1 & E2)]; [now left|]. right. left. exists t. tauto.
    - apply bind_ok in H as (l' & H1 & H). unfold mkOp in H. destruct (existsb _ _); [discriminate|]. injection H as <-. intros n Hn. cbn [signals] in Hn. apply in_flat_map in Hn as (x' & Hx' & Hn).
      apply mapM_ok_Forall2 in H1. rewrite Forall_forall in IH. destruct (Forall2_in_r _ _ _ _ H1 Hx') as (x & Hx & E). apply (HS visited _ x); [intros k Hk; apply in_flat_map; eauto|]. exact (IH x Hx _ _ _ _ _ _ E n Hn).
    - apply bind_ok in H as (a' & H1 & H). apply bind_ok in H as (b' & H2 & H). apply bind_ok in H as (v' & H3 & H). intros n Hn. apply (select_signals _ _ _ _ _ H) in Hn. cbn [signals] in Hn. rewrite !in_app_iff in Hn.
      destruct Hn as [Hn|[Hn|Hn]].
      + apply (HS visited _ v); [cbn; intros; rewrite !in_app_iff; tauto|]. exact (IHv _ _ _ _ _ _ H3 n Hn).
      + apply (HS visited _ a); [cbn; intros; rewrite !in_app_iff; tauto|]. exact (IHa _ _ _ _ _ _ H1 n Hn).
      + apply (HS visited _ b); [cbn; intros; rewrite !in_app_iff; tauto|]. exact (IHb _ _ _ _ _ _ H2 n Hn).
    - apply bind_ok in H as (q' & H1 & H). apply bind_ok in H as (v' & H3 & H). intros n Hn. apply (index_signals _ _ _ _ H) in Hn. cbn [signals] in Hn. rewrite !in_app_iff in Hn.
      destruct Hn as [Hn|Hn].
      + apply (HS visited _ v); [cbn; intros; rewrite !in_app_iff; tauto|]. exact (IHv _ _ _ _ _ _ H3 n Hn).
      + apply (HS visited _ q); [cbn; intros; rewrite !in_app_iff; tauto|]. exact (IHq _ _ _ _ _ _ H1 n Hn).
    - apply bind_ok in H as (l' & H1 & H). injection H as <-. intros n Hn. cbn [signals] in Hn. apply in_flat_map in Hn as (x' & Hx' & Hn).
      apply mapM_ok_Forall2 in H1. rewrite Forall_forall in IH. destruct (Forall2_in_r _ _ _ _ H1 Hx') as (x & Hx & E). apply (HS visited _ x); [intros k Hk; apply in_flat_map; eauto|]. exact (IH x Hx _ _ _ _ _ _ E n Hn).
    - apply bind_ok in H as (a' & H1 & H). apply bind_ok in H as (b' & H2 & H). apply bind_ok in H as (v' & H3 & H). injection H as <-. intros n Hn. cbn [signals] in Hn. rewrite !in_app_iff in Hn.
      destruct Hn as [Hn|[Hn|Hn]].
      + apply (HS visited _ c); [cbn; intros; rewrite !in_app_iff; tauto|]. exact (IHc _ _ _ _ _ _ H1 n Hn).
      + apply (HS visited _ x); [cbn; intros; rewrite !in_app_iff; tauto|]. exact (IHx _ _ _ _ _ _ H2 n Hn).
      + apply (HS visited _ y); [cbn; intros; rewrite !in_app_iff; tauto|]. exact (IHy _ _ _ _ _ _ H3 n Hn).
  Qed.
End Leaves.
