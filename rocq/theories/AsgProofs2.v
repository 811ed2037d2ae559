(** AsgProofs2.v - the store and the frames' tables, seen from one target. *)
From Verif Require Import Base ScopeModel ScopeSpec ScopeProofs DfModel DfSpec DfProofs ReorderModel ReorderSpec ReorderProofs BindModel BindSpec BindProofs AsgModel AsgSpec AsgProofs.

Definition slice_dec : forall a b : df * df * df, {a = b} + {a <> b}.
Proof. decide equality; [apply df_dec|]. decide equality; apply df_dec. Defined.

Section Target.
  Variable q : target.
  Definition qs : df * df * df := (q_msb q, q_lsb q, q_ptr q).
  Definition isq (b : bind_) : bool := if slice_dec (slice b) qs then true else false.
  Definition tr (l : list bind_) : list df := map b_tree (filter isq l).
  Lemma isq_iff b : isq b = true <-> slice b = qs.
  Proof. unfold isq. destruct (slice_dec (slice b) qs); split; congruence || discriminate || auto. Qed.
  Lemma isq_eq b c : slice b = slice c -> isq b = isq c.
  Proof. intros H. unfold isq. now rewrite H. Qed.
  Lemma tr_cons b l : tr (b :: l) = if isq b then b_tree b :: tr l else tr l.
  Proof. unfold tr. simpl. destruct (isq b); reflexivity. Qed.
  Lemma tr_app a b : tr (a ++ b) = tr a ++ tr b.
  Proof. unfold tr. now rewrite filter_app, map_app. Qed.

  (** the loop of setBind *)
  Lemma put_tr l b l' : Forall plain_bind l -> plain_bind b -> length (tr l) <= 1 -> put_bind l b = Ok l' ->
    Forall plain_bind l' /\ tr l' = (if isq b then [b_tree b] else tr l).
  Proof.
    intros Hl Hb Hn E. destruct (put_cases l b Hl Hb) as [[H1 K]|(l1 & c & l2 & -> & Hs & K)]; rewrite K in E; injection E as <-.
    - split; [apply Forall_app; auto|]. rewrite tr_app, tr_cons. change (tr []) with (@nil df). destruct (isq b) eqn:Q; [|apply app_nil_r].
      assert (tr l = []) as ->; [|reflexivity].
      clear Hn K. induction l as [|c l IH]; auto. rewrite tr_cons. inv Hl. destruct (isq c) eqn:Qc.
      + exfalso. apply H1. left. apply isq_iff in Q, Qc. congruence.
      + apply IH; auto. intros J. apply H1. now right.
    - split.
      + apply Forall_app in Hl as [? Hl]. inv Hl. apply Forall_app; split; auto.
      + rewrite !tr_app, !tr_cons in *. change (isq (with_tree c (b_tree b))) with (isq c). rewrite (isq_eq c b Hs) in *.
        destruct (isq b) eqn:Q; auto. rewrite app_length in Hn. simpl in *. destruct (tr l1), (tr l2); simpl in Hn |- *; try lia. reflexivity.
  Qed.
  Lemma current_tr l b0 t : Forall plain_bind l -> plain_bind b0 -> slice b0 = qs -> current_tree l b0 = Ok t ->
    t = hd DNone (tr l).
  Proof.
    intros Hl H0 Hs. induction Hl as [|c l Hc Hl IH]; simpl; intros E; [injection E as <-; reflexivity|].
    rewrite tr_cons. destruct (same_slice_plain c b0 Hc H0) as (r & Er & Hr). rewrite Er in E. cbn [bind] in E. destruct r.
    - assert (isq c = true) as -> by (apply isq_iff; rewrite <- Hs; now apply Hr). simpl. congruence.
    - assert (isq c = false) as ->; auto. destruct (isq c) eqn:Q; auto. apply isq_iff in Q. rewrite <- Hs in Q. apply Hr in Q. discriminate.
  Qed.

  (** the record of a frame *)
  Definition rb (n : chain) (b : bind_) : Prop :=
    plain_bind b /\ (n = q_name q -> b_msb b = q_msb q -> b_ptr b = q_ptr q -> b_lsb b = q_lsb q).
  Lemma same_target_plain c b : plain_bind c -> plain_bind b ->
    exists r, same_target c b = Ok r /\ (r = true <-> b_msb c = b_msb b /\ b_ptr c = b_ptr b).
  Proof.
    intros (C1 & C2 & C3) (B1 & B2 & B3). unfold same_target.
    destruct (df_eq_plain _ _ C1 B1) as [E|E]; rewrite E; cbn [bind]; try rewrite E; cbn [bind].
    - apply (df_eq_plain_iff _ _ C1 B1) in E.
      destruct (df_eq_plain _ _ C3 B3) as [E3|E3]; rewrite E3; eexists; split; try reflexivity.
      + apply (df_eq_plain_iff _ _ C3 B3) in E3. tauto.
      + split; [discriminate|]. intros [_ K]. apply (df_eq_plain_iff _ _ C3 B3) in K. congruence.
    - eexists; split; [reflexivity|]. split; [discriminate|]. intros [K _]. apply (df_eq_plain_iff _ _ C1 B1) in K. congruence.
  Qed.
  Lemma rb_isq b : rb (q_name q) b -> (isq b = true <-> b_msb b = q_msb q /\ b_ptr b = q_ptr q).
  Proof.
    intros [_ H]. rewrite isq_iff. unfold slice, qs. split; [intros K; injection K; auto|].
    intros [K1 K2]. rewrite (H eq_refl K1 K2). congruence.
  Qed.
  Lemma note_tr l b : Forall (rb (q_name q)) l -> rb (q_name q) b -> length (tr l) <= 1 -> forall l', note l b = Ok l' ->
    Forall (rb (q_name q)) l' /\ tr l' = (if isq b then [b_tree b] else tr l).
  Proof.
    intros Hl Hb. induction Hl as [|c l Hc Hl IH]; cbn [note]; intros Hn l' E.
    - injection E as <-. split; auto. rewrite tr_cons. destruct (isq b); reflexivity.
    - destruct (same_target_plain c b (proj1 Hc) (proj1 Hb)) as (r & Er & Hr). rewrite Er in E. cbn [bind] in E. rewrite tr_cons in Hn. destruct r.
      + injection E as <-. split; [constructor; auto|]. rewrite !tr_cons. change (isq (with_tree c (b_tree b))) with (isq c).
        assert (isq c = isq b) as Q.
        { destruct (proj1 Hr eq_refl) as [K1 K2]. apply eq_true_iff_eq. rewrite (rb_isq c Hc), (rb_isq b Hb), K1, K2. tauto. }
        rewrite Q in *. destruct (isq b); auto. simpl in Hn. destruct (tr l); [reflexivity|simpl in Hn; lia].
      + apply bind_ok in E as (r' & E & E'). injection E' as <-.
        assert (length (tr l) <= 1) as Hn' by (destruct (isq c); simpl in Hn; lia).
        destruct (IH Hn' _ E) as [F1 F2]. split; [constructor; auto|]. rewrite !tr_cons, F2.
        destruct (isq b) eqn:Q; auto.
        assert (isq c = false) as ->; auto. destruct (isq c) eqn:Qc; auto.
        apply (rb_isq _ Hc) in Qc as [? ?]. apply (rb_isq _ Hb) in Q as [? ?]. destruct Hr as [_ Hr]. discriminate Hr. split; congruence.
  Qed.
  Lemma note_rb n l b : Forall (rb n) l -> rb n b -> forall l', note l b = Ok l' -> Forall (rb n) l'.
  Proof.
    intros Hl Hb. induction Hl as [|c l Hc Hl IH]; cbn [note]; intros l' E; [injection E as <-; auto|].
    apply bind_ok in E as (r & E1 & E). destruct r; [injection E as <-; constructor; auto|].
    apply bind_ok in E as (r' & E2 & E). injection E as <-. constructor; auto.
  Qed.

  (** ** what is known of a table and a store *)
  Definition lst (t : table) : list bind_ := match dget t (q_name q) with Some l => l | None => [] end.
  Definition tok (t : table) : Prop :=
    keys_plain t /\ NoDup (map fst t) /\ Forall (fun nl => Forall (rb (fst nl)) (snd nl)) t /\ length (tr (lst t)) <= 1.
  Definition sok (s : store) : Prop :=
    keys_plain (s_binds s) /\ Forall plain_bind (getBindlist (s_binds s) (q_name q)) /\ length (tr (getBindlist (s_binds s) (q_name q))) <= 1.
  Definition rec (t : table) : list df := tr (lst t).
  Definition Tl (s : store) : list df := tr (getBindlist (s_binds s) (q_name q)).
  Definition T (s : store) : df := hd DNone (Tl s).

  Hypothesis Hq : no_any (q_name q).

  Lemma tok_nil : tok [] /\ rec [] = [].
  Proof. repeat split; simpl; try constructor; auto. Qed.

  Lemma addBind_ok s n b s' : no_any n -> plain_bind b -> sok s -> addBind s n b = Ok s' ->
    sok s' /\ Tl s' = (if chain_dec n (q_name q) then if isq b then [b_tree b] else Tl s else Tl s).
  Proof.
    intros Hn Hb (S1 & S2 & S3) E. unfold addBind in E.
    assert (G : forall l', s_binds s' = dset (s_binds s) n l' ->
      keys_plain (s_binds s') /\ getBindlist (s_binds s') (q_name q) = if chain_dec n (q_name q) then l' else getBindlist (s_binds s) (q_name q)).
    { intros l' ->. split; [now apply dset_plain|]. unfold getBindlist. rewrite dget_dset by auto. destruct (chain_dec n (q_name q)); reflexivity. }
    destruct (dget (s_binds s) n) as [l|] eqn:D.
    - apply bind_ok in E as (l' & E & E'). injection E' as <-. destruct (G l' eq_refl) as [K1 K2]. unfold sok, Tl. rewrite K2.
      destruct (chain_dec n (q_name q)) as [->|N]; [|repeat split; auto].
      unfold getBindlist in S2, S3. rewrite D in S2, S3.
      destruct (put_tr l b l' S2 Hb S3 E) as [P1 P2]. unfold getBindlist. rewrite D. rewrite P2. repeat split; auto. destruct (isq b); auto.
    - injection E as <-. destruct (G [b] eq_refl) as [K1 K2]. unfold sok, Tl. rewrite K2.
      destruct (chain_dec n (q_name q)) as [->|N]; [|repeat split; auto].
      unfold getBindlist in *. rewrite D in *. rewrite tr_cons. repeat split; auto; destruct (isq b); simpl; auto.
  Qed.

  Lemma dset_keys {V} (t : ndict V) n v : keys_plain t -> no_any n -> NoDup (map fst t) -> NoDup (map fst (dset t n v)).
  Proof.
    intros Hk Hn H.
    induction Hk as [|[m w] t Hm Hk IH]; simpl in *; [repeat constructor; auto|].
    inv H. destruct (chain_eq m n) eqn:E; simpl; constructor; auto.
    intros J. apply H2. revert J. clear -E Hm Hn. induction t as [|[m' w'] t IH]; simpl.
    - intros [<-|[]]. rewrite chain_eq_refl in E. discriminate.
    - destruct (chain_eq m' n); simpl; tauto.
  Qed.
  Lemma dset_Forall {V} (P : chain * V -> Prop) (t : ndict V) n v : Forall P t -> (forall m, chain_eq m n = true -> P (m, v)) -> P (n, v) -> Forall P (dset t n v).
  Proof. intros H Hv Hn. induction H as [|[m w] t Hm H IH]; simpl; [auto|]. destruct (chain_eq m n) eqn:E; constructor; auto. Qed.

  Lemma addNon_ok t n b t' : no_any n -> rb n b -> tok t -> addNonblockingAssign t n b = Ok t' ->
    tok t' /\ rec t' = (if chain_dec n (q_name q) then if isq b then [b_tree b] else rec t else rec t).
  Proof.
    intros Hn Hb (S1 & S2 & S3 & S4) E. unfold addNonblockingAssign in E.
    assert (G : forall l', Forall (rb n) l' -> t' = dset t n l' ->
      keys_plain t' /\ NoDup (map fst t') /\ Forall (fun nl => Forall (rb (fst nl)) (snd nl)) t' /\ lst t' = if chain_dec n (q_name q) then l' else lst t).
    { intros l' Hl' ->. repeat split; [now apply dset_plain|now apply dset_keys| |].
      - clear E S4. induction S3 as [|[m w] t Hm H IH]; simpl; [auto|]. inv S1. inv S2. simpl in H2. destruct (chain_eq m n) eqn:E; constructor; auto.
        simpl in *. apply chain_eq_no_any in E; auto. now subst.
      - unfold lst. rewrite dget_dset by auto. destruct (chain_dec n (q_name q)); reflexivity. }
    destruct (dget t n) as [l|] eqn:D.
    - apply bind_ok in E as (l' & E & E'). injection E' as <-.
      assert (Forall (rb n) l) as Hl.
      { clear -D S3 S1 Hn. induction t as [|[m w] t IH]; simpl in *; [discriminate|]. inv S1. inv S3. simpl in *. destruct (chain_eq m n) eqn:E; auto.
        injection D as <-. apply chain_eq_no_any in E; auto. now subst. }
      destruct (G l' (note_rb n l b Hl Hb l' E) eq_refl) as (K1 & K2 & K3 & K4). unfold tok, rec. rewrite K4.
      destruct (chain_dec n (q_name q)) as [->|N]; [|repeat split; auto].
      unfold lst in S4. rewrite D in S4.
      destruct (note_tr l b Hl Hb S4 l' E) as [P1 P2]. unfold lst. rewrite D. rewrite P2. repeat split; auto. destruct (isq b); auto.
    - injection E as <-. destruct (G [b]) as (K1 & K2 & K3 & K4); auto. unfold tok, rec. rewrite K4.
      destruct (chain_dec n (q_name q)) as [->|N]; [|repeat split; auto].
      unfold lst in *. rewrite D in *. rewrite tr_cons. repeat split; auto; destruct (isq b); simpl; auto.
  Qed.
End Target.
