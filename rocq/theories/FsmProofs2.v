(** FsmProofs2.v - resolve and construct. *)
From Verif Require Import Base ScopeModel DfModel DfSpec DfProofs TransModel TransSpec BindSpec BindProofs SubsetProofs2 FsmModel FsmSpec FsmProofs.
From Coq Require Import Sorting.Permutation.
Local Open Scope Z_scope.

Lemma df_dec' a b : plain_tree a -> plain_tree b -> exists e, df_eq a b = Ok e /\ (e = true <-> a = b).
Proof. apply df_dec. Qed.

(** Putting a condition. *)
Lemma cput_spec d c dst : Forall (fun p => plain_tree (fst p)) d -> plain_tree c ->
  exists r, cput d c dst = Ok r /\ Forall (fun p => plain_tree (fst p)) r /\
    ((exists d1 d2 x, d = d1 ++ (c, x) :: d2 /\ r = d1 ++ (c, dst) :: d2) \/
     (~ In c (map fst d) /\ r = d ++ [(c, dst)])).
Proof.
  intros Hd Hc. induction Hd as [|[c0 d0] d H0 Hd IH]; simpl.
  - exists [(c, dst)]. split; auto.
  - simpl in H0. destruct (df_dec' c0 c H0 Hc) as (e & -> & He). simpl. destruct e.
    + assert (c0 = c) by (now apply He). subst c0. exists ((c, dst) :: d). split; auto. split; [constructor; auto|].
      left. exists [], d, d0. auto.
    + assert (c0 <> c) as Hne by (intros K; apply He in K; discriminate).
      destruct IH as (r & -> & Hr & I). exists ((c0, d0) :: r). split; auto. split; [constructor; auto|].
      destruct I as [(d1 & d2 & x & -> & ->)|[I1 ->]].
      * left. exists ((c0, d0) :: d1), d2, x. auto.
      * right. split; auto. intros [H|H]; auto.
Qed.
Lemma nodup_app_r {A} (a b : list A) : NoDup (a ++ b) -> NoDup b.
Proof. induction a; simpl; auto. intros H. apply NoDup_cons_iff in H as [_ H]. auto. Qed.
Section Resolve.
  Variable optimize : df -> res df.
  Variable P : interp -> Prop.
  Hypothesis HP : forall I, P I -> logical I.
  Hypothesis Hopt : keeps_truth P plain_tree optimize.

  Lemma is_none_iff t : is_none t = true <-> t = DNone.
  Proof. destruct t; simpl; split; congruence. Qed.

  Lemma by_dst_spec items : plains items -> forall acc r, Forall (fun p => plain_tree (snd p)) acc -> NoDup (map fst acc) ->
    by_dst optimize items acc = Ok r ->
    Forall (fun p => plain_tree (snd p)) r /\ NoDup (map fst r) /\
    (forall d, In d (map fst r) <-> In d (map fst acc) \/ In d (map snd items)) /\
    (forall I d, P I -> ((exists c, zget r d = Some c /\ cond_true I c) <->
                         (exists c, zget acc d = Some c /\ cond_true I c) \/ enabled I items d)).
  Proof.
    induction 1 as [|[c dst] items Hc Hi IH]; intros acc r Ha Hn E; cbn [by_dst] in E.
    - injection E as <-. split; auto. split; auto. split; [intros d; simpl; tauto|].
      intros I d HI. unfold enabled. simpl. split; auto. intros [H|(c & [] & _)]; auto.
    - simpl in Hc.
      assert (forall c1, plain_tree c1 -> Forall (fun p => plain_tree (snd p)) (zset acc dst c1)) as HZ.
      { intros c1 H1. clear E Hn. induction Ha as [|[k v] l H Hl IHa]; simpl; [constructor; [exact H1|constructor]|].
        destruct (k =? dst); constructor; auto. }
      assert (forall acc', Forall (fun p => plain_tree (snd p)) acc' -> NoDup (map fst acc') ->
                (forall d, In d (map fst acc') <-> d = dst \/ In d (map fst acc)) ->
                (forall I d, P I -> ((exists c, zget acc' d = Some c /\ cond_true I c) <->
                             (exists c, zget acc d = Some c /\ cond_true I c) \/ (d = dst /\ cond_true I c))) ->
                by_dst optimize items acc' = Ok r ->
                Forall (fun p => plain_tree (snd p)) r /\ NoDup (map fst r) /\
                (forall d, In d (map fst r) <-> In d (map fst acc) \/ In d (map snd ((c, dst) :: items))) /\
                (forall I d, P I -> ((exists c, zget r d = Some c /\ cond_true I c) <->
                         (exists c, zget acc d = Some c /\ cond_true I c) \/ enabled I ((c, dst) :: items) d))) as K.
      { intros acc' A1 A2 A3 A4 E'. destruct (IH acc' r A1 A2 E') as (I1 & I2 & I3 & I4). split; auto. split; auto. split.
        - intros d. rewrite I3, A3. simpl. split; [intros [[->|H]|H]|intros [H|[H|H]]]; auto.
        - intros I d HI. rewrite I4, A4 by auto. unfold enabled. simpl. split.
          + intros [[H|[-> H]]|(c1 & H1 & H2)]; auto; right; [exists c|exists c1]; auto.
          + intros [H|(c1 & [E1|H1] & H2)]; auto; [|right; eauto]. injection E1 as -> ->. auto. }
      destruct (zget acc dst) as [cur|] eqn:Ed.
      + assert (In dst (map fst acc)) as Hin by (apply in_map_iff; exists (dst, cur); split; auto; now apply zget_in).
        assert (plain_tree cur) as Hcur.
        { rewrite Forall_forall in Ha. apply (Ha (dst, cur)). now apply zget_in. }
        destruct (is_none cur) eqn:En.
        * apply is_none_iff in En. subst cur. apply K in E; auto.
          -- intros d. split; auto. intros [->|H]; auto.
          -- intros I d HI. split; auto. intros [H|[-> H]]; auto. exists DNone. split; auto. now left.
        * destruct (is_none c) eqn:Ec.
          -- apply is_none_iff in Ec. subst c. apply K in E; auto.
             ++ now apply zset_keys.
             ++ apply zset_keys; auto.
             ++ intros I d HI. setoid_rewrite zget_zset. destruct (Z.eqb_spec dst d) as [->|Hne].
                ** split; [intros _; right; split; auto; now left|]. intros _. exists DNone. split; auto. now left.
                ** split; auto. intros [H|[-> _]]; auto. congruence.
          -- apply bind_ok in E as (o & Eo & E). destruct (Hopt cur c o Hcur Hc Eo) as (O1 & O2 & O3). apply K in E; auto.
             ++ now apply zset_keys.
             ++ apply zset_keys; auto.
             ++ intros I d HI. setoid_rewrite zget_zset. destruct (Z.eqb_spec dst d) as [->|Hne].
                ** assert (cond_true I o <-> cond_true I cur \/ cond_true I c) as HO.
                   { assert (cur <> DNone) as N1 by (intros X; apply is_none_iff in X; congruence).
                     assert (c <> DNone) as N2 by (intros X; apply is_none_iff in X; congruence).
                     unfold cond_true. rewrite (O3 I HI). simpl. rewrite (proj1 (HP I HI)), orb_true_iff. tauto. }
                   split.
                   --- intros (c1 & E1 & H1). injection E1 as <-. apply HO in H1 as [H1|H1]; auto. left. eauto.
                   --- intros [(c1 & E1 & H1)|[_ H1]]; exists o; (split; [reflexivity|]); apply HO; auto.
                       left. congruence.
                ** split; auto. intros [H|[-> _]]; auto. congruence.
      + apply K in E; auto.
        -- now apply zset_keys.
        -- apply zset_keys; auto.
        -- intros I d HI. setoid_rewrite zget_zset. destruct (Z.eqb_spec dst d) as [->|Hne].
           ++ split.
              ** intros (c1 & E1 & H1). injection E1 as <-. auto.
              ** intros [(c1 & E1 & H1)|[_ H1]]; [congruence|]. exists c. auto.
           ++ split; auto. intros [H|[-> _]]; auto. congruence.
  Qed.

  Definition final (c : df) : df := match c with DEval (PInt v) _ _ _ => if 0 <? v then DNone else c | _ => c end.
  Lemma final_true I c : P I -> (cond_true I (final c) <-> cond_true I c).
  Proof.
    intros HI. unfold final. destruct c as [ | | | | | | | | | |v w f s| | | | ]; try tauto. destruct v as [z|x|y|]; try tauto.
    destruct (0 <? z) eqn:E; [|tauto]. split; intros _; [right; simpl; now rewrite (proj2 (HP I HI))|now left].
  Qed.
  Lemma final_plain c : plain_tree c -> plain_tree (final c).
  Proof. unfold final. destruct c as [ | | | | | | | | | |v w f s| | | | ]; auto. destruct v; auto. destruct (0 <? z); auto; intros _; split; reflexivity. Qed.
  Lemma always_true_ok c t : always_true c = Ok t -> (if t then DNone else c) = final c.
  Proof.
    unfold always_true, final. destruct c as [ | | | | | | | | | |v w f s| | | | ]; try (intros H; injection H as <-; reflexivity).
    destruct v; try discriminate. intros H; injection H as <-. reflexivity.
  Qed.

  Lemma by_cond_spec items : Forall (fun p => plain_tree (snd p)) items -> forall acc r, plains acc ->
    NoDup (map fst acc) -> NoDup (map snd acc ++ map fst items) ->
    by_cond items acc = Ok r ->
    plains r /\ NoDup (map fst r) /\ NoDup (map snd r) /\
    (forall c d, In (c, d) r -> In (c, d) acc \/ exists c0, In (d, c0) items /\ c = final c0) /\
    (NoDup (map fst acc ++ map (fun p => final (snd p)) items) ->
     forall c d, In (c, d) acc \/ (exists c0, In (d, c0) items /\ c = final c0) -> In (c, d) r).
  Proof.
    induction 1 as [|[dst c0] items Hc Hi IH]; intros acc r Ha Hn Hn2 E; cbn [by_cond] in E.
    - injection E as <-. simpl in Hn2. rewrite app_nil_r in Hn2. split; auto. split; auto. split; auto. split; auto.
      intros _ c d [H|(c0 & [] & _)]; auto.
    - simpl in Hc. apply bind_ok in E as (t & Et & E). apply bind_ok in E as (acc' & Ea & E).
      rewrite (always_true_ok _ _ Et) in Ea. set (k := final c0) in *.
      destruct (cput_spec acc k dst Ha (final_plain _ Hc)) as (acc2 & Ea' & P1 & P2).
      rewrite Ea in Ea'. injection Ea' as <-.
      assert (Permutation (dst :: map snd acc ++ map fst items) (map snd acc ++ map fst ((dst, c0) :: items))) as HPm
        by (simpl; apply Permutation_middle).
      pose proof (Permutation_NoDup (Permutation_sym HPm) Hn2) as Hn3. apply NoDup_cons_iff in Hn3 as [Hd Hn3].
      destruct P2 as [(d1 & d2 & x & -> & ->)|[Hk ->]].
      + rewrite !map_app in *. simpl in *.
        destruct (IH (d1 ++ (k, dst) :: d2) r) as (I1 & I2 & I3 & I4 & I5); auto.
        { rewrite map_app. simpl. exact Hn. }
        { rewrite map_app. simpl. rewrite <- app_assoc in *. simpl in *.
          eapply Permutation_NoDup; [apply Permutation_middle|].
          apply NoDup_remove in Hn3 as [Hn3 _]. constructor; auto. intros H. apply Hd.
          rewrite in_app_iff in *. simpl. tauto. }
        split; auto. split; auto. split; auto. split.
        * intros c d H. destruct (I4 c d H) as [H'|(c1 & H1 & H2)]; [|right; exists c1; simpl; auto].
          apply in_app_iff in H' as [H'|[H'|H']]; [left; apply in_app_iff; auto| |left; apply in_app_iff; simpl; auto].
          injection H' as <- <-. right. exists c0. auto.
        * intros Hnd. exfalso. rewrite <- app_assoc in Hnd. simpl in Hnd. apply nodup_app_r in Hnd.
          apply NoDup_cons_iff in Hnd as [Hnd _]. apply Hnd. rewrite in_app_iff. simpl. auto.
      + destruct (IH (acc ++ [(k, dst)]) r) as (I1 & I2 & I3 & I4 & I5); auto.
        { rewrite map_app. simpl. eapply Permutation_NoDup; [apply Permutation_cons_append|]. now constructor. }
        { rewrite map_app. simpl. rewrite <- app_assoc. exact Hn2. }
        split; auto. split; auto. split; auto. split.
        * intros c d H. destruct (I4 c d H) as [H'|(c1 & H1 & H2)]; [|right; exists c1; simpl; auto].
          apply in_app_iff in H' as [H'|[H'|[]]]; auto. injection H' as <- <-. right. exists c0. simpl; auto.
        * intros Hnd c d H. apply I5.
          { rewrite map_app, <- app_assoc. exact Hnd. }
          rewrite in_app_iff. simpl. destruct H as [H|(c1 & [H1|H1] & H2)]; auto; [|right; eauto].
          injection H1 as <- <-. left. right. left. now rewrite H2.
  Qed.

  (** One source state. *)
  Lemma enabled_perm I a b d : Permutation a b -> enabled I a d <-> enabled I b d.
  Proof.
    intros H. unfold enabled. split; intros (c & Hc & K); exists c; split; auto; [apply (Permutation_in _ H)|apply (Permutation_in _ (Permutation_sym H))]; auto.
  Qed.
  Lemma NoDup_map_final (items : list (Z * df)) : NoDup (map fst items) ->
    (forall d1 c1 d2 c2, In (d1, c1) items -> In (d2, c2) items -> d1 <> d2 -> final c1 <> final c2) ->
    NoDup (map (fun p => final (snd p)) items).
  Proof.
    induction items as [|[d c] items IH]; simpl; intros Hn H; [constructor|]. apply NoDup_cons_iff in Hn as [Hn1 Hn2]. constructor.
    - intros Hin. apply in_map_iff in Hin as ((d2 & c2) & E & Hin). simpl in E.
      assert (In d2 (map fst items)) as Hin2 by (apply in_map_iff; exists (d2, c2); auto).
      apply (H d c d2 c2); auto. intros ->. contradiction.
    - apply IH; auto. intros; eapply H; eauto.
  Qed.
  Lemma resolve_src_spec dd dd' : plains dd -> resolve_src optimize dd = Ok dd' ->
    plains dd' /\ NoDup (map fst dd') /\ NoDup (map snd dd') /\
    (forall I d, P I -> enabled I dd' d -> enabled I dd d) /\
    (distinguishable P dd -> forall I d, P I -> enabled I dd d -> enabled I dd' d).
  Proof.
    intros Hp E. unfold resolve_src in E. apply bind_ok in E as (l & E1 & E2).
    pose proof (sort_by_perm dst_leb dd) as Hperm. set (sd := sort_by dst_leb dd) in *.
    assert (plains sd) as Hps.
    { unfold plains in *. rewrite Forall_forall in *. intros p Hin. apply Hp. eapply Permutation_in; [symmetry; exact Hperm|auto]. }
    destruct (by_dst_spec sd Hps [] l ltac:(constructor) ltac:(constructor) E1) as (L1 & L2 & L3 & L4).
    assert (forall I d, P I -> ((exists c, In (d, c) l /\ cond_true I c) <-> enabled I dd d)) as L5.
    { intros I d HI. rewrite (enabled_perm I dd sd d Hperm). specialize (L4 I d HI). split.
      - intros (c & Hc & Ht). destruct (proj1 L4) as [(c' & Hc' & _)|H]; auto; [|discriminate].
        exists c. split; auto. now apply in_zget.
      - intros H. destruct (proj2 L4 (or_intror H)) as (c & Hc & Ht). exists c. split; auto. now apply zget_in. }
    destruct (by_cond_spec l L1 [] dd' ltac:(constructor) ltac:(constructor) L2 E2) as (D1 & D2 & D3 & D4 & D5).
    split; auto. split; auto. split; auto. split.
    - intros I d HI (c & Hc & Ht). apply L5; auto. destruct (D4 c d Hc) as [[]|(c0 & H0 & ->)].
      exists c0. split; auto. now apply (proj1 (final_true I c0 HI)).
    - intros Hdist I d HI Hen. apply L5 in Hen as (c & Hc & Ht); auto. exists (final c). split; [|now apply final_true].
      apply D5; [|right; eauto]. simpl. apply NoDup_map_final; auto.
      intros d1 c1 d2 c2 H1 H2 Hne Ef.
      assert (forall d c, In (d, c) l -> In d (map snd dd)) as Hdom.
      { intros d0 c0 H0. assert (In d0 (map fst l)) as H0' by (apply in_map_iff; exists (d0, c0); auto).
        apply L3 in H0' as [[]|H0']. eapply Permutation_in; [|exact H0']. apply Permutation_map. now symmetry. }
      destruct (Hdist d1 d2 (Hdom _ _ H1) (Hdom _ _ H2) Hne) as (I' & HI' & Hneq). apply Hneq.
      assert (forall d c, In (d, c) l -> (enabled I' dd d <-> cond_true I' (final c))) as HE.
      { intros d0 c0 H0. rewrite final_true by auto. rewrite <- L5 by auto. split.
        - intros (c' & Hc' & Ht'). apply in_zget in Hc'; auto. apply in_zget in H0; auto. congruence.
        - intros; eauto. }
      rewrite (HE _ _ H1), (HE _ _ H2), Ef. tauto.
  Qed.

  Lemma resolve_all_spec items : NoDup (map fst items) -> forall acc r, (forall k, In k (map fst acc) -> ~ In k (map fst items)) ->
    resolve_all optimize items acc = Ok r ->
    forall s, (forall dd, zget acc s = Some dd -> zget r s = Some dd) /\
      (forall dd, In (s, dd) items -> exists dd', zget r s = Some dd' /\ resolve_src optimize dd = Ok dd') /\
      (zget acc s = None -> ~ In s (map fst items) -> zget r s = None).
  Proof.
    induction items as [|[k dd] items IH]; intros Hn acc r Hd E s; cbn [resolve_all] in E.
    - injection E as <-. split; auto. split; [intros dd []|]. auto.
    - apply bind_ok in E as (dd' & E1 & E2). simpl in Hn. apply NoDup_cons_iff in Hn as [Hn1 Hn2].
      destruct (IH Hn2 (zset acc k dd') r) with (s := s) as (I1 & I2 & I3); auto.
      { intros k' Hk'. assert (In k' (map fst acc) \/ k' = k) as [H|H]; [|intros Hin; apply (Hd k' H); simpl; auto|subst; auto].
        clear -Hk'. induction acc as [|[a b] acc IH]; simpl in *; [destruct Hk'; auto|]. destruct (Z.eqb_spec a k); simpl in *; tauto. }
      split; [|split].
      + intros d0 H0. apply I1. rewrite zget_zset. destruct (Z.eqb_spec k s) as [->|]; auto.
        exfalso. apply (Hd s); [|simpl; auto]. apply in_map_iff. exists (s, d0). split; auto. now apply zget_in.
      + intros d0 [H0|H0]; [|auto]. injection H0 as -> ->. exists dd'. split; auto. apply I1. rewrite zget_zset, Z.eqb_refl. auto.
      + intros H0 H1. apply I3; [|intros H; apply H1; simpl; auto]. rewrite zget_zset. destruct (Z.eqb_spec k s) as [->|]; auto.
        exfalso. apply H1. simpl; auto.
  Qed.
  Lemma resolve_spec m m' : NoDup (map fst (m_fsm m)) -> Forall (fun p => plains (snd p)) (m_fsm m) ->
    resolve optimize m = Ok m' ->
    m_any m' = m_any m /\
    forall s, match zget (m_fsm m) s with
              | None => zget (m_fsm m') s = None
              | Some dd => exists dd', zget (m_fsm m') s = Some dd' /\ resolve_src optimize dd = Ok dd' /\ plains dd
              end.
  Proof.
    intros Hn Hp E. unfold resolve in E. apply bind_ok in E as (f & E & E'). injection E' as <-. simpl. split; auto. intros s.
    pose proof (sort_by_perm src_leb (m_fsm m)) as Hperm.
    assert (NoDup (map fst (sort_by src_leb (m_fsm m)))) as Hn' by (eapply Permutation_NoDup; [apply Permutation_map; exact Hperm|auto]).
    destruct (resolve_all_spec _ Hn' [] f ltac:(intros ? []) E s) as (_ & I2 & I3).
    destruct (zget (m_fsm m) s) as [dd|] eqn:Es.
    - assert (In (s, dd) (m_fsm m)) as Hin by (now apply zget_in).
      destruct (I2 dd) as (dd' & H1 & H2); [now apply sort_by_in|]. exists dd'. split; auto. split; auto.
      rewrite Forall_forall in Hp. apply (Hp _ Hin).
    - apply I3; auto. intros H. apply zget_none in Es. apply Es. eapply Permutation_in; [|exact H]. apply Permutation_map. now symmetry.
  Qed.
End Resolve.

(** ** construction *)
Lemma zrange_in sb se x : In x (zrange sb se) <-> sb <= x <= se.
Proof.
  unfold zrange. rewrite in_map_iff. split.
  - intros (i & <- & Hi). apply in_seq in Hi. lia.
  - intros H. exists (Z.to_nat (x - sb)). split; [lia|]. apply in_seq. lia.
Qed.
Lemma zrange_nodup sb se : NoDup (zrange sb se).
Proof. unfold zrange. apply FinFun.Injective_map_NoDup; [intros a b H; lia|apply seq_NoDup]. Qed.
Lemma cput_nodup d c dst : plains d -> plain_tree c -> NoDup (map fst d) -> exists r, cput d c dst = Ok r /\ plains r /\ NoDup (map fst r) /\
  (forall c' x, In (c', x) r <-> (c' = c /\ x = dst) \/ (c' <> c /\ In (c', x) d)).
Proof.
  intros Hd Hc Hn. destruct (cput_spec d c dst Hd Hc) as (r & E & Hr & H). exists r. split; auto. split; auto.
  destruct H as [(d1 & d2 & x & -> & ->)|[Hk ->]].
  - rewrite map_app in *. simpl in *. split; auto. pose proof (NoDup_remove_2 _ _ _ Hn) as Hni.
    assert (forall c' y, In (c', y) d1 \/ In (c', y) d2 -> c' <> c) as Hne.
    { intros c' y H ->. apply Hni. rewrite in_app_iff. destruct H as [H|H]; [left|right]; apply in_map_iff; exists (c, y); auto. }
    intros c' y. rewrite !in_app_iff. simpl. split.
    + intros [H|[H|H]]; [right; split; eauto|injection H as <- <-; auto|right; split; eauto].
    + intros [[-> ->]|[Hn' [H|[H|H]]]]; auto. injection H as <- <-. congruence.
  - split; [rewrite map_app; simpl; eapply Permutation_NoDup; [apply Permutation_cons_append|]; now constructor|].
    intros c' y. rewrite in_app_iff. simpl. split.
    + intros [H|[H|[]]]; [|injection H as <- <-; auto]. right. split; auto. intros ->. apply Hk, in_map_iff. exists (c, y). auto.
    + intros [[-> ->]|[_ H]]; auto.
Qed.
Lemma add_srcs_spec srcs c dst : plain_tree c -> NoDup srcs -> forall m, wf_fsm m ->
  exists m', add_srcs m srcs dst c = Ok m' /\ wf_fsm m' /\
    forall s c' d, trans m' s c' d <-> (In s srcs /\ c' = c /\ d = dst) \/ (~ (In s srcs /\ c' = c) /\ trans m s c' d).
Proof.
  intros Hc. induction 1 as [|s0 srcs Hni Hnd IH]; intros m Hm; cbn [add_srcs].
  - exists m. split; auto. split; auto. intros s c' d. simpl. tauto.
  - set (dd := match zget m s0 with Some dd => dd | None => [] end).
    assert (wf_cond dd) as Hdd.
    { unfold dd. destruct (zget m s0) eqn:E; [eapply Hm; eauto|]. split; constructor. }
    destruct (cput_nodup dd c dst (proj1 Hdd) Hc (proj2 Hdd)) as (r & E & R1 & R2 & R3). rewrite E. simpl.
    assert (wf_fsm (zset m s0 r)) as Hm1.
    { split; [apply zset_keys; apply Hm|]. intros s d. rewrite zget_zset. destruct (s0 =? s); [|apply Hm].
      intros H; injection H as <-. split; auto. }
    destruct (IH _ Hm1) as (m' & -> & Hm' & Ht). exists m'. split; auto. split; auto. intros s c' d. rewrite Ht.
    assert (trans (zset m s0 r) s c' d <-> (s = s0 /\ c' = c /\ d = dst) \/ (~ (s = s0 /\ c' = c) /\ trans m s c' d)) as H1.
    { unfold trans. setoid_rewrite zget_zset. destruct (Z.eqb_spec s0 s) as [->|Hne].
      - split.
        + intros (d0 & E0 & H0). injection E0 as <-. apply R3 in H0 as [[-> ->]|[Hn H0]]; auto. right. split; [tauto|].
          unfold dd in H0. destruct (zget m s) as [d1|]; [eauto|destruct H0].
        + intros [(_ & -> & ->)|[Hn (d0 & E0 & H0)]]; (exists r; split; auto; apply R3); auto. right. split.
          * intros ->. apply Hn. auto.
          * unfold dd. rewrite E0. exact H0.
      - split; [intros H; right; split; auto; intros [-> _]; congruence|]. intros [(-> & _)|[_ H]]; auto. congruence. }
    rewrite H1. simpl. split.
    + intros [(K1 & K2)|[K1 [(-> & -> & ->)|[K2 K3]]]]; [left; tauto|left; tauto|right]. split; auto. intros [[->|K] ->]; auto.
    + intros [([<-|K1] & -> & ->)|[K1 K2]].
      * right. split; [tauto|]. tauto.
      * left; auto.
      * right. split; [tauto|]. right. split; auto. intros [-> ->]. apply K1. auto.
Qed.
Lemma inr_dec rps s : inr rps s \/ ~ inr rps s.
Proof.
  destruct (existsb (fun p => (fst p <=? s) && (s <=? snd p)) rps) eqn:E.
  - left. apply existsb_exists in E as ((a & b) & Hin & H). exists a, b. simpl in H. split; auto. lia.
  - right. intros (a & b & Hin & H). assert (existsb (fun p => (fst p <=? s) && (s <=? snd p)) rps = true); [|congruence].
    apply existsb_exists. exists (a, b). split; auto. simpl. lia.
Qed.
Lemma add_ranges_spec rps dst c : plain_tree c -> forall m, wf_fsm (m_fsm m) ->
  exists m', add_ranges m rps dst c = Ok m' /\ wf_fsm (m_fsm m') /\ m_any m' = m_any m /\
    forall s c' d, trans (m_fsm m') s c' d <-> (inr rps s /\ c' = c /\ d = dst) \/ (~ (inr rps s /\ c' = c) /\ trans (m_fsm m) s c' d).
Proof.
  intros Hc. induction rps as [|[lo hi] rps IH]; intros m Hm; cbn [add_ranges].
  - exists m. split; auto. split; auto. split; auto. intros s c' d.
    assert (~ inr [] s) by (intros (a & b & [] & _)). tauto.
  - unfold add. destruct (add_srcs_spec (zrange lo hi) c dst Hc (zrange_nodup lo hi) (m_fsm m) Hm) as (f & E & Hf & Ht).
    simpl fst. simpl snd. rewrite E. simpl.
    destruct (IH (Machine f (m_any m)) Hf) as (m' & -> & Hm' & Ha & Ht'). exists m'. split; auto. split; auto. split; auto.
    intros s c' d. rewrite Ht'. simpl. rewrite Ht, zrange_in.
    assert (inr ((lo, hi) :: rps) s <-> lo <= s <= hi \/ inr rps s) as Hi.
    { unfold inr. simpl. split.
      - intros (a & b & [H|H] & K); [injection H as <- <-; auto|right; eauto].
      - intros [H|(a & b & H & K)]; [exists lo, hi|exists a, b]; auto. }
    rewrite Hi. pose proof (inr_dec rps s) as Hdec. tauto.
Qed.
