(** BindProofs.v *)
From Verif Require Import Base ScopeModel ScopeSpec ScopeProofs DfModel DfSpec DfProofs BindModel BindSpec.

(** ** sets of names *)
Lemma smem_iff s n : no_wild s -> no_any n -> smem s n = true <-> In n s.
Proof.
  intros Hs Hn. unfold smem. rewrite existsb_exists. split.
  - intros (m & H & E). apply chain_eq_no_any in E; auto. now subst. now apply (proj1 (Forall_forall _ _) Hs).
  - intros H. exists n. split; auto using chain_eq_refl.
Qed.

Lemma name_set_wild s ns : name_set s ns -> no_wild ns -> no_wild s.
Proof. intros [H _]. unfold no_wild. rewrite !Forall_forall. intros K n Hn. apply K, H, Hn. Qed.

Lemma sadd_set s ns n : no_wild ns -> no_any n -> name_set s ns -> name_set (sadd s n) (ns ++ [n]).
Proof.
  intros Hw Hn HS. pose proof (name_set_wild _ _ HS Hw) as Hs. destruct HS as [H1 H2].
  unfold sadd. destruct (smem s n) eqn:E.
  - apply smem_iff in E; auto. split; auto. intros m. rewrite in_app_iff, H1. simpl.
    split; [auto|]. intros [?|[<-|[]]]; auto. now apply H1.
  - split.
    + intros m. rewrite !in_app_iff, H1. tauto.
    + apply NoDup_Add with (a := n) (l := s); [|split; auto].
      * clear. induction s; simpl; constructor; auto.
      * intros K. apply smem_iff in K; auto. congruence.
Qed.
Lemma sunion_set b : no_wild b -> forall s ns, no_wild ns -> name_set s ns -> name_set (sunion s b) (ns ++ b).
Proof.
  unfold sunion. induction 1 as [|n b Hn Hb IH]; intros s ns Hw H; simpl.
  - now rewrite app_nil_r.
  - replace (ns ++ n :: b) with ((ns ++ [n]) ++ b) by now rewrite <- app_assoc. apply IH.
    + apply Forall_app; auto.
    + now apply sadd_set.
Qed.
Lemma nil_set : name_set [] [].
Proof. split; [intros n; tauto|constructor]. Qed.
Lemma name_set_ext l ns ns' : name_set l ns -> (forall n, In n ns <-> In n ns') -> name_set l ns'.
Proof. intros [H1 H2] H. split; auto. intros n. rewrite H1. apply H. Qed.
Lemma no_wild_ext ns ns' : (forall n, In n ns <-> In n ns') -> no_wild ns -> no_wild ns'.
Proof. unfold no_wild. rewrite !Forall_forall. intros H K n Hn. apply K, H, Hn. Qed.
(** union with a set of names *)
Lemma sunion_sets a b s ns : no_wild ns -> no_wild a -> name_set s a -> name_set b ns -> name_set (sunion s b) (a ++ ns).
Proof.
  intros Hn Ha Hs Hb. pose proof (name_set_wild _ _ Hb Hn). pose proof (sunion_set b H s a Ha Hs) as K.
  eapply name_set_ext; [exact K|]. intros n. rewrite !in_app_iff. destruct Hb as [Hb _]. rewrite Hb. tauto.
Qed.

Lemma fold_sunion ls nss : Forall2 name_set ls nss -> Forall no_wild nss -> forall s ns, no_wild ns -> name_set s ns ->
  name_set (fold_left sunion ls s) (ns ++ concat nss).
Proof.
  induction 1 as [|l ns1 ls nss H HF IH]; intros HW s ns Hn Hs; simpl.
  - now rewrite app_nil_r.
  - inv HW. rewrite app_assoc. apply IH; auto.
    + apply Forall_app; auto.
    + now apply sunion_sets.
Qed.

Lemma no_wild_app a b : no_wild (a ++ b) <-> no_wild a /\ no_wild b.
Proof. apply Forall_app. Qed.

Lemma sources_spec d t : no_wild (names t) -> forall l, sources d t = Ok l -> name_set l (names t).
Proof.
  induction t as [ |n|s|s|s|ts o IH|v m l0 IHv IHm IHl|v p IHv IHp|ts IH|c t f IHc IHt IHf|v w f s|w|w|t IH|s ts IH]
    using df_ind'; cbn [names sources]; intros HW l E; try discriminate; try (injection E as <-; exact nil_set).
  - injection E as <-. split; [tauto|repeat constructor; intros []].
  - apply bind_ok in E as (ls & E & E'). injection E' as <-. apply mapM_ok_Forall2 in E.
    rewrite flat_map_concat_map in *.
    apply (fold_sunion ls (map names ts)) with (ns := []); auto using nil_set; try constructor.
    + clear -IH HW E. revert IH HW. induction E; intros IH HW; simpl in *; constructor; inv IH; apply no_wild_app in HW as [? ?]; auto.
    + clear -HW. induction ts; simpl in *; constructor; apply no_wild_app in HW as [? ?]; auto.
  - apply no_wild_app in HW as [W1 W2]. apply no_wild_app in W2 as [W2 W3].
    apply bind_ok in E as (x & E1 & E). apply bind_ok in E as (y & E2 & E). apply bind_ok in E as (z & E3 & E). injection E as <-.
    rewrite app_assoc. apply sunion_sets; auto; [apply no_wild_app; auto|].
    apply sunion_sets; auto. apply (sunion_sets [] x [] (names v)); auto using nil_set. constructor.
  - apply no_wild_app in HW as [W1 W2].
    apply bind_ok in E as (x & E1 & E). apply bind_ok in E as (y & E2 & E). injection E as <-.
    apply sunion_sets; auto. apply (sunion_sets [] x [] (names v)); auto using nil_set. constructor.
  - apply bind_ok in E as (ls & E & E'). injection E' as <-. apply mapM_ok_Forall2 in E.
    rewrite flat_map_concat_map in *.
    apply (fold_sunion ls (map names ts)) with (ns := []); auto using nil_set; try constructor.
    + clear -IH HW E. revert IH HW. induction E; intros IH HW; simpl in *; constructor; inv IH; apply no_wild_app in HW as [? ?]; auto.
    + clear -HW. induction ts; simpl in *; constructor; apply no_wild_app in HW as [? ?]; auto.
  - apply no_wild_app in HW as [W1 W2]. apply no_wild_app in W2 as [W2 W3].
    apply bind_ok in E as (x & E1 & E). apply bind_ok in E as (y & E2 & E). apply bind_ok in E as (z & E3 & E). injection E as <-.
    rewrite app_assoc. apply sunion_sets; auto; [apply no_wild_app; auto|].
    apply sunion_sets; auto. apply (sunion_sets [] x [] (names c)); auto using nil_set. constructor.
  - destruct d; [|discriminate]. apply bind_ok in E as (x & E1 & E). injection E as <-.
    apply (sunion_sets [] x [] (names t)); auto using nil_set. constructor.
Qed.

Lemma mapM_all_ok {A B} (f : A -> res B) l : (exists l', mapM f l = Ok l') <-> Forall (fun x => exists y, f x = Ok y) l.
Proof.
  split.
  - intros [l' H]. apply mapM_ok_Forall2 in H. induction H; constructor; eauto.
  - induction 1 as [|x l [y Hy] H [l' IH]]; [exists []; auto|]. exists (y :: l'). simpl. now rewrite Hy, IH.
Qed.

Lemma sources_ok d t : (exists l, sources d t = Ok l) <-> occurs (src_bad d) t = false.
Proof.
  induction t as [ |n|s|s|s|ts o IH|v m l0 IHv IHm IHl|v p IHv IHp|ts IH|c t f IHc IHt IHf|v w f s|w|w|t IH|s ts IH]
    using df_ind'; cbn [occurs sources src_bad isHiz isSys isDelay orb]; rewrite ?andb_false_r; cbn [orb];
    try (split; [reflexivity|eauto]; fail);
    try (split; [intros [l H]; discriminate|intros; discriminate]; fail).
  - rewrite existsb_false_Forall. transitivity (exists l', mapM (sources d) ts = Ok l').
    + split; [intros [l E]; apply bind_ok in E as (ls & E & _); eauto|intros [l ->]; simpl; eauto].
    + rewrite mapM_all_ok, !Forall_forall. rewrite Forall_forall in IH. split; intros K x Hx; apply IH; auto.
  - rewrite !orb_false_iff, <- IHv, <- IHm, <- IHl. split.
    + intros [l E]. apply bind_ok in E as (x & E1 & E). apply bind_ok in E as (y & E2 & E). apply bind_ok in E as (z & E3 & E). eauto 6.
    + intros [[[x ->] [y ->]] [z ->]]; simpl; eauto.
  - rewrite !orb_false_iff, <- IHv, <- IHp. split.
    + intros [l E]. apply bind_ok in E as (x & E1 & E). apply bind_ok in E as (y & E2 & E). eauto 6.
    + intros [[x ->] [y ->]]; simpl; eauto.
  - rewrite existsb_false_Forall. transitivity (exists l', mapM (sources d) ts = Ok l').
    + split; [intros [l E]; apply bind_ok in E as (ls & E & _); eauto|intros [l ->]; simpl; eauto].
    + rewrite mapM_all_ok, !Forall_forall. rewrite Forall_forall in IH. split; intros K x Hx; apply IH; auto.
  - rewrite !orb_false_iff, <- IHc, <- IHt, <- IHf. split.
    + intros [l E]. apply bind_ok in E as (x & E1 & E). apply bind_ok in E as (y & E2 & E). apply bind_ok in E as (z & E3 & E). eauto 6.
    + intros [[[x ->] [y ->]] [z ->]]; simpl; eauto.
  - rewrite andb_true_r. destruct d; simpl.
    + rewrite <- IH. split; [intros [l E]; apply bind_ok in E as (x & E1 & E); eauto|intros [x ->]; simpl; eauto].
    + split; [intros [l H]; discriminate|discriminate].
Qed.

Lemma eval_names I f g t : (forall n, In n (names t) -> f n = g n) ->
  eval (with_signals I f) t = eval (with_signals I g) t.
Proof.
  assert (forall ts, Forall (fun t => (forall n, In n (names t) -> f n = g n) ->
           eval (with_signals I f) t = eval (with_signals I g) t) ts ->
           (forall n, In n (flat_map names ts) -> f n = g n) ->
           map (eval (with_signals I f)) ts = map (eval (with_signals I g)) ts) as HL.
  { induction 1 as [|x ts Hx H IH]; simpl; intros K; auto. f_equal.
    - apply Hx. intros n Hn. apply K, in_app_iff; auto.
    - apply IH. intros n Hn. apply K, in_app_iff; auto. }
  induction t as [ |n|s|s|s|ts o IH|v m l0 IHv IHm IHl|v p IHv IHp|ts IH|c t f0 IHc IHt IHf|v w f0 s|w|w|t IH|s ts IH]
    using df_ind'; cbn [names]; intros H; try reflexivity.
  - simpl. apply H; simpl; auto.
  - cbn [eval]. now rewrite (HL ts IH H).
  - cbn [eval]. rewrite IHv, IHm, IHl; auto; intros n Hn; apply H; rewrite !in_app_iff; auto.
  - cbn [eval]. rewrite IHv, IHp; auto; intros n Hn; apply H; rewrite !in_app_iff; auto.
  - cbn [eval]. now rewrite (HL ts IH H).
  - cbn [eval]. rewrite IHc, IHt, IHf; auto; intros n Hn; apply H; rewrite !in_app_iff; auto.
  - cbn [eval]. rewrite IH; auto.
  - cbn [eval]. now rewrite (HL ts IH H).
Qed.

(** ** sources of a definition *)
Lemma dims_spec l : forall acc ns r, no_wild ns -> no_wild (flat_map (fun p => names (fst p) ++ names (snd p)) l) ->
  name_set acc ns -> dims_sources l acc = Ok r ->
  name_set r (ns ++ flat_map (fun p => names (fst p) ++ names (snd p)) l).
Proof.
  induction l as [|[a b] l IH]; simpl; intros acc ns r Hn HW Ha E.
  - injection E as <-. now rewrite app_nil_r.
  - apply no_wild_app in HW as [W1 W3]. apply no_wild_app in W1 as [W1 W2].
    apply bind_ok in E as (x & E1 & E). apply bind_ok in E as (y & E2 & E).
    rewrite app_assoc. apply (IH (sunion (sunion acc x) y)); auto.
    + rewrite app_assoc. apply no_wild_app; split; auto. apply no_wild_app; auto.
    + rewrite app_assoc. apply sunion_sets; auto; [apply no_wild_app; auto| |eapply sources_spec; eauto].
      apply sunion_sets; auto. eapply sources_spec; eauto.
Qed.
Lemma binds_spec l : forall acc ns r, no_wild ns ->
  no_wild (flat_map (fun b => names (b_msb b) ++ names (b_lsb b) ++ names (b_ptr b) ++ names (b_tree b)) l) ->
  name_set acc ns -> binds_sources l acc = Ok r ->
  name_set r (ns ++ flat_map (fun b => names (b_msb b) ++ names (b_lsb b) ++ names (b_ptr b) ++ names (b_tree b)) l).
Proof.
  induction l as [|b l IH]; simpl; intros acc ns r Hn HW Ha E.
  - injection E as <-. now rewrite app_nil_r.
  - apply no_wild_app in HW as [W1 W5]. apply no_wild_app in W1 as [W1 W2]. apply no_wild_app in W2 as [W2 W3]. apply no_wild_app in W3 as [W3 W4].
    apply bind_ok in E as (x & E1 & E). apply bind_ok in E as (y & E2 & E).
    apply bind_ok in E as (z & E3 & E). apply bind_ok in E as (w & E4 & E).
    rewrite app_assoc. apply (IH (sunion (sunion (sunion (sunion acc x) y) z) w)); auto.
    + repeat (apply no_wild_app; split); auto.
    + rewrite !app_assoc.
      repeat (apply sunion_sets; [auto|repeat (apply no_wild_app; split); auto| |eapply sources_spec; eauto]). exact Ha.
Qed.

Lemma bind_sources_spec terms binds n l :
  no_wild (definition_names (dget terms n) (getBindlist binds n)) ->
  getBindSources terms binds n = Ok l ->
  name_set l (definition_names (dget terms n) (getBindlist binds n)).
Proof.
  unfold definition_names, getBindSources. intros HW E. apply no_wild_app in HW as [W1 W2].
  apply bind_ok in E as (x & E1 & E). apply bind_ok in E as (y & E2 & E). injection E as <-.
  assert (name_set x (match dget terms n with
  | None => []
  | Some t => names (t_msb t) ++ names (t_lsb t) ++ opt_names (t_dims t)
  end)) as Hx.
  { unfold getTermSources in E1. destruct (dget terms n) as [t|].
    - apply no_wild_app in W1 as [W1 W3]. apply no_wild_app in W3 as [W3 W4].
      apply bind_ok in E1 as (p & P1 & E1). apply bind_ok in E1 as (q & P2 & E1).
      assert (name_set (sunion (sunion [] p) q) (names (t_msb t) ++ names (t_lsb t))) as K.
      { apply sunion_sets; auto; [|eapply sources_spec; eauto].
        apply (sunion_sets [] p [] (names (t_msb t))); auto using nil_set; [constructor|eapply sources_spec; eauto]. }
      rewrite app_assoc. destruct (t_dims t) as [dl|]; simpl in *.
      + eapply dims_spec; eauto. apply no_wild_app; auto.
      + injection E1 as <-. now rewrite app_nil_r.
    - injection E1 as <-. exact nil_set. }
  assert (name_set y (flat_map (fun b => names (b_msb b) ++ names (b_lsb b) ++ names (b_ptr b) ++ names (b_tree b)) (getBindlist binds n))) as Hy.
  { apply (binds_spec (getBindlist binds n) [] [] y); auto using nil_set; constructor. }
  apply sunion_sets; auto. apply (sunion_sets [] x [] _); auto using nil_set. constructor.
Qed.

(** ** dictionaries *)
Section Dict.
  Context {V : Type}.
  Implicit Type d : ndict V.
  Definition keys_plain d := Forall (fun p => no_any (fst p)) d.
  Lemma dget_dset d k v k' : keys_plain d -> no_any k -> no_any k' ->
    dget (dset d k v) k' = if chain_dec k k' then Some v else dget d k'.
  Proof.
    intros Hd Hk Hk'. induction Hd as [|[k1 v1] d H1 Hd IH]; simpl.
    - destruct (chain_dec k k') as [->|N]; [now rewrite chain_eq_refl|].
      destruct (chain_eq k k') eqn:E; auto. apply chain_eq_no_any in E; auto; congruence.
    - simpl in H1. destruct (chain_eq k1 k) eqn:E1; simpl.
      + apply chain_eq_no_any in E1; auto. subst k1. destruct (chain_dec k k') as [->|N].
        * now rewrite chain_eq_refl.
        * destruct (chain_eq k k') eqn:E; auto. apply chain_eq_no_any in E; auto; congruence.
      + rewrite IH. destruct (chain_eq k1 k') eqn:E2; auto.
        destruct (chain_dec k k') as [->|N]; auto. congruence.
  Qed.
  Lemma dset_plain d k v : keys_plain d -> no_any k -> keys_plain (dset d k v).
  Proof.
    intros Hd Hk. induction Hd as [|[k1 v1] d H1 Hd IH]; simpl; [repeat constructor; auto|].
    destruct (chain_eq k1 k); constructor; auto.
  Qed.
End Dict.

(** ** the store *)
Lemma df_eq_plain a b : plain_tree a -> plain_tree b -> df_eq a b = Ok true \/ df_eq a b = Ok false.
Proof. intros [Ha _] _. destruct (df_eq_ok a Ha b) as ([|] & -> & _); auto. Qed.
Lemma df_eq_plain_iff a b : plain_tree a -> plain_tree b -> (df_eq a b = Ok true <-> a = b).
Proof.
  intros [Ha Wa] [Hb Wb]. split; [now apply df_eq_identity|]. intros ->. now apply df_eq_refl.
Qed.
Lemma same_slice_plain c b : plain_bind c -> plain_bind b ->
  exists r, same_slice c b = Ok r /\ (r = true <-> slice c = slice b).
Proof.
  intros (C1 & C2 & C3) (B1 & B2 & B3). unfold same_slice, slice.
  destruct (df_eq_plain _ _ C1 B1) as [E|E]; rewrite E; simpl.
  - apply (df_eq_plain_iff _ _ C1 B1) in E. rewrite E.
    destruct (df_eq_plain _ _ C2 B2) as [E2|E2]; rewrite E2; simpl.
    + apply (df_eq_plain_iff _ _ C2 B2) in E2. rewrite E2.
      destruct (df_eq_plain _ _ C3 B3) as [E3|E3]; rewrite E3; eexists; split; try reflexivity.
      * apply (df_eq_plain_iff _ _ C3 B3) in E3. rewrite E3. tauto.
      * split; [discriminate|]. intros K. injection K as K. apply (df_eq_plain_iff _ _ C3 B3) in K. congruence.
    + eexists; split; [reflexivity|]. split; [discriminate|]. intros K. injection K as K _. apply (df_eq_plain_iff _ _ C2 B2) in K. congruence.
  - eexists; split; [reflexivity|]. split; [discriminate|]. intros K. injection K as K _. apply (df_eq_plain_iff _ _ C1 B1) in K. congruence.
Qed.

Definition bl_inv (h l : list bind_) : Prop :=
  exists fs, first_order h fs /\ Forall2 (entry_of h) fs l /\ NoDup (map slice fs) /\
    (forall s, In s (map slice fs) <-> In s (map slice h)) /\ Forall plain_bind l.

Lemma put_cases l b : Forall plain_bind l -> plain_bind b ->
  (~ In (slice b) (map slice l) /\ put_bind l b = Ok (l ++ [b])) \/
  (exists l1 c l2, l = l1 ++ c :: l2 /\ slice c = slice b /\ put_bind l b = Ok (l1 ++ with_tree c (b_tree b) :: l2)).
Proof.
  induction 1 as [|c l Hc Hl IH]; simpl; intros Hb; [left; auto|].
  destruct (same_slice_plain c b Hc Hb) as (r & -> & Hr). simpl. destruct r.
  - right. exists [], c, l. repeat split; auto. now apply Hr.
  - assert (slice c <> slice b) as HN by (intros K; apply Hr in K; discriminate).
    destruct (IH Hb) as [[H1 ->]|(l1 & c' & l2 & -> & H1 & ->)].
    + left. split; auto. intros [K|K]; auto.
    + right. exists (c :: l1), c', l2. auto.
Qed.

Lemma last_tree_snoc_new h b : last_tree (h ++ [b]) (slice b) (b_tree b).
Proof. exists h, b, []. simpl. auto. Qed.
Lemma last_tree_snoc_other h b s t : slice b <> s -> last_tree h s t -> last_tree (h ++ [b]) s t.
Proof.
  intros N (h1 & c & h2 & -> & H1 & H2 & H3). exists h1, c, (h2 ++ [b]). rewrite <- app_assoc. repeat split; auto.
  rewrite map_app, in_app_iff. simpl. tauto.
Qed.

Lemma put_inv h l b : bl_inv h l -> plain_bind b ->
  exists l', put_bind l b = Ok l' /\ bl_inv (h ++ [b]) l'.
Proof.
  intros (fs & F1 & F2 & F3 & F4 & F5) Hb.
  assert (map slice l = map slice fs) as EL.
  { clear -F2. induction F2 as [|f x fs l (H & _) _ IH]; simpl; auto. now rewrite H, IH. }
  destruct (put_cases l b F5 Hb) as [[HN ->]|(l1 & c & l2 & -> & Hc & ->)].
  - rewrite EL in HN. eexists; split; [reflexivity|]. exists (fs ++ [b]). split; [|split; [|split; [|split]]].
    + apply fo_new; auto. now rewrite <- F4.
    + apply Forall2_app.
      * assert (Forall (fun f => slice b <> slice f) fs) as HF.
        { apply Forall_forall. intros f Hf K. apply HN. rewrite K. now apply in_map. }
        clear -F2 HF. revert HF. induction F2 as [|f x fs l (H1 & H2 & H3 & H4 & H5) _ IH]; intros HF; constructor; inv HF; auto.
        repeat split; auto. now apply last_tree_snoc_other.
      * constructor; [|constructor]. repeat split; auto. apply last_tree_snoc_new.
    + rewrite map_app. simpl. apply NoDup_Add with (a := slice b) (l := map slice fs); [|split; auto].
      clear. induction fs; simpl; constructor; auto.
    + intros s. rewrite !map_app, !in_app_iff, F4. tauto.
    + apply Forall_app; auto.
  - eexists; split; [reflexivity|]. exists fs. split; [|split; [|split; [|split]]].
    + apply fo_old; auto. apply F4. rewrite <- EL, map_app, in_app_iff. simpl. rewrite Hc. auto.
    + apply Forall2_app_inv_r in F2 as (fs1 & fs2' & G1 & G2 & ->). inversion G2 as [|f c' fs2 l2' H1 H2 E1 E2]; subst c' l2' fs2'. clear G2.
      assert (slice f = slice b) as Hf by (destruct H1 as (K & _); congruence).
      rewrite map_app in F3. simpl in F3. apply NoDup_remove in F3 as [ND HNin].
      rewrite in_app_iff in HNin.
      assert (forall xs ys, Forall2 (entry_of h) xs ys -> ~ In (slice f) (map slice xs) -> Forall2 (entry_of (h ++ [b])) xs ys) as HH.
      { clear - Hf. induction 1 as [|g y xs ys (H1 & H2 & H3 & H4 & H5) _ IH]; simpl; intros HN; constructor; auto.
        repeat split; auto. apply last_tree_snoc_other; auto. rewrite <- Hf. intros K. apply HN. auto. }
      apply Forall2_app; [apply HH; auto|]. constructor; [|apply HH; auto].
      destruct H1 as (K1 & K2 & K3 & K4 & K5). repeat split; auto. simpl. rewrite Hf. apply last_tree_snoc_new.
    + exact F3.
    + intros s. rewrite map_app, in_app_iff, F4. simpl. split; [auto|]. intros [?|[<-|[]]]; auto.
      apply F4. rewrite <- EL, map_app, in_app_iff. simpl. rewrite Hc. auto.
    + apply Forall_app in F5 as [A1 A2]. inv A2. apply Forall_app. split; auto.
Qed.

Lemma first_order_nil fs : first_order [] fs -> fs = [].
Proof. intros H. inversion H; auto; destruct h; discriminate. Qed.

(** declarations *)
Definition term_inv (ts : list term) (t : term) : Prop :=
  ts <> [] /\ (forall x, In x (t_type t) <-> exists t', In t' ts /\ In x (t_type t')) /\
  t_msb t = first_present is_none DNone (map t_msb ts) /\
  t_lsb t = first_present is_none DNone (map t_lsb ts) /\
  t_dims t = first_present (fun d => match d with None => true | _ => false end) None (map t_dims ts).

Lemma first_present_snoc {A} (absent : A -> bool) none l x : absent none = true ->
  (forall y, absent y = true -> y = none) ->
  first_present absent none (l ++ [x]) = if absent (first_present absent none l) then x else first_present absent none l.
Proof.
  intros Hn Hu. induction l as [|y l IH]; simpl.
  - rewrite Hn. destruct (absent x) eqn:E; auto. symmetry; auto.
  - destruct (absent y) eqn:E; auto. now rewrite E.
Qed.

Lemma type_union_in b : forall a x, In x (type_union a b) <-> In x a \/ In x b.
Proof.
  unfold type_union. induction b as [|y b IH]; intros a x; simpl; [tauto|].
  rewrite IH. destruct (existsb (String.eqb y) a) eqn:E.
  - apply existsb_exists in E as (z & Hz & E). apply String.eqb_eq in E. subst z. intuition subst; auto.
  - rewrite in_app_iff. simpl. intuition.
Qed.

Lemma merge_inv ts old new : term_inv ts old -> term_inv (ts ++ [new]) (merge_term old new).
Proof.
  intros (N & H1 & H2 & H3 & H4). split; [intros K; apply app_eq_nil in K as [_ K]; discriminate|].
  split; [|rewrite !map_app; simpl map; rewrite !first_present_snoc].
  - intros x. simpl. rewrite type_union_in, H1. split.
    + intros [(t' & Ht & Hx)|Hx]; [exists t'|exists new]; rewrite in_app_iff; simpl; auto.
    + intros (t' & Ht & Hx). rewrite in_app_iff in Ht. destruct Ht as [Ht|[<-|[]]]; eauto.
  - rewrite <- H2, <- H3, <- H4. simpl. repeat split. destruct (t_dims old); auto.
  - reflexivity.
  - intros [?|]; [discriminate|auto].
  - reflexivity.
  - intros []; simpl; congruence.
  - reflexivity.
  - intros []; simpl; congruence.
Qed.

Definition store_inv (h : list action) (s : store) : Prop :=
  keys_plain (s_terms s) /\ keys_plain (s_binds s) /\
  (forall n, no_any n -> bl_inv (binds_of n h) (getBindlist (s_binds s) n) /\
                         (dget (s_binds s) n = None -> binds_of n h = [])) /\
  (forall n, no_any n -> match dget (s_terms s) n with
                         | None => terms_of n h = []
                         | Some t => term_inv (terms_of n h) t end).

Lemma bl_inv_nil : bl_inv [] [].
Proof. exists []. repeat split; constructor || tauto. Qed.

Lemma run_app h1 : forall h2 s, run s (h1 ++ h2) = do s' <- run s h1; run s' h2.
Proof.
  induction h1 as [|[n t|n b] h1 IH]; intros h2 s; simpl; auto.
  destruct (addBind s n b); simpl; auto.
Qed.

Lemma bind_eta l : bl_inv [] l -> l = [].
Proof. intros (fs & H1 & H2 & _). apply first_order_nil in H1. subst. inv H2. auto. Qed.

Lemma run_inv h : Forall plain_action h -> exists s, run empty_store h = Ok s /\ store_inv h s.
Proof.
  induction h as [|a h IH] using rev_ind; intros HF.
  - exists empty_store. split; auto. repeat split; try constructor; simpl; auto using bl_inv_nil.
  - apply Forall_app in HF as [HF Ha]. inv Ha. destruct (IH HF) as (s & E & K1 & K2 & K3 & K4).
    rewrite run_app, E. simpl bind. destruct a as [n t|n b]; simpl in H1.
    + exists (addTerm s n t). split; auto. unfold addTerm, store_inv.
      assert (forall m, binds_of m (h ++ [ATerm n t]) = binds_of m h) as EB.
      { intros m. unfold binds_of. rewrite flat_map_app. simpl. now rewrite app_nil_r. }
      assert (forall m, terms_of m (h ++ [ATerm n t]) = terms_of m h ++ if chain_dec n m then [t] else []) as ET.
      { intros m. unfold terms_of. rewrite flat_map_app. simpl. now rewrite app_nil_r. }
      pose proof (K4 n H1) as Kn.
      destruct (dget (s_terms s) n) as [old|] eqn:Eo; simpl.
      * split; [now apply dset_plain|]. split; auto. split; [intros m Hm; rewrite EB; auto|].
        intros m Hm. rewrite dget_dset, ET; auto. destruct (chain_dec n m) as [<-|N].
        -- now apply merge_inv.
        -- rewrite app_nil_r. now apply K4.
      * split; [now apply dset_plain|]. split; auto. split; [intros m Hm; rewrite EB; auto|].
        intros m Hm. rewrite dget_dset, ET; auto. destruct (chain_dec n m) as [<-|N].
        -- rewrite Kn. simpl. unfold term_inv; simpl. split; [discriminate|]. split.
           ++ intros x. split; [intros Hx; exists t; auto|intros (t' & [<-|[]] & Hx); auto].
           ++ destruct (t_msb t), (t_lsb t), (t_dims t); simpl; auto.
        -- rewrite app_nil_r. now apply K4.
    + destruct H1 as [Hn Hb].
      assert (forall m, binds_of m (h ++ [ABind n b]) = binds_of m h ++ if chain_dec n m then [b] else []) as EB.
      { intros m. unfold binds_of. rewrite flat_map_app. simpl. now rewrite app_nil_r. }
      assert (forall m, terms_of m (h ++ [ABind n b]) = terms_of m h) as ET.
      { intros m. unfold terms_of. rewrite flat_map_app. simpl. now rewrite app_nil_r. }
      destruct (K3 n Hn) as [Kn Kn']. unfold getBindlist in Kn.
      destruct (put_inv _ _ b Kn Hb) as (l' & El & Hl). simpl run. unfold addBind.
      assert (exists s', match dget (s_binds s) n with
          | None => Ok (Store (s_terms s) (dset (s_binds s) n [b]))
          | Some l => do l' <- put_bind l b; Ok (Store (s_terms s) (dset (s_binds s) n l'))
          end = Ok s' /\ s_terms s' = s_terms s /\ s_binds s' = dset (s_binds s) n l') as (s' & -> & S1 & S2).
      { destruct (dget (s_binds s) n).
        - rewrite El. simpl. eexists; split; [reflexivity|]. auto.
        - simpl in El. injection El as <-. eexists; split; [reflexivity|]. auto. }
      exists s'. split; auto. unfold store_inv. rewrite S1, S2. split; auto. split; [now apply dset_plain|]. split.
      * intros m Hm. unfold getBindlist. rewrite dget_dset, EB; auto. destruct (chain_dec n m) as [<-|N].
        -- split; [auto|discriminate].
        -- rewrite app_nil_r. apply K3; auto.
      * intros m Hm. rewrite ET. now apply K4.
Qed.
