(** SubsetProofs2.v - the extracted subset is the fan-in. *)
From Verif Require Import Base ScopeModel ScopeSpec ScopeProofs DfModel DfSpec DfProofs BindModel BindSpec BindProofs
  SubsetModel SubsetSpec SubsetProofs.

(** ** merging *)
Section Merge.
  Context {V : Type} (eqb : V -> V -> res bool) (W : V -> Prop).
  Hypothesis eqb_ok : forall x y, W x -> W y -> exists e, eqb x y = Ok e /\ (e = true <-> x = y).
  Lemma lmem_ok x l : W x -> Forall W l -> exists e, lmem eqb x l = Ok e /\ (e = true <-> In x l).
  Proof.
    intros Hx. induction 1 as [|y l Hy Hl IH]; simpl.
    - exists false. split; [reflexivity|]. split; [discriminate|intros []].
    - destruct (eqb_ok y x Hy Hx) as (e & -> & He). simpl. destruct e.
      + exists true. split; [reflexivity|]. split; auto. intros _. left. now apply He.
      + destruct IH as (e & -> & He'). exists e. split; [reflexivity|]. rewrite He'. split; auto.
        intros [H|H]; auto. apply He in H. discriminate.
  Qed.
  Lemma append_new_ok xs : Forall W xs -> forall l, Forall W l -> exists r, append_new eqb l xs = Ok r /\ Forall W r /\
    exists ys, r = l ++ ys /\ NoDup ys /\ (forall y, In y ys <-> In y xs /\ ~ In y l).
  Proof.
    induction 1 as [|x xs Hx Hxs IH]; intros l Hl; simpl.
    - exists l. split; [reflexivity|]. split; auto. exists []. rewrite app_nil_r. split; auto. split; [constructor|].
      intros y; simpl; tauto.
    - destruct (lmem_ok x l Hx Hl) as (e & -> & He). simpl. destruct e.
      + destruct (IH l Hl) as (r & -> & Hr & ys & -> & Hnd & Hys). exists (l ++ ys). split; [reflexivity|]. split; auto.
        exists ys. split; auto. split; auto. intros y. rewrite Hys. split; [tauto|]. intros [[->|H] Hn]; auto.
        exfalso. apply Hn, He. reflexivity.
      + destruct (IH (l ++ [x])) as (r & -> & Hr & ys & -> & Hnd & Hys).
        { apply Forall_app; auto. }
        exists ((l ++ [x]) ++ ys). split; [reflexivity|]. split; auto. exists (x :: ys). rewrite <- app_assoc. split; auto.
        assert (~ In x l) as Hnx by (intros H; apply He in H; discriminate).
        split.
        * constructor; auto. intros H. apply Hys in H as [_ H]. apply H, in_app_iff. simpl; auto.
        * intros y. simpl. rewrite Hys, in_app_iff. simpl. split.
          -- intros [<-|[H1 H2]]; [auto|]. split; [auto|]. tauto.
          -- intros [[->|H] Hn]; auto. destruct (eqb_ok y x) as (e & _ & Heq); [rewrite Forall_forall in Hxs; auto|auto|]. destruct e; [left; symmetry; now apply Heq|]. right. split; auto. intros [H'|[H'|[]]]; auto. symmetry in H'. apply Heq in H'. discriminate.
  Qed.

  Variable D : chain -> Prop.
  Hypothesis HD : consistent D.
  Lemma ceq_path a b : D a -> D b -> path a <> path b -> chain_eq a b = false.
  Proof. intros Ha Hb Hn. destruct (chain_eq a b) eqn:E; auto. exfalso. apply Hn, HD; auto. Qed.
  Lemma path_ceq a b : D a -> D b -> path a = path b -> chain_eq a b = true.
  Proof. intros Ha Hb Hn. now apply HD. Qed.
  Definition okd (d : ndict (list V)) : Prop :=
    keys_in D d /\ distinct_keys d /\ Forall (fun p => Forall W (snd p)) d.

  Lemma dget_path {A} (d : ndict A) k k' : keys_in D d -> D k -> D k' -> path k = path k' -> dget d k = dget d k'.
  Proof.
    intros Hd Hk Hk' E. induction Hd as [|[k0 v0] d H0 Hd IH]; simpl; auto. simpl in H0. rewrite IH.
    destruct (chain_eq k0 k) eqn:E1, (chain_eq k0 k') eqn:E2; auto; exfalso.
    - apply HD in E1; auto. rewrite E in E1. apply HD in E1; auto. congruence.
    - apply HD in E2; auto. rewrite <- E in E2. apply HD in E2; auto. congruence.
  Qed.
  Lemma dget_some {A} (d : ndict A) k v : keys_in D d -> D k -> dget d k = Some v -> exists k', In (k', v) d /\ D k' /\ path k' = path k.
  Proof.
    intros Hd Hk E. apply dget_in in E as (k' & Hin & E). exists k'. split; auto.
    assert (D k') by (unfold keys_in in Hd; rewrite Forall_forall in Hd; apply (Hd _ Hin)). split; auto. now apply HD.
  Qed.
  Lemma dget_of_in {A} (d : ndict A) k k' v : keys_in D d -> distinct_keys d -> D k -> In (k', v) d -> path k' = path k -> dget d k = Some v.
  Proof.
    intros Hd Hn Hk Hin Hp. induction d as [|[k0 v0] d IH]; [destruct Hin|]. inv Hd. inv Hn. simpl in *.
    destruct Hin as [E|Hin].
    - injection E as -> ->. now rewrite (path_ceq k' k).
    - rewrite ceq_path; auto. intros E. apply H3. rewrite E, <- Hp. apply in_map_iff. exists (k', v). auto.
  Qed.
  Lemma dget_none {A} (d : ndict A) k : keys_in D d -> D k -> dget d k = None -> ~ In (path k) (map (fun p => path (fst p)) d).
  Proof.
    intros Hd Hk E Hin. induction Hd as [|[k0 v0] d H0 Hd IH]; simpl in *; auto.
    destruct (chain_eq k0 k) eqn:E0; [discriminate|]. destruct Hin as [Hin|Hin]; auto.
    rewrite path_ceq in E0; auto. discriminate.
  Qed.
  Lemma dset_keys {A} (d : ndict A) k v : keys_in D d -> D k -> keys_in D (dset d k v).
  Proof.
    intros Hd Hk. induction Hd as [|[k0 v0] d H0 Hd IH]; simpl; [repeat constructor; auto|].
    destruct (chain_eq k0 k); constructor; auto.
  Qed.
  Lemma dset_paths {A} (d : ndict A) k v : keys_in D d -> D k ->
    map (fun p => path (fst p)) (dset d k v) =
    match dget d k with Some _ => map (fun p => path (fst p)) d | None => map (fun p => path (fst p)) d ++ [path k] end.
  Proof.
    intros Hd Hk. induction Hd as [|[k0 v0] d H0 Hd IH]; simpl; auto.
    destruct (chain_eq k0 k); simpl; auto. rewrite IH. destruct (dget d k); auto.
  Qed.
  Lemma dset_distinct {A} (d : ndict A) k v : keys_in D d -> D k -> distinct_keys d -> distinct_keys (dset d k v).
  Proof.
    intros Hd Hk Hn. unfold distinct_keys. rewrite dset_paths by auto. destruct (dget d k) eqn:E; auto.
    apply dget_none in E; auto. eapply Permutation.Permutation_NoDup; [apply Permutation.Permutation_cons_append|]. now constructor.
  Qed.
  Lemma dget_dset_p {A} (d : ndict A) k v k' : keys_in D d -> D k -> D k' ->
    (path k' = path k -> dget (dset d k v) k' = Some v) /\ (path k' <> path k -> dget (dset d k v) k' = dget d k').
  Proof.
    intros Hd Hk Hk'. induction Hd as [|[k0 v0] d H0 Hd IH]; simpl.
    - split; intros E; [rewrite path_ceq; auto|rewrite ceq_path; auto].
    - simpl in H0. destruct (chain_eq k0 k) eqn:E0; simpl.
      + apply HD in E0; auto. split; intros E; [rewrite path_ceq; auto; congruence|rewrite ceq_path; auto; congruence].
      + destruct (chain_eq k0 k') eqn:E1; [|exact IH]. apply HD in E1; auto.
        split; intros E; [|reflexivity]. rewrite path_ceq in E0; auto. discriminate. congruence.
  Qed.
  Lemma dset_W (d : ndict (list V)) k v : Forall (fun p => Forall W (snd p)) d -> Forall W v ->
    Forall (fun p => Forall W (snd p)) (dset d k v).
  Proof.
    intros Hd Hk. induction Hd as [|[k0 v0] d H0 Hd IH]; simpl; [repeat constructor; auto|].
    destruct (chain_eq k0 k); constructor; auto.
  Qed.
  Lemma dget_W (d : ndict (list V)) k v : okd d -> dget d k = Some v -> Forall W v.
  Proof.
    intros (_ & _ & H) E. apply dget_in in E as (k' & Hin & _). rewrite Forall_forall in H. apply (H _ Hin).
  Qed.
  Lemma okd_dset d k v : okd d -> D k -> Forall W v -> okd (dset d k v).
  Proof. intros (H1 & H2 & H3) Hk Hv. split; [|split]; auto using dset_keys, dset_distinct, dset_W. Qed.

  Definition merged (x y z : option (list V)) : Prop :=
    match x, y with
    | None, _ => z = y
    | Some l, None => z = Some l
    | Some l, Some v => exists r, z = Some r /\ followed_by_new l v r
    end.
  Lemma merge_ok b : okd b -> forall a, okd a -> exists r, dictlistmerge eqb a b = Ok r /\ okd r /\
    forall k, D k -> merged (dget a k) (dget b k) (dget r k).
  Proof.
    induction b as [|[k0 v0] b IH]; intros Hb a Ha; simpl.
    - exists a. split; [reflexivity|]. split; auto. intros k Hk. destruct (dget a k); reflexivity.
    - destruct Hb as (Hb1 & Hb2 & Hb3). inv Hb1. inv Hb2. inv Hb3. simpl in *.
      assert (okd b) as Hb by (split; [|split]; auto).
      assert (dget b k0 = None) as Hb0.
      { destruct (dget b k0) eqn:E; auto. apply dget_some in E as (k' & Hin & Hk' & Hp); auto.
        exfalso. apply H3. rewrite <- Hp. apply in_map_iff. exists (k', l). auto. }
      assert (exists a' l', okd a' /\ dget a' k0 = Some l' /\ merged (dget a k0) (Some v0) (Some l') /\
                (forall k, D k -> path k <> path k0 -> dget a' k = dget a k) /\
                match dget a k0 with
                | Some l => do l' <- append_new eqb l v0; dictlistmerge eqb (dset a k0 l') b
                | None => dictlistmerge eqb (dset a k0 v0) b
                end = dictlistmerge eqb a' b) as (a' & l' & Ha' & Hl' & Hm & Hoth & ->).
      { assert (keys_in D a) by apply Ha.
        destruct (dget a k0) as [l|] eqn:E.
        - destruct (append_new_ok v0 H5 l (dget_W _ _ _ Ha E)) as (l' & -> & HW & ys & Hys). simpl.
          exists (dset a k0 l'), l'. split; [apply okd_dset; auto|]. split; [apply (dget_dset_p a k0 l' k0); auto|].
          split; [exists l'; split; auto; exists ys; auto|]. split; [|reflexivity]. intros k Hk Hn. now apply (dget_dset_p a k0 l' k).
        - exists (dset a k0 v0), v0. split; [apply okd_dset; auto|]. split; [apply (dget_dset_p a k0 v0 k0); auto|].
          split; [reflexivity|]. split; [|reflexivity]. intros k Hk Hn. now apply (dget_dset_p a k0 v0 k). }
      destruct (IH Hb a' Ha') as (r & -> & Hr & Hget). exists r. split; [reflexivity|]. split; auto.
      intros k Hk. destruct (chain_eq k0 k) eqn:E.
      + apply HD in E; auto. rewrite (dget_path a k k0), (dget_path r k k0); auto; [|apply Hr|apply Ha].
        specialize (Hget k0 H1). rewrite Hb0, Hl' in Hget. simpl in Hget. rewrite Hget. exact Hm.
      + rewrite <- Hoth; auto. intros Ep. rewrite path_ceq in E; auto. discriminate.
  Qed.
  Lemma merge_holds a b r k x : okd a -> okd b -> D k -> dictlistmerge eqb a b = Ok r ->
    ((exists l, dget r k = Some l /\ In x l) <-> (exists l, dget a k = Some l /\ In x l) \/ (exists l, dget b k = Some l /\ In x l)).
  Proof.
    intros Ha Hb Hk E. destruct (merge_ok b Hb a Ha) as (r' & E' & _ & Hm). rewrite E in E'. injection E' as <-.
    specialize (Hm k Hk). unfold merged in Hm. destruct (dget a k) as [l|] eqn:Ea, (dget b k) as [v|] eqn:Eb.
    - destruct Hm as (r' & -> & ys & -> & _ & Hys). split.
      + intros (l' & El & Hin). injection El as <-. apply in_app_iff in Hin as [Hin|Hin]; [left; eauto|].
        apply Hys in Hin as [Hin _]. right; eauto.
      + intros [(l' & El & Hin)|(l' & El & Hin)]; injection El as <-; (exists (l ++ ys); split; [reflexivity|]; apply in_app_iff).
        * now left.
        * destruct (lmem_ok x l) as (e & _ & He).
          { apply dget_W in Eb; auto. rewrite Forall_forall in Eb; auto. }
          { apply dget_W in Ea; auto. }
          destruct e; [left; now apply He|right]. apply Hys. split; auto. intros Hx. apply He in Hx. discriminate.
    - rewrite Hm. split; [auto|]. intros [H|(l' & El & _)]; [auto|discriminate].
    - rewrite Hm. split; [auto|]. intros [(l' & El & _)|H]; [discriminate|auto].
    - rewrite Hm. split; [auto|]. intros [H|H]; auto.
  Qed.
End Merge.

(** ** comparison of assignments *)
Definition decides (p : res bool) (P : Prop) : Prop := exists e, p = Ok e /\ (e = true <-> P).
Lemma both_dec p q P Q : decides p P -> decides q Q -> decides (both p q) (P /\ Q).
Proof.
  intros (e & -> & He) (e' & -> & He'). unfold both. simpl. destruct e.
  - exists e'. split; auto. rewrite He'. split; [intros HQ; split; [now apply He|auto]|tauto].
  - exists false. split; auto. split; [discriminate|]. intros [HP _]. apply He in HP. discriminate.
Qed.
Lemma df_dec a b : plain_tree a -> plain_tree b -> decides (df_eq a b) (a = b).
Proof.
  intros Ha Hb. destruct (df_eq_plain a b Ha Hb) as [E|E]; rewrite E; eexists; (split; [reflexivity|]);
    rewrite <- (df_eq_plain_iff a b Ha Hb), E; split; congruence.
Qed.
Lemma ok_dec (e : bool) P : (e = true <-> P) -> decides (Ok e) P.
Proof. intros H. exists e. auto. Qed.
Lemma cname_eq a b : plain_cname a -> plain_cname b -> (cname_eqb a b = true <-> a = b).
Proof.
  destruct a as [| |x], b as [| |y]; simpl; intros Ha Hb; try (split; congruence).
  rewrite chain_eq_no_any by auto. split; congruence.
Qed.
Lemma optstr_eq a b : opt_eqb String.eqb a b = true <-> a = b.
Proof. destruct a, b; simpl; try (split; congruence). rewrite String.eqb_eq. split; congruence. Qed.
Lemma always_eq a b : plain_cname (clock_name a) -> plain_cname (reset_name a) ->
  plain_cname (clock_name b) -> plain_cname (reset_name b) -> (always_eqb a b = true <-> a = b).
Proof.
  intros H1 H2 H3 H4. unfold always_eqb. rewrite !andb_true_iff, !optstr_eq, !Z.eqb_eq, !cname_eq by auto.
  destruct a, b; simpl. split; [intros (((((-> & ->) & ->) & ->) & ->) & ->); auto|intros E; injection E; intros; subst; tauto].
Qed.
Lemma bind_eq_ok x y : whole_bind x -> whole_bind y -> decides (bind_eq x y) (x = y).
Proof.
  intros (X1 & (X2 & X3 & X4) & X5 & X6) (Y1 & (Y2 & Y3 & Y4) & Y5 & Y6). unfold bind_eq.
  assert (forall p P Q, decides p P -> (P <-> Q) -> decides p Q) as HE.
  { intros p P Q (e & H0 & He) H. exists e. split; auto. rewrite He. exact H. }
  eapply HE.
  - apply both_dec; [apply df_dec; auto|]. apply both_dec; [apply ok_dec; apply chain_eq_no_any; auto|].
    apply both_dec; [apply df_dec; auto|]. apply both_dec; [apply df_dec; auto|]. apply both_dec; [apply df_dec; auto|].
    apply both_dec; [|apply ok_dec, String.eqb_eq]. apply ok_dec.
    instantiate (1 := b_always x = b_always y). destruct (b_always x) as [a|], (b_always y) as [b|]; simpl; try (split; congruence).
    rewrite always_eq by tauto. split; congruence.
  - destruct x, y; simpl. split; [intros (-> & -> & -> & -> & -> & -> & ->); auto|intros E; injection E; intros; subst; tauto].
Qed.

Section Exact.
  Variables (terms : ndict term) (binds : ndict (list bind_)) (topmodule clock : string).
  Variable order : list chain -> list chain.
  Hypothesis order_iff : forall l m, In m (order l) <-> In m l.
  Let main := main_clock topmodule clock.
  Variable D : chain -> Prop.
  Hypothesis Hdes : design terms binds main D.
  Let HD : consistent D := ds_consistent _ _ _ _ Hdes.
  Let gbs := getBindSubset terms binds topmodule clock order.
  Let bl := getBindlist binds.
  Let df' := defs terms binds.
  Notation okd := (okd whole_bind D).
  Notation ind := (Forall D).

  Lemma smem_path s n : ind s -> D n -> (smem s n = true <-> in_path n s).
  Proof.
    intros Hs Hn. unfold smem, in_path. rewrite existsb_exists. rewrite Forall_forall in Hs.
    split; intros (m & Hm & E); exists m; split; auto; apply HD in E; auto.
  Qed.
  Lemma sadd_ind s n : ind s -> D n -> ind (sadd s n).
  Proof. intros. unfold sadd. destruct (smem s n); auto. apply Forall_app; auto. Qed.
  Lemma sunion_ind b : ind b -> forall a, ind a -> ind (sunion a b).
  Proof. unfold sunion. induction 1; simpl; intros; auto. apply IHForall. now apply sadd_ind. Qed.
  Lemma in_path_app m a b : in_path m (a ++ b) <-> in_path m a \/ in_path m b.
  Proof.
    unfold in_path. split.
    - intros (x & H & E). apply in_app_iff in H as [H|H]; eauto.
    - intros [(x & H & E)|(x & H & E)]; exists x; rewrite in_app_iff; auto.
  Qed.
  Lemma sadd_new s n : ind s -> D n -> in_path n (sadd s n).
  Proof.
    intros. unfold sadd. destruct (smem s n) eqn:E; [now apply smem_path|]. apply in_path_app. right. exists n. simpl; auto.
  Qed.
  Lemma in_path_incl m a b : (forall x, In x a -> In x b) -> in_path m a -> in_path m b.
  Proof. intros H (x & Hx & E). exists x; auto. Qed.
  Lemma sunion_new b : ind b -> forall a m, ind a -> in_path m b -> in_path m (sunion a b).
  Proof.
    induction 1 as [|y b Hy Hb IH]; intros a m Ha (x & Hx & E); [destruct Hx|].
    change (sunion a (y :: b)) with (sunion (sadd a y) b). destruct Hx as [->|Hx].
    - apply (in_path_incl m (sadd a x)); [intros z Hz; now apply sunion_old|].
      destruct (sadd_new a x Ha Hy) as (z & Hz & Ez). exists z. split; auto. congruence.
    - apply IH; [now apply sadd_ind|]. exists x. auto.
  Qed.
  Lemma defs_ind n : D n -> ind (df' n).
  Proof. intros. now apply (ds_defs _ _ _ _ Hdes). Qed.
  Lemma sources_defs n l : D n -> getBindSources terms binds n = Ok l -> forall m, In m l <-> In m (df' n).
  Proof.
    intros Hn E m. destruct (ds_defs _ _ _ _ Hdes n Hn) as [Hw _]. exact (proj1 (bind_sources_spec _ _ _ _ Hw E) m).
  Qed.
  Lemma reaches_trans a b c : reaches terms binds main a b -> reaches terms binds main b c -> reaches terms binds main a c.
  Proof. intros H1 H2. induction H2; auto. eapply r_step; eauto. Qed.
  Lemma bl_whole n b : D n -> In b (bl n) -> whole_bind b.
  Proof. apply (ds_whole _ _ _ _ Hdes). Qed.
  Lemma bl_path n m : D n -> D m -> path n = path m -> bl n = bl m.
  Proof.
    intros. unfold bl, getBindlist. rewrite (dget_path D HD binds n m); auto. apply (ds_binds _ _ _ _ Hdes).
  Qed.

  Definition holds (d : bset) (k : chain) (x : bind_) : Prop := exists l, dget d k = Some l /\ In x l.
  Record post (n : chain) (V : list chain) (d : bset) (N : list chain) (Q : list chain) : Prop := {
    p_self : In n Q;
    p_D : ind Q;
    p_reach : forall q, In q Q -> reaches terms binds main n q;
    p_defs : forall q m, In q Q -> In m (df' q) -> in_path m V \/ in_path m Q;
    p_clocks : forall q b c, In q Q -> In b (bl q) -> clocked_by main b c -> in_path c Q;
    p_sound : forall m, In m N -> In m V \/ exists q, In q Q /\ In m (df' q);
    p_old : forall m, In m V -> In m N;
    p_all : forall q m, In q Q -> In m (df' q) -> in_path m N;
    p_okd : okd d;
    p_holds : forall k x, D k -> (holds d k x <-> exists q, In q Q /\ path q = path k /\ In x (bl q))
  }.
  Record J (n : chain) (V : list chain) (Q : list chain) (B C : list bind_) (S : list chain) (d : bset) (next : list chain) : Prop := {
    j_D : ind Q;
    j_next : ind next;
    j_reach : forall q, In q Q -> reaches terms binds main n q;
    j_defs : forall q m, In q Q -> In m (df' q) -> in_path m V \/ in_path m Q;
    j_clocks : forall q b c, In q Q -> In b (bl q) -> clocked_by main b c -> in_path c Q;
    j_sound : forall m, In m next -> In m V \/ In m (df' n) \/ exists q, In q Q /\ In m (df' q);
    j_cover : forall m, In m next -> in_path m V \/ in_path m Q;
    j_old : forall m, In m V -> In m next;
    j_all : forall q m, In q Q -> In m (df' q) -> in_path m next;
    j_okd : okd d;
    j_holds : forall k x, D k -> (holds d k x <-> (exists q, In q Q /\ path q = path k /\ In x (bl q)) \/ (path k = path n /\ In x B));
    j_C : forall b c, In b C -> clocked_by main b c -> in_path c Q;
    j_S : forall s, In s S -> in_path s next /\ (in_path s V \/ in_path s Q)
  }.

  Lemma post_N_ind n V d N Q : post n V d N Q -> ind V -> ind N.
  Proof.
    intros P HV. apply Forall_forall. intros m Hm. apply (p_sound _ _ _ _ _ P) in Hm as [Hm|(q & Hq & Hm)].
    - rewrite Forall_forall in HV; auto.
    - pose proof (p_D _ _ _ _ _ P) as HQ. rewrite Forall_forall in HQ. pose proof (defs_ind q (HQ _ Hq)) as H.
      rewrite Forall_forall in H; auto.
  Qed.

  (** One recursive call. *)
  Lemma J_step n V Q B C S d next c V' dx Nx Qx d' :
    J n V Q B C S d next -> D c -> uses terms binds main n c ->
    (forall m, In m V' -> In m next \/ (m = c /\ In c (df' n))) -> (forall m, In m next -> In m V') ->
    post c V' dx Nx Qx -> dictlistmerge bind_eq d dx = Ok d' ->
    J n V (Q ++ Qx) B C S d' (sunion V' Nx).
  Proof.
    intros HJ Hc Hu HV1 HV2 HP HM.
    assert (ind V') as HV'.
    { apply Forall_forall. intros m Hm. destruct (HV1 m Hm) as [H|[-> _]]; auto.
      pose proof (j_next _ _ _ _ _ _ _ _ HJ) as H'. rewrite Forall_forall in H'; auto. }
    pose proof (post_N_ind _ _ _ _ _ HP HV') as HN.
    assert (forall m, In m V' -> in_path m V \/ in_path m (Q ++ Qx)) as Hcov.
    { intros m Hm. destruct (HV1 m Hm) as [H|[-> _]].
      - destruct (j_cover _ _ _ _ _ _ _ _ HJ m H); auto. right. apply in_path_app; auto.
      - right. apply in_path_app. right. exists c. split; auto. apply (p_self _ _ _ _ _ HP). }
    assert (forall q m, In q Qx -> In m (df' q) -> in_path m V \/ in_path m (Q ++ Qx)) as Hdx.
    { intros q m Hq Hm. destruct (p_defs _ _ _ _ _ HP q m Hq Hm) as [(m' & H & E)|H].
      - destruct (Hcov m' H) as [(z & Hz & Ez)|(z & Hz & Ez)]; [left|right]; exists z; split; auto; congruence.
      - right. apply in_path_app; auto. }
    split.
    - apply Forall_app. split; [apply (j_D _ _ _ _ _ _ _ _ HJ)|apply (p_D _ _ _ _ _ HP)].
    - apply sunion_ind; auto.
    - intros q Hq. apply in_app_iff in Hq as [Hq|Hq]; [now apply (j_reach _ _ _ _ _ _ _ _ HJ)|].
      eapply reaches_trans; [eapply r_step; [apply r_refl|exact Hu]|]. now apply (p_reach _ _ _ _ _ HP).
    - intros q m Hq Hm. apply in_app_iff in Hq as [Hq|Hq]; [|eauto].
      destruct (j_defs _ _ _ _ _ _ _ _ HJ q m Hq Hm); auto. right. apply in_path_app; auto.
    - intros q b k Hq Hb Hk. apply in_path_app. apply in_app_iff in Hq as [Hq|Hq].
      + left. eapply (j_clocks _ _ _ _ _ _ _ _ HJ); eauto.
      + right. eapply (p_clocks _ _ _ _ _ HP); eauto.
    - intros m Hm. assert (In m V' \/ exists q, In q (Q ++ Qx) /\ In m (df' q)) as [H|H]; auto.
      { apply sunion_in in Hm as [Hm|Hm]; auto. apply (p_sound _ _ _ _ _ HP) in Hm as [Hm|(q & Hq & Hm)]; auto.
        right. exists q. rewrite in_app_iff. auto. }
      apply HV1 in H as [H|[-> H]]; auto.
      destruct (j_sound _ _ _ _ _ _ _ _ HJ m H) as [H'|[H'|(q & Hq & H')]]; auto.
      right; right. exists q. rewrite in_app_iff. auto.
    - intros m Hm. apply sunion_in in Hm as [Hm|Hm]; auto.
      apply (p_sound _ _ _ _ _ HP) in Hm as [Hm|(q & Hq & Hm)]; eauto.
    - intros m Hm. apply sunion_old, HV2. now apply (j_old _ _ _ _ _ _ _ _ HJ).
    - intros q m Hq Hm. apply in_app_iff in Hq as [Hq|Hq].
      + apply (in_path_incl m next); [|eapply (j_all _ _ _ _ _ _ _ _ HJ); eauto]. intros; apply sunion_old; auto.
      + apply sunion_new; auto. eapply (p_all _ _ _ _ _ HP); eauto.
    - destruct (merge_ok bind_eq whole_bind bind_eq_ok D HD dx (p_okd _ _ _ _ _ HP) d (j_okd _ _ _ _ _ _ _ _ HJ)) as (r & E & Hr & _).
      rewrite HM in E. injection E as <-. exact Hr.
    - intros k x Hk. unfold holds.
      rewrite (merge_holds bind_eq whole_bind bind_eq_ok D HD d dx d' k x (j_okd _ _ _ _ _ _ _ _ HJ) (p_okd _ _ _ _ _ HP) Hk HM).
      fold (holds d k x). fold (holds dx k x). rewrite (j_holds _ _ _ _ _ _ _ _ HJ k x Hk), (p_holds _ _ _ _ _ HP k x Hk).
      split.
      + intros [[(q & Hq & H)|H]|(q & Hq & H)]; [left|right|left]; auto; exists q; rewrite in_app_iff; auto.
      + intros [(q & Hq & H)|H]; auto. apply in_app_iff in Hq as [Hq|Hq]; [left; left|right]; eauto.
    - intros b k Hb Hk. apply in_path_app. left. eapply (j_C _ _ _ _ _ _ _ _ HJ); eauto.
    - intros s Hs. destruct (j_S _ _ _ _ _ _ _ _ HJ s Hs) as [H1 H2]. split.
      + apply (in_path_incl s next); auto. intros; apply sunion_old; auto.
      + destruct H2; auto. right. apply in_path_app; auto.
  Qed.

  Lemma push_J n V Q B C S d next b : D n -> whole_bind b -> J n V Q B C S d next ->
    J n V Q (B ++ [b]) C S (push d n b) next.
  Proof.
    intros Hn Hb HJ. pose proof (j_okd _ _ _ _ _ _ _ _ HJ) as Hok.
    assert (push d n b = dset d n (match dget d n with Some l => l | None => [] end ++ [b])) as Ep.
    { unfold push. destruct (dget d n); reflexivity. }
    destruct HJ. split; auto.
    - rewrite Ep. apply okd_dset; auto. apply Forall_app. split; auto.
      destruct (dget d n) eqn:E; [|constructor]. eapply dget_W; eauto.
    - intros k x Hk. specialize (j_holds0 k x Hk). rewrite Ep. unfold holds in *.
      destruct (dget_dset_p D HD d n (match dget d n with Some l => l | None => [] end ++ [b]) k) as [H1 H2]; auto; [apply Hok|].
      destruct (chain_eq k n) eqn:E.
      + apply HD in E; auto. rewrite (H1 E). rewrite (dget_path D HD d k n) in j_holds0; auto; [|apply Hok].
        rewrite in_app_iff. split.
        * intros (l & El & Hx). injection El as <-. apply in_app_iff in Hx as [Hx|[<-|[]]]; [|right; simpl; auto].
          destruct (dget d n) as [l|]; [|destruct Hx]. destruct (proj1 j_holds0) as [H|H]; eauto. right. tauto.
        * intros H. eexists. split; [reflexivity|]. apply in_app_iff.
          assert ((exists q, In q Q /\ path q = path k /\ In x (bl q)) \/ (path k = path n /\ In x B) \/ b = x) as [H'|[[_ H']| ->]].
          { destruct H as [H|[_ [H|[H|[]]]]]; auto. }
          -- destruct (proj2 j_holds0) as (l & El & Hx); auto. rewrite El. auto.
          -- destruct (proj2 j_holds0) as (l & El & Hx); auto. rewrite El. auto.
          -- right; simpl; auto.
      + assert (path k <> path n) as Hp by (intros Hp; rewrite (path_ceq D HD) in E; auto; discriminate).
        rewrite (H2 Hp). rewrite j_holds0. split; intros [H|H]; auto; tauto.
  Qed.

  Lemma other_clock_none b : other_clock topmodule clock b = Ok None -> forall c, ~ clocked_by main b c.
  Proof.
    unfold other_clock, clocked_by. intros E c (a & Ha & Hc & He & Hn). rewrite Ha in E.
    unfold always_isClockEdge, edge_is in E. rewrite Hc in E. simpl in E.
    assert (chain_eq c main = false) as Hf by (destruct (chain_eq c main) eqn:E'; auto; apply chain_eq_agree in E'; tauto).
    fold main in E. rewrite Hf in E. destruct He as [He|He]; rewrite He in E; simpl in E; discriminate.
  Qed.
  Lemma clocked_unique b c c' : clocked_by main b c -> clocked_by main b c' -> c = c'.
  Proof. intros (a & A1 & A2 & _) (a' & A1' & A2' & _). rewrite A1 in A1'. injection A1' as <-. congruence. Qed.

  Lemma bind_loop_J rec n V l : D n ->
    (forall c V' d N, D c -> ind V' -> rec c V' = Ok (d, N) -> exists Q, post c V' d N Q) ->
    forall B C Q d next d' N', (forall b, In b l -> In b (bl n)) -> J n V Q B C [] d next ->
    bind_loop topmodule clock rec n l d next = Ok (d', N') ->
    exists Q', J n V Q' (B ++ l) (C ++ l) [] d' N'.
  Proof.
    intros Hn Hrec. induction l as [|b l IH]; intros B C Q d next d' N' Hl HJ E; cbn [bind_loop] in E.
    - injection E as <- <-. rewrite !app_nil_r. eauto.
    - assert (In b (bl n)) as Hb by (apply Hl; simpl; auto).
      apply (push_J _ _ _ _ _ _ _ _ b Hn (bl_whole _ _ Hn Hb)) in HJ.
      apply bind_ok in E as (oc & E1 & E). destruct oc as [c|].
      + apply bind_ok in E as ((dx & Nx) & E2 & E). apply bind_ok in E as (d2 & E3 & E). simpl in E, E3.
        assert (clocked_by main b c) as Hc by (unfold main; now apply other_clock_some).
        assert (D c) as Dc by (eapply (ds_clocks _ _ _ _ Hdes); eauto).
        destruct (Hrec c next dx Nx Dc (j_next _ _ _ _ _ _ _ _ HJ) E2) as (Qx & HP).
        assert (J n V (Q ++ Qx) (B ++ [b]) (C ++ [b]) [] d2 (sunion next Nx)) as HJ'.
        { pose proof (J_step _ _ _ _ _ _ _ _ c next dx Nx Qx d2 HJ Dc) as HS.
          destruct HS as [S1 S2 S3 S4 S5 S6 S7 S8 S9 S10 S11 S12 S13]; auto. { right; eauto. }
          split; auto. intros b' c' Hb' Hc'. apply in_app_iff in Hb' as [Hb'|[<-|[]]]; [eauto|].
          rewrite (clocked_unique _ _ _ Hc' Hc). apply in_path_app. right. exists c. split; auto. apply (p_self _ _ _ _ _ HP). }
        destruct (IH _ _ _ _ _ _ _ ltac:(intros; apply Hl; simpl; auto) HJ' E) as (Q' & H).
        rewrite <- !app_assoc in H. eauto.
      + assert (J n V Q (B ++ [b]) (C ++ [b]) [] (push d n b) next) as HJ'.
        { destruct HJ. split; auto. intros b' c' Hb' Hc'. apply in_app_iff in Hb' as [Hb'|[<-|[]]]; [eauto|].
          exfalso. eapply other_clock_none; eauto. }
        destruct (IH _ _ _ _ _ _ _ ltac:(intros; apply Hl; simpl; auto) HJ' E) as (Q' & H).
        rewrite <- !app_assoc in H. eauto.
  Qed.

  Lemma src_loop_J rec n V l : D n -> ind V ->
    (forall c V' d N, D c -> ind V' -> rec c V' = Ok (d, N) -> exists Q, post c V' d N Q) ->
    forall B C S Q d next d' N', (forall s, In s l -> In s (df' n)) -> J n V Q B C S d next ->
    src_loop rec V l d next = Ok (d', N') ->
    exists Q', J n V Q' B C (S ++ l) d' N'.
  Proof.
    intros Hn HV Hrec. induction l as [|s l IH]; intros B C S Q d next d' N' Hl HJ E; cbn [src_loop] in E.
    - injection E as <- <-. rewrite !app_nil_r. eauto.
    - assert (In s (df' n)) as Hs by (apply Hl; simpl; auto).
      assert (D s) as Ds by (pose proof (defs_ind n Hn) as H; rewrite Forall_forall in H; auto).
      destruct (smem V s) eqn:Es.
      + apply smem_path in Es; auto.
        assert (J n V Q B C (S ++ [s]) d next) as HJ'.
        { destruct HJ. split; auto. intros x Hx. apply in_app_iff in Hx as [Hx|[<-|[]]]; [auto|]. split; auto.
          apply (in_path_incl s V); auto. }
        destruct (IH _ _ _ _ _ _ _ _ ltac:(intros; apply Hl; simpl; auto) HJ' E) as (Q' & H).
        rewrite <- !app_assoc in H. eauto.
      + apply bind_ok in E as ((dx & Nx) & E2 & E). apply bind_ok in E as (d2 & E3 & E). simpl in E, E3.
        assert (ind (sadd next s)) as Hi by (apply sadd_ind; auto; apply (j_next _ _ _ _ _ _ _ _ HJ)).
        destruct (Hrec s (sadd next s) dx Nx Ds Hi E2) as (Qx & HP).
        assert (J n V (Q ++ Qx) B C (S ++ [s]) d2 (sunion (sadd next s) Nx)) as HJ'.
        { pose proof (j_next _ _ _ _ _ _ _ _ HJ) as Hnext.
          pose proof (J_step _ _ _ _ _ _ _ _ s (sadd next s) dx Nx Qx d2 HJ Ds) as HS.
          destruct HS as [S1 S2 S3 S4 S5 S6 S7 S8 S9 S10 S11 S12 S13]; auto.
          { left; auto. } { intros m Hm. apply sadd_in in Hm as [Hm| ->]; auto. } { intros; now apply sadd_old. }
          split; auto. intros x Hx. apply in_app_iff in Hx as [Hx|[<-|[]]]; [auto|]. split.
          - apply (in_path_incl s (sadd next s)); [intros; now apply sunion_old|]. now apply sadd_new.
          - right. apply in_path_app. right. exists s. split; auto. apply (p_self _ _ _ _ _ HP). }
        destruct (IH _ _ _ _ _ _ _ _ ltac:(intros; apply Hl; simpl; auto) HJ' E) as (Q' & H).
        rewrite <- !app_assoc in H. eauto.
  Qed.

  Lemma J_init n V : ind V -> J n V [] [] [] [] [] V.
  Proof.
    intros HV. split; try (intros; contradiction); auto.
    - intros m Hm. left. exists m; auto.
    - split; [constructor|split; constructor].
    - intros k x Hk. unfold holds. simpl. split; [intros (l & El & _); discriminate|]. intros [(q & [] & _)|[_ []]].
  Qed.

  Lemma gbs_post f : forall n V d N, D n -> ind V -> gbs f n V = Ok (d, N) -> exists Q, post n V d N Q.
  Proof.
    induction f as [|f IH]; intros n V d N Hn HV E; cbn [gbs getBindSubset] in E; [discriminate|].
    destruct (dget terms n); [|discriminate].
    apply bind_ok in E as ((d1 & N1) & E1 & E). apply bind_ok in E as (srcs & E2 & E). simpl in E.
    destruct (bind_loop_J (gbs f) n V (bl n) Hn IH [] [] [] [] V d1 N1 ltac:(auto) (J_init n V HV) E1) as (Q1 & J1).
    pose proof (sources_defs n srcs Hn E2) as Hsrc.
    destruct (src_loop_J (gbs f) n V (order srcs) Hn HV IH _ _ _ _ _ _ _ _ ltac:(intros s Hs; apply Hsrc, order_iff, Hs) J1 E) as (Q2 & J2).
    simpl in J2. exists (n :: Q2). destruct J2. split.
    - simpl; auto.
    - constructor; auto.
    - intros q [<-|Hq]; [apply r_refl|auto].
    - intros q m [<-|Hq] Hm.
      + destruct (j_S0 m) as [_ [H|H]]; [apply order_iff, Hsrc, Hm|auto|].
        right. apply (in_path_incl m Q2); auto. simpl; auto.
      + destruct (j_defs0 q m Hq Hm) as [H|H]; auto. right. apply (in_path_incl m Q2); auto. simpl; auto.
    - intros q b c [<-|Hq] Hb Hc; (apply (in_path_incl c Q2); [simpl; auto|eauto]).
    - intros m Hm. destruct (j_sound0 m Hm) as [H|[H|(q & Hq & H)]]; auto; right.
      + exists n. simpl; auto.
      + exists q. simpl; auto.
    - auto.
    - intros q m [<-|Hq] Hm; [|eauto]. apply (j_S0 m). apply order_iff, Hsrc, Hm.
    - auto.
    - intros k x Hk. rewrite (j_holds0 k x Hk). simpl. split.
      + intros [(q & Hq & H)|[Hp Hx]]; [exists q|exists n]; auto.
      + intros (q & [<-|Hq] & Hp & Hx); [right|left; exists q]; auto.
  Qed.

  (** The target loop: everything seen so far has been followed. *)
  Record TJ (T : list chain) (Q : list chain) (d : bset) (V : list chain) : Prop := {
    t_D : ind Q; t_V : ind V;
    t_targets : forall t, In t T -> In t Q;
    t_reach : forall q, In q Q -> exists t, In t T /\ reaches terms binds main t q;
    t_defs : forall q m, In q Q -> In m (df' q) -> in_path m Q /\ in_path m V;
    t_clocks : forall q b c, In q Q -> In b (bl q) -> clocked_by main b c -> in_path c Q;
    t_sound : forall m, In m V -> exists q, In q Q /\ In m (df' q);
    t_okd : okd d;
    t_holds : forall k x, D k -> (holds d k x <-> exists q, In q Q /\ path q = path k /\ In x (bl q))
  }.
  Lemma targets_TJ f ts : ind ts -> forall T Q d V d' N, TJ T Q d V ->
    targets_loop terms binds topmodule clock order f ts d V = Ok (d', N) -> exists Q', TJ (T ++ ts) Q' d' N.
  Proof.
    induction 1 as [|t ts Ht Hts IH]; intros T Q d V d' N HT E; cbn [targets_loop] in E.
    - injection E as <- <-. rewrite app_nil_r. eauto.
    - apply bind_ok in E as ((dx & Nx) & E2 & E). apply bind_ok in E as (d2 & E3 & E). simpl in E, E3.
      destruct (gbs_post f t V dx Nx Ht (t_V _ _ _ _ HT) E2) as (Qx & HP).
      pose proof (post_N_ind _ _ _ _ _ HP (t_V _ _ _ _ HT)) as HN.
      assert (forall q m, In q Qx -> In m (df' q) -> in_path m (Q ++ Qx)) as Hdx.
      { intros q m Hq Hm. apply in_path_app. destruct (p_defs _ _ _ _ _ HP q m Hq Hm) as [(m' & Hm' & Ep)|H]; auto. left.
        destruct (t_sound _ _ _ _ HT m' Hm') as (q' & Hq' & Hd). destruct (t_defs _ _ _ _ HT q' m' Hq' Hd) as [(z & Hz & Ez) _].
        exists z. split; auto. congruence. }
      assert (TJ (T ++ [t]) (Q ++ Qx) d2 (sunion V Nx)) as HT'.
      { split.
        - apply Forall_app. split; [apply (t_D _ _ _ _ HT)|apply (p_D _ _ _ _ _ HP)].
        - apply sunion_ind; auto. apply (t_V _ _ _ _ HT).
        - intros x Hx. apply in_app_iff. apply in_app_iff in Hx as [Hx|[<-|[]]]; [left|right].
          + now apply (t_targets _ _ _ _ HT).
          + apply (p_self _ _ _ _ _ HP).
        - intros q Hq. apply in_app_iff in Hq as [Hq|Hq].
          + destruct (t_reach _ _ _ _ HT q Hq) as (x & Hx & Hr). exists x. rewrite in_app_iff. auto.
          + exists t. rewrite in_app_iff. split; [simpl; auto|]. now apply (p_reach _ _ _ _ _ HP).
        - intros q m Hq Hm. apply in_app_iff in Hq as [Hq|Hq].
          + destruct (t_defs _ _ _ _ HT q m Hq Hm) as [H1 H2]. split; [apply in_path_app; auto|].
            apply (in_path_incl m V); auto. intros; now apply sunion_old.
          + split; [eauto|]. apply sunion_new; auto; [apply (t_V _ _ _ _ HT)|]. eapply (p_all _ _ _ _ _ HP); eauto.
        - intros q b c Hq Hb Hc. apply in_path_app. apply in_app_iff in Hq as [Hq|Hq].
          + left. eapply (t_clocks _ _ _ _ HT); eauto.
          + right. eapply (p_clocks _ _ _ _ _ HP); eauto.
        - intros m Hm. assert (In m V \/ exists q, In q Qx /\ In m (df' q)) as [H|(q & Hq & H)].
          { apply sunion_in in Hm as [Hm|Hm]; auto. now apply (p_sound _ _ _ _ _ HP). }
          + destruct (t_sound _ _ _ _ HT m H) as (q & Hq & H'). exists q. rewrite in_app_iff. auto.
          + exists q. rewrite in_app_iff. auto.
        - destruct (merge_ok bind_eq whole_bind bind_eq_ok D HD dx (p_okd _ _ _ _ _ HP) d (t_okd _ _ _ _ HT)) as (r & Er & Hr & _).
          rewrite E3 in Er. injection Er as <-. exact Hr.
        - intros k x Hk. unfold holds.
          rewrite (merge_holds bind_eq whole_bind bind_eq_ok D HD d dx d2 k x (t_okd _ _ _ _ HT) (p_okd _ _ _ _ _ HP) Hk E3).
          fold (holds d k x). fold (holds dx k x). rewrite (t_holds _ _ _ _ HT k x Hk), (p_holds _ _ _ _ _ HP k x Hk).
          split.
          + intros [(q & Hq & H)|(q & Hq & H)]; exists q; rewrite in_app_iff; auto.
          + intros (q & Hq & H). apply in_app_iff in Hq as [Hq|Hq]; [left|right]; eauto. }
      destruct (IH _ _ _ _ _ _ HT' E) as (Q' & H). rewrite <- app_assoc in H. eauto.
  Qed.
  Lemma TJ_init : TJ [] [] [] [].
  Proof.
    split; try (intros; contradiction); try constructor.
    - constructor.
    - split; constructor.
    - intros (l & El & _); discriminate.
    - intros (q & [] & _).
  Qed.

  (** Reachable names are followed. *)
  Lemma uses_path a b m : D a -> D b -> path a = path b -> uses terms binds main a m -> uses terms binds main b m.
  Proof.
    intros Ha Hb E. unfold uses. fold (bl a) (bl b). rewrite (bl_path a b) by auto. intros [H|H]; auto. left.
    revert H. unfold defs. fold (bl a) (bl b). rewrite (bl_path a b) by auto.
    rewrite (dget_path D HD terms a b); auto. apply (ds_terms _ _ _ _ Hdes).
  Qed.
  Lemma uses_D a m : D a -> uses terms binds main a m -> D m.
  Proof.
    intros Ha [H|(b & Hb & Hc)].
    - pose proof (defs_ind a Ha) as HF. rewrite Forall_forall in HF; auto.
    - eapply (ds_clocks _ _ _ _ Hdes); eauto.
  Qed.
  Lemma TJ_closed T Q d V t m : TJ T Q d V -> D t -> In t T -> reaches terms binds main t m -> D m /\ in_path m Q.
  Proof.
    intros HT Dt Ht Hr. induction Hr as [|m k Hr [Dm (q & Hq & Ep)] Hu].
    - split; auto. exists t. split; auto. now apply (t_targets _ _ _ _ HT).
    - split; [eapply uses_D; eauto|].
      assert (D q) as Dq by (pose proof (t_D _ _ _ _ HT) as H; rewrite Forall_forall in H; auto).
      apply (uses_path m q k Dm Dq (eq_sym Ep)) in Hu. destruct Hu as [H|(b & Hb & Hc)].
      + now apply (t_defs _ _ _ _ HT q k).
      + now apply (t_clocks _ _ _ _ HT q b k).
  Qed.

  Theorem subset_exact f targets d N : ind (map toTermname_str targets) ->
    getBindSourceSubset terms binds topmodule clock order f targets = Ok (d, N) ->
    distinct_keys d /\
    (forall p x, holds_under d p x <->
       exists t m, In t (map toTermname_str targets) /\ reaches terms binds main t m /\ path m = p /\ In x (bl m)) /\
    (forall m, In m N -> exists t q, In t (map toTermname_str targets) /\ reaches terms binds main t q /\ In m (df' q)) /\
    (forall t q m, In t (map toTermname_str targets) -> reaches terms binds main t q -> In m (df' q) -> in_path m N).
  Proof.
    intros HT E. unfold getBindSourceSubset in E.
    destruct (targets_TJ f _ HT _ _ _ _ _ _ TJ_init E) as (Q & HQ). simpl in HQ.
    pose proof (t_okd _ _ _ _ HQ) as Hok. pose proof (t_D _ _ _ _ HQ) as HQD. rewrite Forall_forall in HQD.
    rewrite Forall_forall in HT.
    split; [apply Hok|]. split; [|split].
    - intros p x. split.
      + intros (k & l & Hin & Hp & Hx).
        assert (D k) as Dk by (pose proof (proj1 Hok) as H; unfold keys_in in H; rewrite Forall_forall in H; apply (H _ Hin)).
        assert (holds d k x) as H.
        { exists l. split; auto. eapply (dget_of_in D HD); eauto; apply Hok. }
        apply (t_holds _ _ _ _ HQ k x Dk) in H as (q & Hq & Hpq & Hb).
        destruct (t_reach _ _ _ _ HQ q Hq) as (t & Ht & Hr). exists t, q. rewrite Hpq, Hp. auto.
      + intros (t & m & Ht & Hr & Hp & Hx).
        destruct (TJ_closed _ _ _ _ t m HQ (HT _ Ht) Ht Hr) as [Dm (q & Hq & Eq)].
        rewrite (bl_path m q) in Hx; auto.
        assert (holds d q x) as (l & El & Hl) by (apply (t_holds _ _ _ _ HQ q x); eauto).
        apply (dget_some D HD) in El as (k' & Hin & _ & Ek); auto; [|apply Hok]. exists k', l. split; auto. split; auto. congruence.
    - intros m Hm. destruct (t_sound _ _ _ _ HQ m Hm) as (q & Hq & Hd). destruct (t_reach _ _ _ _ HQ q Hq) as (t & Ht & Hr). eauto.
    - intros t q m Ht Hr Hm. destruct (TJ_closed _ _ _ _ t q HQ (HT _ Ht) Ht Hr) as [Dq (q' & Hq' & Ep)].
      assert (In m (df' q')) as Hm'.
      { unfold df', defs in *. fold (bl q) in Hm. fold (bl q'). rewrite (bl_path q' q) by auto.
        rewrite (dget_path D HD terms q' q); auto. apply (ds_terms _ _ _ _ Hdes). }
      now apply (t_defs _ _ _ _ HQ q' m).
  Qed.

  (** No exception on complete designs. *)
  Hypothesis Hcomp : complete terms binds D.
  Definition okf {A} (r : res A) : Prop := (exists x, r = Ok x) \/ r = Err OutOfFuel.
  Lemma sources_succeed n : D n -> exists l, getBindSources terms binds n = Ok l.
  Proof.
    intros Hn. destruct (cp_trees _ _ _ Hcomp n Hn) as [Ht Hb].
    assert (forall t, occurs (src_bad false) t = false -> exists l, getTreeSources t = Ok l) as HS by (intros t Ho; now apply sources_ok).
    assert (forall l acc, Forall (fun p => occurs (src_bad false) (fst p) = false /\ occurs (src_bad false) (snd p) = false) l ->
              exists r, dims_sources l acc = Ok r) as HDm.
    { induction l as [|[a b] l IH]; intros acc HF; cbn [dims_sources]; [eauto|]. inv HF. simpl in *.
      destruct (HS a) as (x & ->); [tauto|]. destruct (HS b) as (y & ->); [tauto|]. simpl. apply IH. auto. }
    assert (forall l acc, Forall (fun b => occurs (src_bad false) (b_msb b) = false /\ occurs (src_bad false) (b_lsb b) = false /\
              occurs (src_bad false) (b_ptr b) = false /\ occurs (src_bad false) (b_tree b) = false) l ->
              exists r, binds_sources l acc = Ok r) as HB.
    { induction l as [|b l IH]; intros acc HF; cbn [binds_sources]; [eauto|]. inv HF. destruct H1 as (B1 & B2 & B3 & B4).
      destruct (HS _ B1) as (x & ->), (HS _ B2) as (y & ->), (HS _ B3) as (z & ->), (HS _ B4) as (w & ->). simpl. apply IH. auto. }
    unfold getBindSources.
    assert (exists x, getTermSources terms n = Ok x) as (x & ->).
    { unfold getTermSources. destruct (dget terms n) as [t|]; [|eauto]. destruct Ht as (T1 & T2 & T3).
      destruct (HS _ T1) as (x & ->), (HS _ T2) as (y & ->). simpl. destruct (t_dims t); [apply HDm; auto|eauto]. }
    unfold getBindinfoSources. simpl. destruct (HB (getBindlist binds n) [] Hb) as (y & ->). simpl. eauto.
  Qed.
  Lemma rec_case f n V : (forall c V', D c -> ind V' -> okf (gbs f c V')) -> D n -> ind V ->
    gbs f n V = Err OutOfFuel \/ exists d N, gbs f n V = Ok (d, N) /\ okd d /\ ind N.
  Proof.
    intros H Hn HV. destruct (H n V Hn HV) as [((d & N) & E)|E]; auto. right. exists d, N. split; auto.
    destruct (gbs_post f n V d N Hn HV E) as (Q & HP). split; [apply (p_okd _ _ _ _ _ HP)|eapply post_N_ind; eauto].
  Qed.
  Lemma push_okd d n b : okd d -> D n -> whole_bind b -> okd (push d n b).
  Proof.
    intros Hd Hn Hb. unfold push. destruct (dget d n) eqn:E; apply okd_dset; auto.
    apply Forall_app. split; auto. eapply dget_W; eauto.
  Qed.
  Lemma merge_succeeds d dx : okd d -> okd dx -> exists r, dictlistmerge bind_eq d dx = Ok r /\ okd r.
  Proof.
    intros Hd Hx. destruct (merge_ok bind_eq whole_bind bind_eq_ok D HD dx Hx d Hd) as (r & E & Hr & _). eauto.
  Qed.
  Lemma bind_loop_okf f n l : (forall c V', D c -> ind V' -> okf (gbs f c V')) -> D n -> (forall b, In b l -> In b (bl n)) ->
    forall d next, okd d -> ind next ->
    bind_loop topmodule clock (gbs f) n l d next = Err OutOfFuel \/
    exists d' N, bind_loop topmodule clock (gbs f) n l d next = Ok (d', N) /\ okd d' /\ ind N.
  Proof.
    intros Hrec Hn. induction l as [|b l IH]; intros Hl d next Hd Hnext; cbn [bind_loop].
    - right. eauto.
    - assert (In b (bl n)) as Hb by (apply Hl; simpl; auto).
      assert (okd (push d n b)) as Hp by (apply push_okd; auto; eapply bl_whole; eauto).
      destruct (other_clock topmodule clock b) as [[c|]|e] eqn:E; simpl.
      + apply other_clock_some in E. assert (D c) as Dc by (eapply (ds_clocks _ _ _ _ Hdes); eauto).
        destruct (rec_case f c next Hrec Dc Hnext) as [-> |(dx & Nx & -> & Hdx & HNx)]; simpl; auto.
        destruct (merge_succeeds _ _ Hp Hdx) as (d2 & -> & Hd2). simpl. apply IH; auto; [intros; apply Hl; simpl; auto|].
        apply sunion_ind; auto.
      + apply IH; auto. intros; apply Hl; simpl; auto.
      + exfalso. unfold other_clock in E. destruct (b_always b) as [a|] eqn:Ea; [|discriminate].
        pose proof (cp_clocks _ _ _ Hcomp n b a Hn Hb Ea) as Hc. destruct (always_isClockEdge a); [|discriminate].
        destruct (clock_name a); try discriminate. congruence.
  Qed.
  Lemma src_loop_okf f n V l : (forall c V', D c -> ind V' -> okf (gbs f c V')) -> D n -> ind l ->
    forall d next, okd d -> ind next ->
    src_loop (gbs f) V l d next = Err OutOfFuel \/ exists x, src_loop (gbs f) V l d next = Ok x.
  Proof.
    intros Hrec Hn. induction 1 as [|s l Hs Hl IH]; intros d next Hd Hnext; cbn [src_loop]; [right; eauto|].
    destruct (smem V s); [auto|].
    destruct (rec_case f s (sadd next s) Hrec Hs (sadd_ind _ _ Hnext Hs)) as [-> |(dx & Nx & -> & Hdx & HNx)]; simpl; auto.
    destruct (merge_succeeds _ _ Hd Hdx) as (d2 & -> & Hd2). simpl. apply IH; auto. apply sunion_ind; auto. apply sadd_ind; auto.
  Qed.
  Lemma gbs_okf f : forall n V, D n -> ind V -> okf (gbs f n V).
  Proof.
    unfold okf. induction f as [|f IH]; intros n V Hn HV; cbn [gbs getBindSubset]; [auto|].
    pose proof (cp_terms _ _ _ Hcomp n Hn) as Ht. destruct (dget terms n); [|congruence].
    destruct (bind_loop_okf f n (bl n) IH Hn ltac:(auto) [] V) as [E|(d1 & N1 & E & Hd1 & HN1)]; auto.
    { split; [constructor|split; constructor]. }
    { unfold bl in E. rewrite E. auto. }
    unfold bl in E. rewrite E. simpl. destruct (sources_succeed n Hn) as (srcs & Es). rewrite Es. simpl.
    destruct (src_loop_okf f n V (order srcs) IH Hn) with (d := d1) (next := N1) as [E'|E']; auto.
    apply Forall_forall. intros s Hs. apply (proj1 (order_iff _ _)) in Hs. apply (sources_defs n srcs Hn Es) in Hs.
    pose proof (defs_ind n Hn) as H. rewrite Forall_forall in H; auto.
  Qed.
  Lemma targets_okf f ts : ind ts -> forall d V, okd d -> ind V -> okf (targets_loop terms binds topmodule clock order f ts d V).
  Proof.
    unfold okf. induction 1 as [|t ts Ht Hts IH]; intros d V Hd HV; cbn [targets_loop]; [eauto|].
    destruct (rec_case f t V (gbs_okf f) Ht HV) as [E|(dx & Nx & E & Hdx & HNx)]; unfold gbs in E; rewrite E; simpl; auto.
    destruct (merge_succeeds _ _ Hd Hdx) as (d2 & -> & Hd2). simpl. apply IH; auto. apply sunion_ind; auto.
  Qed.
  Theorem subset_succeeds (rank : chain -> nat) targets :
    (forall n b c, In b (getBindlist binds n) -> clocked_by main b c -> rank c < rank n) ->
    ind (map toTermname_str targets) ->
    exists x f0, forall f, f0 <= f -> getBindSourceSubset terms binds topmodule clock order f targets = Ok x.
  Proof.
    intros Hr HT.
    destruct (targets_settle terms binds topmodule clock order (fun l m H => proj1 (order_iff l m) H) rank Hr
                (map toTermname_str targets) [] []) as (r & f0 & Hnf & Hs).
    assert (okf r) as [(x & ->)|E]; [|exists x, f0; exact Hs|congruence].
    rewrite <- (Hs f0 (le_n _)). apply targets_okf; auto. split; [constructor|split; constructor].
  Qed.
End Exact.
