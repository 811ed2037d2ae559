From Verif Require Import Base ScopeModel ScopeSpec ScopeProofs DfModel BindModel BindSpec OptModel OptSpec OptProofs BindProofs WalkModel WalkSpec ResolveModel ResolveSpec.
Require Import Coq.Sorting.Permutation Coq.Sorting.Sorted.

(** ** Sorting by depth *)
Definition before {A} (l : list A) (x y : A) : Prop := exists l1 l2, l = l1 ++ x :: l2 /\ In y l2.
Lemma before_cons {A} (a : A) l x y : before (a :: l) x y <-> (x = a /\ In y l) \/ before l x y.
Proof.
  split.
  - intros ([|b l1] & l2 & E & H); injection E as -> ->; [left; auto|right; exists l1, l2; auto].
  - intros [[-> H]|(l1 & l2 & -> & H)]; [exists [], l; auto|exists (a :: l1), l2; auto].
Qed.
Section Sort.
  Context {A : Type} (key : A -> nat).
  Let leb (a b : A) := (key a <=? key b)%nat.
  Lemma insert_in a l x : In x (insert_by leb a l) <-> x = a \/ In x l.
  Proof. induction l as [|y r IH]; cbn; [intuition|]. destruct (leb a y); cbn; [intuition|]. rewrite IH. intuition. Qed.
  Lemma insert_before a l x y : before l x y -> before (insert_by leb a l) x y.
  Proof.
    induction l as [|z r IH]; [intros ([|] & ? & E & _); discriminate E|]. cbn [insert_by]. destruct (leb a z); [intros H; apply before_cons; now right|].
    rewrite !before_cons. intros [[-> H]|H]; [left; split; auto; apply insert_in; auto|right; auto].
  Qed.
  Lemma insert_first a l y : leb a y = true -> In y l -> before (insert_by leb a l) a y.
  Proof.
    intros H. induction l as [|z r IH]; [contradiction|]. cbn [insert_by]. destruct (leb a z) eqn:E; [intros K; apply before_cons; left; auto|]. intros [-> |K]; [congruence|]. apply before_cons. right. auto.
  Qed.
  Lemma insert_last a l y : Sorted (fun a b => leb a b = true) l -> leb a y = false -> In y l -> before (insert_by leb a l) y a.
  Proof.
    intros HS H. apply Sorted_StronglySorted in HS; [|intros u v w; unfold leb; rewrite !Nat.leb_le; lia]. induction HS as [|z r HS IH HF]; [contradiction|]. cbn [insert_by]. rewrite Forall_forall in HF. destruct (leb a z) eqn:E.
    - intros [-> |K]; [congruence|]. specialize (HF y K). unfold leb in *. rewrite Nat.leb_le in *. apply Nat.leb_gt in H. lia.
    - intros [-> |K]; apply before_cons; [left; split; auto; apply insert_in; auto|right; auto].
  Qed.
  Lemma sort_before l x y : (key x < key y)%nat -> In x l -> In y l -> before (sort_by leb l) x y.
  Proof.
    intros HK. induction l as [|a r IH]; [contradiction|]. cbn [sort_by]. intros [-> |Hx] [-> |Hy]; [lia| | |].
    - apply insert_first; [apply Nat.leb_le; lia|now apply sort_by_in].
    - apply insert_last; [apply sort_by_sorted; intros u v; unfold leb; rewrite !Nat.leb_le; lia|apply Nat.leb_gt; lia|now apply sort_by_in].
    - apply insert_before; auto.
  Qed.
  Lemma sort_stable l x y : key x = key y -> before l x y -> before (sort_by leb l) x y.
  Proof.
    intros HK. induction l as [|a r IH]; [intros ([|] & ? & E & _); discriminate E|]. rewrite before_cons. cbn [sort_by]. intros [[-> H]|H]; [apply insert_first; [apply Nat.leb_le; lia|now apply sort_by_in]|apply insert_before; auto].
  Qed.
End Sort.
Lemma before_map {A B} (f : A -> B) l x y : before l x y -> before (map f l) (f x) (f y).
Proof. intros (l1 & l2 & -> & H). exists (map f l1), (map f l2). rewrite map_app. split; auto. now apply in_map. Qed.
Lemma before_map_inv {A B} (f : A -> B) l x y : before (map f l) x y -> exists a b, f a = x /\ f b = y /\ before l a b.
Proof.
  intros (l1 & l2 & E & H). apply map_eq_app in E as (k1 & k2 & -> & <- & E). destruct k2 as [|a k2]; [discriminate|]. cbn in E. injection E as <- <-. apply in_map_iff in H as (b & <- & H). exists a, b. split; auto. split; auto. exists k1, k2. auto.
Qed.
Lemma depth_order {V} (d : ndict V) n m : comes_before d n m -> In m (map fst d) -> before (map fst (by_depth d)) n m.
Proof.
  intros [H1 H2] H3. apply in_map_iff in H1 as ([n' a] & <- & H1). apply in_map_iff in H3 as ([m' b] & <- & H3). cbn [fst] in *. destruct H2 as [H2|[H2 H4]].
  - apply (before_map fst _ (n', a) (m', b)). unfold by_depth. now apply (sort_before (fun p : chain * V => length (fst p))).
  - apply before_map_inv in H4 as (p & q & <- & <- & H4). apply before_map. unfold by_depth. now apply (sort_stable (fun p : chain * V => length (fst p))).
Qed.

(** ** Folding looks at the parameters mentioned only *)
Section Local.
  Variable terms : ndict term.
  Variables C V : ndict df.
  Variable P : chain -> Prop.
  Hypothesis agree_on : forall n, P n -> dget C n = dget V n.
  Hypothesis closed : forall n t, P n -> dget V n <> None -> dget terms n = Some t -> is_none (t_msb t) || is_none (t_lsb t) = false -> (forall m, In m (signals (t_msb t)) -> P m) /\ (forall m, In m (signals (t_lsb t)) -> P m).
  Lemma optC_local k : forall t, (forall m, In m (signals t) -> P m) -> optC (OptEnv terms C) k t = optC (OptEnv terms V) k t.
  Proof.
    induction k as [|k IH]; intros t H; [reflexivity|].
    assert (forall l, (forall m, In m (flat_map signals l) -> P m) -> mapM (optC (OptEnv terms C) k) l = mapM (optC (OptEnv terms V) k) l) as HL.
    { intros l Hl. apply mapM_ext_Forall, Forall_forall. intros x Hx. apply IH. intros m Hm. apply Hl, in_flat_map. eauto. }
    destruct t as [|n|s|s|s|xs o|x m l|x q|xs|c a b|v w f g|w|w|x|s xs]; try reflexivity; cbn [optC o_const o_terms].
    - rewrite (agree_on n) by (apply H; left; reflexivity). destruct (dget V n) as [c|] eqn:EC; [|reflexivity]. assert (dget V n <> None) as NC by congruence. destruct (dget terms n) as [t|] eqn:ET; [|reflexivity]. destruct c; try reflexivity. destruct (is_none (t_msb t) || is_none (t_lsb t)) eqn:EN; [reflexivity|].
      destruct (closed n t (H n (or_introl eq_refl)) NC ET EN) as [K1 K2]. now rewrite (IH (t_msb t) K1), (IH (t_lsb t) K2).
    - now rewrite (HL xs H).
    - cbn [signals] in H. rewrite (IH x), (IH m), (IH l) by (intros j Hj; apply H; rewrite !in_app_iff; tauto). reflexivity.
    - destruct x; try reflexivity. destruct (dget terms name); [|reflexivity]. cbn [signals] in H. rewrite (IH (DTerm name)), (IH q) by (intros j Hj; apply H; rewrite in_app_iff; tauto). reflexivity.
    - now rewrite (HL xs H).
    - cbn [signals] in H. rewrite (IH c), (IH a), (IH b) by (intros j Hj; apply H; rewrite !in_app_iff; tauto). reflexivity.
    - now rewrite (HL xs H).
  Qed.
End Local.

(** The names in an expression with a value have values, and so has their range. *)
Definition in_range (terms : ndict term) (V : ndict df) (n : chain) : Prop :=
  (exists c, dget V n = Some c) /\ forall t, dget terms n = Some t -> is_none (t_msb t) || is_none (t_lsb t) = false ->
  (exists v w, folds (OptEnv terms V) (t_msb t) v w) /\ (exists v w, folds (OptEnv terms V) (t_lsb t) v w).
Lemma folds_signals terms V : let E := OptEnv terms V in
  (forall t v w, folds E t v w -> forall n, In n (signals t) -> in_range terms V n) /\
  (forall l vs ws, folds_list E l vs ws -> forall n, In n (flat_map signals l) -> in_range terms V n).
Proof.
  intros E. unfold E. clear E. apply folds_mut; cbn [signals flat_map o_terms o_const]; try (intros; contradiction).
  - intros n v w f g tm H1 H2 H3 m [<-|[]]. split; [eauto|]. intros t Ht HN. cbn [o_terms] in H2. rewrite Ht in H2. injection H2 as <-. destruct H3 as [K|K]; rewrite K in HN; [discriminate|rewrite orb_true_r in HN; discriminate].
  - intros n v w f g tm m l wm wl H1 H2 H3 H4 H5 _ H6 _ k [<-|[]]. split; [eauto|]. intros t Ht _. cbn [o_terms] in H2. rewrite Ht in H2. injection H2 as <-. split; eexists; eexists; eassumption.
  - intros l o vs ws v _ H _ _. exact H.
  - intros l vs ws _ H _. exact H.
  - intros x m l v wv mv wm lv wl _ H1 _ H2 _ H3 _ _ n Hn. rewrite !in_app_iff in Hn. intuition.
  - intros c a b vc wc va wa vb wb _ H1 _ H2 _ H3 n Hn. rewrite !in_app_iff in Hn. intuition.
  - intros t l v w vs ws _ H1 _ H2 n Hn. apply in_app_iff in Hn. intuition.
Qed.

Section Resolve.
  Variable terms : ndict term.
  Variable binds : ndict (list bind_).
  Variable V : ndict df.
  Hypothesis HP : plain_names terms binds.
  Hypothesis HO : declared_before_use terms binds.
  Hypothesis HS : solves terms binds V.

  Lemma binds_unique n bs : In (n, bs) binds -> dget binds n = Some bs.
  Proof.
    destruct HP as (_ & H & HN). revert H HN. clear. induction binds as [|[m b] r IH]; [contradiction|]. cbn [dget map fst]. intros H HN [E|K].
    - injection E as -> ->. now rewrite chain_eq_refl.
    - inversion H as [|? ? Hm Hr]; subst. inversion HN as [|? ? Hx Hn]; subst. destruct (chain_eq m n) eqn:E; [|now apply IH]. exfalso. rewrite Forall_forall in Hr. apply chain_eq_no_any in E; [|exact Hm|exact (Hr _ K)]. subst m. apply Hx. apply in_map_iff. exists (n, bs). auto.
  Qed.
  Lemma binds_plain n : In n (map fst binds) -> no_any n.
  Proof. intros H. apply in_map_iff in H as (p & <- & H). destruct HP as (_ & K & _). rewrite Forall_forall in K. auto. Qed.
  Lemma is_parameter_iff t : is_parameter t = true <-> parameter t.
  Proof.
    assert (forall s, isType (t_type t) s = true <-> has_type t s) as HT.
    { intros s. unfold isType, has_type. rewrite existsb_exists. split; [intros (x & H1 & H2); apply String.eqb_eq in H2; now subst|]. intros H. exists s. split; [exact H|apply String.eqb_refl]. }
    unfold is_parameter, parameter. rewrite orb_true_iff, !HT. reflexivity.
  Qed.
  (** A depth at which all the definitions fold. *)
  Lemma enough_depth : exists k0, forall k, (k0 <= k)%nat -> forall n b bs c, In (n, b :: bs) binds -> dget V n = Some c -> optC (OptEnv terms V) k (b_tree b) = Ok c.
  Proof.
    assert (forall l, incl l binds -> exists k0, forall k, (k0 <= k)%nat -> forall n b bs c, In (n, b :: bs) l -> dget V n = Some c -> optC (OptEnv terms V) k (b_tree b) = Ok c) as K.
    { induction l as [|[n bs] r IH]; intros HI; [exists 0%nat; intros; contradiction|]. destruct IH as (k1 & IH); [intros x Hx; apply HI; right; exact Hx|].
      destruct (dget V n) as [c|] eqn:EV.
      - destruct (HS n c) as (t & b & bs' & v & w & _ & _ & H1 & H2 & ->); [apply binds_plain; apply in_map_iff; exists (n, bs); split; [reflexivity|apply HI; left; reflexivity]|exact EV|].
        destruct (proj1 (folds_optC (OptEnv terms V)) _ _ _ H2) as (k2 & H3). exists (Nat.max k1 k2). intros k Hk n' b' bs'' c' [E|Hin] Hc; [|apply (IH k ltac:(lia) n' b' bs''); auto].
        injection E as <- ->. assert (dget binds n = Some (b' :: bs'')) as E by (apply binds_unique, HI; left; reflexivity). rewrite H1 in E. injection E as -> ->. rewrite EV in Hc. injection Hc as <-. apply H3. lia.
      - exists k1. intros k Hk n' b' bs' c' [E|Hin] Hc; [injection E as -> ->; congruence|]. apply (IH k Hk n' b' bs'); auto. }
    apply K. apply incl_refl.
  Qed.

  Definition right (C : ndict df) (S : chain -> Prop) : Prop :=
    keys_plain C /\ forall n c, no_any n -> dget V n = Some c -> S n -> dget C n = Some c.

  (** A definition whose parameters are already right is evaluated right. *)
  Lemma definition_right k C S n b bs c : (forall b bs c, In (n, b :: bs) binds -> dget V n = Some c -> optC (OptEnv terms V) k (b_tree b) = Ok c) ->
    right C S -> (forall m, comes_before binds m n -> S m) -> (forall m m', S m -> comes_before binds m' m -> S m') ->
    In (n, b :: bs) binds -> dget V n = Some c -> optC (OptEnv terms C) k (b_tree b) = Ok c.
  Proof.
    intros HK [H1 H2] H3 H3' H4 H5. rewrite <- (HK b bs c H4 H5).
    assert (no_any n) as Hn by (apply binds_plain, in_map_iff; exists (n, b :: bs); auto).
    destruct (HS n c Hn H5) as (t & b' & bs' & v & w & Ht & Hp & Hb & Hf & ->). rewrite (binds_unique _ _ H4) in Hb. injection Hb as <- <-.
    apply (optC_local terms C V (fun m => S m /\ In m (map fst binds) /\ in_range terms V m)).
    - intros m (K1 & K2 & (c' & K3) & _). rewrite K3. apply H2; auto. now apply binds_plain.
    - intros m tm (K1 & K2 & K3 & K4) _ Hm HN. destruct K3 as (c' & K3). destruct (HS m c' (binds_plain m K2) K3) as (tm' & bm & bsm & vm & wm & Htm & Hpm & Hbm & _). rewrite Hm in Htm. injection Htm as <-.
      destruct (K4 tm Hm HN) as [(v1 & w1 & F1) (v2 & w2 & F2)].
      assert (forall j, In j (mentioned tm bm) -> comes_before binds j m) as HB by (intros j Hj; apply (HO m tm bm bsm j); auto; eapply binds_plain; eauto).
      unfold mentioned in HB. split; intros j Hj; (assert (comes_before binds j m) as HJ by (apply HB, in_or_app; right; apply in_or_app; tauto)); (split; [exact (H3' m j K1 HJ)|]); (split; [exact (proj1 HJ)|]); [exact (proj1 (folds_signals terms V) _ _ _ F1 j Hj)|exact (proj1 (folds_signals terms V) _ _ _ F2 j Hj)].
    - intros m Hm. assert (comes_before binds m n) as HJ by (apply (HO n t b bs m Hn Ht Hp (binds_unique _ _ H4)); unfold mentioned; apply in_or_app; auto). split; [auto|]. split; [exact (proj1 HJ)|]. exact (proj1 (folds_signals terms V) _ _ _ Hf m Hm).
  Qed.

  Lemma pass_right k : (forall n b bs c, In (n, b :: bs) binds -> dget V n = Some c -> optC (OptEnv terms V) k (b_tree b) = Ok c) ->
    forall l S C, right C S -> incl l binds ->
    (forall l1 n bs l2, l = l1 ++ (n, bs) :: l2 -> forall m, comes_before binds m n -> S m \/ In m (map fst l1)) ->
    (forall m m', S m -> comes_before binds m' m -> S m') ->
    (forall R, resolve_pass k terms l C = Ok R -> right R (fun n => S n \/ In n (map fst l))) /\
    ((forall n bs, In (n, bs) l -> exists t, dget terms n = Some t /\ (parameter t -> exists c, dget V n = Some c)) -> exists R, resolve_pass k terms l C = Ok R).
  Proof.
    intros HK. induction l as [|[n bs] r IH]; intros S C HR HI HB HC.
    { split; [intros R E; injection E as <-; destruct HR as [H1 H2]; split; [exact H1|]; intros m c Hm Hc [K|[]]; auto|intros _; exists C; reflexivity]. }
    assert (no_any n) as Hn by (apply binds_plain, in_map_iff; exists (n, bs); split; [reflexivity|apply HI; left; reflexivity]).
    assert (forall m, comes_before binds m n -> S m) as HBn. { intros m Hm. destruct (HB [] n bs r eq_refl m Hm) as [K|[]]. exact K. }
    assert (forall C', right C' (fun m => S m \/ m = n) -> (forall R, resolve_pass k terms r C' = Ok R -> right R (fun m => S m \/ In m (map fst ((n, bs) :: r)))) /\
      ((forall n bs, In (n, bs) r -> exists t, dget terms n = Some t /\ (parameter t -> exists c, dget V n = Some c)) -> exists R, resolve_pass k terms r C' = Ok R)) as K.
    { intros C' HR'. destruct (IH (fun m => S m \/ m = n) C' HR') as [I1 I2].
      - intros x Hx. apply HI. right. exact Hx.
      - intros l1 n' bs' l2 E m Hm. destruct (HB ((n, bs) :: l1) n' bs' l2 (f_equal (cons (n, bs)) E) m Hm) as [K|[K|K]]; auto.
      - intros m m' [K| ->] Hm; [left; eauto|left; auto].
      - split; [|exact I2]. intros R E. destruct (I1 R E) as [J1 J2]. split; [exact J1|]. intros m c Hm Hc [K|[K|K]]; apply J2; auto. }
    assert (forall C', right C' S -> (dget V n = None) -> right C' (fun m => S m \/ m = n)) as HX. { intros C' [H1 H2] H3. split; [exact H1|]. intros m c Hm Hc [J| ->]; [auto|congruence]. }
    cbn [resolve_pass]. destruct (dget terms n) as [t|] eqn:ET.
    2: { split; [discriminate|]. intros H. destruct (H n bs (or_introl eq_refl)) as (t & Ht & _). congruence. }
    destruct (is_parameter t) eqn:EP.
    - destruct bs as [|b bs].
      { split; [discriminate|]. intros H. destruct (H n [] (or_introl eq_refl)) as (t' & Ht & Hc). rewrite ET in Ht. injection Ht as <-. apply is_parameter_iff in EP. destruct (Hc EP) as (c & Hv). destruct (HS n c Hn Hv) as (_ & b & bs & _ & _ & _ & _ & Hb & _). rewrite (binds_unique n []) in Hb by (apply HI; left; reflexivity). discriminate. }
      destruct (dget V n) as [c|] eqn:EV.
      + assert (optC (OptEnv terms C) k (b_tree b) = Ok c) as E. { eapply (definition_right k C S n b bs c); eauto. apply HI. left. reflexivity. }
        rewrite E. cbn [bind]. destruct (HS n c Hn EV) as (_ & _ & _ & v & w & _ & _ & _ & _ & Ec). assert (isEval c = true) as -> by (rewrite Ec; reflexivity).
        assert (right (dset C n c) (fun m => S m \/ m = n)) as HR'.
        { destruct HR as [R1 R2]. split; [now apply dset_plain|]. intros m c' Hm Hc' HS'. rewrite dget_dset by auto. destruct (chain_dec n m) as [<-|N]; [congruence|]. destruct HS' as [J|J]; [auto|congruence]. }
        destruct (K _ HR') as [K1 K2]. split; [exact K1|]. intros H. apply K2. intros n' bs' Hin. apply (H n' bs'). right. exact Hin.
      + split.
        * intros R E. apply bind_ok in E as (x & E1 & E2). apply (fun H => proj1 (K _ H) R E2). apply HX; [|reflexivity].
          destruct (isEval x); [|exact HR]. destruct HR as [R1 R2]. split; [now apply dset_plain|]. intros m c' Hm Hc' HS'. rewrite dget_dset by auto. destruct (chain_dec n m) as [<-|N]; [congruence|auto].
        * intros H. destruct (H n (b :: bs) (or_introl eq_refl)) as (t' & Ht & Hc). rewrite ET in Ht. injection Ht as <-. apply is_parameter_iff in EP. destruct (Hc EP) as (c & Hv). congruence.
    - assert (right C (fun m => S m \/ m = n)) as HR'.
      { apply HX; [exact HR|]. destruct (dget V n) as [c|] eqn:EV; [|reflexivity]. destruct (HS n c Hn EV) as (t' & _ & _ & _ & _ & Ht & Hp & _). rewrite ET in Ht. injection Ht as <-. apply is_parameter_iff in Hp. congruence. }
      destruct (K _ HR') as [K1 K2]. split; [exact K1|]. intros H. apply K2. intros n' bs' Hin. apply (H n' bs'). right. exact Hin.
  Qed.
  Lemma by_depth_incl : incl (by_depth binds) binds.
  Proof. intros x Hx. now apply sort_by_in in Hx. Qed.
  Lemma earlier_processed l1 n bs l2 : by_depth binds = l1 ++ (n, bs) :: l2 -> forall m, comes_before binds m n -> In m (map fst l1).
  Proof.
    intros E m Hm. assert (In n (map fst binds)) as Hn. { apply in_map_iff. exists (n, bs). split; [reflexivity|]. apply by_depth_incl. rewrite E. apply in_or_app. right. left. reflexivity. }
    destruct (depth_order binds m n Hm Hn) as (a & b & E2 & I2). rewrite E, map_app in E2. cbn [map fst] in E2.
    assert (NoDup (map fst l1 ++ n :: map fst l2)) as ND. { destruct HP as (_ & _ & ND). eapply Permutation_NoDup; [|exact ND]. replace (map fst l1 ++ n :: map fst l2) with (map fst (by_depth binds)) by (rewrite E, map_app; reflexivity). apply Permutation_map. unfold by_depth. apply sort_by_perm. }
    clear - E2 I2 ND. revert E2. generalize dependent (map fst l1). intros k1. revert a. induction k1 as [|x k1 IH]; intros [|y a] ND E2; cbn in E2; injection E2.
    - intros E ->. exfalso. apply NoDup_remove_2 in ND. cbn in ND. rewrite <- E in I2. auto.
    - intros E ->. exfalso. apply NoDup_remove_2 in ND. cbn in ND. apply ND. rewrite E. apply in_or_app. right. right. exact I2.
    - intros _ ->. left. reflexivity.
    - intros E _. right. cbn in ND. inversion ND as [|? ? ? ND']. eapply IH; eauto.
  Qed.

  Lemma constants_right k : (forall n b bs c, In (n, b :: bs) binds -> dget V n = Some c -> optC (OptEnv terms V) k (b_tree b) = Ok c) ->
    (forall R, constants k terms binds = Ok R -> right R (fun n => In n (map fst binds))) /\
    ((forall n bs, In (n, bs) binds -> exists t, dget terms n = Some t /\ (parameter t -> exists c, dget V n = Some c)) -> exists R, constants k terms binds = Ok R).
  Proof.
    intros HK.
    assert (right [] (fun _ => False)) as R0 by (split; [constructor|intros; contradiction]).
    destruct (pass_right k HK (by_depth binds) (fun _ => False) [] R0 by_depth_incl) as [P1 P2]; [intros l1 n bs l2 E m Hm; right; eapply earlier_processed; eauto|intros; contradiction|].
    assert (forall C, right C (fun n => False \/ In n (map fst (by_depth binds))) ->
      (forall R, resolve_pass k terms (by_depth binds) C = Ok R -> right R (fun n => (False \/ In n (map fst (by_depth binds))) \/ In n (map fst (by_depth binds)))) /\
      ((forall n bs, In (n, bs) (by_depth binds) -> exists t, dget terms n = Some t /\ (parameter t -> exists c, dget V n = Some c)) -> exists R, resolve_pass k terms (by_depth binds) C = Ok R)) as P3.
    { assert (forall m, In m (map fst binds) -> In m (map fst (by_depth binds))) as HM. { intros m Hm. apply in_map_iff in Hm as (p & <- & Hp). apply in_map. now apply sort_by_in. }
      intros C HC. apply pass_right; auto using by_depth_incl; [intros l1 n bs l2 E m [Hm _]; auto|intros m m' _ [Hm _]; auto]. }
    split.
    - intros R E. unfold constants in E. apply bind_ok in E as (C & E1 & E2). destruct (proj1 (P3 C (P1 C E1)) R E2) as [H1 H2]. split; [exact H1|]. intros n c Hn Hc Hin. apply H2; auto. right. apply in_map_iff in Hin as (p & <- & Hp). apply in_map. now apply sort_by_in.
    - intros H. assert (forall n bs, In (n, bs) (by_depth binds) -> exists t, dget terms n = Some t /\ (parameter t -> exists c, dget V n = Some c)) as H' by (intros n bs Hin; apply (H n bs), by_depth_incl, Hin).
      destruct (P2 H') as (C & E1). destruct (proj2 (P3 C (P1 C E1)) H') as (R & E2). exists R. unfold constants. now rewrite E1.
  Qed.
End Resolve.

(** ** What is resolved satisfies the definitions *)
Section Consistent.
  Variable terms : ndict term.
  Variable binds : ndict (list bind_).
  Variable k : nat.
  Hypothesis HP : plain_names terms binds.
  Hypothesis HO : declared_before_use terms binds.

  Definition down (S : chain -> Prop) : Prop := forall m m', S m -> comes_before binds m' m -> S m'.
  Definition holds (C : ndict df) (n : chain) : Prop := forall t b bs, dget terms n = Some t -> parameter t -> dget binds n = Some (b :: bs) ->
    exists x, optC (OptEnv terms C) k (b_tree b) = Ok x /\ dget C n = if isEval x then Some x else None.
  Definition cons_ (C : ndict df) (S : chain -> Prop) : Prop :=
    keys_plain C /\ (forall n, no_any n -> dget C n <> None -> S n /\ exists t b bs, dget terms n = Some t /\ parameter t /\ dget binds n = Some (b :: bs)) /\ (forall n, no_any n -> S n -> holds C n).

  Lemma same_value C C' S n t b bs : no_any n -> down S -> (forall m, In m (map fst binds) -> S m -> dget C m = dget C' m) ->
    (forall n, no_any n -> dget C' n <> None -> exists t b bs, dget terms n = Some t /\ parameter t /\ dget binds n = Some (b :: bs)) ->
    (forall m, comes_before binds m n -> S m) -> dget terms n = Some t -> parameter t -> dget binds n = Some (b :: bs) ->
    optC (OptEnv terms C) k (b_tree b) = optC (OptEnv terms C') k (b_tree b).
  Proof.
    intros Hn HD HA HC HS Ht Hp Hb. apply (optC_local terms C C' (fun m => S m /\ In m (map fst binds))).
    - intros m [H1 H2]. auto.
    - intros m tm [H1 H2] H3 H4 _. destruct (HC m (binds_plain terms binds HP m H2) H3) as (tm' & bm & bsm & K1 & K2 & K3). rewrite H4 in K1. injection K1 as <-.
      assert (forall j, In j (mentioned tm bm) -> comes_before binds j m) as HB by (intros j Hj; apply (HO m tm bm bsm j); auto; eapply binds_plain; eauto).
      unfold mentioned in HB. split; intros j Hj; (assert (comes_before binds j m) as HJ by (apply HB, in_or_app; right; apply in_or_app; tauto)); (split; [exact (HD m j H1 HJ)|exact (proj1 HJ)]).
    - intros m Hm. assert (comes_before binds m n) as HJ by (apply (HO n t b bs m Hn Ht Hp Hb); unfold mentioned; apply in_or_app; auto). split; [auto|exact (proj1 HJ)].
  Qed.
  Lemma in_binds n bs : dget binds n = Some bs -> no_any n -> In n (map fst binds).
  Proof.
    destruct HP as (_ & H & _). revert H. clear. induction binds as [|[m b] r IH]; [discriminate|]. cbn [dget map fst]. intros H E Hn. inversion H as [|? ? Hm Hr]; subst. destruct (chain_eq m n) eqn:EQ; [left; now apply chain_eq_no_any in EQ|right; auto].
  Qed.

  Lemma first_pass : forall l S C R, cons_ C S -> down S -> incl l binds -> NoDup (map fst l) -> (forall n, In n (map fst l) -> ~ S n) ->
    (forall l1 n bs l2, l = l1 ++ (n, bs) :: l2 -> forall m, comes_before binds m n -> S m \/ In m (map fst l1)) ->
    resolve_pass k terms l C = Ok R -> cons_ R (fun n => S n \/ In n (map fst l)).
  Proof.
    induction l as [|[n bs] r IH]; intros S C R HC HD HI HN HF HB E.
    { injection E as <-. destruct HC as (H1 & H2 & H3). split; [exact H1|]. split; [intros m Hm K; destruct (H2 m Hm K); auto|intros m Hm [K|[]]; auto]. }
    cbn [map fst] in HN, HF. inversion HN as [|? ? N1 N2]; subst.
    assert (In (n, bs) binds) as Hin by (apply HI; left; reflexivity).
    assert (no_any n) as Hn by (eapply binds_plain; [exact HP|]; apply in_map_iff; exists (n, bs); auto).
    pose proof (binds_unique terms binds HP n bs Hin) as Hg.
    assert (forall m, comes_before binds m n -> S m) as HBn. { intros m Hm. destruct (HB [] n bs r eq_refl m Hm) as [K|[]]. exact K. }
    assert (~ S n) as HSn by (apply HF; left; reflexivity).
    destruct HC as (H1 & H2 & H3).
    assert (forall C', cons_ C' (fun m => S m \/ m = n) -> resolve_pass k terms r C' = Ok R -> cons_ R (fun m => S m \/ In m (map fst ((n, bs) :: r)))) as K.
    { intros C' HC' E'. destruct (IH (fun m => S m \/ m = n) C' R HC') as (J1 & J2 & J3); auto.
      - intros m m' [K| ->] Hm; [left; eapply HD; eauto|left; auto].
      - intros x Hx. apply HI. right. exact Hx.
      - intros m Hm [K| ->]; [apply (HF m); [right; exact Hm|exact K]|auto].
      - intros l1 n' bs' l2 E2 m Hm. destruct (HB ((n, bs) :: l1) n' bs' l2 (f_equal (cons (n, bs)) E2) m Hm) as [K|[K|K]]; auto.
      - split; [exact J1|]. cbn [map fst]. split.
        + intros m Hm K. destruct (J2 m Hm K) as [[[K1| ->]|K1] K2]; split; auto; [right; left; reflexivity|right; right; exact K1].
        + intros m Hm [K1|[<-|K1]]; apply J3; auto. }
    assert (forall m c, no_any m -> S m -> dget (dset C n c) m = dget C m) as HX.
    { intros m c Hm Sm. rewrite dget_dset by auto. destruct (chain_dec n m) as [<-|]; [contradiction|reflexivity]. }
    assert (dget C n = None) as HNn. { destruct (dget C n) eqn:EC; [|reflexivity]. exfalso. apply HSn, H2; [exact Hn|congruence]. }
    assert (forall n0, no_any n0 -> dget C n0 <> None -> exists t b bs, dget terms n0 = Some t /\ parameter t /\ dget binds n0 = Some (b :: bs)) as HCp by (intros m Hm Hc; apply (H2 m Hm Hc)).
    assert (forall m, In m (map fst binds) -> no_any m) as HPl by (intros m Hm; eapply binds_plain; eauto).
    cbn [resolve_pass] in E. destruct (dget terms n) as [t|] eqn:ET; [|discriminate]. destruct (is_parameter t) eqn:EP.
    - apply is_parameter_iff in EP. destruct bs as [|b bs]; [discriminate|]. apply bind_ok in E as (x & E1 & E2). apply (K (if isEval x then dset C n x else C)); [|exact E2].
      set (C' := if isEval x then dset C n x else C) in *.
      assert (keys_plain C') as Q1 by (unfold C'; destruct (isEval x); [now apply dset_plain|exact H1]).
      assert (forall m, no_any m -> S m -> dget C' m = dget C m) as Q2 by (intros m Hm Sm; unfold C'; destruct (isEval x); auto).
      assert (dget C' n = if isEval x then Some x else None) as Q3. { unfold C'. destruct (isEval x); [|exact HNn]. rewrite dget_dset by auto. destruct (chain_dec n n); congruence. }
      assert (forall m, no_any m -> dget C' m <> None -> m = n \/ dget C m <> None) as Q4. { intros m Hm. unfold C'. destruct (isEval x); [|auto]. rewrite dget_dset by auto. destruct (chain_dec n m) as [<-|]; auto. }
      split; [exact Q1|]. split.
      + intros m Hm Hc. destruct (Q4 m Hm Hc) as [-> |Hc']; [split; [auto|exists t, b, bs; auto]|]. destruct (H2 m Hm Hc') as [J1 J2]. split; auto.
      + intros m Hm [Sm| ->] t' b' bs' Ht' Hp' Hb'.
        * destruct (H3 m Hm Sm t' b' bs' Ht' Hp' Hb') as (y & Y1 & Y2). exists y. rewrite <- Y2. split; [|apply Q2; auto]. rewrite <- Y1.
          apply (same_value C' C S m t' b' bs'); auto. intros j Hj. eapply HD; eauto.
        * rewrite ET in Ht'. injection Ht' as <-. rewrite Hg in Hb'. injection Hb' as <- <-. exists x. split; [|exact Q3]. rewrite <- E1. apply (same_value C' C S n t b bs); auto.
    - apply (K C); [|exact E]. split; [exact H1|]. split; [intros m Hm Hc; destruct (H2 m Hm Hc); auto|]. intros m Hm [Sm| ->]; [auto|]. intros t' b' bs' Ht' Hp' _. rewrite ET in Ht'. injection Ht' as <-. apply is_parameter_iff in Hp'. congruence.
  Qed.
  (** The second pass changes nothing. *)
  Lemma second_pass : forall l C C' R, cons_ C (fun n => In n (map fst binds)) -> keys_plain C' -> (forall n, no_any n -> dget C' n = dget C n) -> incl l binds ->
    resolve_pass k terms l C' = Ok R -> keys_plain R /\ forall n, no_any n -> dget R n = dget C n.
  Proof.
    induction l as [|[n bs] r IH]; intros C C' R HC HK HA HI E; [injection E as <-; auto|].
    assert (In (n, bs) binds) as Hin by (apply HI; left; reflexivity).
    assert (In n (map fst binds)) as Hin' by (apply in_map_iff; exists (n, bs); auto).
    assert (no_any n) as Hn by (eapply binds_plain; eauto).
    pose proof (binds_unique terms binds HP n bs Hin) as Hg.
    assert (incl r binds) as HI' by (intros x Hx; apply HI; right; exact Hx).
    cbn [resolve_pass] in E. destruct (dget terms n) as [t|] eqn:ET; [|discriminate]. destruct (is_parameter t) eqn:EP; [|exact (IH C C' R HC HK HA HI' E)].
    apply is_parameter_iff in EP. destruct bs as [|b bs]; [discriminate|]. apply bind_ok in E as (x & E1 & E2).
    destruct HC as (H1 & H2 & H3). destruct (H3 n Hn Hin' t b bs ET EP Hg) as (y & Y1 & Y2).
    assert (optC (OptEnv terms C') k (b_tree b) = optC (OptEnv terms C) k (b_tree b)) as EQ.
    { apply (same_value C' C (fun m => In m (map fst binds)) n t b bs); auto; [intros m m' _ [H _]; exact H|intros m Hm _; apply HA; eapply binds_plain; eauto|intros m Hm Hc; apply (H2 m Hm Hc)|intros m [H _]; exact H]. }
    rewrite EQ, Y1 in E1. injection E1 as <-. apply (IH C (if isEval y then dset C' n y else C') R); auto; [split; auto| |].
    - destruct (isEval y); [now apply dset_plain|exact HK].
    - intros m Hm. destruct (isEval y) eqn:EY; [|auto]. rewrite dget_dset by auto. destruct (chain_dec n m) as [<-|]; auto.
  Qed.
  Lemma constants_consistent R : constants k terms binds = Ok R -> cons_ R (fun n => In n (map fst binds)).
  Proof.
    intros E. unfold constants in E. apply bind_ok in E as (C & E1 & E2).
    assert (incl (by_depth binds) binds) as HI by apply by_depth_incl.
    assert (forall m, In m (map fst (by_depth binds)) <-> In m (map fst binds)) as HM.
    { intros m. rewrite !in_map_iff. split; intros (p & Hp & K); exists p; split; auto; apply (sort_by_in _ _ p); auto. }
    assert (cons_ C (fun n => In n (map fst binds))) as HC.
    { assert (cons_ C (fun n => False \/ In n (map fst (by_depth binds)))) as (J1 & J2 & J3).
      { apply (first_pass (by_depth binds) (fun _ => False) [] C); auto.
        - split; [constructor|]. split; [intros n _ K; exfalso; apply K; reflexivity|intros n _ []].
        - intros m m' [].
        - destruct HP as (_ & _ & ND). eapply Permutation_NoDup; [|exact ND]. apply Permutation_map. unfold by_depth. apply sort_by_perm.
        - intros l1 n bs l2 EQ m Hm. right. eapply earlier_processed; eauto. }
      split; [exact J1|]. split; [intros n Hn Hc; destruct (J2 n Hn Hc) as [[[]|K] K2]; split; [now apply HM|exact K2]|]. intros n Hn K. apply J3; auto. right. now apply HM. }
    destruct (second_pass (by_depth binds) C C R HC (proj1 HC)) as [R1 R2]; auto. destruct HC as (H1 & H2 & H3).
    split; [exact R1|]. split; [intros n Hn Hc; apply H2; auto; rewrite <- R2; auto|].
    intros n Hn Hin t b bs Ht Hp Hb. destruct (H3 n Hn Hin t b bs Ht Hp Hb) as (x & X1 & X2). exists x. rewrite R2 by auto. split; [|exact X2]. rewrite <- X1.
    apply (same_value R C (fun m => In m (map fst binds)) n t b bs); auto; [intros m m' _ [H _]; exact H|intros m Hm _; apply R2; eapply binds_plain; eauto|intros m Hm Hc; apply (H2 m Hm Hc)|intros m [H _]; exact H].
  Qed.
End Consistent.
