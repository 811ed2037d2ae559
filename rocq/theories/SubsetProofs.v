(** SubsetProofs.v *)
From Verif Require Import Base ScopeModel ScopeSpec ScopeProofs DfModel DfSpec DfProofs BindModel BindSpec BindProofs
  SubsetModel SubsetSpec.
From Coq Require Import Sorting.Permutation.

(** ** errors that cannot occur *)
Lemma df_eq_fuel a : forall b, df_eq a b <> Err OutOfFuel.
Proof.
  induction a as [ |n|s|s|s|l o IH|v m l IHv IHm IHl|v p IHv IHp|l IH|c t f IHc IHt IHf|v w f s|w|w|t IH|s l IH] using df_ind';
    intros b; destruct b as [ |n'|s'|s'|s'|l' o'|v' m' l'|v' p'|l'|c' t' f'|v' w' f' s'|w'|w'|t'|s' l']; cbn [df_eq]; try discriminate.
  - destruct (op_beq o o'); [|discriminate]. revert l'. induction IH as [|x l Hx H IH']; intros [|y l']; try discriminate.
    cbn. destruct (df_eq x y) as [[|]|e] eqn:E; cbn; try discriminate; [apply IH'|]. specialize (Hx y). congruence.
  - specialize (IHv v'). specialize (IHm m'). specialize (IHl l').
    destruct (df_eq v v') as [[|]|]; cbn; try congruence. destruct (df_eq m m') as [[|]|]; cbn; congruence.
  - specialize (IHv v'). specialize (IHp p'). destruct (df_eq v v') as [[|]|]; cbn; congruence.
  - revert l'. induction IH as [|x l Hx H IH']; intros [|y l']; try discriminate.
    cbn. destruct (df_eq x y) as [[|]|e] eqn:E; cbn; try discriminate; [apply IH'|]. specialize (Hx y). congruence.
  - specialize (IHc c'). specialize (IHt t'). specialize (IHf f').
    destruct (df_eq c c') as [[|]|]; cbn; try congruence. destruct (df_eq t t') as [[|]|]; cbn; congruence.
  - destruct (String.eqb s s'); [|discriminate]. revert l'. induction IH as [|x l Hx H IH']; intros [|y l']; try discriminate.
    cbn. destruct (df_eq x y) as [[|]|e] eqn:E; cbn; try discriminate; [apply IH'|]. specialize (Hx y). congruence.
Qed.

Lemma both_fuel p q : p <> Err OutOfFuel -> q <> Err OutOfFuel -> both p q <> Err OutOfFuel.
Proof. unfold both. destruct p as [[|]|]; simpl; congruence. Qed.
Lemma bind_eq_fuel a b : bind_eq a b <> Err OutOfFuel.
Proof. unfold bind_eq. repeat (apply both_fuel; [try apply df_eq_fuel; discriminate|]). discriminate. Qed.

Section MergeFuel.
  Context {V : Type} (eqb : V -> V -> res bool).
  Hypothesis eqb_fuel : forall x y, eqb x y <> Err OutOfFuel.
  Lemma lmem_fuel x l : lmem eqb x l <> Err OutOfFuel.
  Proof.
    induction l as [|y l IH]; simpl; [discriminate|]. specialize (eqb_fuel y x).
    destruct (eqb y x) as [[|]|]; simpl; congruence.
  Qed.
  Lemma append_new_fuel xs : forall l, append_new eqb l xs <> Err OutOfFuel.
  Proof.
    induction xs as [|x xs IH]; intros l; simpl; [discriminate|]. pose proof (lmem_fuel x l).
    destruct (lmem eqb x l) as [b|]; simpl; [apply IH|congruence].
  Qed.
  Lemma merge_fuel b : forall a, dictlistmerge eqb a b <> Err OutOfFuel.
  Proof.
    induction b as [|[k v] b IH]; intros a; simpl; [discriminate|].
    destruct (dget a k) as [l|]; [|apply IH]. pose proof (append_new_fuel v l).
    destruct (append_new eqb l v); simpl; [apply IH|congruence].
  Qed.
End MergeFuel.

Lemma sources_fuel d t : sources d t <> Err OutOfFuel.
Proof.
  assert (forall ts, Forall (fun t => sources d t <> Err OutOfFuel) ts -> mapM (sources d) ts <> Err OutOfFuel) as HM.
  { induction 1 as [|x ts Hx H IH]; simpl; [discriminate|]. destruct (sources d x); simpl; [|congruence].
    destruct (mapM (sources d) ts); simpl; congruence. }
  induction t as [ |n|s|s|s|ts o IH|v m l0 IHv IHm IHl|v p IHv IHp|ts IH|c t f IHc IHt IHf|v w f s|w|w|t IH|s ts IH]
    using df_ind'; cbn [sources]; try discriminate.
  - apply HM in IH. destruct (mapM (sources d) ts); simpl; congruence.
  - destruct (sources d v), (sources d m), (sources d l0); simpl; congruence.
  - destruct (sources d v), (sources d p); simpl; congruence.
  - apply HM in IH. destruct (mapM (sources d) ts); simpl; congruence.
  - destruct (sources d c), (sources d t), (sources d f); simpl; congruence.
  - destruct d; [|discriminate]. destruct (sources true t); simpl; congruence.
Qed.
Ltac nofuel := unfold getTreeSources; repeat match goal with
  | |- context [sources false ?t] => let H := fresh in pose proof (sources_fuel false t) as H; destruct (sources false t); simpl; [clear H|congruence]
  end.
Lemma dims_fuel l : forall acc, dims_sources l acc <> Err OutOfFuel.
Proof. induction l as [|[a b] l IH]; intros acc; cbn [dims_sources]; [discriminate|]. nofuel. apply IH. Qed.
Lemma binds_fuel l : forall acc, binds_sources l acc <> Err OutOfFuel.
Proof. induction l as [|b l IH]; intros acc; cbn [binds_sources]; [discriminate|]. nofuel. apply IH. Qed.
Lemma getBindSources_fuel terms binds n : getBindSources terms binds n <> Err OutOfFuel.
Proof.
  unfold getBindSources, getTermSources, getBindinfoSources.
  assert ((match dget terms n with
  | None => Ok []
  | Some t => do x <- getTreeSources (t_msb t); do y <- getTreeSources (t_lsb t);
              let s := sunion (sunion [] x) y in
              match t_dims t with None => Ok s | Some l => dims_sources l s end
  end) <> Err OutOfFuel) as H.
  { destruct (dget terms n) as [t|]; [|discriminate]. nofuel. destruct (t_dims t); [apply dims_fuel|discriminate]. }
  destruct (match dget terms n with Some _ => _ | None => _ end); simpl; [|congruence].
  pose proof (binds_fuel (getBindlist binds n) []). destruct (binds_sources (getBindlist binds n) []); simpl; congruence.
Qed.

(** ** sets grow *)
Lemma sadd_in s n m : In m (sadd s n) -> In m s \/ m = n.
Proof. unfold sadd. destruct (smem s n); auto. rewrite in_app_iff. simpl. intuition. Qed.
Lemma sadd_old s n m : In m s -> In m (sadd s n).
Proof. unfold sadd. destruct (smem s n); auto. rewrite in_app_iff. auto. Qed.
Lemma sunion_in b : forall a m, In m (sunion a b) -> In m a \/ In m b.
Proof.
  unfold sunion. induction b as [|x b IH]; intros a m H; simpl in *; auto.
  apply IH in H as [H|H]; auto. apply sadd_in in H as [H| ->]; auto.
Qed.
Lemma sunion_old b : forall a m, In m a -> In m (sunion a b).
Proof.
  unfold sunion. induction b as [|x b IH]; intros a m H; simpl in *; auto. apply IH. now apply sadd_old.
Qed.
Definition grows (a b : list chain) : Prop := forall u, smem a u = true -> smem b u = true.
Lemma incl_grows a b : (forall m, In m a -> In m b) -> grows a b.
Proof. intros H u. unfold smem. rewrite !existsb_exists. intros (m & Hm & E). eauto. Qed.
Lemma smem_sadd s n : smem (sadd s n) n = true.
Proof.
  unfold sadd. destruct (smem s n) eqn:E; auto. unfold smem. rewrite existsb_app. simpl. rewrite chain_eq_refl. now rewrite orb_true_r.
Qed.
Lemma sunion_new b : forall a m, In m b -> smem (sunion a b) m = true.
Proof.
  unfold sunion. induction b as [|x b IH]; intros a m H; simpl in *; [destruct H|].
  destruct H as [<-|H]; [|auto]. apply (incl_grows (sadd a x)); [intros; now apply (sunion_old b)|]. apply smem_sadd.
Qed.

(** ** names listed by the source functions are names of the design *)
Lemma fold_sunion_in ls : forall s m, In m (fold_left sunion ls s) -> In m s \/ In m (concat ls).
Proof.
  induction ls as [|l ls IH]; intros s m H; simpl in *; auto. apply IH in H as [H|H].
  - apply sunion_in in H as [H|H]; auto. right. apply in_app_iff; auto.
  - right. apply in_app_iff; auto.
Qed.
Lemma sources_in d t : forall l, sources d t = Ok l -> forall m, In m l -> In m (names t).
Proof.
  assert (forall ts, Forall (fun t => forall l, sources d t = Ok l -> forall m, In m l -> In m (names t)) ts ->
    forall ls, mapM (sources d) ts = Ok ls -> forall m, In m (concat ls) -> In m (flat_map names ts)) as HM.
  { intros ts HF ls E. apply mapM_ok_Forall2 in E. revert HF. induction E as [|x l ts ls Hx _ IH]; simpl; intros HF m H; auto.
    inv HF. apply in_app_iff in H as [H|H]; apply in_app_iff; eauto. }
  induction t as [ |n|s|s|s|ts o IH|v m l0 IHv IHm IHl|v p IHv IHp|ts IH|c t f IHc IHt IHf|v w f s|w|w|t IH|s ts IH]
    using df_ind'; cbn [sources names]; intros l E k Hk; try discriminate; try (injection E as <-; auto; fail).
  - apply bind_ok in E as (ls & E & E'). injection E' as <-. apply fold_sunion_in in Hk as [[]|Hk]. eauto.
  - apply bind_ok in E as (x & E1 & E). apply bind_ok in E as (y & E2 & E). apply bind_ok in E as (z & E3 & E). injection E as <-.
    rewrite !in_app_iff. repeat (apply sunion_in in Hk as [Hk|Hk]; [|eauto]). destruct Hk.
  - apply bind_ok in E as (x & E1 & E). apply bind_ok in E as (y & E2 & E). injection E as <-.
    rewrite !in_app_iff. repeat (apply sunion_in in Hk as [Hk|Hk]; [|eauto]). destruct Hk.
  - apply bind_ok in E as (ls & E & E'). injection E' as <-. apply fold_sunion_in in Hk as [[]|Hk]. eauto.
  - apply bind_ok in E as (x & E1 & E). apply bind_ok in E as (y & E2 & E). apply bind_ok in E as (z & E3 & E). injection E as <-.
    rewrite !in_app_iff. repeat (apply sunion_in in Hk as [Hk|Hk]; [|eauto]). destruct Hk.
  - destruct d; [|discriminate]. apply bind_ok in E as (x & E1 & E). injection E as <-. apply sunion_in in Hk as [[]|Hk]; eauto.
Qed.
Lemma dims_in l : forall acc r, dims_sources l acc = Ok r -> forall m, In m r ->
  In m acc \/ In m (flat_map (fun p => names (fst p) ++ names (snd p)) l).
Proof.
  induction l as [|[a b] l IH]; simpl; intros acc r E m Hm; [injection E as <-; auto|].
  apply bind_ok in E as (x & E1 & E). apply bind_ok in E as (y & E2 & E).
  rewrite !in_app_iff. destruct (IH _ _ E m Hm) as [H|H]; auto.
  apply sunion_in in H as [H|H]; [apply sunion_in in H as [H|H]; [auto|]|];
    [pose proof (sources_in _ _ _ E1 _ H)|pose proof (sources_in _ _ _ E2 _ H)]; tauto.
Qed.
Lemma binds_in l : forall acc r, binds_sources l acc = Ok r -> forall m, In m r ->
  In m acc \/ In m (flat_map (fun b => names (b_msb b) ++ names (b_lsb b) ++ names (b_ptr b) ++ names (b_tree b)) l).
Proof.
  induction l as [|b l IH]; simpl; intros acc r E m Hm; [injection E as <-; auto|].
  apply bind_ok in E as (x & E1 & E). apply bind_ok in E as (y & E2 & E).
  apply bind_ok in E as (z & E3 & E). apply bind_ok in E as (w & E4 & E).
  rewrite !in_app_iff. destruct (IH _ _ E m Hm) as [H|H]; auto.
  apply sunion_in in H as [H|H]; [|pose proof (sources_in _ _ _ E4 _ H); tauto].
  apply sunion_in in H as [H|H]; [|pose proof (sources_in _ _ _ E3 _ H); tauto].
  apply sunion_in in H as [H|H]; [|pose proof (sources_in _ _ _ E2 _ H); tauto].
  apply sunion_in in H as [H|H]; [|pose proof (sources_in _ _ _ E1 _ H); tauto]. auto.
Qed.
Lemma getBindSources_in terms binds n l : getBindSources terms binds n = Ok l -> forall m, In m l ->
  In m (defs terms binds n).
Proof.
  unfold getBindSources, getTermSources, getBindinfoSources, defs, definition_names. intros E m Hm.
  apply bind_ok in E as (x & E1 & E). apply bind_ok in E as (y & E2 & E). injection E as <-.
  apply in_app_iff. apply sunion_in in Hm as [Hm|Hm].
  - left. apply sunion_in in Hm as [[]|Hm]. destruct (dget terms n) as [t|]; [|injection E1 as <-; auto].
    apply bind_ok in E1 as (p & P1 & E1). apply bind_ok in E1 as (q & P2 & E1).
    rewrite !in_app_iff.
    assert (In m (sunion (sunion [] p) q) -> In m (names (t_msb t)) \/ In m (names (t_lsb t))) as K.
    { intros H. apply sunion_in in H as [H|H]; [|pose proof (sources_in _ _ _ P2 _ H); tauto].
      apply sunion_in in H as [[]|H]. pose proof (sources_in _ _ _ P1 _ H); tauto. }
    destruct (t_dims t) as [dl|]; simpl in *.
    + pose proof (dims_in _ _ _ E1 _ Hm). tauto.
    + injection E1 as <-. tauto.
  - right. destruct (binds_in _ _ _ E2 _ Hm) as [[]|H]; exact H.
Qed.
Lemma dget_in {V} (d : ndict V) k v : dget d k = Some v -> exists k', In (k', v) d /\ chain_eq k' k = true.
Proof.
  induction d as [|[k1 v1] d IH]; simpl; [discriminate|]. destruct (chain_eq k1 k) eqn:E.
  - intros H; injection H as <-; eauto.
  - intros H. destruct (IH H) as (k' & ? & ?). eauto.
Qed.

(** ** termination *)
Section Term.
  Variables (terms : ndict term) (binds : ndict (list bind_)) (topmodule clock : string).
  Variable order : list chain -> list chain.
  Hypothesis order_in : forall l m, In m (order l) -> In m l.
  Variable rank : chain -> nat.
  Let main := main_clock topmodule clock.
  Hypothesis ranked : forall n b c, In b (getBindlist binds n) -> clocked_by main b c -> rank c < rank n.
  Let gbs := getBindSubset terms binds topmodule clock order.
  Let bloop := bind_loop topmodule clock.

  Definition U : list chain :=
    flat_map (fun p => definition_names (Some (snd p)) []) terms ++
    flat_map (fun p => definition_names None (snd p)) binds.
  Lemma defs_U n m : In m (defs terms binds n) -> In m U.
  Proof.
    unfold defs, definition_names, U. rewrite !in_app_iff. intros [H|H].
    - left. destruct (dget terms n) as [t|] eqn:E; [|destruct H]. apply dget_in in E as (k & Hk & _).
      apply in_flat_map. exists (k, t). split; auto. unfold snd. apply in_app_iff. left. exact H.
    - right. unfold getBindlist in H. destruct (dget binds n) as [l|] eqn:E; [|destruct H]. apply dget_in in E as (k & Hk & _).
      apply in_flat_map. exists (k, l). auto.
  Qed.
  Definition unv (V : list chain) : nat := length (List.filter (fun u => negb (smem V u)) U).
  Lemma filter_le {A} (p q : A -> bool) l : (forall x, In x l -> p x = true -> q x = true) ->
    length (List.filter p l) <= length (List.filter q l).
  Proof.
    induction l as [|x l IH]; simpl; intros H; auto. assert (length (List.filter p l) <= length (List.filter q l)) by (apply IH; auto).
    destruct (p x) eqn:Ep; [rewrite (H x); auto; simpl; lia|]. destruct (q x); simpl; lia.
  Qed.
  Lemma filter_lt {A} (p q : A -> bool) l x : (forall x, In x l -> p x = true -> q x = true) ->
    In x l -> p x = false -> q x = true -> length (List.filter p l) < length (List.filter q l).
  Proof.
    induction l as [|y l IH]; simpl; intros H Hin Hp Hq; [destruct Hin|].
    assert (length (List.filter p l) <= length (List.filter q l)) by (apply filter_le; auto).
    destruct Hin as [->|Hin].
    - rewrite Hp, Hq. simpl. lia.
    - assert (length (List.filter p l) < length (List.filter q l)) by (apply IH; auto).
      destruct (p y) eqn:Ep; [rewrite (H y); auto; simpl; lia|]. destruct (q y); simpl; lia.
  Qed.
  Lemma unv_grows a b : grows a b -> unv b <= unv a.
  Proof.
    intros H. apply filter_le. intros u _ Hu. apply negb_true_iff in Hu. apply negb_true_iff.
    destruct (smem a u) eqn:E; auto. apply H in E. congruence.
  Qed.
  Lemma unv_lt a b u : grows a b -> In u U -> smem a u = false -> smem b u = true -> unv b < unv a.
  Proof.
    intros H Hin Ha Hb. apply (filter_lt _ _ U u); auto.
    - intros x _ Hu. apply negb_true_iff in Hu. apply negb_true_iff.
      destruct (smem a x) eqn:E; auto. apply H in E. congruence.
    - now rewrite Hb.
    - now rewrite Ha.
  Qed.

  (** results contain the visited set *)
  Lemma bind_loop_in rec n bl : (forall c V d N, rec c V = Ok (d, N) -> forall m, In m V -> In m N) ->
    forall d next d' N, bloop rec n bl d next = Ok (d', N) -> forall m, In m next -> In m N.
  Proof.
    intros Hrec. induction bl as [|b bl IH]; cbn [bind_loop bloop]; intros d next d' N E m Hm.
    - injection E as _ <-. exact Hm.
    - apply bind_ok in E as (oc & E1 & E). destruct oc as [c|].
      + apply bind_ok in E as ((dx & Nx) & E2 & E). apply bind_ok in E as (d2 & E3 & E).
        eapply IH; eauto. now apply sunion_old.
      + eapply IH; eauto.
  Qed.
  Lemma src_loop_in rec V srcs : (forall c V d N, rec c V = Ok (d, N) -> forall m, In m V -> In m N) ->
    forall d next d' N, src_loop rec V srcs d next = Ok (d', N) -> forall m, In m next -> In m N.
  Proof.
    intros Hrec. induction srcs as [|s srcs IH]; cbn [src_loop]; intros d next d' N E m Hm.
    - injection E as _ <-. exact Hm.
    - destruct (smem V s); [eapply IH; eauto|].
      apply bind_ok in E as ((dx & Nx) & E2 & E). apply bind_ok in E as (d2 & E3 & E).
      eapply IH; eauto. apply sunion_old. now apply sadd_old.
  Qed.
  Lemma gbs_in f : forall n V d N, gbs f n V = Ok (d, N) -> forall m, In m V -> In m N.
  Proof.
    induction f as [|f IH]; cbn [gbs getBindSubset]; intros n V d N E m Hm; [discriminate|].
    destruct (dget terms n); [|discriminate].
    apply bind_ok in E as ((d1 & N1) & E1 & E). apply bind_ok in E as (srcs & E2 & E).
    eapply src_loop_in; [exact IH|exact E|]. eapply bind_loop_in; [exact IH|exact E1|]. exact Hm.
  Qed.

  Definition settles (n : chain) (V : list chain) : Prop :=
    exists x f0, x <> Err OutOfFuel /\ forall f, f0 <= f -> gbs f n V = x.

  Lemma other_clock_some b c : other_clock topmodule clock b = Ok (Some c) -> clocked_by main b c.
  Proof.
    unfold other_clock, clocked_by. destruct (b_always b) as [a|]; [|discriminate].
    destruct (always_isClockEdge a) eqn:Ec; [|discriminate].
    destruct (clock_name a) as [| |k] eqn:Ek; [discriminate|discriminate|]. fold main.
    destruct (chain_eq k main) eqn:E; [discriminate|]. intros H; injection H as <-. exists a.
    unfold always_isClockEdge, edge_is in Ec. rewrite Ek in Ec. simpl in Ec.
    split; [reflexivity|]. split; [exact Ek|]. split.
    - destruct (clock_edge a) as [e|]; [|discriminate].
      destruct (String.eqb e "posedge") eqn:E1; [apply String.eqb_eq in E1; left; congruence|].
      destruct (String.eqb e "negedge") eqn:E2; [apply String.eqb_eq in E2; right; congruence|discriminate].
    - intros K. apply chain_eq_agree in K. congruence.
  Qed.
  Lemma other_clock_fuel b : other_clock topmodule clock b <> Err OutOfFuel.
  Proof.
    unfold other_clock. destruct (b_always b) as [a|]; [|discriminate]. destruct (always_isClockEdge a); [|discriminate].
    destruct (clock_name a); discriminate.
  Qed.

  Lemma bind_loop_settles n bl V : (forall b, In b bl -> In b (getBindlist binds n)) ->
    (forall c V', rank c < rank n -> unv V' <= unv V -> settles c V') ->
    forall d next, grows V next -> exists x f0, x <> Err OutOfFuel /\ forall f, f0 <= f -> bloop (gbs f) n bl d next = x.
  Proof.
    intros Hbl Hc. induction bl as [|b bl IH]; intros d next Hg; cbn [bind_loop bloop].
    - eexists (Ok (_, _)); exists 0. split; [discriminate|reflexivity].
    - pose proof (other_clock_fuel b) as HF. destruct (other_clock topmodule clock b) as [[c|]|e] eqn:E; simpl.
      + apply other_clock_some in E. destruct (Hc c next) as (x & f0 & Hx & Hs).
        { eapply ranked; eauto. apply Hbl. simpl; auto. }
        { now apply unv_grows. }
        destruct x as [[dx Nx]|e].
        * simpl. pose proof (merge_fuel bind_eq bind_eq_fuel dx (push d n b)) as HM.
          destruct (dictlistmerge bind_eq (push d n b) dx) as [d2|e] eqn:E2.
          -- destruct (IH ltac:(intros; apply Hbl; simpl; auto) d2 (sunion next Nx)) as (x & f1 & Hx1 & Hs1).
             { intros u Hu. apply Hg in Hu. revert Hu. apply incl_grows. intros; now apply sunion_old. }
             exists x, (Nat.max f0 f1). split; auto. intros f Hf. rewrite Hs by lia. simpl. rewrite E2. simpl. apply Hs1. lia.
          -- exists (Err e), f0. split; [congruence|]. intros f Hf. rewrite Hs by lia. simpl. now rewrite E2.
        * exists (Err e), f0. split; [congruence|]. intros f Hf. rewrite Hs by lia. reflexivity.
      + apply IH; auto. intros; apply Hbl; simpl; auto.
      + exists (Err e), 0. split; [congruence|]. reflexivity.
  Qed.

  Lemma src_loop_settles V srcs : (forall s, In s srcs -> In s U) ->
    (forall c V', unv V' < unv V -> settles c V') ->
    forall d next, grows V next -> exists x f0, x <> Err OutOfFuel /\ forall f, f0 <= f -> src_loop (gbs f) V srcs d next = x.
  Proof.
    intros HU Hc. induction srcs as [|s srcs IH]; intros d next Hg; cbn [src_loop].
    - eexists (Ok (_, _)); exists 0. split; [discriminate|reflexivity].
    - destruct (smem V s) eqn:Es; [apply IH; auto; intros; apply HU; simpl; auto|].
      assert (grows V (sadd next s)) as Hg'.
      { intros u Hu. apply Hg in Hu. revert Hu. apply incl_grows. intros; now apply sadd_old. }
      destruct (Hc s (sadd next s)) as (x & f0 & Hx & Hs).
      { apply (unv_lt _ _ s); auto; [apply HU; simpl; auto|apply smem_sadd]. }
      destruct x as [[dx Nx]|e].
      + pose proof (merge_fuel bind_eq bind_eq_fuel dx d) as HM.
        destruct (dictlistmerge bind_eq d dx) as [d2|e] eqn:E2.
        * destruct (IH ltac:(intros; apply HU; simpl; auto) d2 (sunion (sadd next s) Nx)) as (x & f1 & Hx1 & Hs1).
          { intros u Hu. apply Hg' in Hu. revert Hu. apply incl_grows. intros; now apply sunion_old. }
          exists x, (Nat.max f0 f1). split; auto. intros f Hf. rewrite Hs by lia. simpl. rewrite E2. simpl. apply Hs1. lia.
        * exists (Err e), f0. split; [congruence|]. intros f Hf. rewrite Hs by lia. simpl. now rewrite E2.
      + exists (Err e), f0. split; [congruence|]. intros f Hf. rewrite Hs by lia. reflexivity.
  Qed.

  Lemma gbs_settles : forall k r n V, unv V <= k -> rank n <= r -> settles n V.
  Proof.
    induction k as [k IHk] using lt_wf_ind. induction r as [r IHr] using lt_wf_ind. intros n V Hk Hr.
    destruct (bind_loop_settles n (getBindlist binds n) V ltac:(auto)) with (d := @nil (chain * list bind_)) (next := V)
      as (x & f0 & Hx & Hs).
    { intros c V' Hc HV. apply (IHr (rank c)); lia. }
    { intros u Hu; exact Hu. }
    unfold settles. destruct (dget terms n) as [t|] eqn:Et.
    2: { exists (Err DefinitionError), 1. split; [discriminate|]. intros [|f] Hf; [lia|]. cbn [gbs getBindSubset]. now rewrite Et. }
    destruct x as [[d1 N1]|e].
    - pose proof (getBindSources_fuel terms binds n) as HF.
      destruct (getBindSources terms binds n) as [srcs|e] eqn:Es.
      + destruct (src_loop_settles V (order srcs)) with (d := d1) (next := N1) as (x & f1 & Hx1 & Hs1).
        { intros s Hin. eapply defs_U, getBindSources_in; eauto. }
        { intros c V' HV. apply (IHk (unv V') ltac:(lia) (rank c)); lia. }
        { apply incl_grows. specialize (Hs f0 (le_n _)). eapply bind_loop_in; [|exact Hs]. apply gbs_in. }
        exists x, (S (Nat.max f0 f1)). split; auto. intros [|f] Hf; [lia|]. cbn [gbs getBindSubset]. rewrite Et.
        fold (gbs f). fold (bloop (gbs f)). unfold bloop in Hs. rewrite Hs by lia. simpl. rewrite Es. simpl. apply Hs1. lia.
      + exists (Err e), (S f0). split; [congruence|]. intros [|f] Hf; [lia|]. cbn [gbs getBindSubset]. rewrite Et.
        fold (gbs f). unfold bloop in Hs. rewrite Hs by lia. simpl. now rewrite Es.
    - exists (Err e), (S f0). split; [congruence|]. intros [|f] Hf; [lia|]. cbn [gbs getBindSubset]. rewrite Et.
      fold (gbs f). unfold bloop in Hs. rewrite Hs by lia. reflexivity.
  Qed.

  Lemma targets_settle ts : forall d V, exists x f0, x <> Err OutOfFuel /\
    forall f, f0 <= f -> targets_loop terms binds topmodule clock order f ts d V = x.
  Proof.
    induction ts as [|t ts IH]; intros d V; cbn [targets_loop].
    - eexists (Ok (_, _)); exists 0. split; [discriminate|reflexivity].
    - destruct (gbs_settles (unv V) (rank t) t V ltac:(lia) ltac:(lia)) as (x & f0 & Hx & Hs). unfold gbs in Hs.
      destruct x as [[dx Nx]|e].
      + pose proof (merge_fuel bind_eq bind_eq_fuel dx d) as HM.
        destruct (dictlistmerge bind_eq d dx) as [d2|e] eqn:E2.
        * destruct (IH d2 (sunion V Nx)) as (x & f1 & Hx1 & Hs1).
          exists x, (Nat.max f0 f1). split; auto. intros f Hf. rewrite Hs by lia. simpl. rewrite E2. simpl. apply Hs1. lia.
        * exists (Err e), f0. split; [congruence|]. intros f Hf. rewrite Hs by lia. simpl. now rewrite E2.
      + exists (Err e), f0. split; [congruence|]. intros f Hf. rewrite Hs by lia. reflexivity.
  Qed.
End Term.
