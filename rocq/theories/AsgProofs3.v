(** AsgProofs3.v - one assignment, the copies, and whole statements. *)
From Verif Require Import Base ScopeModel ScopeSpec ScopeProofs DfModel DfSpec DfProofs ReorderModel ReorderSpec ReorderProofs BindModel BindSpec BindProofs AsgModel AsgSpec AsgProofs AsgProofs2.

Section Main.
  Variable q : target.
  Hypothesis Hq : no_any (q_name q).
  Variable I : interp.
  Hypothesis HI : sane I.
  Variable k : nat.
  Variable ai : option alwaysinfo.

  Let Hns : none_strict I := proj1 HI.
  Let Hag : forall n m, agree n m -> i_term I n = i_term I m := proj1 (proj2 HI).

  Notation rec := (rec q).
  Notation Tl := (Tl q).
  Notation T := (T q).
  Notation tok := (tok q).
  Notation sok := (sok q).

  (** ** one assignment *)
  Lemma makeBind_q s d raw p b ty : sok s -> path_ok p -> dest_target d = q -> plain_tree (d_msb d) -> plain_tree (d_lsb d) -> plain_tree (d_ptr d) ->
    stable true (T s) = true -> near p (T s) -> makeBind k ai s d raw p 1 ty = Ok b ->
    plain_bind b /\ isq q b = true /\ stable true (b_tree b) = true /\
    exists M, b_tree b = graft p (T s) M /\ eval I M = eval I raw.
  Proof.
    intros (S1 & S2 & S3) Hp Hd P1 P2 P3 HT HN E. unfold makeBind in E.
    apply bind_ok in E as (cur & Ec & E). apply bind_ok in E as (t & Et & E). apply bind_ok in E as (t1 & E1 & E).
    change (1 <? 1) with false in E. cbn [bind] in E. injection E as <-.
    assert (d_name d = q_name q) as En by now rewrite <- Hd.
    rewrite En in Ec.
    assert (cur = T s) as ->.
    { refine (current_tr q _ _ _ S2 _ _ Ec); [exact (conj P1 (conj P2 P3))|]. unfold slice, qs. simpl. rewrite <- Hd. reflexivity. }
    rewrite (insert_graft p (T s) raw Hp HN) in Et. injection Et as <-.
    pose proof (reorder_stable _ _ _ E1) as Hst.
    apply reorder_graft in E1 as (M & k' & EM & ->); auto.
    split; [exact (conj P1 (conj P2 P3))|]. split; [apply isq_iff; unfold slice, qs; simpl; rewrite <- Hd; reflexivity|].
    split; [exact Hst|]. exists M. split; auto. eapply reorder_eval; eauto.
  Qed.
  Lemma makeBind_shape s d raw p n ty b : makeBind k ai s d raw p n ty = Ok b -> slice b = (d_msb d, d_lsb d, d_ptr d).
  Proof.
    unfold makeBind. intros E. apply bind_ok in E as (cur & _ & E). apply bind_ok in E as (t & _ & E). apply bind_ok in E as (t1 & _ & E).
    apply bind_ok in E as (t2 & _ & E). injection E as <-. reflexivity.
  Qed.
  Lemma target_cases (d : dest) (b : bind_) : slice b = (d_msb d, d_lsb d, d_ptr d) ->
    (if chain_dec (d_name d) (q_name q) then isq q b else false) = is_target q d.
  Proof.
    intros H. unfold is_target, isq. rewrite H. unfold dest_target, qs.
    destruct (target_dec _ q) as [E0|N]; destruct (chain_dec (d_name d) _) as [E|E]; auto.
    - match goal with |- context [slice_dec ?a ?b] => destruct (slice_dec a b) as [|K] end; auto. destruct K. rewrite <- E0. reflexivity.
    - destruct E. rewrite <- E0. reflexivity.
    - match goal with |- context [slice_dec ?a ?b] => destruct (slice_dec a b) as [K|K] end; auto. destruct N. injection K as -> -> ->. rewrite E. now destruct q.
  Qed.

  (** ** what a piece of the program has done to the tree *)
  Record post (p : path) (T0 T1 : df) (a : bool) (f : dom I -> dom I) : Prop := {
    po_stable : stable true T1 = true;
    po_in : holds I p = true -> eval I T1 = f (eval I T0);
    po_out : holds I p = false -> eval I T1 = eval I T0;
    po_same : a = false -> eval I T1 = eval I T0;
    po_shape : (exists M, T1 = graft p T0 M) \/ (T1 = T0 /\ a = false)
  }.
  Lemma post_refl p T0 : stable true T0 = true -> post p T0 T0 false (fun v => v).
  Proof. intros H. constructor; auto. Qed.
  Lemma post_trans p T0 T1 T2 a b f g : path_ok p -> post p T0 T1 a f -> post p T1 T2 b g -> post p T0 T2 (a || b) (fun v => g (f v)).
  Proof.
    intros Hp A B. constructor.
    - apply (po_stable _ _ _ _ _ B).
    - intros H. rewrite (po_in _ _ _ _ _ B H), (po_in _ _ _ _ _ A H). reflexivity.
    - intros H. rewrite (po_out _ _ _ _ _ B H), (po_out _ _ _ _ _ A H). reflexivity.
    - intros H. apply orb_false_iff in H as [H1 H2]. rewrite (po_same _ _ _ _ _ B H2). apply (po_same _ _ _ _ _ A H1).
    - destruct (po_shape _ _ _ _ _ B) as [[M ->]|[-> ->]].
      + left. destruct (po_shape _ _ _ _ _ A) as [[M' ->]|[-> _]]; [rewrite graft_graft by auto|]; eauto.
      + destruct (po_shape _ _ _ _ _ A) as [[M' ->]|[-> ->]]; eauto.
  Qed.
  Lemma post_ext p T0 T1 a f g : (forall v, f v = g v) -> post p T0 T1 a f -> post p T0 T1 a g.
  Proof. intros H [A B C D E]. constructor; auto. intros K. rewrite <- H. auto. Qed.
  Lemma holds_snoc p c b : holds I (p ++ [(c, b)]) = holds I p && Bool.eqb (i_truth I (eval I c)) b.
  Proof. unfold holds. rewrite forallb_app. simpl. now rewrite andb_true_r. Qed.
  Lemma post_up p c b T0 T1 a f : post (p ++ [(c, b)]) T0 T1 a f ->
    post p T0 T1 a (fun v => if Bool.eqb (i_truth I (eval I c)) b then f v else v).
  Proof.
    intros [A B C D E]. rewrite holds_snoc in *. constructor; auto.
    - intros H. rewrite H in *. destruct (Bool.eqb _ b); auto.
    - intros H. apply C. now rewrite H.
    - destruct E as [[M ->]|E]; auto. left. rewrite graft_app. eauto.
  Qed.
  Lemma post_present p T0 T1 a f : path_ok p -> post p T0 T1 a f -> present p T0 = true -> present p T1 = true.
  Proof. intros Hp [_ _ _ _ [[M ->]|[-> _]]] H; auto. now apply present_graft. Qed.

  Definition keeps (s s' : store) : Prop := Tl s <> [] -> Tl s' <> [].

  (** ** the copies made on entering an arm *)
  Definition copied (p : path) (r : list df) (T0 T1 : df) : Prop :=
    match r with
    | [] => T1 = T0
    | V :: _ => exists M, T1 = graft p T0 M /\ eval I M = eval I V
    end.
  Lemma copy_step n p b new s n1 nb s1 : no_any n -> rb q n b -> tok new -> sok s ->
    addNonblockingAssign new n b = Ok n1 -> makeBind k ai s (Dest n (b_msb b) (b_lsb b) (b_ptr b) DNone DNone) (b_tree b) p 1 "" = Ok nb ->
    addBind s n nb = Ok s1 ->
    tok n1 /\ sok s1 /\ keeps s s1 /\
    (if chain_dec n (q_name q) then if isq q b then rec n1 = [b_tree b] /\ Tl s1 = [b_tree nb] else rec n1 = rec new /\ Tl s1 = Tl s
     else rec n1 = rec new /\ Tl s1 = Tl s).
  Proof.
    intros Hn H1 Ht Hs E1 E2 E3. pose proof H1 as [[B1 [B2 B3]] _].
    destruct (addNon_ok q Hq new n b n1 Hn H1 Ht E1) as [Ht1 Er].
    pose proof (makeBind_shape _ _ _ _ _ _ _ E2) as Sh. simpl in Sh.
    assert (plain_bind nb) as Hnb by (unfold slice in Sh; injection Sh as K1 K2 K3; unfold plain_bind; rewrite K1, K2, K3; auto).
    destruct (addBind_ok q Hq s n nb s1 Hn Hnb Hs E3) as [Hs1 EL].
    assert (isq q nb = isq q b) as Qb by (apply isq_eq; exact Sh). rewrite Qb in EL.
    split; [exact Ht1|]. split; [exact Hs1|]. split.
    - intros K. rewrite EL. destruct (chain_dec n (q_name q)); auto. destruct (isq q b); auto. discriminate.
    - destruct (chain_dec n (q_name q)); auto. destruct (isq q b); auto.
  Qed.
  Lemma Tl_T s s' : Tl s = Tl s' -> T s = T s'.
  Proof. unfold AsgProofs2.T. congruence. Qed.
  Lemma keeps_trans a b c : keeps a b -> keeps b c -> keeps a c.
  Proof. unfold keeps. auto. Qed.
  (** binds of other targets *)
  Lemma copy_other n p : no_any n -> forall l new s new' s', Forall (rb q n) l -> tok new -> sok s ->
    (n = q_name q -> tr q l = []) -> copy_binds k ai new s n l p = Ok (new', s') ->
    tok new' /\ sok s' /\ keeps s s' /\ rec new' = rec new /\ Tl s' = Tl s.
  Proof.
    intros Hn. induction l as [|b l IH]; intros new s new' s' Hl Ht Hs H0 E; cbn [copy_binds] in E.
    - injection E as <- <-. split; [exact Ht|]. split; [exact Hs|]. split; [intros K; exact K|]. auto.
    - apply bind_ok in E as (n1 & E1 & E). apply bind_ok in E as (nb & E2 & E). apply bind_ok in E as (s1 & E3 & E).
      pose proof (Forall_inv Hl) as H1; pose proof (Forall_inv_tail Hl) as H2. destruct (copy_step n p b new s n1 nb s1 Hn H1 Ht Hs E1 E2 E3) as (Ht1 & Hs1 & K1 & C).
      assert (rec n1 = rec new /\ Tl s1 = Tl s) as [C1 C2].
      { destruct (chain_dec n (q_name q)) as [EN|NN]; auto. specialize (H0 EN). rewrite tr_cons in H0. destruct (isq q b); [discriminate|auto]. }
      assert (H0' : n = q_name q -> tr q l = []).
      { intros EN. specialize (H0 EN). rewrite tr_cons in H0. destruct (isq q b); [discriminate|auto]. }
      destruct (IH n1 s1 new' s' H2 Ht1 Hs1 H0' E) as (A & B & D & F & G).
      split; [exact A|]. split; [exact B|]. split; [eapply keeps_trans; eauto|]. split; congruence.
  Qed.
  (** the bind of q *)
  Lemma copy_own p : path_ok p -> forall l new s new' s' V, Forall (rb q (q_name q)) l -> tok new -> sok s -> stable true (T s) = true ->
    rec new = [] -> tr q l = [V] -> near p (T s) -> copy_binds k ai new s (q_name q) l p = Ok (new', s') ->
    tok new' /\ sok s' /\ keeps s s' /\ stable true (T s') = true /\ rec new' = [V] /\ copied p [V] (T s) (T s').
  Proof.
    intros Hp. induction l as [|b l IH]; intros new s new' s' V Hl Ht Hs HT R0 EV Nr E; cbn [copy_binds] in E; [discriminate|].
    apply bind_ok in E as (n1 & E1 & E). apply bind_ok in E as (nb & E2 & E). apply bind_ok in E as (s1 & E3 & E).
    pose proof (Forall_inv Hl) as H1; pose proof (Forall_inv_tail Hl) as H2. destruct (copy_step _ p b new s n1 nb s1 Hq H1 Ht Hs E1 E2 E3) as (Ht1 & Hs1 & K1 & C).
    destruct (chain_dec (q_name q) (q_name q)) as [_|NN]; [|congruence]. rewrite tr_cons in EV. destruct (isq q b) eqn:Q.
    - destruct C as [C1 C2]. injection EV as EV El.
      destruct (copy_other _ p Hq l n1 s1 new' s' H2 Ht1 Hs1 (fun _ => El) E) as (A & B & D & F & G).
      pose proof H1 as [[B1 [B2 B3]] _].
      assert (HD : dest_target (Dest (q_name q) (b_msb b) (b_lsb b) (b_ptr b) DNone DNone) = q).
      { apply isq_iff in Q. unfold dest_target. simpl. unfold slice, qs in Q. injection Q as -> -> ->. now destruct q. }
      destruct (makeBind_q s _ (b_tree b) p nb "" Hs Hp HD B1 B2 B3 HT Nr E2) as (_ & _ & St & M & EM & Ev).
      assert (T s' = b_tree nb) as ET1 by (unfold AsgProofs2.T; rewrite G, C2; reflexivity).
      split; [exact A|]. split; [exact B|]. split; [eapply keeps_trans; eauto|]. split; [congruence|]. split; [congruence|].
      exists M. split; congruence.
    - destruct C as [C1 C2]. pose proof (Tl_T _ _ C2) as ET.
      destruct (IH n1 s1 new' s' V H2 Ht1 Hs1) as (A & B & D & F & G & H); auto; try congruence.
      rewrite ET in H. split; [exact A|]. split; [exact B|]. split; [eapply keeps_trans; eauto|]. auto.
  Qed.

  Lemma rec_cons n l t : NoDup (n :: map fst t) -> no_any n -> keys_plain t -> rec ((n, l) :: t) = if chain_dec n (q_name q) then tr q l else rec t.
  Proof.
    intros Hd Hn Hk. unfold AsgProofs2.rec, lst. simpl. destruct (chain_dec n (q_name q)) as [->|N].
    - now rewrite chain_eq_refl.
    - destruct (chain_eq n (q_name q)) eqn:E; auto. apply chain_eq_no_any in E; auto. contradiction.
  Qed.
  Lemma rec_absent t : ~ In (q_name q) (map fst t) -> keys_plain t -> rec t = [].
  Proof.
    intros H Hk. unfold AsgProofs2.rec, lst. replace (dget t (q_name q)) with (@None (list bind_)); auto.
    induction Hk as [|[n l] t Hn Hk IH]; simpl in *; auto. destruct (chain_eq n (q_name q)) eqn:E; auto. apply chain_eq_no_any in E; auto. tauto.
  Qed.
  Lemma rec_after n l t : n = q_name q -> tok ((n, l) :: t) -> rec t = [].
  Proof. intros -> (V1 & V2 & _ & _). inv V1. inv V2. now apply rec_absent. Qed.
  Lemma tok_cons n l t : tok ((n, l) :: t) ->
    no_any n /\ Forall (rb q n) l /\ tok t /\ rec ((n, l) :: t) = if chain_dec n (q_name q) then tr q l else rec t.
  Proof.
    intros Hv. pose proof Hv as (V1 & V2 & V3 & V4). inv V1. inv V3. simpl in H1, V2, H3.
    pose proof (rec_cons n l t V2 H1 H2) as RC. split; [auto|]. split; [auto|]. split; [|auto].
    split; [auto|]. split; [now inv V2|]. split; [auto|]. change (length (rec t) <= 1).
    change (length (rec ((n, l) :: t)) <= 1) in V4. rewrite RC in V4. destruct (chain_dec n (q_name q)) as [E|N]; auto.
    rewrite (rec_after n l t E Hv). simpl. lia.
  Qed.
  Lemma copyPrevious_none p : forall prev new s new' s', tok prev -> tok new -> sok s -> rec prev = [] ->
    copyPrevious k ai new s prev p = Ok (new', s') ->
    tok new' /\ sok s' /\ keeps s s' /\ rec new' = rec new /\ Tl s' = Tl s.
  Proof.
    induction prev as [|[n l] prev IH]; intros new s new' s' Hv Ht Hs R E; cbn [copyPrevious] in E.
    - injection E as <- <-. split; [exact Ht|]. split; [exact Hs|]. split; [intros K; exact K|]. auto.
    - apply bind_ok in E as ([n1 s1] & E1 & E). cbn [fst snd] in E.
      destruct (tok_cons _ _ _ Hv) as (Hn & Hl & Hp & RC). rewrite RC in R.
      destruct (copy_other n p Hn l new s n1 s1 Hl Ht Hs) as (A & B & C & D & F); auto.
      { intros ->. destruct (chain_dec (q_name q) (q_name q)); [auto|congruence]. }
      assert (rec prev = []) as R'. { destruct (chain_dec n (q_name q)); auto. apply rec_after with (n := n) (l := l); auto. }
      destruct (IH n1 s1 new' s' Hp A B R' E) as (A' & B' & C' & D' & F').
      split; [exact A'|]. split; [exact B'|]. split; [eapply keeps_trans; eauto|]. split; congruence.
  Qed.
  Lemma copyPrevious_some p V : path_ok p -> forall prev new s new' s', tok prev -> tok new -> sok s -> stable true (T s) = true ->
    rec prev = [V] -> rec new = [] -> near p (T s) ->
    copyPrevious k ai new s prev p = Ok (new', s') ->
    tok new' /\ sok s' /\ keeps s s' /\ stable true (T s') = true /\ rec new' = [V] /\ copied p [V] (T s) (T s').
  Proof.
    intros Hp0. induction prev as [|[n l] prev IH]; intros new s new' s' Hv Ht Hs HT R R0 Nr E; cbn [copyPrevious] in E; [discriminate|].
    apply bind_ok in E as ([n1 s1] & E1 & E). cbn [fst snd] in E.
    destruct (tok_cons _ _ _ Hv) as (Hn & Hl & Hp & RC). rewrite RC in R.
    destruct (chain_dec n (q_name q)) as [->|N].
    - destruct (copy_own p Hp0 l new s n1 s1 V) as (A & B & C & D & F & G); auto.
      destruct (copyPrevious_none p prev n1 s1 new' s' Hp A B (rec_after _ _ _ eq_refl Hv) E) as (A' & B' & C' & D' & F').
      pose proof (Tl_T _ _ F') as ET.
      split; [exact A'|]. split; [exact B'|]. split; [eapply keeps_trans; eauto|]. rewrite ET. split; [auto|]. split; [congruence|auto].
    - destruct (copy_other n p Hn l new s n1 s1 Hl Ht Hs) as (A & B & C & D & F); auto; [intros; contradiction|].
      pose proof (Tl_T _ _ F) as ET.
      destruct (IH n1 s1 new' s') as (A' & B' & C' & D' & F' & G'); auto; try congruence.
      rewrite ET in G'. split; [exact A'|]. split; [exact B'|]. split; [eapply keeps_trans; eauto|]. auto.
  Qed.
End Main.
