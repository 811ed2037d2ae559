(** BlkProofs5.v - what a visited statement leaves. *)
From Verif Require Import Base ScopeModel ScopeSpec ScopeProofs DfModel DfSpec DfProofs ReorderModel ReorderSpec ReorderProofs BindModel BindSpec BindProofs AsgModel AsgSpec AsgProofs AsgProofs2 BlkModel BlkSpec BlkProofs BlkProofs2 BlkProofs3 BlkProofs4.

Section Main.
  Variable I : interp.
  Variable k : nat.
  Variable array : chain -> bool.
  Variable ns : list chain.
  Variable Q : chain -> bool.
  Hypothesis HN : none_strict I.
  Hypothesis Hns : Forall no_any ns.
  Hypothesis HQ : forall n, Q n = true -> In n ns /\ array n = false.
  Notation state := (state I).
  Notation Inv := (Inv I k array ns Q).
  Notation Arms := (Arms I ns Q).
  Notation cons := (cons I ns).
  Notation St := (St ns Q).
  Notation Val := (Val I ns Q).
  Notation placed := (placed Q).
  Let plain n (H : In n ns) : no_any n := ns_plain ns Hns n H.

  Record Post (s s' : bst) (c : option (df * bool)) (t t' : btable) (r : list bframe) (p : path) (w' : env) (v v' : state) (asg : chain -> bool) : Prop := {
    p_inv : Inv s' c t' r p w' v'; p_terms : incl (bs_terms s) (bs_terms s');
    p_same : forall n, In n (bs_terms s) -> asg n = false -> dget (bs_trees s') n = dget (bs_trees s) n;
    p_tab : forall n, In n ns -> asg n = false -> dget t' n = dget t n;
    p_asg : forall n, asg n = true -> dget t' n <> None /\ exists M, tree_of s' n = graft p (tree_of s n) M;
    p_live : forall n, In n ns -> dget t' n = Some Live -> dget t n = Some Live \/ dget (bs_trees s) n = None;
    p_q : forall n, asg n = true -> Q n = true;
    p_keep : forall n, In n ns -> asg n = false -> v' n = v n }.

  (** ** arms *)
  Lemma post_arms s s' c t' r p w' v v' asg : incl ns (bs_terms s) -> Post s s' c [] t' r p w' v v' asg -> Arms s s' [t'] p v v' asg.
  Proof.
    intros H0 P. destruct (p_inv _ _ _ _ _ _ _ _ _ _ _ P) as (I1 & I2 & I3 & I4 & I5 & I6 & I7 & I8). inversion I3 as [|f0 r0 Ft Fr]; subst f0 r0. destruct Ft as (F1 & _ & F3). cbn [bf_tab] in *.
    constructor.
    - exact I1.
    - exact I2.
    - exact (p_terms _ _ _ _ _ _ _ _ _ _ _ P).
    - exact (p_same _ _ _ _ _ _ _ _ _ _ _ P).
    - intros n Ha. exact (proj2 (p_asg _ _ _ _ _ _ _ _ _ _ _ P n Ha)).
    - constructor; [exact F1|constructor].
    - intros n Hn. cbn [map]. destruct (asg n) eqn:Ha.
      + destruct (p_asg _ _ _ _ _ _ _ _ _ _ _ P n Ha) as [N _]. destruct (dget t' n) as [e|] eqn:E; [|congruence]. destruct (F3 n e (plain n Hn) E) as (_ & D & _).
        split; [destruct e as [|u]; cbn [disciplined]|cbn [last_entry]; destruct e as [|u]].
        * split; [|constructor]. destruct (p_live _ _ _ _ _ _ _ _ _ _ _ P n Hn E) as [K|K]; [discriminate K|exact K].
        * constructor.
        * exact D.
        * pose proof (I8 n _ Hn E) as K. cbn [entry_tree] in K. unfold tree_of in K. destruct (dget (bs_trees s') n); congruence.
      + rewrite (p_tab _ _ _ _ _ _ _ _ _ _ _ P n Hn Ha). cbn [dget]. split; [exact Logic.I|]. cbn [last_entry]. apply (p_same _ _ _ _ _ _ _ _ _ _ _ P); auto.
    - intros n Hn. cbn [map last_entry]. split.
      + intros Ha. exact (proj1 (p_asg _ _ _ _ _ _ _ _ _ _ _ P n Ha)).
      + intros N. destruct (dget t' n) as [e|] eqn:E; [|congruence]. destruct (F3 n e Hn E) as (Hq & _ & _). apply HQ in Hq as [Hq _]. destruct (asg n) eqn:Ha; [reflexivity|].
        rewrite (p_tab _ _ _ _ _ _ _ _ _ _ _ P n Hq Ha) in E. discriminate E.
    - exact (p_q _ _ _ _ _ _ _ _ _ _ _ P).
    - exact (p_keep _ _ _ _ _ _ _ _ _ _ _ P).
  Qed.
  Lemma arms_nil s p v : St s -> Val s v -> Arms s s [[]] p v v (fun _ => false).
  Proof.
    intros H1 H2. constructor; auto; try discriminate.
    - intros n Hn. exact Hn.
    - constructor; [split; constructor|constructor].
    - intros n _. split; [exact Logic.I|reflexivity].
    - intros n _. cbn [map dget last_entry]. split; [discriminate|congruence].
  Qed.
  Lemma arms_app s s1 s2 tabs1 tabs2 p r1 r2 v v1 v2 asg1 asg2 : path_ok p -> incl ns (bs_terms s) ->
    Arms s s1 tabs1 (p ++ r1) v v1 asg1 -> Arms s1 s2 tabs2 (p ++ r2) v1 v2 asg2 -> Arms s s2 (tabs1 ++ tabs2) p v v2 (fun n => asg1 n || asg2 n).
  Proof.
    intros Hp H0 A B. assert (forall n, Q n = true -> In n (bs_terms s)) as H0' by (intros n Hq; apply H0, HQ, Hq).
    constructor.
    - exact (a_st _ _ _ _ _ _ _ _ _ _ B).
    - exact (a_val _ _ _ _ _ _ _ _ _ _ B).
    - intros n Hn. exact (a_terms _ _ _ _ _ _ _ _ _ _ B n (a_terms _ _ _ _ _ _ _ _ _ _ A n Hn)).
    - intros n Hn Ha. apply orb_false_iff in Ha as [A1 A2]. rewrite (a_same _ _ _ _ _ _ _ _ _ _ B n (a_terms _ _ _ _ _ _ _ _ _ _ A n Hn) A2). exact (a_same _ _ _ _ _ _ _ _ _ _ A n Hn A1).
    - intros n Ha. destruct (asg1 n) eqn:A1.
      + destruct (a_graft _ _ _ _ _ _ _ _ _ _ A n A1) as (M1 & E1). rewrite graft_app in E1. destruct (asg2 n) eqn:A2.
        * destruct (a_graft _ _ _ _ _ _ _ _ _ _ B n A2) as (M2 & E2). rewrite graft_app in E2. rewrite E2, E1, graft_graft by exact Hp. eauto.
        * rewrite (tree_of_eq s1 s2 n), E1; [eauto|]. apply (a_same _ _ _ _ _ _ _ _ _ _ B); [|exact A2]. apply (a_terms _ _ _ _ _ _ _ _ _ _ A), H0', (a_q _ _ _ _ _ _ _ _ _ _ A n A1).
      + cbn [orb] in Ha. destruct (a_graft _ _ _ _ _ _ _ _ _ _ B n Ha) as (M2 & E2). rewrite graft_app in E2. rewrite E2. rewrite (tree_of_eq s s1 n); [eauto|].
        apply (a_same _ _ _ _ _ _ _ _ _ _ A); [|exact A1]. apply H0', (a_q _ _ _ _ _ _ _ _ _ _ B n Ha).
    - apply Forall_app. split; [exact (a_tabs _ _ _ _ _ _ _ _ _ _ A)|exact (a_tabs _ _ _ _ _ _ _ _ _ _ B)].
    - intros n Hn. rewrite map_app. eapply left_app; [exact (a_left _ _ _ _ _ _ _ _ _ _ A n Hn)|exact (a_left _ _ _ _ _ _ _ _ _ _ B n Hn)].
    - intros n Hn. rewrite map_app, last_app. pose proof (a_last _ _ _ _ _ _ _ _ _ _ A n Hn) as K1. pose proof (a_last _ _ _ _ _ _ _ _ _ _ B n Hn) as K2.
      rewrite orb_true_iff. rewrite K1, K2. clear K1 K2. unfold btable in *. destruct (last_entry (map (fun u => dget u n) tabs2)); [|split; [intros [K|K]; [exact K|congruence]|auto]].
      split; [discriminate|right; discriminate].
    - intros n Ha. apply orb_true_iff in Ha as [Ha|Ha]; [exact (a_q _ _ _ _ _ _ _ _ _ _ A n Ha)|exact (a_q _ _ _ _ _ _ _ _ _ _ B n Ha)].
    - intros n Hn Ha. apply orb_false_iff in Ha as [A1 A2]. rewrite (a_keep _ _ _ _ _ _ _ _ _ _ B n Hn A2). exact (a_keep _ _ _ _ _ _ _ _ _ _ A n Hn A1).
  Qed.
  Lemma arms_ext s s' tabs p v v1 v2 asg asg' : Arms s s' tabs p v v1 asg -> (cons s' -> v2 = v1) -> (forall n, asg' n = asg n) ->
    (forall n, In n ns -> asg n = false -> v2 n = v n) -> Arms s s' tabs p v v2 asg'.
  Proof.
    intros A Hv Ha Hk. constructor.
    - exact (a_st _ _ _ _ _ _ _ _ _ _ A).
    - intros HC n Hn. rewrite (Hv HC). exact (a_val _ _ _ _ _ _ _ _ _ _ A HC n Hn).
    - exact (a_terms _ _ _ _ _ _ _ _ _ _ A).
    - intros n Hn. rewrite Ha. exact (a_same _ _ _ _ _ _ _ _ _ _ A n Hn).
    - intros n. rewrite Ha. exact (a_graft _ _ _ _ _ _ _ _ _ _ A n).
    - exact (a_tabs _ _ _ _ _ _ _ _ _ _ A).
    - exact (a_left _ _ _ _ _ _ _ _ _ _ A).
    - intros n. rewrite Ha. exact (a_last _ _ _ _ _ _ _ _ _ _ A n).
    - intros n. rewrite Ha. exact (a_q _ _ _ _ _ _ _ _ _ _ A n).
    - intros n Hn. rewrite Ha. exact (Hk n Hn).
  Qed.
  Lemma arms_prefix s s' tabs p q v v' asg : Arms s s' tabs (p ++ q) v v' asg -> Arms s s' tabs p v v' asg.
  Proof.
    intros A. destruct A as [A1 A2 A3 A4 A5 A6 A7 A8 A9 A10]. constructor; auto. intros n Ha. destruct (A5 n Ha) as (M & ->). rewrite graft_app. eauto.
  Qed.

  (** ** sequences *)
  Lemma post_refl s c t r p w v : Inv s c t r p w v -> Post s s c t t r p w v v (fun _ => false).
  Proof. intros H. constructor; auto; try discriminate. intros n Hn. exact Hn. Qed.
  Lemma post_trans s s1 s2 c t t1 t2 r p w1 w2 v v1 v2 asg1 asg2 asg : path_ok p -> incl ns (bs_terms s) -> (forall n, asg n = asg1 n || asg2 n) ->
    Post s s1 c t t1 r p w1 v v1 asg1 -> Post s1 s2 c t1 t2 r p w2 v1 v2 asg2 -> Post s s2 c t t2 r p w2 v v2 asg.
  Proof.
    intros Hp H0 Hasg A B. assert (forall n, Q n = true -> In n (bs_terms s)) as H0' by (intros n Hq; apply H0, HQ, Hq).
    constructor; try (intros n; rewrite Hasg).
    - exact (p_inv _ _ _ _ _ _ _ _ _ _ _ B).
    - intros n Hn. exact (p_terms _ _ _ _ _ _ _ _ _ _ _ B n (p_terms _ _ _ _ _ _ _ _ _ _ _ A n Hn)).
    - intros Hn Ha. apply orb_false_iff in Ha as [A1 A2]. rewrite (p_same _ _ _ _ _ _ _ _ _ _ _ B n (p_terms _ _ _ _ _ _ _ _ _ _ _ A n Hn) A2). exact (p_same _ _ _ _ _ _ _ _ _ _ _ A n Hn A1).
    - intros Hn Ha. apply orb_false_iff in Ha as [A1 A2]. rewrite (p_tab _ _ _ _ _ _ _ _ _ _ _ B n Hn A2). exact (p_tab _ _ _ _ _ _ _ _ _ _ _ A n Hn A1).
    - intros Ha. destruct (asg1 n) eqn:A1.
      + destruct (p_asg _ _ _ _ _ _ _ _ _ _ _ A n A1) as (N1 & M1 & E1). pose proof (p_q _ _ _ _ _ _ _ _ _ _ _ A n A1) as Hq. destruct (asg2 n) eqn:A2.
        * destruct (p_asg _ _ _ _ _ _ _ _ _ _ _ B n A2) as (N2 & M2 & E2). split; [exact N2|]. rewrite E2, E1, graft_graft by exact Hp. eauto.
        * split; [rewrite (p_tab _ _ _ _ _ _ _ _ _ _ _ B n (proj1 (HQ n Hq)) A2); exact N1|]. rewrite (tree_of_eq s1 s2 n), E1; [eauto|].
          apply (p_same _ _ _ _ _ _ _ _ _ _ _ B); [|exact A2]. apply (p_terms _ _ _ _ _ _ _ _ _ _ _ A), H0', Hq.
      + cbn [orb] in Ha. destruct (p_asg _ _ _ _ _ _ _ _ _ _ _ B n Ha) as (N2 & M2 & E2). split; [exact N2|]. rewrite E2. rewrite (tree_of_eq s s1 n); [eauto|].
        apply (p_same _ _ _ _ _ _ _ _ _ _ _ A); [|exact A1]. apply H0', (p_q _ _ _ _ _ _ _ _ _ _ _ B n Ha).
    - intros n Hn E. destruct (p_live _ _ _ _ _ _ _ _ _ _ _ B n Hn E) as [K|K]; [exact (p_live _ _ _ _ _ _ _ _ _ _ _ A n Hn K)|]. right.
      destruct (asg1 n) eqn:A1; [|rewrite <- (p_same _ _ _ _ _ _ _ _ _ _ _ A n (H0 n Hn) A1); exact K]. exfalso.
      destruct (p_asg _ _ _ _ _ _ _ _ _ _ _ A n A1) as (N1 & _). destruct (dget t1 n) as [e|] eqn:E1; [|congruence].
      destruct (p_inv _ _ _ _ _ _ _ _ _ _ _ A) as (_ & _ & I3 & _). inversion I3 as [|f0 r0 Ft Fr]; subst f0 r0. destruct Ft as (_ & _ & F3). destruct (F3 n e (plain n Hn) E1) as (_ & D & _). congruence.
    - intros Ha. apply orb_true_iff in Ha as [Ha|Ha]; [exact (p_q _ _ _ _ _ _ _ _ _ _ _ A n Ha)|exact (p_q _ _ _ _ _ _ _ _ _ _ _ B n Ha)].
    - intros Hn Ha. apply orb_false_iff in Ha as [A1 A2]. rewrite (p_keep _ _ _ _ _ _ _ _ _ _ _ B n Hn A2). exact (p_keep _ _ _ _ _ _ _ _ _ _ _ A n Hn A1).
  Qed.

  (** ** the end of a statement *)
  Lemma post_of_arms s c t r p w v s' v' tabs asg w' : Inv s c t r p w v -> Arms s s' tabs p v v' asg -> (forall n, asg n = true -> ~ locked (BFrame c t :: r) n) ->
    (forall n, In n ns -> placed s' (if asg n then [BFrame None [(n, Live)]] else BFrame c t :: r) p n (w' n)) ->
    Post s (fst (copy_tables s' t tabs)) c t (snd (copy_tables s' t tabs)) r p w' v v' asg.
  Proof.
    intros H A U HW. destruct (finish I k array ns Q Hns HQ s c t r p w v s' v' tabs asg H A U) as (C1 & C2 & C3 & C4 & C5 & C6). cbv zeta in *.
    set (s2 := fst (copy_tables s' t tabs)) in *. set (t2 := snd (copy_tables s' t tabs)) in *.
    destruct H as (I1 & I2 & I3 & I4 & I5 & I6 & I7 & I8).
    constructor.
    - apply C3. intros n Hn. specialize (HW n Hn). assert (dget (bs_trees s2) n = dget (bs_trees s') n) as Es by (apply C2, plain, Hn). destruct (asg n) eqn:Ha.
      + destruct (C5 n Ha) as (e & E & Et). revert HW. apply placed_move.
        * cbn [find_entry bf_tab dget]. rewrite chain_eq_refl. discriminate.
        * cbn [find_entry bf_tab dget]. rewrite chain_eq_refl. intros e0 J. injection J as <-. exists e. rewrite E, Et. split; [reflexivity|]. apply tree_of_eq, Es.
        * apply tree_of_eq, Es.
      + revert HW. apply placed_move; [|intros e|apply tree_of_eq, Es].
        * cbn [find_entry bf_tab]. rewrite (C4 n Hn Ha). auto.
        * cbn [find_entry bf_tab]. rewrite (C4 n Hn Ha). intros E. exists e. split; [exact E|apply entry_tree_eq, Es].
    - rewrite C1. exact (a_terms _ _ _ _ _ _ _ _ _ _ A).
    - intros n Hn Ha. rewrite C2; [exact (a_same _ _ _ _ _ _ _ _ _ _ A n Hn Ha)|]. exact (proj1 (Forall_forall _ _) (proj1 I1) n Hn).
    - exact C4.
    - intros n Ha. split; [destruct (C5 n Ha) as (e & -> & _); discriminate|]. destruct (a_graft _ _ _ _ _ _ _ _ _ _ A n Ha) as (M & E). exists M. rewrite <- E.
      apply tree_of_eq, C2, plain, HQ, (a_q _ _ _ _ _ _ _ _ _ _ A n Ha).
    - exact C6.
    - exact (a_q _ _ _ _ _ _ _ _ _ _ A).
    - exact (a_keep _ _ _ _ _ _ _ _ _ _ A).
  Qed.
  Lemma block_start s c t r p w v : Inv s c t r p w v -> Inv s None [] (BFrame c t :: r) p w v.
  Proof.
    intros (I1 & I2 & I3 & I4 & I5 & I6 & I7 & I8). split; [exact I1|]. split; [exact I2|]. split; [constructor; [split; [split; constructor|split; [exact Logic.I|discriminate]]|exact I3]|].
    split; [|split; [exact I5|split; [exact I6|split; [exact I7|discriminate]]]]. cbn [condpath bf_cond] in *. rewrite I4. reflexivity.
  Qed.
  Lemma leave_placed s s' tabs c t r p w v v' asg : Inv s c t r p w v -> Arms s s' tabs p v v' asg ->
    forall n, In n ns -> placed s' (if asg n then [BFrame None [(n, Live)]] else BFrame c t :: r) p n (leave asg w n).
  Proof.
    intros (I1 & I2 & I3 & I4 & I5 & I6 & I7 & I8) A n Hn. unfold leave. destruct (asg n) eqn:Ha.
    - split; [|discriminate]. cbn [fst find_entry bf_tab dget]. rewrite chain_eq_refl. split; [discriminate|]. destruct (a_graft _ _ _ _ _ _ _ _ _ _ A n Ha) as (M & ->). apply present_graft, good_path_ok, I5.
    - assert (dget (bs_trees s') n = dget (bs_trees s) n) as E by (apply (a_same _ _ _ _ _ _ _ _ _ _ A); [apply (proj1 (proj2 (proj2 I1))), Hn|exact Ha]).
      generalize (I7 n Hn). apply placed_move; [auto| |apply tree_of_eq, E]. intros e Ee. exists e. split; [exact Ee|apply entry_tree_eq, E].
  Qed.

  (** ** an assignment *)
  Lemma assign_post s c t r p w w' v n e s' t' : Inv s c t r p w v -> In n ns -> Q n = true -> expr_ok ns e -> ~ locked (BFrame c t :: r) n ->
    bflow (BAsg n e) w = Some w' -> assign k array s (BFrame c t) r n e = Ok (s', t') ->
    Post s s' c t t' r p w' v (if holds I p then bexec I (BAsg n e) v else v) (bassigns (BAsg n e)).
  Proof.
    intros H Hn Hq [He1 He2] Hu Hf E. pose proof H as (I1 & I2 & I3 & I4 & I5 & I6 & I7 & I8). inversion I3 as [|f0 r0 Ft Fr]; subst f0 r0.
    unfold assign in E. rewrite I4 in E. cbn [bind] in E. unfold getTree in E. apply bind_ok in E as (raw & E1 & E). apply bind_ok in E1 as (raw0 & E0 & E1).
    apply bind_ok in E as ([rn cnt] & E2 & E). cbn [fst snd] in E. destruct (new_name_ok _ _ _ (plain n Hn) _ _ _ E2) as [Rp Rn].
    destruct I1 as (S1 & S2 & S3 & S4 & S5). pose proof (S3 n Hn) as Hnt. assert (rn <> n) as Nn by (intros ->; contradiction).
    apply bind_ok in E as (T1 & E3 & E). apply bind_ok in E as (T2 & E4 & E). set (s1 := BSt (dset (bs_trees s) rn raw) (bs_terms s ++ [rn]) cnt) in *.
    assert (forall m, no_any m -> m <> rn -> dget (bs_trees s1) m = dget (bs_trees s) m) as K1.
    { intros m Hm N. subst s1. cbn [bs_trees]. rewrite dget_dset by assumption. destruct (chain_dec rn m); [congruence|reflexivity]. }
    assert (dget (bs_trees s1) n = dget (bs_trees s) n) as K1n by (apply K1; [apply plain, Hn|congruence]).
    assert (near p (tree_of s n)) as Nr.
    { destruct (I7 n Hn) as [P _]. cbn [bflow] in Hf. destruct (w n) as [[| | |] f]; cbn [fst] in P; [apply present_near, (proj2 P Hq)|apply present_near, (proj2 P)|exact (proj2 P)|discriminate Hf]. }
    pose proof (good_path_ok _ I5) as Pp.
    rewrite (tree_of_eq s s1 n K1n), insert_graft in E3 by assumption. injection E3 as <-.
    destruct (reorder_graft p Pp _ _ _ _ (proj2 (S5 n Hq)) E4) as (M' & k' & EM & ->). assert (M' = DTerm rn) as -> by (destruct k'; [discriminate EM|injection EM as <-; reflexivity]). clear EM.
    set (T2 := graft p (tree_of s n) (DTerm rn)) in *.
    set (en := match dget (bs_trees s1) n with None => Live | Some _ => Own T2 end) in *.
    set (s2 := set_tree s1 n T2) in *.
    assert (plain_st s1) as Ps1 by (apply dset_plain; assumption).
    assert (plain_st s2) as Ps2 by (apply dset_plain; [assumption|apply plain, Hn]).
    assert (forall m, no_any m -> dget (bs_trees s2) m = if chain_dec n m then Some T2 else dget (bs_trees s1) m) as K2.
    { intros m Hm. subst s2. unfold set_tree. cbn [bs_trees]. apply dget_dset; auto. }
    assert (dget (bs_trees s2) n = Some T2) as K2n by (rewrite K2 by (apply plain, Hn); destruct (chain_dec n n); congruence).
    assert (tree_of s2 n = T2) as Kt by (unfold tree_of; now rewrite K2n).
    assert (forall m, In m (bs_terms s) -> m <> n -> dget (bs_trees s2) m = dget (bs_trees s) m) as K2m.
    { intros m Hm N. assert (no_any m) as Hm' by exact (proj1 (Forall_forall _ _) S1 m Hm). rewrite K2 by exact Hm'. destruct (chain_dec n m); [congruence|]. apply K1; [exact Hm'|]. intros ->. contradiction. }
    assert (bs_terms s2 = bs_terms s ++ [rn]) as Kts by reflexivity.
    assert (dget (bs_trees s2) rn = Some raw) as Kr.
    { rewrite K2 by exact Rp. destruct (chain_dec n rn); [congruence|]. subst s1. cbn [bs_trees]. rewrite dget_dset by assumption. destruct (chain_dec rn rn); congruence. }
    assert (shaped T2 /\ stable true T2 = true) as [Sh Sb].
    { split; [apply shaped_graft; [exact I5|apply wild_plain, Rp|exact (proj1 (S5 n Hq))]|exact (reorder_stable _ _ _ E4)]. }
    assert (forall m, same_name n m = true <-> m = n) as Sn by (intros m; unfold same_name; destruct (chain_dec n m); split; congruence).
    assert (cons s2 -> cons s) as CB.
    { apply cons_back; [rewrite Kts; intros m Hm; apply in_or_app; auto|]. intros m Hm Hx. apply K2m; [exact Hm|]. intros ->. contradiction. }
    assert (Arms s s2 [[(n, en)]] p v (if holds I p then bexec I (BAsg n e) v else v) (same_name n)) as A.
    { constructor.
      - split; [|split; [exact Ps2|split; [|split]]].
        + rewrite Kts. apply Forall_app. split; [exact S1|constructor; [exact Rp|constructor]].
        + rewrite Kts. intros m Hm. apply in_or_app. left. auto.
        + intros m u Hm Em. rewrite Kts. apply in_or_app. rewrite K2 in Em by exact Hm. destruct (chain_dec n m) as [<-|N]; [auto|]. destruct (chain_dec m rn) as [->|N']; [right; now left|]. rewrite K1 in Em by assumption. left. exact (S4 m u Hm Em).
        + intros m Hm. destruct (chain_dec m n) as [->|N]; [rewrite Kt; auto|]. rewrite (tree_of_eq s s2 m); [exact (S5 m Hm)|]. apply K2m; [apply S3, HQ, Hm|exact N].
      - intros HC m Hm. pose proof (CB HC) as HC0. destruct (chain_dec m n) as [->|N].
        + rewrite Kt. subst T2. rewrite tv_graft; [|exact I5|exact (proj1 (S5 n Hq))]. destruct (holds I p) eqn:Hh; [|exact (I2 HC0 n Hm)]. cbn [tree_value eval]. cbn [bexec]. unfold update. destruct (chain_dec n n); [|congruence].
          assert (i_term I rn = eval I raw) as ->.
          { apply (HC rn raw); [rewrite Kts; apply in_or_app; right; now left| |exact Kr]. intros Hin. apply Rn, S3, Hin. }
          rewrite (reorder_eval I HN _ _ _ E1). exact (expr_value I k array ns Q HN Hns HQ s (BFrame c t :: r) p v e raw0 I6 I3 I5 He2 E0 HC0 Hh).
        + rewrite (tree_of_eq s s2 m) by (apply K2m; [apply S3, HQ, Hm|exact N]). rewrite (I2 HC0 m Hm). destruct (holds I p); [|reflexivity]. cbn [bexec]. unfold update. destruct (chain_dec n m); [congruence|reflexivity].
      - rewrite Kts. intros m Hm. apply in_or_app. auto.
      - intros m Hm Ha. apply K2m; [exact Hm|]. intros ->. rewrite (proj2 (Sn n) eq_refl) in Ha. discriminate Ha.
      - intros m Ha. apply Sn in Ha. subst m. exists (DTerm rn). exact Kt.
      - constructor; [|constructor]. split; [constructor; [apply plain, Hn|constructor]|]. cbn [map fst]. constructor; [intros []|constructor].
      - intros m Hm. cbn [map dget]. destruct (chain_eq n m) eqn:Ec.
        + apply chain_eq_no_any in Ec; [|apply plain, Hn|apply plain, Hm]. subst m. split.
          * subst en. rewrite K1n. destruct (dget (bs_trees s) n); cbn [disciplined]; [constructor|]. split; [reflexivity|constructor].
          * cbn [last_entry]. rewrite K2n. subst en. destruct (dget (bs_trees s1) n); congruence.
        + split; [exact Logic.I|]. cbn [last_entry]. apply K2m; [auto|]. intros ->. rewrite chain_eq_refl in Ec. discriminate Ec.
      - intros m Hm. rewrite Sn. cbn [map dget last_entry]. destruct (chain_eq n m) eqn:Ec.
        + apply chain_eq_no_any in Ec; [|apply plain, Hn|exact Hm]. split; [discriminate|congruence].
        + split; [|congruence]. intros ->. rewrite chain_eq_refl in Ec. discriminate Ec.
      - intros m Ha. apply Sn in Ha. now subst m.
      - intros m Hm Ha. destruct (holds I p); [|reflexivity]. cbn [bexec]. unfold update. destruct (chain_dec n m) as [<-|]; [|reflexivity]. rewrite (proj2 (Sn n) eq_refl) in Ha. discriminate Ha. }
    assert (put_entry s2 t n en = copy_tables s2 t [[(n, en)]]) as Ep by (cbn [copy_tables copy_table fst snd]; destruct (put_entry s2 t n en); reflexivity).
    cbn [bf_tab] in E. fold en in E. rewrite Ep in E. assert (copy_tables s2 t [[(n, en)]] = (s', t')) as Es by congruence. clear E.
    assert (s' = fst (copy_tables s2 t [[(n, en)]]) /\ t' = snd (copy_tables s2 t [[(n, en)]])) as [-> ->] by (rewrite Es; auto).
    apply (post_of_arms s c t r p w v s2 _ [[(n, en)]] (same_name n) w' H A).
    - intros m Ha. apply Sn in Ha. now subst m.
    - intros m Hm. assert (w' = set_env w n (BHere, true)) as -> by (cbn [bflow] in Hf; destruct (w n) as [[| | |] f]; congruence). unfold set_env. unfold same_name.
      destruct (chain_dec n m) as [<-|N].
      + split; cbn [fst snd find_entry bf_tab dget]; rewrite chain_eq_refl.
        * split; [discriminate|]. rewrite Kt. apply present_graft, Pp.
        * intros _ _. exists Live, p, [], rn. cbn [entry_tree]. rewrite app_nil_r, Kt. split; [reflexivity|]. split; [reflexivity|]. split; [apply present_graft, Pp|apply get_graft, Pp].
      + assert (dget (bs_trees s2) m = dget (bs_trees s) m) as Em by (apply K2m; [auto|congruence]). generalize (I7 m Hm). apply placed_move; [auto| |apply tree_of_eq, Em]. intros e0 Ee. exists e0. split; [exact Ee|apply entry_tree_eq, Em].
  Qed.
End Main.
