(** BlkProofs6.v - the visit of a statement. *)
From Verif Require Import Base ScopeModel ScopeSpec ScopeProofs DfModel DfSpec DfProofs ReorderModel ReorderSpec ReorderProofs BindModel BindSpec BindProofs AsgModel AsgSpec AsgProofs AsgProofs2 AsgProofs4 BlkModel BlkSpec BlkProofs BlkProofs2 BlkProofs3 BlkProofs4 BlkProofs5.

(** ** the condition of a case item *)
Lemma fine_op l r o : fine l -> fine r -> fine (DOp [l; r] o).
Proof. intros [A B] [C D]. split; cbn [occurs isBranch odd2 existsb]; [rewrite A, C|rewrite B, D]; reflexivity. Qed.
Definition lnames (g : option (list df)) : list chain := match g with Some ws => flat_map names ws | None => [] end.
Section Cond.
  Variable J : interp.
  Hypothesis H1 : i_truth J (i_const J (DInt "1")) = true.
  Hypothesis HL : forall a b, i_truth J (i_op J Lor [a; b]) = i_truth J a || i_truth J b.
  Lemma lor_fine comp l : fine comp -> Forall fine l -> forall acc t, fine acc -> lor_eqs comp acc l = Ok t ->
    fine t /\ incl (names t) (names acc ++ names comp ++ flat_map names l) /\
    i_truth J (eval J t) = i_truth J (eval J acc) || existsb (fun w => i_truth J (i_op J Eq [eval J comp; eval J w])) l.
  Proof.
    intros Hc. induction 1 as [|w l Hw Hl IH]; intros acc t Ha E; cbn [lor_eqs] in E.
    - injection E as <-. split; [auto|]. split; [intros n Hn; apply in_or_app; auto|]. cbn [existsb]. now rewrite orb_false_r.
    - apply bind_ok in E as (e & E1 & E). apply bind_ok in E as (a & E2 & E).
      apply insertOp_bf in E1; [|apply Hc|apply Hw]. subst e.
      pose proof (fine_op _ _ Eq Hc Hw) as He. apply insertOp_bf in E2; [|apply Ha|apply He]. subst a.
      destruct (IH _ t (fine_op _ _ Lor Ha He) E) as (A & B & C). split; [exact A|]. split.
      + intros n Hn. apply B in Hn. cbn [names flat_map] in *. rewrite !in_app_iff in *. cbn [In] in Hn. tauto.
      + rewrite C. cbn [eval map existsb]. rewrite HL. now rewrite orb_assoc.
  Qed.
  Lemma item_fine comp g c : fine comp -> match g with Some ws => Forall fine ws | None => True end -> item_cond comp g = Ok c ->
    fine c /\ incl (names c) (names comp ++ lnames g) /\ i_truth J (eval J c) = label_matches J comp g.
  Proof.
    intros Hc Hg E. destruct g as [[|w l]|]; cbn [item_cond] in E; [discriminate| |].
    - apply bind_ok in E as (e & E1 & E). inversion Hg as [|w0 l0 HX HY]; subst w0 l0. apply insertOp_bf in E1; [|apply Hc|apply HX]. subst e.
      destruct (lor_fine comp l Hc HY _ c (fine_op _ _ Eq Hc HX) E) as (A & B & C). split; [exact A|]. split; [|exact C].
      intros n Hn. apply B in Hn. cbn [names flat_map lnames] in *. rewrite !in_app_iff in *. cbn [In] in Hn. tauto.
    - injection E as <-. split; [split; reflexivity|]. split; [intros n []|]. cbn [eval label_matches]. apply H1.
  Qed.
End Cond.
Lemma enter_readable o w asg c : readable w asg c = true -> readable (enter o w) asg c = true.
Proof.
  unfold readable. rewrite !forallb_forall. intros H n Hn. specialize (H n Hn). unfold enter. destruct (w n) as [[| | |] f]; try exact H. destruct (o n); exact H.
Qed.

Lemma ok_pair {A B} (q : A * B) a b : Ok q = Ok (a, b) -> a = fst q /\ b = snd q.
Proof. intros E. injection E as ->. auto. Qed.

Section Main.
  Variable I : interp.
  Variable k : nat.
  Variable array : chain -> bool.
  Variable s0 : bst.
  Notation ns := (bs_terms s0).
  Variable Q : chain -> bool.
  Hypothesis HN : none_strict I.
  Hypothesis HT : i_truth I (i_const I (DInt "1")) = true.
  Hypothesis HL : forall a b, i_truth I (i_op I Lor [a; b]) = i_truth I a || i_truth I b.
  Hypothesis Hns : Forall no_any ns.
  Hypothesis HQ : forall n, Q n = true -> In n ns /\ array n = false.
  Notation state := (state I).
  Notation Inv := (Inv I k array ns Q).
  Notation Arms := (Arms I ns Q).
  Notation Post := (Post I k array ns Q).
  Notation cons := (cons I ns).
  Notation bvisit := (bvisit k array).

  Definition Main (x : bstmt) : Prop := forall s c t r p w v w' s' t', Inv s c t r p w v -> bwf s0 array x -> (forall n, bassigns x n = true -> Q n = true) ->
    (forall n, bassigns x n = true -> ~ locked (BFrame c t :: r) n) -> bflow x w = Some w' -> bvisit s c t r x = Ok (s', t') ->
    Post s s' c t t' r p w' v (if holds I p then bexec I x v else v) (bassigns x).

  Lemma inv_ns s c t r p w v : Inv s c t r p w v -> incl ns (bs_terms s).
  Proof. intros ((_ & _ & H & _) & _). exact H. Qed.
  Lemma inv_path s c t r p w v : Inv s c t r p w v -> path_ok p.
  Proof. intros (_ & _ & _ & _ & H & _). now apply good_path_ok. Qed.

  Definition owf (y : option bstmt) : Prop := match y with Some y => bwf s0 array y | None => True end.
  Lemma arm y : (forall y', y = Some y' -> Main y') -> forall s c r p w v s' u, Inv s c [] r p w v -> owf y -> (forall n, oassigns y n = true -> Q n = true) ->
    (forall n, oassigns y n = true -> ~ locked (BFrame c [] :: r) n) -> oflow y w <> None -> ovisit k array s c r y = Ok (s', u) ->
    Arms s s' [u] p v (if holds I p then oexec I y v else v) (oassigns y).
  Proof.
    intros HM s c r p w v s' u H Hw Hq Hl Hf E. destruct y as [y|]; cbn [ovisit oflow oassigns oexec owf] in *.
    - destruct (bflow y w) as [w'|] eqn:Ef; [|congruence]. pose proof (HM y eq_refl s c [] r p w v w' s' u H Hw Hq Hl Ef E) as P.
      exact (post_arms I k array ns Q Hns HQ _ _ _ _ _ _ _ _ _ _ (inv_ns _ _ _ _ _ _ _ H) P).
    - injection E as <- <-. destruct H as (I1 & I2 & _). destruct (holds I p); exact (arms_nil I ns Q s p v I1 I2).
  Qed.
  Lemma arms_some s s' tabs p v v' asg n : Arms s s' tabs p v v' asg -> asg n = true -> dget (bs_trees s') n <> None.
  Proof.
    intros A Ha. pose proof (a_q _ _ _ _ _ _ _ _ _ _ A n Ha) as Hq. apply HQ in Hq as [Hq _]. destruct (a_left _ _ _ _ _ _ _ _ _ _ A n Hq) as [_ L].
    pose proof (proj1 (a_last _ _ _ _ _ _ _ _ _ _ A n (ns_plain ns Hns n Hq)) Ha) as K. destruct (last_entry (map (fun u => dget u n) tabs)) as [[|u]|]; congruence.
  Qed.

  (** Both arms of a condition: the first one has been visited; the second one starts. *)
  Lemma first_arm s c t r p w v asg cnd c' : Inv s c t r p w v -> resolve k array (read_at s (BFrame c t :: r) p) cnd = Ok c' -> fine c' -> incl (names cnd) ns ->
    Inv s (Some (cnd, true)) [] (BFrame c t :: r) (p ++ [(c', true)]) (enter (fun _ => false) w) v /\
    forall s1 tabs v1, Arms s s1 tabs (p ++ [(c', true)]) v v1 asg -> (forall n, asg n = true -> ~ locked (BFrame (Some (cnd, false)) [] :: BFrame c t :: r) n) ->
      (holds I (p ++ [(c', true)]) = false -> v1 = v) ->
      Inv s1 (Some (cnd, false)) [] (BFrame c t :: r) (p ++ [(c', false)]) (enter asg w) v1.
  Proof.
    intros H Ec Fc Nc. pose proof H as (I1 & I2 & _). split.
    - apply (arm_start I k array ns Q Hns HQ s c t r p w v cnd c' true s v (fun _ => false) H Ec Fc Nc I1 I2); auto; try discriminate. intros n Hn. exact Hn.
    - intros s1 tabs v1 A HL1 HV. apply (arm_start I k array ns Q Hns HQ s c t r p w v cnd c' false s1 v1 asg H Ec Fc Nc).
      + exact (a_st _ _ _ _ _ _ _ _ _ _ A).
      + exact (a_val _ _ _ _ _ _ _ _ _ _ A).
      + exact (a_terms _ _ _ _ _ _ _ _ _ _ A).
      + exact (a_same _ _ _ _ _ _ _ _ _ _ A).
      + intros n Ha. split; [exact (a_q _ _ _ _ _ _ _ _ _ _ A n Ha)|]. split; [exact (arms_some _ _ _ _ _ _ _ n A Ha)|exact (a_graft _ _ _ _ _ _ _ _ _ _ A n Ha)].
      + exact HL1.
      + intros _ HH n _. rewrite HV; [reflexivity|]. rewrite holds_app in *. apply andb_true_iff in HH as [-> HH]. unfold holds in *. cbn [forallb fst snd] in *.
        destruct (i_truth I (eval I c')); [discriminate HH|reflexivity].
  Qed.
  Lemma arm_unlocked b c t r cnd asg : (forall n, asg n = true -> ~ locked (BFrame c t :: r) n) -> (forall n, In n (names cnd) -> asg n = true -> find_entry (BFrame c t :: r) n = None) ->
    forall n, asg n = true -> ~ locked (BFrame (Some (cnd, b)) [] :: BFrame c t :: r) n.
  Proof. intros H1 H2 n Ha Hl. destruct Hl as [[Hi Hf]|Hl]; [exact (Hf (H2 n Hi Ha))|exact (H1 n Ha Hl)]. Qed.
  Lemma holds_one c b : holds I [(c, b)] = Bool.eqb (i_truth I (eval I c)) b.
  Proof. unfold holds. cbn [forallb fst snd]. apply andb_true_r. Qed.

  Lemma expr_fine e : expr_ok ns e -> branch_free e -> fine e /\ incl (names e) ns.
  Proof. intros [A B] C. split; [split; [assumption|]|assumption]. apply odd2_ok; [exact A|]. apply Forall_forall. intros n Hn. exact (ns_plain ns Hns n (B n Hn)). Qed.

  Definition iwf (l : list (option (list df) * option bstmt)) : Prop :=
    Forall (fun gy => match fst gy with Some ws => Forall (fun w => expr_ok ns w /\ branch_free w) ws | None => True end /\ owf (snd gy)) l.
  Lemma items comp : fine comp -> incl (names comp) ns -> forall l, Forall (fun gy => forall y, snd gy = Some y -> Main y) l ->
    forall A s c t r p w v s' tabs, Inv s c t r p w v -> iwf l -> readable w A comp = true ->
    forallb (fun gy => match fst gy with Some ws => forallb (readable w A) ws | None => true end) l = true -> iflow l w <> None ->
    (forall n, iassigns l n = true -> A n = true) -> (forall n, A n = true -> ~ locked (BFrame c t :: r) n) -> (forall n, A n = true -> Q n = true) ->
    ivisit k array comp s (BFrame c t :: r) l = Ok (s', tabs) ->
    Arms s s' tabs p v (if holds I p then iexec I comp l v else v) (iassigns l).
  Proof.
    intros Fc Nc l HM. induction HM as [|[g y] l Hy HM IH]; intros A s c t r p w v s' tabs H Hw Rc Rl Hf HA HU HqA E.
    - cbn [ivisit] in E. injection E as <- <-. destruct H as (I1 & I2 & _). assert (Arms s s [] p v v (iassigns [])) as K.
      { constructor; auto; try discriminate. - intros n Hn. exact Hn. - intros n _. split; [exact Logic.I|reflexivity]. - intros n _. cbn [map last_entry]. split; [discriminate|congruence]. }
      destruct (holds I p); exact K.
    - cbn [ivisit] in E. apply bind_ok in E as (cnd & Ec & E). apply bind_ok in E as ([s1 u1] & E1 & E). cbn [fst snd] in E. inversion Hw as [|gy l0 [Hg Hwy] Hwl]; subst gy l0. cbn [fst snd] in Hg, Hwy.
      cbn [forallb fst] in Rl. apply andb_true_iff in Rl as [Rg Rl].
      assert (match g with Some ws => Forall fine ws | None => True end) as Fg.
      { destruct g as [ws|]; [|exact Logic.I]. eapply Forall_impl; [|exact Hg]. intros e [X Y]. exact (proj1 (expr_fine e X Y)). }
      assert (fine cnd /\ incl (names cnd) (names comp ++ lnames g)) as [Fcnd Ncnd] by (destruct (item_fine I HT HL comp g cnd Fc Fg Ec) as (X & Y & _); auto).
      assert (incl (names cnd) ns) as Nn.
      { intros n Hn. apply Ncnd in Hn. apply in_app_or in Hn as [Hn|Hn]; [exact (Nc n Hn)|]. destruct g as [ws|]; [|destruct Hn]. apply in_flat_map in Hn as (e & He & Hn). exact (proj2 (proj1 (proj1 (Forall_forall _ _) Hg e He)) n Hn). }
      assert (readable w A cnd = true) as Rcnd.
      { unfold readable in *. rewrite forallb_forall in *. intros n Hn. apply Ncnd in Hn. apply in_app_or in Hn as [Hn|Hn]; [exact (Rc n Hn)|]. destruct g as [ws|]; [|destruct Hn]. apply in_flat_map in Hn as (e & He & Hn).
        rewrite forallb_forall in Rg. specialize (Rg e He). rewrite forallb_forall in Rg. exact (Rg n Hn). }
      destruct (cond_ready I k array ns Q HN Hns HQ s c t r p w v A cnd H Rcnd Nn Fcnd) as (c' & Er & Fc' & Vc & Kc).
      destruct (first_arm s c t r p w v (oassigns y) cnd c' H Er Fc' Nn) as [In1 In2].
      assert (forall n, iassigns ((g, y) :: l) n = oassigns y n || iassigns l n) as Has by reflexivity.
      assert (forall n, oassigns y n = true -> A n = true) as HAy by (intros n Hn; apply HA; rewrite Has, Hn; reflexivity).
      assert (forall n, iassigns l n = true -> A n = true) as HAl by (intros n Hn; apply HA; rewrite Has, Hn; apply orb_true_r).
      assert (forall b n, A n = true -> ~ locked (BFrame (Some (cnd, b)) [] :: BFrame c t :: r) n) as HU2 by (intros b; apply arm_unlocked; assumption).
      assert (oflow y (enter (fun _ => false) w) <> None /\ iflow l (enter (oassigns y) w) <> None) as [Fy Fl].
      { cbn [iflow] in Hf. destruct y as [y|]; cbn [oflow obind] in *; [destruct (bflow y _)|]; cbn [obind] in Hf; split; congruence. }
      set (p1 := p ++ [(c', true)]) in *. set (p2 := p ++ [(c', false)]) in *.
      pose proof (arm y Hy s (Some (cnd, true)) (BFrame c t :: r) p1 _ v s1 u1 In1 Hwy (fun n Hn => HqA n (HAy n Hn)) (fun n Hn => HU2 true n (HAy n Hn)) Fy E1) as A1.
      set (v1 := if holds I p1 then oexec I y v else v) in *.
      assert (cons s1 -> cons s) as CB1 by exact (arms_cons I array ns Q HQ _ _ _ _ _ _ _ A1).
      assert (forall b, holds I (p ++ [(c', b)]) = holds I p && Bool.eqb (i_truth I (eval I c')) b) as Hh by (intros b; rewrite holds_app, holds_one; reflexivity).
      assert (cons s -> holds I p = true -> i_truth I (eval I c') = label_matches (at_state I v) comp g) as Tc.
      { intros HC HH. rewrite (Vc HC HH). exact (proj2 (proj2 (item_fine (at_state I v) HT HL comp g cnd Fc Fg Ec))). }
      assert (Arms s s' tabs p v (if holds I p2 then iexec I comp l v1 else v1) (fun n => oassigns y n || iassigns l n)) as AA.
      { destruct l as [|gy l].
        - injection E as <- <-. apply (arms_ext I ns Q s s1 [u1] p v v1 _ (oassigns y)).
          + exact (arms_prefix I ns Q _ _ _ _ _ _ _ _ A1).
          + intros _. destruct (holds I p2); reflexivity.
          + intros n. apply orb_false_r.
          + intros n Hn Ha. cbn [iexec]. assert (v1 n = v n) as Ev by exact (a_keep _ _ _ _ _ _ _ _ _ _ A1 n Hn Ha). destruct (holds I p2); exact Ev.
        - apply bind_ok in E as ([s2 tabs2] & E2 & E). cbn [fst snd] in E. injection E as <- <-.
          assert (Inv s1 (Some (cnd, false)) [] (BFrame c t :: r) p2 (enter (oassigns y) w) v1) as In2'.
          { apply (In2 s1 [u1] v1 A1); [intros n Hn; exact (HU2 false n (HAy n Hn))|]. subst v1. fold p1. intros ->. reflexivity. }
          pose proof (IH A s1 (Some (cnd, false)) [] (BFrame c t :: r) p2 _ v1 s2 tabs2 In2' Hwl (enter_readable _ _ _ _ Rc)) as IH'.
          assert (forallb (fun gy => match fst gy with Some ws => forallb (readable (enter (oassigns y) w) A) ws | None => true end) (gy :: l) = true) as Rl'.
          { rewrite forallb_forall in *. intros gy' Hg'. specialize (Rl gy' Hg'). destruct (fst gy'); [|reflexivity]. rewrite forallb_forall in *. intros e He. apply enter_readable, Rl, He. }
          specialize (IH' Rl' Fl HAl (HU2 false) HqA E2).
          pose proof (arms_nil I ns Q s1 p v1 (a_st _ _ _ _ _ _ _ _ _ _ A1) (a_val _ _ _ _ _ _ _ _ _ _ A1)) as A0.
          assert (Arms s1 s2 ([[]] ++ tabs2) p v1 (if holds I p2 then iexec I comp (gy :: l) v1 else v1) (fun n => (fun _ => false) n || iassigns (gy :: l) n)) as A2.
          { apply (arms_app I array ns Q HQ s1 s1 s2 [[]] tabs2 p [] [(c', false)] v1 v1 _ (fun _ => false) (iassigns (gy :: l))).
            - exact (inv_path _ _ _ _ _ _ _ H).
            - exact (inv_ns _ _ _ _ _ _ _ In2').
            - rewrite app_nil_r. exact A0.
            - exact IH'. }
          apply (arms_app I array ns Q HQ s s1 s2 [u1] ([] :: tabs2) p [(c', true)] [] v v1 _ (oassigns y) (iassigns (gy :: l))).
          + exact (inv_path _ _ _ _ _ _ _ H).
          + exact (inv_ns _ _ _ _ _ _ _ H).
          + exact A1.
          + rewrite app_nil_r. exact A2. }
      apply (arms_ext I ns Q s s' tabs p v (if holds I p2 then iexec I comp l v1 else v1) _ (fun n => oassigns y n || iassigns l n) _ AA).
      + intros HC. pose proof (arms_cons I array ns Q HQ _ _ _ _ _ _ _ AA HC) as HC0. cbn [iexec]. subst v1 p1 p2. rewrite !Hh.
        destruct (holds I p) eqn:HH; [|reflexivity]. rewrite <- (Tc HC0 eq_refl). destruct (i_truth I (eval I c')); reflexivity.
      + exact Has.
      + intros n Hn Ha. apply orb_false_iff in Ha as [Ha1 Ha2]. destruct (holds I p); [|reflexivity]. cbn [iexec]. destruct (label_matches _ _ _); [now apply oexec_keep|now apply iexec_keep].
  Qed.

  Lemma main x : Main x.
  Proof.
    induction x as [n e|l IH|cnd th el IHt IHe|comp its IH] using bstmt_ind'; intros s c t r p w v w' s' t' H Hw Hq HU Hf E.
    - cbn [bwf] in Hw. destruct Hw as (W1 & W2 & W3 & W4). assert (bassigns (BAsg n e) n = true) as Ha by (cbn [bassigns]; unfold same_name; destruct (chain_dec n n); congruence).
      apply (assign_post I k array ns Q HN Hns HQ s c t r p w w' v n e s' t' H W1 (Hq n Ha) W4 (HU n Ha) Hf). exact E.
    - rewrite visit_block in E. apply bind_ok in E as ([s1 u] & E & E1). cbn [fst snd] in E1. rewrite flow_block in Hf. rewrite exec_block.
      assert (forall l, Forall Main l -> forall s u w v w' s' u', Inv s None u (BFrame c t :: r) p w v -> (fix all (l : list bstmt) : Prop := match l with [] => True | y :: r => bwf s0 array y /\ all r end) l ->
        (forall n, existsb (fun y => bassigns y n) l = true -> Q n = true) -> (forall n, existsb (fun y => bassigns y n) l = true -> ~ locked (BFrame c t :: r) n) ->
        bflows l w = Some w' -> bvisits k array s u (BFrame c t :: r) l = Ok (s', u') ->
        Post s s' None u u' (BFrame c t :: r) p w' v (if holds I p then bexecs I l v else v) (fun n => existsb (fun y => bassigns y n) l)) as K.
      { clear - HQ Hns. induction 1 as [|y l Hy _ IHl]; intros s u w v w' s' u' H Hw Hq HU Hf E; cbn [bflows bvisits existsb] in *.
        - injection Hf as <-. injection E as <- <-. change (bexecs I [] v) with v. destruct (holds I p); exact (post_refl I k array ns Q s None u _ p w v H).
        - destruct (bflow y w) as [w1|] eqn:Ef; [|discriminate Hf]. cbn [obind] in Hf. apply bind_ok in E as ([s1 u1] & E1 & E). cbn [fst snd] in E. destruct Hw as [Hw1 Hw2].
          assert (Post s s1 None u u1 (BFrame c t :: r) p w1 v (if holds I p then bexec I y v else v) (bassigns y)) as P1.
          { apply (Hy s None u (BFrame c t :: r) p w v w1 s1 u1 H Hw1); auto.
            - intros n Hn. apply Hq. rewrite Hn. reflexivity.
            - intros n Hn [F|F]; [exact F|]. apply (HU n); [rewrite Hn; reflexivity|exact F]. }
          pose proof (IHl s1 u1 w1 _ w' s' u' (p_inv _ _ _ _ _ _ _ _ _ _ _ _ _ _ _ _ P1) Hw2) as P2.
          specialize (P2 ltac:(intros n Hn; apply Hq; rewrite Hn; apply orb_true_r) ltac:(intros n Hn; apply HU; rewrite Hn; apply orb_true_r) Hf E).
          pose proof (post_trans I k array ns Q Hns HQ s s1 s' None u u1 u' (BFrame c t :: r) p w1 w' v _ _ (bassigns y) _ (fun n => bassigns y n || existsb (fun y => bassigns y n) l) (inv_path _ _ _ _ _ _ _ H) (inv_ns _ _ _ _ _ _ _ H) (fun n => eq_refl) P1 P2) as P.
          destruct (holds I p); exact P. }
      specialize (K l IH s [] w v w' s1 u (block_start I k array ns Q s c t r p w v H) Hw Hq HU Hf E).
      pose proof (post_arms I k array ns Q Hns HQ _ _ _ _ _ _ _ _ _ _ (inv_ns _ _ _ _ _ _ _ H) K) as A.
      assert (copy_table s1 t u = copy_tables s1 t [u]) as Ec by (cbn [copy_tables]; destruct (copy_table s1 t u); reflexivity).
      rewrite Ec in E1. assert (s' = fst (copy_tables s1 t [u]) /\ t' = snd (copy_tables s1 t [u])) as [-> ->] by (apply ok_pair; exact E1).
      apply (post_of_arms I k array ns Q Hns HQ s c t r p w v s1 _ [u] _ w' H A HU).
      intros n Hn. pose proof (p_inv _ _ _ _ _ _ _ _ _ _ _ _ _ _ _ _ K) as (_ & _ & _ & _ & _ & _ & I7 & I8). specialize (I7 n Hn). cbn [bassigns]. destruct (existsb (fun y => bassigns y n) l) eqn:Ha.
      + destruct (p_asg _ _ _ _ _ _ _ _ _ _ _ _ _ _ _ _ K n Ha) as [Nu _]. destruct (dget u n) as [en|] eqn:Eu; [|congruence]. revert I7. apply placed_move; [|intros e0|reflexivity]; cbn [find_entry bf_tab dget]; rewrite Eu; [discriminate|].
        intros J. injection J as <-. rewrite chain_eq_refl. exists Live. split; [reflexivity|]. cbn [entry_tree]. symmetry. exact (I8 n en Hn Eu).
      + pose proof (p_tab _ _ _ _ _ _ _ _ _ _ _ _ _ _ _ _ K n Hn Ha) as Eu. revert I7. apply placed_move; [|intros e0|reflexivity]; cbn [find_entry bf_tab dget]; rewrite Eu; cbn [dget]; [auto|]. intros J. exists e0. auto.
    - cbn [bwf] in Hw. destruct Hw as (W1 & W2 & W3 & W4). cbn [bflow] in Hf. destruct (readable w (bassigns (BIf cnd th el)) cnd) eqn:Rc; [|discriminate Hf].
      assert (oflow th (enter (fun _ => false) w) <> None /\ oflow el (enter (oassigns th) w) <> None /\ w' = leave (bassigns (BIf cnd th el)) w) as (Fy & Fl & ->).
      { destruct th as [y|]; cbn [oflow] in *; [destruct (bflow y (enter (fun _ => false) w)); [|discriminate Hf]|]; cbn [obind] in Hf; (destruct el as [z|]; cbn [oflow] in *; [match goal with |- context [bflow z ?u] => destruct (bflow z u); [|discriminate Hf] end|]); cbn [obind] in Hf;
          injection Hf as <-; (split; [discriminate|]); (split; [discriminate|reflexivity]). }
      clear Hf. destruct (expr_fine cnd W1 W2) as [Fc Nc].
      destruct (cond_ready I k array ns Q HN Hns HQ s c t r p w v _ cnd H Rc Nc Fc) as (c' & Er & Fc' & Vc & Kc).
      destruct (first_arm s c t r p w v (oassigns th) cnd c' H Er Fc' Nc) as [In1 In2].
      assert (forall n, bassigns (BIf cnd th el) n = oassigns th n || oassigns el n) as Has by reflexivity.
      assert (forall n, oassigns th n = true -> bassigns (BIf cnd th el) n = true) as HAt by (intros n Hn; rewrite Has, Hn; reflexivity).
      assert (forall n, oassigns el n = true -> bassigns (BIf cnd th el) n = true) as HAe by (intros n Hn; rewrite Has, Hn; apply orb_true_r).
      assert (forall b n, bassigns (BIf cnd th el) n = true -> ~ locked (BFrame (Some (cnd, b)) [] :: BFrame c t :: r) n) as HU2 by (intros b; apply arm_unlocked; assumption).
      cbn [BlkModel.bvisit] in E. apply bind_ok in E as ([s1 u1] & E1 & E). apply bind_ok in E as ([s2 u2] & E2 & E). cbn [fst snd] in *.
      assert (ovisit k array s1 (Some (cnd, false)) (BFrame c t :: r) el = Ok (s2, u2)) as E2' by (destruct el as [z|]; [destruct th as [y|]; [exact E2|discriminate E2]|exact E2]).
      clear E2. change (ovisit k array s (Some (cnd, true)) (BFrame c t :: r) th = Ok (s1, u1)) in E1.
      set (p1 := p ++ [(c', true)]) in *. set (p2 := p ++ [(c', false)]) in *.
      pose proof (arm th IHt s (Some (cnd, true)) (BFrame c t :: r) p1 _ v s1 u1 In1 W3 (fun n Hn => Hq n (HAt n Hn)) (fun n Hn => HU2 true n (HAt n Hn)) Fy E1) as A1.
      set (v1 := if holds I p1 then oexec I th v else v) in *.
      assert (Inv s1 (Some (cnd, false)) [] (BFrame c t :: r) p2 (enter (oassigns th) w) v1) as In2'.
      { apply (In2 s1 [u1] v1 A1); [intros n Hn; exact (HU2 false n (HAt n Hn))|]. subst v1. fold p1. intros ->. reflexivity. }
      pose proof (arm el IHe s1 (Some (cnd, false)) (BFrame c t :: r) p2 _ v1 s2 u2 In2' W4 (fun n Hn => Hq n (HAe n Hn)) (fun n Hn => HU2 false n (HAe n Hn)) Fl E2') as A2.
      pose proof (arms_app I array ns Q HQ s s1 s2 [u1] [u2] p [(c', true)] [(c', false)] v v1 _ (oassigns th) (oassigns el) (inv_path _ _ _ _ _ _ _ H) (inv_ns _ _ _ _ _ _ _ H) A1 A2) as AA.
      assert (forall b, holds I (p ++ [(c', b)]) = holds I p && Bool.eqb (i_truth I (eval I c')) b) as Hh by (intros b; rewrite holds_app, holds_one; reflexivity).
      assert (Arms s s2 [u1; u2] p v (if holds I p then bexec I (BIf cnd th el) v else v) (bassigns (BIf cnd th el))) as AB.
      { apply (arms_ext I ns Q s s2 [u1; u2] p v (if holds I p2 then oexec I el v1 else v1) _ (fun n => oassigns th n || oassigns el n) _ AA).
        - intros HC. pose proof (arms_cons I array ns Q HQ _ _ _ _ _ _ _ AA HC) as HC0. cbn [bexec]. subst v1 p1 p2. rewrite !Hh.
          destruct (holds I p) eqn:HH; [|reflexivity]. rewrite <- (Vc HC0 eq_refl). destruct (i_truth I (eval I c')); reflexivity.
        - exact Has.
        - intros n Hn Ha. destruct (holds I p); [|reflexivity]. apply exec_keep. exact Ha. }
      assert (s' = fst (copy_tables s2 t [u1; u2]) /\ t' = snd (copy_tables s2 t [u1; u2])) as [-> ->] by (apply ok_pair; exact E).
      apply (post_of_arms I k array ns Q Hns HQ s c t r p w v s2 _ [u1; u2] _ _ H AB HU). exact (leave_placed I k array ns Q s s2 [u1; u2] c t r p w v _ _ H AB).
    - cbn [bwf] in Hw. destruct Hw as (W1 & W2 & W3). rewrite flow_case in Hf.
      destruct (readable w (bassigns (BCase comp its)) comp) eqn:Rc; [|discriminate Hf]. cbn [andb] in Hf.
      destruct (forallb _ its) eqn:Rl; [|discriminate Hf]. destruct (iflow its w) as [w1|] eqn:Ef; [|discriminate Hf]. cbn [obind] in Hf. injection Hf as <-.
      destruct (expr_fine comp W1 W2) as [Fc Nc]. rewrite visit_case in E. apply bind_ok in E as ([s1 tabs] & E & E1). cbn [fst snd] in E1.
      assert (iwf its) as Wi.
      { clear - W3. induction its as [|[g y] its IHi]; [constructor|]. destruct W3 as (X & Y & Z). constructor; [split; [exact X|exact Y]|exact (IHi Z)]. }
      assert (forall n, bassigns (BCase comp its) n = iassigns its n) as Has by reflexivity.
      pose proof (items comp Fc Nc its IH (bassigns (BCase comp its)) s c t r p w v s1 tabs H Wi Rc Rl ltac:(congruence) (fun n Hn => Hn) HU Hq E) as A.
      rewrite exec_case. assert (s' = fst (copy_tables s1 t tabs) /\ t' = snd (copy_tables s1 t tabs)) as [-> ->] by (apply ok_pair; exact E1).
      apply (post_of_arms I k array ns Q Hns HQ s c t r p w v s1 _ tabs _ _ H A HU). exact (leave_placed I k array ns Q s s1 tabs c t r p w v _ _ H A).
  Qed.
End Main.
