(** WhenProofs.v - states reported for a signal. *)
From Coq Require Import Sorting.Permutation.
From Verif Require Import Base ScopeModel DfModel DfSpec DfProofs BindSpec BindProofs SplitModel SplitSpec SplitProofs
  TransModel TransSpec TransProofs TransProps FsmModel FsmSpec FsmProofs FsmProofs2 FsmProps MachModel MachSpec MachText MachProofs MachProofs2 MachProofs3
  WhenModel WhenSpec.
Local Open Scope Z_scope.

(** ** Conditions on the state give nodes with ranges. *)
Definition fixed (r : sres) : Prop := Forall (fun n => isany n = false) (nodes_of r).
Lemma fixed_not n : isany n = false -> fixed (notStateNode n).
Proof. intros H. unfold notStateNode, fixed. rewrite H. destruct (is_none (transcond n)); repeat constructor. Qed.
Lemma and_any a b r : andStateNode a b = Ok (Some r) -> isany r = isany a && isany b.
Proof.
  intros E. unfold andStateNode in E. destruct (if isany a && isany b then _ else _) as [l|]; [|discriminate]. cbn [bind] in E.
  destruct (negb _ && _); [discriminate|]. injection E as <-. reflexivity.
Qed.
Lemma pairs_any l : Forall (fun p : snode * snode => isany (fst p) = false \/ isany (snd p) = false) l -> forall r, and_pairs l = Ok r ->
  Forall (fun n => isany n = false) r.
Proof.
  induction 1 as [|[x y] l Hx Hl IH]; intros r E; cbn [and_pairs] in E; [injection E as <-; constructor|].
  destruct (andStateNode x y) as [v|] eqn:Ev; [|discriminate]. cbn [bind] in E.
  destruct (and_pairs l) as [vs|]; [|discriminate]. cbn [bind] in E. injection E as <-. specialize (IH _ eq_refl).
  destruct v as [n|]; [|exact IH]. constructor; [|exact IH]. rewrite (and_any _ _ _ Ev). cbn in Hx. destruct Hx as [-> | ->]; [reflexivity|apply andb_false_r].
Qed.
Lemma prod_any la lb : Forall (fun n => isany n = false) la \/ Forall (fun n => isany n = false) lb ->
  Forall (fun p : snode * snode => isany (fst p) = false \/ isany (snd p) = false) (list_prod la lb).
Proof.
  intros H. apply Forall_forall. intros [x y] Hp. apply in_prod_iff in Hp as [H1 H2]. cbn.
  destruct H as [H|H]; rewrite Forall_forall in H; auto.
Qed.
Lemma mk_fixed l : Forall (fun n => isany n = false) l -> fixed (mk_list l).
Proof. destruct l; unfold fixed; cbn; auto. Qed.
Lemma fixed_and a b r : fixed a \/ fixed b -> a <> SNone -> b <> SNone -> andStateNodeList a b = Ok r -> fixed r.
Proof.
  intros H Na Nb E. unfold fixed in H. destruct a as [|a|la], b as [|b|lb]; try congruence; cbn [andStateNodeList nodes_of] in *.
  - destruct (andStateNode a b) as [v|] eqn:Ev; [|discriminate]. cbn [bind] in E. injection E as <-. destruct v as [n|]; unfold fixed; cbn; [|constructor].
    constructor; [|constructor]. rewrite (and_any _ _ _ Ev). destruct H as [H|H]; apply Forall_inv in H; rewrite H; [reflexivity|apply andb_false_r].
  - destruct (and_pairs _) as [v|] eqn:Ev; [|discriminate]. injection E as <-. apply mk_fixed. exact (pairs_any _ (prod_any [a] lb H) _ Ev).
  - destruct (and_pairs _) as [v|] eqn:Ev; [|discriminate]. injection E as <-. apply mk_fixed. exact (pairs_any _ (prod_any la [b] H) _ Ev).
  - destruct (and_pairs _) as [v|] eqn:Ev; [|discriminate]. injection E as <-. apply mk_fixed. exact (pairs_any _ (prod_any la lb H) _ Ev).
Qed.
Lemma fixed_or a b : fixed a -> fixed b -> fixed (orStateNodeList a b).
Proof.
  intros Ha Hb. unfold fixed in *. destruct a as [|a|la], b as [|b|lb]; cbn in *; try constructor; try (inversion Ha; subst; assumption);
    try (apply Forall_app; split; assumption).
Qed.
Lemma fixed_fold l : Forall (fun n => isany n = false) l -> forall acc r, fixed acc -> not_fold l acc = Ok r -> fixed r.
Proof.
  induction 1 as [|n l Hn Hl IH]; intros acc r Ha E; cbn [not_fold] in E; [injection E as <-; exact Ha|].
  destruct acc as [|a|la].
  - exact (IH _ _ (fixed_not n Hn) E).
  - destruct (andStateNodeList _ _) as [x|] eqn:Ex; [|discriminate]. refine (IH _ _ _ E). refine (fixed_and _ _ _ (or_introl Ha) _ _ Ex); [discriminate|apply notStateNode_present].
  - destruct (andStateNodeList _ _) as [x|] eqn:Ex; [|discriminate]. refine (IH _ _ _ E). refine (fixed_and _ _ _ (or_introl Ha) _ _ Ex); [discriminate|apply notStateNode_present].
Qed.
Lemma fixed_notlist a r : fixed a -> notStateNodeList a = Ok r -> fixed r.
Proof.
  intros Ha E. destruct a as [|a|l]; cbn [notStateNodeList] in E.
  - injection E as <-. exact Ha.
  - injection E as <-. apply fixed_not. now inversion Ha.
  - refine (fixed_fold l Ha SNone r _ E). constructor.
Qed.
Lemma fixed_create v w r : createStateNode v w = Ok r -> fixed r.
Proof.
  unfold createStateNode. destruct (iv_inv v); intros E; [|injection E as <-; repeat constructor].
  refine (fixed_notlist _ _ _ E). repeat constructor.
Qed.
Lemma tail_fixed x y o tn w r : is_state x tn || is_state y tn = true -> walk_tail x y o tn w = Ok r -> fixed r.
Proof.
  intros H E. unfold walk_tail in E. destruct (is_state x tn).
  - destruct (infer o y); [|discriminate]. exact (fixed_create _ _ _ E).
  - cbn in H. rewrite H in E. destruct (infer (swap_op o) x); [|discriminate]. exact (fixed_create _ _ _ E).
Qed.

Section Walk.
  Variables (tn : chain) (w : Z).
  Hypothesis Hw : 0 <= w.
  Notation good := (TransProofs.good tn w).
  Lemma on_state_fixed c : supported tn c = true -> no_contradiction tn w c -> on_state tn c = true ->
    forall r, walkCond c tn w = Ok r -> fixed r.
  Proof.
    induction c as [ |n|c|c|c|l o IH|v m l IHv IHm IHl|v p IHv IHp|l IH|c t f IHc IHt IHf|v w0 f g|w0|w0|t IH|c l IH]
      using df_ind'; intros Hsup Hnc Hon r E; try discriminate.
    - cbn [walkCond] in E. refine (tail_fixed _ _ _ _ _ _ _ E). cbn in Hon |- *. now rewrite Hon.
    - destruct l as [|x [|y [|z l]]]; try discriminate.
      + inversion IH as [|? ? H1 _]; subst. cbn [supported no_contradiction on_state] in *. destruct Hnc as [_ Hnc].
        assert (supported tn x = true) as Hx by (destruct o; try discriminate; auto).
        cbn [walkCond] in E. destruct (walkCond x tn w) as [n|]; [|discriminate]. cbn [bind] in E. specialize (H1 Hx Hnc Hon n eq_refl).
        destruct (isNot o); [exact (fixed_notlist _ _ H1 E)|injection E as <-; exact H1].
      + inversion IH as [|? ? H1 H2]; subst. inversion H2 as [|? ? H3 _]; subst. clear H2.
        pose proof Hnc as Hnc0. pose proof Hsup as Hsup0. cbn [supported no_contradiction] in Hsup, Hnc. destruct Hnc as [Hsat Hnc].
        destruct (isCompare o) eqn:Ec.
        { cbn [walkCond] in E. assert (isNonConditionOp o = false /\ isOr o = false /\ isAnd o = false) as (A1 & A2 & A3)
            by (destruct o; try discriminate; auto). rewrite A1, A2, A3 in E.
          refine (tail_fixed _ _ _ _ _ _ _ E). clear - Hon Ec. cbn [on_state] in Hon.
          assert (match x, y with DTerm n, DTerm m => chain_eq n tn || chain_eq m tn | DTerm n, _ | _, DTerm n => chain_eq n tn | _, _ => false end = true) as K
            by (destruct o; try discriminate; exact Hon).
          clear Hon. destruct x, y; cbn; try discriminate; rewrite ?orb_false_r; exact K. }
        destruct (isOr o) eqn:Eo.
        * assert (supported tn x = true /\ supported tn y = true) as [Hx Hy]
            by (destruct o; try discriminate; now apply andb_true_iff in Hsup).
          assert (no_contradiction tn w x /\ no_contradiction tn w y) as [Cx Cy] by (destruct o; try discriminate; auto).
          assert (on_state tn x = true /\ on_state tn y = true) as [Ox Oy] by (destruct o; try discriminate; now apply andb_true_iff in Hon).
          destruct (walk_good tn w Hw x Hx Cx) as (rx & Ex & Wx & Nx & Lx & Hrx). destruct (walk_good tn w Hw y Hy Cy) as (ry & Ey & Wy & Ny & Ly & Hry).
          cbn [walkCond] in E. assert (isNonConditionOp o = false) as EN by (destruct o; try discriminate; auto).
          rewrite EN, Eo, Ex, Ey in E. cbn [bind] in E. pose proof (fixed_or _ _ (H1 Hx Cx Ox _ Ex) (H3 Hy Cy Oy _ Ey)) as F.
          destruct (or_list (maxValue w) rx ry Wx Wy Nx Ny) as (Wr & Nr & Hr).
          destruct (orStateNodeList rx ry); [congruence|injection E as <-; exact F|injection E as <-; exact F].
        * destruct (isAnd o) eqn:Ea; [|destruct o; discriminate].
          assert (supported tn x = true /\ supported tn y = true) as [Hx Hy]
            by (destruct o; try discriminate; now apply andb_true_iff in Hsup).
          assert (no_contradiction tn w x /\ no_contradiction tn w y) as [Cx Cy] by (destruct o; try discriminate; auto).
          assert (on_state tn x = true \/ on_state tn y = true) as Ox by (destruct o; try discriminate; now apply orb_true_iff in Hon).
          destruct (walk_good tn w Hw x Hx Cx) as (rx & Ex & Wx & Nx & Lx & Hrx). destruct (walk_good tn w Hw y Hy Cy) as (ry & Ey & Wy & Ny & Ly & Hry).
          destruct (and_list (maxValue w) rx ry Wx Wy Nx Ny) as (r0 & E0 & Wr & Hr).
          cbn [walkCond] in E. assert (isNonConditionOp o = false) as EN by (destruct o; try discriminate; auto).
          rewrite EN, Eo, Ea, Ex, Ey in E. cbn [bind] in E. rewrite E0 in E. cbn [bind] in E.
          assert (fixed r0) as F. { refine (fixed_and rx ry r0 _ Nx Ny E0). destruct Ox as [Ox|Ox]; [left; exact (H1 Hx Cx Ox _ Ex)|right; exact (H3 Hy Cy Ox _ Ey)]. }
          destruct r0; [|injection E as <-; exact F|injection E as <-; exact F]. exfalso.
          destruct Hsat as (I & s & HS & Ht). apply Forall_inv in Ht.
          assert (situation tn w [x] I s /\ situation tn w [y] I s) as [S1 S2].
          { split; (eapply (sit_sub tn w); [exact HS|]); intros x' [<-|[]] Hb; cbn in Hb; tauto. }
          apply (proj2 (Hr I tn s (sit_range tn w _ _ _ HS) (proj1 HS))).
          assert (i_truth I (eval I (DOp [x; y] o)) = i_truth I (eval I x) && i_truth I (eval I y)) as K.
          { destruct HS as (HI & _ & Hb). destruct o; try discriminate; cbn.
            - apply Forall_inv in Hb. cbn in Hb. apply Hb; reflexivity.
            - apply (rs_land _ _ _ HI). }
          rewrite K in Ht. apply andb_true_iff in Ht as [T1 T2]. split; [now apply (Hrx I s S1)|now apply (Hry I s S2)].
  Qed.

  Lemma loop_fixed cs : Forall (fun c => supported tn c = true) cs -> Forall (no_contradiction tn w) cs ->
    forall acc cs0, cs0 <> [] -> wfs (maxValue w) acc ->
    (forall I s, situation tn w cs0 I s -> (sres_holds I s acc <-> all_true I cs0)) ->
    satisfiable tn w (cs0 ++ cs) -> fixed acc \/ Exists (fun c => on_state tn c = true) cs ->
    forall r, walk_loop cs acc tn w = Ok r -> fixed r.
  Proof.
    assert (forall a b I s, situation tn w (a ++ b) I s <-> situation tn w a I s /\ situation tn w b I s) as SA.
    { intros. unfold situation. rewrite Forall_app. tauto. }
    induction cs as [|c cs IH]; intros Hs Hn acc cs0 Hne Wa Ha Hsat Hf r E; cbn [walk_loop] in E.
    - injection E as <-. destruct Hf as [Hf|Hf]; [exact Hf|inversion Hf].
    - inversion Hs as [|? ? Hs1 Hs2]; subst. inversion Hn as [|? ? Hn1 Hn2]; subst. destruct (walk_good tn w Hw c Hs1 Hn1) as (rc & Ec & Wr & Nr & Lr & Hr).
      rewrite Ec in E. cbn [bind] in E.
      assert (acc <> SNone) as Hacc.
      { destruct Hsat as (I & s & HS & Ht). apply SA in HS as [S1 S2]. apply Forall_app in Ht as [T1 T2].
        intros ->. apply (Ha I s S1). exact T1. }
      destruct (and_list (maxValue w) acc rc Wa Wr Hacc Nr) as (acc' & E1 & Wacc & Hac).
      assert (match acc, rc with
              | SNone, SNone => Ok SNone
              | SNone, _ => Ok rc
              | _, SNone => Ok acc
              | _, _ => andStateNodeList acc rc
              end = Ok acc') as EE by (destruct acc; [congruence| |]; destruct rc; try congruence; auto).
      rewrite EE in E. cbn [bind] in E.
      refine (IH Hs2 Hn2 acc' (cs0 ++ [c]) _ Wacc _ _ _ r E).
      + intros K. apply app_eq_nil in K as [_ K]; discriminate.
      + intros I s HS. apply SA in HS as [S1 S2].
        rewrite (Hac I tn s (sit_range tn w _ _ _ S1) (proj1 S1)), (Ha I s S1), (Hr I s S2).
        unfold all_true. rewrite Forall_app, Forall_cons_iff. pose proof (Forall_nil (fun c => i_truth I (eval I c) = true)). tauto.
      + rewrite <- app_assoc. exact Hsat.
      + destruct Hf as [Hf|Hf]; [left; exact (fixed_and _ _ _ (or_introl Hf) Hacc Nr E1)|].
        inversion Hf as [? ? H0|? ? H0]; subst; [left|right; exact H0].
        refine (fixed_and _ _ _ (or_intror _) Hacc Nr E1). exact (on_state_fixed c Hs1 Hn1 H0 _ Ec).
  Qed.
  Lemma list_fixed cs : analysable tn w cs -> Exists (fun c => on_state tn c = true) cs ->
    forall r, walkCondlist cs tn w = Ok r -> fixed r.
  Proof.
    intros (Hs & Hn & Hsat) Hf r E. destruct cs as [|c cs]; [inversion Hf|]. cbn [walkCondlist walk_loop] in E.
    inversion Hs as [|? ? Hs1 Hs2]; subst. inversion Hn as [|? ? Hn1 Hn2]; subst. destruct (walk_good tn w Hw c Hs1 Hn1) as (rc & Ec & Wr & Nr & Lr & Hr).
    rewrite Ec in E. cbn [bind] in E. assert (match rc with SNone => Ok SNone | _ => Ok rc end = Ok rc) as EE by (destruct rc; auto). rewrite EE in E. cbn [bind] in E.
    refine (loop_fixed cs Hs2 Hn2 rc [c] _ Wr _ Hsat _ r E); [discriminate| |].
    - intros I s HS. rewrite (Hr I s HS). unfold all_true. rewrite Forall_cons_iff.
      pose proof (Forall_nil (fun c => i_truth I (eval I c) = true)). tauto.
    - inversion Hf as [? ? H0|? ? H0]; subst; [left; exact (on_state_fixed c Hs1 Hn1 H0 _ Ec)|right; exact H0].
  Qed.
End Walk.

(** ** Ranges *)
Lemma upto_in x n : forall lo, In x (upto lo n) <-> lo <= x < lo + Z.of_nat n.
Proof.
  induction n as [|n IH]; intros lo; [cbn; lia|]. cbn [upto In]. rewrite IH. lia.
Qed.
Lemma py_range_in x lo hi : In x (py_range lo hi) <-> lo <= x < hi.
Proof. unfold py_range. rewrite upto_in. lia. Qed.

Section When.
  Variable optimize : df -> res df.
  Variable P : interp -> Prop.
  Hypothesis HP : forall I, P I -> logical I.
  Hypothesis Hopt : simplifies P optimize.

  Definition true_or_none (I : interp) (c : df) : Prop := c = DNone \/ i_truth I (eval I c) = true.
  Definition listed (I : interp) (l : list (Z * df)) (s : Z) : Prop := exists c, In (s, c) l /\ true_or_none I c.
  Lemma listed_app I a b s : listed I (a ++ b) s <-> listed I a s \/ listed I b s.
  Proof.
    unfold listed. split.
    - intros (c & H & T). apply in_app_or in H as [H|H]; [left|right]; eauto.
    - intros [(c & H & T)|(c & H & T)]; exists c; (split; [apply in_or_app; auto|exact T]).
  Qed.
  Lemma listed_nil I s : ~ listed I [] s.
  Proof. intros (c & [] & _). Qed.
  Lemma one_spec n st l : plain_tree (transcond n) -> one_state optimize n st = Ok l ->
    forall I s, P I -> (listed I l s <-> s = st /\ true_or_none I (transcond n)).
  Proof.
    intros Hp E I s HI. unfold one_state, opt_cond in E. destruct (is_none (transcond n)) eqn:En.
    - assert (transcond n = DNone) as Hn by (destruct (transcond n); try discriminate; reflexivity). rewrite Hn.
      cbn [bind] in E. injection E as <-. split; [intros (c & [H|[]] & T); injection H as <- <-; split; [reflexivity|now left]|].
      intros [-> _]. exists DNone. split; [now left|now left].
    - assert (transcond n <> DNone) as Hn by (intros K; rewrite K in En; discriminate).
      destruct (optimize (transcond n)) as [c|] eqn:Ec; [|discriminate]. cbn [bind] in E. destruct (Hopt _ _ Hp Hn Ec) as [Hc HT]. specialize (HT I HI).
      assert (Ok [(st, c)] = Ok l -> listed I l s <-> s = st /\ true_or_none I (transcond n)) as Here.
      { intros K. injection K as <-. split.
        - intros (c0 & [H|[]] & T). injection H as <- <-. split; [reflexivity|]. destruct T as [T|T]; [congruence|right; congruence].
        - intros [-> [T|T]]; [congruence|]. exists c. split; [now left|right; congruence]. }
      destruct c as [ | | | | | | | | | |v x y z| | | | ]; try exact (Here E). destruct v as [[|p|p]| | |]; try exact (Here E); [|discriminate].
      injection E as <-. split; [intros K; destruct (listed_nil _ _ K)|]. intros [_ [T|T]]; [congruence|].
      rewrite <- HT in T. cbn in T. pose proof (proj2 (HP I HI) 0 x y z) as L. cbn in L. congruence.
  Qed.
  Lemma states_spec n l0 : plain_tree (transcond n) -> forall l, all_states optimize n l0 = Ok l ->
    forall I s, P I -> (listed I l s <-> In s l0 /\ true_or_none I (transcond n)).
  Proof.
    intros Hp. induction l0 as [|st l0 IH]; intros l E I s HI; cbn [all_states] in E.
    - injection E as <-. split; [intros K; destruct (listed_nil _ _ K)|intros [[] _]].
    - destruct (one_state optimize n st) as [a|] eqn:Ea; [|discriminate]. cbn [bind] in E. destruct (all_states optimize n l0) as [b|]; [|discriminate]. cbn [bind] in E.
      injection E as <-. rewrite listed_app, (one_spec n st a Hp Ea I s HI), (IH b eq_refl I s HI). cbn [In]. intuition congruence.
  Qed.
  Lemma ranges_spec n l0 : plain_tree (transcond n) -> forall l, all_ranges optimize n l0 = Ok l ->
    forall I s, P I -> (listed I l s <-> inr l0 s /\ true_or_none I (transcond n)).
  Proof.
    intros Hp. induction l0 as [|[lo hi] l0 IH]; intros l E I s HI; cbn [all_ranges] in E.
    - injection E as <-. split; [intros K; destruct (listed_nil _ _ K)|]. intros [(a & b & [] & _) _].
    - destruct (all_states optimize n (py_range lo (hi + 1))) as [a|] eqn:Ea; [|discriminate]. cbn [bind] in E. destruct (all_ranges optimize n l0) as [b|]; [|discriminate]. cbn [bind] in E.
      injection E as <-. rewrite listed_app, (states_spec n _ Hp a Ea I s HI), (IH b eq_refl I s HI), py_range_in, inr_cons. cbn [fst snd]. intuition lia.
  Qed.
  Lemma nodes_spec ns : Forall np ns -> forall l, all_nodes optimize ns = Ok l ->
    forall I s, P I -> (listed I l s <-> Exists (fun n => inr (range_pairs n) s /\ true_or_none I (transcond n)) ns).
  Proof.
    induction 1 as [|n ns Hn Hns IH]; intros l E I s HI; cbn [all_nodes] in E.
    - injection E as <-. split; [intros K; destruct (listed_nil _ _ K)|intros K; inversion K].
    - destruct (all_ranges optimize n (range_pairs n)) as [a|] eqn:Ea; [|discriminate]. cbn [bind] in E. destruct (all_nodes optimize ns) as [b|]; [|discriminate]. cbn [bind] in E.
      injection E as <-. rewrite listed_app, (ranges_spec n _ Hn a Ea I s HI), (IH b eq_refl I s HI), Exists_cons. reflexivity.
  Qed.
  (** Listed states satisfy a list of conditions; and are all listed if it constrains the state. *)
  Lemma entries_sound sig w d : 0 <= w -> pkeys d -> (forall k f, In (k, f) d -> analysable sig w k) -> forall l, all_entries optimize sig w d = Ok l ->
    forall I s, P I -> (forall k f, In (k, f) d -> situation sig w k I s) -> listed I l s -> exists k f, In (k, f) d /\ all_true I k.
  Proof.
    intros Hw Hp Ha. induction Hp as [|[k f] d Hk Hp IH]; intros l E I s HI HS H; cbn [all_entries] in E.
    - injection E as <-. destruct (listed_nil _ _ H).
    - destruct (walkCondlist k sig w) as [r|] eqn:Er; [|discriminate]. cbn [bind] in E. destruct (all_nodes optimize (nodes_of r)) as [a|] eqn:Ea; [|discriminate]. cbn [bind] in E.
      destruct (all_entries optimize sig w d) as [b|]; [|discriminate]. cbn [bind] in E. injection E as <-. apply listed_app in H as [H|H].
      + exists k, f. split; [now left|]. destruct (Ha k f (or_introl eq_refl)) as (A1 & A2 & A3).
        destruct (C24_conditions_exact_partial sig w k Hw A1 A2 A3) as (q & Eq & Hq). rewrite Er in Eq. injection Eq as <-.
        apply (Hq I s (HS k f (or_introl eq_refl))). apply nodes_holds. cbn in Hk. pose proof (rp_list _ _ _ _ Hk Er) as Hr.
        apply (nodes_spec _ Hr a Ea I s HI) in H. eapply Exists_impl; [|exact H]. intros n [B1 B2]. split; [right; exact B1|exact B2].
      + destruct (IH (fun k0 f0 H0 => Ha k0 f0 (or_intror H0)) b eq_refl I s HI (fun k0 f0 H0 => HS k0 f0 (or_intror H0)) H) as (k0 & f0 & H0 & H1).
        exists k0, f0. split; [now right|exact H1].
  Qed.
  Lemma entries_complete sig w d : 0 <= w -> pkeys d -> (forall k f, In (k, f) d -> analysable sig w k) -> forall l, all_entries optimize sig w d = Ok l ->
    forall I s k f, P I -> In (k, f) d -> situation sig w k I s -> all_true I k -> Exists (fun c => on_state sig c = true) k -> listed I l s.
  Proof.
    intros Hw Hp Ha. induction Hp as [|[k0 f0] d Hk Hp IH]; intros l E I s k f HI Hin HS HT HO; cbn [all_entries] in E; [destruct Hin|].
    destruct (walkCondlist k0 sig w) as [r|] eqn:Er; [|discriminate]. cbn [bind] in E. destruct (all_nodes optimize (nodes_of r)) as [a|] eqn:Ea; [|discriminate]. cbn [bind] in E.
    destruct (all_entries optimize sig w d) as [b|]; [|discriminate]. cbn [bind] in E. injection E as <-. apply listed_app. destruct Hin as [Hin|Hin].
    - injection Hin as -> ->. left. pose proof (Ha k f (or_introl eq_refl)) as An. destruct An as (A1 & A2 & A3).
      destruct (C24_conditions_exact_partial sig w k Hw A1 A2 A3) as (q & Eq & Hq). rewrite Er in Eq. injection Eq as <-.
      apply (Hq I s HS) in HT. apply nodes_holds in HT. cbn in Hk. pose proof (rp_list _ _ _ _ Hk Er) as Hr.
      apply (nodes_spec _ Hr a Ea I s HI). pose proof (list_fixed sig w Hw k (conj A1 (conj A2 A3)) HO r Er) as F. unfold fixed in F.
      apply Exists_exists in HT as (n & Hn & B1 & B2). apply Exists_exists. exists n. split; [exact Hn|]. rewrite Forall_forall in F. specialize (F n Hn).
      split; [|exact B2]. destruct B1 as [B1|B1]; [congruence|exact B1].
    - right. exact (IH (fun k1 f1 H1 => Ha k1 f1 (or_intror H1)) b eq_refl I s k f HI Hin HS HT HO).
  Qed.
End When.
