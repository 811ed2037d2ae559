(** MachProofs2.v - the loop that builds the machine. *)
From Verif Require Import Base ScopeModel DfModel DfSpec DfProofs BindSpec BindProofs SplitModel SplitSpec SplitProofs
  TransModel TransSpec TransProofs TransProps FsmModel FsmSpec FsmProofs FsmProofs2 FsmProps MachModel MachSpec MachText MachProofs.
Local Open Scope Z_scope.

(** ** Transition conditions of plain conditions are plain. *)
Definition np (n : snode) : Prop := plain_tree (transcond n).
Definition rp (r : sres) : Prop := Forall np (nodes_of r).
Lemma plain_none : plain_tree DNone. Proof. split; reflexivity. Qed.
Lemma np_not_tc t : plain_tree t -> plain_tree (not_transcond t).
Proof.
  intros H. unfold not_transcond. destruct t as [| | | | |l o| | | | | | | | |]; try (apply plain_op1; exact H); [exact H|].
  destruct l as [|x l]; [destruct o; apply plain_op1; exact H|]. destruct o; try (apply plain_op1; exact H);
    exact (plain_op_in _ _ x H (or_introl eq_refl)).
Qed.
Lemma rp_not n : np n -> rp (notStateNode n).
Proof.
  intros H. unfold notStateNode, rp. destruct (isany n); [repeat constructor; apply np_not_tc; exact H|].
  destruct (is_none (transcond n)); cbn [nodes_of]; repeat constructor; try apply plain_none; unfold np; cbn; apply np_not_tc; exact H.
Qed.
Lemma np_and a b r : np a -> np b -> andStateNode a b = Ok (Some r) -> np r.
Proof.
  intros Ha Hb E. unfold andStateNode in E. destruct (if isany a && isany b then _ else _) as [l|]; [|discriminate]. cbn [bind] in E.
  destruct (negb _ && _); [discriminate|]. injection E as <-. unfold np. cbn [transcond].
  destruct (is_none (transcond a)), (is_none (transcond b)); [apply plain_none|exact Hb|exact Ha|now apply plain_op2].
Qed.
Lemma np_pairs l : Forall (fun p => np (fst p) /\ np (snd p)) l -> forall r, and_pairs l = Ok r -> Forall np r.
Proof.
  induction 1 as [|[x y] l [Hx Hy] Hl IH]; intros r E; cbn [and_pairs] in E; [injection E as <-; constructor|].
  destruct (andStateNode x y) as [v|] eqn:Ev; [|discriminate]. cbn [bind] in E.
  destruct (and_pairs l) as [vs|]; [|discriminate]. cbn [bind] in E. injection E as <-. specialize (IH _ eq_refl).
  destruct v as [n|]; [constructor; [exact (np_and _ _ _ Hx Hy Ev)|exact IH]|exact IH].
Qed.
Lemma np_prod la lb : Forall np la -> Forall np lb -> Forall (fun p => np (fst p) /\ np (snd p)) (list_prod la lb).
Proof. intros Ha Hb. rewrite Forall_forall in *. intros [x y] H. apply in_prod_iff in H as [H1 H2]. cbn. auto. Qed.
Lemma rp_mk l : Forall np l -> rp (mk_list l).
Proof. destruct l; unfold rp; cbn; auto. Qed.
Lemma rp_and a b r : rp a -> rp b -> andStateNodeList a b = Ok r -> rp r.
Proof.
  intros Ha Hb E. unfold rp in Ha, Hb. destruct a as [|a|la], b as [|b|lb]; cbn [andStateNodeList nodes_of] in *;
    try (injection E as <-; unfold rp; assumption).
  - destruct (andStateNode a b) as [v|] eqn:Ev; [|discriminate]. cbn [bind] in E. injection E as <-.
    pose proof (Forall_inv Ha) as Ha1. pose proof (Forall_inv Hb) as Hb1. destruct v as [n|]; unfold rp; cbn; [constructor; [exact (np_and _ _ _ Ha1 Hb1 Ev)|constructor]|constructor].
  - destruct (and_pairs _) as [v|] eqn:Ev; [|discriminate]. injection E as <-. apply rp_mk. refine (np_pairs _ _ _ Ev). exact (np_prod [a] lb Ha Hb).
  - destruct (and_pairs _) as [v|] eqn:Ev; [|discriminate]. injection E as <-. apply rp_mk. refine (np_pairs _ _ _ Ev). exact (np_prod la [b] Ha Hb).
  - destruct (and_pairs _) as [v|] eqn:Ev; [|discriminate]. injection E as <-. apply rp_mk. refine (np_pairs _ _ _ Ev). exact (np_prod la lb Ha Hb).
Qed.
Lemma rp_or a b : rp a -> rp b -> rp (orStateNodeList a b).
Proof.
  intros Ha Hb. unfold rp in *. destruct a as [|a|la], b as [|b|lb]; cbn in *; try constructor; try (inversion Ha; subst; assumption);
    try (apply Forall_app; split; assumption).
Qed.
Lemma rp_notfold l : Forall np l -> forall acc r, rp acc -> not_fold l acc = Ok r -> rp r.
Proof.
  induction 1 as [|n l Hn Hl IH]; intros acc r Ha E; cbn [not_fold] in E; [injection E as <-; exact Ha|].
  destruct acc as [|a|la].
  - exact (IH _ _ (rp_not n Hn) E).
  - destruct (andStateNodeList _ _) as [x|] eqn:Ex; [|discriminate]. exact (IH _ _ (rp_and _ _ _ Ha (rp_not n Hn) Ex) E).
  - destruct (andStateNodeList _ _) as [x|] eqn:Ex; [|discriminate]. exact (IH _ _ (rp_and _ _ _ Ha (rp_not n Hn) Ex) E).
Qed.
Lemma rp_notlist a r : rp a -> notStateNodeList a = Ok r -> rp r.
Proof.
  intros Ha E. destruct a as [|a|l]; cbn [notStateNodeList] in E.
  - injection E as <-. exact Ha.
  - injection E as <-. apply rp_not. now inversion Ha.
  - refine (rp_notfold l Ha SNone r _ E). constructor.
Qed.
Lemma rp_create v w r : createStateNode v w = Ok r -> rp r.
Proof.
  unfold createStateNode. destruct (iv_inv v); intros E; [|injection E as <-; repeat constructor].
  refine (rp_notlist _ _ _ E). repeat constructor.
Qed.
Lemma rp_any c w : plain_tree c -> rp (any_node c w).
Proof. intros H. constructor; [exact H|constructor]. Qed.
Lemma rp_tail x y o tn w r : plain_tree (DOp [x; y] o) -> walk_tail x y o tn w = Ok r -> rp r.
Proof.
  intros H E. unfold walk_tail in E. destruct (is_state x tn).
  - destruct (infer o y) as [v|]; [|discriminate]. exact (rp_create _ _ _ E).
  - destruct (is_state y tn); [destruct (infer (swap_op o) x) as [v|]; [|discriminate]; exact (rp_create _ _ _ E)|].
    injection E as <-. now apply rp_any.
Qed.
Lemma rp_walk c : plain_tree c -> forall tn w r, walkCond c tn w = Ok r -> rp r.
Proof.
  induction c as [ |n|s|s|s|l o IH|v m l IHv IHm IHl|v p IHv IHp|l IH|c a b IHc IHt IHf|v w' f s|w'|w'|t IH|s l IH]
    using df_ind'; intros H tn w r E; try (cbn [walkCond] in E; injection E as <-; apply rp_any; exact H).
  - cbn [walkCond] in E. refine (rp_tail _ _ _ _ _ _ _ E). apply plain_op2; [exact H|split; reflexivity].
  - assert (forall x, In x l -> forall tn w r, walkCond x tn w = Ok r -> rp r) as K.
    { intros x Hx. rewrite Forall_forall in IH. apply (IH x Hx). exact (plain_op_in _ _ x H Hx). }
    destruct l as [|x [|y [|z l]]]; cbn [walkCond] in E; try (injection E as <-; apply rp_any; exact H).
    + destruct (walkCond x tn w) as [n|] eqn:En; [|discriminate]. cbn [bind] in E. pose proof (K x (or_introl eq_refl) _ _ _ En) as Hn.
      destruct (isNot o); [exact (rp_notlist _ _ Hn E)|injection E as <-; exact Hn].
    + destruct (isNonConditionOp o); [injection E as <-; apply rp_any; exact H|].
      destruct (isOr o); [|destruct (isAnd o); [|exact (rp_tail _ _ _ _ _ _ H E)]].
      * destruct (walkCond x tn w) as [n|] eqn:En; [|discriminate]. cbn [bind] in E. pose proof (K x (or_introl eq_refl) _ _ _ En) as Hn.
        destruct (walkCond y tn w) as [n'|] eqn:En'; [|discriminate]. cbn [bind] in E. pose proof (K y (or_intror (or_introl eq_refl)) _ _ _ En') as Hn'.
        pose proof (rp_or _ _ Hn Hn') as Ho. destruct (orStateNodeList n n'); [exact (rp_tail _ _ _ _ _ _ H E)| |]; injection E as <-; exact Ho.
      * destruct (walkCond x tn w) as [n|] eqn:En; [|discriminate]. cbn [bind] in E. pose proof (K x (or_introl eq_refl) _ _ _ En) as Hn.
        destruct (walkCond y tn w) as [n'|] eqn:En'; [|discriminate]. cbn [bind] in E. pose proof (K y (or_intror (or_introl eq_refl)) _ _ _ En') as Hn'.
        destruct (andStateNodeList n n') as [q|] eqn:Eq; [|discriminate]. cbn [bind] in E. pose proof (rp_and _ _ _ Hn Hn' Eq) as Ho.
        destruct q; [exact (rp_tail _ _ _ _ _ _ H E)| |]; injection E as <-; exact Ho.
Qed.
Lemma rp_loop cs : Forall plain_tree cs -> forall node tn w r, rp node -> walk_loop cs node tn w = Ok r -> rp r.
Proof.
  induction 1 as [|c cs Hc Hcs IH]; intros node tn w r Hn E; cbn [walk_loop] in E; [injection E as <-; exact Hn|].
  destruct (walkCond c tn w) as [x|] eqn:Ex; [|discriminate]. cbn [bind] in E. pose proof (rp_walk c Hc _ _ _ Ex) as Hx.
  destruct (match node with SNone => _ | _ => _ end) as [n'|] eqn:En; [|discriminate]. cbn [bind] in E. refine (IH _ _ _ _ _ E).
  destruct node as [|a|la], x as [|b|lb]; try (injection En as <-; assumption); exact (rp_and _ _ _ Hn Hx En).
Qed.
Lemma rp_list cs tn w r : Forall plain_tree cs -> walkCondlist cs tn w = Ok r -> rp r.
Proof.
  intros H E. unfold walkCondlist in E. destruct cs as [|c cs]; [injection E as <-; repeat constructor|].
  refine (rp_loop _ H SNone _ _ _ _ E). constructor.
Qed.

(** ** The machine built. *)
Definition wf_machine (m : machine) : Prop := wf_fsm (m_fsm m) /\ wf_cond (m_any m).
(** A node of the machine's source covers state s (or every state) with condition c. *)
Definition covers (n : snode) (s : Z) (c : df) : Prop := inr (range_pairs n) s /\ c = transcond n.
Definition covers_any (n : snode) (c : df) : Prop := isany n = true /\ c = transcond n.

Lemma construct_all_spec l dst : Forall np l -> forall m, wf_machine m ->
  exists m', construct_all m dst l = Ok m' /\ wf_machine m' /\
    (forall s c d, trans (m_fsm m') s c d -> (d = dst /\ Exists (fun n => covers n s c) l) \/ trans (m_fsm m) s c d) /\
    (forall c d, In (c, d) (m_any m') -> (d = dst /\ Exists (fun n => covers_any n c) l) \/ In (c, d) (m_any m)) /\
    (forall s c d, trans (m_fsm m) s c d -> trans (m_fsm m') s c d \/ (Exists (fun n => covers n s c) l /\ trans (m_fsm m') s c dst)) /\
    (forall c d, In (c, d) (m_any m) -> In (c, d) (m_any m') \/ (Exists (fun n => covers_any n c) l /\ In (c, dst) (m_any m'))) /\
    (forall s c, Exists (fun n => covers n s c) l -> trans (m_fsm m') s c dst) /\
    (forall c, Exists (fun n => covers_any n c) l -> In (c, dst) (m_any m')).
Proof.
  induction 1 as [|n l Hn Hl IH]; intros m [Wf Wa]; cbn [construct_all].
  - exists m. split; [reflexivity|]. split; [now split|]. split; [auto|]. split; [auto|]. split; [auto|]. split; [auto|].
    split; intros; match goal with H : Exists _ [] |- _ => inversion H end.
  - destruct (C27_construct_exact m dst n Wf Wa Hn) as (m1 & -> & Wf1 & Wa1 & T & A). cbn [bind].
    destruct (IH m1 (conj Wf1 Wa1)) as (m' & -> & W' & I1 & I2 & I3 & I4 & I5 & I6). exists m'. split; [reflexivity|]. split; [exact W'|].
    split; [|split; [|split; [|split; [|split]]]].
    + intros s c d H. destruct (I1 s c d H) as [[-> K]|K]; [left; split; [reflexivity|now right]|].
      apply T in K as [(K1 & K2 & K3)|[_ K]]; [left; split; [exact K3|left; now split]|now right].
    + intros c d H. destruct (I2 c d H) as [[-> K]|K]; [left; split; [reflexivity|now right]|].
      apply A in K as [(K1 & K2 & K3)|[_ K]]; [left; split; [exact K3|left; now split]|now right].
    + assert (forall s c, trans (m_fsm m1) s c dst -> trans (m_fsm m') s c dst) as J.
      { intros s c H. destruct (I3 s c dst H) as [K|[_ K]]; exact K. }
      intros s c d H. destruct (df_dec' c (transcond n)) as (e & _ & He); [|exact Hn|].
      { destruct H as (dd & E & Hi). destruct Wf as [_ Wf]. destruct (Wf _ _ E) as [Wp _]. unfold plains in Wp. rewrite Forall_forall in Wp. exact (Wp _ Hi). }
      assert (inr (range_pairs n) s \/ ~ inr (range_pairs n) s) as [R|R].
      { destruct (existsb (fun p => (fst p <=? s) && (s <=? snd p)) (range_pairs n)) eqn:Ex.
        - left. apply existsb_exists in Ex as ([lo hi] & Hi & Ex). apply andb_true_iff in Ex as [E1 E2]. apply Z.leb_le in E1, E2. exists lo, hi. cbn in *. auto.
        - right. intros (lo & hi & Hi & Hx). assert (existsb (fun p => (fst p <=? s) && (s <=? snd p)) (range_pairs n) = true); [|congruence].
          apply existsb_exists. exists (lo, hi). split; [exact Hi|]. cbn. apply andb_true_iff. split; apply Z.leb_le; lia. }
      * destruct e.
        -- right. split; [left; split; [exact R|now apply He]|]. apply J. apply T. left. split; [exact R|]. split; [now apply He|reflexivity].
        -- assert (trans (m_fsm m1) s c d) as H1 by (apply T; right; split; [intros [_ K]; apply He in K; discriminate|exact H]).
           destruct (I3 _ _ _ H1) as [K|[K1 K2]]; [now left|right; split; [now right|exact K2]].
      * assert (trans (m_fsm m1) s c d) as H1 by (apply T; right; split; [intros [K _]; contradiction|exact H]).
        destruct (I3 _ _ _ H1) as [K|[K1 K2]]; [now left|right; split; [now right|exact K2]].
    + assert (forall c, In (c, dst) (m_any m1) -> In (c, dst) (m_any m')) as J.
      { intros c H. destruct (I4 c dst H) as [K|[_ K]]; exact K. }
      intros c d H. destruct (df_dec' c (transcond n)) as (e & _ & He); [|exact Hn|].
      { destruct Wa as [Wp _]. unfold plains in Wp. rewrite Forall_forall in Wp. exact (Wp _ H). }
      destruct (isany n) eqn:En; [destruct e|].
      * right. split; [left; split; [exact En|now apply He]|]. apply J. apply A. left. split; [reflexivity|]. split; [now apply He|reflexivity].
      * assert (In (c, d) (m_any m1)) as H1 by (apply A; right; split; [intros [_ K]; apply He in K; discriminate|exact H]).
        destruct (I4 _ _ H1) as [K|[K1 K2]]; [now left|right; split; [now right|exact K2]].
      * assert (In (c, d) (m_any m1)) as H1 by (apply A; right; split; [intros [K _]; discriminate|exact H]).
        destruct (I4 _ _ H1) as [K|[K1 K2]]; [now left|right; split; [now right|exact K2]].
    + intros s c H. inversion H as [? ? [K1 K2]|? ? K]; subst; [|now apply I5].
      destruct (I3 s (transcond n) dst) as [K|[_ K]]; [apply T; left; auto|exact K|exact K].
    + intros c H. inversion H as [? ? [K1 K2]|? ? K]; subst; [|now apply I6].
      destruct (I4 (transcond n) dst) as [K|[_ K]]; [apply A; left; auto|exact K|exact K].
Qed.

Lemma nodes_holds I s r : sres_holds I s r <-> Exists (node_holds I s) (nodes_of r).
Proof.
  destruct r as [|n|l]; cbn; [split; [intros []|intros H; inversion H]| |tauto].
  split; [now constructor|]. intros H. inversion H as [? ? K|? ? K]; [exact K|inversion K].
Qed.
Lemma holds_dec I s n : node_holds I s n <->
  exists c, cond_true I c /\ ((inr (range_pairs n) s /\ c = transcond n) \/ (isany n = true /\ c = transcond n)).
Proof.
  unfold node_holds, cond_true. split.
  - intros [[H|H] K]; exists (transcond n); tauto.
  - intros (c & K & [[H ->]|[H ->]]); tauto.
Qed.

(** Every entry with a constant function has a result of the walk that means its conditions. *)
Definition walks (d : funcdict) (tn : chain) (w : Z) (I : interp) (s : Z) : Prop :=
  forall cs v x y z, In (cs, DEval v x y z) d -> exists r, walkCondlist cs tn w = Ok r /\ (sres_holds I s r <-> all_true I cs).
Definition moves (I : interp) (m : machine) (s d : Z) : Prop := goes I (m_fsm m) s d \/ enabled I (m_any m) d.
Lemma moves_trans I m s d : moves I m s d <-> exists c, cond_true I c /\ (trans (m_fsm m) s c d \/ In (c, d) (m_any m)).
Proof.
  unfold moves, goes, enabled, trans. split.
  - intros [(dd & E & c & H1 & H2)|(c & H1 & H2)]; exists c; (split; [exact H2|]); [left; eauto|now right].
  - intros (c & H2 & [(dd & E & H1)|H1]); [left; exists dd; split; [exact E|]; exists c; auto|right; exists c; auto].
Qed.

Lemma machine_loop_wf tn w d : pkeys d -> forall m m', wf_machine m -> machine_loop d tn w m = Ok m' -> wf_machine m'.
Proof.
  induction 1 as [|[cs f] d Hp Hd IH]; intros m m' Hm E; cbn [machine_loop] in E; [injection E as <-; exact Hm|].
  destruct f as [ | | | | | | | | | |v x y z| | | | ]; try exact (IH _ _ Hm E).
  destruct (walkCondlist cs tn w) as [r|] eqn:Er; [|discriminate]. cbn [bind] in E. cbn in Hp. pose proof (rp_list _ _ _ _ Hp Er) as Hr.
  unfold rp in Hr. destruct (nodes_of r) as [|n l]; [exact (IH _ _ Hm E)|]. destruct v as [dst| | |]; try discriminate.
  destruct (construct_all_spec (n :: l) dst Hr m Hm) as (m1 & E1 & W1 & _). rewrite E1 in E. exact (IH _ _ W1 E).
Qed.
Lemma machine_loop_sound tn w I s d : pkeys d -> walks d tn w I s -> forall m m', wf_machine m -> machine_loop d tn w m = Ok m' ->
  forall dst, moves I m' s dst -> moves I m s dst \/ exists cs leaf, In (cs, leaf) d /\ is_const dst leaf /\ all_true I cs.
Proof.
  induction 1 as [|[cs f] d Hp Hd IH]; intros Hw m m' Hm E dst H; cbn [machine_loop] in E; [injection E as <-; now left|].
  assert (walks d tn w I s) as Hw' by (intros cs0 v x y z Hi; apply (Hw cs0 v x y z); now right).
  assert (forall m0, wf_machine m0 -> machine_loop d tn w m0 = Ok m' -> moves I m0 s dst \/ exists cs0 leaf, In (cs0, leaf) ((cs, f) :: d) /\ is_const dst leaf /\ all_true I cs0) as K.
  { intros m0 W0 E0. destruct (IH Hw' m0 m' W0 E0 dst H) as [K|(cs0 & leaf & K1 & K2)]; [now left|right; exists cs0, leaf; split; [now right|exact K2]]. }
  destruct f as [ | | | | | | | | | |v x y z| | | | ]; try exact (K m Hm E).
  destruct (walkCondlist cs tn w) as [r|] eqn:Er; [|discriminate]. cbn [bind] in E. cbn in Hp. pose proof (rp_list _ _ _ _ Hp Er) as Hr.
  destruct (Hw cs v x y z (or_introl eq_refl)) as (r' & Er' & Hh). rewrite Er in Er'. injection Er' as <-.
  rewrite nodes_holds in Hh. unfold rp in Hr. destruct (nodes_of r) as [|n l]; [exact (K m Hm E)|]. destruct v as [dst0| | |]; try discriminate.
  destruct (construct_all_spec (n :: l) dst0 Hr m Hm) as (m1 & E1 & W1 & S1 & S2 & _). rewrite E1 in E. cbn [bind] in E.
  destruct (K m1 W1 E) as [K1|K1]; [|now right]. apply moves_trans in K1 as (c & Hc & [K1|K1]).
  - apply S1 in K1 as [[-> K1]|K1]; [|left; apply moves_trans; eauto]. right. exists cs, (DEval (PInt dst0) x y z). split; [now left|]. split; [do 3 eexists; reflexivity|].
    apply Hh. eapply Exists_impl; [|exact K1]. intros n0 [A ->]. apply holds_dec. exists (transcond n0). auto.
  - apply S2 in K1 as [[-> K1]|K1]; [|left; apply moves_trans; eauto]. right. exists cs, (DEval (PInt dst0) x y z). split; [now left|]. split; [do 3 eexists; reflexivity|].
    apply Hh. eapply Exists_impl; [|exact K1]. intros n0 [A ->]. apply holds_dec. exists (transcond n0). auto.
Qed.
(** Constant functions are integers. *)
Definition int_consts (d : funcdict) : Prop := forall cs v x y z, In (cs, DEval v x y z) d -> exists n, v = PInt n.
Lemma machine_loop_complete tn w I s d : pkeys d -> walks d tn w I s -> int_consts d -> forall m, wf_machine m -> 
  exists m', machine_loop d tn w m = Ok m' /\ wf_machine m' /\
  forall dst, (forall cs leaf d', In (cs, leaf) d -> is_const d' leaf -> all_true I cs -> d' = dst) ->
    (moves I m s dst -> moves I m' s dst) /\
    (forall cs leaf, In (cs, leaf) d -> is_const dst leaf -> all_true I cs -> moves I m' s dst).
Proof.
  induction 1 as [|[cs f] d Hp Hd IH]; intros Hw Hc m Hm; cbn [machine_loop].
  - exists m. split; [reflexivity|]. split; [exact Hm|]. intros dst _. split; [auto|]. intros cs leaf [].
  - assert (walks d tn w I s) as Hw' by (intros cs0 v x y z Hi; apply (Hw cs0 v x y z); now right).
    assert (int_consts d) as Hc' by (intros cs0 v x y z Hi; apply (Hc cs0 v x y z); now right).
    assert (forall m0, wf_machine m0 -> (~ exists d0, is_const d0 f) -> m0 = m ->
      exists m', machine_loop d tn w m0 = Ok m' /\ wf_machine m' /\
      forall dst, (forall cs0 leaf d', In (cs0, leaf) ((cs, f) :: d) -> is_const d' leaf -> all_true I cs0 -> d' = dst) ->
      (moves I m s dst -> moves I m' s dst) /\
      (forall cs0 leaf, In (cs0, leaf) ((cs, f) :: d) -> is_const dst leaf -> all_true I cs0 -> moves I m' s dst)) as K.
    { intros m0 W0 Hf ->. destruct (IH Hw' Hc' m W0) as (m' & E & W' & S). exists m'. split; [exact E|]. split; [exact W'|].
      intros dst Hu. destruct (S dst) as [S1 S2]; [intros cs0 leaf d' Hi; apply (Hu cs0 leaf d'); now right|]. split; [exact S1|].
      intros cs0 leaf [Hi|Hi] Hl Ha; [injection Hi as <- <-; exfalso; eauto|exact (S2 _ _ Hi Hl Ha)]. }
    destruct f as [ | | | | | | | | | |v x y z| | | | ];
      try (apply (K m Hm); [intros (d0 & a1 & a2 & a3 & E0); discriminate|reflexivity]).
    destruct (Hc cs v x y z (or_introl eq_refl)) as (dst0 & ->).
    destruct (Hw cs (PInt dst0) x y z (or_introl eq_refl)) as (r & Er & Hh). rewrite Er. cbn [bind].
    cbn in Hp. pose proof (rp_list _ _ _ _ Hp Er) as Hr. unfold rp in Hr. rewrite nodes_holds in Hh.
    destruct (construct_all_spec (nodes_of r) dst0 Hr m Hm) as (m1 & E1 & W1 & S1 & S2 & S3 & S4 & S5 & S6).
    assert (match nodes_of r with [] => Ok m | _ => construct_all m dst0 (nodes_of r) end = Ok m1) as E2.
    { destruct (nodes_of r) as [|n l]; [exact E1|exact E1]. }
    destruct (IH Hw' Hc' m1 W1) as (m' & E & W' & S). exists m'. split.
    { destruct (nodes_of r) as [|n l]; [injection E1 as <-; exact E|]. rewrite E1. exact E. }
    split; [exact W'|]. intros dst Hu. destruct (S dst) as [T1 T2]; [intros cs0 leaf d' Hi; apply (Hu cs0 leaf d'); now right|].
    assert (forall c, cond_true I c -> Exists (fun n => covers n s c) (nodes_of r) \/ Exists (fun n => covers_any n c) (nodes_of r) -> dst0 = dst) as Hd0.
    { intros c Hct [He|He]; (apply (Hu cs (DEval (PInt dst0) x y z)); [now left|do 3 eexists; reflexivity|apply Hh; eapply Exists_impl; [|exact He]]);
        intros n0 [A ->]; apply holds_dec; exists (transcond n0); auto. }
    split.
    + intros H. apply T1. apply moves_trans in H as (c & Hct & [H|H]); apply moves_trans; exists c; (split; [exact Hct|]).
      * left. destruct (S3 _ _ _ H) as [K1|[K1 K2]]; [exact K1|]. rewrite <- (Hd0 c Hct (or_introl K1)). exact K2.
      * right. destruct (S4 _ _ H) as [K1|[K1 K2]]; [exact K1|]. rewrite <- (Hd0 c Hct (or_intror K1)). exact K2.
    + intros cs0 leaf [Hi|Hi] Hl Ha; [|exact (T2 _ _ Hi Hl Ha)]. injection Hi as <- <-. destruct Hl as (a1 & a2 & a3 & El). injection El as -> _ _ _.
      apply T1. apply Hh in Ha. apply Exists_exists in Ha as (n & Hn & Hnh). apply holds_dec in Hnh as (c & Hct & [[A ->]|[A ->]]).
      * apply moves_trans. exists (transcond n). split; [exact Hct|]. left. apply S5. apply Exists_exists. exists n. split; [exact Hn|now split].
      * apply moves_trans. exists (transcond n). split; [exact Hct|]. right. apply S6. apply Exists_exists. exists n. split; [exact Hn|now split].
Qed.
