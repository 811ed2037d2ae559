(** HierProofs3.v - the rules for operators, put together. *)
From Verif Require Import Base ScopeModel DfModel DfProofs BindModel OptModel OptSpec OptArith OptProofs OptProofs2 HierModel HierSpec HierProofs HierProofs2.
From Coq Require Import Permutation.
Local Open Scope Z_scope.

Section Rules.
  Variable (E : optenv) (rho : venv).
  Hypothesis HR : respects rho.
  Notation tr := (truth rho).
  Notation vl := (value rho).

  Lemma tr_val t b : tr t = Some b -> exists v, vl t = Some v /\ b = negb (v =? 0).
  Proof. apply truth_inv. Qed.
  Lemma val_tr t v : vl t = Some v -> tr t = Some (negb (v =? 0)).
  Proof. apply truth_value. Qed.
  (** Operand i of a node. *)
  Lemma not_cases o a b x y : (opn o a &&! eqn a 0 b) = Ok true -> is_unary o = true -> tr a = Some x -> tr b = Some y ->
    exists p v, a = DOp [p] o /\ vl p = Some v /\ vl b = Some v /\ y = negb (v =? 0).
  Proof.
    intros H Ho Ha Hb. apply andM_true in H as [H1 H2]. apply opn_true in H1 as [l ->]. apply eqn_true in H2 as (p & Hp & He). apply nextnode_op in Hp.
    apply tr_val in Ha as (va & Ha & ->). apply value_un in Ha as (q & v & -> & Hq); auto. cbn in Hp. injection Hp as ->.
    pose proof (eq_value rho HR _ _ He) as Hv. apply tr_val in Hb as (vb & Hb & ->). exists p, v. rewrite Hq in Hv. rewrite Hb in Hv. injection Hv as <-. auto.
  Qed.
  Lemma bnot_case a b x y : (opn Unot a &&! eqn a 0 b) = Ok true -> heads (bit_not rho) a -> tr a = Some x -> tr b = Some y -> x = negb y.
  Proof.
    intros H Hh Ha Hb. destruct (not_cases _ _ _ _ _ H eq_refl Ha Hb) as (p & v & -> & Hp & Hv & ->).
    cbn in Hh. inversion Hh as [|? ? Hone _]; subst. apply tr_val in Ha as (va & Ha & ->).
    destruct (unot_bit _ _ _ _ Hone Hp Ha) as ([->| ->] & ->); reflexivity.
  Qed.
  Lemma lnot_case a b x y : (opn Ulnot a &&! eqn a 0 b) = Ok true -> tr a = Some x -> tr b = Some y -> x = negb y.
  Proof.
    intros H Ha Hb. destruct (not_cases _ _ _ _ _ H eq_refl Ha Hb) as (p & v & -> & Hp & Hv & ->).
    apply tr_val in Ha as (va & Ha & ->). rewrite (value_ulnot _ _ _ Hp) in Ha. injection Ha as <-. destruct (v =? 0); reflexivity.
  Qed.
  (** Comparisons with different constants. *)
  Lemma eq_pair a b i j x y : (i <= 1)%nat -> (j <= 1)%nat ->
    (eqnn a i b j &&! evn a (1 - i) &&! evn b (1 - j) &&! nenn a (1 - i) b (1 - j)) = Ok true ->
    forall la lb, a = DOp la Eq -> b = DOp lb Eq -> tr a = Some x -> tr b = Some y -> x && y = false.
  Proof.
    intros Hi Hj H la lb -> -> Ha Hb. apply andM_true in H as [H1 H]. apply andM_true in H as [H2 H]. apply andM_true in H as [H3 H4].
    apply eqnn_true in H1 as (p & q & Hp & Hq & He). apply nenn_true in H4 as (r & s & Hr & Hs & Hne). pose proof (eq_value rho HR _ _ He) as Hv.
    apply tr_val in Ha as (va & Ha & ->). apply tr_val in Hb as (vb & Hb & ->).
    apply value_bin in Ha as (a1 & a2 & x1 & x2 & -> & Hx1 & Hx2 & Ha); try reflexivity. apply value_bin in Hb as (b1 & b2 & y1 & y2 & -> & Hy1 & Hy2 & Hb); try reflexivity.
    cbn in Ha, Hb. injection Ha as <-. injection Hb as <-.
    apply evn_true in H2 as (v & w & f & g & H2). apply evn_true in H3 as (v' & w' & f' & g' & H3). rewrite Hr in H2. rewrite Hs in H3. injection H2 as ->. injection H3 as ->.
    apply nextnode_op in Hp, Hq, Hr, Hs. cbn in Hne.
    assert (forall u u', vl (DEval v w f g) = Some u -> vl (DEval v' w' f' g') = Some u' -> u <> u') as Hd.
    { intros u u' Hu Hu' ->. cbn in Hu, Hu'. destruct v as [v| | |]; try discriminate. destruct v' as [v'| | |]; try discriminate.
      cbn in Hu, Hu'. injection Hu as ->. injection Hu' as ->. injection Hne as Hne. cbn in Hne. rewrite Z.eqb_refl in Hne. discriminate. }
    destruct i as [|[|]]; [| |lia]; (destruct j as [|[|]]; [| |lia]); cbn in Hp, Hq, Hr, Hs;
      injection Hp as ->; injection Hq as ->; injection Hr as ->; injection Hs as ->; rewrite ?Hx1, ?Hx2, ?Hy1, ?Hy2 in Hv; injection Hv as Hv;
      pose proof (Hd _ _ ltac:(eassumption) ltac:(eassumption)) as Hn;
      destruct (Z.eqb_spec x1 x2), (Z.eqb_spec y1 y2); cbn; auto; exfalso; lia.
  Qed.

  Lemma ne_case x y i u v : (i <= 1)%nat ->
    (opn Ulnot x &&! opnn Eq x 0 &&! opn Eq y &&! (do x0 <- nextnode x 0; eqnn x0 i y 0)
     &&! (do x0 <- nextnode x 0; evn x0 (1 - i)) &&! evn y 1 &&! (do x0 <- nextnode x 0; nenn x0 (1 - i) y 1)) = Ok true ->
    tr x = Some u -> tr y = Some v -> u && v = v.
  Proof.
    intros Hi H Hx Hy. apply andM_true in H as [H1 H]. apply andM_true in H as [H2 H]. apply andM_true in H as [H3 H]. apply andM_true in H as [H4 H].
    apply andM_true in H as [H5 H]. apply andM_true in H as [H6 H7]. apply opn_true in H1 as [l ->]. apply opnn_true in H2 as [l0 H2].
    rewrite H2 in H4, H5, H7. cbn [bind] in H4, H5, H7. apply nextnode_op in H2. apply tr_val in Hx as (vx & Hx & ->).
    pose proof Hx as Hx'. apply value_un in Hx' as (q & w & -> & Hq); [|reflexivity]. cbn in H2. injection H2 as ->.
    rewrite (value_ulnot _ _ _ Hq) in Hx. injection Hx as <-. apply opn_true in H3 as [ly ->].
    pose proof (eq_pair (DOp l0 Eq) (DOp ly Eq) i 0 (negb (w =? 0)) v Hi (le_S _ _ (le_n 0))) as K.
    rewrite H4 in K. cbn [andM bind] in K. rewrite H5 in K. cbn [andM bind Nat.sub] in K. rewrite H6 in K. cbn [andM bind] in K.
    specialize (K H7 _ _ eq_refl eq_refl (val_tr _ _ Hq) Hy). destruct (w =? 0), v; cbn in *; congruence.
  Qed.
  Lemma absorb_case x y i u v r : (i <= 1)%nat ->
    (opn Land x &&! opn Land y &&! opnn Ulnot x i &&! (do xi <- nextnode x i; eqnn xi 0 y 0) &&! eqnn x (1 - i) y 1) = Ok true ->
    nextnode x (1 - i) = Ok r -> tr x = Some u -> tr y = Some v -> tr r = Some (u || v).
  Proof.
    intros Hi H Hr Hx Hy. apply andM_true in H as [H1 H]. apply andM_true in H as [H2 H]. apply andM_true in H as [H3 H]. apply andM_true in H as [H4 H5].
    apply opn_true in H1 as [lx ->]. apply opn_true in H2 as [ly ->]. apply opnn_true in H3 as [l H3]. rewrite H3 in H4. cbn [bind] in H4.
    apply eqnn_true in H4 as (p & q & Hp & Hq & He). apply eqnn_true in H5 as (p' & q' & Hp' & Hq' & He').
    apply tr_val in Hx as (vx & Hx & ->). apply value_bin in Hx as (x1 & x2 & a1 & a2 & -> & Ha1 & Ha2 & Hx); try reflexivity.
    apply tr_val in Hy as (vy & Hy & ->). apply value_bin in Hy as (y1 & y2 & b1 & b2 & -> & Hb1 & Hb2 & Hy); try reflexivity.
    cbn in Hx, Hy. injection Hx as <-. injection Hy as <-. rewrite Hr in Hp'. injection Hp' as <-.
    apply nextnode_op in H3, Hp, Hq, Hq', Hr. cbn in Hq, Hq'. injection Hq as <-. injection Hq' as <-.
    pose proof (eq_value rho HR _ _ He) as V. pose proof (eq_value rho HR _ _ He') as V'.
    assert (forall xi xo a ao, vl xi = Some a -> vl xo = Some ao -> xi = DOp l Ulnot -> xo = r -> tr r = Some (negb (ao =? 0)) /\ b2 = ao /\ a = bz (b1 =? 0)) as K.
    { intros xi xo a ao Hxi Hxo -> ->. split; [now apply val_tr|]. rewrite Hxo, Hb2 in V'. injection V' as <-. split; auto.
      pose proof Hxi as Hxi'. apply value_un in Hxi' as (p0 & w & -> & Hw); [|reflexivity]. cbn in Hp. injection Hp as ->.
      rewrite (value_ulnot _ _ _ Hw) in Hxi. rewrite Hw, Hb1 in V. injection V as ->. congruence. }
    destruct i as [|[|]]; [| |lia]; cbn in H3, Hr; injection H3 as ->; injection Hr as <-.
    - destruct (K _ _ _ _ Ha1 Ha2 eq_refl eq_refl) as (-> & -> & ->). f_equal. destruct (b1 =? 0), (a2 =? 0); reflexivity.
    - destruct (K _ _ _ _ Ha2 Ha1 eq_refl eq_refl) as (-> & -> & ->). f_equal. destruct (b1 =? 0), (a1 =? 0); reflexivity.
  Qed.

  Definition keepT (t r : df) : Prop := forall b, tr t = Some b -> tr r = Some b.
  Lemma st_land_truth k a b r : heads (bit_not rho) a -> heads (bit_not rho) b -> st_land E k (DOp [a; b] Land) a b = Ok r -> keepT (DOp [a; b] Land) r.
  Proof.
    intros Ha Hb H z Hz. unfold st_land in H. apply rules_inv in H as [(p & Hp & Hc & Hr)|H]; [|congruence].
    rewrite truth_land in Hz. apply tand_some in Hz as (x & y & Hx & Hy & ->).
    assert (forall q, q = Ok (pintw 0 1) -> q = Ok r -> tr r = Some false) as H0 by (intros q -> K; injection K as <-; reflexivity).
    cbn [In] in Hp. repeat match goal with H : _ \/ _ |- _ => destruct H as [H|H] end; try contradiction; subst p; cbn [fst snd] in Hc, Hr.
    - rewrite (H0 _ eq_refl Hr). rewrite (val_tr _ _ (eval_zero _ _ Hc)) in Hx. injection Hx as <-. reflexivity.
    - rewrite (H0 _ eq_refl Hr). rewrite (val_tr _ _ (eval_zero _ _ Hc)) in Hy. injection Hy as <-. now rewrite andb_false_r.
    - injection Hr as <-. destruct (eval_pos rho _ Hc) as (v & Hv & Hpos). rewrite (val_tr _ _ Hv) in Hx. injection Hx as <-. rewrite Hy. f_equal. destruct (Z.eqb_spec v 0); [lia|reflexivity].
    - injection Hr as <-. destruct (eval_pos rho _ Hc) as (v & Hv & Hpos). rewrite (val_tr _ _ Hv) in Hy. injection Hy as <-. rewrite Hx. f_equal. destruct (Z.eqb_spec v 0); [lia|]. now rewrite andb_true_r.
    - rewrite (H0 _ eq_refl Hr). rewrite (bnot_case _ _ _ _ Hc Ha Hx Hy). now destruct y.
    - rewrite (H0 _ eq_refl Hr). rewrite (bnot_case _ _ _ _ Hc Hb Hy Hx). now destruct x.
    - rewrite (H0 _ eq_refl Hr). rewrite (lnot_case _ _ _ _ Hc Hx Hy). now destruct y.
    - rewrite (H0 _ eq_refl Hr). rewrite (lnot_case _ _ _ _ Hc Hy Hx). now destruct x.
    - rewrite (H0 _ eq_refl Hr). apply andM_true in Hc as [C1 Hc]. apply andM_true in Hc as [C2 Hc]. apply opn_true in C1 as [la C1]. apply opn_true in C2 as [lb C2].
      f_equal. symmetry. eapply (eq_pair a b 0 0); eauto.
    - rewrite (H0 _ eq_refl Hr). apply andM_true in Hc as [C1 Hc]. apply andM_true in Hc as [C2 Hc]. apply opn_true in C1 as [la C1]. apply opn_true in C2 as [lb C2].
      f_equal. symmetry. eapply (eq_pair a b 1 1); eauto.
    - rewrite (H0 _ eq_refl Hr). apply andM_true in Hc as [C1 Hc]. apply andM_true in Hc as [C2 Hc]. apply opn_true in C1 as [la C1]. apply opn_true in C2 as [lb C2].
      f_equal. symmetry. eapply (eq_pair a b 0 1); eauto.
    - rewrite (H0 _ eq_refl Hr). apply andM_true in Hc as [C1 Hc]. apply andM_true in Hc as [C2 Hc]. apply opn_true in C1 as [la C1]. apply opn_true in C2 as [lb C2].
      f_equal. symmetry. eapply (eq_pair a b 1 0); eauto.
    - injection Hr as <-. rewrite (ne_case a b 0 x y (le_S _ _ (le_n 0)) Hc Hx Hy). auto.
    - injection Hr as <-. rewrite (ne_case a b 1 x y (le_n 1) Hc Hx Hy). auto.
    - injection Hr as <-. rewrite andb_comm, (ne_case b a 0 y x (le_S _ _ (le_n 0)) Hc Hy Hx). auto.
    - injection Hr as <-. rewrite andb_comm, (ne_case b a 1 y x (le_n 1) Hc Hy Hx). auto.
  Qed.
  Lemma st_lor_truth a b r : heads (bit_not rho) a -> heads (bit_not rho) b -> st_lor (DOp [a; b] Lor) a b = Ok r -> keepT (DOp [a; b] Lor) r.
  Proof.
    intros Ha Hb H z Hz. unfold st_lor in H. apply rules_inv in H as [(p & Hp & Hc & Hr)|H]; [|congruence].
    rewrite truth_lor in Hz. apply tor_some in Hz as (x & y & Hx & Hy & ->).
    assert (forall q, q = Ok (pintw 1 1) -> q = Ok r -> tr r = Some true) as H0 by (intros q -> K; injection K as <-; reflexivity).
    cbn [In] in Hp. repeat match goal with H : _ \/ _ |- _ => destruct H as [H|H] end; try contradiction; subst p; cbn [fst snd] in Hc, Hr.
    - injection Hr as <-. rewrite (val_tr _ _ (eval_zero _ _ Hc)) in Hx. injection Hx as <-. auto.
    - injection Hr as <-. rewrite (val_tr _ _ (eval_zero _ _ Hc)) in Hy. injection Hy as <-. now rewrite orb_false_r.
    - rewrite (H0 _ eq_refl Hr). destruct (eval_pos rho _ Hc) as (v & Hv & Hpos). rewrite (val_tr _ _ Hv) in Hx. injection Hx as <-. f_equal. destruct (Z.eqb_spec v 0); [lia|reflexivity].
    - rewrite (H0 _ eq_refl Hr). destruct (eval_pos rho _ Hc) as (v & Hv & Hpos). rewrite (val_tr _ _ Hv) in Hy. injection Hy as <-. f_equal. destruct (Z.eqb_spec v 0); [lia|]. now rewrite orb_true_r.
    - rewrite (H0 _ eq_refl Hr). rewrite (bnot_case _ _ _ _ Hc Ha Hx Hy). now destruct y.
    - rewrite (H0 _ eq_refl Hr). rewrite (bnot_case _ _ _ _ Hc Hb Hy Hx). now destruct x.
    - rewrite (H0 _ eq_refl Hr). rewrite (lnot_case _ _ _ _ Hc Hx Hy). now destruct y.
    - rewrite (H0 _ eq_refl Hr). rewrite (lnot_case _ _ _ _ Hc Hy Hx). now destruct x.
    - eapply (absorb_case a b 0); eauto.
    - eapply (absorb_case a b 1); eauto.
    - rewrite orb_comm. eapply (absorb_case b a 0); eauto.
    - rewrite orb_comm. eapply (absorb_case b a 1); eauto.
  Qed.
  (** The rules return operands, operands of && operands, or constants. *)
  Lemma st_land_closed C k a b r : closed C -> C a -> C b -> st_land E k (DOp [a; b] Land) a b = Ok r -> C r.
  Proof.
    intros HC Ha Hb H. pose proof (cl_const _ HC) as [H0 H1]. pose proof (cl_node _ HC Land _ _ (or_introl eq_refl) Ha Hb) as Hn.
    unfold st_land in H. apply rules_inv in H as [(p & Hp & _ & Hr)|H]; [|congruence].
    cbn [In] in Hp. repeat match goal with H : _ \/ _ |- _ => destruct H as [H|H] end; try contradiction; subst p; cbn [snd] in Hr; cbn in Hr; try (injection Hr as <-; auto; fail).
  Qed.
  Lemma st_lor_closed C a b r : closed C -> C a -> C b -> st_lor (DOp [a; b] Lor) a b = Ok r -> C r.
  Proof.
    intros HC Ha Hb H. pose proof (cl_const _ HC) as [H0 H1]. pose proof (cl_node _ HC Lor _ _ (or_intror eq_refl) Ha Hb) as Hn.
    unfold st_lor in H. apply rules_inv in H as [(p & Hp & Hc & Hr)|H]; [|congruence].
    assert (forall x i, C x -> opn Land x = Ok true -> (i <= 1)%nat -> nextnode x i = Ok r -> (exists j, (i <> j /\ j <= 1)%nat /\ exists y, nextnode x j = Ok y) -> C r) as K.
    { intros x i Cx Ho Hi Hx (j & Hj & y & Hy). apply opn_true in Ho as [l ->]. apply nextnode_op in Hx, Hy.
      destruct l as [|p0 [|q l]]; [destruct i; discriminate| |].
      - destruct i as [|[|]]; [|discriminate|lia]. destruct j as [|[|]]; [lia|discriminate|lia].
      - destruct i as [|[|]]; [| |lia]; cbn in Hx; injection Hx as <-; [eapply (cl_left _ HC Land)|eapply (cl_right _ HC Land)]; eauto; now left. }
    assert (forall A B D F, (A &&! B &&! D &&! F) = Ok true -> A = Ok true /\ D = Ok true) as K2.
    { intros A B D F HH. apply andM_true in HH as [? HH]. apply andM_true in HH as [? HH]. apply andM_true in HH as [? HH]. auto. }
    cbn [In] in Hp. repeat match goal with H : _ \/ _ |- _ => destruct H as [H|H] end; try contradiction; subst p; cbn [fst snd] in Hc, Hr; try (injection Hr as <-; auto; fail).
    - apply K2 in Hc as [C1 C2]. apply opnn_true in C2 as [? C2]. refine (K a 1%nat Ha C1 _ Hr _); [lia|exists 0%nat; split; [lia|eauto]].
    - apply K2 in Hc as [C1 C2]. apply opnn_true in C2 as [? C2]. refine (K a 0%nat Ha C1 _ Hr _); [lia|exists 1%nat; split; [lia|eauto]].
    - apply K2 in Hc as [C1 C2]. apply opnn_true in C2 as [? C2]. refine (K b 1%nat Hb C1 _ Hr _); [lia|exists 0%nat; split; [lia|eauto]].
    - apply K2 in Hc as [C1 C2]. apply opnn_true in C2 as [? C2]. refine (K b 0%nat Hb C1 _ Hr _); [lia|exists 1%nat; split; [lia|eauto]].
  Qed.

  Definition ok (c : ctx) (t r : df) : Prop :=
    preserved rho c t r /\ chain rho c r /\ forall Q, good Q -> heads Q t -> heads Q r.
  Lemma value_preserved c t r : (forall v, vl t = Some v -> vl r = Some v) -> preserved rho c t r.
  Proof. destruct c; cbn; auto. intros H b Hb. apply tr_val in Hb as (v & Hv & ->). apply val_tr. auto. Qed.
  Lemma preserved_trans c t u r : preserved rho c t u -> preserved rho c u r -> preserved rho c t r.
  Proof. destruct c; cbn; auto. Qed.
  Lemma ok_refl c t : chain rho c t -> ok c t t.
  Proof. intros H. split; [|auto]. apply value_preserved. auto. Qed.
  Lemma ok_trans c t u r : ok c t u -> (chain rho c u -> ok c u r) -> ok c t r.
  Proof. intros (A1 & A2 & A3) K. destruct (K A2) as (B1 & B2 & B3). split; [eapply preserved_trans; eauto|]. split; auto. Qed.
  Lemma const_ok c t z w : preserved rho c t (pintw z w) -> ok c t (pintw z w).
  Proof. intros H. split; auto. split; [exact I|]. intros Q HQ _. apply HQ. exact I. Qed.

  (** For && and ||, preserving truth is enough. *)
  Lemma logic_preserved c l o r : land_lor o -> P rho c r -> keepT (DOp l o) r -> preserved rho c (DOp l o) r.
  Proof.
    intros Ho (_ & _ & Hb) Ht. destruct c; [exact Ht|]. intros v Hv. specialize (Hb eq_refl).
    pose proof (bit_land_lor rho l o v Ho Hv) as Hv'. pose proof (Ht _ (val_tr _ _ Hv)) as Hr. apply tr_val in Hr as (v' & Hr & Heq).
    rewrite Hr. destruct Hb as (v0 & Hv0 & Hb). rewrite Hr in Hv0. injection Hv0 as <-. destruct Hb as [->| ->], Hv' as [->| ->]; cbn in Heq; congruence.
  Qed.
  Lemma logic_ok c l o r : land_lor o -> P rho c r -> keepT (DOp l o) r -> (forall Q, good Q -> heads Q (DOp l o) -> heads Q r) -> ok c (DOp l o) r.
  Proof. intros Ho HP Ht HQ. split; [now apply logic_preserved|]. split; auto. apply HP. Qed.
  Lemma heads_two Q o a b : logical o = true -> o <> Ulnot -> heads Q (DOp [a; b] o) <-> heads Q a /\ heads Q b.
  Proof. destruct o; try discriminate; try congruence; cbn; tauto. Qed.

  Lemma mergeIdentical_ok c t r : chain rho c t -> mergeIdentical t = Ok r -> ok c t r.
  Proof.
    intros Hc H. unfold mergeIdentical in H. destruct t as [ | | | | |l o| | | | | | | | | ]; try (injection H as <-; now apply ok_refl).
    destruct l as [|a [|b l]]; [discriminate|injection H as <-; now apply ok_refl|]. cbn in H. unbind H. destruct r0; [|injection H as <-; now apply ok_refl].
    pose proof (eq_value rho HR _ _ B) as Hv. pose proof (eq_truth rho HR _ _ B) as Ht.
    assert (forall z, is_unary o = false -> by_width o = false -> (forall x, op_value o [x; x] 0 = Some z) -> ok c (DOp (a :: b :: l) o) (pintw z 1)) as K.
    { intros z H1 H2 H3. apply const_ok, value_preserved. intros v K. apply value_bin in K as (p & q & x & y & Hl & Hx & Hy & K0); auto. injection Hl as <- <- ->.
      rewrite Hx, Hy in Hv. injection Hv as <-. rewrite H3 in K0. injection K0 as <-. reflexivity. }
    destruct o; try (injection H as <-; now apply ok_refl);
      try (injection H as <-; apply K; [reflexivity|reflexivity|intros x; cbn; rewrite ?Z.eqb_refl, ?Z.ltb_irrefl, ?Z.leb_refl; reflexivity]).
    - (* And *) injection H as <-. destruct l; [|destruct Hc]. destruct Hc as [Ca Cb]. split; [|split; auto].
      + apply value_preserved. intros v K'. apply value_bin in K' as (p & q & x & y & Hl & Hx & Hy & K0); auto. injection Hl as <- <-.
        rewrite Hx, Hy in Hv. injection Hv as <-. cbn in K0. rewrite Z.land_diag in K0. congruence.
      + intros Q HQ K'. apply heads_two in K' as [K' _]; [exact K'|reflexivity|discriminate].
    - (* Or *) injection H as <-. destruct l; [|destruct Hc]. destruct Hc as (_ & _ & Ca & Cb). split; [|split; auto].
      + apply value_preserved. intros v K'. apply value_bin in K' as (p & q & x & y & Hl & Hx & Hy & K0); auto. injection Hl as <- <-.
        rewrite Hx, Hy in Hv. injection Hv as <-. cbn in K0. rewrite Z.lor_diag in K0. congruence.
      + intros Q HQ K'. apply heads_two in K' as [K' _]; [exact K'|reflexivity|discriminate].
    - injection H as <-. destruct l; [|destruct Hc]. pose proof (chain_P rho c _ Land (or_introl eq_refl) Hc) as HP.
      pose proof (cl_left _ (closed_P rho c) Land _ _ _ (or_introl eq_refl) HP) as Pa. apply logic_ok; auto; [now left| |].
      + intros z K'. rewrite truth_land in K'. apply tand_some in K' as (x & y & Hx & Hy & ->). rewrite Hx, Hy in Ht. injection Ht as <-. rewrite andb_diag. auto.
      + intros Q HQ K'. apply heads_two in K' as [K' _]; [exact K'|reflexivity|discriminate].
    - injection H as <-. destruct l; [|destruct Hc]. pose proof (chain_P rho c _ Lor (or_intror eq_refl) Hc) as HP.
      pose proof (cl_left _ (closed_P rho c) Lor _ _ _ (or_intror eq_refl) HP) as Pa. apply logic_ok; auto; [now right| |].
      + intros z K'. rewrite truth_lor in K'. apply tor_some in K' as (x & y & Hx & Hy & ->). rewrite Hx, Hy in Ht. injection Ht as <-. rewrite orb_diag. auto.
      + intros Q HQ K'. apply heads_two in K' as [K' _]; [exact K'|reflexivity|discriminate].
  Qed.

  (** x & ~x *)
  Lemma and_not_zero a b v : (opn Unot a &&! eqn a 0 b) = Ok true -> vl (DOp [a; b] And) = Some v \/ vl (DOp [b; a] And) = Some v -> v = 0.
  Proof.
    intros H K.
    assert (exists x y, vl a = Some x /\ vl b = Some y /\ v = Z.land y x) as (x & y & Ha & Hb & ->).
    { destruct K as [K|K]; apply value_bin in K as (p & q & x & y & Hl & Hx & Hy & K0); try reflexivity; injection Hl as <- <-; cbn in K0; injection K0 as <-.
      - exists x, y. rewrite Z.land_comm. auto.
      - exists y, x. auto. }
    destruct (not_cases _ _ _ _ _ H eq_refl (val_tr _ _ Ha) (val_tr _ _ Hb)) as (p & u & -> & Hp & Hu & _).
    destruct (value_unot _ _ _ Hp _ Ha) as (w & Hw & ->). rewrite Hb in Hu. injection Hu as ->. apply land_compl. lia.
  Qed.
  Lemma and_lnot_zero a b v : (opn Ulnot a &&! eqn a 0 b) = Ok true -> vl (DOp [a; b] And) = Some v \/ vl (DOp [b; a] And) = Some v -> v = 0.
  Proof.
    intros H K.
    assert (exists x y, vl a = Some x /\ vl b = Some y /\ v = Z.land y x) as (x & y & Ha & Hb & ->).
    { destruct K as [K|K]; apply value_bin in K as (p & q & x & y & Hl & Hx & Hy & K0); try reflexivity; injection Hl as <- <-; cbn in K0; injection K0 as <-.
      - exists x, y. rewrite Z.land_comm. auto.
      - exists y, x. auto. }
    destruct (not_cases _ _ _ _ _ H eq_refl (val_tr _ _ Ha) (val_tr _ _ Hb)) as (p & u & -> & Hp & Hu & _).
    rewrite (value_ulnot _ _ _ Hp) in Ha. injection Ha as <-. rewrite Hb in Hu. injection Hu as ->. destruct (Z.eqb_spec u 0); [subst|]; cbn; auto using Z.land_0_r.
  Qed.
  Lemma st_and_ok c k a b r : chain rho c (DOp [a; b] And) -> st_and E k (DOp [a; b] And) a b = Ok r -> ok c (DOp [a; b] And) r.
  Proof.
    intros Hc H. unfold st_and in H. apply rules_inv in H as [(p & Hp & K & Hr)|H]; [|injection H as <-; now apply ok_refl].
    assert (forall w, (forall v, vl (DOp [a; b] And) = Some v -> v = 0) -> ok c (DOp [a; b] And) (pintw 0 w)) as Z0.
    { intros w Hz. apply const_ok, value_preserved. intros v Hv. rewrite (Hz _ Hv). reflexivity. }
    assert (forall x, vl x = Some 0 -> x = a \/ x = b -> forall v, vl (DOp [a; b] And) = Some v -> v = 0) as Zx.
    { intros x Hx Hab v Hv. apply value_bin in Hv as (p' & q' & x' & y' & Hl & Hx' & Hy' & Hv); try reflexivity. injection Hl as <- <-. cbn in Hv. injection Hv as <-.
      destruct Hab as [->| ->]; rewrite Hx in *; [injection Hx' as <-; apply Z.land_0_l|injection Hy' as <-; apply Z.land_0_r]. }
    cbn [In] in Hp. repeat match goal with H : _ \/ _ |- _ => destruct H as [H|H] end; try contradiction; subst p; cbn [fst snd] in K, Hr; unbind Hr; injection Hr as <-.
    - apply Z0. eapply Zx; [exact (eval_zero rho _ K)|auto].
    - apply Z0. eapply Zx; [exact (eval_zero rho _ K)|auto].
    - apply Z0. intros v Hv. eapply and_not_zero; eauto.
    - apply Z0. intros v Hv. eapply and_not_zero; eauto.
    - destruct (r0 =? 1); [|now apply ok_refl]. apply Z0. intros v Hv. eapply and_lnot_zero; eauto.
    - destruct (r0 =? 1); [|now apply ok_refl]. apply Z0. intros v Hv. eapply and_lnot_zero; eauto.
  Qed.
  Lemma heads_not a o : (opn o a) = Ok true -> o = Unot \/ o = Ulnot -> heads no_not a -> False.
  Proof. intros H Ho Hh. apply opn_true in H as [l ->]. destruct Ho as [->| ->]; exact Hh. Qed.
  Lemma st_or_ok c k a b r : chain rho c (DOp [a; b] Or) -> st_or E k (DOp [a; b] Or) a b = Ok r -> ok c (DOp [a; b] Or) r.
  Proof.
    intros Hc H. unfold st_or in H. apply rules_inv in H as [(p & Hp & K & Hr)|H]; [|injection H as <-; now apply ok_refl].
    destruct Hc as (Na & Nb & Ca & Cb).
    cbn [In] in Hp. repeat match goal with H : _ \/ _ |- _ => destruct H as [H|H] end; try contradiction; subst p; cbn [fst snd] in K, Hr.
    - injection Hr as <-. apply eval_zero with (rho := rho) in K. split; [|split; auto].
      + apply value_preserved. intros v Hv. apply value_bin in Hv as (p' & q' & x' & y' & Hl & Hx' & Hy' & Hv); try reflexivity. injection Hl as <- <-. cbn in Hv.
        rewrite K in Hx'. injection Hx' as <-. rewrite Z.lor_0_l in Hv. congruence.
      + intros Q HQ Hh. apply heads_two in Hh as [Hh1 Hh2]; [assumption|reflexivity|discriminate].
    - injection Hr as <-. apply eval_zero with (rho := rho) in K. split; [|split; auto].
      + apply value_preserved. intros v Hv. apply value_bin in Hv as (p' & q' & x' & y' & Hl & Hx' & Hy' & Hv); try reflexivity. injection Hl as <- <-. cbn in Hv.
        rewrite K in Hy'. injection Hy' as <-. rewrite Z.lor_0_r in Hv. congruence.
      + intros Q HQ Hh. apply heads_two in Hh as [Hh1 Hh2]; [assumption|reflexivity|discriminate].
    - apply andM_true in K as [K _]. exfalso. eapply heads_not; eauto.
    - apply andM_true in K as [K _]. exfalso. eapply heads_not; eauto.
    - apply andM_true in K as [K _]. exfalso. eapply heads_not; eauto.
    - apply andM_true in K as [K _]. exfalso. eapply heads_not; eauto.
  Qed.
  Lemma mergeStatic_ok c k t r : chain rho c t -> mergeStatic E k t = Ok r -> ok c t r.
  Proof.
    intros Hc H. unfold mergeStatic in H. destruct t as [ | | | | |l o| | | | | | | | | ]; try (injection H as <-; now apply ok_refl).
    destruct l as [|a [|b l]]; [discriminate|injection H as <-; now apply ok_refl|]. cbn [nextnode nth_error bind] in H.
    destruct o; try (injection H as <-; now apply ok_refl); destruct l; try (destruct Hc; fail).
    - eapply st_and_ok; eauto.
    - eapply st_or_ok; eauto.
    - pose proof (chain_P rho c _ Land (or_introl eq_refl) Hc) as HP. pose proof (closed_P rho c) as HC. pose proof HC as [L R _ _].
      pose proof (L Land _ _ _ (or_introl eq_refl) HP) as Pa. pose proof (R Land _ _ _ (or_introl eq_refl) HP) as Pb. apply logic_ok; [now left| | |].
      + exact (st_land_closed (P rho c) k a b r HC Pa Pb H).
      + destruct Hc as (? & ? & _). eapply st_land_truth; eauto.
      + intros Q HQ Hh. apply heads_two in Hh as [? ?]; [|reflexivity|discriminate]. apply (st_land_closed (heads Q) k a b r); auto using closed_heads.
    - pose proof (chain_P rho c _ Lor (or_intror eq_refl) Hc) as HP. pose proof (closed_P rho c) as HC. pose proof HC as [L R _ _].
      pose proof (L Lor _ _ _ (or_intror eq_refl) HP) as Pa. pose proof (R Lor _ _ _ (or_intror eq_refl) HP) as Pb. apply logic_ok; [now right| | |].
      + exact (st_lor_closed (P rho c) a b r HC Pa Pb H).
      + destruct Hc as (? & ? & _). eapply st_lor_truth; eauto.
      + intros Q HQ Hh. apply heads_two in Hh as [? ?]; [|reflexivity|discriminate]. apply (st_lor_closed (heads Q) a b r); auto using closed_heads.
  Qed.
  Lemma mergeLor_ok tocode c t r : chain rho c t -> mergeLor tocode t = Ok r -> ok c t r.
  Proof.
    intros Hc H. assert ((exists l o, land_lor o /\ t = DOp l o) \/ mergeLor tocode t = Ok t) as [(l & o & Ho & ->)|K].
    { unfold land_lor. destruct t as [ | | | | |l o| | | | | | | | | ]; try (right; reflexivity). destruct o; try (right; reflexivity); left; eauto. }
    - pose proof (chain_P rho c _ _ Ho Hc) as HP. apply logic_ok; auto.
      + exact (mergeLor_closed (P rho c) (closed_P rho c) tocode _ _ HP H).
      + intros b Hb. eapply mergeLor_truth; eauto.
      + intros Q HQ Hh. exact (mergeLor_closed (heads Q) (closed_heads Q HQ) tocode _ _ Hh H).
    - rewrite K in H. injection H as <-. now apply ok_refl.
  Qed.
End Rules.
