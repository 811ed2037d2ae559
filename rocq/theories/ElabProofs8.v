(** ElabProofs8.v - elaboration: instances, generate constructs, and the whole. *)
From Verif Require Import Base ScopeModel ScopeSpec ScopeProofs DfModel BindModel BindSpec BindProofs LitModel OptModel OptProofs ReorderModel AsgModel ExprModel MkModel HierModel VisitModel VisitProofs ElabModel ElabSpec ElabProofs ElabProofs2 ElabProofs3 ElabProofs4 ElabProofs5 ElabProofs6 ElabProofs7.

Scheme elab_i := Induction for elab Sort Prop with elabs_i := Induction for elabs Sort Prop with placed_i := Induction for placed Sort Prop
  with row_i := Induction for row Sort Prop with loop_i := Induction for loop Sort Prop.
Combined Scheme elab_all from elab_i, elabs_i, placed_i, row_i, loop_i.

Lemma not_parameter b n : NoDup (flat_map declares b) -> In (IGenvar n) b \/ (exists e, In (ILocal n e) b) -> ~ In n (parameters b).
Proof.
  intros HN Hin Hp. assert (forall x, In x b -> In n (declares x) -> forall y, In y b -> In n (declares y) -> x = y) as Huniq.
  { clear Hin Hp. induction b as [|z b IH]; intros x Hx Hnx y Hy Hny; [destruct Hx|]. cbn [flat_map] in HN.
    assert (forall w, In w b -> In n (declares z) -> In n (declares w) -> False) as Hd.
    { intros w Hw Hz Hnw. assert (In n (flat_map declares b)) as H by (apply in_flat_map; eauto). clear -HN Hz H. induction (declares z) as [|a l IH]; [destruct Hz|]. cbn in HN. inversion HN; subst. destruct Hz as [->|Hz]; [apply H2, in_or_app; auto|auto]. }
    assert (NoDup (flat_map declares b)) as HN2. { clear -HN. induction (declares z) as [|a l IH]; [exact HN|]. inversion HN; auto. }
    destruct Hx as [->|Hx]; destruct Hy as [->|Hy]; [reflexivity|destruct (Hd y); auto|destruct (Hd x); auto|auto]. }
  unfold parameters in Hp. apply in_flat_map in Hp as (y & Hy & Hny). destruct y; cbn in Hny; try tauto. destruct Hny as [->|[]].
  destruct Hin as [H|[e' H]]; [specialize (Huniq _ H (or_introl eq_refl) _ Hy (or_introl eq_refl))|specialize (Huniq _ H (or_introl eq_refl) _ Hy (or_introl eq_refl))]; discriminate.
Qed.
Lemma same_parameter b n w e w' e' : NoDup (parameters b) -> In (IParam n w e) b -> In (IParam n w' e') b -> e = e'.
Proof.
  intros HN H H'. assert (In (n, [NParam w e]) (params_of b)) as A by (unfold params_of; apply in_flat_map; exists (IParam n w e); split; [exact H|now left]).
  assert (In (n, [NParam w' e']) (params_of b)) as A' by (unfold params_of; apply in_flat_map; exists (IParam n w' e'); split; [exact H'|now left]).
  rewrite <- params_keys in HN. apply sget_some in A; auto. apply sget_some in A'; auto. congruence.
Qed.

Section Main.
  Variable log2i : Z -> option Z.
  Variable tocode : df -> res string.
  Variable D : list mod_.
  Variable T : mtable.
  Hypothesis HT : forall m, In m D -> sget T (m_name m) = Some (m, mod_info m).
  Hypothesis HL : legal D.
  Notation vis := (visit log2i tocode T).
  Notation P_item := (P_item log2i tocode T). Notation P_list := (P_list log2i tocode T). Notation P_placed := (P_placed log2i tocode T). Notation P_row := (P_row log2i tocode T). Notation P_loop := (P_loop log2i tocode T).

  Lemma legal_module m b : In (MDef m b) D -> NoDup (flat_map declares b) /\ Forall item_ok b /\ i_consts (mod_info (MDef m b)) = params_of b /\ i_params (mod_info (MDef m b)) = parameters b.
  Proof.
    intros H. destruct HL as [_ HF]. rewrite Forall_forall in HF. destruct (HF _ H) as [H1 H2]. cbn [m_items] in *. destruct (module_info m b H1 H2). auto.
  Qed.
  Lemma get_module m b : In (MDef m b) D -> getInfo T m = Ok (MDef m b, mod_info (MDef m b)).
  Proof. intros H. unfold getInfo. now rewrite (HT _ H : sget T m = _). Qed.

  (** A module's scope. *)
  Lemma stack_module c s n m b s1 f : Inv s -> no_any c -> current s = c -> fr s c = Some f -> In (MDef m b) D -> stackInstanceFrame T s n m = Ok s1 ->
    exists s0 f1, Opened c (Label n STmodule None) (module_flags m) s s0 /\ Did (c ++ [Label n STmodule None]) (parameters b) [] s0 s1 [] /\
      fr s1 (c ++ [Label n STmodule None]) = Some f1 /\ f_consts decl f1 = params_of b /\ f_flags decl f1 = module_flags m /\ (forall y, cs s1 (sig (c ++ [Label n STmodule None]) y) = None) /\ s_cs s1 = s_cs s.
  Proof.
    intros I Hn Hc F Hin H. unfold stackInstanceFrame in H. ub. rewrite (get_module _ _ Hin) in B0. injection B0 as <-. cbn [snd] in H.
    assert (ordinary (Label n STmodule None)) as Hl by (split; discriminate). destruct (frame_in_opened c _ _ s _ f I Hn Hc F Hl B) as (O & (g & G & Eg) & Ec & Hnone).
    destruct (o_here _ _ _ _ _ O) as (g' & G' & Efl). assert (g' = g) as -> by congruence. destruct (legal_module _ _ Hin) as (HN & Hok & E1 & E2).
    assert (no_any (c ++ [Label n STmodule None])) as Hn1 by (apply no_any_snoc; [exact Hn|discriminate]).
    assert (f_consts decl (frame_update g (mod_info (MDef m b))) = params_of b) as Econ. { unfold frame_update. cbn [f_consts]. rewrite Eg, E1. apply supdate_self. rewrite params_keys. now apply parameters_nodup. }
    destruct (on_here_did _ [] _ s1 g _ (parameters b) (o_inv _ _ _ _ _ O) Hn1 (o_cur _ _ _ _ _ O) G H) as (D1 & Ec1 & F1); try reflexivity.
    - intros y Hy. rewrite Econ, Eg. cbn [sget]. apply sget_none. now rewrite params_keys.
    - intros y Hy. rewrite Econ. rewrite <- params_keys in Hy. clear -Hy. induction (params_of b) as [|[a v] l IH]; [destruct Hy|]. cbn [sget]. destruct (String.eqb a y) eqn:E; [discriminate|]. destruct Hy as [Hy|Hy]; [|auto]. cbn in Hy. subst. now rewrite String.eqb_refl in E.
    - exists r, (frame_update g (mod_info (MDef m b))). split; [exact O|]. split; [exact D1|]. split; [exact F1|]. split; [exact Econ|]. split; [exact Efl|]. split; [|congruence]. intros y. unfold cs. rewrite Ec1. apply Hnone.
  Qed.
  Lemma module_ready m b o c1 f1 s2 : In (MDef m b) D -> fr s2 c1 = Some f1 -> f_consts decl f1 = params_of b -> fl_module (f_flags decl f1) = true ->
    (forall y u, cs s2 (sig c1 y) = Some u -> In y (parameters b)) ->
    (forall y v, override o y = Some v -> exists u, cs s2 (sig c1 y) = Some u /\ isval u v) ->
    (forall y u, cs s2 (sig c1 y) = Some u -> override o y = None -> default log2i tocode b c1 s2 y u) ->
    Forall (Ready log2i tocode (parameters b) s2 c1 o) b.
  Proof.
    intros Hin F1 Econ M H1 H2 H3. destruct (legal_module _ _ Hin) as (HN & Hok & _). pose proof (parameters_nodup _ HN) as HNp.
    assert (forall n, ~ In n (parameters b) -> (forall f, fr s2 c1 = Some f -> sget (f_consts decl f) n = None) /\ cs s2 (sig c1 n) = None) as Hloc.
    { intros n Hn. split; [intros f F; assert (f = f1) as -> by congruence; rewrite Econ; apply sget_none; now rewrite params_keys|]. destruct (cs s2 (sig c1 n)) eqn:E; [destruct Hn; eauto|reflexivity]. }
    apply Forall_forall. intros x Hx. destruct x; cbn [Ready]; auto.
    - assert (In n (parameters b)) as Hp by (eapply in_parameters; eauto). split; [exact Hp|]. split.
      + exists f1. split; [exact F1|]. split; [exact M|]. exact (parameters_sget b f1 Econ n Hp).
      + destruct (override o n) eqn:E; [eauto|]. intros u Hu. destruct (H3 _ _ Hu E) as (w' & e' & find0 & k0 & Hin' & Hf & He). exists find0, k0. split; [exact Hf|]. rewrite (same_parameter b n w e w' e'); auto.
    - apply Hloc. apply not_parameter; [exact HN|]. right. eauto.
    - apply Hloc. apply not_parameter; auto.
  Qed.

  Lemma case_placed p r m n args b o r' l : primitive m = false -> In (MDef m b) D -> given r (parameters b) 0 args o -> NoDup (map fst o) ->
    P_list (p ++ [PInst n]) o false [] b r' l -> P_placed p r m n args ((p ++ [PInst n], m) :: l).
  Proof.
    intros Hprim Hin HG HNo HP k s s' c g H Hc I Hp HS Ha. unfold instance in H. rewrite Hprim in H. destruct (String.eqb n ""); [discriminate|]. destruct (at_frame _ _ _ _ Ha) as [f F]. pose proof (np_no_any _ _ Hp) as Hn.
    ub. rewrite Hc in *. destruct (stack_module c s n m b _ f I Hn Hc F Hin B) as (s0 & f1 & O & D0 & F1 & Econ & Efl & Hnone & Ecs). destruct (legal_module _ _ Hin) as (HN & Hok & E1 & E2).
    set (c1 := c ++ [Label n STmodule None]) in *. assert (ordinary (Label n STmodule None)) as Hl by (split; discriminate).
    assert (no_any c1) as Hn1 by (apply no_any_snoc; [exact Hn|discriminate]). destruct (did_state _ _ _ _ _ _ D0) as (Hc1 & I1 & _). rewrite Hc1 in *.
    rewrite (get_module _ _ Hin) in *. injection B2 as <-. cbn [fst snd m_items] in *. rewrite E2 in *.
    assert (fl_module (f_flags decl f1) = true) as M1 by (rewrite Efl; reflexivity).
    assert (Pre log2i tocode b c1 r0 [] r0) as P0.
    { constructor; auto; try (intros y u Hu; rewrite Hnone in Hu; discriminate). intros y v Hv. discriminate. }
    assert (sees r0 c r) as HS0.
    { assert (sees s0 c r) as HSa.
      { intros y o0 L. destruct (HS _ _ L) as (key & HF & HV). exists key. split.
        - eapply finds_same; [exact I|exact (o_inv _ _ _ _ _ O)|exact Hn| |exact HF]. intros d Hd. destruct (chain_dec d c) as [->|N].
          + destruct (o_parent _ _ _ _ _ O) as (g1 & g2 & -> & -> & X1 & X2). cbn. now rewrite X1, X2.
          + rewrite (o_out _ _ _ _ _ O); [apply like_refl|eapply no_any_prefix; eauto| |auto]. intros Hu. apply (not_under_snoc c (Label n STmodule None)). eapply under_trans; eauto.
        - intros v E. destruct (HV v E) as (u & Hu & Hi). exists u. split; auto. destruct (finds_where _ _ _ _ I Hn HF) as [Huk _]. rewrite (o_cs _ _ _ _ _ O); auto; [apply sig_any; eapply no_any_prefix; eauto|].
          intros X. apply under_sig in X as [X|X]; [apply (not_under_snoc c (Label n STmodule None)); eapply under_trans; eauto|]. unfold sig, chain_add_label in X. apply app_inj_tail in X as [_ X]. discriminate. }
      intros y o0 L. destruct (HSa _ _ L) as (key & HF & HV). destruct (finds_where _ _ _ _ (o_inv _ _ _ _ _ O) Hn HF) as [Huk (fk & dk & Fk & _)]. assert (no_any key) as Hnk by (eapply no_any_prefix; eauto).
      assert (forall d, under d c -> ~ under c1 d) as Hout. { intros d Hd Hu. apply (not_under_snoc c (Label n STmodule None)). eapply under_trans; eauto. }
      exists key. split.
      - eapply finds_same; [exact (o_inv _ _ _ _ _ O)|exact I1|exact Hn| |exact HF]. intros d Hd. rewrite (d_out _ _ _ _ _ _ D0); [apply like_refl|eapply no_any_prefix; eauto|auto].
      - intros v E. destruct (HV v E) as (u & Hu & Hi). exists u. split; auto. rewrite (d_far _ _ _ _ _ _ D0); auto using no_idle, sig_any.
        intros X. apply under_sig in X as [X|X]; [now apply (Hout key)|]. unfold sig, chain_add_label, c1 in X. apply app_inj_tail in X as [_ X]. discriminate. }
    assert (Only c1 [] r0) as On. { intros y Hy. now rewrite Hnone in Hy. }
    destruct (overrides_pre log2i tocode b c1 f1 r0 Hn1 F1 Econ r k c I1 Hn (not_under_snoc c _) HS0 0 args o HG [] r0 _ P0 On HNo B3) as [P1 _]. cbn [app] in P1.
    apply (passes_pre log2i tocode b c1 f1 r0 Hn1 F1 Econ M1 o k k) with (2 := B4) in P1.
    assert (Did c1 (parameters b) [] r0 r5 []) as Dpre.
    { constructor.
      - unfold current. rewrite (p_fr _ _ _ _ _ _ _ P1). exact Hc1.
      - exact (p_inv _ _ _ _ _ _ _ P1).
      - intros d _ _. unfold fr, frames. now rewrite (p_fr _ _ _ _ _ _ _ P1).
      - exists f1, f1. split; [exact F1|]. split; [exact (pre_frame _ _ _ _ _ _ F1 _ _ P1)|]. split; [reflexivity|]. split; [reflexivity|]. split; [intros y Hy; exact (parameters_sget b f1 Econ y Hy)|auto].
      - intros m0 Hm Hu _. apply (p_far _ _ _ _ _ _ _ P1); auto.
      - intros y Hy _. rewrite Hnone. destruct (cs r5 (sig c1 y)) eqn:E; [|reflexivity]. destruct Hy. eapply (p_in _ _ _ _ _ _ _ P1); eauto.
      - intros y u _ Hu. rewrite Hnone in Hu. discriminate.
      - exists []. split; [|constructor]. unfold sk, frames. now rewrite (p_fr _ _ _ _ _ _ _ P1), app_nil_r. }
    destruct (did_state _ _ _ _ _ _ Dpre) as (Hc5 & I5 & _).
    destruct (HP k _ _ c1 (parameters b) B7 Hc5 I5) as [ds HD].
    - unfold c1. apply Forall2_app; [exact Hp|]. constructor; [constructor|constructor].
    - apply sees_nil.
    - exists f1. split; [exact (pre_frame _ _ _ _ _ _ F1 _ _ P1)|]. rewrite Efl. repeat split.
    - exact Hok.
    - exact HN.
    - eapply module_ready; [exact Hin|exact (pre_frame _ _ _ _ _ _ F1 _ _ P1)|exact Econ|exact M1|apply P1|apply P1|apply P1].
    - intros y _. discriminate.
    - intros y Hy. apply not_parameter; auto.
    - injection H as <-. change ((p ++ [PInst n], m) :: l) with ([(p ++ [PInst n], m)] ++ l).
      assert (Did c1 (parameters b ++ parameters b ++ ds) [] s0 r8 ([] ++ [] ++ l)) as Dall.
      { eapply did_trans; [exact (o_inv _ _ _ _ _ O)|exact Hn1|exact D0| |intros m0 Hm; destruct (no_idle _ _ _ Hm)].
        eapply did_trans; [exact I1|exact Hn1|exact Dpre|exact HD|intros m0 Hm; destruct (no_idle _ _ _ Hm)]. }
      cbn [app] in Dall. eapply close; [exact I|exact Hn|exact Hl|exact O|exact Dall|intros m0 Hm; destruct (no_idle _ _ _ Hm)|].
      unfold insts. cbn [flat_map app fst snd]. rewrite last_last. constructor; [|constructor]. split; [|reflexivity]. cbn [fst]. apply Forall2_app; [exact Hp|]. constructor; [constructor|constructor].
  Qed.
End Main.
