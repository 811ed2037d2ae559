(** ElabProofs9.v - elaboration: the cases, and the whole design. *)
From Verif Require Import Base ScopeModel ScopeSpec ScopeProofs DfModel BindModel BindSpec BindProofs LitModel OptModel OptProofs ReorderModel AsgModel ExprModel MkModel HierModel VisitModel VisitProofs ElabModel ElabSpec ElabProofs ElabProofs2 ElabProofs3 ElabProofs4 ElabProofs5 ElabProofs6 ElabProofs7 ElabProofs8.

Section Main.
  Variable log2i : Z -> option Z.
  Variable tocode : df -> res string.
  Variable D : list mod_.
  Variable T : mtable.
  Hypothesis HT : forall m, In m D -> sget T (m_name m) = Some (m, mod_info m).
  Hypothesis HL : legal D.
  Notation vis := (visit log2i tocode T).
  Notation P_item := (P_item log2i tocode T). Notation P_list := (P_list log2i tocode T). Notation P_placed := (P_placed log2i tocode T). Notation P_row := (P_row log2i tocode T). Notation P_loop := (P_loop log2i tocode T).

  Lemma done c r s s' l : Did c [] r s s' l -> Inv s -> no_any c -> sees s c r -> Did c [] r s s' l /\ sees s' c r.
  Proof. intros HD I Hn HS. split; [exact HD|]. eapply did_sees_all; eauto. Qed.

  Lemma case_signal p ov g r b n : P_item p ov g r (ISignal b n) r [].
  Proof.
    intros [|k] s s' c ps H Hc I Hp HS Ha Hok HR Hps; [discriminate|]. cbn [visit rule] in H. pose proof (np_no_any _ _ Hp) as Hn. destruct (at_frame _ _ _ _ Ha) as [f F]. apply done; auto.
    refine (proj1 (on_here_did c r s s' f _ [] I Hn Hc F H _ _ _ _)); [| |intros y _|intros y []]; unfold frame_addSignal; destruct (sget (f_consts decl f) n); reflexivity.
  Qed.
  Lemma case_skip p ov g r : P_item p ov g r ISkip r [].
  Proof.
    intros [|k] s s' c ps H Hc I Hp HS Ha Hok HR Hps; [discriminate|]. cbn [visit rule] in H. pose proof (np_no_any _ _ Hp) as Hn. destruct (at_frame _ _ _ _ Ha) as [f F]. injection H as <-. apply done; auto. eapply did_refl; eauto.
  Qed.
  Lemma case_always p ov g r x : procedural x -> P_item p ov g r (IAlways x) r [].
  Proof.
    intros Hx [|k] s s' c ps H Hc I Hp HS Ha Hok HR Hps; [discriminate|]. cbn [visit rule] in H. pose proof (np_no_any _ _ Hp) as Hn. ub. destruct (get_label_state _ _ _ _ _ _ B Hc I Ha) as (Hc1 & I1 & Ha1).
    apply done; auto. apply (did_get_label _ _ _ _ _ _ _ _ B). apply did_weaken. destruct (at_frame _ _ _ _ Ha1) as [f F].
    assert (fl_generate r1 = g) as Eg. { destruct Ha1 as (f' & F' & E & _). unfold here in B0. unfold fr, frames in F'. rewrite Hc1, F' in B0. injection B0 as <-. exact E. }
    rewrite Eg in H. assert (ordinary (Label (fst r0) STalways None)) as Hl by (split; discriminate).
    assert (stype (Label (fst r0) STalways None) <> STmodule) as Hnm by discriminate.
    destruct (inside c _ (plain_flags g true false) _ s' _ [] f I1 Hn Hc1 F Hl Hnm eq_refl H) as (s1 & g1 & s2 & O & G & Eg1 & Efl & Ec & Hnone & Hb & HD).
    refine (HD [] [] [] (sees_nil _ _) (fun y H => H) _). refine (procedural_quiet log2i tocode T k x Hx _ _ _ _ Hb (o_cur _ _ _ _ _ O) (o_inv _ _ _ _ _ O) _ (opened_at _ _ _ _ _ _ O)). apply no_any_snoc; [exact Hn|discriminate].
  Qed.
  Lemma case_given p ov g r n e v : override ov n = Some v -> P_item p ov g r (IParam n None e) ((n, Some v) :: r) [].
  Proof.
    intros Hv [|k] s s' c ps H Hc I Hp HS Ha Hok HR Hps; [discriminate|]. cbn [visit rule] in H. pose proof (np_no_any _ _ Hp) as Hn. destruct (at_frame _ _ _ _ Ha) as [f F].
    destruct (constant_did tocode c r s s' n _ _ f I Hn Hc F H) as (HD & HF & Hold & _). split; [exact HD|]. cbn [Ready] in HR. rewrite Hv in HR. destruct HR as (_ & _ & u & Hu & Hi).
    eapply declared_sees; eauto. intros v0 E. injection E as <-. eauto.
  Qed.
  Lemma case_default p ov g r n e v : override ov n = None -> const r e v -> P_item p ov g r (IParam n None e) ((n, Some v) :: r) [].
  Proof.
    intros Hv HC [|k] s s' c ps H Hc I Hp HS Ha Hok HR Hps; [discriminate|]. cbn [visit rule] in H. pose proof (np_no_any _ _ Hp) as Hn. destruct (at_frame _ _ _ _ Ha) as [f F].
    destruct (constant_did tocode c r s s' n _ _ f I Hn Hc F H) as (HD & HF & Hold & Hnew). split; [exact HD|]. cbn [Ready] in HR. rewrite Hv in HR. destruct HR as (Hin & (f0 & F0 & Hm & Hne) & HR).
    eapply declared_sees; eauto. intros v0 E. injection E as <-. destruct (cs s (sig c n)) as [u|] eqn:Eu.
    - exists u. split; [auto|]. destruct (HR u eq_refl) as (find0 & k0 & Hf & He). ub. eapply opt_means; [|exact He]. eapply tree_means; [exact HC| |exact B].
      intros y d v1 L Hy. destruct (Hf _ _ Hy) as [_ Hd]. destruct (HS _ _ L) as (key & HFk & HV). assert (key = c) as -> by exact (finds_module s c y key f0 I F0 Hm HFk). destruct (HV v1 eq_refl) as (u1 & Hu1 & Hi1). congruence.
    - destruct (Hnew eq_refl) as (s0 & u & D0 & HF0 & Ec & He & Hu). exists u. split; [exact Hu|]. rewrite (d_cur _ _ _ _ _ _ D0) in He. eapply eval_val'; [exact HC| |exact He]. eapply value_declared; eauto.
  Qed.
  Lemma case_local p ov g r n e v : const r e v -> P_item p ov g r (ILocal n e) ((n, Some v) :: r) [].
  Proof.
    intros HC [|k] s s' c ps H Hc I Hp HS Ha Hok HR Hps; [discriminate|]. cbn [visit rule] in H. pose proof (np_no_any _ _ Hp) as Hn. destruct (at_frame _ _ _ _ Ha) as [f F].
    destruct (constant_did tocode c r s s' n _ _ f I Hn Hc F H) as (HD & HF & Hold & Hnew). split; [exact HD|]. destruct HR as [_ HR].
    eapply declared_sees; eauto. intros v0 E. injection E as <-. 
    destruct (Hnew HR) as (s0 & u & D0 & HF0 & Ec & He & Hu). exists u. split; [exact Hu|]. rewrite (d_cur _ _ _ _ _ _ D0) in He. eapply eval_val'; [exact HC| |exact He]. eapply value_declared; eauto.
  Qed.
  Lemma case_genvar p ov g r n : P_item p ov g r (IGenvar n) ((n, None) :: r) [].
  Proof.
    intros [|k] s s' c ps H Hc I Hp HS Ha Hok HR Hps; [discriminate|]. cbn [visit rule] in H. pose proof (np_no_any _ _ Hp) as Hn. destruct (at_frame _ _ _ _ Ha) as [f F].
    destruct (constant_did tocode c r s s' n _ _ f I Hn Hc F H) as (HD & HF & Hold & Hnew). split; [exact HD|]. eapply declared_sees; eauto. discriminate.
  Qed.
  Lemma case_gate p ov g r m n args : primitive m = true -> P_item p ov g r (IInst m n None args) r [].
  Proof.
    intros Hm [|k] s s' c ps H Hc I Hp HS Ha Hok HR Hps; [discriminate|]. cbn [visit rule] in H. pose proof (np_no_any _ _ Hp) as Hn. destruct (at_frame _ _ _ _ Ha) as [f F]. unfold instance in H. rewrite Hm in H. injection H as <-.
    apply done; auto. eapply did_refl; eauto.
  Qed.
  Lemma case_inst p ov g r m n args l : P_placed p r m n args l -> P_item p ov g r (IInst m n None args) r l.
  Proof.
    intros HP [|k] s s' c ps H Hc I Hp HS Ha Hok HR Hps; [discriminate|]. cbn [visit rule] in H. pose proof (np_no_any _ _ Hp) as Hn. apply done; auto. eapply HP; eauto.
  Qed.
  Lemma case_array p ov g r m n hi lo h w args l : const r hi h -> const r lo w -> (w <= h)%Z -> P_row p r m n args w (Z.to_nat (h - w + 1)) l ->
    P_item p ov g r (IInst m n (Some (hi, lo)) args) r l.
  Proof.
    intros Hhi Hlo Hle HP [|k] s s' c ps H Hc I Hp HS Ha Hok HR Hps; [discriminate|]. cbn [visit rule] in H. pose proof (np_no_any _ _ Hp) as Hn. destruct (String.eqb n ""); [discriminate|]. ub. rewrite Hc in *.
    destruct (eval_val _ _ _ _ _ _ _ _ _ HS Hhi B) as [w1 ->]. destruct (eval_val _ _ _ _ _ _ _ _ _ HS Hlo B1) as [w2 ->]. cbn in B0, B2. injection B0 as <-. injection B2 as <-.
    replace (h + 1 - w)%Z with (h - w + 1)%Z in H by lia. apply done; auto. eapply HP; eauto.
  Qed.
  Lemma case_row_nil p r m n args i : P_row p r m n args i 0 [].
  Proof. intros k s s' c g H Hc I Hp HS (f & F & _). injection H as <-. eapply did_refl; eauto. Qed.
  Lemma case_row_gate p r m n args i j : primitive m = true -> P_row p r m n args i j [].
  Proof.
    intros Hm k s s' c g H Hc I Hp HS (f & F & _). assert (s' = s) as ->; [|eapply did_refl; eauto].
    revert H. generalize (map (fun a => (i + Z.of_nat a)%Z) (seq 0 j)). intros l. induction l as [|z l IH]; cbn [instances]; [congruence|]. unfold instance. rewrite Hm. exact IH.
  Qed.
  Lemma case_row_cons p r m n args i j l l' : P_placed p r m (n ++ "_" ++ py_str i)%string args l -> P_row p r m n args (i + 1) j l' -> P_row p r m n args i (S j) (l ++ l').
  Proof.
    intros HP HR k s s' c g H Hc I Hp HS Ha. cbn [seq map instances] in H. rewrite Z.add_0_r in H. ub. pose proof (np_no_any _ _ Hp) as Hn.
    pose proof (HP _ _ _ _ _ B Hc I Hp HS Ha) as D1. destruct (did_state _ _ _ _ _ _ D1) as (Hc1 & I1 & _).
    rewrite <- seq_shift, map_map in H. rewrite (map_ext _ (fun a => (i + 1 + Z.of_nat a)%Z)) in H by (intros a; lia).
    assert (Did c [] r r0 s' l') as D2. { eapply HR; eauto using at_did. eapply did_sees_all; eauto. }
    eapply did_then; [exact I|exact Hn|exact D1| |exact D2]. intros m0 (y & key & L & HF & ->). destruct (HS _ _ L) as (key' & HF' & _).
    assert (key = key') as ->; [|exists y, key'; auto]. eapply finds_det; [exact HF|]. eapply finds_same; [exact I|exact I1|exact Hn|eapply did_like; eauto|exact HF'].
  Qed.
  Lemma case_generate p ov g r b r' l : P_list (p ++ [PGenerate]) [] true r b r' l -> P_item p ov g r (IGenerate b) r l.
  Proof.
    intros HP [|k] s s' c ps H Hc I Hp HS Ha Hok HR Hps; [discriminate|]. cbn [visit rule] in H. pose proof (np_no_any _ _ Hp) as Hn. ub. destruct (get_label_state _ _ _ _ _ _ B Hc I Ha) as (Hc1 & I1 & Ha1). destruct (at_frame _ _ _ _ Ha1) as [f F].
    pose proof (get_label_same _ _ _ B) as [E1 E2]. apply done; auto. apply (did_get_label _ _ _ _ _ _ _ _ B). destruct Hok as [HN Hx]. apply all_forall in Hx.
    eapply in_scope; [exact I1|exact Hp|exact Hc1|exact F| |constructor|exact H| | |intros y Hy; exact Hy|exact HP|exact HN|exact Hx]; [discriminate|eapply sees_labels; eauto|eapply sees_labels; eauto].
  Qed.
  Lemma case_block p ov r n q b r' l : (forall m, match n with Some n => m = n | None => True end -> names_place (Label m STblock None) q) -> P_list (p ++ [q]) [] true r b r' l -> P_item p ov true r (IBlock n b) r l.
  Proof.
    intros Hq HP [|k] s s' c ps H Hc I Hp HS Ha Hok HR Hps; [discriminate|]. cbn [visit rule] in H. pose proof (np_no_any _ _ Hp) as Hn. ub.
    assert (s_fr (snd r0) = s_fr s /\ s_cs (snd r0) = s_cs s /\ match n with Some n => fst r0 = n | None => True end) as (E1 & E2 & E3).
    { destruct n; [injection B as <-; auto|apply get_label_same in B; tauto]. }
    assert (current (snd r0) = c) as Hc1 by (unfold current in *; now rewrite E1). assert (Inv (snd r0)) as I1 by (eapply inv_labels; eauto). assert (at_ (snd r0) c true false) as Ha1 by (eapply at_labels; eauto).
    destruct (at_frame _ _ _ _ Ha1) as [f F]. rewrite (same_flags_at _ _ _ _ _ Hc1 Ha1 B0) in H. apply done; auto. apply (did_labels _ _ _ _ _ _ _ E1 E2). destruct Hok as [HN Hx]. apply all_forall in Hx.
    eapply in_scope; [exact I1|exact Hp|exact Hc1|exact F| |exact (Hq _ E3)|exact H| | |intros y Hy; exact Hy|exact HP|exact HN|exact Hx]; [discriminate|eapply sees_labels; eauto|eapply sees_labels; eauto].
  Qed.
  (** A generate-if. *)
  Lemma if_at s c : current s = c -> at_ s c true false -> exists fl, here s = Ok fl /\ generate_only fl = true.
  Proof.
    intros Hc (f & F & E1 & E2 & E3 & E4 & E5). exists (f_flags decl f). unfold here. unfold fr, frames in F. rewrite Hc, F. split; [reflexivity|]. unfold generate_only. now rewrite E1, E2, E3, E4, E5.
  Qed.
  Lemma case_then p ov r e t f z r' l : const r e z -> (0 < z)%Z -> P_item (p ++ [PThen]) [] true r t r' l -> P_item p ov true r (IIf e (Some t) f) r l.
  Proof.
    intros HC Hz HP [|k] s s' c ps H Hc I Hp HS Ha Hok HR Hps; [discriminate|]. cbn [visit rule] in H. pose proof (np_no_any _ _ Hp) as Hn. apply done; auto. unfold if_statement in H. destruct (if_at s c Hc Ha) as (fl & Eh & Eg). rewrite Eh in H. cbn [bind] in H. rewrite Eg in H. ub. rewrite Hc in *.
    rewrite (positive_val _ _ _ (eval_val _ _ _ _ _ _ _ _ _ HS HC B) B0) in H. apply Z.ltb_lt in Hz. rewrite Hz in H. ub. injection H as <-. cbn [if_true] in B1. ub. injection B1 as <-. cbn [snd].
    destruct (get_label_state _ _ _ _ _ _ B2 Hc I Ha) as (Hc1 & I1 & Ha1). destruct (at_frame _ _ _ _ Ha1) as [f0 F]. pose proof (get_label_same _ _ _ B2) as [E1 E2]. apply (did_get_label _ _ _ _ _ _ _ _ B2). rewrite (same_flags_at _ _ _ _ _ Hc1 Ha1 B3) in B4.
    eapply in_scope1; [exact I1|exact Hp|exact Hc1|exact F| |constructor|exact B4| | |intros y Hy; exact Hy|exact HP|exact (proj1 Hok)]; [discriminate|eapply sees_labels; eauto|eapply sees_labels; eauto].
  Qed.
  Lemma case_else p ov r e t f r' l : const r e 0 -> P_item (p ++ [PElse]) [] true r f r' l -> P_item p ov true r (IIf e t (Some f)) r l.
  Proof.
    intros HC HP [|k] s s' c ps H Hc I Hp HS Ha Hok HR Hps; [discriminate|]. cbn [visit rule] in H. pose proof (np_no_any _ _ Hp) as Hn. apply done; auto. unfold if_statement in H. destruct (if_at s c Hc Ha) as (fl & Eh & Eg). rewrite Eh in H. cbn [bind] in H. rewrite Eg in H. ub. rewrite Hc in *.
    rewrite (positive_val _ _ _ (eval_val _ _ _ _ _ _ _ _ _ HS HC B) B0) in H. change (0 <? 0)%Z with false in H. cbn iota in H. ub.
    destruct (get_label_state _ _ _ _ _ _ B1 Hc I Ha) as (Hc1 & I1 & Ha1). destruct (at_frame _ _ _ _ Ha1) as [f0 F]. pose proof (get_label_same _ _ _ B1) as [E1 E2]. apply (did_get_label _ _ _ _ _ _ _ _ B1). cbn [if_false] in H. ub. rewrite (same_flags_at _ _ _ _ _ Hc1 Ha1 B2) in H.
    eapply in_scope1; [exact I1|exact Hp|exact Hc1|exact F| |constructor|exact H| | |intros y Hy; exact Hy|exact HP|exact (proj2 Hok)]; [discriminate|eapply sees_labels; eauto|eapply sees_labels; eauto].
  Qed.
  Lemma case_none p ov r e t : const r e 0 -> P_item p ov true r (IIf e t None) r [].
  Proof.
    intros HC [|k] s s' c ps H Hc I Hp HS Ha Hok HR Hps; [discriminate|]. cbn [visit rule] in H. pose proof (np_no_any _ _ Hp) as Hn. apply done; auto. unfold if_statement in H. destruct (if_at s c Hc Ha) as (fl & Eh & Eg). rewrite Eh in H. cbn [bind] in H. rewrite Eg in H. ub. rewrite Hc in *.
    rewrite (positive_val _ _ _ (eval_val _ _ _ _ _ _ _ _ _ HS HC B) B0) in H. change (0 <? 0)%Z with false in H. cbn iota in H. ub.
    destruct (get_label_state _ _ _ _ _ _ B1 Hc I Ha) as (Hc1 & I1 & Ha1). destruct (at_frame _ _ _ _ Ha1) as [f0 F]. apply (did_get_label _ _ _ _ _ _ _ _ B1). cbn [if_false] in H. injection H as <-. eapply did_refl; eauto.
  Qed.
  (** A generate-for. *)
  Lemma loop_var c r s x v e o k s' : Inv s -> no_any c -> current s = c -> at_ s c true false -> sees s c ((x, o) :: r) -> lookup r x = Some None -> const ((x, o) :: r) e v -> for_assign log2i tocode k s x e = Ok s' ->
    Did c [] r s s' [] /\ sees s' c ((x, Some v) :: r).
  Proof.
    intros I Hn Hc Ha HS L HC H. destruct (at_frame _ _ _ _ Ha) as [f F]. unfold for_assign in H. ub. injection H as <-. rewrite Hc in *.
    destruct (HS x o) as (key & HF & _); [rewrite lookup_cons; destruct (string_dec x x); congruence|]. apply (search_const_finds _ _ _ _ _ HF) in B. subst r0.
    pose proof (eval_val _ _ _ _ _ _ _ _ _ HS HC B0) as Hv. pose proof (set_idle c r s key x r1 f I Hn Hc F L HF) as HD. split; [exact HD|].
    destruct (finds_where _ _ _ _ I Hn HF) as (Hu & fk & dk & Fk & _). assert (no_any key) as Hk by (eapply no_any_prefix; eauto).
    intros y o' Ly. rewrite lookup_cons in Ly. destruct (string_dec x y) as [<-|N].
    - injection Ly as <-. exists key. split; [exact HF|]. intros v0 E. injection E as <-. exists r1. split; [|exact Hv]. rewrite cs_set by auto using sig_any. destruct (chain_dec (sig key x) (sig key x)); congruence.
    - destruct (HS y o') as (key' & HF' & HV); [rewrite lookup_cons; destruct (string_dec x y); congruence|]. exists key'. split; [exact HF'|]. intros v0 E. destruct (HV v0 E) as (u & Hu0 & Hi). exists u. split; [|exact Hi].
      destruct (finds_where _ _ _ _ I Hn HF') as (Hu' & _). assert (no_any key') as Hk' by (eapply no_any_prefix; eauto). rewrite cs_set by auto using sig_any. destruct (chain_dec (sig key x) (sig key' y)) as [E'|]; [|exact Hu0]. apply sig_inj in E' as [_ E']. congruence.
  Qed.
  Lemma sees_outer s c r x o : sees s c ((x, o) :: r) -> lookup r x = Some None -> sees s c r.
  Proof.
    intros HS L y o' Ly. destruct (string_dec x y) as [<-|N].
    - assert (o' = None) as -> by congruence. destruct (HS x o) as (key & HF & _); [rewrite lookup_cons; destruct (string_dec x x); congruence|]. exists key. split; [exact HF|discriminate].
    - apply HS. rewrite lookup_cons. destruct (string_dec x y); congruence.
  Qed.
  Lemma sees_inner s c r x : sees s c r -> lookup r x = Some None -> sees s c ((x, None) :: r).
  Proof.
    intros HS L y o Ly. rewrite lookup_cons in Ly. destruct (string_dec x y) as [<-|N]; [|auto]. injection Ly as <-. auto.
  Qed.
  Lemma const_more r x e v : lookup r x = Some None -> const r e v -> const ((x, None) :: r) e v.
  Proof.
    intros L. induction 1; try (econstructor; eauto; fail). apply const_name; auto. rewrite lookup_cons. destruct (string_dec x n) as [<-|]; congruence.
  Qed.
  Lemma did_seq c r s s1 s2 l1 l2 : Inv s -> no_any c -> sees s c r -> Did c [] r s s1 l1 -> Did c [] r s1 s2 l2 -> Did c [] r s s2 (l1 ++ l2).
  Proof.
    intros I Hn HS D1 D2. eapply did_then; [exact I|exact Hn|exact D1| |exact D2]. intros m0 (y & key & L & HF & ->). destruct (HS _ _ L) as (key' & HF' & _).
    assert (key = key') as ->; [|exists y, key'; auto]. eapply finds_det; [exact HF|]. eapply finds_same; [exact I|exact (d_inv _ _ _ _ _ _ D1)|exact Hn|eapply did_like; eauto|exact HF'].
  Qed.
  Lemma case_loop_stop p r x v e post b : const ((x, Some v) :: r) e 0 -> P_loop p r x v e post b [].
  Proof.
    intros HC k [|j] s s' c lb H Hc I Hp HS Ha L Hb; [discriminate|]. cbn [for_loop] in H. ub. rewrite Hc in *. rewrite (positive_val _ _ _ (eval_val _ _ _ _ _ _ _ _ _ HS HC B) B0) in H. cbn in H. injection H as <-.
    destruct (at_frame _ _ _ _ Ha) as [f F]. eapply did_refl; eauto.
  Qed.
  Lemma case_loop_again p r x v e post b z r' l v' l' : const ((x, Some v) :: r) e z -> (0 < z)%Z -> P_item (p ++ [PLoop v]) [] true ((x, Some v) :: r) b r' l ->
    const ((x, Some v) :: r) post v' -> P_loop p r x v' e post b l' -> P_loop p r x v e post b (l ++ l').
  Proof.
    intros HC Hz HP Hpost HPL k [|j] s s' c lb H Hc I Hp HS Ha L Hb; [discriminate|]. cbn [for_loop] in H. pose proof (np_no_any _ _ Hp) as Hn. ub. rewrite Hc in *. rewrite (positive_val _ _ _ (eval_val _ _ _ _ _ _ _ _ _ HS HC B) B0) in H.
    apply Z.ltb_lt in Hz. rewrite Hz in H. cbn [negb] in H. ub. pose proof (sees_outer _ _ _ _ _ HS L) as HSo.
    rewrite (same_flags_at _ _ _ _ _ Hc Ha B1) in B2. destruct (at_frame _ _ _ _ Ha) as [f F].
    assert (Did c [] ((x, Some v) :: r) s r3 l) as D1.
    { eapply in_scope1; [exact I|exact Hp|exact Hc|exact F| |constructor|exact B2|exact HS|exact HS|intros y Hy; exact Hy|exact HP|exact Hb]. discriminate. }
    pose proof (did_sees_all _ _ _ _ _ D1 I Hn HS) as HS3. destruct (did_state _ _ _ _ _ _ D1) as (Hc3 & I3 & _). pose proof (at_did _ _ _ _ _ _ _ _ D1 Ha) as Ha3. rewrite Hc3 in *.
    assert (Did c [] r s r3 l) as D1r.
    { eapply in_scope1; [exact I|exact Hp|exact Hc|exact F| |constructor|exact B2|exact HSo|exact HS| |exact HP|exact Hb]; [discriminate|]. intros y. rewrite lookup_cons. destruct (string_dec x y); congruence. }
    destruct (eval_val _ _ _ _ _ _ _ _ _ HS3 Hpost B3) as [w ->]. unfold loop_value in B4. cbn in B4. injection B4 as <-.
    destruct (loop_var c r r3 x v' post (Some v) k r6 I3 Hn Hc3 Ha3 HS3 L Hpost B5) as [D2 HS6]. destruct (did_state _ _ _ _ _ _ D2) as (Hc6 & I6 & _).
    eapply did_seq; [exact I|exact Hn|exact HSo|exact D1r|]. change l' with ([] ++ l'). eapply did_seq; [exact I3|exact Hn|exact (sees_outer _ _ _ _ _ HS3 L)|exact D2|].
    eapply HPL; eauto using at_did.
  Qed.
  Lemma case_for p ov r x pre e post b v l : lookup r x = Some None -> const r pre v -> P_loop p r x v e post b l -> P_item p ov true r (IFor x pre e x post b) r l.
  Proof.
    intros L HC HP [|k] s s' c ps H Hc I Hp HS Ha Hok HR Hps; [discriminate|]. cbn [visit rule] in H. pose proof (np_no_any _ _ Hp) as Hn. apply done; auto. unfold for_statement in H. ub. rewrite Hc in *.
    destruct (eval_val _ _ _ _ _ _ _ _ _ HS HC B) as [w ->]. unfold loop_value in B0. cbn in B0. injection B0 as <-.
    destruct (loop_var c r s x v pre None k r2 I Hn Hc Ha (sees_inner _ _ _ _ HS L) L (const_more _ _ _ _ L HC) B1) as [D1 HS1]. destruct (did_state _ _ _ _ _ _ D1) as (Hc1 & I1 & _). pose proof (at_did _ _ _ _ _ _ _ _ D1 Ha) as Ha1.
    change l with ([] ++ l). eapply did_seq; [exact I|exact Hn|exact HS|exact D1|].
    destruct (get_label_state _ _ _ _ _ _ B2 Hc1 I1 Ha1) as (Hc2 & I2 & Ha2). pose proof (get_label_same _ _ _ B2) as [E1 E2]. apply (did_get_label _ _ _ _ _ _ _ _ B2).
    eapply HP; eauto. eapply sees_labels; eauto.
  Qed.

  Theorem elab_sound :
    (forall p ov g r x r' l, elab D p ov g r x r' l -> P_item p ov g r x r' l) /\
    (forall p ov g r xs r' l, elabs D p ov g r xs r' l -> P_list p ov g r xs r' l) /\
    (forall p r m n args l, placed D p r m n args l -> P_placed p r m n args l) /\
    (forall p r m n args i j l, row D p r m n args i j l -> P_row p r m n args i j l) /\
    (forall p r x v e post b l, loop D p r x v e post b l -> P_loop p r x v e post b l).
  Proof.
    apply (elab_all D (fun p ov g r x r' l _ => P_item p ov g r x r' l) (fun p ov g r xs r' l _ => P_list p ov g r xs r' l) (fun p r m n args l _ => P_placed p r m n args l)
      (fun p r m n args i j l _ => P_row p r m n args i j l) (fun p r x v e post b l _ => P_loop p r x v e post b l)); intros.
    - apply case_signal.
    - apply case_skip.
    - now apply case_always.
    - now apply case_given.
    - now apply case_default.
    - now apply case_local.
    - apply case_genvar.
    - now apply case_gate.
    - now apply case_inst.
    - eapply case_array; eauto.
    - eapply case_generate; eauto.
    - eapply (case_block _ _ _ (Some n)); eauto. intros m ->. constructor.
    - eapply (case_block _ _ _ None); eauto. intros m _. constructor.
    - eapply case_then; eauto.
    - eapply case_else; eauto.
    - now apply case_none.
    - eapply case_for; eauto.
    - apply case_list_nil.
    - eapply case_list_cons; eauto.
    - eapply case_placed; eauto.
    - apply case_row_nil.
    - now apply case_row_gate.
    - now apply case_row_cons.
    - now apply case_loop_stop.
    - eapply case_loop_again; eauto.
  Qed.
End Main.

Lemma instances_nodup s : Inv s -> NoDup (map fst (getInstances s)).
Proof.
  intros I. pose proof (i_nodup s I) as H. unfold getInstances. unfold frames in H. induction (ft_dict decl (s_fr s)) as [|[c f] l IH]; [constructor|]. cbn [map fst flat_map] in *. inversion H as [|? ? H1 H2]; subst. rewrite map_app.
  assert (forall x, In x (map fst (flat_map (fun p : chain * frame decl => match last (fst p) (Label "" STany None) with Label _ STmodule _ => [(fst p, fl_modulename (f_flags decl (snd p)))] | _ => [] end) l)) -> In x (map fst l)) as Hin.
  { clear. intros x Hx. apply in_map_iff in Hx as ([a b] & <- & Hx). apply in_flat_map in Hx as ([c f] & Hc & Hx). cbn [fst snd] in *. apply in_map_iff. exists (c, f). split; [|exact Hc]. destruct (last c _) as [n [] z]; cbn in Hx; try tauto. destruct Hx as [E|[]]. now injection E. }
  destruct (last c (Label "" STany None)) as [n [] z]; cbn [map app]; auto. constructor; auto.
Qed.
Theorem elaborate_sound log2i tocode k D top s l : legal D -> design_instances D top l -> elaborate log2i tocode k D top = Ok s -> Forall2 names_instance (getInstances s) l /\ NoDup (map fst (getInstances s)).
Proof.
  intros HL HD H. unfold elaborate in H. ub. destruct (modules_get _ _ _ B) as [_ HT]. inversion HD as [b r' l0 Hin HE]; subst.
  assert (getInfo r top = Ok (MDef top b, mod_info (MDef top b))) as Eg. { unfold getInfo. now rewrite (HT _ Hin : sget r top = _). }
  rewrite Eg in B1. injection B1 as <-. cbn [fst m_items] in H. destruct (legal_module D HL _ _ Hin) as (HN & Hok & E1 & E2).
  unfold stackInstanceFrame in B0. ub. rewrite Eg in B2. injection B2 as <-. cbn [snd] in B0.
  set (c1 := [Label top STmodule None]) in *. set (g := Frame decl [] [] (module_flags top) [] [] []). set (s1 := St (FTable decl [(c1, g)] c1) [] []).
  assert (no_any c1) as Hn1 by (repeat constructor; discriminate).
  assert (r1 = s1) as ->. { unfold frame_in, addFrame in B1. cbn [s_fr empty_table ft_current ft_dict chain_add_label app dmem dget bind] in B1. injection B1 as <-. reflexivity. }
  assert (forall d, no_any d -> fr s1 d = if chain_dec c1 d then Some g else None) as Hfr.
  { intros d Hd. change (fr s1 d) with (dget (dset [] c1 g) d). rewrite dget_dset; [reflexivity|constructor|exact Hn1|exact Hd]. }
  assert (fr s1 c1 = Some g) as F1. { rewrite Hfr by auto. destruct (chain_dec c1 c1); congruence. }
  assert (Inv s1) as I1.
  { constructor.
    - repeat constructor; discriminate.
    - constructor.
    - repeat constructor. intros [].
    - intros d f Hf Hd. rewrite Hfr in Hf by auto. destruct (chain_dec c1 d) as [<-|]; [|discriminate]. injection Hf as <-. split; [discriminate|]. split; [reflexivity|]. intros e x E. unfold sig, chain_add_label in E.
      change c1 with ([] ++ c1) in E. unfold c1 in E. apply app_inj_tail in E as [_ E]. discriminate.
    - intros n u Hu. discriminate. }
  pose proof (parameters_nodup _ HN) as HNp.
  assert (f_consts decl (frame_update g (mod_info (MDef top b))) = params_of b) as Econ. { unfold frame_update. cbn [f_consts]. rewrite E1. apply supdate_self. now rewrite params_keys. }
  destruct (on_here_did c1 [] s1 r0 g _ (parameters b) I1 Hn1 eq_refl F1 B0) as (D1 & Ec1 & F2); try reflexivity.
  - intros y Hy. rewrite Econ. cbn [g f_consts sget]. apply sget_none. now rewrite params_keys.
  - intros y Hy. exact (parameters_sget b _ Econ y Hy).
  - destruct (did_state _ _ _ _ _ _ D1) as (Hc2 & I2 & _).
    assert (forall y, cs r0 (sig c1 y) = None) as Hnone by (intros y; unfold cs; rewrite Ec1; reflexivity).
    destruct (elab_sound log2i tocode D r HT HL) as (_ & HP & _). destruct (HP _ _ _ _ _ _ _ HE k r0 s c1 (parameters b) H Hc2 I2) as [ds HDi].
    + constructor; [constructor|constructor].
    + apply sees_nil.
    + exists (frame_update g (mod_info (MDef top b))). split; [exact F2|]. repeat split.
    + exact Hok.
    + exact HN.
    + eapply module_ready; [exact HL|exact Hin|exact F2|exact Econ|reflexivity| | |]; try (intros y u Hu; rewrite Hnone in Hu; discriminate). intros y v Hv. discriminate.
    + intros y _. discriminate.
    + intros y Hy. apply not_parameter; auto.
    + split; [|apply instances_nodup, HDi]. destruct (d_sk _ _ _ _ _ _ HDi) as (new & Es & Hnew). rewrite getInstances_sk, Es, insts_app. change ((([PInst top], top)) :: l0) with ([([PInst top], top)] ++ l0).
      apply Forall2_app; [|exact Hnew]. destruct (d_sk _ _ _ _ _ _ D1) as (n0 & Es0 & Hn0). rewrite Es0, insts_app.
      change [([PInst top], top)] with ([([PInst top], top)] ++ []). apply Forall2_app; [|exact Hn0]. constructor; [|constructor]. split; [|reflexivity]. constructor; [constructor|constructor].
Qed.
