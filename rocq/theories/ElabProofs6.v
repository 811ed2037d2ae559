(** ElabProofs6.v - the parameters of an instance get their values. *)
From Verif Require Import Base ScopeModel ScopeSpec ScopeProofs DfModel BindModel BindSpec BindProofs LitModel OptModel OptProofs ReorderModel AsgModel ExprModel MkModel HierModel VisitModel VisitProofs ElabModel ElabSpec ElabProofs ElabProofs2 ElabProofs3 ElabProofs4 ElabProofs5.

Lemma value_module s c f y d : fr s c = Some f -> fl_module (f_flags decl f) = true -> value_of s c y = Ok d -> cs s (sig c y) = Some d.
Proof.
  intros F M H. unfold value_of in H. ub. assert (r = sig c y) as ->.
  { unfold search_const, searchConstantDefinition, searchSignalDefinition in B. cbn [search] in B. unfold fr, frames in F. rewrite F in B. destruct (sget (f_consts decl f) y) as [x|]; cbn [bind] in B; [congruence|].
    rewrite M in B. cbn [bind] in B. destruct (sget (f_signals decl f) y) as [x|]; cbn [bind] in B; congruence. }
  unfold getConstant in H. unfold cs. destruct (dget (s_cs s) (sig c y)); congruence.
Qed.
Lemma override_app o o' n : override (o ++ o') n = match override o n with Some v => Some v | None => override o' n end.
Proof. induction o as [|[m v] o IH]; [reflexivity|]. cbn. destruct (String.eqb m n); auto. Qed.
Lemma override_none o n : ~ In n (map fst o) -> override o n = None.
Proof. induction o as [|[m v] o IH]; intros H; [reflexivity|]. cbn in *. destruct (String.eqb m n) eqn:E; [apply String.eqb_eq in E; tauto|apply IH; tauto]. Qed.

Section Prepass.
  Variable log2i : Z -> option Z.
  Variable tocode : df -> res string.
  Variable b : list item.
  Variable c1 : chain.
  Variable f1 : frame decl.
  Variable s1 : st.
  Hypotheses (Hn1 : no_any c1) (F1 : fr s1 c1 = Some f1) (E1 : f_consts decl f1 = params_of b) (M1 : fl_module (f_flags decl f1) = true).

  Definition default (s : st) (y : string) (u : df) : Prop :=
    exists w e find0 k0, In (IParam y w e) b /\ (forall z d, find0 z = Ok d -> In z (parameters b) /\ cs s (sig c1 z) = Some d) /\
      (do t <- tree log2i tocode find0 k0 e; opt log2i tocode k0 t) = Ok u.
  Record Pre (o : list (string * Z)) (s : st) : Prop := {
    p_fr : s_fr s = s_fr s1;
    p_inv : Inv s;
    p_far : forall n, no_any n -> ~ under c1 n -> cs s n = cs s1 n;
    p_in : forall y u, cs s (sig c1 y) = Some u -> In y (parameters b);
    p_given : forall y v, override o y = Some v -> exists u, cs s (sig c1 y) = Some u /\ isval u v;
    p_val : forall y u, cs s (sig c1 y) = Some u -> override o y = None -> default s y u }.

  Lemma pre_frame o s : Pre o s -> fr s c1 = Some f1.
  Proof. intros P. unfold fr, frames. now rewrite (p_fr _ _ P). Qed.
  Lemma in_parameters y w e : In (IParam y w e) b -> In y (parameters b).
  Proof. intros H. unfold parameters. apply in_flat_map. exists (IParam y w e). split; [exact H|now left]. Qed.
  Lemma parameters_sget y : In y (parameters b) -> sget (f_consts decl f1) y <> None.
  Proof.
    rewrite E1. intros H. rewrite <- params_keys in H. clear -H. induction (params_of b) as [|[n v] l IH]; [destruct H|]. cbn [sget]. destruct (String.eqb n y) eqn:E; [discriminate|]. destruct H as [H|H]; [|auto]. cbn in H. subst. now rewrite String.eqb_refl in E.
  Qed.

  (** What is given. *)
  Definition Only (o : list (string * Z)) (s : st) : Prop := forall y, cs s (sig c1 y) <> None -> override o y <> None.
  Lemma set_pre o s n v z : Pre o s -> Only o s -> ~ In n (map fst o) -> In n (parameters b) -> isval v z -> Pre (o ++ [(n, z)]) (setConstant s (sig c1 n) v) /\ Only (o ++ [(n, z)]) (setConstant s (sig c1 n) v).
  Proof.
    intros P HO Hno Hin Hv. pose proof (fun m => cs_set s (sig c1 n) v m (p_inv _ _ P) (sig_any _ _ Hn1)) as HS.
    assert (forall y, cs (setConstant s (sig c1 n) v) (sig c1 y) = if string_dec n y then Some v else cs s (sig c1 y)) as HS1.
    { intros y. rewrite HS by now apply sig_any. destruct (chain_dec (sig c1 n) (sig c1 y)) as [E|N]; destruct (string_dec n y) as [E'|N']; auto; [apply sig_inj in E; tauto|subst; congruence]. }
    assert (forall y, override (o ++ [(n, z)]) y = if string_dec n y then Some z else override o y) as HOv.
    { intros y. rewrite override_app. cbn [override]. destruct (string_dec n y) as [<-|N]; [rewrite (override_none _ _ Hno), String.eqb_refl; reflexivity|].
      apply String.eqb_neq in N. rewrite N. destruct (override o y); reflexivity. }
    split.
    - constructor.
      + exact (p_fr _ _ P).
      + apply set_inv; [apply P|exact Hn1|]. rewrite (pre_frame _ _ P). discriminate.
      + intros m Hm Hu. rewrite HS by auto. destruct (chain_dec (sig c1 n) m) as [<-|]; [destruct Hu; apply under_snoc|now apply (p_far _ _ P)].
      + intros y u. rewrite HS1. destruct (string_dec n y) as [<-|]; [auto|apply (p_in _ _ P)].
      + intros y v0. rewrite HOv, HS1. destruct (string_dec n y) as [<-|]; [intros E; injection E as <-; eauto|apply (p_given _ _ P)].
      + intros y u. rewrite HOv, HS1. destruct (string_dec n y) as [<-|]; [discriminate|]. intros Hy Ho. destruct (HO y); congruence.
    - intros y. rewrite HOv, HS1. destruct (string_dec n y); [discriminate|apply HO].
  Qed.
  Lemma sees_pre s r c o : Inv s1 -> Pre o s -> no_any c -> ~ under c1 c -> sees s1 c r -> sees s c r.
  Proof.
    intros I1 P Hc Hu HS y o0 L. destruct (HS _ _ L) as (key & HF & HV). exists key. split; [unfold finds in *; now rewrite (p_fr _ _ P)|].
    intros v E. destruct (HV v E) as (u & Eu & Hi). exists u. split; auto. destruct (finds_where _ _ _ _ I1 Hc HF) as [Huk (fk & dk & Fk & _)].
    assert (no_any key) as Hk by (eapply no_any_prefix; eauto).
    rewrite (p_far _ _ P); auto using sig_any. intros H. apply under_sig in H as [H|H]; [apply Hu; eapply under_trans; eauto|].
    subst. destruct (i_prev s1 I1 _ _ F1 Hn1) as (_ & _ & Ns). now apply (Ns key y).
  Qed.
  Lemma overrides_pre r k outer : Inv s1 -> no_any outer -> ~ under c1 outer -> sees s1 outer r ->
    forall i args o, given r (parameters b) i args o -> forall done s s', Pre done s -> Only done s -> NoDup (map fst (done ++ o)) ->
    overrides log2i tocode k s outer c1 (parameters b) i args = Ok s' -> Pre (done ++ o) s' /\ Only (done ++ o) s'.
  Proof.
    intros I1 Ho Hu HS i args o G. induction G as [i|i n e v l o Hin HC G IH|i n e v l o Hnth HC G IH]; intros done s s' P HO HN H; cbn [overrides] in H.
    - injection H as <-. rewrite app_nil_r. auto.
    - cbn [bind] in H. destruct (existsb (String.eqb n) (parameters b)) eqn:X; cbn [negb] in H; [|discriminate]. ub.
      pose proof (eval_val _ _ _ _ _ _ _ _ _ (sees_pre _ _ _ _ I1 P Ho Hu HS) HC B) as Hv.
      assert (r1 = sig c1 n) as ->.
      { apply parameters_sget in Hin. destruct (sget (f_consts decl f1) n) as [ds|] eqn:S; [|congruence]. eapply search_const_finds; [eapply finds_here; [exact (pre_frame _ _ P)|exact S]|exact B0]. }
      rewrite map_app in HN. cbn [map fst] in HN. assert (~ In n (map fst done)) as Hno. { intros Hi. apply NoDup_remove_2 in HN. apply HN, in_or_app. auto. }
      destruct (set_pre _ _ _ _ _ P HO Hno Hin Hv) as [P1 O1]. apply (IH _ _ _ P1 O1) in H as [P2 O2]; [|rewrite <- app_assoc, map_app; exact HN].
      rewrite <- app_assoc in P2, O2. auto.
    - rewrite Hnth in H. cbn [bind] in H. destruct (existsb (String.eqb n) (parameters b)) eqn:X; cbn [negb] in H; [|discriminate]. ub. assert (In n (parameters b)) as Hin by (eapply nth_error_In; eauto).
      pose proof (eval_val _ _ _ _ _ _ _ _ _ (sees_pre _ _ _ _ I1 P Ho Hu HS) HC B) as Hv.
      assert (r1 = sig c1 n) as ->.
      { apply parameters_sget in Hin. destruct (sget (f_consts decl f1) n) as [ds|] eqn:S; [|congruence]. eapply search_const_finds; [eapply finds_here; [exact (pre_frame _ _ P)|exact S]|exact B0]. }
      rewrite map_app in HN. cbn [map fst] in HN. assert (~ In n (map fst done)) as Hno. { intros Hi. apply NoDup_remove_2 in HN. apply HN, in_or_app. auto. }
      destruct (set_pre _ _ _ _ _ P HO Hno Hin Hv) as [P1 O1]. apply (IH _ _ _ P1 O1) in H as [P2 O2]; [|rewrite <- app_assoc, map_app; exact HN].
      rewrite <- app_assoc in P2, O2. auto.
  Qed.

  (** Defaults. *)
  Lemma set_default o s n v w e k : Pre o s -> cs s (sig c1 n) = None -> In (IParam n w e) b -> eval log2i tocode k s c1 e = Ok v -> Pre o (setConstant s (sig c1 n) v).
  Proof.
    intros P Hnone Hin Hv. pose proof (fun m => cs_set s (sig c1 n) v m (p_inv _ _ P) (sig_any _ _ Hn1)) as HS.
    assert (forall y, cs (setConstant s (sig c1 n) v) (sig c1 y) = if string_dec n y then Some v else cs s (sig c1 y)) as HS1.
    { intros y. rewrite HS by now apply sig_any. destruct (chain_dec (sig c1 n) (sig c1 y)) as [E|N]; destruct (string_dec n y) as [E'|N']; auto; [apply sig_inj in E; tauto|subst; congruence]. }
    assert (forall z d, cs s (sig c1 z) = Some d -> cs (setConstant s (sig c1 n) v) (sig c1 z) = Some d) as HM. { intros z d Hz. rewrite HS1. destruct (string_dec n z) as [<-|]; congruence. }
    constructor.
    - exact (p_fr _ _ P).
    - apply set_inv; [apply P|exact Hn1|]. rewrite (pre_frame _ _ P). discriminate.
    - intros m Hm Hu. rewrite HS by auto. destruct (chain_dec (sig c1 n) m) as [<-|]; [destruct Hu; apply under_snoc|now apply (p_far _ _ P)].
    - intros y u. rewrite HS1. destruct (string_dec n y) as [<-|]; [intros _; eapply in_parameters; eauto|apply (p_in _ _ P)].
    - intros y v0 Hy. destruct (p_given _ _ P _ _ Hy) as (u & Hu & Hi). exists u. auto.
    - intros y u. rewrite HS1. destruct (string_dec n y) as [<-|].
      + intros E _. injection E as <-. exists w, e, (value_of s c1), k. split; [exact Hin|]. split; [|exact Hv]. intros z d Hz. apply (value_module _ _ _ _ _ (pre_frame _ _ P) M1) in Hz. split; [eapply (p_in _ _ P); eauto|now apply HM].
      + intros Hy Ho. destruct (p_val _ _ P _ _ Hy Ho) as (w' & e' & find0 & k0 & Hin' & Hf & He). exists w', e', find0, k0. split; [exact Hin'|]. split; [|exact He]. intros z d Hz. destruct (Hf _ _ Hz). auto.
  Qed.
  Lemma pass_pre o k l : (forall p, In p l -> In p (params_of b)) -> forall s passed p, Pre o s -> const_pass log2i tocode k s c1 l passed = Ok p -> Pre o (snd p).
  Proof.
    induction l as [|[n ds] l IH]; intros Hl s passed p P H; cbn [const_pass] in H; [injection H as <-; exact P|].
    assert (In (n, ds) (params_of b)) as Hin by (apply Hl; now left). unfold params_of in Hin. apply in_flat_map in Hin as (x & Hx & Hp). destruct x; cbn in Hp; try tauto. destruct Hp as [E|[]]. injection E as -> <-.
    assert (forall p, In p l -> In p (params_of b)) as Hl' by (intros q Hq; apply Hl; now right).
    destruct (dmem (s_cs s) (sig c1 n)) eqn:M; [eapply IH; eauto|]. ub. destruct (isEval _); [|eapply IH; eauto]. eapply IH; [exact Hl'| |exact H]. eapply set_default; eauto.
    unfold dmem in M. unfold cs. destruct (dget _ _); [discriminate|reflexivity].
  Qed.
  Lemma passes_pre o j k : forall s s', Pre o s -> const_passes log2i tocode j k s c1 = Ok s' -> Pre o s'.
  Proof.
    induction j as [|j IH]; intros s s' P H; [discriminate|]. cbn [const_passes] in H. ub. unfold consts_at in B. pose proof (pre_frame _ _ P) as F. unfold fr, frames in F. rewrite F in B. injection B as <-.
    apply (pass_pre o k) with (3 := B0) in P; [|intros p; now rewrite E1]. destruct (fst r0); [congruence|eauto].
  Qed.
End Prepass.
