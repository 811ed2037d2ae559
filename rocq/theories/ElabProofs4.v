(** ElabProofs4.v - declarations, and procedural code. *)
From Verif Require Import Base ScopeModel ScopeSpec ScopeProofs DfModel BindModel BindSpec BindProofs LitModel OptModel OptProofs ReorderModel AsgModel ExprModel MkModel HierModel VisitModel VisitProofs VisitProofs2 ElabModel ElabSpec ElabProofs ElabProofs2 ElabProofs3.

Lemma no_idle s c n : ~ idle s c [] n.
Proof. intros (y & key & H & _). discriminate. Qed.
Lemma did_weaken c ds r s s' l : Did c ds [] s s' l -> Did c ds r s s' l.
Proof.
  intros [H1 H2 H3 H4 H5 H6 H7 H8]. constructor; auto.
  - intros n Hn Hu _. apply H5; auto using no_idle.
  - intros y Hy _. apply H6; auto using no_idle.
  - intros y u _. apply H7; auto using no_idle.
Qed.

Lemma on_here_did c r s s1 f g ds : Inv s -> no_any c -> current s = c -> fr s c = Some f -> on_here s g = Ok s1 ->
  f_previous decl (g f) = f_previous decl f -> f_flags decl (g f) = f_flags decl f ->
  (forall y, ~ In y ds -> sget (f_consts decl (g f)) y = sget (f_consts decl f) y) -> (forall y, In y ds -> sget (f_consts decl (g f)) y <> None) ->
  Did c ds r s s1 [] /\ s_cs s1 = s_cs s /\ fr s1 c = Some (g f).
Proof.
  intros I Hc Hcur F H Hp Hf H1 H2. unfold on_here, on_current in H. ub. injection H as <-. unfold current in Hcur. rewrite Hcur in B.
  unfold fr, frames in F. rewrite F in B. injection B as <-.
  assert (forall d, no_any d -> fr (with_fr s (FTable decl (dset (ft_dict decl (s_fr s)) c (g f)) c)) d = if chain_dec c d then Some (g f) else fr s d) as Hfr.
  { intros d Hd. unfold fr at 1, frames. cbn [with_fr s_fr ft_dict]. apply dget_dset; auto. apply I. }
  assert (fr (with_fr s (FTable decl (dset (ft_dict decl (s_fr s)) c (g f)) c)) c = Some (g f)) as Hg. { rewrite Hfr by auto. destruct (chain_dec c c); congruence. }
  split; [|split; [reflexivity|exact Hg]]. constructor.
  - reflexivity.
  - constructor.
    + unfold frames. cbn [with_fr s_fr ft_dict]. apply dset_plain; auto. apply I.
    + exact (i_cplain s I).
    + unfold frames. cbn [with_fr s_fr ft_dict]. apply dset_nodup; auto; apply I.
    + intros d g' Hg' Hd. rewrite Hfr in Hg' by auto. destruct (chain_dec c d) as [<-|]; [|exact (i_prev s I _ _ Hg' Hd)]. injection Hg' as <-. rewrite Hp. exact (i_prev s I _ _ F Hd).
    + intros n u Hu Hn. destruct (i_keys s I n u Hu Hn) as (d & x & -> & Hd). exists d, x. split; auto. rewrite Hfr by (eapply no_any_init; exact Hn). destruct (chain_dec c d); [discriminate|auto].
  - intros d Hd Hu. rewrite Hfr by auto. destruct (chain_dec c d) as [<-|]; auto. destruct Hu. apply under_refl.
  - exists f, (g f). split; [exact F|]. split; [exact Hg|]. split; [exact Hf|]. split; [exact H1|]. split; [exact H2|].
    intros y Hy. destruct (in_dec string_dec y ds) as [Hi|Hi]; [auto|now rewrite H1].
  - reflexivity.
  - reflexivity.
  - auto.
  - exists []. split; [|constructor]. rewrite app_nil_r. unfold sk, frames. cbn [with_fr s_fr ft_dict]. apply (dset_flags _ _ f); auto.
Qed.

(** A new value. *)
Lemma cs_set s k v n : Inv s -> no_any k -> no_any n -> cs (setConstant s k v) n = if chain_dec k n then Some v else cs s n.
Proof. intros I Hk Hn. unfold cs, setConstant. cbn [s_cs]. apply dget_dset; auto. apply I. Qed.
Lemma set_inv s d x v : Inv s -> no_any d -> fr s d <> None -> Inv (setConstant s (sig d x) v).
Proof.
  intros I Hd F. constructor.
  - exact (i_plain s I).
  - cbn [setConstant s_cs]. apply dset_plain; [apply I|now apply sig_any].
  - exact (i_nodup s I).
  - exact (i_prev s I).
  - intros n u Hu Hn. rewrite cs_set in Hu; auto using sig_any. destruct (chain_dec (sig d x) n) as [<-|]; [exists d, x; auto|exact (i_keys s I _ _ Hu Hn)].
Qed.
Lemma set_did c r s n v f : Inv s -> no_any c -> current s = c -> fr s c = Some f -> sget (f_consts decl f) n <> None -> cs s (sig c n) = None ->
  Did c [n] r s (setConstant s (sig c n) v) [].
Proof.
  intros I Hc Hcur F Hn Hnone. pose proof (fun m => cs_set s (sig c n) v m I (sig_any _ _ Hc)) as HS. constructor.
  - exact Hcur.
  - apply set_inv; auto. congruence.
  - reflexivity.
  - exists f, f. split; [exact F|]. split; [exact F|]. split; [reflexivity|]. split; [reflexivity|]. split; [intros y [<-|[]]; auto|auto].
  - intros m Hm Hu _. rewrite HS by auto. destruct (chain_dec (sig c n) m) as [<-|]; auto. destruct Hu. apply under_snoc.
  - intros y Hy _. rewrite HS by auto using sig_any. destruct (chain_dec (sig c n) (sig c y)) as [E|]; auto. apply sig_inj in E as [_ ->]. destruct Hy. now left.
  - intros y u _ Hu. rewrite HS by auto using sig_any. destruct (chain_dec (sig c n) (sig c y)) as [E|]; auto. congruence.
  - exists []. split; [now rewrite app_nil_r|constructor].
Qed.
Lemma set_idle c r s key x v f : Inv s -> no_any c -> current s = c -> fr s c = Some f -> lookup r x = Some None -> finds s c x key ->
  Did c [] r s (setConstant s (sig key x) v) [].
Proof.
  intros I Hc Hcur F Hl HF. destruct (finds_where _ _ _ _ I Hc HF) as (Hu & fk & dk & Fk & _). assert (no_any key) as Hk by (eapply no_any_prefix; eauto).
  pose proof (fun m => cs_set s (sig key x) v m I (sig_any _ _ Hk)) as HS.
  assert (forall m, no_any m -> ~ idle s c r m -> cs (setConstant s (sig key x) v) m = cs s m) as HI.
  { intros m Hm Hi. rewrite HS by auto. destruct (chain_dec (sig key x) m) as [<-|]; auto. destruct Hi. exists x, key. auto. }
  constructor.
  - exact Hcur.
  - apply set_inv; auto. congruence.
  - reflexivity.
  - exists f, f. split; [exact F|]. split; [exact F|]. split; [reflexivity|]. split; [reflexivity|]. split; [intros y []|auto].
  - auto.
  - intros y _ Hi. apply HI; auto using sig_any.
  - intros y u Hi E. rewrite HI; auto using sig_any.
  - exists []. split; [now rewrite app_nil_r|constructor].
Qed.

(** ** Values *)
Lemma search_const_finds s c y key n : finds s c y key -> search_const s c y = Ok n -> n = sig key y.
Proof. intros [ds H] E. unfold search_const in E. rewrite H in E. cbn [bind] in E. congruence. Qed.
Lemma value_sees s c r y v d : sees s c r -> lookup r y = Some (Some v) -> value_of s c y = Ok d -> isval d v.
Proof.
  intros HS L H. destruct (HS _ _ L) as (key & HF & HV). unfold value_of in H. ub. apply (search_const_finds _ _ _ _ _ HF) in B. subst.
  destruct (HV v eq_refl) as (u & Hu & Hi). unfold getConstant in H. unfold cs in Hu. rewrite Hu in H. congruence.
Qed.
Lemma eval_val log2i tocode k s c r e v u : sees s c r -> const r e v -> eval log2i tocode k s c e = Ok u -> isval u v.
Proof.
  intros HS HC H. unfold eval in H. ub. eapply opt_means; [|exact H]. eapply tree_means; [exact HC| |exact B]. intros. eapply value_sees; eauto.
Qed.
Lemma positive_val u v z : isval u v -> positive u = Ok z -> z = (0 <? v)%Z.
Proof. intros [w ->] H. cbn in H. congruence. Qed.

(** ** New scopes *)
Definition at_ (s : st) (c : chain) (g a : bool) : Prop := exists f, fr s c = Some f /\ fl_generate (f_flags decl f) = g /\ fl_always (f_flags decl f) = a /\
  fl_initial (f_flags decl f) = false /\ fl_functioncall (f_flags decl f) = false /\ fl_taskcall (f_flags decl f) = false.
Lemma finds_opened c l fl s s1 g y key : Inv s -> no_any c -> stype l <> STany -> Opened c l fl s s1 -> fr s1 (c ++ [l]) = Some g -> f_consts decl g = [] -> fl_module fl = false ->
  finds s c y key -> finds s1 (c ++ [l]) y key.
Proof.
  intros I Hc Hl O G Eg Em HF. assert (finds s1 c y key) as [ds H].
  { eapply finds_same; [exact I|exact (o_inv _ _ _ _ _ O)|exact Hc| |exact HF]. intros d Hd. destruct (chain_dec d c) as [->|N].
    - destruct (o_parent _ _ _ _ _ O) as (f & f' & -> & -> & E1 & E2). cbn. now rewrite E1, E2.
    - rewrite (o_out _ _ _ _ _ O); [apply like_refl|eapply no_any_prefix; eauto| |auto]. intros Hu. apply (not_under_snoc c l). eapply under_trans; eauto. }
  exists ds. unfold searchConstantDefinition in *. rewrite app_length, Nat.add_comm. cbn [length plus]. cbn [search].
  destruct (i_prev s1 (o_inv _ _ _ _ _ O) _ _ G) as (_ & Ep & _); [now apply no_any_snoc|].
  destruct (o_here _ _ _ _ _ O) as (g' & G' & Ef). assert (g' = g) as -> by congruence. unfold fr, frames in G. rewrite G, Eg. cbn [sget]. rewrite Ef, Em, Ep, removelast_last. exact H.
Qed.
Lemma sees_opened c l fl s s1 g r : Inv s -> no_any c -> ordinary l -> Opened c l fl s s1 -> fr s1 (c ++ [l]) = Some g -> f_consts decl g = [] -> fl_module fl = false ->
  sees s c r -> sees s1 (c ++ [l]) r.
Proof.
  intros I Hc [Hl Hl'] O G Eg Em HS y o L. destruct (HS _ _ L) as (key & HF & HV). exists key. split; [eapply finds_opened; eauto|].
  intros v E. destruct (HV v E) as (u & Hu & Hi). exists u. split; auto. destruct (finds_where _ _ _ _ I Hc HF) as [Huk _].
  rewrite (o_cs _ _ _ _ _ O); auto; [apply sig_any; eapply no_any_prefix; eauto|].
  intros H. apply under_sig in H as [H|H].
  - apply (not_under_snoc c l). eapply under_trans; eauto.
  - unfold sig, chain_add_label in H. apply app_inj_tail in H as [_ ->]. now apply Hl.
Qed.
Lemma idle_opened c l fl s s1 g r r1 n : Inv s -> no_any c -> ordinary l -> Opened c l fl s s1 -> fr s1 (c ++ [l]) = Some g -> f_consts decl g = [] -> fl_module fl = false ->
  sees s c r -> (forall y, lookup r1 y = Some None -> lookup r y = Some None) -> idle s1 (c ++ [l]) r1 n -> idle s c r n.
Proof.
  intros I Hc [Hl Hl'] O G Eg Em HS Hr (y & key & L & HF & ->). apply Hr in L. destruct (HS _ _ L) as (key' & HF' & _).
  assert (key = key') as -> by (eapply finds_det; [exact HF|eapply finds_opened; eauto]). exists y, key'. auto.
Qed.

(** A statement in a new scope. *)
Lemma inside c l fl s s' b r f : Inv s -> no_any c -> current s = c -> fr s c = Some f -> ordinary l -> stype l <> STmodule -> fl_module fl = false -> inside_of s l fl b = Ok s' ->
  exists s1 g s2, Opened c l fl s s1 /\ fr s1 (c ++ [l]) = Some g /\ f_consts decl g = [] /\ f_flags decl g = fl /\ s_cs s1 = s_cs s /\ (forall y, cs s1 (sig (c ++ [l]) y) = None) /\ b s1 = Ok s2 /\
    (forall ds r1 l1, sees s c r -> (forall y, lookup r1 y = Some None -> lookup r y = Some None) -> Did (c ++ [l]) ds r1 s1 s2 l1 -> Did c [] r s s' l1).
Proof.
  intros I Hc Hcur F Hl Hm Hfm H. unfold inside_of in H. ub. injection H as <-. rewrite Hcur in *.
  destruct (frame_in_opened c l fl s r0 f I Hc Hcur F Hl B) as (O & (g & G & Eg) & Ec & Hn). destruct (o_here _ _ _ _ _ O) as (g' & G' & Ef). assert (g' = g) as -> by congruence.
  exists r0, g, r1. repeat (split; [assumption|]). intros ds r2 l1 HS Hr HD. change l1 with ([] ++ l1). eapply close; try eassumption.
  - intros n Hi. right. eapply idle_opened; eauto.
  - unfold insts. cbn [flat_map app fst snd]. rewrite last_last. destruct l as [ln [] ll]; cbn in Hm; try constructor. congruence.
Qed.
Lemma same_flags_at s c g a fl : current s = c -> at_ s c g a -> same_flags s = Ok fl -> fl = plain_flags g a false.
Proof.
  intros Hc (f & F & E1 & E2 & E3 & E4 & E5) H. unfold same_flags, here in H. unfold fr, frames in F. rewrite Hc, F in H. cbn [bind] in H. injection H as <-. unfold plain_flags. congruence.
Qed.
Lemma at_labels s s0 c g a : s_fr s0 = s_fr s -> at_ s c g a -> at_ s0 c g a.
Proof. intros E (f & H). exists f. unfold fr, frames in *. now rewrite E. Qed.
Lemma at_did c ds r s s' l g a : Did c ds r s s' l -> at_ s c g a -> at_ s' c g a.
Proof. intros D (f & F & H). destruct (d_here _ _ _ _ _ _ D) as (f0 & f' & F0 & F' & E & _). assert (f0 = f) as -> by congruence. exists f'. rewrite E. auto. Qed.
