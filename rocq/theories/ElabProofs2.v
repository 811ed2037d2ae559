(** ElabProofs2.v - scopes are opened and closed: what changes and what does not. *)
From Verif Require Import Base ScopeModel ScopeSpec ScopeProofs DfModel BindModel BindSpec BindProofs LitModel OptModel OptProofs ReorderModel AsgModel ExprModel MkModel HierModel VisitModel VisitProofs ElabModel ElabSpec ElabProofs.

Definition frames (s : st) : ndict (frame decl) := ft_dict decl (s_fr s).
Definition fr (s : st) (c : chain) : option (frame decl) := dget (frames s) c.
Definition cs (s : st) (n : chain) : option df := dget (s_cs s) n.
Definition sk (s : st) : list (chain * flags) := map (fun p => (fst p, f_flags decl (snd p))) (frames s).
Definition insts (l : list (chain * flags)) : list (chain * option string) :=
  flat_map (fun p => match last (fst p) (Label "" STany None) with Label _ STmodule _ => [(fst p, fl_modulename (snd p))] | _ => [] end) l.
Lemma getInstances_sk s : getInstances s = insts (sk s).
Proof. unfold getInstances, insts, sk, frames. induction (ft_dict decl (s_fr s)) as [|p l IH]; [reflexivity|]. cbn [map flat_map fst snd]. now rewrite IH. Qed.
Lemma insts_app a b : insts (a ++ b) = insts a ++ insts b.
Proof. unfold insts. now rewrite flat_map_app. Qed.

Definition under (c d : chain) : Prop := exists r, d = c ++ r.
Lemma under_refl c : under c c. Proof. exists []. now rewrite app_nil_r. Qed.
Lemma under_snoc c l : under c (c ++ [l]). Proof. now exists [l]. Qed.
Lemma under_trans a b c : under a b -> under b c -> under a c.
Proof. intros [x ->] [y ->]. exists (x ++ y). now rewrite app_assoc. Qed.
Lemma not_under_snoc c l : ~ under (c ++ [l]) c.
Proof. intros [x H]. assert (length c = length ((c ++ [l]) ++ x)) as E by now rewrite <- H. rewrite !app_length in E. cbn in E. lia. Qed.
Lemma under_antisym c d : under c d -> under d c -> c = d.
Proof.
  intros [a E] [b E']. subst d. rewrite <- app_assoc in E'. rewrite <- (app_nil_r c) in E' at 1. apply app_inv_head in E'. symmetry in E'. apply app_eq_nil in E' as [-> _]. now rewrite app_nil_r.
Qed.
Lemma sig_inj c x d y : sig c x = sig d y -> c = d /\ x = y.
Proof. unfold sig, chain_add_label. intros H. apply app_inj_tail in H as [-> E]. injection E as ->. auto. Qed.
Lemma sig_not_under c l x : stype l <> STsignal -> ~ under (c ++ [l]) (sig c x).
Proof. intros Hl [r H]. unfold sig, chain_add_label in H. rewrite <- app_assoc in H. apply app_inv_head in H. cbn in H. injection H as <- _. now apply Hl. Qed.
Lemma sig_any c x : no_any c -> no_any (sig c x).
Proof. intros H. apply no_any_snoc; [exact H|discriminate]. Qed.
Lemma under_sig d c x : under c (sig d x) -> under c d \/ c = sig d x.
Proof.
  intros [r H]. destruct r as [|l r] using rev_ind; [right; now rewrite app_nil_r in H|]. left. unfold sig, chain_add_label in H. rewrite app_assoc in H. apply app_inj_tail in H as [-> _]. now exists r.
Qed.

Record Inv (s : st) : Prop := {
  i_plain : keys_plain (frames s);
  i_cplain : keys_plain (s_cs s);
  i_nodup : NoDup (map fst (frames s));
  i_prev : forall d f, fr s d = Some f -> no_any d -> d <> [] /\ f_previous decl f = removelast d /\ (forall e x, d <> sig e x);
  i_keys : forall n u, cs s n = Some u -> no_any n -> exists d x, n = sig d x /\ fr s d <> None }.

(** ** Searching *)
Definition like (y : string) (a b : option (frame decl)) : Prop :=
  match a, b with
  | Some f, Some f' => f_flags decl f = f_flags decl f' /\ sget (f_consts decl f) y = sget (f_consts decl f') y
  | None, None => True
  | _, _ => False
  end.
Lemma like_refl y a : like y a a. Proof. destruct a; cbn; auto. Qed.
Lemma no_any_prefix d c : under d c -> no_any c -> no_any d.
Proof. intros [r ->] H. unfold no_any in *. now apply Forall_app in H. Qed.
Lemma removelast_under (c : chain) : under (removelast c) c.
Proof. destruct c as [|l c] using rev_ind; [exists []; reflexivity|]. rewrite removelast_last. apply under_snoc. Qed.
Lemma search_same s s' y : Inv s -> Inv s' -> forall j c, no_any c -> (forall d, under d c -> like y (fr s d) (fr s' d)) ->
  search decl (f_consts decl) j (s_fr s) c y = search decl (f_consts decl) j (s_fr s') c y.
Proof.
  intros I I'. induction j as [|j IH]; intros c Hc HL; [reflexivity|]. cbn [search]. pose proof (HL c (under_refl c)) as H. unfold fr, frames in H.
  destruct (dget (ft_dict decl (s_fr s)) c) as [f|] eqn:F; destruct (dget (ft_dict decl (s_fr s')) c) as [f'|] eqn:F'; cbn [like] in H; try tauto.
  destruct H as [H1 H2]. rewrite H2. destruct (sget (f_consts decl f') y); [reflexivity|]. rewrite H1. destruct (fl_module _); [reflexivity|].
  destruct (i_prev s I _ _ F Hc) as (_ & -> & _). destruct (i_prev s' I' _ _ F' Hc) as (_ & -> & _).
  apply IH; [apply (no_any_prefix _ c); auto using removelast_under|]. intros d Hd. apply HL. eapply under_trans; eauto using removelast_under.
Qed.
Lemma search_where s y : Inv s -> forall j c key ds, no_any c -> search decl (f_consts decl) j (s_fr s) c y = Ok (Some (key, ds)) ->
  under key c /\ exists f, fr s key = Some f /\ sget (f_consts decl f) y = Some ds.
Proof.
  intros I. induction j as [|j IH]; intros c key ds Hc H; [discriminate|]. cbn [search] in H.
  destruct (dget (ft_dict decl (s_fr s)) c) as [f|] eqn:F; [|discriminate]. destruct (sget (f_consts decl f) y) as [v|] eqn:S.
  - injection H as <- <-. split; [apply under_refl|]. exists f. auto.
  - destruct (fl_module _); [discriminate|]. destruct (i_prev s I _ _ F Hc) as (_ & Ep & _). rewrite Ep in H.
    apply IH in H as [Hu Hf]; [|apply (no_any_prefix _ c); auto using removelast_under]. split; [eapply under_trans; eauto using removelast_under|exact Hf].
Qed.
Definition finds (s : st) (c : chain) (y : string) (key : chain) : Prop :=
  exists ds, searchConstantDefinition decl (s_fr s) c y = Ok (Some (key, ds)).
Lemma finds_same s s' y c key : Inv s -> Inv s' -> no_any c -> (forall d, under d c -> like y (fr s d) (fr s' d)) -> finds s c y key -> finds s' c y key.
Proof. intros I I' Hc HL [ds H]. exists ds. unfold searchConstantDefinition in *. now rewrite <- (search_same s s' y I I'). Qed.
Lemma finds_where s c y key : Inv s -> no_any c -> finds s c y key -> under key c /\ exists f ds, fr s key = Some f /\ sget (f_consts decl f) y = Some ds.
Proof. intros I Hc [ds H]. unfold searchConstantDefinition in H. apply search_where in H as (Hu & f & Hf & E); auto. split; eauto. Qed.
Lemma finds_here s c y f ds : fr s c = Some f -> sget (f_consts decl f) y = Some ds -> finds s c y c.
Proof. intros F S. exists ds. unfold searchConstantDefinition. cbn [search]. unfold fr, frames in F. now rewrite F, S. Qed.
Lemma finds_det s c y k1 k2 : finds s c y k1 -> finds s c y k2 -> k1 = k2.
Proof. intros [d H] [d' H']. congruence. Qed.
Lemma finds_module s c y key f : Inv s -> fr s c = Some f -> fl_module (f_flags decl f) = true -> finds s c y key -> key = c.
Proof.
  intros I F M [ds H]. unfold searchConstantDefinition in H. cbn [search] in H. unfold fr, frames in F. rewrite F in H. destruct (sget _ y); [congruence|]. rewrite M in H. discriminate.
Qed.

(** What is seen from a scope. *)
Definition sees (s : st) (c : chain) (r : names) : Prop :=
  forall y o, lookup r y = Some o -> exists key, finds s c y key /\ (forall v, o = Some v -> exists u, cs s (sig key y) = Some u /\ isval u v).
(** Constants of genvars outside their loops. *)
Definition idle (s : st) (c : chain) (r : names) (n : chain) : Prop :=
  exists y key, lookup r y = Some None /\ finds s c y key /\ n = sig key y.

Record Did (c : chain) (ds : list string) (r : names) (s s' : st) (l : list instance_at) : Prop := {
  d_cur : current s' = c;
  d_inv : Inv s';
  d_out : forall d, no_any d -> ~ under c d -> fr s' d = fr s d;
  d_here : exists f f', fr s c = Some f /\ fr s' c = Some f' /\ f_flags decl f' = f_flags decl f /\
           (forall y, ~ In y ds -> sget (f_consts decl f') y = sget (f_consts decl f) y) /\ (forall y, In y ds -> sget (f_consts decl f') y <> None) /\
           (forall y, sget (f_consts decl f) y <> None -> sget (f_consts decl f') y <> None);
  d_far : forall n, no_any n -> ~ under c n -> ~ idle s c r n -> cs s' n = cs s n;
  d_new : forall y, ~ In y ds -> ~ idle s c r (sig c y) -> cs s' (sig c y) = cs s (sig c y);
  d_old : forall y u, ~ idle s c r (sig c y) -> cs s (sig c y) = Some u -> cs s' (sig c y) = Some u;
  d_sk : exists new, sk s' = sk s ++ new /\ Forall2 names_instance (insts new) l }.

Lemma did_like c ds r s s' l y : Did c ds r s s' l -> no_any c -> ~ In y ds -> forall d, under d c -> like y (fr s d) (fr s' d).
Proof.
  intros D Hc Hy d Hd. destruct (chain_dec d c) as [->|N].
  - destruct (d_here _ _ _ _ _ _ D) as (f & f' & -> & -> & E & H & _). cbn. rewrite E, H; auto.
  - rewrite (d_out _ _ _ _ _ _ D); [apply like_refl|eapply no_any_prefix; eauto|].
    intros Hu. apply N. now apply under_antisym.
Qed.
Lemma did_key c ds r s s' l key y : Did c ds r s s' l -> no_any c -> under key c -> ~ idle s c r (sig key y) -> (key = c -> ~ In y ds) -> cs s' (sig key y) = cs s (sig key y).
Proof.
  intros D Hc Hu Hi Hy. destruct (chain_dec key c) as [->|N]; [apply (d_new _ _ _ _ _ _ D); auto|].
  apply (d_far _ _ _ _ _ _ D); auto; [apply sig_any; eapply no_any_prefix; eauto|].
  intros H. apply under_sig in H as [H|H].
  - apply N. now apply under_antisym.
  - destruct (d_here _ _ _ _ _ _ D) as (f & f' & _ & F' & _). destruct (i_prev s' (d_inv _ _ _ _ _ _ D) _ _ F' Hc) as (_ & _ & Ns). now apply (Ns key y).
Qed.
(** Names not declared meanwhile are still seen. *)
Lemma did_sees c ds r s s' l y o : Did c ds r s s' l -> Inv s -> no_any c -> sees s c r -> lookup r y = Some o -> ~ In y ds ->
  exists key, finds s' c y key /\ (forall v, o = Some v -> exists u, cs s' (sig key y) = Some u /\ isval u v).
Proof.
  intros D I Hc HS L Hy. destruct (HS _ _ L) as (key & HF & HV). exists key. split.
  - eapply finds_same; [exact I|exact (d_inv _ _ _ _ _ _ D)|exact Hc|eapply did_like; eauto|exact HF].
  - intros v ->. destruct (HV v eq_refl) as (u & Hu & Hv). exists u. split; auto. destruct (finds_where _ _ _ _ I Hc HF) as [Huc _].
    rewrite (did_key _ _ _ _ _ _ _ _ D Hc Huc); auto. intros (y' & key' & L' & HF' & E). apply sig_inj in E as [-> ->]. congruence.
Qed.
Lemma did_sees_all c r s s' l : Did c [] r s s' l -> Inv s -> no_any c -> sees s c r -> sees s' c r.
Proof. intros D I Hc HS y o L. eapply did_sees; eauto. Qed.
