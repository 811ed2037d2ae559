(** ElabProofs3.v - opening and closing scopes; declarations. *)
From Verif Require Import Base ScopeModel ScopeSpec ScopeProofs DfModel BindModel BindSpec BindProofs LitModel OptModel OptProofs ReorderModel AsgModel ExprModel MkModel HierModel VisitModel VisitProofs VisitProofs2 ElabModel ElabSpec ElabProofs ElabProofs2.

Lemma dset_new {V} (d : ndict V) k v : dget d k = None -> dset d k v = d ++ [(k, v)].
Proof. induction d as [|[k' v'] d IH]; cbn; [reflexivity|]. destruct (chain_eq k' k); [discriminate|]. intros H. now rewrite IH. Qed.
Lemma dset_flags (d : ndict (frame decl)) k f g : dget d k = Some f -> f_flags decl g = f_flags decl f ->
  map (fun p => (fst p, f_flags decl (snd p))) (dset d k g) = map (fun p => (fst p, f_flags decl (snd p))) d.
Proof.
  intros H E. induction d as [|[k' v'] d IH]; [discriminate|]. cbn in *. destruct (chain_eq k' k); cbn; [injection H as ->; now rewrite E|now rewrite IH].
Qed.

Record Opened (c : chain) (l : label) (fl : flags) (s s1 : st) : Prop := {
  o_cur : current s1 = c ++ [l];
  o_inv : Inv s1;
  o_out : forall d, no_any d -> ~ under (c ++ [l]) d -> d <> c -> fr s1 d = fr s d;
  o_parent : exists f f', fr s c = Some f /\ fr s1 c = Some f' /\ f_flags decl f' = f_flags decl f /\ f_consts decl f' = f_consts decl f;
  o_here : exists f, fr s1 (c ++ [l]) = Some f /\ f_flags decl f = fl;
  o_cs : forall n, no_any n -> ~ under (c ++ [l]) n -> cs s1 n = cs s n;
  o_sk : sk s1 = sk s ++ [(c ++ [l], fl)] }.
Definition ordinary (l : label) : Prop := stype l <> STsignal /\ stype l <> STany.

Lemma frame_in_opened c l fl s s1 f : Inv s -> no_any c -> current s = c -> fr s c = Some f -> ordinary l -> frame_in s l fl = Ok s1 ->
  Opened c l fl s s1 /\ (exists g, fr s1 (c ++ [l]) = Some g /\ f_consts decl g = []) /\ s_cs s1 = s_cs s /\ (forall y, cs s1 (sig (c ++ [l]) y) = None).
Proof.
  intros I Hc Hcur F [Hl Hl'] H. unfold frame_in, addFrame in H. ub. injection H as <-. unfold current in Hcur. rewrite Hcur in B. unfold chain_add_label in B.
  destruct (dmem (ft_dict decl (s_fr s)) (c ++ [l])) eqn:M; [discriminate|]. ub. injection B as <-.
  assert (dget (frames s) (c ++ [l]) = None) as Hn. { unfold dmem in M. unfold frames. destruct (dget _ _); [discriminate|reflexivity]. }
  destruct (i_prev s I _ _ F Hc) as (Hne & Hpf & Hsf).
  assert (r0 = dset (frames s) c (frame_setNext decl f (c ++ [l]))) as ->.
  { destruct c as [|l0 c']; [now destruct Hne|]. unfold fr, frames in F. rewrite F in B0. injection B0 as <-. reflexivity. }
  clear B0. assert (no_any (c ++ [l])) as Hc1 by (apply no_any_snoc; auto).
  assert (c <> c ++ [l]) as Hne1. { intros E. apply (not_under_snoc c l). rewrite <- E. apply under_refl. }
  set (new := Frame decl c [] fl [] [] []).
  assert (keys_plain (dset (frames s) c (frame_setNext decl f (c ++ [l])))) as HK by (apply dset_plain; auto; apply I).
  assert (forall d, no_any d -> fr (with_fr s (FTable decl (dset (dset (frames s) c (frame_setNext decl f (c ++ [l]))) (c ++ [l]) new) (c ++ [l]))) d
          = if chain_dec (c ++ [l]) d then Some new else if chain_dec c d then Some (frame_setNext decl f (c ++ [l])) else fr s d) as Hfr.
  { intros d Hd. unfold fr, frames at 1. cbn [with_fr s_fr ft_dict]. rewrite dget_dset by auto. destruct (chain_dec (c ++ [l]) d); [reflexivity|].
    rewrite dget_dset; auto. apply I. }
  split; [|split; [|split]].
  - constructor.
    + reflexivity.
    + constructor.
      * unfold frames. cbn [with_fr s_fr ft_dict]. now apply dset_plain.
      * exact (i_cplain s I).
      * unfold frames. cbn [with_fr s_fr ft_dict]. apply dset_nodup; auto. apply dset_nodup; auto; apply I.
      * intros d g Hg Hd. rewrite Hfr in Hg by auto. destruct (chain_dec (c ++ [l]) d) as [<-|].
        -- injection Hg as <-. split; [now destruct c|]. split; [cbn [new f_previous]; now rewrite removelast_last|]. intros e x E. unfold sig, chain_add_label in E. apply app_inj_tail in E as [_ ->]. now apply Hl.
        -- destruct (chain_dec c d) as [<-|]; [|exact (i_prev s I _ _ Hg Hd)]. injection Hg as <-. auto.
      * intros n u Hu Hn'. destruct (i_keys s I n u Hu Hn') as (d & x & -> & Hd). exists d, x. split; auto. rewrite Hfr by (eapply no_any_init; exact Hn').
        destruct (chain_dec (c ++ [l]) d); [discriminate|]. destruct (chain_dec c d); [discriminate|exact Hd].
    + intros d Hd Hu Hdc. rewrite Hfr by auto. destruct (chain_dec (c ++ [l]) d) as [<-|]; [destruct Hu; apply under_refl|]. destruct (chain_dec c d); congruence.
    + exists f, (frame_setNext decl f (c ++ [l])). split; auto. split; [|split; reflexivity]. rewrite Hfr by auto. destruct (chain_dec (c ++ [l]) c); [congruence|]. destruct (chain_dec c c); congruence.
    + exists new. split; [|reflexivity]. rewrite Hfr by auto. destruct (chain_dec (c ++ [l]) (c ++ [l])); congruence.
    + reflexivity.
    + unfold sk, frames. cbn [with_fr s_fr ft_dict]. rewrite dset_new.
      * rewrite map_app. cbn [map fst snd new f_flags]. f_equal. unfold fr in F. apply (dset_flags _ _ f); auto.
      * rewrite dget_dset; auto; [|apply I]. destruct (chain_dec c (c ++ [l])); [congruence|exact Hn].
  - exists new. split; [|reflexivity]. rewrite Hfr by auto. destruct (chain_dec (c ++ [l]) (c ++ [l])); congruence.
  - reflexivity.
  - intros y. destruct (cs s (sig (c ++ [l]) y)) as [u|] eqn:E; [|exact E]. destruct (i_keys s I _ _ E (sig_any _ _ Hc1)) as (d & x & E' & Hd). apply sig_inj in E' as [<- _]. unfold fr in Hd. congruence.
Qed.

Lemma close c l fl s s1 s2 r ds r1 l0 l1 : Inv s -> no_any c -> ordinary l -> Opened c l fl s s1 -> Did (c ++ [l]) ds r1 s1 s2 l1 ->
  (forall n, idle s1 (c ++ [l]) r1 n -> under (c ++ [l]) n \/ idle s c r n) -> Forall2 names_instance (insts [(c ++ [l], fl)]) l0 ->
  Did c [] r s (goto s2 c) (l0 ++ l1).
Proof.
  intros I Hc Hl O D Hi H0. pose proof (not_under_snoc c l) as Hcn.
  assert (forall n, no_any n -> ~ under (c ++ [l]) n -> ~ idle s c r n -> cs (goto s2 c) n = cs s n) as Hcs.
  { intros n Hn Hu Hid. change (cs (goto s2 c) n) with (cs s2 n). rewrite (d_far _ _ _ _ _ _ D) by (auto; intros H; destruct (Hi _ H); auto). now apply (o_cs _ _ _ _ _ O). }
  constructor.
  - reflexivity.
  - destruct (d_inv _ _ _ _ _ _ D) as [A1 A2 A3 A4 A5]. constructor; assumption.
  - intros d Hd Hu. change (fr (goto s2 c) d) with (fr s2 d). rewrite (d_out _ _ _ _ _ _ D); auto.
    + apply (o_out _ _ _ _ _ O); auto; [|intros ->; apply Hu, under_refl]. intros H. apply Hu. eapply under_trans; [apply under_snoc|exact H].
    + intros H. apply Hu. eapply under_trans; [apply under_snoc|exact H].
  - destruct (o_parent _ _ _ _ _ O) as (f & f' & F & F' & E1 & E2). exists f, f'. split; auto. change (fr (goto s2 c) c) with (fr s2 c). rewrite (d_out _ _ _ _ _ _ D) by auto.
    split; [exact F'|]. rewrite E2. split; [exact E1|]. split; [reflexivity|]. split; [intros y []|auto].
  - intros n Hn Hu Hid. apply Hcs; auto. intros H. apply Hu. eapply under_trans; [apply under_snoc|exact H].
  - intros y _ Hid. apply Hcs; auto; [now apply sig_any|apply sig_not_under; apply Hl].
  - intros y u Hid Hu. rewrite Hcs; auto; [now apply sig_any|apply sig_not_under; apply Hl].
  - destruct (d_sk _ _ _ _ _ _ D) as (new & E & Hn). exists ((c ++ [l], fl) :: new). split.
    + change (sk (goto s2 c)) with (sk s2). rewrite E, (o_sk _ _ _ _ _ O), <- app_assoc. reflexivity.
    + change ((c ++ [l], fl) :: new) with ([(c ++ [l], fl)] ++ new). rewrite insts_app. now apply Forall2_app.
Qed.

(** Only the scopes and the constants count. *)
Lemma did_labels c ds r s s0 s' l : s_fr s0 = s_fr s -> s_cs s0 = s_cs s -> Did c ds r s0 s' l -> Did c ds r s s' l.
Proof.
  intros E1 E2. destruct s as [a b d], s0 as [a' b' d']. cbn [s_fr s_cs] in E1, E2. subst a' d'. intros [H1 H2 H3 H4 H5 H6 H7 H8]. constructor; assumption.
Qed.
Lemma inv_labels s s0 : s_fr s0 = s_fr s -> s_cs s0 = s_cs s -> Inv s -> Inv s0.
Proof. intros E1 E2. destruct s as [a b d], s0 as [a' b' d']. cbn [s_fr s_cs] in E1, E2. subst a' d'. intros [H1 H2 H3 H4 H5]. constructor; assumption. Qed.
Lemma sees_labels s s0 c r : s_fr s0 = s_fr s -> s_cs s0 = s_cs s -> sees s c r -> sees s0 c r.
Proof. intros E1 E2. destruct s as [a b d], s0 as [a' b' d']. cbn [s_fr s_cs] in E1, E2. subst a' d'. exact (fun H => H). Qed.
Lemma get_label_same s k p : get_label s k = Ok p -> s_fr (snd p) = s_fr s /\ s_cs (snd p) = s_cs s.
Proof. unfold get_label. intros H. ub. injection H as <-. split; reflexivity. Qed.

Lemma did_refl c r s f : Inv s -> current s = c -> fr s c = Some f -> Did c [] r s s [].
Proof.
  intros I Hc F. constructor; auto.
  - exists f, f. split; [exact F|]. split; [exact F|]. split; [reflexivity|]. split; [reflexivity|]. split; [intros y []|auto].
  - exists []. split; [now rewrite app_nil_r|constructor].
Qed.
Lemma did_trans c ds1 ds2 r r1 s s1 s2 l1 l2 : Inv s -> no_any c -> Did c ds1 r s s1 l1 -> Did c ds2 r1 s1 s2 l2 ->
  (forall n, idle s1 c r1 n -> idle s c r n \/ exists y, In y ds1 /\ cs s (sig c y) = None /\ n = sig c y) -> Did c (ds1 ++ ds2) r s s2 (l1 ++ l2).
Proof.
  intros I Hc D1 D2 Hi. constructor.
  - exact (d_cur _ _ _ _ _ _ D2).
  - exact (d_inv _ _ _ _ _ _ D2).
  - intros d Hd Hu. rewrite (d_out _ _ _ _ _ _ D2), (d_out _ _ _ _ _ _ D1); auto.
  - destruct (d_here _ _ _ _ _ _ D1) as (f & f' & F & F' & E & H1 & H2 & H3). destruct (d_here _ _ _ _ _ _ D2) as (g & g' & G & G' & E' & H1' & H2' & H3').
    assert (g = f') as -> by congruence. exists f, g'. split; auto. split; auto. split; [congruence|]. split; [|split].
    + intros y Hy. rewrite H1', H1; auto; intros H; apply Hy, in_or_app; auto.
    + intros y Hy. apply in_app_or in Hy as [Hy|Hy]; auto.
    + auto.
  - intros n Hn Hu Hid. rewrite (d_far _ _ _ _ _ _ D2), (d_far _ _ _ _ _ _ D1); auto. intros H. destruct (Hi _ H) as [H'|(y & _ & _ & ->)]; auto. apply Hu. apply under_snoc.
  - intros y Hy Hid. rewrite (d_new _ _ _ _ _ _ D2), (d_new _ _ _ _ _ _ D1); auto; try (intros H; apply Hy, in_or_app; auto; fail).
    intros H. destruct (Hi _ H) as [H'|(y' & Hin & _ & E)]; auto. apply sig_inj in E as [_ <-]. apply Hy, in_or_app. auto.
  - intros y u Hid Hu. apply (d_old _ _ _ _ _ _ D2); [|now apply (d_old _ _ _ _ _ _ D1)].
    intros H. destruct (Hi _ H) as [H'|(y' & Hin & Hnone & E)]; auto. apply sig_inj in E as [_ <-]. congruence.
  - destruct (d_sk _ _ _ _ _ _ D1) as (n1 & E1 & F1). destruct (d_sk _ _ _ _ _ _ D2) as (n2 & E2 & F2). exists (n1 ++ n2). split; [now rewrite E2, E1, app_assoc|].
    rewrite insts_app. now apply Forall2_app.
Qed.
