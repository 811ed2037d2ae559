(** BacProofs3.v - legal always blocks with blocking assignments are accepted. *)
From Verif Require Import Base ScopeModel ScopeSpec ScopeProofs ScopeFlat DfModel DfSpec DfProofs ReorderModel ReorderSpec ReorderProofs BindModel BindSpec BindProofs AsgModel AsgProofs AccSpec AccProofs BlkModel BlkSpec BlkProofs BlkProofs2 BlkProofs4 BacSpec BacProofs BacProofs2.
Local Open Scope list_scope.

Section Accept.
  Variables (asg array : chain -> bool) (s0 : bst).
  Notation ns := (bs_terms s0).
  Hypothesis Hns : Forall no_any ns.
  Hypothesis Hasg : forall n, asg n = true -> In n ns /\ n <> [].
  Notation good := (plain asg ns).
  Definition tab_ok (t : btable) : Prop := Forall (fun p => no_any (fst p) /\ asg (fst p) = true /\ match snd p with Own u => nf u = true | Live => True end) t.
  Definition frame_ok (f : bframe) : Prop := tab_ok (bf_tab f) /\ match bf_cond f with Some (c, _) => good c | None => True end.
  Record st_ok (s : bst) : Prop := StOk { so_keys : keys_plain (bs_trees s); so_terms : Forall no_any (bs_terms s); so_decl : incl ns (bs_terms s); so_cnt : (0 <= bs_cnt s)%Z; so_trees : forall n, asg n = true -> nf (tree_of s n) = true }.
  Lemma asg_plain n : asg n = true -> no_any n.
  Proof. intros H. destruct (Hasg n H) as [H1 _]. rewrite Forall_forall in Hns. auto. Qed.
  Lemma ns_any n : In n ns -> no_any n.
  Proof. rewrite Forall_forall in Hns. auto. Qed.

  Lemma entry_nf s n e : st_ok s -> asg n = true -> match e with Own u => nf u = true | Live => True end -> nf (entry_tree s n e) = true.
  Proof. intros Hs Hn He. destruct e; [exact (so_trees s Hs n Hn)|exact He]. Qed.
  Lemma tab_get t n e : tab_ok t -> no_any n -> dget t n = Some e -> asg n = true /\ match e with Own u => nf u = true | Live => True end.
  Proof.
    induction 1 as [|[m v] t (H1 & H2 & H3) _ IH]; cbn [dget]; intros Hn E; [discriminate|]. destruct (chain_eq m n) eqn:Em; [|auto]. injection E as ->. apply chain_eq_no_any in Em; [|assumption|assumption]. subst m. auto.
  Qed.
  Lemma find_ok fs n e : Forall frame_ok fs -> no_any n -> find_entry fs n = Some e -> asg n = true /\ match e with Own u => nf u = true | Live => True end.
  Proof.
    induction 1 as [|f fs [Hf _] _ IH]; cbn [find_entry]; intros Hn E; [discriminate|]. destruct (dget (bf_tab f) n) as [e'|] eqn:Ed; [|auto]. injection E as ->. exact (tab_get _ _ _ Hf Hn Ed).
  Qed.
  Lemma read_well s fs p n : st_ok s -> Forall frame_ok fs -> sound_path p -> In n ns -> exists t, read_at s fs p n = Ok t /\ well t = true.
  Proof.
    intros Hs Hf Hp Hn. unfold read_at. destruct (find_entry fs n) as [e|] eqn:E; [|exists (DTerm n); auto].
    destruct (find_ok fs n e Hf (ns_any n Hn) E) as [A B]. destruct (diff_total p Hp (entry_tree s n e) []) as (rest & rp & m' & -> & N & _). cbn [bind fst]. apply replace_nf. apply N. now apply entry_nf.
  Qed.
  Lemma read_still s fs p n : Forall frame_ok fs -> In n ns -> asg n = false -> read_at s fs p n = Ok (DTerm n).
  Proof.
    intros Hf Hn Ha. unfold read_at. destruct (find_entry fs n) as [e|] eqn:E; [|reflexivity]. destruct (find_ok fs n e Hf (ns_any n Hn) E) as [A _]. congruence.
  Qed.
  Lemma path_arrives s fs : st_ok s -> Forall frame_ok fs -> exists p, arrives (fun k => condpath k array s fs) p /\ sound_path p.
  Proof.
    intros Hs. induction 1 as [|f fs [Ht Hc] Hf (p & A & P)]; [exists []; split; [exact (arrives_const _)|constructor]|]. cbn [condpath]. destruct (bf_cond f) as [[c b]|].
    - destruct (resolve_arrives asg ns array (read_at s fs p) (fun n H1 H2 => read_still s fs p n Hf H1 H2) (fun n H => read_well s fs p n Hs Hf P H) c Hc) as (c' & Ac & Wc).
      exists (p ++ [(c', b)]). split; [refine (arrives_bind _ _ _ _ A _); refine (arrives_bind _ _ _ _ Ac _); exact (arrives_const _)|]. apply Forall_app. split; [exact P|]. constructor; [exact Wc|constructor].
    - exists p. split; [refine (arrives_bind _ _ _ _ A _); exact (arrives_const _)|exact P].
  Qed.
  Lemma set_ok s n t : st_ok s -> asg n = true -> nf t = true -> st_ok (set_tree s n t).
  Proof.
    intros [H1 H2 H3 H4 H5] Hn Ht. pose proof (asg_plain n Hn) as Pn. constructor; cbn [set_tree bs_trees bs_terms bs_cnt]; auto; [now apply dset_plain|].
    intros m Hm. unfold tree_of. cbn [set_tree bs_trees]. rewrite dget_dset by auto using asg_plain. destruct (chain_dec n m) as [<-|N]; [exact Ht|]. exact (H5 m Hm).
  Qed.
  Lemma tab_set t n e : tab_ok t -> asg n = true -> match e with Own u => nf u = true | Live => True end -> tab_ok (dset t n e).
  Proof.
    intros Ht Hn He. pose proof (asg_plain n Hn) as Pn. induction Ht as [|[m v] t (H1 & H2 & H3) Ht IH]; cbn [dset]; [constructor; [auto|constructor]|]. destruct (chain_eq m n); constructor; auto.
  Qed.
  Lemma put_ok s t n e : st_ok s -> tab_ok t -> asg n = true -> match e with Own u => nf u = true | Live => True end -> st_ok (fst (put_entry s t n e)) /\ tab_ok (snd (put_entry s t n e)).
  Proof.
    intros Hs Ht Hn He. pose proof (entry_nf s n e Hs Hn He) as K. unfold put_entry. destruct (dget t n) as [[|u]|]; cbn [fst snd]; auto using set_ok, tab_set.
  Qed.
  Lemma copy_ok from : tab_ok from -> forall s t, st_ok s -> tab_ok t -> st_ok (fst (copy_table s t from)) /\ tab_ok (snd (copy_table s t from)).
  Proof.
    induction 1 as [|[n e] from (H1 & H2 & H3) _ IH]; intros s t Hs Ht; [auto|]. cbn [copy_table]. destruct (put_ok s t n e Hs Ht H2 H3) as [K1 K2]. exact (IH _ _ K1 K2).
  Qed.
  Lemma copies_ok l : Forall tab_ok l -> forall s t, st_ok s -> tab_ok t -> st_ok (fst (copy_tables s t l)) /\ tab_ok (snd (copy_tables s t l)).
  Proof.
    induction 1 as [|u l Hu _ IH]; intros s t Hs Ht; [auto|]. cbn [copy_tables]. destruct (copy_ok u Hu s t Hs Ht) as [K1 K2]. exact (IH _ _ K1 K2).
  Qed.

  Definition Goes (f : nat -> res (bst * btable)) : Prop := exists q, arrives f q /\ st_ok (fst q) /\ tab_ok (snd q).
  Lemma assign_goes s f r n e : st_ok s -> Forall frame_ok (f :: r) -> asg n = true -> good e -> Goes (fun k => assign k array s f r n e).
  Proof.
    intros Hs Hf Hn He. unfold assign. destruct (path_arrives s (f :: r) Hs Hf) as (p & Ap & Sp).
    destruct (resolve_arrives asg ns array (read_at s (f :: r) p) (fun n H1 H2 => read_still s (f :: r) p n Hf H1 H2) (fun n H => read_well s (f :: r) p n Hs Hf Sp H) e He) as (w & Aw & Ww).
    destruct (reorder_well w Ww) as (raw & Ar & Wr & _). destruct (Hasg n Hn) as [Nd Ne]. pose proof (asg_plain n Hn) as Pn. pose proof Hs as [H1 H2 H3 H4 H5].
    destruct (new_name_total (bs_terms s) n (bs_cnt s) Ne Pn H2 H4) as (rn & c' & En). destruct (new_name_ok _ _ n Pn _ _ _ En) as [Pr Nr]. pose proof (new_name_count _ _ _ _ _ _ En) as Cr.
    set (s1 := BSt (dset (bs_trees s) rn raw) (bs_terms s ++ [rn]) c'). assert (Hne : forall m, asg m = true -> rn <> m) by (intros m Hm ->; apply Nr, H3; exact (proj1 (Hasg m Hm))).
    assert (S1 : st_ok s1).
    { constructor; unfold s1; cbn [bs_trees bs_terms bs_cnt]; [now apply dset_plain|apply Forall_app; auto|intros m Hm; apply in_or_app; auto|lia|].
      intros m Hm. unfold tree_of. cbn [bs_trees]. rewrite dget_dset by auto using asg_plain. destruct (chain_dec rn m) as [E|N]; [exfalso; exact (Hne m Hm E)|]. exact (H5 m Hm). }
    destruct (insert_loose (tree_of s1 n) p (DTerm rn) Sp (nf_loose _ (so_trees s1 S1 n Hn)) eq_refl) as (t & Et & Lt). destruct (reorder_loose t Lt) as (t' & At & Nt).
    set (en := match dget (bs_trees s1) n with None => Live | Some _ => Own t' end). assert (Hen : match en with Own u => nf u = true | Live => True end) by (unfold en; destruct (dget (bs_trees s1) n); [exact Nt|exact Logic.I]).
    assert (Ht : tab_ok (bf_tab f)) by (inversion Hf as [|? ? [K _] _]; exact K).
    exists (put_entry (set_tree s1 n t') (bf_tab f) n en). split; [|apply put_ok; auto using set_ok]. fold s1.
    assert (Ag : arrives (fun k => getTree k array s (f :: r) p e) raw) by (unfold getTree; refine (arrives_bind _ _ _ _ Aw _); exact Ar).
    refine (arrives_bind _ _ _ _ Ap _). refine (arrives_bind _ _ _ _ Ag _). rewrite En. cbn [bind fst snd]. fold s1. rewrite Et. cbn [bind].
    refine (arrives_bind _ _ _ _ At _). exact (arrives_const _).
  Qed.

  (** ** case items *)
  Lemma insertOp_good o a b : good a -> good b -> exists t, insertOp a b o = Ok t /\ good t.
  Proof.
    intros Ha Hb. assert (NN : forall t, good t -> is_none t = false) by (intros t H; destruct H; reflexivity).
    assert (M : forall a b, good a -> good b -> exists t, mkOp [a; b] o = Ok t /\ good t).
    { intros x y Hx Hy. unfold mkOp. cbn [existsb]. rewrite (NN x Hx), (NN y Hy). eexists. split; [reflexivity|]. constructor. auto. }
    assert (R : forall a, good a -> forall b, good b -> exists t, insertOp_r a b o = Ok t /\ good t).
    { clear a Ha b Hb. intros a Ha. induction b as [| | | | | | | | |c IHc x IHx y IHy| | | | | ]; intros Hb; try exact (M _ _ Ha Hb). inversion Hb; subst.
      destruct (IHx ltac:(assumption)) as (u & Eu & Gu), (IHy ltac:(assumption)) as (v & Ev & Gv). cbn [insertOp_r]. rewrite Eu. cbn [bind]. rewrite Ev. cbn [bind]. eexists. split; [reflexivity|]. constructor; auto. }
    revert Ha. induction a as [| | | | | | | | |c IHc x IHx y IHy| | | | | ]; intros Ha; try exact (R _ Ha _ Hb). inversion Ha; subst.
    destruct (IHx ltac:(assumption)) as (u & Eu & Gu), (IHy ltac:(assumption)) as (v & Ev & Gv). cbn [insertOp]. rewrite Eu. cbn [bind]. rewrite Ev. cbn [bind]. eexists. split; [reflexivity|]. constructor; auto.
  Qed.
  Lemma item_good comp g : good comp -> (forall ws, g = Some ws -> ws <> [] /\ Forall good ws) -> exists c, item_cond comp g = Ok c /\ good c.
  Proof.
    intros Hc Hg. destruct g as [ws|]; [|exists (DInt "1"); split; [reflexivity|constructor]]. destruct (Hg ws eq_refl) as [Hn Hw]. destruct ws as [|v r]; [congruence|]. inversion Hw as [|? ? Hv Hr]; subst. cbn [item_cond].
    destruct (insertOp_good Eq comp v Hc Hv) as (e & Ee & Ge). rewrite Ee. cbn [bind]. clear Ee Hn Hw Hg Hv. revert e Ge. induction Hr as [|v2 r H2 Hr IH]; intros e Ge; [exists e; auto|]. cbn [lor_eqs].
    destruct (insertOp_good Eq comp v2 Hc H2) as (e2 & -> & G2). cbn [bind]. destruct (insertOp_good Lor e e2 Ge G2) as (e3 & -> & G3). cbn [bind]. exact (IH e3 G3).
  Qed.

  (** ** statements *)
  Definition Accepted (x : bstmt) : Prop := legal_stmt asg array s0 x -> (forall n, bassigns x n = true -> asg n = true) -> forall s c t r, st_ok s -> Forall frame_ok (BFrame c t :: r) -> Goes (fun k => bvisit k array s c t r x).
  Lemma frame_new fs cnd b : Forall frame_ok fs -> good cnd -> Forall frame_ok (BFrame (Some (cnd, b)) [] :: fs).
  Proof. intros H1 H2. constructor; [split; [constructor|exact H2]|exact H1]. Qed.
  Lemma ovisit_goes y : (forall z, y = Some z -> Accepted z) -> (forall z, y = Some z -> legal_stmt asg array s0 z) -> (forall n, oassigns y n = true -> asg n = true) ->
    forall s c r, st_ok s -> Forall frame_ok (BFrame c [] :: r) -> Goes (fun k => ovisit k array s c r y).
  Proof.
    intros HA HL HN s c r Hs Hf. destruct y as [y|]; cbn [ovisit]; [exact (HA y eq_refl (HL y eq_refl) HN s c [] r Hs Hf)|]. exists (s, []). split; [exact (arrives_const _)|]. split; [exact Hs|constructor].
  Qed.
  Lemma visit_goes x : Accepted x.
  Proof.
    induction x as [n e|l IH|cnd th el IHt IHe|comp its IH] using bstmt_ind'; intros HL HN s c t r Hs Hf.
    - inversion HL; subst. apply assign_goes; auto. apply HN. cbn [bassigns]. unfold same_name. destruct (chain_dec n n); congruence.
    - inversion HL as [|? HL'| |]; subst. cbn [bassigns] in HN.
      assert (forall s u, st_ok s -> Forall frame_ok (BFrame None u :: BFrame c t :: r) -> Goes (fun k => bvisits k array s u (BFrame c t :: r) l)) as K.
      { clear Hs HL. revert HL' HN. induction IH as [|y l Hy _ IHl]; intros HL HN s1 u Hs Hf'; cbn [bvisits].
        - exists (s1, u). split; [exact (arrives_const _)|]. split; [exact Hs|]. inversion Hf' as [|? ? [K _] _]; exact K.
        - inversion HL as [|? ? L1 L2]; subst. cbn [existsb] in HN. destruct (Hy L1 (fun n H => HN n ltac:(rewrite H; reflexivity)) s1 None u _ Hs Hf') as ([s2 u2] & A & S2 & T2). cbn [fst snd] in *.
          destruct (IHl L2 (fun n H => HN n ltac:(rewrite H; apply orb_true_r)) s2 u2 S2) as (q & A2 & S3 & T3); [constructor; [split; [exact T2|exact Logic.I]|exact Hf]|].
          exists q. split; [|auto]. refine (arrives_bind _ _ _ _ A _). exact A2. }
      destruct (K s [] Hs) as ([s1 u] & A & S1 & U1); [constructor; [split; [constructor|exact Logic.I]|exact Hf]|]. cbn [fst snd] in *. inversion Hf as [|? ? [Ft _] _]; subst. cbn [bf_tab] in Ft.
      exists (copy_table s1 t u). split; [|exact (copy_ok u U1 s1 t S1 Ft)]. apply (arrives_ext (fun k => do q <- bvisits k array s [] (BFrame c t :: r) l; Ok (copy_table (fst q) t (snd q)))); [intros k; symmetry; apply visit_block|].
      refine (arrives_bind _ _ _ _ A _). exact (arrives_const _).
    - inversion HL as [| |? ? ? Lc Le Lt Lf|]; subst. cbn [bassigns] in HN.
      destruct (ovisit_goes th IHt Lt (fun n H => HN n ltac:(unfold oassigns in H; rewrite H; reflexivity)) s (Some (cnd, true)) (BFrame c t :: r) Hs (frame_new _ _ _ Hf Lc)) as ([s1 u1] & A1 & S1 & U1). cbn [fst snd] in *.
      destruct (ovisit_goes el IHe Lf (fun n H => HN n ltac:(unfold oassigns in H; rewrite H; apply orb_true_r)) s1 (Some (cnd, false)) (BFrame c t :: r) S1 (frame_new _ _ _ Hf Lc)) as ([s2 u2] & A2 & S2 & U2). cbn [fst snd] in *.
      inversion Hf as [|? ? [Ft _] _]; subst. cbn [bf_tab] in Ft. exists (copy_tables s2 t [u1; u2]). split; [|apply copies_ok; auto].
      cbn [bvisit]. destruct th as [y|]; [|rewrite (Le eq_refl) in *]; unfold ovisit in A1, A2; refine (arrives_bind _ _ _ _ A1 _); cbn [fst snd].
      + assert (A3 : arrives (fun k => match el with None => Ok (s1, []) | Some z => bvisit k array s1 (Some (cnd, false)) [] (BFrame c t :: r) z end) (s2, u2)) by (destruct el; exact A2). refine (arrives_bind _ _ _ _ A3 _). exact (arrives_const _).
      + refine (arrives_bind _ _ _ _ A2 _). exact (arrives_const _).
    - inversion HL as [| | |? ? Lc Li]; subst. cbn [bassigns] in HN.
      assert (forall s fs, st_ok s -> Forall frame_ok fs -> exists q, arrives (fun k => ivisit k array comp s fs its) q /\ st_ok (fst q) /\ Forall tab_ok (snd q)) as K.
      { clear Hs Hf HL. revert Li HN. induction IH as [|[g y] l Hy _ IHl]; intros Li HN s1 fs Hs Hf; cbn [ivisit].
        - exists (s1, []). split; [exact (arrives_const _)|]. split; [exact Hs|constructor].
        - inversion Li as [|? ? [Lg Ly] Ll]; subst. cbn [fst snd existsb] in *. destruct (item_good comp g Lc Lg) as (cnd & Ec & Gc). rewrite Ec. cbn [bind].
          destruct (ovisit_goes y Hy Ly (fun n H => HN n ltac:(unfold oassigns in H; rewrite H; reflexivity)) s1 (Some (cnd, true)) fs Hs (frame_new _ _ _ Hf Gc)) as ([s2 u2] & A2 & S2 & U2). cbn [fst snd] in *.
          destruct l as [|gy l].
          + exists (s2, [u2]). split; [|split; [exact S2|constructor; [exact U2|constructor]]]. refine (arrives_bind _ _ _ _ A2 _). exact (arrives_const _).
          + destruct (IHl Ll (fun n H => HN n ltac:(rewrite H; apply orb_true_r)) s2 (BFrame (Some (cnd, false)) [] :: fs) S2 (frame_new _ _ _ Hf Gc)) as ([s3 tabs] & A3 & S3 & T3). cbn [fst snd] in *.
            exists (s3, u2 :: [] :: tabs). split; [|split; [exact S3|constructor; [exact U2|constructor; [constructor|exact T3]]]]. refine (arrives_bind _ _ _ _ A2 _). cbn [fst snd]. refine (arrives_bind _ _ _ _ A3 _). exact (arrives_const _). }
      destruct (K s (BFrame c t :: r) Hs Hf) as ([s1 tabs] & A & S1 & T1). cbn [fst snd] in *. inversion Hf as [|? ? [Ft _] _]; subst. cbn [bf_tab] in Ft.
      exists (copy_tables s1 t tabs). split; [|apply copies_ok; auto]. apply (arrives_ext (fun k => do q <- ivisit k array comp s (BFrame c t :: r) its; Ok (copy_tables (fst q) t (snd q)))); [intros k; symmetry; apply visit_case|].
      refine (arrives_bind _ _ _ _ A _). exact (arrives_const _).
  Qed.
End Accept.
