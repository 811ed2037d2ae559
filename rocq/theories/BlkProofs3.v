(** BlkProofs3.v - what is known while an always block is visited, and how it is kept. *)
From Verif Require Import Base ScopeModel ScopeSpec ScopeProofs DfModel DfSpec DfProofs ReorderModel ReorderSpec ReorderProofs BindModel BindSpec BindProofs AsgModel AsgSpec AsgProofs AsgProofs2 BlkModel BlkSpec BlkProofs BlkProofs2.

Lemma fold_none es : Forall (fun e => e = None) es -> forall v, fold_left put1 es v = v.
Proof. induction 1 as [|x l He _ IH]; intros v; [reflexivity|]. subst x. cbn [fold_left put1]. apply IH. Qed.

Section Main.
  Variable I : interp.
  Variable k : nat.
  Variable array : chain -> bool.
  Variable ns : list chain.                 (* the declared signals *)
  Variable Q : chain -> bool.               (* the assigned ones *)
  Hypothesis HN : none_strict I.
  Hypothesis Hns : Forall no_any ns.
  Hypothesis HQ : forall n, Q n = true -> In n ns /\ array n = false.
  Notation state := (state I).
  Notation cp := (condpath k array).
  Lemma ns_plain n : In n ns -> no_any n.
  Proof. intros H. now apply (proj1 (Forall_forall _ _) Hns). Qed.

  (** The signals added so far have the values of their trees. *)
  Definition cons (s : bst) : Prop := forall n t, In n (bs_terms s) -> ~ In n ns -> dget (bs_trees s) n = Some t -> i_term I n = eval I t.
  Definition St (s : bst) : Prop :=
    Forall no_any (bs_terms s) /\ plain_st s /\ incl ns (bs_terms s) /\ (forall n t, no_any n -> dget (bs_trees s) n = Some t -> In n (bs_terms s)) /\
    (forall n, Q n = true -> shaped (tree_of s n) /\ stable true (tree_of s n) = true).
  Definition Val (s : bst) (v : state) : Prop := cons s -> forall n, Q n = true -> tree_value I (i_term I n) (tree_of s n) = v n.
  Definition frame_ok (s : bst) (f : bframe) : Prop :=
    plain_tab (bf_tab f) /\ match bf_cond f with Some (c, _) => incl (names c) ns | None => True end /\
    forall n e, no_any n -> dget (bf_tab f) n = Some e -> Q n = true /\ dget (bs_trees s) n <> None /\ shaped (entry_tree s n e).
  Definition found (s : bst) (fs : list bframe) (p : path) (v : state) : Prop :=
    cons s -> holds I p = true -> forall n, In n ns ->
    match find_entry fs n with None => i_term I n = v n | Some e => tree_value I (i_term I n) (entry_tree s n e) = v n end.
  Definition placed (s : bst) (fs : list bframe) (p : path) (n : chain) (i : bplace * bool) : Prop :=
    match fst i with
    | BVacant => find_entry fs n = None /\ (Q n = true -> present p (tree_of s n) = true /\ get p (tree_of s n) = DNone)
    | BHere => find_entry fs n <> None /\ present p (tree_of s n) = true
    | BNear => find_entry fs n <> None /\ near p (tree_of s n)
    | BFar => find_entry fs n <> None
    end /\
    (snd i = true -> fst i <> BVacant -> exists e p0 p1 r, find_entry fs n = Some e /\ p = p0 ++ p1 /\
       present p0 (entry_tree s n e) = true /\ get p0 (entry_tree s n e) = DTerm r).
  Definition Inv (s : bst) (c : option (df * bool)) (t : btable) (r : list bframe) (p : path) (w : env) (v : state) : Prop :=
    St s /\ Val s v /\ Forall (frame_ok s) (BFrame c t :: r) /\ cp s (BFrame c t :: r) = Ok p /\ good_path p /\
    found s (BFrame c t :: r) p v /\ (forall n, In n ns -> placed s (BFrame c t :: r) p n (w n)) /\
    (forall n e, In n ns -> dget t n = Some e -> entry_tree s n e = tree_of s n).

  (** ** what visited statements leave, before their frames' entries are copied *)
  Record Arms (s s' : bst) (tabs : list btable) (p : path) (v v' : state) (asg : chain -> bool) : Prop := {
    a_st : St s'; a_val : Val s' v'; a_terms : incl (bs_terms s) (bs_terms s');
    a_same : forall n, In n (bs_terms s) -> asg n = false -> dget (bs_trees s') n = dget (bs_trees s) n;
    a_graft : forall n, asg n = true -> exists M, tree_of s' n = graft p (tree_of s n) M;
    a_tabs : Forall plain_tab tabs;
    a_left : forall n, In n ns -> left_by (dget (bs_trees s) n) (map (fun u => dget u n) tabs) (dget (bs_trees s') n);
    a_last : forall n, no_any n -> (asg n = true <-> last_entry (map (fun u => dget u n) tabs) <> None);
    a_q : forall n, asg n = true -> Q n = true;
    a_keep : forall n, In n ns -> asg n = false -> v' n = v n }.

  Lemma cons_back s s' : incl (bs_terms s) (bs_terms s') -> (forall n, In n (bs_terms s) -> ~ In n ns -> dget (bs_trees s') n = dget (bs_trees s) n) -> cons s' -> cons s.
  Proof. intros H1 H2 HC n t Hn Hx E. apply HC; [now apply H1|exact Hx|]. now rewrite H2. Qed.
  Lemma arms_cons s s' tabs p v v' asg : Arms s s' tabs p v v' asg -> cons s' -> cons s.
  Proof.
    intros A. apply cons_back; [exact (a_terms _ _ _ _ _ _ _ A)|]. intros n Hn Hx. apply (a_same _ _ _ _ _ _ _ A); [exact Hn|].
    destruct (asg n) eqn:E; [|reflexivity]. exfalso. apply Hx. now apply HQ, (a_q _ _ _ _ _ _ _ A).
  Qed.
  Lemma tree_of_eq s s' n : dget (bs_trees s') n = dget (bs_trees s) n -> tree_of s' n = tree_of s n.
  Proof. unfold tree_of. now intros ->. Qed.
  Lemma entry_tree_eq s s' n e : dget (bs_trees s') n = dget (bs_trees s) n -> entry_tree s' n e = entry_tree s n e.
  Proof. intros H. destruct e; [now apply tree_of_eq|reflexivity]. Qed.
  Lemma placed_move s s' fs fs' p n i : (find_entry fs n = None -> find_entry fs' n = None) ->
    (forall e, find_entry fs n = Some e -> exists e', find_entry fs' n = Some e' /\ entry_tree s' n e' = entry_tree s n e) ->
    tree_of s' n = tree_of s n -> placed s fs p n i -> placed s' fs' p n i.
  Proof.
    intros H1 H2 H3 [P1 P2]. assert (find_entry fs n <> None -> find_entry fs' n <> None) as K.
    { intros H. destruct (find_entry fs n) as [e|]; [|congruence]. destruct (H2 e eq_refl) as (e' & -> & _). discriminate. }
    split.
    - rewrite H3. destruct (fst i); intuition.
    - intros S1 S2. destruct (P2 S1 S2) as (e & p0 & p1 & r & E & Ep & E1 & E2). destruct (H2 e E) as (e' & E' & Et). exists e', p0, p1, r. rewrite Et. auto.
  Qed.
  Lemma frame_ok_same s s' f : (forall n, In n ns -> dget (bs_trees s') n = dget (bs_trees s) n) -> frame_ok s f -> frame_ok s' f.
  Proof.
    intros H (F1 & F2 & F3). split; [exact F1|]. split; [exact F2|]. intros n e Hn E. destruct (F3 n e Hn E) as (K1 & K2 & K3). assert (In n ns) as Hn' by now apply HQ. rewrite (H n Hn'), (entry_tree_eq s s' n e (H n Hn')). auto.
  Qed.
  Lemma St_same s s' : bs_terms s' = bs_terms s -> plain_st s' -> (forall n, no_any n -> dget (bs_trees s') n = dget (bs_trees s) n) -> St s -> St s'.
  Proof.
    intros H1 H2 H3 (S1 & S2 & S3 & S4 & S5). unfold St. rewrite H1. split; [exact S1|]. split; [exact H2|]. split; [exact S3|]. split.
    - intros n t Hn E. rewrite (H3 n Hn) in E. exact (S4 n t Hn E).
    - intros n Hn. rewrite (tree_of_eq s s' n); [exact (S5 n Hn)|]. apply H3, ns_plain, HQ. exact Hn.
  Qed.
  Lemma found_entry_ok s fs n e : Forall (frame_ok s) fs -> In n ns -> find_entry fs n = Some e -> Q n = true /\ dget (bs_trees s) n <> None /\ shaped (entry_tree s n e).
  Proof.
    intros F Hn. apply ns_plain in Hn. induction F as [|f fs Hf F IH]; cbn [find_entry]; [discriminate|]. destruct (dget (bf_tab f) n) as [e'|] eqn:E; [|exact IH]. intros J. injection J as <-.
    destruct Hf as (_ & _ & Hf). exact (Hf n e' Hn E).
  Qed.

  (** Copying the entries ends the statement. *)
  Lemma finish s c t r p w v s' v' tabs asg : Inv s c t r p w v -> Arms s s' tabs p v v' asg -> (forall n, asg n = true -> ~ locked (BFrame c t :: r) n) ->
    let s2 := fst (copy_tables s' t tabs) in let t2 := snd (copy_tables s' t tabs) in
    bs_terms s2 = bs_terms s' /\ (forall n, no_any n -> dget (bs_trees s2) n = dget (bs_trees s') n) /\
    (forall w', (forall n, In n ns -> placed s2 (BFrame c t2 :: r) p n (w' n)) -> Inv s2 c t2 r p w' v') /\
    (forall n, In n ns -> asg n = false -> dget t2 n = dget t n) /\
    (forall n, asg n = true -> exists e, dget t2 n = Some e /\ entry_tree s2 n e = tree_of s2 n) /\
    (forall n, In n ns -> dget t2 n = Some Live -> dget t n = Some Live \/ dget (bs_trees s) n = None).
  Proof.
    intros (I1 & I2 & I3 & I4 & I5 & I6 & I7 & I8) A U. inversion I3 as [|f0 r0 Ft Fr]; subst f0 r0.
    destruct (copy_tables_view tabs (a_tabs _ _ _ _ _ _ _ A) s' t (proj1 (proj2 (a_st _ _ _ _ _ _ _ A))) (proj1 Ft)) as (C1 & C2 & C3 & C4 & C5).
    cbv zeta. set (s2 := fst (copy_tables s' t tabs)) in *. set (t2 := snd (copy_tables s' t tabs)) in *.
    assert (forall n, In n ns -> dget t n <> None -> dget (bs_trees s) n <> None) as Kt.
    { intros n Hn Hd. destruct (dget t n) as [e|] eqn:E; [|congruence]. exact (proj1 (proj2 (proj2 (proj2 Ft) n e (ns_plain n Hn) E))). }
    assert (forall n, In n ns -> dget (bs_trees s2) n = dget (bs_trees s') n /\
      match last_entry (map (fun u => dget u n) tabs) with
      | None => dget t2 n = dget t n
      | Some _ => exists e, dget t2 n = Some e /\ dget (bs_trees s') n = Some (val (dget (bs_trees s') n) e) /\ (e = Live -> dget t n = Some Live \/ dget (bs_trees s) n = None)
      end) as K.
    { intros n Hn. pose proof (C5 n (ns_plain n Hn)) as V. destruct (put_left _ _ _ (dget t n) (a_left _ _ _ _ _ _ _ A n Hn) (Kt n Hn)) as (to' & E1 & E2).
      unfold view in V. rewrite E1 in V. injection V as V1 V2. split; [exact V1|]. destruct (last_entry (map (fun u => dget u n) tabs)) as [le|]; [|congruence].
      destruct E2 as (e & -> & E3 & E4). exists e. auto. }
    assert (forall n, no_any n -> dget (bs_trees s2) n = dget (bs_trees s') n) as KT.
    { intros n Hn. destruct (in_dec chain_dec n ns) as [Hin|Hin]; [exact (proj1 (K n Hin))|]. pose proof (C5 n Hn) as V.
      assert (dget t n = None /\ Forall (fun e => e = None) (map (fun u => dget u n) tabs)) as [N1 N2].
      { split.
        - destruct (dget t n) as [e|] eqn:E; [|reflexivity]. exfalso. apply Hin. apply HQ. exact (proj1 (proj2 (proj2 Ft) n e Hn E)).
        - apply last_some. destruct (last_entry (map (fun u => dget u n) tabs)) eqn:E; [|reflexivity]. exfalso. apply Hin. apply HQ. apply (a_q _ _ _ _ _ _ _ A). apply (a_last _ _ _ _ _ _ _ A n Hn). rewrite E. discriminate. }
      unfold view in V. rewrite N1 in V. rewrite (fold_none _ N2) in V. injection V as V _. exact V. }
    assert (forall n, In n ns -> asg n = false -> dget t2 n = dget t n) as KU.
    { intros n Hn Ha. destruct (K n Hn) as [_ K2]. pose proof (a_last _ _ _ _ _ _ _ A n (ns_plain n Hn)) as L. destruct (last_entry (map (fun u => dget u n) tabs)) as [le|]; [|exact K2].
      exfalso. assert (asg n = true) by (apply L; discriminate). congruence. }
    assert (forall n, asg n = true -> exists e, dget t2 n = Some e /\ entry_tree s2 n e = tree_of s2 n) as KA.
    { intros n Ha. assert (In n ns) as Hn by (apply HQ, (a_q _ _ _ _ _ _ _ A), Ha). destruct (K n Hn) as [K1 K2]. pose proof (proj1 (a_last _ _ _ _ _ _ _ A n (ns_plain n Hn)) Ha) as L.
      destruct (last_entry (map (fun u => dget u n) tabs)) as [le|]; [|congruence]. destruct K2 as (e0 & E1 & E2 & _). exists e0. split; [exact E1|].
      destruct e0 as [|E0]; [reflexivity|]. cbn [entry_tree val] in *. unfold tree_of. now rewrite K1, E2. }
    assert (forall n, In n ns -> dget t2 n = Some Live -> dget t n = Some Live \/ dget (bs_trees s) n = None) as KL.
    { intros n Hn E. destruct (K n Hn) as [_ K2]. destruct (last_entry (map (fun u => dget u n) tabs)) as [le|]; [|left; congruence].
      destruct K2 as (e0 & E1 & _ & E2). apply E2. congruence. }
    split; [exact C3|]. split; [exact KT|]. split; [|split; [exact KU|split; [exact KA|exact KL]]].
    intros w' Hw.
    assert (St s2) as S2 by (apply (St_same s' s2 C3 C1 KT), (a_st _ _ _ _ _ _ _ A)).
    assert (cons s2 -> cons s') as CB.
    { apply cons_back; [rewrite C3; apply incl_refl|]. intros n Hn _. apply KT. exact (proj1 (Forall_forall _ _) (proj1 (a_st _ _ _ _ _ _ _ A)) n Hn). }
    assert (Val s2 v') as V2. { intros HC n Hn. rewrite (tree_of_eq s' s2 n) by (apply KT, ns_plain, HQ, Hn). exact (a_val _ _ _ _ _ _ _ A (CB HC) n Hn). }
    assert (forall n, In n ns -> asg n = false -> dget (bs_trees s2) n = dget (bs_trees s) n) as KS.
    { intros n Hn Ha. rewrite (proj1 (K n Hn)). apply (a_same _ _ _ _ _ _ _ A); [|exact Ha]. now apply (proj1 (proj2 (proj2 I1))). }
    assert (forall n, In n ns -> dget (bs_trees s) n <> None -> dget (bs_trees s2) n <> None) as KD.
    { intros n Hn Hd. destruct (asg n) eqn:Ha; [|now rewrite (KS n Hn Ha)]. rewrite (proj1 (K n Hn)). pose proof (proj1 (a_last _ _ _ _ _ _ _ A n (ns_plain n Hn)) Ha) as L.
      destruct (K n Hn) as [_ K2]. destruct (last_entry (map (fun u => dget u n) tabs)) as [le|]; [|congruence]. destruct K2 as (e0 & _ & E2 & _). rewrite E2. discriminate. }
    assert (forall f, frame_ok s f -> frame_ok s2 f) as KF.
    { intros f (F1 & F2 & F3). split; [exact F1|]. split; [exact F2|]. intros n e Hn E. destruct (F3 n e Hn E) as (L1 & L2 & L3). assert (In n ns) as Hn' by now apply HQ. split; [exact L1|]. split; [exact (KD n Hn' L2)|].
      destruct e as [|u]; [|exact L3]. cbn [entry_tree]. exact (proj1 (proj2 (proj2 (proj2 (proj2 S2))) n L1)). }
    split; [exact S2|]. split; [exact V2|]. split; [constructor|split; [|split; [exact I5|split; [|split; [exact Hw|]]]]].
    - split; [exact C2|]. split; [exact (proj1 (proj2 Ft))|]. cbn [bf_tab]. intros n e Hn E.
      destruct (in_dec chain_dec n ns) as [Hin|Hin].
      + destruct (asg n) eqn:Ha.
        * pose proof (a_q _ _ _ _ _ _ _ A n Ha) as Hq. split; [exact Hq|]. destruct (KA n Ha) as (e' & E' & Et). assert (e' = e) as -> by congruence. split.
          -- rewrite (proj1 (K n Hin)). pose proof (proj1 (a_last _ _ _ _ _ _ _ A n Hn) Ha) as L. destruct (K n Hin) as [_ K2]. destruct (last_entry (map (fun u => dget u n) tabs)) as [le|]; [|congruence]. destruct K2 as (e0 & _ & E2 & _). rewrite E2. discriminate.
          -- rewrite Et. exact (proj1 (proj2 (proj2 (proj2 (proj2 S2))) n Hq)).
        * rewrite (KU n Hin Ha) in E. destruct (KF _ Ft) as (_ & _ & F3). exact (F3 n e Hn E).
      + exfalso. pose proof (C5 n Hn) as V. assert (dget t n = None) as N1. { destruct (dget t n) as [e1|] eqn:E1; [|reflexivity]. exfalso. apply Hin, HQ. exact (proj1 (proj2 (proj2 Ft) n e1 Hn E1)). }
        assert (Forall (fun e => e = None) (map (fun u => dget u n) tabs)) as N2.
        { apply last_some. destruct (last_entry (map (fun u => dget u n) tabs)) eqn:E1; [|reflexivity]. exfalso. apply Hin. apply HQ. apply (a_q _ _ _ _ _ _ _ A). apply (a_last _ _ _ _ _ _ _ A n Hn). rewrite E1. discriminate. }
        unfold view in V. rewrite N1 in V. rewrite (fold_none _ N2) in V. injection V as _ V. rewrite V in E. discriminate.
    - eapply Forall_impl; [|exact Fr]. exact KF.
    - change (cp s2 (BFrame c t :: r) = Ok p). rewrite (condpath_stable k array s s2); [exact I4|]. intros n Hl. destruct (in_dec chain_dec n ns) as [Hin|Hin].
      + apply KS; [exact Hin|]. destruct (asg n) eqn:Ha; [|reflexivity]. exfalso. exact (U n Ha Hl).
      + exfalso. apply Hin. clear -I3 Hl. induction I3 as [|f fs Hf _ IH]; cbn [locked] in Hl; [contradiction|]. destruct Hl as [Hl|Hl]; [|auto]. destruct Hf as (_ & Hf & _). destruct (bf_cond f) as [[c0 b0]|]; [|contradiction]. apply Hf, Hl.
    - intros HC HH n Hn. cbn [find_entry bf_tab]. destruct (asg n) eqn:Ha.
      + destruct (KA n Ha) as (e & -> & ->). apply V2; [exact HC|]. exact (a_q _ _ _ _ _ _ _ A n Ha).
      + rewrite (KU n Hn Ha). rewrite (a_keep _ _ _ _ _ _ _ A n Hn Ha). pose proof (I6 (arms_cons _ _ _ _ _ _ _ A (CB HC)) HH n Hn) as F. cbn [find_entry bf_tab] in F.
        destruct (dget t n) as [e|]; [|destruct (find_entry r n) as [e|]; [|exact F]]; rewrite (entry_tree_eq s s2 n e (KS n Hn Ha)); exact F.
    - intros n e Hn E. destruct (asg n) eqn:Ha.
      + destruct (KA n Ha) as (e' & E' & Et). assert (e' = e) as -> by congruence. exact Et.
      + rewrite (KU n Hn Ha) in E. rewrite (entry_tree_eq s s2 n e (KS n Hn Ha)), (tree_of_eq s s2 n (KS n Hn Ha)). exact (I8 n e Hn E).
  Qed.

  Lemma shaped_get p : forall T, shaped T -> shaped (get p T).
  Proof.
    induction p as [|[c b] p IH]; intros T H; [exact H|]. cbn [get]. destruct T as [ |m|x|x|x|l o|x m l|x q|l|c' x y|x m f y|m|m|x|x l]; try exact (IH _ H).
    destruct (eqc c c'); [|exact (IH _ H)]. apply IH. destruct H as (_ & H1 & H2). unfold side. destruct b; assumption.
  Qed.
  (** ** reading *)
  Lemma read_value s fs p v n u : found s fs p v -> Forall (frame_ok s) fs -> good_path p -> In n ns -> cons s -> holds I p = true -> read_at s fs p n = Ok u -> eval I u = v n.
  Proof.
    intros F FF Hp Hn HC HH E. unfold read_at in E. pose proof (F HC HH n Hn) as V. destruct (find_entry fs n) as [e|] eqn:Ef; [|injection E as <-; exact V].
    destruct (found_entry_ok s fs n e FF Hn Ef) as (_ & _ & Hs). apply bind_ok in E as ([[rest rp] m'] & E1 & E2). cbn [fst] in E2.
    pose proof (diff_shaped p _ _ _ _ _ E1 Hs) as Hr. rewrite (replace_value I n rest u Hr E2). rewrite (diff_value I (i_term I n) p Hp _ _ _ _ _ Hs HH E1). exact V.
  Qed.
  Lemma expr_value s fs p v e u : found s fs p v -> Forall (frame_ok s) fs -> good_path p -> incl (names e) ns -> resolve k array (read_at s fs p) e = Ok u -> cons s -> holds I p = true ->
    eval I u = eval (at_state I v) e.
  Proof.
    intros F FF Hp He E HC HH. apply (resolve_value I k array HN (read_at s fs p) v e u); [| |exact E].
    - intros n t Hn Er. exact (read_value s fs p v n t F FF Hp (He n Hn) HC HH Er).
    - intros n Hn Ha. pose proof (F HC HH n (He n Hn)) as V. destruct (find_entry fs n) as [e0|] eqn:Ef; [|exact V].
      destruct (found_entry_ok s fs n e0 FF (He n Hn) Ef) as (Hq & _). apply HQ in Hq as [_ Hq]. congruence.
  Qed.
  Lemma cond_ready s c t r p w v asg cnd : Inv s c t r p w v -> readable w asg cnd = true -> incl (names cnd) ns -> fine cnd ->
    exists c', resolve k array (read_at s (BFrame c t :: r) p) cnd = Ok c' /\ fine c' /\
      (cons s -> holds I p = true -> eval I c' = eval (at_state I v) cnd) /\
      (forall n, In n (names cnd) -> asg n = true -> find_entry (BFrame c t :: r) n = None).
  Proof.
    intros (I1 & I2 & I3 & I4 & I5 & I6 & I7 & I8) R Hn Hf. unfold readable in R. rewrite forallb_forall in R.
    destruct (resolve_leaf k array (read_at s (BFrame c t :: r) p) cnd) as (c' & E & F).
    - intros n Hi. specialize (R n Hi). destruct (I7 n (Hn n Hi)) as [P1 P2]. unfold read_at. destruct (w n) as [pl f]. cbn [fst snd] in *.
      assert (pl = BVacant \/ pl <> BVacant) as [->|Hv] by (destruct pl; auto; right; discriminate); [destruct P1 as [-> _]; exists n; split; [reflexivity|apply wild_plain, ns_plain, Hn, Hi]|].
      assert (f = true) as -> by (destruct pl, f; auto; discriminate R || congruence). destruct (P2 eq_refl Hv) as (e & p0 & p1 & r0 & Ee & -> & E1 & E2). rewrite Ee.
      assert (wild r0 = false) as Wr by (pose proof (shaped_get p0 _ (proj2 (proj2 (found_entry_ok s _ n e I3 (Hn n Hi) Ee)))) as Sg; rewrite E2 in Sg; exact Sg).
      destruct (diff_leaf p0 p1 r0 (good_path_ok _ I5) _ [] E1 E2) as (rp & m' & ->). cbn [bind fst replaceUndefined]. eauto.
    - exact Hf.
    - exists c'. split; [exact E|]. split; [exact F|]. split.
      + intros HC HH. exact (expr_value _ _ _ _ _ _ I6 I3 I5 Hn E HC HH).
      + intros n Hi Ha. specialize (R n Hi). destruct (I7 n (Hn n Hi)) as [P1 _]. destruct (w n) as [[| | |] f]; cbn [fst] in P1; [exact (proj1 P1)|..]; rewrite Ha, andb_false_r in R; discriminate R.
  Qed.

  Lemma get_term p n : get p (DTerm n) = DTerm n.
  Proof. induction p as [|[c b] p IH]; [reflexivity|exact IH]. Qed.
  Lemma holds_app p q : holds I (p ++ q) = holds I p && holds I q.
  Proof. unfold holds. apply forallb_app. Qed.

  (** ** entering an arm, after the other arm *)
  Lemma arm_start s c t r p w v cnd c' b s1 v1 other : Inv s c t r p w v ->
    resolve k array (read_at s (BFrame c t :: r) p) cnd = Ok c' -> fine c' -> incl (names cnd) ns ->
    St s1 -> Val s1 v1 -> incl (bs_terms s) (bs_terms s1) ->
    (forall n, In n (bs_terms s) -> other n = false -> dget (bs_trees s1) n = dget (bs_trees s) n) ->
    (forall n, other n = true -> Q n = true /\ dget (bs_trees s1) n <> None /\ exists M, tree_of s1 n = graft (p ++ [(c', negb b)]) (tree_of s n) M) ->
    (forall n, other n = true -> ~ locked (BFrame (Some (cnd, b)) [] :: BFrame c t :: r) n) ->
    (cons s1 -> holds I (p ++ [(c', b)]) = true -> forall n, In n ns -> v1 n = v n) ->
    Inv s1 (Some (cnd, b)) [] (BFrame c t :: r) (p ++ [(c', b)]) (enter other w) v1.
  Proof.
    intros (I1 & I2 & I3 & I4 & I5 & I6 & I7 & I8) Ec Fc Nc S1 V1 HT HS HO HL HV.
    assert (forall n, In n ns -> In n (bs_terms s)) as HT0 by exact (proj1 (proj2 (proj2 I1))).
    assert (no_delay c') as Dc by exact (proj1 (proj1 (fine_good _ Fc))).
    assert (cons s1 -> cons s) as CB.
    { apply cons_back; [exact HT|]. intros n Hn Hx. apply HS; [exact Hn|]. destruct (other n) eqn:E; [|reflexivity]. exfalso. apply Hx. now apply HQ, HO. }
    assert (forall f, frame_ok s f -> frame_ok s1 f) as KF.
    { intros f (F1 & F2 & F3). split; [exact F1|]. split; [exact F2|]. intros n e Hn E. destruct (F3 n e Hn E) as (L1 & L2 & L3). split; [exact L1|]. split.
      - destruct (other n) eqn:Ho; [exact (proj1 (proj2 (HO n Ho)))|]. rewrite HS; [exact L2|apply HT0, HQ, L1|exact Ho].
      - destruct e as [|u]; [|exact L3]. exact (proj1 (proj2 (proj2 (proj2 (proj2 S1))) n L1)). }
    assert (good_path (p ++ [(c', b)])) as Gp by (apply Forall_app; split; [exact I5|constructor; [apply fine_good, Fc|constructor]]).
    assert (forall n, In n ns -> other n = true -> present (p ++ [(c', b)]) (tree_of s1 n) = true /\ get (p ++ [(c', b)]) (tree_of s1 n) = get (p ++ [(c', b)]) (tree_of s n)) as Sib.
    { intros n Hn Ho. destruct (HO n Ho) as (_ & _ & M & ->). pose proof (sibling p c' (negb b) (tree_of s n) M (good_path_ok _ I5) Dc) as K. rewrite negb_involutive in K. exact K. }
    split; [exact S1|]. split; [exact V1|]. split; [|split; [|split; [exact Gp|split; [|split]]]].
    - constructor; [|eapply Forall_impl; [|exact I3]; exact KF]. split; [split; constructor|]. split; [exact Nc|]. discriminate.
    - cbn [condpath bf_cond]. assert (cp s1 (BFrame c t :: r) = Ok p) as E1.
      { rewrite (condpath_stable k array s s1); [exact I4|]. intros n Hl. destruct (in_dec chain_dec n ns) as [Hin|Hin].
        - apply HS; [now apply HT0|]. destruct (other n) eqn:Ho; [|reflexivity]. exfalso. apply (HL n Ho). right. exact Hl.
        - exfalso. apply Hin. clear -I3 Hl. induction I3 as [|f fs Hf _ IH]; cbn [locked] in Hl; [contradiction|]. destruct Hl as [Hl|Hl]; [|auto]. destruct Hf as (_ & Hf & _). destruct (bf_cond f) as [[c0 b0]|]; [|contradiction]. apply Hf, Hl. }
      cbn [condpath bf_cond] in E1. rewrite E1. cbn [bind]. rewrite (resolve_ext k array (read_at s1 (BFrame c t :: r) p) (read_at s (BFrame c t :: r) p)); [rewrite Ec; reflexivity|].
      intros n Hi. symmetry. apply read_ext. intros Hf. apply HS; [apply HT0, Nc, Hi|]. destruct (other n) eqn:Ho; [|reflexivity]. exfalso. apply (HL n Ho). left. split; [exact Hi|exact Hf].
    - intros HC HH n Hn. cbn [find_entry bf_tab dget]. pose proof HH as HH'. rewrite holds_app in HH'. apply andb_true_iff in HH' as [HP _].
      pose proof (I6 (CB HC) HP n Hn) as V. rewrite (HV HC HH n Hn). change (match dget t n with Some e => Some e | None => find_entry r n end) with (find_entry (BFrame c t :: r) n).
      destruct (find_entry (BFrame c t :: r) n) as [[|u]|] eqn:Ef; [|exact V|exact V]. cbn [entry_tree]. destruct (found_entry_ok s _ n Live I3 Hn Ef) as (Hq & _). rewrite <- (HV HC HH n Hn). exact (V1 HC n Hq).
    - intros n Hn. destruct (I7 n Hn) as [P1 P2]. unfold enter. destruct (w n) as [pl f]. cbn [fst snd] in *.
      assert (find_entry (BFrame (Some (cnd, b)) [] :: BFrame c t :: r) n = find_entry (BFrame c t :: r) n) as Ef by reflexivity.
      split; [rewrite Ef|].
      + destruct pl; cbn [fst].
        * destruct P1 as [P1 P3]. split; [exact P1|]. intros Hq. destruct (P3 Hq) as [G1 G2]. destruct (other n) eqn:Ho.
          -- destruct (Sib n Hn Ho) as [K1 K2]. split; [exact K1|]. rewrite K2, get_app, G2. apply get_none.
          -- rewrite (tree_of_eq s s1 n) by (apply HS; auto). rewrite get_app, G2. split; [|apply get_none]. apply present_app. split; [exact G1|]. rewrite G2. apply present_none.
        * destruct P1 as [P1 P3]. destruct (other n) eqn:Ho; cbn [fst].
          -- split; [exact P1|]. exact (proj1 (Sib n Hn Ho)).
          -- split; [exact P1|]. rewrite (tree_of_eq s s1 n) by (apply HS; auto). right. exists p, (c', b). auto.
        * exact (proj1 P1).
        * exact P1.
      + intros Hf Hv. assert (f = true /\ pl <> BVacant) as [-> Hv'] by (destruct pl; cbn [fst snd] in *; split; congruence). destruct (P2 eq_refl Hv') as (e & p0 & p1 & r0 & E0 & Ep & E1 & E2).
        destruct (other n) eqn:Ho; [destruct e as [|u]|].
        * cbn [entry_tree] in *. destruct (Sib n Hn Ho) as [K1 K2]. exists Live, (p ++ [(c', b)]), [], r0. rewrite Ef, app_nil_r. split; [exact E0|]. split; [reflexivity|]. split; [exact K1|]. cbn [entry_tree]. rewrite K2, Ep, <- app_assoc, get_app, E2. apply get_term.
        * exists (Own u), p0, (p1 ++ [(c', b)]), r0. rewrite Ef, app_assoc, <- Ep. auto.
        * exists e, p0, (p1 ++ [(c', b)]), r0. rewrite Ef, app_assoc, <- Ep. rewrite (entry_tree_eq s s1 n e) by (apply HS; auto). auto.
    - discriminate.
  Qed.
End Main.
