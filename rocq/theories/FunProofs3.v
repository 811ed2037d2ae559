(** FunProofs3.v - what a visited statement of a function leaves: trees and entries. *)
From Verif Require Import Base ScopeModel ScopeSpec ScopeProofs DfModel DfSpec DfProofs ReorderModel ReorderSpec ReorderProofs BindModel BindSpec BindProofs AsgModel AsgSpec AsgProofs ExprModel MkModel MkProps BlkModel BlkSpec BlkProofs BlkProofs2 BlkProofs3 FunModel FunSpec FunProofs FunProofs2.

Notation terms st := (bs_terms (fs_st st)).
Notation trees st := (bs_trees (fs_st st)).

(** ** entries *)
Definition settled (a0 : option df) (es : list (option entry)) (a : option df) : Prop :=
  disciplined a0 es /\ match last_entry es with None => True | Some Live => a <> None | Some (Own t) => a = Some t end.
Lemma settled_app a0 e1 a1 e2 a2 : settled a0 e1 a1 -> settled a1 e2 a2 -> (a1 = None -> a0 = None) ->
  (last_entry e1 <> None -> last_entry e2 = None -> a2 = a1) -> settled a0 (e1 ++ e2) a2.
Proof.
  intros [D1 L1] [D2 L2] H0 H. split.
  - apply disc_app; [exact D1| |].
    + intros E. clear -D2 H0. induction e2 as [|[[|t]|] e2 IH]; cbn [disciplined] in *; auto. split; [apply H0, D2|apply D2].
    + intros E. apply (disc_some e2 a1); [|exact D2]. destruct (last_entry e1) as [[|t]|]; congruence.
  - rewrite last_app. destruct (last_entry e2) as [e|] eqn:E2; [exact L2|]. destruct (last_entry e1) as [e|] eqn:E1; [|exact Logic.I]. rewrite H by congruence. exact L1.
Qed.
Lemma fold_nones es : last_entry es = None -> forall v, fold_left put1 es v = v.
Proof. intros H. apply last_some in H. induction H as [|e es He _ IH]; intros v; [reflexivity|]. subst e. apply IH. Qed.
Lemma put_settled a0 es a to : settled a0 es a -> (to <> None -> a0 <> None) ->
  exists to', fold_left put1 es (a, to) = (a, to') /\
    match last_entry es with
    | None => to' = to
    | Some _ => exists e, to' = Some e /\ a = Some (val a e) /\ (e = Live -> to = Some Live \/ a0 = None)
    end.
Proof.
  intros [D L] H. destruct (last_entry es) as [e|] eqn:E.
  - assert (left_by a0 es a) as K by (split; [exact D|rewrite E; destruct e; exact L]). destruct (put_left a0 es a to K H) as (to' & A & B). rewrite E in B. exists to'. auto.
  - exists to. split; [|reflexivity]. now apply fold_nones.
Qed.

Section Body.
  Variable cf : chain.
  Hypothesis Hcf : no_any cf.
  Variable vs : list string.
  Definition nm (s : string) : chain := cf ++ [sig s].
  Lemma nm_any s : no_any (nm s).
  Proof. apply no_any_app. split; [exact Hcf|apply sig_any]. Qed.
  Lemma nm_inj s r : nm s = nm r -> s = r.
  Proof. intros H. apply last_inj in H as [_ H]. injection H as ->. reflexivity. Qed.

  Record Core (st st' : fstate) (p : path) (asg : list string) : Prop := {
    c_grow : Grow cf st st';
    c_same : forall n, In n (terms st) -> (forall s, In s asg -> n <> nm s) -> dget (trees st') n = dget (trees st) n;
    c_asg : forall s, In s asg -> In s vs /\ dget (trees st') (nm s) <> None /\ exists M, tree_of (fs_st st') (nm s) = graft p (tree_of (fs_st st) (nm s)) M;
    c_shape : forall s, In s vs -> shaped (tree_of (fs_st st') (nm s)) /\ stable true (tree_of (fs_st st') (nm s)) = true }.
  Definition declared (st : fstate) : Prop := forall s, In s vs -> In (nm s) (terms st).
  Lemma decl_grow st st' : Grow cf st st' -> declared st -> declared st'.
  Proof. intros H D s Hs. apply (w_terms _ _ _ H), D, Hs. Qed.
  Lemma core_same st st' p asg s : declared st -> Core st st' p asg -> In s vs -> ~ In s asg -> dget (trees st') (nm s) = dget (trees st) (nm s).
  Proof. intros D C Hs N. apply (c_same _ _ _ _ C); [now apply D|]. intros r Hr E. apply nm_inj in E. subst r. contradiction. Qed.
  Lemma core_refl st p : Good st -> (forall s, In s vs -> shaped (tree_of (fs_st st) (nm s)) /\ stable true (tree_of (fs_st st) (nm s)) = true) -> Core st st p [].
  Proof. intros H K. constructor; auto; [now apply grow_refl|contradiction]. Qed.
  Lemma core_app st st1 st2 p r1 r2 asg1 asg2 : path_ok p -> declared st -> Core st st1 (p ++ r1) asg1 -> Core st1 st2 (p ++ r2) asg2 -> Core st st2 p (asg1 ++ asg2).
  Proof.
    intros Hp D A B. constructor.
    - exact (grow_trans _ _ _ _ (c_grow _ _ _ _ A) (c_grow _ _ _ _ B)).
    - intros n Hn H. rewrite (c_same _ _ _ _ B n (w_terms _ _ _ (c_grow _ _ _ _ A) n Hn)); [|intros s Hs; apply H, in_or_app; auto]. apply (c_same _ _ _ _ A n Hn). intros s Hs. apply H, in_or_app. auto.
    - intros s Hs. pose proof (decl_grow _ _ (c_grow _ _ _ _ A) D) as D1. destruct (in_dec string_dec s asg2) as [H2|H2].
      + destruct (c_asg _ _ _ _ B s H2) as (V & N & M2 & E2). split; [exact V|]. split; [exact N|]. rewrite graft_app in E2. destruct (in_dec string_dec s asg1) as [H1|H1].
        * destruct (c_asg _ _ _ _ A s H1) as (_ & _ & M1 & E1). rewrite graft_app in E1. rewrite E2, E1, graft_graft by exact Hp. eauto.
        * rewrite E2, (tree_of_eq (fs_st st) (fs_st st1) (nm s)); [eauto|]. exact (core_same _ _ _ _ s D A V H1).
      + assert (In s asg1) as H1 by (apply in_app_or in Hs as [Hs|Hs]; [exact Hs|contradiction]). destruct (c_asg _ _ _ _ A s H1) as (V & N & M1 & E1). split; [exact V|].
        pose proof (core_same _ _ _ _ s D1 B V H2) as K. split; [rewrite K; exact N|]. rewrite (tree_of_eq _ _ _ K), E1, graft_app. eauto.
    - exact (c_shape _ _ _ _ B).
  Qed.
  Lemma core_prefix st st' p r asg : Core st st' (p ++ r) asg -> Core st st' p asg.
  Proof. intros [A B C E]. constructor; auto. intros s Hs. destruct (C s Hs) as (V & N & M & ->). rewrite graft_app. eauto. Qed.
  Lemma core_exists st st' p asg s : declared st -> In s vs -> Core st st' p asg -> dget (trees st) (nm s) <> None -> dget (trees st') (nm s) <> None.
  Proof. intros D Hs C N. destruct (in_dec string_dec s asg) as [H|H]; [exact (proj1 (proj2 (c_asg _ _ _ _ C s H)))|]. rewrite (core_same _ _ _ _ s D C Hs H). exact N. Qed.
  Lemma core_cons I st st1 st2 p q asg1 asg2 : declared st -> Core st st1 p asg1 -> Core st1 st2 q asg2 -> consistent I (fs_st st) (fs_st st2) ->
    consistent I (fs_st st) (fs_st st1) /\ consistent I (fs_st st1) (fs_st st2).
  Proof.
    intros D A B H. split.
    - apply (cons_left I _ _ _ H (w_terms _ _ _ (c_grow _ _ _ _ B))). intros n Hn N. apply (c_same _ _ _ _ B n Hn). intros s Hs ->. apply N, D. exact (proj1 (c_asg _ _ _ _ B s Hs)).
    - exact (cons_right I _ _ _ (w_terms _ _ _ (c_grow _ _ _ _ A)) H).
  Qed.

  (** The entries of a frame: of variables with trees. *)
  Definition Tab (st : fstate) (t : btable) : Prop := plain_tab t /\ forall n e, no_any n -> dget t n = Some e -> (exists s, In s vs /\ n = nm s) /\ dget (trees st) n <> None.
  Lemma tab_nil st : Tab st [].
  Proof. split; [split; constructor|]. discriminate. Qed.
  Lemma tab_core st st' p asg t : declared st -> Core st st' p asg -> Tab st t -> Tab st' t.
  Proof. intros D C [A B]. split; [exact A|]. intros n e Hn E. destruct (B n e Hn E) as ((s & Hs & ->) & N). split; [eauto|]. exact (core_exists _ _ _ _ s D Hs C N). Qed.

  Record Arms (st st' : fstate) (tabs : list btable) (p : path) (asg dir : list string) : Prop := {
    a_core : Core st st' p asg;
    a_tabs : Forall plain_tab tabs;
    a_left : forall s, In s vs -> settled (dget (trees st) (nm s)) (map (fun u => dget u (nm s)) tabs) (dget (trees st') (nm s));
    a_dir : forall n, no_any n -> (last_entry (map (fun u => dget u n) tabs) <> None <-> exists s, In s dir /\ n = nm s);
    a_sub : incl dir asg }.
  Record Post (st st' : fstate) (t t' : btable) (p : path) (asg dir : list string) : Prop := {
    q_core : Core st st' p asg;
    q_tab : Tab st' t';
    q_keep : forall s, In s vs -> ~ In s dir -> dget t' (nm s) = dget t (nm s);
    q_dir : forall s, In s dir -> exists e, dget t' (nm s) = Some e /\ match e with Live => True | Own u => dget (trees st') (nm s) = Some u end;
    q_live : forall s, In s vs -> dget t' (nm s) = Some Live -> dget t (nm s) = Some Live \/ dget (trees st) (nm s) = None;
    q_sub : incl dir asg }.
  Lemma post_arms st st' t' p asg dir : Post st st' [] t' p asg dir -> Arms st st' [t'] p asg dir.
  Proof.
    intros [P1 P2 P3 P4 P5 P6]. constructor; auto.
    - constructor; [exact (proj1 P2)|constructor].
    - intros s Hs. cbn [map]. destruct (in_dec string_dec s dir) as [Hd|Hd].
      + destruct (P4 s Hd) as (e & E & K). rewrite E. split.
        * destruct e as [|u]; cbn [disciplined]; [|constructor]. split; [|constructor]. destruct (P5 s Hs E) as [J|J]; [discriminate J|exact J].
        * cbn [last_entry]. destruct e as [|u]; [|exact K]. exact (proj1 (proj2 (c_asg _ _ _ _ P1 s (P6 s Hd)))).
      + rewrite (P3 s Hs Hd). split; exact Logic.I.
    - intros n Hn. cbn [map last_entry]. split.
      + intros N. destruct (dget t' n) as [e|] eqn:E; [|congruence]. destruct (proj2 P2 n e Hn E) as ((s & Hs & ->) & _). exists s. split; [|reflexivity].
        destruct (in_dec string_dec s dir) as [Hd|Hd]; [exact Hd|]. rewrite (P3 s Hs Hd) in E. discriminate E.
      + intros (s & Hs & ->). destruct (P4 s Hs) as (e & -> & _). discriminate.
  Qed.
  Lemma arms_nil st tabs p : Good st -> (forall s, In s vs -> shaped (tree_of (fs_st st) (nm s)) /\ stable true (tree_of (fs_st st) (nm s)) = true) -> tabs = [] \/ tabs = [[]] -> Arms st st tabs p [] [].
  Proof.
    intros H K E. constructor.
    - now apply core_refl.
    - destruct E as [E|E]; rewrite E; repeat constructor.
    - intros s _. destruct E as [E|E]; rewrite E; split; exact Logic.I.
    - intros n Hn. destruct E as [E|E]; rewrite E; cbn [map dget last_entry]; (split; [congruence|intros (s & [] & _)]).
    - intros s [].
  Qed.
  Lemma arms_app st st1 st2 tabs1 tabs2 p r1 r2 asg1 asg2 dir1 dir2 : path_ok p -> declared st -> (forall s, In s dir1 -> In s asg2 -> In s dir2) ->
    Arms st st1 tabs1 (p ++ r1) asg1 dir1 -> Arms st1 st2 tabs2 (p ++ r2) asg2 dir2 -> Arms st st2 (tabs1 ++ tabs2) p (asg1 ++ asg2) (dir1 ++ dir2).
  Proof.
    intros Hp D HL [A1 A2 A3 A4 A5] [B1 B2 B3 B4 B5]. pose proof (decl_grow _ _ (c_grow _ _ _ _ A1) D) as D1. constructor.
    - exact (core_app _ _ _ _ _ _ _ _ Hp D A1 B1).
    - apply Forall_app. auto.
    - intros s Hs. rewrite map_app. apply (settled_app _ _ _ _ _ (A3 s Hs) (B3 s Hs)).
      + intros E. destruct (dget (trees st) (nm s)) eqn:E0; [|reflexivity]. exfalso. revert E. apply (core_exists _ _ _ _ s D Hs A1). congruence.
      + intros N1 N2. apply A4 in N1 as (r & Hr & E); [|apply nm_any]. apply nm_inj in E. subst r. apply (core_same _ _ _ _ s D1 B1 Hs). intros H2.
        assert (last_entry (map (fun u => dget u (nm s)) tabs2) <> None) as K by (apply B4; [apply nm_any|]; exists s; split; [auto|reflexivity]). contradiction.
    - intros n Hn. rewrite map_app, last_app. specialize (A4 n Hn). specialize (B4 n Hn). unfold btable in *. split.
      + intros N. destruct (last_entry (map (fun u => dget u n) tabs2)).
        * destruct (proj1 B4 ltac:(discriminate)) as (s & Hs & E). exists s. split; [apply in_or_app; auto|exact E].
        * destruct (proj1 A4 N) as (s & Hs & E). exists s. split; [apply in_or_app; auto|exact E].
      + intros (s & Hs & E). destruct (last_entry (map (fun u => dget u n) tabs2)); [discriminate|]. apply in_app_or in Hs as [Hs|Hs]; [apply A4; eauto|]. exfalso. apply (proj2 B4); [eauto|reflexivity].
    - intros s Hs. apply in_or_app. apply in_app_or in Hs as [Hs|Hs]; auto.
  Qed.
  Lemma arms_prefix st st' tabs p r asg dir : Arms st st' tabs (p ++ r) asg dir -> Arms st st' tabs p asg dir.
  Proof. intros [A B C E F]. constructor; auto. exact (core_prefix _ _ _ _ _ A). Qed.

  (** The same trees and terms. *)
  Lemma core_trees st st' st2 p asg : Core st st' p asg -> plain_st (fs_st st2) -> terms st2 = terms st' -> fs_calls st2 = fs_calls st' ->
    (forall n, no_any n -> dget (trees st2) n = dget (trees st') n) -> Forall no_any (terms st) -> Core st st2 p asg.
  Proof.
    intros [[G W1 W2 W3] B C E] Hp Ht Hc Hd Ha. assert (forall s, tree_of (fs_st st2) (nm s) = tree_of (fs_st st') (nm s)) as K by (intros s; apply tree_of_eq, Hd, nm_any). constructor.
    - constructor; [|rewrite Ht; exact W1|rewrite Ht; exact W2|rewrite Hc; exact W3]. destruct G as [G1 G2 G3 G4 G5]. constructor; rewrite ?Ht, ?Hc; auto. intros n t Hn. rewrite Hd by exact Hn. eauto.
    - intros n Hn H. rewrite Hd by exact (proj1 (Forall_forall _ _) Ha n Hn). auto.
    - intros s Hs. destruct (C s Hs) as (V & N & M & EM). split; [exact V|]. rewrite Hd by apply nm_any. split; [exact N|]. rewrite K. eauto.
    - intros s Hs. rewrite K. auto.
  Qed.
  Lemma post_of_arms st st' tabs t p asg dir : Good st -> Tab st t -> Arms st st' tabs p asg dir ->
    let r := copy_tables (fs_st st') t tabs in let st2 := FSt (fst r) (fs_calls st') in
    Post st st2 t (snd r) p asg dir /\ terms st2 = terms st' /\ forall n, no_any n -> dget (trees st2) n = dget (trees st') n.
  Proof.
    intros G [T1 T2] A. pose proof (a_core _ _ _ _ _ _ A) as C. pose proof (w_good _ _ _ (c_grow _ _ _ _ C)) as G'.
    destruct (copy_tables_view tabs (a_tabs _ _ _ _ _ _ A) (fs_st st') t (g_plain _ G') T1) as (V1 & V2 & V3 & V4 & V5).
    set (r := copy_tables (fs_st st') t tabs) in *. cbv zeta. set (st2 := FSt (fst r) (fs_calls st')).
    assert (forall n, no_any n -> last_entry (map (fun u => dget u n) tabs) = None -> dget (bs_trees (fst r)) n = dget (trees st') n /\ dget (snd r) n = dget t n) as K0.
    { intros n Hn N. specialize (V5 n Hn). rewrite fold_nones in V5 by exact N. unfold view in V5. injection V5 as -> ->. auto. }
    assert (forall s, In s dir -> dget (bs_trees (fst r)) (nm s) = dget (trees st') (nm s) /\ exists e, dget (snd r) (nm s) = Some e /\ dget (trees st') (nm s) = Some (val (dget (trees st') (nm s)) e) /\ (e = Live -> dget t (nm s) = Some Live \/ dget (trees st) (nm s) = None)) as K1.
    { intros s Hs. pose proof (proj1 (c_asg _ _ _ _ C s (a_sub _ _ _ _ _ _ A s Hs))) as Hv. specialize (V5 (nm s) (nm_any s)). unfold view in V5.
      destruct (put_settled _ _ _ (dget t (nm s)) (a_left _ _ _ _ _ _ A s Hv)) as (to' & E1 & E2).
      - intros N. destruct (dget t (nm s)) as [e|] eqn:E; [|congruence]. exact (proj2 (T2 _ e (nm_any s) E)).
      - unfold btable in *. rewrite E1 in V5. injection V5 as -> Et. assert (last_entry (map (fun u : ndict entry => dget u (nm s)) tabs) <> None) as N by (apply (a_dir _ _ _ _ _ _ A (nm s) (nm_any s)); eauto).
        destruct (last_entry (map (fun u : ndict entry => dget u (nm s)) tabs)) as [x|]; [|congruence]. destruct E2 as (e & -> & Ea & El). split; [reflexivity|]. exists e. auto. }
    assert (forall n, no_any n -> dget (trees st2) n = dget (trees st') n) as K.
    { intros n Hn. cbn [fs_st st2]. destruct (last_entry (map (fun u => dget u n) tabs)) as [x|] eqn:E; [|exact (proj1 (K0 n Hn E))].
      destruct (proj1 (a_dir _ _ _ _ _ _ A n Hn)) as (s & Hs & ->); [congruence|]. exact (proj1 (K1 s Hs)). }
    split; [|split; [exact V3|exact K]]. constructor.
    - apply (core_trees st st' st2 p asg C V1 V3 eq_refl K). exact (g_any _ G).
    - split; [exact V2|]. intros n e Hn E. destruct (last_entry (map (fun u => dget u n) tabs)) as [x|] eqn:EL.
      + destruct (proj1 (a_dir _ _ _ _ _ _ A n Hn)) as (s & Hs & ->); [congruence|]. destruct (c_asg _ _ _ _ C s (a_sub _ _ _ _ _ _ A s Hs)) as (Hv & N & _). split; [eauto|]. rewrite K by apply nm_any. exact N.
      + rewrite (proj2 (K0 n Hn EL)) in E. destruct (T2 n e Hn E) as ((s & Hs & ->) & N). split; [eauto|]. rewrite K by apply nm_any.
        destruct (in_dec string_dec s asg) as [H|H]; [exact (proj1 (proj2 (c_asg _ _ _ _ C s H)))|]. rewrite (c_same _ _ _ _ C (nm s)); [exact N| |].
        * destruct (dget (trees st) (nm s)) as [u|] eqn:Eu; [|congruence]. exact (g_in _ G _ u (nm_any s) Eu).
        * intros r0 Hr E0. apply nm_inj in E0. subst r0. contradiction.
    - intros s Hs N. apply K0; [apply nm_any|]. destruct (last_entry (map (fun u => dget u (nm s)) tabs)) as [x|] eqn:E; [|reflexivity]. exfalso.
      destruct (proj1 (a_dir _ _ _ _ _ _ A (nm s) (nm_any s))) as (r0 & Hr & E0); [congruence|]. apply nm_inj in E0. subst r0. contradiction.
    - intros s Hs. destruct (K1 s Hs) as (E0 & e & E & Ev & _). exists e. split; [exact E|]. destruct e as [|u]; [exact Logic.I|]. rewrite K by apply nm_any. exact Ev.
    - intros s Hs E. destruct (in_dec string_dec s dir) as [Hd|Hd].
      + destruct (K1 s Hd) as (_ & e & E' & _ & L). apply L. congruence.
      + left. rewrite <- E. symmetry. apply K0; [apply nm_any|]. destruct (last_entry (map (fun u => dget u (nm s)) tabs)) as [x|] eqn:EL; [|reflexivity]. exfalso.
        destruct (proj1 (a_dir _ _ _ _ _ _ A (nm s) (nm_any s))) as (r0 & Hr & E0); [congruence|]. apply nm_inj in E0. subst r0. contradiction.
    - exact (a_sub _ _ _ _ _ _ A).
  Qed.

  (** ** where the trees branch *)
  Definition at_place (p : path) (T : df) (w : bplace) : Prop :=
    match w with BVacant => present p T = true /\ get p T = DNone | BHere => present p T = true | BNear => near p T | BFar => True end.
  Definition placed (st : fstate) (p : path) (w : fenv) : Prop := forall s, In s vs -> at_place p (tree_of (fs_st st) (nm s)) (w s).
  Lemma placed_arm st st' p c b other w : declared st -> path_ok p -> no_delay c -> placed st p w -> Core st st' (p ++ [(c, negb b)]) other ->
    placed st' (p ++ [(c, b)]) (in_arm other w).
  Proof.
    intros D Hp Hc H C s Hs. unfold in_arm. specialize (H s Hs). destruct (mem s other) eqn:Em.
    - apply mem_in in Em. destruct (c_asg _ _ _ _ C s Em) as (_ & _ & M & ->). destruct (sibling p c (negb b) (tree_of (fs_st st) (nm s)) M Hp Hc) as [S1 S2]. rewrite negb_involutive in S1, S2.
      destruct (w s); cbn [at_place] in *; auto. split; [exact S1|]. rewrite S2, get_app, (proj2 H). apply get_none.
    - assert (~ In s other) as N by (rewrite <- mem_in, Em; discriminate). rewrite (tree_of_eq (fs_st st) (fs_st st') (nm s)) by exact (core_same _ _ _ _ s D C Hs N).
      destruct (w s); cbn [at_place] in *; auto.
      + destruct H as [H1 H2]. split; [apply present_app; rewrite H2, present_none; auto|]. rewrite get_app, H2. apply get_none.
      + right. exists p, (c, b). auto.
  Qed.
  Lemma placed_out st st' p asg w : declared st -> path_ok p -> placed st p w -> Core st st' p asg -> placed st' p (out_of asg w).
  Proof.
    intros D Hp H C s Hs. unfold out_of. destruct (mem s asg) eqn:Em.
    - apply mem_in in Em. destruct (c_asg _ _ _ _ C s Em) as (_ & _ & M & ->). cbn [at_place]. now apply present_graft.
    - assert (~ In s asg) as N by (rewrite <- mem_in, Em; discriminate). rewrite (tree_of_eq (fs_st st) (fs_st st') (nm s)) by exact (core_same _ _ _ _ s D C Hs N). auto.
  Qed.
End Body.
