(** FsmProps.v - C25, C26, C27. *)
From Verif Require Import Base ScopeModel DfModel DfSpec TransModel TransSpec BindModel BindSpec FsmModel FsmSpec FsmProofs FsmProofs2.
Local Open Scope Z_scope.

(** C25 as stated is false: a state with a transition to itself is listed twice in a loop
    through it. *)
Definition self_ex : list (Z * cdict) := [(0, [(DNone, 1)]); (1, [(DNone, 2)]); (2, [(DInt "a", 2); (DNone, 0)])].
Theorem C25_loops_are_simple_refuted : ~ (forall m l, wf_fsm m -> In l (get_loop m) -> cycle m l /\ least_first l).
Proof.
  intros H. destruct (H self_ex [0; 1; 2; 2]) as [[_ Hn] _].
  - split; [repeat constructor; simpl; intuition discriminate|]. intros s dd E. apply zget_in in E. simpl in E.
    destruct E as [E|[E|[E|[]]]]; injection E as <- <-; (split; [repeat constructor|repeat constructor; simpl; intuition discriminate]).
  - vm_compute. auto.
  - apply NoDup_cons_iff in Hn as [_ Hn]. apply NoDup_cons_iff in Hn as [_ Hn]. apply NoDup_cons_iff in Hn as [Hn _]. apply Hn. simpl; auto.
Qed.
Print Assumptions C25_loops_are_simple_refuted.

(** C25: every reported loop is a closed walk of the transition graph, listed from its least
    state; it is a simple cycle in which some states with a transition to themselves are listed
    twice in a row. *)
Theorem C25_loops_are_real : forall m l, In l (get_loop m) ->
  closed_walk m l /\ least_first l /\ exists c, cycle m c /\ least_first c /\ stutter m c l.
Proof.
  intros m l H. destruct (get_loop_sound m l H) as (H1 & c & H2 & H3 & H4). split; [|split; auto; exists c; auto].
  eapply stutter_closed; [exact H2|apply H3].
Qed.
Print Assumptions C25_loops_are_real.

(** C25: with no self-transition on its states, a reported loop is a simple cycle. *)
Theorem C25_loops_simple_without_self_transitions : forall m l, In l (get_loop m) ->
  (forall s, In s l -> ~ edge m s s) -> cycle m l /\ least_first l.
Proof.
  intros m l H Hn. destruct (get_loop_sound m l H) as (H1 & c & H2 & H3 & H4). rewrite (stutter_noself m c l Hn H2) in H3. auto.
Qed.
Print Assumptions C25_loops_simple_without_self_transitions.
Example C25_hypotheses_met : In [0; 1; 2] (get_loop self_ex) /\ In [0; 1] (get_loop [(0, [(DNone, 1)]); (1, [(DNone, 0)])]).
Proof. split; vm_compute; auto. Qed.

(** C26: the search from a state finds every simple cycle through it of at most 51 states. *)
Theorem C26_search_finds_cycles : forall m src c, cycle m c -> (length c <= 51)%nat -> last c 0 = src ->
  In c (get_looppath m src).
Proof. intros. now apply get_looppath_complete. Qed.
Print Assumptions C26_search_finds_cycles.

(** C26: every simple cycle of at most 51 states is reported, or every state on it already
    occurs in the reported loops at least as often as it has transitions. *)
Theorem C26_loops_reported_partial : forall m c, cycle m c -> least_first c -> (length c <= 51)%nat ->
  In c (get_loop m) \/
  forall s dd, In s c -> zget m s = Some dd -> Z.of_nat (length dd) <= occurrences s (get_loop m).
Proof. intros. now apply get_loop_complete. Qed.
Print Assumptions C26_loops_reported_partial.

(** C26 as stated is false: a state is not searched once it occurs in as many loops as it has
    transitions, and then loops through it are lost; and loops of 52 states are never found. *)
Definition lost_ex : list (Z * cdict) := [(0, [(DInt "a", 1); (DInt "b", 2)]); (1, [(DNone, 2)]); (2, [(DInt "a", 0); (DInt "b", 1)])].
Theorem C26_all_loops_reported_refuted : ~ (forall m c, wf_fsm m -> cycle m c -> least_first c -> (length c <= 51)%nat -> In c (get_loop m)).
Proof.
  intros H. specialize (H lost_ex [1; 2]). assert (In [1; 2] (get_loop lost_ex)) as K.
  - apply H.
    + split; [repeat constructor; simpl; intuition discriminate|]. intros s dd E. apply zget_in in E. simpl in E.
      destruct E as [E|[E|[E|[]]]]; injection E as <- <-; (split; [repeat constructor|repeat constructor; simpl; intuition discriminate]).
    + split; [split; [discriminate|]|repeat constructor; simpl; intuition discriminate]. simpl.
      constructor; [do 2 eexists; split; [reflexivity|simpl; auto]|]. constructor; [do 2 eexists; split; [reflexivity|simpl; auto]|constructor].
    + repeat constructor; lia.
    + simpl; lia.
  - vm_compute in K. intuition discriminate.
Qed.
Print Assumptions C26_all_loops_reported_refuted.

Definition ring (n : nat) : list (Z * cdict) :=
  map (fun i => (Z.of_nat i, [(DNone, Z.of_nat (S i mod n))])) (seq 0 n).
Theorem C26_long_loops_refuted : ~ (forall m c, cycle m c -> least_first c -> exists src, In c (get_looppath m src)) /\
  cycle (ring 52) (map Z.of_nat (seq 0 52)) /\ get_loop (ring 52) = [].
Proof.
  assert (cycle (ring 52) (map Z.of_nat (seq 0 52))) as Hc.
  { split; [split; [discriminate|]|].
    - vm_compute. repeat (constructor; [do 2 eexists; split; [reflexivity|simpl; auto]|]). constructor.
    - apply FinFun.Injective_map_NoDup; [intros a b; lia|apply seq_NoDup]. }
  split; [|split; [exact Hc|vm_compute; reflexivity]].
  intros H. destruct (H (ring 52) (map Z.of_nat (seq 0 52)) Hc) as (src & Hs).
  { vm_compute. repeat (constructor; [discriminate|]). constructor. }
  destruct (zget (ring 52) src) as [dd|] eqn:E; [|unfold get_looppath in Hs; rewrite E in Hs; destruct Hs].
  apply zget_in in E. assert (get_looppath (ring 52) src = []) as Hn; [|rewrite Hn in Hs; destruct Hs].
  apply in_map_iff in E as (i & Ei & Hi). injection Ei as <- _. clear Hs H Hc.
  apply in_seq in Hi. destruct Hi as [_ Hi]. simpl in Hi.
  do 52 (destruct i as [|i]; [vm_compute; reflexivity|]). lia.
Qed.
Print Assumptions C26_long_loops_refuted.
Example C26_hypotheses_met : cycle lost_ex [0; 1; 2] /\ least_first [0; 1; 2] /\ In [0; 1; 2] (get_loop lost_ex).
Proof.
  split; [|split; [repeat constructor; lia|vm_compute; auto]].
  split; [split; [discriminate|]|repeat constructor; simpl; intuition discriminate]. simpl.
  repeat (constructor; [do 2 eexists; split; [reflexivity|simpl; auto]|]). constructor.
Qed.

(** C27: resolving keeps for every state at most one transition per target; a transition
    enabled afterwards was enabled before; and if the targets of the state are distinguishable,
    all enabled transitions remain. [optimize] is any simplifier that keeps the truth of
    disjunctions. *)
Theorem C27_resolve_keeps_transitions_partial : forall (P : interp -> Prop) optimize m m',
  (forall I, P I -> logical I) -> keeps_truth P plain_tree optimize -> wf_fsm (m_fsm m) ->
  resolve optimize m = Ok m' ->
  m_any m' = m_any m /\
  forall s,
    (zget (m_fsm m) s = None <-> zget (m_fsm m') s = None) /\
    (forall dd', zget (m_fsm m') s = Some dd' -> NoDup (map snd dd')) /\
    (forall I d, P I -> goes I (m_fsm m') s d -> goes I (m_fsm m) s d) /\
    (forall dd, zget (m_fsm m) s = Some dd -> distinguishable P dd ->
       forall I d, P I -> goes I (m_fsm m) s d -> goes I (m_fsm m') s d).
Proof.
  intros P optimize m m' HP Hopt [Hn Hw] E.
  assert (Forall (fun p => plains (snd p)) (m_fsm m)) as Hp.
  { apply Forall_forall. intros [s dd] Hin. simpl. eapply Hw, in_zget; eauto. }
  destruct (resolve_spec optimize m m' Hn Hp E) as [Ha Hs]. split; auto. intros s. specialize (Hs s). unfold goes.
  destruct (zget (m_fsm m) s) as [dd|] eqn:Ed.
  - destruct Hs as (dd' & Ed' & Er & Hpl). rewrite Ed'.
    destruct (resolve_src_spec optimize P HP Hopt dd dd' Hpl Er) as (_ & _ & R3 & R4 & R5).
    split; [split; discriminate|]. split; [intros d0 H; injection H as <-; auto|]. split.
    + intros I d HI (d0 & H & He). injection H as <-. exists dd. split; auto.
    + intros d0 H Hd I d HI (d1 & H1 & He). injection H as <-. injection H1 as <-. exists dd'. split; auto.
  - rewrite Hs. split; [tauto|]. split; [discriminate|]. split; [intros I d _ (d0 & H & _); discriminate|discriminate].
Qed.
Print Assumptions C27_resolve_keeps_transitions_partial.

(** An interpretation of conditions by integers: signals have values, || is or. *)
Definition boolI (f : chain -> Z) : interp :=
  Interp Z 0 f (fun t => match t with DEval (PInt v) _ _ _ => if 0 <? v then 1 else 0 | _ => 0 end)
    (fun o l => match o, l with
                | Lor, [a; b] => if (negb (a =? 0)) || (negb (b =? 0)) then 1 else 0
                | _, _ => 0 end)
    (fun _ _ _ => 0) (fun _ _ => 0) (fun _ => 0) (fun x => x) (fun _ _ => 0) (fun x => negb (x =? 0)).
Definition isBool (I : interp) : Prop := exists f, I = boolI f.
Lemma isBool_logical I : isBool I -> logical I.
Proof.
  intros (f & ->). split.
  - intros a b. simpl. destruct (a =? 0), (b =? 0); reflexivity.
  - intros v w x g. simpl. destruct (0 <? v); reflexivity.
Qed.
Lemma id_keeps : keeps_truth isBool plain_tree (fun t => Ok t).
Proof.
  intros a b r [Ha1 Ha2] [Hb1 Hb2] E. injection E as <-. split; [|split; [discriminate|auto]].
  split; unfold no_delay in *; simpl; [rewrite Ha1, Hb1|rewrite Ha2, Hb2]; reflexivity.
Qed.
Definition res_ex : machine :=
  Machine [(1, [(DTerm [Label "x" STsignal None], 2); (DTerm [Label "y" STsignal None], 2);
                (DTerm [Label "z" STsignal None], 3)])] [].
Example C27_hypotheses_met : wf_fsm (m_fsm res_ex) /\
  (forall dd, zget (m_fsm res_ex) 1 = Some dd -> distinguishable isBool dd) /\
  exists m', resolve (fun t => Ok t) res_ex = Ok m' /\ (exists dd', zget (m_fsm m') 1 = Some dd' /\ map snd dd' = [2; 3]).
Proof.
  split; [|split].
  - split; [repeat constructor; simpl; auto|]. intros s dd E. apply zget_in in E. simpl in E. destruct E as [E|[]].
    injection E as <- <-. split; [repeat constructor|repeat constructor; simpl; intuition discriminate].
  - intros dd E. vm_compute in E. injection E as <-.
    set (f := fun n : chain => if chain_eq n [Label "z" STsignal None] then 1 else 0).
    assert (isBool (boolI f)) as Hf by (exists f; reflexivity).
    assert (forall dd, dd = [(DTerm [Label "x" STsignal None], 2); (DTerm [Label "y" STsignal None], 2);
                (DTerm [Label "z" STsignal None], 3)] -> enabled (boolI f) dd 3 /\ ~ enabled (boolI f) dd 2) as K.
    { intros dd ->. split.
      - exists (DTerm [Label "z" STsignal None]). split; [simpl; auto|right; reflexivity].
      - intros (c & [H|[H|[H|[]]]] & [H'|H']); try (injection H as <-); try discriminate; vm_compute in H'; discriminate. }
    intros d1 d2 H1 H2 Hne. exists (boolI f). split; auto. specialize (K _ eq_refl) as [K1 K2]. simpl in H1, H2.
    intros HI. destruct H1 as [<-|[<-|[<-|[]]]], H2 as [<-|[<-|[<-|[]]]]; try congruence; tauto.
  - eexists. split; [vm_compute; reflexivity|]. eexists. split; [reflexivity|reflexivity].
Qed.

(** C27 as stated is false: two targets whose conditions are both constantly true collapse into
    one entry. *)
Theorem C27_resolve_keeps_all_transitions_refuted : ~ (forall (P : interp -> Prop) optimize m m',
  (forall I, P I -> logical I) -> keeps_truth P plain_tree optimize -> wf_fsm (m_fsm m) ->
  resolve optimize m = Ok m' -> forall I s d, P I -> goes I (m_fsm m) s d -> goes I (m_fsm m') s d).
Proof.
  intros H.
  specialize (H isBool (fun t => Ok t) (Machine [(0, [(DEval (PInt 1) (Some 1) false false, 1); (DNone, 2)])] [])
                (Machine [(0, [(DNone, 2)])] []) isBool_logical id_keeps).
  destruct (H) with (I := boolI (fun _ => 0)) (s := 0) (d := 1) as (dd & E & (c & Hc & _)).
  - split; [repeat constructor; simpl; auto|]. intros s dd E. apply zget_in in E. simpl in E. destruct E as [E|[]].
    injection E as <- <-. split; [repeat constructor|repeat constructor; simpl; intuition discriminate].
  - reflexivity.
  - exists (fun _ => 0). reflexivity.
  - eexists. split; [reflexivity|]. exists (DEval (PInt 1) (Some 1) false false). split; [simpl; auto|right; reflexivity].
  - simpl in E. injection E as <-. simpl in Hc. intuition discriminate.
Qed.
Print Assumptions C27_resolve_keeps_all_transitions_refuted.

(** C27 (building the machine): recording an inferred state node adds exactly the transitions
    from the states of its ranges, replacing those with the same source and condition; it
    always succeeds on wildcard-free conditions. *)
Theorem C27_construct_exact : forall m dst n, wf_fsm (m_fsm m) -> wf_cond (m_any m) -> plain_tree (transcond n) ->
  exists m', construct m dst n = Ok m' /\ wf_fsm (m_fsm m') /\ wf_cond (m_any m') /\
    (forall s c d, trans (m_fsm m') s c d <->
       (inr (range_pairs n) s /\ c = transcond n /\ d = dst) \/
       (~ (inr (range_pairs n) s /\ c = transcond n) /\ trans (m_fsm m) s c d)) /\
    (forall c d, In (c, d) (m_any m') <->
       (isany n = true /\ c = transcond n /\ d = dst) \/ (~ (isany n = true /\ c = transcond n) /\ In (c, d) (m_any m))).
Proof.
  intros m dst n Hf [Ha1 Ha2] Hc. unfold construct, add_any. destruct (isany n).
  - destruct (cput_nodup (m_any m) (transcond n) dst Ha1 Hc Ha2) as (r & -> & R1 & R2 & R3). simpl.
    destruct (add_ranges_spec (range_pairs n) dst (transcond n) Hc (Machine (m_fsm m) r) Hf) as (m' & -> & M1 & M2 & M3).
    exists m'. split; auto. split; auto. rewrite M2. simpl. split; [split; auto|]. split; [exact M3|].
    intros c d. rewrite R3. split.
    + intros [[H1 H2]|[H1 H2]]; [left; auto|right; split; auto; intros [_ K]; auto].
    + intros [(_ & H1 & H2)|[H1 H2]]; [left; auto|right; split; auto].
  - simpl. destruct (add_ranges_spec (range_pairs n) dst (transcond n) Hc m Hf) as (m' & -> & M1 & M2 & M3).
    exists m'. split; auto. split; auto. rewrite M2. split; [split; auto|]. split; [exact M3|].
    intros c d. split; [intros H; right; split; auto; intros [? _]; discriminate|]. intros [(? & _)|[_ H]]; auto. discriminate.
Qed.
Print Assumptions C27_construct_exact.
Example C27_construct_hypotheses_met :
  exists m', construct (Machine [] []) 5 (SNode [(1, 2); (7, 7)] 0 7 (DTerm [Label "x" STsignal None]) true) = Ok m' /\
  map fst (m_fsm m') = [1; 2; 7].
Proof. eexists. split; vm_compute; reflexivity. Qed.
