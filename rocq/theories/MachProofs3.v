(** MachProofs3.v - from trees to machines. *)
From Coq Require Import Sorting.Permutation.
From Verif Require Import Base ScopeModel DfModel DfSpec DfProofs BindSpec BindProofs SplitModel SplitSpec SplitProofs
  TransModel TransSpec TransProofs TransProps FsmModel FsmSpec FsmProofs FsmProofs2 FsmProps MachModel MachSpec MachText MachProofs MachProofs2.
Local Open Scope Z_scope.

Lemma split_ok t : proper_tree t -> split t = Ok (paths t).
Proof. intros [[H _] Hc]. exact (proj1 (split_paths t H Hc)). Qed.
Lemma paths_branch t : paths t <> [] -> isBranch t = true.
Proof. destruct t; cbn; congruence. Qed.

Lemma situation_of tn w t I s k kept dropped leaf : setting tn w t I s -> route t k leaf -> parted k kept dropped ->
  situation tn w kept I s.
Proof.
  intros (H1 & H2 & H3) R P. split; [exact H1|]. split; [exact H2|]. specialize (H3 _ _ R). rewrite Forall_forall in *.
  intros x Hx. apply H3. apply (parted_in _ _ _ P). now left.
Qed.

(** A dictionary of the routes of t without reset conditions. *)
Section Dict.
  Variables (tn : chain) (w : Z) (t : df) (d : funcdict).
  Hypothesis Ht : proper_tree t.
  Hypothesis Hd : remove_reset_condition (paths t) = Ok d.
  Hypothesis Hw : 0 <= w.
  Hypothesis Ha : forall k kept dropped leaf c, route t k leaf -> is_const c leaf -> parted k kept dropped -> analysable tn w kept.

  Lemma dict_plain : pkeys d.
  Proof. exact (proj1 (removed_spec _ (paths_plain t (proj1 Ht)) _ Hd)). Qed.
  Lemma dict_from k f : In (k, f) d -> isBranch f = false -> f <> DNone -> exists k0 r, route t k0 f /\ parted k0 k r.
  Proof.
    intros H Hb Hn. destruct (proj1 (proj2 (removed_spec _ (paths_plain t (proj1 Ht)) _ Hd)) k f H) as (k0 & r & A & B).
    exists k0, r. split; [exact (paths_route t k0 f A Hb Hn)|exact B].
  Qed.
  Lemma dict_walks I s : int_consts d -> setting tn w t I s -> walks d tn w I s.
  Proof.
    intros Hi Hs cs v x y z H. destruct (Hi _ _ _ _ _ H) as (n & ->). destruct (dict_from _ _ H eq_refl ltac:(discriminate)) as (k & r & R & P).
    assert (analysable tn w cs) as (A1 & A2 & A3) by (refine (Ha _ _ _ _ n R _ P); do 3 eexists; reflexivity).
    destruct (C24_conditions_exact_partial tn w cs Hw A1 A2 A3) as (q & E & Hq). exists q. split; [exact E|].
    apply Hq. exact (situation_of _ _ _ _ _ _ _ _ _ Hs R P).
  Qed.
  (** If the loop ends normally, the constants it met are integers - where the walk found states. *)
End Dict.

Lemma sorted_in {A} (leb : A -> A -> bool) l x : In x (sort_by leb l) <-> In x l.
Proof. split; apply Permutation_in; [symmetry|]; apply sort_by_perm. Qed.

Lemma pkeys_sorted d : pkeys d -> pkeys (sort_by len_leb d).
Proof. unfold pkeys. rewrite !Forall_forall. intros H x Hx. apply H. now apply sorted_in in Hx. Qed.

Lemma empty_wf : wf_machine (Machine [] []).
Proof. split; split; try constructor; intros; discriminate. Qed.
Lemma empty_moves I s d : ~ moves I (Machine [] []) s d.
Proof. intros [(dd & E & _)|(c & [] & _)]. discriminate. Qed.

Lemma machine_wf getWidth tn d m : pkeys d -> getFiniteStateMachine getWidth tn d = Ok m -> wf_machine m.
Proof.
  intros Hd E. unfold getFiniteStateMachine in E. destruct (length d =? 0)%nat; [injection E as <-; exact empty_wf|].
  destruct (getWidth tn) as [w|]; [|discriminate]. cbn [bind] in E.
  exact (machine_loop_wf tn w _ (pkeys_sorted d Hd) _ _ empty_wf E).
Qed.

(** Soundness does not need the constants to be integers: an entry with another constant stops the
    loop with an error, or has no states. *)
Definition walks_int (d : funcdict) (tn : chain) (w : Z) (I : interp) (s : Z) : Prop :=
  forall cs n x y z, In (cs, DEval (PInt n) x y z) d -> exists r, walkCondlist cs tn w = Ok r /\ (sres_holds I s r <-> all_true I cs).
Lemma machine_sound getWidth tn w t d m : proper_tree t -> remove_reset_condition (paths t) = Ok d -> 0 <= w -> getWidth tn = Ok w ->
  (forall k kept dropped leaf c, route t k leaf -> is_const c leaf -> parted k kept dropped -> analysable tn w kept) ->
  getFiniteStateMachine getWidth tn d = Ok m -> forall I s dst, setting tn w t I s -> moves I m s dst ->
  exists k kept dropped leaf, route t k leaf /\ is_const dst leaf /\ parted k kept dropped /\ all_true I kept.
Proof.
  intros Ht Hd Hw Ew Ha E I s dst Hs Hm. unfold getFiniteStateMachine in E. destruct (length d =? 0)%nat.
  { injection E as <-. exfalso. exact (empty_moves I s dst Hm). }
  rewrite Ew in E. cbn [bind] in E.
  assert (forall l, pkeys l -> (forall p, In p l -> In p d) -> forall m0 m', wf_machine m0 -> machine_loop l tn w m0 = Ok m' ->
    moves I m' s dst -> moves I m0 s dst \/ exists cs leaf, In (cs, leaf) l /\ is_const dst leaf /\ all_true I cs) as L.
  { intros l Hl. induction Hl as [|[cs f] l Hp Hl IH]; intros Hin m0 m' W0 E0 Hm'; cbn [machine_loop] in E0; [injection E0 as <-; now left|].
    assert (forall p, In p l -> In p d) as Hin' by (intros p Hi; apply Hin; now right).
    assert (forall m1, wf_machine m1 -> machine_loop l tn w m1 = Ok m' -> moves I m1 s dst \/ exists cs0 leaf, In (cs0, leaf) ((cs, f) :: l) /\ is_const dst leaf /\ all_true I cs0) as K.
    { intros m1 W1 E1. destruct (IH Hin' m1 m' W1 E1 Hm') as [K|(cs0 & leaf & K1 & K2)]; [now left|right; exists cs0, leaf; split; [now right|exact K2]]. }
    destruct f as [ | | | | | | | | | |v x y z| | | | ]; try exact (K m0 W0 E0).
    destruct (walkCondlist cs tn w) as [r|] eqn:Er; [|discriminate]. cbn [bind] in E0. cbn in Hp. pose proof (rp_list _ _ _ _ Hp Er) as Hr. unfold rp in Hr.
    destruct (nodes_of r) as [|n ns] eqn:En; [exact (K m0 W0 E0)|]. destruct v as [z0| | |]; try discriminate.
    assert (In (cs, DEval (PInt z0) x y z) d) as Hi by (apply Hin; now left).
    destruct (dict_from t d Ht Hd _ _ Hi eq_refl ltac:(discriminate)) as (k & r0 & R & P).
    assert (analysable tn w cs) as (A1 & A2 & A3) by (refine (Ha _ _ _ _ z0 R _ P); do 3 eexists; reflexivity).
    destruct (C24_conditions_exact_partial tn w cs Hw A1 A2 A3) as (q & Eq & Hq). rewrite Er in Eq. injection Eq as <-.
    specialize (Hq I s (situation_of _ _ _ _ _ _ _ _ _ Hs R P)). rewrite nodes_holds, En in Hq.
    destruct (construct_all_spec (n :: ns) z0 Hr m0 W0) as (m1 & E1 & W1 & S1 & S2 & _). rewrite E1 in E0. cbn [bind] in E0.
    destruct (K m1 W1 E0) as [K1|K1]; [|now right]. apply moves_trans in K1 as (c & Hc & [K1|K1]).
    - apply S1 in K1 as [[-> K1]|K1]; [|left; apply moves_trans; eauto]. right. exists cs, (DEval (PInt z0) x y z). split; [now left|]. split; [do 3 eexists; reflexivity|].
      apply Hq. eapply Exists_impl; [|exact K1]. intros n0 [A ->]. apply holds_dec. exists (transcond n0). auto.
    - apply S2 in K1 as [[-> K1]|K1]; [|left; apply moves_trans; eauto]. right. exists cs, (DEval (PInt z0) x y z). split; [now left|]. split; [do 3 eexists; reflexivity|].
      apply Hq. eapply Exists_impl; [|exact K1]. intros n0 [A ->]. apply holds_dec. exists (transcond n0). auto. }
  destruct (L (sort_by len_leb d) (pkeys_sorted d (dict_plain t d Ht Hd)) (fun p => proj1 (sorted_in _ _ _)) _ _ empty_wf E Hm) as [K|(cs & leaf & Hi & Hc & Hall)].
  { exfalso. exact (empty_moves I s dst K). }
  apply sorted_in in Hi. destruct Hc as (x & y & z & ->). destruct (dict_from t d Ht Hd _ _ Hi eq_refl ltac:(discriminate)) as (k & r & R & P).
  exists k, cs, r, (DEval (PInt dst) x y z). split; [exact R|]. split; [do 3 eexists; reflexivity|]. split; [exact P|exact Hall].
Qed.

(** The value of the tree on a route whose conditions all hold. *)
Lemma route_value I t k leaf : not_law I -> route t k leaf -> all_true I k -> eval I t = eval I leaf.
Proof.
  intros HN. induction 1 as [t H1 H2|c a b k leaf R IH|c a b k leaf R IH]; intros H; [reflexivity| |].
  - inversion H as [|? ? Hc Hk]; subst. cbn [eval]. rewrite Hc. exact (IH Hk).
  - inversion H as [|? ? Hc Hk]; subst. cbn [eval]. assert (i_truth I (eval I c) = false) as ->; [|exact (IH Hk)].
    cbn [eval] in Hc. cbn in Hc. rewrite HN in Hc. now apply negb_true_iff in Hc.
Qed.
Lemma setting_not tn w t I s : setting tn w t I s -> not_law I.
Proof. intros ([? ? ? H] & _) v. apply H. Qed.

(** ** Completeness *)
Lemma machine_complete getWidth tn w t d : proper_tree t -> isBranch t = true -> no_hollow t = true ->
  remove_reset_condition (paths t) = Ok d -> 0 <= w -> getWidth tn = Ok w ->
  (forall k kept dropped leaf c, route t k leaf -> is_const c leaf -> parted k kept dropped -> analysable tn w kept) ->
  (forall k v x y z, route t k (DEval v x y z) -> exists n, v = PInt n) ->
  forall I s, setting tn w t I s -> 
  exists m, getFiniteStateMachine getWidth tn d = Ok m /\
  forall k kept dropped leaf dst, route t k leaf -> is_const dst leaf -> parted k kept dropped -> all_true I kept ->
    (kept <> [] \/ forall k' leaf', route t k' leaf' -> Forall about_reset k') ->
    (forall k' kept' dropped' leaf', route t k' leaf' -> parted k' kept' dropped' -> all_true I kept' ->
       (kept' <> [] \/ kept = []) -> is_const dst leaf') ->
    moves I m s dst.
Proof.
  intros Ht Hb Hh Hd Hw Ew Ha Hint I s Hs.
  assert (Hpk := paths_plain t (proj1 Ht)). destruct (removed_spec _ Hpk _ Hd) as (R1 & R2 & R3 & R4 & R5 & R6).
  assert (int_consts d) as Hic.
  { intros cs v x y z H. destruct (dict_from t d Ht Hd _ _ H eq_refl ltac:(discriminate)) as (k & r & R & _). exact (Hint _ _ _ _ _ R). }
  pose proof (dict_walks tn w t d Ht Hd Hw Ha I s Hic Hs) as Hwk.
  assert (walks (sort_by len_leb d) tn w I s) as Hwk' by (intros cs v x y z H; apply sorted_in in H; exact (Hwk _ _ _ _ _ H)).
  assert (int_consts (sort_by len_leb d)) as Hic' by (intros cs v x y z H; apply sorted_in in H; exact (Hic _ _ _ _ _ H)).
  destruct (machine_loop_complete tn w I s _ (pkeys_sorted d R1) Hwk' Hic' (Machine [] []) empty_wf) as (m & E & Wm & S).
  exists (if (length d =? 0)%nat then Machine [] [] else m). split.
  { unfold getFiniteStateMachine. destruct (length d =? 0)%nat; [reflexivity|]. rewrite Ew. exact E. }
  intros k kept dropped leaf dst R Hc P Hall Hk Hu.
  pose proof (route_paths _ _ _ R Hb) as Hin.
  assert (exists f2, In (kept, f2) d) as (f2 & Hf2).
  { destruct kept as [|c0 kp] eqn:Ek.
    - destruct Hk as [Hk|Hk]; [congruence|]. refine (R5 _ _ _ _ _ Hin P). intros k1 k1' r1 f1 Hi1 P1.
      destruct k1' as [|c1 k1']; [reflexivity|]. exfalso.
      (* the path ends in a leaf, as no nested branch is hollow *)
      assert (isBranch f1 = false /\ f1 <> DNone) as [B1 N1].
      { assert (forall t0, no_hollow t0 = true -> forall k0 f0, In (k0, f0) (paths t0) -> isBranch f0 = false /\ f0 <> DNone) as NH.
        { clear. assert (forall c a k0 f0, (no_hollow a = true -> forall k0 f0, In (k0, f0) (paths a) -> isBranch f0 = false /\ f0 <> DNone) ->
            no_hollow a = true -> negb (isBranch a) || has_leaf a = true -> In (k0, f0) (partA c (paths a) a) -> isBranch f0 = false /\ f0 <> DNone) as K.
          { intros c a k0 f0 IH Hn Hl H. unfold partA in H. destruct (0 <? length (paths a))%nat eqn:El.
            - apply in_map_iff in H as ([k1 f1] & E1 & H). cbn in E1. injection E1 as _ <-. exact (IH Hn _ _ H).
            - destruct (is_none a) eqn:Ena; [destruct H|]. destruct H as [H|[]]. injection H as _ <-.
              destruct (isBranch a) eqn:Eb; [|split; [reflexivity|intros ->; discriminate]].
              exfalso. cbn in Hl. pose proof (has_leaf_paths a Eb Hl) as Hnp. apply Nat.ltb_ge in El. destruct (paths a); [congruence|cbn in El; lia]. }
          induction t0 as [ |n|s|s|s|l o IH|v m l IHv IHm IHl|v p IHv IHp|l IH|c a b IHc IHt IHf|v w f s|w|w|t0 IH|s l IH]
            using df_ind'; intros Hh k0 f0 H; try destruct H.
          cbn [no_hollow] in Hh. repeat match goal with H : _ && _ = true |- _ => apply andb_true_iff in H as [? ?] end.
          change (paths (DBranch c a b)) with (partA c (paths a) a ++ partA (DOp [c] Ulnot) (paths b) b) in H.
          apply in_app_iff in H as [H|H]; [refine (K c a k0 f0 IHt _ _ H)|refine (K (DOp [c] Ulnot) b k0 f0 IHf _ _ H)]; assumption. }
        exact (NH t Hh _ _ Hi1). }
      pose proof (Hk _ _ (paths_route t k1 f1 Hi1 B1 N1)) as Hr1.
      assert (In c1 k1) as Hc1 by (apply (parted_in _ _ _ P1); left; now left). rewrite Forall_forall in Hr1. pose proof (Hr1 c1 Hc1) as Hab.
      assert (forall k l r, parted k l r -> forall x, In x l -> ~ about_reset x) as Q.
      { clear. induction 1; intros x Hx; [destruct Hx|destruct Hx as [<-|Hx]; auto|auto]. }
      apply (Q _ _ _ P1 c1); [now left|exact Hab].
    - refine (R3 _ _ _ _ Hin P _). discriminate. }
  destruct (length d =? 0)%nat eqn:El; [apply len0 in El; subst d; destruct Hf2|].
  destruct (S dst) as [_ S2].
  { intros cs leaf' d' Hi Hc' Hall'. apply sorted_in in Hi. pose proof Hi as Hi0. destruct Hc' as (x & y & z & ->).
    destruct (dict_from t d Ht Hd _ _ Hi eq_refl ltac:(discriminate)) as (k1 & r1 & Q1 & Q2).
    assert (is_const dst (DEval (PInt d') x y z)) as (? & ? & ? & EE); [|congruence].
    refine (Hu _ _ _ _ Q1 Q2 Hall' _). destruct cs as [|c0 cs]; [|left; discriminate]. right.
    exact (R6 [] _ Hi0 eq_refl _ _ _ _ Hin P). }
  assert (is_const dst f2) as Hcf.
  { destruct (R2 _ _ Hf2) as (k1 & r1 & Q1 & Q2). destruct (isBranch f2) eqn:Eb.
    - exfalso. destruct (split_spec t (proj1 (proj1 Ht)) (proj2 Ht) Hb) as (dd & Edd & Hdd).
      rewrite (split_ok t Ht) in Edd. injection Edd as <-.
      assert (forall t0, no_hollow t0 = true -> forall k0 f0, In (k0, f0) (paths t0) -> isBranch f0 = false) as NH.
      { clear. assert (forall c a k0 f0, (no_hollow a = true -> forall k0 f0, In (k0, f0) (paths a) -> isBranch f0 = false) ->
            no_hollow a = true -> negb (isBranch a) || has_leaf a = true -> In (k0, f0) (partA c (paths a) a) -> isBranch f0 = false) as K.
        { intros c a k0 f0 IH Hn Hl H. unfold partA in H. destruct (0 <? length (paths a))%nat eqn:El.
          - apply in_map_iff in H as ([k1 f1] & E1 & H). cbn in E1. injection E1 as _ <-. exact (IH Hn _ _ H).
          - destruct (is_none a) eqn:Ena; [destruct H|]. destruct H as [H|[]]. injection H as _ <-.
            destruct (isBranch a) eqn:Eb; [|reflexivity].
            exfalso. cbn in Hl. pose proof (has_leaf_paths a Eb Hl) as Hnp. apply Nat.ltb_ge in El. destruct (paths a); [congruence|cbn in El; lia]. }
        induction t0 as [ |n|s|s|s|l o IH|v m l IHv IHm IHl|v p IHv IHp|l IH|c a b IHc IHt IHf|v w f s|w|w|t0 IH|s l IH]
          using df_ind'; intros Hh k0 f0 H; try destruct H.
        cbn [no_hollow] in Hh. repeat match goal with H : _ && _ = true |- _ => apply andb_true_iff in H as [? ?] end.
        change (paths (DBranch c a b)) with (partA c (paths a) a ++ partA (DOp [c] Ulnot) (paths b) b) in H.
        apply in_app_iff in H as [H|H]; [refine (K c a k0 f0 IHt _ _ H)|refine (K (DOp [c] Ulnot) b k0 f0 IHf _ _ H)]; assumption. }
      rewrite (NH t Hh _ _ Q1) in Eb. discriminate.
    - destruct (is_none f2) eqn:En.
      + exfalso. destruct f2; try discriminate. clear - Q1.
        assert (forall t0 k0, ~ In (k0, DNone) (paths t0)) as NN; [|exact (NN _ _ Q1)].
        assert (forall c a k0, (forall k0, ~ In (k0, DNone) (paths a)) -> ~ In (k0, DNone) (partA c (paths a) a)) as K.
        { intros c a k0 IH H. unfold partA in H. destruct (0 <? length (paths a))%nat.
          - apply in_map_iff in H as ([k2 f2] & E2 & H). cbn in E2. injection E2 as _ ->. exact (IH _ H).
          - destruct (is_none a) eqn:Ena; [destruct H|]. destruct H as [H|[]]. injection H as _ ->. discriminate. }
        induction t0 as [ |n|s|s|s|l o IH|v m l IHv IHm IHl|v p IHv IHp|l IH|c a b IHc IHt IHf|v w f s|w|w|t0 IH|s l IH]
          using df_ind'; intros k0 H; try destruct H.
        change (paths (DBranch c a b)) with (partA c (paths a) a ++ partA (DOp [c] Ulnot) (paths b) b) in H.
        apply in_app_iff in H as [H|H]; [exact (K _ _ _ IHt H)|exact (K _ _ _ IHf H)].
      + refine (Hu _ _ _ _ (paths_route t k1 f2 Q1 Eb _) Q2 Hall _); [intros ->; discriminate|].
        destruct kept; [now right|left; discriminate]. }
  apply (S2 kept f2); [now apply sorted_in|exact Hcf|exact Hall].
Qed.

(** ** Delays *)
Section Analyzer.
  Variable makeTree : chain -> res df.
  Variable is_rename is_clocked : chain -> res bool.
  Hypothesis Hp : forall x t, makeTree x = Ok t -> proper_tree t.

  Lemma funcdict_spec fuel : forall tn n0 d n, getFuncdict makeTree is_rename is_clocked fuel tn n0 = Ok (d, n) ->
    d = [] \/ exists u t, delayed makeTree tn (n - n0) u /\ makeTree u = Ok t /\ remove_reset_condition (paths t) = Ok d.
  Proof.
    induction fuel as [|fuel IH]; intros tn n0 d n E; [discriminate|]. cbn [getFuncdict] in E.
    destruct (is_rename tn) as [rn|]; [|discriminate]. cbn [bind] in E. destruct (is_clocked tn) as [ce|]; [|discriminate]. cbn [bind] in E.
    destruct (negb ce); [left; congruence|]. destruct rn; [left; congruence|].
    destruct (makeTree tn) as [t|] eqn:Et; [|discriminate]. cbn [bind] in E. pose proof (Hp _ _ Et) as Ht. rewrite (split_ok t Ht) in E. cbn [bind] in E.
    destruct (remove_reset_condition (paths t)) as [d'|] eqn:Ed; [|discriminate]. cbn [bind] in E.
    assert (Ok (d', n0) = Ok (d, n) -> d = [] \/ exists u t0, delayed makeTree tn (n - n0) u /\ makeTree u = Ok t0 /\ remove_reset_condition (paths t0) = Ok d) as Here.
    { intros K. injection K as -> ->. right. exists tn, t. split; [replace (n - n) with 0 by lia; constructor|]. split; [exact Et|exact Ed]. }
    destruct d' as [|[[|c ks] f] [|p2 r2]]; try exact (Here E); [|destruct f; exact (Here E)]. destruct f as [ |u| | | | | | | | | | | | | ]; try exact (Here E).
    destruct (IH _ _ _ _ E) as [K|(v & t' & K1 & K2 & K3)]; [now left|]. right. exists v, t'. split; [|split; [exact K2|exact K3]].
    replace (n - n0) with (n - (n0 + 1) + 1) by lia. refine (delayed_next _ tn u _ v _ K1).
    destruct (removed_spec _ (paths_plain t (proj1 Ht)) _ Ed) as (R1 & R2 & R3 & R4 & R5 & R6).
    exists t. split; [exact Et|]. split.
    - destruct (dict_from t _ Ht Ed [] (DTerm u) (or_introl eq_refl) eq_refl ltac:(discriminate)) as (k0 & r0 & A & _). exists k0. exact A.
    - intros k leaf R. assert (isBranch t = true) as Hb.
      { apply paths_branch. intros Hn. rewrite Hn in Ed. discriminate. }
      pose proof (route_paths _ _ _ R Hb) as Hin.
      (* the conditions of k are kept or dropped by the run itself *)
      assert (exists l r, parted k l r) as (l & r & P).
      { assert (forall d acc n, strip_all d acc = Ok n -> forall k f, In (k, f) d -> exists l r, parted k l r) as Q.
        { clear. induction d as [|[k0 f0] d IH]; intros acc n E k f H; [destruct H|]. cbn [strip_all] in E.
          destruct (remove_reset_condlist k0) as [k1|] eqn:E1; [|discriminate]. cbn [bind] in E. destruct (dict_set acc k1 f0) as [acc'|]; [|discriminate].
          destruct H as [H|H]; [injection H as <- <-; destruct (condlist_parted _ _ E1) as (r & P); eauto|exact (IH _ _ E _ _ H)]. }
        unfold remove_reset_condition in Ed. destruct (strip_all (paths t) []) as [a|] eqn:Ea; [|discriminate]. exact (Q _ _ _ Ea _ _ Hin). }
      pose proof (R6 [] (DTerm u) (or_introl eq_refl) eq_refl _ _ _ _ Hin P) as ->. exact (parted_nil_dropped _ _ P).
  Qed.
End Analyzer.
