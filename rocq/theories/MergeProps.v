(** MergeProps.v - C28, C29, C30, C31: one tree for a signal assigned in several places. *)
From Verif Require Import Base ScopeModel DfModel BindModel LitModel LitSpec OptModel OptSpec OptArith OptProofs OptProps ReorderModel
  HierModel HierSpec HierProps MergeModel MergeSpec MergeProofs MergeProofs2 MergeProofs3.
Require Import Coq.Sorting.Permutation.
Local Open Scope Z_scope.
Local Notation pint := MergeModel.pint.

(** ** C28 *)
(** The simplifier keeps the truth of the conditions of t. *)
Definition keeps_conditions (optimize : df -> res df) (holds : df -> bool) (t : df) : Prop :=
  forall c c', In c (conds t) -> optimize c = Ok c' -> holds c' = holds c.
(** Equal conditions have the same truth. *)
Definition respects_equality (holds : df -> bool) : Prop := forall x y, df_eq x y = Ok true -> holds x = holds y.

Definition later_wins (holds : df -> bool) (first second t : df) : Prop :=
  chosen holds t = match chosen holds second with DNone => chosen holds first | v => v end.
Theorem C28_later_wins_partial : forall optimize holds first second t,
  respects_equality holds -> keeps_conditions optimize holds first -> keeps_conditions optimize holds second ->
  no_overwrite optimize first second ->
  mergeTree optimize first second = Ok t -> later_wins holds first second t.
Proof.
  intros optimize holds first second t HE K1 K2 HN H. destruct (mergeTree_spec optimize holds HE first second t K1 K2 H) as (_ & _ & _ & K). specialize (K HN). unfold later_wins. rewrite K. now destruct (chosen holds second).
Qed.
Print Assumptions C28_later_wins_partial.
(** For any two trees: what only one tree assigns is kept, and nothing else is invented. *)
Theorem C28_nothing_lost_or_invented : forall optimize holds first second t,
  respects_equality holds -> keeps_conditions optimize holds first -> keeps_conditions optimize holds second ->
  mergeTree optimize first second = Ok t ->
  (chosen holds second = DNone -> chosen holds t = chosen holds first) /\
  (chosen holds first = DNone -> chosen holds t = chosen holds second) /\
  (chosen holds t = chosen holds first \/ chosen holds t = chosen holds second).
Proof.
  intros optimize holds first second t HE K1 K2 H. destruct (mergeTree_spec optimize holds HE first second t K1 K2 H) as (A & B & C & _).
  split; [intros E; apply A; now rewrite E|]. split; [intros E; apply B; now rewrite E|exact C].
Qed.
Print Assumptions C28_nothing_lost_or_invented.

(** if (a) x = b; x = c; gives a ? b : c. *)
Theorem C28_later_wins_refuted : ~ (forall holds first second t, respects_equality holds -> mergeTree Ok first second = Ok t -> later_wins holds first second t).
Proof.
  intros H. specialize (H (fun _ => true) (DBranch (T "a") (T "b") DNone) (T "c") _ (fun _ _ _ => eq_refl) eq_refl). discriminate.
Qed.
Print Assumptions C28_later_wins_refuted.

(** The simplifier at its default level (optimizer.py:57-62), on the design abc. *)
Definition simplify (t : df) : res df := do u <- optC abc 9 t; optH abc log2z key 9 u.
Example C28_hypotheses_met : forall f, let holds := fun c => match truth (abc_rho f) c with Some b => b | None => false end in
  let first := DBranch (DOp [T "a"; T "b"] LessThan) (T "a") DNone in
  let second := DBranch (DOp [T "a"; T "b"] LessThan) DNone (DBranch (T "c") (T "b") DNone) in
  keeps_conditions simplify holds first /\ keeps_conditions simplify holds second /\ no_overwrite simplify first second /\
  mergeTree simplify first second = Ok (DBranch (DOp [T "a"; T "b"] LessThan) (T "a") (DBranch (T "c") (T "b") DNone)).
Proof.
  intros f holds first second.
  split; [intros c c' [<-|[]] H; vm_compute in H; injection H as <-; reflexivity|].
  split; [intros c c' [<-|[<-|[]]] H; vm_compute in H; injection H as <-; reflexivity|].
  split; [cbn; auto|vm_compute; reflexivity].
Qed.
Example C28_equality_met : respects_equality (fun c => match c with DTerm _ => true | _ => false end).
Proof. intros [] []; cbn; intros H; auto; try discriminate. Qed.

(** ** C29 *)
(** Disjoint slices that together are the whole signal. *)
Theorem C29_slices_placed_partial : forall terms optimize rho n l t, 0 <= n -> tiles n l -> Forall (sized rho) l -> getMergedTree terms optimize l = Ok t ->
  exists v, value rho t = Some v /\ width rho t = Some n /\ placed rho v l.
Proof. exact merged_ok. Qed.
Print Assumptions C29_slices_placed_partial.
(** The simplifier keeps the value and the width of t. *)
Definition simplifies (optimize : df -> res df) (rho : venv) (t : df) : Prop := forall t', optimize t = Ok t' ->
  (forall v, value rho t = Some v -> value rho t' = Some v) /\ (forall w, width rho t = Some w -> width rho t' = Some w).
(** The same for the tree of a signal, after all the steps. *)
Theorem C29_tree_of_signal_partial : forall terms optimize optconst reorder_ rho binds n N l t,
  0 <= N -> dget binds n = Some l -> l <> [] -> tiles N l -> Forall (sized rho) l ->
  (forall t, isEval t = true \/ t = DNone -> optimize t = Ok t /\ optconst t = Ok t) ->
  (forall b, In b l -> simplifies optimize rho (b_tree b)) ->
  (forall us ts, mapM optimize (map b_tree l) = Ok us -> Permutation us ts -> simplifies optimize rho (DConcat ts)) ->
  getTree terms optimize optconst reorder_ binds n = Ok t ->
  exists v, value rho t = Some v /\ placed rho v l.
Proof. exact getTree_ok. Qed.
Print Assumptions C29_tree_of_signal_partial.

(** Signal a of 8 bits, with assignments to constant slices. *)
Definition to (n : string) (m l : Z) (t : df) : bind_ := Bind t (sig n) (pint m) (pint l) DNone None "assign".
(** a[7:4] = c[3:0]; a[3:0] = b[7:4]; *)
Definition halves : list bind_ := [to "a" 7 4 (sl "c" 3 0); to "a" 3 0 (sl "b" 7 4)].
Definition simplifyC : df -> res df := optC abc 9.
Definition simple (t : df) : res df := do u <- simplifyC t; optH abc log2z key 9 u.
Lemma simple_leaf t : isEval t = true \/ t = DNone -> simple t = Ok t /\ simplifyC t = Ok t.
Proof. intros [H| ->]; [destruct t; try discriminate|]; split; reflexivity. Qed.
Lemma halves_tile : tiles 8 halves.
Proof.
  split; [repeat constructor; eexists _, _; (split; [reflexivity|lia])|]. split.
  - repeat constructor. intros p [(m & l & E & H) (m' & l' & E' & H')]. injection E as <- <-. injection E' as <- <-. lia.
  - intros p Hp. destruct (Z_lt_le_dec p 4); [exists (to "a" 3 0 (sl "b" 7 4))|exists (to "a" 7 4 (sl "c" 3 0))]; (split; [cbn; tauto|eexists _, _; split; [reflexivity|lia]]).
Qed.
Lemma halves_sized f : Forall (sized (abc_rho f)) halves.
Proof.
  repeat constructor; eexists _, _, _; (split; [reflexivity|]; split; [reflexivity|]; split; [reflexivity|]); cbn [Z.sub Z.add]; unfold low; apply Z.mod_pos_bound; reflexivity.
Qed.
Lemma same_simplifies rho t : simple t = Ok t -> simplifies simple rho t.
Proof. intros H t' H'. rewrite H in H'. injection H' as <-. auto. Qed.
Example C29_hypotheses_met : forall f, tiles 8 halves /\ Forall (sized (abc_rho f)) halves /\
  (forall t, isEval t = true \/ t = DNone -> simple t = Ok t /\ simplifyC t = Ok t) /\
  (forall b, In b halves -> simplifies simple (abc_rho f) (b_tree b)) /\
  (forall us ts, mapM simple (map b_tree halves) = Ok us -> Permutation us ts -> simplifies simple (abc_rho f) (DConcat ts)) /\
  getTree (o_terms abc) simple simplifyC (reorder 9) [(sig "a", halves)] (sig "a") = Ok (DConcat [sl "c" 3 0; sl "b" 7 4]).
Proof.
  intros f. split; [exact halves_tile|]. split; [apply halves_sized|]. split; [exact simple_leaf|]. split; [|split].
  - intros b [<-|[<-|[]]]; apply same_simplifies; vm_compute; reflexivity.
  - intros us ts H HP. vm_compute in H. injection H as <-. apply Permutation_length_2_inv in HP as [->| ->]; apply same_simplifies; vm_compute; reflexivity.
  - vm_compute; reflexivity.
Qed.

(** As worded the property is false: gaps have a wrong (negative) width, trees are not cut to the
    width of the slice, and single bits given by an index are dropped. *)
Definition bit (n : string) (i : Z) (t : df) : bind_ := Bind t (sig n) DNone DNone (pint i) None "assign".
Theorem C29_placed_refuted :
  (* a[7:6] = b[7:6]; a[1:0] = b[1:0]; the gap of four bits has width -6 *)
  getMergedTree (o_terms abc) simple [to "a" 7 6 (sl "b" 7 6); to "a" 1 0 (sl "b" 1 0)] = Ok (DConcat [sl "b" 7 6; DUndef (-6); sl "b" 1 0]) /\
  (* a[7:4] = b; a[3:0] = b; 16 bits, not 8, and the wrong bits in 7..4 *)
  (getTree (o_terms abc) simple simplifyC (reorder 9) [(sig "a", [to "a" 7 4 (T "b"); to "a" 3 0 (T "b")])] (sig "a") = Ok (DConcat [T "b"; T "b"]) /\
   tiles 8 [to "a" 7 4 (T "b"); to "a" 3 0 (T "b")] /\
   forall b, 0 <= b < 256 -> exists v, value (vals 0 b 0) (DConcat [T "b"; T "b"]) = Some v /\ (b = 16 -> low (v / 2 ^ 4) 4 <> low b 4)) /\
  (* a[7:1] = b[7:1]; a[0] = c; the last assignment is dropped *)
  getMergedTree (o_terms abc) simple [to "a" 7 1 (sl "b" 7 1); bit "a" 0 (T "c")] = Ok (DConcat [sl "b" 7 1; DUndef (-3)]).
Proof.
  split; [vm_compute; reflexivity|]. split; [|vm_compute; reflexivity]. split; [vm_compute; reflexivity|]. split.
  - split; [repeat constructor; eexists _, _; (split; [reflexivity|lia])|]. split.
    + repeat constructor. intros p [(m & l & E & H) (m' & l' & E' & H')]. injection E as <- <-. injection E' as <- <-. lia.
    + intros p Hp. destruct (Z_lt_le_dec p 4); [exists (to "a" 3 0 (T "b"))|exists (to "a" 7 4 (T "b"))]; (split; [cbn; tauto|eexists _, _; split; [reflexivity|lia]]).
  - intros b Hb. eexists. split; [reflexivity|]. intros ->. vm_compute. discriminate.
Qed.
Print Assumptions C29_placed_refuted.

(** ** C30 *)
(** Every matched range is the common part of the new slice and an earlier one. *)
Theorem C30_matched_are_overlaps : forall sm sl assigned sp r, sl <= sm -> Forall proper assigned -> In r (matchedRange assigned sm sl sp) ->
  exists r0, In r0 assigned /\ (forall x, inside r x <-> inside r0 x /\ sl <= x <= sm) /\ proper r.
Proof. intros sm sl assigned sp r Hs. exact (matched_inter sm sl Hs assigned sp r). Qed.
Print Assumptions C30_matched_are_overlaps.
Definition together_cover (assigned : list range) (sm sl : Z) : Prop :=
  let M := matchedRange assigned sm sl None in
  forall x, sl <= x <= sm <-> (exists r, In r M /\ inside r x) \/ (exists r, In r (unmatchedRange M sm sl None) /\ between r x).
(** No earlier slice lies strictly inside the new one, and the two that reach into it leave no gap. *)
Theorem C30_ranges_cover_partial : forall sm sl assigned, sl <= sm -> Forall proper assigned -> ForallOrdPairs apart assigned ->
  (forall m l p, In (m, l, p) assigned -> ~ (sl < l /\ m < sm)) ->
  (forall r s, In r assigned -> In s assigned -> inside r sl -> inside s sm -> snd (fst s) <= fst (fst r) + 1) ->
  together_cover assigned sm sl.
Proof. intros sm sl assigned Hs H1 H2 H3 H4. exact (cover_ok sm sl Hs assigned H1 H2 H3 H4). Qed.
Print Assumptions C30_ranges_cover_partial.
(** Earlier [7:4], [3:0], [12:10]; new slice [5:2]. *)
Example C30_hypotheses_met : let assigned := [(7, 4, None); (3, 0, None); (12, 10, None)] in
  Forall proper assigned /\ ForallOrdPairs apart assigned /\
  (forall m l p, In (m, l, p) assigned -> ~ (2 < l /\ m < 5)) /\
  (forall r s, In r assigned -> In s assigned -> inside r 2 -> inside s 5 -> snd (fst s) <= fst (fst r) + 1) /\
  matchedRange assigned 5 2 None = [(5, 4, None); (3, 2, None)].
Proof.
  intros assigned. subst assigned. split; [repeat (constructor; [unfold proper; cbn; lia|]); constructor|]. split; [repeat constructor; intros x [K1 K2]; unfold inside in *; cbn in *; lia|].
  split; [intros m l p [E|[E|[E|[]]]]; injection E as <- <- <-; lia|]. split; [|reflexivity].
  intros r s [<-|[<-|[<-|[]]]] [<-|[<-|[<-|[]]]] K1 K2; unfold inside in *; cbn in *; lia.
Qed.
Definition ranges_cover : Prop := forall sm sl assigned, sl <= sm -> Forall proper assigned -> ForallOrdPairs apart assigned -> together_cover assigned sm sl.
(** An earlier slice strictly inside the new one is not recognised; bits between two earlier
    slices are lost; an unmatched range gets its ends the wrong way round, so that later slices
    do not match it. *)
Theorem C30_ranges_cover_refuted : ~ ranges_cover /\
  matchedRange [(3, 2, None)] 7 0 None = [] /\
  (matchedRange [(7, 6, None); (1, 0, None)] 6 1 None = [(6, 6, None); (1, 1, None)] /\
   unmatchedRange [(6, 6, None); (1, 1, None)] 6 1 None = []) /\
  (matchedRange [(3, 0, None)] 7 2 None = [(3, 2, None)] /\ unmatchedRange [(3, 2, None)] 7 2 None = [(4, 7, None)] /\
   matchedRange [(3, 0, None); (3, 2, None); (4, 7, None)] 6 5 None = []).
Proof.
  split; [|split; [reflexivity|split; split; try split; reflexivity]].
  intros H. specialize (H 6 1 [(7, 6, None); (1, 0, None)] ltac:(lia)).
  assert (together_cover [(7, 6, None); (1, 0, None)] 6 1) as K.
  { apply H; [repeat (constructor; [unfold proper; cbn; lia|]); constructor|repeat constructor; intros x [K1 K2]; unfold inside in *; cbn in *; lia]. }
  destruct (proj1 (K 3) ltac:(lia)) as [(r & Hr & Hi)|(r & Hr & Hi)].
  - destruct Hr as [<-|[<-|[]]]; unfold inside in Hi; cbn in Hi; lia.
  - destruct Hr.
Qed.
Print Assumptions C30_ranges_cover_refuted.
(** What that means for a signal: in always @* begin a[3:2] = b[1:0]; a = c; end the two
    assignments are not merged but put side by side. *)
Theorem C30_overlap_missed_refuted :
  getTree (o_terms abc) simple simplifyC (reorder 9) [(sig "a", [to "a" 3 2 (sl "b" 1 0); to "a" 7 0 (T "c")])] (sig "a") = Ok (DConcat [sl "b" 1 0; T "c"]).
Proof. vm_compute. reflexivity. Qed.
Print Assumptions C30_overlap_missed_refuted.

(** ** C31 *)
(** Splitting reorders and simplifies tree[a:c]; both steps keep the value. *)
Definition cut_ok (optimize reorder_ : df -> res df) (rho : venv) (tree : df) (a c : Z) : Prop :=
  forall t t', reorder_ (DPart tree (pint a) (pint c)) = Ok t -> optimize t = Ok t' ->
  forall v, value rho (DPart tree (pint a) (pint c)) = Some v -> value rho t' = Some v.
(** Any assignment to a constant slice: the two ranges are adjacent and together the original. *)
Theorem C31_ranges_adjacent : forall terms optimize optconst reorder_ b m l pos left right,
  slice_of b = Some (m, l) -> (forall t, isEval t = true \/ t = DNone -> optconst t = Ok t) ->
  splitBind terms optimize optconst reorder_ b pos = Ok (left, Some right) ->
  slice_of left = Some (m, pos) /\ slice_of right = Some (pos - 1, l) /\ l < pos <= m /\ b_dest left = b_dest b /\ b_dest right = b_dest b.
Proof. intros terms optimize optconst reorder_ b m l pos left right Hs HO H. exact (split_ranges _ _ _ _ _ _ _ _ _ _ Hs HO H). Qed.
Print Assumptions C31_ranges_adjacent.
(** The values, when the slice starts at bit 0. *)
Theorem C31_bits_preserved_partial : forall terms optimize optconst reorder_ rho b m pos left right x,
  slice_of b = Some (m, 0) -> (forall t, isEval t = true \/ t = DNone -> optconst t = Ok t) -> cut_ok optimize reorder_ rho (b_tree b) (pos - 1) 0 -> cut_ok optimize reorder_ rho (b_tree b) m pos ->
  splitBind terms optimize optconst reorder_ b pos = Ok (left, Some right) -> value rho (b_tree b) = Some x ->
  value rho (b_tree right) = Some (low x pos) /\ value rho (b_tree left) = Some (low (x / 2 ^ pos) (m - pos + 1)).
Proof.
  intros terms optimize optconst reorder_ rho b m pos left right x Hs HO HC1 HC2 H Hx. destruct (split_ok _ _ _ _ rho _ _ _ _ _ _ _ Hs HO H Hx) as (_ & _ & _ & _ & _ & K).
  destruct K as [K1 K2]; [intros a c t t' [E|E] R1 R2; injection E as -> ->; rewrite ?Z.sub_0_r in *; [eapply HC1|eapply HC2]; eauto|lia|]. rewrite Z.sub_0_r in K1. auto.
Qed.
Print Assumptions C31_bits_preserved_partial.
(** a = b split at bit 4 *)
Example C31_hypotheses_met : forall f, let b := to "a" 7 0 (T "b") in
  slice_of b = Some (7, 0) /\ cut_ok simple (reorder 9) (abc_rho f) (b_tree b) 3 0 /\ cut_ok simple (reorder 9) (abc_rho f) (b_tree b) 7 4 /\
  splitBind (o_terms abc) simple simplifyC (reorder 9) b 4 = Ok (to "a" 7 4 (sl "b" 7 4), Some (to "a" 3 0 (sl "b" 3 0))).
Proof.
  intros f b. split; [reflexivity|]. split; [|split; [|vm_compute; reflexivity]]; intros t t' H1 H2; vm_compute in H1; injection H1 as <-; vm_compute in H2; injection H2 as <-; auto.
Qed.
(** With another lowest bit the upper part is taken from the wrong place: a[7:4] = b split at bit 6
    gives a[7:6] = b[7:6], where b[3:2] is meant. *)
Definition bits_preserved : Prop := forall terms optimize optconst reorder_ rho b m l pos left right x,
  slice_of b = Some (m, l) -> (forall t, isEval t = true \/ t = DNone -> optconst t = Ok t) ->
  cut_ok optimize reorder_ rho (b_tree b) (pos - l - 1) 0 -> cut_ok optimize reorder_ rho (b_tree b) m pos ->
  splitBind terms optimize optconst reorder_ b pos = Ok (left, Some right) -> value rho (b_tree b) = Some x ->
  value rho (b_tree right) = Some (low x (pos - l)) /\ value rho (b_tree left) = Some (low (x / 2 ^ (pos - l)) (m - pos + 1)).
Theorem C31_bits_preserved_refuted : ~ bits_preserved /\
  splitBind (o_terms abc) simple simplifyC (reorder 9) (to "a" 7 4 (T "b")) 6 = Ok (to "a" 7 6 (sl "b" 7 6), Some (to "a" 5 4 (sl "b" 1 0))).
Proof.
  split; [|vm_compute; reflexivity]. intros H.
  assert (forall a c, cut_ok Ok Ok (vals 0 200 0) (T "b") a c) as HC by (intros a c t t' K1 K2; injection K1 as <-; injection K2 as <-; auto).
  specialize (H (o_terms abc) Ok Ok Ok (vals 0 200 0) (to "a" 7 4 (T "b")) 7 4 6 _ _ 200 eq_refl (fun _ _ => eq_refl) (HC _ _) (HC _ _) eq_refl eq_refl).
  destruct H as [_ H]. vm_compute in H. discriminate.
Qed.
Print Assumptions C31_bits_preserved_refuted.
(** Positions for assignments with an index: an error as soon as one overlaps an earlier one. *)
Theorem C31_index_overlap_refuted : splitPositions (o_terms abc) simplifyC [bit "a" 0 (T "b"); bit "a" 0 (T "c")] = Err NameError.
Proof. vm_compute. reflexivity. Qed.
Print Assumptions C31_index_overlap_refuted.
