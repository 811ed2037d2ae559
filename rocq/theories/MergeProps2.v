(** MergeProps2.v - C28, C30, C31 for lists of assignments. *)
From Verif Require Import Base ScopeModel DfModel BindModel LitModel LitSpec OptModel OptSpec OptArith OptProofs OptProofs2 OptProps ReorderModel
  HierModel HierSpec HierProps MergeModel MergeSpec MergeSpec2 MergeProofs2 MergeProofs3 MergeProofs4 MergeProofs5 MergeProps.
Require Import Coq.Sorting.Permutation Coq.Sorting.Sorted.
Local Open Scope Z_scope.
Local Notation pint := MergeModel.pint.

(** ** C28: all assignments to the same bits of the same element become one, merged in the order in
    which they were given, and the results are in the order of elements and bits. *)
Theorem C28_list_merged_in_order : forall terms optimize n t hi lo l l',
  dget terms n = Some t -> optimize (t_msb t) = Ok (pint hi) -> optimize (t_lsb t) = Ok (pint lo) ->
  (forall b, In b l -> b_dest b = n /\ exists p m k, place_of b = Some (p, m, k) /\ lo <= k <= m /\ m <= hi) ->
  (forall a b, In a l -> In b l -> same_or_apart a b) ->
  mergeBindlist terms optimize l = Ok l' ->
  (forall b, In b l -> exists b', In b' l' /\ place_of b' = place_of b) /\
  (forall b', In b' l' -> merged_in_order optimize (map b_tree (filter (same_place b') l)) (b_tree b')) /\
  StronglySorted below l'.
Proof. intros terms optimize n t hi lo l l' Ht Hm Hl HG HA H. exact (mergeBindlist_ok terms optimize n t hi lo Ht Hm Hl l l' HG HA H). Qed.
Print Assumptions C28_list_merged_in_order.
(** a[7:4] = b; a[3:0] = b; a[7:4] = c; *)
Example C28_list_hypotheses_met : let l := [to "a" 7 4 (T "b"); to "a" 3 0 (T "b"); to "a" 7 4 (T "c")] in
  (exists t, dget (o_terms abc) (sig "a") = Some t /\ simple (t_msb t) = Ok (pint 7) /\ simple (t_lsb t) = Ok (pint 0)) /\
  (forall b, In b l -> b_dest b = sig "a" /\ exists p m k, place_of b = Some (p, m, k) /\ 0 <= k <= m /\ m <= 7) /\
  (forall a b, In a l -> In b l -> same_or_apart a b) /\
  mergeBindlist (o_terms abc) simple l = Ok [to "a" 3 0 (T "b"); to "a" 7 4 (T "c")].
Proof.
  intros l. split; [eexists; split; [reflexivity|split; vm_compute; reflexivity]|]. split; [|split].
  - intros b [<-|[<-|[<-|[]]]]; (split; [reflexivity|eexists _, _, _; split; [reflexivity|lia]]).
  - intros a b [<-|[<-|[<-|[]]]] [<-|[<-|[<-|[]]]] p m k p' m' k' E E'; injection E as <- <- <-; injection E' as <- <- <-; (split; [tauto|lia]).
  - vm_compute. reflexivity.
Qed.

(** ** C30: the unmatched ranges do not touch the matched ones *)
Theorem C30_unmatched_apart : forall sm sl assigned r s x, sl <= sm -> Forall proper assigned -> ForallOrdPairs apart assigned ->
  In s (matchedRange assigned sm sl None) -> In r (unmatchedRange (matchedRange assigned sm sl None) sm sl None) -> ~ (inside s x /\ between r x).
Proof.
  intros sm sl assigned r s x Hs HP HA H1 H2 [K1 K2]. destruct (matched_apart assigned sm sl Hs HP HA) as [P1 P2]. exact (unmatched_apart _ _ _ _ _ P1 P2 H2 H1 x (conj K2 K1)).
Qed.
Print Assumptions C30_unmatched_apart.

(** ** C31: cutting a list at the computed positions *)
(** Every assignment is replaced by pieces of itself, and no computed position is left inside a piece. *)
Theorem C31_cut_everywhere : forall terms optimize optconst reorder_ l ps r,
  (forall t, isEval t = true \/ t = DNone -> optconst t = Ok t) ->
  (forall b, In b l -> exists m k, slice_of b = Some (m, k) /\ k <= m) ->
  splitPositions terms optconst l = Ok ps -> splitBindlist terms optimize optconst reorder_ l ps = Ok r ->
  (exists gs, r = concat gs /\ Forall2 pieces_of l gs) /\ (forall p c, In p ps -> In c r -> ~ cuts p c).
Proof.
  intros terms optimize optconst reorder_ l ps r HO HF HP HR. rewrite <- Forall_forall in HF. destruct (splitBindlist_ok terms optimize optconst reorder_ HO ps l r (splitPositions_sorted _ _ _ _ HP) HF HR) as (gs & -> & G). split.
  - exists gs. split; auto. clear - G. induction G as [|b g l' gs' [K1 K2] G IH]; constructor; auto.
  - intros p c Hp Hc [C1 C2]. apply in_concat in Hc as (g & Hg & Hc). clear HP HR. induction G as [|b g' l' gs' [K1 K2] G IH]; [contradiction|]. inversion HF; subst. destruct Hg as [->|Hg]; [|auto].
    destruct H1 as (m & k & E & _). specialize (K2 _ _ E). rewrite Forall_forall in K2. destruct (K2 _ Hc) as (m' & k' & Ec & _ & _ & _ & K & _). rewrite (cover_range _ _ _ _ Ec) in C1. rewrite (cover_range _ _ _ _ Ec) in C2. apply (K _ Hp). lia.
Qed.
Print Assumptions C31_cut_everywhere.

(** ** C30: after cutting at the overlaps two pieces have the same bits or none in common *)
Definition separated (r : list bind_) : Prop := ForallOrdPairs (fun c d => same_bits c d \/ disjoint c d) r.
Lemma fits_of b m k : slice_of b = Some (m, k) -> k <= m -> forall done, (forall a, In a done -> disjoint a b \/ within b a) -> never_three (done ++ [b]) -> fits done b.
Proof.
  intros E Hk. assert (covers b k) as Ck by (exists m, k; split; auto; lia). induction done as [|a done IH]; intros H HN; [left; intros a []|].
  assert (never_three (done ++ [b])) as HN'. { intros l1 x l2 y l3 z l4 p Ep. apply (HN (a :: l1) x l2 y l3 z l4 p). cbn. now rewrite Ep. }
  destruct (H a (or_introl eq_refl)) as [D|W].
  - destruct (IH (fun c Hc => H c (or_intror Hc)) HN') as [K|(d1 & c & d2 & -> & K1 & K2)]; [left; intros c [<-|Hc]; auto|]. right. exists (a :: d1), c, d2. split; auto. split; auto. intros x [<-|Hx]; auto.
  - right. exists [], a, done. split; auto. split; auto. cbn. intros c Hc. destruct (H c (or_intror Hc)) as [D|W']; auto. exfalso. apply in_split in Hc as (d1 & d2 & ->). apply (HN [] a d1 c d2 b [] k); [cbn; now rewrite <- app_assoc|auto].
Qed.
(** All but the last lie within or apart from the earlier ones, no bit is written by three of them, and the
    last one does not strictly contain another. *)
Theorem C30_overlaps_separated_partial : forall terms optimize optconst reorder_ l last ps r,
  (forall t, isEval t = true \/ t = DNone -> optconst t = Ok t) ->
  (forall b, In b (l ++ [last]) -> exists m k, slice_of b = Some (m, k) /\ k <= m) ->
  ForallOrdPairs (fun a b => disjoint a b \/ within b a) l -> never_three l ->
  (forall a, In a l -> ~ strictly_inside a last) ->
  splitPositions terms optconst (l ++ [last]) = Ok ps -> splitBindlist terms optimize optconst reorder_ (l ++ [last]) ps = Ok r ->
  separated r.
Proof.
  intros terms optimize optconst reorder_ l last ps r HO HF HL HN HS HP HR. rewrite <- Forall_forall in HF.
  destruct (splitBindlist_ok terms optimize optconst reorder_ HO ps _ r (splitPositions_sorted _ _ _ _ HP) HF HR) as (gs & -> & G).
  assert (ForallOrdPairs (overlap_cut ps) (l ++ [last])) as HC.
  { unfold splitPositions in HP. unbind HP. injection HP as <-.
    assert (ForallOrdPairs (overlap_cut r) (l ++ [last])) as K.
    { apply (splitPos_cut terms optconst HO (l ++ [last]) [] [] r HF B); [|constructor]. intros t1 b t2 E. cbn [app].
      assert (exists m k, slice_of b = Some (m, k) /\ k <= m) as (m & k & Eb & Hk) by (rewrite E in HF; apply Forall_app in HF as [_ K]; inversion K; auto).
      destruct t2 as [|c t2].
      - assert (t1 = l /\ b = last) as [-> ->] by (apply app_inj_tail in E as [-> ->]; auto). split; auto. congruence.
      - assert (exists t3, l = t1 ++ b :: t3) as (t3 & ->).
        { assert (exists t3 z, c :: t2 = t3 ++ [z]) as (t3 & z & E'). { destruct (exists_last (l := c :: t2) ltac:(discriminate)) as (t3 & z & E'). eauto. } rewrite E' in E. exists t3. rewrite app_comm_cons, app_assoc in E. apply app_inj_tail in E as [-> _]. auto. }
        assert (forall a, In a t1 -> disjoint a b \/ within b a) as HD.
        { clear - HL. intros a Ha. induction t1 as [|x t1 IH]; [contradiction|]. cbn in HL. inversion HL; subst. destruct Ha as [->|Ha]; auto. rewrite Forall_forall in H1. apply H1, in_or_app. right. now left. }
        split.
        + intros a Ha (ma & la & m' & l' & Ea & Eb' & S1 & S2). rewrite Eb in Eb'. injection Eb' as <- <-. destruct (HD _ Ha) as [D|W].
          * assert (exists m0 k0, slice_of a = Some (m0, k0) /\ k0 <= m0) as (m0 & k0 & Ea' & L) by (rewrite Forall_forall in HF; apply HF; rewrite <- app_assoc; apply in_or_app; now left). rewrite Ea in Ea'. injection Ea' as <- <-. apply (D la). rewrite (cover_range _ _ _ _ Ea), (cover_range _ _ _ _ Eb). lia.
          * assert (covers a k) as K by (apply W; rewrite (cover_range _ _ _ _ Eb); lia). rewrite (cover_range _ _ _ _ Ea) in K. lia.
        + intros _. eapply fits_of; eauto. intros l1 x l2 y l3 z l4 p Ep. apply (HN l1 x l2 y l3 z (l4 ++ t3) p). replace (t1 ++ b :: t3) with ((t1 ++ [b]) ++ t3) by (rewrite <- app_assoc; reflexivity). rewrite Ep. repeat (rewrite <- ?app_assoc, <- ?app_comm_cons). reflexivity. }
    clear - K. induction K as [|a l0 H K IH]; constructor; auto. eapply Forall_impl; [|exact H]. intros c Hc m k m' k' E1 E2 E3. destruct (Hc _ _ _ _ E1 E2 E3). rewrite !sort_by_in. auto. }
  clear - G HC HF. unfold separated. set (L := l ++ [last]) in *. clearbody L. induction G as [|b g L gs [K1 K2] G IH]; cbn [concat]; [constructor|]. inversion HF; subst. inversion HC; subst. specialize (IH H2 H4).
  destruct H1 as (m & k & E & Hk). specialize (K2 _ _ E).
  assert (forall c d, In c g -> In d (concat gs) -> same_bits c d \/ disjoint c d) as HX.
  { intros c d Hc Hd. apply in_concat in Hd as (g' & Hg' & Hd). clear - G H3 K2 E Hc Hg' Hd H2. induction G as [|b' g0 L gs [J1 J2] G IH]; [contradiction|]. inversion H3 as [|? ? V1 V2]; subst. inversion H2 as [|? ? U1 U2]; subst. destruct Hg' as [->|Hg']; [|auto].
    destruct U1 as (m' & k' & E' & _). specialize (J2 _ _ E'). rewrite Forall_forall in K2, J2. eapply pieces_apart; [exact E|exact E'|eassumption|apply K2; auto|apply J2; auto]. }
  destruct K1 as (_ & K & _). clear - K IH HX. induction K as [|c g H K IHg]; cbn [app]; auto. constructor; [|apply IHg; intros; apply HX; auto; now right].
  apply Forall_app. split; [eapply Forall_impl; [|exact H]; intros d Hd; right; exact Hd|]. rewrite Forall_forall. intros d Hd. apply HX; auto. now left.
Qed.
Print Assumptions C30_overlaps_separated_partial.
(** a = b; a[3:0] = c[3:0]; then a[5:2] = b[5:2] *)
Example C30_separated_hypotheses_met : let l := [to "a" 7 0 (T "b"); to "a" 3 0 (sl "c" 3 0)] in let last := to "a" 5 2 (sl "b" 5 2) in
  (forall b, In b (l ++ [last]) -> exists m k, slice_of b = Some (m, k) /\ k <= m) /\
  ForallOrdPairs (fun a b => disjoint a b \/ within b a) l /\ never_three l /\ (forall a, In a l -> ~ strictly_inside a last) /\
  splitPositions (o_terms abc) simplifyC (l ++ [last]) = Ok [0; 2; 4; 6] /\
  exists r, splitBindlist (o_terms abc) simple simplifyC (reorder 9) (l ++ [last]) [0; 2; 4; 6] = Ok r /\
  map slice_of r = [Some (1, 0); Some (3, 2); Some (5, 4); Some (7, 6); Some (1, 0); Some (3, 2); Some (3, 2); Some (5, 4)].
Proof.
  intros l last. split; [intros b [<-|[<-|[<-|[]]]]; eexists _, _; (split; [reflexivity|lia])|]. split; [|split; [|split; [|split]]].
  - constructor; [constructor; [right; intros x (m & k & E & K); injection E as <- <-; exists 7, 0; split; [reflexivity|lia]|constructor]|repeat constructor].
  - intros l1 a l2 b l3 c l4 x E. exfalso. apply (f_equal (@length bind_)) in E. repeat (rewrite app_length in E; cbn [length] in E). cbn [l length] in E. lia.
  - intros a [<-|[<-|[]]] (m & k & m' & k' & E & E' & K); injection E as <- <-; injection E' as <- <-; lia.
  - vm_compute. reflexivity.
  - eexists. split; vm_compute; reflexivity.
Qed.
Lemma sep_in x c y d : separated (x ++ c :: y) -> In d y -> same_bits c d \/ disjoint c d.
Proof. unfold separated. induction x as [|z x IH]; cbn [app]; intros H Hd; inversion H; subst; auto. rewrite Forall_forall in *. auto. Qed.
(** In general it fails, even when every slice lies within or apart from the earlier ones: the third
    assignment to a[7:4] is recorded as one to a[8:3], which then hides a[3:0] from a[2:1]; and an earlier slice
    strictly inside a later one is not recognised. *)
Theorem C30_overlaps_separated_refuted :
  (let l := [to "a" 7 4 (sl "b" 7 4); to "a" 7 4 (sl "c" 7 4); to "a" 7 4 (sl "b" 3 0); to "a" 3 0 (sl "c" 3 0); to "a" 2 1 (sl "b" 1 0)] in
   ForallOrdPairs (fun a b => disjoint a b \/ within b a) l /\
   exists ps r, splitPositions (o_terms abc) simplifyC l = Ok ps /\ splitBindlist (o_terms abc) simple simplifyC (reorder 9) l ps = Ok r /\ ~ separated r /\
     In (Some (2, 0)) (map slice_of r) /\ In (Some (2, 1)) (map slice_of r)) /\
  (let l := [to "a" 3 2 (sl "b" 1 0); to "a" 7 0 (T "c")] in
   exists r, splitPositions (o_terms abc) simplifyC l = Ok [] /\ splitBindlist (o_terms abc) simple simplifyC (reorder 9) l [] = Ok r /\ ~ separated r).
Proof.
  split.
  - intros l. split.
    + repeat first [apply FOP_cons|apply FOP_nil|apply Forall_cons|apply Forall_nil]; first [left; intros x [(m & k & E & K) (m' & k' & E' & K')]; injection E as <- <-; injection E' as <- <-; lia
        |right; intros x (m & k & E & K); injection E as <- <-; eexists _, _; split; [reflexivity|lia]].
    + eexists _, _. split; [vm_compute; reflexivity|]. split; [vm_compute; reflexivity|]. split; [|split; vm_compute; tauto].
      intros H. destruct (sep_in [_; _; _] _ [_; _] _ H (or_intror (or_introl eq_refl))) as [K|K]; [vm_compute in K; discriminate|]. apply (K 1). split; eexists _, _; (split; [reflexivity|lia]).
  - intros l. eexists. split; [vm_compute; reflexivity|]. split; [vm_compute; reflexivity|]. intros H. destruct (sep_in [] _ [_] _ H (or_introl eq_refl)) as [K|K]; [vm_compute in K; discriminate|]. apply (K 2). split; eexists _, _; (split; [reflexivity|lia]).
Qed.
Print Assumptions C30_overlaps_separated_refuted.
