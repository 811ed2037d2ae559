(** TransProps.v - C22, C23, C24, C46. *)
From Coq Require Import Sorting.Sorted Sorting.Permutation.
From Verif Require Import Base ScopeModel DfModel DfSpec TransModel TransSpec TransProofs.
Local Open Scope Z_scope.

(** C22: on proper, non-empty lists the intersection is computed (the loop ends), contains
    exactly the common integers, and is again a proper list. *)
Theorem C22_and_ranges_exact : forall A B, proper A -> proper B -> A <> [] -> B <> [] ->
  exists r, and_range_pairs A B = Ok r /\ (forall x, inr r x <-> inr A x /\ inr B x) /\ proper r.
Proof.
  intros A B HA HB NA NB.
  destruct (and_ranges_ok A B (sort_ordered A HA) (sort_ordered B HB) NA NB) as (r & E & ND & H & Hp).
  exists r. split; [exact E|]. split; [exact H|]. exact (proper_and A B r HA HB ND Hp).
Qed.
Print Assumptions C22_and_ranges_exact.

(** Lists of any ranges at all - empty, overlapping, in any order - are also intersected exactly. *)
Lemma and_loop_any n : forall a ra b rb first,
  (length ra + length rb + (if first : bool then 1 else 0) < n)%nat ->
  StronglySorted (fun p q : Z * Z => fst p <= fst q) (a :: ra) -> StronglySorted (fun p q : Z * Z => fst p <= fst q) (b :: rb) ->
  exists r, and_loop n a ra b rb first = Ok r /\ (forall x, inr r x <-> inr (a :: ra) x /\ inr (b :: rb) x).
Proof.
  induction n as [|n IH]; intros a ra b rb first Hn Ha Hb; [lia|].
  cbn [and_loop]. destruct a as [amin amax], b as [bmin bmax].
  set (out := if (bmax <? amin) || (amax <? bmin) then [] else [(Z.max amin bmin, Z.min amax bmax)]).
  assert (forall x, inr out x <-> (amin <= x <= amax) /\ (bmin <= x <= bmax)) as Hout.
  { intros x. unfold out. destruct ((bmax <? amin) || (amax <? bmin)) eqn:E.
    - split; [intros H; now apply inr_nil in H|]. apply orb_true_iff in E as [E|E]; apply Z.ltb_lt in E; lia.
    - rewrite inr_cons. simpl. split; [intros [H|H]; [lia|now apply inr_nil in H]|left; lia]. }
  pose proof (StronglySorted_inv Ha) as [Ha' Fa]. pose proof (StronglySorted_inv Hb) as [Hb' Fb].
  rewrite Forall_forall in Fa, Fb.
  assert (forall x, inr ra x -> amin <= x) as La.
  { intros x (lo & hi & Hin & Hx). apply Fa in Hin. simpl in Hin. lia. }
  assert (forall x, inr rb x -> bmin <= x) as Lb.
  { intros x (lo & hi & Hin & Hx). apply Fb in Hin. simpl in Hin. lia. }
  destruct (if bmax <=? amax then rb else []) as [|b' rb'] eqn:Eb.
  - destruct (if amax <=? bmax then ra else []) as [|a' ra'] eqn:Ea.
    + assert (forall x, inr ((amin, amax) :: ra) x /\ inr ((bmin, bmax) :: rb) x <->
                        (amin <= x <= amax) /\ (bmin <= x <= bmax)) as Hstop.
      { intros x. rewrite !inr_cons. simpl. split; [|tauto].
        intros [[H1|H1] [H2|H2]]; auto.
        - apply Lb in H2 as H3. destruct (Z.leb_spec bmax amax); [subst rb; now apply inr_nil in H2|lia].
        - apply La in H1 as H3. destruct (Z.leb_spec amax bmax); [subst ra; now apply inr_nil in H1|lia].
        - exfalso. destruct (Z.leb_spec bmax amax); [subst rb; now apply inr_nil in H2|].
          destruct (Z.leb_spec amax bmax); [subst ra; now apply inr_nil in H1|lia]. }
      destruct first.
      * destruct (IH (amin, amax) ra (bmin, bmax) rb false ltac:(simpl; lia) Ha Hb) as (r & -> & Hr). simpl.
        eexists; split; [reflexivity|]. intros x. rewrite inr_app, Hr, Hout, Hstop. tauto.
      * eexists; split; [reflexivity|]. intros x. rewrite Hout, Hstop. tauto.
    + destruct (Z.leb_spec amax bmax) as [Hle|]; [|discriminate]. subst ra.
      destruct (IH a' ra' (bmin, bmax) rb false ltac:(simpl in *; lia) Ha' Hb) as (r & -> & Hr). simpl.
      eexists; split; [reflexivity|].
      intros x. rewrite inr_app, Hr, Hout, (inr_cons (amin, amax)), (inr_cons (bmin, bmax)). simpl.
      split; [tauto|]. intros [[H1|H1] H2]; [|tauto]. left. split; auto. destruct H2 as [H2|H2]; auto.
      apply Lb in H2. lia.
  - destruct (Z.leb_spec bmax amax) as [Hle|]; [|discriminate]. subst rb.
    destruct (IH (amin, amax) ra b' rb' false ltac:(simpl in *; lia) Ha Hb') as (r & -> & Hr). simpl.
    eexists; split; [reflexivity|].
    intros x. rewrite inr_app, Hr, Hout, (inr_cons (amin, amax)), (inr_cons (bmin, bmax)). simpl.
    split; [tauto|]. intros [H1 [H2|H2]]; [|tauto]. left. split; auto. destruct H1 as [H1|H1]; auto.
    apply La in H1. lia.
Qed.
Theorem C22_any_ranges_exact : forall A B, A <> [] -> B <> [] ->
  exists r, and_range_pairs A B = Ok r /\ (forall x, inr r x <-> inr A x /\ inr B x).
Proof.
  intros A B NA NB. unfold and_range_pairs.
  pose proof (sort_by_perm range_leb A) as PA. pose proof (sort_by_perm range_leb B) as PB.
  fold (sort_ranges A) in PA. fold (sort_ranges B) in PB. pose proof (sort_strong A) as SA. pose proof (sort_strong B) as SB.
  pose proof (Permutation_length PA) as LA. pose proof (Permutation_length PB) as LB.
  destruct (sort_ranges A) as [|a ra] eqn:EA; [destruct A; [congruence|discriminate]|].
  destruct (sort_ranges B) as [|b rb] eqn:EB; [destruct B; [congruence|discriminate]|].
  simpl in LA, LB.
  destruct (and_loop_any (length A + length B + 2) a ra b rb true ltac:(simpl; lia) SA SB) as (r & -> & Hr).
  simpl. eexists; split; [reflexivity|]. intros x. rewrite inr_dedup, Hr, <- (inr_perm _ _ PA), <- (inr_perm _ _ PB). tauto.
Qed.
Print Assumptions C22_any_ranges_exact.

(** The intersection with an empty list is an IndexError; callers avoid it. *)
Theorem C22_empty_input_raises : forall A, and_range_pairs [] A = Err IndexError /\ and_range_pairs A [] = Err IndexError.
Proof.
  intros A. unfold and_range_pairs. split; [reflexivity|]. now destruct (sort_ranges A).
Qed.
Print Assumptions C22_empty_input_raises.

(** C23: for lists of ranges that start no later than the maximum (plus one), in any order and
    overlapping or not; the result is proper if the input has no empty range. *)
Theorem C23_not_ranges_exact : forall l M, Forall (fun p => fst p <= M + 1) l ->
  forall x, inr (not_range_pairs l 0 M) x <-> 0 <= x <= M /\ ~ inr l x.
Proof. exact not_ranges_exact. Qed.
Print Assumptions C23_not_ranges_exact.

(** C23 without the hypothesis: still exact on the values 0..M themselves. *)
Theorem C23_not_ranges_in_bounds : forall l M x, 0 <= x <= M ->
  (inr (not_range_pairs l 0 M) x <-> ~ inr l x).
Proof. exact not_ranges_spec. Qed.
Print Assumptions C23_not_ranges_in_bounds.

Theorem C23_not_ranges_proper : forall l minv maxv, nonempty_ranges l -> proper (not_range_pairs l minv maxv).
Proof. exact not_ranges_proper. Qed.
Print Assumptions C23_not_ranges_proper.

(** C23 as worded is false without that hypothesis: a range beyond the maximum makes the
    complement leave [0,max]. *)
Theorem C23_beyond_maximum_refuted : exists l M x, proper l /\ inr (not_range_pairs l 0 M) x /\ ~ x <= M.
Proof.
  exists [(8, 9)], 3, 7. split; [repeat constructor; simpl; lia|].
  split; [exists 0, 7; simpl; split; [auto|lia]|lia].
Qed.
Print Assumptions C23_beyond_maximum_refuted.

(** C46: the interval inferred from a comparison contains exactly the values of a register
    holding 0..M that satisfy it, for the comparisons that are supported. *)
Theorem C46_infer_exact_partial : forall o v w f g, cmp_ok o (DEval (PInt v) w f g) = true ->
  exists r, infer o (DEval (PInt v) w f g) = Ok r /\
  forall M x, 0 <= x <= M -> (inferred_holds r M x <-> compares o x v = true).
Proof. exact infer_exact. Qed.
Print Assumptions C46_infer_exact_partial.

(** C46 is false for the rest: 'state < 0' is inferred to be always true, and 'state <= v'
    raises FormatError. *)
Theorem C46_infer_exact_refuted :
  (forall v w f g, v <= 0 -> exists r, infer LessThan (DEval (PInt v) w f g) = Ok r /\
     forall M x, 0 <= x <= M -> inferred_holds r M x /\ compares LessThan x v = false) /\
  (forall v w f g, infer LessEq (DEval (PInt v) w f g) = Err FormatError).
Proof.
  split; [|reflexivity]. intros v w f g Hv. simpl. destruct (Z.ltb_spec (v - 1) 0); [|lia].
  eexists; split; [reflexivity|]. intros M x Hx. split; [unfold inferred_holds; simpl; lia|].
  apply Z.ltb_ge. lia.
Qed.
Print Assumptions C46_infer_exact_refuted.

(** C24 for supported lists of conditions, free of contradictions: the walk succeeds and its
    result holds for a state and an interpretation of the inputs exactly when all conditions do. *)
Theorem C24_conditions_exact_partial : forall tn w cs, 0 <= w ->
  Forall (fun c => supported tn c = true) cs -> Forall (no_contradiction tn w) cs -> satisfiable tn w cs ->
  exists r, walkCondlist cs tn w = Ok r /\
    forall I s, situation tn w cs I s -> (sres_holds I s r <-> all_true I cs).
Proof. exact (fun tn w cs Hw => walk_list_good tn w Hw cs). Qed.
Print Assumptions C24_conditions_exact_partial.

(** An interpretation over the integers in which [tn] holds [s] and other signals hold [e]. *)
Definition tv (b : bool) : Z := if b then 1 else 0.
Definition zint (tn : chain) (s e : Z) : interp :=
  Interp Z 0 (fun n => if chain_eq n tn then s else e)
    (fun t => match t with DEval (PInt v) _ _ _ => v | _ => 0 end)
    (fun o l => match o, l with
                | Land, [a; b] => tv (negb (a =? 0) && negb (b =? 0))
                | (Lor | Or), [a; b] => tv (negb (a =? 0) || negb (b =? 0))
                | And, [a; b] => Z.land a b
                | Ulnot, [a] => tv (a =? 0)
                | Uand, [a] => tv (a =? 3)
                | (Uplus | Uminus | Uor), [a] => a
                | o, [a; b] => tv (compares o a b)
                | _, _ => 0 end)
    (fun v _ _ => v) (fun v _ => v) (fun l => 0) (fun x => x) (fun _ _ => 0) (fun z => negb (z =? 0)).
Lemma tv_truth b : negb (tv b =? 0) = b.
Proof. now destruct b. Qed.
Lemma zint_reads tn s e : chain_eq tn tn = true -> 0 <= s -> 0 <= e -> reads_state (zint tn s e) tn s.
Proof.
  intros Hr Hs He. constructor; simpl; intros; try (rewrite tv_truth; reflexivity).
  - rewrite tv_truth. now rewrite negb_involutive.
  - destruct H as [<-|[<-|[<-|[]]]]; reflexivity.
  - rewrite tv_truth. destruct (chain_eq n tn); [destruct (Z.ltb_spec 0 s), (Z.eqb_spec s 0)
                                                |destruct (Z.ltb_spec 0 e), (Z.eqb_spec e 0)]; simpl; auto; lia.
  - rewrite H. destruct o; try discriminate; rewrite tv_truth; reflexivity.
  - rewrite H. destruct o; try discriminate; rewrite tv_truth; simpl; auto;
    rewrite Z.eqb_sym; reflexivity.
Qed.

Definition st : chain := [Label "top"%string STmodule None; Label "state"%string STsignal None].
Definition go : df := DTerm [Label "top"%string STmodule None; Label "go"%string STsignal None].
Definition num (z : Z) : df := DEval (PInt z) (Some 32) false false.
Definition is_ (z : Z) : df := DOp [DTerm st; num z] Eq.

Lemma zint_satisfies w cs s e : 0 <= s < 2 ^ w -> 0 <= e ->
  Forall (bitwise_logical (zint st s e)) cs -> all_true (zint st s e) cs -> satisfiable st w cs.
Proof.
  intros Hs He Hb Ht. exists (zint st s e), s. split; [|exact Ht]. split; [|split; [exact Hs|exact Hb]].
  apply zint_reads; [reflexivity|lia|lia].
Qed.

(** The hypotheses hold of 'state >= 1 && !(state == 2)' and 'go' for a 2-bit state; the result
    is the states 1 and 3 under the condition go. *)
Example C24_witness :
  let cs := [DOp [DOp [DTerm st; num 1] GreaterEq; DOp [is_ 2] Ulnot] Land; go] in
  Forall (fun c => supported st c = true) cs /\ Forall (no_contradiction st 2) cs /\ satisfiable st 2 cs /\
  exists n, walkCondlist cs st 2 = Ok (SOne n) /\ range_pairs n = [(1, 1); (3, 3)] /\ transcond n <> DNone.
Proof.
  simpl. split; [repeat constructor|].
  assert (forall c, bitwise_logical (zint st 1 1) c -> i_truth (zint st 1 1) (eval (zint st 1 1) c) = true ->
          satisfiable st 2 [c]) as K1.
  { intros c Hb Ht. apply (zint_satisfies 2 [c] 1 1); try lia; repeat constructor; auto. }
  assert (forall c, bitwise_logical (zint st 2 1) c -> i_truth (zint st 2 1) (eval (zint st 2 1) c) = true ->
          satisfiable st 2 [c]) as K2.
  { intros c Hb Ht. apply (zint_satisfies 2 [c] 2 1); try lia; repeat constructor; auto. }
  split; [|split].
  - repeat constructor;
    (apply K1; [simpl; intuition discriminate|reflexivity]) || (apply K2; [simpl; intuition discriminate|reflexivity]).
  - apply (zint_satisfies 2 _ 1 1); try lia; repeat constructor; simpl; intuition discriminate.
  - eexists; split; [vm_compute; reflexivity|]. split; [reflexivity|discriminate].
Qed.

(** C24 as worded is false. (a) 'state & 2' is treated like 'state && 2': state 1 is reported
    although the condition is false there. (b) '&state' (reduction and) is treated like
    'state'. (c) A contradiction is forgotten: after 'state == 1' and 'state == 2' the
    condition 'go' alone remains. (d) Comparing the state with another signal, or '5 >= state',
    raises FormatError. *)
Theorem C24_bitwise_and_refuted : exists n I,
  walkCondlist [DOp [DTerm st; num 2] And] st 2 = Ok (SOne n) /\ reads_state I st 1 /\
  node_holds I 1 n /\ i_truth I (eval I (DOp [DTerm st; num 2] And)) = false.
Proof.
  eexists. exists (zint st 1 0). split; [reflexivity|]. split; [apply zint_reads; [reflexivity|lia|lia]|].
  split; [split; [right; exists 1, 3; simpl; split; [auto|lia]|right; reflexivity]|reflexivity].
Qed.
Print Assumptions C24_bitwise_and_refuted.

Theorem C24_reduction_and_refuted : exists n I,
  walkCondlist [DOp [DTerm st] Uand] st 2 = Ok (SOne n) /\ reads_state I st 1 /\
  node_holds I 1 n /\ i_truth I (eval I (DOp [DTerm st] Uand)) = false.
Proof.
  eexists. exists (zint st 1 0). split; [reflexivity|]. split; [apply zint_reads; [reflexivity|lia|lia]|].
  split; [split; [right; exists 1, 3; simpl; split; [auto|lia]|left; reflexivity]|reflexivity].
Qed.
Print Assumptions C24_reduction_and_refuted.

Theorem C24_contradiction_refuted : exists n,
  walkCondlist [is_ 1; is_ 2; go] st 2 = Ok (SOne n) /\
  exists I, situation st 2 [is_ 1; is_ 2; go] I 0 /\ node_holds I 0 n /\
            i_truth I (eval I (is_ 1)) = false /\ i_truth I (eval I (is_ 2)) = false.
Proof.
  eexists. split; [reflexivity|]. exists (zint st 0 1). split; [|split; [|split; reflexivity]].
  - split; [apply zint_reads; [reflexivity|lia|lia]|]. split; [lia|]. repeat constructor; discriminate.
  - split; [left; reflexivity|right; reflexivity].
Qed.
Print Assumptions C24_contradiction_refuted.

Theorem C24_comparison_refuted :
  walkCondlist [DOp [DTerm st; go] Eq] st 2 = Err FormatError /\
  walkCondlist [DOp [num 5; DTerm st] GreaterEq] st 2 = Err FormatError.
Proof. split; reflexivity. Qed.
Print Assumptions C24_comparison_refuted.

Example C22_witness : exists A B r, proper A /\ proper B /\ A <> [] /\ B <> [] /\ and_range_pairs A B = Ok r /\ r = [(2,3);(5,5);(9,9)].
Proof.
  exists [(0,3);(5,9)], [(2,5);(9,12)]. eexists. split; [repeat constructor; simpl; lia|].
  split; [repeat constructor; simpl; lia|]. repeat split; discriminate.
Qed.
Example C23_witness : not_range_pairs [(5,9);(0,3);(2,3)] 0 15 = [(4,4);(10,15)].
Proof. reflexivity. Qed.
