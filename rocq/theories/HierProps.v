(** HierProps.v - C13, C14, C15, C16, C17: simplification of trees. *)
From Verif Require Import Base ScopeModel ScopeProofs DfModel BindModel LitModel LitSpec OptModel OptSpec OptArith OptProofs OptProofs2 OptProps
  HierModel HierSpec HierProofs HierConcat HierMain HierPart.
Local Open Scope Z_scope.

(** The test for powers of two is right when it succeeds. (In the code, it is a floating point
    logarithm, which also accepts values near large powers.) *)
Definition exact_log (log2i : Z -> option Z) : Prop := forall v p, log2i v = Some p -> 0 <= p /\ v = 2 ^ p.
Definition log2z (v : Z) : option Z := if v =? 2 ^ Z.log2 v then Some (Z.log2 v) else None.
Lemma log2z_exact : exact_log log2z.
Proof. intros v p. unfold log2z. destruct (Z.eqb_spec v (2 ^ Z.log2 v)) as [H|]; [|discriminate]. intros K. injection K as <-. split; auto. apply Z.log2_nonneg. Qed.

(** C13: the value of a [safe] tree is preserved. *)
Theorem C13_simplification_preserves_value_partial : forall E rho log2i tocode k t t',
  respects rho -> declared E rho -> exact_log log2i -> safe rho CValue t -> optH E log2i tocode k t = Ok t' ->
  forall v, value rho t = Some v -> value rho t' = Some v.
Proof. intros E rho log2i tocode k t t' HR HD HL HS H. exact (proj1 (optH_ok E rho log2i tocode HR HD HL k t CValue t' HS H)). Qed.
Print Assumptions C13_simplification_preserves_value_partial.

(** C14: the truth of a [safe] condition is preserved. *)
Theorem C14_simplification_preserves_truth_partial : forall E rho log2i tocode k t t',
  respects rho -> declared E rho -> exact_log log2i -> safe rho CTruth t -> optH E log2i tocode k t = Ok t' ->
  forall b, truth rho t = Some b -> truth rho t' = Some b.
Proof. intros E rho log2i tocode k t t' HR HD HL HS H. exact (proj1 (optH_ok E rho log2i tocode HR HD HL k t CTruth t' HS H)). Qed.
Print Assumptions C14_simplification_preserves_truth_partial.

(** C15: chains of && and ||, of any length. *)
Theorem C15_and_chains : forall rho tocode t t', respects rho -> mergeLand tocode t = Ok t' -> forall b, truth rho t = Some b -> truth rho t' = Some b.
Proof. intros rho tocode t t' HR H b Hb. eapply mergeLand_truth; eauto. Qed.
Theorem C15_or_chains : forall rho tocode t t', respects rho -> mergeLor tocode t = Ok t' -> forall b, truth rho t = Some b -> truth rho t' = Some b.
Proof. intros rho tocode t t' HR H b Hb. eapply mergeLor_truth; eauto. Qed.
Print Assumptions C15_and_chains.
Print Assumptions C15_or_chains.

(** C16: slices of concatenations. [part_ok]: the part is folded (as every result of folding is),
    has a positive width which is also the one the code computes, and a value that fits it. *)
Theorem C16_slice_of_concatenation_partial : forall E rho k nodes m l t v,
  agrees E rho -> Forall (part_ok E rho k) nodes -> 0 <= l <= m -> (exists w, width rho (DConcat nodes) = Some w /\ m < w) ->
  (* both ends between parts, or from bit 0, or inside the last part *)
  (exists hi mid lo, nodes = hi ++ mid ++ lo /\ width rho (DConcat lo) = Some l /\ width rho (DConcat mid) = Some (m - l + 1)) \/
    l = 0 \/ (exists hi n w, nodes = hi ++ [n] /\ width rho n = Some w /\ m < w) ->
  takePart E k nodes m l = Ok t ->
  value rho (DPart (DConcat nodes) (pint m) (pint l)) = Some v -> value rho t = Some v.
Proof. intros E rho k nodes m l t v HA. exact (takePart_ok E rho k HA nodes m l t v). Qed.
Print Assumptions C16_slice_of_concatenation_partial.
(** Folded trees: folding twice is folding once. *)
Theorem C16_folded_trees_stay : forall E k t t', optC E k t = Ok t' -> optC E k t' = Ok t'.
Proof. exact optC_idem. Qed.
Print Assumptions C16_folded_trees_stay.

(** C17: merging the parts of a concatenation. *)
Theorem C17_merging_preserves_partial : forall E rho k l t, respects rho -> declared E rho -> Forall (element rho) l -> mergeConcat E k l = Ok t ->
  (forall v, value rho (DConcat l) = Some v -> value rho t = Some v) /\ (forall w, width rho (DConcat l) = Some w -> width rho t = Some w).
Proof. intros E rho k l t HR HD HE H. exact (mergeConcat_ok E rho HR HD k l t HE H). Qed.
Print Assumptions C17_merging_preserves_partial.

(** ** A design with signals a, b and c, of 8 bits each, with any values *)
Definition t8 (n : string) : chain * term := (sig n, Term (sig n) ["Wire"%string] (L "7") (L "0") None).
Definition abc : optenv := OptEnv [t8 "a"; t8 "b"; t8 "c"] [].
Definition abc_rho (f : list string -> Z) : venv := VEnv (fun n => f (map sname n) mod 2 ^ 8) (fun _ => 8) (fun _ => false) (fun _ _ => 0) (fun _ _ => 0).
Lemma same_names n : forall m, chain_eq n m = true -> map sname n = map sname m.
Proof.
  unfold chain_eq. induction n as [|x n IH]; intros [|y m] H; cbn in *; try discriminate; auto. apply andb_true_iff in H as [H1 H2]. f_equal; auto.
  unfold label_eq in H1. destruct (_ || _); repeat (apply andb_true_iff in H1 as [H1 ?]); now apply String.eqb_eq.
Qed.
Lemma abc_respects f : respects (abc_rho f).
Proof. intros n m H. cbn. rewrite (same_names _ _ H). auto. Qed.
Lemma abc_declared f : declared abc (abc_rho f).
Proof.
  intros n tm H. assert (t_msb tm = L "7" /\ t_lsb tm = L "0" /\ t_dims tm = None) as (-> & -> & ->).
  { cbn [abc o_terms t8 dget] in H. destruct (chain_eq _ n); [injection H as <-; auto|]. destruct (chain_eq _ n); [injection H as <-; auto|]. destruct (chain_eq _ n); [injection H as <-; auto|discriminate]. }
  split; [|split; [cbn; apply Z.mod_pos_bound; lia|cbn; split; [discriminate|congruence]]].
  exists 7, 0, 32, 32. split; [apply (f_int abc "7" None 7), digit1; [simpl; tauto|lia]|]. split; [apply (f_int abc "0" None 0), digit1; [simpl; tauto|lia]|reflexivity].
Qed.
Lemma abc_agrees f : agrees abc (abc_rho f).
Proof.
  split; [discriminate|]. split; [|discriminate]. intros n tm H. apply (abc_declared f) in H. tauto.
Qed.
Definition T (n : string) : df := DTerm (sig n).
(** Sort keys, for the examples: names. *)
Definition key (t : df) : res string := Ok (match t with DTerm [x] => sname x | DOp _ o => "op"%string | _ => ""%string end).
Definition opt (t : df) : res df := optH abc log2z key 9 t.
Definition vals (a b c : Z) : venv := abc_rho (fun n => match n with ["a"%string] => a | ["b"%string] => b | ["c"%string] => c | _ => 0 end).

(** C13, hypotheses met: ((a == b) && (b == a)) ? a * 4 + (b & a) : (c | 0) *)
Definition tree13 : df := DBranch (DOp [DOp [T "a"; T "b"] Eq; DOp [T "b"; T "a"] Eq] Land)
  (DOp [DOp [T "a"; pint 4] Times; DOp [T "b"; T "a"] And] Plus) (DOp [T "c"; pint 0] Or).
Example C13_hypotheses_met : forall f,
  respects (abc_rho f) /\ declared abc (abc_rho f) /\ exact_log log2z /\ safe (abc_rho f) CValue tree13 /\
  opt tree13 = Ok (DBranch (DOp [DOp [T "a"; T "b"] Eq; DOp [T "b"; T "a"] Eq] Land) (DOp [DOp [T "a"; pint 2] Sll; DOp [T "b"; T "a"] And] Plus) (T "c")).
Proof.
  intros f. split; [apply abc_respects|]. split; [apply abc_declared|]. split; [apply log2z_exact|]. split; [|vm_compute; reflexivity].
  unfold tree13. apply s_branch.
  - apply s_logic_truth; [tauto| | |exact I|exact I]; apply s_rigid; repeat first [apply r_leaf; reflexivity|apply r_op; [left; reflexivity|discriminate|discriminate|reflexivity|]|constructor].
  - apply s_op; [reflexivity|reflexivity| |discriminate|discriminate]. constructor; [|constructor; [|constructor]].
    + apply s_op; [reflexivity|reflexivity| |discriminate|discriminate]. repeat constructor.
    + apply s_and; repeat constructor.
  - apply s_or; repeat constructor.
Qed.
(** C14, hypotheses met: (!b && a) || (b && a), a condition. *)
Definition tree14 : df := DOp [DOp [DOp [T "b"] Ulnot; T "a"] Land; DOp [T "b"; T "a"] Land] Lor.
Example C14_hypotheses_met : forall f, safe (abc_rho f) CTruth tree14 /\ opt tree14 = Ok (T "a").
Proof.
  intros f. split; [|vm_compute; reflexivity]. unfold tree14. apply s_logic_truth; [tauto| | |repeat constructor|repeat constructor].
  - apply s_logic_truth; [tauto|apply s_lnot; repeat constructor|repeat constructor..].
  - apply s_logic_truth; [tauto|repeat constructor..].
Qed.

(** C13 and C14 without the conditions. *)
Definition preserves_value : Prop := forall E rho log2i tocode k t t', respects rho -> declared E rho -> exact_log log2i ->
  optH E log2i tocode k t = Ok t' -> forall v, value rho t = Some v -> value rho t' = Some v.
Definition preserves_truth : Prop := forall E rho log2i tocode k t t', respects rho -> declared E rho -> exact_log log2i ->
  optH E log2i tocode k t = Ok t' -> forall b, truth rho t = Some b -> truth rho t' = Some b.
Definition wrong_value (rho : venv) (t t' : df) (v v' : Z) : Prop := value rho t = Some v /\ opt t = Ok t' /\ value rho t' = Some v' /\ v <> v'.
Definition wrong_truth (rho : venv) (t t' : df) (b : bool) : Prop := truth rho t = Some b /\ opt t = Ok t' /\ truth rho t' = Some (negb b).
Theorem C13_preserves_value_refuted : ~ preserves_value /\
  (* a && a becomes a, 1 && a becomes a, 0 || a becomes a *)
  wrong_value (vals 5 0 0) (DOp [T "a"; T "a"] Land) (T "a") 1 5 /\
  wrong_value (vals 5 0 0) (DOp [pint 1; T "a"] Land) (T "a") 1 5 /\
  wrong_value (vals 5 0 0) (DOp [pint 0; T "a"] Lor) (T "a") 1 5 /\
  (* (a - b) / 2 becomes (a - b) >>> 1, which rounds down *)
  wrong_value (vals 0 1 0) (DOp [DOp [T "a"; T "b"] Minus; pint 2] Divide) (DOp [DOp [T "a"; T "b"] Minus; pint 1] Sra) 0 (-1) /\
  (* (a << 32'd9) | ~(a << 32'd9): the result is as wide as the shift amount *)
  wrong_value (vals 5 0 0) (DOp [DOp [T "a"; pint 9] Sll; DOp [DOp [T "a"; pint 9] Sll] Unot] Or) (DEval (PInt (2 ^ 32 - 1)) (Some 32) false false) 2815 (2 ^ 32 - 1).
Proof.
  assert (wrong_value (vals 5 0 0) (DOp [T "a"; T "a"] Land) (T "a") 1 5) as W by (repeat split; try (vm_compute; reflexivity); discriminate).
  split; [|split; [exact W|repeat split; try (vm_compute; reflexivity); discriminate]].
  intros K. destruct W as (W1 & W2 & W3 & W4). pose proof (K _ (vals 5 0 0) _ _ _ _ _ (abc_respects _) (abc_declared _) log2z_exact W2 _ W1). congruence.
Qed.
Print Assumptions C13_preserves_value_refuted.
Theorem C14_preserves_truth_refuted : ~ preserves_truth /\
  (* ~a && a becomes 0, although both are non-zero for a = 5 *)
  wrong_truth (vals 5 0 0) (DOp [DOp [T "a"] Unot; T "a"] Land) (pintw 0 1) true.
Proof.
  assert (wrong_truth (vals 5 0 0) (DOp [DOp [T "a"] Unot; T "a"] Land) (pintw 0 1) true) as W by (repeat split; vm_compute; reflexivity).
  split; [|exact W]. intros K. destruct W as (W1 & W2 & W3). pose proof (K _ (vals 5 0 0) _ _ _ _ _ (abc_respects _) (abc_declared _) log2z_exact W2 _ W1) as J. rewrite W3 in J. discriminate.
Qed.
Print Assumptions C14_preserves_truth_refuted.

(** C15, hypotheses met: b && (a && b) && !c. *)
Example C15_hypotheses_met : forall f, respects (abc_rho f) /\ (exists b, truth (abc_rho f) (DOp [DOp [T "b"; DOp [T "a"; T "b"] Land] Land; DOp [T "c"] Ulnot] Land) = Some b) /\
  mergeLand key (DOp [DOp [T "b"; DOp [T "a"; T "b"] Land] Land; DOp [T "c"] Ulnot] Land) = Ok (DOp [DOp [DOp [T "c"] Ulnot; T "b"] Land; T "a"] Land) /\
  mergeLor key (DOp [DOp [T "b"] Ulnot; DOp [T "a"; T "b"] Lor] Lor) = Ok (pintw 1 1).
Proof. intros f. split; [apply abc_respects|]. split; [eexists; reflexivity|]. split; vm_compute; reflexivity. Qed.

(** C16: {a, b, c}[23:8] is {a, b}; {a, b, c}[11:0] is {b[3:0], c}[11:0]. *)
Lemma signal_ok f n : In n ["a"; "b"; "c"]%string -> part_ok abc (abc_rho f) 9 (T n).
Proof.
  intros H. assert (getWidth abc 9 (T n) = Ok 8) as G by (repeat destruct H as [<-|H]; [vm_compute; reflexivity..|contradiction]).
  split; [reflexivity|]. split; [constructor|]. split; [exists 8; split; [exact G|split; [reflexivity|lia]]|].
  intros v w Hv Hw. cbn in Hv, Hw. injection Hv as <-. injection Hw as <-. apply Z.mod_pos_bound. lia.
Qed.
Example C16_hypotheses_met : forall f,
  agrees abc (abc_rho f) /\ Forall (part_ok abc (abc_rho f) 9) [T "a"; T "b"; T "c"] /\ width (abc_rho f) (DConcat [T "a"; T "b"; T "c"]) = Some 24 /\
  width (abc_rho f) (DConcat [T "c"]) = Some 8 /\ width (abc_rho f) (DConcat [T "a"; T "b"]) = Some (23 - 8 + 1) /\
  takePart abc 9 [T "a"; T "b"; T "c"] 23 8 = Ok (DConcat [T "a"; T "b"]) /\
  takePart abc 9 [T "a"; T "b"; T "c"] 11 0 = Ok (DPart (DConcat [DPart (T "b") (pint 3) (pint 0); T "c"]) (pint 11) (pint 0)).
Proof.
  intros f. split; [apply abc_agrees|]. split; [repeat (apply Forall_cons; [apply signal_ok; cbn; tauto|]); apply Forall_nil|]. repeat split; vm_compute; reflexivity.
Qed.
(** C16 fails for other slices: bits 11..8 of {a, b} become a[11:8], bits 11..4 of {a, b} become
    {a[3:0], b[7:4]}[11:4], and beyond the end nothing is checked. *)
Definition slices_right : Prop := forall E rho k nodes m l t v, agrees E rho -> Forall (part_ok E rho k) nodes -> 0 <= l <= m ->
  (exists w, width rho (DConcat nodes) = Some w /\ m < w) -> takePart E k nodes m l = Ok t ->
  value rho (DPart (DConcat nodes) (pint m) (pint l)) = Some v -> value rho t = Some v.
Theorem C16_slices_right_refuted : ~ slices_right /\
  (takePart abc 9 [T "a"; T "b"] 11 8 = Ok (DPart (T "a") (pint 11) (pint 8)) /\
    value (vals 255 0 0) (DPart (DConcat [T "a"; T "b"]) (pint 11) (pint 8)) = Some 15 /\ value (vals 255 0 0) (DPart (T "a") (pint 11) (pint 8)) = Some 0) /\
  (takePart abc 9 [T "a"; T "b"] 11 4 = Ok (DPart (DConcat [DPart (T "a") (pint 3) (pint 0); DPart (T "b") (pint 7) (pint 4)]) (pint 11) (pint 4)) /\
    value (vals 255 0 0) (DPart (DConcat [T "a"; T "b"]) (pint 11) (pint 4)) = Some 240 /\
    value (vals 255 0 0) (DPart (DConcat [DPart (T "a") (pint 3) (pint 0); DPart (T "b") (pint 7) (pint 4)]) (pint 11) (pint 4)) = Some 15).
Proof.
  split; [|repeat split; vm_compute; reflexivity]. intros K. assert (value (vals 255 0 0) (DPart (T "a") (pint 11) (pint 8)) = Some 15) as H; [|vm_compute in H; discriminate].
  refine (K abc (vals 255 0 0) 9%nat [T "a"; T "b"] 11 8 _ 15 (abc_agrees _) _ _ _ _ _).
  - repeat (apply Forall_cons; [apply signal_ok; cbn; tauto|]); apply Forall_nil.
  - lia.
  - exists 16. split; [reflexivity|lia].
  - vm_compute; reflexivity.
  - vm_compute; reflexivity.
Qed.
Print Assumptions C16_slices_right_refuted.

(** C17, hypotheses met: {4'd3, 4'd5, a[7:4], a[3:0], b ? a : c, b ? c : a}. *)
Definition sl (n : string) (m l : Z) : df := DPart (T n) (pint m) (pint l).
Definition parts17 : list df := [pintw 3 4; pintw 5 4; sl "a" 7 4; sl "a" 3 0; DBranch (T "b") (T "a") (T "c"); DBranch (T "b") (T "c") (T "a")].
Example C17_hypotheses_met : forall f, Forall (element (abc_rho f)) parts17 /\
  mergeConcat abc 9 parts17 = Ok (DConcat [pintw 53 8; T "a"; DBranch (T "b") (DConcat [T "a"; T "c"]) (DConcat [T "c"; T "a"])]).
Proof.
  intros f. split; [|vm_compute; reflexivity].
  assert (forall n, 0 <= f n mod 2 ^ 8 < 2 ^ 8) as R by (intros n; apply Z.mod_pos_bound; lia).
  assert (forall n m l, 0 <= l <= m -> m < 8 -> element (abc_rho f) (sl n m l)) as S.
  { intros n m l H1 H2. split; [|exact H2]. exists (m - l + 1). unfold width, value, sl. cbn [ev pint fst]. destruct (Z.leb_spec 0 l); [|lia]. destruct (Z.leb_spec l m); [|lia]. cbn. split; auto. split; [lia|]. intros v Hv. injection Hv as <-. apply Z.mod_pos_bound. apply Z.pow_pos_nonneg; lia. }
  assert (forall z w, 0 <= w -> 0 <= z < 2 ^ w -> element (abc_rho f) (pintw z w)) as C.
  { intros z w H1 H2. split; [|exact I]. exists w. cbn. split; auto. split; auto. intros v Hv. injection Hv as <-. auto. }
  assert (forall x y z, element (abc_rho f) (DBranch (T x) (T y) (T z))) as BR.
  { intros x y z. split; [|repeat split; exists 8; auto]. exists 8. split; [reflexivity|]. split; [lia|]. intros v Hv. unfold value in Hv. cbn [ev T fst obind] in Hv. destruct (_ =? 0); cbn in Hv; injection Hv as <-; apply R. }
  unfold parts17. repeat (apply Forall_cons; [first [apply BR|apply C; lia|apply S; lia]|]). apply Forall_nil.
Qed.
(** C17 without the conditions: {8'd255 + 8'd1, 8'd1} after folding the sum to 256 in 8 bits;
    arms of different widths; slices that cover as many bits as the signal has, elsewhere. *)
Definition merging_right : Prop := forall E rho k l t, respects rho -> declared E rho -> mergeConcat E k l = Ok t ->
  forall v, value rho (DConcat l) = Some v -> value rho t = Some v.
Definition wrong_merge (rho : venv) (l : list df) (t : df) (v v' : Z) : Prop := value rho (DConcat l) = Some v /\ mergeConcat abc 9 l = Ok t /\ value rho t = Some v' /\ v <> v'.
Theorem C17_merging_refuted : ~ merging_right /\
  wrong_merge (vals 0 0 0) [pintw 256 8; pintw 1 8] (pintw 65537 16) 1 65537 /\
  wrong_merge (vals 0 0 0) [DBranch (T "b") (T "a") (pintw 1 8); DBranch (T "b") (T "a") (pintw 1 4)]
    (DBranch (T "b") (DConcat [T "a"; T "a"]) (DConcat [pintw 1 8; pintw 1 4])) 257 17 /\
  wrong_merge (vals 255 0 0) [sl "a" 11 8; sl "a" 7 4] (T "a") 15 255.
Proof.
  assert (wrong_merge (vals 255 0 0) [sl "a" 11 8; sl "a" 7 4] (T "a") 15 255) as W by (repeat split; try (vm_compute; reflexivity); discriminate).
  split; [|split; [|split; [|exact W]]].
  - intros K. destruct W as (W1 & W2 & W3 & W4). pose proof (K _ (vals 255 0 0) _ _ _ (abc_respects _) (abc_declared _) W2 _ W1). congruence.
  - repeat split; try (vm_compute; reflexivity); discriminate.
  - repeat split; try (vm_compute; reflexivity); discriminate.
Qed.
Print Assumptions C17_merging_refuted.
