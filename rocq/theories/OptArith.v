(** OptArith.v - the arithmetic of constant folding. *)
From Verif Require Import Base DfModel OptModel OptSpec.
Local Open Scope Z_scope.

Lemma zseq_succ n : 0 <= n -> zseq (n + 1) = zseq n ++ [n].
Proof.
  intros H. unfold zseq. rewrite Z2Nat.inj_add by lia. rewrite Nat.add_1_r, seq_S, map_app. simpl. now rewrite Z2Nat.id.
Qed.
Lemma zseq_0 : zseq 0 = []. Proof. reflexivity. Qed.
Lemma bit_clear_testbit a i : 0 <= i -> bit_clear a i = negb (Z.testbit a i).
Proof.
  intros Hi. unfold bit_clear. rewrite Z.shiftl_mul_pow2, Z.mul_1_l by auto.
  destruct (Z.testbit a i) eqn:E; simpl.
  - apply Z.eqb_neq. intros H. assert (Z.testbit (Z.land a (2 ^ i)) i = true) as K.
    { rewrite Z.land_spec, E, Z.pow2_bits_true by auto. reflexivity. }
    rewrite H, Z.bits_0 in K. discriminate.
  - apply Z.eqb_eq. apply Z.bits_inj'. intros j Hj. rewrite Z.land_spec, Z.bits_0.
    destruct (Z.eq_dec i j) as [->|Hne]; [now rewrite E|]. rewrite Z.pow2_bits_false by auto. apply andb_false_r.
Qed.
Lemma low_range a w : 0 <= w -> 0 <= low a w < 2 ^ w.
Proof. intros. unfold low. apply Z.mod_pos_bound. now apply Z.pow_pos_nonneg. Qed.
Lemma low_succ a n : 0 <= n -> low a (n + 1) = low a n + bz (Z.testbit a n) * 2 ^ n.
Proof.
  intros Hn. unfold low. rewrite Z.pow_add_r, Z.pow_1_r by lia.
  pose proof (Z.pow_pos_nonneg 2 n ltac:(lia) Hn) as Hp.
  rewrite Z.rem_mul_r by lia. f_equal.
  assert (bz (Z.testbit a n) = (a / 2 ^ n) mod 2) as ->; [|lia].
  rewrite <- (Z.testbit_spec' a n Hn). now destruct (Z.testbit a n).
Qed.
Lemma testbit_small v j w : 0 <= v < 2 ^ w -> 0 <= w <= j -> Z.testbit v j = false.
Proof.
  intros Hv Hj. apply Z.testbit_false; [lia|]. rewrite Z.div_small; [reflexivity|].
  split; [lia|]. apply Z.lt_le_trans with (2 ^ w); [lia|]. apply Z.pow_le_mono_r; lia.
Qed.
Lemma lor_disjoint a b : Z.land a b = 0 -> Z.lor a b = a + b.
Proof. intros H. rewrite <- Z.lxor_lor by auto. symmetry. now apply Z.add_nocarry_lxor. Qed.
Lemma lor_add r n : 0 <= n -> 0 <= r < 2 ^ n -> Z.lor r (2 ^ n) = r + 2 ^ n.
Proof.
  intros Hn Hr. apply lor_disjoint.
  apply Z.bits_inj'. intros j Hj. rewrite Z.land_spec, Z.bits_0. destruct (Z.eq_dec n j) as [<-|Hne].
  - rewrite Z.pow2_bits_true by auto. rewrite (testbit_small r n n) by lia. reflexivity.
  - rewrite Z.pow2_bits_false by auto. apply andb_false_r.
Qed.
Lemma nonneg_ind (P : Z -> Prop) : P 0 -> (forall n, 0 <= n -> P n -> P (n + 1)) -> forall w, 0 <= w -> P w.
Proof. intros H0 HS w Hw. apply natlike_ind; auto. Qed.

Lemma unot_ok a w : 0 <= w ->
  fold_left (fun r i => if bit_clear a i then Z.lor r (Z.shiftl 1 i) else r) (zseq w) 0 = all_ones w - low a w.
Proof.
  revert w. apply nonneg_ind.
  - unfold all_ones, low. now rewrite Z.pow_0_r, Z.mod_1_r.
  - intros n Hn IH. rewrite (zseq_succ n Hn), fold_left_app, IH. cbn [fold_left].
    rewrite (low_succ a n Hn), (bit_clear_testbit a n Hn). rewrite Z.shiftl_mul_pow2, Z.mul_1_l by auto.
    pose proof (low_range a n Hn). unfold all_ones in *. rewrite Z.pow_add_r, Z.pow_1_r by lia.
    destruct (Z.testbit a n); cbn [negb bz]; [lia|]. rewrite lor_add by lia. lia.
Qed.
Lemma uand_ok a w : 0 <= w -> existsb (bit_clear a) (zseq w) = negb (low a w =? all_ones w).
Proof.
  revert w. apply nonneg_ind.
  - unfold all_ones, low. now rewrite Z.pow_0_r, Z.mod_1_r.
  - intros n Hn IH. rewrite (zseq_succ n Hn), existsb_app, IH. cbn [existsb].
    rewrite (low_succ a n Hn), (bit_clear_testbit a n Hn). pose proof (low_range a n Hn). unfold all_ones in *.
    rewrite Z.pow_add_r, Z.pow_1_r by lia. rewrite orb_false_r. destruct (Z.testbit a n); cbn [negb bz]; lia.
Qed.
Lemma uor_ok a w : 0 <= w -> existsb (fun i => negb (bit_clear a i)) (zseq w) = negb (low a w =? 0).
Proof.
  revert w. apply nonneg_ind.
  - unfold low. now rewrite Z.pow_0_r, Z.mod_1_r.
  - intros n Hn IH. rewrite (zseq_succ n Hn), existsb_app, IH. cbn [existsb].
    rewrite (low_succ a n Hn), (bit_clear_testbit a n Hn). pose proof (low_range a n Hn).
    rewrite orb_false_r. destruct (Z.testbit a n); cbn [negb bz]; lia.
Qed.
Lemma ones_succ a n : 0 <= n -> ones a (n + 1) = ones a n + bz (Z.testbit a n).
Proof.
  intros Hn. unfold ones. rewrite Z2Nat.inj_add by lia. rewrite Nat.add_1_r, seq_S, map_app, fold_right_app. simpl.
  rewrite Z2Nat.id by auto. rewrite Z.add_0_r.
  generalize (map (fun i => bz (Z.testbit a (Z.of_nat i))) (seq 0 (Z.to_nat n))). intros l. induction l as [|x l IH]; simpl; lia.
Qed.
Definition flip (a : Z) (r i : Z) : Z := if bit_clear a i then r else if r =? 0 then 1 else 0.
Lemma uxor_ok a w : 0 <= w -> fold_left (flip a) (zseq w) 0 = ones a w mod 2 /\ fold_left (flip a) (zseq w) 1 = 1 - ones a w mod 2.
Proof.
  revert w. apply nonneg_ind.
  - rewrite zseq_0. unfold ones. simpl. split; reflexivity.
  - intros n Hn [IH1 IH2]. rewrite (zseq_succ n Hn), !fold_left_app, IH1, IH2. cbn [fold_left]. unfold flip.
    rewrite (ones_succ a n Hn), (bit_clear_testbit a n Hn). pose proof (Z.mod_pos_bound (ones a n) 2 ltac:(lia)).
    destruct (Z.testbit a n); cbn [negb bz]; [|now rewrite Z.add_0_r].
    assert (ones a n mod 2 = 0 \/ ones a n mod 2 = 1) as [K|K] by lia; rewrite Z.add_mod, K by lia; split; reflexivity.
Qed.
Lemma low_small v w : 0 <= v < 2 ^ w -> low v w = v.
Proof. intros. unfold low. now apply Z.mod_small. Qed.
Lemma lor_shift acc v w : 0 <= w -> 0 <= v < 2 ^ w -> Z.lor (Z.shiftl acc w) v = acc * 2 ^ w + low v w.
Proof.
  intros Hw Hv. rewrite (low_small v w Hv). rewrite Z.shiftl_mul_pow2 by auto. apply lor_disjoint.
  apply Z.bits_inj'. intros j Hj. rewrite Z.land_spec, Z.bits_0. destruct (Z_lt_ge_dec j w).
  - rewrite Z.mul_pow2_bits_low by auto. reflexivity.
  - rewrite (testbit_small v j w) by lia. apply andb_false_r.
Qed.

(** ** Division through floats *)
Lemma rhe_bounds num den : 0 <= num -> 0 < den ->
  num / den <= round_half_even num den /\ 2 * den * round_half_even num den <= 2 * num + den /\
  (num mod den = 0 -> round_half_even num den = num / den).
Proof.
  intros Hn Hd. pose proof (Z.div_mod num den ltac:(lia)) as E. pose proof (Z.mod_pos_bound num den Hd) as Hm. unfold round_half_even.
  set (q := num / den) in *. set (r := num mod den) in *. clearbody q r. subst num.
  destruct (Z.ltb_spec (2 * r) den); [split; [lia|split; [nia|auto]]|].
  destruct (Z.ltb_spec den (2 * r)); [split; [lia|split; [nia|lia]]|].
  destruct (Z.even q); (split; [lia|split; [nia|lia]]).
Qed.

Lemma div_floor n d : 0 < n -> n <= 2 ^ 53 -> 0 < d ->
  forall e0, e0 = Z.log2 n - Z.log2 d - 53 ->
  forall num den, (forall e, num e = if 0 <=? e then n else n * 2 ^ (- e)) -> (forall e, den e = if 0 <=? e then d * 2 ^ e else d) ->
  forall e, e = (if 2 ^ 53 * den e0 <=? num e0 then e0 + 1 else e0) ->
  (if 0 <=? e then round_half_even (num e) (den e) * 2 ^ e else round_half_even (num e) (den e) / 2 ^ (- e)) = n / d.
Proof.
  intros Hn Hn53 Hd e0 He0 num den Hnum Hden e He.
  assert (Z.log2 n <= 53) as HL by (change 53 with (Z.log2 (2 ^ 53)); now apply Z.log2_le_mono).
  pose proof (Z.log2_spec n Hn) as [Ln1 Ln2]. pose proof (Z.log2_spec d Hd) as [Ld1 Ld2].
  pose proof (Z.log2_nonneg n) as Ln0. pose proof (Z.log2_nonneg d) as Ld0.
  assert (e0 <= 0) as He0n by lia.
  (* quotient in units of 2^e lies in [2^52, 2^53) *)
  assert (2 ^ 52 * den e0 <= num e0 /\ num e0 < 2 ^ 54 * den e0) as [B1 B2].
  { rewrite Hnum, Hden. destruct (Z.leb_spec 0 e0).
    - assert (e0 = 0) by lia. assert (Z.log2 n = 53) by lia. assert (Z.log2 d = 0) by lia.
      replace e0 with 0 by lia. rewrite H1, H2 in *. change (2 ^ 0) with 1. change (2 ^ Z.succ 0) with 2 in *.
      assert (d = 1) by lia. subst d. assert (n = 2 ^ 53) by lia. subst n. split; vm_compute; discriminate || reflexivity.
    - set (u := - e0). assert (0 < u) by (unfold u; lia).
      assert (2 ^ Z.log2 n * 2 ^ u = 2 ^ 53 * 2 ^ Z.log2 d) as Hu by (rewrite <- !Z.pow_add_r by lia; f_equal; unfold u; lia).
      pose proof (Z.pow_pos_nonneg 2 u ltac:(lia) ltac:(lia)) as Pu. rewrite Z.pow_succ_r in Ln2, Ld2 by auto.
      set (U := 2 ^ u) in *. set (N := 2 ^ Z.log2 n) in *. set (D := 2 ^ Z.log2 d) in *.
      change (2 ^ 54) with (2 * 2 ^ 53). assert (2 ^ 53 = 2 * 2 ^ 52) as P53 by reflexivity.
      assert (0 < 2 ^ 52) as P52 by reflexivity. set (M := 2 ^ 52) in *. rewrite P53 in *. clearbody M U N D. split; nia. }
  assert (2 ^ 52 * den e <= num e /\ num e < 2 ^ 53 * den e) as [C1 C2].
  { rewrite He. destruct (Z.leb_spec (2 ^ 53 * den e0) (num e0)) as [Hge|Hlt]; [|auto].
    rewrite Hnum, Hden in Hge, B1, B2. rewrite Hnum, Hden. clear Hnum Hden He. revert Hge B1 B2. destruct (Z.leb_spec 0 e0); intros Hge B1 B2.
    - assert (e0 = 0) by lia. clear He0. subst e0. change (2 ^ (0 + 1)) with 2. change (0 + 1) with 1. change (2 ^ 0) with 1 in *.
      assert (2 ^ 54 = 2 * 2 ^ 53) as P by reflexivity. assert (2 ^ 53 = 2 * 2 ^ 52) as P' by reflexivity. change (0 <=? 1) with true; cbv iota; change (2 ^ 1) with 2; lia.
    - assert (2 ^ 54 = 2 * 2 ^ 53) as P by reflexivity. assert (2 ^ 53 = 2 * 2 ^ 52) as P' by reflexivity.
      destruct (Z.leb_spec 0 (e0 + 1)).
      + assert (e0 = -1) by lia. rewrite H1 in *. change (2 ^ (-1 + 1)) with 1. change (2 ^ - -1) with 2 in *. lia.
      + assert (2 ^ (- e0) = 2 * 2 ^ (- (e0 + 1))) as Pe by (rewrite <- Z.pow_succ_r by lia; f_equal; lia). rewrite Pe in *.
        set (V := 2 ^ (- (e0 + 1))) in *. nia. }
  assert (0 < den e) as Hdp.
  { rewrite Hden. destruct (Z.leb_spec 0 e); auto. apply Z.mul_pos_pos; auto. now apply Z.pow_pos_nonneg. }
  assert (0 <= num e) as Hnp.
  { assert (0 <= 2 ^ 52) by (vm_compute; discriminate). nia. }
  destruct (rhe_bounds (num e) (den e) Hnp Hdp) as (R1 & R2 & R3). set (m := round_half_even (num e) (den e)) in *.
  clearbody m. rewrite Hden in Hdp. rewrite Hnum in Hnp. rewrite Hnum, Hden in C1, C2, R1, R2, R3. clear B1 B2 Hnum Hden.
  revert C1 C2 Hdp Hnp R1 R2 R3. destruct (Z.leb_spec 0 e) as [Hpos|Hneg]; intros C1 C2 Hdp Hnp R1 R2 R3.
  - (* e >= 0: the division is exact *)
    pose proof (Z.pow_pos_nonneg 2 e ltac:(lia) Hpos) as Pe.
    assert (d * 2 ^ e = 1 \/ d * 2 ^ e = 2 /\ n = 2 ^ 53) as [K|[K Kn]].
    { assert (d * 2 ^ e <= 2) by (assert (2 ^ 53 = 2 * 2 ^ 52) as P' by reflexivity; assert (0 < 2 ^ 52) by reflexivity; nia).
      assert (d * 2 ^ e = 1 \/ d * 2 ^ e = 2) as [H1|H1] by nia; auto. right. split; auto. rewrite H1 in C1.
      assert (2 ^ 53 = 2 * 2 ^ 52) as P' by reflexivity. lia. }
    + assert (2 ^ e = 1 /\ d = 1) as [K1 K2] by nia. rewrite K, Z.div_1_r, Z.mod_1_r in *. rewrite K1, K2, Z.div_1_r. rewrite R3; lia.
    + rewrite K in *. assert (n mod 2 = 0) as Hm by (rewrite Kn; reflexivity).
      rewrite (R3 Hm). assert (n = 2 * (n / 2)) as Hh by (pose proof (Z.div_mod n 2); lia).
      apply Z.div_unique_exact; [lia|]. replace (d * (n / 2 * 2 ^ e)) with ((d * 2 ^ e) * (n / 2)) by ring. rewrite K. lia.
  - set (u := 2 ^ (- e)) in *. assert (0 < u) as Pu by (apply Z.pow_pos_nonneg; lia).
    pose proof (Z.div_mod n d ltac:(lia)) as Edm. pose proof (Z.mod_pos_bound n d Hd) as Hr.
    set (q := n / d) in *. set (r := n mod d) in *.
    assert (q * u <= m) as L1.
    { apply Z.le_trans with (n * u / d); auto. apply Z.div_le_lower_bound; auto. nia. }
    assert (m < (q + 1) * u) as L2.
    { destruct (Z_lt_ge_dec m ((q + 1) * u)) as [|Hge]; auto. exfalso.
      assert (2 ^ 53 = 2 * 2 ^ 52) as P' by reflexivity. assert (0 < 2 ^ 52) as P52 by reflexivity.
      assert (d >= 2 * u * (d - r)) as H1 by nia.
      assert (2 * u >= d) as H2 by nia.
      assert (d - r = 1 /\ d = 2 * u) as [H3 H4] by nia.
      assert (n = 2 ^ 53) as H5 by nia.
      assert (n * u = d * 2 ^ 52) as H6 by nia.
      assert (n * u mod d = 0) as H7 by (rewrite H6, Z.mul_comm; apply Z.mod_mul; lia).
      specialize (R3 H7). rewrite H6, Z.mul_comm, Z.div_mul in R3 by lia. nia. }
    symmetry. apply Z.div_unique with (m - q * u); lia.
Qed.

Lemma float_div_exact a b : b <> 0 -> Z.abs a <= 2 ^ 53 -> float_div_trunc a b = Ok (Z.quot a b).
Proof.
  intros Hb Ha. unfold float_div_trunc. destruct (Z.eqb_spec (Z.abs a) 0) as [H0|H0].
  - assert (a = 0) by lia. subst a. now rewrite Z.quot_0_l.
  - pose proof (div_floor (Z.abs a) (Z.abs b) ltac:(lia) Ha ltac:(lia) _ eq_refl
      (fun e => if 0 <=? e then Z.abs a else Z.abs a * 2 ^ (- e)) (fun e => if 0 <=? e then Z.abs b * 2 ^ e else Z.abs b)
      (fun e => eq_refl) (fun e => eq_refl) _ eq_refl) as Hdf.
    cbv beta in Hdf. cbv zeta. cbv beta. rewrite Hdf. clear Hdf.
    assert (Z.abs a / Z.abs b <= 2 ^ 53) as Hle by (apply Z.div_le_upper_bound; [lia|]; nia).
    destruct (Z.leb_spec (2 ^ 1024) (Z.abs a / Z.abs b)) as [Hbig|_].
    + exfalso. assert (2 ^ 53 < 2 ^ 1024) by (vm_compute; reflexivity). lia.
    + f_equal. rewrite <- Z.quot_div_nonneg by lia. symmetry.
      destruct (Z.abs_spec a) as [[Ha1 ->]|[Ha1 ->]]; destruct (Z.abs_spec b) as [[Hb1 ->]|[Hb1 ->]];
        rewrite ?Z.quot_opp_l, ?Z.quot_opp_r by lia;
        [rewrite (Z.sgn_pos a), (Z.sgn_pos b)|rewrite (Z.sgn_pos a), (Z.sgn_neg b)|rewrite (Z.sgn_neg a), (Z.sgn_pos b)|rewrite (Z.sgn_neg a), (Z.sgn_neg b)]; lia.
Qed.
