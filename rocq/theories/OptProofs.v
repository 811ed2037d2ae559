(** OptProofs.v - lemmas about constant folding. *)
From Verif Require Import Base ScopeModel DfModel BindModel LitModel LitSpec LitProofs OptModel OptSpec OptArith.
Local Open Scope Z_scope.

Lemma bz_b2z b : b2z b = bz b. Proof. reflexivity. Qed.

Lemma eval_exact o vs w v : 0 <= w -> exact o vs -> op_value o vs w = Some v -> evalOperator_int o vs w = Ok (PInt v).
Proof.
  intros Hw Hx Hv. unfold evalOperator_int.
  destruct o; destruct vs as [|a [|b [|c r]]]; cbn in Hv, Hx; try discriminate; try contradiction;
    cbn [no_case is_unary nthZ nth_error bind eval_unary eval_binary]; rewrite ?bz_b2z;
    try (injection Hv as <-; reflexivity).
  all: try (injection Hv as <-; f_equal; f_equal; lia).
  all: try (destruct (b <? 0); [discriminate|]; injection Hv as <-; reflexivity).
  - injection Hv as <-. now rewrite unot_ok.
  - injection Hv as <-. rewrite uand_ok by auto. now destruct (_ =? _).
  - injection Hv as <-. rewrite uand_ok by auto. now destruct (_ =? _).
  - injection Hv as <-. rewrite uor_ok by auto. now destruct (_ =? _).
  - injection Hv as <-. rewrite uor_ok by auto. now destruct (_ =? _).
  - injection Hv as <-. destruct (uxor_ok a w Hw) as [H _]. now rewrite <- H.
  - destruct (uxor_ok a w Hw) as [_ H]. transitivity (@Ok pyval (PInt (1 - ones a w mod 2))); [now rewrite <- H|]. change (Some (1 - ones a w mod 2) = Some v) in Hv. congruence.
  - destruct (Z.eqb_spec b 0); [discriminate|]. injection Hv as <-. now rewrite float_div_exact.
  - destruct (Z.eqb_spec b 0); [discriminate|]. injection Hv as <-. rewrite Z.rem_mod_nonneg by lia. reflexivity.
  - destruct (Z.ltb_spec b 0); [discriminate|]. injection Hv as <-. now rewrite Z.shiftl_mul_pow2.
  - destruct (Z.ltb_spec b 0); [discriminate|]. destruct (Z.ltb_spec a 0); [lia|]. injection Hv as <-. now rewrite Z.shiftr_div_pow2.
  - destruct (Z.ltb_spec b 0); [discriminate|]. injection Hv as <-. now rewrite Z.shiftr_div_pow2.
Qed.

(** ** More fuel, same result *)
Lemma mapM_mono {A B} (f g : A -> res B) l l' : (forall x y, f x = Ok y -> g x = Ok y) -> mapM f l = Ok l' -> mapM g l = Ok l'.
Proof. intros H K. apply mapM_Forall2_ok. apply mapM_ok_Forall2 in K. induction K; constructor; auto. Qed.

Ltac unbind H := let a := fresh "r" in let E := fresh "B" in apply bind_ok in H as (a & E & H).

Lemma optC_step E k j : (forall t t', optC E k t = Ok t' -> optC E j t = Ok t') ->
  forall t t', optC E (S k) t = Ok t' -> optC E (S j) t = Ok t'.
Proof.
  intros IH t t' H. destruct t; cbn [optC] in H |- *; auto.
  - (* DTerm *) destruct (dget (o_const E) name) as [c|]; auto. destruct (dget (o_terms E) name) as [tm|]; auto.
    destruct c; auto. destruct (is_none (t_msb tm) || is_none (t_lsb tm)); auto.
    unbind H. unbind H. rewrite (IH _ _ B). cbn [bind]. rewrite (IH _ _ B0). exact H.
  - unbind H. rewrite (mapM_mono _ _ _ _ (fun x y => IH x y) B). exact H.
  - unbind H. unbind H. unbind H. rewrite (IH _ _ B). cbn [bind]. rewrite (IH _ _ B0). cbn [bind]. rewrite (IH _ _ B1). exact H.
  - destruct t1; auto. destruct (dget (o_terms E) name) as [tm|]; auto. unbind H. unbind H.
    rewrite (IH _ _ B). cbn [bind]. rewrite (IH _ _ B0). exact H.
  - unbind H. rewrite (mapM_mono _ _ _ _ (fun x y => IH x y) B). exact H.
  - unbind H. unbind H. unbind H. rewrite (IH _ _ B). cbn [bind]. rewrite (IH _ _ B0). cbn [bind]. rewrite (IH _ _ B1). exact H.
  - unbind H. rewrite (mapM_mono _ _ _ _ (fun x y => IH x y) B). exact H.
Qed.
Lemma optC_mono E k : forall t t', optC E k t = Ok t' -> optC E (S k) t = Ok t'.
Proof. induction k as [|k IH]; [discriminate|]. apply optC_step, IH. Qed.
Lemma optC_le E k k' t t' : (k <= k')%nat -> optC E k t = Ok t' -> optC E k' t = Ok t'.
Proof. induction 1; auto. intros H1. apply optC_mono. auto. Qed.
Lemma optC_det E k k' t a b : optC E k t = Ok a -> optC E k' t = Ok b -> a = b.
Proof.
  intros Ha Hb. apply (optC_le _ _ (Nat.max k k')) in Ha; [|lia]. apply (optC_le _ _ (Nat.max k k')) in Hb; [|lia]. congruence.
Qed.

(** ** Literals *)
Lemma has_xz_allc s : has_xz s = negb (allc (fun c => negb (in_str ["x"%char; "z"%char; "X"%char; "Z"%char] c)) s).
Proof. induction s as [|c r IH]; simpl; auto. rewrite IH. now rewrite negb_andb, negb_involutive. Qed.
Definition noxz c := negb (in_str ["x"%char; "z"%char; "X"%char; "Z"%char] c).
Lemma isdig_noxz c : isdig 16 c = true -> noxz c = true.
Proof. revert c. apply char_imp. vm_compute. reflexivity. Qed.
Lemma drop_noxz s : allc noxz (drop_underscores s) = true -> allc noxz s = true.
Proof. induction s as [|c r IH]; cbn [drop_underscores allc]; auto. destruct (Ascii.eqb_spec c "_") as [->|]; auto.
  cbn [allc]. rewrite !andb_true_iff. intros [H1 H2]. auto. Qed.
Lemma numeral_noxz b s n : b <= 16 -> numeral b s n -> allc noxz s = true.
Proof. intros Hb H. apply numeral_parse in H as (_ & _ & H). apply drop_noxz. eapply allc_imp; [apply isdig_noxz|]. now apply (allc_le b). Qed.
Lemma literal_noxz s sg w n : literal s sg w n -> has_xz s = false.
Proof.
  intros H. rewrite has_xz_allc. apply negb_false_iff. change (allc noxz s = true). destruct H as [s n H|size w sg c b ds n Hs Hg Hc H].
  - apply numeral_noxz in H; auto. lia.
  - assert (b <= 16) as Hb by (destruct Hc; lia). apply numeral_noxz in H; auto.
    rewrite allc_app. cbn [append allc]. rewrite allc_app. cbn [allc]. rewrite H.
    assert (allc noxz size = true) as -> by (destruct Hs as [|s n' K]; [reflexivity|apply numeral_noxz in K; auto; lia]).
    destruct Hg; destruct Hc; reflexivity.
Qed.

(** ** Constant expressions fold *)
Definition mkv (vw : Z * Z) : df := DEval (PInt (fst vw)) (Some (snd vw)) false false.
Lemma op_args_mkv vs : forall ws w0, length vs = length ws -> op_args (map mkv (combine vs ws)) w0 = Ok (vs, fold_left Z.max ws w0).
Proof.
  induction vs as [|v vs IH]; intros [|w ws] w0 H; try discriminate; auto. cbn. rewrite IH by (simpl in H; lia). cbn.
  f_equal. f_equal. f_equal. destruct (Z.ltb_spec w0 w); lia.
Qed.
Lemma fold_max ws : forall w0, 0 <= w0 -> fold_left Z.max ws w0 = Z.max w0 (maxw ws).
Proof.
  induction ws as [|w ws IH]; intros w0 H0; [cbn; lia|]. cbn [fold_left]. rewrite IH by lia. unfold maxw. cbn [fold_right]. lia.
Qed.
Lemma maxw_nonneg ws : 0 <= maxw ws.
Proof. induction ws as [|w l IH]; unfold maxw in *; cbn [fold_right]; lia. Qed.
Lemma all_mkv l : forallb isEval (map mkv l) = true.
Proof. induction l; auto. Qed.

Lemma concat_go vs : forall ws acc s, Forall2 (fun v w => 0 <= w /\ 0 <= v < 2 ^ w) vs ws ->
  evalConcat_go (map mkv (combine vs ws)) acc s = Ok (cat (combine vs ws) acc, s + sum ws).
Proof.
  induction vs as [|v vs IH]; intros ws acc s H; inv H; cbn [combine map evalConcat_go mkv fst snd cat sum fold_right].
  - now rewrite Z.add_0_r.
  - destruct H2 as [Hw Hv]. destruct (Z.ltb_spec y 0); [lia|]. cbn [as_int bind]. rewrite IH by auto.
    rewrite lor_shift by auto. unfold sum. cbn [fold_right]. now rewrite Z.add_assoc.
Qed.

Lemma evalPart_ok v m l : 0 <= l <= m -> 0 <= v -> evalPartselect v m l = Ok (mkv (low (v / 2 ^ l) (m - l + 1), m - l + 1)).
Proof.
  intros Hl Hv. unfold evalPartselect. destruct (Z.ltb_spec l 0); [lia|]. destruct (Z.ltb_spec (m - l + 1) 0); [lia|].
  rewrite Z.shiftr_div_pow2 by lia. unfold mkv. cbn [fst snd]. repeat f_equal.
  assert (0 <= v / 2 ^ l) as Hp by (apply Z.div_pos; auto; apply Z.pow_pos_nonneg; lia).
  destruct (Z.leb_spec (2 ^ (m - l + 1)) (v / 2 ^ l)); auto. symmetry. apply low_small. lia.
Qed.

Scheme folds_min := Minimality for folds Sort Prop with folds_list_min := Minimality for folds_list Sort Prop.
Combined Scheme folds_mut from folds_min, folds_list_min.

Lemma is_none_true t : is_none t = true <-> t = DNone.
Proof. destruct t; simpl; split; congruence. Qed.

Lemma folds_optC E :
  (forall t v w, folds E t v w -> exists k0, forall k, (k0 <= k)%nat -> optC E k t = Ok (mkv (v, w))) /\
  (forall l vs ws, folds_list E l vs ws -> length vs = length ws /\
     exists k0, forall k, (k0 <= k)%nat -> mapM (optC E k) l = Ok (map mkv (combine vs ws))).
Proof.
  apply folds_mut.
  - intros s w n H. exists 1%nat. intros [|k] Hk; [lia|]. cbn [optC]. rewrite (literal_noxz _ _ _ _ H), (int_eval_literal _ _ _ _ H), (int_width_literal _ _ _ H).
    reflexivity.
  - intros v w. exists 1%nat. intros [|k] Hk; [lia|]. reflexivity.
  - intros n v w f g tm Hc Ht Hn. exists 1%nat. intros [|k] Hk; [lia|]. cbn [optC]. rewrite Hc, Ht.
    assert (is_none (t_msb tm) || is_none (t_lsb tm) = true) as ->; [|reflexivity].
    apply orb_true_iff. rewrite !is_none_true. exact Hn.
  - intros n v w f g tm m l wm wl Hc Ht Hm Hl _ [k1 IH1] _ [k2 IH2]. exists (S (Nat.max k1 k2)). intros [|k] Hk; [lia|].
    cbn [optC]. rewrite Hc, Ht.
    assert (is_none (t_msb tm) || is_none (t_lsb tm) = false) as ->.
    { apply orb_false_iff. split; apply not_true_iff_false; rewrite is_none_true; auto. }
    rewrite IH1, IH2 by lia. reflexivity.
  - intros l o vs ws v _ [HL [k0 IH]] Hv Hx. exists (S k0). intros [|k] Hk; [lia|]. cbn [optC]. rewrite IH by lia. cbn [bind].
    rewrite all_mkv. unfold evalOperator. rewrite op_args_mkv by auto. cbn [bind fst snd]. rewrite fold_max by lia.
    rewrite Z.max_r by apply maxw_nonneg. rewrite (eval_exact o vs _ v); auto using maxw_nonneg.
  - intros l vs ws _ [HL [k0 IH]] Hr. exists (S k0). intros [|k] Hk; [lia|]. cbn [optC]. rewrite IH by lia. cbn [bind].
    rewrite all_mkv. unfold evalConcat. rewrite concat_go by auto. reflexivity.
  - intros x m l v wv mv wm lv wl _ [k1 IH1] _ [k2 IH2] _ [k3 IH3] Hl Hv. exists (S (k1 + k2 + k3)). intros [|k] Hk; [lia|].
    cbn [optC]. rewrite IH1, IH2, IH3 by lia. cbn [bind mkv fst snd as_int int_attr value_attr]. now apply evalPart_ok.
  - intros c a b vc wc va wa vb wb _ [k1 IH1] _ [k2 IH2] _ [k3 IH3]. exists (S (k1 + k2 + k3)). intros [|k] Hk; [lia|].
    cbn [optC]. rewrite IH1, IH2, IH3 by lia. cbn [bind mkv fst snd val_true]. destruct (vc =? 0); reflexivity.
  - split; auto. exists 0%nat. reflexivity.
  - intros t l v w vs ws _ [k1 IH1] _ [HL [k2 IH2]]. split; [simpl; lia|]. exists (Nat.max k1 k2). intros k Hk. cbn [mapM].
    rewrite IH1, IH2 by lia. reflexivity.
Qed.
