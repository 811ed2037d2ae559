(** OptProps.v - C10, C11, C12: constant folding. *)
From Verif Require Import Base ScopeModel DfModel BindModel LitModel LitSpec LitProofs OptModel OptSpec OptArith OptProofs OptProofs2.
Local Open Scope Z_scope.

Definition empty_env : optenv := OptEnv [] [].
Definition any_rho : venv := VEnv (fun _ => 5) (fun _ => 8) (fun _ => false) (fun _ _ => 7) (fun _ _ => 0).
Lemma empty_agrees : agrees empty_env any_rho.
Proof. split; [|split]; intros; discriminate. Qed.
Definition L (s : string) : df := DInt s.

(** C10: folding keeps every defined value, and the width where [keeps_width] holds. *)
Theorem C10_folding_preserves_partial : forall E rho k t t',
  agrees E rho -> fold_safe E rho t -> optC E k t = Ok t' ->
  (forall v, value rho t = Some v -> value rho t' = Some v) /\
  (keeps_width rho t -> forall w, width rho t = Some w -> width rho t' = Some w).
Proof. intros E rho k t t' HA HS H. exact (optC_good E rho HA k t t' HS H). Qed.
Print Assumptions C10_folding_preserves_partial.

(** C10 without the side conditions. *)
Definition folding_preserves_values : Prop := forall E rho k t t', agrees E rho -> optC E k t = Ok t' ->
  forall v, value rho t = Some v -> value rho t' = Some v.
Definition folding_preserves_widths : Prop := forall E rho k t t', agrees E rho -> optC E k t = Ok t' ->
  forall w, width rho t = Some w -> width rho t' = Some w.

Definition folds_wrongly (t : df) (v v' : Z) : Prop :=
  value any_rho t = Some v /\ exists t', optC empty_env 9 t = Ok t' /\ value any_rho t' = Some v' /\ v <> v'.

Theorem C10_folding_preserves_refuted :
  ~ folding_preserves_values /\ ~ folding_preserves_widths /\
  (* {8'd255, 8'd1 == 8'd1} is 511 and folds to 65281 *)
  folds_wrongly (DConcat [L "8'd255"; DOp [L "8'd1"; L "8'd1"] Eq]) 511 65281 /\
  (* {8'd255 + 8'd1, 8'd0}: the carry is not cut off *)
  folds_wrongly (DConcat [DOp [L "8'd255"; L "8'd1"] Plus; L "8'd0"]) 0 65536 /\
  (* {1'd1, 4'd1 << 8'd2}: the shift is as wide as its amount *)
  folds_wrongly (DConcat [L "1'd1"; DOp [L "4'd1"; L "8'd2"] Sll]) 20 260 /\
  (* 4'd1 ~^ 4'd2 is 12 and folds to -4 *)
  folds_wrongly (DOp [L "4'd1"; L "4'd2"] Xnor) 12 (-4) /\
  (* (-7) % 2 is -1 and folds to 1 *)
  folds_wrongly (DOp [DOp [L "7"] Uminus; L "2"] Mod) (-1) 1 /\
  (* {1'd1, c ? 4'd1 : 8'd2} with c constant: the branch loses the wider arm *)
  folds_wrongly (DConcat [L "1'd1"; DBranch (L "1") (L "4'd1") (L "8'd2")]) 257 17 /\
  (* +4'd1 and 4'd1 <<< 1 lose their value *)
  optC empty_env 9 (DOp [L "4'd1"] Uplus) = Ok (DEval PNone (Some 4) false false) /\
  optC empty_env 9 (DOp [L "4'd1"; L "4'd1"] Sla) = Ok (DEval PNone (Some 4) false false).
Proof.
  assert (folds_wrongly (DConcat [L "8'd255"; DOp [L "8'd1"; L "8'd1"] Eq]) 511 65281) as W.
  { split; [vm_compute; reflexivity|]. eexists. split; [vm_compute; reflexivity|]. split; [vm_compute; reflexivity|discriminate]. }
  assert (forall t v v', folds_wrongly t v v' -> ~ folding_preserves_values) as HV.
  { intros t v v' (H1 & t' & H2 & H3 & H4) K. specialize (K _ _ _ _ _ empty_agrees H2 _ H1). congruence. }
  split; [now apply (HV _ _ _ W)|]. split.
  { intros K. specialize (K empty_env any_rho 9%nat (DOp [L "8'd1"; L "8'd1"] Eq) _ empty_agrees eq_refl 1 eq_refl). discriminate. }
  split; [exact W|].
  repeat match goal with |- _ /\ _ => split end;
    try (split; [vm_compute; reflexivity|]; eexists; split; [vm_compute; reflexivity|]; split; [vm_compute; reflexivity|discriminate]);
    vm_compute; reflexivity.
Qed.
Print Assumptions C10_folding_preserves_refuted.

(** The hypotheses of C10 are met: {P, s} + ~(P << 1), with P a parameter [7:0] of value 3 and s a signal. *)
Definition sig (n : string) : chain := [Label n STsignal None].
Definition P_term : term := Term (sig "P") ["Parameter"%string] (L "7") (L "0") None.
Definition P_env : optenv := OptEnv [(sig "P", P_term)] [(sig "P", DEval (PInt 3) (Some 32) false false)].
Definition P_rho (s : Z) : venv :=
  VEnv (fun n => match dget (o_const P_env) n with Some _ => 3 | None => s end) (fun n => 8) (fun _ => false) (fun _ _ => 0) (fun _ _ => 0).
Lemma digit1 c d : In (c, d) digits_of -> d < 10 -> literal (String c "") "" None d.
Proof. intros H H'. apply lit_plain. exists c, d, ""%string. split; auto. split; [split; auto|constructor]. Qed.
Lemma P_agrees s : agrees P_env (P_rho s).
Proof.
  split; [|split].
  - intros n c H. exists 3, 8. split; [|split; [cbn [P_rho e_val]; now rewrite H|reflexivity]].
    assert (dget (o_const P_env) n = Some (DEval (PInt 3) (Some 32) false false) /\ dget (o_terms P_env) n = Some P_term) as [H1 H2].
    { cbn [P_env o_const o_terms dget] in *. destruct (chain_eq (sig "P") n); [auto|discriminate]. }
    change 8 with (7 - 0 + 1). eapply f_term_range; [exact H1|exact H2|discriminate|discriminate| |].
    + apply (f_int P_env "7" None 7). apply digit1; [simpl; tauto|lia].
    + apply (f_int P_env "0" None 0). apply digit1; [simpl; tauto|lia].
  - intros n tm H. cbn [P_env o_terms dget] in H. destruct (chain_eq (sig "P") n); [|discriminate]. injection H as <-. cbn. split; [discriminate|congruence].
  - reflexivity.
Qed.
(** {P, s} + ~(P - 1) *)
Definition P_tree : df := DOp [DConcat [DTerm (sig "P"); DTerm (sig "s")]; DOp [DOp [DTerm (sig "P"); L "1"] Minus] Unot] Plus.
Example C10_hypotheses_met : forall s,
  agrees P_env (P_rho s) /\ fold_safe P_env (P_rho s) P_tree /\ keeps_width (P_rho s) P_tree /\
  optC P_env 9 P_tree = Ok (DOp [DConcat [DEval (PInt 3) (Some 8) false false; DTerm (sig "s")]; DEval (PInt (2 ^ 32 - 3)) (Some 32) false false] Plus).
Proof.
  intros s. split; [apply P_agrees|]. split; [|split; [|reflexivity]].
  - unfold P_tree. repeat first [apply fs_op|apply fs_concat|constructor]; try (intros [H|[H|H]]; discriminate); try (intros; discriminate).
    all: try (intros _; repeat constructor).
    all: intros _ vs H; cbn in H; exact I0.
  - repeat constructor.
Qed.

(** C11: constant expressions fold to one node, if the folding returns at all. *)
Theorem C11_folds_to_one_node : forall E k t t', const_expr E t -> optC E k t = Ok t' -> exists v w f g, t' = DEval v w f g.
Proof. intros E k t t' HC H. apply isEval_inv. eapply optC_complete; eauto. Qed.
Print Assumptions C11_folds_to_one_node.

(** C11: and with supported, exact operators it does return, the expression's value and width. *)
Theorem C11_folds_to_value : forall E t v w, folds E t v w ->
  exists k0, forall k, (k0 <= k)%nat -> optC E k t = Ok (DEval (PInt v) (Some w) false false).
Proof. intros E. exact (proj1 (folds_optC E)). Qed.
Print Assumptions C11_folds_to_value.

(** C11 fails for a bit of a parameter, P[0]: TypeError. *)
Theorem C11_parameter_bit_refuted : forall k, (3 <= k)%nat -> optC P_env k (DPtr (DTerm (sig "P")) (DEval (PInt 0) (Some 32) false false)) = Err TypeError.
Proof. intros [|[|[|k]]] H; try lia; reflexivity. Qed.
Print Assumptions C11_parameter_bit_refuted.

(** Hypotheses met: ((P * 2) / 3)[1:0] with P = 3. *)
Definition P_const : df := DPart (DOp [DOp [DTerm (sig "P"); L "2"] Times; L "3"] Divide) (L "1") (L "0").
Example C11_hypotheses_met : folds P_env P_const 2 2 /\ const_expr P_env P_const /\
  optC P_env 9 P_const = Ok (DEval (PInt 2) (Some 2) false false).
Proof.
  assert (folds P_env (DTerm (sig "P")) 3 8) as HP.
  { change 8 with (7 - 0 + 1). eapply f_term_range with (tm := P_term); try reflexivity; try discriminate.
    + apply (f_int P_env "7" None 7). apply digit1; [simpl; tauto|lia].
    + apply (f_int P_env "0" None 0). apply digit1; [simpl; tauto|lia]. }
  assert (forall c d, In (c, d) digits_of -> d < 10 -> folds P_env (DInt (String c "")) d 32) as HD.
  { intros c d H1 H2. apply (f_int P_env _ None). now apply digit1. }
  split; [|split; [|reflexivity]].
  - unfold P_const. change 2 with (1 - 0 + 1) at 2. change 2 with (low (2 / 2 ^ 0) (1 - 0 + 1)) at 1.
    apply f_part with (wv := 32) (wm := 32) (wl := 32); try lia; try (apply HD; [simpl; tauto|lia]).
    apply (f_op P_env _ Divide [6; 3] [32; 32]); try reflexivity; [|cbn; lia].
    constructor; [|constructor; [apply HD; [simpl; tauto|lia]|constructor]].
    apply (f_op P_env _ Times [3; 2] [8; 32]); try reflexivity. constructor; auto. constructor; [apply HD; [simpl; tauto|lia]|constructor].
  - unfold P_const, L. repeat first [eapply ce_term; reflexivity|constructor].
Qed.

(** C12: division of integer constants truncates toward zero, for dividends up to 2^53. *)
Theorem C12_division_partial : forall E k a b wa wb f g f' g', (2 <= k)%nat -> b <> 0 -> Z.abs a <= 2 ^ 53 ->
  optC E k (DOp [DEval (PInt a) (Some wa) f g; DEval (PInt b) (Some wb) f' g'] Divide)
  = Ok (DEval (PInt (Z.quot a b)) (Some (Z.max 0 (Z.max wa wb))) false false).
Proof.
  intros E k a b wa wb f g f' g' Hk Hb Ha.
  destruct k as [|[|k]]; try lia. cbn [optC mapM bind forallb isEval andb]. unfold evalOperator. cbn [op_args as_int bind fst snd evalOperator_int no_case is_unary nthZ nth_error eval_binary].
  destruct (Z.eqb_spec b 0); [contradiction|]. rewrite float_div_exact by auto. cbn [bind]. repeat f_equal.
  destruct (Z.ltb_spec 0 wa); [destruct (Z.ltb_spec wa wb)|destruct (Z.ltb_spec 0 wb)]; lia.
Qed.
Print Assumptions C12_division_partial.

(** C12 is false beyond: 9007199254740993 / 1 folds to 9007199254740992. *)
Theorem C12_division_refuted :
  ~ (forall E k a b wa wb t', b <> 0 -> optC E k (DOp [DEval (PInt a) (Some wa) false false; DEval (PInt b) (Some wb) false false] Divide) = Ok t' ->
     exists w, t' = DEval (PInt (Z.quot a b)) w false false) /\
  optC empty_env 3 (DOp [L "64'd9007199254740993"; L "1"] Divide) = Ok (DEval (PInt 9007199254740992) (Some 64) false false).
Proof.
  split; [|vm_compute; reflexivity]. intros H.
  specialize (H empty_env 3%nat (2 ^ 53 + 1) 1 64 32 (DEval (PInt (2 ^ 53)) (Some 64) false false) ltac:(discriminate)).
  destruct H as [w H]; [vm_compute; reflexivity|]. vm_compute in H. congruence.
Qed.
Print Assumptions C12_division_refuted.
Example C12_hypotheses_met : optC empty_env 3 (DOp [DOp [L "7"] Uminus; L "2"] Divide) = Ok (DEval (PInt (-3)) (Some 32) false false).
Proof. vm_compute. reflexivity. Qed.
