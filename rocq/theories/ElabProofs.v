(** ElabProofs.v - constant expressions. *)
From Verif Require Import Base ScopeModel DfModel BindModel LitModel LitSpec LitProofs OptModel OptSpec OptProofs ReorderModel AsgModel ExprModel MkModel HierModel VisitModel ElabModel ElabSpec.
From Verif Require LitProps.
Local Open Scope Z_scope.

Ltac ub := repeat match goal with
  | H : bind _ _ = Ok _ |- _ => let a := fresh "r" in let E := fresh "B" in apply bind_ok in H as (a & E & H)
  end.
Definition isval (u : df) (v : Z) : Prop := exists w, u = DEval (PInt v) (Some w) false false.

Inductive means : df -> Z -> Prop :=
| m_int s v : numeral 10 s v -> small v -> means (DInt s) v
| m_val w v : small v -> means (DEval (PInt v) (Some w) false false) v
| m_un o a x v : means a x -> arithmetic o [x] -> op_value o [x] 32 = Some v -> small v -> means (DOp [a] o) v
| m_bin o a b x y v : means a x -> means b y -> arithmetic o [x; y] -> op_value o [x; y] 32 = Some v -> small v -> means (DOp [a; b] o) v
| m_branch c a b z v : means c z -> means (if z =? 0 then b else a) v -> means (DBranch c a b) v.

Lemma means_small t v : means t v -> small v. Proof. induction 1; auto. Qed.

Lemma mkOp_ok l o t : mkOp l o = Ok t -> t = DOp l o.
Proof. unfold mkOp. destruct (existsb is_none l); congruence. Qed.

Lemma insertUnaryOp_means o a : forall x v t, means a x -> arithmetic o [x] -> op_value o [x] 32 = Some v -> small v -> insertUnaryOp a o = Ok t -> means t v.
Proof.
  induction a; intros x v0 t0 Ha Hr Hv Hs H; cbn [insertUnaryOp] in H; try (apply mkOp_ok in H; subst t0; eapply m_un; eauto; fail).
  ub. injection H as <-. inversion Ha; subst. eapply m_branch; [eassumption|]. destruct (z =? 0); eauto.
Qed.
Lemma insertOp_r_means o a b : forall x y v t, means a x -> means b y -> arithmetic o [x; y] -> op_value o [x; y] 32 = Some v -> small v -> insertOp_r a b o = Ok t -> means t v.
Proof.
  induction b; intros x y v0 t0 Ha Hb Hr Hv Hs H; cbn [insertOp_r] in H; try (apply mkOp_ok in H; subst t0; eapply m_bin; eauto; fail).
  ub. injection H as <-. inversion Hb; subst. eapply m_branch; [eassumption|]. destruct (z =? 0); eauto.
Qed.
Lemma insertOp_means o a b : forall x y v t, means a x -> means b y -> arithmetic o [x; y] -> op_value o [x; y] 32 = Some v -> small v -> insertOp a b o = Ok t -> means t v.
Proof.
  induction a; intros x y v0 t0 Ha Hb Hr Hv Hs H; cbn [insertOp] in H; try exact (insertOp_r_means _ _ _ _ _ _ _ Ha Hb Hr Hv Hs H).
  ub. injection H as <-. inversion Ha; subst. eapply m_branch; [eassumption|]. destruct (z =? 0); eauto.
Qed.

Lemma tree_means r find k e v : const r e v ->
  (forall n d v, lookup r n = Some (Some v) -> find n = Ok d -> isval d v) ->
  forall log2i tocode t, tree log2i tocode find k e = Ok t -> means t v.
Proof.
  intros Hc HF log2i tocode. induction Hc as [s v Hn Hs|n v Hl Hs|o a x v Ha IHa Hr Hv Hs|o a b x y v Ha IHa Hb IHb Hr Hv Hs|c t f z v Hc IHc Hb IHb]; intros u H; cbn [tree] in H.
  - injection H as <-. now constructor.
  - destruct (HF _ _ _ Hl H) as [w ->]. now constructor.
  - ub. specialize (IHa _ B). destruct (isBranch _); [exact (insertUnaryOp_means _ _ _ _ _ IHa Hr Hv Hs H)|]. apply mkOp_ok in H. subst u. eapply m_un; eauto.
  - ub. specialize (IHa _ B). specialize (IHb _ B0). destruct (_ || _); [exact (insertOp_means _ _ _ _ _ _ _ IHa IHb Hr Hv Hs H)|]. apply mkOp_ok in H. subst u. eapply m_bin; eauto.
  - ub. destruct (isBranch _); [discriminate|]. injection H as <-. eapply m_branch; [eapply IHc; eassumption|]. destruct (z =? 0); eapply IHb; eassumption.
Qed.

Lemma arithmetic_exact o vs : arithmetic o vs -> Forall small vs -> exact o vs.
Proof.
  unfold small. intros H Hs. destruct o; destruct vs as [|a [|b [|c vs]]]; cbn in H |- *; try tauto.
  inversion Hs; subst. change (2 ^ 31) with 2147483648 in *. lia.
Qed.
Lemma arithmetic_width o vs w : arithmetic o vs -> op_value o vs w = op_value o vs 32.
Proof.
  intros H. destruct o; destruct vs as [|a [|b [|c vs]]]; cbn in H; try tauto; try reflexivity.
  cbn. destruct (b <? 0); [reflexivity|]. destruct (Z.ltb_spec a 0); [lia|reflexivity].
Qed.
Lemma optC_means E t v : means t v -> forall k t', optC E k t = Ok t' -> isval t' v.
Proof.
  induction 1 as [s v Hn Hs|w v Hs|o a x v Ha IHa Hr Hv Hs|o a b x y v Ha IHa Hb IHb Hr Hv Hs|c a b z v Hc IHc Hb IHb]; intros [|k] t' H; try discriminate; cbn [optC] in H.
  - rewrite (literal_noxz _ _ _ _ (lit_plain _ _ Hn)) in H. rewrite (LitProps.C04_literal_value _ _ _ _ (lit_plain _ _ Hn)) in H. cbn [bind] in H. ub. injection H as <-. eexists. reflexivity.
  - injection H as <-. eexists. reflexivity.
  - cbn [mapM] in H. ub. repeat match goal with B : Ok _ = Ok _ |- _ => injection B as <- end. cbn [forallb isEval andb] in H.
    match goal with B : optC E k a = Ok _ |- _ => destruct (IHa _ _ B) as [w ->] end. cbn [forallb isEval andb] in H. unfold evalOperator in H. ub.
    change [DEval (PInt x) (Some w) false false] with (map mkv (combine [x] [w])) in *. rewrite op_args_mkv in * by reflexivity.
    repeat match goal with B : Ok _ = Ok _ |- _ => injection B as <- end. cbn [fst snd] in *.
    match goal with B : evalOperator_int _ _ ?w0 = Ok _ |- _ => rewrite (eval_exact o [x] w0 v) in B end.
    + match goal with B : Ok _ = Ok _ |- _ => injection B as <- end. eexists. reflexivity.
    + cbn [fold_left]; lia.
    + apply arithmetic_exact; auto. constructor; [|constructor]. now apply means_small in Ha.
    + now rewrite arithmetic_width.
  - cbn [mapM] in H. ub. repeat match goal with B : Ok _ = Ok _ |- _ => injection B as <- end. 
    match goal with B : optC E k a = Ok _ |- _ => destruct (IHa _ _ B) as [w ->] end.
    match goal with B : optC E k b = Ok _ |- _ => destruct (IHb _ _ B) as [w' ->] end.
    cbn [forallb isEval andb] in H. unfold evalOperator in H. ub.
    change [DEval (PInt x) (Some w) false false; DEval (PInt y) (Some w') false false] with (map mkv (combine [x; y] [w; w'])) in *. rewrite op_args_mkv in * by reflexivity.
    repeat match goal with B : Ok _ = Ok _ |- _ => injection B as <- end. cbn [fst snd] in *.
    match goal with B : evalOperator_int _ _ ?w0 = Ok _ |- _ => rewrite (eval_exact o [x; y] w0 v) in B end.
    + match goal with B : Ok _ = Ok _ |- _ => injection B as <- end. eexists. reflexivity.
    + cbn [fold_left]; lia.
    + apply arithmetic_exact; auto. constructor; [now apply means_small in Ha|constructor; [now apply means_small in Hb|constructor]].
    + now rewrite arithmetic_width.
  - ub. match goal with B : optC E k c = Ok _ |- _ => destruct (IHc _ _ B) as [w ->] end. cbn [val_true] in H. ub. injection B2 as <-. injection H as <-.
    destruct (z =? 0); cbn [negb]; eauto.
Qed.
Lemma opt_means log2i tocode k t v u : means t v -> opt log2i tocode k t = Ok u -> isval u v.
Proof.
  intros Hm H. unfold opt, optimize in H. ub. apply (optC_means _ _ _ Hm) in B as [w ->]. cbn [optH] in B0. injection B0 as <-.
  destruct k; [discriminate|]. cbn [optC] in B1. injection B1 as <-. cbn [optH] in H. injection H as <-. now exists w.
Qed.
Lemma const_small r e v : const r e v -> small v. Proof. induction 1; auto. Qed.
