(** OptProofs2.v - constant folding preserves values. *)
From Verif Require Import Base ScopeModel DfModel BindModel LitModel LitSpec LitProofs OptModel OptSpec OptArith OptProofs.
Local Open Scope Z_scope.

Lemma mkOp_ok l o t : mkOp l o = Ok t -> t = DOp l o.
Proof. unfold mkOp. repeat match goal with |- context [if ?x then _ else _] => destruct x end; congruence. Qed.

Lemma val_true_ok z b : val_true (PInt z) = Ok b -> b = negb (z =? 0).
Proof. simpl. congruence. Qed.

(** A folded tree was made of constants. *)
Lemma isEval_inv t : isEval t = true -> exists v w f g, t = DEval v w f g.
Proof. destruct t; try discriminate. eauto. Qed.
Lemma optC_const E k : forall t t', optC E k t = Ok t' -> isEval t' = true -> constant_only E t = true.
Proof.
  induction k as [|k IH]; [discriminate|]. 
  assert (forall l l', mapM (optC E k) l = Ok l' -> forallb isEval l' = true -> forallb (constant_only E) l = true) as IHl.
  { intros l l' H. apply mapM_ok_Forall2 in H. induction H as [|x y l l' Hx H IHl]; auto. cbn [forallb]. rewrite !andb_true_iff.
    intros [H1 H2]. split; eauto. }
  intros t t' H Ht. destruct t; cbn [optC] in H; cbn [constant_only]; auto.
  - injection H as <-. discriminate.
  - unfold dmem. destruct (dget (o_const E) name); auto. injection H as <-. discriminate.
  - unbind H. destruct (forallb isEval r) eqn:Er; [eauto|]. apply mkOp_ok in H. subst. discriminate.
  - unbind H. unbind H. unbind H. destruct (isEval r) eqn:E1.
    + apply andb_true_iff. split; [eauto|]. apply isEval_inv in E1 as (v & w & f & g & ->).
      destruct r0; try (injection H as <-; discriminate). eapply IH; eauto.
    + assert (t' = DPart r r0 r1) by (destruct r; try discriminate; destruct r0; congruence). subst. discriminate.
  - destruct t1; try (injection H as <-; discriminate). destruct (dget (o_terms E) name); [|discriminate]. unbind H. unbind H.
    destruct (t_dims t); [injection H as <-; discriminate|]. destruct (_ && _); [discriminate|]. injection H as <-. discriminate.
  - unbind H. destruct (forallb isEval r) eqn:Er; [eauto|]. injection H as <-. discriminate.
  - unbind H. unbind H. unbind H. destruct (isEval r) eqn:E1.
    + apply andb_true_iff. split; [eauto|]. apply isEval_inv in E1 as (v & w & f & g & ->).
      unbind H. injection H as <-. apply orb_true_iff. destruct r; [left|right]; eauto.
    + assert (t' = DBranch r r0 r1) by (destruct r; try discriminate; congruence). subst. discriminate.
  - injection H as <-. discriminate.
  - injection H as <-. discriminate.
  - discriminate.
  - unbind H. injection H as <-. discriminate.
Qed.

(** A constant expression folds to one node. *)
Lemma optC_complete E k : forall t t', const_expr E t -> optC E k t = Ok t' -> isEval t' = true.
Proof.
  induction k as [|k IH]; [discriminate|].
  assert (forall l l', Forall (const_expr E) l -> mapM (optC E k) l = Ok l' -> forallb isEval l' = true) as IHl.
  { intros l l' HF H. apply mapM_ok_Forall2 in H. induction H; auto. inv HF. cbn [forallb]. rewrite IHForall2 by auto. now rewrite (IH x y). }
  intros t t' HC H. inversion HC; subst; cbn [optC] in H.
  - rewrite H0 in H. unbind H. unbind H. injection H as <-. reflexivity.
  - injection H as <-. reflexivity.
  - rewrite H0 in H. destruct (dget (o_terms E) n); [|discriminate]. destruct c; try discriminate.
    destruct (_ || _); [injection H as <-; reflexivity|]. unbind H. unbind H. destruct r; try (injection H as <-; reflexivity).
    destruct r0; try (injection H as <-; reflexivity). unbind H. unbind H. injection H as <-. reflexivity.
  - unbind H. rewrite (IHl _ _ H0 B) in H. unfold evalOperator in H. unbind H. unbind H. injection H as <-. reflexivity.
  - unbind H. rewrite (IHl _ _ H0 B) in H. unfold evalConcat in H. unbind H. injection H as <-. reflexivity.
  - unbind H. unbind H. unbind H. pose proof (IH _ _ H0 B) as E1. pose proof (IH _ _ H1 B0) as E2. destruct r; try discriminate E1. destruct r0; try discriminate E2.
    unbind H. unbind H. unbind H. unfold evalPartselect in H. repeat (match type of H with (if ?c then _ else _) = _ => destruct c end; try discriminate).
    all: injection H as <-; reflexivity.
  - unbind H. unbind H. unbind H. pose proof (IH _ _ H0 B) as E1. pose proof (IH _ _ H1 B0) as E2. pose proof (IH _ _ H2 B1) as E3.
    destruct r; try discriminate E1. unbind H. injection H as <-. now destruct r.
Qed.

Definition keepV rho t t' := forall v, value rho t = Some v -> value rho t' = Some v.
Definition keepW rho t t' := forall w, width rho t = Some w -> width rho t' = Some w.

Lemma all_some_F2 {A} (l l' : list (option A)) xs : Forall2 (fun a b => forall v, a = Some v -> b = Some v) l l' ->
  all_some l = Some xs -> all_some l' = Some xs.
Proof.
  intros H. revert xs. induction H as [|a b l l' Hab H IH]; cbn [all_some]; auto. intros xs.
  destruct a as [x|]; [|discriminate]. rewrite (Hab x eq_refl). destruct (all_some l) as [ys|]; [|discriminate]. now rewrite (IH ys eq_refl).
Qed.
Lemma all_some_map {A} (l : list A) xs : all_some (map Some l) = Some xs -> xs = l.
Proof. revert xs. induction l as [|x l IH]; cbn; intros xs H; [congruence|]. destruct (all_some (map Some l)) as [ys|]; [|discriminate].
  rewrite (IH ys eq_refl) in H. congruence. Qed.
Lemma all_some_inv {A} (l : list (option A)) xs : all_some l = Some xs -> l = map Some xs.
Proof. revert xs. induction l as [|[x|] l IH]; cbn; intros xs H; try discriminate; [now injection H as <-|].
  destruct (all_some l) as [ys|]; [|discriminate]. injection H as <-. simpl. now rewrite (IH ys eq_refl). Qed.
Lemma all_some_Some {A} (l : list A) : all_some (map Some l) = Some l.
Proof. induction l; cbn; auto. now rewrite IHl. Qed.

Lemma list_keepV rho l l' : Forall2 (keepV rho) l l' ->
  Forall2 (fun a b => forall v, a = Some v -> b = Some v) (map fst (map (ev rho) l)) (map fst (map (ev rho) l')).
Proof. rewrite !map_map. induction 1; constructor; auto. Qed.
Lemma list_keepW rho l l' : Forall2 (keepW rho) l l' ->
  Forall2 (fun a b => forall v, a = Some v -> b = Some v) (map snd (map (ev rho) l)) (map snd (map (ev rho) l')).
Proof. rewrite !map_map. induction 1; constructor; auto. Qed.

(** Values that do not depend on the width. *)
Lemma op_value_width o vs w w' : width_op o || op_beq o Srl || op_beq o Xnor = false -> op_value o vs w = op_value o vs w'.
Proof. destruct o; cbn; try discriminate; intros _; reflexivity. Qed.

Lemma op_args_ok l : forall w0 vs w, op_args l w0 = Ok (vs, w) -> exists ws,
  Forall2 (fun t vw => exists f g, t = DEval (PInt (fst vw)) (Some (snd vw)) f g) l (combine vs ws) /\ length vs = length ws /\ w = fold_left Z.max ws w0.
Proof.
  induction l as [|t l IH]; intros w0 vs w H; cbn [op_args] in H.
  - injection H as <- <-. exists []. repeat split; constructor.
  - destruct t; try discriminate. destruct width; [|discriminate]. destruct value; try discriminate. cbn [as_int bind] in H.
    apply bind_ok in H as ([vs' w'] & B & H). injection H as <- <-. apply IH in B as (ws & H1 & H2 & H3). exists (z :: ws).
    cbn [fst snd] in *. split; [|split].
    + cbn [combine]. constructor; [cbn; eauto|auto].
    + simpl; lia.
    + cbn [fold_left]. rewrite H3. f_equal. destruct (Z.ltb_spec w0 z); lia.
Qed.
Lemma evals_values rho l vs ws : length vs = length ws ->
  Forall2 (fun t vw => exists f g, t = DEval (PInt (fst vw)) (Some (snd vw)) f g) l (combine vs ws) ->
  map fst (map (ev rho) l) = map Some vs /\ map snd (map (ev rho) l) = map Some ws.
Proof.
  revert vs ws. induction l as [|t l IH]; intros [|v vs] [|w ws] HL H; inv H; try discriminate; auto.
  cbn [fst snd] in *. destruct H3 as (f & g & ->). destruct (IH vs ws) as [I1 I2]; [simpl in HL; lia|auto|]. cbn. rewrite I1, I2. auto.
Qed.
Lemma map_Some_inj {A} (l l' : list A) : map Some l = map Some l' -> l = l'.
Proof. revert l'. induction l as [|x l IH]; intros [|y l'] H; try discriminate; auto. injection H as -> H. f_equal; auto. Qed.

Lemma evalConcat_ok l : forall acc s r, evalConcat_go l acc s = Ok r -> exists vs ws,
  Forall2 (fun t vw => exists w f g, t = DEval (PInt (fst vw)) w f g /\ snd vw = match w with Some w => w | None => 32 end) l (combine vs ws) /\
  length vs = length ws /\ Forall (fun w => 0 <= w) ws /\
  r = (fold_left (fun a vw => Z.lor (Z.shiftl a (snd vw)) (fst vw)) (combine vs ws) acc, s + sum ws).
Proof.
  induction l as [|t l IH]; intros acc s r H; cbn [evalConcat_go] in H.
  - injection H as <-. exists [], []. repeat split; auto; try constructor. change (sum []) with 0. now rewrite Z.add_0_r.
  - destruct t; try discriminate. set (w := match width with Some w => w | None => default_width end) in *.
    destruct (Z.ltb_spec w 0); [discriminate|]. destruct value; try discriminate. cbn [as_int bind] in H.
    apply IH in H as (vs & ws & H1 & H2 & H3 & ->). exists (z :: vs), (w :: ws). cbn [combine]. repeat split; auto.
    + constructor; auto. exists width, isfloat, isstring. split; auto.
    + simpl; lia.
    + cbn [fold_left fst snd]. change (sum (w :: ws)) with (w + sum ws). now rewrite Z.add_assoc.
Qed.
Lemma cat_lor vs : forall ws acc, Forall2 (fun v w => 0 <= w /\ 0 <= v < 2 ^ w) vs ws ->
  fold_left (fun a vw => Z.lor (Z.shiftl a (snd vw)) (fst vw)) (combine vs ws) acc = cat (combine vs ws) acc.
Proof.
  induction vs as [|v vs IH]; intros ws acc H; inv H; auto. cbn [combine fold_left cat fst snd]. rewrite IH by auto.
  destruct H2. now rewrite lor_shift.
Qed.

Lemma int_attr_value rho t z x : int_attr t = Ok z -> value rho t = Some x -> z = x.
Proof.
  destruct t; cbn; try discriminate. destruct value; cbn; try discriminate. congruence.
Qed.

Lemma branch_width rho c a b w : width rho (DBranch c a b) = Some w ->
  a = DNone /\ snd (ev rho b) = Some w \/ b = DNone /\ snd (ev rho a) = Some w \/
  exists x y, snd (ev rho a) = Some x /\ snd (ev rho b) = Some y /\ w = Z.max x y.
Proof.
  unfold width. cbn [ev snd]. intros H.
  assert (a = DNone \/ a <> DNone) as [->|Ha] by (destruct a; auto; right; discriminate).
  - left. split; auto. destruct b; try discriminate; exact H.
  - assert (b = DNone \/ b <> DNone) as [->|Hb] by (destruct b; auto; right; discriminate).
    + right; left. split; auto. destruct a; auto; congruence.
    + right; right. assert (obind (snd (ev rho a)) (fun x => obind (snd (ev rho b)) (fun y => Some (Z.max x y))) = Some w) as K.
      { destruct a; try congruence; destruct b; try congruence; exact H. }
      destruct (snd (ev rho a)) as [x|]; [|discriminate]. destruct (snd (ev rho b)) as [y|]; [|discriminate]. cbn in K. exists x, y. repeat split; congruence.
Qed.

Section Fold.
  Variable (E : optenv) (rho : venv).
  Hypothesis HA : agrees E rho.

  Definition good t t' := keepV rho t t' /\ (keeps_width rho t -> keepW rho t t').
  Lemma good_refl t : good t t. Proof. split; unfold keepV, keepW; auto. Qed.

  Lemma keeps_all l : fold_right (fun t P => keeps_width rho t /\ P) True l <-> all_keep rho l.
  Proof. unfold all_keep. induction l as [|x l IH]; cbn; [split; constructor|]. rewrite IH. split; [intros []; now constructor|intros H; inv H; auto]. Qed.
  Lemma good_V l l' : Forall2 good l l' -> Forall2 (keepV rho) l l'.
  Proof. induction 1 as [|x y l l' [H1 H2] H IH]; constructor; auto. Qed.
  Lemma good_W l l' : Forall2 good l l' -> all_keep rho l -> Forall2 (keepW rho) l l'.
  Proof. unfold all_keep. induction 1 as [|x y l l' [H1 H2] H IH]; intros K; inv K; constructor; auto. Qed.

  Lemma good_op l l' o : Forall2 good l l' -> (width_op o = true \/ o = Srl \/ o = Xnor -> all_keep rho l) -> good (DOp l o) (DOp l' o).
  Proof.
    intros HG HK. split.
    - intros v. unfold value. cbn [ev fst]. destruct (all_some (map fst (map (ev rho) l))) as [vs|] eqn:Ev; [|discriminate]. cbn [obind].
      rewrite (all_some_F2 _ _ _ (list_keepV _ _ _ (good_V _ _ HG)) Ev). cbn [obind].
      destruct (width_op o || op_beq o Srl || op_beq o Xnor) eqn:Eo; auto.
      destruct (all_some (map snd (map (ev rho) l))) as [ws|] eqn:Ew; [|discriminate].
      rewrite (all_some_F2 (map snd (map (ev rho) l)) _ ws); auto. apply list_keepW, good_W; auto. apply HK.
      destruct o; cbn in Eo; try discriminate; auto.
    - cbn [keeps_width]. intros (K1 & K2 & K3). apply keeps_all in K3. intros w. unfold width. cbn [ev snd]. rewrite K1, K2.
      destruct (all_some (map snd (map (ev rho) l))) as [ws|] eqn:Ew; [|discriminate].
      rewrite (all_some_F2 (map snd (map (ev rho) l)) _ ws); auto. apply list_keepW, good_W; auto.
  Qed.

  Lemma good_evalop l l' o t' : Forall2 good l l' -> (width_op o = true \/ o = Srl \/ o = Xnor -> all_keep rho l) ->
    (forall vs, all_some (map (value rho) l) = Some vs -> exact o vs) ->
    evalOperator o l' = Ok t' -> good (DOp l o) t'.
  Proof.
    intros HG HK HX H. unfold evalOperator in H. apply bind_ok in H as ([vs w] & B & H). cbn [fst snd] in H. unbind H. injection H as <-.
    apply op_args_ok in B as (ws & B1 & B2 & B3). destruct (evals_values rho _ _ _ B2 B1) as [V W].
    rewrite fold_max, Z.max_r in B3 by (auto using maxw_nonneg; lia).
    pose proof (list_keepV _ _ _ (good_V _ _ HG)) as FV.
    split.
    - intros v. unfold value. cbn [ev fst]. destruct (all_some (map fst (map (ev rho) l))) as [vs'|] eqn:Ev; [|discriminate]. cbn [obind].
      pose proof (all_some_F2 _ _ _ FV Ev) as Ev'. rewrite V in Ev'. apply all_some_map in Ev'. subst vs'.
      assert (exact o vs) as Hx by (apply HX; rewrite map_map in Ev; exact Ev).
      intros Hv. assert (op_value o vs w = Some v) as Hw.
      { destruct (width_op o || op_beq o Srl || op_beq o Xnor) eqn:Eo; [|rewrite (op_value_width _ _ w 0); auto].
        destruct (all_some (map snd (map (ev rho) l))) as [ws'|] eqn:Ew; [|discriminate]. cbn [obind] in Hv.
        assert (all_some (map snd (map (ev rho) l')) = Some ws') as Ew'.
        { eapply all_some_F2; [|exact Ew]. apply list_keepW, good_W; auto. apply HK. destruct o; cbn in Eo; try discriminate; auto. }
        rewrite W in Ew'. apply all_some_map in Ew'. subst ws'. congruence. }
      rewrite (eval_exact o vs w v) in B0; auto; [|subst w; apply maxw_nonneg]. injection B0 as <-. reflexivity.
    - cbn [keeps_width]. intros (K1 & K2 & K3). apply keeps_all in K3. intros u. unfold width. cbn [ev snd]. rewrite K1, K2.
      destruct (all_some (map snd (map (ev rho) l))) as [ws'|] eqn:Ew; [|discriminate].
      assert (all_some (map snd (map (ev rho) l')) = Some ws') as Ew' by (eapply all_some_F2; [|exact Ew]; apply list_keepW, good_W; auto).
      rewrite W in Ew'. apply all_some_map in Ew'. subst ws' w. auto.
  Qed.

  Lemma good_concat l l' : Forall2 good l l' -> all_keep rho l -> good (DConcat l) (DConcat l').
  Proof.
    intros HG HK. pose proof (list_keepV _ _ _ (good_V _ _ HG)) as FV. pose proof (list_keepW _ _ _ (good_W _ _ HG HK)) as FW.
    split; [intros v|intros _ w]; unfold value, width; cbn [ev]; destruct (all_some (map snd (map (ev rho) l))) as [ws|] eqn:Ew; try discriminate;
      rewrite (all_some_F2 _ _ _ FW Ew); destruct (nonneg ws); cbn [fst snd]; auto.
    destruct (all_some (map fst (map (ev rho) l))) as [vs|] eqn:Ev; [|discriminate]. now rewrite (all_some_F2 _ _ _ FV Ev).
  Qed.

  Lemma good_evalconcat l l' t' : Forall2 good l l' -> all_keep rho l ->
    (forall t v w, In t l -> value rho t = Some v -> width rho t = Some w -> 0 <= v < 2 ^ w) ->
    evalConcat l' = Ok t' -> good (DConcat l) t'.
  Proof.
    intros HG HK HR H. unfold evalConcat in H. unbind H. injection H as <-. apply evalConcat_ok in B as (vs & ws & B1 & B2 & B3 & ->).
    cbn [fst snd]. pose proof (list_keepV _ _ _ (good_V _ _ HG)) as FV. pose proof (list_keepW _ _ _ (good_W _ _ HG HK)) as FW.
    assert (forall xs, all_some (map snd (map (ev rho) l)) = Some xs -> xs = ws) as Hws.
    { clear - FW B1 B2. intros xs H. apply all_some_F2 with (l' := map snd (map (ev rho) l')) in H; auto. clear FW l.
      revert vs ws xs B1 B2 H. induction l' as [|t l IH]; intros [|v vs] [|w ws] xs B1 B2 H; inv B1; try discriminate; [cbn in H; congruence|].
      cbn [fst snd] in *. destruct H3 as (w' & f & g & -> & K). cbn in H. destruct w' as [x|]; [|discriminate].
      destruct (all_some (map snd (map (ev rho) l))) as [ys|]; [|discriminate]. injection H as <-. f_equal; [congruence|].
      eapply IH; eauto; simpl in B2; lia. }
    split; [intros v|intros _ w]; unfold value, width; cbn [ev]; destruct (all_some (map snd (map (ev rho) l))) as [xs|] eqn:Ew; try discriminate;
      rewrite (Hws xs eq_refl) in *; destruct (nonneg ws); cbn [fst snd]; try discriminate; auto.
    destruct (all_some (map fst (map (ev rho) l))) as [ys|] eqn:Ev; [|discriminate]. cbn [obind].
    pose proof (all_some_F2 _ _ _ FV Ev) as Ev'.
    assert (ys = vs) as ->.
    { clear - B1 B2 Ev'. revert vs ws ys B1 B2 Ev'. induction l' as [|t l IH]; intros [|v vs] [|w ws] ys B1 B2 H; inv B1; try discriminate; [cbn in H; congruence|].
      cbn [fst snd] in *. destruct H3 as (w' & f & g & -> & K). cbn in H. destruct (all_some (map fst (map (ev rho) l))) as [zs|]; [|discriminate].
      injection H as <-. f_equal. eapply IH; eauto; simpl in B2; lia. }
    intros Hv. injection Hv as <-. f_equal. apply cat_lor.
    apply all_some_inv in Ev, Ew. clear - Ev Ew B2 B3 HR. rewrite map_map in *. revert vs ws Ev Ew B2 B3. induction l as [|t l IH]; intros [|v vs] [|w ws] Ev Ew B2 B3; try discriminate; constructor.
    - injection Ev as Ev _. injection Ew as Ew _. inv B3. split; auto. apply (HR t); simpl; auto.
    - injection Ev as _ Ev. injection Ew as _ Ew. inv B3. apply IH; auto. intros; eapply HR; simpl; eauto.
  Qed.

  Lemma optC_good k : forall t t', fold_safe E rho t -> optC E k t = Ok t' -> good t t'.
  Proof.
    induction k as [|k IH]; [discriminate|].
    assert (forall l l', Forall (fold_safe E rho) l -> mapM (optC E k) l = Ok l' -> Forall2 good l l') as IHl.
    { intros l l' HF H. apply mapM_ok_Forall2 in H. induction H; inv HF; constructor; auto. }
    intros t t' HS H. pose proof H as H0. destruct t; cbn [optC] in H; inversion HS; subst.
    - injection H as <-. apply good_refl.
    - (* DTerm *)
      destruct (dget (o_const E) name) as [c|] eqn:Ec; [|injection H as <-; apply good_refl].
      destruct (proj1 HA name c Ec) as (v & w & F & Hv & Hw). destruct (proj1 (folds_optC E) _ _ _ F) as [k0 K].
      rewrite (optC_det _ _ _ _ _ _ H0 (K k0 (le_n _))). split; [intros x|intros _ x]; unfold value, width; cbn; congruence.
    - destruct (has_xz value) eqn:Ex; unbind H.
      + injection H as <-. split; [intros x|intros _ x]; unfold OptSpec.value, width; cbn; rewrite ?Ex, ?B; congruence.
      + unbind H. injection H as <-. split; [intros x|intros _ x]; unfold OptSpec.value, width; cbn; rewrite ?Ex, ?B, ?B0; congruence.
    - injection H as <-. split; [intros x|intros _ x]; unfold OptSpec.value, width; cbn; congruence.
    - injection H as <-. split; [intros x|intros _ x]; unfold OptSpec.value, width; cbn; congruence.
    - unbind H. pose proof (IHl _ _ H3 B) as HG. destruct (forallb isEval r) eqn:Er.
      + eapply good_evalop; eauto. apply H5. clear - B Er. apply mapM_ok_Forall2 in B. induction B; auto. cbn [forallb] in *.
        apply andb_true_iff in Er as [E1 E2]. rewrite IHB by auto. rewrite (optC_const _ _ _ _ H E1). reflexivity.
      + apply mkOp_ok in H. subst. apply good_op; auto.
    - (* DPart *) unbind H. unbind H. unbind H.
      destruct (IH _ _ H4 B) as [V1 W1]. destruct (IH _ _ H5 B0) as [V2 W2]. destruct (IH _ _ H6 B1) as [V3 W3].
      destruct (isEval r && isEval r0) eqn:Ee.
      + apply andb_true_iff in Ee as [E1 E2]. pose proof (optC_const _ _ _ _ B E1) as C1. pose proof (optC_const _ _ _ _ B0 E2) as C2.
        apply isEval_inv in E1 as (v1 & w1 & f1 & g1 & ->). apply isEval_inv in E2 as (v2 & w2 & f2 & g2 & ->).
        destruct v2 as [v| | |]; try discriminate. cbn [as_int bind] in H. unbind H. destruct v1 as [vv| | |]; try discriminate. cbn [as_int bind] in H.
        assert (forall m l, value rho t2 = Some m -> value rho t3 = Some l -> m = v /\ l = r) as Hml.
        { intros m l Hm Hl. apply V2 in Hm. apply V3 in Hl. cbn in Hm. split; [congruence|].
          symmetry; eapply int_attr_value; eauto. }
        unfold evalPartselect in H. 
        split; [intros x|intros _ x]; unfold OptSpec.value, width; cbn [ev];
          destruct (fst (ev rho t2)) as [m|] eqn:Em; try discriminate; destruct (fst (ev rho t3)) as [l|] eqn:El; try discriminate;
          destruct (Hml m l Em El) as [-> ->]; destruct (Z.leb_spec 0 r); try discriminate; destruct (Z.leb_spec r v); try discriminate;
          cbn [andb fst snd].
        * destruct (fst (ev rho t1)) as [z|] eqn:Ez; [|discriminate]. cbn [obind].
          pose proof (V1 z Ez) as Hz. cbn in Hz. injection Hz as ->. assert (0 <= z) as Hz0 by (apply H7; auto).
          change (evalPartselect z v r = Ok t') in H. rewrite evalPart_ok in H by lia. injection H as <-. intros K. exact K.
        * destruct (Z.ltb_spec r 0); [lia|]. destruct (Z.ltb_spec (v - r + 1) 0); [lia|]. injection H as <-. cbn. congruence.
      + assert (t' = DPart r r0 r1) as ->.
        { destruct r; cbn [isEval andb] in Ee; try (injection H as <-; reflexivity). destruct r0; try discriminate Ee; injection H as <-; reflexivity. }
        clear - V1 V2 V3.
        split; [intros x|intros _ x]; unfold OptSpec.value, width in *; unfold keepV, OptSpec.value in *; cbn [ev];
          destruct (fst (ev rho t2)) as [m|]; try discriminate; rewrite (V2 m eq_refl); destruct (fst (ev rho t3)) as [l|]; try discriminate;
          rewrite (V3 l eq_refl); destruct ((0 <=? l) && (l <=? m)); cbn [fst snd]; auto.
        destruct (fst (ev rho t1)) as [z|]; try discriminate. now rewrite (V1 z eq_refl).
    - (* DPtr *)
      destruct t1; try (injection H as <-; apply good_refl). destruct (dget (o_terms E) name) as [tm|] eqn:Et; [|discriminate].
      unbind H. unbind H. destruct (IH _ _ H4 B0) as [V2 _]. destruct HA as (HA1 & HA2 & HA3).
      pose proof (IH _ _ H3 B) as [V1 _].
      assert (t' = DPtr r r0) as ->.
      { destruct (t_dims tm); [congruence|]. destruct (_ && _); congruence. }
      assert (r = DTerm name \/ (exists v w f g, r = DEval v w f g) /\ e_arr rho name = false) as Hr.
      { destruct k; [discriminate|]. cbn [optC] in B. destruct (dget (o_const E) name) as [c|] eqn:Ec; [right|left; congruence].
        split; [|now apply (HA3 name c)]. rewrite Et in B. destruct c; try discriminate. destruct (_ || _); [injection B as <-; eauto|].
        unbind B. unbind B. destruct r1; try (injection B as <-; eauto). destruct r2; try (injection B as <-; eauto).
        unbind B. unbind B. injection B as <-. eauto. }
      clear - V1 V2 Hr. unfold good, keepV, keepW, OptSpec.value, width in *. cbn [ev]. destruct Hr as [->|[(v & w & f & g & ->) Ha]].
      + cbn [ev]. destruct (e_arr rho name); cbn [fst snd]; split; auto; intros x; destruct (fst (ev rho t2)) as [i|]; try discriminate; now rewrite (V2 i eq_refl).
      + rewrite Ha. cbn [fst snd]. split; auto. intros x. destruct (fst (ev rho t2)) as [i|]; try discriminate. rewrite (V2 i eq_refl).
        specialize (V1 (e_val rho name) eq_refl). rewrite V1. cbn. auto.
    - (* DConcat *)
      unbind H. pose proof (IHl _ _ H2 B) as HG. destruct (forallb isEval r) eqn:Er.
      + eapply good_evalconcat; eauto. apply H4. clear - B Er. apply mapM_ok_Forall2 in B. induction B; auto. cbn [forallb] in *.
        apply andb_true_iff in Er as [E1 E2]. rewrite IHB by auto. rewrite (optC_const _ _ _ _ H E1). reflexivity.
      + injection H as <-. apply good_concat; auto.
    - (* DBranch *)
      unbind H. unbind H. unbind H. destruct (IH _ _ H4 B) as [V1 _]. destruct (IH _ _ H5 B0) as [V2 W2]. destruct (IH _ _ H6 B1) as [V3 W3].
      assert (forall w, keeps_width rho (DBranch t1 t2 t3) -> width rho (DBranch t1 t2 t3) = Some w -> width rho t2 = Some w /\ width rho t3 = Some w) as HW.
      { intros w (K1 & K2 & K3) Hw. rewrite <- K3. apply branch_width in Hw as [[-> Hw]|[[-> Hw]|(x & y & Hx & Hy & ->)]];
          unfold width in *; [cbn in K3; congruence|cbn in K3; congruence|]. rewrite Hx, Hy in K3. injection K3 as K3; subst y. rewrite Z.max_id. auto. }
      destruct (isEval r) eqn:Er.
      + apply isEval_inv in Er as (v & w & f & g & ->). unbind H. injection H as <-.
        split.
        * intros x. unfold OptSpec.value. cbn [ev fst]. destruct (fst (ev rho t1)) as [c|] eqn:Ec; [|discriminate]. cbn [obind].
          pose proof (V1 c Ec) as Hc. cbn in Hc. destruct v; try discriminate. injection Hc as ->. apply val_true_ok in B2. subst r.
          destruct (c =? 0); cbn [negb]; [apply V3|apply V2].
        * intros HK x Hx. destruct (HW x HK Hx) as [Hx2 Hx3]. destruct HK as (K1 & K2 & K3). destruct r; [apply W2|apply W3]; auto.
      + assert (t' = DBranch r r0 r1) as -> by (destruct r; try discriminate Er; congruence).
        split.
        * intros x. unfold OptSpec.value. cbn [ev fst]. destruct (fst (ev rho t1)) as [c|] eqn:Ec; [|discriminate]. cbn [obind].
          pose proof (V1 c Ec) as Hc. unfold OptSpec.value in Hc. rewrite Hc. cbn [obind]. destruct (c =? 0); [apply V3|apply V2].
        * intros HK x Hx. destruct (HW x HK Hx) as [Hx2 Hx3]. destruct HK as (K1 & K2 & K3). apply (W2 K1) in Hx2. apply (W3 K2) in Hx3.
          unfold width in *. cbn [ev snd].
          destruct r0; try discriminate Hx2; destruct r1; try discriminate Hx3; rewrite Hx2, Hx3; cbn [obind]; now rewrite Z.max_id.
    - injection H as <-. apply good_refl.
    - injection H as <-. apply good_refl.
    - injection H as <-. apply good_refl.
    - discriminate.
    - (* DSys *)
      unbind H. injection H as <-. pose proof (IHl _ _ H2 B) as HG. split; [intros x|intros _ x]; unfold OptSpec.value, width; cbn [ev fst snd]; auto.
      destruct (all_some (map (fun t => fst (ev rho t)) nextnodes)) as [vs|] eqn:Ev; [|discriminate].
      rewrite <- map_map in Ev. pose proof (all_some_F2 _ _ _ (list_keepV _ _ _ (good_V _ _ HG)) Ev) as Ev'. rewrite map_map in Ev'. now rewrite Ev'.
  Qed.
End Fold.
