(** LoopProofs3.v - loop headers: folding trees of known numbers; unrollings of well-formed statements. *)
From Verif Require Import Base ScopeModel ScopeSpec ScopeProofs DfModel DfSpec DfProofs ReorderModel ReorderSpec ReorderProofs BindModel BindSpec BindProofs AsgModel AsgSpec BlkModel BlkSpec BlkProofs4 LitModel OptModel OptSpec OptProofs HierModel LoopModel LoopSpec LoopProofs LoopProofs2.
Local Open Scope Z_scope.

Lemma op_int o zs w r : arith o = true -> length zs = (if one_operand o then 1 else 2)%nat -> evalOperator_int o zs w = Ok r ->
  exists z, r = PInt z /\ op_value o zs 0 = Some z /\ (bool_op o = true -> z = 0 \/ z = 1).
Proof.
  intros Ho Hl E. destruct o; try discriminate Ho; cbn [one_operand] in Hl.
  all: repeat (destruct zs as [|? zs]; try discriminate Hl).
  all: unfold evalOperator_int in E; cbn [no_case is_unary nthZ nth_error bind eval_unary eval_binary] in E.
  all: repeat match type of E with (if ?b then _ else _) = _ => destruct b eqn:?B; try discriminate E end.
  all: injection E as <-; eexists; (split; [reflexivity|]); (split; [|try discriminate; intros _]).
  all: unfold b2z; cbn [op_value].
  all: try (match goal with |- context [if ?b then 1 else 0] => destruct b end; auto; fail).
  all: try (rewrite B); try reflexivity.
  all: try (f_equal; lia).
  - apply Z.ltb_ge in B. now rewrite Z.shiftl_mul_pow2.
  - apply Z.ltb_ge in B. now rewrite Z.shiftr_div_pow2.
Qed.
Lemma simple_stable t : simple t = true -> stable false t = true.
Proof.
  induction t as [ |n|s|s|s|l o IH|v m l IHv IHm IHl|v p IHv IHp|l IH|c a b IHc IHa IHb|v w f s|w|w|t IH|s l IH] using df_ind'; cbn [simple stable]; intros H; try discriminate; try reflexivity.
  apply andb_true_iff in H as [_ H]. clear o. apply andb_true_iff. induction IH as [|a l Ha _ IHl]; [split; reflexivity|]. cbn [forallb existsb] in *. apply andb_true_iff in H as [H1 H2]. destruct (IHl H2) as [K1 K2]. split; [rewrite (Ha H1), K1; reflexivity|]. rewrite negb_orb, K2, andb_true_r. destruct a; [discriminate H1|reflexivity..].
Qed.
Lemma reorder_simple k t t' : simple t = true -> reorder k t = Ok t' -> t' = t.
Proof. intros H E. destruct (stable_reorder t (stable_false_true t (simple_stable t H))) as (n0 & K). exact (reorder_deterministic _ _ _ _ _ E (K n0 (Nat.le_refl _))). Qed.

(** Resolving an expression whose signals are read as signals. *)
Lemma resolve_simple k array rd (R : chain -> Prop) e : forall t, simple e = true -> (forall n, In n (names e) -> exists m, rd n = Ok (DTerm m) /\ R m) -> resolve k array rd e = Ok t ->
  simple t = true /\ (forall m, In m (names t) -> R m) /\ (test e = true -> test t = true).
Proof.
  induction e as [ |n|s|s|s|l o IH|v m l IHv IHm IHl|v p IHv IHp|l IH|c a b IHc IHa IHb|v w f s|w|w|t IH|s l IH] using df_ind'; intros t0 H HR E; cbn [simple] in H; try discriminate; cbn [resolve] in E.
  - destruct (HR n (or_introl eq_refl)) as (m & Em & Rm). rewrite Em in E. injection E as <-. split; [reflexivity|]. split; [|discriminate]. intros x [Hx|[]]. now subst x.
  - injection E as <-. split; [exact H|]. split; [|discriminate]. intros m [].
  - apply bind_ok in E as (l' & El & E). apply andb_true_iff in H as [H H3]. apply andb_true_iff in H as [H1 H2].
    assert (forallb simple l' = true /\ length l' = length l /\ forall m, In m (flat_map names l') -> R m) as (K1 & K2 & K3).
    { clear E H2 H1. cbn [names] in HR. revert l' El H3 HR. induction IH as [|a l Ha _ IHl]; intros l' El H3 HR; cbn [mapM] in El.
      - injection El as <-. split; [reflexivity|]. split; [reflexivity|]. intros m [].
      - apply bind_ok in El as (a' & Ea & El). apply bind_ok in El as (l1 & El & E). injection E as <-. cbn [forallb flat_map] in *. apply andb_true_iff in H3 as [H3 H4].
        destruct (Ha a' H3 (fun n Hn => HR n (in_or_app _ _ _ (or_introl Hn))) Ea) as (X1 & X2 & _). destruct (IHl l1 El H4 (fun n Hn => HR n (in_or_app _ _ _ (or_intror Hn)))) as (Y1 & Y2 & Y3).
        split; [rewrite X1, Y1; reflexivity|]. split; [cbn [length]; congruence|]. intros m Hm. apply in_app_or in Hm as [Hm|Hm]; auto. }
    assert (existsb isBranch l' = false) as Nb.
    { clear - K1. induction l' as [|a l' IHl]; [reflexivity|]. cbn [forallb existsb] in *. apply andb_true_iff in K1 as [K1 K2]. rewrite (IHl K2), orb_false_r. destruct a; try discriminate K1; reflexivity. }
    rewrite Nb in E. apply mkOp_ok in E as [-> _]. split; [cbn [simple]; rewrite H1, K2, H2, K1; reflexivity|]. split; [exact K3|auto].
  - destruct v; try discriminate H. injection E as <-. split; [reflexivity|]. split; [|discriminate]. intros m [].
Qed.

(** Folding. [X] is what the values of the signals depend on. *)
Section Fold.
  Variable I : interp.
  Variable num : Z -> dom I.
  Hypothesis HI : numbers I num.
  Variable E : optenv.
  Variable X : Prop.
  Definition knows (n : chain) : Prop := exists z w f g, dget (o_const E) n = Some (DEval (PInt z) w f g) /\ (X -> i_term I n = num z).
  Lemma fold_simple t : simple t = true -> (forall n, In n (names t) -> knows n) -> forall k d, optC E k t = Ok d ->
    exists z w f g, d = DEval (PInt z) w f g /\ (X -> eval I t = num z) /\ (test t = true -> z = 0 \/ z = 1).
  Proof.
    destruct HI as (HI1 & HI2 & HI3 & HI4).
    induction t as [ |n|s|s|s|l o IH|v m l IHv IHm IHl|v p IHv IHp|l IH|c a b IHc IHa IHb|v w f s|w|w|t IH|s l IH] using df_ind'; intros H HK k d Ed; cbn [simple] in H; try discriminate; destruct k as [|k]; try discriminate Ed; cbn [optC] in Ed.
    - destruct (HK n (or_introl eq_refl)) as (z & w & f & g & Ez & Vz). rewrite Ez in Ed. destruct (dget (o_terms E) n) as [tm|]; [|discriminate Ed].
      assert (exists w', d = DEval (PInt z) w' false false) as (w' & ->).
      { destruct (is_none (t_msb tm) || is_none (t_lsb tm)); [injection Ed as <-; eauto|]. apply bind_ok in Ed as (m & _ & Ed). apply bind_ok in Ed as (l & _ & Ed).
        destruct m; try (injection Ed as <-; eauto; fail). destruct l; try (injection Ed as <-; eauto; fail). apply bind_ok in Ed as (mz & _ & Ed). apply bind_ok in Ed as (lz & _ & Ed). injection Ed as <-. eauto. }
      exists z, w', false, false. split; [reflexivity|]. split; [exact Vz|discriminate].
    - apply negb_true_iff in H. rewrite H in Ed. apply bind_ok in Ed as (z & Ez & Ed). apply bind_ok in Ed as (w & _ & Ed). injection Ed as <-. exists z, (Some w), false, false. split; [reflexivity|]. split; [intros _; exact (HI1 s z H Ez)|discriminate].
    - apply bind_ok in Ed as (l' & El & Ed). apply andb_true_iff in H as [H H3]. apply andb_true_iff in H as [H1 H2]. apply Nat.eqb_eq in H2.
      assert (exists zs, Forall2 (fun d z => exists w f g, d = DEval (PInt z) w f g) l' zs /\ length zs = length l /\ (X -> map (eval I) l = map num zs)) as (zs & F & Lz & Vz).
      { clear Ed H2. cbn [names] in HK. revert l' El H3 HK. induction IH as [|a l Ha _ IHl]; intros l' El H3 HK; cbn [mapM] in El.
        - injection El as <-. exists []. split; [constructor|]. split; reflexivity.
        - apply bind_ok in El as (a' & Ea & El). apply bind_ok in El as (l1 & El & Ed). injection Ed as <-. cbn [forallb flat_map] in *. apply andb_true_iff in H3 as [H3 H4].
          destruct (Ha H3 (fun n Hn => HK n (in_or_app _ _ _ (or_introl Hn))) k a' Ea) as (z & w & f & g & -> & V & _). destruct (IHl l1 El H4 (fun n Hn => HK n (in_or_app _ _ _ (or_intror Hn)))) as (zs & F & L & Vs).
          exists (z :: zs). split; [constructor; [eauto|exact F]|]. split; [cbn [length]; congruence|]. intros HX. cbn [map]. now rewrite V, Vs. }
      assert (forallb isEval l' = true) as Al by (clear - F; induction F as [|d z l' zs (w & f & g & ->) _ IHf]; [reflexivity|exact IHf]).
      rewrite Al in Ed. unfold evalOperator in Ed. apply bind_ok in Ed as ([args w] & Ea & Ed). apply bind_ok in Ed as (r & Er & Ed). injection Ed as <-. cbn [fst snd] in *.
      assert (args = zs) as ->.
      { clear - F Ea. revert args w Ea. generalize 0 as w0. induction F as [|d z l' zs (w & f & g & ->) _ IHf]; intros w0 args w1 Ea; cbn [op_args] in Ea; [injection Ea as <- _; reflexivity|].
        destruct w as [x|]; [|discriminate Ea]. cbn [as_int bind] in Ea. apply bind_ok in Ea as ([as' w2] & Ea & E0). cbn [fst snd] in E0. injection E0 as <- _. f_equal. exact (IHf _ _ _ Ea). }
      destruct (op_int o zs w r H1 ltac:(congruence) Er) as (z & -> & Vo & Bo). exists z, (Some w), false, false. split; [reflexivity|]. split; [|exact Bo]. intros HX. cbn [eval]. rewrite (Vz HX). exact (HI3 o zs z H1 Vo).
    - destruct v as [z| | |]; try discriminate H. injection Ed as <-. exists z, w, f, s. split; [reflexivity|]. split; [intros _; apply HI2|discriminate].
  Qed.
  Lemma optimize_simple log2i tocode t : simple t = true -> (forall n, In n (names t) -> knows n) -> forall k d, optimize E log2i tocode k t = Ok d ->
    exists z w f g, d = DEval (PInt z) w f g /\ (X -> eval I t = num z) /\ (test t = true -> z = 0 \/ z = 1).
  Proof.
    intros H HK k d Ed. unfold optimize in Ed. apply bind_ok in Ed as (t1 & E1 & Ed). destruct (fold_simple t H HK k t1 E1) as (z & w & f & g & -> & K). cbn [optH bind] in Ed. apply bind_ok in Ed as (t3 & E3 & Ed).
    destruct k as [|k]; [discriminate E3|]. cbn [optC] in E3. injection E3 as <-. cbn [optH] in Ed. injection Ed as <-. exists z, w, f, g. auto.
  Qed.
End Fold.

(** ** unrollings *)
Lemma one_block_exec I ys v : bexec I (one ys) v = bexec I (BBlock ys) v.
Proof. destruct ys as [|y [|z ys]]; reflexivity. Qed.
Lemma one_block_flow ys w : bflow (one ys) w = bflow (BBlock ys) w.
Proof. destruct ys as [|y [|z ys]]; try reflexivity. cbn [one]. rewrite flow_block. cbn [bflows]. destruct (bflow y w); reflexivity. Qed.
Lemma one_block_assigns ys n : bassigns (one ys) n = bassigns (BBlock ys) n.
Proof. destruct ys as [|y [|z ys]]; try reflexivity. cbn [one bassigns existsb]. now rewrite orb_false_r. Qed.
Lemma block_assigns_app l1 l2 n : bassigns (BBlock (l1 ++ l2)) n = bassigns (BBlock l1) n || bassigns (BBlock l2) n.
Proof. cbn [bassigns]. apply existsb_app. Qed.
Lemma block_wf s array l : bwf s array (BBlock l) <-> Forall (bwf s array) l.
Proof. cbn [bwf]. induction l as [|y l IH]; [split; [constructor|auto]|]. split; [intros [H1 H2]; constructor; [exact H1|apply IH, H2]|intros H; inversion H; subst; split; [assumption|apply IH; assumption]]. Qed.
Lemma one_wf s array ys : bwf s array (BBlock ys) -> bwf s array (one ys).
Proof. destruct ys as [|y [|z ys]]; auto. intros [H _]. exact H. Qed.
Lemma bflows_app l1 l2 w : bflows (l1 ++ l2) w = obind (bflows l1 w) (bflows l2).
Proof. revert w. induction l1 as [|y l1 IH]; intros w; [reflexivity|]. cbn [app bflows]. destruct (bflow y w); [apply IH|reflexivity]. Qed.
Lemma bexecs_app I l1 l2 v : bexecs I (l1 ++ l2) v = bexecs I l2 (bexecs I l1 v).
Proof. apply fold_left_app. Qed.

Lemma unroll_assigns x : forall ys n, unrolls x ys -> bassigns (BBlock ys) n = true -> lassigns x n = true.
Proof.
  induction x as [m e|l IH|cnd th el IHt IHe|comp items IH|i a cnd j b body IH|cnd body IH] using lstmt_ind'; intros ys n U H; cbn [lassigns].
  - cbn [unrolls] in U. subst ys. cbn [bassigns existsb] in H. now rewrite orb_false_r in H.
  - rewrite unrolls_block in U. destruct U as (yss & U & ->). cbn [bassigns existsb] in H. rewrite orb_false_r in H. revert yss U H. induction IH as [|y l Hy _ IHl]; intros [|ys yss] U H; try destruct U; [discriminate H|].
    cbn [concat] in H. rewrite existsb_app in H. cbn [existsb]. apply orb_true_iff. apply orb_true_iff in H as [H|H]; [left; exact (Hy ys n H0 H)|right; exact (IHl yss H1 H)].
  - rewrite unrolls_if in U. destruct U as (th' & el' & U1 & U2 & ->). cbn [bassigns existsb] in H. rewrite orb_false_r in H. apply orb_true_iff. apply orb_true_iff in H as [H|H]; [left|right].
    + destruct th as [x|], th' as [y|]; try destruct U1; try discriminate H. destruct H0 as [U ->]. rewrite one_block_assigns in H. exact (IHt x eq_refl _ n U H).
    + destruct el as [x|], el' as [y|]; try destruct U2; try discriminate H. destruct H0 as [U ->]. rewrite one_block_assigns in H. exact (IHe x eq_refl _ n U H).
  - rewrite unrolls_case in U. destruct U as (l' & U & ->). cbn [bassigns existsb] in H. rewrite orb_false_r in H. revert l' U H. induction IH as [|[g o] l Hy _ IHl]; intros [|[g' o'] l'] U H; try destruct U; [discriminate H|].
    destruct H1 as [U1 U2]. cbn [existsb snd] in *. apply orb_true_iff. apply orb_true_iff in H as [H|H]; [left|right; exact (IHl l' U2 H)]. destruct o as [x|], o' as [y|]; try destruct U1; try discriminate H. destruct H1 as [U ->]. rewrite one_block_assigns in H. exact (Hy x eq_refl _ n U H).
  - destruct U as (rounds & U & ->). cbn [bassigns existsb] in H. apply orb_true_iff in H as [H|H]; [rewrite H; reflexivity|]. induction U as [|zs rounds U _ IHr]; [discriminate H|]. cbn [flat_map app existsb bassigns] in H.
    apply orb_true_iff in H as [H|H]; [rewrite (IH zs n U H), orb_true_r; reflexivity|]. apply orb_true_iff in H as [H|H]; [rewrite H, orb_true_r; reflexivity|exact (IHr H)].
  - destruct U as (rounds & U & ->). cbn [bassigns] in H. induction U as [|zs rounds U _ IHr]; [discriminate H|]. cbn [map existsb] in H. apply orb_true_iff in H as [H|H]; [exact (IH zs n U H)|exact (IHr H)].
Qed.
Lemma unroll_wf s array x : forall ys, lwf s array x -> unrolls x ys -> bwf s array (BBlock ys).
Proof.
  induction x as [m e|l IH|cnd th el IHt IHe|comp items IH|i a cnd j b body IH|cnd body IH] using lstmt_ind'; intros ys W U; apply block_wf.
  - cbn [unrolls] in U. subst ys. constructor; [exact W|constructor].
  - rewrite unrolls_block in U. destruct U as (yss & U & ->). constructor; [|constructor]. apply block_wf. cbn [lwf] in W. revert yss U W. induction IH as [|y l Hy _ IHl]; intros [|ys yss] U W; try destruct U; [constructor|].
    destruct W as [W1 W2]. cbn [concat]. apply Forall_app. split; [apply block_wf; exact (Hy ys W1 H)|exact (IHl yss H0 W2)].
  - rewrite unrolls_if in U. destruct U as (th' & el' & U1 & U2 & ->). constructor; [|constructor]. destruct W as (W1 & W2 & W3 & W4). cbn [bwf]. split; [exact W1|]. split; [exact W2|]. split.
    + destruct th as [x|], th' as [y|]; try destruct U1; try exact Logic.I. destruct H as [U ->]. apply one_wf. exact (IHt x eq_refl _ W3 U).
    + destruct el as [x|], el' as [y|]; try destruct U2; try exact Logic.I. destruct H as [U ->]. apply one_wf. exact (IHe x eq_refl _ W4 U).
  - rewrite unrolls_case in U. destruct U as (l' & U & ->). constructor; [|constructor]. destruct W as (W1 & W2 & W3). cbn [bwf]. split; [exact W1|]. split; [exact W2|]. revert l' U W3. induction IH as [|[g o] l Hy _ IHl]; intros [|[g' o'] l'] U W; try destruct U; [exact Logic.I|].
    destruct H0 as [U1 U2]. destruct W as (X1 & X2 & X3). subst g'. split; [exact X1|]. split; [|exact (IHl l' U2 X3)]. destruct o as [x|], o' as [y|]; try destruct U1; try exact Logic.I. destruct H as [U ->]. apply one_wf. exact (Hy x eq_refl _ X2 U).
  - destruct U as (rounds & U & ->). destruct W as (W1 & W2 & _ & W3). constructor; [exact W1|]. induction U as [|zs rounds U _ IHr]; [constructor|]. cbn [flat_map app]. constructor; [exact (IH zs W3 U)|]. constructor; [exact W2|exact IHr].
  - destruct U as (rounds & U & ->). destruct W as [_ W]. induction U as [|zs rounds U _ IHr]; [constructor|]. cbn [map]. constructor; [exact (IH zs W U)|exact IHr].
Qed.
