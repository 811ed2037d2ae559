(** AccProofs2.v - the trees of legal expressions, left sides and their parts. *)
From Verif Require Import Base ScopeModel ScopeSpec ScopeProofs DfModel DfSpec DfProofs ReorderModel ReorderSpec ReorderProofs BindModel BindSpec BindProofs AsgModel AsgProofs ExprModel MkModel MkSpec MkProps LitModel ConModel ConSpec ConProofs ConProofs2 PbModel AccSpec AccProofs.
Local Open Scope list_scope.

(** ** trees of expressions *)
Definition fit (t : df) : Prop := reorderable t = true /\ arms_present t = true.
Lemma fit_op l o : Forall fit l -> fit (DOp l o).
Proof. intros H. split; [|reflexivity]. cbn [reorderable]. apply andb_true_iff. split; apply forallb_forall; intros x Hx; rewrite Forall_forall in H; apply (H x Hx). Qed.
Lemma fit_concat l : Forall fit l -> fit (DConcat l).
Proof. intros H. split; [|reflexivity]. cbn [reorderable]. apply forallb_forall. intros x Hx. rewrite Forall_forall in H. apply (H x Hx). Qed.
Lemma fit_branch c x y : fit c -> fit x -> fit y -> fit (DBranch c x y).
Proof. intros [A _] [B B'] [C C']. split; cbn [reorderable arms_present]; rewrite ?A, ?B, ?C, ?B', ?C'; reflexivity. Qed.
Lemma fit_branch_inv c x y : fit (DBranch c x y) -> reorderable c = true /\ fit x /\ fit y.
Proof. intros [A B]. cbn [reorderable arms_present] in *. ands. repeat split; auto. Qed.
Lemma fit_branch' c x y : reorderable c = true -> fit x -> fit y -> fit (DBranch c x y).
Proof. intros A [B B'] [C C']. split; cbn [reorderable arms_present]; rewrite ?A, ?B, ?C, ?B', ?C'; reflexivity. Qed.
Lemma fit_rigid t : rigid t -> fit t.
Proof. intros R. destruct (rigid_stiff t R). split; auto. Qed.
Lemma fit_part v m l : fit v -> rigid m -> rigid l -> fit (DPart v m l).
Proof.
  intros [A B] M L. destruct (rigid_stiff m M) as [_ A1 _ F1 _], (rigid_stiff l L) as [_ A2 _ F2 _]. split; cbn [reorderable arms_present]; [now rewrite A, A1, A2, F1, F2|rewrite B; apply orb_true_r].
Qed.
Lemma fit_ptr v p : fit v -> fit p -> fit (DPtr v p).
Proof. intros [A B] [C _]. split; cbn [reorderable arms_present]; [now rewrite A, C|rewrite B; apply orb_true_r]. Qed.
Lemma fit_unary o : forall b t, fit b -> insertUnaryOp b o = Ok t -> fit t.
Proof.
  assert (B : forall b t, fit b -> mkOp [b] o = Ok t -> fit t) by (intros b t H E; apply mkOp_ok in E as [-> _]; apply fit_op; auto).
  induction b as [| | | | | | | | |c IHc x IHx y IHy| | | | | ]; intros t H E; try (exact (B _ _ H E)).
  cbn [insertUnaryOp] in E. apply bind_ok in E as (a & E1 & E). apply bind_ok in E as (b & E2 & E). injection E as <-. apply fit_branch_inv in H as (H1 & H2 & H3). apply fit_branch'; auto.
Qed.
Lemma fit_binary_r o a : fit a -> forall b t, fit b -> insertOp_r a b o = Ok t -> fit t.
Proof.
  intros Ha. assert (B : forall b t, fit b -> mkOp [a; b] o = Ok t -> fit t) by (intros b t H E; apply mkOp_ok in E as [-> _]; apply fit_op; auto).
  induction b as [| | | | | | | | |c IHc x IHx y IHy| | | | | ]; intros t H E; try (exact (B _ _ H E)).
  cbn [insertOp_r] in E. apply bind_ok in E as (u & E1 & E). apply bind_ok in E as (v & E2 & E). injection E as <-. apply fit_branch_inv in H as (H1 & H2 & H3). apply fit_branch'; auto.
Qed.
Lemma fit_binary o b : fit b -> forall a t, fit a -> insertOp a b o = Ok t -> fit t.
Proof.
  intros Hb. induction a as [| | | | | | | | |c IHc x IHx y IHy| | | | | ]; intros t H E; try (exact (fit_binary_r o _ H b t Hb E)).
  cbn [insertOp] in E. apply bind_ok in E as (u & E1 & E). apply bind_ok in E as (v & E2 & E). injection E as <-. apply fit_branch_inv in H as (H1 & H2 & H3). apply fit_branch'; auto.
Qed.
Lemma fit_insertPart m l : rigid m -> rigid l -> forall v, fit v -> fit (insertPartselect v m l).
Proof.
  intros M L. induction v as [| | | | | | | | |c IHc x IHx y IHy| | | | | ]; intros H; try (exact (fit_part _ _ _ H M L)); [destruct H; discriminate|].
  cbn [insertPartselect]. apply fit_branch_inv in H as (H1 & H2 & H3). apply fit_branch'; auto.
Qed.
Lemma fit_insertConcat k : forall l t, Forall fit l -> insertConcat k l = Ok t -> fit t.
Proof.
  induction k as [|k IH]; intros l t H E; [discriminate|]. cbn [insertConcat] in E. destruct (split_branch l) as [[[d [[c x] y]] r]|] eqn:Es.
  - apply split_branch_some in Es as [-> _]. apply Forall_app in H as [H1 H2]. inversion H2 as [|? ? H3 H4]; subst. apply fit_branch_inv in H3 as (A & B & C).
    apply bind_ok in E as (a & E1 & E). apply bind_ok in E as (b & E2 & E). injection E as <-. apply fit_branch'; [exact A|eapply IH; [|exact E1]|eapply IH; [|exact E2]]; apply Forall_app; split; [exact H1|cbn [app]; auto|exact H1|cbn [app]; auto].
  - injection E as <-. now apply fit_concat.
Qed.
Lemma rigid_branch t : rigid t -> isBranch t = false.
Proof. intros R. destruct (rigid_stiff t R). now apply occurs_isBranch. Qed.
Lemma rigid_branches l : Forall rigid l -> existsb isBranch l = false.
Proof. intros H. apply occ_true. eapply Forall_impl; [|exact H]. apply rigid_branch. Qed.

Section Mk.
  Variables (find : string -> res chain) (signal : string -> chain) (array : chain -> bool) (times : expr -> res Z) (k : nat).
  Hypothesis Hf : forall s n, find s = Ok n -> signal s = n.
  Notation mk := (makeDFTree find array times k).
  Lemma mk_rigid : forall e t, no_calls e = true -> choiceless e = true -> mk e = Ok t -> rigid t.
  Proof.
    assert (ML : forall l, Forall (fun e => forall t, no_calls e = true -> choiceless e = true -> mk e = Ok t -> rigid t) l -> forallb no_calls l = true -> forallb choiceless l = true -> forall l', mapM mk l = Ok l' -> Forall rigid l').
    { induction 1 as [|x l Hx H IH]; cbn [mapM forallb]; intros N C l' E; [injection E as <-; constructor|]. ands. apply bind_ok in E as (y & E1 & E). apply bind_ok in E as (ys & E2 & E). injection E as <-. constructor; auto. }
    induction e as [s|s|o a IHa|o a b IHa IHb|c t0 f IHc IHt IHf|l IH|v n IHv|v m l IHv IHm IHl|v p IHv IHp|f l IH|f l IH] using expr_ind'; intros t N C E; cbn [makeDFTree no_calls choiceless] in *; try discriminate; ands.
    - apply bind_ok in E as (n & _ & E). injection E as <-. reflexivity.
    - injection E as <-. reflexivity.
    - apply bind_ok in E as (a' & E1 & E). pose proof (IHa _ N C E1) as R. rewrite (rigid_branch _ R) in E. apply mkOp_ok in E as [-> _]. apply rigid_op; auto.
    - apply bind_ok in E as (a' & E1 & E). apply bind_ok in E as (b' & E2 & E). assert (R1 : rigid a') by auto. assert (R2 : rigid b') by auto. rewrite (rigid_branch _ R1), (rigid_branch _ R2) in E. apply mkOp_ok in E as [-> _]. apply rigid_op; auto.
    - apply bind_ok in E as (l' & E1 & E). pose proof (ML l IH N C l' E1) as R. rewrite (rigid_branches _ R) in E. injection E as <-. unfold rigid. cbn. apply occ_true. exact R.
    - apply bind_ok in E as (c & E1 & E). apply bind_ok in E as (v' & E2 & E). injection E as <-. pose proof (IHv _ N C E2) as R. unfold rigid. cbn. apply occ_true. apply Forall_forall. intros x Hx. apply repeat_spec in Hx as ->. exact R.
    - apply bind_ok in E as (v' & E1 & E). apply bind_ok in E as (m' & E2 & E). apply bind_ok in E as (l' & E3 & E). injection E as <-. assert (R1 : rigid v') by auto. assert (R2 : rigid m') by auto. assert (R3 : rigid l') by auto.
      rewrite (rigid_branch _ R1). unfold rigid in *. cbn. now rewrite R1, R2, R3.
    - apply bind_ok in E as (v' & E1 & E). apply bind_ok in E as (p' & E2 & E). injection E as <-. assert (R1 : rigid v') by auto. assert (R2 : rigid p') by auto.
      assert (rigid (DPtr v' p') /\ rigid (DPart v' p' p')) as [G1 G2] by (unfold rigid in *; cbn; now rewrite R1, R2). destruct v'; try exact G2. match goal with |- context [array ?n] => destruct (array n) end; assumption.
    - destruct l as [|a [|? ?]]; try discriminate. ands. cbn [forallb] in C. ands. rewrite orb_comm in E. rewrite H in E. inversion IH; subst. auto.
  Qed.
  Lemma mk_fit : forall e t, no_calls e = true -> steady (element signal array) e = true -> mk e = Ok t -> fit t.
  Proof.
    assert (ML : forall l, Forall (fun e => forall t, no_calls e = true -> steady (element signal array) e = true -> mk e = Ok t -> fit t) l -> forallb no_calls l = true -> forallb (steady (element signal array)) l = true -> forall l', mapM mk l = Ok l' -> Forall fit l').
    { induction 1 as [|x l Hx H IH]; cbn [mapM forallb]; intros N C l' E; [injection E as <-; constructor|]. ands. apply bind_ok in E as (y & E1 & E). apply bind_ok in E as (ys & E2 & E). injection E as <-. constructor; auto. }
    induction e as [s|s|o a IHa|o a b IHa IHb|c t0 f IHc IHt IHf|l IH|v n IHv|v m l IHv IHm IHl|v p IHv IHp|f l IH|f l IH] using expr_ind'; intros t N C E; cbn [makeDFTree no_calls steady] in *; try discriminate.
    - apply bind_ok in E as (n & _ & E). injection E as <-. split; reflexivity.
    - injection E as <-. split; reflexivity.
    - apply bind_ok in E as (a' & E1 & E). pose proof (IHa _ N C E1) as R. destruct (isBranch a'); [exact (fit_unary o _ _ R E)|]. apply mkOp_ok in E as [-> _]. apply fit_op; auto.
    - ands. apply bind_ok in E as (a' & E1 & E). apply bind_ok in E as (b' & E2 & E). assert (R1 : fit a') by auto. assert (R2 : fit b') by auto. destruct (isBranch a' || isBranch b'); [exact (fit_binary o _ R2 _ _ R1 E)|]. apply mkOp_ok in E as [-> _]. apply fit_op; auto.
    - ands. apply bind_ok in E as (t' & E1 & E). apply bind_ok in E as (f' & E2 & E). apply bind_ok in E as (c' & E3 & E). destruct (isBranch c'); [discriminate|]. injection E as <-. apply fit_branch; auto.
    - apply bind_ok in E as (l' & E1 & E). pose proof (ML l IH N C l' E1) as R. destruct (existsb isBranch l'); [exact (fit_insertConcat k _ _ R E)|]. injection E as <-. now apply fit_concat.
    - apply bind_ok in E as (c & E1 & E). apply bind_ok in E as (v' & E2 & E). injection E as <-. pose proof (IHv _ N C E2) as R. apply fit_concat. apply Forall_forall. intros x Hx. apply repeat_spec in Hx as ->. exact R.
    - ands. apply bind_ok in E as (v' & E1 & E). apply bind_ok in E as (m' & E2 & E). apply bind_ok in E as (l' & E3 & E). injection E as <-.
      assert (R1 : fit v') by (apply IHv; assumption). assert (R2 : rigid m') by (refine (mk_rigid m _ _ _ E2); assumption). assert (R3 : rigid l') by (refine (mk_rigid l _ _ _ E3); assumption).
      destruct (isBranch v'); [now apply fit_insertPart|now apply fit_part].
    - apply andb_true_iff in N as [N1 N2]. apply andb_true_iff in C as [C C3]. apply andb_true_iff in C as [C1 C2]. apply bind_ok in E as (v' & E1 & E). apply bind_ok in E as (p' & E2 & E). injection E as <-. assert (R1 : fit v') by (apply IHv; assumption). assert (R2 : fit p') by (apply IHp; assumption).
      rewrite (mk_element find signal array times k Hf _ _ N1 E1) in C3.
      assert (G : forall b : bool, b || choiceless p = true -> b = false -> fit (DPart v' p' p')). { intros b Hb ->. cbn [orb] in Hb. assert (R3 : rigid p') by (refine (mk_rigid p _ _ _ E2); assumption). now apply fit_part. }
      destruct v'; try exact (G _ C3 eq_refl). match goal with |- context [array ?n] => destruct (array n) eqn:A end; [now apply fit_ptr|exact (G _ C3 eq_refl)].
    - destruct l as [|a [|? ?]]; try discriminate. ands. cbn [forallb] in C. ands. rewrite orb_comm in E. rewrite H in E. inversion IH; subst. auto.
  Qed.
End Mk.

(** ** the same tree in a store with more declarations *)
Lemma mk_term find array times k : forall e n, no_calls e = true -> makeDFTree find array times k e = Ok (DTerm n) -> exists x, find x = Ok n.
Proof.
  induction e as [s|s|o a IHa|o a b IHa IHb|c t0 f IHc IHt IHf|l IH|v n0 IHv|v m l IHv IHm IHl|v p IHv IHp|f l IH|f l IH] using expr_ind'; intros n HN H1; cbn [makeDFTree] in H1.
  - apply bind_ok in H1 as (m & K & H1). injection H1 as <-. eauto.
  - discriminate.
  - apply bind_ok in H1 as (a' & _ & H1). destruct a'; cbn [isBranch insertUnaryOp] in H1; try (apply mkOp_ok in H1 as [H1 _]; discriminate).
    apply bind_ok in H1 as (? & _ & H1). apply bind_ok in H1 as (? & _ & H1). discriminate.
  - apply bind_ok in H1 as (a' & _ & H1). apply bind_ok in H1 as (b' & _ & H1). destruct (isBranch a' || isBranch b').
    + destruct a'; cbn [insertOp] in H1; try (destruct b'; cbn [insertOp_r] in H1; try (apply mkOp_ok in H1 as [H1 _]; discriminate)); apply bind_ok in H1 as (? & _ & H1); apply bind_ok in H1 as (? & _ & H1); discriminate.
    + apply mkOp_ok in H1 as [H1 _]. discriminate.
  - apply bind_ok in H1 as (a' & _ & H1). apply bind_ok in H1 as (b' & _ & H1). apply bind_ok in H1 as (c' & _ & H1). destruct (isBranch c'); discriminate.
  - apply bind_ok in H1 as (l' & _ & H1). destruct (existsb isBranch l'); [|discriminate].
    destruct k; [discriminate|]. cbn [insertConcat] in H1. destruct (split_branch l') as [[[? [[? ?] ?]] ?]|]; [|discriminate].
    apply bind_ok in H1 as (? & _ & H1). apply bind_ok in H1 as (? & _ & H1). discriminate.
  - apply bind_ok in H1 as (? & _ & H1). apply bind_ok in H1 as (? & _ & H1). discriminate.
  - apply bind_ok in H1 as (x & _ & H1). apply bind_ok in H1 as (? & _ & H1). apply bind_ok in H1 as (? & _ & H1). injection H1 as H1. destruct x; discriminate.
  - apply bind_ok in H1 as (x & _ & H1). apply bind_ok in H1 as (? & _ & H1). injection H1 as H1. destruct x; try discriminate. match type of H1 with context [array ?n] => destruct (array n) end; discriminate.
  - discriminate.
  - destruct l as [|a [|? ?]]; try discriminate. cbn [no_calls] in HN. apply andb_true_iff in HN as [N1 N2]. rewrite orb_comm, N1 in H1. inversion IH; subst. eauto.
Qed.
Section Ext.
  Variables (find1 find2 : string -> res chain) (array1 array2 : chain -> bool) (times : expr -> res Z) (k : nat) (see : string -> Prop) (cnt : expr -> Prop).
  Hypothesis HF : forall x, see x -> find1 x = find2 x.
  Hypothesis HA : forall x n, find1 x = Ok n -> array1 n = array2 n.
  Lemma mk_ext : forall e, no_calls e = true -> over see cnt e -> makeDFTree find1 array1 times k e = makeDFTree find2 array2 times k e.
  Proof.
    assert (ML : forall l, Forall (fun e => no_calls e = true -> over see cnt e -> makeDFTree find1 array1 times k e = makeDFTree find2 array2 times k e) l -> forallb no_calls l = true -> fold_right (fun x P => over see cnt x /\ P) True l ->
      mapM (makeDFTree find1 array1 times k) l = mapM (makeDFTree find2 array2 times k) l).
    { induction 1 as [|x l Hx H IH]; cbn [mapM forallb fold_right]; intros N O; [reflexivity|]. ands. destruct O as [O1 O2]. rewrite (Hx ltac:(assumption) O1), (IH ltac:(assumption) O2). reflexivity. }
    induction e as [s|s|o a IHa|o a b IHa IHb|c t0 f IHc IHt IHf|l IH|v n0 IHv|v m l IHv IHm IHl|v p IHv IHp|f l IH|f l IH] using expr_ind'; intros N O; cbn [no_calls over makeDFTree] in *; ands; repeat match goal with H : _ /\ _ |- _ => destruct H end.
    - now rewrite (HF _ O).
    - reflexivity.
    - now rewrite IHa.
    - now rewrite IHa, IHb.
    - now rewrite IHc, IHt, IHf.
    - now rewrite (ML l IH N O).
    - now rewrite IHv.
    - now rewrite IHv, IHm, IHl.
    - rewrite <- IHv, <- IHp by assumption. destruct (makeDFTree find1 array1 times k v) as [v'|] eqn:E; [|reflexivity]. cbn [bind]. destruct v'; try reflexivity.
      match goal with |- context [array1 ?n] => destruct (mk_term find1 array1 times k v n ltac:(assumption) E) as (x & Hx) end. now rewrite (HA _ _ Hx).
    - discriminate.
    - destruct l as [|a [|? ?]]; try discriminate. ands. inversion IH; subst. cbn [fold_right] in O. destruct O as [O _]. destruct (String.eqb f "unsigned" || String.eqb f "signed"); auto.
  Qed.
End Ext.
Lemma over_resolved find times : forall e, over (fun x => exists n, find x = Ok n) (fun c => exists z, times c = Ok z) e -> resolved find times e.
Proof.
  assert (ML : forall l, Forall (fun e => over (fun x => exists n, find x = Ok n) (fun c => exists z, times c = Ok z) e -> resolved find times e) l ->
    fold_right (fun x P => over (fun x => exists n, find x = Ok n) (fun c => exists z, times c = Ok z) x /\ P) True l -> fold_right (fun x P => resolved find times x /\ P) True l) by (induction 1; cbn [fold_right]; tauto).
  induction e as [s|s|o a IHa|o a b IHa IHb|c t0 f IHc IHt IHf|l IH|v n0 IHv|v m l IHv IHm IHl|v p IHv IHp|f l IH|f l IH] using expr_ind'; cbn [over resolved]; try tauto; auto.
Qed.
Lemma over_weak (see see' : string -> Prop) (cnt : expr -> Prop) : (forall x, see x -> see' x) -> forall e, over see cnt e -> over see' cnt e.
Proof.
  intros H. assert (ML : forall l, Forall (fun e => over see cnt e -> over see' cnt e) l -> fold_right (fun x P => over see cnt x /\ P) True l -> fold_right (fun x P => over see' cnt x /\ P) True l) by (induction 1; cbn [fold_right]; tauto).
  induction e as [s|s|o a IHa|o a b IHa IHb|c t0 f IHc IHt IHf|l IH|v n0 IHv|v m l IHv IHm IHl|v p IHv IHp|f l IH|f l IH] using expr_ind'; cbn [over]; try tauto; auto.
Qed.
