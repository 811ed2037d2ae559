(** MkProps.v - C54: the dataflow tree of an expression means the expression. *)
From Verif Require Import Base ScopeModel DfModel DfSpec ReorderModel ReorderSpec ReorderProofs AsgModel ExprModel MkModel MkSpec.

Lemma expr_ind' (P : expr -> Prop) :
  (forall s, P (XId s)) -> (forall s, P (XInt s)) -> (forall o a, P a -> P (XUn o a)) -> (forall o a b, P a -> P b -> P (XBin o a b)) ->
  (forall c t f, P c -> P t -> P f -> P (XCond c t f)) -> (forall l, Forall P l -> P (XConcat l)) -> (forall v n, P v -> P (XRepeat v n)) ->
  (forall v m l, P v -> P m -> P l -> P (XPart v m l)) -> (forall v p, P v -> P p -> P (XPtr v p)) ->
  (forall f l, Forall P l -> P (XCall f l)) -> (forall f l, Forall P l -> P (XSys f l)) -> forall e, P e.
Proof.
  intros H1 H2 H3 H4 H5 H6 H7 H8 H9 H10 H11. fix rec 1. intros [s|s|o a|o a b|c t f|l|v n|v m l|v p|f l|f l];
    [apply H1|apply H2|apply H3|apply H4|apply H5|apply H6|apply H7|apply H8|apply H9|apply H10|apply H11]; try apply rec;
    induction l; constructor; auto.
Qed.

Lemma un_ok I o : forall b t, insertUnaryOp b o = Ok t -> eval I t = i_op I o [eval I b] /\ leaves_present t = true.
Proof.
  assert (forall b t, mkOp [b] o = Ok t -> eval I t = i_op I o [eval I b] /\ leaves_present t = true) as B by (intros b t H; apply mkOp_ok in H as [-> _]; auto).
  induction b as [| | | | | | | | |c IHc x IHx y IHy| | | | | ]; intros t H; try (apply B; exact H).
  cbn [insertUnaryOp] in H. apply bind_ok in H as (u & H1 & H). apply bind_ok in H as (v & H2 & H). injection H as <-.
  destruct (IHx _ H1) as [E1 L1]. destruct (IHy _ H2) as [E2 L2]. cbn [eval leaves_present]. rewrite E1, E2, L1, L2. split; [now destruct (i_truth I (eval I c))|reflexivity].
Qed.
Lemma op_r_ok I o a : isBranch a = false -> forall b t, insertOp_r a b o = Ok t -> eval I t = i_op I o [eval I a; eval I b] /\ leaves_present t = true.
Proof.
  intros Ha. assert (forall b t, mkOp [a; b] o = Ok t -> eval I t = i_op I o [eval I a; eval I b] /\ leaves_present t = true) as B by (intros b t H; apply mkOp_ok in H as [-> _]; auto).
  induction b as [| | | | | | | | |c IHc x IHx y IHy| | | | | ]; intros t H; try (apply B; exact H).
  cbn [insertOp_r] in H. apply bind_ok in H as (u & H1 & H). apply bind_ok in H as (v & H2 & H). injection H as <-.
  destruct (IHx _ H1) as [E1 L1]. destruct (IHy _ H2) as [E2 L2]. cbn [eval leaves_present]. rewrite E1, E2, L1, L2. split; [now destruct (i_truth I (eval I c))|reflexivity].
Qed.
Lemma op_ok I o b : forall a t, insertOp a b o = Ok t -> eval I t = i_op I o [eval I a; eval I b] /\ leaves_present t = true.
Proof.
  induction a as [| | | | | | | | |c IHc x IHx y IHy| | | | | ]; intros t H; try (eapply op_r_ok; [|exact H]; reflexivity).
  cbn [insertOp] in H. apply bind_ok in H as (u & H1 & H). apply bind_ok in H as (v & H2 & H). injection H as <-.
  destruct (IHx _ H1) as [E1 L1]. destruct (IHy _ H2) as [E2 L2]. cbn [eval leaves_present]. rewrite E1, E2, L1, L2. split; [now destruct (i_truth I (eval I c))|reflexivity].
Qed.
Lemma part_ok I m l : forall v, leaves_present v = true ->
  eval I (insertPartselect v m l) = i_part I (eval I v) (eval I m) (eval I l) /\ leaves_present (insertPartselect v m l) = true.
Proof.
  induction v as [| | | | | | | | |c IHc x IHx y IHy| | | | | ]; intros H; try (split; reflexivity); [discriminate|].
  cbn [leaves_present] in H. apply andb_true_iff in H as [Hx Hy]. destruct (IHx Hx) as [E1 L1]. destruct (IHy Hy) as [E2 L2].
  cbn [insertPartselect eval leaves_present]. rewrite E1, E2, L1, L2. split; [now destruct (i_truth I (eval I c))|reflexivity].
Qed.
Lemma branch_insertPart v m l : isBranch v = true -> isBranch (insertPartselect v m l) = true.
Proof. destruct v; try discriminate. reflexivity. Qed.

Section Mk.
  Variable (I : interp) (find : string -> res chain) (signal : string -> chain) (array : chain -> bool) (times : expr -> res Z) (count : expr -> Z) (k : nat).
  Hypothesis Hf : forall s n, find s = Ok n -> signal s = n.
  Hypothesis Ht : forall e c, times e = Ok c -> count e = c.
  Notation mk := (makeDFTree find array times k).
  Notation mean := (meaning I signal array count).
  Lemma mk_element : forall v v', no_calls v = true -> mk v = Ok v' -> element signal array v = match v' with DTerm n => array n | _ => false end.
  Proof.
    induction v as [s|s|o a IHa|o a b IHa IHb|c t0 f IHc IHt IHf|l IH|v n IHv|v m l IHv IHm IHl|v p IHv IHp|f l IH|f l IH] using expr_ind'; intros v' HN H1; cbn [element].
    - cbn [makeDFTree] in H1. apply bind_ok in H1 as (n & K & H1). injection H1 as <-. now rewrite (Hf _ _ K).
    - cbn [makeDFTree] in H1. injection H1 as <-. reflexivity.
    - cbn [makeDFTree] in H1. apply bind_ok in H1 as (a' & _ & H1). destruct a'; cbn [isBranch insertUnaryOp] in H1; try (apply mkOp_ok in H1 as [-> _]; reflexivity).
      apply bind_ok in H1 as (? & _ & H1). apply bind_ok in H1 as (? & _ & H1). injection H1 as <-. reflexivity.
    - cbn [makeDFTree] in H1. apply bind_ok in H1 as (a' & _ & H1). apply bind_ok in H1 as (b' & _ & H1). destruct (isBranch a' || isBranch b').
      + destruct a'; cbn [insertOp] in H1; try (destruct b'; cbn [insertOp_r] in H1; try (apply mkOp_ok in H1 as [-> _]; reflexivity)); apply bind_ok in H1 as (? & _ & H1); apply bind_ok in H1 as (? & _ & H1); injection H1 as <-; reflexivity.
      + apply mkOp_ok in H1 as [-> _]. reflexivity.
    - cbn [makeDFTree] in H1. apply bind_ok in H1 as (a' & _ & H1). apply bind_ok in H1 as (b' & _ & H1). apply bind_ok in H1 as (c' & _ & H1). destruct (isBranch c'); [discriminate|]. injection H1 as <-. reflexivity.
    - cbn [makeDFTree] in H1. apply bind_ok in H1 as (l' & _ & H1). destruct (existsb isBranch l'); [|injection H1 as <-; reflexivity].
      destruct k; [discriminate|]. cbn [insertConcat] in H1. destruct (split_branch l') as [[[? [[? ?] ?]] ?]|]; [|injection H1 as <-; reflexivity].
      apply bind_ok in H1 as (? & _ & H1). apply bind_ok in H1 as (? & _ & H1). injection H1 as <-. reflexivity.
    - cbn [makeDFTree] in H1. apply bind_ok in H1 as (? & _ & H1). apply bind_ok in H1 as (? & _ & H1). injection H1 as <-. reflexivity.
    - cbn [makeDFTree] in H1. apply bind_ok in H1 as (x & _ & H1). apply bind_ok in H1 as (? & _ & H1). apply bind_ok in H1 as (? & _ & H1). injection H1 as <-. destruct x; reflexivity.
    - cbn [makeDFTree] in H1. apply bind_ok in H1 as (x & _ & H1). apply bind_ok in H1 as (? & _ & H1). injection H1 as <-. destruct x; try reflexivity. match goal with |- context [array ?n] => destruct (array n) end; reflexivity.
    - discriminate.
    - destruct l as [|a [|? ?]]; try discriminate. cbn [no_calls] in HN. apply andb_true_iff in HN as [N1 N2]. cbn [makeDFTree] in H1. rewrite orb_comm, N1 in H1. inversion IH; subst. auto.
  Qed.
  Lemma mk_good : plain_casts I -> forall e t, no_calls e = true -> mk e = Ok t -> eval I t = mean e /\ leaves_present t = true.
  Proof.
    intros HC. induction e as [s|s|o a IHa|o a b IHa IHb|c t0 f IHc IHt IHf|l IH|v n IHv|v m l IHv IHm IHl|v p IHv IHp|f l IH|f l IH] using expr_ind'; intros t HN H; cbn [makeDFTree meaning no_calls] in *.
    - apply bind_ok in H as (n & H1 & H). injection H as <-. cbn [eval leaves_present]. now rewrite (Hf _ _ H1).
    - injection H as <-. auto.
    - apply bind_ok in H as (a' & H1 & H). destruct (IHa _ HN H1) as [E1 L1]. rewrite <- E1.
      destruct (isBranch a'); [now apply un_ok|]. apply mkOp_ok in H as [-> _]. auto.
    - apply andb_true_iff in HN as [N1 N2]. apply bind_ok in H as (a' & H1 & H). apply bind_ok in H as (b' & H2 & H). destruct (IHa _ N1 H1) as [E1 L1]. destruct (IHb _ N2 H2) as [E2 L2]. rewrite <- E1, <- E2.
      destruct (isBranch a' || isBranch b'); [now apply op_ok|]. apply mkOp_ok in H as [-> _]. auto.
    - apply andb_true_iff in HN as [HN N3]. apply andb_true_iff in HN as [N1 N2].
      apply bind_ok in H as (t' & H1 & H). apply bind_ok in H as (f' & H2 & H). apply bind_ok in H as (c' & H3 & H).
      destruct (isBranch c'); [discriminate|]. injection H as <-. destruct (IHt _ N2 H1) as [E1 L1]. destruct (IHf _ N3 H2) as [E2 L2]. destruct (IHc _ N1 H3) as [E3 L3].
      cbn [eval leaves_present]. rewrite E1, E2, E3, L1, L2. auto.
    - apply bind_ok in H as (l' & H1 & H). assert (map (eval I) l' = map mean l) as E.
      { clear H. revert l' H1. induction IH as [|e l He _ IHl]; intros l' H1; cbn [mapM] in H1; [injection H1 as <-; reflexivity|].
        apply bind_ok in H1 as (y & H1 & H2). apply bind_ok in H2 as (ys & H2 & H3). injection H3 as <-. cbn [forallb] in HN. apply andb_true_iff in HN as [N1 N2].
        cbn [map]. rewrite (proj1 (He _ N1 H1)), (IHl N2 _ H2). reflexivity. }
      rewrite <- E. destruct (existsb isBranch l').
      + split; [now apply (eval_insertConcat I k)|now apply (lp_insertConcat k _ _ H)].
      + injection H as <-. auto.
    - apply bind_ok in H as (c & H1 & H). apply bind_ok in H as (v' & H2 & H). injection H as <-. destruct (IHv _ HN H2) as [E1 L1]. rewrite (Ht _ _ H1).
      cbn [eval leaves_present]. split; [|reflexivity]. rewrite <- E1. f_equal. generalize (Z.to_nat c). intros j. induction j; cbn [repeat map]; congruence.
    - apply andb_true_iff in HN as [HN N3]. apply andb_true_iff in HN as [N1 N2].
      apply bind_ok in H as (v' & H1 & H). apply bind_ok in H as (m' & H2 & H). apply bind_ok in H as (l' & H3 & H).
      destruct (IHv _ N1 H1) as [E1 L1]. destruct (IHm _ N2 H2) as [E2 L2]. destruct (IHl _ N3 H3) as [E3 L3]. rewrite <- E1, <- E2, <- E3. injection H as <-.
      destruct (isBranch v'); [now apply part_ok|auto].
    - apply andb_true_iff in HN as [N1 N2]. apply bind_ok in H as (v' & H1 & H). apply bind_ok in H as (p' & H2 & H). injection H as <-.
      destruct (IHv _ N1 H1) as [E1 L1]. destruct (IHp _ N2 H2) as [E2 L2].
      rewrite (mk_element _ _ N1 H1).
      rewrite <- E1, <- E2. destruct v'; try (split; reflexivity). match goal with |- context [array ?n] => destruct (array n) end; split; reflexivity.
    - discriminate.
    - destruct l as [|a [|? ?]]; try discriminate. apply andb_true_iff in HN as [N1 N2]. rewrite orb_comm in H. rewrite N1 in H. inversion IH; subst.
      destruct (H2 _ N2 H) as [E1 L1]. split; [|exact L1]. rewrite E1. cbn [map]. symmetry. apply HC. apply orb_true_iff in N1 as [N1|N1]; apply String.eqb_eq in N1; auto.
  Qed.
End Mk.

(** When it succeeds. *)
Lemma un_total o : forall b, leaves_present b = true -> exists t, insertUnaryOp b o = Ok t /\ isBranch t = isBranch b.
Proof.
  induction b as [| | | | | | | | |c IHc x IHx y IHy| | | | | ]; intros H; try (eexists; split; reflexivity); [discriminate|].
  cbn [leaves_present] in H. apply andb_true_iff in H as [Hx Hy]. destruct (IHx Hx) as (a & E1 & _). destruct (IHy Hy) as (b & E2 & _). cbn [insertUnaryOp]. rewrite E1, E2. eexists. split; reflexivity.
Qed.
Lemma op_r_total o a : leaves_present a = true -> isBranch a = false -> forall b, leaves_present b = true -> exists t, insertOp_r a b o = Ok t /\ isBranch t = isBranch b.
Proof.
  intros La Ha. assert (is_none a = false) as Na by (destruct a; [discriminate|reflexivity..]).
  assert (forall b, leaves_present b = true -> isBranch b = false -> exists t, mkOp [a; b] o = Ok t /\ isBranch t = isBranch b) as B.
  { intros b Lb Hb. unfold mkOp. cbn [existsb]. rewrite Na. assert (is_none b = false) as -> by (destruct b; [discriminate|reflexivity..]). eexists. split; [reflexivity|]. now rewrite Hb. }
  induction b as [| | | | | | | | |c IHc x IHx y IHy| | | | | ]; intros H; try (apply B; [exact H|reflexivity]).
  cbn [leaves_present] in H. apply andb_true_iff in H as [Hx Hy]. destruct (IHx Hx) as (u & E1 & _). destruct (IHy Hy) as (v & E2 & _). cbn [insertOp_r]. rewrite E1, E2. eexists. split; reflexivity.
Qed.
Lemma op_total o b : leaves_present b = true -> forall a, leaves_present a = true -> exists t, insertOp a b o = Ok t /\ isBranch t = isBranch a || isBranch b.
Proof.
  intros Lb. induction a as [| | | | | | | | |c IHc x IHx y IHy| | | | | ]; intros H; try (apply op_r_total; [exact H|reflexivity|exact Lb]).
  cbn [leaves_present] in H. apply andb_true_iff in H as [Hx Hy]. destruct (IHx Hx) as (u & E1 & _). destruct (IHy Hy) as (v & E2 & _). cbn [insertOp]. rewrite E1, E2. eexists. split; reflexivity.
Qed.
Lemma mk_one a o : leaves_present a = true -> mkOp [a] o = Ok (DOp [a] o).
Proof. intros H. unfold mkOp. cbn [existsb]. destruct a; [discriminate|reflexivity..]. Qed.
Lemma mk_two a b o : leaves_present a = true -> leaves_present b = true -> mkOp [a; b] o = Ok (DOp [a; b] o).
Proof. intros H1 H2. unfold mkOp. cbn [existsb]. destruct a; [discriminate|..]; destruct b; try discriminate; reflexivity. Qed.
Lemma concat_total l : exists t, (exists k0, forall k, (k0 <= k)%nat -> insertConcat k l = Ok t) /\ (existsb isBranch l = true -> isBranch t = true).
Proof.
  destruct (insertConcat (S (lsize l)) l) as [t|e] eqn:E.
  - exists t. split.
    + exists (S (lsize l)). intros k Hk. exact (insertConcat_mono _ _ _ E ltac:(discriminate) k Hk).
    + intros Hb. cbn [insertConcat] in E. destruct (split_branch l) as [[[d [[c a] b]] r]|] eqn:Es.
      * apply bind_ok in E as (? & _ & E). apply bind_ok in E as (? & _ & E). injection E as <-. reflexivity.
      * apply split_branch_none in Es. congruence.
  - exfalso. pose proof (insertConcat_noerr _ _ _ E) as ->. apply (insertConcat_fuel (S (lsize l)) l); auto.
Qed.

Section Total.
  Variable (find : string -> res chain) (array : chain -> bool) (times : expr -> res Z).
  Definition builds (e : expr) (t : df) : Prop := (exists k0, forall k, (k0 <= k)%nat -> makeDFTree find array times k e = Ok t) /\ isBranch t = conditional e /\ leaves_present t = true.
  Lemma mk_total : forall e, no_calls e = true -> simple_conds e = true -> resolved find times e -> exists t, builds e t.
  Proof.
    induction e as [s|s|o a IHa|o a b IHa IHb|c t0 f IHc IHt IHf|l IH|v n IHv|v m l IHv IHm IHl|v p IHv IHp|f l IH|f l IH] using expr_ind'; intros HN HS HR; cbn [no_calls simple_conds resolved] in *.
    - destruct HR as (n & Hn). exists (DTerm n). split; [|auto]. exists 0%nat. intros k _. cbn [makeDFTree]. now rewrite Hn.
    - exists (DInt s). split; [|auto]. exists 0%nat. reflexivity.
    - destruct (IHa HN HS HR) as (a' & (k0 & K) & B1 & L1). destruct (isBranch a') eqn:Ea.
      + destruct (un_total o a' L1) as (t & E & Eb). exists t. split; [|split; [cbn [conditional]; congruence|]].
        * exists k0. intros k Hk. cbn [makeDFTree]. rewrite (K k Hk). cbn [bind]. now rewrite Ea.
        * destruct (un_ok (Interp unit tt (fun _ => tt) (fun _ => tt) (fun _ _ => tt) (fun _ _ _ => tt) (fun _ _ => tt) (fun _ => tt) (fun _ => tt) (fun _ _ => tt) (fun _ => true)) _ _ _ E). assumption.
      + exists (DOp [a'] o). split; [|split; [cbn [conditional isBranch]; congruence|reflexivity]]. exists k0. intros k Hk. cbn [makeDFTree]. rewrite (K k Hk). cbn [bind]. rewrite Ea. now apply mk_one.
    - apply andb_true_iff in HN as [N1 N2]. apply andb_true_iff in HS as [S1 S2]. destruct HR as [R1 R2].
      destruct (IHa N1 S1 R1) as (a' & (k1 & K1) & B1 & L1). destruct (IHb N2 S2 R2) as (b' & (k2 & K2) & B2 & L2). destruct (isBranch a' || isBranch b') eqn:Ea.
      + destruct (op_total o b' L2 a' L1) as (t & E & Eb). exists t. split; [|split; [cbn [conditional]; congruence|]].
        * exists (Nat.max k1 k2). intros k Hk. cbn [makeDFTree]. rewrite (K1 k ltac:(lia)). cbn [bind]. rewrite (K2 k ltac:(lia)). cbn [bind]. now rewrite Ea.
        * destruct (op_ok (Interp unit tt (fun _ => tt) (fun _ => tt) (fun _ _ => tt) (fun _ _ _ => tt) (fun _ _ => tt) (fun _ => tt) (fun _ => tt) (fun _ _ => tt) (fun _ => true)) _ _ _ _ E). assumption.
      + exists (DOp [a'; b'] o). split; [|split; [cbn [conditional isBranch]; congruence|reflexivity]]. exists (Nat.max k1 k2). intros k Hk. cbn [makeDFTree]. rewrite (K1 k ltac:(lia)). cbn [bind]. rewrite (K2 k ltac:(lia)). cbn [bind]. rewrite Ea. now apply mk_two.
    - apply andb_true_iff in HN as [HN N3]. apply andb_true_iff in HN as [N1 N2]. apply andb_true_iff in HS as [HS S4]. apply andb_true_iff in HS as [HS S3]. apply andb_true_iff in HS as [S1 S2]. destruct HR as (R1 & R2 & R3).
      destruct (IHc N1 S2 R1) as (c' & (k1 & K1) & B1 & L1). destruct (IHt N2 S3 R2) as (t' & (k2 & K2) & B2 & L2). destruct (IHf N3 S4 R3) as (f' & (k3 & K3) & B3 & L3).
      exists (DBranch c' t' f'). split; [|split; [reflexivity|cbn [leaves_present]; now rewrite L2, L3]].
      exists (Nat.max k1 (Nat.max k2 k3)). intros k Hk. cbn [makeDFTree]. rewrite (K2 k ltac:(lia)). cbn [bind]. rewrite (K3 k ltac:(lia)). cbn [bind]. rewrite (K1 k ltac:(lia)). cbn [bind].
      apply negb_true_iff in S1. now rewrite B1, S1.
    - assert (exists l', (exists k0, forall k, (k0 <= k)%nat -> mapM (makeDFTree find array times k) l = Ok l') /\ existsb isBranch l' = existsb conditional l) as (l' & (k1 & K1) & B1).
      { induction IH as [|e l He _ IHl]; [exists []; split; [exists 0%nat; reflexivity|reflexivity]|]. cbn [forallb fold_right] in HN, HS, HR.
        apply andb_true_iff in HN as [N1 N2]. apply andb_true_iff in HS as [S1 S2]. destruct HR as [R1 R2]. destruct (He N1 S1 R1) as (t & (k1 & K1) & B1 & L1). destruct (IHl N2 S2 R2) as (l' & (k2 & K2) & B2).
        exists (t :: l'). split; [|cbn [existsb]; congruence]. exists (Nat.max k1 k2). intros k Hk. cbn [mapM]. rewrite (K1 k ltac:(lia)). cbn [bind]. rewrite (K2 k ltac:(lia)). reflexivity. }
      destruct (existsb isBranch l') eqn:El.
      + destruct (concat_total l') as (t & (k2 & K2) & B2). exists t. split; [|split; [cbn [conditional]; rewrite (B2 El); exact B1|]].
        * exists (Nat.max k1 k2). intros k Hk. cbn [makeDFTree]. rewrite (K1 k ltac:(lia)). cbn [bind]. rewrite El. apply K2. lia.
        * exact (lp_insertConcat _ _ _ (K2 k2 (le_n _))).
      + exists (DConcat l'). split; [|split; [cbn [conditional isBranch]; congruence|reflexivity]]. exists k1. intros k Hk. cbn [makeDFTree]. rewrite (K1 k Hk). cbn [bind]. now rewrite El.
    - destruct HR as [R1 (c & Hc)]. destruct (IHv HN HS R1) as (v' & (k1 & K1) & B1 & L1). exists (DConcat (repeat v' (Z.to_nat c))). split; [|split; reflexivity].
      exists k1. intros k Hk. cbn [makeDFTree]. rewrite Hc. cbn [bind]. now rewrite (K1 k Hk).
    - apply andb_true_iff in HN as [HN N3]. apply andb_true_iff in HN as [N1 N2]. apply andb_true_iff in HS as [HS S3]. apply andb_true_iff in HS as [S1 S2]. destruct HR as (R1 & R2 & R3).
      destruct (IHv N1 S1 R1) as (v' & (k1 & K1) & B1 & L1). destruct (IHm N2 S2 R2) as (m' & (k2 & K2) & B2 & L2). destruct (IHl N3 S3 R3) as (l' & (k3 & K3) & B3 & L3).
      exists (if isBranch v' then insertPartselect v' m' l' else DPart v' m' l'). split; [|split].
      + exists (Nat.max k1 (Nat.max k2 k3)). intros k Hk. cbn [makeDFTree]. rewrite (K1 k ltac:(lia)). cbn [bind]. rewrite (K2 k ltac:(lia)). cbn [bind]. rewrite (K3 k ltac:(lia)). reflexivity.
      + cbn [conditional]. rewrite <- B1. destruct (isBranch v') eqn:Ev; [now apply branch_insertPart|reflexivity].
      + destruct (isBranch v'); [now apply lp_insertPart|reflexivity].
    - apply andb_true_iff in HN as [N1 N2]. apply andb_true_iff in HS as [S1 S2]. destruct HR as (R1 & R2).
      destruct (IHv N1 S1 R1) as (v' & (k1 & K1) & B1 & L1). destruct (IHp N2 S2 R2) as (p' & (k2 & K2) & B2 & L2).
      exists (match v' with DTerm n => if array n then DPtr v' p' else DPart v' p' p' | _ => DPart v' p' p' end). split; [|].
      + exists (Nat.max k1 k2). intros k Hk. cbn [makeDFTree]. rewrite (K1 k ltac:(lia)). cbn [bind]. rewrite (K2 k ltac:(lia)). reflexivity.
      + cbn [conditional]. destruct v'; try (split; reflexivity). match goal with |- context [array ?n] => destruct (array n) end; split; reflexivity.
    - discriminate.
    - destruct l as [|a [|? ?]]; try discriminate. apply andb_true_iff in HN as [N1 N2]. cbn [forallb fold_right] in HS, HR. rewrite andb_true_r in HS. destruct HR as [R1 _]. inversion IH as [|? ? He _]; subst.
      destruct (He N2 HS R1) as (t & (k1 & K1) & B1 & L1). exists t. split; [|auto]. exists k1. intros k Hk. cbn [makeDFTree]. rewrite orb_comm, N1. auto.
  Qed.
End Total.

(** The value of the tree is the value of the expression, whatever the operators and signals mean; and
    a tree is made if conditions are not conditional themselves. *)
Theorem C54_tree_means_expression_partial : forall I find signal array times count k e t,
  (forall s n, find s = Ok n -> signal s = n) -> (forall x c, times x = Ok c -> count x = c) -> plain_casts I ->
  no_calls e = true -> makeDFTree find array times k e = Ok t -> eval I t = meaning I signal array count e.
Proof. intros I find signal array times count k e t H1 H2 H3 H4 H5. exact (proj1 (mk_good I find signal array times count k H1 H2 H3 e t H4 H5)). Qed.
Print Assumptions C54_tree_means_expression_partial.
Theorem C54_tree_is_made_partial : forall find array times e, no_calls e = true -> simple_conds e = true -> resolved find times e ->
  exists t k0, forall k, (k0 <= k)%nat -> makeDFTree find array times k e = Ok t.
Proof. intros find array times e H1 H2 H3. destruct (mk_total find array times e H1 H2 H3) as (t & (k0 & K) & _). exists t, k0. exact K. Qed.
Print Assumptions C54_tree_is_made_partial.

(** a ? {b, c}[2:0] + 1 : {2{b}} with c[a]: conditionals below operators are moved up. *)
Definition find54 (s : string) : res chain := if String.eqb s "z" then Err DefinitionError else Ok [Label "top" STmodule None; Label s STsignal None].
Definition signal54 (s : string) : chain := [Label "top" STmodule None; Label s STsignal None].
Definition times54 (e : expr) : res Z := match e with XInt "2" => Ok 2%Z | _ => Err AttributeError end.
Definition expr54 : expr := XBin Plus (XCond (XId "a") (XPart (XConcat [XId "b"; XCond (XId "d") (XId "c") (XInt "3")]) (XInt "2") (XInt "0")) (XRepeat (XId "b") (XInt "2"))) (XPtr (XSys "signed" [XId "c"]) (XId "a")).
Definition N54 (s : string) : df := DTerm (signal54 s).
Example C54_hypotheses_met : (forall s n, find54 s = Ok n -> signal54 s = n) /\ no_calls expr54 = true /\ simple_conds expr54 = true /\ resolved find54 times54 expr54 /\
  makeDFTree find54 (fun _ => false) times54 9 expr54 =
  Ok (DBranch (N54 "a") (DBranch (N54 "d") (DOp [DPart (DConcat [N54 "b"; N54 "c"]) (DInt "2") (DInt "0"); DPart (N54 "c") (N54 "a") (N54 "a")] Plus)
                                           (DOp [DPart (DConcat [N54 "b"; DInt "3"]) (DInt "2") (DInt "0"); DPart (N54 "c") (N54 "a") (N54 "a")] Plus))
                        (DOp [DConcat [N54 "b"; N54 "b"]; DPart (N54 "c") (N54 "a") (N54 "a")] Plus)).
Proof.
  split; [|split; [reflexivity|split; [reflexivity|split; [|vm_compute; reflexivity]]]].
  - intros s n H. unfold find54 in H. destruct (String.eqb s "z"); [discriminate|]. injection H as <-. reflexivity.
  - cbn. repeat split; eexists; reflexivity.
Qed.

(** Full property: every expression with declared names, under interpretations that give system functions
    a value of their own. *)
Definition tree_is_made : Prop := forall find array times e, no_calls e = true -> resolved find times e -> exists t k, makeDFTree find array times k e = Ok t.
Definition tree_means : Prop := forall I find signal array times count k e t,
  (forall s n, find s = Ok n -> signal s = n) -> (forall x c, times x = Ok c -> count x = c) -> plain_casts I ->
  makeDFTree find array times k e = Ok t -> eval I t = meaning I signal array count e.
Definition I54 : interp := Interp Z 0%Z (fun _ => 5%Z) (fun _ => 0%Z) (fun _ _ => 0%Z) (fun _ _ _ => 0%Z) (fun _ _ => 0%Z) (fun _ => 0%Z) (fun _ => 0%Z)
  (fun f l => if String.eqb f "clog2" then 3%Z else hd 0%Z l) (fun v => negb (Z.eqb v 0)).
Theorem C54_tree_means_expression_refuted : ~ tree_is_made /\ ~ tree_means /\
  (* (a ? b : c) ? d : e is rejected *)
  (forall k, makeDFTree find54 (fun _ => false) times54 k (XCond (XCond (XId "a") (XId "b") (XId "c")) (XId "d") (XId "e")) = Err AttributeError) /\
  (* $clog2(a) is 0 *)
  (forall k, makeDFTree find54 (fun _ => false) times54 k (XSys "clog2" [XId "a"]) = Ok (DInt "0")).
Proof.
  split; [|split; [|split; reflexivity]].
  - intros H. destruct (H find54 (fun _ => false) times54 (XCond (XCond (XId "a") (XId "b") (XId "c")) (XId "d") (XId "e")) eq_refl) as (t & k & E); [cbn; repeat split; eexists; reflexivity|]. discriminate E.
  - intros H. specialize (H I54 find54 signal54 (fun _ => false) times54 (fun x => match times54 x with Ok c => c | Err _ => 0%Z end) 0%nat (XSys "clog2" [XId "a"]) (DInt "0") (proj1 C54_hypotheses_met)).
    assert (plain_casts I54) as HC. { intros f x [->| ->]; reflexivity. }
    specialize (H ltac:(intros x c E; cbv beta; now rewrite E) HC eq_refl). discriminate H.
Qed.
Print Assumptions C54_tree_means_expression_refuted.
