(** WalkProps2.v - C33: slices of slices in vectors not numbered from 0; variable indices of arrays. *)
From Coq Require Import Relations.
From Verif Require Import Base ScopeModel ScopeProofs DfModel DfSpec ReorderModel BindModel LitModel OptModel OptSpec OptArith OptProofs OptProps ScopeSpec HierModel HierProofs HierConcat HierProps MergeModel WalkModel WalkSpec WalkProofs WalkProofs2 WalkProofs3 WalkFuel WalkProps.
Local Open Scope Z_scope.
Local Notation pint := MergeModel.pint.

(** x[m:l] of a signal x[..:b] whose definition is the slice v[a:c]: bit l is bit l - b of the definition. *)
Theorem C33_select_of_slice : forall terms n t b rho v m l a c mz lz az cz x t',
  getTerm_str terms (chain_repr n) = Some t -> eval_attr (t_lsb t) = Ok b ->
  value rho m = Some mz -> value rho l = Some lz -> value rho a = Some az -> value rho c = Some cz ->
  b <= lz <= mz -> mz <= b + (az - cz) -> 0 <= cz ->
  value rho (DPart v a c) = Some x ->
  select terms (DTerm n) (DPart v a c) m l = Ok t' ->
  value rho t' = Some (low (x / 2 ^ (lz - b)) (mz - lz + 1)) /\ width rho t' = Some (mz - lz + 1).
Proof.
  intros terms n t b rho v m l a c mz lz az cz x t' HT Hb Vm Vl Va Vc H1 H2 H3 Vx H. unfold select in H. cbn [var_str] in H. rewrite HT, Hb in H. cbn [bind] in H.
  apply bind_ok in H as (mz' & E1 & H). apply bind_ok in H as (cz' & E2 & H). apply bind_ok in H as (lz' & E3 & H). injection H as <-.
  pose proof (eval_attr_value rho _ _ _ E1 Vm) as ->. pose proof (eval_attr_value rho _ _ _ E2 Vc) as ->. pose proof (eval_attr_value rho _ _ _ E3 Vl) as ->.
  pose proof (printed_value rho (mz + cz - b) ltac:(lia)) as P1. pose proof (printed_value rho (lz + cz - b) ltac:(lia)) as P2.
  unfold value, width in *. cbn [ev] in *. rewrite P1, P2. rewrite Va, Vc in Vx. assert (((0 <=? lz + cz - b) && (lz + cz - b <=? mz + cz - b)) = true) as -> by lia.
  destruct ((0 <=? cz) && (cz <=? az)) eqn:E; [|discriminate]. cbn [fst snd] in *. split; [|f_equal; lia].
  destruct (fst (ev rho v)) as [X|]; [|discriminate]. cbn [obind] in *. injection Vx as <-. f_equal.
  rewrite low_low by lia. f_equal; [|lia]. f_equal. f_equal. lia.
Qed.
Print Assumptions C33_select_of_slice.
(** x[7:4] is q[3:0]; x[6:5] is q[2:1] *)
Example C33_select_hypotheses_met : let ts := [decl "x" ["Wire"%string] "7" "4"] in
  (exists t, getTerm_str ts (chain_repr (nm "x")) = Some t /\ eval_attr (t_lsb t) = Ok 4) /\
  select ts (S_ "x") (DPart (S_ "q") (L "3") (L "0")) (L "6") (L "5") = Ok (DPart (S_ "q") (DInt "2") (DInt "1")).
Proof. split; [eexists; split; vm_compute; reflexivity|vm_compute; reflexivity]. Qed.

(** An array read with a variable index has, for every value i of the index, the tree that reading with the
    constant i gives. *)
Lemma index_tree_value terms optimize d ptr rho i : value rho ptr = Some i -> forall n c ret t, index_tree terms optimize d ptr n c ret = Ok t ->
  (c <= i < c + Z.of_nat n -> exists e, element_tree terms optimize d i = Ok e /\ value rho t = value rho e) /\ (~ (c <= i < c + Z.of_nat n) -> value rho t = value rho ret).
Proof.
  intros Hi. induction n as [|n IH]; intros c ret t H; cbn [index_tree] in H; [injection H as <-; split; [lia|auto]|].
  apply bind_ok in H as (e & E1 & H). apply bind_ok in H as (q & E2 & H). unfold mkOp in E2. destruct (existsb _ _); [discriminate|]. injection E2 as <-. destruct (IH _ _ _ H) as [I1 I2].
  assert (value rho (DBranch (DOp [pint c; ptr] Eq) e ret) = if c =? i then value rho e else value rho ret) as K.
  { unfold value in *. cbn [ev map fst snd]. rewrite Hi. cbn. destruct (c =? i); reflexivity. }
  split.
  - intros Hc. destruct (Z.eq_dec c i) as [->|N]; [|apply I1; lia]. exists e. split; auto. rewrite I2 by lia. rewrite K, Z.eqb_refl. reflexivity.
  - intros Hc. rewrite I2 by lia. rewrite K. destruct (Z.eqb_spec c i); [lia|]. reflexivity.
Qed.
Lemma group_none l : forall (terms : ndict term) (optimize : df -> res df) d, group_binds l d = Ok None -> Forall (fun b => isEval (b_ptr b) = true) l -> False.
Proof.
  induction l as [|b l IH]; intros terms optimize d H HF; cbn [group_binds] in H; [discriminate|]. inversion HF; subst. destruct (b_ptr b); try discriminate. apply bind_ok in H as (k & _ & H). eapply IH; eauto.
Qed.
Lemma fold_min_le l : forall k, fold_left Z.min l k <= k /\ forall x, In x l -> fold_left Z.min l k <= x.
Proof. induction l as [|y l IH]; intros k; cbn [fold_left]; [split; [lia|intros x []]|]. destruct (IH (Z.min k y)) as [I1 I2]. split; [lia|]. intros x [<-|Hx]; [lia|auto]. Qed.
Lemma fold_max_le l : forall k, k <= fold_left Z.max l k /\ forall x, In x l -> x <= fold_left Z.max l k.
Proof. induction l as [|y l IH]; intros k; cbn [fold_left]; [split; [lia|intros x []]|]. destruct (IH (Z.max k y)) as [I1 I2]. split; [lia|]. intros x [<-|Hx]; [lia|auto]. Qed.
Theorem C33_variable_index : forall terms optimize n l ptr t e rho i,
  (forall b, In b l -> isEval (b_ptr b) = true) -> isEval ptr = false ->
  value rho ptr = Some i -> array_tree terms optimize n l ptr = Ok t -> array_tree terms optimize n l (pint i) = Ok e ->
  value rho t = value rho e.
Proof.
  intros terms optimize n l ptr t e rho i HF HP Hi Ht He. rewrite <- Forall_forall in HF. unfold array_tree in *. apply bind_ok in Ht as (g & G & Ht). rewrite G in He. cbn [bind] in He. destruct g as [d|]; [|exfalso; exact (group_none l terms optimize _ G HF)].
  cbn [MergeModel.pint as_int bind] in He.
  assert (exists k ks, map fst d = k :: ks /\ index_tree terms optimize d ptr (Z.to_nat (fold_left Z.max ks k + 1 - fold_left Z.min ks k)) (fold_left Z.min ks k) DNone = Ok t) as (k & ks & Ek & HT).
  { destruct ptr; try discriminate; destruct (map fst d) as [|k ks]; try discriminate; exists k, ks; auto. }
  assert (In i (map fst d)) as Hin. { unfold element_tree, zget in He. destruct (find (fun p => fst p =? i) d) as [p|] eqn:EF; [|discriminate]. apply find_some in EF as [K1 K2]. apply Z.eqb_eq in K2. apply in_map_iff. eauto. }
  rewrite Ek in Hin. destruct (fold_min_le ks k) as [M1 M2]. destruct (fold_max_le ks k) as [X1 X2].
  destruct (index_tree_value _ _ _ _ rho i Hi _ _ _ _ HT) as [K _]. destruct K as (e' & E1 & E2).
  { destruct Hin as [<-|Hin]; [lia|]. specialize (M2 _ Hin). specialize (X2 _ Hin). lia. }
  assert (e' = e) by congruence. now subst.
Qed.
Print Assumptions C33_variable_index.
(** mem[0] = a; mem[1] = b; reading mem[i] gives i == 1 ? b : i == 0 ? a : nothing. *)
Definition elem (i : Z) (t : df) : bind_ := Bind t (nm "mem") DNone DNone (pint i) None "assign".
Example C33_index_hypotheses_met : let l := [elem 0 (S_ "a"); elem 1 (S_ "b")] in
  (forall b, In b l -> isEval (b_ptr b) = true) /\
  array_tree [] Ok (nm "mem") l (S_ "i") = Ok (DBranch (DOp [pint 1; S_ "i"] Eq) (S_ "b") (DBranch (DOp [pint 0; S_ "i"] Eq) (S_ "a") DNone)) /\
  array_tree [] Ok (nm "mem") l (pint 1) = Ok (S_ "b").
Proof. split; [intros b [<-|[<-|[]]]; reflexivity|split; vm_compute; reflexivity]. Qed.
(** If an element between two assigned ones is not assigned, reading with a variable index raises KeyError. *)
Theorem C33_sparse_array_refuted : array_tree [] Ok (nm "mem") [elem 0 (S_ "a"); elem 2 (S_ "b")] (S_ "i") = Err KeyError.
Proof. vm_compute. reflexivity. Qed.
Print Assumptions C33_sparse_array_refuted.
