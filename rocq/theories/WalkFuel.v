From Verif Require Import Base ScopeModel DfModel ReorderModel BindModel LitModel OptModel MergeModel WalkModel WalkProofs.
Local Open Scope Z_scope.

(** ** The definitions themselves are computed in bounded depth *)
Section Total.
  Variable terms : ndict term.
  Variables optimize optconst reorder_ : df -> res df.
  Hypothesis Ho : forall t, not_fuel (optimize t).
  Hypothesis Hc : forall t, not_fuel (optconst t).
  Hypothesis Hr : forall t, not_fuel (reorder_ t).

  Lemma nf_as_int v : not_fuel (as_int v).
  Proof. destruct v; discriminate. Qed.
  Lemma nf_value_attr t : not_fuel (value_attr t).
  Proof. destruct t; discriminate. Qed.
  Lemma nf_int_attr t : not_fuel (int_attr t).
  Proof. unfold int_attr. apply nf_bind; [apply nf_value_attr|]. intros []; discriminate. Qed.
  Lemma nf_df_eq a : forall b, not_fuel (df_eq a b).
  Proof.
    assert (forall l, Forall (fun x => forall b, not_fuel (df_eq x b)) l -> forall l', not_fuel ((fix list_eq (xs ys : list df) {struct xs} : res bool := match xs, ys with | x :: xs', y :: ys' => do e <- df_eq x y; if e then list_eq xs' ys' else Ok false | [], [] => Ok true | _, _ => Ok false end) l l')) as HL.
    { induction 1 as [|x xs Hx H IH]; intros [|y ys]; try discriminate. apply nf_bind; [apply Hx|]. intros [] _; [apply IH|discriminate]. }
    induction a as [|n|s|s|s|xs o IH|v a b IHv IHa IHb|v q IHv IHq|xs IH|c x y IHc IHx IHy|v w f g|w|w|x IHx|s xs IH] using df_ind'; intros b'; destruct b'; try discriminate; cbn [df_eq].
    - destruct (op_beq _ _); [apply HL, IH|discriminate].
    - apply nf_bind; [apply IHv|]. intros [] _; [|discriminate]. apply nf_bind; [apply IHa|]. intros [] _; [apply IHb|discriminate].
    - apply nf_bind; [apply IHv|]. intros [] _; [apply IHq|discriminate].
    - apply HL, IH.
    - apply nf_bind; [apply IHc|]. intros [] _; [|discriminate]. apply nf_bind; [apply IHx|]. intros [] _; [apply IHy|discriminate].
    - destruct (String.eqb _ _); [apply HL, IH|discriminate].
  Qed.
  Ltac nf := repeat first
    [ discriminate | apply Ho | apply Hc | apply Hr | apply nf_int_attr | apply nf_value_attr | apply nf_as_int | apply nf_df_eq
    | apply nf_bind; [|intros ? _]
    | match goal with
      | |- not_fuel (if ?b then _ else _) => destruct b
      | |- not_fuel (match ?x with _ => _ end) => destruct x
      end ].
  Lemma nf_term_msb n : not_fuel (term_msb terms n).
  Proof. unfold term_msb. nf. Qed.
  Lemma nf_term_lsb n : not_fuel (term_lsb terms n).
  Proof. unfold term_lsb. nf. Qed.
  Ltac nf2 := repeat (nf; try first [apply nf_term_msb | apply nf_term_lsb]).
  Lemma nf_sort_binds l : not_fuel (sort_binds terms optimize l).
  Proof. unfold sort_binds. apply nf_bind; [|discriminate]. apply nf_mapM, Forall_forall. intros b _. unfold bindkey. nf2. Qed.
  Lemma nf_merged_go l : forall a b acc, not_fuel (merged_go l a b acc).
  Proof. induction l as [|b r IH]; intros x y acc; cbn [merged_go]; [discriminate|]. unfold ptr_or. nf2; apply IH. Qed.
  Lemma nf_getMergedTree l : not_fuel (getMergedTree terms optimize l).
  Proof. unfold getMergedTree. apply nf_bind; [apply nf_sort_binds|]. intros s _. apply nf_bind; [apply nf_merged_go|discriminate]. Qed.
  Lemma nf_mergeTree a : forall b, not_fuel (mergeTree optimize a b).
  Proof. induction a; intros b; destruct b; cbn [mergeTree]; nf; auto. Qed.
  Lemma nf_mergeBind_go l : forall acc, not_fuel (mergeBind_go optimize l acc).
  Proof. induction l as [|b r IH]; intros acc; cbn [mergeBind_go]; [discriminate|]. unfold same_slice. destruct acc as [|x acc]; [apply IH|]. nf; try apply IH; apply nf_mergeTree. Qed.
  Lemma nf_splitBind b p : not_fuel (splitBind terms optimize optconst reorder_ b p).
  Proof. unfold splitBind. nf2. Qed.
  Lemma nf_splitBindPositions ps : forall b, not_fuel (splitBindPositions terms optimize optconst reorder_ b ps).
  Proof. induction ps as [|p r IH]; intros b; cbn [splitBindPositions]; [discriminate|]. apply nf_bind; [apply nf_splitBind|]. intros x _. apply nf_bind; [apply IH|discriminate]. Qed.
  Lemma nf_splitBindlist l ps : not_fuel (splitBindlist terms optimize optconst reorder_ l ps).
  Proof. induction l as [|b r IH]; cbn [splitBindlist]; [discriminate|]. apply nf_bind; [apply nf_splitBindPositions|]. intros x _. apply nf_bind; [apply IH|discriminate]. Qed.
  Lemma nf_splitPos_go l : forall a b, not_fuel (splitPos_go terms optconst l a b).
  Proof. induction l as [|b r IH]; intros x y; cbn [splitPos_go]; [discriminate|]. unfold getPositions. nf2; try apply IH. Qed.
  Lemma nf_getOptimizedBindlist l : not_fuel (getOptimizedBindlist terms optimize optconst reorder_ l).
  Proof.
    unfold getOptimizedBindlist. destruct l as [|b r]; [discriminate|]. apply nf_bind; [apply nf_mapM, Forall_forall; intros x _; unfold optimize_bind; nf|]. intros l' _.
    assert (not_fuel (do ps <- splitPositions terms optconst l'; do s <- splitBindlist terms optimize optconst reorder_ l' ps; mergeBindlist terms optimize s)) as K.
    { apply nf_bind; [unfold splitPositions; apply nf_bind; [apply nf_splitPos_go|discriminate]|]. intros ps _. apply nf_bind; [apply nf_splitBindlist|]. intros s _. unfold mergeBindlist. apply nf_bind; [apply nf_sort_binds|]. intros; apply nf_mergeBind_go. }
    destruct l' as [|x [|y l']]; [exact K|discriminate|exact K].
  Qed.
  Lemma nf_element_tree d k : not_fuel (element_tree terms optimize d k).
  Proof. unfold element_tree. destruct (zget d k) as [[|b [|c r]]|]; try discriminate. apply nf_getMergedTree. Qed.
  Lemma nf_array_tree n l p : not_fuel (array_tree terms optimize n l p).
  Proof.
    unfold array_tree. apply nf_bind.
    { generalize (@nil (Z * list bind_)). induction l as [|b r IH]; intros d; cbn [group_binds]; [discriminate|]. destruct (b_ptr b); try discriminate. apply nf_bind; [apply nf_as_int|intros; apply IH]. }
    intros [d|] _; [|discriminate].
    assert (not_fuel (match map fst d with [] => Err ValueError | k :: ks => let lo := fold_left Z.min ks k in let hi := fold_left Z.max ks k in index_tree terms optimize d p (Z.to_nat (hi + 1 - lo)) lo DNone end)) as K.
    { destruct (map fst d) as [|k ks]; [discriminate|]. cbn zeta. generalize (Z.to_nat (fold_left Z.max ks k + 1 - fold_left Z.min ks k)). intros m. generalize (fold_left Z.min ks k). generalize DNone.
      induction m as [|m IH]; intros t z; cbn [index_tree]; [discriminate|]. apply nf_bind; [apply nf_element_tree|]. intros e _. apply nf_bind; [apply nf_mkOp|]. intros; apply IH. }
    destruct p; try exact K. apply nf_bind; [apply nf_as_int|]. intros; apply nf_element_tree.
  Qed.
  Lemma nf_getTreePtr binds n p : not_fuel (getTreePtr terms optimize optconst reorder_ binds n p).
  Proof.
    unfold getTreePtr. apply nf_bind; [apply nf_getOptimizedBindlist|]. intros l _. destruct l as [|b r]; [discriminate|]. destruct (getTerm terms n) as [t|]; [|discriminate]. destruct (t_dims t); [apply nf_array_tree|].
    destruct r; [discriminate|]. apply nf_bind; [apply nf_getMergedTree|]. intros; apply Ho.
  Qed.
End Total.
Lemma nf_replaceUndefined n t : not_fuel (replaceUndefined t n).
Proof.
  induction t as [|k|s|s|s|xs o IH|v a b IHv IHa IHb|v q IHv IHq|xs IH|c x y IHc IHx IHy|v w f g|w|w|x IHx|s xs IH] using df_ind'; cbn [replaceUndefined]; try discriminate; repeat (apply nf_bind; [first [assumption | apply nf_mapM; exact IH]|intros ? _]); try discriminate. apply nf_mkOp.
Qed.
