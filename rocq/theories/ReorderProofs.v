(** ReorderProofs.v *)
From Verif Require Import Base ScopeModel DfModel DfSpec DfProofs ReorderModel ReorderSpec.

Ltac bd H := let a := fresh "a" in let E := fresh "E" in apply bind_ok in H as (a & E & H).

Lemma mkOp_ok l o t : mkOp l o = Ok t -> t = DOp l o /\ existsb is_none l = false.
Proof. unfold mkOp. destruct (existsb is_none l); [discriminate|]. now intros [= <-]. Qed.

Lemma split_branch_some l d c t f r : split_branch l = Some (d, (c, t, f), r) ->
  l = d ++ DBranch c t f :: r /\ existsb isBranch d = false.
Proof.
  revert d; induction l as [|x l IH]; simpl; intros d H; [discriminate|].
  destruct (isBranch x) eqn:E.
  - destruct x; try discriminate. injection H as <- <- <- <- <-. auto.
  - assert (match split_branch l with Some (d, b, r) => Some (x :: d, b, r) | None => None end
            = Some (d, (c, t, f), r)) as H' by (destruct x; auto; discriminate).
    destruct (split_branch l) as [[[d' b'] r']|]; [|discriminate].
    injection H' as <- -> ->. destruct (IH d' eq_refl) as [-> Hd]. simpl. now rewrite E.
Qed.

Lemma split_branch_none l : split_branch l = None -> existsb isBranch l = false.
Proof.
  induction l as [|x l IH]; simpl; intros H; [reflexivity|].
  destruct x; try discriminate; simpl; apply IH; destruct (split_branch l) as [[[? ?] ?]|]; auto; discriminate.
Qed.

Section Preserve.
  Variable I : interp.
  Hypothesis Hnone : none_strict I.

  Lemma eval_insertBranch b t f :
    eval I (insertBranch b t f) = if i_truth I (eval I b) then eval I t else eval I f.
  Proof.
    induction b as [| | | | | | | | |c IHc t' IHt f' IHf| | | | | ]; simpl; try reflexivity.
    rewrite IHt, IHf. now destruct (i_truth I (eval I c)).
  Qed.

  Lemma eval_insertPart v m l :
    eval I (insertPartselect v m l) = i_part I (eval I v) (eval I m) (eval I l).
  Proof.
    destruct Hnone as [Hp _].
    induction v as [| | | | | | | | |c IHc t' IHt f' IHf| | | | | ]; simpl; try reflexivity.
    - now rewrite Hp.
    - rewrite IHt, IHf. now destruct (i_truth I (eval I c)).
  Qed.

  Lemma eval_insertPtr v p :
    eval I (insertPointer v p) = i_ptr I (eval I v) (eval I p).
  Proof.
    destruct Hnone as [_ Hp].
    induction v as [| | | | | | | | |c IHc t' IHt f' IHf| | | | | ]; simpl; try reflexivity.
    - now rewrite Hp.
    - rewrite IHt, IHf. now destruct (i_truth I (eval I c)).
  Qed.

  Lemma eval_insertOpList n : forall l o t, insertOpList n l o = Ok t ->
    eval I t = i_op I o (map (eval I) l).
  Proof.
    induction n as [|n IH]; simpl; intros l o t H; [discriminate|].
    destruct (split_branch l) as [[[d [[c a] b]] r]|] eqn:Es.
    - bd H. bd H. injection H as <-. apply split_branch_some in Es as [-> _].
      simpl. apply IH in E, E0. rewrite E, E0, !map_app. simpl.
      now destruct (i_truth I (eval I c)).
    - apply mkOp_ok in H as [-> _]. reflexivity.
  Qed.

  Lemma eval_insertConcat n : forall l t, insertConcat n l = Ok t ->
    eval I t = i_concat I (map (eval I) l).
  Proof.
    induction n as [|n IH]; simpl; intros l t H; [discriminate|].
    destruct (split_branch l) as [[[d [[c a] b]] r]|] eqn:Es.
    - bd H. bd H. injection H as <-. apply split_branch_some in Es as [-> _].
      simpl. apply IH in E, E0. rewrite E, E0, !map_app. simpl.
      now destruct (i_truth I (eval I c)).
    - injection H as <-. reflexivity.
  Qed.

  Lemma map_eval_eq n l l' :
    (forall t t', reorder n t = Ok t' -> eval I t' = eval I t) ->
    mapM (reorder n) l = Ok l' -> map (eval I) l' = map (eval I) l.
  Proof.
    intros IH H. apply mapM_ok_Forall2 in H. induction H as [|x y l l' Hx H IHF]; simpl; [reflexivity|].
    f_equal; auto.
  Qed.

  Lemma reorder_eval n : forall t t', reorder n t = Ok t' -> eval I t' = eval I t.
  Proof.
    induction n as [|n IH]; intros t t' H; [discriminate|].
    destruct t as [ |nm|s|s|s|l o|v m l|v p|l|c t f|v w f s|w|w|t|s l]; cbn [reorder] in H;
      try (injection H as <-; reflexivity); try discriminate.
    - bd H. rename a into l'. apply (map_eval_eq n) in E; auto.
      destruct (existsb isBranch l').
      + apply eval_insertOpList in H. rewrite H, E. reflexivity.
      + apply mkOp_ok in H as [-> _]. simpl. now rewrite E.
    - bd H. bd H. bd H. rename a into m', a0 into l', a1 into v'.
      apply IH in E, E0, E1.
      destruct (isBranch m' || isBranch l'); [discriminate|].
      assert (eval I t' = i_part I (eval I v') (eval I m') (eval I l')) as ->.
      { destruct v'; injection H as <-; try reflexivity.
        change (insertPartselect _ _ _) with (insertPartselect (DBranch v'1 v'2 v'3) m' l') || idtac.
        apply (eval_insertPart (DBranch v'1 v'2 v'3)). }
      simpl. congruence.
    - bd H. bd H. rename a into p', a0 into v'. apply IH in E, E0.
      destruct (isBranch p') eqn:Eb.
      + destruct p' as [ | | | | | | | | |c t f | | | | |]; try discriminate.
        bd H. bd H. injection H as <-. apply IH in E1, E2. simpl in *.
        rewrite E1, E2, <- E, <- E0. now destruct (i_truth I (eval I c)).
      + assert (eval I t' = i_ptr I (eval I v') (eval I p')) as ->.
        { destruct p'; try discriminate Eb; destruct v'; injection H as <-; try reflexivity;
          match goal with |- context [insertPointer ?a ?b] => idtac | _ => idtac end;
          match goal with |- _ = i_ptr I ?ev ?ep => idtac end;
          apply (eval_insertPtr (DBranch v'1 v'2 v'3)). }
        simpl. congruence.
    - bd H. rename a into l'. apply (map_eval_eq n) in E; auto.
      destruct (existsb isBranch l').
      + apply eval_insertConcat in H. rewrite H, E. reflexivity.
      + injection H as <-. simpl. now rewrite E.
    - bd H. bd H. bd H. rename a into t1, a0 into f1, a1 into c1. apply IH in E, E0, E1.
      assert (eval I t' = if i_truth I (eval I c1) then eval I t1 else eval I f1) as ->.
      { destruct c1; injection H as <-; try reflexivity.
        apply (eval_insertBranch (DBranch c1_1 c1_2 c1_3)). }
      simpl. now rewrite E, E0, E1.
    - bd H. injection H as <-. apply IH in E. simpl. now rewrite E.
  Qed.
End Preserve.

(** ** fuel *)
Lemma insertOpList_mono n : forall l o r, insertOpList n l o = r -> r <> Err OutOfFuel ->
  forall m, n <= m -> insertOpList m l o = r.
Proof.
  induction n as [|n IH]; simpl; intros l o r H Hr m Hm; [congruence|].
  destruct m as [|m]; [lia|]. simpl.
  destruct (split_branch l) as [[[d [[c a] b]] q]|] eqn:Es; auto.
  cbn [app] in *. destruct (insertOpList n (d ++ a :: q) o) as [x|e] eqn:E1.
  - rewrite (IH _ _ _ E1) by (congruence || lia). simpl in *.
    destruct (insertOpList n (d ++ b :: q) o) as [y|e] eqn:E2.
    + rewrite (IH _ _ _ E2) by (congruence || lia). exact H.
    + simpl in H. rewrite (IH _ _ _ E2); [exact H|congruence|lia].
  - simpl in *. rewrite (IH _ _ _ E1); [exact H|congruence|lia].
Qed.
Lemma insertConcat_mono n : forall l r, insertConcat n l = r -> r <> Err OutOfFuel ->
  forall m, n <= m -> insertConcat m l = r.
Proof.
  induction n as [|n IH]; simpl; intros l r H Hr m Hm; [congruence|].
  destruct m as [|m]; [lia|]. simpl.
  destruct (split_branch l) as [[[d [[c a] b]] q]|] eqn:Es; auto.
  cbn [app] in *. destruct (insertConcat n (d ++ a :: q)) as [x|e] eqn:E1.
  - rewrite (IH _ _ E1) by (congruence || lia). simpl in *.
    destruct (insertConcat n (d ++ b :: q)) as [y|e] eqn:E2.
    + rewrite (IH _ _ E2) by (congruence || lia). exact H.
    + simpl in H. rewrite (IH _ _ E2); [exact H|congruence|lia].
  - simpl in *. rewrite (IH _ _ E1); [exact H|congruence|lia].
Qed.

Lemma mapM_mono {A B} (f g : A -> res B) l r :
  (forall x r, f x = r -> r <> Err OutOfFuel -> g x = r) ->
  mapM f l = r -> r <> Err OutOfFuel -> mapM g l = r.
Proof.
  intros Hfg. revert r. induction l as [|x l IH]; simpl; intros r H Hr; auto.
  destruct (f x) as [y|e] eqn:E.
  - rewrite (Hfg _ _ E) by discriminate. simpl in *.
    destruct (mapM f l) as [ys|e] eqn:E2; simpl in H.
    + rewrite (IH (Ok ys)) by (auto; discriminate). exact H.
    + rewrite (IH (Err e)); auto. congruence.
  - simpl in H. rewrite (Hfg _ _ E) by congruence. exact H.
Qed.

Lemma reorder_mono n : forall t r, reorder n t = r -> r <> Err OutOfFuel ->
  forall m, n <= m -> reorder m t = r.
Proof.
  induction n as [|n IH]; intros t r H Hr m Hm; [simpl in H; congruence|].
  destruct m as [|m]; [lia|]. assert (n <= m) as Hnm by lia.
  assert (forall x r, reorder n x = r -> r <> Err OutOfFuel -> reorder m x = r) as K by eauto.
  assert (forall x (k : df -> res df) (k' : df -> res df),
    (forall y, bind (Ok y) k = r -> k' y = r) -> bind (reorder n x) k = r -> bind (reorder m x) k' = r) as KB.
  { intros x k k' Hk Hb. destruct (reorder n x) as [y|e] eqn:E.
    - rewrite (K _ _ E) by discriminate. apply Hk, Hb.
    - simpl in Hb. rewrite (K _ _ E) by congruence. exact Hb. }
  destruct t as [ |nm|s|s|s|l o|v mm l|v p|l|c t f|v w f s|w|w|t|s l]; cbn [reorder] in *; auto.
  - destruct (mapM (reorder n) l) as [l'|e] eqn:E.
    + rewrite (mapM_mono (reorder n) (reorder m) l (Ok l')) by (auto; discriminate). simpl in *.
      destruct (existsb isBranch l'); auto. eapply insertOpList_mono; eauto.
    + simpl in H. rewrite (mapM_mono (reorder n) (reorder m) l (Err e)); auto. congruence.
  - revert H; apply KB; intros m' H; simpl in H; revert H; apply KB; intros l' H; simpl in H; revert H; apply KB; auto.
  - revert H; apply KB; intros p' H; simpl in H; revert H; apply KB; intros v' H; simpl in H.
    destruct p'; auto. revert H; apply KB; intros a H; simpl in H; revert H; apply KB; auto.
  - destruct (mapM (reorder n) l) as [l'|e] eqn:E.
    + rewrite (mapM_mono (reorder n) (reorder m) l (Ok l')) by (auto; discriminate). simpl in *.
      destruct (existsb isBranch l'); auto. eapply insertConcat_mono; eauto.
    + simpl in H. rewrite (mapM_mono (reorder n) (reorder m) l (Err e)); auto. congruence.
  - revert H; apply KB; intros m' H; simpl in H; revert H; apply KB; intros l' H; simpl in H; revert H; apply KB; auto.
  - revert H; apply KB; auto.
Qed.

(** ** normal form *)
(** [stable]: branch-first, no system call, no missing operand: exactly what reorder leaves alone. *)
Fixpoint stable (top : bool) (t : df) : bool :=
  match t with
  | DBranch c a b => top && stable false c && stable true a && stable true b
  | DOp l _ => forallb (stable false) l && negb (existsb is_none l)
  | DConcat l => forallb (stable false) l
  | DPart v m l => stable false v && stable false m && stable false l
  | DPtr v p => stable false v && stable false p
  | DDelay a => stable true a
  | DSys _ _ => false
  | _ => true
  end.

Lemma stable_top t : isBranch t = false -> stable true t = stable false t.
Proof. destruct t; simpl; auto; discriminate. Qed.
Lemma stable_false_true t : stable false t = true -> stable true t = true.
Proof. destruct t; simpl; auto; discriminate. Qed.
Lemma stable_false_branch t : stable false t = true -> isBranch t = false.
Proof. destruct t; simpl; auto; discriminate. Qed.

Lemma stable_branch_first t : forall b, stable b t = true -> branch_first b t = true.
Proof.
  assert (forall l, Forall (fun t => forall b, stable b t = true -> branch_first b t = true) l ->
    forallb (stable false) l = true -> forallb (branch_first false) l = true) as HL.
  { induction 1; simpl; auto. intros H'; apply andb_true_iff in H' as [? ?]; apply andb_true_iff; auto. }
  induction t as [ |n|s|s|s|l o IH|v m l IHv IHm IHl|v p IHv IHp|l IH|c t f IHc IHt IHf|v w f s|w|w|t IH|s l IH]
    using df_ind'; intros b H; cbn [stable branch_first] in *; auto; try discriminate;
    repeat match goal with H : _ && _ = true |- _ => apply andb_true_iff in H as [? ?] end;
    repeat (apply andb_true_iff; split); auto.
Qed.

Lemma stable_insertBranch b t f : stable true b = true -> stable true t = true -> stable true f = true ->
  stable true (insertBranch b t f) = true.
Proof.
  intros Hb Ht Hf. induction b as [| | | | | | | | |c IHc t' IHt f' IHf'| | | | | ]; cbn [insertBranch];
    try (cbn [stable] in *; first [discriminate | rewrite ?Hb, Ht, Hf; reflexivity]).
  cbn [stable] in *. repeat match goal with H : _ && _ = true |- _ => apply andb_true_iff in H as [? ?] end.
  repeat (apply andb_true_iff; split); auto.
Qed.
Lemma stable_insertPart v m l : stable true v = true -> stable false m = true -> stable false l = true ->
  stable true (insertPartselect v m l) = true.
Proof.
  intros Hv Hm Hl. induction v as [| | | | | | | | |c IHc t' IHt f' IHf'| | | | | ]; cbn [insertPartselect];
    try (cbn [stable] in *; first [discriminate | rewrite ?Hv, ?Hm, ?Hl; reflexivity]).
  cbn [stable] in *. repeat match goal with H : _ && _ = true |- _ => apply andb_true_iff in H as [? ?] end.
  repeat (apply andb_true_iff; split); auto.
Qed.
Lemma stable_insertPtr v p : stable true v = true -> stable false p = true ->
  stable true (insertPointer v p) = true.
Proof.
  intros Hv Hm. induction v as [| | | | | | | | |c IHc t' IHt f' IHf'| | | | | ]; cbn [insertPointer];
    try (cbn [stable] in *; first [discriminate | rewrite ?Hv, ?Hm; reflexivity]).
  cbn [stable] in *. repeat match goal with H : _ && _ = true |- _ => apply andb_true_iff in H as [? ?] end.
  repeat (apply andb_true_iff; split); auto.
Qed.
Lemma stable_list l : forallb (stable true) l = true -> existsb isBranch l = false ->
  forallb (stable false) l = true.
Proof.
  induction l as [|x l IH]; simpl; auto. intros H Hb.
  apply andb_true_iff in H as [? ?]. apply orb_false_iff in Hb as [? ?].
  rewrite <- stable_top by assumption. apply andb_true_iff; auto.
Qed.
Lemma stable_insertOpList n : forall l o t, insertOpList n l o = Ok t ->
  forallb (stable true) l = true -> stable true t = true.
Proof.
  induction n as [|n IH]; simpl; intros l o t H Hl; [discriminate|].
  destruct (split_branch l) as [[[d [[c a] b]] r]|] eqn:Es.
  - bd H. bd H. injection H as <-. apply split_branch_some in Es as [-> Hd].
    rewrite forallb_app in Hl. cbn [forallb stable] in Hl.
    repeat match goal with H : _ && _ = true |- _ => apply andb_true_iff in H as [? ?] end.
    cbn [stable]. apply IH in E, E0.
    + repeat (apply andb_true_iff; split); auto.
    + rewrite forallb_app. cbn [forallb]. repeat (apply andb_true_iff; split); auto.
    + rewrite forallb_app. cbn [forallb]. repeat (apply andb_true_iff; split); auto.
  - apply mkOp_ok in H as [-> Hn]. cbn [stable]. rewrite Hn.
    rewrite stable_list; auto. now apply split_branch_none.
Qed.
Lemma stable_insertConcat n : forall l t, insertConcat n l = Ok t ->
  forallb (stable true) l = true -> stable true t = true.
Proof.
  induction n as [|n IH]; simpl; intros l t H Hl; [discriminate|].
  destruct (split_branch l) as [[[d [[c a] b]] r]|] eqn:Es.
  - bd H. bd H. injection H as <-. apply split_branch_some in Es as [-> Hd].
    rewrite forallb_app in Hl. cbn [forallb stable] in Hl.
    repeat match goal with H : _ && _ = true |- _ => apply andb_true_iff in H as [? ?] end.
    cbn [stable]. apply IH in E, E0.
    + repeat (apply andb_true_iff; split); auto.
    + rewrite forallb_app. cbn [forallb]. repeat (apply andb_true_iff; split); auto.
    + rewrite forallb_app. cbn [forallb]. repeat (apply andb_true_iff; split); auto.
  - injection H as <-. cbn [stable].
    rewrite stable_list; auto. now apply split_branch_none.
Qed.

Lemma mapM_stable n l l' : (forall t t', reorder n t = Ok t' -> stable true t' = true) ->
  mapM (reorder n) l = Ok l' -> forallb (stable true) l' = true.
Proof.
  intros IH H. apply mapM_ok_Forall2 in H. induction H; simpl; auto. apply andb_true_iff; eauto.
Qed.

Lemma reorder_stable n : forall t t', reorder n t = Ok t' -> stable true t' = true.
Proof.
  induction n as [|n IH]; intros t t' H; [discriminate|].
  destruct t as [ |nm|s|s|s|l o|v m l|v p|l|c t f|v w f s|w|w|t|s l]; cbn [reorder] in H;
    try (injection H as <-; reflexivity); try discriminate.
  - bd H. rename a into l'. apply (mapM_stable n) in E; auto.
    destruct (existsb isBranch l') eqn:Eb.
    + eapply stable_insertOpList; eauto.
    + apply mkOp_ok in H as [-> Hn]. cbn [stable]. now rewrite Hn, stable_list.
  - bd H. bd H. bd H. rename a into m', a0 into l', a1 into v'. apply IH in E, E0, E1.
    destruct (isBranch m' || isBranch l') eqn:Eb; [discriminate|].
    apply orb_false_iff in Eb as [Em El]. rewrite stable_top in E, E0 by assumption.
    destruct (isBranch v') eqn:Ev.
    + destruct v'; try discriminate Ev. injection H as <-. apply (stable_insertPart (DBranch v'1 v'2 v'3)); auto.
    + rewrite stable_top in E1 by assumption.
      assert (t' = DPart v' m' l') as -> by (destruct v'; try discriminate Ev; now injection H as <-).
      cbn [stable]. now rewrite E, E0, E1.
  - bd H. bd H. rename a into p', a0 into v'. apply IH in E, E0.
    destruct (isBranch p') eqn:Eb.
    + destruct p' as [ | | | | | | | | |c t f | | | | |]; try discriminate.
      bd H. bd H. injection H as <-. apply IH in E1, E2. cbn [stable] in *.
      repeat match goal with H : _ && _ = true |- _ => apply andb_true_iff in H as [? ?] end.
      repeat (apply andb_true_iff; split); auto.
    + rewrite stable_top in E by assumption. destruct (isBranch v') eqn:Ev.
      * assert (t' = insertPointer v' p') as -> by (destruct p'; try discriminate Eb; destruct v'; try discriminate Ev; now injection H as <-).
        now apply stable_insertPtr.
      * assert (t' = DPtr v' p') as -> by (destruct p'; try discriminate Eb; destruct v'; try discriminate Ev; now injection H as <-).
        rewrite stable_top in E0 by assumption. cbn [stable]. now rewrite E, E0.
  - bd H. rename a into l'. apply (mapM_stable n) in E; auto.
    destruct (existsb isBranch l') eqn:Eb.
    + eapply stable_insertConcat; eauto.
    + injection H as <-. cbn [stable]. now rewrite stable_list.
  - bd H. bd H. bd H. rename a into t1, a0 into f1, a1 into c1. apply IH in E, E0, E1.
    destruct (isBranch c1) eqn:Ec.
    + destruct c1; try discriminate Ec. injection H as <-. now apply (stable_insertBranch (DBranch c1_1 c1_2 c1_3)).
    + assert (t' = DBranch c1 t1 f1) as -> by (destruct c1; try discriminate Ec; now injection H as <-).
      cbn [stable]. rewrite stable_top in E1 by assumption. now rewrite E, E0, E1.
  - bd H. injection H as <-. apply IH in E. exact E.
Qed.

(** stable trees are left alone (with enough fuel). *)
Definition ev (P : nat -> Prop) := exists n0, forall n, n0 <= n -> P n.
Lemma ev_and P Q : ev P -> ev Q -> ev (fun n => P n /\ Q n).
Proof. intros [a Ha] [b Hb]. exists (Nat.max a b). intros n Hn. split; [apply Ha|apply Hb]; lia. Qed.
Lemma ev_impl (P Q : nat -> Prop) : (forall n, P n -> Q n) -> ev P -> ev Q.
Proof. intros H [a Ha]; exists a; auto. Qed.
Lemma ev_S (P Q : nat -> Prop) : (forall n, P n -> Q (S n)) -> ev P -> ev Q.
Proof. intros H [a Ha]; exists (S a). intros [|n] Hn; [lia|]. apply H, Ha; lia. Qed.
Lemma ev_Forall {A} (P : A -> nat -> Prop) l : Forall (fun x => ev (P x)) l -> ev (fun n => Forall (fun x => P x n) l).
Proof.
  induction 1 as [|x l Hx H IH]; [exists 0; auto|].
  eapply ev_impl; [|exact (ev_and _ _ Hx IH)]. intros n [? ?]; auto.
Qed.
Lemma mapM_id {A} (f : A -> res A) l : Forall (fun x => f x = Ok x) l -> mapM f l = Ok l.
Proof. intros H. apply mapM_Forall2_ok. induction H; auto. Qed.

Lemma stable_no_branch l : forallb (stable false) l = true -> existsb isBranch l = false.
Proof.
  induction l as [|x l IH]; simpl; auto. intros H; apply andb_true_iff in H as [H1 H2].
  rewrite (stable_false_branch _ H1); auto.
Qed.
Lemma forallb_Forall {A} (p : A -> bool) l : forallb p l = true <-> Forall (fun x => p x = true) l.
Proof. rewrite forallb_forall, Forall_forall. reflexivity. Qed.
Lemma Forall_mp {A} (P Q : A -> Prop) l : Forall (fun x => P x -> Q x) l -> Forall P l -> Forall Q l.
Proof. induction 1; intros H'; inv H'; auto. Qed.

Lemma stable_reorder t : stable true t = true -> ev (fun n => reorder n t = Ok t).
Proof.
  induction t as [ |n|s|s|s|l o IH|v m l IHv IHm IHl|v p IHv IHp|l IH|c t f IHc IHt IHf|v w f s|w|w|t IH|s l IH]
    using df_ind'; intros H; cbn [stable] in H; try discriminate;
    try (exists 1; intros [|k] Hk; [lia|reflexivity]);
    repeat match goal with H : _ && _ = true |- _ => apply andb_true_iff in H as [? ?] end.
  - assert (ev (fun n => Forall (fun x => reorder n x = Ok x) l)) as HF.
    { apply ev_Forall. apply (Forall_mp _ _ _ IH). apply forallb_Forall in H.
      eapply Forall_impl; [|exact H]. apply stable_false_true. }
    revert HF. apply ev_S. intros n HF. cbn [reorder]. rewrite mapM_id by assumption. simpl.
    rewrite stable_no_branch by assumption. unfold mkOp. now destruct (existsb is_none l).
  - specialize (IHv (stable_false_true v ltac:(assumption))).
    specialize (IHm (stable_false_true m ltac:(assumption))).
    specialize (IHl (stable_false_true l ltac:(assumption))).
    generalize (ev_and _ _ IHv (ev_and _ _ IHm IHl)). apply ev_S. intros n (E1 & E2 & E3).
    cbn [reorder]. rewrite E1, E2, E3. simpl.
    rewrite (stable_false_branch m), (stable_false_branch l) by assumption. simpl.
    match goal with H : stable false v = true |- _ => apply stable_false_branch in H end.
    destruct v; auto; discriminate.
  - specialize (IHv (stable_false_true v ltac:(assumption))).
    specialize (IHp (stable_false_true p ltac:(assumption))).
    generalize (ev_and _ _ IHv IHp). apply ev_S. intros n (E1 & E2).
    cbn [reorder]. rewrite E1, E2. simpl.
    repeat match goal with H : stable false _ = true |- _ => apply stable_false_branch in H end.
    destruct p; try discriminate; destruct v; auto; discriminate.
  - assert (ev (fun n => Forall (fun x => reorder n x = Ok x) l)) as HF.
    { apply ev_Forall. apply (Forall_mp _ _ _ IH). apply forallb_Forall in H.
      eapply Forall_impl; [|exact H]. apply stable_false_true. }
    revert HF. apply ev_S. intros n HF. cbn [reorder]. rewrite mapM_id by assumption. simpl.
    now rewrite stable_no_branch by assumption.
  - match goal with H : stable false c = true |- _ => pose proof (stable_false_branch _ H); apply stable_false_true in H end.
    specialize (IHc ltac:(assumption)). specialize (IHt ltac:(assumption)). specialize (IHf ltac:(assumption)).
    generalize (ev_and _ _ IHc (ev_and _ _ IHt IHf)). apply ev_S. intros n (E1 & E2 & E3).
    cbn [reorder]. rewrite E1, E2, E3. simpl. destruct c; auto; discriminate.
  - generalize (IH H). apply ev_S. intros n E. cbn [reorder]. now rewrite E.
Qed.

(** ** termination *)
Definition settled {A} (f : nat -> res A) := exists r, r <> Err OutOfFuel /\ ev (fun n => f n = r).

Fixpoint size (t : df) : nat :=
  match t with
  | DOp l _ | DConcat l | DSys _ l => S (list_sum (map size l))
  | DPart v m l => S (size v + size m + size l)
  | DPtr v p => S (size v + size p)
  | DBranch c a b => S (size c + size a + size b)
  | DDelay a => S (size a)
  | _ => 1
  end.
Definition lsize l := list_sum (map size l).
Lemma lsize_app a b : lsize (a ++ b) = lsize a + lsize b.
Proof. unfold lsize. now rewrite map_app, list_sum_app. Qed.
Lemma lsize_cons a b : lsize (a :: b) = size a + lsize b.
Proof. reflexivity. Qed.

Lemma insertOpList_fuel n : forall l o, lsize l < n -> insertOpList n l o <> Err OutOfFuel.
Proof.
  induction n as [|n IH]; intros l o Hn; [lia|]. cbn [insertOpList].
  destruct (split_branch l) as [[[d [[c a] b]] r]|] eqn:Es.
  - apply split_branch_some in Es as [-> _]. rewrite lsize_app, lsize_cons in Hn. cbn [size] in Hn.
    pose proof (IH (d ++ [a] ++ r) o) as Ha. pose proof (IH (d ++ [b] ++ r) o) as Hb.
    rewrite !lsize_app, lsize_cons in Ha, Hb. change (lsize []) with 0 in *.
    destruct (insertOpList n (d ++ [a] ++ r) o); simpl; [|intros K; apply Ha; [lia|congruence]].
    simpl in Hb. destruct (insertOpList n (d ++ b :: r) o); simpl; [discriminate|intros K; apply Hb; [lia|congruence]].
  - unfold mkOp. destruct (existsb is_none l); discriminate.
Qed.
Lemma insertConcat_fuel n : forall l, lsize l < n -> insertConcat n l <> Err OutOfFuel.
Proof.
  induction n as [|n IH]; intros l Hn; [lia|]. cbn [insertConcat].
  destruct (split_branch l) as [[[d [[c a] b]] r]|] eqn:Es; [|discriminate].
  apply split_branch_some in Es as [-> _]. rewrite lsize_app, lsize_cons in Hn. cbn [size] in Hn.
  pose proof (IH (d ++ [a] ++ r)) as Ha. pose proof (IH (d ++ [b] ++ r)) as Hb.
  rewrite !lsize_app, lsize_cons in Ha, Hb. change (lsize []) with 0 in *.
  destruct (insertConcat n (d ++ [a] ++ r)); simpl; [|intros K; apply Ha; [lia|congruence]].
  simpl in Hb. destruct (insertConcat n (d ++ b :: r)); simpl; [discriminate|intros K; apply Hb; [lia|congruence]].
Qed.

Lemma settled_intro t n : reorder n t <> Err OutOfFuel -> settled (fun n => reorder n t).
Proof. intros H. exists (reorder n t). split; auto. exists n. intros m Hm. eapply reorder_mono; eauto. Qed.

Lemma settled_list l : Forall (fun t => settled (fun n => reorder n t)) l ->
  settled (fun n => mapM (reorder n) l).
Proof.
  induction 1 as [|x l (r & Hr & Hx) H (rs & Hrs & IH)].
  - exists (Ok []). split; [discriminate|]. exists 0. auto.
  - destruct r as [y|e].
    + exists (do ys <- rs; Ok (y :: ys)). split; [destruct rs; simpl; congruence|].
      eapply ev_impl; [|exact (ev_and _ _ Hx IH)]. cbv beta. intros n [E1 E2]. simpl. now rewrite E1, E2.
    + exists (Err e). split; [congruence|].
      eapply ev_impl; [|exact Hx]. cbv beta. intros n E1. simpl. now rewrite E1.
Qed.

(** Pointer with stable parts: recursion on the pointer. *)
Lemma ptr_stable_settled p : stable true p = true -> forall v, stable true v = true ->
  exists t', ev (fun n => reorder n (DPtr v p) = Ok t').
Proof.
  induction p as [ |n|s|s|s|l o IH|q m l IHq IHm IHl|q p IHq IHp|l IH|c t f IHc IHt IHf|q w f s|w|w|t IH|s l IH]
    using df_ind'; intros Hp v Hv;
  try (pose proof (stable_reorder _ Hp) as E1; pose proof (stable_reorder _ Hv) as E2;
       destruct (isBranch v) eqn:Ev;
       [ match goal with |- exists t', ev (fun n => reorder n (DPtr v ?p) = _) => exists (insertPointer v p) end
       | match goal with |- exists t', ev (fun n => reorder n (DPtr v ?p) = _) => exists (DPtr v p) end];
       generalize (ev_and _ _ E1 E2); apply ev_S; intros k [K1 K2]; cbn [reorder];
       cbn [reorder] in K1, K2; rewrite ?K1, K2; simpl; destruct v; auto; discriminate).
  pose proof (stable_reorder _ Hp) as E1. pose proof (stable_reorder _ Hv) as E2.
  cbn [stable] in Hp. repeat match goal with H : _ && _ = true |- _ => apply andb_true_iff in H as [? ?] end.
  destruct (IHt ltac:(assumption) v Hv) as [t' Ht']. destruct (IHf ltac:(assumption) v Hv) as [f' Hf'].
  exists (DBranch c t' f'). generalize (ev_and _ _ (ev_and _ _ E1 E2) (ev_and _ _ Ht' Hf')). apply ev_S.
  intros k [[K1 K2] [K3 K4]].
  assert (reorder (S k) (DPtr v (DBranch c t f)) =
    do p' <- reorder k (DBranch c t f); do v' <- reorder k v;
        match p' with
        | DBranch c t f =>
            do a <- reorder k (DPtr v' t);
            do b <- reorder k (DPtr v' f);
            Ok (DBranch c a b)
        | _ => match v' with
               | DBranch _ _ _ => Ok (insertPointer v' p')
               | _ => Ok (DPtr v' p')
               end
        end) as -> by reflexivity.
  rewrite K1. simpl bind. rewrite K2. simpl bind. rewrite K3. simpl bind. now rewrite K4.
Qed.

Lemma reorder_settled t : settled (fun n => reorder n t).
Proof.
  induction t as [ |n|s|s|s|l o IH|v m l IHv IHm IHl|v p IHv IHp|l IH|c t f IHc IHt IHf|v w f s|w|w|t IH|s l IH]
    using df_ind'; try (apply (settled_intro _ 1); discriminate).
  - apply settled_list in IH as (r & Hr & n0 & IH).
    destruct r as [l'|e].
    + apply (settled_intro _ (S (Nat.max n0 (S (lsize l'))))). cbn [reorder]. rewrite IH by lia. simpl.
      destruct (existsb isBranch l'); [apply insertOpList_fuel; lia|].
      unfold mkOp. destruct (existsb is_none l'); discriminate.
    + apply (settled_intro _ (S n0)). cbn [reorder]. rewrite IH by lia. simpl. congruence.
  - destruct IHv as (rv & Hv & nv & IHv), IHm as (rm & Hm & nm & IHm), IHl as (rl & Hl & nl & IHl).
    apply (settled_intro _ (S (nv + nm + nl))). cbn [reorder]. rewrite IHv, IHm, IHl by lia.
    destruct rm as [m'|]; simpl; [|congruence]. destruct rl as [l'|]; simpl; [|congruence].
    destruct rv as [v'|]; simpl; [|congruence].
    destruct (isBranch m' || isBranch l'); [discriminate|]. destruct v'; discriminate.
  - destruct IHv as (rv & Hv & nv & IHv), IHp as (rp & Hp & np & IHp).
    destruct rp as [p'|e].
    2: { apply (settled_intro _ (S np)). cbn [reorder]. rewrite IHp by lia. simpl. congruence. }
    destruct rv as [v'|e].
    2: { apply (settled_intro _ (S (np + nv))). cbn [reorder]. rewrite IHp, IHv by lia. simpl. congruence. }
    pose proof (reorder_stable _ _ _ (IHp np (le_n _))) as Sp.
    pose proof (reorder_stable _ _ _ (IHv nv (le_n _))) as Sv.
    destruct p' as [ | | | | | | | | |c t f | | | | |];
      try (apply (settled_intro _ (S (np + nv))); cbn [reorder]; rewrite IHp, IHv by lia; simpl; destruct v'; discriminate).
    cbn [stable] in Sp. repeat match goal with H : _ && _ = true |- _ => apply andb_true_iff in H as [? ?] end.
    destruct (ptr_stable_settled t ltac:(assumption) v' Sv) as (t' & nt & Ht).
    destruct (ptr_stable_settled f ltac:(assumption) v' Sv) as (f' & nf & Hf).
    apply (settled_intro _ (S (np + nv + nt + nf))). cbn [reorder]. rewrite IHp, IHv by lia. simpl.
    rewrite Ht, Hf by lia. discriminate.
  - apply settled_list in IH as (r & Hr & n0 & IH).
    destruct r as [l'|e].
    + apply (settled_intro _ (S (Nat.max n0 (S (lsize l'))))). cbn [reorder]. rewrite IH by lia. simpl.
      destruct (existsb isBranch l'); [apply insertConcat_fuel; lia|]. discriminate.
    + apply (settled_intro _ (S n0)). cbn [reorder]. rewrite IH by lia. simpl. congruence.
  - destruct IHc as (rv & Hv & nv & IHc), IHt as (rm & Hm & nm & IHt), IHf as (rl & Hl & nl & IHf).
    apply (settled_intro _ (S (nv + nm + nl))). cbn [reorder]. rewrite IHc, IHt, IHf by lia.
    destruct rm as [m'|]; simpl; [|congruence]. destruct rl as [l'|]; simpl; [|congruence].
    destruct rv as [v'|]; simpl; [|congruence]. destruct v'; discriminate.
  - destruct IH as (r & Hr & n0 & IH). apply (settled_intro _ (S n0)). cbn [reorder]. rewrite IH by lia.
    destruct r; simpl; congruence.
Qed.

(** ** success *)
Fixpoint leaves_present (t : df) : bool :=
  match t with DNone => false | DBranch _ a b => leaves_present a && leaves_present b | _ => true end.

Lemma insertOpList_noerr n : forall l o e, forallb leaves_present l = true ->
  insertOpList n l o = Err e -> e = OutOfFuel.
Proof.
  induction n as [|n IH]; simpl; intros l o e Hl H; [congruence|].
  destruct (split_branch l) as [[[d [[c a] b]] r]|] eqn:Es.
  - apply split_branch_some in Es as [-> Hd]. rewrite forallb_app in Hl. cbn [forallb leaves_present] in Hl.
    repeat match goal with H : _ && _ = true |- _ => apply andb_true_iff in H as [? ?] end.
    destruct (insertOpList n (d ++ a :: r) o) eqn:E1; simpl in H.
    + destruct (insertOpList n (d ++ b :: r) o) eqn:E2; simpl in H; [discriminate|]. injection H as <-.
      eapply IH; [|exact E2]. rewrite forallb_app; cbn [forallb]. repeat (apply andb_true_iff; split); auto.
    + injection H as <-. eapply IH; [|exact E1]. rewrite forallb_app; cbn [forallb]. repeat (apply andb_true_iff; split); auto.
  - unfold mkOp in H. assert (existsb is_none l = false) as Hn; [|rewrite Hn in H; discriminate].
    clear - Hl. induction l as [|x l IH]; simpl in *; auto. apply andb_true_iff in Hl as [Hx Hl].
    rewrite IH by assumption. destruct x; auto; discriminate.
Qed.
Lemma insertConcat_noerr n : forall l e, insertConcat n l = Err e -> e = OutOfFuel.
Proof.
  induction n as [|n IH]; simpl; intros l e H; [congruence|].
  destruct (split_branch l) as [[[d [[c a] b]] r]|] eqn:Es; [|discriminate].
  destruct (insertConcat n (d ++ a :: r)) eqn:E1; simpl in H; [|injection H as <-; eauto].
  destruct (insertConcat n (d ++ b :: r)) eqn:E2; simpl in H; [discriminate|injection H as <-; eauto].
Qed.

Lemma lp_insertBranch b t f : leaves_present t = true -> leaves_present f = true ->
  leaves_present (insertBranch b t f) = true.
Proof.
  intros Ht Hf. induction b; cbn [insertBranch]; try (simpl; now rewrite Ht, Hf).
  cbn [leaves_present]. now rewrite IHb2, IHb3.
Qed.
Lemma lp_insertPart v m l : leaves_present v = true -> leaves_present (insertPartselect v m l) = true.
Proof.
  intros Ht. induction v; cbn [insertPartselect]; try reflexivity; try discriminate.
  cbn [leaves_present] in *. apply andb_true_iff in Ht as [? ?]. now rewrite IHv2, IHv3.
Qed.
Lemma lp_insertPtr v m : leaves_present v = true -> leaves_present (insertPointer v m) = true.
Proof.
  intros Ht. induction v; cbn [insertPointer]; try reflexivity; try discriminate.
  cbn [leaves_present] in *. apply andb_true_iff in Ht as [? ?]. now rewrite IHv2, IHv3.
Qed.
Lemma lp_insertOpList n : forall l o t, insertOpList n l o = Ok t -> leaves_present t = true.
Proof.
  induction n as [|n IH]; simpl; intros l o t H; [discriminate|].
  destruct (split_branch l) as [[[d [[c a] b]] r]|] eqn:Es.
  - bd H. bd H. injection H as <-. cbn [leaves_present]. apply IH in E, E0. now rewrite E, E0.
  - apply mkOp_ok in H as [-> _]. reflexivity.
Qed.
Lemma lp_insertConcat n : forall l t, insertConcat n l = Ok t -> leaves_present t = true.
Proof.
  induction n as [|n IH]; simpl; intros l t H; [discriminate|].
  destruct (split_branch l) as [[[d [[c a] b]] r]|] eqn:Es.
  - bd H. bd H. injection H as <-. cbn [leaves_present]. apply IH in E, E0. now rewrite E, E0.
  - injection H as <-. reflexivity.
Qed.

Lemma reorder_none n t' : reorder n DNone = Ok t' -> t' = DNone.
Proof. destruct n; simpl; [discriminate|]. congruence. Qed.

(** A stable pointer expression: its leaves are present if its variable is None or has
    present leaves. *)
Definition lp_var v := is_none v || leaves_present v.
Lemma ptr_lp n : forall v p t', stable true v = true -> lp_var v = true ->
  reorder n (DPtr v p) = Ok t' -> leaves_present t' = true.
Proof.
  induction n as [|n IH]; intros v p t' Hs Hv H; [discriminate|]. cbn [reorder] in H.
  bd H. bd H. rename a into p', a0 into v'.
  assert (v' = v) as ->.
  { destruct (stable_reorder v Hs) as (n0 & K). pose proof (K (n0 + n) ltac:(lia)) as K'.
    rewrite (reorder_mono n v (Ok v') E0 ltac:(discriminate) (n0 + n) ltac:(lia)) in K'. congruence. }
  destruct (isBranch p') eqn:Eb.
  - destruct p' as [ | | | | | | | | |c t f | | | | |]; try discriminate.
    bd H. bd H. injection H as <-. cbn [leaves_present]. apply IH in E1, E2; auto. now rewrite E1, E2.
  - destruct (isBranch v) eqn:Ev.
    + assert (t' = insertPointer v p') as -> by (destruct p'; try discriminate Eb; destruct v; try discriminate Ev; now injection H as <-).
      apply lp_insertPtr. destruct v; try discriminate Ev; auto.
    + assert (t' = DPtr v p') as -> by (destruct p'; try discriminate Eb; destruct v; try discriminate Ev; now injection H as <-).
      reflexivity.
Qed.

Lemma arms_leaves n : forall t t', reorder n t = Ok t' -> arms_present t = true -> leaves_present t' = true.
Proof.
  induction n as [|n IH]; intros t t' H Ha; [discriminate|].
  destruct t as [ |nm|s|s|s|l o|v m l|v p|l|c t f|v w f s|w|w|t|s l]; cbn [reorder] in H;
    try (injection H as <-; first [discriminate | reflexivity]); try discriminate.
  - bd H. destruct (existsb isBranch a); [eapply lp_insertOpList; eauto|]. apply mkOp_ok in H as [-> _]. reflexivity.
  - bd H. bd H. bd H. rename a into m', a0 into l', a1 into v'.
    destruct (isBranch m' || isBranch l'); [discriminate|]. cbn [arms_present] in Ha.
    destruct (isBranch v') eqn:Ev.
    + destruct v'; try discriminate Ev. injection H as <-.
      apply orb_true_iff in Ha as [Hn|Ha].
      * destruct v; try discriminate Hn. apply reorder_none in E1. discriminate.
      * apply (lp_insertPart (DBranch v'1 v'2 v'3)). eauto.
    + assert (t' = DPart v' m' l') as -> by (destruct v'; try discriminate Ev; now injection H as <-). reflexivity.
  - bd H. bd H. rename a into p', a0 into v'. cbn [arms_present] in Ha.
    assert (lp_var v' = true) as Hv.
    { unfold lp_var. apply orb_true_iff in Ha as [Hn|Ha].
      - destruct v; try discriminate Hn. apply reorder_none in E0. now subst.
      - apply orb_true_iff; right; eauto. }
    pose proof (reorder_stable _ _ _ E0) as Sv.
    destruct (isBranch p') eqn:Eb.
    + destruct p' as [ | | | | | | | | |c t f | | | | |]; try discriminate.
      bd H. bd H. injection H as <-. cbn [leaves_present].
      rewrite (ptr_lp _ _ _ _ Sv Hv E1), (ptr_lp _ _ _ _ Sv Hv E2). reflexivity.
    + destruct (isBranch v') eqn:Ev.
      * assert (t' = insertPointer v' p') as -> by (destruct p'; try discriminate Eb; destruct v'; try discriminate Ev; now injection H as <-).
        apply lp_insertPtr. unfold lp_var in Hv. destruct v'; try discriminate Ev; auto.
      * assert (t' = DPtr v' p') as -> by (destruct p'; try discriminate Eb; destruct v'; try discriminate Ev; now injection H as <-).
        reflexivity.
  - bd H. destruct (existsb isBranch a); [eapply lp_insertConcat; eauto|]. injection H as <-. reflexivity.
  - bd H. bd H. bd H. rename a into t1, a0 into f1, a1 into c1. cbn [arms_present] in Ha.
    apply andb_true_iff in Ha as [H1 H2].
    destruct (isBranch c1) eqn:Ec.
    + destruct c1; try discriminate Ec. injection H as <-. apply (lp_insertBranch (DBranch c1_1 c1_2 c1_3)); eauto.
    + assert (t' = DBranch c1 t1 f1) as -> by (destruct c1; try discriminate Ec; now injection H as <-).
      cbn [leaves_present]. rewrite (IH _ _ E), (IH _ _ E0); auto.
  - bd H. injection H as <-. reflexivity.
Qed.

Lemma branch_free_id n : forall t t', occurs isBranch t = false -> reorder n t = Ok t' -> t' = t.
Proof.
  induction n as [|n IH]; intros t t' Ho H; [discriminate|].
  assert (forall l l', existsb (occurs isBranch) l = false -> mapM (reorder n) l = Ok l' -> l' = l) as HL.
  { intros l l' Hl Hm. apply mapM_ok_Forall2 in Hm. induction Hm; auto. simpl in Hl.
    apply orb_false_iff in Hl as [? ?]. f_equal; auto. }
  assert (forall l, existsb (occurs isBranch) l = false -> existsb isBranch l = false) as HB.
  { induction l as [|x l IHl]; simpl; auto. intros K; apply orb_false_iff in K as [K1 K2].
    rewrite IHl by assumption. destruct x; auto; discriminate. }
  destruct t as [ |nm|s|s|s|l o|v m l|v p|l|c t f|v w f s|w|w|t|s l]; cbn [reorder] in H;
    try (injection H as <-; reflexivity); try discriminate; cbn [occurs isBranch orb] in Ho.
  - bd H. apply HL in E; auto. subst a. rewrite HB in H by assumption. apply mkOp_ok in H as [-> _]. reflexivity.
  - repeat match goal with H : _ || _ = false |- _ => apply orb_false_iff in H as [? ?] end.
    bd H. bd H. bd H. apply IH in E, E0, E1; auto. subst.
    destruct (isBranch m || isBranch l); [discriminate|]. destruct v; try discriminate; congruence.
  - repeat match goal with H : _ || _ = false |- _ => apply orb_false_iff in H as [? ?] end.
    bd H. bd H. apply IH in E, E0; auto. subst.
    destruct p; try discriminate; destruct v; try discriminate; congruence.
  - bd H. apply HL in E; auto. subst a. rewrite HB in H by assumption. congruence.
  - bd H. apply IH in E; auto. congruence.
Qed.

Lemma ptr_noerr n : forall v p e, stable true v = true -> stable true p = true ->
  reorder n (DPtr v p) = Err e -> e = OutOfFuel.
Proof.
  intros v p e Hv Hp H.
  destruct (ptr_stable_settled p Hp v Hv) as (t' & n0 & K).
  destruct e; auto; exfalso;
  (pose proof (K (n0 + n) ltac:(lia)) as K';
   rewrite (reorder_mono n _ _ H ltac:(discriminate) (n0 + n) ltac:(lia)) in K'; discriminate).
Qed.

Lemma occurs_isBranch t : occurs isBranch t = false -> isBranch t = false.
Proof. destruct t; simpl; auto; discriminate. Qed.

Lemma reorder_noerr n : forall t e, reorderable t = true -> reorder n t = Err e -> e = OutOfFuel.
Proof.
  induction n as [|n IH]; intros t e Hr H; [simpl in H; congruence|].
  assert (forall l e, forallb reorderable l = true -> mapM (reorder n) l = Err e -> e = OutOfFuel) as HL.
  { induction l as [|x l IHl]; simpl; intros e' Hl He; [discriminate|]. apply andb_true_iff in Hl as [? ?].
    destruct (reorder n x) eqn:Ex; simpl in He; [|injection He as <-; eauto].
    destruct (mapM (reorder n) l) eqn:El; simpl in He; [discriminate|injection He as <-; eauto]. }
  destruct t as [ |nm|s|s|s|l o|v m l|v p|l|c t f|v w f s|w|w|t|s l]; cbn [reorder] in H; try discriminate;
    cbn [reorderable] in Hr;
    repeat match goal with H : _ && _ = true |- _ => apply andb_true_iff in H as [? ?] end.
  - destruct (mapM (reorder n) l) as [l'|] eqn:E; simpl in H; [|injection H as <-; eauto].
    assert (forallb leaves_present l' = true) as Hlp.
    { apply mapM_ok_Forall2 in E. clear - H1 E. induction E; simpl in *; auto.
      apply andb_true_iff in H1 as [? ?]. apply andb_true_iff; split; eauto using arms_leaves. }
    destruct (existsb isBranch l') eqn:Eb.
    + eapply insertOpList_noerr; eauto.
    + eapply (insertOpList_noerr 1 l' o); auto. simpl.
      destruct (split_branch l') as [[[d [[c a] b]] r]|] eqn:Es; auto.
      apply split_branch_some in Es as [-> _]. rewrite existsb_app in Eb. simpl in Eb.
      rewrite orb_true_r in Eb. discriminate.
  - destruct (reorder n m) as [m'|] eqn:E; simpl in H; [|injection H as <-; eauto].
    destruct (reorder n l) as [l'|] eqn:E0; simpl in H; [|injection H as <-; eauto].
    destruct (reorder n v) as [v'|] eqn:E1; simpl in H; [|injection H as <-; eauto].
    repeat match goal with H : negb _ = true |- _ => apply negb_true_iff in H end.
    apply branch_free_id in E, E0; auto. subst.
    rewrite !occurs_isBranch in H by assumption. simpl in H. destruct v'; discriminate.
  - destruct (reorder n p) as [p'|] eqn:E; simpl in H; [|injection H as <-; eauto].
    destruct (reorder n v) as [v'|] eqn:E0; simpl in H; [|injection H as <-; eauto].
    destruct p' as [ | | | | | | | | |c t f | | | | |]; try (destruct v'; discriminate).
    apply reorder_stable in E, E0. cbn [stable] in E.
    repeat match goal with H : _ && _ = true |- _ => apply andb_true_iff in H as [? ?] end.
    destruct (reorder n (DPtr v' t)) eqn:E2; simpl in H; [|injection H as <-; eapply (ptr_noerr n v' t); eauto].
    destruct (reorder n (DPtr v' f)) eqn:E3; simpl in H; [discriminate|injection H as <-; eapply (ptr_noerr n v' f); eauto].
  - destruct (mapM (reorder n) l) as [l'|] eqn:E; simpl in H; [|injection H as <-; eauto].
    destruct (existsb isBranch l'); [eapply insertConcat_noerr; eauto|discriminate].
  - destruct (reorder n t) as [t1|] eqn:E; simpl in H; [|injection H as <-; eauto].
    destruct (reorder n f) as [f1|] eqn:E0; simpl in H; [|injection H as <-; eauto].
    destruct (reorder n c) as [c1|] eqn:E1; simpl in H; [|injection H as <-; eauto].
    destruct c1; discriminate.
  - destruct (reorder n t) as [t1|] eqn:E; simpl in H; [discriminate|injection H as <-; eauto].
Qed.

Lemma reorder_total t : reorderable t = true ->
  exists t' n0, forall n, n0 <= n -> reorder n t = Ok t'.
Proof.
  intros Hr. destruct (reorder_settled t) as (r & Hne & n0 & Hn).
  destruct r as [t'|e]; [exists t', n0; auto|].
  exfalso. apply Hne. f_equal. eapply (reorder_noerr n0 t); auto.
Qed.

Lemma reorder_idem n t t' : reorder n t = Ok t' -> exists n0, forall m, n0 <= m -> reorder m t' = Ok t'.
Proof. intros H. apply reorder_stable in H. now apply stable_reorder. Qed.
Lemma reorder_branch_first n t t' : reorder n t = Ok t' -> branch_first true t' = true.
Proof. intros H. apply stable_branch_first. eapply reorder_stable; eauto. Qed.
Lemma reorder_deterministic n m t t1 t2 : reorder n t = Ok t1 -> reorder m t = Ok t2 -> t1 = t2.
Proof.
  intros H1 H2. pose proof (reorder_mono n t _ H1 ltac:(discriminate) (n + m) ltac:(lia)).
  pose proof (reorder_mono m t _ H2 ltac:(discriminate) (n + m) ltac:(lia)). congruence.
Qed.

(** ** replaceUndefined *)

Lemma fill_not_none n t : is_none (fill (DTerm n) t) = false.
Proof. destruct t; reflexivity. Qed.

Lemma replace_ok t n : occurs ru_bad t = false -> replaceUndefined t n = Ok (fill (DTerm n) t).
Proof.
  assert (forall l, Forall (fun t => occurs ru_bad t = false -> replaceUndefined t n = Ok (fill (DTerm n) t)) l ->
    existsb (occurs ru_bad) l = false ->
    mapM (fun t => replaceUndefined t n) l = Ok (map (fill (DTerm n)) l)) as HL.
  { induction 1 as [|x l Hx H IH]; simpl; intros K; auto. apply orb_false_iff in K as [K1 K2].
    now rewrite Hx, IH. }
  induction t as [ |nm|s|s|s|l o IH|v m l IHv IHm IHl|v p IHv IHp|l IH|c t f IHc IHt IHf|v w f s|w|w|t IH|s l IH]
    using df_ind'; cbn [occurs ru_bad isHiz isDelay isSys orb]; intros H; try discriminate; try reflexivity;
    repeat match goal with H : _ || _ = false |- _ => apply orb_false_iff in H as [? ?] end;
    cbn [replaceUndefined].
  - rewrite HL by assumption. simpl. unfold mkOp.
    assert (existsb is_none (map (fill (DTerm n)) l) = false) as ->; auto.
    clear. induction l; simpl; auto. now rewrite fill_not_none.
  - now rewrite IHv, IHm, IHl.
  - now rewrite IHv, IHp.
  - now rewrite HL.
  - now rewrite IHc, IHt, IHf.
Qed.

Lemma replace_err t n t' : replaceUndefined t n = Ok t' -> occurs ru_bad t = false.
Proof.
  revert t'.
  assert (forall l, Forall (fun t => forall t', replaceUndefined t n = Ok t' -> occurs ru_bad t = false) l ->
     forall l', mapM (fun t => replaceUndefined t n) l = Ok l' -> existsb (occurs ru_bad) l = false) as HL.
  { intros l IH l' H. apply mapM_ok_Forall2 in H. induction H; simpl; auto. inv IH.
    apply orb_false_iff; split; eauto. }
  induction t as [ |nm|s|s|s|l o IH|v m l IHv IHm IHl|v p IHv IHp|l IH|c t f IHc IHt IHf|v w f s|w|w|t IH|s l IH]
    using df_ind'; intros t' H; cbn [replaceUndefined] in H; try discriminate; try reflexivity; simpl.
  - bd H. eauto.
  - bd H. bd H. bd H. rewrite (IHm _ E), (IHl _ E0), (IHv _ E1). reflexivity.
  - bd H. bd H. rewrite (IHp _ E), (IHv _ E0). reflexivity.
  - bd H. eauto.
  - bd H. bd H. bd H. rewrite (IHc _ E), (IHt _ E0), (IHf _ E1). reflexivity.
Qed.

Lemma fill_clean n t : occurs is_none (fill (DTerm n) t) = false /\ occurs isUndef (fill (DTerm n) t) = false.
Proof.
  assert (forall l, Forall (fun t => occurs is_none (fill (DTerm n) t) = false /\ occurs isUndef (fill (DTerm n) t) = false) l ->
    existsb (occurs is_none) (map (fill (DTerm n)) l) = false /\ existsb (occurs isUndef) (map (fill (DTerm n)) l) = false) as HL.
  { induction 1 as [|x l [H1 H2] H [IH1 IH2]]; simpl; auto. now rewrite H1, H2. }
  induction t as [ |nm|s|s|s|l o IH|v m l IHv IHm IHl|v p IHv IHp|l IH|c t f IHc IHt IHf|v w f s|w|w|t IH|s l IH]
    using df_ind'; cbn [fill occurs is_none isUndef orb]; auto;
    repeat match goal with H : _ /\ _ |- _ => destruct H as [? ?] end;
    repeat match goal with H : occurs _ _ = false |- _ => rewrite H; clear H end; auto.
Qed.

Lemma fill_id u t : occurs is_none t = false -> occurs isUndef t = false -> fill u t = t.
Proof.
  assert (forall l, Forall (fun t => occurs is_none t = false -> occurs isUndef t = false -> fill u t = t) l ->
    existsb (occurs is_none) l = false -> existsb (occurs isUndef) l = false -> map (fill u) l = l) as HL.
  { induction 1 as [|x l Hx H IH]; simpl; auto. intros A B. apply orb_false_iff in A as [? ?], B as [? ?]. f_equal; auto. }
  induction t as [ |nm|s|s|s|l o IH|v m l IHv IHm IHl|v p IHv IHp|l IH|c t f IHc IHt IHf|v w f s|w|w|t IH|s l IH]
    using df_ind'; cbn [fill occurs is_none isUndef orb]; intros A B; try discriminate; auto;
    repeat match goal with H : _ || _ = false |- _ => apply orb_false_iff in H as [? ?] end; f_equal; auto.
Qed.

Lemma fill_bad n t : occurs ru_bad t = false -> occurs ru_bad (fill (DTerm n) t) = false.
Proof.
  assert (forall l, Forall (fun t => occurs ru_bad t = false -> occurs ru_bad (fill (DTerm n) t) = false) l ->
    existsb (occurs ru_bad) l = false -> existsb (occurs ru_bad) (map (fill (DTerm n)) l) = false) as HL.
  { induction 1 as [|x l Hx H IH]; simpl; auto. intros A. apply orb_false_iff in A as [? ?].
    apply orb_false_iff; auto. }
  induction t as [ |nm|s|s|s|l o IH|v m l IHv IHm IHl|v p IHv IHp|l IH|c t f IHc IHt IHf|v w f s|w|w|t IH|s l IH]
    using df_ind'; cbn [fill occurs ru_bad isHiz isDelay isSys orb]; intros A; try discriminate; auto;
    repeat match goal with H : _ || _ = false |- _ => apply orb_false_iff in H as [? ?] end;
    repeat (apply orb_false_iff; split); auto.
Qed.

Lemma fill_eval I n t : eval I (fill (DTerm n) t) = eval (with_old_value I n) t.
Proof.
  assert (forall l, Forall (fun t => eval I (fill (DTerm n) t) = eval (with_old_value I n) t) l ->
    map (eval I) (map (fill (DTerm n)) l) = map (eval (with_old_value I n)) l) as HL.
  { induction 1 as [|x l Hx H IH]; simpl; auto. now rewrite Hx, IH. }
  induction t as [ |nm|s|s|s|l o IH|v m l IHv IHm IHl|v p IHv IHp|l IH|c t f IHc IHt IHf|v w f s|w|w|t IH|s l IH]
    using df_ind'; cbn [fill eval]; auto.
  - now rewrite HL.
  - now rewrite IHv, IHm, IHl.
  - now rewrite IHv, IHp.
  - now rewrite HL.
  - now rewrite IHc, IHt, IHf.
  - now rewrite IH.
  - now rewrite HL.
Qed.

Lemma replace_spec t n t' : replaceUndefined t n = Ok t' ->
  t' = fill (DTerm n) t /\ occurs is_none t' = false /\ occurs isUndef t' = false /\
  replaceUndefined t' n = Ok t' /\ forall I, eval I t' = eval (with_old_value I n) t.
Proof.
  intros H. pose proof (replace_err _ _ _ H) as Hb. rewrite (replace_ok _ _ Hb) in H. injection H as <-.
  destruct (fill_clean n t) as [C1 C2]. repeat split; auto.
  - rewrite replace_ok by now apply fill_bad. now rewrite fill_id.
  - intros I. apply fill_eval.
Qed.
