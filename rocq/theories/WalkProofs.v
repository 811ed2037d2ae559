From Coq Require Import Relations.
From Verif Require Import Base ScopeModel ScopeProofs DfModel DfSpec BindModel LitModel LitProofs OptModel OptSpec MergeModel WalkModel WalkSpec.
Local Open Scope Z_scope.

(** ** Termination *)
Lemma all_types_all t : In t all_types.
Proof. destruct t; cbn; tauto. Qed.
Lemma label_eq_fields a b : label_eq a b = true -> sname a = sname b /\ sloop a = sloop b.
Proof.
  unfold label_eq. destruct (_ || _); rewrite !andb_true_iff; intros H; repeat match goal with K : _ /\ _ |- _ => destruct K end;
    (split; [now apply String.eqb_eq|now apply loop_eqb_eq]).
Qed.
Lemma variants_in k : forall n, chain_eq k n = true -> In n (variants k).
Proof.
  induction k as [|l r IH]; intros [|l' r'] H; try discriminate; [left; reflexivity|].
  unfold chain_eq in H. cbn [list_eqb] in H. apply andb_true_iff in H as [H1 H2]. apply label_eq_fields in H1 as [E1 E2].
  cbn [variants]. apply in_flat_map. exists (stype l'). split; [apply all_types_all|]. apply in_map_iff. exists r'. split; [|now apply IH].
  rewrite E1, E2. now destruct l'.
Qed.
Lemma dget_in {V} (d : ndict V) n v : dget d n = Some v -> exists k, In (k, v) d /\ chain_eq k n = true.
Proof. induction d as [|[k w] r IH]; cbn; [discriminate|]. destruct (chain_eq k n) eqn:E; intros H; [injection H as <-; eauto|]. destruct (IH H) as (k' & H1 & H2). eauto. Qed.
Lemma known_in (terms : ndict term) n t : dget terms n = Some t -> In n (known_names terms).
Proof. intros H. apply dget_in in H as (k & H1 & H2). apply in_flat_map. exists (k, t). split; [exact H1|now apply variants_in]. Qed.

Definition chain_dec : forall a b : chain, {a = b} + {a <> b}.
Proof. apply list_eq_dec. intros [a t i] [b u j]. destruct (string_dec a b) as [-> |]; [|right; congruence]. assert ({t = u} + {t <> u}) as [-> |] by decide equality; [|right; congruence].
  assert ({i = j} + {i <> j}) as [-> |] by (decide equality; apply Z.eq_dec); [now left|right; congruence]. Defined.
(** The names not visited yet. *)
Fixpoint fresh (visited : list chain) (l : list chain) : nat :=
  match l with [] => O | x :: r => ((if in_dec chain_dec x visited then 0 else 1) + fresh visited r)%nat end.
Lemma fresh_le visited n l : (fresh (n :: visited) l <= fresh visited l)%nat.
Proof. induction l as [|x r IH]; cbn [fresh]; [lia|]. destruct (in_dec chain_dec x (n :: visited)) as [H|H], (in_dec chain_dec x visited) as [K|K]; try lia. exfalso; apply H; right; exact K. Qed.
Lemma fresh_lt visited n l : In n l -> ~ In n visited -> (fresh (n :: visited) l < fresh visited l)%nat.
Proof.
  induction l as [|x r IH]; [contradiction|]. intros [-> |H] HN; cbn [fresh].
  - pose proof (fresh_le visited n r). destruct (in_dec chain_dec n (n :: visited)) as [K|K]; [|exfalso; apply K; left; reflexivity]. destruct (in_dec chain_dec n visited); [contradiction|lia].
  - specialize (IH H HN). destruct (in_dec chain_dec x (n :: visited)) as [K|K], (in_dec chain_dec x visited) as [K'|K']; try lia. exfalso; apply K; right; exact K'.
Qed.
Lemma fresh_bound visited l : (fresh visited l <= length l)%nat.
Proof. induction l as [|x r IH]; cbn [fresh length]; [lia|]. destruct (in_dec _ x visited); lia. Qed.
Lemma smem_not_in s n : smem s n = false -> ~ In n s.
Proof. intros H K. assert (smem s n = true) as E by (apply existsb_exists; exists n; split; [exact K|apply chain_eq_refl]). congruence. Qed.

Section Walk.
  Variable terms : ndict term.
  Variable combination : chain -> bool.
  Variable tree_of : chain -> df -> res df.
  Notation walk := (walk terms combination tree_of).
  Notation expand := (expand terms combination).

  Definition not_fuel {A} (r : res A) : Prop := r <> Err OutOfFuel.
  Lemma nf_bind {A B} (r : res A) (f : A -> res B) : not_fuel r -> (forall a, r = Ok a -> not_fuel (f a)) -> not_fuel (do x <- r; f x).
  Proof. destruct r as [a|e]; cbn; intros H1 H2; [now apply H2|]. intros E. injection E as ->. now apply H1. Qed.
  Lemma nf_mapM {A B} (f : A -> res B) l : Forall (fun x => not_fuel (f x)) l -> not_fuel (mapM f l).
  Proof. induction 1 as [|x xs Hx H IH]; cbn; [discriminate|]. apply nf_bind; [exact Hx|]. intros a _. apply nf_bind; [exact IH|]. discriminate. Qed.
  Lemma nf_py_int b s : not_fuel (py_int b s).
  Proof.
    assert (forall s acc, not_fuel (parse_digits b s acc)) as HP. { clear s. induction s as [|c r IH]; intros acc; cbn; [discriminate|]. destruct (digit_val c) as [d|]; [|discriminate]. destruct (d <? b); [apply IH|discriminate]. }
    assert (forall s, not_fuel (py_int_digits b s)) as HD. { intros s'. unfold py_int_digits. destruct (nonempty _); [apply HP|discriminate]. }
    unfold py_int. destruct (rstrip (lstrip s)) as [|c r]; [discriminate|]. destruct (Ascii.eqb c "-"); [apply nf_bind; [apply HD|discriminate]|]. destruct (Ascii.eqb c "+"); apply HD.
  Qed.
  Lemma nf_int_eval s : not_fuel (int_eval s).
  Proof. unfold int_eval. repeat match goal with |- context [match search_after ?a ?b with _ => _ end] => destruct (search_after a b) end; apply nf_py_int. Qed.
  Lemma nf_eval_attr t : not_fuel (eval_attr t).
  Proof. destruct t; cbn [eval_attr]; try discriminate; [apply nf_int_eval|]. destruct value; discriminate. Qed.
  Lemma nf_select src v m l : not_fuel (select terms src v m l).
  Proof. unfold select. destruct v; try discriminate. destruct (getTerm_str _ _); [|discriminate]. repeat (apply nf_bind; [apply nf_eval_attr|intros ? _]). discriminate. Qed.
  Lemma nf_index src v p : not_fuel (index terms src v p).
  Proof. unfold index. destruct src; try discriminate. unfold is_array. destruct (dget terms name); [|discriminate]. cbn. destruct (_ && _); discriminate. Qed.
  Lemma nf_mkOp l o : not_fuel (mkOp l o).
  Proof. unfold mkOp. destruct (existsb _ _); discriminate. Qed.
  Lemma expand_some visited step m l p n r : expand visited step m l p n = Ok (Some r) ->
    smem visited n = false /\ exists t, dget terms n = Some t /\ ~ top_input n t /\ (t_dims t = None -> fst r = DNone) /\ (t_dims t <> None -> fst r = p) /\ (clocked combination n t -> step <> 0 /\ snd r = step - 1) /\ (~ clocked combination n t -> snd r = step).
  Proof.
    unfold WalkModel.expand. destruct (smem visited n); [discriminate|]. destruct (dget terms n) as [t|]; [|discriminate].
    assert (forall s, isType (t_type t) s = true <-> has_type t s) as HT.
    { intros s. unfold isType, has_type. rewrite existsb_exists. split; [intros (x & H1 & H2); apply String.eqb_eq in H2; now subst|]. intros H. exists s. split; [exact H|apply String.eqb_refl]. }
    destruct (isTopmodule (getScope n) && isType (t_type t) "Input") eqn:EI; [discriminate|]. intros H. split; [reflexivity|]. exists t. split; [reflexivity|]. split.
    { intros [H1 H2]. apply HT in H2. rewrite H2 in EI. rewrite andb_true_r in EI. unfold isTopmodule, getScope in EI. destruct n as [|a [|b [|c r']]]; cbn in H1; try lia. discriminate EI. }
    assert ((isType (t_type t) "Reg" && negb (combination n) && negb (isType (t_type t) "Rename")) = true <-> clocked combination n t) as HC.
    { unfold clocked. rewrite <- !HT. rewrite !andb_true_iff, !negb_true_iff. destruct (isType (t_type t) "Rename"); intuition congruence. }
    destruct (t_dims t) eqn:ED.
    - destruct (is_none p); [discriminate|]. destruct (negb (is_none m) && negb (is_none l)); [discriminate|]. destruct (_ && _ && _) eqn:EC.
      + destruct (Z.eqb_spec step 0); [discriminate|]. injection H as <-. pose proof (proj1 HC eq_refl). cbn. repeat split; try congruence; tauto.
      + injection H as <-. assert (~ clocked combination n t) by (intros K; apply HC in K; discriminate K). cbn. repeat split; try congruence; tauto.
    - destruct (_ && _ && _) eqn:EC.
      + destruct (Z.eqb_spec step 0); [discriminate|]. injection H as <-. pose proof (proj1 HC eq_refl). cbn. repeat split; try congruence; tauto.
      + injection H as <-. assert (~ clocked combination n t) by (intros K; apply HC in K; discriminate K). cbn. repeat split; try congruence; tauto.
  Qed.
  Lemma expand_none visited step m l p n : expand visited step m l p n = Ok None ->
    smem visited n = true \/ exists t, dget terms n = Some t /\ (top_input n t \/ clocked combination n t \/ t_dims t <> None /\ m <> DNone /\ l <> DNone).
  Proof.
    unfold WalkModel.expand. destruct (smem visited n); [now left|]. destruct (dget terms n) as [t|]; [|discriminate].
    assert (forall s, isType (t_type t) s = true <-> has_type t s) as HT.
    { intros s. unfold isType, has_type. rewrite existsb_exists. split; [intros (x & H1 & H2); apply String.eqb_eq in H2; now subst|]. intros H. exists s. split; [exact H|apply String.eqb_refl]. }
    intros H. right. exists t. split; [reflexivity|].
    destruct (isTopmodule (getScope n) && isType (t_type t) "Input") eqn:EI.
    { left. apply andb_true_iff in EI as [E1 E2]. split; [|now apply HT]. unfold isTopmodule, getScope in E1. apply Nat.eqb_eq in E1. destruct n as [|a [|b [|c r']]]; cbn in E1 |- *; lia. }
    assert ((isType (t_type t) "Reg" && negb (combination n) && negb (isType (t_type t) "Rename")) = true <-> clocked combination n t) as HC.
    { unfold clocked. rewrite <- !HT. rewrite !andb_true_iff, !negb_true_iff. destruct (isType (t_type t) "Rename"); intuition congruence. }
    right. destruct (t_dims t) eqn:ED.
    - destruct (is_none p); [discriminate|]. destruct (negb (is_none m) && negb (is_none l)) eqn:EM.
      + right. split; [congruence|]. apply andb_true_iff in EM as [E1 E2]. split; intros ->; discriminate.
      + left. apply HC. destruct (_ && _ && _); [reflexivity|discriminate].
    - left. apply HC. destruct (_ && _ && _); [reflexivity|discriminate].
  Qed.
  Lemma nf_expand visited step m l p n : not_fuel (expand visited step m l p n).
  Proof. unfold WalkModel.expand. destruct (smem visited n); [discriminate|]. destruct (dget terms n) as [t|]; [|discriminate]. destruct (_ && _); [discriminate|]. destruct (t_dims t); [destruct (is_none p); [discriminate|destruct (_ && _); [discriminate|]]|]; (destruct (_ && _ && _); [destruct (step =? 0); discriminate|discriminate]). Qed.

  Lemma walk_eq fuel visited step m l p t : walk fuel visited step m l p t =
    match t with
    | DNone => Ok (DUndef 32)
    | DUndef _ | DHiz _ | DInt _ | DFloat _ | DStr _ | DEval _ _ _ _ => Ok t
    | DTerm n =>
        do e <- expand visited step m l p n;
        match e with
        | None => Ok t
        | Some (p, s) => do d <- tree_of n p; match fuel with O => Err OutOfFuel | S f => walk f (n :: visited) s DNone DNone DNone d end
        end
    | DBranch c a b =>
        do c' <- walk fuel visited step DNone DNone DNone c; do a' <- walk fuel visited step DNone DNone DNone a;
        do b' <- walk fuel visited step DNone DNone DNone b; Ok (DBranch c' a' b')
    | DOp l o => do l' <- mapM (walk fuel visited step DNone DNone DNone) l; mkOp l' o
    | DPart v m l =>
        do m' <- walk fuel visited step DNone DNone DNone m; do l' <- walk fuel visited step DNone DNone DNone l;
        do v' <- walk fuel visited step m' l' DNone v; select terms v v' m' l'
    | DPtr v p => do p' <- walk fuel visited step DNone DNone DNone p; do v' <- walk fuel visited step DNone DNone p' v; index terms v v' p'
    | DConcat l => do l' <- mapM (walk fuel visited step DNone DNone DNone) l; Ok (DConcat l')
    | DDelay _ | DSys _ _ => Err DefinitionError
    end.
  Proof. destruct fuel, t; reflexivity. Qed.

  Lemma walk_total : (forall n p, tree_of n p <> Err OutOfFuel) ->
    forall fuel t visited step m l p, (fresh visited (known_names terms) <= fuel)%nat -> not_fuel (walk fuel visited step m l p t).
  Proof.
    intros HT. induction fuel as [fuel IHf] using lt_wf_ind; intros t.
    induction t as [|n|s|s|s|xs o IH|v a b IHv IHa IHb|v q IHv IHq|xs IH|c x y IHc IHx IHy|v w f g|w|w|x IHx|s xs IH] using df_ind'; intros visited step m l p HF; rewrite walk_eq; try discriminate.
    - apply nf_bind; [apply nf_expand|]. intros [[q s]|] E; [|discriminate]. apply expand_some in E as (H1 & t & H2 & _).
      pose proof (fresh_lt visited n _ (known_in _ _ _ H2) (smem_not_in _ _ H1)). apply nf_bind; [apply HT|]. intros d _. destruct fuel as [|f]; [lia|]. apply IHf; lia.
    - apply nf_bind; [|intros; apply nf_mkOp]. apply nf_mapM. revert IH. apply Forall_impl. intros x Hx. apply Hx. exact HF.
    - apply nf_bind; [apply IHa, HF|]. intros a' _. apply nf_bind; [apply IHb, HF|]. intros b' _. apply nf_bind; [apply IHv, HF|]. intros; apply nf_select.
    - apply nf_bind; [apply IHq, HF|]. intros a' _. apply nf_bind; [apply IHv, HF|]. intros; apply nf_index.
    - apply nf_bind; [|discriminate]. apply nf_mapM. revert IH. apply Forall_impl. intros x Hx. apply Hx. exact HF.
    - apply nf_bind; [apply IHc, HF|]. intros a' _. apply nf_bind; [apply IHx, HF|]. intros b' _. apply nf_bind; [apply IHy, HF|]. discriminate.
  Qed.

  (** More fuel changes nothing. *)
  Lemma walk_more fuel : forall t fuel' visited step m l p, (fuel <= fuel')%nat -> not_fuel (walk fuel visited step m l p t) ->
    walk fuel' visited step m l p t = walk fuel visited step m l p t.
  Proof.
    assert (forall A B (r r' : res A) (f f' : A -> res B), (not_fuel r -> r' = r) -> (forall a, r = Ok a -> not_fuel (f a) -> f' a = f a) -> not_fuel (do x <- r; f x) -> (do x <- r'; f' x) = (do x <- r; f x)) as HB.
    { intros A B r r' f f' H1 H2 HN. destruct r as [a|e]; [|rewrite H1; [reflexivity|]; intros E; apply HN; injection E as ->; reflexivity]. rewrite H1 by discriminate. cbn. apply H2; [reflexivity|exact HN]. }
    assert (forall A B (f f' : A -> res B) l, Forall (fun x => not_fuel (f x) -> f' x = f x) l -> not_fuel (mapM f l) -> mapM f' l = mapM f l) as HM.
    { intros A B f f' l H. induction H as [|x xs Hx H IH]; [reflexivity|]. cbn [mapM]. apply HB; [exact Hx|]. intros a _. apply HB; [exact IH|reflexivity]. }
    induction fuel as [fuel IHf] using lt_wf_ind; intros t.
    induction t as [|n|s|s|s|xs o IH|v a b IHv IHa IHb|v q IHv IHq|xs IH|c x y IHc IHx IHy|v w f g|w|w|x IHx|s xs IH] using df_ind'; intros fuel' visited step m l p HF; rewrite (walk_eq fuel'), (walk_eq fuel); try reflexivity.
    - apply HB; [reflexivity|]. intros [[q s]|] E; [|reflexivity]. apply HB; [reflexivity|]. intros d _ HN. destruct fuel as [|f]; [exfalso; apply HN; reflexivity|]. destruct fuel' as [|f']; [lia|]. apply IHf; [lia|lia|exact HN].
    - apply HB; [|reflexivity]. apply HM. revert IH. apply Forall_impl. intros x Hx. apply Hx. exact HF.
    - apply HB; [intros K; apply IHa; [exact HF|exact K]|]. intros a' _. apply HB; [intros K; apply IHb; [exact HF|exact K]|]. intros b' _. apply HB; [intros K; apply IHv; [exact HF|exact K]|reflexivity].
    - apply HB; [intros K; apply IHq; [exact HF|exact K]|]. intros a' _. apply HB; [intros K; apply IHv; [exact HF|exact K]|reflexivity].
    - apply HB; [|reflexivity]. apply HM. revert IH. apply Forall_impl. intros x Hx. apply Hx. exact HF.
    - apply HB; [intros K; apply IHc; [exact HF|exact K]|]. intros a' _. apply HB; [intros K; apply IHx; [exact HF|exact K]|]. intros b' _. apply HB; [intros K; apply IHy; [exact HF|exact K]|reflexivity].
  Qed.
End Walk.
