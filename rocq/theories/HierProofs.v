(** HierProofs.v - lemmas about simplification: equal trees, chains of && and ||. *)
From Verif Require Import Base ScopeModel DfModel DfProofs BindModel OptModel OptSpec OptArith OptProofs OptProofs2 HierModel HierSpec.
From Coq Require Import Permutation.
Local Open Scope Z_scope.

Lemma branch_ev rho c a b : width rho (DBranch c a b) =
  if is_none a then (if is_none b then None else width rho b)
  else if is_none b then width rho a else obind (width rho a) (fun x => obind (width rho b) (fun y => Some (Z.max x y))).
Proof.
  unfold width. cbn [ev snd]. generalize (ev rho a) (ev rho b). intros u v. destruct a; cbn [is_none]; destruct b; reflexivity.
Qed.

Lemma Forall2_len {A B} (P : A -> B -> Prop) l l' : Forall2 P l l' -> length l = length l'.
Proof. induction 1; cbn; auto. Qed.

Section Ev.
  Variable rho : venv.
  Hypothesis HR : respects rho.

  Lemma both_ok (p q : res bool) : (do e <- p; if e then q else Ok false) = Ok true -> p = Ok true /\ q = Ok true.
  Proof. destruct p as [[|]|]; cbn; auto; discriminate. Qed.

  Lemma df_eq_ev a : forall b, df_eq a b = Ok true -> ev rho a = ev rho b /\ is_none a = is_none b /\ (forall n, a = DTerm n -> exists m, b = DTerm m /\ chain_eq n m = true)
     /\ (forall m, b = DTerm m -> exists n, a = DTerm n).
  Proof.
    assert (forall l, Forall (fun a => forall b, df_eq a b = Ok true -> ev rho a = ev rho b /\ is_none a = is_none b /\ (forall n, a = DTerm n -> exists m, b = DTerm m /\ chain_eq n m = true)
       /\ (forall m, b = DTerm m -> exists n, a = DTerm n)) l ->
      forall l', list_eq l l' = Ok true -> map (ev rho) l = map (ev rho) l') as HL.
    { induction 1 as [|x l Hx H IH]; intros [|y l'] K; cbn in K; try discriminate; auto.
      apply both_ok in K as [K1 K2]. cbn [map]. f_equal; [now apply Hx|now apply IH]. }
    induction a as [ |n|s|s|s|l o IH|v m l IHv IHm IHl|v p IHv IHp|l IH|c t f IHc IHt IHf|v w f s|w|w|t IH|s l IH]
      using df_ind'; intros b H; destruct b; try discriminate H.
    - (split; [reflexivity|split; [reflexivity|split; intros; discriminate]]).
    - cbn in H. injection H as H. split; [|split; [auto|split; [|eauto]]].
      + cbn. destruct (HR _ _ H) as (-> & -> & _). auto.
      + intros n' K. injection K as <-. eauto.
    - cbn in H. injection H as H. apply String.eqb_eq in H. subst. (split; [reflexivity|split; [reflexivity|split; intros; discriminate]]).
    - cbn in H. injection H as H. apply String.eqb_eq in H. subst. (split; [reflexivity|split; [reflexivity|split; intros; discriminate]]).
    - cbn in H. injection H as H. apply String.eqb_eq in H. subst. (split; [reflexivity|split; [reflexivity|split; intros; discriminate]]).
    - cbn [df_eq] in H. destruct (op_beq o operator) eqn:Eo; [|discriminate]. apply op_beq_eq in Eo. subst operator.
      change (list_eq l nextnodes = Ok true) in H. apply (HL _ IH) in H. cbn [ev]. rewrite H. (split; [reflexivity|split; [reflexivity|split; intros; discriminate]]).
    - cbn [df_eq] in H. apply both_ok in H as [H1 H]. apply both_ok in H as [H2 H3]. apply IHv in H1 as (H1 & _). apply IHm in H2 as (H2 & _). apply IHl in H3 as (H3 & _).
      cbn [ev]. rewrite H1, H2, H3. (split; [reflexivity|split; [reflexivity|split; intros; discriminate]]).
    - cbn [df_eq] in H. apply both_ok in H as [H1 H2]. apply IHv in H1 as (H1 & H1n & H1t & H1t'). apply IHp in H2 as (H2 & _).
      split; [|(split; [reflexivity|split; intros; discriminate])]. cbn [ev]. rewrite H2.
      assert ((exists n, v = DTerm n) \/ (forall n, v <> DTerm n)) as [[n ->]|Hn] by (destruct v; try (right; discriminate); left; eauto).
      + destruct (H1t n eq_refl) as (m & -> & Hm). destruct (HR _ _ Hm) as (K1 & K2 & K3 & K4). rewrite K1, K2, K3.
        destruct (e_arr rho m); auto. destruct (fst (ev rho b2)); cbn; auto. now rewrite K4.
      + assert (forall n, b1 <> DTerm n) as Hn' by (intros n K; destruct (H1t' n K) as [n' K']; exact (Hn n' K')).
        rewrite H1. destruct v; try (exfalso; now apply (Hn name)); destruct b1; try (exfalso; now apply (Hn' name)); reflexivity.
    - cbn [df_eq] in H. change (list_eq l nextnodes = Ok true) in H. apply (HL _ IH) in H. cbn [ev]. rewrite H. (split; [reflexivity|split; [reflexivity|split; intros; discriminate]]).
    - cbn [df_eq] in H. apply both_ok in H as [H1 H]. apply both_ok in H as [H2 H3].
      apply IHc in H1 as (H1 & _). apply IHt in H2 as (H2 & H2n & _). apply IHf in H3 as (H3 & H3n & _).
      split; [|(split; [reflexivity|split; intros; discriminate])]. pose proof (branch_ev rho c t f) as B1. pose proof (branch_ev rho b1 b2 b3) as B2. unfold width in B1, B2.
      rewrite H2n, H3n in B1. rewrite H2, H3 in B1. rewrite <- B2 in B1. apply injective_projections; [|exact B1]. cbn [ev fst]. now rewrite H1, H2, H3.
    - cbn in H. injection H as H. repeat (apply andb_true_iff in H as [H ?]). apply pyval_eqb_eq in H. apply optZ_eqb_eq in H2. subst.
      (split; [reflexivity|split; [reflexivity|split; intros; discriminate]]).
    - cbn in H. injection H as H. apply Z.eqb_eq in H. subst. (split; [reflexivity|split; [reflexivity|split; intros; discriminate]]).
    - cbn in H. injection H as H. apply Z.eqb_eq in H. subst. (split; [reflexivity|split; [reflexivity|split; intros; discriminate]]).
    - cbn [df_eq] in H. destruct (String.eqb s syscall) eqn:Eo; [|discriminate]. apply String.eqb_eq in Eo. subst syscall.
      change (list_eq l nextnodes = Ok true) in H. apply (HL _ IH) in H. cbn [ev]. rewrite <- !(map_map (ev rho) fst), H. (split; [reflexivity|split; [reflexivity|split; intros; discriminate]]).
  Qed.
  Lemma eq_value a b : df_eq a b = Ok true -> value rho a = value rho b.
  Proof. intros H. apply df_eq_ev in H as [H _]. unfold value. now rewrite H. Qed.
  Lemma eq_width a b : df_eq a b = Ok true -> width rho a = width rho b.
  Proof. intros H. apply df_eq_ev in H as [H _]. unfold width. now rewrite H. Qed.
  Lemma eq_truth a b : df_eq a b = Ok true -> truth rho a = truth rho b.
  Proof. intros H. unfold truth. now rewrite (eq_value _ _ H). Qed.

  (** ** Truth of && and || *)
  Lemma truth_value t v : value rho t = Some v -> truth rho t = Some (negb (v =? 0)).
  Proof. unfold truth. now intros ->. Qed.
  Lemma truth_inv t b : truth rho t = Some b -> exists v, value rho t = Some v /\ b = negb (v =? 0).
  Proof. unfold truth. destruct (value rho t) as [v|]; cbn; [|discriminate]. intros H. injection H as <-. eauto. Qed.
  Definition tand (x y : option bool) : option bool := obind x (fun a => obind y (fun b => Some (a && b))).
  Definition tor (x y : option bool) : option bool := obind x (fun a => obind y (fun b => Some (a || b))).
  Lemma truth_land a b : truth rho (DOp [a; b] Land) = tand (truth rho a) (truth rho b).
  Proof.
    unfold truth, value. cbn. destruct (fst (ev rho a)) as [x|]; cbn; [|reflexivity]. destruct (fst (ev rho b)) as [y|]; cbn; [|reflexivity].
    destruct (x =? 0), (y =? 0); reflexivity.
  Qed.
  Lemma truth_lor a b : truth rho (DOp [a; b] Lor) = tor (truth rho a) (truth rho b).
  Proof.
    unfold truth, value. cbn. destruct (fst (ev rho a)) as [x|]; cbn; [|reflexivity]. destruct (fst (ev rho b)) as [y|]; cbn; [|reflexivity].
    destruct (x =? 0), (y =? 0); reflexivity.
  Qed.
  Lemma truth_lnot a : truth rho (DOp [a] Ulnot) = obind (truth rho a) (fun b => Some (negb b)).
  Proof. unfold truth, value. cbn. destruct (fst (ev rho a)) as [x|]; cbn; [|reflexivity]. destruct (x =? 0); reflexivity. Qed.

  (** All (some) of a list of operands are true, and all are defined. *)
  Fixpoint alltrue (l : list df) : option bool := match l with [] => Some true | t :: r => tand (truth rho t) (alltrue r) end.
  Fixpoint anytrue (l : list df) : option bool := match l with [] => Some false | t :: r => tor (truth rho t) (anytrue r) end.
  Definition total (o : op) (l : list df) : option bool := match o with Land => alltrue l | _ => anytrue l end.
  Definition comb (o : op) : bool -> bool -> bool := match o with Land => andb | _ => orb end.
  Lemma total_spec o l b : total o l = Some b <->
    exists bs, Forall2 (fun t x => truth rho t = Some x) l bs /\ b = fold_right (comb o) (match o with Land => true | _ => false end) bs.
  Proof.
    assert (forall l b, alltrue l = Some b <-> exists bs, Forall2 (fun t x => truth rho t = Some x) l bs /\ b = fold_right andb true bs) as HA.
    { clear. induction l as [|t r IH]; intros b; cbn [alltrue].
      - split; [intros H; injection H as <-; exists []; auto|intros (bs & H & ->); inv H; reflexivity].
      - unfold tand. split.
        + intros H. destruct (truth rho t) as [x|] eqn:Ex; [|discriminate]. cbn in H. destruct (alltrue r) as [y|]; [|discriminate]. cbn in H. injection H as <-.
          destruct (proj1 (IH y) eq_refl) as (bs & F & ->). exists (x :: bs). split; [now constructor|reflexivity].
        + intros (bs & F & ->). inv F. rewrite H1. cbn. rewrite (proj2 (IH (fold_right andb true l')) (ex_intro _ l' (conj H3 eq_refl))). reflexivity. }
    assert (forall l b, anytrue l = Some b <-> exists bs, Forall2 (fun t x => truth rho t = Some x) l bs /\ b = fold_right orb false bs) as HO.
    { clear. induction l as [|t r IH]; intros b; cbn [anytrue].
      - split; [intros H; injection H as <-; exists []; auto|intros (bs & H & ->); inv H; reflexivity].
      - unfold tor. split.
        + intros H. destruct (truth rho t) as [x|] eqn:Ex; [|discriminate]. cbn in H. destruct (anytrue r) as [y|]; [|discriminate]. cbn in H. injection H as <-.
          destruct (proj1 (IH y) eq_refl) as (bs & F & ->). exists (x :: bs). split; [now constructor|reflexivity].
        + intros (bs & F & ->). inv F. rewrite H1. cbn. rewrite (proj2 (IH (fold_right orb false l')) (ex_intro _ l' (conj H3 eq_refl))). reflexivity. }
    destruct o; auto.
  Qed.
  Lemma tand_some x y b : tand x y = Some b -> exists c d, x = Some c /\ y = Some d /\ b = c && d.
  Proof. unfold tand. destruct x as [c|]; [|discriminate]. destruct y as [d|]; [|discriminate]. cbn. intros H. injection H as <-. eauto. Qed.
  Lemma tor_some x y b : tor x y = Some b -> exists c d, x = Some c /\ y = Some d /\ b = c || d.
  Proof. unfold tor. destruct x as [c|]; [|discriminate]. destruct y as [d|]; [|discriminate]. cbn. intros H. injection H as <-. eauto. Qed.
  Lemma total_app o a b x y : total o a = Some x -> total o b = Some y -> total o (a ++ b) = Some (comb o x y).
  Proof.
    rewrite !total_spec. intros (bs & F & ->) (cs & G & ->). exists (bs ++ cs). split; [now apply Forall2_app|].
    rewrite fold_right_app. induction F as [|u v l l' Hu F IH]; [destruct o; reflexivity|]. cbn [fold_right app].
    rewrite <- IH. destruct o; cbn [comb]; rewrite ?andb_assoc, ?orb_assoc; reflexivity.
  Qed.
  Lemma total_perm o l l' b : Permutation l l' -> total o l = Some b -> total o l' = Some b.
  Proof.
    intros HP. rewrite !total_spec. revert b. induction HP as [|x l l' HP IH|x y l|l l' l'' HP1 IH1 HP2 IH2]; intros b (bs & F & E).
    - exists bs. auto.
    - inv F. destruct (IH _ (ex_intro _ l'0 (conj H3 eq_refl))) as (cs & G & K). exists (y :: cs). split; [now constructor|]. cbn. now rewrite <- K.
    - inv F. inv H3. exists (y1 :: y0 :: l'0). split; [repeat constructor; auto|]. cbn. destruct o; cbn; destruct y0, y1; reflexivity.
    - eauto.
  Qed.

  (** ** Removing duplicates *)
  Lemma memM_true x l : memM x l = Ok true -> exists y, In y l /\ df_eq x y = Ok true.
  Proof.
    induction l as [|y r IH]; cbn; [discriminate|]. intros H. unbind H. destruct r0; [exists y; auto|]. destruct (IH H) as (z & Hz & K). eauto.
  Qed.
  Lemma negation_truth x n b : negation x = Ok n -> truth rho x = Some b -> forall b', truth rho n = Some b' -> b' = negb b.
  Proof.
    intros Hn Hb b' Hb'. assert (n = DOp [x] Ulnot \/ exists l, x = DOp (n :: l) Ulnot) as [->|[l ->]].
    { destruct x as [ | | | | |l o| | | | | | | | | ]; unfold negation in Hn; try (apply mkOp_ok in Hn; auto; fail). destruct o; try (apply mkOp_ok in Hn; auto; fail).
      destruct l as [|y l]; [discriminate|]. injection Hn as <-. eauto. }
    - rewrite truth_lnot, Hb in Hb'. cbn in Hb'. congruence.
    - destruct l as [|y l].
      + rewrite truth_lnot, Hb' in Hb. cbn in Hb. injection Hb as <-. now rewrite negb_involutive.
      + exfalso. unfold truth, value in Hb. cbn in Hb. destruct (fst (ev rho n)); cbn in Hb; [|discriminate].
        destruct (fst (ev rho y)); cbn in Hb; [|discriminate]. destruct (all_some _); discriminate.
  Qed.
  Lemma total_in o l b y : total o l = Some b -> In y l -> exists c, truth rho y = Some c.
  Proof. rewrite total_spec. intros (bs & F & _) Hy. induction F; [destruct Hy|]. destruct Hy as [->|Hy]; eauto. Qed.
  Lemma total_absorb o l b y c : total o l = Some b -> In y l -> truth rho y = Some c -> comb o b c = b.
  Proof.
    rewrite total_spec. intros (bs & F & ->) Hy Hc. induction F as [|u v l l' Hu F IH]; [destruct Hy|]. cbn [fold_right].
    destruct Hy as [->|Hy].
    - assert (v = c) by congruence. subst. destruct o; cbn; destruct c; cbn; rewrite ?andb_true_r, ?orb_false_r, ?andb_false_r, ?orb_true_r; reflexivity.
    - specialize (IH Hy). destruct o; cbn [comb] in *; try (rewrite <- orb_assoc, IH; reflexivity). rewrite <- andb_assoc, IH. reflexivity.
  Qed.
  Definition zero_of (o : op) : bool := match o with Land => false | _ => true end.

  Lemma dedup_total o l : o = Land \/ o = Lor -> forall acc r b c, dedup l acc = Ok r -> total o acc = Some b -> total o l = Some c ->
    match r with Some l' => total o l' = Some (comb o b c) | None => comb o b c = zero_of o end.
  Proof.
    intros Ho. induction l as [|x l IH]; intros acc r b c H Ha Hl; cbn [dedup] in H.
    - injection H as <-. rewrite Ha. f_equal. destruct Ho as [->| ->]; injection Hl as <-; cbn; now rewrite ?andb_true_r, ?orb_false_r.
    - assert (exists bx bl, truth rho x = Some bx /\ total o l = Some bl /\ c = comb o bx bl) as (bx & bl & Hx & Hbl & ->).
      { apply total_spec in Hl as (bs & F & ->). inv F. exists y, (fold_right (comb o) (match o with Land => true | _ => false end) l'). split; auto. split; auto.
        apply total_spec. eauto. }
      unbind H. unbind H. destruct r1.
      + injection H as <-. apply memM_true in B0 as (y & Hy & Heq). destruct (total_in _ _ _ _ Ha Hy) as [cy Hcy].
        assert (cy = negb bx) as Hneg by (eapply negation_truth; eauto; rewrite (eq_truth _ _ Heq); auto).
        pose proof (total_absorb _ _ _ _ _ Ha Hy Hcy) as Hab. subst cy. clear - Hab Ho. destruct Ho as [->| ->]; cbn in *; destruct b, bx, bl; cbn in *; congruence.
      + unbind H. destruct r1.
        * apply memM_true in B1 as (y & Hy & Heq). rewrite (eq_truth _ _ Heq) in Hx. pose proof (total_absorb _ _ _ _ _ Ha Hy Hx) as Hab.
          specialize (IH _ _ _ _ H Ha Hbl). replace (comb o b (comb o bx bl)) with (comb o b bl); auto.
          rewrite <- Hab at 1. destruct Ho as [->| ->]; cbn; now rewrite ?andb_assoc, ?orb_assoc.
        * assert (total o (acc ++ [x]) = Some (comb o b bx)) as Ha'.
          { apply total_app; auto. apply total_spec. exists [bx]. split; [repeat constructor; auto|]. destruct Ho as [->| ->]; cbn; now rewrite ?andb_true_r, ?orb_false_r. }
          specialize (IH _ _ _ _ H Ha' Hbl). replace (comb o b (comb o bx bl)) with (comb o (comb o b bx) bl); auto.
          destruct Ho as [->| ->]; cbn; now rewrite ?andb_assoc, ?orb_assoc.
  Qed.

  Section Sort.
  Variable tocode : df -> res string.
  Lemma sort_desc_perm l l' : sort_desc tocode l = Ok l' -> Permutation l l'.
  Proof.
    unfold sort_desc. intros H. unbind H. injection H as <-. apply mapM_ok_Forall2 in B. apply Forall2_len in B.
    transitivity (map snd (combine r l)).
    - replace (map snd (combine r l)) with l; auto. revert r B. induction l as [|x l IH]; intros [|y r] B; try discriminate; auto. cbn. f_equal. apply IH. simpl in B; lia.
    - apply Permutation_map, sort_by_perm.
  Qed.
  Lemma chain_merge_total o l x b : o = Land \/ o = Lor -> chain_merge tocode (if op_beq o Land then 0 else 1) l = Ok x -> total o l = Some b ->
    exists t r, x = inr (t :: r) /\ total o (t :: r) = Some b \/ x = inr [] /\ l = [].
  Proof.
    intros Ho H Hl. unfold chain_merge in H. unbind H.
    assert (total o [] = Some (match o with Land => true | _ => false end)) as H0 by (destruct o; reflexivity).
    pose proof (dedup_total o l Ho [] r _ b B H0 Hl) as K.
    assert (comb o (match o with Land => true | _ => false end) b = b) as Hu by (destruct Ho as [->| ->]; reflexivity). rewrite Hu in K.
    destruct r as [l'|].
    - unbind H. injection H as <-. apply sort_desc_perm in B0. pose proof (total_perm _ _ _ _ B0 K) as Kr.
      destruct r as [|t r].
      + exists DNone, []. right. split; auto. apply Permutation_sym, Permutation_nil in B0. subst l'.
        destruct l as [|x l]; auto. exfalso. cbn [dedup] in B. unbind B. cbn in B. clear - B.
        assert (forall l acc r, dedup l acc = Ok (Some r) -> acc <> [] -> r <> []) as D.
        { clear. induction l as [|x l IH]; intros acc r H Hn; cbn in H; [congruence|]. unbind H. unbind H. destruct r1; [discriminate|]. unbind H.
          apply (IH _ _ H). destruct r1; auto. now destruct acc. }
        apply (D _ _ _ B); [discriminate|reflexivity].
      + exists t, r. auto.
    - injection H as <-. eexists _, []. left. split; eauto. subst b. destruct Ho as [->| ->]; reflexivity.
  Qed.
  Lemma join_total o l : o = Land \/ o = Lor -> forall acc t b, join o acc l = Ok t -> total o (acc :: l) = Some b -> truth rho t = Some b.
  Proof.
    intros Ho. induction l as [|x l IH]; intros acc t b H Hb; cbn [join] in H.
    - injection H as <-. apply total_spec in Hb as (bs & F & ->). inversion F as [|? y ? bs' Hy F']; subst. inversion F'; subst. rewrite Hy. destruct Ho as [->| ->]; cbn; now rewrite ?andb_true_r, ?orb_false_r.
    - unbind H. apply mkOp_ok in B. subst r. apply (IH _ _ _ H). apply total_spec in Hb as (bs & F & ->). inversion F as [|? y ? bs' Hy F']; subst. inversion F' as [|? y' ? bs'' Hy' F'']; subst. apply total_spec.
      exists (comb o y y' :: bs''). split; [constructor; auto|].
      + destruct Ho as [->| ->]; [rewrite truth_land|rewrite truth_lor]; rewrite Hy, Hy'; reflexivity.
      + destruct Ho as [->| ->]; cbn; now rewrite ?andb_assoc, ?orb_assoc.
  Qed.
  Lemma unflat_total o x t b : o = Land \/ o = Lor -> unflat o x = Ok t -> total o (flat x) = Some b -> flat x <> [] -> truth rho t = Some b.
  Proof.
    intros Ho. destruct x as [u|[|u r]]; cbn [unflat flat]; intros H Hb Hn.
    - injection H as <-. apply (join_total o [] Ho u u b); auto.
    - congruence.
    - eapply join_total; eauto.
  Qed.
  Lemma truth_arity2 o a b c l x : o = Land \/ o = Lor -> truth rho (DOp (a :: b :: c :: l) o) = Some x -> False.
  Proof.
    intros Ho H. apply truth_inv in H as (v & H & _). unfold value in H. cbn [ev map fst] in H.
    destruct Ho as [->| ->]; cbn in H; destruct (fst (ev rho a)); try discriminate; destruct (fst (ev rho b)); try discriminate; destruct (fst (ev rho c)); try discriminate;
      destruct (all_some _); discriminate.
  Qed.

  Lemma land_go_truth t : forall x b, land_go tocode t = Ok x -> truth rho t = Some b -> alltrue (flat x) = Some b /\ flat x <> [].
  Proof.
    assert (forall t b, truth rho t = Some b -> alltrue (flat (inl t)) = Some b /\ flat (inl t) <> []) as HI.
    { intros u b Hb. cbn. rewrite Hb. cbn. rewrite andb_true_r. split; [auto|discriminate]. }
    induction t using df_ind'; intros y b Hx Hb; cbn [land_go] in Hx; try (injection Hx as <-; auto; fail).
    destruct o; try (injection Hx as <-; auto; fail). destruct l as [|p [|q l]]; [discriminate|unbind Hx; discriminate|].
    destruct l; [|exfalso; eapply truth_arity2; [|exact Hb]; auto]. unbind Hx. unbind Hx. inversion H as [|? ? IHa H' E1]; subst. inversion H' as [|? ? IHb _ E2]; subst.
    rewrite truth_land in Hb. apply tand_some in Hb as (c & d & Hc & Hd & ->).
    destruct (IHa _ _ B Hc) as [Ta Na]. destruct (IHb _ _ B0 Hd) as [Tb Nb].
    pose proof (total_app Land _ _ _ _ Ta Tb) as T.
    destruct (chain_merge_total Land _ _ _ (or_introl eq_refl) Hx T) as (u & v & [[-> K]|[-> K]]).
    - split; [exact K|discriminate].
    - exfalso. apply Na. now apply app_eq_nil in K.
  Qed.
  Lemma mergeLand_truth t r b : mergeLand tocode t = Ok r -> truth rho t = Some b -> truth rho r = Some b.
  Proof.
    unfold mergeLand. intros H Hb. unbind H. destruct (land_go_truth _ _ _ B Hb) as [T N]. eapply (unflat_total Land); eauto.
  Qed.
  Lemma lor_go_truth t : forall x b, lor_go tocode t = Ok x -> truth rho t = Some b -> anytrue (flat x) = Some b /\ flat x <> [].
  Proof.
    assert (forall t b, truth rho t = Some b -> anytrue (flat (inl t)) = Some b /\ flat (inl t) <> []) as HI.
    { intros u b Hb. cbn. rewrite Hb. cbn. rewrite orb_false_r. split; [auto|discriminate]. }
    induction t using df_ind'; intros y b Hx Hb; cbn [lor_go] in Hx; try (injection Hx as <-; auto; fail).
    destruct o; try (injection Hx as <-; auto; fail).
    - unbind Hx. injection Hx as <-. apply HI. eapply mergeLand_truth; eauto.
    - destruct l as [|p [|q l]]; [discriminate|unbind Hx; discriminate|].
      destruct l; [|exfalso; eapply truth_arity2; [|exact Hb]; auto]. unbind Hx. unbind Hx. inversion H as [|? ? IHa H' E1]; subst. inversion H' as [|? ? IHb _ E2]; subst.
      rewrite truth_lor in Hb. apply tor_some in Hb as (c & d & Hc & Hd & ->).
      destruct (IHa _ _ B Hc) as [Ta Na]. destruct (IHb _ _ B0 Hd) as [Tb Nb].
      pose proof (total_app Lor _ _ _ _ Ta Tb) as T.
      destruct (chain_merge_total Lor _ _ _ (or_intror eq_refl) Hx T) as (u & v & [[-> K]|[-> K]]).
      + split; [exact K|discriminate].
      + exfalso. apply Na. now apply app_eq_nil in K.
  Qed.
  Lemma mergeLor_truth t r b : mergeLor tocode t = Ok r -> truth rho t = Some b -> truth rho r = Some b.
  Proof.
    unfold mergeLor. intros H Hb. unbind H. destruct (lor_go_truth _ _ _ B Hb) as [T N]. eapply (unflat_total Lor); eauto.
  Qed.
  End Sort.
End Ev.
