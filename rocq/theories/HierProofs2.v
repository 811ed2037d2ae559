(** HierProofs2.v - each simplification rule for operators is sound. *)
From Verif Require Import Base ScopeModel DfModel DfProofs BindModel OptModel OptSpec OptArith OptProofs OptProofs2 HierModel HierSpec HierProofs.
From Coq Require Import Permutation.
Local Open Scope Z_scope.

Lemma rules_inv {A} (l : list (res bool * res A)) d r : rules l d = Ok r ->
  (exists p, In p l /\ fst p = Ok true /\ snd p = Ok r) \/ d = Ok r.
Proof.
  induction l as [|[c x] l IH]; cbn [rules]; [auto|]. intros H. unbind H. destruct r0.
  - left. exists (c, x). cbn. auto.
  - destruct (IH H) as [(p & Hp & K)|K]; [left; exists p; cbn; auto|auto].
Qed.
Lemma andM_true a b : (a &&! b) = Ok true -> a = Ok true /\ b = Ok true.
Proof. destruct a as [[|]|]; cbn; auto; discriminate. Qed.
Lemma opn_true o t : opn o t = Ok true -> exists l, t = DOp l o.
Proof. unfold opn. destruct t; cbn; intros H; try discriminate. injection H as H. apply op_beq_eq in H. subst. eauto. Qed.
Lemma opnn_true o t i : opnn o t i = Ok true -> exists l, nextnode t i = Ok (DOp l o).
Proof. unfold opnn. intros H. unbind H. apply (opn_true o) in H as [l ->]. eauto. Qed.
Lemma eqn_true t i u : eqn t i u = Ok true -> exists x, nextnode t i = Ok x /\ df_eq x u = Ok true.
Proof. unfold eqn. intros H. unbind H. eauto. Qed.
Lemma eqnn_true t i u j : eqnn t i u j = Ok true -> exists x y, nextnode t i = Ok x /\ nextnode u j = Ok y /\ df_eq x y = Ok true.
Proof. unfold eqnn. intros H. unbind H. unbind H. eauto. Qed.
Lemma evn_true t i : evn t i = Ok true -> exists v w f g, nextnode t i = Ok (DEval v w f g).
Proof. unfold evn. intros H. unbind H. injection H as H. apply isEval_inv in H as (v & w & f & g & ->). eauto 8. Qed.
Lemma nenn_true t i u j : nenn t i u j = Ok true -> exists x y, nextnode t i = Ok x /\ nextnode u j = Ok y /\ val_ne x y = Ok true.
Proof. unfold nenn. intros H. unbind H. unbind H. eauto. Qed.
Lemma nextnode_op l o i x : nextnode (DOp l o) i = Ok x -> nth_error l i = Some x.
Proof. cbn. destruct (nth_error l i); congruence. Qed.

Lemma bz_bit b : bz b = 0 \/ bz b = 1. Proof. destruct b; auto. Qed.

Section Rules.
  Variable (E : optenv) (rho : venv).
  Hypothesis HR : respects rho.

  Lemma eval_zero a : (Ok (isEval a) &&! val_zero a) = Ok true -> value rho a = Some 0.
  Proof.
    intros H. apply andM_true in H as [H1 H2]. injection H1 as H1. apply isEval_inv in H1 as (v & w & f & g & ->). cbn in H2.
    destruct v as [v| | |]; try discriminate. injection H2 as H2. apply Z.eqb_eq in H2. subst. reflexivity.
  Qed.
  Lemma eval_pos a : (Ok (isEval a) &&! val_pos a) = Ok true -> exists v, value rho a = Some v /\ 0 < v.
  Proof.
    intros H. apply andM_true in H as [H1 H2]. injection H1 as H1. apply isEval_inv in H1 as (v & w & f & g & ->). cbn in H2.
    destruct v as [v| | |]; try discriminate. injection H2 as H2. apply Z.ltb_lt in H2. exists v. auto.
  Qed.

  (** ** Values of operators *)
  Lemma value_bin o l v : is_unary o = false -> by_width o = false -> value rho (DOp l o) = Some v ->
    exists a b x y, l = [a; b] /\ value rho a = Some x /\ value rho b = Some y /\ op_value o [x; y] 0 = Some v.
  Proof.
    unfold by_width. intros Ho Hw H. unfold value in *. cbn [ev fst] in H. rewrite Hw in H.
    destruct (all_some (map fst (map (ev rho) l))) as [vs|] eqn:Ev; [|discriminate]. cbn [obind] in H.
    assert (exists x y, vs = [x; y]) as (x & y & ->).
    { destruct o; try discriminate; destruct vs as [|x [|y [|z vs]]]; try discriminate; eauto. }
    destruct l as [|a [|b [|c l]]]; cbn in Ev; try discriminate.
    - destruct (fst (ev rho a)); discriminate.
    - destruct (fst (ev rho a)) as [x'|] eqn:Ea; [|discriminate]. destruct (fst (ev rho b)) as [y'|] eqn:Eb; [|discriminate]. injection Ev as -> ->. eauto 10.
    - destruct (fst (ev rho a)); [|discriminate]. destruct (fst (ev rho b)); [|discriminate]. destruct (fst (ev rho c)); [|discriminate].
      destruct (all_some _); discriminate.
  Qed.
  Lemma value_un o l v : is_unary o = true -> value rho (DOp l o) = Some v -> exists a x, l = [a] /\ value rho a = Some x.
  Proof.
    intros Ho H. unfold value in *. cbn [ev fst] in H.
    destruct (all_some (map fst (map (ev rho) l))) as [vs|] eqn:Ev; [|discriminate]. cbn [obind] in H.
    assert (exists x, vs = [x]) as (x & ->).
    { destruct o; try discriminate; cbn in H; try destruct (all_some (map snd (map (ev rho) l))) as [ws|]; try discriminate; cbn in H; destruct vs as [|x [|y vs]]; try discriminate; eauto. }
    destruct l as [|a [|b l]]; cbn in Ev; try discriminate.
    - destruct (fst (ev rho a)) as [x'|] eqn:Ea; [|discriminate]. injection Ev as ->. eauto.
    - destruct (fst (ev rho a)); [|discriminate]. destruct (fst (ev rho b)); [|discriminate]. destruct (all_some (map fst (map (ev rho) l))); discriminate.
  Qed.
  Lemma value_op2 o a b x y : by_width o = false -> value rho a = Some x -> value rho b = Some y -> value rho (DOp [a; b] o) = op_value o [x; y] 0.
  Proof. unfold by_width, value. intros Hw Ha Hb. cbn [ev fst map]. rewrite Hw. cbn. now rewrite Ha, Hb. Qed.
  Lemma value_unot a x : value rho a = Some x -> forall v, value rho (DOp [a] Unot) = Some v ->
    exists w, width rho a = Some w /\ v = all_ones (Z.max w 0) - low x (Z.max w 0).
  Proof.
    unfold value, width. intros Ha v. cbn. rewrite Ha. cbn. destruct (snd (ev rho a)) as [w|]; cbn; [|discriminate]. intros H. injection H as <-. eauto.
  Qed.
  Lemma value_ulnot a x : value rho a = Some x -> value rho (DOp [a] Ulnot) = Some (bz (x =? 0)).
  Proof. unfold value. intros Ha. cbn. now rewrite Ha. Qed.
  Lemma land_compl x w : 0 <= w -> Z.land x (all_ones w - low x w) = 0.
  Proof.
    intros Hw. apply Z.bits_inj'. intros i Hi. rewrite Z.land_spec, Z.bits_0.
    replace (all_ones w - low x w) with (low (Z.lnot x) w).
    2:{ unfold all_ones, low, Z.lnot. replace (Z.pred (- x)) with (-1 - x) by lia. rewrite Zminus_mod. pose proof (Z.pow_pos_nonneg 2 w ltac:(lia) Hw).
        replace (-1) with (2 ^ w - 1 + (-1) * 2 ^ w) by ring. rewrite Z.mod_add by lia. rewrite (Z.mod_small (2 ^ w - 1)) by lia.
        apply Z.mod_small. pose proof (Z.mod_pos_bound x (2 ^ w)). lia. }
    unfold low. destruct (Z.ltb_spec i w).
    - rewrite Z.mod_pow2_bits_low by lia. rewrite Z.lnot_spec by lia. now destruct (Z.testbit x i).
    - rewrite Z.mod_pow2_bits_high by lia. apply andb_false_r.
  Qed.
  Lemma unot_bit a x v : onebit rho a -> value rho a = Some x -> value rho (DOp [a] Unot) = Some v -> (x = 0 \/ x = 1) /\ v = 1 - x.
  Proof.
    intros [Hw Hb] Hx Hv. destruct (value_unot _ _ Hx _ Hv) as (w & Hw' & ->). rewrite Hw in Hw'. injection Hw' as <-.
    destruct Hb as (u & Hu & Hb). rewrite Hx in Hu. injection Hu as <-. destruct Hb as [->| ->]; split; auto.
  Qed.

  (** ** Invariants of simplified trees *)
  Fixpoint chain (c : ctx) (t : df) : Prop :=
    match t with
    | DOp [a; b] (Land | Lor) =>
        heads (bit_not rho) a /\ heads (bit_not rho) b /\ (c = CValue -> bit rho a /\ bit rho b) /\ chain c a /\ chain c b
    | DOp [a; b] And => chain c a /\ chain c b
    | DOp [a; b] Or => heads no_not a /\ heads no_not b /\ chain c a /\ chain c b
    | DOp _ (Land | Lor | And | Or) => False
    | _ => True
    end.
  Definition P (c : ctx) (t : df) : Prop := chain c t /\ heads (bit_not rho) t /\ (c = CValue -> bit rho t).
  Definition good (Q : df -> Prop) : Prop := forall t, no_not t -> Q t.
  Lemma good_no_not : good no_not. Proof. intros t. auto. Qed.
  Lemma good_bit_not : good (bit_not rho). Proof. intros t. destruct t; cbn; auto. destruct operator; cbn; auto; tauto. Qed.
  Definition land_lor (o : op) : Prop := o = Land \/ o = Lor.
  Lemma bit_land_lor l o v : land_lor o -> value rho (DOp l o) = Some v -> v = 0 \/ v = 1.
  Proof.
    intros Ho Hv. apply value_bin in Hv as (a & b & x & y & -> & _ & _ & Hv); [|destruct Ho as [->| ->]; reflexivity..].
    destruct Ho as [->| ->]; cbn in Hv; injection Hv as <-; apply bz_bit.
  Qed.
  Lemma bit_node o a b : land_lor o -> bit rho a -> bit rho b -> bit rho (DOp [a; b] o).
  Proof.
    intros Ho (x & Hx & _) (y & Hy & _). assert (by_width o = false) as Hw by (destruct Ho as [->| ->]; reflexivity).
    unfold bit. rewrite (value_op2 _ _ _ _ _ Hw Hx Hy). destruct Ho as [->| ->]; eexists; (split; [reflexivity|]); apply bz_bit.
  Qed.
  Lemma chain_P c l o : land_lor o -> chain c (DOp l o) -> P c (DOp l o).
  Proof.
    intros Ho H. split; auto. destruct l as [|a [|b [|x l]]]; try (destruct Ho as [->| ->]; destruct H; fail). split.
    - destruct Ho as [->| ->]; cbn in *; tauto.
    - intros ->. apply bit_node; auto; destruct Ho as [->| ->]; cbn in H; tauto.
  Qed.

  (** ** Predicates kept by the rules for && and || *)
  Record closed (C : df -> Prop) : Prop := Closed {
    cl_left : forall o a b l, land_lor o -> C (DOp (a :: b :: l) o) -> C a;
    cl_right : forall o a b l, land_lor o -> C (DOp (a :: b :: l) o) -> C b;
    cl_node : forall o a b, land_lor o -> C a -> C b -> C (DOp [a; b] o);
    cl_const : C (pintw 0 1) /\ C (pintw 1 1) }.
  Lemma closed_P c : closed (P c).
  Proof.
    split.
    - intros o a b l Ho (H1 & H2 & H3). destruct l; [|destruct Ho as [->| ->]; destruct H1]. unfold P.
      destruct Ho as [->| ->]; cbn in *; tauto.
    - intros o a b l Ho (H1 & H2 & H3). destruct l; [|destruct Ho as [->| ->]; destruct H1]. unfold P.
      destruct Ho as [->| ->]; cbn in *; tauto.
    - intros o a b Ho (A1 & A2 & A3) (B1 & B2 & B3). unfold P. split; [|split].
      + destruct Ho as [->| ->]; cbn; tauto.
      + destruct Ho as [->| ->]; cbn; tauto.
      + intros K. now apply bit_node; auto.
    - split; (split; [exact I|split; [exact I|]]); intros _; eexists; (split; [reflexivity|auto]).
  Qed.
  Lemma closed_heads Q : good Q -> closed (heads Q).
  Proof.
    intros HQ. split.
    - intros o a b l Ho H. destruct Ho as [->| ->]; cbn in H; tauto.
    - intros o a b l Ho H. destruct Ho as [->| ->]; cbn in H; tauto.
    - intros o a b Ho Ha Hb. destruct Ho as [->| ->]; cbn; tauto.
    - split; apply HQ; exact I.
  Qed.

  Lemma dedup_nonempty l : forall acc r, dedup l acc = Ok (Some r) -> acc <> [] -> r <> [].
  Proof.
    induction l as [|x l IH]; intros acc r H Hn; cbn in H; [congruence|]. unbind H. unbind H. destruct r1; [discriminate|]. unbind H.
    apply (IH _ _ H). destruct r1; auto. now destruct acc.
  Qed.
  Lemma chain_merge_nonempty tocode u l x : chain_merge tocode u l = Ok x -> l <> [] -> flat x <> [].
  Proof.
    unfold chain_merge. intros H Hl. unbind H. destruct r as [l'|]; [|injection H as <-; discriminate]. unbind H. injection H as <-. cbn [flat].
    intros ->. apply sort_desc_perm, Permutation_sym, Permutation_nil in B0. subst. destruct l as [|x l]; [congruence|]. cbn in B. unbind B.
    eapply dedup_nonempty in B; auto. discriminate.
  Qed.

  Section Closed.
    Variable (C : df -> Prop) (HC : closed C) (tocode : df -> res string).
    Lemma dedup_closed l : forall acc r, Forall C l -> Forall C acc -> dedup l acc = Ok (Some r) -> Forall C r.
    Proof.
      induction l as [|x l IH]; intros acc r Hl Ha H; cbn [dedup] in H; [congruence|]. unbind H. unbind H. destruct r1; [discriminate|]. unbind H.
      inversion Hl; subst. refine (IH _ _ _ _ H); auto. destruct r1; auto. apply Forall_app. split; auto.
    Qed.
    Lemma chain_merge_closed u l x : u = 0 \/ u = 1 -> Forall C l -> chain_merge tocode u l = Ok x -> Forall C (flat x).
    Proof.
      intros Hu Hl H. unfold chain_merge in H. unbind H. destruct r as [l'|].
      - unbind H. injection H as <-. apply sort_desc_perm in B0. cbn [flat]. eapply Permutation_Forall; [exact B0|]. exact (dedup_closed _ _ _ Hl (Forall_nil _) B).
      - injection H as <-. cbn. constructor; auto. destruct (cl_const _ HC). destruct Hu as [->| ->]; auto.
    Qed.
    Lemma land_go_closed t : forall x, C t -> land_go tocode t = Ok x -> Forall C (flat x).
    Proof.
      induction t using df_ind'; intros y Ht Hx; cbn [land_go] in Hx; try (injection Hx as <-; cbn; auto; fail).
      destruct o; try (injection Hx as <-; cbn; auto; fail). destruct l as [|p [|q l]]; [discriminate|unbind Hx; discriminate|].
      unbind Hx. unbind Hx. inversion H as [|? ? IHa H' E1]; subst. inversion H' as [|? ? IHb _ E2]; subst.
      pose proof (cl_left _ HC Land _ _ _ (or_introl eq_refl) Ht) as Ca. pose proof (cl_right _ HC Land _ _ _ (or_introl eq_refl) Ht) as Cb.
      eapply chain_merge_closed; [|apply Forall_app; split; [exact (IHa _ Ca B)|exact (IHb _ Cb B0)]|exact Hx]; auto.
    Qed.
    Lemma join_closed o l : land_lor o -> forall acc t, C acc -> Forall C l -> join o acc l = Ok t -> C t.
    Proof.
      intros Ho. induction l as [|x l IH]; intros acc t Ha Hl H; cbn [join] in H; [congruence|]. unbind H. apply mkOp_ok in B. subst r.
      inversion Hl; subst. refine (IH _ _ _ _ H); auto. now apply (cl_node _ HC).
    Qed.
    Lemma unflat_closed o x t : land_lor o -> Forall C (flat x) -> flat x <> [] -> unflat o x = Ok t -> C t.
    Proof.
      intros Ho Hx Hn H. destruct x as [u|[|u l]]; cbn in *; try congruence; inversion Hx; subst; [congruence|]. eapply join_closed; eauto.
    Qed.
    Lemma land_go_nonempty t : forall x, land_go tocode t = Ok x -> flat x <> [].
    Proof.
      induction t using df_ind'; intros y Hx; cbn [land_go] in Hx; try (injection Hx as <-; discriminate).
      destruct o; try (injection Hx as <-; discriminate). destruct l as [|p [|q l]]; [discriminate|unbind Hx; discriminate|].
      unbind Hx. unbind Hx. inversion H as [|? ? IHa H' E1]; subst. specialize (IHa _ B).
      eapply chain_merge_nonempty; eauto. destruct (flat r); [congruence|discriminate].
    Qed.
    Lemma mergeLand_closed t r : C t -> mergeLand tocode t = Ok r -> C r.
    Proof. unfold mergeLand. intros Ht H. unbind H. eapply (unflat_closed Land); [now left|eapply land_go_closed; eauto|eapply land_go_nonempty; eauto|eauto]. Qed.
    Lemma lor_go_closed t : forall x, C t -> lor_go tocode t = Ok x -> Forall C (flat x) /\ flat x <> [].
    Proof.
      induction t using df_ind'; intros y Ht Hx; cbn [lor_go] in Hx; try (injection Hx as <-; cbn; split; [auto|discriminate]; fail).
      destruct o; try (injection Hx as <-; cbn; split; [auto|discriminate]; fail).
      - unbind Hx. injection Hx as <-. cbn. split; [|discriminate]. constructor; auto. eapply mergeLand_closed; eauto.
      - destruct l as [|p [|q l]]; [discriminate|unbind Hx; discriminate|].
        unbind Hx. unbind Hx. inversion H as [|? ? IHa H' E1]; subst. inversion H' as [|? ? IHb _ E2]; subst.
        pose proof (cl_left _ HC Lor _ _ _ (or_intror eq_refl) Ht) as Ca. pose proof (cl_right _ HC Lor _ _ _ (or_intror eq_refl) Ht) as Cb.
        destruct (IHa _ Ca B) as [F1 N1]. destruct (IHb _ Cb B0) as [F2 N2]. split.
        + eapply chain_merge_closed; [|apply Forall_app; split; [exact F1|exact F2]|exact Hx]; auto.
        + eapply chain_merge_nonempty; eauto. destruct (flat r); [congruence|discriminate].
    Qed.
    Lemma mergeLor_closed t r : C t -> mergeLor tocode t = Ok r -> C r.
    Proof. unfold mergeLor. intros Ht H. unbind H. destruct (lor_go_closed _ _ Ht B). eapply (unflat_closed Lor); eauto. now right. Qed.
  End Closed.
End Rules.
