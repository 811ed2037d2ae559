(** HierMain.v - simplification preserves what its context asks for. *)
From Verif Require Import Base ScopeModel DfModel DfProofs BindModel OptModel OptSpec OptArith OptProofs OptProofs2 HierModel HierSpec HierProofs HierProofs2 HierProofs3 HierConcat.
Local Open Scope Z_scope.

Section Main.
  Variable (E : optenv) (rho : venv) (log2i : Z -> option Z) (tocode : df -> res string).
  Hypothesis HR : respects rho.
  Hypothesis HD : declared E rho.
  Hypothesis HL : forall v p, log2i v = Some p -> 0 <= p /\ v = 2 ^ p.

  Definition pipe (k : nat) (t1 : df) : res df :=
    do t2 <- replaceOperator log2i t1; do t3 <- mergeIdentical t2; do t4 <- mergeStatic E k t3; mergeLor tocode t4.
  Lemma optH_op k l o : optH E log2i tocode k (DOp l o) = (do l' <- mapM (optH E log2i tocode k) l; do t1 <- mkOp l' o; pipe k t1).
  Proof. reflexivity. Qed.

  Lemma op_keepV l l' o : Forall2 (keepV rho) l l' -> (by_width o = true -> Forall2 (keepW rho) l l') -> keepV rho (DOp l o) (DOp l' o).
  Proof.
    intros HV HW v. unfold value. cbn [ev fst]. fold (by_width o). destruct (all_some (map fst (map (ev rho) l))) as [vs|] eqn:Ev; [|discriminate].
    rewrite (all_some_F2 _ _ _ (list_keepV _ _ _ HV) Ev). cbn [obind]. unfold by_width in *. destruct (width_op o || op_beq o Srl || op_beq o Xnor); auto.
    destruct (all_some (map snd (map (ev rho) l))) as [ws|] eqn:Ew; [|discriminate]. now rewrite (all_some_F2 _ _ _ (list_keepW _ _ _ (HW eq_refl)) Ew).
  Qed.
  Lemma op_keepW l l' o : Forall2 (keepW rho) l l' -> keepW rho (DOp l o) (DOp l' o).
  Proof.
    intros HW w. unfold width. cbn [ev snd]. destruct (bool_op o); auto. destruct (left_op o).
    - inversion HW as [|a b x y Hab]; subst; [auto|]. cbn [map]. apply Hab.
    - destruct (all_some (map snd (map (ev rho) l))) as [ws|] eqn:Ew; [|discriminate]. now rewrite (all_some_F2 _ _ _ (list_keepW _ _ _ HW) Ew).
  Qed.

  Lemma pow2_ok t p : pow2 log2i t = Some p -> 0 <= p /\ value rho t = Some (2 ^ p).
  Proof.
    unfold pow2. destruct t; try discriminate. destruct value as [z| | |]; try discriminate. destruct (z <=? 0); [discriminate|]. intros H. apply HL in H as [H ->]. auto.
  Qed.
  Lemma replace_ok c a b o r : o = Times \/ o = Divide -> (o = Divide -> forall v, value rho a = Some v -> 0 <= v) ->
    replaceOperator log2i (DOp [a; b] o) = Ok r -> ok rho c (DOp [a; b] o) r.
  Proof.
    intros Ho Hd H.
    assert (forall x p o', o' = Sll \/ o' = Sra -> (forall v, value rho (DOp [a; b] o) = Some v -> value rho (DOp [x; pint p] o') = Some v) -> ok rho c (DOp [a; b] o) (DOp [x; pint p] o')) as K.
    { intros x p o' Ho' Hv. split; [now apply value_preserved|]. split; [destruct Ho' as [->| ->]; exact I|]. intros Q HQ _. destruct Ho' as [->| ->]; apply HQ; exact I. }
    assert (ok rho c (DOp [a; b] o) (DOp [a; b] o)) as K0 by (apply ok_refl; destruct Ho as [->| ->]; exact I).
    destruct Ho as [->| ->]; cbn [replaceOperator nextnode nth_error bind] in H.
    - destruct (pow2 log2i b) as [p|] eqn:Eb.
      + apply mkOp_ok in H. subst. apply pow2_ok in Eb as [Hp Hb]. apply K; auto. intros v Hv. apply value_bin in Hv as (p' & q' & x & y & Hl & Hx & Hy & Hv); try reflexivity. injection Hl as <- <-.
        rewrite Hb in Hy. injection Hy as <-. rewrite (value_op2 _ _ _ _ x p); auto. cbn in *. destruct (Z.ltb_spec p 0); [lia|auto].
      + destruct (pow2 log2i a) as [p|] eqn:Ea; [|injection H as <-; auto]. apply mkOp_ok in H. subst. apply pow2_ok in Ea as [Hp Ha]. apply K; auto.
        intros v Hv. apply value_bin in Hv as (p' & q' & x & y & Hl & Hx & Hy & Hv); try reflexivity. injection Hl as <- <-.
        rewrite Ha in Hx. injection Hx as <-. rewrite (value_op2 _ _ _ _ y p); auto. cbn in *. destruct (Z.ltb_spec p 0); [lia|]. now rewrite Z.mul_comm.
    - destruct (pow2 log2i b) as [p|] eqn:Eb; [|injection H as <-; auto]. apply mkOp_ok in H. subst. apply pow2_ok in Eb as [Hp Hb]. apply K; auto.
      intros v Hv. apply value_bin in Hv as (p' & q' & x & y & Hl & Hx & Hy & Hv); try reflexivity. injection Hl as <- <-.
      rewrite Hb in Hy. injection Hy as <-. rewrite (value_op2 _ _ _ _ x p); auto. cbn in *. destruct (Z.ltb_spec p 0); [lia|]. destruct (Z.eqb_spec (2 ^ p) 0); [discriminate|].
      injection Hv as <-. f_equal. symmetry. apply Z.quot_div_nonneg; [apply (Hd eq_refl _ Hx)|apply Z.pow_pos_nonneg; lia].
  Qed.
  Lemma replace_id l o : o <> Times -> o <> Divide -> replaceOperator log2i (DOp l o) = Ok (DOp l o).
  Proof. destruct o; try congruence; reflexivity. Qed.
  Lemma pipe_ok c k l o r : chain rho c (DOp l o) -> length l = arity o ->
    (o = Divide -> exists a b, l = [a; b] /\ forall v, value rho a = Some v -> 0 <= v) ->
    pipe k (DOp l o) = Ok r -> ok rho c (DOp l o) r.
  Proof.
    intros Hc Hl Hd H. unfold pipe in H. unbind H. unbind H. unbind H.
    assert (ok rho c (DOp l o) r0) as K.
    { assert (o = Times \/ o = Divide \/ o <> Times /\ o <> Divide) as [->|[->|[N1 N2]]] by (destruct o; auto; right; right; split; discriminate).
      - destruct l as [|a [|b [|x l]]]; try discriminate. eapply replace_ok; eauto. discriminate.
      - destruct (Hd eq_refl) as (a & b & -> & Hv). eapply replace_ok; eauto.
      - rewrite replace_id in B by auto. injection B as <-. now apply ok_refl. }
    eapply ok_trans; [exact K|]. intros C0. eapply ok_trans; [eapply mergeIdentical_ok; eauto|]. intros C1.
    eapply ok_trans; [eapply mergeStatic_ok; eauto|]. intros C2. eapply mergeLor_ok; eauto.
  Qed.
  Definition chained (o : op) : bool := match o with And | Or | Land | Lor => true | _ => false end.
  Lemma pipe_plain k l o r : chained o = false -> o <> Times -> o <> Divide -> pipe k (DOp l o) = Ok r ->
    r = DOp l o \/ bool_op o = true /\ exists z, r = pintw z 1.
  Proof.
    intros Hc N1 N2 H. unfold pipe in H. rewrite replace_id in H by auto. cbn [bind] in H. unbind H. unbind H.
    assert (r0 = DOp l o \/ bool_op o = true /\ exists z, r0 = pintw z 1) as K.
    { unfold mergeIdentical in B. destruct l as [|a [|b l]]; [discriminate|injection B as <-; auto|]. cbn [nextnode nth_error bind] in B. unbind B.
      destruct r2; [|injection B as <-; auto]. destruct o; try discriminate; try (injection B as <-; auto); right; eauto. }
    destruct K as [->|[Hb [z ->]]].
    - assert (r1 = DOp l o) as ->.
      { unfold mergeStatic in B0. destruct l as [|a [|b l]]; [discriminate|injection B0 as <-; auto|]. cbn [nextnode nth_error bind] in B0. destruct o; try discriminate; injection B0 as <-; auto. }
      destruct o; try discriminate; injection H as <-; auto.
    - cbn in B0. injection B0 as <-. cbn in H. injection H as <-. right. split; [exact Hb|exists z; reflexivity].
  Qed.

  (** ** Rigid trees *)
  Definition plain (t : df) : Prop := match t with DOp _ o => chained o = false | DConcat _ | DBranch _ _ _ => False | _ => True end.
  Lemma plain_chain c t : plain t -> chain rho c t.
  Proof. destruct t as [ | | | | |l o| | | | | | | | | ]; cbn; auto. destruct o; try discriminate; auto. all: destruct l as [|? [|? [|? ?]]]; exact I || auto. Qed.
  Definition keepH (t t' : df) : Prop := (heads no_not t -> heads no_not t') /\ (heads (bit_not rho) t -> heads (bit_not rho) t').
  Lemma keepH_good t t' : heads no_not t' -> heads (bit_not rho) t' -> keepH t t'.
  Proof. split; auto. Qed.
  Lemma onebit_keep t t' : keepV rho t t' -> keepW rho t t' -> onebit rho t -> onebit rho t'.
  Proof. intros HV HW [H1 (v & Hv & H2)]. split; auto. exists v. auto. Qed.
  Lemma plain_keepH l l' o : chained o = false -> (o = Unot -> Forall2 (keepV rho) l l' /\ Forall2 (keepW rho) l l') -> keepH (DOp l o) (DOp l' o).
  Proof.
    intros Hc HU. assert (o = Unot \/ o <> Unot) as [->|Hn] by (destruct o; auto; right; discriminate).
    - destruct (HU eq_refl) as [HV HW]. split; [intros []|]. cbn. clear HU Hc. induction HV as [|a b x y Hab HV IH]; intros H; auto. inversion H; subst. inversion HW; subst.
      constructor; eauto using onebit_keep.
    - destruct o; try discriminate; try congruence; split; cbn; auto.
  Qed.

  Theorem rigid_ok k t : rigid t -> forall t', optH E log2i tocode k t = Ok t' ->
    keepV rho t t' /\ keepW rho t t' /\ plain t' /\ keepH t t' /\ (whole rho t -> whole rho t').
  Proof.
    induction t as [ |n|s|s|s|l o IH|v m l IHv IHm IHl|v p IHv IHp|l IH|c a b IHc IHt IHf|v w f s|w|w|t IH|s l IH] using df_ind'; intros Hr t' H;
      try (injection H as <-; split; [intros ? ?; auto|]; split; [intros ? ?; auto|]; split; [exact I|]; split; [split; auto|auto]; fail);
      inversion Hr; subst; try discriminate.
    - (* operators *)
      rewrite optH_op in H. unbind H. unbind H. apply mkOp_ok in B0. subst r0. rename r into l'. apply mapM_ok_Forall2 in B.
      assert (chained o = false) as Hc by (match goal with K : _ \/ o = Ulnot |- _ => destruct K as [K| ->]; auto; destruct o; try discriminate; auto end).
      assert (Forall2 (keepV rho) l l' /\ Forall2 (keepW rho) l l') as [HV HW].
      { match goal with K : Forall rigid l |- _ => revert K end. clear - B IH. revert IH. induction B as [|x y l l' Hxy B IHB]; intros IH K; [split; constructor|].
        inversion IH as [|? ? I1 I2]; subst. inversion K as [|? ? K1 K2]; subst. destruct (IHB I2 K2). destruct (I1 K1 _ Hxy) as (V1 & W1 & _). split; constructor; auto. }
      assert (length l' = arity o) as Hl' by (match goal with K : length l = _ |- _ => rewrite <- K end; symmetry; eapply Forall2_len; eauto).
      pose proof (op_keepV l l' o HV (fun _ => HW)) as KV. pose proof (op_keepW l l' o HW) as KW. pose proof (plain_keepH l l' o Hc (fun _ => conj HV HW)) as KH.
      destruct (pipe_ok CValue k l' o t') as (P1 & P2 & P3); auto; [apply plain_chain; exact Hc|congruence|].
      split; [intros x Hx; apply P1, KV, Hx|]. destruct (pipe_plain _ _ _ _ Hc ltac:(assumption) ltac:(assumption) H) as [->|[Hb [z ->]]].
      + split; [exact KW|]. split; [exact Hc|]. split; [exact KH|auto].
      + split; [|split; [exact I|split; [split; intros; exact I|intros; exact I]]]. intros x Hx. apply KW in Hx. unfold width in Hx. cbn [ev snd] in Hx. rewrite Hb in Hx. exact Hx.
    - (* slices *)
      cbn [optH bind] in H. unfold val_zero, int_attr in H. cbn [bind value_attr] in H. destruct (Z.eqb_spec l0 0) as [->|N].
      + unbind H. destruct (Z.eqb_spec r (m0 + 1)) as [->|N]; injection H as <-.
        * pose proof (getWidth_term _ _ HD _ _ _ B) as G. destruct (getWidth_known _ _ HD _ _ _ B) as [G1 G2].
          split; [|split; [|split; [exact I|split; [split; intros; exact I|intros; exact I]]]].
          -- intros v. unfold value. cbn [ev fst]. destruct (_ && _); [|discriminate]. cbn [obind fst]. intros K. injection K as <-. f_equal. rewrite Z.div_1_r. symmetry. apply low_small. replace (m0 - 0 + 1) with (e_wid rho n) by lia. auto.
          -- intros w. unfold width. cbn [ev snd fst]. destruct (_ && _); [|discriminate]. cbn. intros K. injection K as <-. f_equal. lia.
        * split; [intros ? ?; auto|split; [intros ? ?; auto|split; [exact I|split; [split; auto|auto]]]].
      + injection H as <-. split; [intros ? ?; auto|split; [intros ? ?; auto|split; [exact I|split; [split; auto|auto]]]].
    - (* elements *)
      cbn [optH bind] in H. unbind H. injection H as <-. destruct (IHp ltac:(assumption) _ B) as (KV & KW & _). split; [|split; [|split; [exact I|split; [split; intros; exact I|auto]]]].
      + intros v. unfold keepV, value in *. cbn [ev fst]. destruct (e_arr rho n); cbn [fst]; destruct (fst (ev rho p)) as [i|]; cbn [obind]; try discriminate; rewrite (KV i eq_refl); auto.
      + intros w. unfold width. cbn [ev snd]. destruct (e_arr rho n); auto.
  Qed.

  (** ** Concatenations *)
  Record cclosed (C : df -> Prop) : Prop := CC {
    cc_leaf : forall t, leaf t = true -> C t;
    cc_part : forall v m l, C (DPart v m l);
    cc_branch : forall c c' a b a' b' ta ta' fb fb', C (DBranch c a b) -> C (DBranch c' a' b') ->
      (ta = a \/ leaf ta = true) -> (ta' = a' \/ leaf ta' = true) -> (fb = b \/ leaf fb = true) -> (fb' = b' \/ leaf fb' = true) ->
      C (DBranch c (DConcat [ta; ta']) (DConcat [fb; fb'])) }.
  Lemma cclosed_heads Q : good Q -> cclosed (heads Q).
  Proof.
    intros HQ. assert (forall t, leaf t = true -> heads Q t) as HF by (intros t Ht; destruct t; try discriminate; apply HQ; exact I). split; auto.
    - intros. apply HQ. exact I.
    - intros c c' a b a' b' ta ta' fb fb' [H1 H2] [H3 H4] K1 K2 K3 K4. cbn.
      destruct K1 as [->|K1], K2 as [->|K2], K3 as [->|K3], K4 as [->|K4]; auto 10.
  Qed.
  Definition nochain (t : df) : Prop := match t with DOp _ o => chained o = false | _ => True end.
  Lemma nochain_chain c t : nochain t -> chain rho c t.
  Proof. destruct t as [ | | | | |l o| | | | | | | | | ]; cbn; auto. apply (plain_chain c (DOp l o)). Qed.
  Lemma cclosed_nochain : cclosed nochain.
  Proof. split; try (intros; exact I). intros t Ht. destruct t; try discriminate; exact I. Qed.
  Lemma tl_C {A} (C : A -> Prop) l : Forall C l -> Forall C (tl l).
  Proof. destruct 1; cbn; auto. Qed.
  Section CC.
    Variable (C : df -> Prop) (HC : cclosed C).
    Lemma mc_constant_C l : forall cs ret l', Forall C l -> Forall C ret -> mc_constant l cs ret = Ok l' -> Forall C l'.
    Proof.
      induction l as [|n l IH]; intros cs ret l' HF HRet H; cbn [mc_constant] in H; [injection H as <-; now apply Forall_rev|].
      inversion HF; subst. destruct (isEval n).
      - unbind H. refine (IH _ _ _ _ _ H); auto. constructor; [|destruct cs; auto using tl_C]. unfold evalConcat in B. unbind B. injection B as <-. now apply (cc_leaf _ HC).
      - refine (IH _ _ _ _ _ H); auto.
    Qed.
    Lemma mc_undefined_C l : forall w ret, Forall C l -> Forall C ret -> Forall C (mc_undefined l w ret).
    Proof.
      induction l as [|n l IH]; intros w ret HF HRet; [cbn; now apply Forall_rev|]. inversion HF; subst.
      destruct n; cbn [mc_undefined]; apply IH; auto. constructor; [now apply (cc_leaf _ HC)|]. destruct (0 <? w); auto using tl_C.
    Qed.
    Lemma mc_part_C k l : forall last ret l', Forall C l -> Forall C ret -> mc_part E k l last ret = Ok l' -> Forall C l'.
    Proof.
      induction l as [|n l IH]; intros last ret l' HF HRet H; [cbn in H; injection H as <-; now apply Forall_rev|].
      inversion HF; subst. assert (mc_part E k l n (n :: ret) = Ok l' -> Forall C l') as K by (intros K; refine (IH _ _ _ _ _ K); auto).
      cbn [mc_part] in H. destruct last as [ |nm|s|s|s|l0 o|v m l0|v p|l0|c t f|v w0 f g|w0|w0|t|s l0]; try (exact (K H)).
      destruct v; try (exact (K H)). destruct n; try (exact (K H)). destruct n1; try (exact (K H)).
      destruct (chain_eq name name0); cbn [negb] in H; [|exact (K H)]. unbind H. destruct r; [|exact (K H)]. unbind H. unbind H. unbind H.
      refine (IH _ _ _ _ _ H); auto. constructor; [|now apply tl_C]. destruct (r =? r0 - r1 + 1); [now apply (cc_leaf _ HC)|apply (cc_part _ HC)].
    Qed.
    Lemma mc_branch_C k l : forall last ret l', Forall C l -> Forall C ret -> (is_none last = false -> C last) -> mc_branch E k l last ret = Ok l' -> Forall C l'.
    Proof.
      induction l as [|n l IH]; intros last ret l' HF HRet HI H; [cbn in H; injection H as <-; now apply Forall_rev|].
      inversion HF; subst. assert (mc_branch E k l n (n :: ret) = Ok l' -> Forall C l') as K by (intros K; refine (IH _ _ _ _ _ _ K); auto).
      cbn [mc_branch] in H. destruct last as [ |nm|s|s|s|l0 o|v m l0|v p|l0|c t f|v w0 f g|w0|w0|t|s l0]; try (exact (K H)).
      destruct n; try (exact (K H)). unbind H. destruct r; [|exact (K H)]. unbind H. unbind H. unbind H. unbind H.
      assert (forall x y z, arm E k x y = Ok z -> z = x \/ leaf z = true) as KA.
      { intros x y z Hz. unfold arm in Hz. destruct (is_none x); [unbind Hz; injection Hz as <-; auto|injection Hz as <-; auto]. }
      match type of H with mc_branch _ _ _ ?nn _ = _ => assert (C nn) as CN end.
      { eapply (cc_branch _ HC); [apply HI; reflexivity|eassumption|eapply KA; eauto..]. }
      refine (IH _ _ _ _ _ _ H); auto. constructor; auto using tl_C.
    Qed.
  End CC.
  Lemma mergeConcat_C C k l t : cclosed C -> (forall l, Forall C l -> C (DConcat l)) -> Forall C l -> (forall t, In t l -> isConcat t = false) -> mergeConcat E k l = Ok t -> C t.
  Proof.
    intros HC HCC HF HN H. set (D := fun t => C t /\ isConcat t = false).
    assert (cclosed D) as HDD.
    { destruct HC as [A1 A2 A3]. split.
      - intros u Hu. split; auto. destruct u; try discriminate; auto.
      - intros. split; auto.
      - intros c c' a b a' b' ta ta' fb fb' [K1 _] [K2 _] L1 L2 L3 L4. split; auto. eapply A3; eauto. }
    assert (Forall D l) as HF' by (apply Forall_forall; intros x Hx; split; [rewrite Forall_forall in HF; auto|auto]).
    assert (forall l, Forall D l -> Forall C l) as DC by (intros l0 K; eapply Forall_impl; [|exact K]; intros x [? _]; auto).
    assert (forall l, Forall D l -> C (single l)) as HS.
    { intros l0 K. destruct l0 as [|x [|y l0]]; cbn; try (apply HCC, DC, K). inversion K as [|? ? [K1 _] _]; auto. }
    unfold mergeConcat in H. unbind H. rename r into l1. unbind H. rename r into l3.
    pose proof (mc_constant_C D HDD _ _ _ _ HF' (Forall_nil _) B) as F1. pose proof (mc_undefined_C D HDD _ 0 [] F1 (Forall_nil _)) as F2. pose proof (mc_part_C D HDD _ _ _ _ _ F2 (Forall_nil _) B0) as F3.
    destruct (single l3) as [ |nm|s|s|s|l0 o|v m l0|v p|l0|c a b|v w0 f g|w0|w0|u|s l0] eqn:Es; try (injection H as <-; rewrite <- Es; auto; fail).
    unbind H. injection H as <-. assert (l3 = l0) as ->. { destruct l3 as [|x [|y l3]]; cbn in Es; try (injection Es as <-; auto). subst x. inversion F3 as [|? ? K _]; subst. destruct K as [_ K]. discriminate K. }
    apply HS. refine (mc_branch_C D HDD _ _ _ _ _ F3 (Forall_nil _) _ B1). intros K; discriminate K.
  Qed.

  Definition flatten (k : nat) := fix go (l : list df) : res (list df) :=
    match l with
    | [] => Ok []
    | n :: r => do x <- match n with DConcat l' => Ok l' | _ => do n' <- optH E log2i tocode k n; Ok [n'] end; do y <- go r; Ok (x ++ y)
    end.
  Lemma optH_concat k l : optH E log2i tocode k (DConcat l) = (do l' <- flatten k l; mergeConcat E k l').
  Proof. reflexivity. Qed.
  Definition okpart (t : df) : Prop := element rho t /\ rigid t \/ exists l', t = DConcat l' /\ Forall (fun t => element rho t /\ rigid t) l'.
  Lemma rigid_plain t : rigid t -> plain t.
  Proof. destruct 1; try exact I; [destruct t; try discriminate; exact I|]. cbn. destruct H as [H| ->]; auto. destruct o; try discriminate; auto. Qed.
  Lemma flatten_ok k l l' : Forall okpart l -> flatten k l = Ok l' ->
    Forall plain l' /\ keepH (DConcat l) (DConcat l') /\ (forall w, W rho l = Some w -> W rho l' = Some w) /\
    forall v, V rho l = Some v -> V rho l' = Some v /\ Forall (element rho) l'.
  Proof.
    intros HF. revert l'. induction HF as [|n l Hn HF IH]; intros l' H; cbn [flatten] in H.
    - injection H as <-. split; auto. split; [split; auto|]. auto.
    - unbind H. unbind H. injection H as <-. destruct (IH _ B0) as (P1 & [P2 P2'] & PW & P3). destruct Hn as [[Hel Hr]|(l1 & -> & Hl1)].
      + assert (exists n', optH E log2i tocode k n = Ok n' /\ r = [n']) as (n' & Hn & ->).
        { destruct n; try (unbind B; injection B as <-; eauto; fail). inversion Hr. discriminate. }
        destruct (rigid_ok _ _ Hr _ Hn) as (KV & KW & Kp & [KH1 KH2] & Kw). split; [constructor; auto|]. split; [|split].
        * split; cbn; intros [H1 H2]; split; auto; [apply P2, H2|apply P2', H2].
        * intros v Hv. cbn [app]. apply W_cons in Hv as (w & x & Hw & Hx & H0 & ->). apply W_cons. exists w, x. auto.
        * intros v Hv. cbn [app]. apply V_cons in Hv as (w & x & u & z & Hw & Hx & H0 & Hu & Hz & ->).
          destruct (P3 _ Hz) as [Q1 Q2]. split.
          -- apply V_cons. exists w, x, u, z. auto 10.
          -- constructor; auto. destruct Hel as [(w' & Hw' & H0' & Hfit) Hwh]. split; auto. rewrite Hw in Hw'. injection Hw' as <-. exists w. split; auto. split; auto.
             intros v Hv. rewrite (KV _ Hu) in Hv. injection Hv as <-. auto.
      + injection B as <-. split; [|split; [|split]].
        * apply Forall_app. split; auto. eapply Forall_impl; [|exact Hl1]. intros t [_ K]. now apply rigid_plain.
        * assert (forall Q, fold_right (fun x P => heads Q x /\ P) True (l1 ++ r0) <-> fold_right (fun x P => heads Q x /\ P) True l1 /\ fold_right (fun x P => heads Q x /\ P) True r0) as HA.
          { intros Q. clear. induction l1; cbn; tauto. }
          split; cbn; rewrite HA; intros [H1 H2]; split; auto; [apply P2, H2|apply P2', H2].
        * intros w Hw. apply W_cons in Hw as (w1 & x & Hw1 & Hx & H0 & ->). rewrite concat_width in Hw1. apply W_app. exists w1, x. auto.
        * intros v Hv. apply V_cons in Hv as (w & x & u & z & Hw & Hx & H0 & Hu & Hz & ->). destruct (P3 _ Hz) as [Q1 Q2]. rewrite concat_width in Hw. rewrite concat_value in Hu. split.
          -- apply V_app. exists u, z, x. split; auto. split; auto. split; auto. rewrite low_small; auto. eapply V_range; eauto.
          -- apply Forall_app. split; auto. eapply Forall_impl; [|exact Hl1]. intros t [K _]. exact K.
  Qed.

  (** ** The main theorem *)
  Lemma chain_weaken c t : chain rho CValue t -> chain rho c t.
  Proof.
    destruct c; auto. induction t as [ |n|s|s|s|l o IH|v m l IHv IHm IHl|v p IHv IHp|l IH|c a b IHc IHt IHf|v w f s|w|w|t IH|s l IH] using df_ind'; auto.
    destruct l as [|a [|b [|x l]]]; try (destruct o; auto; fail). inversion IH as [|? ? Ia IH']; subst. inversion IH' as [|? ? Ib _]; subst.
    destruct o; cbn; auto; intuition congruence.
  Qed.
  Definition good_result (c : ctx) (t t' : df) : Prop := preserved rho c t t' /\ chain rho c t' /\ keepH t t'.
  Lemma ok_result c t t1 r : preserved rho c t t1 -> keepH t t1 -> ok rho c t1 r -> good_result c t r.
  Proof.
    intros HP [H1 H2] (K1 & K2 & K3). split; [eapply preserved_trans; eauto|]. split; auto. split; intros H; apply K3; auto using good_no_not, good_bit_not.
  Qed.
  Lemma kv_preserved c t t' : keepV rho t t' -> preserved rho c t t'.
  Proof. apply value_preserved. Qed.

  Theorem optH_ok k t : forall c t', safe rho c t -> optH E log2i tocode k t = Ok t' -> good_result c t t'.
  Proof.
    assert (forall c t t', rigid t -> optH E log2i tocode k t = Ok t' -> good_result c t t') as HRig.
    { intros c u u' Hr H. destruct (rigid_ok _ _ Hr _ H) as (KV & _ & Kp & KH & _). split; [now apply kv_preserved|]. split; auto. now apply plain_chain. }
    assert (forall l l', Forall (fun t => forall c t', safe rho c t -> optH E log2i tocode k t = Ok t' -> good_result c t t') l ->
      Forall (safe rho CValue) l -> Forall2 (fun x y => optH E log2i tocode k x = Ok y) l l' -> Forall2 (keepV rho) l l') as HList.
    { intros l l' IH HS H. induction H as [|x y l l' Hxy H IHl]; constructor.
      - inversion IH as [|? ? I1 _]; subst. inversion HS as [|? ? S1 _]; subst. destruct (I1 CValue y S1 Hxy) as [K _]. exact K.
      - inversion IH; subst. inversion HS; subst. auto. }
    induction t as [ |n|s|s|s|l o IH|v m l IHv IHm IHl|v p IHv IHp|l IH|x a b IHx IHa IHb|v w f s|w|w|t IH|s l IH] using df_ind'; intros c t' HS H;
      try (eapply HRig; [|exact H]; now apply r_leaf).
    - (* operators *)
      inversion HS; subst; try (eapply HRig; eauto; fail); rewrite optH_op in H; unbind H; rename r into l'; unbind H; apply mkOp_ok in B0; subst r; apply mapM_ok_Forall2 in B.
      + (* ! *)
        inversion B as [|? x' ? ? Hx B']; subst. inversion B'; subst. inversion IH as [|? ? I1 _]; subst.
        match goal with K : safe rho CTruth x |- _ => destruct (I1 _ _ K Hx) as (P1 & P2 & _) end.
        eapply ok_result; [| |refine (pipe_ok _ _ _ _ _ _ _ _ H); [|reflexivity|discriminate]].
        * apply value_preserved. intros v Hv. pose proof Hv as Hv'. apply value_un in Hv' as (q & u & Hq & Hu); [|reflexivity]. injection Hq as <-. rewrite (value_ulnot _ _ _ Hu) in Hv. injection Hv as <-.
          pose proof (P1 _ (val_tr _ _ _ Hu)) as K. apply truth_inv in K as (u' & Hu' & Heq). rewrite (value_ulnot _ _ _ Hu'). destruct (u =? 0), (u' =? 0); cbn in *; congruence.
        * split; auto.
        * exact I.
      + (* && and ||, truth *)
        inversion B as [|? a' ? ? Ha B']; subst. inversion B' as [|? b' ? ? Hb B'']; subst. inversion B''; subst. inversion IH as [|? ? I1 IH']; subst. inversion IH' as [|? ? I2 _]; subst.
        repeat match goal with K : safe rho CTruth ?x, I : forall c t', safe rho c ?x -> _, J : optH _ _ _ _ ?x = Ok _ |- _ => pose proof (I _ _ K J) as (? & ? & [? ?]); clear K I end.
        assert (o = Land \/ o = Lor) as Ho by assumption.
        eapply ok_result; [| |refine (pipe_ok _ _ _ _ _ _ _ _ H); [| |destruct Ho as [->| ->]; discriminate]].
        * intros z Hz. cbn in *. destruct Ho as [->| ->]; rewrite ?truth_land, ?truth_lor in *; [apply tand_some in Hz as (u & w & Hu & Hw & ->)|apply tor_some in Hz as (u & w & Hu & Hw & ->)];
            repeat match goal with K : forall b, truth rho ?x = Some b -> _, J : truth rho ?x = Some _ |- _ => apply K in J end; rewrite Hu, Hw; reflexivity.
        * destruct Ho as [->| ->]; split; cbn; tauto.
        * destruct Ho as [->| ->]; cbn; (split; [auto|split; [auto|split; [discriminate|auto]]]).
        * destruct Ho as [->| ->]; reflexivity.
      + (* && and ||, value *)
        inversion B as [|? a' ? ? Ha B']; subst. inversion B' as [|? b' ? ? Hb B'']; subst. inversion B''; subst. inversion IH as [|? ? I1 IH']; subst. inversion IH' as [|? ? I2 _]; subst.
        repeat match goal with K : safe rho CValue ?x, I : forall c t', safe rho c ?x -> _, J : optH _ _ _ _ ?x = Ok _ |- _ => pose proof (I _ _ K J) as (? & ? & [? ?]); clear K I end.
        assert (o = Land \/ o = Lor) as Ho by assumption.
        eapply ok_result; [| |refine (pipe_ok _ _ _ _ _ _ _ _ H); [| |destruct Ho as [->| ->]; discriminate]].
        * apply kv_preserved, op_keepV; [repeat constructor; auto|destruct Ho as [->| ->]; discriminate].
        * destruct Ho as [->| ->]; split; cbn; tauto.
        * repeat match goal with K : bit rho ?x |- _ => destruct K as (? & ? & ?) end. unfold preserved in *.
          destruct Ho as [->| ->]; cbn; (split; [auto|split; [auto|split; [|auto]]]); intros _; split; eexists; eauto.
        * destruct Ho as [->| ->]; reflexivity.
      + (* & *)
        inversion B as [|? a' ? ? Ha B']; subst. inversion B' as [|? b' ? ? Hb B'']; subst. inversion B''; subst. inversion IH as [|? ? I1 IH']; subst. inversion IH' as [|? ? I2 _]; subst.
        repeat match goal with K : safe rho CValue ?x, I : forall c t', safe rho c ?x -> _, J : optH _ _ _ _ ?x = Ok _ |- _ => pose proof (I _ _ K J) as (? & ? & [? ?]); clear K I end.
        eapply ok_result; [| |refine (pipe_ok _ _ _ _ _ _ _ _ H); [|reflexivity|discriminate]].
        * apply kv_preserved, op_keepV; [repeat constructor; auto|discriminate].
        * split; cbn; tauto.
        * split; now apply chain_weaken.
      + (* | *)
        inversion B as [|? a' ? ? Ha B']; subst. inversion B' as [|? b' ? ? Hb B'']; subst. inversion B''; subst. inversion IH as [|? ? I1 IH']; subst. inversion IH' as [|? ? I2 _]; subst.
        repeat match goal with K : safe rho CValue ?x, I : forall c t', safe rho c ?x -> _, J : optH _ _ _ _ ?x = Ok _ |- _ => pose proof (I _ _ K J) as (? & ? & [? ?]); clear K I end.
        eapply ok_result; [| |refine (pipe_ok _ _ _ _ _ _ _ _ H); [|reflexivity|discriminate]].
        * apply kv_preserved, op_keepV; [repeat constructor; auto|discriminate].
        * split; cbn; tauto.
        * cbn. auto using chain_weaken.
      + (* other operators *)
        assert (logical o = false) as Ho by assumption. assert (chained o = false) as Hc by (destruct o; try discriminate; auto).
        assert (length l = arity o) as Hl by assumption. assert (length l' = arity o) as Hl' by (rewrite <- Hl; symmetry; eapply Forall2_len; eauto).
        assert (Forall2 (keepV rho) l l') as HV by (eapply HList; eauto).
        assert (by_width o = true -> Forall2 (keepW rho) l l') as HW.
        { intros K. match goal with J : by_width o = true -> Forall rigid l |- _ => specialize (J K) as HRg end. clear - B HRg HD HR HL. induction B; constructor; inversion HRg; subst; auto. eapply rigid_ok; eauto. }
        eapply ok_result; [| |refine (pipe_ok _ _ _ _ _ _ Hl' _ H)].
        * apply kv_preserved, op_keepV; auto.
        * apply plain_keepH; auto. intros ->. split; auto.
        * now apply plain_chain.
        * intros ->. match goal with J : Divide = Divide -> _ |- _ => destruct (J eq_refl) as (a & b & va & -> & Hva & Hpos) end. inversion B as [|? a' ? ? Ha B']; subst. inversion B' as [|? b' ? ? Hb B'']; subst. inversion B''; subst.
          exists a', b'. split; auto. intros v Hv. inversion HV as [|? ? ? ? KV1 _]; subst. rewrite (KV1 _ Hva) in Hv. injection Hv as <-. auto.
    - (* part selects *)
      inversion HS; subst; try (eapply HRig; eauto; fail). cbn [optH] in H. unbind H. rename r into m'. unbind H. rename r into l'. cbn [bind] in H.
      match goal with K : safe rho CValue m |- _ => destruct (IHm _ _ K B) as (Pm & _) end. match goal with K : safe rho CValue l |- _ => destruct (IHl _ _ K B0) as (Pl & _) end.
      assert (good_result c (DPart (DTerm n) m l) (DPart (DTerm n) m' l')) as K0.
      { split; [|split; [exact I|split; intros; exact I]]. apply value_preserved. intros v. cbn in Pm, Pl. unfold value in *. cbn [ev].
        destruct (fst (ev rho m)) as [mv|]; [|discriminate]. rewrite (Pm _ eq_refl). destruct (fst (ev rho l)) as [lv|]; [|discriminate]. rewrite (Pl _ eq_refl). auto. }
      destruct m' as [ | | | | | | | | | |mv mw mf mg| | | | ]; try (injection H as <-; exact K0). destruct l' as [ | | | | | | | | | |lv lw lf lg| | | | ]; try (injection H as <-; exact K0).
      cbn [bind val_zero] in H. unbind H. destruct r; [|injection H as <-; exact K0]. unbind H. unbind H. destruct (Z.eqb_spec r (r0 + 1)) as [->|N]; injection H as <-; [|exact K0].
      destruct mv as [mz| | |]; try discriminate. injection B3 as <-. destruct lv as [lz| | |]; try discriminate; [|injection B1 as B1; discriminate B1..]. injection B1 as B1. apply Z.eqb_eq in B1. subst lz.
      split; [|split; [exact I|split; intros; exact I]]. apply value_preserved. intros v Hv.
      pose proof (getWidth_term _ _ HD _ _ _ B2) as G. destruct (getWidth_known _ _ HD _ _ _ B2) as [G1 G2].
      cbn in Pm, Pl. unfold value in *. cbn [ev] in Hv. destruct (fst (ev rho m)) as [mv|]; [|discriminate]. pose proof (Pm _ eq_refl) as Em. injection Em as <-.
      destruct (fst (ev rho l)) as [lv|]; [|discriminate]. pose proof (Pl _ eq_refl) as El. injection El as <-. destruct (_ && _); [|discriminate]. cbn [ev fst obind] in *. rewrite <- Hv.
      f_equal. change (2 ^ 0) with 1. rewrite Z.div_1_r. symmetry. apply low_small. replace (mz - 0 + 1) with (e_wid rho n) by lia. auto.
    - (* pointers *)
      inversion HS; subst; try (eapply HRig; eauto; fail). cbn [optH] in H. unbind H. cbn [bind] in H. injection H as <-.
      match goal with K : safe rho CValue p |- _ => destruct (IHp _ _ K B) as (Pp & _) end. split; [|split; [exact I|split; intros; exact I]].
      apply value_preserved. intros v. cbn in Pp. unfold value in *. cbn [ev fst]. destruct (e_arr rho n); cbn [fst]; (destruct (fst (ev rho p)) as [i|]; [|discriminate]); rewrite (Pp _ eq_refl); auto.
    - (* concatenations *)
      inversion HS; subst; try (eapply HRig; eauto; fail). rewrite optH_concat in H. unbind H. rename r into l'.
      destruct (flatten_ok _ _ _ ltac:(eassumption) B) as (Hp & [G1 G2] & HW & HV). split; [|split].
      + apply value_preserved. intros v Hv. rewrite concat_value in Hv. destruct (HV _ Hv) as [Hv' Hel]. destruct (mergeConcat_ok _ _ HR HD _ _ _ Hel H) as [K _]. apply K. now rewrite concat_value.
      + apply nochain_chain. refine (mergeConcat_C nochain _ _ _ cclosed_nochain _ _ _ H).
        * intros; exact I.
        * eapply Forall_impl; [|exact Hp]. intros u Hu. destruct u; try exact I. exact Hu.
        * intros u Hu. rewrite Forall_forall in Hp. specialize (Hp _ Hu). destruct u; auto. destruct Hp.
      + assert (forall u, In u l' -> isConcat u = false) as HN by (intros u Hu; rewrite Forall_forall in Hp; specialize (Hp _ Hu); destruct u; auto; destruct Hp).
        assert (forall Q, good Q -> heads Q (DConcat l') -> heads Q t') as HQ.
        { intros Q GQ K. refine (mergeConcat_C (heads Q) _ _ _ (cclosed_heads _ GQ) _ _ HN H).
          - intros l0 K0. cbn. induction K0; cbn; auto.
          - cbn in K. clear - K. induction l'; constructor; cbn in K; tauto. }
        split; intros K; apply HQ; auto using good_no_not, good_bit_not.
    - (* branches *)
      inversion HS; subst; try (eapply HRig; eauto; fail). cbn [optH] in H. unbind H. rename r into x'. unbind H. rename r into a'. unbind H. rename r into b'.
      match goal with K : safe rho CTruth x |- _ => destruct (IHx _ _ K B) as (Px & _) end. match goal with K : safe rho c a |- _ => destruct (IHa _ _ K B0) as (Pa & Ca & [Ha1 Ha2]) end.
      match goal with K : safe rho c b |- _ => destruct (IHb _ _ K B1) as (Pb & Cb & [Hb1 Hb2]) end.
      (* the chosen arm *)
      assert (forall t', (forall u, truth rho x = Some u -> preserved rho c (if u then a else b) t') -> preserved rho c (DBranch x a b) t') as KB.
      { intros t0 K. destruct c; cbn in *.
        - intros z Hz. apply truth_inv in Hz as (v & Hv & ->). apply branch_value in Hv as (xv & Hx & Hv). apply (K _ (val_tr _ _ _ Hx)). apply val_tr. destruct (xv =? 0); exact Hv.
        - intros v Hv. apply branch_value in Hv as (xv & Hx & Hv). apply (K _ (val_tr _ _ _ Hx)). destruct (xv =? 0); exact Hv. }
      assert (forall t1, (forall u, truth rho x' = Some u -> forall v, value rho (if u then a' else b') = Some v -> value rho t1 = Some v) ->
        preserved rho c (DBranch x a b) t1) as KC.
      { intros t1 K. apply KB. intros u Hu. specialize (K u (Px _ Hu)). destruct u; (eapply preserved_trans; [eassumption|apply value_preserved; exact K]). }
      assert (good_result c (DBranch x a b) (DBranch x' a' b')) as KD.
      { split; [|split; [exact I|split; cbn; tauto]]. apply KC. intros u Hu v Hv. apply truth_inv in Hu as (xv & Hx & ->). eapply branch_value'; eauto. destruct (xv =? 0); exact Hv. }
      assert ((exists mv mw mf mg, x' = DEval mv mw mf mg) \/ (do e <- df_eq a' b'; Ok (if e then a' else DBranch x' a' b')) = Ok t') as [(mv & mw & mf & mg & ->)|K] by (destruct x'; eauto 6).
      + unbind H. injection H as <-. destruct mv as [z| | |]; cbn in B2; try discriminate; injection B2 as <-.
        * split; [|split; [destruct (negb (z =? 0)); auto|split; cbn; destruct (negb (z =? 0)); tauto]]. apply KC. intros u Hu v Hv. cbn in Hu. injection Hu as <-. exact Hv.
        * split; [|split; [auto|split; cbn; tauto]]. apply KC. intros u Hu. discriminate.
        * split; [|split; [auto|split; cbn; tauto]]. apply KC. intros u Hu. discriminate.
      + unbind K. injection K as <-. destruct r; [|exact KD]. split; [|split; [exact Ca|split; cbn; tauto]]. apply KC. intros u Hu v Hv. destruct u; auto. rewrite (eq_value rho HR _ _ B2). auto.
    - (* system calls *)
      inversion HS; subst; try (eapply HRig; eauto; fail). cbn [optH] in H. unbind H. injection H as <-. apply mapM_ok_Forall2 in B.
      assert (Forall2 (keepV rho) l r) as HV by (eapply HList; eauto). split; [|split; [exact I|split; intros; exact I]].
      apply value_preserved. intros v. unfold value. cbn [ev fst]. rewrite <- !(map_map (ev rho) fst).
      destruct (all_some (map fst (map (ev rho) l))) as [vs|] eqn:Ev; [|discriminate]. rewrite (all_some_F2 _ _ _ (list_keepV _ _ _ HV) Ev). auto.
  Qed.
End Main.
