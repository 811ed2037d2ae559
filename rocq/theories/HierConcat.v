(** HierConcat.v - merging the parts of a concatenation keeps its value and its width. *)
From Verif Require Import Base ScopeModel DfModel DfProofs BindModel OptModel OptSpec OptArith OptProofs OptProofs2 HierModel HierSpec HierProofs.
Local Open Scope Z_scope.

Lemma forallb_map_snd {A} (l : list (A * Z)) : forallb (fun w => 0 <=? w) (map snd l) = forallb (fun p => 0 <=? snd p) l.
Proof. induction l; cbn; congruence. Qed.

Section Concat.
  Variable (E : optenv) (rho : venv).
  Hypothesis HR : respects rho.
  Hypothesis HD : declared E rho.

  Lemma getWidth_term k n w : getWidth E k (DTerm n) = Ok w -> e_wid rho n = w.
  Proof.
    cbn. destruct (dget (o_terms E) n) as [tm|] eqn:Et; [|discriminate]. unfold range_width. intros H. unbind H. unbind H. unbind H. unbind H. injection H as <-.
    destruct (HD _ _ Et) as ((m & l & wm & wl & Fm & Fl & ->) & _).
    destruct (proj1 (folds_optC E) _ _ _ Fm) as [k1 K1]. destruct (proj1 (folds_optC E) _ _ _ Fl) as [k2 K2].
    rewrite (optC_det _ _ _ _ _ _ B (K1 k1 (le_n _))) in B0. rewrite (optC_det _ _ _ _ _ _ B1 (K2 k2 (le_n _))) in B2. cbn in B0, B2.
    injection B0 as <-. injection B2 as <-. reflexivity.
  Qed.
  Lemma getWidth_known k n w : getWidth E k (DTerm n) = Ok w -> 0 <= e_val rho n < 2 ^ e_wid rho n /\ 0 <= e_wid rho n.
  Proof.
    intros H. pose proof (getWidth_term _ _ _ H) as Hw. cbn in H. destruct (dget (o_terms E) n) as [tm|] eqn:Et; [|discriminate].
    destruct (HD _ _ Et) as ((m & l & wm & wl & Fm & Fl & Hw') & Hv & _). split; auto. rewrite Hw'. lia.
  Qed.

  (** Width and value of a list of parts. *)
  Fixpoint W (l : list df) : option Z :=
    match l with
    | [] => Some 0
    | t :: r => obind (width rho t) (fun w => obind (W r) (fun s => if 0 <=? w then Some (w + s) else None))
    end.
  Fixpoint V (l : list df) : option Z :=
    match l with
    | [] => Some 0
    | t :: r => obind (width rho t) (fun w => obind (W r) (fun s => if 0 <=? w then
                obind (value rho t) (fun v => obind (V r) (fun x => Some (low v w * 2 ^ s + x))) else None))
    end.
  Lemma W_spec l : W l = obind (all_some (map snd (map (ev rho) l))) (fun ws => if nonneg ws then Some (sum ws) else None).
  Proof.
    induction l as [|t r IH]; cbn [W map all_some]; auto. unfold width. destruct (snd (ev rho t)) as [w|]; cbn [obind]; auto. rewrite IH.
    destruct (all_some (map snd (map (ev rho) r))) as [ws|]; cbn [obind]; auto. cbn [nonneg forallb sum fold_right]. unfold nonneg.
    destruct (forallb (fun w => 0 <=? w) ws); cbn [obind]; [rewrite andb_true_r|rewrite andb_false_r]; destruct (0 <=? w); auto.
  Qed.
  Lemma cat_acc l acc : forallb (fun p => 0 <=? snd p) l = true -> cat l acc = acc * 2 ^ sum (map snd l) + cat l 0.
  Proof.
    revert acc. induction l as [|[v w] r IH]; intros acc H; cbn [cat map sum fold_right forallb snd] in *; [rewrite Z.pow_0_r; lia|].
    apply andb_true_iff in H as [Hw H]. apply Z.leb_le in Hw. rewrite IH by auto. rewrite (IH (0 * 2 ^ w + low v w)) by auto.
    assert (0 <= sum (map snd r)). { clear IH. induction r as [|[v' w'] r IHr]; cbn in *; [lia|]. apply andb_true_iff in H as [H1 H2]. apply Z.leb_le in H1. specialize (IHr H2). unfold sum in *. lia. }
    unfold sum in *. rewrite Z.pow_add_r by auto. ring.
  Qed.
  Lemma V_spec l : V l = obind (all_some (map snd (map (ev rho) l))) (fun ws => if nonneg ws then
      obind (all_some (map fst (map (ev rho) l))) (fun vs => Some (cat (combine vs ws) 0)) else None).
  Proof.
    induction l as [|t r IH]; cbn [V map all_some]; auto. rewrite W_spec, IH. unfold width, value. destruct (snd (ev rho t)) as [w|]; cbn [obind]; auto.
    destruct (all_some (map snd (map (ev rho) r))) as [ws|] eqn:Ew; cbn [obind]; auto. cbn [nonneg forallb]. unfold nonneg.
    destruct (forallb (fun w => 0 <=? w) ws) eqn:En; cbn [obind]; [rewrite andb_true_r|now rewrite andb_false_r]. destruct (Z.leb_spec 0 w); auto.
    destruct (fst (ev rho t)) as [v|]; cbn [obind]; auto. destruct (all_some (map fst (map (ev rho) r))) as [vs|] eqn:Ev; cbn [obind]; auto. f_equal.
    cbn [combine cat]. assert (length vs = length ws) as HL.
    { apply all_some_inv in Ev, Ew. apply (f_equal (@length _)) in Ev, Ew. rewrite !map_length in *. congruence. }
    assert (map snd (combine vs ws) = ws) as HS. { clear - HL. revert ws HL. induction vs; intros [|y ws] H; try discriminate; auto. cbn. f_equal. apply IHvs. cbn in H; lia. }
    rewrite cat_acc with (acc := 0 * 2 ^ w + low v w); [rewrite HS; lia|]. rewrite <- (forallb_map_snd (combine vs ws)), HS. exact En.
  Qed.
  Lemma concat_width l : width rho (DConcat l) = W l.
  Proof. rewrite W_spec. unfold width. cbn [ev]. destruct (all_some (map snd (map (ev rho) l))) as [ws|]; cbn [obind]; auto. destruct (nonneg ws); auto. Qed.
  Lemma concat_value l : value rho (DConcat l) = V l.
  Proof. rewrite V_spec. unfold value. cbn [ev]. destruct (all_some (map snd (map (ev rho) l))) as [ws|]; cbn [obind]; auto. destruct (nonneg ws); auto. Qed.
  Lemma W_cons t l s : W (t :: l) = Some s <-> exists w x, width rho t = Some w /\ W l = Some x /\ 0 <= w /\ s = w + x.
  Proof.
    cbn [W]. split.
    - destruct (width rho t) as [w|]; cbn; [|discriminate]. destruct (W l) as [x|]; cbn; [|discriminate]. destruct (Z.leb_spec 0 w); [|discriminate].
      intros H0. injection H0 as <-. eauto 6.
    - intros (w & x & -> & -> & H & ->). cbn. destruct (Z.leb_spec 0 w); [reflexivity|lia].
  Qed.
  Lemma V_cons t l y : V (t :: l) = Some y <-> exists w x v z, width rho t = Some w /\ W l = Some x /\ 0 <= w /\ value rho t = Some v /\ V l = Some z /\ y = low v w * 2 ^ x + z.
  Proof.
    cbn [V]. split.
    - destruct (width rho t) as [w|]; cbn; [|discriminate]. destruct (W l) as [x|]; cbn; [|discriminate]. destruct (Z.leb_spec 0 w); [|discriminate].
      destruct (value rho t) as [v|]; cbn; [|discriminate]. destruct (V l) as [z|]; cbn; [|discriminate]. intros H0. injection H0 as <-. eauto 12.
    - intros (w & x & v & z & -> & -> & H & -> & -> & ->). cbn. destruct (Z.leb_spec 0 w); [reflexivity|lia].
  Qed.
  Lemma W_nonneg l s : W l = Some s -> 0 <= s.
  Proof. revert s. induction l as [|t l IH]; intros s H; [injection H as <-; lia|]. apply W_cons in H as (w & x & _ & Hx & Hw & ->). specialize (IH _ Hx). lia. Qed.
  Lemma V_W l v : V l = Some v -> exists s, W l = Some s.
  Proof.
    destruct l as [|t l]; [exists 0; reflexivity|]. intros H. apply V_cons in H as (w & x & _ & _ & Hw & Hx & H0 & _). exists (w + x). apply W_cons. eauto 8.
  Qed.
  Lemma V_range l : forall v s, V l = Some v -> W l = Some s -> 0 <= v < 2 ^ s.
  Proof.
    induction l as [|t l IH]; intros v s Hv Hs; [injection Hv as <-; injection Hs as <-; cbn; lia|].
    apply V_cons in Hv as (w & x & u & z & Hw & Hx & H0 & Hu & Hz & ->). apply W_cons in Hs as (w' & x' & Hw' & Hx' & _ & ->).
    rewrite Hw in Hw'. injection Hw' as <-. rewrite Hx in Hx'. injection Hx' as <-. specialize (IH _ _ Hz Hx). pose proof (W_nonneg _ _ Hx).
    rewrite Z.pow_add_r by auto. pose proof (low_range u w H0). nia.
  Qed.
  Lemma W_app a b s : W (a ++ b) = Some s <-> exists x y, W a = Some x /\ W b = Some y /\ s = x + y.
  Proof.
    revert s. induction a as [|t a IH]; intros s; cbn [app].
    - split; [intros H; exists 0, s; auto|intros (x & y & Hx & Hy & ->); injection Hx as <-; exact Hy].
    - rewrite W_cons. split.
      + intros (w & x & Hw & Hx & H0 & ->). apply IH in Hx as (y & z & Hy & Hz & ->). exists (w + y), z. rewrite W_cons. split; [eauto 8|]. split; [auto|lia].
      + intros (x & y & Hx & Hy & ->). apply W_cons in Hx as (w & z & Hw & Hz & H0 & ->). exists w, (z + y). split; auto. split; [apply IH; eauto|]. split; [auto|lia].
  Qed.
  Lemma V_app a b v : V (a ++ b) = Some v <-> exists x y s, V a = Some x /\ V b = Some y /\ W b = Some s /\ v = x * 2 ^ s + y.
  Proof.
    revert v. induction a as [|t a IH]; intros v; cbn [app].
    - split; [intros H; destruct (V_W _ _ H) as [s Hs]; exists 0, v, s; auto|intros (x & y & s & Hx & Hy & _ & ->); injection Hx as <-; exact Hy].
    - rewrite V_cons. split.
      + intros (w & x & u & z & Hw & Hx & H0 & Hu & Hz & ->). apply IH in Hz as (x1 & y1 & s & H1 & H2 & H3 & ->). apply W_app in Hx as (p & q & Hp & Hq & ->).
        rewrite Hq in H3. injection H3 as <-. exists (low u w * 2 ^ p + x1), y1, q. rewrite V_cons. split; [eauto 12|]. split; auto. split; auto.
        pose proof (W_nonneg _ _ Hp). pose proof (W_nonneg _ _ Hq). rewrite Z.pow_add_r by auto. ring.
      + intros (x & y & s & Hx & Hy & Hs & ->). apply V_cons in Hx as (w & p & u & z & Hw & Hp & H0 & Hu & Hz & ->).
        exists w, (p + s), u, (z * 2 ^ s + y). split; auto. split; [apply W_app; eauto 6|]. split; auto. split; auto. split; [apply IH; eauto 8|].
        pose proof (W_nonneg _ _ Hp). pose proof (W_nonneg _ _ Hs). rewrite Z.pow_add_r by auto. ring.
  Qed.

  (** l' has the width and the value of l, where they are defined. *)
  Definition sim (l l' : list df) : Prop := (forall s, W l = Some s -> W l' = Some s) /\ (forall v, V l = Some v -> V l' = Some v).
  Lemma sim_refl l : sim l l. Proof. split; auto. Qed.
  Lemma sim_trans a b c : sim a b -> sim b c -> sim a c.
  Proof. intros [A1 A2] [B1 B2]. split; auto. Qed.
  Lemma sim_app a a' b b' : sim a a' -> sim b b' -> sim (a ++ b) (a' ++ b').
  Proof.
    intros [A1 A2] [B1 B2]. split.
    - intros s H. apply W_app in H as (x & y & Hx & Hy & ->). apply W_app. exists x, y. auto.
    - intros s H. apply V_app in H as (x & y & w & Hx & Hy & Hw & ->). apply V_app. exists x, y, w. auto.
  Qed.

  (** *** Constants *)
  Lemma evalConcat_go_sum l : forall acc s v w, evalConcat_go l acc s = Ok (v, w) -> forall x, W l = Some x -> w = s + x.
  Proof.
    induction l as [|t l IH]; intros acc s v w H x Hx; cbn [evalConcat_go] in H.
    - injection H as <- <-. injection Hx as <-. lia.
    - destruct t; try discriminate. apply W_cons in Hx as (w0 & y & Hw & Hy & H0 & ->). cbn in Hw. subst width.
      destruct (Z.ltb_spec w0 0); [lia|]. unbind H. rewrite (IH _ _ _ _ H _ Hy). lia.
  Qed.
  Lemma evalConcat_go_cat l : forall acc s v w, Forall (fits rho) l -> evalConcat_go l acc s = Ok (v, w) -> forall x y, W l = Some x -> V l = Some y -> v = acc * 2 ^ x + y.
  Proof.
    induction l as [|t l IH]; intros acc s v w HF H x y Hx Hy; cbn [evalConcat_go] in H.
    - injection H as <- <-. injection Hx as <-. injection Hy as <-. cbn. lia.
    - destruct t; try discriminate. inversion HF as [|? ? F1 F2]; subst. apply W_cons in Hx as (w0 & y0 & Hw & Hy0 & H0 & ->).
      apply V_cons in Hy as (w1 & x1 & u & z & Hw1 & Hx1 & _ & Hu & Hz & ->). rewrite Hy0 in Hx1. injection Hx1 as <-.
      destruct F1 as (w2 & Hw2 & _ & F1). pose proof (F1 _ Hu) as Hfit. rewrite Hw in Hw2. injection Hw2 as <-. clear F1. cbn in Hw. subst width. cbn in Hw1. injection Hw1 as <-. cbn in Hu. destruct value as [zz| | |]; try discriminate. injection Hu as ->.
      destruct (Z.ltb_spec w0 0); [lia|]. cbn [as_int bind] in H. rewrite (IH _ _ _ _ F2 H _ _ Hy0 Hz). rewrite lor_shift by auto.
      pose proof (W_nonneg _ _ Hy0). rewrite Z.pow_add_r by auto. ring.
  Qed.
  Lemma evalConcat_sim cs c : Forall (fits rho) cs -> evalConcat cs = Ok c -> sim cs [c].
  Proof.
    intros HF H. unfold evalConcat in H. unbind H. destruct r as [x s]. injection H as <-. cbn [fst snd]. split.
    - intros w Hw. pose proof (evalConcat_go_sum _ _ _ _ _ B _ Hw) as Hs. apply W_cons. exists w, 0. cbn. pose proof (W_nonneg _ _ Hw). repeat split; auto; try lia. f_equal. lia.
    - intros v Hv. destruct (V_W _ _ Hv) as [w Hw]. pose proof (evalConcat_go_sum _ _ _ _ _ B _ Hw) as Hs. pose proof (evalConcat_go_cat _ _ _ _ _ HF B _ _ Hw Hv) as Hx.
      cbn in Hs. subst s. rewrite Z.mul_0_l in Hx. cbn in Hx. subst x. pose proof (W_nonneg _ _ Hw). pose proof (V_range _ _ _ Hv Hw) as Hr. apply V_cons. exists w, 0, v, 0.
      cbn. rewrite low_small by auto. repeat split; auto. lia.
  Qed.
  Lemma evalConcat_fits cs c : Forall (fits rho) cs -> evalConcat cs = Ok c -> isEval c = true /\ fits rho c.
  Proof.
    intros HF H. pose proof H as H'. unfold evalConcat in H. unbind H. destruct r as [x s]. injection H as <-. split; auto. cbn [fst snd] in *.
    assert (forall l acc sm p q, Forall (fits rho) l -> evalConcat_go l acc sm = Ok (p, q) -> 0 <= acc < 2 ^ sm -> 0 <= sm -> 0 <= q /\ 0 <= p < 2 ^ q) as K.
    { clear. induction l as [|t l IH]; intros acc sm p q HF H Ha Hs; cbn [evalConcat_go] in H; [injection H as <- <-; auto|].
      destruct t as [ | | | | | | | | | |value width f g| | | | ]; try discriminate. inversion HF as [|? ? F1 F2]; subst. destruct F1 as (w0 & Hw & H0 & F1). cbn in Hw. subst width.
      destruct (Z.ltb_spec w0 0); [discriminate|]. unbind H. destruct value as [zz| | |]; try discriminate. injection B as <-.
      eapply IH; [exact F2|exact H| |lia]. pose proof (F1 zz eq_refl) as Hz.
      rewrite lor_shift by auto. rewrite low_small by auto. rewrite Z.pow_add_r by auto. nia. }
    destruct (K cs 0 0 x s HF B) as [K1 K2]; [cbn; lia|lia|]. exists s. cbn. split; auto. split; auto. intros v Hv. injection Hv as <-. auto.
  Qed.

  Lemma mc_constant_ok l : forall cs ret l', Forall (element rho) (cs ++ l) -> Forall (element rho) ret ->
    (cs <> [] -> exists c, head ret = Some c /\ evalConcat cs = Ok c) -> mc_constant l cs ret = Ok l' ->
    Forall (element rho) l' /\ sim (rev (match cs with [] => ret | _ => tl ret end) ++ cs ++ l) l'.
  Proof.
    assert (forall cs, Forall (element rho) cs -> Forall (fits rho) cs) as EF by (intros cs H; eapply Forall_impl; [|exact H]; intros t [K _]; exact K).
    assert (forall cs ret, Forall (element rho) cs -> (cs <> [] -> exists c, head ret = Some c /\ evalConcat cs = Ok c) ->
      sim (rev (match cs with [] => ret | _ => tl ret end) ++ cs) (rev ret)) as HS.
    { intros [|c0 cs] ret HF HI; [rewrite app_nil_r; apply sim_refl|]. destruct HI as (c & Hc & He); [discriminate|]. destruct ret as [|c' ret]; [discriminate|].
      injection Hc as ->. cbn [tl rev]. apply sim_app; [apply sim_refl|]. apply evalConcat_sim; auto. }
    induction l as [|n l IH]; intros cs ret l' HF HRet HI H; cbn [mc_constant] in H.
    - injection H as <-. split; [now apply Forall_rev|]. rewrite app_nil_r in *. auto.
    - apply Forall_app in HF as [HF1 HF2]. inversion HF2 as [|? ? Hn HF3]; subst. destruct (isEval n) eqn:En.
      + unbind H. rename r into c. destruct (evalConcat_fits _ _ (EF _ (proj2 (Forall_app _ _ _) (conj HF1 (Forall_cons _ Hn (Forall_nil _))))) B) as [Ec Fc].
        assert (Forall (element rho) (match cs with [] => ret | _ => tl ret end)) as HRet' by (destruct cs; auto; destruct HRet; cbn; auto).
        apply IH in H.
        * destruct H as [K1 K2]. split; auto. eapply sim_trans; [|exact K2]. destruct (cs ++ [n]) eqn:Ecs; [now destruct cs|]. cbn [tl]. rewrite <- Ecs, <- app_assoc. apply sim_refl.
        * rewrite <- app_assoc. apply Forall_app. auto.
        * constructor; auto. split; auto. apply isEval_inv in Ec as (? & ? & ? & ? & ->). exact I.
        * intros _. exists c. auto.
      + apply IH in H; [| |now constructor|congruence].
        * destruct H as [K1 K2]. split; auto. eapply sim_trans; [|exact K2]. cbn [rev app]. rewrite app_assoc, <- (app_assoc (rev ret) [n]). apply sim_app; [auto|apply sim_refl].
        * exact HF3.
  Qed.

  (** *** Undefined parts *)
  Lemma mc_undefined_ok l : forall width ret, Forall (element rho) l -> Forall (element rho) ret -> 0 <= width ->
    (0 < width -> head ret = Some (DUndef width)) ->
    Forall (element rho) (mc_undefined l width ret) /\ sim (rev ret ++ l) (mc_undefined l width ret).
  Proof.
    induction l as [|n l IH]; intros width ret HF HRet H0 HI.
    - cbn [mc_undefined]. rewrite app_nil_r. split; [now apply Forall_rev|apply sim_refl].
    - inversion HF as [|? ? Hn HF3]; subst.
      assert (forall n, element rho n -> Forall (element rho) (mc_undefined l 0 (n :: ret)) /\ sim (rev ret ++ n :: l) (mc_undefined l 0 (n :: ret))) as K.
      { intros m Hm. destruct (IH 0 (m :: ret)) as [K1 K2]; auto; [lia|lia|]. split; auto. eapply sim_trans; [|exact K2]. cbn [rev]. rewrite <- app_assoc. apply sim_refl. }
      destruct n as [ |nm|s|s|s|l0 o|v m l0|v p|l0|c t f|v w0 f g|w0|w0|t|s l0]; try (apply K; exact Hn). clear K. cbn [mc_undefined].
      assert (0 <= w0) as Hw0 by (destruct Hn as [(w & Hw & Hz & _) _]; cbn in Hw; injection Hw as <-; auto).
      assert (forall r, element rho (DUndef r) <-> 0 <= r) as EU.
      { intros r. split; [intros [(w & Hw & Hz & _) _]; cbn in Hw; injection Hw as <-; auto|]. intros Hr. split; [|exact I]. exists r. split; [reflexivity|]. split; auto. discriminate. }
      destruct (Z.ltb_spec 0 width).
      + specialize (HI H). destruct ret as [|u ret]; [discriminate|]. injection HI as ->. inversion HRet; subst. cbn [tl].
        destruct (IH (width + w0) (DUndef (width + w0) :: ret)) as [K1 K2]; auto; [constructor; auto; apply EU; lia|lia|]. split; auto. eapply sim_trans; [|exact K2].
        cbn [rev]. rewrite <- !app_assoc. apply sim_app; [apply sim_refl|]. cbn [app]. change (DUndef width :: DUndef w0 :: l) with ([DUndef width; DUndef w0] ++ l). change (DUndef (width + w0) :: l) with ([DUndef (width + w0)] ++ l).
        apply sim_app; [|apply sim_refl]. split.
        * intros s. cbn. destruct (Z.leb_spec 0 w0); cbn; [|lia]. destruct (Z.leb_spec 0 width); cbn; [|lia]. destruct (Z.leb_spec 0 (width + w0)); [|lia]. intros K. injection K as <-. f_equal. lia.
        * intros v. cbn. destruct (Z.leb_spec 0 w0); cbn; [|discriminate]. destruct (Z.leb_spec 0 width); discriminate.
      + assert (width = 0) by lia. subst width. rewrite Z.add_0_l in *.
        destruct (IH w0 (DUndef w0 :: ret)) as [K1 K2]; auto. split; auto. eapply sim_trans; [|exact K2]. cbn [rev]. rewrite <- app_assoc. apply sim_refl.
  Qed.

  (** *** Adjacent slices *)
  Lemma slice_ev n m l wm wl f g f' g' : 0 <= l <= m ->
    value rho (DPart (DTerm n) (DEval (PInt m) wm f g) (DEval (PInt l) wl f' g')) = Some (low (e_val rho n / 2 ^ l) (m - l + 1)) /\
    width rho (DPart (DTerm n) (DEval (PInt m) wm f g) (DEval (PInt l) wl f' g')) = Some (m - l + 1).
  Proof. intros H. unfold value, width. cbn [ev fst snd]. destruct (Z.leb_spec 0 l); [|lia]. destruct (Z.leb_spec l m); [|lia]. auto. Qed.
  Lemma slice_range n m l wm wl f g f' g' w : width rho (DPart (DTerm n) (DEval (PInt m) wm f g) (DEval (PInt l) wl f' g')) = Some w -> 0 <= l <= m /\ w = m - l + 1.
  Proof. unfold width. cbn [ev fst snd]. destruct (Z.leb_spec 0 l), (Z.leb_spec l m); cbn; intros K; try discriminate. injection K as <-. lia. Qed.
  Lemma low_split x a b : 0 <= a -> 0 <= b -> low (x / 2 ^ b) a * 2 ^ b + low x b = low x (a + b).
  Proof.
    intros Ha Hb. unfold low. rewrite (Z.add_comm a b), Z.pow_add_r by auto. pose proof (Z.pow_pos_nonneg 2 a ltac:(lia) Ha). pose proof (Z.pow_pos_nonneg 2 b ltac:(lia) Hb).
    rewrite Z.rem_mul_r by lia. ring.
  Qed.
  Lemma V_one t v w : value rho t = Some v -> width rho t = Some w -> 0 <= v < 2 ^ w -> 0 <= w -> V [t] = Some v.
  Proof. intros Hv Hw Hr H0. apply V_cons. exists w, 0, v, 0. rewrite low_small by auto. cbn. repeat split; auto. lia. Qed.
  Lemma W_one t w : width rho t = Some w -> 0 <= w -> W [t] = Some w.
  Proof. intros Hw H0. apply W_cons. exists w, 0. cbn. repeat split; auto. lia. Qed.
  Lemma mc_part_ok k l : forall last ret l', Forall (element rho) l -> Forall (element rho) ret ->
    (is_none last = false -> head ret = Some last) -> mc_part E k l last ret = Ok l' ->
    Forall (element rho) l' /\ sim (rev ret ++ l) l'.
  Proof.
    induction l as [|n l IH]; intros last ret l' HF HRet HI H.
    - cbn in H. injection H as <-. rewrite app_nil_r. split; [now apply Forall_rev|apply sim_refl].
    - inversion HF as [|? ? Hn HF3]; subst.
      assert (mc_part E k l n (n :: ret) = Ok l' -> Forall (element rho) l' /\ sim (rev ret ++ n :: l) l') as K.
      { intros K. destruct (IH n (n :: ret) l') as [K1 K2]; auto. split; auto. eapply sim_trans; [|exact K2]. cbn [rev]. rewrite <- app_assoc. apply sim_refl. }
      cbn [mc_part] in H.
      destruct last as [ |nm|s|s|s|l0 o|v m l0|v p|l0|c t f|v w0 f g|w0|w0|t|s l0]; try (exact (K H)).
      destruct v as [ |x|s|s|s|l1 o|v' m' l1|v' p|l1|c t f|v' w0 f g|w0|w0|t|s l1]; try (exact (K H)).
      destruct n as [ |nm|s|s|s|l2 o|y mn ln|v p|l2|c t f|v w0 f g|w0|w0|t|s l2]; try (exact (K H)).
      destruct y as [ |y|s|s|s|l1 o|v' m' l1|v' p|l1|c t f|v' w0 f g|w0|w0|t|s l1]; try (exact (K H)).
      destruct (chain_eq x y) eqn:Exy; cbn [negb] in H; [|exact (K H)]. unbind H. destruct r; [|exact (K H)]. clear K.
      unbind H. unbind H. unbind H. specialize (HI eq_refl). destruct ret as [|u ret]; [discriminate|]. injection HI as ->. inversion HRet as [|? ? Hlast HRet']; subst. cbn [tl] in H.
      (* all bounds are integers *)
      assert (exists M wM fM gM, m = DEval (PInt M) wM fM gM /\ r0 = M) as (M & wM & fM & gM & -> & ->).
      { unfold int_attr in B1. unbind B1. destruct m; cbn in B3; try discriminate; injection B3 as <-; try discriminate. destruct value as [z| | |]; try discriminate. injection B1 as ->. eauto 8. }
      assert (exists L wL fL gL, ln = DEval (PInt L) wL fL gL /\ r1 = L) as (L & wL & fL & gL & -> & ->).
      { unfold int_attr in B2. unbind B2. destruct ln; cbn in B3; try discriminate; injection B3 as <-; try discriminate. destruct value as [z| | |]; try discriminate. injection B2 as ->. eauto 8. }
      assert (exists N wN fN gN wN' fN' gN', mn = DEval (PInt N) wN fN gN /\ l0 = DEval (PInt (N + 1)) wN' fN' gN') as (N & wN & fN & gN & wN' & fN' & gN' & -> & ->).
      { unfold val_succ_eq in B. unbind B. unbind B. unfold int_attr in B4. unbind B4. destruct mn; cbn in B5; try discriminate; injection B5 as <-; try discriminate.
        destruct value as [z| | |]; try discriminate. injection B4 as ->. injection B as B. apply pyval_eqb_eq in B. rewrite B in B3. destruct l0; cbn in B3; try discriminate. injection B3 as ->. eauto 12. }
      destruct Hlast as [(w1 & Hw1 & Hw1' & _) Hwh]. destruct Hn as [(w2 & Hw2 & Hw2' & _) _]. apply slice_range in Hw1 as [R1 ->]. apply slice_range in Hw2 as [R2 ->]. cbn in Hwh.
      destruct (HR _ _ Exy) as (Hv & Hw & _ & _).
      set (new := if r =? M - L + 1 then DTerm x else DPart (DTerm x) (DEval (PInt M) wM fM gM) (DEval (PInt L) wL fL gL)) in *.
      assert (value rho new = Some (low (e_val rho x / 2 ^ L) (M - L + 1)) /\ width rho new = Some (M - L + 1)) as [Nv Nw].
      { unfold new. destruct (Z.eqb_spec r (M - L + 1)); [|apply slice_ev; lia]. pose proof (getWidth_term _ _ _ B0) as G. destruct (getWidth_known _ _ _ B0) as [G2 _].
        assert (L = 0) by lia. subst L. unfold value, width. cbn [ev fst snd]. rewrite Z.pow_0_r, Z.div_1_r. split; [|f_equal; lia]. f_equal. symmetry. apply low_small. replace (M - 0 + 1) with (e_wid rho x) by lia. auto. }
      pose proof (low_range (e_val rho x / 2 ^ L) (M - L + 1) ltac:(lia)) as Nr.
      destruct (IH new (new :: ret) l') as [K1 K2]; auto.
      + constructor; auto. split.
        * exists (M - L + 1). split; auto. split; [lia|]. intros v K. rewrite Nv in K. injection K as <-. auto.
        * unfold new. destruct (r =? M - L + 1); [exact I|exact Hwh].
      + split; auto. eapply sim_trans; [|exact K2]. cbn [rev]. rewrite <- !app_assoc. apply sim_app; [apply sim_refl|]. cbn [app].
        match goal with |- sim (?a :: ?b :: l) _ => change (a :: b :: l) with ([a; b] ++ l) end. change (new :: l) with ([new] ++ l). apply sim_app; [|apply sim_refl].
        destruct (slice_ev x M (N + 1) wM wN' fM gM fN' gN') as [V1 W1]; [lia|]. destruct (slice_ev y N L wN wL fN gN fL gL) as [V2 W2]; [lia|]. split.
        * intros s K. apply W_cons in K as (a & b & Ha & Hb & _ & ->). apply W_cons in Hb as (a' & b' & Ha' & Hb' & _ & ->). injection Hb' as <-.
          rewrite W1 in Ha. injection Ha as <-. rewrite W2 in Ha'. injection Ha' as <-. rewrite (W_one _ _ Nw) by lia. f_equal. lia.
        * intros s K. apply V_cons in K as (a & b & v1 & z & Ha & Hb & _ & Hv1 & Hz & ->). apply V_cons in Hz as (a' & b' & v2 & z' & Ha' & Hb' & _ & Hv2 & Hz' & ->). injection Hb' as <-. injection Hz' as <-.
          rewrite W1 in Ha. injection Ha as <-. rewrite W2 in Ha'. injection Ha' as <-. rewrite V1 in Hv1. injection Hv1 as <-. rewrite V2 in Hv2. injection Hv2 as <-.
          apply W_cons in Hb as (a2 & b2 & Ha2 & Hb2 & _ & ->). injection Hb2 as <-. rewrite W2 in Ha2. injection Ha2 as <-.
          rewrite (V_one _ _ _ Nv Nw) by (auto; lia). f_equal. rewrite <- Hv. rewrite Z.pow_0_r, Z.mul_1_r, !Z.add_0_r.
          rewrite (low_small (low (e_val rho x / 2 ^ (N + 1)) _)), (low_small (low (e_val rho x / 2 ^ L) (N - L + 1))) by (apply low_range; lia). replace (M - L + 1) with ((M - (N + 1) + 1) + (N - L + 1)) by lia. rewrite <- low_split by lia. do 2 f_equal.
          f_equal. rewrite Z.div_div, <- Z.pow_add_r by (try apply Z.pow_pos_nonneg; lia). do 2 f_equal. lia.
  Qed.

  Lemma V_two p q v1 v2 w w' : value rho p = Some v1 -> width rho p = Some w -> 0 <= w -> value rho q = Some v2 -> width rho q = Some w' -> 0 <= w' ->
    V [p; q] = Some (low v1 w * 2 ^ (w' + 0) + (low v2 w' * 2 ^ 0 + 0)).
  Proof.
    intros H1 H2 H3 H4 H5 H6. apply V_cons. exists w, (w' + 0), v1, (low v2 w' * 2 ^ 0 + 0). split; auto. split; [apply W_cons; exists w', 0; auto|].
    split; auto. split; auto. split; auto. apply V_cons. exists w', 0, v2, 0. auto 10.
  Qed.

  (** *** Branches with one condition *)
  Lemma branch_elem c a b : element rho (DBranch c a b) -> is_none a = false /\ is_none b = false /\
    exists w, width rho a = Some w /\ width rho b = Some w /\ width rho (DBranch c a b) = Some w /\ 0 <= w.
  Proof.
    intros [(w & Hw & H0 & _) (Ha & Hb & w' & Wa & Wb)]. split; auto. split; auto. pose proof Hw as Hw'. rewrite branch_ev, Ha, Hb, Wa, Wb in Hw'. cbn in Hw'. injection Hw' as <-. rewrite Z.max_id in *. eauto 8.
  Qed.
  Lemma branch_value c a b v : value rho (DBranch c a b) = Some v -> exists x, value rho c = Some x /\ value rho (if x =? 0 then b else a) = Some v.
  Proof. unfold value. cbn. destruct (fst (ev rho c)) as [x|]; cbn; [|discriminate]. intros H. exists x. split; auto. destruct (x =? 0); auto. Qed.
  Lemma branch_value' c a b x v : value rho c = Some x -> value rho (if x =? 0 then b else a) = Some v -> value rho (DBranch c a b) = Some v.
  Proof. unfold value. cbn. intros ->. cbn. destruct (x =? 0); auto. Qed.
  Lemma mc_branch_ok k l : forall last ret l', Forall (element rho) l -> Forall (element rho) ret ->
    (is_none last = false -> head ret = Some last) -> mc_branch E k l last ret = Ok l' ->
    Forall (element rho) l' /\ sim (rev ret ++ l) l'.
  Proof.
    induction l as [|n l IH]; intros last ret l' HF HRet HI H.
    - cbn in H. injection H as <-. rewrite app_nil_r. split; [now apply Forall_rev|apply sim_refl].
    - inversion HF as [|? ? Hn HF3]; subst.
      assert (mc_branch E k l n (n :: ret) = Ok l' -> Forall (element rho) l' /\ sim (rev ret ++ n :: l) l') as K.
      { intros K. destruct (IH n (n :: ret) l') as [K1 K2]; auto. split; auto. eapply sim_trans; [|exact K2]. cbn [rev]. rewrite <- app_assoc. apply sim_refl. }
      cbn [mc_branch] in H.
      destruct last as [ |nm|s|s|s|l0 o|v m l0|v p|l0|c a b|v w0 f g|w0|w0|t|s l0]; try (exact (K H)).
      destruct n as [ |nm|s|s|s|l2 o|y mn ln|v p|l2|c' a' b'|v w0 f g|w0|w0|t|s l2]; try (exact (K H)).
      unbind H. destruct r; [|exact (K H)]. clear K. specialize (HI eq_refl). destruct ret as [|u ret]; [discriminate|]. injection HI as ->. inversion HRet as [|? ? Hlast HRet']; subst. cbn [tl] in H.
      destruct (branch_elem _ _ _ Hlast) as (Na & Nb & w & Wa & Wb & Wab & Hw). destruct (branch_elem _ _ _ Hn) as (Na' & Nb' & w' & Wa' & Wb' & Wab' & Hw').
      unfold arm in H. rewrite Na, Nb, Na', Nb' in H. cbn [bind] in H. pose proof (eq_value rho HR _ _ B) as Hc.
      set (new := DBranch c (DConcat [a; a']) (DConcat [b; b'])) in *.
      assert (forall p q, width rho p = Some w -> width rho q = Some w' -> width rho (DConcat [p; q]) = Some (w + w')) as WC.
      { intros p q Hp Hq. rewrite concat_width. apply W_cons. exists w, w'. split; auto. split; [now apply W_one|]. auto. }
      assert (width rho new = Some (w + w')) as Wn.
      { unfold new. rewrite branch_ev. cbn [is_none]. rewrite (WC a a'), (WC b b') by auto. cbn [obind]. now rewrite Z.max_id. }
      assert (element rho new) as En.
      { split.
        - exists (w + w'). split; auto. split; [lia|]. intros v Hv. apply branch_value in Hv as (x & Hx & Hv).
          destruct (x =? 0); rewrite concat_value in Hv; eapply V_range; eauto; rewrite <- concat_width; auto.
        - cbn. split; auto. split; auto. exists (w + w'). auto. }
      destruct (IH new (new :: ret) l') as [K1 K2]; auto.
      split; auto. eapply sim_trans; [|exact K2]. cbn [rev]. rewrite <- !app_assoc. apply sim_app; [apply sim_refl|]. cbn [app].
      match goal with |- sim (?a :: ?b :: l) _ => change (a :: b :: l) with ([a; b] ++ l) end. change (new :: l) with ([new] ++ l). apply sim_app; [|apply sim_refl]. split.
      + intros s K. apply W_cons in K as (x & y & Hx & Hy & _ & ->). apply W_cons in Hy as (x' & y' & Hx' & Hy' & _ & ->). injection Hy' as <-.
        rewrite Wab in Hx. injection Hx as <-. rewrite Wab' in Hx'. injection Hx' as <-. rewrite (W_one _ _ Wn) by lia. f_equal. lia.
      + intros s K. apply V_cons in K as (x & y & v1 & z & Hx & Hy & _ & Hv1 & Hz & ->). apply V_cons in Hz as (x' & y' & v2 & z' & Hx' & Hy' & _ & Hv2 & Hz' & ->). injection Hy' as <-. injection Hz' as <-.
        rewrite Wab in Hx. injection Hx as <-. rewrite Wab' in Hx'. injection Hx' as <-. apply W_cons in Hy as (x2 & y2 & Hx2 & Hy2 & _ & ->). injection Hy2 as <-. rewrite Wab' in Hx2. injection Hx2 as <-.
        apply branch_value in Hv1 as (cv & Hcv & Hv1). apply branch_value in Hv2 as (cv' & Hcv' & Hv2). rewrite Hcv, Hcv' in Hc. injection Hc as <-.
        assert (value rho new = Some (low v1 w * 2 ^ (w' + 0) + (low v2 w' * 2 ^ 0 + 0))) as Vn.
        { unfold new. eapply branch_value'; eauto.
          destruct (cv =? 0); rewrite concat_value; apply V_two; auto. }
        destruct En as [(w0 & Hw0 & _ & Hr) _]. rewrite Wn in Hw0. injection Hw0 as <-. eapply V_one; [exact Vn|exact Wn|apply Hr; exact Vn|lia].
  Qed.

  Lemma single_ok l v : Forall (element rho) l -> V l = Some v -> value rho (single l) = Some v.
  Proof.
    intros HF Hv. destruct l as [|t [|u l]]; cbn [single]; try (rewrite concat_value; exact Hv). inversion HF as [|? ? [(w & Hw & H0 & Hr) _] _]; subst.
    apply V_cons in Hv as (w' & x & u & z & Hw' & Hx & _ & Hu & Hz & ->). injection Hx as <-. injection Hz as <-. rewrite Hw in Hw'. injection Hw' as <-.
    rewrite low_small by auto. rewrite Hu. f_equal. cbn. lia.
  Qed.
  Lemma single_width l w : W l = Some w -> width rho (single l) = Some w.
  Proof.
    destruct l as [|t [|u l]]; cbn [single]; try (rewrite concat_width; auto; fail). intros H. apply W_cons in H as (x & y & Hx & Hy & _ & ->). injection Hy as <-. rewrite Hx. f_equal. lia.
  Qed.
  Theorem mergeConcat_ok k l t : Forall (element rho) l -> mergeConcat E k l = Ok t ->
    (forall v, value rho (DConcat l) = Some v -> value rho t = Some v) /\ (forall w, width rho (DConcat l) = Some w -> width rho t = Some w).
  Proof.
    intros HF H. unfold mergeConcat in H. unbind H. rename r into l1. unbind H. rename r into l3.
    apply mc_constant_ok in B; [|exact HF|constructor|congruence]. destruct B as [F1 S1]. cbn [rev app] in S1.
    destruct (mc_undefined_ok l1 0 []) as [F2 S2]; auto; [lia|lia|]. cbn [rev app] in S2.
    apply mc_part_ok in B0; [|exact F2|constructor|discriminate]. destruct B0 as [F3 S3]. cbn [rev app] in S3.
    assert (sim l l3) as [SW SV] by (eapply sim_trans; [exact S1|]; eapply sim_trans; eauto).
    rewrite concat_value, concat_width.
    destruct (single l3) as [ |nm|s|s|s|l0 o|v m l0|v p|l0|c a b|v w0 f g|w0|w0|u|s l0] eqn:Es; try (injection H as <-; rewrite <- Es; split; [intros v0 Hv; apply single_ok; auto|intros w Hw; apply single_width; auto]).
    unbind H. injection H as <-. assert (sim l3 l0 /\ Forall (element rho) l0) as [S4 F4].
    { destruct l3 as [|x [|y l3]]; cbn in Es; try (injection Es as <-; split; [apply sim_refl|auto]). subst x. inversion F3 as [|? ? Hx _]; subst. destruct Hx as [_ Hx]. cbn in Hx. destruct Hx. }
    apply mc_branch_ok in B; [|exact F4|constructor|discriminate]. destruct B as [F5 S5]. cbn [rev app] in S5.
    assert (sim l r) as [SW5 SV5] by (eapply sim_trans; [|exact S5]; eapply sim_trans; [|exact S4]; split; auto).
    split; [intros v0 Hv; apply single_ok; auto|intros w Hw; apply single_width; auto].
  Qed.
End Concat.
