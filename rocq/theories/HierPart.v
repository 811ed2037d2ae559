(** HierPart.v - slices of concatenations. *)
From Verif Require Import Base ScopeModel DfModel BindModel OptModel OptSpec OptArith OptProofs OptProofs2 HierModel HierSpec HierProofs HierConcat.
Local Open Scope Z_scope.

(** Folding twice is folding once. *)
Lemma mapM_idem (f : df -> res df) l l' : (forall t t', f t = Ok t' -> f t' = Ok t') -> mapM f l = Ok l' -> mapM f l' = Ok l'.
Proof.
  intros H. revert l'. induction l as [|t l IH]; intros l' K; cbn in K; [injection K as <-; auto|]. unbind K. unbind K. injection K as <-. cbn. rewrite (H _ _ B). cbn. rewrite (IH _ B0). reflexivity.
Qed.
Lemma evalOperator_eval o l t : evalOperator o l = Ok t -> isEval t = true.
Proof. unfold evalOperator. intros H. repeat unbind H. injection H as <-. reflexivity. Qed.
Lemma evalConcat_eval l t : evalConcat l = Ok t -> isEval t = true.
Proof. unfold evalConcat. intros H. repeat unbind H. injection H as <-. reflexivity. Qed.
Lemma evalPart_eval v m l t : evalPartselect v m l = Ok t -> isEval t = true.
Proof. unfold evalPartselect. destruct (l <? 0); [discriminate|]. destruct (_ <? 0); [destruct (_ <? _); [discriminate|]|]; intros H; injection H as <-; reflexivity. Qed.
Lemma optC_eval E k t : isEval t = true -> optC E (S k) t = Ok t.
Proof. destruct t; try discriminate. reflexivity. Qed.
Theorem optC_idem E k : forall t t', optC E k t = Ok t' -> optC E k t' = Ok t'.
Proof.
  induction k as [|k IH]; intros t t' H; [discriminate|].
  destruct t as [ |n|s|s|s|l o|v m l|v p|l|c a b|v w f g|w|w|t|s l]; cbn [optC] in H; try (injection H as <-; reflexivity); try discriminate.
  - destruct (dget (o_const E) n) as [c|] eqn:Ec; [|injection H as <-; cbn; now rewrite Ec].
    destruct (dget (o_terms E) n) as [tm|]; [|discriminate]. destruct c; try discriminate.
    destruct (_ || _); [injection H as <-; reflexivity|]. unbind H. unbind H. destruct r; try (injection H as <-; reflexivity). destruct r0; try (injection H as <-; reflexivity). unbind H. unbind H. injection H as <-. reflexivity.
  - destruct (has_xz s); repeat unbind H; injection H as <-; reflexivity.
  - unbind H. destruct (forallb isEval r) eqn:F; [apply optC_eval; eauto using evalOperator_eval|].
    pose proof (mkOp_ok _ _ _ H) as ->. cbn [optC]. rewrite (mapM_idem _ _ _ IH B). cbn. now rewrite F.
  - unbind H. unbind H. unbind H. apply IH in B, B0, B1.
    assert (forall x, x = Ok (DPart r r0 r1) -> x = Ok t' -> (match r, r0 with DEval vv _ _ _, DEval mv _ _ _ => True | _, _ => False end -> False) -> optC E (S k) t' = Ok t') as K.
    { intros x -> K N. injection K as <-. cbn [optC]. rewrite B, B0, B1. cbn [bind]. destruct r; try reflexivity. destruct r0; try reflexivity. destruct N. exact I. }
    destruct r; try (eapply K; [reflexivity|exact H|auto]). destruct r0; try (eapply K; [reflexivity|exact H|auto]).
    unbind H. unbind H. unbind H. apply optC_eval. eapply evalPart_eval; eauto.
  - destruct v as [ |n|s|s|s|l' o|v m l'|v p'|l'|c a b|v w f g|w|w|t|s l']; try (injection H as <-; reflexivity). destruct (dget (o_terms E) n) as [tm|] eqn:Et; [|discriminate]. unbind H. unbind H.
    assert (forall x, x = Ok (DPtr r r0) -> x = Ok t' -> (t_dims tm = None -> isEval r && isEval r0 = false) -> optC E (S k) t' = Ok t') as K.
    { intros x -> K N. injection K as <-. cbn [optC]. pose proof (IH _ _ B) as B'. destruct r as [ |n0|?|?|?|? ?|? ? ?|? ?|?|? ? ?|? ? ? ?|?|?|?|? ?]; auto.
      assert (n0 = n) as ->. { destruct k; [discriminate|]. cbn [optC] in B. destruct (dget (o_const E) n); [|congruence]. destruct (dget (o_terms E) n); [|discriminate]. destruct d; try discriminate.
        destruct (_ || _); [discriminate|]. unbind B. unbind B. destruct r; try discriminate. destruct r1; try discriminate. unbind B. unbind B. discriminate. }
      rewrite Et, B', (IH _ _ B0). cbn [bind]. destruct (t_dims tm); reflexivity. }
    destruct (t_dims tm); [eapply K; [reflexivity|exact H|discriminate]|]. destruct (isEval r && isEval r0) eqn:F; [discriminate|]. eapply K; [reflexivity|exact H|auto].
  - unbind H. destruct (forallb isEval r) eqn:F; [apply optC_eval; eauto using evalConcat_eval|].
    injection H as <-. cbn [optC]. rewrite (mapM_idem _ _ _ IH B). cbn. now rewrite F.
  - unbind H. unbind H. unbind H. pose proof (IH _ _ B) as Ic. pose proof (IH _ _ B0) as Ia. pose proof (IH _ _ B1) as Ib.
    assert (forall x, x = Ok (DBranch r r0 r1) -> x = Ok t' -> isEval r = false -> optC E (S k) t' = Ok t') as K.
    { intros x -> K N. injection K as <-. cbn [optC]. rewrite Ic, Ia, Ib. cbn [bind]. destruct r; try reflexivity. discriminate. }
    destruct r; try (eapply K; [reflexivity|exact H|auto]). unbind H. injection H as <-. destruct r; eapply optC_mono; eauto.
  - unbind H. injection H as <-. cbn [optC]. now rewrite (mapM_idem _ _ _ IH B).
Qed.

Definition sumw (l : list (df * Z)) : Z := sum (map snd l).
Lemma sumw_app a b : sumw (a ++ b) = sumw a + sumw b.
Proof. unfold sumw, sum. induction a as [|[n w] a IH]; cbn in *; lia. Qed.
Lemma sumw_cons n w l : sumw ((n, w) :: l) = w + sumw l. Proof. reflexivity. Qed.
Lemma sumw_nonneg l : Forall (fun p => 0 < snd p) l -> 0 <= sumw l.
Proof. unfold sumw, sum. induction 1 as [|[n w] l H K IH]; cbn in *; lia. Qed.

Section Part.
  Variable (E : optenv) (rho : venv).
  Variable k : nat.

  (** The cut, once a node has been hit. *)
  Lemma take_go_use l : forall lsb msb off c c', Forall (fun p => optC E k (fst p) = Ok (fst p)) l -> Forall (fun p => 0 < snd p) l -> lsb < off -> off <= msb < off + sumw l ->
    take_go E k l lsb msb off true c = Ok c' ->
    exists mid n w rest, l = mid ++ (n, w) :: rest /\ off + sumw mid <= msb < off + sumw mid + w /\
      c' = Cut (c_used c ++ map fst (mid ++ [(n, w)])) (c_sum c + sumw mid + w) (c_lsb c) (c_lsboff c) (off + sumw mid + w - 1) (off + sumw mid + w - 1 - msb).
  Proof.
    induction l as [|[n w] l IH]; intros lsb msb off c c' HS HP Hl Hm H; [cbn in Hm; lia|]. inversion HS as [|? ? S1 S2]; subst. inversion HP as [|? ? P1 P2]; subst. cbn [fst snd] in *. rewrite sumw_cons in Hm.
    cbn [take_go] in H. destruct (Z.leb_spec off lsb); [lia|]. cbn [andb orb] in H. rewrite S1 in H. cbn [bind] in H.
    destruct (Z.leb_spec off msb); [|lia]. cbn [andb] in H. destruct (Z.ltb_spec msb (off + w)).
    - injection H as <-. exists [], n, w, l. split; auto. split; [cbn; lia|]. cbn. f_equal; lia.
    - destruct (IH lsb msb (off + w) _ c' S2 P2 ltac:(lia) ltac:(lia) H) as (mid & n' & w' & rest & -> & Hr & ->).
      exists ((n, w) :: mid), n', w', rest. split; auto. rewrite sumw_cons. split; [lia|]. cbn [c_used c_sum c_lsb c_lsboff]. rewrite <- app_assoc. cbn. f_equal; lia.
  Qed.
  Lemma take_go_ok l : forall lsb msb off c', Forall (fun p => optC E k (fst p) = Ok (fst p)) l -> Forall (fun p => 0 < snd p) l -> off <= lsb <= msb -> msb < off + sumw l ->
    take_go E k l lsb msb off false (Cut [] 0 (-1) (-1) (-1) (-1)) = Ok c' ->
    exists lo used rest, l = lo ++ used ++ rest /\ used <> [] /\
      (exists n w r, used = (n, w) :: r /\ 0 <= lsb - (off + sumw lo) < w) /\
      (exists n w r, used = r ++ [(n, w)] /\ 0 <= off + sumw lo + sumw used - 1 - msb < w) /\
      c' = Cut (map fst used) (sumw used) (off + sumw lo) (lsb - (off + sumw lo)) (off + sumw lo + sumw used - 1) (off + sumw lo + sumw used - 1 - msb).
  Proof.
    induction l as [|[n w] l IH]; intros lsb msb off c' HS HP Hl Hm H; [cbn in Hm; lia|]. inversion HS as [|? ? S1 S2]; subst. inversion HP as [|? ? P1 P2]; subst. cbn [fst snd] in *. rewrite sumw_cons in Hm.
    cbn [take_go] in H. destruct (Z.leb_spec off lsb); [|lia]. cbn [andb] in H. destruct (Z.ltb_spec lsb (off + w)).
    - cbn [orb] in H. rewrite S1 in H. cbn [bind c_used c_sum c_lsb c_lsboff c_msb c_msboff] in H. destruct (Z.leb_spec off msb); [|lia]. cbn [andb] in H. destruct (Z.ltb_spec msb (off + w)).
      + injection H as <-. exists [], [(n, w)], l. unfold sumw. cbn. split; auto. split; [discriminate|]. split; [exists n, w, []; split; auto; lia|]. split; [exists n, w, []; split; auto; lia|]. f_equal; lia.
      + destruct (take_go_use l lsb msb (off + w) _ c' S2 P2 ltac:(lia) ltac:(lia) H) as (mid & n' & w' & rest & -> & Hr & ->).
        exists [], ((n, w) :: mid ++ [(n', w')]), rest. cbn [app]. rewrite <- app_assoc. cbn [app]. split; auto. split; [discriminate|]. split; [exists n, w, (mid ++ [(n', w')]); split; auto; cbn; lia|].
        rewrite !sumw_cons, !sumw_app, !sumw_cons. change (sumw []) with 0. split; [exists n', w', ((n, w) :: mid); split; auto; lia|]. cbn. f_equal; lia.
    - cbn [orb bind] in H. destruct (Z.leb_spec off msb); [|lia]. cbn [andb] in H. destruct (Z.ltb_spec msb (off + w)); [lia|].
      destruct (IH lsb msb (off + w) c' S2 P2 ltac:(lia) ltac:(lia) H) as (lo & used & rest & -> & Hn & (n1 & w1 & r1 & U1 & R1) & (n2 & w2 & r2 & U2 & R2) & ->).
      exists ((n, w) :: lo), used, rest. rewrite sumw_cons. split; auto. split; auto. split; [exists n1, w1, r1; split; auto; lia|]. split; [exists n2, w2, r2; split; auto; lia|]. f_equal; lia.
  Qed.

  (** Widths and values of the parts. *)
  Hypothesis HA : agrees E rho.
  Definition part_ok (n : df) : Prop :=
    optC E k n = Ok n /\ fold_safe E rho n /\ (exists w, getWidth E k n = Ok w /\ width rho n = Some w /\ 0 < w) /\ (forall v w, value rho n = Some v -> width rho n = Some w -> 0 <= v < 2 ^ w).

  Lemma W_rev l : Forall (fun p => width rho (fst p) = Some (snd p) /\ 0 < snd p) l -> W rho (rev (map fst l)) = Some (sumw l).
  Proof.
    induction 1 as [|[n w] l [H1 H2] H IH]; cbn [map rev fst snd] in *; auto. apply W_app. exists (sumw l), w. split; auto. split; [apply W_one; auto; lia|rewrite sumw_cons; lia].
  Qed.

  Lemma take_trim_ok l : forall ws msboff first t, Forall (fun p => part_ok (fst p) /\ width rho (fst p) = Some (snd p) /\ 0 < snd p) l -> l <> [] ->
    (exists n w r, l = r ++ [(n, w)] /\ 0 <= msboff < w) ->
    take_trim E k (map fst l) (map snd l ++ ws) 0 msboff first = Ok t ->
    forall v, V rho (rev (map fst l)) = Some v -> W rho (rev t) = Some (sumw l - msboff) /\ V rho (rev t) = Some (low v (sumw l - msboff)).
  Proof.
    induction l as [|[n w] l IH]; intros ws msboff first t HL HN (n0 & w0 & r0 & U & R0) H v HV; [congruence|]. cbn [map app fst snd take_trim] in H. cbn [bind tl] in H.
    rewrite andb_false_r in H. inversion HL as [|? ? (Hp & Hw & Hw0) HL']; subst. cbn [fst snd] in *.
    cbn [map rev fst] in HV. apply V_app in HV as (x & y & s & Hx & Hy & Hs & ->).
    assert (exists nv, value rho n = Some nv /\ y = nv /\ s = w /\ 0 <= nv < 2 ^ w) as (nv & Hnv & -> & -> & Hr).
    { apply V_cons in Hy as (w1 & x1 & v1 & z1 & E1 & E2 & E3 & E4 & E5 & E6). cbn in E2, E5. injection E2 as <-. injection E5 as <-. rewrite Hw in E1. injection E1 as <-.
      destruct Hp as (_ & _ & _ & Hf). pose proof (Hf _ _ E4 Hw) as F. exists v1. split; auto. split; [rewrite Z.pow_0_r in E6; rewrite low_small in E6 by lia; lia|]. split; auto.
      cbn in Hs. rewrite Hw in Hs. cbn in Hs. destruct (Z.leb_spec 0 w); [|lia]. injection Hs as <-. lia. }
    destruct l as [|p l].
    - cbn [map rev] in *. cbn in Hx. injection Hx as <-. cbn [andb] in H. destruct r0 as [|? r0]; [|destruct r0; discriminate]. injection U as <- <-. unfold sumw. cbn [map sum fold_right snd]. rewrite Z.add_0_r.
      rewrite Z.mul_0_l, Z.add_0_l. destruct (Z.ltb_spec 0 msboff).
      + unbind H. cbn [take_trim bind] in H. injection H as <-. cbn [rev app].
        destruct (optC_good E rho HA k _ _ (fs_part _ _ _ _ _ (proj1 (proj2 Hp)) (fs_eval _ _ _ _ _ _) (fs_eval _ _ _ _ _ _) ltac:(intros _ _ u Hu; rewrite Hnv in Hu; injection Hu as <-; lia)) B) as [KV KW].
        assert (ev rho (DPart n (pint (w - msboff - 1)) (pint 0)) = (Some (low (nv / 2 ^ 0) (w - msboff - 1 - 0 + 1)), Some (w - msboff - 1 - 0 + 1))) as EP.
        { cbn [ev pint fst]. destruct (Z.leb_spec 0 0); [|lia]. destruct (Z.leb_spec 0 (w - msboff - 1)); [|lia]. unfold value in Hnv. cbn [andb obind]. rewrite Hnv. reflexivity. }
        assert (width rho r = Some (w - msboff)) as Wr by (apply KW; [exact I|]; etransitivity; [exact (f_equal snd EP)|]; cbn [snd]; f_equal; lia).
        assert (value rho r = Some (low nv (w - msboff))) as Vr by (apply KV; etransitivity; [exact (f_equal fst EP)|]; cbn [fst]; do 2 f_equal; [change (2 ^ 0) with 1; now rewrite Z.div_1_r|lia]).
        split; [apply W_one; auto; lia|]. eapply V_one; eauto; [|lia]. unfold low. apply Z.mod_pos_bound. apply Z.pow_pos_nonneg; lia.
      + assert (msboff = 0) as -> by lia. rewrite (proj1 Hp) in H. cbn [take_trim bind] in H. injection H as <-. cbn [rev app]. rewrite Z.sub_0_r. rewrite low_small by lia. split; [apply W_one; auto; lia|eapply V_one; eauto; lia].
    - cbn [map] in H. cbn [andb] in H. rewrite (proj1 Hp) in H. cbn [bind] in H. unbind H. injection H as <-.
      destruct r0 as [|q r0]; [discriminate|]. injection U as <- U. change (snd p :: map snd l) with (map snd (p :: l)) in B. change (fst p :: map fst l) with (map fst (p :: l)) in B.
      destruct (IH ws msboff false _ HL' ltac:(discriminate) ltac:(exists n0, w0, r0; auto) B _ Hx) as [IW IV]. cbn [rev]. rewrite sumw_cons.
      assert (sumw (p :: l) = sumw r0 + w0) as Es by (rewrite U, sumw_app, sumw_cons; change (sumw []) with 0; lia).
      assert (0 <= sumw r0). { apply sumw_nonneg. rewrite U in HL'. apply Forall_app in HL' as [F _]. eapply Forall_impl; [|exact F]. cbn. tauto. }
      assert (W rho [n] = Some w) as W1 by (apply W_one; auto; lia). assert (V rho [n] = Some nv) as V1 by (eapply V_one; eauto; lia).
      split; [apply W_app; exists (sumw (p :: l) - msboff), w; repeat split; auto; lia|]. apply V_app. exists (low x (sumw (p :: l) - msboff)), nv, w. repeat split; auto.
      replace (w + sumw (p :: l) - msboff) with ((sumw (p :: l) - msboff) + w) by lia. rewrite <- low_split by lia.
      assert ((x * 2 ^ w + nv) / 2 ^ w = x) as -> by (rewrite Z.div_add_l by (apply Z.pow_nonzero; lia); rewrite Z.div_small by lia; lia).
      assert (low (x * 2 ^ w + nv) w = nv) as -> by (unfold low; rewrite (Z.add_comm _ nv), Z.mod_add by (apply Z.pow_nonzero; lia); apply Z.mod_small; lia). reflexivity.
  Qed.
  (** Numbers of bits at the boundaries between parts. *)
  Lemma boundary l lo used rest n w r p : l = lo ++ used ++ rest -> used = (n, w) :: r -> Forall (fun p => 0 < snd p) l -> (exists a b, l = a ++ b /\ sumw a = p) ->
    sumw lo <= p < sumw lo + w -> p = sumw lo.
  Proof.
    intros -> -> HP (a & b & Hl & <-) Hr. cbn [app] in Hl, HP.
    destruct (Nat.le_gt_cases (length a) (length lo)) as [L|L].
    - assert (exists x, lo = a ++ x) as [x ->].
      { exists (skipn (length a) lo). apply (f_equal (firstn (length a))) in Hl. rewrite !firstn_app, firstn_all, Nat.sub_diag, (proj2 (Nat.sub_0_le _ _) L) in Hl. cbn in Hl. rewrite !app_nil_r in Hl. rewrite <- (firstn_skipn (length a) lo) at 1. now rewrite Hl. }
      rewrite sumw_app in *. apply Forall_app in HP as [HP _]. apply Forall_app in HP as [_ HP]. apply sumw_nonneg in HP. lia.
    - assert (exists x, a = lo ++ (n, w) :: x) as [x ->].
      { apply (f_equal (firstn (length a))) in Hl. rewrite !firstn_app, firstn_all, Nat.sub_diag in Hl. cbn [firstn] in Hl. rewrite app_nil_r in Hl. rewrite firstn_all2 in Hl by lia.
        destruct (length a - length lo)%nat as [|j] eqn:Ej; [lia|]. cbn [firstn] in Hl. eauto. }
      rewrite Hl in HP. apply Forall_app in HP as [HP _]. apply Forall_app in HP as [_ HP]. inversion HP as [|? ? P1 P2]; subst. apply sumw_nonneg in P2. rewrite sumw_app, sumw_cons in *. cbn in P1. lia.
  Qed.

  Lemma part_value u m l : 0 <= l <= m -> value rho (DPart u (pint m) (pint l)) = obind (value rho u) (fun x => Some (low (x / 2 ^ l) (m - l + 1))).
  Proof. intros H. unfold value. cbn [ev pint fst]. destruct (Z.leb_spec 0 l); [|lia]. destruct (Z.leb_spec l m); [|lia]. reflexivity. Qed.
  Lemma measured nodes ws : Forall part_ok nodes -> mapM (getWidth E k) nodes = Ok ws ->
    Forall (fun p => part_ok (fst p) /\ width rho (fst p) = Some (snd p) /\ 0 < snd p) (combine nodes ws) /\ map fst (combine nodes ws) = nodes /\ map snd (combine nodes ws) = ws.
  Proof.
    intros H. revert ws. induction H as [|n nodes Hn H IH]; intros ws K; cbn [mapM] in K; [injection K as <-; cbn; auto|]. unbind K. unbind K. injection K as <-. destruct (IH _ B0) as (I1 & I2 & I3). cbn.
    split; [|split; congruence]. constructor; auto. cbn. destruct Hn as (H1 & H2 & (w & H3 & H4 & H5) & H6) eqn:E0. clear E0. rewrite B in H3. injection H3 as <-. unfold part_ok. eauto 10.
  Qed.

  Theorem takePart_ok nodes m l t v : Forall part_ok nodes -> 0 <= l <= m -> (exists w, width rho (DConcat nodes) = Some w /\ m < w) ->
    (exists hi mid lo, nodes = hi ++ mid ++ lo /\ width rho (DConcat lo) = Some l /\ width rho (DConcat mid) = Some (m - l + 1)) \/
      l = 0 \/ (exists hi n w, nodes = hi ++ [n] /\ width rho n = Some w /\ m < w) ->
    takePart E k nodes m l = Ok t -> value rho (DPart (DConcat nodes) (pint m) (pint l)) = Some v -> value rho t = Some v.
  Proof.
    intros HP Hlm (tw & Htw & Hm) HC H HV. unfold takePart in H. unbind H. rename r into ws.
    destruct (measured (rev nodes) ws (Forall_rev HP) B) as (HL & Hf & Hs). rewrite (Z.min_r m l), (Z.max_l m l) in H by lia.
    set (L := combine (rev nodes) ws) in *. clearbody L. assert (Forall (fun p => optC E k (fst p) = Ok (fst p)) L) as HS by (eapply Forall_impl; [|exact HL]; intros ? ((? & _) & _); auto).
    assert (Forall (fun p => 0 < snd p) L) as HP0 by (eapply Forall_impl; [|exact HL]; cbn; tauto).
    assert (Forall (fun p => width rho (fst p) = Some (snd p) /\ 0 < snd p) L) as HW by (eapply Forall_impl; [|exact HL]; cbn; tauto).
    assert (nodes = rev (map fst L)) as Hn by (rewrite Hf, rev_involutive; auto).
    assert (tw = sumw L) as -> by (rewrite concat_width, Hn, (W_rev _ HW) in Htw; congruence).
    (* the value *)
    assert (exists x, V rho nodes = Some x /\ v = low (x / 2 ^ l) (m - l + 1)) as (x & Hx & ->).
    { rewrite part_value in HV by lia. rewrite concat_value in HV. destruct (V rho nodes) as [x|]; [|discriminate]. cbn in HV. injection HV as <-. eauto. }
    unbind H. rename r into c. destruct (take_go_ok L l m 0 c HS HP0 ltac:(lia) ltac:(lia) B0) as (lo & used & rest & HLe & Hne & (n1 & w1 & r1 & U1 & R1) & (n2 & w2 & r2 & U2 & R2) & ->).
    rewrite !Z.add_0_l in *. cbn [c_used c_sum c_lsb c_lsboff c_msb c_msboff] in H.
    rewrite HLe, !map_app, !rev_app_distr in Hn. rewrite Hn in Hx. apply V_app in Hx as (x1 & x2 & s & Hx1 & Hx2 & Hs2 & ->). apply V_app in Hx1 as (x0 & x1' & s1 & Hx0 & Hx1 & Hs1 & ->). rename x1' into x1.
    rewrite HLe in HW, HP0, HL. apply Forall_app in HW as [HWlo HW]. apply Forall_app in HW as [HWu HWr]. rewrite W_rev in Hs1, Hs2 by auto. injection Hs1 as <-. injection Hs2 as <-.
    pose proof (V_range _ _ _ _ Hx2 (W_rev _ HWlo)) as R3. pose proof (V_range _ _ _ _ Hx1 (W_rev _ HWu)) as R4.
    assert (Forall (fun p => 0 < snd p) used) as HPu by (rewrite !Forall_app in HP0; tauto). pose proof (sumw_nonneg _ HPu) as Nu.
    assert (0 <= sumw lo) as Nl by (apply sumw_nonneg; rewrite !Forall_app in HP0; tauto). assert (sumw L = sumw lo + sumw used + sumw rest) as ES by (rewrite HLe, !sumw_app; lia).
    destruct (rev (map fst used)) as [|u us] eqn:Eu. { exfalso. apply Hne. apply (f_equal (@length _)) in Eu. rewrite rev_length, map_length in Eu. destruct used; [auto|discriminate]. }
    destruct (Z.ltb_spec (sumw lo + sumw used - 1 - m) 0); [lia|].
    assert (forall z, value rho u = Some z -> us = [] -> V rho (u :: us) = Some x1 -> z = x1 /\ used = [(u, sumw used)]) as Single.
    { intros z Hz -> Hv1. assert (used = [(u, sumw used)]) as Hus.
      { destruct used as [|[a wa] [|q used]]; [congruence| |apply (f_equal (@length _)) in Eu; rewrite rev_length, map_length in Eu; discriminate]. cbn in Eu. injection Eu as <-. unfold sumw, sum. cbn. now rewrite Z.add_0_r. }
      split; auto. rewrite Hus in HWu. apply Forall_inv in HWu as [W1 W2]. cbn [fst snd] in *. apply V_cons in Hv1 as (w' & x' & v' & z' & A1 & A2 & A3 & A4 & A5 & ->). cbn in A2, A5. injection A2 as <-. injection A5 as <-.
      rewrite Hz in A4. injection A4 as <-. rewrite W1 in A1. injection A1 as <-.
      assert (part_ok u) as (_ & _ & _ & F). { rewrite !Forall_app in HL. destruct HL as (_ & F & _). rewrite Hus in F. apply Forall_inv in F. tauto. }
      specialize (F _ _ Hz W1). rewrite low_small by lia. lia. }
    assert (value rho (match us with [] => u | _ => DConcat (u :: us) end) = Some x1) as VU.
    { destruct us; [|rewrite concat_value; exact Hx1]. pose proof Hx1 as K. apply V_cons in K as (w' & x' & v' & z' & A1 & A2 & A3 & A4 & A5 & _). destruct (Single _ A4 eq_refl Hx1) as [<- _]. exact A4. }
    (* aligned *)
    assert (l = sumw lo -> m = sumw lo + sumw used - 1 -> value rho t = Some (low (((x0 * 2 ^ sumw used + x1) * 2 ^ sumw lo + x2) / 2 ^ l) (m - l + 1))) as Aligned.
    { intros -> ->. replace (sumw lo + sumw used - 1 - (sumw lo + sumw used - 1)) with 0 in H by lia. rewrite Z.sub_diag in H. cbn [Z.eqb andb] in H. injection H as <-.
      rewrite Z.div_add_l by (apply Z.pow_nonzero; lia). rewrite (Z.div_small x2) by lia. rewrite Z.add_0_r. replace (sumw lo + sumw used - 1 - sumw lo + 1) with (sumw used) by lia.
      unfold low. rewrite Z.add_comm, Z.mod_add by (apply Z.pow_nonzero; lia). rewrite Z.mod_small by lia. exact VU. }
    assert (forall y z s, nodes = y ++ z -> W rho z = Some s -> exists a b, L = a ++ b /\ sumw a = s) as Bound.
    { intros y z s Hd Hz. exists (firstn (length z) L), (skipn (length z) L). split; [now rewrite firstn_skipn|]. assert (map fst (firstn (length z) L) = rev z) as Hfs.
      { rewrite <- firstn_map, Hf, Hd, rev_app_distr, firstn_app, <- (rev_length z), firstn_all, Nat.sub_diag. cbn. apply app_nil_r. }
      assert (W rho (rev (map fst (firstn (length z) L))) = Some (sumw (firstn (length z) L))) as K.
      { apply W_rev. rewrite <- HLe in HL. rewrite <- (firstn_skipn (length z) L) in HL. apply Forall_app in HL as [K _]. eapply Forall_impl; [|exact K]. cbn. tauto. }
      rewrite Hfs, rev_involutive in K. congruence. }
    assert (sumw used = sumw r2 + w2) as Eu2 by (rewrite U2, sumw_app, sumw_cons; change (sumw []) with 0; lia). assert (sumw used = w1 + sumw r1) as Eu1 by (rewrite U1, sumw_cons; lia).
    destruct HC as [(hi & mid & lo' & Hd & Hl1 & Hl2)|HC].
    { rewrite concat_width in Hl1, Hl2. apply Aligned.
      - eapply boundary; [exact HLe|exact U1|rewrite HLe; auto| |lia]. apply (Bound (hi ++ mid) lo'); auto. now rewrite <- app_assoc.
      - destruct (Z.eq_dec m (sumw lo + sumw used - 1)) as [|N]; auto. exfalso. assert (m + 1 = sumw (lo ++ r2)) as K; [|rewrite sumw_app in K; lia].
        eapply (boundary L (lo ++ r2) [(n2, w2)] rest); [rewrite HLe, U2, <- !app_assoc; reflexivity|reflexivity|rewrite HLe; auto| |rewrite sumw_app; lia].
        apply (Bound hi (mid ++ lo')); auto. apply W_app. exists (m - l + 1), l. split; auto. split; auto. lia. }
    assert (Forall (fun p => 0 < snd p) lo) as HPlo by (rewrite !Forall_app in HP0; tauto).
    assert (forall p r, lo = p :: r -> snd p <= sumw lo) as Hlo1 by (intros [a b] r ->; pose proof (sumw_nonneg r (Forall_inv_tail HPlo)); rewrite sumw_cons; cbn; lia).
    assert (lo = []) as ->.
    { destruct lo as [|p lo]; auto. exfalso. pose proof (Hlo1 _ _ eq_refl) as K. pose proof (Forall_inv HPlo) as HPp. cbn in HPp. destruct HC as [->|(hi & n & w & Hd & Hw & Hmw)]; [lia|].
      assert (n = fst p) as ->. { rewrite Hd in Hf. rewrite rev_app_distr in Hf.  rewrite HLe in Hf. cbn in Hf. injection Hf as -> _. reflexivity. }
      apply Forall_inv in HWlo as [K1 K2]. rewrite Hw in K1. injection K1 as ->. lia. }
    change (sumw []) with 0 in *. rewrite Z.pow_0_r, Z.mul_1_r in *. cbn in Hx2. injection Hx2 as <-. rewrite !Z.add_0_l, Z.add_0_r, Z.sub_0_r in *.
    assert (forall z, low ((x0 * 2 ^ sumw used + x1) / 2 ^ l) (m - l + 1) = z <-> low (x1 / 2 ^ l) (m - l + 1) = z) as Drop.
    { intros z. replace (low ((x0 * 2 ^ sumw used + x1) / 2 ^ l) (m - l + 1)) with (low (x1 / 2 ^ l) (m - l + 1)); [tauto|]. apply Z.bits_inj'. intros i Hi. unfold low.
      rewrite !Z.testbit_mod_pow2 by lia. destruct (Z.ltb_spec i (m - l + 1)); auto. cbn [andb]. rewrite !Z.div_pow2_bits by lia.
      rewrite <- (Z.mod_small x1 (2 ^ sumw used)) at 1 by lia. rewrite <- (Z.mod_pow2_bits_low (x0 * 2 ^ sumw used + x1) (sumw used)) by lia. rewrite (Z.add_comm (x0 * _)), Z.mod_add by (apply Z.pow_nonzero; lia). reflexivity. }
    assert (us = [] -> t = DPart u (pint m) (pint l) -> value rho t = Some (low ((x0 * 2 ^ sumw used + x1) / 2 ^ l) (m - l + 1))) as Inside.
    { intros -> ->. rewrite part_value by lia. rewrite VU. cbn [obind]. f_equal. symmetry. now apply Drop. }
    destruct ((l =? 0) && (sumw used - 1 - m =? 0)) eqn:Ea.
    { apply andb_true_iff in Ea as [E1 E2]. apply Z.eqb_eq in E1, E2. apply Aligned; lia. }
    replace (sumw used - 1 - (sumw used - 1 - m)) with m in H by lia.
    destruct us as [|u' us]; [injection H as <-; apply Inside; auto|].
    destruct HC as [->|(hi & n & w & Hd & Hw & Hmw)].
    - unbind H. injection H as <-. rewrite Z.sub_0_r, Z.div_1_r in *. rewrite part_value by lia. rewrite concat_value.
      assert (map snd L = map snd used ++ map snd rest) as Ews by (rewrite HLe; cbn [app]; apply map_app). rewrite <- Hs, Ews in B1.
      destruct (take_trim_ok used (map snd rest) (sumw used - 1 - m) true _ ltac:(cbn [app] in HL; apply Forall_app in HL; tauto) Hne ltac:(exists n2, w2, r2; split; auto; lia) B1 x1 ltac:(rewrite Eu; exact Hx1)) as [TW TV].
      rewrite TV. cbn [obind]. f_equal. change (2 ^ 0) with 1. rewrite Z.div_1_r. specialize (Drop (low x1 (m + 1))). rewrite Z.pow_0_r, !Z.div_1_r in Drop. rewrite Z.sub_0_r in *. rewrite (proj2 Drop) by auto.
      replace (sumw used - (sumw used - 1 - m)) with (m + 1) by lia. unfold low. apply Z.mod_mod. apply Z.pow_nonzero; lia.
    - exfalso. assert (w1 = w) as ->. { rewrite Hd in Hf. rewrite rev_app_distr in Hf.  rewrite HLe, U1 in Hf. cbn in Hf. injection Hf as -> _. rewrite U1 in HWu. apply Forall_inv in HWu as [K1 _]. cbn in K1. congruence. }
      destruct r2 as [|p r2]. { rewrite U2 in Eu. cbn in Eu. discriminate. }
      assert (p = (n1, w)) as -> by (rewrite U1 in U2; injection U2; auto). rewrite sumw_cons in Eu2.
      assert (0 <= sumw r2) by (apply sumw_nonneg; rewrite U2 in HPu; apply Forall_inv_tail in HPu as K; apply Forall_app in K; tauto). lia.
  Qed.
End Part.
