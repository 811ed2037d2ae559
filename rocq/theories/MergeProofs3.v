(** MergeProofs3.v - placement of slices, splitting. *)
From Verif Require Import Base ScopeModel DfModel BindModel OptModel OptSpec OptArith OptProofs OptProofs2 MergeModel MergeSpec MergeProofs MergeProofs2 HierProofs HierConcat.
Require Import Coq.Sorting.Permutation Coq.Sorting.Sorted.
Local Open Scope Z_scope.

(** Slices one above the other, from bit [cur]. *)
Fixpoint stacked (cur : Z) (l : list bind_) (n : Z) : Prop :=
  match l with
  | [] => cur = n
  | b :: r => exists m, slice_of b = Some (m, cur) /\ cur <= m /\ stacked (m + 1) r n
  end.
Definition lsb_of (b : bind_) : Z := match slice_of b with Some (_, l) => l | None => 0 end.

Lemma disjoint_perm l l' : Permutation l l' -> ForallOrdPairs (fun a b => forall p, ~ (covers a p /\ covers b p)) l -> ForallOrdPairs (fun a b => forall p, ~ (covers a p /\ covers b p)) l'.
Proof.
  induction 1 as [|x l l' HP IH|x y l|l l' l'' H1 IH1 H2 IH2]; intros H; auto.
  - inversion H; subst. constructor; auto. eapply Permutation_Forall; eauto.
  - inversion H as [|? ? F1 H']; subst. inversion H' as [|? ? F2 H'']; subst. inversion F1; subst. constructor; [constructor; auto|constructor; auto]. intros p [K1 K2]. eapply H2; eauto.
Qed.
Lemma tiles_perm n l l' : Permutation l l' -> tiles n l -> tiles n l'.
Proof.
  intros HP (H1 & H2 & H3). split; [eapply Permutation_Forall; eauto|]. split; [eapply disjoint_perm; eauto|]. intros p Hp. destruct (H3 p Hp) as (b & Hb & K). exists b. split; auto. eapply Permutation_in; eauto.
Qed.
(** A tiling sorted by position is stacked. *)
Lemma sorted_stacked l : forall cur n, cur <= n -> StronglySorted (fun a b => lsb_of a <= lsb_of b) l ->
  Forall (fun b => exists m l, slice_of b = Some (m, l) /\ cur <= l <= m /\ m < n) l ->
  ForallOrdPairs (fun a b => forall p, ~ (covers a p /\ covers b p)) l ->
  (forall p, cur <= p < n -> exists b, In b l /\ covers b p) -> stacked cur l n.
Proof.
  induction l as [|b r IH]; intros cur n Hn HS HF HD HC.
  - cbn. destruct (Z.eq_dec cur n); auto. destruct (HC cur ltac:(lia)) as (b & [] & _).
  - inversion HS as [|? ? HS' HB]; subst. inversion HF as [|? ? (m & l & Hb & Hl & Hm) HF']; subst. inversion HD as [|? ? HD1 HD']; subst.
    assert (l = cur) as ->.
    { destruct (Z.eq_dec l cur); auto. exfalso. destruct (HC cur ltac:(lia)) as (b' & Hb' & m' & l' & K1 & K2). destruct Hb' as [->|Hb']; [rewrite Hb in K1; injection K1 as <- <-; lia|].
      rewrite Forall_forall in HB. specialize (HB _ Hb'). unfold lsb_of in HB. rewrite Hb, K1 in HB. lia. }
    exists m. split; auto. split; [lia|]. apply IH; auto; [lia| |].
    + rewrite Forall_forall in *. intros b' Hb'. destruct (HF' _ Hb') as (m' & l' & K1 & K2 & K3). exists m', l'. split; auto. specialize (HB _ Hb'). unfold lsb_of in HB. rewrite Hb, K1 in HB.
      specialize (HD1 _ Hb'). split; [|lia]. split; [|lia]. destruct (Z_lt_le_dec l' (m + 1)); [|lia]. exfalso. apply (HD1 l'). split; [exists m, cur; split; auto; lia|exists m', l'; split; auto; lia].
    + intros p Hp. destruct (HC p ltac:(lia)) as (b' & [<-|Hb'] & K); [|eauto]. destruct K as (m' & l' & K1 & K2). rewrite Hb in K1. injection K1 as <- <-. lia.
Qed.

Section Place.
  Variable terms : ndict term.
  Variables optimize optconst reorder_ : df -> res df.

  Lemma bindkey_slice b m l k : slice_of b = Some (m, l) -> bindkey terms optimize b = Ok k -> k = l.
  Proof.
    intros Hs. destruct (slice_inv _ _ _ Hs) as (wm & f & g & wl & f' & g' & E1 & E2 & E3). unfold bindkey. rewrite E2, E3. cbn [is_none int_attr value_attr bind].
    intros H. do 6 unbind H. injection H as <-. reflexivity.
  Qed.
  Lemma sort_sorted (l : list (Z * bind_)) : StronglySorted (fun a b => fst a <= fst b) (sort_by (fun a b => fst a <=? fst b) l).
  Proof.
    apply Sorted_StronglySorted; [intros a b c; lia|]. assert (Sorted (fun a b : Z * bind_ => (fst a <=? fst b) = true) (sort_by (fun a b => fst a <=? fst b) l)) as K.
    { apply sort_by_sorted. intros x y. rewrite !Z.leb_le. lia. }
    induction K as [|a l' K IH HR]; constructor; auto. inversion HR; subst; constructor. now apply Z.leb_le.
  Qed.
  Lemma sort_binds_ok l s : Forall (fun b => slice_of b <> None) l -> sort_binds terms optimize l = Ok s -> Permutation l s /\ StronglySorted (fun a b => lsb_of a <= lsb_of b) s.
  Proof.
    intros HF H. unfold sort_binds in H. unbind H. injection H as <-. apply mapM_ok_Forall2 in B.
    assert (Forall (fun p => fst p = lsb_of (snd p)) (combine r l) /\ map snd (combine r l) = l) as [K1 K2].
    { clear - B HF. induction B as [|b k l ks Hb B IH]; [split; constructor|]. inversion HF; subst. destruct (IH ltac:(assumption)) as [I1 I2]. cbn. split; [|congruence]. constructor; auto. cbn.
      unfold lsb_of. destruct (slice_of b) as [[m x]|] eqn:E; [|congruence]. eapply bindkey_slice; eauto. }
    split; [rewrite <- K2 at 1; apply Permutation_map, sort_by_perm|].
    assert (Forall (fun p => fst p = lsb_of (snd p)) (sort_by (fun a b : Z * bind_ => fst a <=? fst b) (combine r l))) as K3 by (eapply Permutation_Forall; [apply sort_by_perm|auto]).
    pose proof (sort_sorted (combine r l)) as S. induction S as [|a s' S IH HF']; [constructor|]. inversion K3; subst. cbn. constructor; auto.
    rewrite Forall_forall in *. intros b Hb. apply in_map_iff in Hb as (p & <- & Hp). rewrite <- (H2 _ Hp). rewrite <- H1. auto.
  Qed.
  Lemma tiles_sorted n l s : 0 <= n -> tiles n l -> sort_binds terms optimize l = Ok s -> Permutation l s /\ stacked 0 s n.
  Proof.
    intros Hn HT H. assert (Forall (fun b => slice_of b <> None) l) as HF by (eapply Forall_impl; [|exact (proj1 HT)]; intros b (m & x & -> & _); discriminate).
    destruct (sort_binds_ok _ _ HF H) as [HP HS]. split; auto. destruct (tiles_perm _ _ _ HP HT) as (T1 & T2 & T3). apply sorted_stacked; auto.
  Qed.
  Lemma merged_stacked l : forall cur n acc, stacked cur l n -> merged_go l (cur - 1) (-1) acc = Ok (rev (map b_tree l) ++ acc).
  Proof.
    induction l as [|b r IH]; intros cur n acc H; auto. cbn in H. destruct H as (m & Hs & Hm & H). destruct (slice_inv _ _ _ Hs) as (wm & f & g & wl & f' & g' & E1 & E2 & E3).
    cbn [merged_go]. unfold ptr_or. rewrite E1, E2, E3. cbn [is_none int_attr value_attr bind negb]. change (-1 =? -1) with true. cbn [negb]. destruct (Z.ltb_spec (cur - 1 + 1) cur); [lia|].
    replace m with (m + 1 - 1) by lia. rewrite (IH (m + 1) n _ H). cbn [map rev]. rewrite <- app_assoc. reflexivity.
  Qed.

  Variable rho : venv.
  Lemma stacked_value l : forall cur n, stacked cur l n -> Forall (sized rho) l ->
    exists v, V rho (rev (map b_tree l)) = Some v /\ W rho (rev (map b_tree l)) = Some (n - cur) /\ cur <= n /\
      forall b m lo x, In b l -> slice_of b = Some (m, lo) -> value rho (b_tree b) = Some x -> cur <= lo /\ low (v / 2 ^ (lo - cur)) (m - lo + 1) = x.
  Proof.
    induction l as [|b r IH]; intros cur n H HS; cbn in H.
    - subst n. exists 0. rewrite Z.sub_diag. repeat split; auto; try lia; contradiction.
    - destruct H as (m & Hb & Hm & H). inversion HS as [|? ? (m' & l' & x & K1 & K2 & K3 & K4) HS']; subst. rewrite Hb in K1. injection K1 as <- <-.
      destruct (IH _ _ H HS') as (v & HV & HW & Hn & Hp). exists (v * 2 ^ (m - cur + 1) + x). cbn [map rev].
      assert (W rho [b_tree b] = Some (m - cur + 1)) as W1 by (apply W_one; auto; lia). assert (V rho [b_tree b] = Some x) as V1 by (eapply V_one; eauto; lia).
      split; [apply V_app; exists v, x, (m - cur + 1); auto|]. split; [apply W_app; exists (n - (m + 1)), (m - cur + 1); repeat split; auto; lia|]. split; [lia|].
      intros b' m' lo y [<-|Hi] Hs Hy.
      + rewrite Hb in Hs. injection Hs as <- <-. rewrite K3 in Hy. injection Hy as <-. split; [lia|]. rewrite Z.sub_diag, Z.pow_0_r, Z.div_1_r. unfold low. rewrite Z.add_comm, Z.mod_add by (apply Z.pow_nonzero; lia). apply Z.mod_small. lia.
      + destruct (Hp _ _ _ _ Hi Hs Hy) as [P1 P2]. split; [lia|]. rewrite <- P2. assert (0 <= lo - (m + 1)) by lia.
        assert ((v * 2 ^ (m - cur + 1) + x) / 2 ^ (lo - cur) = v / 2 ^ (lo - (m + 1))) as ->; auto.
        replace (lo - cur) with ((m - cur + 1) + (lo - (m + 1))) by lia. rewrite (Z.pow_add_r 2 (m - cur + 1)) by lia.
        rewrite <- Z.div_div by (try apply Z.pow_nonzero; try apply Z.pow_pos_nonneg; lia).
        rewrite Z.div_add_l by (apply Z.pow_nonzero; lia). rewrite (Z.div_small x) by lia. now rewrite Z.add_0_r.
  Qed.
  Theorem merged_ok n l t : 0 <= n -> tiles n l -> Forall (sized rho) l -> getMergedTree terms optimize l = Ok t ->
    exists v, value rho t = Some v /\ width rho t = Some n /\ placed rho v l.
  Proof.
    intros Hn HT HS H. unfold getMergedTree in H. unbind H. unbind H. injection H as <-. destruct (tiles_sorted _ _ _ Hn HT B) as [HP HK].
    change (-1) with (0 - 1) in B0 at 1. rewrite (merged_stacked _ _ _ _ HK) in B0. injection B0 as <-. rewrite app_nil_r.
    destruct (stacked_value _ _ _ HK (Permutation_Forall HP HS)) as (v & HV & HW & _ & Hp). exists v. rewrite concat_value, concat_width. split; auto. split; [rewrite HW; f_equal; lia|].
    intros b m lo x Hb Hs Hx. destruct (Hp b m lo x (Permutation_in _ HP Hb) Hs Hx) as [_ K]. now rewrite Z.sub_0_r in K.
  Qed.

  (** ** The whole way for disjoint slices *)
  Lemma splitPos_none l : forall assigned n, (forall t, isEval t = true \/ t = DNone -> optconst t = Ok t) ->
    Forall (fun b => exists m l, slice_of b = Some (m, l) /\ 0 <= l <= m /\ m < n) l ->
    ForallOrdPairs (fun a b => forall p, ~ (covers a p /\ covers b p)) l ->
    (forall r b p, In r assigned -> In b l -> ~ (inside r p /\ covers b p)) -> splitPos_go terms optconst l [] assigned = Ok [].
  Proof.
    induction l as [|b r IH]; intros assigned n HO HF HD HA; auto. inversion HF as [|? ? (m & lo & Hs & Hl & Hm) HF']; subst. inversion HD as [|? ? HD1 HD']; subst.
    destruct (slice_inv _ _ _ Hs) as (wm & f & g & wl & f' & g' & E1 & E2 & E3). cbn [splitPos_go]. rewrite E1, E2, E3. rewrite (HO _ (or_intror eq_refl)), !HO by (left; reflexivity). cbn [bind is_none isEval negb orb andb].
    cbn [int_attr value_attr bind].
    assert (matchedRange assigned m lo None = []) as ->.
    { apply matched_none. intros q Hq. split; intros K; (eapply (HA q b); [exact Hq|now left|split; [exact K|exists m, lo; split; auto; lia]]). }
    cbn. eapply IH; eauto. intros q b' p Hq Hb' [K1 K2]. apply in_app_iff in Hq as [Hq|[<-|[]]]; [exact (HA _ _ p Hq (or_intror Hb') (conj K1 K2))|].
    rewrite Forall_forall in HD1. apply (HD1 _ Hb' p). split; auto. exists m, lo. split; auto.
  Qed.
  Lemma splitBindlist_nil l : splitBindlist terms optimize optconst reorder_ l [] = Ok l.
  Proof. induction l as [|b r IH]; auto. cbn [splitBindlist]. rewrite IH. reflexivity. Qed.
  Lemma mergeBind_stacked l : forall cur n acc, stacked cur l n -> (match acc with [] => True | b :: _ => exists m lo, slice_of b = Some (m, lo) /\ lo < cur end) ->
    mergeBind_go optimize l acc = Ok (rev acc ++ l).
  Proof.
    induction l as [|b r IH]; intros cur n acc H HA; cbn [mergeBind_go]; [now rewrite app_nil_r|]. cbn in H. destruct H as (m & Hs & Hm & H).
    assert (mergeBind_go optimize r (b :: acc) = Ok (rev acc ++ b :: r)) as K.
    { rewrite (IH (m + 1) n (b :: acc) H); [cbn; now rewrite <- app_assoc|]. exists m, cur. split; auto. lia. }
    destruct acc as [|last acc']; [exact K|]. destruct HA as (m' & lo & Hs' & Hlo).
    destruct (slice_inv _ _ _ Hs) as (wm & f & g & wl & f' & g' & E1 & E2 & E3). destruct (slice_inv _ _ _ Hs') as (wm' & f1 & g1 & wl' & f1' & g1' & E1' & E2' & E3').
    unfold other_element, same_slice. rewrite E1, E2, E2', E3'. cbn [is_none orb value_attr bind]. cbn [pyval_eqb]. destruct (Z.eqb_spec lo cur); [lia|]. cbn [negb bind]. exact K.
  Qed.
  Lemma optimize_binds l : (forall t, isEval t = true \/ t = DNone -> optimize t = Ok t) -> Forall (fun b => slice_of b <> None) l -> forall l', mapM (optimize_bind optimize) l = Ok l' ->
    Forall2 (fun b b' => slice_of b' = slice_of b /\ optimize (b_tree b) = Ok (b_tree b')) l l'.
  Proof.
    intros HO HF l' H. apply mapM_ok_Forall2 in H. induction H as [|b b' l l' Hb H IH]; [constructor|]. inversion HF; subst. constructor; auto. unfold optimize_bind in Hb. unbind Hb. unbind Hb. unbind Hb. unbind Hb. injection Hb as <-.
    destruct (slice_of b) as [[m lo]|] eqn:Hs; [|congruence]. destruct (slice_inv _ _ _ Hs) as (wm & f & g & wl & f' & g' & E1 & E2 & E3). rewrite E1, HO in B0 by auto. rewrite E2, HO in B1 by auto. rewrite E3, HO in B2 by auto.
    injection B0 as <-. injection B1 as <-. injection B2 as <-. split; auto.
  Qed.
  Definition sound (t : df) : Prop := forall t', optimize t = Ok t' -> (forall v, value rho t = Some v -> value rho t' = Some v) /\ (forall w, width rho t = Some w -> width rho t' = Some w).
  Theorem getTree_ok binds n N l t : 0 <= N -> dget binds n = Some l -> l <> [] -> tiles N l -> Forall (sized rho) l ->
    (forall t, isEval t = true \/ t = DNone -> optimize t = Ok t /\ optconst t = Ok t) ->
    (forall b, In b l -> sound (b_tree b)) -> (forall us ts, mapM optimize (map b_tree l) = Ok us -> Permutation us ts -> sound (DConcat ts)) ->
    getTree terms optimize optconst reorder_ binds n = Ok t ->
    exists v, value rho t = Some v /\ placed rho v l.
  Proof.
    intros HN Hd Hne HT HS HO HB HC H. unfold getTree in H. rewrite Hd in H. unbind H. rename r into l2.
    assert (Forall (fun b => slice_of b <> None) l) as HF by (eapply Forall_impl; [|exact (proj1 HT)]; intros b (m & x & -> & _); discriminate).
    assert (exists l1, mapM (optimize_bind optimize) l = Ok l1 /\ (match l1 with [b] => Ok [b] | _ => do ps <- splitPositions terms optconst l1; do s <- splitBindlist terms optimize optconst reorder_ l1 ps; mergeBindlist terms optimize s end) = Ok l2) as (l1 & M1 & M2).
    { unfold getOptimizedBindlist in B. destruct l; [congruence|]. unbind B. eauto. }
    pose proof (optimize_binds l (fun t Ht => proj1 (HO t Ht)) HF l1 M1) as F2.
    assert (tiles N l1) as HT1.
    { destruct HT as (T1 & T2 & T3). assert (forall b b', slice_of b' = slice_of b -> forall p, covers b' p <-> covers b p) as Cv by (intros b b' E p; unfold covers; now rewrite E).
      clear - T1 T2 T3 F2 Cv. split; [|split].
      - clear T2 T3. induction F2 as [|b b' l l' [E _] F2 IH]; constructor; inversion T1; subst; auto. now rewrite E.
      - clear T1 T3. induction F2 as [|b b' l l' [E _] F2 IH]; inversion T2; subst; constructor; auto. clear - H1 F2 E Cv. induction F2 as [|c c' l l' [E' _] F2 IH]; inversion H1; subst; constructor; auto.
        intros p. rewrite (Cv _ _ E), (Cv _ _ E'). auto.
      - intros p Hp. destruct (T3 p Hp) as (b & Hb & K). clear - F2 Hb K Cv. induction F2 as [|c c' l l' [E _] F2 IH]; [contradiction|]. destruct Hb as [->|Hb]; [exists c'; split; [now left|now apply (Cv _ _ E)]|].
        destruct (IH Hb) as (b' & I1 & I2). exists b'. split; auto. now right. }
    assert (Forall (sized rho) l1) as HS1.
    { clear - F2 HS HB. induction F2 as [|b b' l l' [E1 E2] F2 IH]; constructor; inversion HS as [|? ? (m & lo & v & K1 & K2 & K3 & K4) HS']; subst.
      - destruct (HB b (or_introl eq_refl) _ E2) as [V1 W1]. exists m, lo, v. rewrite E1. auto.
      - apply IH; auto. intros; apply HB; now right. }
    assert (forall v, placed rho v l1 -> placed rho v l) as HPl.
    { intros v K b m lo x Hb Hs Hx. clear - F2 HB K Hb Hs Hx. induction F2 as [|c c' l l' [E1 E2] F2 IH]; [contradiction|]. destruct Hb as [->|Hb].
      - apply (K c'); [now left|congruence|]. apply (HB b (or_introl eq_refl) _ E2); auto.
      - apply IH; auto; [intros; apply HB; now right|intros ? ? ? ? ?; apply K; now right]. }
    (* the list is only sorted *)
    assert (Permutation l1 l2 /\ (forall b, l1 = [b] -> l2 = [b])) as [HP H1].
    { assert (sort_binds terms optimize l1 = Ok l2 \/ exists b, l1 = [b] /\ l2 = [b]) as [K|(b & -> & ->)].
      { destruct HT1 as (T1 & T2 & T3). assert (splitPositions terms optconst l1 = Ok []) as SP.
        { unfold splitPositions. rewrite (splitPos_none l1 [] N); auto. intros u Hu. apply (HO u Hu). }
        assert ((do ps <- splitPositions terms optconst l1; do s <- splitBindlist terms optimize optconst reorder_ l1 ps; mergeBindlist terms optimize s) = Ok l2 -> sort_binds terms optimize l1 = Ok l2) as K.
        { rewrite SP. cbn [bind]. rewrite splitBindlist_nil. cbn [bind]. unfold mergeBindlist. intros K. unbind K. destruct (tiles_sorted N l1 r HN (conj T1 (conj T2 T3)) B0) as [_ HK]. rewrite (mergeBind_stacked _ _ _ [] HK I) in K. cbn in K. rewrite B0. exact K. }
        destruct l1 as [|b [|b' l1]]; [left; exact (K M2)| |left; exact (K M2)]. injection M2 as <-. right. eauto. }
      - destruct (tiles_sorted _ _ _ HN HT1 K) as [HP _]. split; auto. intros b ->. apply Permutation_length_1_inv in HP. auto.
      - split; auto. }
    assert (tiles N l2) as HT2 by (eapply tiles_perm; eauto). assert (Forall (sized rho) l2) as HS2 by (eapply Permutation_Forall; eauto).
    assert (forall v, placed rho v l2 -> placed rho v l) as HP2. { intros v K. apply HPl. intros b m lo x Hb. apply K. eapply Permutation_in; eauto. }
    destruct l2 as [|b2 r2]. { apply Permutation_sym, Permutation_nil in HP. subst l1. inversion F2. congruence. }
    destruct (getTerm terms n) as [tm|]; [|discriminate]. destruct (t_dims tm); [discriminate|].
    destruct r2 as [|b3 r2].
    - injection H as <-. inversion HS2 as [|? ? (m & lo & v & K1 & K2 & K3 & K4) _]; subst. exists v. split; auto. apply HP2. intros b m' lo' x [<-|[]] Hs Hx. rewrite K1 in Hs. injection Hs as <- <-. rewrite K3 in Hx. injection Hx as <-.
      destruct HT2 as (T1 & _ & T3). inversion T1 as [|? ? (m' & lo' & K5 & K6 & K7) _]; subst. rewrite K1 in K5. injection K5 as <- <-.
      assert (lo = 0) as ->. { destruct (T3 0 ltac:(lia)) as (b & [<-|[]] & m' & lo' & J1 & J2). rewrite K1 in J1. injection J1 as <- <-. lia. }
      rewrite Z.pow_0_r, Z.div_1_r. apply low_small. lia.
    - unbind H. rename r into u. destruct (merged_ok _ _ _ HN HT2 HS2 B0) as (v & V1 & W1 & P1).
      assert (mapM optimize (map b_tree l) = Ok (map b_tree l1)) as Hus.
      { clear - F2. induction F2 as [|c c' l l' [E1 E2] F2 IH]; auto. cbn [map mapM]. rewrite E2, IH. reflexivity. }
      assert (exists ts, u = DConcat ts /\ Permutation (map b_tree l1) ts) as (ts & -> & Hts).
      { unfold getMergedTree in B0. unbind B0. unbind B0. injection B0 as <-. destruct (tiles_sorted _ _ _ HN HT2 B1) as [HP3 HK3]. change (-1) with (0 - 1) in B2 at 1. rewrite (merged_stacked _ _ _ _ HK3) in B2. injection B2 as <-.
        exists (rev (map b_tree r) ++ []). split; auto. rewrite app_nil_r. eapply perm_trans; [apply Permutation_map; exact HP|]. eapply perm_trans; [apply Permutation_map; exact HP3|]. apply Permutation_rev. }
      destruct (HC _ ts Hus Hts _ H) as [K1 _]. exists v. split; auto.
  Qed.

  (** ** Splitting *)
  Theorem split_ranges b m l pos left right : slice_of b = Some (m, l) ->
    (forall t, isEval t = true \/ t = DNone -> optconst t = Ok t) ->
    splitBind terms optimize optconst reorder_ b pos = Ok (left, Some right) ->
    slice_of left = Some (m, pos) /\ slice_of right = Some (pos - 1, l) /\ l < pos <= m /\
    b_dest left = b_dest b /\ b_dest right = b_dest b.
  Proof.
    intros Hs HO H. destruct (slice_inv _ _ _ Hs) as (wm & f & g & wl & f' & g' & E1 & E2 & E3). unfold splitBind in H. rewrite E1, E2, E3, !HO in H by auto. cbn [bind is_none negb andb orb int_attr value_attr] in H.
    destruct (Z.ltb_spec l pos) as [Hp|]; [|discriminate]. cbn [negb] in H. destruct (Z.leb_spec pos m) as [Hm|]; [|discriminate]. cbn [negb] in H. unbind H. unbind H. unbind H. unbind H. injection H as <- <-.
    split; [unfold slice_of; cbn; now rewrite E3|]. split; [unfold slice_of; cbn; now rewrite E3|]. auto.
  Qed.
  Theorem split_ok b m l pos left right x : slice_of b = Some (m, l) ->
    (forall t, isEval t = true \/ t = DNone -> optconst t = Ok t) ->
    splitBind terms optimize optconst reorder_ b pos = Ok (left, Some right) -> value rho (b_tree b) = Some x ->
    slice_of left = Some (m, pos) /\ slice_of right = Some (pos - 1, l) /\ l < pos <= m /\
    b_dest left = b_dest b /\ b_dest right = b_dest b /\
    ((forall a c t t', (a, c) = (pos - l - 1, 0) \/ (a, c) = (m, pos) -> reorder_ (DPart (b_tree b) (pint a) (pint c)) = Ok t -> optimize t = Ok t' -> forall v, value rho (DPart (b_tree b) (pint a) (pint c)) = Some v -> value rho t' = Some v) -> 0 <= l ->
     value rho (b_tree right) = Some (low x (pos - l)) /\ value rho (b_tree left) = Some (low (x / 2 ^ pos) (m - pos + 1))).
  Proof.
    intros Hs HO H Hx. destruct (slice_inv _ _ _ Hs) as (wm & f & g & wl & f' & g' & E1 & E2 & E3). unfold splitBind in H. rewrite E1, E2, E3, !HO in H by auto. cbn [bind is_none negb andb orb int_attr value_attr] in H.
    destruct (Z.ltb_spec l pos) as [Hp|]; [|discriminate]. cbn [negb] in H. destruct (Z.leb_spec pos m) as [Hm|]; [|discriminate]. cbn [negb] in H. unbind H. unbind H. unbind H. unbind H. injection H as <- <-.
    split; [unfold slice_of; cbn; now rewrite E3|]. split; [unfold slice_of; cbn; now rewrite E3|]. split; auto. split; auto. split; auto. intros HV Hl. cbn [b_tree set_slice].
    assert (forall a c, 0 <= c <= a -> value rho (DPart (b_tree b) (pint a) (pint c)) = Some (low (x / 2 ^ c) (a - c + 1))) as PV.
    { intros a c Hac. unfold value in *. cbn [ev pint fst]. destruct (Z.leb_spec 0 c); [|lia]. destruct (Z.leb_spec c a); [|lia]. cbn [andb fst]. rewrite Hx. reflexivity. }
    split.
    - apply (HV _ _ _ _ (or_introl eq_refl) B B1). rewrite PV by lia. rewrite Z.pow_0_r, Z.div_1_r. do 2 f_equal. lia.
    - replace (m - (m - pos + 1) + 1) with pos in B0 by lia. apply (HV _ _ _ _ (or_intror eq_refl) B0 B2). rewrite PV by lia. reflexivity.
  Qed.
End Place.
