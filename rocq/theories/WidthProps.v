(** WidthProps.v - C53: the width computed for a tree is the tree's width. *)
From Verif Require Import Base ScopeModel DfModel DfProofs BindModel LitModel LitSpec OptModel OptSpec OptArith OptProofs OptProofs2 OptProps HierModel HierSpec HierProps WidthSpec.
Local Open Scope Z_scope.

Definition settles (E : optenv) (t : df) (w : Z) : Prop := exists k0, forall k, (k0 <= k)%nat -> getWidth E k t = Ok w.
Lemma settle_range E m l mv wm lv wl : folds E m mv wm -> folds E l lv wl ->
  exists k0, forall k, (k0 <= k)%nat -> range_width E k m l = Ok (Z.abs (mv - lv) + 1).
Proof.
  intros Fm Fl. destruct (proj1 (folds_optC E) _ _ _ Fm) as [k1 K1]. destruct (proj1 (folds_optC E) _ _ _ Fl) as [k2 K2].
  exists (Nat.max k1 k2). intros k Hk. unfold range_width. rewrite (K1 k ltac:(lia)), (K2 k ltac:(lia)). reflexivity.
Qed.
Lemma settle_list E rho l : Forall (fun t => exists w, width rho t = Some w /\ settles E t w) l ->
  exists ws, all_some (map (width rho) l) = Some ws /\ exists k0, forall k, (k0 <= k)%nat -> mapM (getWidth E k) l = Ok ws.
Proof.
  induction 1 as [|t l (w & Hw & k1 & K1) _ (ws & Hs & k2 & K2)]; [exists []; split; [reflexivity|]; exists 0%nat; reflexivity|].
  exists (w :: ws). split; [cbn [map all_some]; now rewrite Hw, Hs|]. exists (Nat.max k1 k2). intros k Hk. cbn [mapM]. rewrite (K1 k ltac:(lia)), (K2 k ltac:(lia)). reflexivity.
Qed.
Lemma fold_max ws : fold_left (fun a w => if a <? w then w else a) ws 0 = maxw ws.
Proof.
  assert (forall a, 0 <= a -> fold_left (fun a w => if a <? w then w else a) ws a = Z.max a (maxw ws)) as H; [|rewrite H by lia; assert (0 <= maxw ws) by (clear H; unfold maxw; induction ws; cbn [fold_right]; lia); lia].
  induction ws as [|w ws IH]; intros a Ha; cbn [fold_left maxw fold_right]; [lia|]. fold (maxw ws). destruct (Z.ltb_spec a w); rewrite IH by lia; lia.
Qed.
Lemma fold_sum ws : fold_left Z.add ws 0 = sum ws.
Proof.
  assert (forall a, fold_left Z.add ws a = a + sum ws) as H; [|rewrite H; lia]. induction ws as [|w ws IH]; intros a; cbn [fold_left sum fold_right]; [lia|]. rewrite IH. fold (sum ws). lia.
Qed.
Lemma sized_width E rho : declared E rho -> forall t, sized E rho t -> exists w, width rho t = Some w /\ settles E t w.
Proof.
  intros HD.
  assert (forall n tm, dget (o_terms E) n = Some tm -> exists k0, forall k, (k0 <= k)%nat -> range_width E k (t_msb tm) (t_lsb tm) = Ok (e_wid rho n)) as HT.
  { intros n tm Et. destruct (HD _ _ Et) as ((m & l & wm & wl & Fm & Fl & ->) & _). exact (settle_range _ _ _ _ _ _ _ Fm Fl). }
  induction t as [|n|s|s|s|l o IH|v m l IHv IHm IHl|v p IHv IHp|l IH|c t f IHc IHt IHf|v w fl s|w|w|t IH|s l IH] using df_ind'; cbn [sized]; intros HS; try contradiction.
  - destruct (dget (o_terms E) n) as [tm|] eqn:Et; [|contradiction]. destruct (HT _ _ Et) as (k0 & K). exists (e_wid rho n). split; [reflexivity|]. exists k0. intros k Hk. cbn [getWidth]. rewrite Et. auto.
  - destruct (int_width s) as [w|] eqn:Ew; [|exfalso; apply HS; unfold width; cbn [ev snd]; now rewrite Ew].
    exists w. split; [unfold width; cbn [ev snd]; now rewrite Ew|]. exists 0%nat. intros k _. exact Ew.
  - assert (fold_right (fun x P => sized E rho x /\ P) True l -> exists ws, all_some (map snd (map (ev rho) l)) = Some ws /\ exists k0, forall k, (k0 <= k)%nat -> mapM (getWidth E k) l = Ok ws) as HL.
    { intros H. rewrite map_map. apply settle_list. clear HS. induction IH as [|t l Ht _ IHl]; constructor; cbn [fold_right] in H; [apply Ht|apply IHl]; apply H. }
    unfold settles, width. cbn [ev snd].
    destruct o; cbn [bool_op left_op]; try (exists 1; split; [reflexivity|exists 0%nat; intros; reflexivity]);
      destruct HS as (H1 & H2 & H3); try discriminate H1; try discriminate H2; destruct (HL H3) as (ws & Hw & k0 & K); rewrite Hw; cbn [obind];
      (exists (maxw ws); split; [reflexivity|]; exists k0; intros k Hk; cbn [getWidth compare_op]; rewrite (K k Hk); cbn [bind]; now rewrite fold_max).
  - destruct HS as (mv & wm & lv & wl & Fm & Fl & Vm & Vl & Hr). destruct (settle_range _ _ _ _ _ _ _ Fm Fl) as (k0 & K). exists (mv - lv + 1). split.
    + unfold width, value in *. cbn [ev]. rewrite Vm, Vl. destruct (Z.leb_spec 0 lv); [|lia]. destruct (Z.leb_spec lv mv); [reflexivity|lia].
    + exists k0. intros k Hk. cbn [getWidth]. rewrite (K k Hk). f_equal. lia.
  - destruct v as [|n| | | | | | | | | | | | | ]; try (exists 1; split; [reflexivity|exists 0%nat; intros; reflexivity]).
    destruct (dget (o_terms E) n) as [tm|] eqn:Et; [|contradiction]. destruct (HD _ _ Et) as (_ & _ & HA). unfold settles, width. cbn [ev].
    destruct (e_arr rho n).
    + destruct (HT _ _ Et) as (k0 & K). exists (e_wid rho n). split; [reflexivity|]. exists k0. intros k Hk. cbn [getWidth]. rewrite Et. destruct (t_dims tm); [auto|]. exfalso. now apply HA.
    + exists 1. split; [reflexivity|]. exists 0%nat. intros k Hk. cbn [getWidth]. rewrite Et. destruct (t_dims tm); [|reflexivity]. exfalso. assert (Some l <> None) as N by discriminate. apply HA in N. discriminate.
  - assert (exists ws, all_some (map snd (map (ev rho) l)) = Some ws /\ nonneg ws = true /\ exists k0, forall k, (k0 <= k)%nat -> mapM (getWidth E k) l = Ok ws) as (ws & Hw & Hn & k0 & K).
    { assert (Forall (fun t => exists w, width rho t = Some w /\ settles E t w) l) as HF.
      { induction IH as [|t l Ht _ IHl]; constructor; cbn [fold_right] in HS; [apply Ht|apply IHl]; apply HS. }
      destruct (settle_list _ _ _ HF) as (ws & Hw & K). exists ws. rewrite map_map. split; [exact Hw|]. split; [|exact K].
      clear - Hw HS. revert ws Hw. induction l as [|t l IH]; intros ws Hw; cbn [map all_some fold_right] in *; [injection Hw as <-; reflexivity|].
      destruct HS as (_ & H1 & H2). destruct (width rho t) as [w|] eqn:Et; [|discriminate]. destruct (all_some (map (width rho) l)) as [r|] eqn:Er; [|discriminate]. injection Hw as <-.
      unfold nonneg. cbn [forallb]. apply andb_true_intro. split; [apply Z.leb_le; auto|]. apply (IH H2 r eq_refl). }
    exists (sum ws). unfold width, settles. cbn [ev]. rewrite Hw, Hn. split; [reflexivity|]. exists k0. intros k Hk. cbn [getWidth]. rewrite (K k Hk). cbn [bind]. now rewrite fold_sum.
  - destruct HS as [H1 H2]. destruct (IHt H1) as (w1 & W1 & k1 & K1). destruct (IHf H2) as (w2 & W2 & k2 & K2).
    exists (Z.max w1 w2). split.
    + unfold width in *. cbn [ev snd]. destruct t, f; try contradiction; cbn [snd]; rewrite W1, W2; reflexivity.
    + exists (Nat.max k1 k2). intros k Hk. cbn [getWidth]. rewrite (K1 k ltac:(lia)), (K2 k ltac:(lia)). reflexivity.
  - destruct w as [w|]; [|contradiction]. exists w. split; [reflexivity|]. exists 0%nat. reflexivity.
  - exists w. split; [reflexivity|]. exists 0%nat. reflexivity.
  - exists w. split; [reflexivity|]. exists 0%nat. reflexivity.
Qed.
(** More depth does not change an answer. *)
Lemma range_le E k k' m l w : (k <= k')%nat -> range_width E k m l = Ok w -> range_width E k' m l = Ok w.
Proof.
  intros Hk H. unfold range_width in *. unbind H. unbind H. unbind H. unbind H. rewrite (optC_le _ _ _ _ _ Hk B). cbn [bind]. rewrite B0. cbn [bind]. rewrite (optC_le _ _ _ _ _ Hk B1). cbn [bind]. now rewrite B2.
Qed.
Lemma mapM_impl {A B} (f g : A -> res B) l ys : Forall (fun x => forall y, f x = Ok y -> g x = Ok y) l -> mapM f l = Ok ys -> mapM g l = Ok ys.
Proof.
  intros H. revert ys. induction H as [|x l Hx _ IH]; intros ys E; cbn [mapM] in *; [exact E|]. unbind E. unbind E. rewrite (Hx _ B0). cbn [bind]. now rewrite (IH _ B1).
Qed.
Lemma getWidth_le E k k' : (k <= k')%nat -> forall t w, getWidth E k t = Ok w -> getWidth E k' t = Ok w.
Proof.
  intros Hk. induction t as [|n|s|s|s|l o IH|v m l IHv IHm IHl|v p IHv IHp|l IH|c t f IHc IHt IHf|v w fl s|w|w|t IH|s l IH] using df_ind'; cbn [getWidth]; intros w' H; auto.
  - destruct (dget (o_terms E) n); [|discriminate]. exact (range_le _ _ _ _ _ _ Hk H).
  - destruct (compare_op o); [exact H|]. destruct o; auto; unbind H; rewrite (mapM_impl _ _ _ _ IH B); exact H.
  - exact (range_le _ _ _ _ _ _ Hk H).
  - destruct v as [|n| | | | | | | | | | | | | ]; auto. destruct (dget (o_terms E) n) as [tm|]; [|discriminate]. destruct (t_dims tm); auto. exact (range_le _ _ _ _ _ _ Hk H).
  - unbind H. rewrite (mapM_impl _ _ _ _ IH B). exact H.
  - unbind H. unbind H. rewrite (IHt _ B). cbn [bind]. rewrite (IHf _ B0). exact H.
Qed.

(** The width of a tree is computed, and no other answer is given. *)
Theorem C53_width_partial : forall E rho t, declared E rho -> sized E rho t ->
  exists w, width rho t = Some w /\
    (exists k0, forall k, (k0 <= k)%nat -> getWidth E k t = Ok w) /\
    (forall k w', getWidth E k t = Ok w' -> w' = w).
Proof.
  intros E rho t HD HS. destruct (sized_width E rho HD t HS) as (w & Hw & k0 & K). exists w. split; [exact Hw|]. split; [exists k0; exact K|].
  intros k w' H. apply (getWidth_le _ _ (Nat.max k0 k)) in H; [|lia]. rewrite (K (Nat.max k0 k) ltac:(lia)) in H. congruence.
Qed.
Print Assumptions C53_width_partial.

(** {a ? b : 4'd3, (a + b)[2:0], a < b} is 8 + 3 + 1 bits wide. *)
Definition tree53 : df := DConcat [DBranch (T "a") (T "b") (L "4'd3"); DPart (DOp [T "a"; T "b"] Plus) (L "2") (L "0"); DOp [T "a"; T "b"] LessThan].
Example C53_hypotheses_met : forall f, declared abc (abc_rho f) /\ sized abc (abc_rho f) tree53 /\ width (abc_rho f) tree53 = Some 12 /\ getWidth abc 9 tree53 = Ok 12.
Proof.
  intros f. split; [apply abc_declared|]. split; [|split; vm_compute; reflexivity].
  cbn [sized tree53 fold_right]. split; [split; vm_compute; discriminate|]. split; [intros w H; vm_compute in H; injection H as <-; vm_compute; discriminate|].
  split; [|split; [intros w H; vm_compute in H; injection H as <-; vm_compute; discriminate|split; [exact I|split; [intros w H; vm_compute in H; injection H as <-; vm_compute; discriminate|exact I]]]].
  exists 2, 32, 0, 32. split; [apply (f_int abc "2" None 2), digit1; [simpl; tauto|lia]|]. split; [apply (f_int abc "0" None 0), digit1; [simpl; tauto|lia]|]. split; [reflexivity|]. split; [reflexivity|lia].
Qed.

(** Full property: for every tree that has a width. *)
Definition width_right : Prop := forall E rho k t w w', declared E rho -> getWidth E k t = Ok w' -> width rho t = Some w -> w' = w.
Definition wrong_width (t : df) (w w' : Z) : Prop := forall f, width (abc_rho f) t = Some w /\ getWidth abc 9 t = Ok w' /\ w <> w'.
Theorem C53_width_refuted : ~ width_right /\
  (* a <= b and &a are as wide as a; a < b is one bit wide *)
  wrong_width (DOp [T "a"; T "b"] LessEq) 1 8 /\ wrong_width (DOp [T "a"] Uand) 1 8 /\ wrong_width (DOp [T "a"] Ulnot) 1 8 /\
  getWidth abc 9 (DOp [T "a"; T "b"] LessThan) = Ok 1 /\
  (* a shift is as wide as the shift amount *)
  wrong_width (DOp [T "a"; L "2"] Sll) 8 32 /\
  (* a conditional without else is 32 bits wide *)
  wrong_width (DBranch (T "a") (T "b") DNone) 8 32 /\
  (* system functions have none *)
  getWidth abc 9 (DSys "signed" [T "a"]) = Err NameError.
Proof.
  assert (wrong_width (DOp [T "a"; T "b"] LessEq) 1 8) as W by (intros f; split; [vm_compute; reflexivity|split; [vm_compute; reflexivity|discriminate]]).
  split; [|split; [exact W|]].
  - intros K. destruct (W (fun _ => 0)) as (W1 & W2 & W3). apply W3. symmetry. exact (K _ _ _ _ _ _ (abc_declared (fun _ => 0)) W2 W1).
  - repeat match goal with |- _ /\ _ => split end; try (vm_compute; reflexivity); intros f; (split; [vm_compute; reflexivity|split; [vm_compute; reflexivity|discriminate]]).
Qed.
Print Assumptions C53_width_refuted.
