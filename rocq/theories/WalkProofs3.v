From Coq Require Import Relations.
From Verif Require Import Base ScopeModel ScopeProofs DfModel DfSpec ReorderModel BindModel LitModel LitSpec LitProofs OptModel OptSpec MergeModel WalkModel WalkSpec WalkProofs WalkProofs2.
Local Open Scope Z_scope.

(** ** Printed numbers *)
Lemma has_xz_digits s n m : reads 10 n s m -> has_xz s = false.
Proof.
  induction 1 as [|n c d s m [H1 H2] H IH|n s m H IH]; [reflexivity| |exact IH]. cbn [has_xz]. rewrite IH, orb_false_r.
  cbn in H1. repeat (destruct H1 as [H1|H1]; [injection H1 as <- <-; try lia; reflexivity|]). destruct H1.
Qed.
Lemma printed_value rho z : 0 <= z -> value rho (DInt (py_str z)) = Some z.
Proof.
  intros H. unfold value. cbn [ev fst]. unfold py_str. assert (z <? 0 = false) as -> by lia. pose proof (py_str_nat_numeral z H) as HN.
  assert (has_xz (py_str_nat z) = false) as ->.
  { destruct HN as (c & d & r & -> & [H1 H2] & H3). cbn [has_xz]. rewrite (has_xz_digits _ _ _ H3), orb_false_r. cbn in H1. repeat (destruct H1 as [H1|H1]; [injection H1 as <- <-; try lia; reflexivity|]). destruct H1. }
  rewrite (int_eval_literal _ _ _ _ (lit_plain _ _ HN)). reflexivity.
Qed.
Lemma eval_attr_value rho t z v : eval_attr t = Ok z -> value rho t = Some v -> z = v.
Proof.
  unfold value. destruct t; cbn [eval_attr]; try discriminate.
  - intros H. cbn [ev fst]. destruct (has_xz value); [discriminate|]. rewrite H. intros E. now injection E.
  - destruct value; try discriminate. intros H K. injection H as <-. now injection K.
Qed.
(** A slice of a slice. *)
Lemma low_low x L w l k : 0 <= L -> 0 <= l -> 0 <= k -> l + k <= w -> low (low (x / 2 ^ L) w / 2 ^ l) k = low (x / 2 ^ (l + L)) k.
Proof.
  intros HL Hl Hk Hw. unfold low. apply Z.bits_inj'. intros i Hi. destruct (Z.ltb_spec i k).
  - rewrite !Z.mod_pow2_bits_low by lia. rewrite !Z.div_pow2_bits by lia. rewrite Z.mod_pow2_bits_low by lia. rewrite Z.div_pow2_bits by lia. f_equal. lia.
  - rewrite !Z.mod_pow2_bits_high by lia. reflexivity.
Qed.

Section Values.
  Variable u : bool.
  Variable terms : ndict term.
  Variable combination : chain -> bool.
  Variable tree_of : chain -> df -> res df.
  Variable rho : venv.
  Hypothesis HD : declared terms rho.
  Hypothesis HC : consistent u terms combination tree_of rho.
  Notation walk := (walk terms combination tree_of).
  Notation complete := (complete u rho).
  Notation ev := (ev rho).

  Lemma complete_list l : fold_right and True (map complete l) <-> Forall complete l.
  Proof. induction l as [|x r IH]; cbn; [split; constructor|]. rewrite IH. split; [intros [H1 H2]; constructor; auto|intros H; inversion H; auto]. Qed.

  (** Where an operand may be indexed. *)
  Lemma ptr_cong v v' p p' : complete v -> complete v' -> ev v' = ev v -> ev p' = ev p -> ev (DPtr v' p') = ev (DPtr v p).
  Proof.
    assert (forall v p, complete v -> ev (DPtr v p) = (obind (fst (ev v)) (fun x => obind (fst (ev p)) (fun i => if i <? 0 then None else Some (low (x / 2 ^ i) 1))), Some 1)) as K.
    { intros w q H. destruct w; try reflexivity. cbn in H. cbn [OptSpec.ev]. rewrite H. reflexivity. }
    intros H1 H2 E1 E2. rewrite (K v p H1), (K v' p' H2), E1, E2. reflexivity.
  Qed.
  Lemma part_cong v v' m m' l l' : ev v' = ev v -> ev m' = ev m -> ev l' = ev l -> ev (DPart v' m' l') = ev (DPart v m l).
  Proof. intros E1 E2 E3. cbn [OptSpec.ev]. now rewrite E1, E2, E3. Qed.
  Lemma map_ev_cong l l' : Forall2 (fun x y => ev y = ev x) l l' -> map ev l' = map ev l.
  Proof. induction 1 as [|x y l l' H1 H2 IH]; cbn; [reflexivity|]. now rewrite H1, IH. Qed.
  Lemma op_cong l l' o : Forall2 (fun x y => ev y = ev x) l l' -> ev (DOp l' o) = ev (DOp l o).
  Proof. intros H. cbn [OptSpec.ev]. now rewrite (map_ev_cong _ _ H). Qed.
  Lemma concat_cong l l' : Forall2 (fun x y => ev y = ev x) l l' -> ev (DConcat l') = ev (DConcat l).
  Proof. intros H. cbn [OptSpec.ev]. now rewrite (map_ev_cong _ _ H). Qed.
  Lemma branch_cong c c' a a' b b' : complete a -> complete a' -> complete b -> complete b' -> ev c' = ev c -> ev a' = ev a -> ev b' = ev b -> ev (DBranch c' a' b') = ev (DBranch c a b).
  Proof.
    intros H1 H2 H3 H4 E1 E2 E3. cbn [OptSpec.ev]. rewrite E1, E2, E3.
    destruct a, a'; try contradiction; destruct b, b'; try contradiction; reflexivity.
  Qed.

  Lemma select_ok src v m l r : complete v -> complete m -> complete l ->
    (exists mz lz w, value rho m = Some mz /\ value rho l = Some lz /\ width rho v = Some w /\ 0 <= lz <= mz /\ mz < w) ->
    select terms src v m l = Ok r -> complete r /\ ev r = ev (DPart v m l).
  Proof.
    intros H1 H2 H3 H4 H. unfold select in H.
    assert (Ok (DPart v m l) = Ok r -> complete r /\ ev r = ev (DPart v m l)) as K0. { intros E. injection E as <-. split; [|reflexivity]. cbn [WalkSpec.complete]. auto. }
    destruct v as [|n|s|s|s|xs o|x M L|v q|xs|c a b|v w f g|w|w|x|s xs]; try exact (K0 H). clear K0.
    destruct (getTerm_str terms (var_str src)) as [t|] eqn:ET; [|discriminate]. apply bind_ok in H as (b & E0 & H). apply bind_ok in H as (mz' & E1 & H). apply bind_ok in H as (Lz' & E2 & H). apply bind_ok in H as (lz' & E3 & H). injection H as <-.
    assert (b = 0) as ->.
    { unfold getTerm_str in ET. destruct (find _ terms) as [[k t']|] eqn:EF; [|discriminate]. apply find_some in EF as [EF _]. injection ET as ->. destruct (t_lsb t) eqn:EL; try discriminate E0; cbn [eval_attr] in E0.
      - pose proof (d_zero _ _ HD k t value EF EL) as K. congruence.
      - pose proof (d_zero' _ _ HD k t value width isfloat isstring EF EL) as K. subst value. congruence. }
    destruct H4 as (mz & lz & w & V1 & V2 & W & R1 & R2). pose proof (eval_attr_value rho _ _ _ E1 V1) as ->. pose proof (eval_attr_value rho _ _ _ E3 V2) as ->.
    cbn [WalkSpec.complete] in H1. destruct H1 as (HX & HM & HL & Mz & Lz & W' & V3 & V4 & V5 & R3 & R4). pose proof (eval_attr_value rho _ _ _ E2 V4) as ->.
    assert (w = Mz - Lz + 1) as ->.
    { unfold width in W. cbn [OptSpec.ev] in W. unfold value in V3, V4. rewrite V3, V4 in W. destruct ((0 <=? Lz) && (Lz <=? Mz)); [|discriminate W]. cbn in W. congruence. }
    rewrite !Z.sub_0_r. pose proof (printed_value rho (mz + Lz) ltac:(lia)) as P1. pose proof (printed_value rho (lz + Lz) ltac:(lia)) as P2. split.
    - cbn [WalkSpec.complete]. split; [exact HX|]. split; [exact I|]. split; [exact I|]. exists (mz + Lz), (lz + Lz), W'. repeat split; auto; lia.
    - unfold value in *. cbn [OptSpec.ev] in *. rewrite P1, P2, V1, V2, V3, V4.
      assert (((0 <=? lz + Lz) && (lz + Lz <=? mz + Lz)) = true) as -> by lia. assert (((0 <=? lz) && (lz <=? mz)) = true) as -> by lia. assert (((0 <=? Lz) && (Lz <=? Mz)) = true) as -> by lia.
      cbn [fst snd]. f_equal; [|f_equal; lia]. destruct (fst (ev x)) as [X|]; [|reflexivity]. cbn [obind]. f_equal. rewrite low_low by lia. f_equal. lia.
  Qed.

  Lemma walk_values fuel : forall t visited m l p t', walk fuel visited 0 m l p t = Ok t' ->
    (complete t -> complete t' /\ ev t' = ev t) /\
    (forall n p', t = DTerm n -> e_arr rho n = true -> p = p' -> complete p' -> forall r, index terms t t' p' = Ok r -> complete r /\ ev r = ev (DPtr t p')).
  Proof.
    induction fuel as [fuel IHf] using lt_wf_ind; intros t.
    induction t as [|n|s|s|s|xs o IH|v a b IHv IHa IHb|v q IHv IHq|xs IH|c x y IHc IHx IHy|v w f g|w|w|x IHx|s xs IH] using df_ind'; intros visited m l p t' H; rewrite walk_eq in H;
      (split; [|try (intros ? ? [=]; fail)]); try discriminate; try (injection H as <-; intros K; split; [exact K|reflexivity]; fail).
    - injection H as <-. intros [].
    - (* a signal *)
      intros HN. cbn in HN. apply bind_ok in H as ([[q s]|] & E & H); [|injection H as <-; split; [exact HN|reflexivity]].
      apply (expand_some terms combination tree_of) in E as (E1 & t & E2 & E3 & E4 & E5 & E6 & E7). apply bind_ok in H as (d & E8 & H). destruct fuel as [|f]; [discriminate|].
      assert (t_dims t = None) as ET. { destruct (t_dims t) eqn:ET; [|reflexivity]. exfalso. pose proof (proj2 (d_array _ _ HD n t E2)) as K. rewrite ET in K. specialize (K ltac:(discriminate)). congruence. }
      assert (~ clocked combination n t) as E9 by (intros K; destruct (E6 K); congruence). cbn [fst snd] in *. rewrite (E4 ET) in *. rewrite (E7 E9) in *.
      destruct (c_signal _ _ _ _ _ HC n t d E2 ET E3 E9 E8) as [K1 K2]. destruct (proj1 (IHf f (Nat.lt_succ_diag_r f) _ _ _ _ _ _ H) K1) as [K3 K4]. split; [exact K3|congruence].
    - (* an array under an index *)
      intros n0 p' E0 HN -> Hp r HI. injection E0 as <-. unfold index, is_array in HI.
      assert (forall r, Ok (DPtr (DTerm n) p') = Ok r -> complete r /\ ev r = ev (DPtr (DTerm n) p')) as K0. { intros r0 K. injection K as <-. split; [cbn; auto|reflexivity]. }
      apply bind_ok in HI as (a & HA & HI). destruct (dget terms n) as [t0|] eqn:ED; [|discriminate]. injection HA as <-.
      apply bind_ok in H as ([[q s]|] & E & H); [|injection H as <-; rewrite chain_eq_refl in HI; cbn [negb] in HI; rewrite andb_false_r in HI; now apply K0].
      apply (expand_some terms combination tree_of) in E as (E1 & t & E2 & E3 & E4 & E5 & E6 & E7). apply bind_ok in H as (d & E8 & H). destruct fuel as [|f]; [discriminate|].
      rewrite ED in E2. injection E2 as <-. assert (t_dims t0 <> None) as ET by (apply (proj1 (d_array _ _ HD n t0 ED)); exact HN).
      assert (~ clocked combination n t0) as E9 by (intros K; destruct (E6 K); congruence). cbn [fst snd] in *. rewrite (E5 ET) in *. rewrite (E7 E9) in *.
      destruct (c_element _ _ _ _ _ HC n t0 p' d ED ET E3 E9 Hp E8) as [-> |[K1 K2]].
      + rewrite walk_eq in H. unfold expand in H. cbn [smem existsb] in H. rewrite chain_eq_refl in H. cbn [orb] in H. injection H as <-. rewrite chain_eq_refl in HI. cbn [negb] in HI. rewrite andb_false_r in HI. now apply K0.
      + destruct (proj1 (IHf f (Nat.lt_succ_diag_r f) _ _ _ _ _ _ H) K1) as [K3 K4].
        assert (match t' with DTerm m => chain_eq m n | _ => false end = false) as EM.
        { destruct t'; try reflexivity. cbn in K3. destruct (chain_eq name n) eqn:EC; [|reflexivity]. pose proof (d_name _ _ HD _ _ EC). congruence. }
        rewrite EM in HI. destruct (t_dims t0); [|congruence]. cbn in HI. injection HI as <-. split; [exact K3|congruence].
    - apply bind_ok in H as (l' & H1 & H). unfold mkOp in H. destruct (existsb _ _); [discriminate|]. injection H as <-. cbn [WalkSpec.complete]. rewrite !complete_list. intros HX. apply mapM_ok_Forall2 in H1.
      assert (Forall complete l' /\ Forall2 (fun x y => ev y = ev x) xs l') as [K1 K2].
      { clear - IH H1 HX. induction H1 as [|x y xs l' H1 H2 IH2]; [split; constructor|]. inversion IH as [|? ? I1 I2]; subst. inversion HX as [|? ? X1 X2]; subst. destruct (IH2 I2 X2) as [K1 K2]. destruct (proj1 (I1 _ _ _ _ _ H1) X1). split; constructor; auto. }
      split; [exact K1|now apply op_cong].
    - apply bind_ok in H as (a' & H1 & H). apply bind_ok in H as (b' & H2 & H). apply bind_ok in H as (v' & H3 & H). cbn [WalkSpec.complete]. intros (X1 & X2 & X3 & X4).
      destruct (proj1 (IHa _ _ _ _ _ H1) X2) as [A1 A2]. destruct (proj1 (IHb _ _ _ _ _ H2) X3) as [B1 B2]. destruct (proj1 (IHv _ _ _ _ _ H3) X1) as [V1 V2].
      destruct (select_ok v v' a' b' t' V1 A1 B1) as [K1 K2]; [|exact H|split; [exact K1|rewrite K2; now apply part_cong]]. unfold value, width in *. now rewrite A2, B2, V2.
    - apply bind_ok in H as (q' & H1 & H). apply bind_ok in H as (v' & H3 & H). cbn [WalkSpec.complete]. intros (X1 & X2).
      destruct (proj1 (IHq _ _ _ _ _ H1) X1) as [Q1 Q2].
      assert (complete v -> complete t' /\ ev t' = ev (DPtr v q)) as KG.
      { intros HV. destruct (proj1 (IHv _ _ _ _ _ H3) HV) as [V1 V2]. assert (complete (DPtr v' q') /\ ev (DPtr v' q') = ev (DPtr v q)) as KG. { split; [cbn [WalkSpec.complete]; split; [exact Q1|destruct v'; auto]|now apply ptr_cong]. }
        unfold index in H. destruct v; try (injection H as <-; exact KG). apply bind_ok in H as (a & HA & H). assert (a = false) as ->; [|injection H as <-; exact KG].
        unfold is_array in HA. destruct (dget terms name) as [t|] eqn:ED; [|discriminate]. injection HA as <-. cbn in HV. destruct (t_dims t) eqn:ET; [|reflexivity]. pose proof (proj2 (d_array _ _ HD name t ED)) as K. rewrite ET in K. specialize (K ltac:(discriminate)). congruence. }
      destruct v; try (apply KG; exact X2). destruct (e_arr rho name) eqn:EA; [|apply KG; exact EA].
      destruct (proj2 (IHv _ _ _ _ _ H3) name q' eq_refl EA eq_refl Q1 _ H) as [K1 K2]. split; [exact K1|]. rewrite K2. cbn [OptSpec.ev]. now rewrite Q2.
    - apply bind_ok in H as (l' & H1 & H). injection H as <-. cbn [WalkSpec.complete]. rewrite !complete_list. intros HX. apply mapM_ok_Forall2 in H1.
      assert (Forall complete l' /\ Forall2 (fun x y => ev y = ev x) xs l') as [K1 K2].
      { clear - IH H1 HX. induction H1 as [|x y xs l' H1 H2 IH2]; [split; constructor|]. inversion IH as [|? ? I1 I2]; subst. inversion HX as [|? ? X1 X2]; subst. destruct (IH2 I2 X2) as [K1 K2]. destruct (proj1 (I1 _ _ _ _ _ H1) X1). split; constructor; auto. }
      split; [exact K1|now apply concat_cong].
    - apply bind_ok in H as (a' & H1 & H). apply bind_ok in H as (b' & H2 & H). apply bind_ok in H as (v' & H3 & H). injection H as <-. cbn [WalkSpec.complete]. intros (X1 & X2 & X3).
      destruct (proj1 (IHc _ _ _ _ _ H1) X1) as [A1 A2]. destruct (proj1 (IHx _ _ _ _ _ H2) X2) as [B1 B2]. destruct (proj1 (IHy _ _ _ _ _ H3) X3) as [V1 V2]. split; [auto|]. now apply branch_cong.
  Qed.
End Values.

(** ** Replacing undefined parts *)
Lemma replace_complete rho n t : complete false rho t -> forall r, replaceUndefined t n = Ok r -> r = t.
Proof.
  induction t as [|k|s|s|s|xs o IH|v a b IHv IHa IHb|v q IHv IHq|xs IH|c x y IHc IHx IHy|v w f g|w|w|x IHx|s xs IH] using df_ind'; intros HC r H; cbn [replaceUndefined] in H; try discriminate; try (now injection H); try contradiction.
  - apply bind_ok in H as (l' & H1 & H). unfold mkOp in H. destruct (existsb _ _); [discriminate|]. injection H as <-. f_equal. cbn [complete] in HC. apply complete_list in HC. apply mapM_ok_Forall2 in H1.
    clear - IH HC H1. induction H1 as [|x y xs l' H1 H2 IH2]; [reflexivity|]. inversion IH as [|? ? I1 I2]; subst. inversion HC as [|? ? X1 X2]; subst. f_equal; auto.
  - destruct HC as (H1 & H2 & H3 & _). apply bind_ok in H as (a' & K1 & H). apply bind_ok in H as (b' & K2 & H). apply bind_ok in H as (v' & K3 & H). injection H as <-. f_equal; auto.
  - destruct HC as (H1 & H2). apply bind_ok in H as (a' & K1 & H). apply bind_ok in H as (b' & K2 & H). injection H as <-. f_equal; auto. destruct v; auto. cbn in K2. congruence.
  - apply bind_ok in H as (l' & H1 & H). injection H as <-. f_equal. cbn [complete] in HC. apply complete_list in HC. apply mapM_ok_Forall2 in H1.
    clear - IH HC H1. induction H1 as [|x y xs l' H1 H2 IH2]; [reflexivity|]. inversion IH as [|? ? I1 I2]; subst. inversion HC as [|? ? X1 X2]; subst. f_equal; auto.
  - destruct HC as (H1 & H2 & H3). apply bind_ok in H as (a' & K1 & H). apply bind_ok in H as (b' & K2 & H). apply bind_ok in H as (v' & K3 & H). injection H as <-. f_equal; auto.
Qed.
Lemma keeping_walk terms combination tree_of rho fuel visited n : declared terms rho -> consistent false terms combination tree_of rho ->
  forall t w r m l p, complete false rho (keeping n t) -> walk terms combination tree_of fuel visited 0 m l p t = Ok w -> replaceUndefined w n = Ok r ->
  complete false rho r /\ ev rho r = ev rho (keeping n t).
Proof.
  intros HD HC. induction t as [|k|s|s|s|xs o IH|v a b IHv IHa IHb|v q IHv IHq|xs IH|c x y IHc IHx IHy|v w f g|w|w|x IHx|s xs IH] using df_ind'; intros w' r m l p HK HW HR;
    try (match type of HW with walk _ _ _ _ _ _ _ _ _ ?t = _ => change (keeping n t) with t in * end; destruct (proj1 (walk_values false terms combination tree_of rho HD HC fuel _ _ _ _ _ _ HW) HK) as [K1 K2]; rewrite (replace_complete rho n w' K1 r HR); split; [exact K1|exact K2]).
  - rewrite walk_eq in HW. injection HW as <-. cbn in HR. injection HR as <-. split; [exact HK|reflexivity].
  - rewrite walk_eq in HW. cbn [keeping complete] in HK. destruct HK as (X1 & X2 & X3). apply bind_ok in HW as (a' & H1 & H). apply bind_ok in H as (b' & H2 & H). apply bind_ok in H as (v' & H3 & H). injection H as <-.
    cbn [replaceUndefined] in HR. apply bind_ok in HR as (c1 & R1 & HR). apply bind_ok in HR as (x1 & R2 & HR). apply bind_ok in HR as (y1 & R3 & HR). injection HR as <-.
    destruct (proj1 (walk_values false terms combination tree_of rho HD HC fuel _ _ _ _ _ _ H1) X1) as [A1 A2]. pose proof (replace_complete rho n _ A1 _ R1) as ->.
    destruct (IHx _ _ _ _ _ X2 H2 R2) as [B1 B2]. destruct (IHy _ _ _ _ _ X3 H3 R3) as [C1 C2]. split; [cbn [complete]; auto|]. cbn [keeping]. now apply (branch_cong false).
Qed.
