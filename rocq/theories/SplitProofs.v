(** SplitProofs.v *)
From Verif Require Import Base ScopeModel DfModel DfSpec DfProofs ReorderProofs SplitModel SplitSpec.

(** The paths without the dictionary. *)
Fixpoint paths (t : df) : funcdict :=
  match t with
  | DBranch c a b =>
      (if 0 <? length (paths a) then map (fun p => (c :: fst p, snd p)) (paths a)
       else if is_none a then [] else [([c], a)]) ++
      (if 0 <? length (paths b) then map (fun p => (DOp [c] Ulnot :: fst p, snd p)) (paths b)
       else if is_none b then [] else [([DOp [c] Ulnot], b)])
  | _ => []
  end.

Definition kd (k : list df) := Forall no_delay k.

Lemma conds_eq_list_eq a b : conds_eq a b = list_eq a b.
Proof. revert b; induction a as [|x a IH]; intros [|y b]; simpl; auto; destruct (df_eq x y) as [[|]|]; simpl; auto. Qed.

Lemma conds_eq_ok a b : kd a -> exists r, conds_eq a b = Ok r /\ (r = true <-> Forall2 (same Req) a b).
Proof.
  intros H. rewrite conds_eq_list_eq. apply list_eq_ok; auto. apply Forall_forall. intros; apply df_eq_ok.
Qed.

Lemma dict_put_fresh d k v : Forall (fun p => kd (fst p)) d ->
  Forall (fun p => ~ Forall2 (same Req) (fst p) k) d -> dict_put d k v = Ok (d ++ [(k, v)]).
Proof.
  induction d as [|[k' v'] d IH]; intros Hd Hf; simpl; auto. inv Hd. inv Hf. simpl in *.
  destruct (conds_eq_ok k' k ltac:(assumption)) as (r & -> & E). simpl.
  destruct r; [exfalso; tauto|]. rewrite IH by assumption. reflexivity.
Qed.

Lemma mapM_hash_ok k : kd k -> exists h, mapM df_hash k = Ok h.
Proof.
  induction 1 as [|x k Hx H IH]; simpl; eauto.
  destruct IH as [h ->]. destruct (df_eq_hash x x Hx (df_eq_refl _ Hx)) as (h' & -> & _). simpl. eauto.
Qed.

Lemma dict_set_fresh d k v : kd k -> Forall (fun p => kd (fst p)) d ->
  Forall (fun p => ~ Forall2 (same Req) (fst p) k) d -> dict_set d k v = Ok (d ++ [(k, v)]).
Proof. intros Hk Hd Hf. unfold dict_set. destruct (mapM_hash_ok k Hk) as [h ->]. simpl. now apply dict_put_fresh. Qed.

Definition diffkey (p q : list df * df) := ~ Forall2 (same Req) (fst p) (fst q).
Inductive distinct : funcdict -> Prop :=
| distinct_nil : distinct []
| distinct_cons p d : Forall (diffkey p) d -> distinct d -> distinct (p :: d).

Lemma dict_set_all_fresh l : forall d, Forall (fun p => kd (fst p)) d -> Forall (fun p => kd (fst p)) l ->
  distinct l -> Forall (fun p => Forall (diffkey p) l) d -> dict_set_all d l = Ok (d ++ l).
Proof.
  induction l as [|[k v] l IH]; intros d Hd Hl Hdl Hdis; simpl; [now rewrite app_nil_r|].
  inv Hl. inv Hdl. simpl in *. rewrite dict_set_fresh; auto.
  2: { eapply Forall_impl; [|exact Hdis]. intros p Hp. inv Hp. assumption. }
  simpl. rewrite IH; auto.
  - now rewrite <- app_assoc.
  - apply Forall_app; auto.
  - apply Forall_app; split; auto. eapply Forall_impl; [|exact Hdis]. intros p Hp; now inv Hp.
Qed.

Lemma same_size R a b : same R a b -> size a = size b.
Proof.
  revert b.
  assert (forall l l', Forall (fun a => forall b, same R a b -> size a = size b) l -> Forall2 (same R) l l' ->
     list_sum (map size l) = list_sum (map size l')) as HL.
  { intros l l' IH H; induction H; simpl; auto. inv IH. f_equal; auto. }
  induction a as [ |n|s|s|s|l o IH|v m l IHv IHm IHl|v p IHv IHp|l IH|c t f IHc IHt IHf|v w f s|w|w|t IH|s l IH]
    using df_ind'; intros b H; inv H; simpl; auto; f_equal; auto.
Qed.

Lemma not_same_not c : ~ same Req c (DOp [c] Ulnot).
Proof. intros H. apply same_size in H. simpl in H. lia. Qed.

Lemma distinct_app a b : distinct a -> distinct b -> Forall (fun p => Forall (diffkey p) b) a -> distinct (a ++ b).
Proof.
  induction 1; intros Hb Hab; simpl; auto. inv Hab. constructor; auto. apply Forall_app; auto.
Qed.
Lemma distinct_map c l : distinct l -> distinct (map (fun p => (c :: fst p, snd p)) l).
Proof.
  induction 1 as [|p l Hp H IH]; simpl; constructor; auto.
  apply Forall_map. eapply Forall_impl; [|exact Hp]. unfold diffkey; simpl. intros q Hq K. inv K. auto.
Qed.

Lemma cross c A B : Forall (fun p : list df * df => exists k, fst p = c :: k) A ->
  Forall (fun p : list df * df => exists k, fst p = DOp [c] Ulnot :: k) B -> Forall (fun p => Forall (diffkey p) B) A.
Proof.
  intros HA HB. eapply Forall_impl; [|exact HA]. intros p [k Hk]. eapply Forall_impl; [|exact HB].
  intros q [k' Hk'] K. rewrite Hk, Hk' in K. inv K. eapply not_same_not; eauto.
Qed.

Definition partA c (d : funcdict) a :=
  if 0 <? length d then map (fun p => (c :: fst p, snd p)) d else if is_none a then [] else [([c], a)].

Lemma partA_facts c d a : no_delay c -> Forall (fun p => kd (fst p)) d -> distinct d ->
  Forall (fun p => kd (fst p)) (partA c d a) /\ distinct (partA c d a) /\
  Forall (fun p => exists k, fst p = c :: k) (partA c d a).
Proof.
  intros Hc Hd Hdis. unfold partA. destruct (0 <? length d).
  - repeat split; [|now apply distinct_map|].
    + apply Forall_map. eapply Forall_impl; [|exact Hd]. intros p Hp; simpl; constructor; auto.
    + apply Forall_map. apply Forall_forall. intros p _; simpl; eauto.
  - destruct (is_none a); repeat split; try constructor; simpl; eauto; repeat constructor; auto.
Qed.

Lemma split_paths t : no_delay t -> conds_present t = true ->
  split t = Ok (paths t) /\ distinct (paths t) /\ Forall (fun p => kd (fst p)) (paths t).
Proof.
  induction t as [ |n|s|s|s|l o IH|v m l IHv IHm IHl|v p IHv IHp|l IH|c t f IHc IHt IHf|v w f s|w|w|t IH|s l IH]
    using df_ind'; intros Hd Hc; try (simpl; repeat split; constructor).
  unfold no_delay in *. cbn [occurs isDelay orb] in Hd. cbn [conds_present] in Hc.
  repeat match goal with H : _ && _ = true |- _ => apply andb_true_iff in H as [? ?] end.
  repeat match goal with H : _ || _ = false |- _ => apply orb_false_iff in H as [? ?] end.
  destruct (IHt ltac:(assumption) ltac:(assumption)) as (Et & Dt & Kt).
  destruct (IHf ltac:(assumption) ltac:(assumption)) as (Ef & Df & Kf).
  assert (no_delay (DOp [c] Ulnot)) as Hn.
  { unfold no_delay. simpl. rewrite orb_false_r. assumption. }
  destruct (partA_facts c (paths t) t ltac:(assumption) Kt Dt) as (A1 & A2 & A3).
  destruct (partA_facts (DOp [c] Ulnot) (paths f) f Hn Kf Df) as (B1 & B2 & B3).
  pose proof (cross _ _ _ A3 B3) as X.
  change (paths (DBranch c t f)) with (partA c (paths t) t ++ partA (DOp [c] Ulnot) (paths f) f).
  split; [|split; [now apply distinct_app | now apply Forall_app]].
  cbn [split]. rewrite Et. simpl bind.
  assert ((if 0 <? length (paths t)
   then dict_set_all [] (map (fun p : list df * df => (c :: fst p, snd p)) (paths t))
   else if is_none t then Ok [] else dict_set [] [c] t) = Ok (partA c (paths t) t)) as ->.
  { unfold partA in *. destruct (0 <? length (paths t)).
    - rewrite dict_set_all_fresh; auto.
    - destruct (is_none t); auto. rewrite dict_set_fresh; auto. repeat constructor; auto. }
  simpl bind. rewrite Ef. simpl bind. unfold mkOp. simpl.
  destruct (is_none c); [discriminate|]. simpl.
  set (A := partA c (paths t) t) in *. unfold partA in *.
  destruct (0 <? length (paths f)).
  - rewrite dict_set_all_fresh; auto.
  - destruct (is_none f); [now rewrite app_nil_r|]. rewrite dict_set_fresh; auto.
    + repeat constructor; auto.
    + eapply Forall_impl; [|exact X]. intros p Hp; now inv Hp.
Qed.

Section Sem.
  Variable I : interp.
  Hypothesis HN : not_law I.

  Lemma not_holds c : i_truth I (eval I (DOp [c] Ulnot)) = negb (i_truth I (eval I c)).
  Proof. simpl. apply HN. Qed.

  Lemma paths_eval t : forall k leaf, In (k, leaf) (paths t) -> holds I k -> eval I leaf = eval I t.
  Proof.
    induction t as [ |n|s|s|s|l o IH|v m l IHv IHm IHl|v p IHv IHp|l IH|c t f IHc IHt IHf|v w f s|w|w|t IH|s l IH]
      using df_ind'; simpl; try tauto.
    intros k leaf Hin Hh. apply in_app_iff in Hin as [Hin|Hin].
    - destruct (0 <? length (paths t)).
      + apply in_map_iff in Hin as ([k' l'] & E & Hin). simpl in E. injection E as <- <-. inv Hh.
        match goal with H : i_truth _ _ = true |- _ => rewrite H end. eauto.
      + destruct (is_none t); [destruct Hin|]. destruct Hin as [E|[]]. injection E as <- <-. inv Hh.
        now match goal with H : i_truth _ _ = true |- _ => rewrite H end.
    - destruct (0 <? length (paths f)).
      + apply in_map_iff in Hin as ([k' l'] & E & Hin). simpl in E. injection E as <- <-. inv Hh.
        match goal with H : i_truth _ _ = true |- _ => rewrite not_holds in H; apply negb_true_iff in H; rewrite H end. eauto.
      + destruct (is_none f); [destruct Hin|]. destruct Hin as [E|[]]. injection E as <- <-. inv Hh.
        now match goal with H : i_truth _ _ = true |- _ => rewrite not_holds in H; apply negb_true_iff in H; rewrite H end.
  Qed.

  Lemma paths_unique t : forall k1 l1 k2 l2, In (k1, l1) (paths t) -> In (k2, l2) (paths t) ->
    holds I k1 -> holds I k2 -> k1 = k2 /\ l1 = l2.
  Proof.
    induction t as [ |n|s|s|s|l o IH|v m l IHv IHm IHl|v p IHv IHp|l IH|c t f IHc IHt IHf|v w f s|w|w|t IH|s l IH]
      using df_ind'; simpl; try tauto.
    intros k1 l1 k2 l2 H1 H2 Hh1 Hh2.
    assert (forall d a k l, In (k, l) (partA c d a) -> holds I k -> i_truth I (eval I c) = true) as PA.
    { intros d a k l H Hh. unfold partA in H. destruct (0 <? length d).
      - apply in_map_iff in H as ([k' l'] & E & Hin). simpl in E. injection E as <- <-. now inv Hh.
      - destruct (is_none a); [destruct H|]. destruct H as [E|[]]. injection E as <- <-. now inv Hh. }
    assert (forall d a k l, In (k, l) (partA (DOp [c] Ulnot) d a) -> holds I k -> i_truth I (eval I c) = false) as PB.
    { intros d a k l H Hh. unfold partA in H. apply negb_true_iff. rewrite <- not_holds. destruct (0 <? length d).
      - apply in_map_iff in H as ([k' l'] & E & Hin). simpl in E. injection E as <- <-. now inv Hh.
      - destruct (is_none a); [destruct H|]. destruct H as [E|[]]. injection E as <- <-. now inv Hh. }
    assert (forall x d a k l k' l', (forall k1 l1 k2 l2, In (k1, l1) d -> In (k2, l2) d -> holds I k1 -> holds I k2 -> k1 = k2 /\ l1 = l2) ->
       In (k, l) (partA x d a) -> In (k', l') (partA x d a) -> holds I k -> holds I k' -> k = k' /\ l = l') as PP.
    { intros x d a k l k' l' IH H H' Hh Hh'. unfold partA in *. destruct (0 <? length d).
      - apply in_map_iff in H as ([k3 l3] & E & Hin), H' as ([k4 l4] & E' & Hin').
        simpl in E, E'. injection E as <- <-. injection E' as <- <-. inv Hh. inv Hh'.
        destruct (IH _ _ _ _ Hin Hin'); auto. now subst.
      - destruct (is_none a); [destruct H|]. destruct H as [E|[]], H' as [E'|[]].
        injection E as <- <-. injection E' as <- <-. auto. }
    fold (partA c (paths t) t) in *. fold (partA (DOp [c] Ulnot) (paths f) f) in *.
    apply in_app_iff in H1, H2. destruct H1 as [H1|H1], H2 as [H2|H2].
    - exact (PP _ _ _ _ _ _ _ IHt H1 H2 Hh1 Hh2).
    - rewrite (PA _ _ _ _ H1 Hh1) in *. discriminate (PB _ _ _ _ H2 Hh2).
    - rewrite (PA _ _ _ _ H2 Hh2) in *. discriminate (PB _ _ _ _ H1 Hh1).
    - exact (PP _ _ _ _ _ _ _ IHf H1 H2 Hh1 Hh2).
  Qed.

  Lemma paths_nil_pick t : paths t = [] -> isBranch t = true -> pick I t = DNone.
  Proof.
    induction t as [ |n|s|s|s|l o IH|v m l IHv IHm IHl|v p IHv IHp|l IH|c t f IHc IHt IHf|v w f s|w|w|t IH|s l IH]
      using df_ind'; try discriminate.
    intros H _. cbn [paths] in H. apply app_eq_nil in H as [H1 H2]. cbn [pick].
    assert (forall x a, (paths a = [] -> isBranch a = true -> pick I a = DNone) ->
      (if 0 <? length (paths a) then map (fun p => (x :: fst p, snd p)) (paths a)
       else if is_none a then [] else [([x], a)]) = [] -> pick I a = DNone) as K.
    { intros x a IH H. destruct (Nat.ltb_spec 0 (length (paths a))) as [Hl|Hl].
      - destruct (paths a); [simpl in Hl; lia|discriminate].
      - destruct a; try discriminate. reflexivity. }
    destruct (i_truth I (eval I c)); [eapply (K c t)|eapply (K (DOp [c] Ulnot) f)]; eauto.
  Qed.

  Lemma paths_complete t : isBranch t = true -> pick I t <> DNone ->
    exists k leaf, In (k, leaf) (paths t) /\ holds I k.
  Proof.
    induction t as [ |n|s|s|s|l o IH|v m l IHv IHm IHl|v p IHv IHp|l IH|c t f IHc IHt IHf|v w f s|w|w|t IH|s l IH]
      using df_ind'; try discriminate.
    intros _ Hp. cbn [pick paths] in *. destruct (i_truth I (eval I c)) eqn:Ec.
    - destruct (Nat.ltb_spec 0 (length (paths t))) as [Hl|Hl].
      + assert (isBranch t = true) as Hb by (destruct t; simpl in Hl; try lia; reflexivity).
        destruct (IHt Hb Hp) as (k & leaf & Hin & Hh).
        exists (c :: k), leaf. split; [|constructor; auto].
        apply in_app_iff; left. apply in_map_iff. exists (k, leaf); auto.
      + destruct (is_none t) eqn:En; [destruct t; try discriminate; simpl in Hp; congruence|].
        exists [c], t. split; [simpl; auto|repeat constructor; auto].
    - assert (i_truth I (eval I (DOp [c] Ulnot)) = true) as En by (rewrite not_holds, Ec; reflexivity).
      destruct (Nat.ltb_spec 0 (length (paths f))) as [Hl|Hl].
      + assert (isBranch f = true) as Hb by (destruct f; simpl in Hl; try lia; reflexivity).
        destruct (IHf Hb Hp) as (k & leaf & Hin & Hh).
        exists (DOp [c] Ulnot :: k), leaf. split; [|constructor; auto].
        apply in_app_iff; right. apply in_map_iff. exists (k, leaf); auto.
      + destruct (is_none f) eqn:Ef; [destruct f; try discriminate; simpl in Hp; congruence|].
        exists [DOp [c] Ulnot], f. split; [apply in_app_iff; right; simpl; auto|repeat constructor; auto].
  Qed.

  Lemma has_leaf_paths t : isBranch t = true -> has_leaf t = true -> paths t <> [].
  Proof.
    induction t as [ |n|s|s|s|l o IH|v m l IHv IHm IHl|v p IHv IHp|l IH|c t f IHc IHt IHf|v w f s|w|w|t IH|s l IH]
      using df_ind'; try discriminate.
    intros _ Hl E. cbn [paths has_leaf] in *. apply app_eq_nil in E as [E1 E2].
    assert (forall x a, (isBranch a = true -> has_leaf a = true -> paths a <> []) -> has_leaf a = true ->
      (if 0 <? length (paths a) then map (fun p => (x :: fst p, snd p)) (paths a)
       else if is_none a then [] else [([x], a)]) <> []) as K.
    { intros x a IH H. destruct (Nat.ltb_spec 0 (length (paths a))) as [Hlt|Hlt].
      - destruct (paths a); [simpl in Hlt; lia|discriminate].
      - destruct a; try discriminate. }
    apply orb_true_iff in Hl as [Hl|Hl]; [exact (K c t IHt Hl E1)|exact (K (DOp [c] Ulnot) f IHf Hl E2)].
  Qed.

  Lemma paths_pick t : no_hollow t = true -> forall k leaf, In (k, leaf) (paths t) -> holds I k ->
    leaf = pick I t /\ leaf <> DNone.
  Proof.
    induction t as [ |n|s|s|s|l o IH|v m l IHv IHm IHl|v p IHv IHp|l IH|c t f IHc IHt IHf|v w f s|w|w|t IH|s l IH]
      using df_ind'; simpl; try tauto.
    intros Hh k leaf Hin Hk.
    repeat match goal with H : _ && _ = true |- _ => apply andb_true_iff in H as [? ?] end.
    assert (forall a, (negb (isBranch a) || has_leaf a) = true -> paths a = [] -> isBranch a = false) as Q.
    { intros a Ha Hp. destruct (isBranch a) eqn:Eb; auto. simpl in Ha. exfalso. eapply has_leaf_paths; eauto. }
    apply in_app_iff in Hin as [Hin|Hin].
    - destruct (Nat.ltb_spec 0 (length (paths t))) as [Hl|Hl].
      + apply in_map_iff in Hin as ([k' l'] & E & Hin). simpl in E. injection E as <- <-. inv Hk.
        match goal with H : i_truth _ _ = true |- _ => rewrite H end. eauto.
      + destruct (is_none t) eqn:En; [destruct Hin|]. destruct Hin as [E|[]]. injection E as <- <-. inv Hk.
        match goal with H : i_truth _ _ = true |- _ => rewrite H end.
        assert (paths t = []) as Hp by (destruct (paths t); auto; simpl in Hl; lia).
        apply Q in Hp; auto. destruct t; try discriminate; split; auto; discriminate.
    - destruct (Nat.ltb_spec 0 (length (paths f))) as [Hl|Hl].
      + apply in_map_iff in Hin as ([k' l'] & E & Hin). simpl in E. injection E as <- <-. inv Hk.
        match goal with H : i_truth _ _ = true |- _ => rewrite not_holds in H; apply negb_true_iff in H; rewrite H end. eauto.
      + destruct (is_none f) eqn:En; [destruct Hin|]. destruct Hin as [E|[]]. injection E as <- <-. inv Hk.
        match goal with H : i_truth _ _ = true |- _ => rewrite not_holds in H; apply negb_true_iff in H; rewrite H end.
        assert (paths f = []) as Hp by (destruct (paths f); auto; simpl in Hl; lia).
        apply Q in Hp; auto. destruct f; try discriminate; split; auto; discriminate.
  Qed.
End Sem.

Lemma split_spec t : no_delay t -> conds_present t = true -> isBranch t = true ->
  exists d, split t = Ok d /\
  forall I, not_law I ->
    (forall k leaf, In (k, leaf) d -> holds I k -> eval I leaf = eval I t) /\
    (forall k1 l1 k2 l2, In (k1, l1) d -> In (k2, l2) d -> holds I k1 -> holds I k2 -> k1 = k2 /\ l1 = l2) /\
    (pick I t <> DNone -> exists k leaf, In (k, leaf) d /\ holds I k) /\
    (no_hollow t = true -> forall k leaf, In (k, leaf) d -> holds I k -> leaf = pick I t /\ leaf <> DNone).
Proof.
  intros Hd Hc Hb. exists (paths t). split; [now apply split_paths|]. intros I HN.
  split; [|split; [|split]].
  - apply paths_eval; auto.
  - apply paths_unique; auto.
  - apply paths_complete; auto.
  - apply paths_pick; auto.
Qed.

Lemma split_keys_distinct t d : no_delay t -> conds_present t = true -> split t = Ok d -> NoDup (map fst d).
Proof.
  intros Hd Hc H. destruct (split_paths t Hd Hc) as (E & D & K). rewrite H in E. injection E as ->.
  clear - D K. induction D as [|p d Hp D IH]; simpl; constructor.
  - intros Hin. apply in_map_iff in Hin as (q & E & Hin). rewrite Forall_forall in Hp.
    apply (Hp q Hin). rewrite E. inv K. clear - H1. unfold kd in H1. induction H1; constructor; auto.
    apply same_refl; auto. intros n; apply ScopeProofs.chain_eq_refl.
  - apply IH. now inv K.
Qed.
