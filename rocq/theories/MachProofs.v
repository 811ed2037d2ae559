(** MachProofs.v - routes, removal of reset conditions, and plain transition conditions. *)
From Verif Require Import Base ScopeModel DfModel DfSpec DfProofs BindSpec BindProofs SplitModel SplitSpec SplitProofs
  TransModel TransSpec TransProofs FsmModel FsmSpec FsmProofs FsmProofs2 FsmProps MachModel MachSpec MachText.
Local Open Scope Z_scope.

(** ** Routes are the paths that end in a leaf. *)
Lemma paths_route t : forall k leaf, In (k, leaf) (paths t) -> isBranch leaf = false -> leaf <> DNone -> route t k leaf.
Proof.
  assert (forall c a k leaf, (forall k leaf, In (k, leaf) (paths a) -> isBranch leaf = false -> leaf <> DNone -> route a k leaf) ->
    In (k, leaf) (partA c (paths a) a) -> isBranch leaf = false -> leaf <> DNone -> exists k', k = c :: k' /\ route a k' leaf) as K.
  { intros c a k leaf IH H Hb Hn. unfold partA in H. destruct (0 <? length (paths a))%nat.
    - apply in_map_iff in H as ([k' l'] & E & H). cbn in E. injection E as <- <-. exists k'. split; [reflexivity|]. now apply IH.
    - destruct (is_none a); [destruct H|]. destruct H as [H|[]]. injection H as <- <-. exists []. split; [reflexivity|]. now constructor. }
  induction t as [ |n|s|s|s|l o IH|v m l IHv IHm IHl|v p IHv IHp|l IH|c a b IHc IHt IHf|v w f s|w|w|t IH|s l IH]
    using df_ind'; intros k leaf H Hb Hn; try destruct H.
  change (paths (DBranch c a b)) with (partA c (paths a) a ++ partA (DOp [c] Ulnot) (paths b) b) in H.
  apply in_app_iff in H as [H|H].
  - destruct (K c a k leaf IHt H Hb Hn) as (k' & -> & R). now constructor.
  - destruct (K _ b k leaf IHf H Hb Hn) as (k' & -> & R). now constructor.
Qed.
Lemma route_leaf_shape t k leaf : route t k leaf -> isBranch leaf = false /\ leaf <> DNone.
Proof. induction 1; auto. Qed.
Lemma route_paths t k leaf : route t k leaf -> isBranch t = true -> In (k, leaf) (paths t).
Proof.
  assert (forall c a k leaf, route a k leaf -> (isBranch a = true -> In (k, leaf) (paths a)) -> In (c :: k, leaf) (partA c (paths a) a)) as K.
  { intros c a k0 l0 R IH. unfold partA. destruct (isBranch a) eqn:E.
    - specialize (IH eq_refl). destruct (paths a) as [|p r] eqn:Ep; [destruct IH|]. cbn [length Nat.ltb Nat.leb].
      apply in_map_iff. exists (k0, l0). split; [reflexivity|exact IH].
    - inversion R as [? H1 H2|? ? ? ? ? ?|? ? ? ? ? ?]; subst; try discriminate.
      replace (paths l0) with ([] : funcdict) by (destruct l0; try reflexivity; discriminate). cbn.
      destruct l0; try congruence; cbn; auto. }
  induction 1 as [t H1 H2|c a b k leaf R IH|c a b k leaf R IH]; intros Hb.
  - congruence.
  - change (paths (DBranch c a b)) with (partA c (paths a) a ++ partA (DOp [c] Ulnot) (paths b) b). apply in_app_iff. left. now apply K.
  - change (paths (DBranch c a b)) with (partA c (paths a) a ++ partA (DOp [c] Ulnot) (paths b) b). apply in_app_iff. right. now apply K.
Qed.

(** Conditions on the paths of a plain tree are plain. *)
Lemma plain_branch c a b : plain_tree (DBranch c a b) -> plain_tree c /\ plain_tree a /\ plain_tree b.
Proof.
  intros [H1 H2]. unfold no_delay in *. cbn [occurs isDelay wild_term orb] in H1, H2.
  apply orb_false_iff in H1 as [H1 H1']. apply orb_false_iff in H1 as [Hc Ha].
  apply orb_false_iff in H2 as [H2 H2']. apply orb_false_iff in H2 as [Wc Wa].
  repeat split; unfold no_delay; assumption.
Qed.
Lemma plain_op1 c o : plain_tree c -> plain_tree (DOp [c] o).
Proof. intros [H1 H2]. split; [unfold no_delay in *|]; cbn; [rewrite H1|rewrite H2]; reflexivity. Qed.
Lemma plain_op2 a b o : plain_tree a -> plain_tree b -> plain_tree (DOp [a; b] o).
Proof. intros [H1 H2] [H3 H4]. split; [unfold no_delay in *|]; cbn; [rewrite H1, H3|rewrite H2, H4]; reflexivity. Qed.
Lemma plain_op_in l o x : plain_tree (DOp l o) -> In x l -> plain_tree x.
Proof.
  intros [H1 H2] Hx. unfold no_delay in *. cbn [occurs isDelay wild_term orb] in H1, H2. split.
  - unfold no_delay. destruct (occurs isDelay x) eqn:E; [|reflexivity]. rewrite <- H1. symmetry. apply existsb_exists. eauto.
  - destruct (occurs wild_term x) eqn:E; [|reflexivity]. rewrite <- H2. symmetry. apply existsb_exists. eauto.
Qed.
Definition pkeys (d : funcdict) : Prop := Forall (fun p => Forall plain_tree (fst p)) d.
Lemma paths_plain t : plain_tree t -> pkeys (paths t).
Proof.
  assert (forall c a, plain_tree c -> pkeys (paths a) -> pkeys (partA c (paths a) a)) as K.
  { intros c a Hc Ha. unfold pkeys, partA. destruct (0 <? length (paths a))%nat.
    - apply Forall_map. eapply Forall_impl; [|exact Ha]. intros p Hp. cbn. constructor; assumption.
    - destruct (is_none a); constructor; [cbn; auto|constructor]. }
  induction t as [ |n|s|s|s|l o IH|v m l IHv IHm IHl|v p IHv IHp|l IH|c a b IHc IHt IHf|v w f s|w|w|t IH|s l IH]
    using df_ind'; intros H; try constructor.
  apply plain_branch in H as (Hc & Ha & Hb).
  change (paths (DBranch c a b)) with (partA c (paths a) a ++ partA (DOp [c] Ulnot) (paths b) b).
  apply Forall_app. split; apply K; auto. now apply plain_op1.
Qed.

(** ** Removal of reset conditions *)
Lemma condlist_parted k : forall k', remove_reset_condlist k = Ok k' -> exists r, parted k k' r.
Proof.
  induction k as [|c k IH]; intros k' E; cbn [remove_reset_condlist] in E.
  - injection E as <-. exists []. constructor.
  - unfold remove_reset_cond in E. destruct (tostr c) as [s|] eqn:Es; [|discriminate]. cbn [bind] in E.
    destruct (remove_reset_condlist k) as [l|]; [|discriminate]. cbn [bind] in E. injection E as <-.
    destruct (IH _ eq_refl) as (r & Hr). pose proof (tostr_reset c s Es) as Hs. destruct (isReset s).
    + exists (c :: r). constructor; [now apply Hs|exact Hr].
    + exists r. constructor; [|exact Hr]. intros H. apply Hs in H. discriminate.
Qed.
Lemma parted_fun k l r l' r' : parted k l r -> parted k l' r' -> l = l' /\ r = r'.
Proof.
  intros H. revert l' r'. induction H as [|c k l r Hc H IH|c k l r Hc H IH]; intros l' r' K; inversion K; subst; auto; try contradiction.
  - destruct (IH _ _ H5) as [-> ->]. auto.
  - destruct (IH _ _ H5) as [-> ->]. auto.
Qed.
Lemma parted_in k l r : parted k l r -> forall x, In x k <-> In x l \/ In x r.
Proof. induction 1; intros x; cbn [In]; [tauto|rewrite (IHparted x); tauto|rewrite (IHparted x); tauto]. Qed.
Lemma parted_nil_dropped k r : parted k [] r -> Forall about_reset k.
Proof. remember [] as l eqn:E. intros H. revert E. induction H; intros E; [constructor|discriminate|constructor; auto]. Qed.
Lemma parted_all I k l r : parted k l r -> all_true I l -> all_true I r -> all_true I k.
Proof.
  intros H Hl Hr. unfold all_true in *. rewrite Forall_forall in *. intros x Hx. apply (parted_in _ _ _ H) in Hx as [Hx|Hx]; auto.
Qed.

Lemma conds_eq_plain a b : Forall plain_tree a -> Forall plain_tree b -> forall r, conds_eq a b = Ok r -> (r = true <-> a = b).
Proof.
  revert b. induction a as [|x a IH]; intros [|y b] Ha Hb r E; cbn in E; try (injection E as <-; split; congruence).
  inversion Ha; inversion Hb; subst. destruct (df_dec' x y ltac:(assumption) ltac:(assumption)) as (e & Ee & He). rewrite Ee in E. cbn in E. destruct e.
  - assert (x = y) as -> by (now apply He). rewrite (IH b ltac:(assumption) ltac:(assumption) r E). split; congruence.
  - injection E as <-. split; [discriminate|]. intros K. injection K as K _. apply He in K. discriminate.
Qed.
Lemma dict_put_spec d k v : pkeys d -> Forall plain_tree k -> forall r, dict_put d k v = Ok r ->
  pkeys r /\ (forall k' v', In (k', v') r -> (k' = k /\ v' = v) \/ In (k', v') d) /\
  In (k, v) r /\ (forall k' v', In (k', v') d -> exists v2, In (k', v2) r /\ (v2 = v' \/ k' = k)).
Proof.
  intros Hd Hk. induction d as [|[k0 v0] d IH]; intros r E; cbn [dict_put] in E.
  - injection E as <-. split; [repeat constructor; exact Hk|]. split; [intros k' v' [H|[]]; injection H as <- <-; auto|].
    split; [now left|]. intros k' v' [].
  - inversion Hd as [|? ? H0 Hd']; subst. cbn in H0. destruct (conds_eq k0 k) as [e|] eqn:Ee; [|discriminate]. cbn [bind] in E.
    pose proof (conds_eq_plain k0 k H0 Hk e Ee) as He. destruct e.
    + injection E as <-. assert (k0 = k) as -> by (now apply He). split; [constructor; assumption|].
      split; [intros k' v' [H|H]; [injection H as <- <-; auto|right; now right]|]. split; [now left|].
      intros k' v' [H|H]; [injection H as <- <-; exists v; split; [now left|now right]|exists v'; split; [now right|now left]].
    + destruct (dict_put d k v) as [r'|]; [|discriminate]. injection E as <-. destruct (IH Hd' _ eq_refl) as (I1 & I2 & I3 & I4).
      split; [constructor; assumption|]. split; [intros k' v' [H|H]; [right; now left|apply I2 in H as [H|H]; auto; right; now right]|].
      split; [now right|]. intros k' v' [H|H].
      * injection H as <- <-. exists v0. split; [now left|now left].
      * destruct (I4 _ _ H) as (v2 & A & B). exists v2. split; [now right|exact B].
Qed.
Lemma dict_set_spec d k v : pkeys d -> Forall plain_tree k -> forall r, dict_set d k v = Ok r ->
  pkeys r /\ (forall k' v', In (k', v') r -> (k' = k /\ v' = v) \/ In (k', v') d) /\
  In (k, v) r /\ (forall k' v', In (k', v') d -> exists v2, In (k', v2) r /\ (v2 = v' \/ k' = k)).
Proof. intros Hd Hk r E. unfold dict_set in E. destruct (mapM df_hash k); [|discriminate]. exact (dict_put_spec d k v Hd Hk r E). Qed.

Lemma parted_plain k l r : parted k l r -> Forall plain_tree k -> Forall plain_tree l.
Proof. intros H K. rewrite Forall_forall in *. intros x Hx. apply K. apply (parted_in _ _ _ H). now left. Qed.

(** [from d k' f]: the entry comes from a path of d. *)
Definition from (d : funcdict) (k' : list df) (f : df) : Prop := exists k r, In (k, f) d /\ parted k k' r.
Lemma strip_spec d : pkeys d -> forall acc n, pkeys acc -> strip_all d acc = Ok n ->
  pkeys n /\ (forall k f, In (k, f) n -> from d k f \/ In (k, f) acc) /\
  (forall k f, In (k, f) acc -> exists f2, In (k, f2) n) /\
  (forall k k' r f, In (k, f) d -> parted k k' r -> exists f2, In (k', f2) n).
Proof.
  induction d as [|[k0 f0] d IH]; intros Hd acc n Ha E; cbn [strip_all] in E.
  - injection E as <-. split; [exact Ha|]. split; [auto|]. split; [eauto|]. intros k k' r f [].
  - inversion Hd as [|? ? H0 Hd']; subst. cbn in H0.
    destruct (remove_reset_condlist k0) as [k1|] eqn:E1; [|discriminate]. cbn [bind] in E.
    destruct (dict_set acc k1 f0) as [acc'|] eqn:E2; [|discriminate]. cbn [bind] in E.
    destruct (condlist_parted _ _ E1) as (r1 & P1).
    destruct (dict_set_spec acc k1 f0 Ha (parted_plain _ _ _ P1 H0) _ E2) as (S1 & S2 & S3 & S4).
    destruct (IH Hd' acc' n S1 E) as (I1 & I2 & I3 & I4). split; [exact I1|]. split; [|split].
    + intros k f H. destruct (I2 k f H) as [(k2 & r2 & A & B)|A].
      * left. exists k2, r2. split; [now right|exact B].
      * apply S2 in A as [[-> ->]|A]; [left; exists k0, r1; split; [now left|exact P1]|now right].
    + intros k f H. destruct (S4 _ _ H) as (v2 & A & _). exact (I3 _ _ A).
    + intros k k' r f [H|H] Hp.
      * injection H as <- <-. destruct (parted_fun _ _ _ _ _ Hp P1) as [-> _]. exact (I3 _ _ S3).
      * exact (I4 _ _ _ _ H Hp).
Qed.
Lemma len0 {A} (l : list A) : (length l =? 0)%nat = true <-> l = [].
Proof. destruct l; cbn; split; congruence. Qed.
(** What is left after removing reset conditions. *)
Lemma removed_spec d : pkeys d -> forall n, remove_reset_condition d = Ok n ->
  pkeys n /\ (forall k f, In (k, f) n -> from d k f) /\
  (forall k k' r f, In (k, f) d -> parted k k' r -> k' <> [] -> exists f2, In (k', f2) n) /\
  ((forall k' f, In (k', f) n -> k' = []) -> n <> [] -> forall k k' r f, In (k, f) d -> parted k k' r -> k' = []) /\
  ((forall k k' r f, In (k, f) d -> parted k k' r -> k' = []) -> forall k k' r f, In (k, f) d -> parted k k' r -> exists f2, In (k', f2) n) /\
  (forall k f, In (k, f) n -> k = [] -> forall k2 k2' r2 f2, In (k2, f2) d -> parted k2 k2' r2 -> k2' = []).
Proof.
  intros Hd n E. unfold remove_reset_condition in E. destruct (strip_all d []) as [a|] eqn:Ea; [|discriminate]. cbn [bind] in E.
  apply Ok_inj in E. destruct (strip_spec d Hd [] a ltac:(constructor) Ea) as (S1 & S2 & S3 & S4).
  assert (forall k f, In (k, f) a -> from d k f) as S2' by (intros k f H; destruct (S2 k f H) as [|[]]; assumption).
  destruct (existsb (fun p => (length (fst p) =? 0)%nat) a && (1 <? length a)%nat) eqn:Ec; subst n.
  - apply andb_true_iff in Ec as [Ec1 Ec2]. apply Nat.ltb_lt in Ec2.
    assert (forall k f, In (k, f) (List.filter (fun p => negb (length (fst p) =? 0)%nat) a) <-> In (k, f) a /\ k <> []) as F.
    { intros k f. rewrite filter_In. cbn. destruct k; cbn; split; intros [H1 H2]; split; try assumption; try congruence. }
    split; [|split; [|split; [|split; [|split]]]].
    + unfold pkeys in *. rewrite Forall_forall in *. intros [k f] H. apply F in H as [H _]. exact (S1 _ H).
    + intros k f H. apply F in H as [H _]. now apply S2'.
    + intros k k' r f H Hp Hn. destruct (S4 _ _ _ _ H Hp) as (f2 & H2). exists f2. apply F. auto.
    + intros H Hn. exfalso. destruct (List.filter _ a) as [|[k f] l] eqn:El; [congruence|].
      assert (In (k, f) ((k, f) :: l)) as K by now left. pose proof (H k f K) as ->. apply F in K as [_ K]. congruence.
    + intros H. exfalso. assert (forall k f, In (k, f) a -> k = []) as Hall.
      { intros k f Hk. destruct (S2' k f Hk) as (k0 & r0 & A & B). exact (H _ _ _ _ A B). }
      (* two entries with the same key [] cannot both be present *)
      assert (forall d acc n, (length acc <= 1)%nat -> (forall k f, In (k, f) acc -> k = []) ->
                (forall k k' r f, In (k, f) d -> parted k k' r -> k' = []) -> strip_all d acc = Ok n -> (length n <= 1)%nat) as L.
      { clear. induction d as [|[k0 f0] d IH]; intros acc n Hl Hk Hd E; cbn [strip_all] in E; [injection E as <-; exact Hl|].
        destruct (remove_reset_condlist k0) as [k1|] eqn:E1; [|discriminate]. cbn [bind] in E.
        destruct (condlist_parted _ _ E1) as (r1 & P1). assert (k1 = []) as -> by (refine (Hd _ _ _ _ _ P1); now left).
        destruct acc as [|[ka fa] [|? ?]]; [| |cbn in Hl; lia].
        - cbn in E. refine (IH _ _ _ _ _ E); [cbn; lia| |]; [intros k f [H|[]]; congruence|intros k k' r f H; apply (Hd k k' r f); now right].
        - assert (ka = []) as -> by (eapply Hk; now left). cbn in E.
          refine (IH _ _ _ _ _ E); [cbn; lia| |]; [intros k f [H|[]]; congruence|intros k k' r f H; apply (Hd k k' r f); now right]. }
      assert (length a <= 1)%nat; [|lia]. refine (L d [] a _ _ H Ea); [cbn; lia|intros k f []].
    + intros k f H E0. apply F in H as [_ H]. congruence.
  - split; [exact S1|]. split; [exact S2'|]. split; [intros; eauto|].
    assert (forall k f, In (k, f) a -> k = [] -> forall k2 k2' r2 f2, In (k2, f2) d -> parted k2 k2' r2 -> k2' = []) as Z.
    { intros k f H -> k2 k2' r2 f2 H2 Hp. assert (existsb (fun p : list df * df => (length (fst p) =? 0)%nat) a = true) as Ex.
      { apply existsb_exists. exists ([], f). split; [exact H|reflexivity]. }
      rewrite Ex in Ec. cbn [andb] in Ec. apply Nat.ltb_ge in Ec.
      destruct (S4 _ _ _ _ H2 Hp) as (f3 & H3). destruct a as [|p [|? ?]]; [destruct H| |cbn in Ec; lia].
      destruct H as [H|[]]; destruct H3 as [H3|[]]. congruence. }
    split; [|split].
    + intros H Hn. destruct a as [|[k f] a']; [congruence|]. assert (In (k, f) ((k, f) :: a')) as K by now left.
      exact (Z k f K (H k f K)).
    + intros _ k k' r f H Hp. exact (S4 _ _ _ _ H Hp).
    + exact Z.
Qed.
