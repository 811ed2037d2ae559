(** DfProofs.v - equality and hashing of dataflow trees. *)
From Verif Require Import Base ScopeModel ScopeSpec ScopeProofs DfModel DfSpec.

Lemma op_beq_eq a b : op_beq a b = true <-> a = b.
Proof. split; [apply internal_op_dec_bl | apply internal_op_dec_lb]. Qed.
Lemma op_beq_refl a : op_beq a a = true.
Proof. now apply op_beq_eq. Qed.

Lemma pyval_eqb_eq a b : pyval_eqb a b = true <-> a = b.
Proof.
  destruct a, b; simpl; split; intros H; try discriminate; try reflexivity;
    try (apply Z.eqb_eq in H; now subst); try (apply String.eqb_eq in H; now subst);
    injection H as ->; first [apply Z.eqb_refl | apply String.eqb_refl].
Qed.
Lemma optZ_eqb_eq a b : opt_eqb Z.eqb a b = true <-> a = b.
Proof.
  destruct a, b; simpl; split; intros H; try discriminate; try reflexivity.
  - apply Z.eqb_eq in H; now subst.
  - injection H as ->; apply Z.eqb_refl.
Qed.

Definition list_eq := fix list_eq (xs ys : list df) {struct xs} : res bool :=
    match xs, ys with
    | x :: xs', y :: ys' => do e <- df_eq x y; if e then list_eq xs' ys' else Ok false
    | [], [] => Ok true
    | _, _ => Ok false
    end.
Definition hlist := fix hlist (l : list df) : res (list hval) :=
    match l with
    | [] => Ok []
    | x :: xs => do h <- df_hash x; do hs <- hlist xs; Ok (h :: hs)
    end.
Lemma hlist_mapM l : hlist l = mapM df_hash l.
Proof. induction l as [|x l IH]; simpl; [reflexivity|]. now rewrite IH. Qed.

Ltac occ := unfold no_delay in *; cbn [occurs isDelay] in *;
  repeat match goal with H : _ || _ = false |- _ => apply orb_false_iff in H as [? ?] end.

Lemma existsb_false_Forall {A} (f : A -> bool) l :
  existsb f l = false <-> Forall (fun x => f x = false) l.
Proof.
  induction l as [|x l IH]; simpl; split; intros H; auto.
  - apply orb_false_iff in H as [H1 H2]; constructor; tauto.
  - inversion H; subst. apply orb_false_iff; tauto.
Qed.

Definition Req n m := chain_eq n m = true.

(** [eq_ok a]: comparison with a never fails and decides [same]. *)
Definition eq_ok a := no_delay a -> forall b, exists r, df_eq a b = Ok r /\ (r = true <-> same Req a b).

Lemma list_eq_ok l : Forall eq_ok l -> Forall no_delay l ->
  forall l', exists r, list_eq l l' = Ok r /\ (r = true <-> Forall2 (same Req) l l').
Proof.
  induction 1 as [|x l Hx H IH]; intros Hd [|y l']; simpl.
  - exists true; split; auto. split; auto.
  - exists false; split; auto. split; [discriminate | intros K; inv K].
  - exists false; split; auto. split; [discriminate | intros K; inv K].
  - inversion Hd; subst. destruct (Hx ltac:(assumption) y) as (r & -> & Hr); simpl.
    destruct r.
    + destruct (IH ltac:(assumption) l') as (r' & -> & Hr'). exists r'; split; auto.
      rewrite Hr'. split; intros K; [constructor; tauto | inv K; tauto].
    + exists false; split; auto. split; [discriminate|]. intros K; inv K. apply Hr; auto.
Qed.

Ltac wrong := exists false; split; [reflexivity | split; [discriminate | intros K; inv K]].

Lemma df_eq_ok a : eq_ok a.
Proof.
  induction a as [ |n|s|s|s|l o IH|v m l IHv IHm IHl|v p IHv IHp|l IH|c t f IHc IHt IHf|v w f s|w|w|t IH|s l IH]
    using df_ind'; intros Hd b.
  - destruct b; try wrong. exists true; split; auto. split; auto; constructor.
  - destruct b as [|n' | | | | | | | | | | | | | ]; try wrong. exists (chain_eq n n'); split; auto.
    split; intros K; [now constructor | now inv K].
  - destruct b; try wrong. simpl. exists (String.eqb s value); split; auto. rewrite String.eqb_eq.
    split; intros K; [subst; constructor | now inv K].
  - destruct b; try wrong. simpl. exists (String.eqb s value); split; auto. rewrite String.eqb_eq.
    split; intros K; [subst; constructor | now inv K].
  - destruct b; try wrong. simpl. exists (String.eqb s value); split; auto. rewrite String.eqb_eq.
    split; intros K; [subst; constructor | now inv K].
  - destruct b as [ | | | | |l' o' | | | | | | | | |]; try wrong.
    change (df_eq (DOp l o) (DOp l' o')) with (if op_beq o o' then list_eq l l' else Ok false).
    destruct (op_beq o o') eqn:E.
    + apply op_beq_eq in E as ->. occ.
      destruct (list_eq_ok l IH (proj1 (existsb_false_Forall _ _) ltac:(eassumption)) l') as (r & -> & Hr).
      exists r; split; auto. rewrite Hr. split; intros K; [now constructor | now inv K].
    + exists false; split; auto. split; [discriminate|]. intros K; inv K.
      rewrite op_beq_refl in E; discriminate.
  - destruct b as [ | | | | | |v' m' l' | | | | | | | |]; try wrong. occ.
    cbn [df_eq].
    destruct (IHv ltac:(assumption) v') as (r1 & -> & S1); simpl.
    destruct r1; [|exists false; split; auto; split; [discriminate | intros K; inv K; tauto]].
    destruct (IHm ltac:(assumption) m') as (r2 & -> & S2); simpl.
    destruct r2; [|exists false; split; auto; split; [discriminate | intros K; inv K; tauto]].
    destruct (IHl ltac:(assumption) l') as (r3 & -> & S3); simpl.
    exists r3; split; auto. rewrite S3. split; intros K; [constructor; tauto | inv K; tauto].
  - destruct b as [ | | | | | | |v' p' | | | | | | |]; try wrong. occ.
    cbn [df_eq].
    destruct (IHv ltac:(assumption) v') as (r1 & -> & S1); simpl.
    destruct r1; [|exists false; split; auto; split; [discriminate | intros K; inv K; tauto]].
    destruct (IHp ltac:(assumption) p') as (r3 & -> & S3); simpl.
    exists r3; split; auto. rewrite S3. split; intros K; [constructor; tauto | inv K; tauto].
  - destruct b as [ | | | | | | | |l' | | | | | |]; try wrong.
    change (df_eq (DConcat l) (DConcat l')) with (list_eq l l'). occ.
    destruct (list_eq_ok l IH (proj1 (existsb_false_Forall _ _) ltac:(eassumption)) l') as (r & -> & Hr).
    exists r; split; auto. rewrite Hr. split; intros K; [now constructor | now inv K].
  - destruct b as [ | | | | | | | | |c' t' f' | | | | |]; try wrong. occ.
    cbn [df_eq].
    destruct (IHc ltac:(assumption) c') as (r1 & -> & S1); simpl.
    destruct r1; [|exists false; split; auto; split; [discriminate | intros K; inv K; tauto]].
    destruct (IHt ltac:(assumption) t') as (r2 & -> & S2); simpl.
    destruct r2; [|exists false; split; auto; split; [discriminate | intros K; inv K; tauto]].
    destruct (IHf ltac:(assumption) f') as (r3 & -> & S3); simpl.
    exists r3; split; auto. rewrite S3. split; intros K; [constructor; tauto | inv K; tauto].
  - destruct b as [ | | | | | | | | | |v' w' f' s' | | | |]; try wrong. simpl.
    eexists; split; [reflexivity|]. rewrite !andb_true_iff, pyval_eqb_eq, optZ_eqb_eq, !Bool.eqb_true_iff.
    split; [intros [[[-> ->] ->] ->]; constructor | intros K; inv K; auto].
  - destruct b as [ | | | | | | | | | | |w'| | |]; try wrong. simpl. eexists; split; [reflexivity|].
    rewrite Z.eqb_eq. split; [intros ->; constructor | intros K; inv K; auto].
  - destruct b as [ | | | | | | | | | | | |w'| |]; try wrong. simpl. eexists; split; [reflexivity|].
    rewrite Z.eqb_eq. split; [intros ->; constructor | intros K; inv K; auto].
  - exfalso. occ. discriminate.
  - destruct b as [ | | | | | | | | | | | | | |s' l']; try wrong.
    change (df_eq (DSys s l) (DSys s' l')) with (if String.eqb s s' then list_eq l l' else Ok false).
    destruct (String.eqb_spec s s') as [->|N].
    + occ.
      destruct (list_eq_ok l IH (proj1 (existsb_false_Forall _ _) ltac:(eassumption)) l') as (r & -> & Hr).
      exists r; split; auto. rewrite Hr. split; intros K; [now constructor | now inv K].
    + exists false; split; auto. split; [discriminate|]. intros K; inv K. congruence.
Qed.

Lemma same_refl (R : chain -> chain -> Prop) t : (forall n, R n n) -> no_delay t -> same R t t.
Proof.
  intros HR. induction t as [ |n|s|s|s|l o IH|v m l IHv IHm IHl|v p IHv IHp|l IH|c t f IHc IHt IHf|v w f s|w|w|t IH|s l IH]
    using df_ind'; intros Hd; occ; try discriminate; constructor; auto;

    match goal with
    | IH : Forall _ l, H : existsb _ _ = false |- _ =>
       apply existsb_false_Forall in H; clear - IH H; induction IH; inv H; constructor; auto
    | _ => idtac
    end.
Qed.

Lemma same_sym (R : chain -> chain -> Prop) a b : (forall n m, R n m -> R m n) -> same R a b -> same R b a.
Proof.
  intros HR. revert b.
  induction a as [ |n|s|s|s|l o IH|v m l IHv IHm IHl|v p IHv IHp|l IH|c t f IHc IHt IHf|v w f s|w|w|t IH|s l IH]
    using df_ind'; intros b H; inv H; constructor; auto;
  match goal with
  | IH : Forall _ l, H : Forall2 _ _ _ |- _ =>
      clear - IH H; induction H; inv IH; constructor; auto
  end.
Qed.

Lemma same_no_delay (R : chain -> chain -> Prop) a b : same R a b -> no_delay a /\ no_delay b.
Proof.
  revert b.
  induction a as [ |n|s|s|s|l o IH|v m l IHv IHm IHl|v p IHv IHp|l IH|c t f IHc IHt IHf|v w f s|w|w|t IH|s l IH]
    using df_ind'; intros b H; inv H; unfold no_delay in *; cbn [occurs isDelay]; auto;
  repeat match goal with
  | IH : forall b, same R ?x b -> _, H : same R ?x _ |- _ => apply IH in H as [? ?]
  | H : _ = false |- _ => rewrite H; clear H
  end; auto;
  match goal with
  | IH : Forall _ l, H : Forall2 _ _ _ |- _ =>
      rewrite !orb_false_l, !existsb_false_Forall;
      clear - IH H; induction H; inv IH; [auto|];
      match goal with K : forall b, _ -> _, S : same _ _ _ |- _ => destruct (K _ S) end;
      match goal with K : Forall _ _ -> _ |- _ => destruct K; auto end
  end.
Qed.

Lemma df_eq_refl t : no_delay t -> df_eq t t = Ok true.
Proof.
  intros H. destruct (df_eq_ok t H t) as (r & -> & E). f_equal. apply E.
  apply same_refl; auto. intros n; apply chain_eq_refl.
Qed.

Lemma df_eq_sym a b : no_delay a -> no_delay b -> df_eq a b = df_eq b a.
Proof.
  intros Ha Hb. destruct (df_eq_ok a Ha b) as (r & -> & E), (df_eq_ok b Hb a) as (r' & -> & E').
  assert (forall n m, Req n m -> Req m n) as HR by (unfold Req; intros; now rewrite chain_eq_sym).
  f_equal. destruct r, r'; auto.
  - symmetry. apply E'. apply same_sym; auto. now apply E.
  - apply E. apply same_sym; auto. now apply E'.
Qed.

Lemma same_hash a b : same Req a b -> exists h, df_hash a = Ok h /\ df_hash b = Ok h.
Proof.
  revert b.
  assert (forall l l', Forall (fun a => forall b, same Req a b -> exists h, df_hash a = Ok h /\ df_hash b = Ok h) l ->
    Forall2 (same Req) l l' -> exists hs, hlist l = Ok hs /\ hlist l' = Ok hs) as HL.
  { intros l l' IH H; induction H as [|x y l l' Hxy H IHF]; inv IH; simpl; [eauto|].
    match goal with K : forall b, _ |- _ => destruct (K _ Hxy) as (h & -> & ->) end.
    destruct IHF as (hs & -> & ->); auto. simpl. eauto. }
  induction a as [ |n|s|s|s|l o IH|v m l IHv IHm IHl|v p IHv IHp|l IH|c t f IHc IHt IHf|v w f s|w|w|t IH|s l IH]
    using df_ind'; intros b H; inv H; try (eexists; split; reflexivity).
  - match goal with K : Req _ _ |- _ => apply chain_eq_hash in K end.
    simpl. eexists; split; [reflexivity|]. congruence.
  - match goal with K : Forall2 _ _ _ |- _ => destruct (HL _ _ IH K) as (hs & E1 & E2) end.
    cbn [df_hash]. fold hlist. rewrite E1, E2. simpl; eauto.
  - repeat match goal with IH : forall b, same Req ?x b -> _, H : same Req ?x _ |- _ =>
      destruct (IH _ H) as (? & ? & ?); clear IH end.
    cbn [df_hash]. repeat match goal with H : df_hash _ = _ |- _ => rewrite H; clear H end. simpl; eauto.
  - repeat match goal with IH : forall b, same Req ?x b -> _, H : same Req ?x _ |- _ =>
      destruct (IH _ H) as (? & ? & ?); clear IH end.
    cbn [df_hash]. repeat match goal with H : df_hash _ = _ |- _ => rewrite H; clear H end. simpl; eauto.
  - match goal with K : Forall2 _ _ _ |- _ => destruct (HL _ _ IH K) as (hs & E1 & E2) end.
    cbn [df_hash]. fold hlist. rewrite E1, E2. simpl; eauto.
  - repeat match goal with IH : forall b, same Req ?x b -> _, H : same Req ?x _ |- _ =>
      destruct (IH _ H) as (? & ? & ?); clear IH end.
    cbn [df_hash]. repeat match goal with H : df_hash _ = _ |- _ => rewrite H; clear H end. simpl; eauto.
  - match goal with K : Forall2 _ _ _ |- _ => destruct (HL _ _ IH K) as (hs & E1 & E2) end.
    cbn [df_hash]. fold hlist. rewrite E1, E2. simpl; eauto.
Qed.

Lemma df_eq_hash a b : no_delay a -> df_eq a b = Ok true ->
  exists h, df_hash a = Ok h /\ df_hash b = Ok h.
Proof.
  intros Ha H. destruct (df_eq_ok a Ha b) as (r & E & S). rewrite H in E; injection E as <-.
  apply same_hash, S; reflexivity.
Qed.

(** Without wildcards equality is identity of trees. *)
Lemma no_wild_no_any n : existsb (fun l => scopetype_eqb (stype l) STany) n = false -> no_any n.
Proof.
  intros H. apply existsb_false_Forall in H. eapply Forall_impl; [|exact H].
  intros l Hl E. cbv beta in Hl. rewrite E in Hl. discriminate.
Qed.
Lemma same_eq a b : occurs wild_term a = false -> occurs wild_term b = false ->
  same Req a b -> a = b.
Proof.
  revert b.
  assert (forall l l', Forall (fun a => forall b, occurs wild_term a = false -> occurs wild_term b = false ->
     same Req a b -> a = b) l -> existsb (occurs wild_term) l = false -> existsb (occurs wild_term) l' = false ->
     Forall2 (same Req) l l' -> l = l') as HL.
  { intros l l' IH E E' H. induction H as [|x y l l' Hxy H IHF]; [reflexivity|]. inv IH. simpl in E, E'.
    apply orb_false_iff in E as [? ?], E' as [? ?]. f_equal; auto. }
  induction a as [ |n|s|s|s|l o IH|v m l IHv IHm IHl|v p IHv IHp|l IH|c t f IHc IHt IHf|v w f s|w|w|t IH|s l IH]
    using df_ind'; intros b Ha Hb H; inv H; auto; cbn [occurs wild_term] in Ha, Hb;
    repeat match goal with H : _ || _ = false |- _ => apply orb_false_iff in H as [? ?] end;
    try (f_equal; auto; fail).
  - f_equal. match goal with K : Req _ _ |- _ => apply (chain_eq_no_any n m); auto using no_wild_no_any end.
Qed.

Lemma df_eq_identity a b : no_delay a ->
  occurs wild_term a = false -> occurs wild_term b = false -> df_eq a b = Ok true -> a = b.
Proof.
  intros Hd Ha Hb H. destruct (df_eq_ok a Hd b) as (r & E & S). rewrite H in E; injection E as <-.
  apply same_eq; auto. now apply S.
Qed.

Lemma same_mono (R R' : chain -> chain -> Prop) a b : (forall n m, R n m -> R' n m) -> same R a b -> same R' a b.
Proof.
  intros HR. revert b.
  induction a as [ |n|s|s|s|l o IH|v m l IHv IHm IHl|v p IHv IHp|l IH|c t f IHc IHt IHf|v w f s|w|w|t IH|s l IH]
    using df_ind'; intros b H; inv H; constructor; auto;
  match goal with
  | IH : Forall _ l, H : Forall2 _ _ _ |- _ =>
      clear - IH H; induction H; inv IH; constructor; auto
  end.
Qed.
Lemma same_Req_agree a b : same Req a b <-> same (fun n m => agree n m) a b.
Proof. split; apply same_mono; intros n m H; now apply chain_eq_agree. Qed.
