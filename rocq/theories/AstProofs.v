(** AstProofs.v - proofs about == and hash of AST nodes. *)
From Verif Require Import Base VisitModel AstTable AstModel AstSpec.

Lemma sum_in {A} (f : A -> nat) x l : In x l -> (f x <= list_sum (map f l))%nat.
Proof. induction l as [|y l IH]; [intros []|]. unfold list_sum in *. intros [<-|Hin]; cbn [map fold_right]; [lia|]. specialize (IH Hin). lia. Qed.
Lemma size_seq t l x : In x l -> (vsize x < vsize (VSeq t l))%nat.
Proof. intros Hin. apply (sum_in vsize) in Hin. cbn [vsize]. lia. Qed.
Lemma sget_pair {A} (fs : list (string * A)) f v : sget fs f = Some v -> In (f, v) fs.
Proof. induction fs as [|[k w] r IH]; cbn; [discriminate|]. destruct (String.eqb_spec k f) as [->|]; intros E; [injection E as ->; left; reflexivity|right; auto]. Qed.
Lemma size_has c fs f v : has fs f v -> (vsize v < vsize (VNode c fs))%nat.
Proof. intros H. apply sget_pair in H. apply (sum_in (fun kv => vsize (snd kv))) in H. cbn [vsize snd] in *. lia. Qed.
Lemma size_attr c fs fl a x : Forall2 (has fs) fl a -> In x a -> (vsize x < vsize (VNode c fs))%nat.
Proof. intros H Hin. induction H as [|f v fl a Hf H IH]; [destruct Hin|]. destruct Hin as [<-|Hin]; [apply (size_has c _ _ _ Hf)|auto]. Qed.
Lemma size_kid c fs ks k x : kids_of fs ks k -> In x k -> (vsize x < vsize (VNode c fs))%nat.
Proof.
  intros H Hin. induction H as [|f v r l Hf T H IH|f v r l Hf T H IH|f t l0 r l Hf H IH|f r l Hf H IH]; [destruct Hin| | | |]; auto.
  - destruct Hin as [<-|Hin]; [apply (size_has c _ _ _ Hf)|auto].
  - apply in_app_or in Hin. destruct Hin as [Hin|Hin]; [|auto]. apply (size_seq t) in Hin. apply (size_has c) in Hf. lia.
Qed.
Lemma getattr_has fs f v : getattr fs f = Ok v <-> has fs f v.
Proof. unfold getattr, has. destruct (sget fs f); split; intros E; try discriminate; injection E as ->; reflexivity. Qed.
Lemma attributes_has c fs a : attributes c fs = Ok a <-> Forall2 (has fs) (attr_names c) a.
Proof.
  unfold attributes. split; intros H.
  - apply mapM_ok_Forall2 in H. induction H; constructor; auto. now apply getattr_has.
  - apply mapM_Forall2_ok. induction H; constructor; auto. now apply getattr_has.
Qed.
Lemma kids_values fs ks k : kids_of fs ks k -> (do ls <- mapM (kid_values fs) ks; Ok (concat ls)) = Ok k.
Proof.
  induction 1 as [|f v r l Hf T H IH|f v r l Hf T H IH|f t l0 r l Hf H IH|f r l Hf H IH]; [reflexivity| | | |]; cbn [mapM kid_values]; rewrite (proj2 (getattr_has _ _ _) Hf); cbn [bind]; rewrite ?T; cbn [bind truthy];
    (destruct (mapM (kid_values fs) r) as [ls|e] eqn:E; cbn [bind] in *; [|discriminate]; injection IH as <-).
  - reflexivity.
  - reflexivity.
  - destruct l0; reflexivity.
  - reflexivity.
Qed.
Lemma children_kids c fs k : kids_of fs (kid_fields c) k -> children c fs = Ok k.
Proof. apply kids_values. Qed.
Lemma kids_det fs ks k k' : kids_of fs ks k -> kids_of fs ks k' -> k = k'.
Proof. intros H1 H2. apply kids_values in H1. apply kids_values in H2. congruence. Qed.
Lemma attrs_det fs l a a' : Forall2 (has fs) l a -> Forall2 (has fs) l a' -> a = a'.
Proof. intros H. revert a'. induction H as [|f v l a Hf H IH]; intros a' H'; inversion H' as [|? v' ? a2 Hf' H2]; subst; [reflexivity|]. f_equal; [unfold has in *; congruence|auto]. Qed.
Lemma made_has fs f v : Forall (fun kv => made (snd kv)) fs -> has fs f v -> made v.
Proof. intros H Hf. apply sget_pair in Hf. rewrite Forall_forall in H. apply (H _ Hf). Qed.
Lemma made_attrs c fs : made (VNode c fs) -> exists a, Forall2 (has fs) (attr_names c) a /\ Forall made a.
Proof.
  intros H. inversion H as [| | | | |? ? HF HA _ _]; subst. clear H. induction (attr_names c) as [|f l IH]; [exists []; split; constructor|]. destruct (HA f (or_introl eq_refl)) as [v Hv]. destruct (IH (fun g Hg => HA g (or_intror Hg))) as (a & A1 & A2).
  exists (v :: a). split; constructor; auto. apply (made_has _ _ _ HF Hv).
Qed.
Lemma made_kids c fs : made (VNode c fs) -> exists k, kids_of fs (kid_fields c) k /\ Forall made k.
Proof.
  intros H. inversion H as [| | | | |? ? HF _ HO HM]; subst. clear H. induction (kid_fields c) as [|[f|f] l IH]; [exists []; split; constructor| |].
  - destruct (HO f (or_introl eq_refl)) as [v Hv]. destruct (IH (fun g Hg => HO g (or_intror Hg)) (fun g Hg => HM g (or_intror Hg))) as (k & K1 & K2). destruct (truthy v) eqn:ET.
    + exists (v :: k). split; [eapply ks_one; eauto|]. constructor; auto. apply (made_has _ _ _ HF Hv).
    + exists k. split; [eapply ks_one_false; eauto|exact K2].
  - destruct (IH (fun g Hg => HO g (or_intror Hg)) (fun g Hg => HM g (or_intror Hg))) as (k & K1 & K2). destruct (HM f (or_introl eq_refl)) as [Hv|(t & l0 & Hv)].
    + exists k. split; [eapply ks_many_none; eauto|exact K2].
    + exists (l0 ++ k). split; [eapply ks_many; eauto|]. apply Forall_app. split; [|exact K2]. apply (made_has _ _ _ HF) in Hv. inversion Hv; auto.
Qed.

(** Loops *)
Lemma F2_len {A B} (P : A -> B -> Prop) l l' : Forall2 P l l' -> length l = length l'.
Proof. induction 1; cbn; congruence. Qed.
Lemma tuple_eq_true eq (l l' : list val) : tuple_eq eq l l' = Ok true <-> Forall2 (fun x y => eq x y = Ok true) l l'.
Proof.
  revert l'. induction l as [|x r IH]; intros [|y r']; cbn; split; intros H; try discriminate; try constructor; try (now inversion H).
  - destruct (eq x y) as [[]|]; [reflexivity|discriminate|discriminate].
  - destruct (eq x y) as [[]|]; cbn in H; [apply IH; exact H|discriminate|discriminate].
  - inversion H as [|? ? ? ? H1 H2]; subst. rewrite H1. cbn. apply IH. exact H2.
Qed.
Lemma kids_eq_true eq (l l' : list val) : kids_eq eq l l' = Ok true <-> exists k more, l' = k ++ more /\ Forall2 (fun x y => eq x y = Ok true) l k.
Proof.
  revert l'. induction l as [|x r IH]; intros l'; cbn; [split; [intros _; exists [], l'; split; [reflexivity|constructor]|reflexivity]|]. destruct l' as [|y r'].
  - split; [discriminate|]. intros (k & more & E & HF). inversion HF; subst. discriminate.
  - split; intros H.
    + destruct (eq x y) as [[]|] eqn:E; cbn in H; [|discriminate|discriminate]. apply IH in H. destruct H as (k & more & -> & HF). exists (y :: k), more. split; [reflexivity|]. constructor; auto.
    + destruct H as (k & more & E & HF). inversion HF as [|? y' ? k' H1 H2]; subst. injection E as <- ->. rewrite H1. cbn. apply IH. exists k', more. auto.
Qed.
Lemma Forall2_iff_in {A B} (P Q : A -> B -> Prop) l l' : (forall x y, In x l -> In y l' -> (P x y <-> Q x y)) -> Forall2 P l l' <-> Forall2 Q l l'.
Proof.
  revert l'. induction l as [|x l IH]; intros [|y l'] H; split; intros HF; try constructor; try (now inversion HF); inversion HF as [|? ? ? ? H1 H2]; subst.
  - apply (H x y); [left|left|]; auto.
  - apply IH; [intros a b Ha Hb; apply H; right; auto|exact H2].
  - apply (H x y); [left|left|]; auto.
  - apply IH; [intros a b Ha Hb; apply H; right; auto|exact H2].
Qed.
Ltac norel H := inversion H; subst; cbn [number] in *; try discriminate; try congruence.
Lemma eq_to_within : forall n x y, (vsize x < n)%nat -> made x -> made y -> (eq_to n x y = Ok true <-> within x y).
Proof.
  induction n as [|n IH]; intros x y HS MX MY; [lia|]. unfold within in *.
  assert (forall l l', (forall x, In x l -> (vsize x < n)%nat) -> Forall made l -> Forall made l' -> Forall2 (fun x y => eq_to n x y = Ok true) l l' <-> Forall2 (rel true) l l') as HL.
  { intros l l' HSl M1 M2. rewrite Forall_forall in M1, M2. apply Forall2_iff_in. intros a b Ha Hb. apply IH; auto. }
  destruct x as [|b|z|s|t l|c fs], y as [|b'|z'|s'|t' l'|c' fs'];
    try (split; intros E; [solve [discriminate E | destruct t; discriminate E]|solve [norel E]]).
  - split; [constructor|reflexivity].
  - cbn. split; intros E; [injection E as E; apply eqb_prop in E as ->; apply (r_num true _ _ (if b' then 1 else 0)%Z); reflexivity|]. norel E. destruct b, b'; try reflexivity; congruence.
  - cbn. split; intros E; [injection E as E; apply Z.eqb_eq in E as E; apply (r_num true _ _ z'); cbn; congruence|]. norel E. f_equal. apply Z.eqb_eq. congruence.
  - cbn. split; intros E; [injection E as E; apply Z.eqb_eq in E as E; apply (r_num true _ _ z); cbn; congruence|]. norel E. f_equal. apply Z.eqb_eq. congruence.
  - cbn. split; intros E; [injection E as E; apply Z.eqb_eq in E as E; apply (r_num true _ _ z); cbn; congruence|]. norel E. f_equal. apply Z.eqb_eq. congruence.
  - cbn. split; intros E; [injection E as E; apply String.eqb_eq in E as ->; constructor|]. norel E. now rewrite String.eqb_refl.
  - assert (forall x, In x l -> (vsize x < n)%nat) as HSl by (intros x Hx; apply (size_seq t) in Hx; lia). inversion MX as [| | | |? ? M1|]; subst. inversion MY as [| | | |? ? M2|]; subst. specialize (HL l l' HSl M1 M2).
    assert (t = t' -> (rel true (VSeq t l) (VSeq t' l') <-> tuple_eq (eq_to n) l l' = Ok true)) as K.
    { intros ->. rewrite tuple_eq_true, HL. split; intros E; [norel E; auto|constructor; exact E]. }
    destruct t, t'; cbn [eq_to]; try (split; intros E; [discriminate|norel E]); [rewrite (K eq_refl); reflexivity|].
    destruct (Nat.eqb_spec (length l) (length l')) as [EL|NL]; [rewrite (K eq_refl); reflexivity|]. split; [discriminate|]. intros E. norel E. exfalso. apply NL. eapply F2_len; eauto.
  - cbn [eq_to]. destruct (String.eqb_spec c c') as [<-|NC]; [|split; intros E; [discriminate|norel E]].
    destruct (made_attrs _ _ MX) as (a & A1 & A2). destruct (made_attrs _ _ MY) as (a' & A1' & A2'). destruct (made_kids _ _ MX) as (k & K1 & K2). destruct (made_kids _ _ MY) as (k' & K1' & K2').
    rewrite (proj2 (attributes_has _ _ _) A1), (proj2 (attributes_has _ _ _) A1'). cbn [bind]. rewrite (children_kids _ _ _ K1), (children_kids _ _ _ K1'). cbn [bind].
    assert (forall x, In x a -> (vsize x < n)%nat) as SA by (intros x Hx; pose proof (size_attr c _ _ _ _ A1 Hx); lia). assert (forall x, In x k -> (vsize x < n)%nat) as SK by (intros x Hx; pose proof (size_kid c _ _ _ _ K1 Hx); lia).
    pose proof (HL a a' SA A2 A2') as HA. split.
    + intros E. apply bind_ok in E. destruct E as ([] & E1 & E2); [|discriminate]. apply tuple_eq_true in E1. apply kids_eq_true in E2. destruct E2 as (k1 & more & -> & E2). apply Forall_app in K2'. destruct K2' as [K21 _].
      eapply r_node with (a := a) (a' := a') (k := k) (k' := k1) (more := more); auto; [apply HA; exact E1|discriminate|]. apply (HL k k1 SK K2 K21). exact E2.
    + intros E. inversion E as [|? ? z E1 E2| | |? ? ? b b' g g' more G1 G2 G3 G4 G5 G6 G7]; subst; [discriminate|].
      rewrite (attrs_det _ _ _ _ G1 A1), (attrs_det _ _ _ _ G2 A1') in G3. rewrite (kids_det _ _ _ _ G4 K1) in G7. pose proof (kids_det _ _ _ _ G5 K1') as EK. subst k'. apply Forall_app in K2'. destruct K2' as [K21 _].
      rewrite (proj2 (tuple_eq_true _ _ _) (proj2 HA G3)). cbn [bind]. apply kids_eq_true. exists g', more. split; [reflexivity|]. apply (HL k g' SK K2 K21). exact G7.
Qed.
Lemma node_eq_within x y : made x -> made y -> (node_eq x y = Ok true <-> within x y).
Proof. intros. apply eq_to_within; auto. Qed.
