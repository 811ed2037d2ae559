(** AstProofs2.v - facts about the relations of AstSpec.v, and hashes. *)
From Verif Require Import Base VisitModel AstTable AstModel AstSpec AstProofs.

Section Ind.
  Variable b : bool.
  Variable P : val -> val -> Prop.
  Hypothesis Hnone : P VNone VNone.
  Hypothesis Hnum : forall x y z, number x = Some z -> number y = Some z -> P x y.
  Hypothesis Hstr : forall s, P (VStr s) (VStr s).
  Hypothesis Hseq : forall t l l', Forall2 (rel b) l l' -> Forall2 P l l' -> P (VSeq t l) (VSeq t l').
  Hypothesis Hnode : forall c fs fs' a a' k k' more, Forall2 (has fs) (attr_names c) a -> Forall2 (has fs') (attr_names c) a' -> Forall2 (rel b) a a' -> Forall2 P a a' ->
    kids_of fs (kid_fields c) k -> kids_of fs' (kid_fields c) (k' ++ more) -> (b = false -> more = []) -> Forall2 (rel b) k k' -> Forall2 P k k' -> P (VNode c fs) (VNode c fs').
  Fixpoint rel_ind2 x y (H : rel b x y) {struct H} : P x y :=
    let all := fix all l l' (F : Forall2 (rel b) l l') {struct F} : Forall2 P l l' :=
      match F in Forall2 _ l l' return Forall2 P l l' with Forall2_nil _ => Forall2_nil _ | Forall2_cons x y h t => Forall2_cons x y (rel_ind2 x y h) (all _ _ t) end in
    match H in rel _ x y return P x y with
    | r_none _ => Hnone
    | r_num _ x y z h1 h2 => Hnum x y z h1 h2
    | r_str _ s => Hstr s
    | r_seq _ t l l' F => Hseq t l l' F (all _ _ F)
    | r_node _ c fs fs' a a' k k' more H1 H2 F H3 H4 H5 G => Hnode c fs fs' a a' k k' more H1 H2 F (all _ _ F) H3 H4 H5 G (all _ _ G)
    end.
End Ind.
Lemma F2_flip {A B} (Q : B -> A -> Prop) l l' : Forall2 (fun x y => Q y x) l l' -> Forall2 Q l' l.
Proof. induction 1; constructor; auto. Qed.
Lemma F2_mono {A B} (P Q : A -> B -> Prop) l l' : (forall x y, P x y -> Q x y) -> Forall2 P l l' -> Forall2 Q l l'.
Proof. intros H. induction 1; constructor; auto. Qed.
Lemma same_sym x y : same x y -> same y x.
Proof.
  unfold same. intros H. induction H using rel_ind2.
  - constructor.
  - eapply r_num; eauto.
  - constructor.
  - constructor. apply F2_flip. exact H0.
  - rewrite (H5 eq_refl) in H4. rewrite app_nil_r in H4. eapply r_node with (a := a') (a' := a) (k := k') (k' := k) (more := []); auto; [apply F2_flip; exact H2|rewrite app_nil_r; exact H3|apply F2_flip; exact H7].
Qed.
Lemma same_within x y : same x y -> within x y.
Proof.
  unfold same, within. intros H. induction H using rel_ind2; [constructor|eapply r_num; eauto|constructor|constructor; exact H0|].
  eapply r_node; eauto; discriminate.
Qed.
Lemma within_refl : forall n x, (vsize x < n)%nat -> made x -> within x x.
Proof.
  induction n as [|n IH]; intros x HS M; [lia|]. unfold within in *. destruct x as [|b|z|s|t l|c fs].
  - constructor.
  - eapply r_num; reflexivity.
  - eapply r_num; reflexivity.
  - constructor.
  - constructor. inversion M as [| | | |? ? M1|]; subst. assert (forall x, In x l -> rel true x x) as K. { intros x Hx. apply IH; [apply (size_seq t) in Hx; lia|]. rewrite Forall_forall in M1. auto. }
    clear - K. induction l as [|x l IH]; constructor; [apply K; left; reflexivity|]. apply IH. intros y Hy. apply K. right. exact Hy.
  - destruct (made_attrs _ _ M) as (a & A1 & A2). destruct (made_kids _ _ M) as (k & K1 & K2).
    assert (forall l, (forall x, In x l -> (vsize x < n)%nat) -> Forall made l -> Forall2 (rel true) l l) as K. { induction l as [|x l IHl]; intros HSl Ml; constructor; inversion Ml; subst; [apply IH; auto; apply HSl; left; reflexivity|]. apply IHl; auto. intros y Hy. apply HSl. right. exact Hy. }
    eapply r_node with (a := a) (a' := a) (k := k) (k' := k) (more := []); auto; [|rewrite app_nil_r; exact K1|].
    + apply K; [|exact A2]. intros x Hx. pose proof (size_attr c _ _ _ _ A1 Hx). lia.
    + apply K; [|exact K2]. intros x Hx. pose proof (size_kid c _ _ _ _ K1 Hx). lia.
Qed.
Lemma F2_comp {A B C} (Q : B -> C -> Prop) (R : A -> C -> Prop) l1 l2 l3 : Forall2 (fun x y => forall z, Q y z -> R x z) l1 l2 -> Forall2 Q l2 l3 -> Forall2 R l1 l3.
Proof. intros H. revert l3. induction H as [|x y l1 l2 Hxy H IH]; intros l3 H3; inversion H3; subst; constructor; auto. Qed.
Lemma within_trans x y z : within x y -> within y z -> within x z.
Proof.
  unfold within. intros H. revert z. induction H using rel_ind2; intros w HW.
  - exact HW.
  - inversion HW as [|? ? z0 E1 E2|? |?|?]; subst; cbn in *; try discriminate. eapply r_num; eauto. congruence.
  - exact HW.
  - inversion HW as [|? ? z0 E1 E2| |? ? l2 F|]; subst; [discriminate|]. constructor. eapply F2_comp; eauto.
  - inversion HW as [|? ? z0 E1 E2| | |? ? fs2 b b' g g' m2 G1 G2 G3 G4 G5 G6 G7]; subst; [discriminate|].
    rewrite (attrs_det _ _ _ _ G1 H0) in G3. pose proof (kids_det _ _ _ _ G4 H4) as EK. subst g. apply Forall2_app_inv_l in G7. destruct G7 as (g1 & g2 & F1 & F2 & ->).
    eapply r_node with (a := a) (a' := b') (k := k) (k' := g1) (more := g2 ++ m2); auto; [eapply F2_comp; eauto|rewrite app_assoc; exact G5|discriminate|eapply F2_comp; eauto].
Qed.

(** Counting *)
Lemma F2_ex {A B} (P : A -> B -> Prop) l : (forall x, In x l -> exists y, P x y) -> exists l', Forall2 P l l'.
Proof. induction l as [|x l IH]; intros H; [exists []; constructor|]. destruct (H x (or_introl eq_refl)) as [y Hy]. destruct IH as [l' Hl]; [intros z Hz; apply H; right; exact Hz|]. exists (y :: l'). constructor; auto. Qed.
Lemma count_ex : forall n x, (vsize x < n)%nat -> made x -> exists m, count x m.
Proof.
  induction n as [|n IH]; intros x HS M; [lia|]. destruct x as [|b|z|s|t l|c fs]; try (eexists; constructor; fail); try (eexists; eapply c_num; reflexivity).
  - inversion M as [| | | |? ? M1|]; subst. rewrite Forall_forall in M1. destruct (F2_ex count l) as [ns Hn]; [|eexists; constructor; exact Hn]. intros x Hx. apply IH; auto. apply (size_seq t) in Hx. lia.
  - destruct (made_attrs _ _ M) as (a & A1 & A2). destruct (made_kids _ _ M) as (k & K1 & K2). rewrite Forall_forall in A2, K2. destruct (F2_ex count a) as [ns Hn]; [intros x Hx; apply IH; auto; pose proof (size_attr c _ _ _ _ A1 Hx); lia|].
    destruct (F2_ex count k) as [ms Hm]; [intros x Hx; apply IH; auto; pose proof (size_kid c _ _ _ _ K1 Hx); lia|]. eexists. eapply c_node; eauto.
Qed.
Lemma count_pos x n : count x n -> (1 <= n)%nat.
Proof. intros H. inversion H; subst; lia. Qed.
Lemma sum_pos l ns : Forall2 count l ns -> (length l <= list_sum ns)%nat.
Proof. induction 1 as [|x n l ns Hx H IH]; unfold list_sum in *; cbn [fold_right length]; [lia|]. apply count_pos in Hx. lia. Qed.
Lemma sums l l' ns ms : Forall2 (fun x y => forall n m, count x n -> count y m -> (n <= m)%nat /\ (n = m -> same x y)) l l' -> Forall2 count l ns -> Forall2 count l' ms ->
  (list_sum ns <= list_sum ms)%nat /\ (list_sum ns = list_sum ms -> Forall2 same l l').
Proof.
  intros H. revert ns ms. induction H as [|x y l l' Hxy H IH]; intros ns ms H1 H2; inversion H1 as [|? n ? ns' N1 N2]; inversion H2 as [|? m ? ms' M1 M2]; subst; [split; [lia|constructor]|].
  destruct (Hxy n m N1 M1) as [L1 E1]. destruct (IH ns' ms' N2 M2) as [L2 E2]. unfold list_sum in *. cbn [fold_right]. split; [lia|]. intros E. constructor; [apply E1; lia|apply E2; lia].
Qed.
Lemma list_sum_cons n l : list_sum (n :: l) = (n + list_sum l)%nat.
Proof. reflexivity. Qed.
Lemma within_count x y : within x y -> forall n m, count x n -> count y m -> (n <= m)%nat /\ (n = m -> same x y).
Proof.
  unfold within, same. intros H. induction H using rel_ind2; intros n m HN HM.
  - split; [inversion HN; inversion HM; subst; cbn in *; try discriminate; lia|constructor].
  - split; [|intros _; eapply r_num; eauto]. destruct x, y; cbn in *; try discriminate; inversion HN; inversion HM; subst; lia.
  - split; [inversion HN; inversion HM; subst; cbn in *; try discriminate; lia|constructor].
  - inversion HN as [|? z0 E0| |? ? ns F|]; subst; [discriminate|]. inversion HM as [|? z0 E0| |? ? ms F'|]; subst; [discriminate|].
    destruct (sums _ _ _ _ H0 F F') as [L E]. split; [lia|]. intros K. constructor. apply E. lia.
  - inversion HN as [|? z0 E0| | |? ? b g ns ms B1 B2 B3 B4]; subst; [discriminate|]. inversion HM as [|? z0 E0| | |? ? b' g' ns' ms' C1 C2 C3 C4]; subst; [discriminate|].
    rewrite (attrs_det _ _ _ _ B1 H) in B3. rewrite (kids_det _ _ _ _ B2 H3) in B4. rewrite (attrs_det _ _ _ _ C1 H0) in C3. rewrite (kids_det _ _ _ _ C2 H4) in C4.
    apply Forall2_app_inv_l in C4. destruct C4 as (m1 & m2 & D1 & D2 & ->). destruct (sums _ _ _ _ H2 B3 C3) as [L1 E1]. destruct (sums _ _ _ _ H7 B4 D1) as [L2 E2]. pose proof (sum_pos _ _ D2) as L3. rewrite list_sum_app. split; [lia|]. intros K.
    assert (more = []) as -> by (destruct more; [reflexivity|cbn in L3; lia]). eapply r_node with (a := a) (a' := a') (k := k) (k' := k') (more := []); eauto; [apply E1; lia|apply E2; cbn [length] in *; lia].
Qed.
Lemma within_antisym x y : made x -> made y -> within x y -> within y x -> same x y.
Proof.
  intros MX MY H1 H2. destruct (count_ex _ x (Nat.lt_succ_diag_r _) MX) as [n N]. destruct (count_ex _ y (Nat.lt_succ_diag_r _) MY) as [m M]. destruct (within_count _ _ H1 _ _ N M) as [L1 E1]. destruct (within_count _ _ H2 _ _ M N) as [L2 _]. apply E1. lia.
Qed.

(** Hashes *)
Section H.
  Context {H : Type} (hash_atom : atom -> H) (hash_tuple : list H -> H).
  Lemma mapM_same {A B} (f g : A -> res B) l l' : Forall2 (fun x y => f x = g y) l l' -> mapM f l = mapM g l'.
  Proof. induction 1 as [|x y l l' E _ IH]; cbn; [reflexivity|]. rewrite E, IH. reflexivity. Qed.
  Lemma F2_in {A B} (P Q : A -> B -> Prop) l l' : Forall2 P l l' -> (forall x y, In x l -> In y l' -> P x y -> Q x y) -> Forall2 Q l l'.
  Proof. induction 1 as [|x y l l' E _ IH]; intros K; constructor; [apply K; [left|left|]; auto|]. apply IH. intros a b Ha Hb. apply K; right; assumption. Qed.
  Lemma same_hash x y : same x y -> forall n m, (vsize x < n)%nat -> (vsize y < m)%nat -> hash_to hash_atom hash_tuple n x = hash_to hash_atom hash_tuple m y.
  Proof.
    unfold same. intros K. induction K using rel_ind2; intros [|n] [|m] HN HM; try lia.
    - reflexivity.
    - destruct x, y; cbn in *; try discriminate; congruence.
    - reflexivity.
    - destruct t; [|reflexivity]. cbn [hash_to]. rewrite (mapM_same (hash_to hash_atom hash_tuple n) (hash_to hash_atom hash_tuple m) l l'); [reflexivity|]. eapply F2_in; [exact H1|]. intros a b Ha Hb Hab. apply Hab; [apply (size_seq true) in Ha|apply (size_seq true) in Hb]; lia.
    - cbn [hash_to]. rewrite (proj2 (attributes_has _ _ _) H0), (proj2 (attributes_has _ _ _) H1). rewrite (H6 eq_refl), app_nil_r in H5. cbn [bind]. rewrite (children_kids _ _ _ H4), (children_kids _ _ _ H5). cbn [bind].
      rewrite (mapM_same (hash_to hash_atom hash_tuple n) (hash_to hash_atom hash_tuple m) a a'); [rewrite (mapM_same (hash_to hash_atom hash_tuple n) (hash_to hash_atom hash_tuple m) k k'); [reflexivity|]|].
      + eapply F2_in; [exact H8|]. intros u v Hu Hv Huv. apply Huv; [pose proof (size_kid c _ _ _ _ H4 Hu)|pose proof (size_kid c _ _ _ _ H5 Hv)]; lia.
      + eapply F2_in; [exact H3|]. intros u v Hu Hv Huv. apply Huv; [pose proof (size_attr c _ _ _ _ H0 Hu)|pose proof (size_attr c _ _ _ _ H1 Hv)]; lia.
  Qed.
End H.
