From Verif Require Import Base ScopeModel ScopeSpec.
Local Open Scope string_scope.

Lemma scopetype_eqb_eq a b : scopetype_eqb a b = true <-> a = b.
Proof. split; [destruct a, b; simpl; congruence | intros ->; destruct b; reflexivity]. Qed.

Lemma loop_eqb_eq a b : loop_eqb a b = true <-> a = b.
Proof.
  destruct a as [x|], b as [y|]; cbn; try (split; congruence).
  rewrite Z.eqb_eq; split; congruence.
Qed.

Lemma label_eq_iff a b :
  label_eq a b = true <->
  sname a = sname b /\ sloop a = sloop b /\
  (stype a = STany \/ stype b = STany \/ stype a = stype b).
Proof.
  unfold label_eq.
  destruct (scopetype_eqb (stype a) STany || scopetype_eqb (stype b) STany) eqn:E.
  - apply orb_true_iff in E. rewrite !scopetype_eqb_eq in E.
    rewrite andb_true_iff, String.eqb_eq, loop_eqb_eq. tauto.
  - apply orb_false_iff in E as [E1 E2].
    rewrite !andb_true_iff, String.eqb_eq, loop_eqb_eq, scopetype_eqb_eq.
    split; [tauto|]. intros (-> & -> & [H|[H|H]]); repeat split; auto.
    + rewrite H in E1; discriminate.
    + rewrite H in E2; discriminate.
Qed.

Lemma chain_eq_agree a b : chain_eq a b = true <-> agree a b.
Proof.
  unfold chain_eq, agree; revert b; induction a as [|x a IH]; intros [|y b]; simpl; split; intros H;
    try discriminate; try (now inv H); try constructor; auto.
  - apply andb_true_iff in H as [H _]; now apply label_eq_iff.
  - apply andb_true_iff in H as [_ H]; now apply IH.
  - inv H. apply andb_true_iff; split; [now apply label_eq_iff | now apply IH].
Qed.

Lemma chain_eq_refl a : chain_eq a a = true.
Proof. apply chain_eq_agree. induction a; constructor; auto. Qed.

Lemma chain_eq_sym a b : chain_eq a b = chain_eq b a.
Proof.
  apply eq_true_iff_eq. rewrite !chain_eq_agree.
  assert (forall x y, agree x y -> agree y x) as H.
  { unfold agree; induction 1 as [|x y xs ys Hx H IH]; constructor; auto.
    destruct Hx as (E1 & E2 & E3); repeat split; auto; intuition. }
  split; apply H.
Qed.

Lemma agree_path a b : agree a b -> path a = path b.
Proof. induction 1 as [|x y xs ys (H1 & H2 & _) H IH]; simpl; congruence. Qed.

Lemma chain_eq_hash a b : chain_eq a b = true -> chain_hash a = chain_hash b.
Proof. intros H; apply chain_eq_agree, agree_path in H. exact H. Qed.

Lemma chain_eq_no_any a b : no_any a -> no_any b -> (chain_eq a b = true <-> a = b).
Proof.
  intros Ha Hb; rewrite chain_eq_agree; split; [|intros <-; apply chain_eq_agree, chain_eq_refl].
  intros H; revert Ha Hb; induction H as [|x y xs ys (H1 & H2 & H3) H IH]; intros Ha Hb; [reflexivity|].
  inv Ha; inv Hb. f_equal; auto. destruct x, y; simpl in *; subst. intuition congruence.
Qed.

Lemma chain_eq_trans_no_any a b c :
  no_any b -> chain_eq a b = true -> chain_eq b c = true -> path a = path c /\
  (no_any a -> no_any c -> chain_eq a c = true).
Proof.
  intros Hb H1 H2. split.
  - apply chain_eq_agree in H1, H2. now rewrite (agree_path _ _ H1), (agree_path _ _ H2).
  - intros Ha Hc. apply chain_eq_no_any in H1; auto. now subst a.
Qed.

Lemma termname_lookup names c :
  chain_eq (toTermname_list names) c = true <-> path c = map (fun n => (n, None)) names.
Proof.
  rewrite chain_eq_agree. unfold agree, toTermname_list, path. revert c.
  induction names as [|n ns IH]; intros [|l c]; simpl; split; intros H;
    try (now inv H); try discriminate; try constructor; auto.
  - inversion H as [|? ? ? ? (E1 & E2 & _) Hr]; subst; simpl in *.
    apply IH in Hr. rewrite <- E1, <- E2, Hr. reflexivity.
  - injection H as E1 E2 E3; simpl; repeat split; auto.
  - injection H as E1 E2 E3. now apply IH.
Qed.

(** ** dotted strings *)
Lemma append_assoc (a b c : string) : (a ++ b) ++ c = a ++ (b ++ c).
Proof. induction a as [|x a IH]; simpl; [reflexivity|]; now rewrite IH. Qed.
Lemma append_nil_r (a : string) : a ++ "" = a.
Proof. induction a as [|x a IH]; simpl; [reflexivity|]; now rewrite IH. Qed.

Lemma drop_last_snoc s c : drop_last (s ++ String c "") = s.
Proof.
  induction s as [|d s IH]; [reflexivity|].
  change (String d s ++ String c "") with (String d (s ++ String c "")).
  simpl. rewrite IH. destruct s; reflexivity.
Qed.

(** Joining with a dot after each component. *)
Fixpoint dots (l : list string) : string :=
  match l with [] => "" | x :: r => x ++ "." ++ dots r end.

Lemma repr_fold names acc :
  fold_left (fun a l => a ++ label_repr l ++ ".") (toTermname_list names) acc = acc ++ dots names.
Proof.
  revert acc; induction names as [|n ns IH]; intros acc; simpl.
  - now rewrite append_nil_r.
  - rewrite IH. unfold label_repr; simpl. rewrite append_nil_r, !append_assoc. reflexivity.
Qed.

Lemma dots_split s cur : dots (split_dot s cur) = cur ++ s ++ ".".
Proof.
  revert cur; induction s as [|c s IH]; intros cur; simpl.
  - reflexivity.
  - destruct (Ascii.eqb_spec c "."%char) as [->|Hc]; simpl; rewrite IH; simpl.
    + reflexivity.
    + rewrite append_assoc. reflexivity.
Qed.

Lemma repr_termname s : chain_repr (toTermname_str s) = s.
Proof.
  unfold chain_repr, toTermname_str. rewrite repr_fold. simpl.
  rewrite dots_split. simpl. apply drop_last_snoc.
Qed.

Lemma termname_str_inj s1 s2 : chain_eq (toTermname_str s1) (toTermname_str s2) = true -> s1 = s2.
Proof.
  intros H. apply termname_lookup in H. unfold path, toTermname_str, toTermname_list in H.
  rewrite map_map in H.
  assert (split_dot s1 "" = split_dot s2 "") as E.
  { generalize dependent (split_dot s2 ""). induction (split_dot s1 "") as [|x xs IH]; intros [|y ys]; simpl;
      intros H; try discriminate; auto. injection H as E1 E2. f_equal; auto. }
  assert (dots (split_dot s1 "") = dots (split_dot s2 "")) as E2 by now rewrite E.
  rewrite !dots_split in E2; simpl in E2.
  rewrite <- (drop_last_snoc s1 "."%char), <- (drop_last_snoc s2 "."%char). now rewrite E2.
Qed.

(** ** flat names *)
Lemma concat_cons x l : String.concat "" (x :: l) = x ++ String.concat "" l.
Proof. destruct l; simpl; [now rewrite append_nil_r | reflexivity]. Qed.

Fixpoint unders (l : list string) : string :=
  match l with [] => "" | [x] => x | x :: r => x ++ "_" ++ unders r end.

Lemma plain_items c : plain c ->
  tocode_items c None = flat_map (fun l => [sname l; "_"]) c.
Proof.
  induction 1 as [|l c (Hu & Hn & _) H IH]; [reflexivity|].
  simpl. unfold label_tocode. rewrite Hu.
  destruct (nonempty (sname l)) eqn:E; [|destruct (sname l); [contradiction|discriminate]].
  simpl. do 2 f_equal.
  destruct (stype l); try discriminate; exact IH.
Qed.

Lemma plain_tocode c : plain c -> chain_tocode c = unders (map sname c).
Proof.
  intros H. unfold chain_tocode. rewrite plain_items by assumption.
  induction H as [|l c _ H IH]; [reflexivity|].
  destruct c as [|l2 c].
  - simpl. reflexivity.
  - set (rest := l2 :: c) in *.
    change (flat_map (fun l0 => [sname l0; "_"]) (l :: rest))
      with ([sname l; "_"] ++ flat_map (fun l0 => [sname l0; "_"]) rest)%list.
    rewrite removelast_app by (subst rest; discriminate).
    cbn [app]. rewrite (concat_cons (sname l)), (concat_cons "_"), IH. subst rest. reflexivity.
Qed.

Lemma unders_inj l1 l2 :
  Forall (fun s => s <> "" /\ has_char "_"%char s = false) l1 ->
  Forall (fun s => s <> "" /\ has_char "_"%char s = false) l2 ->
  unders l1 = unders l2 -> l1 = l2.
Proof.
  assert (forall x y, has_char "_" (x ++ String "_" y) = true) as Hmem.
  { induction x as [|a x IH]; intros y; simpl; [reflexivity|]. rewrite IH; now rewrite orb_true_r. }
  assert (forall a b x y, has_char "_" a = false -> has_char "_" b = false ->
          a ++ String "_" x = b ++ String "_" y -> a = b /\ x = y) as Hsplit.
  { induction a as [|c a IH]; intros [|d b] x y Ha Hb E; simpl in *.
    - injection E; auto.
    - injection E as <- E. discriminate Hb.
    - injection E as -> E. discriminate Ha.
    - injection E as -> E. apply orb_false_iff in Ha as [_ Ha], Hb as [_ Hb].
      destruct (IH b x y Ha Hb E) as [-> ->]; auto. }
  intros H1; revert l2; induction H1 as [|a l1 (Ha & Hca) H1 IH]; intros l2 H2 E.
  - inversion H2 as [|b r (Hb & _) _]; subst; [reflexivity|].
    destruct r; simpl in E; [congruence|]. destruct b; simpl in E; discriminate.
  - inversion H2 as [|b r (Hb & Hcb) Hr]; subst.
    + destruct l1; simpl in E; [congruence|]. destruct a; simpl in E; discriminate.
    + destruct l1 as [|a2 l1], r as [|b2 r].
      * simpl in E; now subst.
      * exfalso. simpl in E. rewrite E in Hca.
        change ("_" ++ _) with (String "_" (match r with [] => b2 | _ :: _ => b2 ++ "_" ++ unders r end)) in Hca.
        rewrite Hmem in Hca; discriminate.
      * exfalso. simpl in E. rewrite <- E in Hcb.
        change ("_" ++ _) with (String "_" (match l1 with [] => a2 | _ :: _ => a2 ++ "_" ++ unders l1 end)) in Hcb.
        rewrite Hmem in Hcb; discriminate.
      * change (unders (a :: a2 :: l1)) with (a ++ String "_" (unders (a2 :: l1))) in E.
        change (unders (b :: b2 :: r)) with (b ++ String "_" (unders (b2 :: r))) in E.
        destruct (Hsplit _ _ _ _ Hca Hcb E) as [-> E']. f_equal. now apply IH.
Qed.

Lemma flat_inj_plain c1 c2 : plain c1 -> plain c2 ->
  toFlatname c1 = toFlatname c2 -> map sname c1 = map sname c2.
Proof.
  intros H1 H2 E. unfold toFlatname in E. rewrite !plain_tocode in E by assumption.
  apply unders_inj; [ .. | exact E]; apply Forall_map.
  - eapply Forall_impl; [|exact H1]. simpl; tauto.
  - eapply Forall_impl; [|exact H2]. simpl; tauto.
Qed.
