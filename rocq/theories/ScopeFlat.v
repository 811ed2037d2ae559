(** ScopeFlat.v - flat names of chains with loop iterations. *)
From Verif Require Import Base ScopeModel ScopeSpec ScopeFlatSpec ScopeProofs.
From Coq Require Import Lia.
Local Open Scope string_scope.

(** ** decimal printing is injective and has no underscore *)
Fixpoint dv (s : string) (a : Z) : Z :=
  match s with EmptyString => a | String c r => dv r (a * 10 + (Z.of_nat (nat_of_ascii c) - 48))%Z end.

Lemma digit_val d : (0 <= d < 10)%Z -> (Z.of_nat (nat_of_ascii (digit_char d)) - 48 = d)%Z.
Proof.
  intros H. unfold digit_char.
  assert (d = 0 \/ d = 1 \/ d = 2 \/ d = 3 \/ d = 4 \/ d = 5 \/ d = 6 \/ d = 7 \/ d = 8 \/ d = 9)%Z as C by lia.
  repeat (destruct C as [->|C]; [reflexivity|]). subst d; reflexivity.
Qed.

Lemma digit_plain d : (0 <= d < 10)%Z ->
  Ascii.eqb "_" (digit_char d) = false /\ Ascii.eqb "-" (digit_char d) = false.
Proof.
  intros H. unfold digit_char.
  assert (d = 0 \/ d = 1 \/ d = 2 \/ d = 3 \/ d = 4 \/ d = 5 \/ d = 6 \/ d = 7 \/ d = 8 \/ d = 9)%Z as C by lia.
  repeat (destruct C as [->|C]; [split; reflexivity|]). subst d; split; reflexivity.
Qed.

Lemma pos_digits_val f : forall z acc, (0 <= z < 2 ^ Z.of_nat f)%Z -> (0 < f)%nat ->
  dv (pos_digits f z acc) 0 = dv acc z.
Proof.
  induction f as [|f IH]; intros z acc H Hf; [lia|].
  cbn [pos_digits]. pose proof (Z.mod_pos_bound z 10 ltac:(lia)) as Hm.
  pose proof (Z.div_mod z 10 ltac:(lia)) as Hd.
  destruct (z / 10 =? 0)%Z eqn:E.
  - apply Z.eqb_eq in E. cbn [dv]. rewrite digit_val by lia. f_equal. lia.
  - apply Z.eqb_neq in E. rewrite Nat2Z.inj_succ, Z.pow_succ_r in H by lia.
    destruct f as [|f].
    + cbn in H. assert (z / 10 = 0)%Z by (apply Z.div_small; lia). lia.
    + rewrite IH; [|split; [apply Z.div_pos; lia|]|lia].
      * cbn [dv]. rewrite digit_val by lia. f_equal. lia.
      * apply Z.div_lt_upper_bound; lia.
Qed.

Lemma pos_digits_chars c f : (forall d, (0 <= d < 10)%Z -> Ascii.eqb c (digit_char d) = false) ->
  forall z acc, has_char c acc = false -> has_char c (pos_digits f z acc) = false.
Proof.
  intros Hc. induction f as [|f IH]; intros z acc H; [exact H|].
  cbn [pos_digits]. pose proof (Z.mod_pos_bound z 10 ltac:(lia)) as Hm.
  assert (has_char c (String (digit_char (z mod 10)) acc) = false) as H' by (cbn [has_char]; rewrite H, orb_false_r; apply Hc; lia).
  destruct (z / 10 =? 0)%Z; [exact H'|]. now apply IH.
Qed.

Lemma pos_digits_ne f : forall z acc, acc <> "" \/ (0 < f)%nat -> pos_digits f z acc <> "".
Proof.
  induction f as [|f IH]; intros z acc H; [destruct H; [assumption|lia]|].
  cbn [pos_digits]. destruct (z / 10 =? 0)%Z; [discriminate|]. apply IH. left; discriminate.
Qed.

Lemma nat_str_inj x y : (0 <= x)%Z -> (0 <= y)%Z -> nat_str x = nat_str y -> x = y.
Proof.
  assert (forall z, (0 <= z)%Z -> dv (nat_str z) 0 = z) as H.
  { intros z Hz. unfold nat_str. rewrite pos_digits_val; [reflexivity| |lia].
    split; [assumption|]. rewrite Nat2Z.inj_succ, Z2Nat.id by apply Z.log2_nonneg.
    destruct (Z.eq_dec z 0) as [->|]; [now vm_compute|]. apply Z.log2_spec; lia. }
  intros Hx Hy E. rewrite <- (H x Hx), <- (H y Hy). now rewrite E.
Qed.

Lemma nat_str_plain z : has_char "_" (nat_str z) = false /\ has_char "-" (nat_str z) = false /\ nat_str z <> "".
Proof.
  repeat split; [apply pos_digits_chars; [intros; now apply digit_plain|reflexivity] .. |apply pos_digits_ne; right; lia].
Qed.

Lemma z_str_plain z : has_char "_" (z_str z) = false /\ z_str z <> "".
Proof.
  unfold z_str. destruct (z <? 0)%Z.
  - split; [|discriminate]. change (has_char "_" (nat_str (- z)) = false). apply nat_str_plain.
  - split; apply nat_str_plain.
Qed.

Lemma z_str_inj x y : z_str x = z_str y -> x = y.
Proof.
  unfold z_str. change ("-" ++ nat_str (- x)) with (String "-" (nat_str (- x))).
  change ("-" ++ nat_str (- y)) with (String "-" (nat_str (- y))).
  destruct (x <? 0)%Z eqn:Ex, (y <? 0)%Z eqn:Ey; intros E;
    rewrite ?Z.ltb_lt, ?Z.ltb_ge in *.
  - assert (nat_str (- x) = nat_str (- y)) as E' by congruence. apply nat_str_inj in E'; lia.
  - destruct (nat_str_plain y) as (_ & H & _). rewrite <- E in H. discriminate H.
  - destruct (nat_str_plain x) as (_ & H & _). rewrite E in H. discriminate H.
  - now apply nat_str_inj.
Qed.

(** ** the text of a chain *)
Definition toks (p : string * option Z) : list string :=
  match snd p with None => [fst p] | Some i => [fst p; z_str i; ""] end.

Definition piece (p : string * option Z) : list string :=
  (fst p :: (match snd p with None => [] | Some i => [("_" ++ z_str i ++ "_")%string] end) ++ ["_"])%list.

Lemma nonempty_name s : s <> "" -> nonempty s = true.
Proof. destruct s; [contradiction|reflexivity]. Qed.

Lemma shows_items c v : shows c v -> tocode_items c None = flat_map piece v.
Proof.
  induction 1 as [|l c v Hu Hf H IH|l c v (Hu & Hn & Hc) H IH|f i l c v Hf Hi (Hu & Hn & Hc) H IH].
  - reflexivity.
  - cbn [tocode_items]. unfold label_tocode. rewrite Hu. cbn [nonempty app].
    rewrite <- IH. destruct (stype l) eqn:E; try reflexivity. now rewrite Hf.
  - cbn [tocode_items]. unfold label_tocode. rewrite Hu, nonempty_name by assumption.
    cbn [app flat_map piece fst snd]. rewrite <- IH. do 2 f_equal.
    destruct (stype l) eqn:E; try reflexivity. discriminate Hu.
  - cbn [tocode_items]. unfold label_tocode. rewrite Hf, Hi, Hu. cbn [unprintable nonempty app].
    rewrite nonempty_name by assumption. cbn [app flat_map piece fst snd]. rewrite <- IH.
    do 3 f_equal. destruct (stype l) eqn:E; try reflexivity. discriminate Hu.
Qed.

Lemma concat_app l1 l2 : String.concat "" (l1 ++ l2)%list = String.concat "" l1 ++ String.concat "" l2.
Proof.
  induction l1 as [|x l1 IH]; [reflexivity|]. cbn [app]. rewrite !concat_cons, IH.
  now rewrite append_assoc.
Qed.

Fixpoint unders' (l : list string) : string :=   (* every token followed by an underscore *)
  match l with [] => "" | x :: r => x ++ "_" ++ unders' r end.

Lemma unders'_app a b : unders' (a ++ b)%list = unders' a ++ unders' b.
Proof. induction a as [|x a IH]; [reflexivity|]. cbn [app unders']. now rewrite IH, !append_assoc. Qed.

Lemma piece_text p : String.concat "" (piece p) = unders' (toks p).
Proof. destruct p as [n [i|]]; cbn; now rewrite ?append_nil_r, ?append_assoc. Qed.

Lemma items_text v : String.concat "" (flat_map piece v) = unders' (flat_map toks v).
Proof.
  induction v as [|p v IH]; [reflexivity|]. cbn [flat_map].
  now rewrite concat_app, unders'_app, IH, piece_text.
Qed.

Lemma items_last v : v = [] \/ exists l, flat_map piece v = (l ++ ["_"])%list.
Proof.
  induction v as [|p v IH]; [now left|right]. cbn [flat_map].
  destruct IH as [-> | (l & E)].
  - cbn [flat_map]. rewrite app_nil_r. unfold piece. eexists (_ :: _). cbn [app]. reflexivity.
  - exists (piece p ++ l)%list. now rewrite E, app_assoc.
Qed.

Lemma shows_text c v : shows c v ->
  match v with [] => toFlatname c = "" | _ => toFlatname c ++ "_" = unders' (flat_map toks v) end.
Proof.
  intros H. unfold toFlatname, chain_tocode. rewrite (shows_items _ _ H).
  destruct (items_last v) as [-> | (l & E)]; [reflexivity|].
  destruct v as [|p v]; [destruct l; discriminate E|].
  rewrite <- items_text, E, removelast_last, concat_app. reflexivity.
Qed.

(** ** tokens are recovered from the text *)
Lemma split_under a b x y : has_char "_" a = false -> has_char "_" b = false ->
  a ++ String "_" x = b ++ String "_" y -> a = b /\ x = y.
Proof.
  revert b x y; induction a as [|c a IH]; intros [|d b] x y Ha Hb E; simpl in *.
  - injection E; auto.
  - injection E as <- E. discriminate Hb.
  - injection E as -> E. discriminate Ha.
  - injection E as -> E. apply orb_false_iff in Ha as [_ Ha], Hb as [_ Hb].
    destruct (IH b x y Ha Hb E) as [-> ->]; auto.
Qed.

Lemma unders'_inj l1 : forall l2, Forall (fun s => has_char "_" s = false) l1 ->
  Forall (fun s => has_char "_" s = false) l2 -> unders' l1 = unders' l2 -> l1 = l2.
Proof.
  induction l1 as [|a l1 IH]; intros [|b l2] H1 H2 E; [reflexivity| | |].
  - cbn in E. destruct b; discriminate E.
  - cbn in E. destruct a; discriminate E.
  - inversion H1; inversion H2; subst. cbn [unders'] in E.
    apply split_under in E as [-> E]; auto. f_equal. now apply IH.
Qed.

Definition okc (p : string * option Z) : Prop := fst p <> "" /\ has_char "_" (fst p) = false.

Lemma shows_ok c v : shows c v -> Forall okc v.
Proof. induction 1 as [| | l c v (Hu & Hn & Hc) |f i l c v Hf Hi (Hu & Hn & Hc)]; auto; constructor; auto; now split. Qed.

Lemma toks_chars v : Forall okc v -> Forall (fun s => has_char "_" s = false) (flat_map toks v).
Proof.
  induction 1 as [|[n [i|]] v (Hn & Hc) H IH]; cbn; auto.
  constructor; [exact Hc|constructor; [apply z_str_plain|constructor; [reflexivity|exact IH]]].
Qed.

Lemma toks_head v a r : Forall okc v -> flat_map toks v = a :: r -> a <> "".
Proof. intros [|[n [i|]] v' (Hn & Hc) H]; cbn; intros E; try discriminate; injection E as <- _; exact Hn. Qed.

(** a plain component is never followed by something that looks like an index *)
Lemma toks_second v a b r : Forall okc v -> flat_map toks v = a :: b :: r -> b <> "".
Proof.
  intros [|[n [i|]] v' (Hn & Hc) H]; cbn; intros E; try discriminate.
  - injection E as <- <- _. apply z_str_plain.
  - injection E as <- E. eapply toks_head; eauto.
Qed.

Lemma toks_inj v1 : forall v2, Forall okc v1 -> Forall okc v2 ->
  flat_map toks v1 = flat_map toks v2 -> v1 = v2.
Proof.
  induction v1 as [|[n1 [i1|]] v1 IH]; intros [|[n2 [i2|]] v2] H1 H2 E; cbn in E; try discriminate;
    inversion H1; inversion H2; subst; [reflexivity| | | | ].
  - injection E as -> Ez E. apply z_str_inj in Ez as ->. f_equal. auto.
  - injection E as -> E. symmetry in E. now apply toks_second in E.
  - injection E as -> E. now apply toks_second in E.
  - injection E as -> E. f_equal. auto.
Qed.

Lemma shows_flat_inj c1 c2 v1 v2 : shows c1 v1 -> shows c2 v2 ->
  toFlatname c1 = toFlatname c2 -> v1 = v2.
Proof.
  intros H1 H2 E. pose proof (shows_text _ _ H1) as T1. pose proof (shows_text _ _ H2) as T2.
  pose proof (shows_ok _ _ H1) as O1. pose proof (shows_ok _ _ H2) as O2.
  assert (forall p v, Forall okc (p :: v) -> "" ++ "_" = unders' (flat_map toks (p :: v)) -> False) as Hne.
  { intros p v O T. inversion O as [|? ? (Hn & Hc)]; subst. destruct p as [[|a n] [i|]]; cbn in *; try contradiction;
      injection T as <- T; discriminate Hc. }
  destruct v1 as [|p1 v1], v2 as [|p2 v2]; [reflexivity| | |].
  - rewrite <- E, T1 in T2. now apply Hne in T2.
  - rewrite E, T2 in T1. now apply Hne in T1.
  - rewrite E, T2 in T1. apply unders'_inj in T1; try now apply toks_chars.
    apply toks_inj in T1; auto.
Qed.

(** chains without loop iterations fall under [shows]. *)
Lemma plain_shows c : plain c -> shows c (map (fun l => (sname l, None)) c).
Proof. induction 1 as [|l c H Hc IH]; cbn; [constructor|]. now constructor. Qed.
