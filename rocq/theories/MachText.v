(** MachText.v - the text of a condition contains "reset" or "rst" exactly when one of the names or
    texts in it does. *)
From Verif Require Import Base ScopeModel DfModel DfSpec LitModel MachModel MachSpec.
Local Open Scope string_scope.

Lemma sapp_assoc a b c : ((a ++ b) ++ c = a ++ (b ++ c))%string.
Proof. induction a; simpl; congruence. Qed.
Lemma sapp_nil a : (a ++ "" = a)%string.
Proof. induction a; simpl; congruence. Qed.
Lemma lower_app a b : lower (a ++ b) = (lower a ++ lower b)%string.
Proof. induction a; simpl; congruence. Qed.

Definition chars_in (p : string) (c : ascii) : bool := existsb (Ascii.eqb c) (list_ascii_of_string p).
Lemma prefix_app_sep p : forall x c y, chars_in p c = false ->
  prefix p (x ++ String c y) = prefix p x.
Proof.
  induction p as [|a p IH]; intros x c y H; [now destruct x|].
  unfold chars_in in H. cbn in H. apply orb_false_iff in H as [H1 H2].
  destruct x as [|b x]; cbn.
  - destruct (ascii_dec a c) as [->|]; [|reflexivity]. now rewrite Ascii.eqb_refl in H1.
  - destruct (ascii_dec a b); [apply IH; exact H2|reflexivity].
Qed.
Lemma search_sep p : p <> "" -> forall x c y, chars_in p c = false ->
  search p (x ++ String c y) = search p x || search p y.
Proof.
  intros Hp x c y H. induction x as [|b x IH].
  - change ("" ++ String c y) with (String c y). cbn [search].
    replace (prefix p (String c y)) with false; [|symmetry; change (String c y) with ("" ++ String c y)%string; rewrite prefix_app_sep by exact H; destruct p; [congruence|reflexivity]].
    replace (prefix p "") with false by (destruct p; [congruence|reflexivity]). reflexivity.
  - change (String b x ++ String c y) with (String b (x ++ String c y)). cbn [search]. rewrite IH.
    change (String b (x ++ String c y)) with (String b x ++ String c y). rewrite prefix_app_sep by exact H.
    now rewrite orb_assoc.
Qed.

(** Characters that cannot be inside a match. *)
Definition sep (c : ascii) : bool := negb (chars_in "reset" (lower_char c)).
Lemma rs_sep x c y : sep c = true -> isReset (x ++ String c y) = isReset x || isReset y.
Proof.
  unfold sep. intros H. apply negb_true_iff in H.
  assert (chars_in "rst" (lower_char c) = false) as H2.
  { unfold chars_in in *. cbn in *.
    destruct (lower_char c =? "r")%char, (lower_char c =? "s")%char, (lower_char c =? "t")%char, (lower_char c =? "e")%char; cbn in *; congruence. }
  unfold isReset. cbn [existsb]. rewrite lower_app. cbn [lower].
  rewrite !search_sep by (try discriminate; assumption).
  destruct (search "reset" (lower x)), (search "reset" (lower y)), (search "rst" (lower x)), (search "rst" (lower y)); reflexivity.
Qed.
Lemma rs_sep_app x c y : sep c = true -> isReset (x ++ String c "" ++ y) = isReset x || isReset y.
Proof. exact (rs_sep x c y). Qed.

(** A text without the letter r. *)
Fixpoint no_r (s : string) : bool :=
  match s with EmptyString => true | String c r => negb (Ascii.eqb (lower_char c) "r") && no_r r end.
Lemma no_r_search p s : no_r s = true -> search (String "r" p) (lower s) = false.
Proof.
  induction s as [|c s IH]; intros H; [reflexivity|]. cbn [no_r] in H. apply andb_true_iff in H as [H1 H2].
  cbn [lower search]. rewrite (IH H2), orb_false_r. cbn [prefix].
  destruct (ascii_dec "r" (lower_char c)) as [E|]; [|reflexivity]. rewrite <- E in H1. discriminate.
Qed.
Lemma no_r_rs s : no_r s = true -> isReset s = false.
Proof. intros H. unfold isReset. cbn [existsb]. now rewrite !no_r_search by exact H. Qed.
Lemma no_r_app a b : no_r (a ++ b) = no_r a && no_r b.
Proof. induction a; simpl; [reflexivity|]. rewrite IHa. now rewrite andb_assoc. Qed.

Local Open Scope Z_scope.
Lemma mod10 z : exists d, z mod 10 = d /\ In d [0;1;2;3;4;5;6;7;8;9].
Proof.
  exists (z mod 10). split; [reflexivity|]. pose proof (Z.mod_pos_bound z 10 ltac:(lia)).
  assert (z mod 10 = 0 \/ z mod 10 = 1 \/ z mod 10 = 2 \/ z mod 10 = 3 \/ z mod 10 = 4 \/ z mod 10 = 5 \/
          z mod 10 = 6 \/ z mod 10 = 7 \/ z mod 10 = 8 \/ z mod 10 = 9) as K by lia.
  cbn [In]. repeat (destruct K as [K|K]; [rewrite K; tauto|]). rewrite K. tauto.
Qed.
Lemma no_r_digit1 z : negb (Ascii.eqb (lower_char (ScopeModel.digit_char (z mod 10))) "r") = true.
Proof. destruct (mod10 z) as (d & -> & H). cbn [In] in H. repeat (destruct H as [<-|H]; [reflexivity|]). destruct H. Qed.
Lemma no_r_digit2 z : negb (Ascii.eqb (lower_char (LitModel.digit_char (z mod 10))) "r") = true.
Proof. destruct (mod10 z) as (d & -> & H). cbn [In] in H. repeat (destruct H as [<-|H]; [reflexivity|]). destruct H. Qed.
Lemma no_r_pos fuel : forall z acc, no_r acc = true -> no_r (pos_digits fuel z acc) = true.
Proof.
  induction fuel as [|f IH]; intros z acc H; [exact H|]. cbn [pos_digits].
  assert (no_r (String (ScopeModel.digit_char (z mod 10)) acc) = true) as K.
  { cbn [no_r]. now rewrite no_r_digit1. }
  destruct (z / 10 =? 0); [exact K|apply IH; exact K].
Qed.
Lemma no_r_z z : no_r (z_str z) = true.
Proof. unfold z_str, nat_str. destruct (z <? 0); [cbn [append no_r]|]; now rewrite no_r_pos. Qed.
Lemma no_r_dec fuel : forall z acc, no_r acc = true -> no_r (dec_digits fuel z acc) = true.
Proof.
  induction fuel as [|f IH]; intros z acc H; [exact H|]. cbn [dec_digits].
  assert (no_r (String (LitModel.digit_char (z mod 10)) acc) = true) as K.
  { cbn [no_r]. now rewrite no_r_digit2. }
  destruct (z <? 10); [|apply IH; exact K]. exact K.
Qed.

Lemma no_r_py z : no_r (py_str z) = true.
Proof. unfold py_str, py_str_nat. destruct (z <? 0); [cbn [no_r]; rewrite no_r_dec by reflexivity; reflexivity|]. now apply no_r_dec. Qed.

Local Open Scope string_scope.
Lemma rs_label l : isReset (label_repr l) = isReset (sname l).
Proof.
  unfold label_repr. destruct (sloop l) as [i|]; [|now rewrite sapp_nil].
  change ("[" ++ z_str i ++ "]") with (String "[" (z_str i ++ String "]" "")). rewrite rs_sep by reflexivity.
  rewrite rs_sep by reflexivity. rewrite (no_r_rs _ (no_r_z i)). now rewrite orb_false_r.
Qed.
Lemma rs_each c xs : sep c = true -> isReset (each (String c "") xs) = existsb isReset xs.
Proof.
  intros H. induction xs as [|x xs IH]; [reflexivity|]. cbn [each existsb]. rewrite rs_sep_app by exact H. now rewrite IH.
Qed.
Lemma drop_last_snoc s c : drop_last (s ++ String c "") = s.
Proof.
  induction s as [|a s IH]; [reflexivity|]. cbn [append drop_last]. rewrite IH.
  destruct (s ++ String c "") eqn:E; [destruct s; discriminate|reflexivity].
Qed.
Lemma each_end c xs : each (String c "") xs = "" \/ exists s, each (String c "") xs = s ++ String c "".
Proof.
  induction xs as [|x xs [IH|(s & IH)]]; [now left| |]; right; cbn [each].
  - rewrite IH. exists x. reflexivity.
  - rewrite IH. exists (x ++ String c "" ++ s). now rewrite !sapp_assoc.
Qed.
(** A text that ends in a list of texts, the last separator being replaced by a parenthesis. *)
Lemma rs_list a c0 c xs : sep c0 = true -> sep c = true ->
  isReset (drop_last (a ++ String c0 (each (String c "") xs)) ++ ")") = isReset a || existsb isReset xs.
Proof.
  intros H0 H. destruct (each_end c xs) as [E|(s & E)].
  - rewrite E. rewrite drop_last_snoc. change (a ++ ")") with (a ++ String ")" ""). rewrite rs_sep by reflexivity.
    rewrite <- (rs_each c xs H), E. reflexivity.
  - replace (a ++ String c0 (each (String c "") xs)) with ((a ++ String c0 s) ++ String c "") by (rewrite E, sapp_assoc; reflexivity).
    rewrite drop_last_snoc. change (?x ++ ")") with (x ++ String ")" ""). rewrite rs_sep by reflexivity.
    rewrite rs_sep by exact H0. rewrite <- (rs_each c xs H), E. rewrite rs_sep by exact H. now rewrite !orb_false_r.
Qed.
Lemma mapM_rs l xs : Forall (fun t => forall s, tostr t = Ok s -> isReset s = existsb isReset (texts t)) l ->
  mapM tostr l = Ok xs -> existsb isReset xs = existsb isReset (flat_map texts l).
Proof.
  intros H. revert xs. induction H as [|t l Ht Hl IH]; intros xs E; cbn [mapM] in E.
  - injection E as <-. reflexivity.
  - destruct (tostr t) as [s|] eqn:E1; [|discriminate]. destruct (mapM tostr l) as [ys|]; [|discriminate].
    injection E as <-. cbn [existsb flat_map]. rewrite existsb_app, (IH _ eq_refl), (Ht _ eq_refl). reflexivity.
Qed.
Lemma Ok_inj {A} (x y : A) : Ok x = Ok y -> x = y.
Proof. congruence. Qed.
Lemma tostr_rs t : forall s, tostr t = Ok s -> isReset s = existsb isReset (texts t).
Proof.
  induction t as [ |n|v|v|v|l o IH|v m l IHv IHm IHl|v p IHv IHp|l IH|c a b IHc IHa IHb|v w f g|w|w|x IH|f l IH] using df_ind';
    intros s E; cbn [tostr] in E.
  - discriminate.
  - apply Ok_inj in E; subst s. change ("(Terminal " ++ ?x) with ("(Terminal" ++ String " " x).
    rewrite rs_list by reflexivity. cbn [texts]. change (isReset "(Terminal") with false. cbn [orb].
    induction n as [|x n IH]; [reflexivity|]. cbn [map existsb]. now rewrite rs_label, IH.
  - apply Ok_inj in E; subst s. change ("(IntConst " ++ ?x) with ("(IntConst" ++ String " " x). rewrite rs_sep by reflexivity.
    rewrite rs_sep by reflexivity. cbn [texts existsb]. reflexivity.
  - apply Ok_inj in E; subst s. change ("(FloatConst " ++ ?x) with ("(FloatConst" ++ String " " x). rewrite rs_sep by reflexivity.
    rewrite rs_sep by reflexivity. cbn [texts existsb]. reflexivity.
  - apply Ok_inj in E; subst s. change ("(StringConst " ++ ?x) with ("(StringConst" ++ String " " x). rewrite rs_sep by reflexivity.
    rewrite rs_sep by reflexivity. cbn [texts existsb]. reflexivity.
  - destruct (mapM tostr l) as [xs|] eqn:EM; [|discriminate]. apply Ok_inj in E; subst s.
    replace ("(Operator " ++ op_name o ++ " Next:" ++ each "," xs) with (("(Operator " ++ op_name o ++ " Next") ++ String ":" (each "," xs))
      by (rewrite !sapp_assoc; reflexivity).
    rewrite rs_list by reflexivity. rewrite (mapM_rs l xs IH EM). cbn [texts].
    replace (isReset ("(Operator " ++ op_name o ++ " Next")) with false; [reflexivity|]. destruct o; vm_compute; reflexivity.
  - destruct (tostr v) as [x1|]; [|discriminate]. destruct (tostr m) as [x2|]; [|discriminate]. destruct (tostr l) as [x3|]; [|discriminate].
    cbn [bind] in E. apply Ok_inj in E; subst s.
    change ("(Partselect Var:" ++ ?x) with ("(Partselect Var" ++ String ":" x). rewrite rs_sep by reflexivity.
    change (x1 ++ " MSB:" ++ ?y) with (x1 ++ String " " ("MSB" ++ String ":" y)). rewrite !rs_sep by reflexivity.
    change (x2 ++ " LSB:" ++ ?y) with (x2 ++ String " " ("LSB" ++ String ":" y)). rewrite !rs_sep by reflexivity.
    cbn [texts]. rewrite !existsb_app, (IHv _ eq_refl), (IHm _ eq_refl), (IHl _ eq_refl).
    change (isReset "(Partselect Var") with false. change (isReset "MSB") with false. change (isReset "LSB") with false. change (isReset "") with false.
    rewrite orb_false_r. reflexivity.
  - destruct (tostr v) as [x1|]; [|discriminate]. destruct (tostr p) as [x2|]; [|discriminate].
    cbn [bind] in E. apply Ok_inj in E; subst s.
    change ("(Pointer Var:" ++ ?x) with ("(Pointer Var" ++ String ":" x). rewrite rs_sep by reflexivity.
    change (x1 ++ " PTR:" ++ ?y) with (x1 ++ String " " ("PTR" ++ String ":" y)). rewrite !rs_sep by reflexivity.
    cbn [texts]. rewrite !existsb_app, (IHv _ eq_refl), (IHp _ eq_refl).
    change (isReset "(Pointer Var") with false. change (isReset "PTR") with false. change (isReset "") with false.
    rewrite orb_false_r. reflexivity.
  - destruct (mapM tostr l) as [xs|] eqn:EM; [|discriminate]. apply Ok_inj in E; subst s.
    change ("(Concat Next:" ++ ?x) with ("(Concat Next" ++ String ":" x).
    rewrite rs_list by reflexivity. rewrite (mapM_rs l xs IH EM). reflexivity.
  - assert (forall (key : string) u (IHu : forall s, tostr u = Ok s -> isReset s = existsb isReset (texts u)) x,
             (key = " Cond:" \/ key = " True:" \/ key = " False:") ->
             (if is_none u then Ok "" else do s <- tostr u; Ok (key ++ s)) = Ok x ->
             forall c0 rest, sep c0 = true -> (isReset (x ++ String c0 rest) = existsb isReset (texts u) || isReset rest) /\
               (x = "" \/ exists y, x = String " " y)) as K.
    { intros key u IHu x Hk Ex c0 rest Hc. destruct (is_none u) eqn:En.
      - destruct u; try discriminate. injection Ex as <-. split; [|now left]. exact (rs_sep "" c0 rest Hc).
      - destruct (tostr u) as [su|]; [|discriminate]. injection Ex as <-. rewrite rs_sep by exact Hc.
        destruct Hk as [-> | [-> | ->]]; (split; [|right; eexists; reflexivity]).
        + change (" Cond:" ++ su) with (" Cond" ++ String ":" su). rewrite rs_sep by reflexivity. now rewrite (IHu _ eq_refl).
        + change (" True:" ++ su) with (" True" ++ String ":" su). rewrite rs_sep by reflexivity. now rewrite (IHu _ eq_refl).
        + change (" False:" ++ su) with (" False" ++ String ":" su). rewrite rs_sep by reflexivity. now rewrite (IHu _ eq_refl). }
    destruct (if is_none c then _ else _) as [x|] eqn:E1; [|discriminate].
    destruct (if is_none a then _ else _) as [y|] eqn:E2; [|discriminate].
    destruct (if is_none b then _ else _) as [z|] eqn:E3; [|discriminate].
    cbn [bind] in E. apply Ok_inj in E; subst s.
    pose proof (K " Cond:" c IHc x ltac:(tauto) E1) as K1. pose proof (K " True:" a IHa y ltac:(tauto) E2) as K2.
    pose proof (K " False:" b IHb z ltac:(tauto) E3) as K3. clear K.
    assert (forall x u (K : forall c0 rest, sep c0 = true -> (isReset (x ++ String c0 rest) = existsb isReset (texts u) || isReset rest) /\
               (x = "" \/ exists y, x = String " " y)) rest, (exists c0 r, rest = String c0 r /\ sep c0 = true) ->
               (isReset (x ++ rest) = existsb isReset (texts u) || isReset rest) /\ exists c0 r, x ++ rest = String c0 r /\ sep c0 = true) as L.
    { intros x0 u K rest (c0 & r & -> & Hc). destruct (K c0 r Hc) as [K' [->|(y0 & ->)]].
      - split; [|exists c0, r; now split]. rewrite K'. f_equal. change (String c0 r) with ("" ++ String c0 r). now rewrite rs_sep.
      - split; [|exists " "%char; eexists; split; [reflexivity|reflexivity]]. rewrite K'. f_equal. change (String c0 r) with ("" ++ String c0 r). now rewrite rs_sep. }
    destruct (L z b K3 ")") as [L3 (c3 & r3 & E3' & S3)]; [exists ")"%char, ""; now split|].
    destruct (L y a K2 (z ++ ")")) as [L2 (c2 & r2 & E2' & S2)]; [rewrite E3'; eauto|].
    destruct (L x c K1 (y ++ z ++ ")")) as [L1 (c1 & r1 & E1' & S1)]; [rewrite E2'; eauto|].
    replace ("(Branch" ++ x ++ y ++ z ++ ")") with ("(Branch" ++ String c1 r1) by (rewrite <- E1'; reflexivity).
    rewrite rs_sep by exact S1. change (isReset "(Branch") with false. cbn [orb].
    assert (isReset r1 = isReset (x ++ y ++ z ++ ")")) as ->.
    { rewrite E1'. change (String c1 r1) with ("" ++ String c1 r1). now rewrite rs_sep. }
    rewrite L1, L2, L3. cbn [texts]. rewrite !existsb_app. change (isReset ")") with false. now rewrite orb_false_r, orb_assoc.
  - destruct v as [z|fs|ss|]; try (destruct g; discriminate).
    + destruct g; [discriminate|]. apply Ok_inj in E; subst s. cbn [texts existsb]. apply no_r_rs.
      rewrite !no_r_app. rewrite no_r_py. assert (no_r (width_str w) = true) as ->.
      { unfold width_str. destruct w as [z0|]; [|reflexivity]. destruct (z0 =? 32)%Z; [reflexivity|apply no_r_py]. }
      destruct (z <? 0)%Z; reflexivity.
    + destruct g; [|discriminate]. apply Ok_inj in E; subst s. cbn [texts existsb]. now rewrite orb_false_r.
  - apply Ok_inj in E; subst s. cbn [texts existsb]. apply no_r_rs. rewrite no_r_app. assert (no_r (width_str (Some w)) = true) as ->; [|reflexivity].
    unfold width_str. destruct (w =? 32)%Z; [reflexivity|apply no_r_py].
  - apply Ok_inj in E; subst s. cbn [texts existsb]. apply no_r_rs. rewrite no_r_app. assert (no_r (width_str (Some w)) = true) as ->; [|reflexivity].
    unfold width_str. destruct (w =? 32)%Z; [reflexivity|apply no_r_py].
  - destruct (is_none x) eqn:En.
    + destruct x; try discriminate. apply Ok_inj in E; subst s. reflexivity.
    + destruct (tostr x) as [sx|]; [|discriminate]. apply Ok_inj in E; subst s. change ("(Delay " ++ ?x) with ("(Delay" ++ String " " x).
      rewrite !rs_sep by reflexivity. cbn [texts]. rewrite (IH _ eq_refl). change (isReset "(Delay") with false. change (isReset "") with false.
      now rewrite orb_false_r.
  - destruct (mapM tostr l) as [xs|] eqn:EM; [|discriminate]. apply Ok_inj in E; subst s.
    replace ("(Syscall " ++ f ++ " Next:" ++ each "," xs) with (("(Syscall" ++ String " " (f ++ String " " "Next")) ++ String ":" (each "," xs))
      by (change ("(Syscall " ++ ?x) with ("(Syscall" ++ String " " x); rewrite !sapp_assoc; cbn; rewrite sapp_assoc; reflexivity).
    rewrite rs_list by reflexivity. rewrite (mapM_rs l xs IH EM). rewrite !rs_sep by reflexivity. cbn [texts existsb].
    change (isReset "(Syscall") with false. change (isReset "Next") with false. now rewrite orb_false_r.
Qed.

(** Matching, in plain words. *)
Lemma prefix_app p s : prefix p s = true <-> exists b, s = p ++ b.
Proof.
  revert s. induction p as [|a p IH]; intros s; [split; [intros _; exists s; reflexivity|intros _; now destruct s]|].
  destruct s as [|c s]; cbn; [split; [discriminate|intros (b & H); discriminate]|].
  destruct (ascii_dec a c) as [->|Hn].
  - rewrite IH. split; intros (b & H); exists b; [now rewrite H|now injection H].
  - split; [discriminate|]. intros (b & H). injection H as H _. congruence.
Qed.
Lemma search_within p s : search p s = true <-> within p s.
Proof.
  induction s as [|c s IH]; cbn [search]; rewrite orb_true_iff, prefix_app; unfold within in *.
  - split; [intros [(b & H)|H]; [exists "", b; exact H|discriminate]|].
    intros (a & b & H). left. exists b. destruct a; [exact H|discriminate].
  - rewrite IH. split.
    + intros [(b & H)|(a & b & H)]; [exists "", b; exact H|exists (String c a), b; cbn; now rewrite H].
    + intros (a & b & H). destruct a as [|x a]; [left; exists b; exact H|right]. injection H as _ H. exists a, b. exact H.
Qed.

(** The letters: a text and its lower-case form. *)
Lemma lower_same c d : chars_in "reset" d = true -> (lower_char c = d <-> same_letter c d).
Proof.
  intros Hd. unfold chars_in in Hd. cbn in Hd.
  assert (In d ["r"; "e"; "s"; "t"]%char) as Hi.
  { repeat (apply orb_true_iff in Hd as [Hd|Hd]); try discriminate; apply Ascii.eqb_eq in Hd; subst d; cbn; tauto. }
  clear Hd. unfold same_letter, lower_char.
  pose proof (nat_ascii_bounded c) as Bc.
  destruct ((65 <=? nat_of_ascii c) && (nat_of_ascii c <=? 90))%nat eqn:E.
  - apply andb_true_iff in E as [E1 E2]. apply Nat.leb_le in E1, E2. split.
    + intros <-. right. left. split; [lia|]. apply nat_ascii_embedding. lia.
    + intros [->|[[_ H]|[H1 H2]]].
      * exfalso. cbn [In] in Hi. repeat (destruct Hi as [<-|Hi]; [vm_compute in E2; lia|]). destruct Hi.
      * rewrite <- H. apply ascii_nat_embedding.
      * lia.
  - assert (~ (65 <= nat_of_ascii c <= 90)%nat) as Hn.
    { intros [H1 H2]. apply Nat.leb_le in H1, H2. now rewrite H1, H2 in E. }
    split; [now left|]. intros [H|[[H _]|[H _]]]; [exact H|contradiction|].
    cbn [In] in Hi. repeat (destruct Hi as [<-|Hi]; [vm_compute in H; lia|]). destruct Hi.
Qed.
Lemma lower_forall w p : Forall (fun d => chars_in "reset" d = true) (list_ascii_of_string p) ->
  (lower w = p <-> Forall2 same_letter (list_ascii_of_string w) (list_ascii_of_string p)).
Proof.
  revert w. induction p as [|d p IH]; intros w H; destruct w as [|c w]; cbn in *.
  - split; [constructor|reflexivity].
  - split; [discriminate|intros K; inversion K].
  - split; [discriminate|intros K; inversion K].
  - inversion H as [|? ? H1 H2]; subst. split.
    + intros E. injection E as E1 E2. constructor; [now apply lower_same|now apply IH].
    + intros E. inversion E as [|? ? ? ? E1 E2]; subst. f_equal; [now apply lower_same|now apply IH].
Qed.
Lemma lower_split s : forall a p b, lower s = a ++ p ++ b -> exists x w y, s = x ++ w ++ y /\ lower w = p.
Proof.
  assert (forall s1 a b, lower s1 = a ++ b -> exists x y, s1 = x ++ y /\ lower x = a /\ lower y = b) as K.
  { clear s. induction s1 as [|c s0 IH]; intros a b H.
    - destruct a; [|discriminate]. exists "", "". repeat split. exact H.
    - destruct a as [|d a]; [exists "", (String c s0); repeat split; exact H|].
      cbn in H. injection H as H1 H2. destruct (IH _ _ H2) as (x & y & -> & <- & <-). exists (String c x), y. cbn. rewrite H1. repeat split. }
  intros a p b H. destruct (K _ _ _ H) as (x & r & -> & _ & H2). destruct (K _ _ _ H2) as (w & y & -> & H3 & _).
  exists x, w, y. split; [reflexivity|exact H3].
Qed.
Lemma isReset_says s : isReset s = true <-> says_reset s.
Proof.
  unfold isReset, says_reset. rewrite existsb_exists. split.
  - intros (p & Hp & H). apply search_within in H as (a & b & E). destruct (lower_split _ _ _ _ E) as (x & w & y & -> & Ew).
    exists w, p. split; [exists x, y; reflexivity|]. split; [exact Hp|]. apply lower_forall; [|exact Ew].
    destruct Hp as [<-|[<-|[]]]; repeat constructor.
  - intros (w & p & (x & y & ->) & Hp & H). exists p. split; [exact Hp|]. apply search_within.
    apply lower_forall in H; [|destruct Hp as [<-|[<-|[]]]; repeat constructor].
    rewrite !lower_app, H. exists (lower x), (lower y). reflexivity.
Qed.
Theorem tostr_reset t s : tostr t = Ok s -> (isReset s = true <-> about_reset t).
Proof.
  intros H. rewrite (tostr_rs t s H). rewrite existsb_exists. unfold about_reset. rewrite Exists_exists.
  split; intros (x & H1 & H2); exists x; (split; [exact H1|now apply isReset_says]).
Qed.
