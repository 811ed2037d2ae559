(** LitProofs.v - literals. *)
From Verif Require Import Base LitModel LitSpec.
Local Open Scope Z_scope.

Fixpoint allc (p : ascii -> bool) (s : string) : bool :=
  match s with EmptyString => true | String c r => p c && allc p r end.
Lemma allc_imp (p q : ascii -> bool) s : (forall c, p c = true -> q c = true) -> allc p s = true -> allc q s = true.
Proof. intros H. induction s; simpl; auto. rewrite !andb_true_iff. intros [H1 H2]. auto. Qed.
Lemma allc_app p a b : allc p (a ++ b) = allc p a && allc p b.
Proof. induction a; simpl; auto. now rewrite IHa, andb_assoc. Qed.
Lemma drop_app a b : drop_underscores (a ++ b) = (drop_underscores a ++ drop_underscores b)%string.
Proof. induction a; simpl; auto. destruct (Ascii.eqb a "_"); auto. simpl. now rewrite IHa. Qed.

Definition isdig (b : Z) (c : ascii) : bool := match digit_val c with Some d => d <? b | None => false end.
Lemma is_digit_val b c d : is_digit b c d -> digit_val c = Some d /\ isdig b c = true /\ Ascii.eqb c "_" = false.
Proof.
  intros [H Hd]. assert (digit_val c = Some d /\ Ascii.eqb c "_" = false) as [H1 H2].
  { simpl in H. repeat (destruct H as [H|H]; [injection H as <- <-; split; reflexivity|]). destruct H. }
  unfold isdig. rewrite H1. split; auto. split; auto. lia.
Qed.
Lemma reads_parse b n s m : reads b n s m -> parse_digits b (drop_underscores s) n = Ok m /\ allc (isdig b) (drop_underscores s) = true.
Proof.
  induction 1 as [n|n c d s m Hd Hr [IH1 IH2]|n s m Hr [IH1 IH2]]; simpl; auto.
  destruct (is_digit_val b c d Hd) as (H1 & H2 & H3). rewrite H3. simpl. rewrite H1, H2. unfold isdig in H2. rewrite H1 in H2. rewrite H2.
  auto.
Qed.
Lemma numeral_parse b s n : numeral b s n -> nonempty (drop_underscores s) = true /\
  parse_digits b (drop_underscores s) 0 = Ok n /\ allc (isdig b) (drop_underscores s) = true.
Proof.
  intros (c & d & r & -> & Hd & Hr). assert (reads b 0 (String c r) n) as H by (apply (reads_digit b 0 c d); auto; now rewrite Z.mul_0_l).
  destruct (reads_parse _ _ _ _ H) as [H1 H2]. split; auto. simpl. destruct (is_digit_val b c d Hd) as (_ & _ & ->). reflexivity.
Qed.

Lemma isdig_le b b' c : b <= b' -> isdig b c = true -> isdig b' c = true.
Proof. unfold isdig. destruct (digit_val c); auto. lia. Qed.
(** Finite facts about characters. *)
Lemma ascii_all (p : ascii -> bool) : forallb p (map ascii_of_nat (seq 0 256)) = true -> forall c, p c = true.
Proof.
  intros H c. rewrite forallb_forall in H. apply H. apply in_map_iff. exists (nat_of_ascii c). split; [apply ascii_nat_embedding|].
  apply in_seq. split; [lia|]. apply nat_ascii_bounded.
Qed.
Ltac chars := intros ?c; match goal with |- ?l = true -> ?r = true =>
  match eval pattern c in (implb l r) with ?f _ => change (f c = true -> True) end end.
Lemma char_imp (p q : ascii -> bool) : forallb (fun c => implb (p c) (q c)) (map ascii_of_nat (seq 0 256)) = true ->
  forall c, p c = true -> q c = true.
Proof. intros H c Hp. pose proof (ascii_all _ H c) as K. cbv beta in K. rewrite Hp in K. exact K. Qed.
Lemma dig16_plain : forall c, isdig 16 c = true ->
  negb (is_space c) && negb (Ascii.eqb c "-") && negb (Ascii.eqb c "+") && negb (in_str ["x"%char; "X"%char] c)
  && negb (in_str ["H"%char; "h"%char] c) && negb (in_str ["O"%char; "o"%char] c) && negb (Ascii.eqb c "'") = true.
Proof. apply char_imp. vm_compute. reflexivity. Qed.
Lemma dig10_plain : forall c, isdig 10 c = true -> negb (in_str ["D"%char; "d"%char] c) && negb (in_str ["B"%char; "b"%char] c) = true.
Proof. apply char_imp. vm_compute. reflexivity. Qed.

Lemma lstrip_id s : allc (fun c => negb (is_space c)) s = true -> lstrip s = s.
Proof. destruct s; simpl; auto. intros H. apply andb_true_iff in H as [H _]. now rewrite (proj1 (negb_true_iff _) H). Qed.
Lemma rstrip_id s : allc (fun c => negb (is_space c)) s = true -> rstrip s = s.
Proof.
  induction s as [|c s IH]; simpl; auto. intros H. apply andb_true_iff in H as [H1 H2]. rewrite (IH H2).
  apply negb_true_iff in H1. rewrite H1. now destruct s.
Qed.
Lemma strip2 : forall c, isdig 2 c = true -> negb (in_str ["b"%char; "B"%char] c) = true.
Proof. apply char_imp. vm_compute. reflexivity. Qed.
Lemma strip8 : forall c, isdig 8 c = true -> negb (in_str ["o"%char; "O"%char] c) = true.
Proof. apply char_imp. vm_compute. reflexivity. Qed.
Lemma strip16 : forall c, isdig 16 c = true -> negb (in_str ["x"%char; "X"%char] c) = true.
Proof. apply char_imp. vm_compute. reflexivity. Qed.
Lemma strip_prefix_id b s : In b [2; 8; 10; 16] -> allc (isdig b) s = true -> strip_prefix b s = s.
Proof.
  intros Hb H. destruct s as [|c0 [|c1 r]]; auto. cbn [allc] in H. apply andb_true_iff in H as [_ H]. apply andb_true_iff in H as [H _].
  unfold strip_prefix. destruct (Ascii.eqb c0 "0"); [|reflexivity]. cbn [andb].
  assert (((b =? 16) && in_str ["x"%char; "X"%char] c1 || (b =? 8) && in_str ["o"%char; "O"%char] c1
          || (b =? 2) && in_str ["b"%char; "B"%char] c1)%bool = false) as ->; [|reflexivity].
  destruct Hb as [<-|[<-|[<-|[<-|[]]]]]; [apply strip2, negb_true_iff in H|apply strip8, negb_true_iff in H| |apply strip16, negb_true_iff in H];
    try rewrite H; reflexivity.
Qed.
Lemma base_le b : In b [2; 8; 10; 16] -> b <= 16.
Proof. intros [<-|[<-|[<-|[<-|[]]]]]; lia. Qed.
Lemma py_int_digit_string b s : In b [2; 8; 10; 16] -> nonempty s = true -> allc (isdig b) s = true -> py_int b s = parse_digits b s 0.
Proof.
  intros Hb Hn Ha.
  assert (allc (fun c => negb (is_space c)) s = true) as Hs.
  { eapply allc_imp; [|exact Ha]. intros c Hc. apply (isdig_le b 16) in Hc; [|now apply base_le]. apply dig16_plain in Hc.
    repeat (apply andb_true_iff in Hc as [Hc ?]). auto. }
  unfold py_int. rewrite (lstrip_id _ Hs), (rstrip_id _ Hs). destruct s as [|c r]; [discriminate|].
  assert (isdig 16 c = true) as Hc by (simpl in Ha; apply andb_true_iff in Ha as [Ha _]; apply (isdig_le b 16); auto; now apply base_le).
  apply dig16_plain in Hc. repeat (apply andb_true_iff in Hc as [Hc ?]).
  destruct (Ascii.eqb c "-"); [discriminate|]. destruct (Ascii.eqb c "+"); [discriminate|].
  unfold py_int_digits. rewrite (strip_prefix_id _ _ Hb Ha). reflexivity.
Qed.

Lemma search_app cs a b : allc (fun c => negb (in_str cs c)) a = true -> search_after cs (a ++ b) = search_after cs b.
Proof. induction a as [|c a IH]; simpl; auto. intros H. apply andb_true_iff in H as [H1 H2]. apply negb_true_iff in H1. rewrite H1. auto. Qed.
Lemma search_none cs a : allc (fun c => negb (in_str cs c)) a = true -> search_after cs a = None.
Proof. induction a as [|c a IH]; simpl; auto. intros H. apply andb_true_iff in H as [H1 H2]. apply negb_true_iff in H1. rewrite H1. auto. Qed.

Definition letters (c : ascii) : list ascii :=
  if in_str ["H"%char; "h"%char] c then ["H"%char; "h"%char]
  else if in_str ["D"%char; "d"%char] c then ["D"%char; "d"%char]
  else if in_str ["O"%char; "o"%char] c then ["O"%char; "o"%char] else ["B"%char; "b"%char].

Lemma base_letter_in c b : base_letter c b -> In b [2; 8; 10; 16].
Proof. destruct 1; simpl; auto. Qed.
Lemma drop_size size w : size_part size w -> allc (isdig 10) (drop_underscores size) = true.
Proof. destruct 1 as [|s n H]; [reflexivity|]. apply numeral_parse in H. apply H. Qed.
Lemma no_letter10 cs s : In cs [["H"%char; "h"%char]; ["D"%char; "d"%char]; ["O"%char; "o"%char]; ["B"%char; "b"%char]] ->
  allc (isdig 10) s = true -> allc (fun c => negb (in_str cs c)) s = true.
Proof.
  intros Hcs. apply allc_imp. intros c Hc. pose proof (dig10_plain c Hc) as H1. apply (isdig_le 10 16) in Hc; [|lia].
  apply dig16_plain in Hc. apply andb_true_iff in H1 as [H1 H2]. repeat (apply andb_true_iff in Hc as [Hc ?]).
  destruct Hcs as [<-|[<-|[<-|[<-|[]]]]]; auto.
Qed.
Lemma no_letter16 s : allc (isdig 16) s = true -> allc (fun c => negb (in_str ["H"%char; "h"%char] c)) s = true
   /\ allc (fun c => negb (in_str ["O"%char; "o"%char] c)) s = true /\ allc (fun c => negb (Ascii.eqb c "'")) s = true.
Proof.
  intros H. split; [|split]; (eapply allc_imp; [|exact H]); intros c Hc; apply dig16_plain in Hc;
    repeat (apply andb_true_iff in Hc as [Hc ?]); auto.
Qed.
Lemma allc_le b b' s : b <= b' -> allc (isdig b) s = true -> allc (isdig b') s = true.
Proof. intros H. apply allc_imp. intros c. now apply isdig_le. Qed.

Lemma drop_based size sg c b ds : sign_mark sg -> base_letter c b ->
  drop_underscores (size ++ "'" ++ sg ++ String c ds) = (drop_underscores size ++ "'" ++ sg ++ String c (drop_underscores ds))%string.
Proof. intros Hs Hc. rewrite drop_app. f_equal. simpl. f_equal. rewrite drop_app. destruct Hs, Hc; reflexivity. Qed.

Lemma int_eval_literal s sg w n : literal s sg w n -> int_eval s = Ok n.
Proof.
  destruct 1 as [s n H|size w sg c b ds n Hsz Hsg Hc Hd].
  - apply numeral_parse in H as (H1 & H2 & H3). unfold int_eval.
    rewrite !search_none by (apply no_letter10; simpl; auto). rewrite py_int_digit_string; simpl; auto.
  - unfold int_eval. rewrite (drop_based size sg c b ds Hsg Hc).
    apply numeral_parse in Hd as (H1 & H2 & H3). set (ds' := drop_underscores ds) in *.
    pose proof (drop_size _ _ Hsz) as Hz. set (sz := drop_underscores size) in *.
    assert (forall cs, In cs [["H"%char; "h"%char]; ["D"%char; "d"%char]; ["O"%char; "o"%char]; ["B"%char; "b"%char]] ->
              search_after cs (sz ++ "'" ++ sg ++ String c ds') = search_after cs (String c ds')) as Hsk.
    { intros cs Hcs. rewrite (search_app cs sz) by now apply no_letter10.
      rewrite (search_app cs "'") by (destruct Hcs as [<-|[<-|[<-|[<-|[]]]]]; reflexivity).
      apply search_app. destruct Hcs as [<-|[<-|[<-|[<-|[]]]]]; destruct Hsg; reflexivity. }
    rewrite !Hsk by (simpl; auto 6).
    pose proof (base_letter_in c b Hc) as Hb.
    assert (py_int b ds' = Ok n) as HP by (rewrite py_int_digit_string; auto).
    assert (b <> 16 -> b <> 10 -> search_after ["D"%char; "d"%char] ds' = None) as HD.
    { intros N1 N2. apply search_none, no_letter10; [simpl; auto|]. eapply allc_le; [|exact H3].
      destruct Hb as [<-|[<-|[<-|[<-|[]]]]]; lia. }
    assert (search_after ["H"%char; "h"%char] ds' = None) as HH.
    { apply search_none, no_letter16. eapply allc_le; [|exact H3]. now apply base_le. }
    assert (search_after ["O"%char; "o"%char] ds' = None) as HO.
    { apply search_none. eapply proj1, proj2, no_letter16, allc_le; [|exact H3]. now apply base_le. }
    destruct Hc; simpl search_after; rewrite ?H1; cbn [in_str existsb Ascii.eqb Bool.eqb andb orb];
      rewrite ?HH, ?HD, ?HO by discriminate; auto.
Qed.

(** ** width *)
Lemma prefix_none_quote cs : forall s st, allc (fun c => negb (Ascii.eqb c "'")) s = true -> prefix_before cs st s = None.
Proof.
  induction s as [|c s IH]; intros st H; simpl; auto. simpl in H. apply andb_true_iff in H as [H1 H2]. rewrite (IH _ H2).
  apply negb_true_iff in H1. destruct st; auto. destruct s; auto. now rewrite H1.
Qed.
Lemma prefix_skip cs x rest : (forall st, prefix_before cs st rest = None) -> prefix_before cs false (String "'" rest) = x ->
  forall a st, allc (fun c => negb (Ascii.eqb c "'")) a = true ->
  prefix_before cs st (a ++ String "'" rest) =
  if (st && negb (nonempty a))%bool then None else match x with Some p => Some (a ++ p)%string | None => None end.
Proof.
  intros Hr Hx. induction a as [|c a IH]; intros st H.
  - simpl append. destruct st; simpl.
    + now rewrite Hr.
    + rewrite <- Hx. cbn [prefix_before]. rewrite Hr. destruct rest as [|d r']; [reflexivity|].
      change (Ascii.eqb "'" "'") with true. cbn [andb]. destruct (in_str cs d && nonempty r')%bool; reflexivity.
  - simpl in H. apply andb_true_iff in H as [H1 H2]. apply negb_true_iff in H1. cbn [append prefix_before].
    rewrite (IH false H2). simpl. rewrite andb_false_r. destruct x as [p|]; auto. destruct st; auto.
    destruct a as [|c' a']; simpl; rewrite H1; auto.
Qed.
Lemma int_width_literal s w n : literal s "" w n -> int_width s = Ok (match w with Some w => w | None => 32 end).
Proof.
  remember ""%string as sg eqn:Esg. destruct 1 as [s n H|size w sg c b ds n Hsz Hsg Hc Hd].
  - apply numeral_parse in H as (H1 & H2 & H3). unfold int_width.
    assert (allc (fun c => negb (Ascii.eqb c "'")) (drop_underscores s) = true) as Hq.
    { eapply proj2, proj2, no_letter16, allc_le; [|exact H3]. lia. }
    now rewrite !prefix_none_quote by auto.
  - subst sg. unfold int_width. rewrite (drop_based size "" c b ds Hsg Hc).
    apply numeral_parse in Hd as (H1 & H2 & H3). set (ds' := drop_underscores ds) in *.
    pose proof (drop_size _ _ Hsz) as Hz.
    pose proof (base_letter_in c b Hc) as Hb.
    assert (allc (fun c => negb (Ascii.eqb c "'")) (drop_underscores size) = true) as Hq.
    { eapply proj2, proj2, no_letter16, allc_le; [|exact Hz]. lia. }
    assert (allc (fun c => negb (Ascii.eqb c "'")) (String c ds') = true) as Hq2.
    { simpl. apply andb_true_iff. split; [destruct Hc; reflexivity|]. eapply proj2, proj2, no_letter16, allc_le; [|exact H3]. now apply base_le. }
    assert (forall cs, prefix_before cs true (drop_underscores size ++ "'" ++ "" ++ String c ds') =
              if nonempty (drop_underscores size) && in_str cs c then Some (drop_underscores size) else None) as HP.
    { intros cs. simpl append. erewrite prefix_skip; [|intros; now apply prefix_none_quote|reflexivity|exact Hq].
      cbn [prefix_before]. rewrite (prefix_none_quote cs ds' false) by (simpl in Hq2; now apply andb_true_iff in Hq2 as [_ Hq2]).
      assert (app_e : (drop_underscores size ++ "")%string = drop_underscores size).
      { clear. induction (drop_underscores size); simpl; congruence. }
      destruct (nonempty (drop_underscores size)); simpl; auto.
      destruct ds' as [|d ds'']; [discriminate|]. simpl in Hq2. apply andb_true_iff in Hq2 as [_ Hq2]. apply andb_true_iff in Hq2 as [Hq2 _].
      simpl. apply negb_true_iff in Hq2.
      assert ((if Ascii.eqb c "'" && in_str cs d && nonempty ds'' then Some ""%string else None) = @None string) as ->.
      { destruct Hc; reflexivity. }
      rewrite andb_true_r. destruct (in_str cs c); auto. now rewrite app_e. }
    rewrite !HP. destruct Hsz as [|size k Hk]; [reflexivity|]. apply numeral_parse in Hk as (K1 & K2 & K3). rewrite K1. cbn [andb].
    assert (py_int 10 (drop_underscores size) = Ok k) as HK by (rewrite py_int_digit_string; simpl; auto).
    destruct Hc; exact HK.
Qed.
Lemma int_width_signed s sg w n : literal s sg w n -> sg <> ""%string -> int_width s = Ok 32.
Proof.
  destruct 1 as [s n H|size w sg c b ds n Hsz Hsg Hc Hd]; [congruence|]. intros Hne.
  unfold int_width. rewrite (drop_based size sg c b ds Hsg Hc).
  apply numeral_parse in Hd as (H1 & H2 & H3). set (ds' := drop_underscores ds) in *.
  pose proof (drop_size _ _ Hsz) as Hz. pose proof (base_letter_in c b Hc) as Hb.
  assert (allc (fun c => negb (Ascii.eqb c "'")) (drop_underscores size) = true) as Hq.
  { eapply proj2, proj2, no_letter16, allc_le; [|exact Hz]. lia. }
  assert (allc (fun c => negb (Ascii.eqb c "'")) (sg ++ String c ds') = true) as Hq2.
  { rewrite allc_app. apply andb_true_iff. split; [destruct Hsg; reflexivity|].
    simpl. apply andb_true_iff. split; [destruct Hc; reflexivity|]. eapply proj2, proj2, no_letter16, allc_le; [|exact H3]. now apply base_le. }
  assert (forall cs, In cs [["H"%char; "h"%char]; ["D"%char; "d"%char]; ["O"%char; "o"%char]; ["B"%char; "b"%char]] ->
     prefix_before cs true (drop_underscores size ++ "'" ++ sg ++ String c ds') = None) as HP.
  { intros cs Hcs. change ("'" ++ sg ++ String c ds')%string with (String "'" (sg ++ String c ds')).
    erewrite prefix_skip; [|intros; now apply prefix_none_quote|reflexivity|exact Hq].
    assert (prefix_before cs false (String "'" (sg ++ String c ds')) = None) as ->.
    { cbn [prefix_before]. rewrite (prefix_none_quote cs (sg ++ String c ds') false Hq2).
      destruct Hsg; [congruence| |]; destruct Hcs as [<-|[<-|[<-|[<-|[]]]]]; reflexivity. }
    now destruct (_ && _)%bool. }
  rewrite !HP by (simpl; auto 6). reflexivity.
Qed.

(** ** printing *)
Lemma digit_char_ok d : 0 <= d < 10 -> is_digit 10 (digit_char d) d.
Proof.
  intros H. assert (d = 0 \/ d = 1 \/ d = 2 \/ d = 3 \/ d = 4 \/ d = 5 \/ d = 6 \/ d = 7 \/ d = 8 \/ d = 9) as Hd by lia.
  split; [|lia]. repeat (destruct Hd as [->|Hd]; [simpl; tauto|]). subst; simpl; tauto.
Qed.
Lemma dec_digits_numeral fuel : forall n acc m, 0 <= n < Z.of_nat fuel -> reads 10 n acc m -> numeral 10 (dec_digits fuel n acc) m.
Proof.
  induction fuel as [|k IH]; intros n acc m Hn Hr; [lia|]. cbn [dec_digits].
  destruct (Z.ltb_spec n 10).
  - rewrite Z.mod_small by lia. exists (digit_char n), n, acc. split; auto. split; auto. apply digit_char_ok. lia.
  - assert (0 <= n / 10 < n) by (split; [apply Z.div_pos; lia|apply Z.div_lt; lia]).
    apply IH; [lia|]. apply (reads_digit 10 _ _ (n mod 10)); [apply digit_char_ok, Z.mod_pos_bound; lia|].
    replace (n / 10 * 10 + n mod 10) with n; auto. rewrite (Z.div_mod n 10) at 1; lia.
Qed.
Lemma py_str_nat_numeral n : 0 <= n -> numeral 10 (py_str_nat n) n.
Proof. intros H. apply dec_digits_numeral; [lia|constructor]. Qed.
Lemma printed_literal v w : 0 <= v -> 0 <= w -> literal (eval_value_str v w) "" (if w =? 32 then None else Some w) v.
Proof.
  intros Hv Hw. unfold eval_value_str. assert (v <? 0 = false) as -> by lia. simpl append.
  assert (app_e : forall s, (s ++ "")%string = s) by (induction s; simpl; congruence). rewrite app_e.
  rewrite Z.abs_eq by lia.
  change (String "'" (String "d" (py_str_nat v))) with ("'" ++ "" ++ String "d" (py_str_nat v))%string.
  apply lit_based with (b := 10); [|constructor|constructor|now apply py_str_nat_numeral].
  destruct (w =? 32); [constructor|]. constructor. unfold py_str. assert (w <? 0 = false) as -> by lia. now apply py_str_nat_numeral.
Qed.
