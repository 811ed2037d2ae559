(** ExprLex.v - tokens written down are read back. *)
From Verif Require Import Base DfModel LexModel LexSpec LexProofs ExprModel ExprSpec.
From Verif Require LitProofs.
Require Import Coq.Strings.Ascii.
Local Open Scope string_scope.

(** ** Words followed by the rest of the text *)
Definition stops (p : ascii -> bool) (s : string) : Prop := match s with String c _ => p c = false | "" => True end.
Lemma span_app p a s : all_chars p a -> stops p s -> span p (a ++ s) = (a, s).
Proof.
  intros H HS. induction a as [|c a IH]; cbn [append].
  - destruct s as [|c s]; auto. cbn in *. now rewrite HS.
  - inversion H; subst. cbn [span]. rewrite H2, IH by assumption. reflexivity.
Qed.
Lemma stops_imp (p q : ascii -> bool) s : (forall c, p c = false -> q c = false) -> stops p s -> stops q s.
Proof. destruct s; cbn; auto. Qed.
Lemma char_neg (p q : ascii -> bool) : forallb (fun c => implb (p c) (negb (q c))) (map ascii_of_nat (seq 0 256)) = true -> forall c, p c = true -> q c = false.
Proof. intros H c Hp. apply negb_true_iff. exact (LitProofs.char_imp p (fun c => negb (q c)) H c Hp). Qed.

(** What may follow each token without changing it. *)
Definition ends_number (c : ascii) : bool := negb (id_char c) && negb (one_of "?'." c).
Definition ok_after (t : token) (c : ascii) : bool :=
  match t with
  | ID s | KW s => if escaped s then is_space c else negb (id_char c)
  | INT _ _ => ends_number c
  | P p =>
      match p with
      | PLUS | MINUS => negb (ceqb c ":") | AND => negb (ceqb c "&") | OR => negb (ceqb c "|") | NOT => negb (one_of "|&^" c)
      | LNOT | EQ | NE | EQUALS => negb (ceqb c "=") | LT => negb (one_of "<=" c) | GT => negb (one_of ">=" c) | TIMES => negb (ceqb c "*")
      | DIVIDE => negb (one_of "/*" c) | LSHIFT => negb (ceqb c "<") | RSHIFT => negb (ceqb c ">") | DOT => negb (is_digit c)
      | _ => true
      end
  | _ => false
  end.
Definition follows (t : token) (s : string) : Prop := match s with String c _ => ok_after t c = true | "" => True end.
Definition valid (t : token) : Prop :=
  match t with
  | P _ => True
  | ID s => simple_id s \/ escaped_id s
  | KW s => In s reserved
  | INT k s => number k s
  | _ => False
  end.

Lemma lex1_punct p s : follows (P p) s -> lex1 (punct_text p ++ s) = Some (Token (P p), (punct_text p, s)).
Proof.
  intros H. destruct s as [|c s]; [destruct p; vm_compute; reflexivity|]. cbn [follows] in H.
  destruct p; cbn [ok_after] in H; try reflexivity;
    (destruct c as [[] [] [] [] [] [] [] []]; first [vm_compute in H; discriminate H|vm_compute; reflexivity]).
Qed.

(** None of the earlier rules matches a text that starts with such a character. *)
Definition plain_start (c : ascii) : bool := negb (one_of (String TAB " `/") c) && negb (ceqb c QUOTE).
Lemma no_blank c : plain_start c = true -> one_of (String TAB " ") c = false.
Proof. revert c. apply char_neg. vm_compute. reflexivity. Qed.
Lemma no_special c s : plain_start c = true -> m_directive (String c s) = None /\ m_linecomment (String c s) = None /\ m_comment (String c s) = None /\ m_string (String c s) = None.
Proof.
  intros H. assert (ceqb "`" c = false /\ ceqb "/" c = false /\ ceqb c QUOTE = false) as (H1 & H2 & H3).
  { repeat split; revert c H; apply char_neg; vm_compute; reflexivity. }
  unfold m_directive, m_linecomment, m_comment, m_string. cbn [strip]. rewrite H1, H2, H3. auto.
Qed.
Lemma no_number c s : is_digit c = false -> ceqb c "'" = false -> first_rule number_rules (String c s) = None.
Proof.
  intros H1 H2. assert (span is_digit (String c s) = ("", String c s)) as E by (cbn [span]; now rewrite H1).
  assert (forall sg base f m, m_based sg base f m (String c s) = None) as K by (intros; unfold m_based; rewrite E, H2; reflexivity).
  unfold number_rules. cbn [first_rule]. rewrite !K. unfold m_plain. rewrite H1. reflexivity.
Qed.
Lemma no_float c s : is_digit c = false -> ceqb c "." = false -> m_float (String c s) = None.
Proof. intros H1 H2. unfold m_float. cbn [span]. rewrite H1, H2. reflexivity. Qed.
Lemma in_reserved s : existsb (String.eqb s) reserved = true <-> In s reserved.
Proof. rewrite existsb_exists. split; [intros (x & H & E); apply String.eqb_eq in E as ->; auto|intros H; exists s; split; auto; apply String.eqb_refl]. Qed.
Lemma lex1_word c r s : id_start c = true -> all_chars id_char r -> stops id_char s -> lex1 (String c r ++ s) = Some (Token (id_token (String c r)), (String c r, s)).
Proof.
  intros Hc Hr Hs. assert (plain_start c = true /\ is_digit c = false /\ ceqb c "." = false /\ ceqb c "'" = false) as (H1 & H2 & H3 & H4).
  { repeat split; revert c Hc; (apply LitProofs.char_imp || apply char_neg); vm_compute; reflexivity. }
  cbn [append]. unfold lex1. rewrite (no_blank _ H1). destruct (no_special c (r ++ s) H1) as (-> & -> & -> & ->). rewrite no_float, no_number by auto.
  unfold m_id. rewrite Hc. rewrite span_app by auto. reflexivity.
Qed.
Lemma lex1_id s rest : simple_id s \/ escaped_id s -> follows (ID s) rest -> lex1 (s ++ rest) = Some (Token (ID s), (s, rest)).
Proof.
  intros [(c & r & -> & Hc & Hr & HR)|(c & r & -> & Hr)] HF.
  - rewrite lex1_word; auto.
    + unfold id_token. destruct (existsb _ reserved) eqn:E; [apply in_reserved in E; contradiction|reflexivity].
    + destruct rest as [|d rest]; cbn; auto. cbn [follows ok_after escaped] in HF. destruct (Ascii.eqb_spec c "\") as [->|N]; [vm_compute in Hc; discriminate|].
      assert (escaped (String c r) = false) as E by (destruct c as [[] [] [] [] [] [] [] []]; reflexivity || congruence). cbn [escaped] in E. unfold ok_after, escaped in HF. rewrite E in HF. now apply negb_true_iff.
  - unfold lex1. cbn [append]. change (one_of (String TAB " ") "\") with false. cbn [one_of].
    destruct (no_special "\" (String c r ++ rest) eq_refl) as (K1 & K2 & K3 & K4). cbn [append] in *. rewrite K1, K2, K3, K4, no_float, no_number by reflexivity.
    unfold m_id. change (id_start "\") with false. change (ceqb "\" "\") with true. cbn iota.
    change (String c (r ++ rest)) with (String c r ++ rest). rewrite span_app; [reflexivity|exact Hr|]. destruct rest as [|d rest]; cbn; auto. cbn [follows ok_after escaped] in HF. now rewrite HF.
Qed.
Lemma lex1_kw s rest : In s reserved -> follows (KW s) rest -> lex1 (s ++ rest) = Some (Token (KW s), (s, rest)).
Proof.
  intros HR HF. assert (exists c r, s = String c r /\ id_start c = true /\ all_chars id_char r /\ escaped s = false) as (c & r & -> & Hc & Hr & HE).
  { assert (Forall (fun s => exists c r, s = String c r /\ id_start c = true /\ all_chars id_char r /\ escaped s = false) reserved) as K.
    { repeat (constructor; [eexists _, _; split; [reflexivity|]; split; [reflexivity|]; split; [repeat (constructor; [reflexivity|]); constructor|reflexivity]|]). constructor. }
    rewrite Forall_forall in K. auto. }
  rewrite lex1_word; auto.
  - unfold id_token. now rewrite (proj2 (in_reserved _) HR).
  - destruct rest as [|d rest]; cbn; auto. cbn [follows ok_after] in HF. rewrite HE in HF. now apply negb_true_iff.
Qed.
Lemma no_exp c s : one_of "eE" c = false -> m_exp (String c s) = None.
Proof. intros H. unfold m_exp. now rewrite H. Qed.
Lemma all_app p a b : all_chars p a -> all_chars p b -> all_chars p (a ++ b).
Proof. unfold all_chars. induction a as [|c a IH]; cbn; auto. intros H HB. inversion H; subst. constructor; auto. Qed.
Lemma all_imp (p q : ascii -> bool) a : (forall c, p c = true -> q c = true) -> all_chars p a -> all_chars q a.
Proof. intros HI. apply Forall_impl. exact HI. Qed.
(** Numbers with a base. *)
Definition sign_text (sg : bool) (q : string) : Prop := if sg then exists g, q = String g "" /\ one_of "sS" g = true else q = "".
Lemma based_hit sg base (first more : ascii -> bool) ds q b d r rest :
  all_chars is_digit ds -> sign_text sg q -> one_of base b = true -> first d = true -> all_chars more r -> stops more rest ->
  m_based sg base first more (ds ++ String "'" (q ++ String b (String d (r ++ rest)))) = Some (ds ++ String "'" (q ++ String b (String d r)), rest).
Proof.
  intros H1 H2 H3 H4 H5 H6. unfold m_based. rewrite span_app; [|auto|reflexivity]. change (ceqb "'" "'") with true. cbn iota.
  destruct sg; cbn [sign_text] in H2.
  - destruct H2 as (g & -> & Hg). cbn [append]. rewrite Hg, H3, H4. cbn [andb]. rewrite span_app by auto. reflexivity.
  - subst q. cbn [append]. rewrite H3, H4. cbn [andb]. rewrite span_app by auto. reflexivity.
Qed.
Definition misses (sg : bool) (base : string) (x : ascii) (y : string) : Prop :=
  if sg then one_of "sS" x = false \/ (exists b z, y = String b z /\ one_of base b = false) else one_of base x = false.
Lemma based_miss sg base first more ds x y : all_chars is_digit ds -> misses sg base x y ->
  m_based sg base first more (ds ++ String "'" (String x y)) = None.
Proof.
  intros H1 H2. unfold m_based. rewrite span_app; [|auto|reflexivity]. change (ceqb "'" "'") with true. cbn iota.
  destruct sg; cbn [misses] in H2; [destruct (one_of "sS" x); auto; destruct H2 as [H2|(b & z & -> & H2)]; [discriminate|]; destruct z; [auto|]; now rewrite H2|]. destruct y; auto. now rewrite H2.
Qed.
Lemma quote_float ds x : all_chars is_digit ds -> m_float (ds ++ String "'" x) = None.
Proof.
  intros H. unfold m_float. rewrite span_app; [|auto|reflexivity]. change (ceqb "'" ".") with false. cbn iota. destruct ds; auto.
Qed.
Lemma digits_start s x : all_chars is_digit s -> exists c r, s ++ String "'" x = String c r /\ plain_start c = true.
Proof.
  intros H. destruct s as [|c s]; [exists "'"%char, x; auto|]. inversion H; subst. eexists c, _. split; [reflexivity|]. revert c H2 H. intros c H2 _. revert c H2. apply LitProofs.char_imp. vm_compute. reflexivity.
Qed.
Lemma lex1_based k ds x : forall text rest, all_chars is_digit ds -> first_rule number_rules (ds ++ String "'" x) = Some (k, (text, rest)) -> lex1 (ds ++ String "'" x) = Some (Token (INT k text), (text, rest)).
Proof.
  intros text rest H1 H2. destruct (digits_start ds x H1) as (c & r & E & Hc). pose proof (quote_float ds x H1) as HF. rewrite E in *. unfold lex1. rewrite (no_blank _ Hc).
  destruct (no_special c r Hc) as (-> & -> & -> & ->). rewrite HF, H2. reflexivity.
Qed.
Lemma stops_number (p : ascii -> bool) rest : (forall c, ends_number c = true -> p c = false) -> match rest with String c _ => ends_number c = true | "" => True end -> stops p rest.
Proof. destruct rest; cbn; auto. Qed.
Lemma first_hit {K} (k : K) m rules s x : m s = Some x -> first_rule ((k, m) :: rules) s = Some (k, x).
Proof. intros H. cbn. now rewrite H. Qed.
Lemma first_miss {K} (k : K) m rules s : m s = None -> first_rule ((k, m) :: rules) s = first_rule rules s.
Proof. intros H. cbn. now rewrite H. Qed.

Ltac char_fact c H := revert c H; apply char_neg; vm_compute; reflexivity.
Ltac number_shape := rewrite !app_assoc_s; cbn [append]; apply lex1_based; [assumption|]; unfold number_rules.
Ltac number_end HF := apply stops_number; [apply char_neg; vm_compute; reflexivity|exact HF].
Ltac unsigned_case b HF :=
  match goal with HB : one_of _ b = true |- _ =>
    number_shape;
    repeat (rewrite first_miss; [|apply based_miss; [assumption|cbn [misses]; first [left; clear - HB; char_fact b HB|clear - HB; char_fact b HB]]]);
    apply first_hit; refine (based_hit false _ _ _ _ "" _ _ _ _ _ _ _ _ _ _); auto; [reflexivity|number_end HF]
  end.
Ltac signed_case b g HF :=
  match goal with HB : one_of _ b = true, HG : one_of "sS" g = true |- _ =>
    number_shape;
    repeat (rewrite first_miss; [|apply based_miss; [assumption|cbn [misses]; first [right; eexists _, _; split; [reflexivity|]; clear - HB; char_fact b HB|clear - HG; char_fact g HG]]]);
    apply first_hit; refine (based_hit true _ _ _ _ (String g "") _ _ _ _ _ _ _ _ _ _); auto; [exists g; auto|number_end HF]
  end.
Lemma lex1_int k s rest : number k s -> follows (INT k s) rest -> lex1 (s ++ rest) = Some (Token (INT k s), (s, rest)).
Proof.
  intros H HF. cbn [follows ok_after] in HF. destruct H as [c r Hc Hr|ds b d r H1 Hb Hd Hr|ds b d r H1 Hb Hd Hr|ds b d r H1 Hb Hd Hr|ds b d r H1 Hb Hd Hr|ds g b d r H1 Hg Hb Hd Hx Hr|ds g b d r H1 Hg Hb Hd Hr|ds g b d r H1 Hg Hb Hd Hr|ds g b d r H1 Hg Hb Hd Hr].
  - assert (plain_start c = true) as HP by (clear - Hc; revert c Hc; apply LitProofs.char_imp; vm_compute; reflexivity).
    assert (stops (or_bar is_digit) rest) as HS by (eapply stops_number; [|exact HF]; apply char_neg; vm_compute; reflexivity).
    (* the digits before the first "_" *)
    assert (exists a z, String c r ++ rest = a ++ z /\ all_chars is_digit a /\ match z with String e _ => is_digit e = false /\ ceqb e "." = false /\ ceqb e "'" = false /\ one_of "eE" e = false | "" => True end) as (a & z & E & Ha & Hz).
    { destruct (span is_digit (String c r ++ rest)) as [a z] eqn:S. destruct (span_ok _ _ _ _ S) as [E Ha]. exists a, z. split; auto. split; auto. destruct z as [|e z]; auto. pose proof (span_stop _ _ _ _ _ _ S eq_refl) as He. split; auto.
      assert (or_bar is_digit e = true \/ ends_number e = true) as [K|K].
      { clear - E He Hc Hr HF Ha. assert (all_chars (or_bar is_digit) (String c r)) as HA by (constructor; auto; unfold or_bar; now rewrite Hc). clear Hc Hr. revert E HA. generalize (String c r) as w. induction a as [|a0 a IH]; intros w E HA; destruct w as [|w0 w]; cbn [append] in E.
        - subst rest. auto. - injection E as -> E. inversion HA; auto.
        - exfalso. destruct rest as [|x rest]; [discriminate|]. injection E as -> E. inversion Ha; subst. assert (is_digit a0 = false) by (clear - HF; revert a0 HF; apply char_neg; vm_compute; reflexivity). congruence.
        - injection E as -> E. inversion HA; subst. inversion Ha; subst. eapply IH; eauto. }
      + assert (ceqb e "_" = true) as K2 by (unfold or_bar in K; rewrite He in K; exact K). apply ceqb_true in K2 as ->. auto.
      + repeat split; clear - K; revert e K; apply char_neg; vm_compute; reflexivity. }
    assert (span is_digit (String c r ++ rest) = (a, z)) as SP by (rewrite E; apply span_app; auto; destruct z; cbn; tauto).
    cbn [append] in *. unfold lex1. rewrite (no_blank _ HP). destruct (no_special c (r ++ rest) HP) as (-> & -> & -> & ->).
    assert (m_float (String c (r ++ rest)) = None) as ->.
    { unfold m_float. rewrite SP. destruct z as [|e z]; auto. destruct Hz as (_ & -> & _ & He). destruct a; auto. rewrite no_exp by auto. reflexivity. }
    assert (forall sg base f m, m_based sg base f m (String c (r ++ rest)) = None) as KB by (intros; unfold m_based; rewrite SP; destruct z as [|e z]; auto; destruct Hz as (_ & _ & -> & _); reflexivity).
    unfold number_rules. cbn [first_rule]. rewrite !KB. unfold m_plain. rewrite Hc, span_app by auto. reflexivity.
  - unsigned_case b HF.
  - unsigned_case b HF.
  - unsigned_case b HF.
  - unsigned_case b HF.
  - assert (sbin_first d = true) as Hd' by (destruct d as [[] [] [] [] [] [] [] []]; first [reflexivity|vm_compute in Hd; discriminate Hd|exfalso; apply Hx; reflexivity]). signed_case b g HF.
  - signed_case b g HF.
  - signed_case b g HF.
  - signed_case b g HF.
Qed.
