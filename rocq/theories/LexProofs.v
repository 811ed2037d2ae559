(** LexProofs.v - tokens, lines and directives. *)
From Verif Require Import Base LexModel LexSpec.
Require Import Coq.Strings.Ascii.
Local Open Scope string_scope.

Lemma ceqb_true a b : ceqb a b = true <-> a = b.
Proof. apply Ascii.eqb_eq. Qed.
Lemma app_assoc_s a b c : (a ++ b) ++ c = a ++ b ++ c.
Proof. induction a as [|x a IH]; cbn; congruence. Qed.
Lemma app_nil_s a : a ++ "" = a.
Proof. induction a as [|x a IH]; cbn; congruence. Qed.
Lemma length_app_s a b : String.length (a ++ b) = String.length a + String.length b.
Proof. induction a as [|x a IH]; cbn; auto. Qed.
Lemma nl_code c : ceqb c NL = Nat.eqb (nat_of_ascii c) 10.
Proof.
  destruct (ceqb c NL) eqn:E; [apply ceqb_true in E as ->; reflexivity|]. symmetry. apply Nat.eqb_neq. intros H. assert (c = NL) as ->; [|rewrite (proj2 (ceqb_true NL NL) eq_refl) in E; discriminate].
  rewrite <- (ascii_nat_embedding c), H. reflexivity.
Qed.
Lemma newlines_count s : newlines s = count_nl s.
Proof. unfold count_nl. induction s as [|c s IH]; auto. cbn [newlines list_ascii_of_string filter]. rewrite IH, nl_code. destruct (Nat.eqb _ 10); reflexivity. Qed.
Lemma newlines_app a b : newlines (a ++ b) = newlines a + newlines b.
Proof. induction a as [|c a IH]; cbn [newlines append]; auto. rewrite IH. lia. Qed.

Lemma span_ok p s a b : span p s = (a, b) -> s = a ++ b /\ all_chars p a.
Proof.
  revert a b. induction s as [|c s IH]; cbn; intros a b H; [injection H as <- <-; split; [auto|constructor]|].
  destruct (p c) eqn:E; [|injection H as <- <-; split; [auto|constructor]]. destruct (span p s) as [a' b']. injection H as <- <-. destruct (IH _ _ eq_refl) as [-> K]. split; auto. constructor; auto.
Qed.
Lemma span_stop p s a b c r : span p s = (a, b) -> b = String c r -> p c = false.
Proof.
  revert a b. induction s as [|d s IH]; cbn; intros a b H E; [injection H as <- <-; discriminate|].
  destruct (p d) eqn:F; [|injection H as <- <-; injection E as <- <-; auto]. destruct (span p s) as [a' b'] eqn:G. injection H as <- <-. eapply IH; eauto.
Qed.
Lemma strip_ok p s r : strip p s = Some r -> s = p ++ r.
Proof.
  revert s. induction p as [|a p IH]; intros [|b s] H; cbn [strip] in H; try discriminate; try (injection H as <-; reflexivity). destruct (ceqb a b) eqn:E; [|discriminate].
  apply ceqb_true in E as ->. apply IH in H as ->. reflexivity.
Qed.
Lemma strip_app p r : strip p (p ++ r) = Some r.
Proof. induction p as [|a p IH]; cbn [strip append]; auto. rewrite (proj2 (ceqb_true a a) eq_refl). auto. Qed.
Lemma newlines_none p a : p NL = false -> all_chars p a -> newlines a = 0.
Proof.
  intros HP H. induction a as [|c a IH]; auto. inversion H; subst. cbn [newlines]. rewrite IH by auto. destruct (ceqb c NL) eqn:E; auto. apply ceqb_true in E as ->. congruence.
Qed.

(** Every matcher splits the text. *)
Definition splits (m : string -> option (string * string)) : Prop := forall s a b, m s = Some (a, b) -> s = a ++ b /\ a <> "".
Definition plain (m : string -> option (string * string)) : Prop := forall s a b, m s = Some (a, b) -> s = a ++ b /\ a <> "" /\ newlines a = 0.

Lemma to_newline_ok s a b : to_newline s = Some (a, b) -> exists body, a = body ++ String NL "" /\ newlines body = 0 /\ s = a ++ b.
Proof.
  revert a b. induction s as [|c s IH]; cbn [to_newline]; intros a b H; [discriminate|]. destruct (ceqb c NL) eqn:E.
  - injection H as <- <-. apply ceqb_true in E as ->. exists "". auto.
  - destruct (to_newline s) as [[a' b']|]; [|discriminate]. injection H as <- <-. destruct (IH _ _ eq_refl) as (body & -> & K1 & ->). exists (String c body). cbn [append newlines]. rewrite E. auto.
Qed.
Lemma to_close_ok s a b : to_close s = Some (a, b) -> exists body, a = body ++ "*/" /\ s = a ++ b /\ (forall x y, body ++ "*" <> x ++ "*/" ++ y).
Proof.
  revert a b. induction s as [|c s IH]; intros a b H; [discriminate|]. cbn [to_close] in H. destruct (strip "*/" (String c s)) as [r'|] eqn:E.
  - injection H as <- <-. apply strip_ok in E. exists "". split; auto. split; auto. intros [|x0 x] y K; cbn in K; [discriminate|]. injection K as _ K. destruct x; discriminate.
  - destruct (to_close s) as [[a' b']|]; [|discriminate]. injection H as <- <-. destruct (IH _ _ eq_refl) as (body & -> & -> & K). exists (String c body). split; auto. split; auto.
    intros [|x0 x] y J; cbn in J; [|injection J as _ J; exact (K _ _ J)].
    destruct body as [|d body]; cbn in J; [discriminate|]. injection J as -> -> _. cbn in E. discriminate.
Qed.
Lemma m_directive_ok s a b : m_directive s = Some (a, b) -> exists body, a = "`" ++ body ++ String NL "" /\ newlines body = 0 /\ s = a ++ b.
Proof.
  unfold m_directive. destruct (strip "`" s) as [r|] eqn:E; [|discriminate]. apply strip_ok in E as ->. destruct (to_newline r) as [[x y]|] eqn:F; cbn; [|discriminate]. intros H. injection H as <- <-.
  destruct (to_newline_ok _ _ _ F) as (body & -> & K & ->). exists body. auto.
Qed.
Lemma m_linecomment_ok s a b : m_linecomment s = Some (a, b) -> exists body, a = "//" ++ body ++ String NL "" /\ newlines body = 0 /\ s = a ++ b.
Proof.
  unfold m_linecomment. destruct (strip "//" s) as [r|] eqn:E; [|discriminate]. apply strip_ok in E as ->. destruct (to_newline r) as [[x y]|] eqn:F; cbn; [|discriminate]. intros H. injection H as <- <-.
  destruct (to_newline_ok _ _ _ F) as (body & -> & K & ->). exists body. auto.
Qed.
Lemma m_comment_ok s a b : m_comment s = Some (a, b) -> exists body, a = "/*" ++ body ++ "*/" /\ s = a ++ b /\ (forall x y, body ++ "*" <> x ++ "*/" ++ y).
Proof.
  unfold m_comment. destruct (strip "/*" s) as [r|] eqn:E; [|discriminate]. apply strip_ok in E as ->. destruct (to_close r) as [[x y]|] eqn:F; cbn; [|discriminate]. intros H. injection H as <- <-.
  destruct (to_close_ok _ _ _ F) as (body & -> & -> & K). exists body. auto.
Qed.
Lemma str_body_ok n : forall s a b, String.length s <= n -> str_body s = Some (a, b) -> s = a ++ b /\ newlines a = 0 /\ a <> "".
Proof.
  induction n as [|n IH]; intros [|c s] a b Hn H; try discriminate; cbn in Hn; try lia. cbn [str_body] in H. destruct (ceqb c QUOTE) eqn:E1.
  - injection H as <- <-. apply ceqb_true in E1 as ->. repeat split; auto; discriminate.
  - destruct (ceqb c "\") eqn:E2.
    + destruct s as [|d s]; [discriminate|]. destruct (esc_char d) eqn:E3; [|discriminate]. destruct (str_body s) as [[x y]|] eqn:F; [|discriminate]. injection H as <- <-.
      cbn in Hn. destruct (IH s x y ltac:(lia) F) as (-> & K & _). apply ceqb_true in E2 as ->. split; auto. split; [|discriminate]. cbn [newlines]. destruct (ceqb d NL) eqn:G; [|cbn; exact K]. apply ceqb_true in G as ->. discriminate.
    + destruct (ceqb c NL) eqn:E3; [discriminate|]. destruct (str_body s) as [[x y]|] eqn:F; [|discriminate]. injection H as <- <-. destruct (IH s x y ltac:(lia) F) as (-> & K & _).
      split; auto. split; [|discriminate]. cbn [newlines]. rewrite E3. exact K.
Qed.
Lemma m_string_plain : plain m_string.
Proof.
  intros [|c s] a b H; [discriminate|]. unfold m_string in H. destruct (ceqb c QUOTE) eqn:E; [|discriminate]. destruct (str_body s) as [[x y]|] eqn:F; [|discriminate]. cbn in H. injection H as <- <-.
  destruct (str_body_ok _ _ _ _ (le_n _) F) as (-> & K & _). apply ceqb_true in E as ->. repeat split; auto. discriminate.
Qed.
Lemma m_exp_plain : plain m_exp.
Proof.
  intros [|c s] a b H; [discriminate|]. unfold m_exp in H. destruct (one_of "eE" c) eqn:E; [|discriminate].
  destruct (match s with String d r' => if one_of "+-" d then (String d "", r') else ("", s) | "" => ("", s) end) as [sg r1] eqn:Q.
  assert (s = sg ++ r1 /\ newlines sg = 0) as [-> Hq].
  { destruct s as [|d s]; [injection Q as <- <-; auto|]. destruct (one_of "+-" d) eqn:F; injection Q as <- <-; auto. split; auto. cbn [newlines]. destruct (ceqb d NL) eqn:G; auto. apply ceqb_true in G as ->. discriminate. }
  destruct (span is_digit r1) as [ds r2] eqn:F. destruct (span_ok _ _ _ _ F) as [-> K]. destruct ds as [|d ds]; [discriminate|]. injection H as <- <-.
  split; [cbn; now rewrite app_assoc_s|]. split; [discriminate|]. cbn [newlines]. rewrite newlines_app, Hq, (newlines_none is_digit) by (auto; reflexivity). destruct (ceqb c NL) eqn:G; auto. apply ceqb_true in G as ->. discriminate.
Qed.
Lemma m_float_plain : plain m_float.
Proof.
  intros s a b H. unfold m_float in H. destruct (span is_digit s) as [ds r] eqn:F. destruct (span_ok _ _ _ _ F) as [-> K]. pose proof (newlines_none is_digit ds eq_refl K) as N. destruct r as [|c r1]; [discriminate|].
  destruct (ceqb c ".") eqn:E.
  - destruct (span is_digit r1) as [fs r2] eqn:G. destruct (span_ok _ _ _ _ G) as [-> K2]. pose proof (newlines_none is_digit fs eq_refl K2) as N2.
    assert (Some (opt_exp (ds ++ String c fs) r2) = Some (a, b)) as H' by (destruct fs, ds; [discriminate|exact H..]). clear H. injection H' as H'. unfold opt_exp in H'.
    assert (newlines (ds ++ String c fs) = 0) as N3 by (rewrite newlines_app; cbn [newlines]; apply ceqb_true in E as ->; cbn; lia).
    assert (ds ++ String c fs <> "") as N4 by (destruct ds; discriminate).
    destruct (m_exp r2) as [[x y]|] eqn:X.
    + injection H' as <- <-. destruct (m_exp_plain _ _ _ X) as (-> & _ & N5). split; [rewrite !app_assoc_s; reflexivity|]. split; [destruct ds; discriminate|]. rewrite newlines_app. lia.
    + injection H' as <- <-. split; [rewrite app_assoc_s; reflexivity|]. auto.
  - destruct ds as [|d ds]; [discriminate|]. destruct (m_exp (String c r1)) as [[x y]|] eqn:X; [|discriminate]. cbn in H. injection H as <- <-. destruct (m_exp_plain _ _ _ X) as (-> & _ & N5).
    split; [cbn; now rewrite app_assoc_s|]. split; [discriminate|]. change (String d (ds ++ x)) with (String d ds ++ x). rewrite newlines_app. lia.
Qed.
Lemma m_based_plain sg base first more : (forall c, one_of base c = true -> ceqb c NL = false) -> first NL = false -> more NL = false -> plain (m_based sg base first more).
Proof.
  intros HB HF HM s a b H. unfold m_based in H. destruct (span is_digit s) as [ds r] eqn:F. destruct (span_ok _ _ _ _ F) as [-> K]. pose proof (newlines_none is_digit ds eq_refl K) as N. destruct r as [|q r0]; [discriminate|].
  destruct (ceqb q "'") eqn:E; [|discriminate]. apply ceqb_true in E as ->.
  set (z := if sg then _ else _) in H. assert (exists pre r1, z = Some (pre, r1) /\ String "'" r0 = pre ++ r1 /\ newlines pre = 0) as (pre & r1 & Ez & Er & Np).
  { subst z. destruct sg; [|exists "'", r0; auto]. destruct r0 as [|c r1]; [discriminate|]. destruct (one_of "sS" c) eqn:E; [|discriminate]. exists (String "'" (String c "")), r1. split; auto. split; auto. cbn [newlines]. destruct (ceqb c NL) eqn:G; auto. apply ceqb_true in G as ->. discriminate. }
  rewrite Ez in H. clear z Ez. destruct r1 as [|b0 [|f r2]]; try discriminate. destruct (one_of base b0 && first f) eqn:E; [|discriminate]. apply andb_true_iff in E as [E1 E2].
  destruct (span more r2) as [x rest] eqn:G. injection H as <- <-. destruct (span_ok _ _ _ _ G) as [-> K2]. rewrite Er.
  split; [rewrite !app_assoc_s; reflexivity|]. split; [destruct ds; [destruct pre|]; discriminate|]. rewrite !newlines_app. cbn [newlines]. rewrite (HB _ E1), N, Np, (newlines_none more) by auto. destruct (ceqb f NL) eqn:J; auto. apply ceqb_true in J as ->. congruence.
Qed.
Lemma m_plain_plain : plain m_plain.
Proof.
  intros [|c s] a b H; [discriminate|]. unfold m_plain in H. destruct (is_digit c) eqn:E; [|discriminate]. destruct (span _ s) as [x y] eqn:F. injection H as <- <-. destruct (span_ok _ _ _ _ F) as [-> K].
  split; auto. split; [discriminate|]. cbn [newlines]. rewrite (newlines_none (or_bar is_digit)) by (auto; reflexivity). destruct (ceqb c NL) eqn:G; auto. apply ceqb_true in G as ->. discriminate.
Qed.
Lemma number_plain s k a b : first_rule number_rules s = Some (k, (a, b)) -> s = a ++ b /\ a <> "" /\ newlines a = 0.
Proof.
  assert (Forall (fun r => plain (snd r)) number_rules) as HF.
  { repeat (constructor; [cbn [snd]; try apply m_plain_plain; try (apply m_based_plain; try reflexivity; intros c Hc; destruct (ceqb c NL) eqn:G; auto; apply ceqb_true in G as ->; discriminate)|]). constructor. }
  revert HF. generalize number_rules as rules. intros rules HF. induction HF as [|[k0 m] r Hm HF IH]; cbn [first_rule]; [discriminate|]. cbn [snd] in Hm.
  destruct (m s) as [x|] eqn:E; [|exact IH]. intros H. injection H as -> ->. exact (Hm _ _ _ E).
Qed.
Lemma m_id_plain : plain m_id.
Proof.
  intros [|c s] a b H; [discriminate|]. unfold m_id in H. destruct (id_start c) eqn:E.
  - destruct (span id_char s) as [x y] eqn:F. injection H as <- <-. destruct (span_ok _ _ _ _ F) as [-> K]. split; auto. split; [discriminate|]. cbn [newlines]. rewrite (newlines_none id_char) by (auto; reflexivity). destruct (ceqb c NL) eqn:G; auto. apply ceqb_true in G as ->. discriminate.
  - destruct (ceqb c "\") eqn:E2; [|discriminate]. apply ceqb_true in E2 as ->. destruct (span _ s) as [x y] eqn:F. destruct (span_ok _ _ _ _ F) as [-> K]. destruct x as [|d x]; [discriminate|]. injection H as <- <-. split; auto. split; [discriminate|].
    change (newlines (String "\" (String d x))) with (newlines (String d x)). eapply newlines_none; [|exact K]. reflexivity.
Qed.
Lemma m_newline_ok s a b : m_newline s = Some (a, b) -> s = a ++ b /\ a <> "" /\ all_chars (fun c => ceqb c NL) a.
Proof.
  unfold m_newline. destruct (span (fun c => ceqb c NL) s) as [x y] eqn:F. destruct (span_ok _ _ _ _ F) as [-> K]. destruct x as [|c x]; [discriminate|]. intros H. injection H as <- <-. split; auto. split; [discriminate|exact K].
Qed.
Lemma m_punct_ok s p a b : m_punct punct_table s = Some (p, (a, b)) -> s = a ++ b /\ a = punct_text p.
Proof.
  assert (Forall (fun e => fst e = punct_text (snd e)) punct_table) as HF by (repeat (constructor; [reflexivity|]); constructor).
  revert HF. generalize punct_table as table. intros table HF. induction HF as [|[t q] r Hm HF IH]; cbn [m_punct]; [discriminate|].
  destruct (strip t s) as [x|] eqn:E; [|exact IH]. intros H. injection H as <- <- <-. apply strip_ok in E. cbn in Hm. auto.
Qed.
Lemma id_token_text s : text_of (id_token s) = s.
Proof. unfold id_token. destruct (existsb _ _); reflexivity. Qed.

(** One match. *)
Lemma lex1_ok s k a b : lex1 s = Some (k, (a, b)) -> s = a ++ b /\ a <> "" /\
  match k with
  | Blank => In a [" "; String TAB ""]
  | Directive => exists body, a = "`" ++ body ++ String NL "" /\ newlines body = 0
  | Comment => (exists body, a = "//" ++ body ++ String NL "" /\ newlines body = 0) \/ (exists body, a = "/*" ++ body ++ "*/" /\ (forall x y, body ++ "*" <> x ++ "*/" ++ y))
  | Newline => all_chars (fun c => ceqb c NL) a
  | Token t => text_of t = a /\ newlines a = 0
  end.
Proof.
  unfold lex1. destruct s as [|c s]; [discriminate|]. set (w := String c s).
  destruct (one_of (String TAB " ") c) eqn:E0.
  { intros H. injection H as <- <- <-. split; [reflexivity|]. split; [discriminate|]. unfold one_of in E0. cbn [list_ascii_of_string existsb] in E0. rewrite orb_false_r in E0. apply orb_true_iff in E0 as [E0|E0]; apply ceqb_true in E0 as ->; [right; left|left]; reflexivity. }
  destruct (m_directive w) as [[x y]|] eqn:E1. { intros H. injection H as <- <- <-. destruct (m_directive_ok _ _ _ E1) as (body & -> & K & K2). split; auto. split; [discriminate|]. eauto. }
  destruct (m_linecomment w) as [[x y]|] eqn:E2. { intros H. injection H as <- <- <-. destruct (m_linecomment_ok _ _ _ E2) as (body & -> & K & K2). split; auto. split; [discriminate|]. left. eauto. }
  destruct (m_comment w) as [[x y]|] eqn:E3. { intros H. injection H as <- <- <-. destruct (m_comment_ok _ _ _ E3) as (body & -> & K & K2). split; auto. split; [discriminate|]. right. eauto. }
  destruct (m_string w) as [[x y]|] eqn:E4. { intros H. injection H as <- <- <-. destruct (m_string_plain _ _ _ E4) as (K1 & K2 & K3). auto. }
  destruct (m_float w) as [[x y]|] eqn:E5. { intros H. injection H as <- <- <-. destruct (m_float_plain _ _ _ E5) as (K1 & K2 & K3). auto. }
  destruct (first_rule number_rules w) as [[k0 [x y]]|] eqn:E6. { intros H. injection H as <- <- <-. destruct (number_plain _ _ _ _ E6) as (K1 & K2 & K3). auto. }
  destruct (m_id w) as [[x y]|] eqn:E7. { intros H. injection H as <- <- <-. destruct (m_id_plain _ _ _ E7) as (K1 & K2 & K3). rewrite id_token_text. auto. }
  destruct (m_newline w) as [[x y]|] eqn:E8. { intros H. injection H as <- <- <-. destruct (m_newline_ok _ _ _ E8) as (K1 & K2 & K3). auto. }
  destruct (m_punct punct_table w) as [[p [x y]]|] eqn:E9; [|discriminate]. intros H. injection H as <- <- <-. destruct (m_punct_ok _ _ _ _ E9) as (K1 & K2). split; auto. subst x. split; [destruct p; discriminate|]. split; auto. destruct p; reflexivity.
Qed.

Lemma filler_app a b : filler a -> filler b -> filler (a ++ b).
Proof.
  induction 1 as [|c s Hc H IH|body s Hb H IH|body s Hb H IH|body s Hb H IH]; intros HB; auto.
  - cbn. constructor; auto.
  - rewrite !app_assoc_s. cbn [append]. apply f_line; auto.
  - rewrite !app_assoc_s. cbn [append]. apply f_directive; auto.
  - rewrite !app_assoc_s. cbn [append]. apply f_comment; auto.
Qed.
Lemma lex1_filler s k a b : lex1 s = Some (k, (a, b)) -> match k with Token _ => False | _ => True end -> filler a.
Proof.
  intros H Hk. destruct (lex1_ok _ _ _ _ H) as (_ & _ & K). destruct k as [| | | |t]; [| | | |contradiction].
  - destruct K as [<-|[<-|[]]]; (apply f_blank; [cbn; tauto|constructor]).
  - destruct K as (body & -> & K). rewrite newlines_count in K. apply (f_directive body ""); [auto|constructor].
  - destruct K as [(body & -> & K)|(body & -> & K)]; [rewrite newlines_count in K; apply (f_line body ""); [auto|constructor]|]. rewrite <- (app_nil_s (body ++ "*/")), app_assoc_s. apply f_comment; [auto|constructor].
  - clear H. induction a as [|c a IH]; [constructor|]. inversion K as [|? ? K1 K2]; subst. apply ceqb_true in K1 as ->. apply f_blank; [cbn; tauto|]. apply IH. exact K2.
Qed.
Lemma laid_out_filler g s ts : filler g -> laid_out s ts -> laid_out (g ++ s) ts.
Proof.
  intros Hg H. inversion H as [g' Hg'|g' t s' ts' Hg' Ht Hs]; subst; [constructor; now apply filler_app|]. rewrite <- app_assoc_s. apply lo_token; auto. now apply filler_app.
Qed.

(** Everything about one run: [pre] is the text before. *)
Lemma lex_go_ok fuel : forall pre s l, lex_go fuel (1 + newlines pre) (String.length pre) s = Ok l ->
  laid_out s (map lt_tok (l_tokens l)) /\
  Forall (fun t => at_place (pre ++ s) (text_of (lt_tok t)) (lt_line t) (lt_pos t)) (l_tokens l) /\
  Forall (fun d => exists pos, at_place (pre ++ s) (snd d) (fst d) pos) (l_directives l) /\
  l_line l = 1 + newlines (pre ++ s).
Proof.
  induction fuel as [|fuel IH]; intros pre s l H; [discriminate|]. cbn [lex_go] in H. destruct s as [|c s]; [injection H as <-; repeat split; cbn; try constructor; try constructor; now rewrite app_nil_s|].
  set (w := String c s) in *. clearbody w. clear c s. destruct (lex1 w) as [[k [a b]]|] eqn:E; [|discriminate]. destruct (lex1_ok _ _ _ _ E) as (Ew & Ha & K).
  set (line' := match k with Directive | Comment | Newline => _ | _ => _ end) in H.
  assert (line' = 1 + newlines (pre ++ a)) as HL. { rewrite newlines_app. subst line'. destruct k; try lia. - destruct K as [<-|[<-|[]]]; cbn; lia. }
  rewrite HL, <- length_app_s in H. apply bind_ok in H as (l0 & H0 & H). destruct (IH (pre ++ a) b l0 H0) as (I1 & I2 & I3 & I4). rewrite app_assoc_s, <- Ew in I2, I3, I4.
  pose proof (lex1_filler _ _ _ _ E) as HF. destruct k as [| | | |t]; try (injection H as <-; split; [rewrite Ew; apply laid_out_filler; auto|solve [auto]]).
  - injection H as <-. cbn [l_tokens l_directives l_line]. split; [rewrite Ew; apply laid_out_filler; auto|]. split; [auto|]. split; [|auto]. constructor; auto. exists (String.length pre), pre, b. cbn [fst snd]. rewrite Ew. split; auto. split; auto. now rewrite newlines_count.
  - injection H as <-. destruct K as [K1 K2]. cbn [l_tokens l_directives l_line map lt_tok]. split; [|split; [|auto]].
    + rewrite Ew, <- K1. apply (lo_token "" t b _ f_nil); auto. congruence.
    + constructor; auto. exists pre, b. cbn [lt_tok lt_line lt_pos]. rewrite K1, Ew. split; auto. split; auto. now rewrite newlines_count.
Qed.
Theorem lex_ok s l : lex 1 s = Ok l ->
  laid_out s (map lt_tok (l_tokens l)) /\
  Forall (fun t => at_place s (text_of (lt_tok t)) (lt_line t) (lt_pos t)) (l_tokens l) /\
  Forall (fun d => exists pos, at_place s (snd d) (fst d) pos) (l_directives l) /\
  l_line l = 1 + count_nl s.
Proof. intros H. rewrite <- newlines_count. exact (lex_go_ok _ "" s l H). Qed.
(** Never out of fuel. *)
Lemma lex_go_total fuel : forall line pos s, String.length s < fuel -> lex_go fuel line pos s <> Err OutOfFuel.
Proof.
  induction fuel as [|fuel IH]; intros line pos s Hs; [lia|]. cbn [lex_go]. destruct s as [|c s]; [discriminate|]. set (w := String c s) in *. clearbody w. destruct (lex1 w) as [[k [a b]]|] eqn:E; [|discriminate].
  destruct (lex1_ok _ _ _ _ E) as (-> & Ha & _). rewrite length_app_s in Hs. destruct a as [|a0 a]; [congruence|]. cbn [String.length] in Hs.
  set (line' := match k with Directive | Comment | Newline => _ | _ => _ end). destruct (lex_go fuel line' _ b) as [l0|e] eqn:F; cbn [bind]; [destruct k; discriminate|]. intros K. injection K as ->. revert F. apply IH. lia.
Qed.
Theorem lex_total line s : (exists l, lex line s = Ok l) \/ lex line s = Err ParseError.
Proof.
  assert (forall fuel line pos s e, lex_go fuel line pos s = Err e -> e = OutOfFuel \/ e = ParseError) as K.
  { induction fuel as [|fuel IH]; intros line0 pos s0 e H; [injection H as <-; auto|]. cbn [lex_go] in H. destruct s0 as [|c s0]; [discriminate|]. destruct (lex1 _) as [[k [a b]]|]; [|injection H as <-; auto].
    set (line' := match k with Directive | Comment | Newline => _ | _ => _ end) in H. destruct (lex_go fuel line' _ b) as [l0|e0] eqn:F; cbn [bind] in H; [destruct k; discriminate|]. injection H as ->. eauto. }
  unfold lex. destruct (lex_go _ line 0 s) as [l|e] eqn:E; [eauto|]. right. destruct (K _ _ _ _ _ E) as [->| ->]; auto. exfalso. revert E. apply lex_go_total. lia.
Qed.
