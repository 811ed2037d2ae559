(** ExprSound.v - every tree the parser delivers is the tree of a Verilog expression. *)
From Verif Require Import Base DfModel LexModel LexSpec LexProofs ExprModel ParseModel ExprSpec ExprLex.
Require Import Coq.Strings.Ascii.
Local Open Scope string_scope.

(** ** Tokens *)
Definition tvalid (t : token) : Prop := match t with ID s => simple_id s \/ escaped_id s | INT k s => number k s | _ => True end.
Lemma based_shape sg base first more s a b : m_based sg base first more s = Some (a, b) ->
  exists ds q c d r, all_chars is_digit ds /\ sign_text sg q /\ one_of base c = true /\ first d = true /\ all_chars more r /\ a = ds ++ String "'" (q ++ String c (String d r)).
Proof.
  unfold m_based. destruct (span is_digit s) as [ds r0] eqn:E. apply span_ok in E as [_ Hd]. destruct r0 as [|q r0]; [discriminate|]. destruct (ceqb q "'") eqn:EQ; [|discriminate]. apply ceqb_true in EQ as ->.
  assert (forall pre r1, (exists q, sign_text sg q /\ pre = String "'" q) -> match r1 with String b0 (String f r2) => if one_of base b0 && first f then let (a0, rest) := span more r2 in Some (ds ++ pre ++ String b0 (String f a0), rest) else None | _ => None end = Some (a, b) ->
    exists ds q c d r, all_chars is_digit ds /\ sign_text sg q /\ one_of base c = true /\ first d = true /\ all_chars more r /\ a = ds ++ String "'" (q ++ String c (String d r))) as K.
  { intros pre r1 (q & Hq & ->) H. destruct r1 as [|c [|d r2]]; try discriminate. destruct (one_of base c && first d) eqn:EC; [|discriminate]. apply andb_true_iff in EC as [E1 E2]. destruct (span more r2) as [a0 rest] eqn:ES. apply span_ok in ES as [_ HS]. injection H as <- <-. exists ds, q, c, d, a0. auto 10. }
  destruct sg.
  - destruct r0 as [|c r1]; [discriminate|]. destruct (one_of "sS" c) eqn:EC; [|discriminate]. apply K. exists (String c ""). split; auto. exists c. auto.
  - apply K. exists "". split; auto. reflexivity.
Qed.
Lemma number_sound s k a b : first_rule number_rules s = Some (k, (a, b)) -> number k a.
Proof.
  unfold number_rules. cbn [first_rule]. intros H.
  repeat (match type of H with match m_based ?sg ?base ?f ?m ?s with _ => _ end = _ => destruct (m_based sg base f m s) as [[x y]|] eqn:E; [injection H as <- <- <-; apply based_shape in E as (ds & q & c & d & r & H1 & H2 & H3 & H4 & H5 & ->)|clear E] end).
  - destruct H2 as (g & -> & Hg). apply n_sbin; auto; [clear - H4; revert d H4; apply LitProofs.char_imp; vm_compute; reflexivity|intros ->; discriminate H4].
  - cbn in H2. subst q. now apply n_bin.
  - destruct H2 as (g & -> & Hg). now apply n_soct.
  - cbn in H2. subst q. now apply n_oct.
  - destruct H2 as (g & -> & Hg). now apply n_shex.
  - cbn in H2. subst q. now apply n_hex.
  - destruct H2 as (g & -> & Hg). now apply n_sdec.
  - cbn in H2. subst q. now apply n_dec.
  - destruct (m_plain s) as [[x y]|] eqn:E; [|discriminate]. injection H as <- <- <-. destruct s as [|c s]; [discriminate|]. cbn [m_plain] in E. destruct (is_digit c) eqn:EC; [|discriminate]. destruct (span _ s) as [u v] eqn:ES. apply span_ok in ES as [_ HS]. injection E as <- <-. now apply n_plain.
Qed.
Lemma id_sound s a b : m_id s = Some (a, b) -> tvalid (id_token a).
Proof.
  destruct s as [|c s]; [discriminate|]. cbn [m_id]. unfold id_token. intros H. destruct (existsb (String.eqb a) reserved) eqn:ER; [exact I|]. assert (~ In a reserved) as HN by (rewrite <- in_reserved, ER; discriminate). cbn [tvalid].
  destruct (id_start c) eqn:EC.
  - destruct (span id_char s) as [x y] eqn:ES. apply span_ok in ES as [_ HS]. injection H as <- <-. left. exists c, x. auto.
  - destruct (ceqb c "\") eqn:E2; [|discriminate]. apply ceqb_true in E2 as ->. destruct (span _ s) as [x y] eqn:ES. apply span_ok in ES as [_ HS]. destruct x as [|d x]; [discriminate|]. injection H as <- <-. right. exists d, x. auto.
Qed.
Lemma lex1_sound s t a b : lex1 s = Some (Token t, (a, b)) -> tvalid t.
Proof.
  destruct s as [|c s]; [discriminate|]. unfold lex1. destruct (one_of _ c); [discriminate|]. destruct (m_directive _); [discriminate|]. destruct (m_linecomment _); [discriminate|]. destruct (m_comment _); [discriminate|].
  destruct (m_string _) as [x|]; [intros H; injection H as <- _; exact I|]. destruct (m_float _) as [x|]; [intros H; injection H as <- _; exact I|].
  destruct (first_rule number_rules _) as [[k [x y]]|] eqn:E; [intros H; injection H as <- <- <-; cbn [tvalid fst]; eapply number_sound; eassumption|]. clear E.
  destruct (m_id _) as [[x y]|] eqn:E; [intros H; injection H as <- <- <-; cbn [fst]; eapply id_sound; eassumption|]. destruct (m_newline _); [discriminate|].
  destruct (m_punct _ _) as [[p x]|]; [intros H; injection H as <- _; exact I|discriminate].
Qed.
Lemma lex_go_sound fuel : forall line pos s l, lex_go fuel line pos s = Ok l -> Forall tvalid (map lt_tok (l_tokens l)).
Proof.
  induction fuel as [|fuel IH]; intros line pos s l H; [discriminate|]. cbn [lex_go] in H. destruct s as [|c s]; [injection H as <-; constructor|].
  destruct (lex1 (String c s)) as [[k [a b]]|] eqn:E; [|discriminate]. apply bind_ok in H as (l0 & H0 & H). apply IH in H0. destruct k as [| | | |t]; injection H as <-; auto. cbn. constructor; auto. eapply lex1_sound; eassumption.
Qed.

(** ** The stack of the parser *)
Definition symwf (x : sym) : Prop :=
  match x with
  | ST t => tvalid t
  | SE e => written e
  | SId s => simple_id s \/ escaped_id s
  | SPtr e => written e /\ indexable e
  | SCat l => l <> [] /\ Forall written l
  | SList l => Forall written l
  end.
Fixpoint stack_ok (st : list sym) : Prop :=
  match st with
  | [] => True
  | x :: r => symwf x /\ (match x, r with SList l, ST (P LBRACE) :: _ => l <> [] | _, _ => True end) /\ stack_ok r
  end.
Definition act_ok (a : act) : Prop := match a with Shift => True | Reduce st => stack_ok st end.
Lemma stack_se e r : written e -> stack_ok r -> stack_ok (SE e :: r).
Proof. cbn. auto. Qed.
Lemma selected_ok v e : symwf v -> selected v = Some e -> written e /\ indexable e.
Proof. destruct v; cbn; intros H E; try discriminate; injection E as <-; auto. split; [now constructor|exact I]. Qed.
Lemma binary_sound p o : binary_op p = Some o -> is_unary o = false.
Proof. destruct p; intros H; try discriminate; injection H as <-; reflexivity. Qed.
Lemma unary_sound p f e : unary_op p = Some f -> written e -> written (f e).
Proof. destruct p; intros H; try discriminate; injection H as <-; auto; now constructor. Qed.
Lemma close_paren_ok r : stack_ok r -> act_ok (close_paren r).
Proof.
  intros H. destruct r as [|[t|e|s|e|l|l] [|[[[]| | | | |]| | | | |] r]]; try exact I; cbn [close_paren].
  - cbn in H. apply stack_se; tauto.
  - destruct r as [|[t|e|s|e|l'|l'] r]; try exact I.
    + destruct r as [|[[[]| | | | |]| | | | |] r]; try exact I. destruct (call_head t) as [f|] eqn:E; [|exact I]. cbn in H. cbn [act_ok]. apply stack_se; [|tauto]. constructor; [|tauto]. destruct t as [| | s| | |]; try discriminate E; cbn in E; [injection E as <-; cbn in H; tauto|]. destruct (String.eqb s "signed") eqn:ES; [|discriminate]. injection E as <-. right. now apply String.eqb_eq.
    + cbn in H. apply stack_se; [|tauto]. constructor; tauto.
Qed.
Lemma close_brace_ok r : stack_ok r -> act_ok (close_brace r).
Proof.
  intros H. destruct r as [|[t|e|s|e|l|l] r]; try exact I; cbn [close_brace].
  - destruct r as [|[t|n|s|e|l'|l'] [|[[[]| | | | |]| | | | |] r]]; try exact I. cbn in H. apply stack_se; [|tauto]. constructor; tauto.
  - destruct r as [|[[[]| | | | |]| | | | |] r]; try exact I. cbn in *. tauto.
Qed.
Lemma close_bracket_ok r : stack_ok r -> act_ok (close_bracket r).
Proof.
  intros H. destruct r as [|[t|e|s|e|l|l] [|[[p| | | | |]| | | | |] [|v r]]]; try exact I; destruct p; try exact I; cbn [close_bracket].
  1-3: destruct v as [t|m|s|x|l|l]; try exact I; destruct r as [|[[[]| | | | |]| | | | |] [|v r]]; try exact I; destruct (selected v) as [w|] eqn:E; [|exact I]; cbn [stack_ok symwf] in H; assert (symwf v) as HV by tauto; destruct (selected_ok _ _ HV E); cbn [act_ok]; apply stack_se; [|tauto]; constructor; try tauto; constructor; tauto || reflexivity.
  destruct (selected v) as [w|] eqn:E; [|exact I]. cbn [stack_ok symwf] in H. assert (symwf v) as HV by tauto. destruct (selected_ok _ _ HV E). cbn [act_ok stack_ok symwf]. split; [|tauto]. split; [constructor; tauto|exact I].
Qed.
Lemma after_expr_ok y r la : written y -> stack_ok r -> act_ok (after_expr y r la).
Proof.
  intros HY H. assert (forall p x r', stack_ok (ST (P p) :: SE x :: r') -> act_ok (match binary_op p with
      | Some o => match infix la with Some n => if Nat.ltb (prec p) n then Shift else Reduce (SE (XBin o x y) :: r') | None => Reduce (SE (XBin o x y) :: r') end | None => Shift end)) as KB.
  { intros p x r' HS. destruct (binary_op p) as [o|] eqn:E; [|exact I]. cbn in HS. assert (act_ok (Reduce (SE (XBin o x y) :: r'))) as K by (cbn [act_ok]; apply stack_se; [constructor; [eapply binary_sound; eassumption|tauto|tauto]|tauto]). destruct (infix la); [destruct (Nat.ltb _ _); [exact I|exact K]|exact K]. }
  assert (forall p r', stack_ok (ST (P p) :: r') -> act_ok (match unary_op p with Some f => Reduce (SE (f y) :: r') | None => Shift end)) as KU.
  { intros p r' HS. destruct (unary_op p) as [f|] eqn:E; [|exact I]. cbn [act_ok]. apply stack_se; [eapply unary_sound; eassumption|]. cbn in HS. tauto. }
  destruct r as [|[[p| | | | |]| | | | |] r]; try exact I.
  assert (p = LBRACE \/ p = LPAREN \/ p = COMMA \/ p = COLON \/ (p <> LBRACE /\ p <> LPAREN /\ p <> COMMA /\ p <> COLON)) as HP by (destruct p; auto; right; right; right; right; repeat split; discriminate).
  destruct HP as [->|[->|[->|[->|(N1 & N2 & N3 & N4)]]]].
  - cbn [after_expr]. destruct (ends_member la); [|exact I]. cbn [act_ok stack_ok symwf] in *. repeat split; auto; try tauto. discriminate.
  - assert (act_ok (if call_before r && ends_member la then Reduce (SList [y] :: ST (P LPAREN) :: r) else Shift)) as K by (destruct (call_before r && ends_member la); [cbn [act_ok stack_ok symwf] in *; auto|exact I]). destruct r as [|[] r]; exact K.
  - destruct r as [|[t|x|s|x|l|l] r]; try exact I. cbn [after_expr]. destruct (ends_member la); [|exact I]. cbn [act_ok stack_ok symwf] in *. split; [apply Forall_app; split; [tauto|constructor; auto]|]. split; [|tauto]. destruct r as [|[[[]| | | | |]| | | | |] r]; auto. destruct l; discriminate.
  - destruct r as [|[t|x|s|x|l|l] r]; try exact I. destruct r as [|[[p| | | | |]| | | | |] r]; try exact I; try (destruct p; exact I). destruct r as [|[t|c|s|c|l|l] r]; try (destruct p; exact I). destruct p; try exact I. cbn [after_expr]. destruct (infix la); [exact I|]. cbn [act_ok stack_ok symwf] in *. split; [|tauto]. constructor; tauto.
  - specialize (KU p r H). destruct r as [|[t|x|s|x|l|l] r]; [destruct p; congruence || exact KU|destruct p; congruence || exact KU|specialize (KB p x r H); destruct p; congruence || exact KB|..]; destruct p; congruence || exact KU.
Qed.
Lemma action_ok st la : stack_ok st -> act_ok (action st la).
Proof.
  intros H. destruct st as [|[t|e|s|e|l|l] r]; try exact I.
  - assert (stack_ok r) as HR by (cbn in H; tauto). assert (tvalid t) as HT by (cbn in H; tauto). destruct t as [p|s|s|s|s|k s]; try exact I.
    + destruct p; try exact I; [|now apply close_paren_ok|now apply close_bracket_ok|now apply close_brace_ok].
      cbn [action]. destruct la as [[p|s|s|s|s|k s]|]; try exact I. assert (act_ok (if call_before r then Reduce (SList [] :: ST (P LPAREN) :: r) else Shift)) as K by (destruct (call_before r); [cbn [act_ok stack_ok symwf] in *; auto|exact I]). destruct p; try exact I; exact K.
    + assert (act_ok (Reduce (SId s :: r))) as K by (cbn in *; auto). destruct r as [|[[p| | | | |]| | | | |] r]; try exact K. destruct p; try exact K. cbn [action].
      assert (act_ok (Reduce (SE (XSys s []) :: r))) as K2 by (cbn [act_ok]; apply stack_se; [constructor; [left; exact HT|constructor]|cbn in HR; tauto]). destruct la as [[p|x|x|x|x|k x]|]; try exact K2. destruct p; try exact K2. exact I.
    + cbn [action act_ok]. apply stack_se; auto. econstructor. exact HT.
  - cbn [action]. cbn in H. apply after_expr_ok; tauto.
  - cbn [action]. assert (act_ok (Reduce (SE (XId s) :: r))) as K by (cbn in H; cbn [act_ok]; apply stack_se; [constructor|]; tauto). destruct la as [[p|x|x|x|x|k x]|]; try exact K. destruct p; exact I || exact K.
  - cbn [action]. assert (act_ok (Reduce (SE e :: r))) as K by (cbn in H; cbn [act_ok]; apply stack_se; tauto). destruct la as [[p|x|x|x|x|k x]|]; try exact K. destruct p; exact I || exact K.
  - cbn [action]. assert (act_ok (Reduce (SE (XConcat l) :: r))) as K by (cbn in H; cbn [act_ok]; apply stack_se; [constructor|]; tauto). destruct r as [|[] [|[[p| | | | |]| | | | |] r]]; try exact K. destruct p; exact I || exact K.
Qed.
Lemma run_sound fuel : forall st input e, stack_ok st -> Forall tvalid input -> run fuel (st, input) = Ok e -> written e.
Proof.
  induction fuel as [|fuel IH]; intros st input e HS HI H; [discriminate|]. cbn [run] in H. pose proof (action_ok st (hd_error input) HS) as HA. cbn [step] in H. destruct (action st (hd_error input)) as [|st'].
  - destruct input as [|t input].
    + destruct st as [|[] [|]]; try discriminate. injection H as <-. cbn in HS. tauto.
    + inversion HI; subst. apply (IH (ST t :: st) input e (conj H2 (conj I HS)) H3 H).
  - apply (IH _ _ _ HA HI H).
Qed.
Theorem parse_sound fuel s e : parse_text fuel s = Ok e -> written e.
Proof.
  unfold parse_text, parse_tokens. intros H. apply bind_ok in H as (l & H1 & H2). apply (run_sound fuel [] (map lt_tok (l_tokens l)) e); auto; [exact I|]. eapply lex_go_sound; exact H1.
Qed.

Lemma written_good e : written e -> printable e = true -> good e.
Proof.
  assert (forall l, Forall written l -> forallb printable l = true -> Forall (fun e => printable e = true -> good e) l -> Forall good l) as KL.
  { induction l as [|x l IH]; intros HW HP HG; constructor; inversion HW; inversion HG; subst; cbn in HP; apply andb_true_iff in HP as [P1 P2]; auto. }
  revert e. fix F 2. assert (forall l, Forall written l -> Forall (fun e => printable e = true -> good e) l) as FL.
  { fix G 2. intros l HL. destruct HL as [|x l Hx HL]; constructor; [exact (F x Hx)|exact (G l HL)]. }
  intros e H. destruct H as [s H|k s H|o a H1 H2|o a b H1 H2 H3|c t f H1 H2 H3|l H1 H2|l m H1 H2 H3|v m l H1 H2 H3 H4|v p H1 H2 H3|f l H1 H2|f l H1 H2]; cbn [printable]; intros HP.
  - now constructor. - econstructor; eassumption.
  - constructor; auto; [intros ->; discriminate|]. apply (F a H2). destruct o; discriminate || exact HP.
  - assert (printable a && printable b = true) as HP2 by (destruct o; discriminate || exact HP). apply andb_true_iff in HP2 as [P1 P2]. constructor; auto. intros ->. discriminate.
  - apply andb_true_iff in HP as [HP P3]. apply andb_true_iff in HP as [P1 P2]. constructor; auto.
  - constructor; auto.
  - apply andb_true_iff in HP as [P1 P2]. constructor; auto. constructor; auto.
  - repeat (apply andb_true_iff in HP as [HP ?]). constructor; auto.
  - apply andb_true_iff in HP as [P1 P2]. constructor; auto.
  - constructor; auto.
  - apply andb_true_iff in HP as [P1 P2]. destruct H1 as [H1| ->]; [apply g_sys; auto|]. apply g_signed; auto. intros ->. discriminate.
Qed.
