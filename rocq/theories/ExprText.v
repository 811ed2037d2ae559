(** ExprText.v - the text of an expression as a list of pieces: tokens, blanks and newlines. *)
From Verif Require Import Base DfModel LexModel LexSpec LexProofs ExprModel ExprSpec ExprLex.
From Verif Require LitProofs.
Require Import Coq.Strings.Ascii.
Local Open Scope string_scope.
Local Notation "a +++ b" := (@app _ a b) (at level 60, right associativity).

Inductive piece := PT (t : token) | PB | PN.
Definition ptext (p : piece) : string := match p with PT t => text_of t | PB => " " | PN => String NL "" end.
Fixpoint render (l : list piece) : string := match l with [] => "" | p :: r => ptext p ++ render r end.
Fixpoint toks (l : list piece) : list token := match l with [] => [] | PT t :: r => t :: toks r | _ :: r => toks r end.
Lemma render_app a b : render (a +++ b) = render a ++ render b.
Proof. induction a as [|p a IH]; cbn [app render]; auto. now rewrite IH, app_assoc_s. Qed.
Lemma toks_app a b : toks (a +++ b) = toks a +++ toks b.
Proof. induction a as [|[t| |] a IH]; cbn; congruence. Qed.

(** ** Lexing pieces *)
Definition pok (p : piece) (s : string) : Prop :=
  match p with PT t => follows t s | PB | PN => True end.
Definition pvalid (p : piece) : Prop := match p with PT t => valid t | _ => True end.
Fixpoint lexable (l : list piece) : Prop := match l with [] => True | p :: r => pvalid p /\ pok p (render r) /\ lexable r end.

Lemma number_head k s : number k s -> exists c r, s = String c r /\ one_of "0123456789'" c = true.
Proof.
  assert (forall c, is_digit c = true -> one_of "0123456789'" c = true) as D by (apply LitProofs.char_imp; vm_compute; reflexivity).
  assert (forall ds x, all_chars is_digit ds -> exists c r, ds ++ "'" ++ x = String c r /\ one_of "0123456789'" c = true) as K.
  { intros [|c ds] x H; [exists "'"%char, x; auto|]. inversion H; subst. eexists c, _. split; [reflexivity|auto]. }
  destruct 1; auto. exists c, r. auto.
Qed.
Lemma id_head s : simple_id s \/ escaped_id s -> exists c r, s = String c r /\ (id_start c || ceqb c "\") = true.
Proof. intros [(c & r & -> & H & _)|(c & r & -> & _)]; eexists _, _; split; try reflexivity. now rewrite H. Qed.
Lemma valid_nonempty t : valid t -> text_of t <> "".
Proof.
  destruct t as [p|s|s|s|s|k s]; cbn [valid text_of]; intros H; try contradiction.
  - destruct p; discriminate.
  - destruct (id_head _ H) as (c & r & -> & _). discriminate.
  - intros ->. apply in_reserved in H. discriminate.
  - destruct (number_head _ _ H) as (c & r & -> & _). discriminate.
Qed.
Lemma lex1_token t rest : valid t -> follows t rest -> lex1 (text_of t ++ rest) = Some (Token t, (text_of t, rest)).
Proof.
  destruct t as [p|s|s|s|s|k s]; cbn [valid text_of]; intros H HF; try contradiction.
  - now apply lex1_punct. - now apply lex1_id. - now apply lex1_kw. - now apply lex1_int.
Qed.
Lemma lex1_newline s : stops (fun c => ceqb c NL) s -> lex1 (String NL s) = Some (Newline, (String NL "", s)).
Proof.
  intros H. unfold lex1. change (one_of (String TAB " ") NL) with false. cbn iota. destruct (no_special NL s eq_refl) as (-> & -> & -> & ->). rewrite no_float, no_number by reflexivity.
  assert (m_id (String NL s) = None) as -> by reflexivity. assert (m_newline (String NL s) = Some (String NL "", s)) as ->; [|reflexivity].
  unfold m_newline. change (String NL s) with (String NL "" ++ s). rewrite span_app; auto. repeat constructor.
Qed.
(** A run of newlines is one match. *)
Lemma lex1_newlines s : exists t rest, lex1 (String NL s) = Some (Newline, (t, rest)) /\ lex1 (String NL (String NL s)) = Some (Newline, (String NL t, rest)).
Proof.
  assert (forall s, exists t rest, span (fun c => ceqb c NL) s = (t, rest)) as K by (intros s'; destruct (span _ s'); eauto).
  assert (forall s t rest, span (fun c => ceqb c NL) s = (t, rest) -> lex1 (String NL s) = Some (Newline, (String NL t, rest))) as L.
  { clear. intros s t rest E. unfold lex1. change (one_of (String TAB " ") NL) with false. cbn iota. destruct (no_special NL s eq_refl) as (-> & -> & -> & ->). rewrite no_float, no_number by reflexivity.
    assert (m_id (String NL s) = None) as -> by reflexivity. unfold m_newline. cbn [span]. change (ceqb NL NL) with true. cbn iota. rewrite E. reflexivity. }
  destruct (K s) as (t & rest & E). exists (String NL t), rest. split; [now apply L|]. apply L. cbn [span]. change (ceqb NL NL) with true. cbn iota. now rewrite E.
Qed.
Lemma render_nonempty p l : lexable (p :: l) -> render (p :: l) <> "".
Proof.
  intros (H & _ & _). cbn [render]. destruct p as [t| |]; cbn [ptext]; try discriminate. apply valid_nonempty in H. destruct (text_of t); [congruence|discriminate].
Qed.
Lemma lex_pieces ps : forall fuel line pos, lexable ps -> (String.length (render ps) < fuel)%nat ->
  exists l, lex_go fuel line pos (render ps) = Ok l /\ map lt_tok (l_tokens l) = toks ps.
Proof.
  induction ps as [|p ps IH]; intros fuel line pos H HF; (destruct fuel as [|fuel]; [lia|]).
  - exists (Lexed [] [] line). auto.
  - assert (p = PN /\ (exists r, render ps = String NL r) \/ exists k, lex1 (render (p :: ps)) = Some (k, (ptext p, render ps)) /\ match p with PT t => k = Token t | PB => k = Blank | PN => k = Newline end) as [[-> (r & Er)]|(k & E & Hk)].
    { destruct H as (H1 & H2 & _). destruct p as [t| |]; cbn [render ptext pvalid pok] in *.
      - right. exists (Token t). split; auto. now apply lex1_token.
      - right. exists Blank. auto.
      - destruct (render ps) as [|c r] eqn:R; [right; exists Newline; split; auto; now apply lex1_newline|]. destruct (ceqb c NL) eqn:C; [apply ceqb_true in C as ->; left; eauto|].
        right. exists Newline. split; auto. cbn [append]. now apply lex1_newline. }
    { (* two newlines: one match takes both *)
      destruct H as (H1 & H2 & H3). cbn [render ptext append] in *. destruct (IH (S fuel) (line + 1)%nat (pos + 1)%nat H3) as (l & E2 & E3); [cbn [String.length] in HF; lia|].
      exists l. split; [|exact E3]. rewrite Er in *. destruct (lex1_newlines r) as (t & rest & K1 & K2). cbn [lex_go] in *. rewrite K1 in E2. rewrite K2. rewrite <- E2. cbn [newlines String.length]. change (ceqb NL NL) with true. cbn iota.
      replace (line + (1 + newlines t))%nat with (line + 1 + newlines t)%nat by lia. replace (pos + S (String.length t))%nat with (pos + 1 + String.length t)%nat by lia. reflexivity. }
    pose proof (render_nonempty _ _ H) as HN. destruct H as (H1 & H2 & H3).
    assert (String.length (render ps) < fuel)%nat as HL.
    { cbn [render] in HF. rewrite length_app_s in HF. assert (String.length (ptext p) <> 0)%nat; [|lia]. destruct p as [t| |]; try discriminate. cbn [pvalid ptext] in *. apply valid_nonempty in H1. now destruct (text_of t). }
    cbn [lex_go]. rewrite E. destruct (render (p :: ps)) as [|c r] eqn:R; [congruence|].
    destruct (IH fuel (match k with Directive | Comment | Newline => line + newlines (ptext p) | _ => line end) (pos + String.length (ptext p)) H3 HL) as (l & E2 & E3).
    rewrite E2. cbn [bind]. destruct p as [t| |]; subst k; [exists (Lexed (LTok t line pos :: l_tokens l) (l_directives l) (l_line l))|exists l|exists l]; (split; [reflexivity|]); cbn; congruence.
Qed.
Lemma lex_render ps : lexable ps -> exists l, lex 1 (render ps) = Ok l /\ map lt_tok (l_tokens l) = toks ps.
Proof. intros H. apply lex_pieces; auto. Qed.

(** Joining lexable lists. *)
Fixpoint joins (l : list piece) (s : string) : Prop := match l with [] => True | [p] => pok p s | _ :: r => joins r s end.
Lemma pok_app p a b : pok p a -> a <> "" -> pok p (a ++ b).
Proof. destruct a as [|c a]; [congruence|]. intros H _. destruct p; exact H. Qed.
Lemma lexable_app a b : lexable a -> lexable b -> joins a (render b) -> lexable (a +++ b).
Proof.
  induction a as [|p a IH]; auto. intros (H1 & H2 & H3) HB HJ. cbn [app lexable]. split; auto. destruct a as [|q a]; [cbn in *; auto|].
  split; [|apply IH; auto]. rewrite render_app. apply pok_app; auto. now apply render_nonempty.
Qed.
Lemma joins_app a b s : b <> [] -> joins (a +++ b) s = joins b s.
Proof. intros H. induction a as [|p a IH]; auto. cbn [app joins]. destruct (a +++ b) as [|q r] eqn:E; [destruct a; [cbn in E; congruence|discriminate]|auto]. Qed.

(** ** The pieces of an expression; [nb]: without blanks *)
Definition unary_punct (o : op) : punct :=
  match o with Uminus => MINUS | Ulnot => LNOT | Unot => NOT | Uand => AND | Unand => NAND | Uor => OR | Unor => NOR | Uxor => XOR | Uxnor => XNOR | _ => PLUS end.
Definition binary_punct (o : op) : punct :=
  match o with
  | Power => POWER | Times => TIMES | Divide => DIVIDE | Mod => MOD | Plus => PLUS | Minus => MINUS | Sll => LSHIFT | Srl => RSHIFT | Sla => LSHIFTA | Sra => RSHIFTA
  | LessThan => LT | GreaterThan => GT | LessEq => LE | GreaterEq => GE | Eq => EQ | NotEq => NE | Eql => EQL | NotEql => NEL
  | And => AND | Xor => XOR | Xnor => XNOR | Or => OR | Land => LAND | Lor => LOR | _ => PLUS
  end.
Definition int_tok (s : string) : token := match lex1 s with Some (Token t, _) => t | _ => INT DEC s end.
Definition sp (nb : bool) : list piece := if nb then [] else [PB].
Definition word (nb : bool) (s : string) : list piece := PT (id_token s) :: if escaped s then sp nb else [].
Definition wrapped (e : expr) : bool := match e with XUn _ _ | XBin _ _ _ | XCond _ _ _ => true | _ => false end.
Definition wrap (e : expr) (l : list piece) : list piece := if wrapped e then PT (P LPAREN) :: l +++ [PT (P RPAREN)] else l.
Fixpoint pjoin (nb : bool) (l : list (list piece)) : list piece := match l with [] => [] | [x] => x | x :: r => x +++ PT (P COMMA) :: sp nb +++ pjoin nb r end.
Fixpoint inner (nb : bool) (e : expr) : list piece :=
  match e with
  | XId s => word nb s
  | XInt s => [PT (int_tok s)]
  | XUn o a => PT (P (unary_punct o)) :: wrap a (inner nb a)
  | XBin o a b =>
      (if bare_left o a then inner nb a else wrap a (inner nb a)) +++ sp nb +++ PT (P (binary_punct o)) :: sp nb +++
      (if bare_right o b then inner nb b else wrap b (inner nb b))
  | XCond c t f =>
      PT (P LPAREN) :: inner nb c +++ PT (P RPAREN) :: PT (P COND) :: sp nb +++ inner nb t +++ sp nb +++ PT (P COLON) :: sp nb +++ (if is_cond f then [PN] else []) +++ inner nb f
  | XConcat l => PT (P LBRACE) :: sp nb +++ pjoin nb (map (inner nb) l) +++ sp nb +++ [PT (P RBRACE)]
  | XRepeat v n => PT (P LBRACE) :: sp nb +++ inner nb n +++ inner nb v +++ sp nb +++ [PT (P RBRACE)]
  | XPart v m l => inner nb v +++ PT (P LBRACKET) :: inner true m +++ PT (P COLON) :: inner true l +++ [PT (P RBRACKET)]
  | XPtr v p => inner nb v +++ PT (P LBRACKET) :: inner nb p +++ [PT (P RBRACKET)]
  | XCall f l => word nb f +++ PT (P LPAREN) :: pjoin nb (map (fun x => wrap x (inner nb x)) l) +++ [PT (P RPAREN)]
  | XSys f l => PT (P DOLLER) :: word nb f +++ match l with [] => [] | _ => PT (P LPAREN) :: pjoin nb (map (fun x => wrap x (inner nb x)) l) +++ [PT (P RPAREN)] end
  end.
Definition full (nb : bool) (e : expr) : list piece := wrap e (inner nb e).

(** ** Its tokens *)
Definition twrap (e : expr) (l : list token) : list token := if wrapped e then P LPAREN :: l +++ [P RPAREN] else l.
Fixpoint tjoin (l : list (list token)) : list token := match l with [] => [] | [x] => x | x :: r => x +++ P COMMA :: tjoin r end.
Fixpoint etoks (e : expr) : list token :=
  match e with
  | XId s => [id_token s]
  | XInt s => [int_tok s]
  | XUn o a => P (unary_punct o) :: twrap a (etoks a)
  | XBin o a b => (if bare_left o a then etoks a else twrap a (etoks a)) +++ P (binary_punct o) :: (if bare_right o b then etoks b else twrap b (etoks b))
  | XCond c t f => P LPAREN :: etoks c +++ P RPAREN :: P COND :: etoks t +++ P COLON :: etoks f
  | XConcat l => P LBRACE :: tjoin (map etoks l) +++ [P RBRACE]
  | XRepeat v n => P LBRACE :: etoks n +++ etoks v +++ [P RBRACE]
  | XPart v m l => etoks v +++ P LBRACKET :: etoks m +++ P COLON :: etoks l +++ [P RBRACKET]
  | XPtr v p => etoks v +++ P LBRACKET :: etoks p +++ [P RBRACKET]
  | XCall f l => id_token f :: P LPAREN :: tjoin (map (fun x => twrap x (etoks x)) l) +++ [P RPAREN]
  | XSys f l => P DOLLER :: id_token f :: match l with [] => [] | _ => P LPAREN :: tjoin (map (fun x => twrap x (etoks x)) l) +++ [P RPAREN] end
  end.

Fixpoint xsize (e : expr) : nat :=
  match e with
  | XId _ | XInt _ => 1 | XUn _ a => S (xsize a) | XBin _ a b => S (xsize a + xsize b) | XCond a b c => S (xsize a + xsize b + xsize c)
  | XConcat l => S (list_sum (map xsize l)) | XRepeat a b => S (xsize a + xsize b) | XPart a b c => S (xsize a + xsize b + xsize c)
  | XPtr a b => S (xsize a + xsize b) | XCall _ l => S (list_sum (map xsize l)) | XSys _ l => S (list_sum (map xsize l))
  end.
(** Induction on good expressions, through lists. *)
Section Good.
  Variable Q : expr -> Prop.
  Hypothesis Hid : forall s, simple_id s \/ escaped_id s -> Q (XId s).
  Hypothesis Hint : forall k s, number k s -> Q (XInt s).
  Hypothesis Hun : forall o a, is_unary o = true -> o <> Uplus -> good a -> Q a -> Q (XUn o a).
  Hypothesis Hbin : forall o a b, is_unary o = false -> o <> Sla -> good a -> Q a -> good b -> Q b -> Q (XBin o a b).
  Hypothesis Hcond : forall c t f, good c -> Q c -> good t -> Q t -> good f -> Q f -> Q (XCond c t f).
  Hypothesis Hconcat : forall l, l <> [] -> Forall good l -> Forall Q l -> Q (XConcat l).
  Hypothesis Hrepeat : forall l n, good (XConcat l) -> Q (XConcat l) -> Forall Q l -> good n -> Q n -> Q (XRepeat (XConcat l) n).
  Hypothesis Hpart : forall v m l, indexable v -> good v -> Q v -> good m -> Q m -> good l -> Q l -> blank_free m = true -> blank_free l = true -> Q (XPart v m l).
  Hypothesis Hptr : forall v p, indexable v -> good v -> Q v -> good p -> Q p -> Q (XPtr v p).
  Hypothesis Hcall : forall f l, simple_id f \/ escaped_id f -> Forall good l -> Forall Q l -> Q (XCall f l).
  Hypothesis Hsys : forall f l, (simple_id f \/ escaped_id f) \/ (f = "signed" /\ l <> []) -> Forall good l -> Forall Q l -> Q (XSys f l).
  Lemma good_rec : forall n e, xsize e <= n -> good e -> Q e.
  Proof.
    induction n as [|n IH]; intros e Hn H; [destruct e; cbn in Hn; lia|].
    assert (forall l, list_sum (map xsize l) <= n -> Forall good l -> Forall Q l) as IHl.
    { induction l as [|x l IHl]; intros Hl HG; [constructor|]. change (xsize x + list_sum (map xsize l) <= n) in Hl. inversion HG; subst. constructor; [apply IH; auto; lia|apply IHl; auto; lia]. }
    destruct H as [s H|k s H|o a H1 H2 H3|o a b H1 H2 H3 H4|c t f H1 H2 H3|l H1 H2|l m H1 H2|v m l H1 H2 H3 H4 H5 H6|v p H1 H2 H3|f l H1 H2|f l H1 H2|l H1 H2]; cbn [xsize] in Hn.
    - auto. - eauto. - apply Hun; auto. apply IH; auto; lia.
    - apply Hbin; auto; apply IH; auto; lia.
    - apply Hcond; auto; apply IH; auto; lia.
    - apply Hconcat; auto. apply IHl; auto. lia.
    - assert (Q (XConcat l)) by (apply IH; auto; cbn [xsize] in *; lia). apply Hrepeat; auto; [|apply IH; auto; lia]. inversion H1; subst. apply IHl; auto. lia.
    - apply Hpart; auto; apply IH; auto; lia.
    - apply Hptr; auto; apply IH; auto; lia.
    - apply Hcall; auto. apply IHl; auto. lia.
    - apply Hsys; auto. apply IHl; auto. lia.
    - apply Hsys; auto. apply IHl; auto. lia.
  Qed.
  Lemma good_ind' e : good e -> Q e.
  Proof. apply (good_rec _ e (le_n _)). Qed.
End Good.

Lemma toks_wrap e l : toks (wrap e l) = twrap e (toks l).
Proof. unfold wrap, twrap. destruct (wrapped e); auto. cbn [toks]. now rewrite toks_app. Qed.
Lemma toks_sp nb : toks (sp nb) = [].
Proof. destruct nb; reflexivity. Qed.
Ltac tk := repeat (rewrite toks_app || rewrite toks_sp || rewrite toks_wrap || (progress cbn [toks app])).
Lemma toks_join nb l : toks (pjoin nb l) = tjoin (map toks l).
Proof.
  induction l as [|x [|y l] IH]; auto. change (toks (x +++ PT (P COMMA) :: sp nb +++ pjoin nb (y :: l)) = toks x +++ P COMMA :: tjoin (map toks (y :: l))).
  tk. now rewrite IH.
Qed.
Lemma toks_word nb s : toks (word nb s) = [id_token s].
Proof. unfold word. cbn. destruct (escaped s); auto. now rewrite toks_sp. Qed.
Lemma toks_inner e : good e -> forall nb, toks (inner nb e) = etoks e.
Proof.
  intros H. apply (good_ind' (fun e => forall nb, toks (inner nb e) = etoks e)); auto; clear; cbn [inner etoks].
  - intros s _ nb. apply toks_word.
  - intros o a _ _ _ IH nb. tk. now rewrite IH.
  - intros o a b _ _ _ IHa _ IHb nb. tk. destruct (bare_left o a), (bare_right o b); tk; rewrite ?IHa, ?IHb; reflexivity.
  - intros c t f _ IHc _ IHt _ IHf nb. tk. rewrite IHc, IHt. destruct (is_cond f); tk; now rewrite IHf.
  - intros l _ _ IH nb. tk. rewrite toks_join, map_map. f_equal. f_equal. f_equal. apply map_ext_in. intros x Hx. rewrite Forall_forall in IH. now apply IH.
  - intros l n _ IH _ _ IHn nb. specialize (IH nb). cbn [inner etoks] in IH. revert IH. tk. rewrite IHn. intros IH. injection IH as IH. now rewrite IH.
  - intros v m l _ _ IHv _ IHm _ IHl _ _ nb. tk. now rewrite IHv, IHm, IHl.
  - intros v p _ _ IHv _ IHp nb. tk. now rewrite IHv, IHp.
  - intros f l _ _ IH nb. tk. rewrite toks_word, toks_join, map_map. cbn [app]. f_equal. f_equal. f_equal. f_equal. apply map_ext_in. intros x Hx. rewrite toks_wrap. f_equal. rewrite Forall_forall in IH. now apply IH.
  - intros f l _ _ IH nb. tk. rewrite toks_word. cbn [app]. f_equal. f_equal. destruct l as [|x l]; auto. tk. rewrite toks_join, map_map. f_equal. f_equal. f_equal. apply map_ext_in. intros y Hy. rewrite toks_wrap. f_equal. rewrite Forall_forall in IH. now apply IH.
Qed.

(** ** The generated text *)
Lemma del_paren_wrap s : del_paren ("(" ++ s ++ ")") = s.
Proof.
  unfold del_paren. cbn [append]. change (ceqb "(" "(") with true. cbn [andb].
  assert (last_char (String "(" (s ++ ")")) = Some ")"%char) as E.
  { assert (forall s c, last_char (String c (s ++ ")")) = Some ")"%char) as K; [|apply K]. clear s. induction s as [|d s IH]; intros c; [reflexivity|]. cbn [append]. change (last_char (String c (String d (s ++ ")")))) with (last_char (String d (s ++ ")"))). apply IH. }
  rewrite E. change (ceqb ")" ")") with true. cbn iota. clear E. induction s as [|c s IH]; auto. cbn [append]. change (drop_last (String c (s ++ ")"))) with (match s ++ ")" with "" => "" | _ => String c (drop_last (s ++ ")")) end). rewrite IH. destruct s; reflexivity.
Qed.
Lemma del_paren_other c s : ceqb c "(" = false -> del_paren (String c s) = String c s.
Proof. intros H. unfold del_paren. now rewrite H. Qed.
Lemma del_space_app a b : del_space (a ++ b) = del_space a ++ del_space b.
Proof. induction a as [|c a IH]; auto. cbn [append del_space]. destruct (ceqb c " "); cbn; congruence. Qed.
Lemma del_space_none (p : ascii -> bool) s : p " "%char = false -> all_chars p s -> del_space s = s.
Proof.
  intros HP H. induction s as [|c s IH]; auto. inversion H; subst. cbn [del_space]. destruct (ceqb c " ") eqn:E; [apply ceqb_true in E as ->; congruence|]. f_equal. auto.
Qed.
Lemma word_no_space s : simple_id s \/ escaped_id s -> del_space s = s.
Proof.
  intros [(c & r & -> & H & H2 & _)|(c & r & -> & H)].
  - apply (del_space_none id_char); [reflexivity|]. constructor; auto. unfold id_char. now rewrite H.
  - change (String "\" (del_space (String c r)) = String "\" (String c r)). f_equal. apply (del_space_none (fun d => negb (is_space d))); auto.
Qed.
Lemma number_no_space k s : number k s -> del_space s = s.
Proof.
  assert (forall ds x, all_chars is_digit ds -> del_space x = x -> del_space (ds ++ "'" ++ x) = ds ++ "'" ++ x) as K.
  { intros ds x H E. rewrite !del_space_app, (del_space_none is_digit ds), E; auto. }
  assert (forall c x (p : ascii -> bool), p " "%char = false -> p c = true -> del_space x = x -> del_space (String c x) = String c x) as K2.
  { intros c x p HP H E. cbn [del_space]. destruct (ceqb c " ") eqn:F; [apply ceqb_true in F as ->; congruence|]. congruence. }
  destruct 1; [apply (K2 _ _ is_digit); auto; eapply del_space_none; [|eassumption]; reflexivity|..];
    (apply K; [auto|]; repeat (eapply K2; [|eassumption|]; [reflexivity|]); eapply del_space_none; [|eassumption]; reflexivity).
Qed.
