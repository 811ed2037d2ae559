(** PrecProofs.v - every text of the grammar is parsed to its tree. *)
From Verif Require Import Base DfModel LexModel ExprModel ParseModel ExprParse PrecSpec.
Local Open Scope string_scope.
Local Notation "a +++ b" := (@app _ a b) (at level 60, right associativity).

Scheme reads_m := Minimality for reads Sort Prop
  with selects_m := Minimality for selects Sort Prop
  with lists_m := Minimality for lists Sort Prop.
Combined Scheme grammar_ind from reads_m, selects_m, lists_m.

Lemma binary_op_spec p o n : binary p = Some (o, n) -> binary_op p = Some o /\ prec p = n /\ infix (Some (P p)) = Some n /\ 1 <= n <= 11.
Proof. destruct p; try discriminate; intros H; injection H as <- <-; repeat split; lia. Qed.
Lemma binary_op_iff p o : binary_op p = Some o -> binary p = Some (o, prec p).
Proof. destruct p; try discriminate; intros H; injection H as <-; reflexivity. Qed.
Lemma unary_op_spec p a e : unary p a e -> exists f, unary_op p = Some f /\ f a = e.
Proof. destruct 1; eexists; split; reflexivity. Qed.
Lemma unary_op_iff p f a : unary_op p = Some f -> unary p a (f a).
Proof. destruct p; try discriminate; intros H; injection H as <-; constructor. Qed.
Lemma opener_binary' p o n : binary p = Some (o, n) -> opener p = true.
Proof. destruct p; discriminate || reflexivity. Qed.

(** What may follow an expression of level n. *)
Definition follow (n : nat) (la : option token) : Prop :=
  closer la /\ match infix la with Some m => m <= n /\ 1 <= n | None => True end.
Lemma follow_up n la : follow n la -> follow (S n) la.
Proof. intros [H1 H2]. split; auto. destruct (infix la); auto. lia. Qed.
Lemma follow_bin p o n j : binary p = Some (o, n) -> n <= j -> follow j (Some (P p)).
Proof. intros H L. destruct (binary_op_spec _ _ _ H) as (_ & _ & E & ?). split; [destruct p; discriminate H || exact I|]. rewrite E. lia. Qed.
Definition quiet (p : punct) : bool := match p with COND | COLON | RPAREN | RBRACE | RBRACKET | COMMA | LBRACE => true | _ => false end.
Lemma follow_quiet p n : quiet p = true -> p <> COND -> follow n (Some (P p)).
Proof. intros H H2. destruct p; try discriminate; try congruence; split; exact I. Qed.

Definition reads_ok (n : nat) (l : list token) (e : expr) : Prop :=
  forall st rest, ready st -> room st n -> follow n (hd_error rest) -> parses l e st rest.
Definition selects_ok (l : list token) (e : expr) : Prop :=
  forall st rest, ready st -> exists v, selected v = Some e /\ steps (st, l +++ rest) (v :: st, rest).
Definition lists_ok (l : list token) (es : list expr) : Prop :=
  forall st close rest, close = RBRACE /\ (exists r, st = ST (P LBRACE) :: r) \/ close = RPAREN /\ (exists r, st = ST (P LPAREN) :: r /\ call_before r = true) ->
  forall t, hd_error rest = Some (P t) -> t = COMMA \/ t = close -> steps (st, l +++ rest) (SList es :: st, rest).

Lemma room_unary p f st : unary_op p = Some f -> ready st -> room (ST (P p) :: st) 12.
Proof.
  intros H HR y la n E L. exfalso. destruct la as [[q|?|?|?|?|? ?]|]; try discriminate E. destruct q; try discriminate E; cbn in E; injection E as <-; lia.
Qed.
Lemma after_unary' p f y st la : unary_op p = Some f -> ready st -> after_expr y (ST (P p) :: st) la = Reduce (SE (f y) :: st).
Proof.
  intros H HR. destruct st as [|[] st]; cbn in HR; try contradiction; destruct p; try discriminate H; injection H as <-; reflexivity.
Qed.
Lemma after_binary' p o n x y st la : binary p = Some (o, n) -> follow (S n) la -> match infix la with Some m => m <= n | None => True end ->
  after_expr y (ST (P p) :: SE x :: st) la = Reduce (SE (XBin o x y) :: st).
Proof.
  intros H _ HL. destruct (binary_op_spec _ _ _ H) as (E1 & E2 & _). assert (after_expr y (ST (P p) :: SE x :: st) la =
    match infix la with Some m => if Nat.ltb (prec p) m then Shift else Reduce (SE (XBin o x y) :: st) | None => Reduce (SE (XBin o x y) :: st) end) as ->.
  { destruct p; try discriminate H; cbn in E1; injection E1 as <-; reflexivity. }
  destruct (infix la) as [m|]; auto. rewrite E2. assert (Nat.ltb n m = false) as -> by (apply Nat.ltb_ge; lia). reflexivity.
Qed.
Lemma room_binary' p o n x st : binary p = Some (o, n) -> room (ST (P p) :: SE x :: st) (S n).
Proof.
  intros H y la m E L. destruct (binary_op_spec _ _ _ H) as (E1 & E2 & _).
  assert (after_expr y (ST (P p) :: SE x :: st) la = match infix la with Some m => if Nat.ltb (prec p) m then Shift else Reduce (SE (XBin o x y) :: st) | None => Reduce (SE (XBin o x y) :: st) end) as ->.
  { destruct p; try discriminate H; cbn in E1; injection E1 as <-; reflexivity. }
  rewrite E, E2. assert (Nat.ltb n m = true) as -> by (apply Nat.ltb_lt; lia). reflexivity.
Qed.
Lemma paren_shift y st la : ready st -> after_expr y (ST (P LPAREN) :: st) la = Shift.
Proof. intros HR. pose proof (ready_call _ HR) as E. destruct st as [|[] st]; cbn in HR; try contradiction; [reflexivity|]. cbn [after_expr]. rewrite E. reflexivity. Qed.
Lemma starts : (forall n l e, reads n l e -> exists t r, l = t :: r /\ starter t = true) /\ (forall l e, selects l e -> exists t r, l = t :: r /\ starter t = true) /\ (forall l es, lists l es -> exists t r, l = t :: r /\ starter t = true).
Proof.
  apply grammar_ind; intros; auto; repeat match goal with H : exists t r, _ = _ /\ _ |- _ => destruct H as (? & ? & -> & ?) end; try (eexists; eexists; split; [reflexivity|]; auto; fail).
  match goal with H : unary p _ _ |- _ => destruct H end; eexists; eexists; split; reflexivity.
Qed.
Lemma sys_head t f : system t f -> call_head t = Some f.
Proof. destruct 1; reflexivity. Qed.
Lemma sys_shift t f st : system t f -> action (ST t :: ST (P DOLLER) :: st) (Some (P LPAREN)) = Shift.
Proof. destruct 1; reflexivity. Qed.
Lemma sys_start t f : system t f -> starter t = true.
Proof. destruct 1; reflexivity. Qed.

Ltac sh := apply one_shift.
Ltac re := eapply one_reduce.
Ltac fin := apply s_refl.
Lemma complete : (forall n l e, reads n l e -> reads_ok n l e) /\ (forall l e, selects l e -> selects_ok l e) /\ (forall l es, lists l es -> lists_ok l es).
Proof.
  apply grammar_ind.
  - intros n l e _ IH st rest HR HM HF. apply IH; auto; [eapply room_mono; [exact HM|lia]|now apply follow_up].
  - intros c a b lc la lb _ IHc _ IHa _ IHb st rest HR HM [HC HF]. unfold parses. rewrite <- app_assoc. cbn [app]. rewrite <- app_assoc. cbn [app].
    assert (infix (hd_error rest) = None) as HN by (destruct (infix (hd_error rest)); [lia|reflexivity]).
    eapply steps_trans; [apply IHc; auto; [eapply room_mono; [exact HM|lia]|split; [exact I|cbn; lia]]|].
    sh; [apply (HM c _ 0); [reflexivity|lia]|].
    eapply steps_trans; [apply IHa; [reflexivity|apply room_cond|split; exact I]|]. sh; [reflexivity|].
    eapply steps_trans; [apply IHb; [reflexivity|apply room_colon|split; [exact HC|now rewrite HN]]|].
    re; [cbn [action after_expr]; now rewrite HN|fin].
  - intros p o n a b la lb HB _ IHa _ IHb st rest HR HM HF. unfold parses. rewrite <- app_assoc. cbn [app]. destruct (binary_op_spec _ _ _ HB) as (E1 & E2 & E3 & L).
    eapply steps_trans; [apply IHa; auto; eapply follow_bin; [exact HB|lia]|].
    sh; [apply (HM a _ n E3); lia|].
    eapply steps_trans; [apply IHb; [eapply opener_binary'; exact HB|eapply room_binary'; exact HB|now apply follow_up]|].
    re; [|fin]. cbn [action]. eapply after_binary'; [exact HB|now apply follow_up|]. destruct HF as [_ HF]. destruct (infix (hd_error rest)); lia.
  - intros p a e la HU _ IH st rest HR HM HF. unfold parses. cbn [app]. destruct (unary_op_spec _ _ _ HU) as (f & E & Ef).
    sh; [apply shift_ready; auto; destruct p; discriminate E || reflexivity|].
    eapply steps_trans; [apply IH; [destruct p; discriminate E || reflexivity|eapply room_unary; eassumption|exact HF]|].
    re; [cbn [action]; eapply after_unary'; eassumption|rewrite Ef; fin].
  - intros k s st rest HR HM HF. unfold parses. cbn [app]. sh; [now apply shift_ready|]. re; [reflexivity|fin].
  - intros l e _ IH st rest HR HM HF. unfold parses. cbn [app]. rewrite <- app_assoc. cbn [app]. sh; [now apply shift_ready|].
    eapply steps_trans; [apply IH; [reflexivity|apply room_paren|split; exact I]|]. sh; [now apply paren_shift|]. re; [reflexivity|fin].
  - intros l v _ IH st rest HR HM [HF _]. unfold parses. destruct (IH st rest HR) as (w & E & K). eapply steps_trans; [exact K|]. re; [eapply select_expr; eassumption|fin].
  - intros lv lm ll v m l _ IHv _ IHm _ IHl st rest HR HM HF. unfold parses. rewrite <- app_assoc. destruct (IHv st (([P LBRACKET] +++ lm +++ [P COLON] +++ ll +++ [P RBRACKET]) +++ rest) HR) as (w & E & K).
    eapply steps_trans; [exact K|]. cbn [app]. sh; [now apply (select_shift w v)|]. rewrite <- app_assoc. cbn [app]. eapply steps_trans; [apply IHm; [reflexivity|apply room_bracket|split; exact I]|].
    sh; [now apply (bracket_shift m w v)|]. rewrite <- app_assoc. cbn [app]. eapply steps_trans; [apply IHl; [reflexivity|apply room_colon|split; exact I]|].
    sh; [now apply (colon_shift l m w v)|]. re; [eapply close_part; eassumption|fin].
  - intros l es HL IH st rest HR HM HF. unfold parses. cbn [app]. rewrite <- app_assoc. cbn [app]. sh; [now apply shift_ready|].
    eapply steps_trans; [apply (IH _ RBRACE) with (t := RBRACE); [left; split; [reflexivity|eexists; reflexivity]|reflexivity|now right]|].
    sh; [reflexivity|]. re; [reflexivity|]. re; [now apply ready_concat|fin].
  - intros ln n l es _ IHn _ IH st rest HR HM HF. unfold parses. cbn [app]. rewrite <- app_assoc. cbn [app]. rewrite <- app_assoc. cbn [app]. sh; [now apply shift_ready|].
    eapply steps_trans; [apply IHn; [reflexivity|apply room_brace|split; exact I]|]. sh; [reflexivity|].
    eapply steps_trans; [apply (IH _ RBRACE) with (t := RBRACE); [left; split; [reflexivity|eexists; reflexivity]|reflexivity|now right]|].
    sh; [reflexivity|]. re; [reflexivity|]. sh; [reflexivity|]. re; [reflexivity|fin].
  - intros f l es HL IH st rest HR HM HF. unfold parses. cbn [app]. rewrite <- app_assoc. cbn [app]. sh; [now apply shift_ready|]. re; [now apply ready_id|]. sh; [reflexivity|].
    eapply steps_trans; [apply (IH _ RPAREN) with (t := RPAREN); [right; split; [reflexivity|eexists; split; reflexivity]|reflexivity|now right]|].
    sh; [reflexivity|]. re; [reflexivity|fin].
  - intros f st rest HR HM HF. unfold parses. cbn [app]. sh; [now apply shift_ready|]. re; [now apply ready_id|]. sh; [reflexivity|]. re; [reflexivity|]. sh; [reflexivity|]. re; [reflexivity|fin].
  - intros t f l es Ht HL IH st rest HR HM HF. unfold parses. cbn [app]. rewrite <- app_assoc. cbn [app]. sh; [now apply shift_ready|]. sh; [destruct Ht; reflexivity|]. sh; [eapply sys_shift; exact Ht|].
    eapply steps_trans; [apply (IH _ RPAREN) with (t := RPAREN); [right; split; [reflexivity|eexists; split; [reflexivity|cbn [call_before]; now rewrite (sys_head _ _ Ht)]]|reflexivity|now right]|].
    sh; [reflexivity|]. re; [cbn [action close_paren]; now rewrite (sys_head _ _ Ht)|fin].
  - intros t f Ht st rest HR HM HF. unfold parses. cbn [app]. sh; [now apply shift_ready|]. sh; [destruct Ht; reflexivity|]. sh; [eapply sys_shift; exact Ht|].
    re; [cbn [action call_before hd_error]; now rewrite (sys_head _ _ Ht)|]. sh; [reflexivity|]. re; [cbn [action close_paren]; now rewrite (sys_head _ _ Ht)|fin].
  - intros f st rest HR HM [HF _]. unfold parses. cbn [app]. sh; [now apply shift_ready|]. sh; [reflexivity|].
    re; [|fin]. cbn [action]. destruct rest as [|[p|x|x|x|x|k x] rest]; auto. cbn [hd_error]. destruct p; cbn in HF; tauto || reflexivity.
  - intros s st rest HR. exists (SId s). split; [reflexivity|]. cbn [app]. sh; [now apply shift_ready|]. re; [now apply ready_id|fin].
  - intros lv lp v p _ IHv _ IHp st rest HR. exists (SPtr (XPtr v p)). split; [reflexivity|]. rewrite <- app_assoc. destruct (IHv st (([P LBRACKET] +++ lp +++ [P RBRACKET]) +++ rest) HR) as (w & E & K).
    eapply steps_trans; [exact K|]. cbn [app]. sh; [now apply (select_shift w v)|]. rewrite <- app_assoc. cbn [app]. eapply steps_trans; [apply IHp; [reflexivity|apply room_bracket|split; exact I]|].
    sh; [now apply (bracket_shift p w v)|]. re; [eapply close_ptr; eassumption|fin].
  - intros l e _ IH st close rest HC t Ht Ht2.
    assert (ready st /\ room st 0) as [HR1 HR2] by (destruct HC as [[_ (r & ->)]|[_ (r & -> & _)]]; split; try reflexivity; [apply room_brace|apply room_paren]).
    assert (t = COMMA \/ t = RBRACE \/ t = RPAREN) as HT by (destruct HC as [[-> _]|[-> _]]; tauto).
    assert (follow 0 (hd_error rest)) as HF by (rewrite Ht; destruct HT as [->|[->| ->]]; split; exact I).
    eapply steps_trans; [apply IH; auto|]. assert (ends_member (hd_error rest) = true) as E by (rewrite Ht; destruct HT as [->|[->| ->]]; reflexivity).
    re; [|fin]. destruct HC as [[_ (r & ->)]|[_ (r & -> & K)]]; cbn [action after_expr]; [now rewrite E|]. rewrite K, E. destruct r as [|[] r]; try reflexivity; discriminate K.
  - intros l es l' e _ IHl _ IHe st close rest HC t Ht Ht2.
    assert (t = COMMA \/ t = RBRACE \/ t = RPAREN) as HT by (destruct HC as [[-> _]|[-> _]]; tauto).
    assert (follow 0 (hd_error rest)) as HF by (rewrite Ht; destruct HT as [->|[->| ->]]; split; exact I).
    rewrite <- app_assoc. cbn [app]. eapply steps_trans; [apply (IHl st close _ HC COMMA); [reflexivity|now left]|]. sh; [reflexivity|].
    eapply steps_trans; [apply IHe; [reflexivity|apply room_comma|exact HF]|]. assert (ends_member (hd_error rest) = true) as E by (rewrite Ht; destruct HT as [->|[->| ->]]; reflexivity).
    re; [|fin]. cbn [action after_expr]. now rewrite E.
Qed.
Theorem grammar_parsed l e : reads 0 l e -> exists n0, forall n, n0 <= n -> parse_tokens n l = Ok e.
Proof.
  intros H. apply steps_run. rewrite <- (app_nil_r l). apply (proj1 complete 0 l e H [] []); [exact I|apply room_nil|split; exact I].
Qed.
