(** ExprParse.v - the tokens of an expression are parsed back. *)
From Verif Require Import Base DfModel LexModel LexSpec ExprModel ParseModel ExprSpec ExprText ExprText2 ExprText3.
Local Open Scope string_scope.
Local Notation "a +++ b" := (@app _ a b) (at level 60, right associativity).

(** ** Executions *)
Inductive steps : config -> config -> Prop :=
| s_refl c : steps c c
| s_step c c' d : step c = Some c' -> steps c' d -> steps c d.
Lemma steps_trans a b c : steps a b -> steps b c -> steps a c.
Proof. induction 1; auto. intros. econstructor; eauto. Qed.
Lemma steps_run c e : steps c ([SE e], []) -> exists n0, forall n, n0 <= n -> run n c = Ok e.
Proof.
  intros H. remember ([SE e], [] : list token) as d eqn:E. induction H as [c|c c' d H HS IH]; subst.
  - exists 1. intros [|n] Hn; [lia|]. reflexivity.
  - destruct (IH eq_refl) as (n0 & K). exists (S n0). intros [|n] Hn; [lia|]. cbn [run]. rewrite H. apply K. lia.
Qed.
Lemma one_reduce st st' r d : action st (hd_error r) = Reduce st' -> steps (st', r) d -> steps (st, r) d.
Proof. intros H HS. apply (s_step _ (st', r)); auto. cbn [step]. now rewrite H. Qed.
Lemma one_shift st t r d : action st (Some t) = Shift -> steps (ST t :: st, r) d -> steps (st, t :: r) d.
Proof. intros H HS. apply (s_step _ (ST t :: st, r)); auto. cbn [step hd_error]. now rewrite H. Qed.

(** ** Stacks on which an expression can be put *)
Definition opener (p : punct) : bool := match p with RPAREN | RBRACE | RBRACKET | DOLLER => false | _ => true end.
Definition ready (st : list sym) : Prop := match st with [] => True | ST (P p) :: _ => opener p = true | _ => False end.
(** Operators of level k or more are shifted. *)
Definition room (st : list sym) (k : nat) : Prop := forall y la n, infix la = Some n -> k <= n -> after_expr y st la = Shift.
Definition closer (la : option token) : Prop := match la with Some (P (LBRACKET | LPAREN | DOT)) => False | _ => True end.
Definition level (o : op) : nat := prec (binary_punct o).
Definition need (e : expr) (st : list sym) (la : option token) : Prop :=
  match e with
  | XBin o _ _ => room st (level o) /\ match infix la with Some n => n <= level o | None => True end
  | XCond _ _ _ => room st 0 /\ infix la = None
  | _ => True
  end.
Definition parses (l : list token) (e : expr) (st : list sym) (rest : list token) : Prop := steps (st, l +++ rest) (SE e :: st, rest).

Definition starter (t : token) : bool := match t with P (COMMA | RPAREN) => false | _ => true end.
Lemma shift_ready st t : ready st -> starter t = true -> action st (Some t) = Shift.
Proof.
  intros H HT. destruct st as [|[[p| | | | |]| | | | |] st]; cbn in H; try contradiction; auto. destruct p; try discriminate H; auto. cbn [action]. destruct t as [[]| | | | |]; try discriminate HT; reflexivity.
Qed.
Lemma ready_call st : ready st -> call_before st = false.
Proof. destruct st as [|[[p| | | | |]| | | | |] st]; cbn; try contradiction; auto. destruct st as [|[[p'| | | | |]| | | | |] st]; auto. destruct p'; auto. Qed.
Lemma infix_ends la n : infix la = Some n -> ends_member la = false.
Proof. destruct la as [[p|s|s|s|s|k s]|]; try discriminate. destruct p; try discriminate; reflexivity. Qed.
Lemma room_mono st j k : room st j -> j <= k -> room st k.
Proof. intros H L y la n E K. apply (H y la n E). lia. Qed.
Lemma room_nil k : room [] k.
Proof. intros y la n _ _. reflexivity. Qed.
Lemma room_paren st k : room (ST (P LPAREN) :: st) k.
Proof. intros y la n E _. cbn [after_expr]. rewrite (infix_ends _ _ E), andb_false_r. destruct st as [|[] st]; reflexivity. Qed.
Lemma room_brace st k : room (ST (P LBRACE) :: st) k.
Proof. intros y la n E _. cbn [after_expr]. rewrite (infix_ends _ _ E). reflexivity. Qed.
Lemma room_comma l st k : room (ST (P COMMA) :: SList l :: st) k.
Proof. intros y la n E _. cbn [after_expr]. rewrite (infix_ends _ _ E). reflexivity. Qed.
Lemma room_bracket st k : room (ST (P LBRACKET) :: st) k.
Proof. intros y la n E _. destruct st as [|[] st]; reflexivity. Qed.
Lemma room_cond st k : room (ST (P COND) :: st) k.
Proof. intros y la n E _. destruct st as [|[] st]; reflexivity. Qed.
Lemma room_colon st k : room (ST (P COLON) :: st) k.
Proof.
  intros y la n E _. destruct st as [|[] [|[[p| | | | |]| | | | |] [|[] st]]]; try reflexivity; destruct p; try reflexivity; cbn [after_expr]; now rewrite E.
Qed.
Lemma binary_op_of o : is_unary o = false -> binary_op (binary_punct o) = Some o.
Proof. destruct o; try discriminate; reflexivity. Qed.
Lemma unary_op_of o : is_unary o = true -> o <> Uplus -> unary_op (unary_punct o) = Some (XUn o).
Proof. destruct o; try discriminate; try congruence; reflexivity. Qed.
Lemma after_binary o x y st la : is_unary o = false ->
  after_expr y (ST (P (binary_punct o)) :: SE x :: st) la =
  match infix la with Some n => if Nat.ltb (level o) n then Shift else Reduce (SE (XBin o x y) :: st) | None => Reduce (SE (XBin o x y) :: st) end.
Proof. intros H. destruct o; try discriminate H; reflexivity. Qed.
Lemma room_binary o x st : is_unary o = false -> room (ST (P (binary_punct o)) :: SE x :: st) (S (level o)).
Proof. intros H y la n E L. rewrite after_binary, E by auto. assert (Nat.ltb (level o) n = true) as -> by (apply Nat.ltb_lt; lia). reflexivity. Qed.
Lemma after_unary o y st la : is_unary o = true -> o <> Uplus -> ready st -> after_expr y (ST (P (unary_punct o)) :: st) la = Reduce (SE (XUn o y) :: st).
Proof.
  intros H1 H2 H. destruct st as [|[] st]; cbn in H; try contradiction; destruct o; try discriminate H1; try congruence; reflexivity.
Qed.
Lemma opener_binary o : is_unary o = false -> opener (binary_punct o) = true.
Proof. destruct o; discriminate || reflexivity. Qed.
Lemma infix_binary o : is_unary o = false -> infix (Some (P (binary_punct o))) = Some (level o).
Proof. destruct o; discriminate || reflexivity. Qed.
Lemma closer_binary o : is_unary o = false -> closer (Some (P (binary_punct o))).
Proof. destruct o; discriminate || exact (fun _ => I). Qed.

(** Levels and the order of the generator. *)
Lemma order_level o : is_unary o = false -> op2order o = Some (12 - level o) /\ level o <= 11.
Proof. destruct o; try discriminate; intros _; split; try reflexivity; cbn; lia. Qed.
Lemma bare_left_need o a st : good a -> is_unary o = false -> bare_left o a = true -> room st (level o) -> need a st (Some (P (binary_punct o))).
Proof.
  intros HG H HB HR. unfold bare_left in HB. apply andb_true_iff in HB as [_ HB]. destruct (order_level o H) as [E L]. rewrite E in HB. destruct a; cbn [node_order] in HB; try discriminate; [exact I|]. cbn [need].
  inversion HG; subst. destruct (order_level o0) as [E2 L2]; auto. rewrite E2 in HB. apply Nat.leb_le in HB. rewrite infix_binary by auto. split; [eapply room_mono; [exact HR|lia]|lia].
Qed.
Lemma bare_right_need o b x st la : good b -> is_unary o = false -> bare_right o b = true -> match infix la with Some n => n <= level o | None => True end -> need b (ST (P (binary_punct o)) :: SE x :: st) la.
Proof.
  intros HG H HB HR. unfold bare_right in HB. apply andb_true_iff in HB as [_ HB]. destruct (order_level o H) as [E L]. rewrite E in HB. destruct b; cbn [node_order] in HB; try discriminate; [exact I|]. cbn [need].
  inversion HG; subst. destruct (order_level o0) as [E2 L2]; auto. rewrite E2 in HB. apply Nat.ltb_lt in HB. split; [eapply room_mono; [apply room_binary; auto|lia]|]. destruct (infix la); auto. lia.
Qed.
Lemma need_open e st la : room st 0 -> infix la = None -> need e st la.
Proof. intros H1 H2. destruct e; cbn [need]; auto. rewrite H2. split; auto. eapply room_mono; eauto. lia. Qed.

(** ** The main lemma *)
Definition inner_ok (e : expr) : Prop := forall st rest, ready st -> closer (hd_error rest) -> need e st (hd_error rest) -> parses (etoks e) e st rest.
Definition full_ok (e : expr) : Prop := forall st rest, ready st -> closer (hd_error rest) -> parses (ftoks e) e st rest.
Definition select_ok (e : expr) : Prop := indexable e -> forall st rest, ready st -> exists v, selected v = Some e /\ steps (st, etoks e +++ rest) (v :: st, rest).
Lemma full_of_inner e : inner_ok e -> full_ok e.
Proof.
  intros H st rest HR HC. unfold ftoks, twrap, parses. destruct (wrapped e) eqn:W; [|apply H; auto; destruct e; discriminate W || exact I].
  cbn [app]. rewrite <- app_assoc. apply one_shift; [now apply shift_ready|]. eapply steps_trans; [apply H; [reflexivity|exact I|apply need_open; [apply room_paren|reflexivity]]|].
  cbn [app]. apply one_shift; [|eapply one_reduce; [reflexivity|apply s_refl]]. cbn [action]. pose proof (ready_call _ HR) as E. destruct st as [|[] st]; cbn in HR; try contradiction; [reflexivity|]. cbn [after_expr]. rewrite E. reflexivity.
Qed.

(** Members of a list. *)
Lemma list_rest (f : expr -> list token) st close (l : list expr) : forall acc rest,
  close = RBRACE \/ close = RPAREN ->
  (forall x st rest, In x l -> ready st -> room st 0 -> closer (hd_error rest) -> infix (hd_error rest) = None -> parses (f x) x st rest) ->
  steps (SList acc :: st, (match l with [] => [] | _ => P COMMA :: tjoin (map f l) end) +++ P close :: rest) (SList (acc +++ l) :: st, P close :: rest).
Proof.
  induction l as [|x l IH]; intros acc rest HC HF; [rewrite app_nil_r; apply s_refl|].
  assert (tjoin (map f (x :: l)) = f x +++ match l with [] => [] | _ => P COMMA :: tjoin (map f l) end) as -> by (destruct l; cbn [map tjoin]; [now rewrite app_nil_r|reflexivity]).
  cbn [app]. apply one_shift; [reflexivity|]. rewrite <- app_assoc.
  eapply steps_trans; [apply (HF x); [now left|reflexivity|apply room_comma|destruct l; [destruct HC as [-> | ->]; exact I|exact I]|destruct l; [destruct HC as [-> | ->]; reflexivity|reflexivity]]|].
  eapply one_reduce; [cbn [action after_expr]; assert (ends_member (hd_error (match l with [] => [] | _ => P COMMA :: tjoin (map f l) end +++ P close :: rest)) = true) as -> by (destruct l; [destruct HC as [-> | ->]; reflexivity|reflexivity]); reflexivity|].
  replace (acc +++ x :: l) with ((acc +++ [x]) +++ l) by (rewrite <- app_assoc; reflexivity). apply IH; auto. intros y st' rest' Hy. apply HF. now right.
Qed.
Lemma list_first (f : expr -> list token) st close x (l : list expr) rest :
  close = RBRACE /\ (exists r, st = ST (P LBRACE) :: r) \/ close = RPAREN /\ (exists r, st = ST (P LPAREN) :: r /\ call_before r = true) ->
  (forall y st rest, In y (x :: l) -> ready st -> room st 0 -> closer (hd_error rest) -> infix (hd_error rest) = None -> parses (f y) y st rest) ->
  steps (st, tjoin (map f (x :: l)) +++ P close :: rest) (SList (x :: l) :: st, P close :: rest).
Proof.
  intros HC HF. assert (close = RBRACE \/ close = RPAREN) as HC2 by tauto.
  assert (tjoin (map f (x :: l)) = f x +++ match l with [] => [] | _ => P COMMA :: tjoin (map f l) end) as -> by (destruct l; cbn [map tjoin]; [now rewrite app_nil_r|reflexivity]).
  rewrite <- app_assoc. assert (ready st /\ room st 0) as [HR1 HR2].
  { destruct HC as [[_ (r & ->)]|[_ (r & -> & _)]]; split; try reflexivity; [apply room_brace|apply room_paren]. }
  eapply steps_trans; [apply (HF x); [now left|exact HR1|exact HR2|destruct l; [destruct HC2 as [-> | ->]; exact I|exact I]|destruct l; [destruct HC2 as [-> | ->]; reflexivity|reflexivity]]|].
  assert (ends_member (hd_error (match l with [] => [] | _ => P COMMA :: tjoin (map f l) end +++ P close :: rest)) = true) as E by (destruct l; [destruct HC2 as [-> | ->]; reflexivity|reflexivity]).
  eapply one_reduce with (st' := SList [x] :: st).
  - destruct HC as [[_ (r & ->)]|[_ (r & -> & K)]]; cbn [action after_expr]; [now rewrite E|]. rewrite K, E. destruct r as [|[] r]; try reflexivity; discriminate K.
  - apply (list_rest f st close l [x] rest); auto. intros y st' rest' Hy. apply HF. now right.
Qed.
Lemma members_inner (l : list expr) : Forall inner_ok l -> forall y st rest, In y l -> ready st -> room st 0 -> closer (hd_error rest) -> infix (hd_error rest) = None -> parses (etoks y) y st rest.
Proof. intros H y st rest Hy H1 H2 H3 H4. rewrite Forall_forall in H. apply H; auto. now apply need_open. Qed.
Lemma members_full (l : list expr) : Forall full_ok l -> forall y st rest, In y l -> ready st -> room st 0 -> closer (hd_error rest) -> infix (hd_error rest) = None -> parses (ftoks y) y st rest.
Proof. intros H y st rest Hy H1 H2 H3 H4. rewrite Forall_forall in H. apply H; auto. Qed.

Lemma concat_ok l st rest : l <> [] -> Forall inner_ok l -> action st (Some (P LBRACE)) = Shift -> steps (st, etoks (XConcat l) +++ rest) (SCat l :: st, rest).
Proof.
  intros HN H HS. destruct l as [|x l]; [congruence|]. cbn [etoks app]. rewrite <- app_assoc. apply one_shift; auto.
  eapply steps_trans; [apply (list_first etoks); [left; eauto|now apply members_inner]|]. cbn [app]. apply one_shift; [reflexivity|]. eapply one_reduce; [reflexivity|]. apply s_refl.
Qed.
Lemma args_ok l st rest : call_before st = true -> Forall full_ok l -> action st (Some (P LPAREN)) = Shift ->
  steps (st, P LPAREN :: tjoin (map ftoks l) +++ P RPAREN :: rest) (ST (P RPAREN) :: SList l :: ST (P LPAREN) :: st, rest).
Proof.
  intros HC H HS. apply one_shift; auto. destruct l as [|x l].
  - cbn [map tjoin app]. eapply one_reduce; [cbn [action hd_error]; now rewrite HC|]. apply one_shift; [reflexivity|]. apply s_refl.
  - eapply steps_trans; [apply (list_first ftoks); [right; eauto|now apply members_full]|]. apply one_shift; [reflexivity|]. apply s_refl.
Qed.
Lemma ready_id st s : ready st -> forall la, action (ST (ID s) :: st) la = Reduce (SId s :: st).
Proof. intros H la. destruct st as [|[[p| | | | |]| | | | |] st]; cbn in H; try contradiction; auto. destruct p; discriminate H || reflexivity. Qed.
Lemma ready_concat l st la : ready st -> action (SCat l :: st) la = Reduce (SE (XConcat l) :: st).
Proof. intros H. destruct st as [|[] st]; cbn in H; try contradiction; reflexivity. Qed.
Lemma select_expr v e la : selected v = Some e -> closer la -> forall st, action (v :: st) la = Reduce (SE e :: st).
Proof. intros H HC st. destruct v; cbn in H; try discriminate; injection H as <-; cbn [action]; destruct la as [[p|x|x|x|x|k x]|]; auto; destruct p; cbn in HC; tauto || reflexivity. Qed.
Lemma select_shift v e : selected v = Some e -> forall st, action (v :: st) (Some (P LBRACKET)) = Shift.
Proof. destruct v; cbn; intros; discriminate || reflexivity. Qed.
Lemma close_ptr v e p st la : selected v = Some e -> action (ST (P RBRACKET) :: SE p :: ST (P LBRACKET) :: v :: st) la = Reduce (SPtr (XPtr e p) :: st).
Proof. intros H. cbn [action close_bracket]. now rewrite H. Qed.
Lemma close_part v e m l st la : selected v = Some e -> action (ST (P RBRACKET) :: SE l :: ST (P COLON) :: SE m :: ST (P LBRACKET) :: v :: st) la = Reduce (SE (XPart e m l) :: st).
Proof. intros H. cbn [action close_bracket]. now rewrite H. Qed.
Lemma bracket_shift y v e st t : selected v = Some e -> action (SE y :: ST (P LBRACKET) :: v :: st) t = Shift.
Proof. destruct v; cbn; intros; discriminate || reflexivity. Qed.
Lemma colon_shift y m v e st t : selected v = Some e -> action (SE y :: ST (P COLON) :: SE m :: ST (P LBRACKET) :: v :: st) t = Shift.
Proof. destruct v; cbn; intros; discriminate || reflexivity. Qed.

Lemma parse_inner e : good e -> inner_ok e /\ select_ok e.
Proof.
  intros H. apply (good_ind' (fun e => inner_ok e /\ select_ok e)); auto; clear.
  - intros s H. assert (select_ok (XId s)) as HS.
    { intros _ st rest HR. exists (SId s). split; auto. cbn [etoks app]. rewrite (id_token_ok _ H). apply one_shift; [now apply shift_ready|]. eapply one_reduce; [now apply ready_id|apply s_refl]. }
    split; auto. intros st rest HR HC _. destruct (HS I st rest HR) as (v & E & K). eapply steps_trans; [exact K|]. eapply one_reduce; [eapply select_expr; eassumption|apply s_refl].
  - intros k s H. split; [|intros []]. intros st rest HR HC _. unfold parses. cbn [etoks app]. rewrite (int_tok_ok _ _ H). apply one_shift; [now apply shift_ready|]. eapply one_reduce; [reflexivity|apply s_refl].
  - intros o a H1 H2 Ha [IH _]. split; [|intros []]. intros st rest HR HC _. unfold parses. cbn [etoks app]. apply one_shift; [apply shift_ready; auto; destruct o; discriminate H1 || reflexivity|].
    eapply steps_trans; [apply (full_of_inner _ IH); auto; destruct o; discriminate H1 || reflexivity|]. eapply one_reduce; [now apply after_unary|apply s_refl].
  - intros o a b H1 H2 Ha [IHa _] Hb [IHb _]. split; [|intros []]. intros st rest HR HC [HN1 HN2]. unfold parses. cbn [etoks]. rewrite <- app_assoc. cbn [app].
    apply (steps_trans _ (SE a :: st, P (binary_punct o) :: (if bare_right o b then etoks b else twrap b (etoks b)) +++ rest)).
    + destruct (bare_left o a) eqn:B; [apply IHa|apply (full_of_inner _ IHa)]; auto; cbn [hd_error]; try now apply closer_binary. apply bare_left_need; auto.
    + apply one_shift; [apply (HN1 a _ (level o)); [now apply infix_binary|lia]|].
      apply (steps_trans _ (SE b :: ST (P (binary_punct o)) :: SE a :: st, rest)).
      * destruct (bare_right o b) eqn:B; [apply IHb|apply (full_of_inner _ IHb)]; auto; try (now apply opener_binary). now apply bare_right_need.
      * eapply one_reduce; [|apply s_refl]. cbn [action]. rewrite after_binary by auto. destruct (infix (hd_error rest)) as [n|]; auto. assert (Nat.ltb (level o) n = false) as -> by (apply Nat.ltb_ge; lia). reflexivity.
  - intros c t f Hc [IHc _] Ht [IHt _] Hf [IHf _]. split; [|intros []]. intros st rest HR HC [HN1 HN2]. unfold parses. cbn [etoks app]. rewrite <- app_assoc. cbn [app]. rewrite <- app_assoc. cbn [app].
    apply one_shift; [now apply shift_ready|]. eapply steps_trans; [apply IHc; [reflexivity|exact I|apply need_open; [apply room_paren|reflexivity]]|].
    apply one_shift; [cbn [action]; pose proof (ready_call _ HR) as E; destruct st as [|[] st]; cbn in HR; try contradiction; [reflexivity|]; cbn [after_expr]; rewrite E; reflexivity|].
    eapply one_reduce; [reflexivity|]. apply one_shift; [apply (HN1 c _ 0); [reflexivity|lia]|].
    eapply steps_trans; [apply IHt; [reflexivity|exact I|apply need_open; [apply room_cond|reflexivity]]|]. apply one_shift; [reflexivity|].
    eapply steps_trans; [apply IHf; [reflexivity|exact HC|apply need_open; [apply room_colon|exact HN2]]|]. eapply one_reduce; [|apply s_refl]. cbn [action after_expr]. now rewrite HN2.
  - intros l Hl HG IH. split; [|intros []]. intros st rest HR HC _. eapply steps_trans; [apply concat_ok; auto; [revert IH; apply Forall_impl; tauto|now apply shift_ready]|]. eapply one_reduce; [now apply ready_concat|apply s_refl].
  - intros l n Hcat _ IH Hn [IHn _]. split; [|intros []]. intros st rest HR HC _. unfold parses. change (etoks (XRepeat (XConcat l) n)) with (P LBRACE :: etoks n +++ etoks (XConcat l) +++ [P RBRACE]).
    cbn [app]. rewrite <- app_assoc. apply one_shift; [now apply shift_ready|]. eapply steps_trans; [apply IHn; [reflexivity|exact I|apply need_open; [apply room_brace|reflexivity]]|].
    rewrite <- app_assoc. eapply steps_trans; [apply concat_ok; [inversion Hcat; auto|revert IH; apply Forall_impl; tauto|reflexivity]|]. cbn [app]. apply one_shift; [reflexivity|]. eapply one_reduce; [reflexivity|apply s_refl].
  - intros v m l Hi Hv [_ IHv] Hm [IHm _] Hl [IHl _] _ _. split; [|intros []]. intros st rest HR HC _. unfold parses. cbn [etoks]. rewrite <- app_assoc. destruct (IHv Hi st ((P LBRACKET :: etoks m +++ P COLON :: etoks l +++ [P RBRACKET]) +++ rest) HR) as (w & E & K).
    eapply steps_trans; [exact K|]. cbn [app]. apply one_shift; [now apply (select_shift w v)|]. rewrite <- app_assoc. cbn [app]. eapply steps_trans; [apply IHm; [reflexivity|exact I|apply need_open; [apply room_bracket|reflexivity]]|].
    apply one_shift; [now apply (bracket_shift m w v)|]. rewrite <- app_assoc. cbn [app]. eapply steps_trans; [apply IHl; [reflexivity|exact I|apply need_open; [apply room_colon|reflexivity]]|].
    apply one_shift; [now apply (colon_shift l m w v)|]. eapply one_reduce; [eapply close_part; eassumption|apply s_refl].
  - intros v p Hi Hv [_ IHv] Hp [IHp _]. assert (select_ok (XPtr v p)) as HS.
    { intros _ st rest HR. exists (SPtr (XPtr v p)). split; auto. cbn [etoks]. rewrite <- app_assoc. destruct (IHv Hi st ((P LBRACKET :: etoks p +++ [P RBRACKET]) +++ rest) HR) as (w & E & K).
      eapply steps_trans; [exact K|]. cbn [app]. apply one_shift; [now apply (select_shift w v)|]. rewrite <- app_assoc. cbn [app]. eapply steps_trans; [apply IHp; [reflexivity|exact I|apply need_open; [apply room_bracket|reflexivity]]|].
      apply one_shift; [now apply (bracket_shift p w v)|]. eapply one_reduce; [eapply close_ptr; eassumption|apply s_refl]. }
    split; auto. intros st rest HR HC _. destruct (HS I st rest HR) as (w & E & K). eapply steps_trans; [exact K|]. eapply one_reduce; [eapply select_expr; eassumption|apply s_refl].
  - intros f l Hf HG IH. split; [|intros []]. intros st rest HR HC _. unfold parses. cbn [etoks app]. rewrite <- app_assoc, (id_token_ok _ Hf). apply one_shift; [now apply shift_ready|]. eapply one_reduce; [now apply ready_id|].
    eapply steps_trans; [apply args_ok; [reflexivity|revert IH; apply Forall_impl; intros x [Hx _]; now apply full_of_inner|reflexivity]|]. eapply one_reduce; [reflexivity|apply s_refl].
  - intros f l Hf HG IH. split; [|intros []]. intros st rest HR HC _. unfold parses. cbn [etoks app]. apply one_shift; [now apply shift_ready|].
    assert (exists t, id_token f = t /\ call_head t = Some f /\ action (ST t :: ST (P DOLLER) :: st) (Some (P LPAREN)) = Shift /\ (l = [] -> action (ST t :: ST (P DOLLER) :: st) (hd_error rest) = Reduce (SE (XSys f []) :: st)) /\ action (ST (P DOLLER) :: st) (Some t) = Shift) as (t & -> & HT & HA & HA2 & HA3).
    { destruct Hf as [Hf|[-> Hl]].
      - exists (ID f). split; [now apply id_token_ok|]. split; [reflexivity|]. split; [reflexivity|]. split; [|reflexivity]. intros _. destruct rest as [|[p|x|x|x|x|k x] rest]; auto. cbn [hd_error]. destruct p; cbn in HC; tauto || reflexivity.
      - exists (KW "signed"). split; [reflexivity|]. split; [reflexivity|]. split; [reflexivity|]. split; [congruence|reflexivity]. }
    apply one_shift; auto. destruct l as [|x l]; [cbn [app]; eapply one_reduce; [now apply HA2|apply s_refl]|]. cbn [app]. rewrite <- app_assoc.
    eapply steps_trans; [apply args_ok; [cbn [call_before]; now rewrite HT|revert IH; apply Forall_impl; intros y [Hy _]; now apply full_of_inner|exact HA]|]. eapply one_reduce; [cbn [action close_paren]; now rewrite HT|apply s_refl].
Qed.

Theorem parse_etoks e : good e -> exists n0, forall n, n0 <= n -> parse_tokens n (etoks e) = Ok e.
Proof.
  intros H. apply steps_run. destruct (parse_inner e H) as [K _]. specialize (K [] [] I I). rewrite <- (app_nil_r (etoks e)). apply K. apply need_open; [apply room_nil|reflexivity].
Qed.
Theorem parse_ftoks e : good e -> exists n0, forall n, n0 <= n -> parse_tokens n (ftoks e) = Ok e.
Proof. intros H. apply steps_run. destruct (parse_inner e H) as [K _]. rewrite <- (app_nil_r (ftoks e)). apply (full_of_inner _ K); exact I. Qed.
