(** ExprProps.v - C01 to C03: printing and parsing expressions. *)
From Verif Require Import Base DfModel LexModel LexSpec LexProofs ExprModel ParseModel ExprSpec ExprText ExprText2 ExprText3 ExprParse ExprSound.
Require Import Coq.Strings.Ascii.
Local Open Scope string_scope.

(** * C01 *)
(** The full claim, false because of what [printable] excludes, is
    [forall e, written e -> exists n0, forall n, n0 <= n -> parse_text n (gen e) = Ok e]. *)
Theorem C01_round_trip_partial : forall e, written e -> printable e = true ->
  exists n0, forall n, n0 <= n -> parse_text n (gen e) = Ok e /\ parse_text n (gen_rvalue e) = Ok e.
Proof.
  intros e HW HP. pose proof (written_good e HW HP) as H. destruct (lex_gen e H) as (l1 & E1 & T1). destruct (lex_gen_rvalue e H) as (l2 & E2 & T2).
  destruct (parse_ftoks e H) as (n1 & K1). destruct (parse_etoks e H) as (n2 & K2). exists (n1 + n2). intros n Hn. unfold parse_text. rewrite E1, E2. cbn [bind]. rewrite T1, T2, K1, K2 by lia. auto.
Qed.
Print Assumptions C01_round_trip_partial.
(** Whatever text the parser accepts: printing its tree and parsing again gives the same tree. *)
Theorem C01_parsed_round_trip_partial : forall m s e, parse_text m s = Ok e -> printable e = true ->
  exists n0, forall n, n0 <= n -> parse_text n (gen e) = Ok e /\ parse_text n (gen_rvalue e) = Ok e.
Proof. intros m s e H HP. apply C01_round_trip_partial; auto. eapply parse_sound; eassumption. Qed.
Print Assumptions C01_parsed_round_trip_partial.
(** More fuel does not change a result of the parser. *)
Theorem C01_result_stable : forall n m s e, parse_text n s = Ok e -> n <= m -> parse_text m s = Ok e.
Proof.
  intros n m s e H L. unfold parse_text in *. apply bind_ok in H as (l & -> & H). cbn [bind]. unfold parse_tokens in *. revert m L H. generalize (@nil sym, map lt_tok (l_tokens l)) as c.
  induction n as [|n IH]; intros c m L H; [discriminate|]. destruct m as [|m]; [lia|]. cbn [run] in *. destruct (step c); auto. apply IH; auto. lia.
Qed.
Print Assumptions C01_result_stable.
(** Different trees have different texts. *)
Theorem C01_text_determines_tree : forall e e', written e -> printable e = true -> written e' -> printable e' = true -> gen_rvalue e = gen_rvalue e' -> e = e'.
Proof.
  intros e e' H1 H2 H3 H4 E. destruct (C01_round_trip_partial e H1 H2) as (n1 & K1). destruct (C01_round_trip_partial e' H3 H4) as (n2 & K2).
  destruct (K1 (n1 + n2) ltac:(lia)) as [_ A]. destruct (K2 (n1 + n2) ltac:(lia)) as [_ B]. rewrite E in A. congruence.
Qed.
Print Assumptions C01_text_determines_tree.

(** ** What goes wrong: trees that the parser itself delivers *)
Lemma result_unique n m s a b : parse_text n s = a -> a <> Err OutOfFuel -> parse_text m s = Ok b -> a = Ok b.
Proof.
  intros H N K. destruct (Nat.le_gt_cases n m) as [L|L]; [|apply (C01_result_stable _ n) in K; [congruence|lia]].
  unfold parse_text, parse_tokens in *. destruct (lex 1 s) as [l|x]; [|discriminate K]. cbn [bind] in *. revert m L H K. generalize (@nil sym, map lt_tok (l_tokens l)) as c.
  induction n as [|n IH]; intros c m L H K; [cbn in H; congruence|]. destruct m as [|m]; [lia|]. cbn [run] in *. destruct (step c) as [c'|]; [|congruence]. apply (IH c' m); auto. lia.
Qed.
Definition lost (text : string) (e : expr) : Prop := (exists n, parse_text n text = Ok e) /\ forall n, parse_text n (gen_rvalue e) <> Ok e.
Lemma lost_by n m text e r : parse_text n text = Ok e -> parse_text m (gen_rvalue e) = r -> r <> Err OutOfFuel -> r <> Ok e -> lost text e.
Proof. intros H1 H2 H3 H4. split; [eauto|]. intros k K. apply H4. eapply result_unique; eassumption. Qed.
(** a <<< b is printed as "ab". *)
Theorem C01_shift_refuted : exists text e, lost text e.
Proof. exists "a <<< b". eexists. eapply (lost_by 20 20); [vm_compute; reflexivity|vm_compute; reflexivity|discriminate|discriminate]. Qed.
(** a[b & &c : 0] is printed as a[b&&c:0]. *)
Theorem C01_bound_refuted : exists text e, lost text e /\ gen_rvalue e = "a[b&&c:0]" /\ text = "a[b & &c : 0]".
Proof. exists "a[b & &c : 0]". eexists. split; [eapply (lost_by 40 40); [vm_compute; reflexivity|vm_compute; reflexivity|discriminate|discriminate]|]. split; reflexivity. Qed.
(** An escaped identifier in a bound swallows what follows it. *)
Theorem C01_escaped_bound_refuted : exists text e, lost text e /\ text = "a[\b :0]".
Proof. exists "a[\b :0]". eexists. split; [eapply (lost_by 40 40); [vm_compute; reflexivity|vm_compute; reflexivity|discriminate|discriminate]|reflexivity]. Qed.
(** $signed() is printed without its parentheses. *)
Theorem C01_signed_refuted : exists text e, lost text e /\ text = "$signed()".
Proof. exists "$signed()". eexists. split; [eapply (lost_by 40 40); [vm_compute; reflexivity|vm_compute; reflexivity|discriminate|discriminate]|reflexivity]. Qed.
(** A unary plus, which a program can build, is printed with the word None. *)
Theorem C01_uplus_refuted : gen_rvalue (XUn Uplus (XId "a")) = "Nonea".
Proof. reflexivity. Qed.
Print Assumptions C01_bound_refuted.

(** A tree with everything in it. *)
Definition big : expr :=
  XCond (XBin Land (XUn Uor (XId "a")) (XBin Eq (XPtr (XPtr (XId "m") (XId "i")) (XInt "0")) (XInt "4'b10x1")))
    (XBin Minus (XBin Minus (XId "a") (XBin Minus (XId "b") (XUn Uminus (XId "c")))) (XBin Times (XBin Plus (XId "a") (XInt "1")) (XId "\esc+")))
    (XCond (XId "s") (XRepeat (XConcat [XConcat [XId "a"; XPart (XId "v") (XBin Minus (XId "N") (XInt "1")) (XInt "0")]; XSys "signed" [XId "q"]]) (XBin Plus (XInt "1") (XInt "2")))
       (XCall "f" [XBin Sra (XBin Sll (XId "a") (XInt "1")) (XInt "3"); XSys "time" []])).
Example C01_hypotheses_met : (exists n s, parse_text n s = Ok big) /\ printable big = true /\
  gen_rvalue big = "(|a && (m[i][0] == 4'b10x1))? a - (b - -c) - (a + 1) * \esc+  : " ++ String NL "(s)? { 1 + 2{ { a, v[N-1:0] }, $signed(q) } } : f(((a << 1) >>> 3), $time)".
Proof. split; [exists 400, (gen_rvalue big); vm_compute; reflexivity|]. split; vm_compute; reflexivity. Qed.

(** * C02 *)
Definition tokens_of (s : string) : res (list token) := do l <- lex 1 s; Ok (map lt_tok (l_tokens l)).
(** The full claim, without [blank_free e], is false: see below. *)
Theorem C02_blanks_partial : forall e, written e -> printable e = true -> blank_free e = true ->
  exists l, tokens_of (gen_rvalue e) = Ok l /\ tokens_of (del_space (gen_rvalue e)) = Ok l.
Proof.
  intros e HW HP HB. pose proof (written_good e HW HP) as H. unfold tokens_of. destruct (lex_gen_rvalue e H) as (l2 & E2 & T2). destruct (lex_no_blanks e H HB) as (l3 & E3 & T3). rewrite E2, E3. cbn [bind]. exists (etoks e). split; congruence.
Qed.
Print Assumptions C02_blanks_partial.
(** So the bound that is printed parses to the bound that was meant. *)
Theorem C02_bound_meaning_partial : forall e, written e -> printable e = true -> blank_free e = true ->
  exists n0, forall n, n0 <= n -> parse_text n (del_space (gen_rvalue e)) = Ok e.
Proof.
  intros e HW HP HB. destruct (C01_round_trip_partial e HW HP) as (n0 & K). exists n0. intros n Hn. destruct (K n Hn) as [_ K2]. destruct (C02_blanks_partial e HW HP HB) as (l & E1 & E2). unfold tokens_of in *. apply bind_ok in E1 as (l1 & E1 & F1). apply bind_ok in E2 as (l2 & E2 & F2).
  unfold parse_text in *. rewrite E1 in K2. rewrite E2. cbn [bind] in *. congruence.
Qed.
Print Assumptions C02_bound_meaning_partial.
Theorem C02_blanks_refuted : exists e, written e /\ printable e = true /\ tokens_of (del_space (gen_rvalue e)) <> tokens_of (gen_rvalue e) /\
  (exists e', parse_text 20 (del_space (gen_rvalue e)) = Ok e' /\ e' <> e).
Proof.
  exists (XBin Or (XId "a") (XUn Uor (XId "b"))). assert (forall s, s = "a" \/ s = "b" -> written (XId s)) as K.
  { intros s H. constructor. left. destruct H as [-> | ->]; eexists _, _; (split; [reflexivity|]); (split; [reflexivity|]); (split; [constructor|]); intros N; repeat (destruct N as [N|N]; [discriminate N|]); exact N. }
  split; [apply w_bin; auto; apply w_un; auto|]. split; [reflexivity|]. split; [vm_compute; discriminate|]. eexists. split; [vm_compute; reflexivity|discriminate].
Qed.
Print Assumptions C02_blanks_refuted.
Example C02_hypotheses_met : blank_free (XBin And (XId "a") (XUn Unand (XBin Or (XId "b") (XUn Uxor (XId "c"))))) = true /\
  del_space (gen_rvalue (XBin And (XId "a") (XUn Unand (XBin Or (XId "b") (XUn Uxor (XId "c")))))) = "a&~&(b|^c)".
Proof. split; reflexivity. Qed.

(** * C03 *)
(** The text of an operator: its mark, between or before the texts of its operands, which may
    lose their outer parentheses. The full claim is for all operators. *)
Definition operand (a : expr) (s : string) : Prop := s = gen a \/ s = del_paren (gen a).
Theorem C03_binary_mark_partial : forall o a b, is_unary o = false -> o <> Sla ->
  exists l r, operand a l /\ operand b r /\ gen (XBin o a b) = "(" ++ l ++ " " ++ verilog_mark o ++ " " ++ r ++ ")".
Proof.
  intros o a b H HS. exists (if bare_left o a then del_paren (gen a) else gen a), (if bare_right o b then del_paren (gen b) else gen b).
  split; [destruct (bare_left o a); [right|left]; reflexivity|]. split; [destruct (bare_right o b); [right|left]; reflexivity|]. destruct o; try discriminate H; try congruence; reflexivity.
Qed.
Print Assumptions C03_binary_mark_partial.
Theorem C03_unary_mark_partial : forall o a, is_unary o = true -> o <> Uplus -> gen (XUn o a) = "(" ++ verilog_mark o ++ gen a ++ ")".
Proof. intros o a H HU. destruct o; try discriminate H; congruence || reflexivity. Qed.
Print Assumptions C03_unary_mark_partial.
Theorem C03_marks_refuted : gen (XUn Uplus (XId "a")) = "(Nonea)" /\ gen (XBin Sla (XId "a") (XId "b")) = "ab".
Proof. split; reflexivity. Qed.
Print Assumptions C03_marks_refuted.
Example C03_hypotheses_met : gen (XBin Minus (XBin Minus (XId "a") (XId "b")) (XId "c")) = "(a - b - c)" /\ gen (XBin Minus (XId "a") (XBin Minus (XId "b") (XId "c"))) = "(a - (b - c))".
Proof. split; reflexivity. Qed.
