(** StmProps.v - C56: statements, always and initial blocks that are printed can be read back.
    Spec: [swritten], [item_written] (what the grammar can deliver), [sprintable], [item_printable] (StmSpec.v). *)
From Verif Require Import Base DfModel LexModel LexSpec LexProofs ExprModel ParseModel ExprSpec ExprLex ExprText ExprText3 ExprSound StmModel StmSpec StmText StmText2 StmText3 StmParse StmParse2 StmParse3 StmParse4 StmSound StmFuel.
Local Open Scope string_scope.
Local Notation "a +++ b" := (@app _ a b) (at level 60, right associativity).

Lemma lex_stm s : swritten s -> sprintable s = true -> exists l, lex 1 (gen_stm s) = Ok l /\ map lt_tok (l_tokens l) = stoks s.
Proof. intros W HP. apply spells_lex. now apply spells_stm. Qed.
Lemma lex_tail s ts : spells s ts -> exists l, lex 1 (s ++ String NL "") = Ok l /\ map lt_tok (l_tokens l) = ts.
Proof.
  intros (p & <- & <- & H1 & H2). destruct (lex_render (p +++ [PN])) as (l & E1 & E2).
  - apply lexable_app; [exact H1|cbn; auto|]. apply H2. reflexivity.
  - exists l. rewrite render_app in E1. cbn [render ptext append] in E1. split; [exact E1|]. rewrite E2, toks_app. apply app_nil_r.
Qed.
Lemma lex_item i : item_written i -> item_printable i = true -> exists l, lex 1 (gen_item i) = Ok l /\ map lt_tok (l_tokens l) = itoks i.
Proof.
  destruct i as [k l s|s]; cbn [item_written item_printable].
  - intros (W1 & W2 & W3) HP. destruct k; try discriminate HP. apply andb_true_iff in HP as [P1 P2]. cbn [gen_item itoks].
    replace (String NL ("always @(" ++ gen_senslist l ++ ") " ++ gen_stm s ++ String NL "")) with (String NL ("always " ++ "@(" ++ gen_senslist l ++ ")" ++ String " " (gen_stm s)) ++ String NL "").
    2: { cbn [append]. do 10 f_equal. now rewrite !app_assoc_s. }
    apply lex_tail. apply spells_newline; [|discriminate|reflexivity]. apply (spells_kw_blank "always"); [res|]. apply (spells_punct AT); [reflexivity|]. apply (spells_punct LPAREN); [reflexivity|].
    apply spells_senslist; [now apply sens_is_good|]. apply spells_blank. now apply spells_stm.
  - intros W HP. cbn [gen_item itoks]. change (String NL ("initial " ++ gen_stm s ++ String NL "")) with (String NL ("initial " ++ gen_stm s) ++ String NL "").
    apply lex_tail. apply spells_newline; [|discriminate|reflexivity]. apply (spells_kw_blank "initial"); [res|]. now apply spells_stm.
Qed.

Lemma printable_code s : sprintable s = true -> has_unique s = false.
Proof.
  revert s. apply (stm_ind' (fun s => sprintable s = true -> has_unique s = false)); cbn [sprintable has_unique]; auto; try discriminate.
  - intros c t e IHt IHe H. apply andb_true_iff in H as [H H3]. apply andb_true_iff in H as [H1 H2]. rewrite (IHt H2). destruct e as [e|]; [exact (IHe H3)|reflexivity].
  - intros pre c post b IH H. apply andb_true_iff in H as [H H3]. auto.
  - intros c b IH H. apply andb_true_iff in H as [H H3]. auto.
  - intros k c l IH H. apply andb_true_iff in H as [H H3]. clear H. induction IH as [|x l Hx IH IH2]; [reflexivity|]. cbn [forallb existsb] in *. apply andb_true_iff in H3 as [H1 H3]. apply andb_true_iff in H1 as [_ H1]. now rewrite (Hx H1), IH2.
  - intros sc l IH H. induction IH as [|x l Hx IH IH2]; [reflexivity|]. cbn [forallb existsb] in *. apply andb_true_iff in H as [H1 H3]. now rewrite (Hx H1), IH2.
  - intros sc l IH H. induction IH as [|x l Hx IH IH2]; [reflexivity|]. cbn [forallb existsb] in *. apply andb_true_iff in H as [H1 H3]. now rewrite (Hx H1), IH2.
  - intros c b IH H. destruct b as [b|]; [|reflexivity]. apply andb_true_iff in H as [_ H]. exact (IH H).
Qed.

(** ** C56 *)
(** The text can be read, and what is read is the tree. *)
Definition reads_stm (text : string) (s : stm) : Prop := exists n0, forall n, n0 <= n -> parse_stm n text = Ok s.
Definition reads_item (text : string) (i : item) : Prop := exists n0, forall n, n0 <= n -> parse_item n text = Ok i.
Theorem C56_statement_round_trip_partial : forall s, swritten s -> sprintable s = true -> exists text, code_stm s = Ok text /\ reads_stm text s.
Proof.
  intros s W HP. exists (gen_stm s). split; [unfold code_stm; now rewrite (printable_code s HP)|]. destruct (lex_stm s W HP) as (l & E1 & E2). destruct (p_stm_all s W HP []) as (n0 & K); [intros _; exact I|]. exists n0. intros n Hn. unfold parse_stm. rewrite E1. cbn [bind]. rewrite E2. specialize (K n Hn). rewrite app_nil_r in K. rewrite K. reflexivity.
Qed.
Print Assumptions C56_statement_round_trip_partial.
Theorem C56_item_round_trip_partial : forall i, item_written i -> item_printable i = true -> exists text, code_item i = Ok text /\ reads_item text i.
Proof.
  intros i W HP. exists (gen_item i). split; [unfold code_item; destruct i as [[] l s|s]; try discriminate HP; cbn [item_printable] in HP; [apply andb_true_iff in HP as [_ HP]|]; now rewrite (printable_code s HP)|].
  destruct (lex_item i W HP) as (l & E1 & E2). destruct (p_item_all i W HP) as (n0 & K). exists n0. intros n Hn. unfold parse_item. rewrite E1. cbn [bind]. rewrite E2, (K n Hn). reflexivity.
Qed.
Print Assumptions C56_item_round_trip_partial.
(** What the parser delivers can be written, so for it only what the generator prints wrong is to be excluded. *)
Theorem C56_parsed_statement_partial : forall n text s, parse_stm n text = Ok s -> swritten s /\ (sprintable s = true -> exists text', code_stm s = Ok text' /\ reads_stm text' s).
Proof. intros n text s H. pose proof (parse_stm_sound n text s H) as W. split; [exact W|]. now apply C56_statement_round_trip_partial. Qed.
Print Assumptions C56_parsed_statement_partial.
Theorem C56_parsed_item_partial : forall n text i, parse_item n text = Ok i -> item_written i /\ (item_printable i = true -> exists text', code_item i = Ok text' /\ reads_item text' i).
Proof. intros n text i H. pose proof (parse_item_sound n text i H) as W. split; [exact W|]. now apply C56_item_round_trip_partial. Qed.
Print Assumptions C56_parsed_item_partial.
(** Different statements have different texts. *)
Theorem C56_text_determines_statement_partial : forall s t, swritten s -> sprintable s = true -> swritten t -> sprintable t = true -> code_stm s = code_stm t -> s = t.
Proof.
  intros s t W1 P1 W2 P2 E. destruct (C56_statement_round_trip_partial s W1 P1) as (x1 & E1 & n1 & K1). destruct (C56_statement_round_trip_partial t W2 P2) as (x2 & E2 & n2 & K2).
  specialize (K1 (Nat.max n1 n2) ltac:(lia)). specialize (K2 (Nat.max n1 n2) ltac:(lia)). congruence.
Qed.
Print Assumptions C56_text_determines_statement_partial.

(** A text, its tree and what is printed for it. *)
Definition text56 : string :=
  "begin : lbl if(!rst) q <= 0; else q <= #1 q + 1; case (q) 0, 1 : {x, y[1]} = z; default: begin end endcase for(i=0;i<4;i=i+1) if (a) m[i] <= {a, {2{b}}}; wait (d) #5; $display(q); end".
Definition item56 : string := "always @(posedge clk or negedge rst) " ++ text56.
Example C56_hypotheses_met : exists i text, parse_item 80 item56 = Ok i /\ item_printable i = true /\ code_item i = Ok text /\ parse_item 80 text = Ok i.
Proof. eexists _, _. do 3 (split; [vm_compute; reflexivity|]). vm_compute. reflexivity. Qed.

(** *** What is printed wrong. *)
(** The tree is printed as a text that cannot be parsed, whatever the fuel. *)
Definition unreadable_stm (t u : string) : Prop := exists s, parse_stm 60 t = Ok s /\ code_stm s = Ok u /\ forall n, 60 <= n -> parse_stm n u = Err ParseError.
Definition unreadable_item (t u : string) : Prop := exists i, parse_item 60 t = Ok i /\ code_item i = Ok u /\ forall n, 60 <= n -> parse_item n u = Err ParseError.
Ltac unread := eexists; split; [vm_compute; reflexivity|]; split; [vm_compute; reflexivity|].
Ltac stuck_stm := unread; let n := fresh in let Hn := fresh in intros n Hn; refine (parse_stm_more 60 n _ _ Hn _ _); [vm_compute; reflexivity|discriminate].
Ltac stuck_item := unread; let n := fresh in let Hn := fresh in intros n Hn; refine (parse_item_more 60 n _ _ Hn _ _); [vm_compute; reflexivity|discriminate].
(** casez loses its keyword and parentheses. *)
Theorem C56_casez_refuted : unreadable_stm "casez (a) 1: x = 1; endcase" "a1: x = 1;".
Proof. stuck_stm. Qed.
Print Assumptions C56_casez_refuted.
(** Of a unique case the parser keeps only the two parentheses, and printing it fails. *)
Theorem C56_unique_case_refuted : exists s, parse_stm 60 "unique case (a) 1: x = 1; endcase" = Ok s /\ parse_stm 60 "unique case (b) 2: y = 2; default: begin end endcase" = Ok s /\ code_stm s = Err AttributeError.
Proof. eexists. do 2 (split; [vm_compute; reflexivity|]). vm_compute. reflexivity. Qed.
Print Assumptions C56_unique_case_refuted.
(** A for, while, event, wait, forever or fork as the last statement of an if, or as the statement of an always, makes
    the parser fail; below an initial or in begin and end it does not. *)
Theorem C56_last_line_refuted : parse_item 60 "always @(*) for(i=0; i<4; i=i+1) x[i] = y[i];" = Err AttributeError /\ (exists i, parse_item 60 "initial for(i=0; i<4; i=i+1) x[i] = y[i];" = Ok i) /\
  parse_stm 60 "if(a) @(posedge clk);" = Err AttributeError /\ parse_stm 60 "if(a) ; else while(b) x = 1;" = Err AttributeError /\ (exists s, parse_stm 60 "if(a) while(b) x = 1; else ; " = Err AttributeError /\ parse_stm 60 "if(a) while(b) x = 1; else begin ; end" = Ok s).
Proof. split; [vm_compute; reflexivity|]. split; [eexists; vm_compute; reflexivity|]. split; [vm_compute; reflexivity|]. split; [vm_compute; reflexivity|]. eexists. split; [vm_compute; reflexivity|]. vm_compute. reflexivity. Qed.
Print Assumptions C56_last_line_refuted.
(** So do always_ff, always_comb and always_latch. *)
Theorem C56_always_refuted :
  unreadable_item "always_ff @(posedge clk) x <= 1;" "posedge clkx <= 1;" /\ unreadable_item "always_comb x = 1;" "*x = 1;" /\ unreadable_item "always_latch x = 1;" "*x = 1;".
Proof. repeat split; stuck_item. Qed.
Print Assumptions C56_always_refuted.
Theorem C56_disable_refuted : unreadable_stm "disable a;" "diable a;".
Proof. stuck_stm. Qed.
Print Assumptions C56_disable_refuted.
(** The semicolon after an empty initialisation is missing; with all blanks removed, a delay and its target, or an
    escaped name and what follows it, run together. *)
Theorem C56_for_refuted : unreadable_stm "for(;i<4;i=i+1) x = 1;" "for( i<4; i=i+1) x = 1;" /\ unreadable_stm "for(#a i=0;i<4;i=i+1) x = 1;" "for(#ai=0; i<4; i=i+1) x = 1;" /\
  unreadable_stm "for(\a =0;\a <4;i=i+1) x = 1;" "for(\a=0; \a<4; i=i+1) x = 1;".
Proof. repeat split; stuck_stm. Qed.
Print Assumptions C56_for_refuted.
(** Or two operators, and a different statement is read. *)
Theorem C56_for_step_refuted : exists s s', parse_stm 60 "for(i=0;i<4;i=i|(|j)) x = 1;" = Ok s /\ code_stm s = Ok "for(i=0; i<4; i=i||j) x = 1;" /\ (forall n, 60 <= n -> parse_stm n "for(i=0; i<4; i=i||j) x = 1;" = Ok s') /\ s' <> s.
Proof.
  eexists _, _. split; [vm_compute; reflexivity|]. split; [vm_compute; reflexivity|]. split; [intros n Hn; refine (parse_stm_more 60 n _ _ Hn _ _); [vm_compute; reflexivity|discriminate]|discriminate].
Qed.
Print Assumptions C56_for_step_refuted.
(** A delay loses its parentheses. *)
Theorem C56_delay_refuted : unreadable_stm "#(a[0]) x = 1;" "#a[0] x = 1;" /\ unreadable_stm "x <= #(a[0]) y;" "x <= #a[0] y;".
Proof. split; stuck_stm. Qed.
Print Assumptions C56_delay_refuted.
(** In reading: the delay of an if is dropped, no statement and no event control become any change. *)
Theorem C56_reading_refuted : (exists s, parse_stm 60 "#5 if(c) x = 1;" = Ok s /\ parse_stm 60 "if(c) x = 1;" = Ok s) /\ (exists s, parse_stm 60 ";" = Ok s /\ parse_stm 60 "@(*);" = Ok s) /\
  (exists i, parse_item 60 "always x = ~x;" = Ok i /\ parse_item 60 "always @(*) x = ~x;" = Ok i).
Proof. split; [|split]; (eexists; split; [vm_compute; reflexivity|]; vm_compute; reflexivity). Qed.
Print Assumptions C56_reading_refuted.
(** For a tree that was built by hand: a missing else is not made up for by begin and end. *)
Theorem C56_built_tree_refuted : exists s s' : stm, sprintable s = true /\ (forall n, 60 <= n -> parse_stm n (gen_stm s) = Ok s') /\ s' <> s.
Proof.
  pose (x v := TAsg false (Asg (XId "x") (XInt v) None None)). exists (TIf (XId "a") (TIf (XId "b") (x "1") None) (Some (x "2"))). eexists. split; [reflexivity|]. split; [intros n Hn; refine (parse_stm_more 60 n _ _ Hn _ _); [vm_compute; reflexivity|discriminate]|discriminate].
Qed.
Print Assumptions C56_built_tree_refuted.
(** The answer of the parser does not depend on the fuel once it is enough. *)
Theorem C56_fuel : forall n m t, n <= m -> parse_stm n t <> Err OutOfFuel -> parse_stm m t = parse_stm n t.
Proof. intros n m t H N. exact (parse_stm_more n m t _ H eq_refl N). Qed.
Print Assumptions C56_fuel.
