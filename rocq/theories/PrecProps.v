(** PrecProps.v - C58: expressions are read with the precedence and associativity of Verilog. *)
From Verif Require Import Base DfModel LexModel ExprModel ParseModel ExprProps PrecSpec PrecProofs PrecProofs2.
Local Open Scope string_scope.

(** Every text of the grammar is read as its tree. *)
Theorem C58_precedence : forall l e, reads 0 l e -> exists n0, forall n, n0 <= n -> parse_tokens n l = Ok e.
Proof. exact grammar_parsed. Qed.
(** Every text that is accepted is in the grammar, with the tree delivered. *)
Theorem C58_accepted_partial : forall n l e, ordinary l = true -> parse_tokens n l = Ok e -> reads 0 l e.
Proof. exact parsed_grammar. Qed.
(** The grammar gives a text one tree. *)
Theorem C58_one_tree : forall l e e', reads 0 l e -> reads 0 l e' -> e = e'.
Proof.
  intros l e e' H H'. destruct (grammar_parsed _ _ H) as (n & K). destruct (grammar_parsed _ _ H') as (n' & K').
  specialize (K (n + n') ltac:(lia)). specialize (K' (n + n') ltac:(lia)). congruence.
Qed.
(** The same for texts. *)
Theorem C58_text_partial : forall s l e, lex 1 s = Ok l -> ordinary (map lt_tok (l_tokens l)) = true ->
  (reads 0 (map lt_tok (l_tokens l)) e <-> exists n0, forall n, n0 <= n -> parse_text n s = Ok e).
Proof.
  intros s l e HL HO. split.
  - intros H. destruct (grammar_parsed _ _ H) as (n0 & K). exists n0. intros n Hn. unfold parse_text. rewrite HL. cbn [bind]. auto.
  - intros (n0 & K). specialize (K n0 (Nat.le_refl _)). unfold parse_text in K. rewrite HL in K. cbn [bind] in K. eapply parsed_grammar; eassumption.
Qed.
Print Assumptions C58_precedence.
Print Assumptions C58_accepted_partial.
Print Assumptions C58_one_tree.
Print Assumptions C58_text_partial.

(** A case: "a ? b : c || d & -e ** 2 - f[3] - g == h" . *)
Definition toks58 : list token :=
  [ID "a"; P COND; ID "b"; P COLON; ID "c"; P LOR; ID "d"; P AND; P MINUS; ID "e"; P POWER; INT DEC "2"; P MINUS; ID "f"; P LBRACKET; INT DEC "3"; P RBRACKET; P MINUS; ID "g"; P EQ; ID "h"].
Definition tree58 : expr :=
  XCond (XId "a") (XId "b")
    (XBin Lor (XId "c")
       (XBin And (XId "d")
          (XBin Eq (XBin Minus (XBin Minus (XBin Power (XUn Uminus (XId "e")) (XInt "2")) (XPtr (XId "f") (XInt "3"))) (XId "g")) (XId "h")))).
Ltac up := repeat (apply r_up).
Example C58_tokens : (do l <- lex 1 "a ? b : c || d & -e ** 2 - f[3] - g == h"; Ok (map lt_tok (l_tokens l))) = Ok toks58.
Proof. vm_compute. reflexivity. Qed.
Lemma name_reads n s : n <= 13 -> reads n [ID s] (XId s).
Proof. intros H. apply (lower n 13); [|exact H]. apply r_select, s_name. Qed.
Lemma number_reads n k s : n <= 13 -> reads n [INT k s] (XInt s).
Proof. intros H. apply (lower n 13); [|exact H]. apply r_number. Qed.
Example C58_reads : ordinary toks58 = true /\ reads 0 toks58 tree58.
Proof.
  split; [reflexivity|]. unfold toks58, tree58.
  apply (r_cond _ _ _ [ID "a"] [ID "b"] _); [apply name_reads; lia|apply name_reads; lia|]. apply r_up.
  apply (r_binary LOR Lor 1 _ _ [ID "c"] _ eq_refl); [apply name_reads; lia|]. apply (lower 2 5); [|lia].
  apply (r_binary AND And 5 _ _ [ID "d"] _ eq_refl); [apply name_reads; lia|].
  apply (r_binary EQ Eq 6 _ _ [P MINUS; ID "e"; P POWER; INT DEC "2"; P MINUS; ID "f"; P LBRACKET; INT DEC "3"; P RBRACKET; P MINUS; ID "g"] _ eq_refl); [|apply name_reads; lia]. apply (lower 6 9); [|lia].
  apply (r_binary MINUS Minus 9 _ _ [P MINUS; ID "e"; P POWER; INT DEC "2"; P MINUS; ID "f"; P LBRACKET; INT DEC "3"; P RBRACKET] _ eq_refl); [|apply name_reads; lia].
  apply (r_binary MINUS Minus 9 _ _ [P MINUS; ID "e"; P POWER; INT DEC "2"] _ eq_refl).
  - apply (lower 9 11); [|lia]. apply (r_binary POWER Power 11 _ _ [P MINUS; ID "e"] _ eq_refl); [|apply number_reads; lia].
    apply r_up. apply (r_unary MINUS (XId "e") _ [ID "e"]); [constructor|apply name_reads; lia].
  - apply (lower 10 13); [|lia]. apply r_select. apply (s_element [ID "f"] [INT DEC "3"]); [constructor|apply number_reads; lia].
Qed.

(** v[b +: w] is the bits b to b+w-1 of v, v[b -: w] the bits b-w+1 to b. The trees are slices of one
    bit more, the first with its bounds exchanged. *)
Definition slice_bits (value : expr -> Z) (m l : expr) (i : Z) : Prop := (Z.min (value m) (value l) <= i <= Z.max (value m) (value l))%Z.
Theorem C58_indexed_slice_refuted : exists m l m' l',
  (exists n, parse_text n "a[4 +: 2]" = Ok (XPart (XId "a") m l)) /\ (exists n, parse_text n "a[4 -: 2]" = Ok (XPart (XId "a") m' l')) /\
  forall value, value (XInt "4") = 4%Z -> value (XInt "2") = 2%Z ->
    (forall a b, value (XBin Plus a b) = value a + value b)%Z -> (forall a b, value (XBin Minus a b) = value a - value b)%Z ->
    ~ (forall i, slice_bits value m l i <-> (4 <= i <= 5)%Z) /\ ~ (forall i, slice_bits value m' l' i <-> (3 <= i <= 4)%Z) /\ (value m < value l)%Z.
Proof.
  exists (XInt "4"), (XBin Plus (XInt "4") (XInt "2")), (XInt "4"), (XBin Minus (XInt "4") (XInt "2")).
  split; [exists 40; vm_compute; reflexivity|]. split; [exists 40; vm_compute; reflexivity|].
  intros value H4 H2 HP HM. unfold slice_bits. rewrite HP, HM, H4, H2. split; [intros K; specialize (K 6%Z); lia|]. split; [intros K; specialize (K 2%Z); lia|lia].
Qed.
(** ^~ is one operator, the reduction xnor; it is read as xor of the complement, which for a signal
    of two bits is always the opposite. *)
Theorem C58_reduction_xnor_refuted : exists n, parse_text n "^~a" = Ok (XUn Uxor (XUn Unot (XId "a"))) /\
  forall b1 b0 : bool, xorb (negb b1) (negb b0) = negb (negb (xorb b1 b0)).
Proof. exists 40. split; [vm_compute; reflexivity|]. intros [] []; reflexivity. Qed.
(** An empty first argument is accepted and left out. *)
Theorem C58_empty_argument_refuted : exists n e, parse_text n "f(, a)" = Ok e /\ e = XCall "f" [XId "a"] /\ parse_text n "f(a)" = Ok e.
Proof. exists 40. eexists. split; [vm_compute; reflexivity|]. split; [reflexivity|vm_compute; reflexivity]. Qed.
Print Assumptions C58_indexed_slice_refuted.
Print Assumptions C58_reduction_xnor_refuted.
Print Assumptions C58_empty_argument_refuted.
