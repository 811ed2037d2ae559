(** LexProps.v - C49: lines and directives. *)
From Verif Require Import Base LexModel LexSpec LexProofs.
Require Import Coq.Strings.Ascii.
Local Open Scope string_scope.

(** Every token stands where its lexpos says, and its line is one plus the newlines before it. *)
Theorem C49_token_lines : forall s l, lex 1 s = Ok l ->
  Forall (fun t => at_place s (text_of (lt_tok t)) (lt_line t) (lt_pos t)) (l_tokens l).
Proof. intros s l H. exact (proj1 (proj2 (lex_ok s l H))). Qed.
Print Assumptions C49_token_lines.
(** The same for directives. *)
Theorem C49_directive_lines : forall s l, lex 1 s = Ok l ->
  Forall (fun d => exists pos, at_place s (snd d) (fst d) pos) (l_directives l).
Proof. intros s l H. exact (proj1 (proj2 (proj2 (lex_ok s l H)))). Qed.
Print Assumptions C49_directive_lines.
(** Nothing is lost: between the tokens there are only blanks, newlines, comments and directives. *)
Theorem C49_nothing_lost : forall s l, lex 1 s = Ok l -> laid_out s (map lt_tok (l_tokens l)).
Proof. intros s l H. exact (proj1 (lex_ok s l H)). Qed.
Print Assumptions C49_nothing_lost.
(** Lexing ends, with tokens or a parse error. *)
Theorem C49_lexing_ends : forall line s, (exists l, lex line s = Ok l) \/ lex line s = Err ParseError.
Proof. exact lex_total. Qed.
Print Assumptions C49_lexing_ends.

(** A parser object used for a second text goes on counting: the first line of the second text
    has the number of the last line of the first one. *)
Theorem C49_second_text_refuted : ~ (forall s1 s2 l1 l2, lex 1 s1 = Ok l1 -> lex (l_line l1) s2 = Ok l2 ->
  Forall (fun t => at_place s2 (text_of (lt_tok t)) (lt_line t) (lt_pos t)) (l_tokens l2)).
Proof.
  intros H. specialize (H (String NL "") "a" _ _ eq_refl eq_refl). inversion H as [|? ? (pre & post & E & K1 & K2) _]; subst. cbn in K1, K2.
  destruct pre; [cbn in K2; discriminate|discriminate].
Qed.
Print Assumptions C49_second_text_refuted.

(** A text with a directive, both kinds of comment and blank lines. *)
Definition sample : string :=
  "`default_nettype none" ++ String NL ("module m; // first" ++ String NL (String NL ("/* two" ++ String NL "lines */ wire a;" ++ String NL "endmodule"))).
Example C49_hypotheses_met : exists l, lex 1 sample = Ok l /\
  map (fun t => (text_of (lt_tok t), lt_line t)) (l_tokens l) = [("module", 2); ("m", 2); (";", 2); ("wire", 5); ("a", 5); (";", 5); ("endmodule", 6)] /\
  map fst (l_directives l) = [1] /\ default_nettype (l_directives l) = "none".
Proof. eexists. split; [vm_compute; reflexivity|]. repeat split; vm_compute; reflexivity. Qed.
