(** LitProps.v - C04, C05. *)
From Verif Require Import Base LitModel LitSpec LitProofs.
Local Open Scope Z_scope.

(** C04: evaluating any integer literal without x, z or ? digits gives the number it denotes. *)
Theorem C04_literal_value : forall s sg w n, literal s sg w n -> int_eval s = Ok n.
Proof. exact int_eval_literal. Qed.
Print Assumptions C04_literal_value.

(** Literals with the digit ?, which the lexer accepts, cannot be evaluated. *)
Theorem C04_question_mark_refuted : int_eval "4'b1?" = Err ValueError /\ int_eval "8'h?f" = Err ValueError.
Proof. split; reflexivity. Qed.
Print Assumptions C04_question_mark_refuted.

(** C04: a printed value is a literal, and reading it gives the value and the width back. *)
Theorem C04_printed_value_read_back : forall v w, 0 <= v -> 0 <= w ->
  int_eval (eval_value_str v w) = Ok v /\ int_width (eval_value_str v w) = Ok w.
Proof.
  intros v w Hv Hw. pose proof (printed_literal v w Hv Hw) as H. split; [eapply int_eval_literal; eauto|].
  rewrite (int_width_literal _ _ _ H). destruct (Z.eqb_spec w 32); congruence.
Qed.
Print Assumptions C04_printed_value_read_back.

(** C05: the width of a literal without sign mark is its size, or 32 if it has none. *)
Theorem C05_literal_width_partial : forall s w n, literal s "" w n ->
  int_width s = Ok (match w with Some w => w | None => 32 end).
Proof. exact int_width_literal. Qed.
Print Assumptions C05_literal_width_partial.

(** C05 is false for literals with a sign mark: their size is ignored, always. *)
Theorem C05_signed_width_refuted : (forall s sg w n, literal s sg w n -> sg <> ""%string -> int_width s = Ok 32) /\
  ~ (forall s sg w n, literal s sg (Some w) n -> int_width s = Ok w).
Proof.
  split; [exact int_width_signed|]. intros H.
  assert (literal "8'sh1f" "s" (Some 8) 31) as L.
  { change "8'sh1f"%string with ("8" ++ "'" ++ "s" ++ String "h" "1f")%string. apply lit_based with (b := 16); try constructor.
    - exists "8"%char, 8, ""%string. split; auto. split; [split; [simpl; tauto|lia]|constructor].
    - exists "1"%char, 1, "f"%string. split; auto. split; [split; [simpl; tauto|lia]|].
      apply (reads_digit 16 1 "f" 15); [split; [simpl; tauto|lia]|constructor]. }
  apply H in L. vm_compute in L. discriminate.
Qed.
Print Assumptions C05_signed_width_refuted.

(** The hypotheses are met by 16'hDe_4d, 1_000 and 'o17. *)
Lemma dig c d b : In (c, d) digits_of -> d < b -> is_digit b c d. Proof. split; auto. Qed.
Example C04_C05_hypotheses_met : literal "16'hDe_4d" "" (Some 16) 56909 /\ literal "1_000" "" None 1000 /\ literal "'SO17" "S" None 15.
Proof.
  split; [|split].
  - change "16'hDe_4d"%string with ("16" ++ "'" ++ "" ++ String "h" "De_4d")%string. apply lit_based with (b := 16); try constructor.
    + exists "1"%char, 1, "6"%string. split; auto. split; [apply dig; [simpl; tauto|lia]|].
      apply (reads_digit 10 1 "6" 6); [apply dig; [simpl; tauto|lia]|constructor].
    + exists "D"%char, 13, "e_4d"%string. split; auto. split; [apply dig; [simpl; tauto|lia]|].
      apply (reads_digit 16 13 "e" 14); [apply dig; [simpl; tauto|lia]|]. apply reads_underscore.
      apply (reads_digit 16 222 "4" 4); [apply dig; [simpl; tauto|lia]|].
      apply (reads_digit 16 3556 "d" 13); [apply dig; [simpl; tauto|lia]|constructor].
  - apply lit_plain. exists "1"%char, 1, "_000"%string. split; auto. split; [apply dig; [simpl; tauto|lia]|]. apply reads_underscore.
    do 3 (eapply reads_digit; [apply dig with (d := 0); [simpl; tauto|lia]|]). constructor.
  - change "'SO17"%string with ("" ++ "'" ++ "S" ++ String "O" "17")%string. apply lit_based with (b := 8); try constructor.
    exists "1"%char, 1, "7"%string. split; auto. split; [apply dig; [simpl; tauto|lia]|].
    apply (reads_digit 8 1 "7" 7); [apply dig; [simpl; tauto|lia]|constructor].
Qed.
