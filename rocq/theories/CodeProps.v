(** CodeProps.v - C45: the text of a dataflow tree. *)
From Verif Require Import Base ScopeModel DfModel LexModel LexSpec LexProofs ExprModel ParseModel ExprSpec ExprText ExprText2 ExprText3 ExprSound ExprProps CodeModel CodeSpec CodeProofs.
From Verif Require LitProofs.
Require Import Coq.Strings.Ascii.
Local Open Scope string_scope.

(** The full claim, without [codable e], is false: see below. *)
Theorem C45_round_trip_partial : forall dest t e, stands dest t e -> written e -> codable e = true ->
  exists text, tocode dest t = Ok text /\ exists n0, forall n, n0 <= n -> parse_text n text = Ok e.
Proof. intros dest t e H HW HC. exists (render (dps e)). split; [now apply text_ok|now apply parse_dps]. Qed.
Print Assumptions C45_round_trip_partial.
(** Trees with the same text stand for the same expression. *)
Theorem C45_text_determines_expression_partial : forall dest t t' e e', stands dest t e -> stands dest t' e' -> written e -> codable e = true -> written e' -> codable e' = true ->
  tocode dest t = tocode dest t' -> e = e'.
Proof. intros dest t t' e e' H H' W C W' C' E. rewrite (text_ok dest t e), (text_ok dest t' e') in E by auto. injection E as E. now apply dps_inj. Qed.
Print Assumptions C45_text_determines_expression_partial.

(** Values are printed as numbers. *)
Lemma digit_ok z : (0 <= z < 10)%Z -> is_digit (digit_char z) = true.
Proof. intros H. assert (z = 0 \/ z = 1 \/ z = 2 \/ z = 3 \/ z = 4 \/ z = 5 \/ z = 6 \/ z = 7 \/ z = 8 \/ z = 9)%Z as K by lia. repeat (destruct K as [-> |K]; [reflexivity|]). subst z. reflexivity. Qed.
Lemma pos_digits_ok fuel : forall z acc, (0 <= z)%Z -> all_chars is_digit acc -> fuel <> 0 -> exists c r, pos_digits fuel z acc = String c r /\ is_digit c = true /\ all_chars is_digit r.
Proof.
  induction fuel as [|fuel IH]; intros z acc HZ HA HF; [congruence|]. cbn [pos_digits]. assert (is_digit (digit_char (z mod 10)) = true) as HD by (apply digit_ok, Z.mod_pos_bound; lia).
  destruct (Z.eqb_spec (z / 10) 0); [eauto|]. destruct fuel as [|fuel]; [cbn; eauto|]. apply IH; auto; [apply Z.div_pos; lia|constructor; auto].
Qed.
Lemma z_str_ok z : (0 <= z)%Z -> exists c r, z_str z = String c r /\ is_digit c = true /\ all_chars is_digit r.
Proof. intros H. unfold z_str. assert ((z <? 0)%Z = false) as -> by (apply Z.ltb_ge; auto). unfold nat_str. apply pos_digits_ok; auto. constructor. Qed.
Theorem C45_values_are_numbers : forall w v, (0 <= w)%Z -> (0 <= v)%Z -> number DEC (literal w (z_str v)) /\ number DEC (literal w "x") /\ number DEC (literal w "z").
Proof.
  intros w v Hw Hv. assert (all_chars is_digit (if Z.eqb w 32 then "" else z_str w)) as HD by (destruct (Z.eqb w 32); [constructor|destruct (z_str_ok w Hw) as (c & r & -> & H1 & H2); constructor; auto]).
  unfold literal. split; [|split; (apply n_dec; [exact HD|reflexivity|reflexivity|constructor])]. destruct (z_str_ok v Hv) as (c & r & -> & H1 & H2).
  apply n_dec; [exact HD|reflexivity|clear - H1; revert c H1; apply LitProofs.char_imp; vm_compute; reflexivity|]. revert H2. apply Forall_impl. intros d Hd. clear - Hd. revert d Hd. apply LitProofs.char_imp. vm_compute. reflexivity.
Qed.
Print Assumptions C45_values_are_numbers.

(** ** What goes wrong *)
Definition sig1 (s : string) : df := DTerm [Label "top" STmodule None; Label s STsignal None].
(** A system call without arguments loses its opening parenthesis. *)
Theorem C45_call_refuted : forall dest, tocode dest (DSys "time" []) = Ok "$time)" /\ (forall n e, parse_text n "$time)" <> Ok e).
Proof. intros dest. split; [reflexivity|]. intros n e H. assert (parse_text 20 "$time)" = Err ParseError) as K by (vm_compute; reflexivity). eapply result_unique in K; [|discriminate|exact H]. discriminate K. Qed.
Print Assumptions C45_call_refuted.
(** So does an empty concatenation. *)
Theorem C45_concat_refuted : forall dest, tocode dest (DConcat []) = Ok "}".
Proof. reflexivity. Qed.
(** Unary plus cannot be printed, nor a delay. *)
Theorem C45_no_text_refuted : forall dest t, tocode dest t <> Err DefinitionError -> tocode dest (DOp [t] Uplus) = Err TypeError /\ tocode dest (DDelay t) = Err DefinitionError.
Proof. intros. split; reflexivity. Qed.
(** An escaped identifier runs into what follows: top.\a + top.b is printed as (top_\a+top_b). *)
Theorem C45_escaped_refuted : forall dest, tocode dest (DOp [sig1 "\a"; sig1 "b"] Plus) = Ok "(top_\a+top_b)" /\ (forall n e, parse_text n "(top_\a+top_b)" <> Ok e).
Proof. intros dest. split; [reflexivity|]. intros n e H. assert (parse_text 20 "(top_\a+top_b)" = Err ParseError) as K by (vm_compute; reflexivity). eapply result_unique in K; [|discriminate|exact H]. discriminate K. Qed.
Print Assumptions C45_escaped_refuted.
(** Two signals with the same text. *)
Theorem C45_names_refuted : exists n m, chain_eq n m = false /\ forall dest, tocode dest (DTerm n) = tocode dest (DTerm m).
Proof. exists [Label "a_b" STmodule None; Label "c" STsignal None], [Label "a" STmodule None; Label "b_c" STsignal None]. split; reflexivity. Qed.

(** A tree with most kinds of nodes. *)
Definition sample : df :=
  DBranch (DOp [sig1 "en"; DOp [sig1 "a"] Uand] Land)
    (DConcat [DPart (sig1 "v") (DEval (PInt 7) (Some 32%Z) false false) (DEval (PInt 4) (Some 32%Z) false false); DPart (sig1 "v") (DInt "0") (DInt "0"); DSys "signed" [DOp [sig1 "a"; DEval (PInt (-3)) (Some 8%Z) false false] Sla]])
    (DBranch (sig1 "rst") (DUndef 4) DNone).
Definition sample_expr : expr :=
  XCond (XBin Land (XId "top_en") (XUn Uand (XId "top_a")))
    (XConcat [XPart (XId "top_v") (XInt "'d7") (XInt "'d4"); XPtr (XId "top_v") (XInt "0"); XSys "signed" [XBin Sla (XId "top_a") (XUn Uminus (XInt "8'd3"))]])
    (XCond (XId "top_rst") (XInt "4'dx") (XId "dest")).
Definition sample_text : string := "(((top_en&&(&top_a)))? {top_v['d7:'d4],top_v[0],$signed((top_a<<<(-8'd3)))} : ((top_rst)? 4'dx : dest))".
Example C45_hypotheses_met : stands "dest" sample sample_expr /\ written sample_expr /\ codable sample_expr = true /\ tocode "dest" sample = Ok sample_text.
Proof.
  split.
  - apply st_branch; [apply (st_bin "dest"); [exact (st_term _ _)|apply st_un; exact (st_term _ _)]|apply st_some|apply st_some].
    + apply st_concat. apply Forall2_cons; [|apply Forall2_cons; [|apply Forall2_cons; [|constructor]]].
      * exact (st_part _ _ _ _ _ _ _ (st_term _ _) (st_value _ 7 32 _ ltac:(lia)) (st_value _ 4 32 _ ltac:(lia)) ltac:(discriminate)).
      * apply st_bit; [exact (st_term _ _)|constructor|constructor].
      * apply st_sys. constructor; [|constructor]. apply st_bin; [exact (st_term _ _)|]. exact (st_negative _ (-3) 8 _ ltac:(lia)).
    + apply st_branch; [exact (st_term _ _)|apply st_some; exact (st_undef _ 4)|constructor].
  - split; [apply (parse_sound 200 sample_text); vm_compute; reflexivity|]. split; vm_compute; reflexivity.
Qed.
