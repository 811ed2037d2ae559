(** PrecProofs2.v - what the parser accepts is in the grammar, with that tree. *)
From Verif Require Import Base DfModel LexModel ExprModel ParseModel ExprParse PrecSpec PrecProofs.
Local Open Scope string_scope.
Local Notation "a +++ b" := (@app _ a b) (at level 60, right associativity).

(** The least level of an expression on top of a stack. *)
Definition lowest (st : list sym) : nat :=
  match st with
  | ST (P p) :: SE _ :: _ => match binary p with Some (_, n) => S n | None => 0 end
  | ST (P p) :: _ => match unary_op p with Some _ => 12 | None => 0 end
  | _ => 0
  end.
(** The stack and the tokens it stands for. *)
Inductive stk : list sym -> list token -> Prop :=
| k_nil : stk [] []
| k_pend t n x r c l : stk r c -> reads (Nat.max 1 n) l x -> infix (Some t) = Some n -> lowest r <= n -> stk (ST t :: SE x :: r) (c +++ l +++ [t])
| k_tok t r c : stk r c -> (forall x r', r = SE x :: r' -> infix (Some t) = None) -> stk (ST t :: r) (c +++ [t])
| k_expr e r c l : stk r c -> reads (lowest r) l e -> stk (SE e :: r) (c +++ l)
| k_id s r c : stk r c -> stk (SId s :: r) (c +++ [ID s])
| k_ptr e r c l : stk r c -> selects l e -> stk (SPtr e :: r) (c +++ l)
| k_cat es r c l : stk r c -> lists l es -> stk (SCat es :: r) (c +++ [P LBRACE] +++ l +++ [P RBRACE])
| k_list es r c l : stk r c -> lists l es -> stk (SList es :: r) (c +++ l)
| k_none r c : stk (ST (P LPAREN) :: r) c -> stk (ST (P RPAREN) :: SList [] :: ST (P LPAREN) :: r) (c +++ [P RPAREN]).

Lemma lower m n l e : reads n l e -> m <= n -> reads m l e.
Proof. intros H L. induction L as [|n L IH]; auto. apply IH. now apply r_up. Qed.
Lemma lowest_le st : lowest st <= 12.
Proof.
  destruct st as [|[[p| | | | |]| | | | |] st]; cbn [lowest]; try lia. destruct st as [|[] st]; try (destruct (unary_op p); lia).
  destruct (binary p) as [[o n]|] eqn:E; [|lia]. apply binary_op_spec in E. lia.
Qed.
(** A configuration that has consumed c. *)
Definition conf (st : list sym) (la : option token) (c : list token) : Prop :=
  match st with
  | SE y :: r => exists c' l, c = c' +++ l /\ stk r c' /\ reads (lowest r) l y /\ (forall n, infix la = Some n -> reads (Nat.max 1 n) l y)
  | SList [] :: r => la = Some (P RPAREN) /\ exists r', r = ST (P LPAREN) :: r' /\ stk r c
  | _ => stk st c
  end.
Lemma infix_le la n : infix la = Some n -> n <= 11.
Proof. destruct la as [[p|?|?|?|?|? ?]|]; try discriminate. destruct p; try discriminate; intros H; injection H as <-; cbn; lia. Qed.
(** An expression of level 12 or 13 can go anywhere. *)
Lemma conf_high y r la c l : stk r c -> reads 12 l y -> conf (SE y :: r) la (c +++ l).
Proof.
  intros H1 H2. exists c, l. split; [reflexivity|]. split; [exact H1|]. split; [eapply lower; [exact H2|apply lowest_le]|].
  intros n E. eapply lower; [exact H2|]. apply infix_le in E. lia.
Qed.
Lemma conf_prim y r la c l : stk r c -> reads 13 l y -> conf (SE y :: r) la (c +++ l).
Proof. intros H1 H2. apply conf_high; auto. now apply r_up. Qed.


Lemma lists_some l : lists l [] -> False.
Proof. intros H. inversion H. destruct es; discriminate. Qed.
Lemma inv_tok t r c : stk (ST t :: r) c -> (t = P RPAREN -> forall r', r <> SList [] :: r') -> exists c', c = c' +++ [t] /\ stk r c'.
Proof.
  intros H HN. inversion H; subst; [|eauto|exfalso; eapply HN; reflexivity]. exists (c0 +++ l). split; [now rewrite app_assoc|]. constructor; auto. eapply lower; [eassumption|]. lia.
Qed.
Lemma inv_expr e r c : stk (SE e :: r) c -> exists c' l, c = c' +++ l /\ stk r c' /\ reads (lowest r) l e.
Proof. intros H. inversion H; subst. eauto. Qed.
Lemma inv_pend t x r c n : stk (ST t :: SE x :: r) c -> infix (Some t) = Some n -> exists c' l, c = c' +++ l +++ [t] /\ stk r c' /\ reads (Nat.max 1 n) l x /\ lowest r <= n.
Proof.
  intros H E. inversion H; subst.
  - match goal with K : infix _ = Some _ |- _ => rewrite E in K; injection K as <- end. exists c0, l. auto.
  - match goal with K : forall x r', _ |- _ => rewrite (K _ _ eq_refl) in E; discriminate end.
Qed.
Lemma inv_list es r c : stk (SList es :: r) c -> exists c' l, c = c' +++ l /\ stk r c' /\ lists l es.
Proof. intros H. inversion H; subst; eauto 6. Qed.
Lemma inv_select v e r c : stk (v :: r) c -> selected v = Some e -> exists c' l, c = c' +++ l /\ stk r c' /\ selects l e.
Proof. intros H E. destruct v; try discriminate; injection E as <-; inversion H; subst; eauto. exists c0, [ID s]. split; [reflexivity|]. split; [auto|constructor]. Qed.
Ltac tok H := apply inv_tok in H as (? & -> & H); [|intros; discriminate].
Ltac toke H := apply inv_tok in H as (? & -> & H); [|intros; congruence].
Ltac ex H := apply inv_expr in H as (? & ? & -> & H & ?).

Definition act_ok (a : act) (la : option token) (c : list token) : Prop := match a with Shift => True | Reduce st => conf st la c end.
Lemma binary_infix p o n : binary p = Some (o, n) -> infix (Some (P p)) = Some n.
Proof. intros H. now apply binary_op_spec in H. Qed.
Lemma reassoc {A} (a b c : list A) : (a +++ b) +++ c = a +++ (b +++ c).
Proof. symmetry. apply app_assoc. Qed.
Lemma close_paren_ok r la c : stk (ST (P RPAREN) :: r) c -> act_ok (close_paren r) la c.
Proof.
  intros H. destruct r as [|x r]; [exact I|]. destruct x as [t|e|s|e|l|l]; try exact I.
  - destruct r as [|[[p| | | | |]| | | | |] r]; try exact I. destruct p; try exact I. cbn [close_paren act_ok].
    tok H. ex H. tok H. rewrite !reassoc. apply conf_prim; auto. apply r_paren. eapply lower; [eassumption|lia].
  - destruct r as [|[[p| | | | |]| | | | |] r]; try exact I. destruct p; try exact I.
    assert (exists c1 l1, c = c1 +++ [P LPAREN] +++ l1 +++ [P RPAREN] /\ stk r c1 /\ (lists l1 l \/ l = [] /\ l1 = [])) as (c1 & l1 & -> & HK & HL).
    { inversion H; subst.
      - match goal with K : stk (SList _ :: _) _ |- _ => apply inv_list in K as (c' & l' & -> & K & HL); tok K; exists x, l' end. rewrite !reassoc. auto.
      - match goal with K : stk (ST (P LPAREN) :: _) _ |- _ => tok K; exists x, [] end. rewrite !reassoc. auto. }
    cbn [close_paren]. destruct r as [|[t| |s| | |] r]; try exact I.
    + destruct r as [|[[q| | | | |]| | | | |] r]; try exact I. destruct q; try exact I. destruct (call_head t) as [f|] eqn:E; [|exact I]. cbn [act_ok].
      assert (system t f) as HS by (destruct t as [| |s| |s| ]; try discriminate E; cbn in E; [injection E as <-; constructor|]; destruct (String.eqb_spec s "signed") as [->|]; [injection E as <-; constructor|discriminate]).
      tok HK. tok HK. rewrite !reassoc. apply conf_prim; auto. destruct HL as [HL|[-> ->]]; [now apply r_sys|now apply r_sys0].
    + cbn [act_ok]. inversion HK; subst. rewrite !reassoc. apply conf_prim; auto. destruct HL as [HL|[-> ->]]; [now apply r_call|apply r_call0].
Qed.
Lemma close_brace_ok r la c : stk (ST (P RBRACE) :: r) c -> act_ok (close_brace r) la c.
Proof.
  intros H. destruct r as [|[t|e|s|e|l|l] r]; try exact I; cbn [close_brace].
  - destruct r as [|[t|n|s|e|l'|l'] [|[[[]| | | | |]| | | | |] r]]; try exact I. cbn [act_ok]. tok H. inversion H; subst. match goal with K : stk (SE _ :: _) _ |- _ => ex K; tok K end.
    rewrite !reassoc. apply conf_prim; auto. apply r_repeat; auto. eapply lower; [eassumption|lia].
  - destruct r as [|[[[]| | | | |]| | | | |] r]; try exact I. cbn [act_ok conf]. tok H. apply inv_list in H as (c' & l' & -> & H & HL). tok H. rewrite !reassoc. now constructor.
Qed.

Lemma ordinary_app l l' : ordinary (l +++ l') = true -> ordinary l = true /\ ordinary l' = true.
Proof.
  induction l as [|t l IH]; cbn [app]; [auto|]. intros H.
  assert (ordinary (l +++ l') = true /\ (forall r, l = P COMMA :: r -> t <> P LPAREN) /\ t <> P PLUSCOLON /\ t <> P MINUSCOLON) as (H1 & H2 & H3 & H4).
  { destruct t as [p|?|?|?|?|? ?]; cbn [ordinary] in H; try (split; [exact H|split; [intros; discriminate|split; discriminate]]).
    destruct p; try discriminate H; try (split; [exact H|split; [intros; discriminate|split; discriminate]]).
    destruct l as [|t' l]; cbn [app] in *.
    - destruct l' as [|t' l']; [split; [exact H|split; [intros; discriminate|split; discriminate]]|]. destruct t' as [p|?|?|?|?|? ?]; try (split; [exact H|split; [intros; discriminate|split; discriminate]]). destruct p; try discriminate H; (split; [exact H|split; [intros; discriminate|split; discriminate]]).
    - destruct t' as [p|?|?|?|?|? ?]; try (split; [exact H|split; [intros ? K; discriminate K|split; discriminate]]). destruct p; try discriminate H; (split; [exact H|split; [intros ? K; discriminate K|split; discriminate]]). }
  destruct (IH H1) as [H5 H6]. split; [|exact H6]. destruct t as [p|?|?|?|?|? ?]; auto. destruct p; auto; try congruence. destruct l as [|[p| | | | |] l]; auto. destruct p; auto; exfalso; eapply H2; reflexivity.
Qed.
Lemma close_bracket_ok r la c : stk (ST (P RBRACKET) :: r) c -> ordinary c = true -> act_ok (close_bracket r) la c.
Proof.
  intros H HO. destruct r as [|[t|e|s|e|l|l] r]; try exact I. tok H. ex H. destruct r as [|[[p| | | | |]| | | | |] r]; try exact I.
  assert (p = LBRACKET \/ p = COLON \/ (p = PLUSCOLON \/ p = MINUSCOLON) \/ close_bracket (SE e :: ST (P p) :: r) = Shift) as HP by (destruct p; auto 6).
  destruct HP as [->|[->|[HP|E]]].
  - destruct r as [|v r]; [exact I|]. cbn [close_bracket]. destruct (selected v) as [w|] eqn:E; [|exact I]. cbn [act_ok conf]. tok H.
    destruct (inv_select _ _ _ _ H E) as (c' & l & -> & H1 & H2). rewrite !reassoc. constructor; auto. apply s_element; auto. eapply lower; [eassumption|lia].
  - destruct r as [|[t|m|s|z0|l|l] [|[[p| | | | |]| | | | |] [|v r]]]; try exact I; try (destruct p; exact I). destruct p; try exact I. cbn [close_bracket]. destruct (selected v) as [w|] eqn:E; [|exact I]. cbn [act_ok].
    tok H. ex H. tok H. destruct (inv_select _ _ _ _ H E) as (c' & l & -> & H1' & H2). rewrite !reassoc. apply conf_prim; auto. apply r_part; auto. eapply lower; [eassumption|lia].
  - exfalso. apply inv_tok in H as (c' & -> & _); [|destruct HP; congruence]. apply ordinary_app in HO as [HO _]. apply ordinary_app in HO as [HO _]. apply ordinary_app in HO as [_ HO]. destruct HP as [-> | ->]; discriminate HO.
  - rewrite E. exact I.
Qed.
Lemma after_expr_ok y r la c : conf (SE y :: r) la c -> act_ok (after_expr y r la) la c.
Proof.
  intros (c' & l & -> & H & HL & HT).
  destruct r as [|[[p| | | | |]| | | | |] r]; try exact I.
  assert (p = LBRACE \/ p = LPAREN \/ p = COMMA \/ p = COLON \/ (p <> LBRACE /\ p <> LPAREN /\ p <> COMMA /\ p <> COLON)) as HP by (destruct p; auto; right; right; right; right; repeat split; discriminate).
  destruct HP as [->|[->|[->|[->|(N1 & N2 & N3 & N4)]]]].
  - cbn [after_expr]. destruct (ends_member la); [|exact I]. cbn [act_ok conf]. constructor; auto. apply l_one. eapply lower; [exact HL|lia].
  - assert (act_ok (if call_before r && ends_member la then Reduce (SList [y] :: ST (P LPAREN) :: r) else Shift) la (c' +++ l)) as K.
    { destruct (call_before r && ends_member la); [|exact I]. cbn [act_ok conf]. constructor; auto. apply l_one. eapply lower; [exact HL|lia]. }
    destruct r as [|[] r]; exact K.
  - destruct r as [|[t|x|s|x|es|es] r]; try exact I. cbn [after_expr]. destruct (ends_member la); [|exact I]. cbn [act_ok]. tok H.
    apply inv_list in H as (c1 & l1 & -> & H & HE). rewrite !reassoc.
    assert (forall es', es' <> [] -> stk (SList es' :: r) (c1 +++ l1 +++ [P COMMA] +++ l) -> conf (SList es' :: r) la (c1 +++ l1 +++ [P COMMA] +++ l)) as K by (intros [|] ? ?; [congruence|assumption]).
    apply K; [destruct es; discriminate|]. constructor; auto. apply l_more; auto.
  - destruct r as [|[t|x|s|x|es|es] r]; try exact I. destruct r as [|[[p| | | | |]| | | | |] r]; try exact I; try (destruct p; exact I). destruct r as [|[t|c|s|c|es|es] r]; try (destruct p; exact I). destruct p; try exact I. cbn [after_expr].
    destruct (infix la) as [n|] eqn:E; [exact I|]. cbn [act_ok conf]. tok H. ex H. apply (inv_pend _ _ _ _ 0) in H as (c1 & l1 & -> & H & HC & HZ); [|reflexivity]. rewrite !reassoc. exists c1. eexists. split; [reflexivity|]. split; [exact H|]. split; [|intros; congruence].
    replace (lowest r) with 0 by lia. apply r_cond; auto.
  - assert (forall x r', r = SE x :: r' -> act_ok (match binary_op p with
      | Some o => match infix la with Some n => if Nat.ltb (prec p) n then Shift else Reduce (SE (XBin o x y) :: r') | None => Reduce (SE (XBin o x y) :: r') end | None => Shift end) la (c' +++ l)) as KB.
    { intros x r' ->. destruct (binary_op p) as [o|] eqn:E; [|exact I]. apply binary_op_iff in E. pose proof (binary_op_spec _ _ _ E) as (_ & _ & EI & LN).
      cbn [lowest] in HL. rewrite E in HL. apply (inv_pend _ _ _ _ (prec p)) in H as (c1 & l1 & -> & H & HC & HZ); [|exact EI]. rewrite !reassoc.
      assert (reads (prec p) (l1 +++ [P p] +++ l) (XBin o x y)) as HR by (apply r_binary; auto; eapply lower; [exact HC|lia]).
      assert (match infix la with Some n => n <= prec p | None => True end -> conf (SE (XBin o x y) :: r') la (c1 +++ l1 +++ [P p] +++ l)) as K.
      { intros HI. exists c1. eexists. split; [reflexivity|]. split; [exact H|]. split; [eapply lower; [exact HR|lia]|]. intros n En. rewrite En in HI. eapply lower; [exact HR|lia]. }
      destruct (infix la) as [n|]; [|now apply K]. destruct (Nat.ltb_spec (prec p) n); [exact I|]. now apply K. }
    assert ((forall x r', r <> SE x :: r') -> act_ok (match unary_op p with Some f => Reduce (SE (f y) :: r) | None => Shift end) la (c' +++ l)) as KU.
    { intros HN. destruct (unary_op p) as [f|] eqn:E; [|exact I]. cbn [act_ok]. assert (lowest (ST (P p) :: r) = 12) as EL by (destruct r as [|[] r]; cbn [lowest]; rewrite ?E; auto; exfalso; eapply HN; reflexivity). rewrite EL in HL.
      apply inv_tok in H as (c1 & -> & H); [|intros K; injection K as ->; discriminate E]. rewrite reassoc. apply conf_high; auto. eapply r_unary; [now apply unary_op_iff|exact HL]. }
    destruct r as [|[t|x|s|x|es|es] r]; [| |specialize (KB x r eq_refl); destruct p; congruence || exact KB|..]; (assert (act_ok (match unary_op p with Some f => Reduce (SE (f y) :: _) | None => Shift end) la (c' +++ l)) as K by (apply KU; intros; discriminate)); destruct p; congruence || exact K.
Qed.
Lemma action_ok st la c : conf st la c -> ordinary (c +++ match la with Some t => [t] | None => [] end) = true -> act_ok (action st la) la c.
Proof.
  intros H HO. destruct st as [|[t|e|s|e|es|es] r]; try exact I.
  - cbn [conf] in H. assert (ordinary c = true) as HOc by (now apply ordinary_app in HO). destruct t as [p|s|s|s|s|k s]; try exact I.
    + destruct p; try exact I; [|now apply close_paren_ok|now apply close_bracket_ok|now apply close_brace_ok].
      cbn [action]. destruct la as [[q|?|?|?|?|? ?]|]; try exact I. destruct q; try exact I; (destruct (call_before r); [|exact I]); cbn [act_ok conf]; [exfalso|split; [reflexivity|eauto]].
      tok H. rewrite reassoc in HO. apply ordinary_app in HO as [_ HO]. discriminate HO.
    + assert (act_ok (Reduce (SId s :: r)) la c) as K by (cbn [act_ok conf]; tok H; now constructor).
      destruct r as [|[[p| | | | |]| | | | |] r]; try exact K. destruct p; try exact K. cbn [action].
      assert (act_ok (Reduce (SE (XSys s []) :: r)) la c) as K2 by (cbn [act_ok]; tok H; tok H; rewrite reassoc; apply conf_prim; [exact H|apply r_sysn]).
      destruct la as [[p|x|x|x|x|k x]|]; try exact K2. destruct p; try exact K2. exact I.
    + cbn [action act_ok]. tok H. apply conf_prim; [exact H|apply r_number].
  - cbn [action]. now apply after_expr_ok.
  - cbn [action]. cbn [conf] in H. assert (act_ok (Reduce (SE (XId s) :: r)) la c) as K by (cbn [act_ok]; inversion H; subst; apply conf_prim; [assumption|apply r_select, s_name]). destruct la as [[p|x|x|x|x|k x]|]; try exact K. destruct p; exact I || exact K.
  - cbn [action]. cbn [conf] in H. assert (act_ok (Reduce (SE e :: r)) la c) as K by (cbn [act_ok]; inversion H; subst; apply conf_prim; [assumption|now apply r_select]). destruct la as [[p|x|x|x|x|k x]|]; try exact K. destruct p; exact I || exact K.
  - cbn [action]. cbn [conf] in H. assert (act_ok (Reduce (SE (XConcat es) :: r)) la c) as K by (cbn [act_ok]; inversion H; subst; apply conf_prim; [assumption|now apply r_concat]). destruct r as [|[] [|[[p| | | | |]| | | | |] r]]; try exact K. destruct p; exact I || exact K.
Qed.
(** Shifting. *)
Lemma shift_ok st t r c : conf st (Some t) c -> action st (Some t) = Shift -> conf (ST t :: st) (hd_error r) (c +++ [t]).
Proof.
  intros H HA. cbn [conf]. destruct st as [|[t'|e|s|e|es|es] st]; try (apply k_tok; [exact H|intros; discriminate]).
  - destruct H as (c' & l & -> & H & HL & HT). cbn [action] in HA. destruct (infix (Some t)) as [n|] eqn:E; [|apply k_tok; [constructor; auto|auto]].
    rewrite reassoc. apply (k_pend t n); auto. destruct st as [|[[p| | | | |]| | | | |] st]; cbn [lowest]; try lia.
    destruct st as [|x st]; [destruct (unary_op p) eqn:U; [|lia]; destruct p; try discriminate U; discriminate HA|].
    destruct x as [t'|x|s|x|es|es]; try (destruct (unary_op p) eqn:U; [|lia]; destruct p; try discriminate U; discriminate HA).
    destruct (binary p) as [[o m]|] eqn:B; [|lia]. pose proof (binary_op_spec _ _ _ B) as (E1 & E2 & _).
    assert (after_expr e (ST (P p) :: SE x :: st) (Some t) = match infix (Some t) with Some m => if Nat.ltb (prec p) m then Shift else Reduce (SE (XBin o x e) :: st) | None => Reduce (SE (XBin o x e) :: st) end) as EA.
    { destruct p; try discriminate B; cbn in E1; injection E1 as <-; reflexivity. }
    rewrite HA, E in EA. destruct (Nat.ltb_spec (prec p) n); [lia|discriminate].
  - destruct es as [|x es]; [|apply k_tok; [exact H|intros; discriminate]]. destruct H as (E & r' & -> & H). injection E as ->. now apply k_none.
Qed.
Lemma run_ok fuel : forall st input c e, conf st (hd_error input) c -> ordinary (c +++ input) = true -> run fuel (st, input) = Ok e -> reads 0 (c +++ input) e.
Proof.
  induction fuel as [|fuel IH]; intros st input c e HS HI H; [discriminate|]. cbn [run step] in H.
  assert (act_ok (action st (hd_error input)) (hd_error input) c) as HA.
  { apply action_ok; auto. destruct input as [|t input]; [exact HI|]. change (t :: input) with ([t] +++ input) in HI. rewrite app_assoc in HI. now apply ordinary_app in HI. }
  destruct (action st (hd_error input)) as [|st'] eqn:EA.
  - destruct input as [|t input].
    + destruct st as [|[] [|]]; try discriminate. injection H as <-. destruct HS as (c' & l & -> & HK & HL & _). inversion HK; subst. rewrite app_nil_r. exact HL.
    + change (t :: input) with ([t] +++ input). rewrite app_assoc. apply (IH (ST t :: st)); [now apply shift_ok|now rewrite reassoc|exact H].
  - now apply (IH st').
Qed.
Theorem parsed_grammar fuel l e : ordinary l = true -> parse_tokens fuel l = Ok e -> reads 0 l e.
Proof. intros HO H. apply (run_ok fuel [] l [] e); auto. constructor. Qed.
