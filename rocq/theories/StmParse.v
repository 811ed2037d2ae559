(** StmParse.v - the tokens of a statement are parsed back: expressions, targets, delays and events. *)
From Verif Require Import Base DfModel LexModel LexSpec ExprModel ParseModel ExprSpec ExprText ExprText2 ExprText3 ExprParse ExprSound StmModel StmSpec StmText2 StmText3.
Local Open Scope string_scope.
Local Notation "a +++ b" := (@app _ a b) (at level 60, right associativity).

(** ** With enough fuel *)
Definition ev {A} (f : nat -> A) (x : A) : Prop := exists n0, forall n, n0 <= n -> f n = x.
Lemma ev_S {A} (f : nat -> A) x : ev (fun n => f (S n)) x -> ev f x.
Proof. intros (n0 & H). exists (S n0). intros [|n] Hn; [lia|]. apply H. lia. Qed.
Lemma ev_const {A} (x : A) : ev (fun _ => x) x.
Proof. exists 0. auto. Qed.
Lemma ev_bind {A B} (f : nat -> res A) (g : nat -> A -> res B) a x : ev f (Ok a) -> ev (fun n => g n a) x -> ev (fun n => bind (f n) (g n)) x.
Proof. intros (n1 & H1) (n2 & H2). exists (Nat.max n1 n2). intros n Hn. rewrite H1 by lia. cbn [bind]. apply H2. lia. Qed.
Lemma ev_ext {A} (f g : nat -> A) x : (forall n, f n = g n) -> ev g x -> ev f x.
Proof. intros E (n0 & H). exists n0. intros n Hn. rewrite E. auto. Qed.

(** ** Expressions *)
Definition blocks (y : sym) : Prop := match y with ST t => infix (Some t) = None | _ => True end.
Fixpoint stuck (st : list sym) : Prop :=
  match st with
  | [] | [_] => False
  | y :: r => match r with [SE _] => blocks y | [_] => False | _ => stuck r end
  end.
Lemma stuck_push y st : stuck st -> stuck (y :: st).
Proof. intros H. destruct st as [|a [|b st]]; try contradiction. destruct a; exact H. Qed.
(** Everything from some point down, with a symbol that blocks on top. *)
Definition deep (st : list sym) : Prop := stuck st \/ exists x, st = [SE x].
Lemma stuck_tail y st : stuck (y :: st) -> deep st.
Proof. intros H. destruct st as [|a [|b st]]; [contradiction| |destruct a; left; exact H]. destruct a; try contradiction. right. eauto. Qed.
Lemma deep_push y st : blocks y -> deep st -> stuck (y :: st).
Proof. intros HB [H|(x & ->)]; [now apply stuck_push|exact HB]. Qed.
Lemma deep_tail y st : (match y with SE _ => st <> [] | _ => True end) -> deep (y :: st) -> deep st.
Proof. intros HN [H|(x & E)]; [exact (stuck_tail _ _ H)|]. injection E as -> ->. congruence. Qed.
Definition act_stuck (a : act) : Prop := match a with Shift => True | Reduce st => stuck st end.
Lemma deep_nil : ~ deep [].
Proof. intros [[]|(x & E)]. discriminate. Qed.
Lemma deep_st t r : deep (ST t :: r) -> deep r.
Proof. apply deep_tail. exact I. Qed.
Lemma deep_se_st e t r : deep (SE e :: ST t :: r) -> deep r.
Proof. intros H. apply deep_tail in H; [|discriminate]. exact (deep_st _ _ H). Qed.
Lemma infix_binary_op p o : binary_op p = Some o -> infix (Some (P p)) <> None.
Proof. destruct p; try discriminate; intros _; cbn; discriminate. Qed.
Lemma deep_blocked p x r : deep (ST (P p) :: SE x :: r) -> infix (Some (P p)) <> None -> deep r.
Proof.
  intros [H|(y & E)] HI; [|discriminate]. pose proof (stuck_tail _ _ H) as K. destruct r as [|a r]; [exfalso; apply HI; exact H|]. apply deep_tail in K; [exact K|discriminate].
Qed.
Lemma act_reduce y r : blocks y -> deep r -> act_stuck (Reduce (y :: r)).
Proof. intros H1 H2. now apply deep_push. Qed.
Lemma close_paren_stuck r : deep r -> act_stuck (close_paren r).
Proof.
  intros H. destruct r as [|[t|e|s|e|l|l] [|[[[]| | | | |]| | | | |] r]]; try exact I; cbn [close_paren].
  - apply act_reduce; [exact I|]. exact (deep_se_st _ _ _ H).
  - destruct r as [|[t|e|s|e|l'|l'] r]; try exact I.
    + destruct r as [|[[[]| | | | |]| | | | |] r]; try exact I. destruct (call_head t); [|exact I]. apply act_reduce; [exact I|]. apply deep_tail in H; [|exact I]. now do 3 apply deep_st in H.
    + apply act_reduce; [exact I|]. apply deep_tail in H; [|exact I]. apply deep_st in H. now apply deep_tail in H.
Qed.
Lemma close_brace_stuck r : deep r -> act_stuck (close_brace r).
Proof.
  intros H. destruct r as [|[t|e|s|e|l|l] r]; try exact I; cbn [close_brace].
  - destruct r as [|[t|n|s|e|l'|l'] [|[[[]| | | | |]| | | | |] r]]; try exact I. apply act_reduce; [exact I|]. apply deep_tail in H; [|exact I]. exact (deep_se_st _ _ _ H).
  - destruct r as [|[[[]| | | | |]| | | | |] r]; try exact I. apply act_reduce; [exact I|]. apply deep_tail in H; [|exact I]. now apply deep_st in H.
Qed.
Lemma deep_selected v e r : selected v = Some e -> deep (v :: r) -> deep r.
Proof. intros E H. apply deep_tail in H; [exact H|]. destruct v; discriminate E || exact I. Qed.
Lemma close_bracket_stuck r : deep r -> act_stuck (close_bracket r).
Proof.
  intros H. destruct r as [|[t|e|s|e|l|l] [|[[p| | | | |]| | | | |] [|v r]]]; try exact I; destruct p; try exact I; cbn [close_bracket].
  1-3: destruct v as [t|m|s|x|l|l]; try exact I; destruct r as [|[[[]| | | | |]| | | | |] [|v r]]; try exact I; destruct (selected v) as [w|] eqn:E; [|exact I]; apply act_reduce; [exact I|]; apply deep_se_st in H; apply deep_se_st in H; exact (deep_selected _ _ _ E H).
  destruct (selected v) as [w|] eqn:E; [|exact I]. apply act_reduce; [exact I|]. apply deep_se_st in H. exact (deep_selected _ _ _ E H).
Qed.
Lemma after_expr_stuck y r la : stuck (SE y :: r) -> act_stuck (after_expr y r la).
Proof.
  intros HS. pose proof (stuck_tail _ _ HS) as H. assert (forall p x r', deep (ST (P p) :: SE x :: r') -> act_stuck (match binary_op p with
      | Some o => match infix la with Some n => if Nat.ltb (prec p) n then Shift else Reduce (SE (XBin o x y) :: r') | None => Reduce (SE (XBin o x y) :: r') end | None => Shift end)) as KB.
  { intros p x r' HD. destruct (binary_op p) as [o|] eqn:E; [|exact I]. pose proof (deep_blocked _ _ _ HD (infix_binary_op _ _ E)) as HR.
    assert (act_stuck (Reduce (SE (XBin o x y) :: r'))) as K by (apply act_reduce; [exact I|exact HR]). destruct (infix la); [destruct (Nat.ltb _ _); [exact I|exact K]|exact K]. }
  assert (forall p r', deep (ST (P p) :: r') -> act_stuck (match unary_op p with Some f => Reduce (SE (f y) :: r') | None => Shift end)) as KU.
  { intros p r' HD. destruct (unary_op p) as [f|] eqn:E; [|exact I]. apply act_reduce; [exact I|]. exact (deep_st _ _ HD). }
  destruct r as [|[[p| | | | |]| | | | |] r]; try exact I.
  assert (p = LBRACE \/ p = LPAREN \/ p = COMMA \/ p = COLON \/ (p <> LBRACE /\ p <> LPAREN /\ p <> COMMA /\ p <> COLON)) as HP by (destruct p; auto; right; right; right; right; repeat split; discriminate).
  destruct HP as [->|[->|[->|[->|(N1 & N2 & N3 & N4)]]]].
  - cbn [after_expr]. destruct (ends_member la); [|exact I]. now apply act_reduce.
  - assert (act_stuck (if call_before r && ends_member la then Reduce (SList [y] :: ST (P LPAREN) :: r) else Shift)) as K by (destruct (call_before r && ends_member la); [now apply act_reduce|exact I]). destruct r as [|[] r]; exact K.
  - destruct r as [|[t|x|s|x|l|l] r]; try exact I. cbn [after_expr]. destruct (ends_member la); [|exact I]. apply act_reduce; [exact I|]. apply deep_st in H. now apply deep_tail in H.
  - destruct r as [|[t|x|s|x|l|l] r]; try exact I. destruct r as [|[[p| | | | |]| | | | |] r]; try exact I; try (destruct p; exact I). destruct r as [|[t|c|s|c|l|l] r]; try (destruct p; exact I). destruct p; try exact I. cbn [after_expr]. destruct (infix la); [exact I|].
    apply act_reduce; [exact I|]. apply deep_st in H. apply deep_tail in H; [|discriminate]. apply (deep_blocked _ _ _ H). discriminate.
  - specialize (KU p r H). destruct r as [|[t|x|s|x|l|l] r]; [destruct p; congruence || exact KU|destruct p; congruence || exact KU|specialize (KB p x r H); destruct p; congruence || exact KB|..]; destruct p; congruence || exact KU.
Qed.
Lemma action_stuck st la : stuck st -> act_stuck (action st la).
Proof.
  intros HS. destruct st as [|y r]; [exact I|]. pose proof (stuck_tail _ _ HS) as H. destruct y as [t|e|s|e|l|l]; try exact I.
  - destruct t as [p|s|s|s|s|k s]; try exact I.
    + destruct p; try exact I; [|now apply close_paren_stuck|now apply close_bracket_stuck|now apply close_brace_stuck].
      cbn [action]. destruct la as [[p|s|s|s|s|k s]|]; try exact I. assert (act_stuck (if call_before r then Reduce (SList [] :: ST (P LPAREN) :: r) else Shift)) as K by (destruct (call_before r); [cbn [act_stuck]; now apply stuck_push|exact I]). destruct p; try exact I; exact K.
    + assert (act_stuck (Reduce (SId s :: r))) as K by (now apply act_reduce). destruct r as [|[[p| | | | |]| | | | |] r]; try exact K. destruct p; try exact K. cbn [action].
      assert (act_stuck (Reduce (SE (XSys s []) :: r))) as K2 by (apply act_reduce; [exact I|]; now apply deep_st in H). destruct la as [[p|x|x|x|x|k x]|]; try exact K2. destruct p; try exact K2. exact I.
    + now apply act_reduce.
  - cbn [action]. now apply after_expr_stuck.
  - cbn [action]. assert (act_stuck (Reduce (SE (XId s) :: r))) as K by (now apply act_reduce). destruct la as [[p|x|x|x|x|k x]|]; try exact K. destruct p; exact I || exact K.
  - cbn [action]. assert (act_stuck (Reduce (SE e :: r))) as K by (now apply act_reduce). destruct la as [[p|x|x|x|x|k x]|]; try exact K. destruct p; exact I || exact K.
  - cbn [action]. assert (act_stuck (Reduce (SE (XConcat l) :: r))) as K by (now apply act_reduce). destruct r as [|[] [|[[p| | | | |]| | | | |] r]]; try exact K. destruct p; exact I || exact K.
Qed.
Lemma stuck_steps c d : steps c d -> stuck (fst c) -> stuck (fst d).
Proof.
  induction 1 as [c|c c' d H HS IH]; [auto|]. intros K. apply IH. destruct c as [st input]. cbn [fst] in K. pose proof (action_stuck st (hd_error input) K) as HA. cbn [step] in H.
  destruct (action st (hd_error input)) as [|st']; [destruct input as [|t input]; [discriminate|]; injection H as <-; now apply stuck_push|injection H as <-; exact HA].
Qed.
Lemma steps_expr c e rest : steps c ([SE e], rest) -> infix (hd_error rest) = None -> ev (fun n => expr_run n c) (Ok (e, rest)).
Proof.
  intros H HI. remember ([SE e], rest) as d eqn:E. induction H as [c|c c' d H HS IH]; subst.
  - apply ev_S. eapply ev_ext; [|apply ev_const]. intros n. cbn [expr_run]. now rewrite HI.
  - apply ev_S. destruct (IH eq_refl) as (n0 & K). exists n0. intros n Hn. cbn [expr_run]. rewrite H, (K n Hn). destruct c as [[|y [|z st]] input]; try reflexivity; destruct y; try reflexivity.
    destruct (infix (hd_error input)) eqn:EI; [reflexivity|]. exfalso. cbn [step action after_expr] in H. destruct input as [|t input]; [discriminate|]. injection H as <-.
    assert (stuck (fst ([SE e], rest))) as F; [|exact F]. refine (stuck_steps _ _ HS _). exact EI.
Qed.
Definition stops_expr (rest : list token) : Prop := closer (hd_error rest) /\ infix (hd_error rest) = None.
Lemma p_expr_inner e rest : good e -> stops_expr rest -> ev (fun n => p_expr n (etoks e +++ rest)) (Ok (e, rest)).
Proof.
  intros H [H1 H2]. apply steps_expr; [|exact H2]. destruct (parse_inner e H) as [K _]. apply (K [] rest); [exact I|exact H1|]. apply need_open; [apply room_nil|exact H2].
Qed.
Lemma p_expr_full e rest : good e -> stops_expr rest -> ev (fun n => p_expr n (ftoks e +++ rest)) (Ok (e, rest)).
Proof.
  intros H [H1 H2]. apply steps_expr; [|exact H2]. destruct (parse_inner e H) as [K _]. apply (full_of_inner _ K); [exact I|exact H1].
Qed.
