(** StmSound.v - every tree the statement parser delivers is the tree of a Verilog statement. *)
From Verif Require Import Base DfModel LexModel LexSpec LexProofs ExprModel ParseModel ExprSpec ExprLex ExprSound StmModel StmSpec StmText2 StmParse2 StmParse3.
Local Open Scope string_scope.
Local Notation "a +++ b" := (@app _ a b) (at level 60, right associativity).

Notation valids := (Forall tvalid).
Ltac ub H := let x := fresh "x" in let H1 := fresh "B" in apply bind_ok in H as (x & H1 & H).
Lemma expect_ok p l r : expect p l = Ok r -> exists t, l = t :: r /\ p t = true.
Proof. unfold expect. destruct l as [|t l]; [discriminate|]. destruct (p t) eqn:E; [|discriminate]. intros H. injection H as ->. eauto. Qed.
Lemma expect_valid p l r : expect p l = Ok r -> valids l -> valids r.
Proof. intros H V. apply expect_ok in H as (t & -> & _). now inversion V. Qed.
Lemma expr_sound n : forall st input e rest, stack_ok st -> valids input -> expr_run n (st, input) = Ok (e, rest) -> written e /\ valids rest.
Proof.
  induction n as [|n IH]; intros st input e rest HS HV H; [discriminate|]. cbn [expr_run] in H.
  assert ((match step (st, input) with Some c' => expr_run n c' | None => Err ParseError end) = Ok (e, rest) -> written e /\ valids rest) as K.
  { intros K. cbn [step] in K. pose proof (action_ok st (hd_error input) HS) as HA. destruct (action st (hd_error input)) as [|st'].
    - destruct input as [|t input]; [discriminate|]. inversion HV as [|u v V1 V2]; subst. apply (IH (ST t :: st) input e rest (conj V1 (conj I HS)) V2 K).
    - apply (IH _ _ _ _ HA HV K). }
  destruct st as [|[t|x|s|x|l|l] [|z st]]; try exact (K H). destruct (infix (hd_error input)); [exact (K H)|]. injection H as -> ->. split; [exact (proj1 HS)|exact HV].
Qed.
Lemma p_expr_sound n l e rest : valids l -> p_expr n l = Ok (e, rest) -> written e /\ valids rest.
Proof. apply expr_sound. exact I. Qed.
Lemma selects_sound n : forall v l e rest, written v -> indexable v -> valids l -> p_selects n v l = Ok (e, rest) -> written e /\ single_target e /\ valids rest.
Proof.
  induction n as [|n IH]; intros v l e rest HW HI HV H; [discriminate|]. cbn [p_selects] in H.
  assert (Ok (v, l) = Ok (e, rest) -> written e /\ single_target e /\ valids rest) as K0 by (intros K; injection K as <- <-; split; [exact HW|]; split; [destruct v; contradiction || exact I|exact HV]).
  destruct l as [|[p|s|s|s|s|k s] l]; try exact (K0 H). destruct p; try exact (K0 H). clear K0. inversion HV as [|u w V1 V2]; subst. ub H. destruct x as [x r1]. destruct (p_expr_sound _ _ _ _ V2 B) as [WX VX]. cbn [fst snd] in H.
  destruct r1 as [|[p|s|s|s|s|k s] r1]; try discriminate. inversion VX as [|u w V3 V4]; subst. destruct p; try discriminate.
  1-3: ub H; destruct x0 as [y r2]; destruct (p_expr_sound _ _ _ _ V4 B0) as [WY VY]; cbn [fst snd] in H; ub H; injection H as <- <-; (split; [|split; [exact I|exact (expect_valid _ _ _ B1 VY)]]); constructor; auto; constructor; auto.
  apply (IH (XPtr v x) r1 e rest); auto; now constructor.
Qed.
Lemma lvalues_sound (one : list token -> res (expr * list token)) : (forall l e rest, valids l -> one l = Ok (e, rest) -> written e /\ target e /\ valids rest) ->
  forall m acc l e rest, acc <> [] -> Forall written acc -> Forall target acc -> valids l -> p_lvalues one m acc l = Ok (e, rest) -> written e /\ target e /\ valids rest.
Proof.
  intros HO. induction m as [|m IH]; intros acc l e rest HN HW HT HV H; [discriminate|]. cbn [p_lvalues] in H. destruct l as [|[p|s|s|s|s|k s] l]; try discriminate. inversion HV as [|u w V1 V2]; subst. destruct p; try discriminate.
  - ub H. destruct x as [x r1]. destruct (HO _ _ _ V2 B) as (W1 & T1 & VX). cbn [fst snd] in H. apply (IH (acc +++ [x]) r1 e rest); auto; [destruct acc; discriminate|apply Forall_app; split; [exact HW|constructor; auto]|apply Forall_app; split; [exact HT|constructor; auto]].
  - injection H as <- <-. split; [now constructor|]. split; [now constructor|exact V2].
Qed.
Lemma single_is_target e : single_target e -> target e.
Proof. destruct e; try contradiction; intros _; constructor. Qed.
Lemma lvalue_sound n : forall l e rest, valids l -> p_lvalue n l = Ok (e, rest) -> written e /\ target e /\ valids rest.
Proof.
  induction n as [|n IH]; intros l e rest HV H; [discriminate|]. cbn [p_lvalue] in H. destruct l as [|[p|s|s|s|s|k s] l]; try discriminate; inversion HV as [|u w V1 V2]; subst.
  - destruct p; try discriminate. ub H. destruct x as [x r1]. destruct (IH _ _ _ V2 B) as (W1 & T1 & VX). cbn [fst snd] in H. apply (lvalues_sound (p_lvalue n) IH n [x] r1 e rest); auto. discriminate.
  - destruct (selects_sound n (XId s) l e rest) as (W & S & V); auto; [now constructor|exact I|]. split; [exact W|]. split; [now apply single_is_target|exact V].
Qed.
Lemma delays_sound n l d rest : valids l -> p_delays n l = Ok (d, rest) -> opt written d /\ valids rest.
Proof.
  intros HV H. assert (Ok (None, l) = Ok (d, rest) -> opt written d /\ valids rest) as K by (intros K; injection K as <- <-; split; [exact I|exact HV]).
  destruct l as [|[p|s|s|s|s|k s] l]; try exact (K H). destruct p; try exact (K H). clear K. inversion HV as [|u w V1 V2]; subst. cbn [p_delays] in H. destruct l as [|[p|s|s|s|s|k s] l]; try discriminate; inversion V2 as [|u w V3 V4]; subst.
  - destruct p; try discriminate. ub H. destruct x as [x r1]. destruct (p_expr_sound _ _ _ _ V4 B) as [WX VX]. cbn [fst snd] in H. ub H. injection H as <- <-. split; [exact WX|exact (expect_valid _ _ _ B0 VX)].
  - injection H as <- <-. split; [now constructor|exact V4].
  - injection H as <- <-. split; [econstructor; exact V3|exact V4].
Qed.
Lemma asg_sound n ld l nb a rest : opt written ld -> valids l -> p_asg n ld l = Ok (nb, a, rest) -> asg_written a /\ valids rest.
Proof.
  intros HL HV H. unfold p_asg in H. ub H. destruct x as [x r1]. destruct (lvalue_sound _ _ _ _ HV B) as (WX & TX & VX). cbn [fst snd] in H. destruct r1 as [|[p|s|s|s|s|k s] r1]; try discriminate. inversion VX as [|u w V1 V2]; subst.
  destruct p; try discriminate; (ub H; destruct x0 as [d r2]; destruct (delays_sound _ _ _ _ V2 B0) as [WD VD]; cbn [fst snd] in H; ub H; destruct x0 as [y r3]; destruct (p_expr_sound _ _ _ _ VD B1) as [WY VY]; injection H as <- <- <-; split; [|exact VY]; unfold asg_written; cbn; auto).
Qed.
Lemma asg_stm_sound n ld l nb a rest : opt written ld -> valids l -> p_asg_stm n ld l = Ok (nb, a, rest) -> asg_written a /\ valids rest.
Proof.
  intros HL HV H. unfold p_asg_stm in H. ub H. destruct x as [[nb' a'] r1]. destruct (asg_sound _ _ _ _ _ _ HL HV B) as [W V]. ub H. injection H as <- <- <-. split; [exact W|exact (expect_valid _ _ _ B0 V)].
Qed.
Definition sig_written (k : edge) (x : sensitem) : Prop := match k with Level => level_written x | _ => edge_written x end.
Lemma signal_sound n k l x rest : valids l -> p_signal n k l = Ok (x, rest) -> sig_written k x /\ valids rest.
Proof.
  intros HV H. destruct l as [|[p|s|s|s|s|i s] l]; try discriminate. inversion HV as [|u w V1 V2]; subst. cbn [p_signal] in H. ub H. destruct x0 as [e r1]. destruct (selects_sound n (XId s) l e r1) as (W & S & V); auto; [now constructor|exact I|]. cbn [fst snd] in H.
  destruct k; [destruct e; try contradiction; try discriminate H..|]; injection H as <- <-; (split; [|exact V]); cbn; auto.
Qed.
Lemma edge_sound n l x rest : valids l -> p_edge n l = Ok (x, rest) -> edge_written x /\ valids rest.
Proof.
  intros HV H. destruct l as [|t l]; [discriminate|]. inversion HV as [|u w V1 V2]; subst. cbn [p_edge] in H. destruct (is_kw "posedge" t); [exact (signal_sound n Posedge l x rest V2 H)|]. destruct (is_kw "negedge" t); [exact (signal_sound n Negedge l x rest V2 H)|discriminate].
Qed.
Lemma sigs_sound (Q : sensitem -> Prop) (one : list token -> res (sensitem * list token)) : (forall l x rest, valids l -> one l = Ok (x, rest) -> Q x /\ valids rest) ->
  forall m acc l r rest, acc <> [] -> Forall Q acc -> valids l -> p_sigs one m acc l = Ok (r, rest) -> r <> [] /\ Forall Q r /\ valids rest.
Proof.
  intros HO. induction m as [|m IH]; intros acc l r rest HN HQ HV H; [discriminate|]. cbn [p_sigs] in H. destruct l as [|t l]; [discriminate|]. inversion HV as [|u w V1 V2]; subst.
  assert ((do x <- one l; p_sigs one m (acc +++ [fst x]) (snd x)) = Ok (r, rest) -> r <> [] /\ Forall Q r /\ valids rest) as K.
  { intros K. ub K. destruct x as [x r1]. destruct (HO _ _ _ V2 B) as [QX VX]. cbn [fst snd] in K. apply (IH (acc +++ [x]) r1 r rest); auto; [destruct acc; discriminate|]. apply Forall_app. split; [exact HQ|constructor; auto]. }
  assert ((if is_kw "or" t then do x <- one l; p_sigs one m (acc +++ [fst x]) (snd x) else Err ParseError) = Ok (r, rest) -> r <> [] /\ Forall Q r /\ valids rest) as K2 by (destruct (is_kw "or" t); [exact K|discriminate]).
  destruct t as [p|s|s|s|s|k s]; try exact (K2 H). destruct p; try exact (K2 H); [exact (K H)|]. injection H as <- <-. auto.
Qed.
Lemma senslist_sound n l r rest : valids l -> p_senslist n l = Ok (r, rest) -> sens_written r /\ valids rest.
Proof.
  intros HV H. assert (forall l0, valids l0 -> Ok ([SAll], l0) = Ok (r, rest) -> sens_written r /\ valids rest) as K0 by (intros l0 V0 K; injection K as <- <-; split; [now left|exact V0]).
  destruct l as [|[p|s|s|s|s|k s] l]; try exact (K0 _ HV H). destruct p; try exact (K0 _ HV H). inversion HV as [|u w V1 V2]; subst.
  assert (forall l, valids l -> (do x <- p_signal n Level l; Ok ([fst x], snd x)) = Ok (r, rest) -> sens_written r /\ valids rest) as K1.
  { intros l0 V0 K. ub K. destruct x as [x r1]. destruct (signal_sound _ _ _ _ _ V0 B) as [QX VX]. injection K as <- <-. split; [|exact VX]. right. split; [discriminate|right]. constructor; [exact QX|constructor]. }
  assert (forall l, valids l -> (do x <- p_signal n Level l; p_sigs (p_signal n Level) n [fst x] (snd x)) = Ok (r, rest) -> sens_written r /\ valids rest) as K2.
  { intros l0 V0 K. ub K. destruct x as [x r1]. destruct (signal_sound _ _ _ _ _ V0 B) as [QX VX]. cbn [fst snd] in K.
    destruct (sigs_sound level_written (p_signal n Level) (signal_sound n Level) n [x] r1 r rest) as (N & Q & V); auto; [discriminate|]. split; [|exact V]. right. auto. }
  assert (forall l, valids l -> (do x <- p_edge n l; p_sigs (p_edge n) n [fst x] (snd x)) = Ok (r, rest) -> sens_written r /\ valids rest) as K3.
  { intros l0 V0 K. ub K. destruct x as [x r1]. destruct (edge_sound _ _ _ _ V0 B) as [QX VX]. cbn [fst snd] in K.
    destruct (sigs_sound edge_written (p_edge n) (edge_sound n) n [x] r1 r rest) as (N & Q & V); auto; [discriminate|]. split; [|exact V]. right. auto. }
  cbn [p_senslist] in H. destruct l as [|[p|s|s|s|s|k s] l]; try exact (K1 _ V2 H). destruct p; try exact (K1 _ V2 H).
  - inversion V2 as [|u w V3 V4]; subst. injection H as <- <-. split; [now left|exact V4].
  - inversion V2 as [|u w V3 V4]; subst. destruct l as [|[p|s|s|s|s|k s] l]; try exact (K3 _ V4 H); [|exact (K2 _ V4 H)]. destruct p; try exact (K3 _ V4 H). inversion V4 as [|u w V5 V6]; subst. ub H. injection H as <- <-. split; [now left|exact (expect_valid _ _ _ B V6)].
Qed.
Lemma conds_sound n : forall acc l r rest, acc <> [] -> Forall written acc -> valids l -> p_conds n acc l = Ok (r, rest) -> (r <> [] /\ Forall written r) /\ valids rest.
Proof.
  induction n as [|n IH]; intros acc l r rest HN HW HV H; [discriminate|]. cbn [p_conds] in H. destruct l as [|[p|s|s|s|s|k s] l]; try discriminate. inversion HV as [|u w V1 V2]; subst. destruct p; try discriminate.
  - ub H. destruct x as [x r1]. destruct (p_expr_sound _ _ _ _ V2 B) as [WX VX]. cbn [fst snd] in H. apply (IH (acc +++ [x]) r1 r rest); auto; [destruct acc; discriminate|]. apply Forall_app. split; [exact HW|constructor; auto].
  - injection H as <- <-. auto.
Qed.
Lemma paren_sound n l e rest : valids l -> p_paren n l = Ok (e, rest) -> written e /\ valids rest.
Proof.
  intros HV H. unfold p_paren in H. ub H. apply expect_valid in B; [|exact HV]. ub H. destruct x0 as [y r1]. destruct (p_expr_sound _ _ _ _ B B0) as [WX VX]. cbn [fst snd] in H. ub H. injection H as <- <-. split; [exact WX|exact (expect_valid _ _ _ B1 VX)].
Qed.
Lemma forpre_sound n l a rest : valids l -> p_forpre n l = Ok (a, rest) -> opt asg_written a /\ valids rest.
Proof.
  intros HV H. assert ((do d <- p_delays n l; do a <- p_asg_stm n (fst d) (snd d); match a with ((false, a), r) => Ok (Some a, r) | _ => Err ParseError end) = Ok (a, rest) -> opt asg_written a /\ valids rest) as K.
  { intros K. ub K. destruct x as [d r1]. destruct (delays_sound _ _ _ _ HV B) as [WD VD]. cbn [fst snd] in K. ub K. destruct x as [[[] a'] r2]; [discriminate|]. injection K as <- <-. exact (asg_stm_sound _ _ _ _ _ _ WD VD B0). }
  unfold p_forpre in H. destruct l as [|[p|s|s|s|s|k s] l]; try exact (K H). destruct p; try exact (K H). injection H as <- <-. inversion HV; subst. split; [exact I|assumption].
Qed.
Lemma forcond_sound n l c rest : valids l -> p_forcond n l = Ok (c, rest) -> opt written c /\ valids rest.
Proof.
  intros HV H. assert ((do x <- p_expr n l; do r <- expect (is_p SEMICOLON) (snd x); Ok (Some (fst x), r)) = Ok (c, rest) -> opt written c /\ valids rest) as K.
  { intros K. ub K. destruct x as [x r1]. destruct (p_expr_sound _ _ _ _ HV B) as [WX VX]. cbn [fst snd] in K. ub K. injection K as <- <-. split; [exact WX|exact (expect_valid _ _ _ B0 VX)]. }
  unfold p_forcond in H. destruct l as [|[p|s|s|s|s|k s] l]; try exact (K H). destruct p; try exact (K H). injection H as <- <-. inversion HV; subst. split; [exact I|assumption].
Qed.
Lemma forpost_sound n l a rest : valids l -> p_forpost n l = Ok (a, rest) -> opt asg_written a /\ valids rest.
Proof.
  intros HV H. assert ((do d <- p_delays n l; do a <- p_asg n (fst d) (snd d); match a with ((false, a), r) => Ok (Some a, r) | _ => Err ParseError end) = Ok (a, rest) -> opt asg_written a /\ valids rest) as K.
  { intros K. ub K. destruct x as [d r1]. destruct (delays_sound _ _ _ _ HV B) as [WD VD]. cbn [fst snd] in K. ub K. destruct x as [[[] a'] r2]; [discriminate|]. injection K as <- <-. exact (asg_sound _ _ _ _ _ _ WD VD B0). }
  unfold p_forpost in H. destruct l as [|[p|s|s|s|s|k s] l]; try exact (K H). destruct p; try exact (K H). injection H as <- <-. split; [exact I|assumption].
Qed.

(** ** Statements *)
Lemma need_end_sound {A} s (x y : A) : need_end s x = Ok y -> x = y /\ may_end s.
Proof. unfold need_end, may_end, has_end_lineno. destruct s; intros H; try discriminate H; injection H as ->; auto. Qed.
Definition sound_stm (s : stm) (rest : list token) : Prop := swritten s /\ (open_if s = true -> no_else rest) /\ valids rest.
Lemma stm_sound n :
  (forall l s rest, valids l -> p_stm n l = Ok (s, rest) -> sound_stm s rest) /\
  (forall close acc l r rest, Forall swritten acc -> valids l -> p_stms n close acc l = Ok (r, rest) -> Forall swritten r /\ valids rest) /\
  (forall acc l r rest, Forall item_w acc -> valids l -> p_items n acc l = Ok (r, rest) -> r <> [] /\ Forall item_w r /\ valids rest).
Proof.
  induction n as [|n (IHs & IHb & IHi)]; [split; [|split]; intros; discriminate|]. split; [|split].
  - intros l s rest HV H.
    assert (forall r, valids r -> (r_if n (p_stm n) r) = Ok (s, rest) -> sound_stm s rest) as KIF.
    { intros r V K. unfold r_if in K. ub K. destruct x as [c r1]. destruct (paren_sound _ _ _ _ V B) as [WC VC]. cbn [fst snd] in K. ub K. destruct x as [t r2]. destruct (IHs _ _ _ VC B0) as (WT & OT & VT). cbn [fst snd] in K. destruct r2 as [|w r2].
      - apply need_end_sound in K as [K KE]. injection K as <- <-. split; [cbn; auto|]. split; [intros _; exact I|exact VT].
      - inversion VT as [|u v V1 V2]; subst. destruct (is_kw "else" w) eqn:EW.
        + ub K. destruct x as [e r3]. destruct (IHs _ _ _ V2 B1) as (WE & OE & VE). apply need_end_sound in K as [K KE]. injection K as <- <-. split; [|split; [exact OE|exact VE]]. cbn [swritten fst]. split; [exact WC|]. split; [exact WT|]. split; [|split; [exact WE|exact KE]]. destruct (open_if t); [|reflexivity]. specialize (OT eq_refl). cbn [no_else] in OT. congruence.
        + apply need_end_sound in K as [K KE]. injection K as <- <-. split; [cbn; auto|]. split; [intros _; exact EW|exact VT]. }
    assert (forall k r x r2, valids r -> r_case n (p_items n) k r = Ok (x, r2) -> valids r2) as KANY.
    { intros k r x r2 V K. unfold r_case in K. ub K. destruct x0 as [c r1]. destruct (paren_sound _ _ _ _ V B) as [WC VC]. cbn [fst snd] in K. ub K. destruct x0 as [i r3]. destruct (IHi [] r1 i r3 ltac:(constructor) VC B0) as (N & W & V2). now injection K as <- <-. }
    assert (forall k r s, k <> KUnique -> valids r -> r_case n (p_items n) k r = Ok (s, rest) -> sound_stm s rest) as KCASE.
    { intros k r s0 NK V K. unfold r_case in K. ub K. destruct x as [c r1]. destruct (paren_sound _ _ _ _ V B) as [WC VC]. cbn [fst snd] in K. ub K. destruct x as [i r2]. destruct (IHi [] r1 i r2 ltac:(constructor) VC B0) as (N & W & V2). injection K as <- <-.
      split; [|split; [discriminate|exact V2]]. cbn [swritten fst]. split; [exact NK|]. split; [exact WC|]. split; [exact N|]. now apply swritten_items. }
    assert (forall ld r, opt written ld -> valids r -> r_assign n ld r = Ok (s, rest) -> sound_stm s rest) as KASG.
    { intros ld r WL V K. unfold r_assign in K. ub K. destruct x as [[nb a] r1]. destruct (asg_stm_sound _ _ _ _ _ _ WL V B) as [WA VA]. injection K as <- <-. split; [exact WA|]. split; [discriminate|exact VA]. }
    assert (forall l, valids l -> (do x <- p_senslist n l; do r <- expect (is_p SEMICOLON) (snd x); Ok (TEvent (fst x), r)) = Ok (s, rest) -> sound_stm s rest) as KEV.
    { intros l0 V K. ub K. destruct x as [x r1]. destruct (senslist_sound _ _ _ _ V B) as [WX VX]. cbn [fst snd] in K. ub K. injection K as <- <-. split; [exact WX|]. split; [discriminate|exact (expect_valid _ _ _ B0 VX)]. }
    change (p_stm (S n) l) with (r_stm n (p_stm n) (p_stms n) (p_items n) l) in H. destruct l as [|t r]; [discriminate H|]. pose proof HV as HV0. inversion HV as [|u v V1 V2]; subst.
    destruct t as [p|i|w|x|x|k x].
    + destruct p; try discriminate H.
      * exact (KEV _ HV0 H).
      * exact (KEV _ HV0 H).
      * (* LBRACE *) exact (KASG None _ I HV0 H).
      * (* DELAY *) unfold r_stm in H.
        assert (forall x, (do y <- p_expr n r; do r0 <- expect (is_p SEMICOLON) (snd y); Ok (TDelay (fst y), r0)) = Ok x -> Ok x = Ok (s, rest) -> sound_stm s rest) as KD.
        { intros x K E. ub K. destruct x0 as [y r1]. destruct (p_expr_sound _ _ _ _ V2 B) as [WX VX]. cbn [fst snd] in K. ub K. injection K as <-. injection E as <- <-. split; [exact WX|]. split; [discriminate|exact (expect_valid _ _ _ B0 VX)]. }
        destruct (do y <- p_expr n r; do r0 <- expect (is_p SEMICOLON) (snd y); Ok (TDelay (fst y), r0)) as [x|e]; [exact (KD x eq_refl H)|]. clear KD.
        assert ((do d <- p_delays n (P DELAY :: r); match snd d with t :: r0 => if is_kw "if" t then r_if n (p_stm n) r0 else r_assign n (fst d) (t :: r0) | [] => Err ParseError end) = Ok (s, rest)) as H2 by (destruct e; discriminate || exact H). clear H.
        ub H2. destruct x as [d r1]. destruct (delays_sound _ _ _ _ HV0 B) as [WD VD]. cbn [fst snd] in H2. destruct r1 as [|t r1]; [discriminate|]. inversion VD as [|u v V3 V4]; subst. destruct (is_kw "if" t); [exact (KIF _ V4 H2)|exact (KASG _ _ WD VD H2)].
      * (* DOLLER *) unfold r_stm in H. ub H. destruct x as [x r1]. destruct (p_expr_sound _ _ _ _ HV0 B) as [WX VX]. cbn [fst snd] in H. ub H. destruct x; try discriminate. injection H as <- <-. split; [exact WX|]. split; [discriminate|exact (expect_valid _ _ _ B0 VX)].
    + exact (KASG None _ I HV0 H).
    + change (r_word n (p_stm n) (p_stms n) (p_items n) (KW w) r = Ok (s, rest)) in H. unfold r_word in H.
      destruct (is_kw "if" (KW w)); [exact (KIF _ V2 H)|]. destruct (is_kw "case" (KW w)); [exact (KCASE KCase _ _ ltac:(discriminate) V2 H)|]. destruct (is_kw "casex" (KW w)); [exact (KCASE KCasex _ _ ltac:(discriminate) V2 H)|]. destruct (is_kw "casez" (KW w)); [exact (KCASE KCasez _ _ ltac:(discriminate) V2 H)|].
      destruct (is_kw "unique" (KW w)); [ub H; apply expect_valid in B; [|exact V2]; ub H; destruct x0 as [z r1]; injection H as <- <-; split; [exact I|]; split; [discriminate|]; exact (KANY _ _ _ _ B B0)|]. destruct (is_kw "for" (KW w)).
      { ub H. apply expect_valid in B; [|exact V2]. ub H. destruct x0 as [pre r1]. destruct (forpre_sound _ _ _ _ B B0) as [W1 U1]. cbn [fst snd] in H. ub H. destruct x0 as [c r2]. destruct (forcond_sound _ _ _ _ U1 B1) as [W2 U2]. cbn [fst snd] in H.
        ub H. destruct x0 as [post r3]. destruct (forpost_sound _ _ _ _ U2 B2) as [W3 U3]. cbn [fst snd] in H. ub H. apply expect_valid in B3; [|exact U3]. ub H. destruct x1 as [b r4]. destruct (IHs _ _ _ B3 B4) as (WB & OB & VB). injection H as <- <-. split; [cbn; auto|]. split; [exact OB|exact VB]. }
      destruct (is_kw "while" (KW w)). { ub H. destruct x as [c r1]. destruct (paren_sound _ _ _ _ V2 B) as [WC VC]. cbn [fst snd] in H. ub H. destruct x as [b r2]. destruct (IHs _ _ _ VC B0) as (WB & OB & VB). injection H as <- <-. split; [cbn; auto|]. split; [exact OB|exact VB]. }
      destruct (is_kw "wait" (KW w)).
      { ub H. destruct x as [c r1]. destruct (paren_sound _ _ _ _ V2 B) as [WC VC]. cbn [fst snd] in H.
        assert ((do b <- p_stm n r1; Ok (TWait c (Some (fst b)), snd b)) = Ok (s, rest) -> sound_stm s rest) as K. { intros K. ub K. destruct x as [b r2]. destruct (IHs _ _ _ VC B0) as (WB & OB & VB). injection K as <- <-. split; [cbn; auto|]. split; [exact OB|exact VB]. }
        destruct r1 as [|[p|i|w1|x|x|k x] r1]; try exact (K H). destruct p; try exact (K H). injection H as <- <-. split; [cbn; auto|]. split; [discriminate|]. now inversion VC. }
      destruct (is_kw "forever" (KW w)). { ub H. destruct x as [b r1]. destruct (IHs _ _ _ V2 B) as (WB & OB & VB). injection H as <- <-. split; [exact WB|]. split; [exact OB|exact VB]. }
      destruct (is_kw "begin" (KW w)).
      { assert (forall sc r0, opt ident sc -> valids r0 -> (do b <- p_stms n "end" [] r0; Ok (TBlock sc (fst b), snd b)) = Ok (s, rest) -> sound_stm s rest) as K.
        { intros sc r0 WS V K. ub K. destruct x as [b r1]. destruct (IHb "end" [] r0 b r1 ltac:(constructor) V B) as [WB VB]. injection K as <- <-. split; [|split; [discriminate|exact VB]]. split; [exact WS|]. now apply swritten_block. }
        destruct r as [|[p|i|w1|x|x|k x] r]; try exact (K None _ I V2 H). destruct p; try exact (K None _ I V2 H). destruct r as [|[p|i|w1|x|x|k x] r]; try exact (K None _ I V2 H).
        inversion V2 as [|u v V3 V4]; subst. inversion V4 as [|u v V5 V6]; subst. exact (K (Some i) _ V5 V6 H). }
      destruct (is_kw "fork" (KW w)). { ub H. destruct x as [b r1]. destruct (IHb "join" [] r b r1 ltac:(constructor) V2 B) as [WB VB]. injection H as <- <-. split; [|split; [discriminate|exact VB]]. split; [reflexivity|]. now apply swritten_block. }
      destruct (is_kw "disable" (KW w)); [|discriminate]. destruct r as [|[p|i|w1|x|x|k x] r]; try discriminate. ub H. injection H as <- <-. inversion V2 as [|u v V3 V4]; subst. split; [exact V3|]. split; [discriminate|exact (expect_valid _ _ _ B V4)].
    + discriminate.
    + discriminate.
    + discriminate.
  - intros close acc l r rest HA HV H. cbn [p_stms] in H. destruct l as [|t l]; [discriminate|]. pose proof HV as HV0. inversion HV as [|u v V1 V2]; subst. destruct (is_kw close t); [injection H as <- <-; auto|].
    ub H. destruct x as [s r1]. destruct (IHs _ _ _ HV0 B) as (WS & _ & VS). cbn [fst snd] in H. apply (IHb close (acc +++ [s]) r1 r rest); auto. apply Forall_app. split; [exact HA|constructor; auto].
  - intros acc l r rest HA HV H. cbn [p_items] in H. destruct l as [|t l]; [discriminate|]. pose proof HV as HV0. inversion HV as [|u v V1 V2]; subst. destruct (is_kw "endcase" t); [destruct acc as [|i acc]; [discriminate|]; injection H as <- <-; split; [discriminate|]; auto|].
    destruct (is_kw "default" t).
    + ub H. apply expect_valid in B; [|exact V2]. ub H. destruct x0 as [s r1]. destruct (IHs _ _ _ B B0) as (WS & _ & VS). cbn [fst snd] in H. apply (IHi (acc +++ [(None, s)]) r1 r rest); auto. apply Forall_app. split; [exact HA|constructor; [|constructor]]. split; [exact I|exact WS].
    + ub H. destruct x as [x r1]. destruct (p_expr_sound _ _ _ _ HV0 B) as [WX VX]. cbn [fst snd] in H. ub H. destruct x0 as [cs r2]. destruct (conds_sound n [x] r1 cs r2) as [WC VC]; auto; [discriminate|]. cbn [fst snd] in H. ub H. destruct x0 as [s r3]. destruct (IHs _ _ _ VC B1) as (WS & _ & VS). cbn [fst snd] in H.
      apply (IHi (acc +++ [(Some cs, s)]) r3 r rest); auto. apply Forall_app. split; [exact HA|constructor; [|constructor]]. split; [exact WC|exact WS].
Qed.
Theorem parse_stm_sound n text s : parse_stm n text = Ok s -> swritten s.
Proof.
  unfold parse_stm, whole. intros H. ub H. ub H. destruct x0 as [s' rest]. cbn [snd fst] in H. destruct rest; [|discriminate]. injection H as <-. exact (proj1 (proj1 (stm_sound n) _ _ _ (lex_go_sound _ _ _ _ _ B) B0)).
Qed.
Theorem parse_item_sound n text i : parse_item n text = Ok i -> item_written i.
Proof.
  unfold parse_item, whole. intros H. ub H. ub H. destruct x0 as [i' rest]. cbn [snd fst] in H. destruct rest; [|discriminate]. injection H as <-. pose proof (lex_go_sound _ _ _ _ _ B) as V. clear B. unfold p_item in B0.
  destruct (map lt_tok (l_tokens x)) as [|t r]; [discriminate|]. inversion V as [|u v V1 V2]; subst.
  assert (forall k, (do x <- p_senslist n r; do s <- p_stm n (snd x); need_end (fst s) (IAlways k (fst x) (fst s), snd s)) = Ok (i', []) -> item_written i') as K.
  { intros k K. ub K. destruct x0 as [l r1]. destruct (senslist_sound _ _ _ _ V2 B) as [WL VL]. cbn [fst snd] in K. ub K. destruct x0 as [s r2]. destruct (proj1 (stm_sound n) _ _ _ VL B1) as (WS & _). apply need_end_sound in K as [K KE]. injection K as <- _. split; [exact WL|]. split; [exact WS|exact KE]. }
  destruct (is_kw "always" t); [exact (K _ B0)|]. destruct (is_kw "always_ff" t); [exact (K _ B0)|]. destruct (is_kw "always_comb" t); [exact (K _ B0)|]. destruct (is_kw "always_latch" t); [exact (K _ B0)|].
  destruct (is_kw "initial" t); [|discriminate]. ub B0. destruct x0 as [s r2]. destruct (proj1 (stm_sound n) _ _ _ V2 B) as (WS & _). injection B0 as <- _. exact WS.
Qed.
