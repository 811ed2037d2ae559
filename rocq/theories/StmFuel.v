(** StmFuel.v - more fuel does not change what the statement parser answers. *)
From Verif Require Import Base DfModel LexModel ExprModel ParseModel StmModel.
Local Open Scope string_scope.

Definition le {A} (x y : res A) : Prop := x = Err OutOfFuel \/ x = y.
Lemma le_refl {A} (x : res A) : le x x.
Proof. now right. Qed.
Lemma le_out {A} (y : res A) : le (Err OutOfFuel) y.
Proof. now left. Qed.
Lemma le_bind {A B} (x y : res A) (f g : A -> res B) : le x y -> (forall a, le (f a) (g a)) -> le (bind x f) (bind y g).
Proof. intros [-> | ->] H; [now left|]. destruct y; [apply H|apply le_refl]. Qed.
Lemma le_same {A B} (x : res A) (f g : A -> res B) : (forall a, le (f a) (g a)) -> le (bind x f) (bind x g).
Proof. apply le_bind, le_refl. Qed.
Create HintDb fuel.
#[local] Hint Resolve le_refl le_out : fuel.
Ltac step := first [ apply le_refl | apply le_out | assumption | solve [auto with fuel] | apply le_bind; [|intros ?] | match goal with |- le (match ?x with _ => _ end) (match ?x with _ => _ end) => destruct x end ].
Ltac go := repeat step.
Lemma le_expr_run n : forall m c, n <= m -> le (expr_run n c) (expr_run m c).
Proof.
  induction n as [|n IH]; intros m c H; [apply le_out|]. destruct m as [|m]; [lia|]. cbn [expr_run].
  assert (le (match step c with Some c' => expr_run n c' | None => Err ParseError end) (match step c with Some c' => expr_run m c' | None => Err ParseError end)) as K by (destruct (step c); [apply IH; lia|apply le_refl]).
  destruct c as [[|[t|x|s|x|l|l] [|z st]] input]; try exact K. destruct (infix (hd_error input)); [exact K|apply le_refl].
Qed.
Lemma le_expr n m l : n <= m -> le (p_expr n l) (p_expr m l).
Proof. apply le_expr_run. Qed.
#[local] Hint Resolve le_expr : fuel.
Lemma le_selects n : forall m v l, n <= m -> le (p_selects n v l) (p_selects m v l).
Proof.
  induction n as [|n IH]; intros m v l H; [apply le_out|]. destruct m as [|m]; [lia|]. cbn [p_selects]. assert (n <= m) as HL by lia.
  destruct l as [|[p|s|s|s|s|k s] l]; try apply le_refl. destruct p; try apply le_refl. apply le_bind; [auto with fuel|]. intros [x r]. cbn [fst snd]. destruct r as [|[p|s|s|s|s|k s] r]; try apply le_refl. destruct p; try apply le_refl; [apply le_bind; [auto with fuel|intros; apply le_refl]..|]. now apply IH.
Qed.
Lemma le_lvalues one two n : (forall l, le (one l) (two l)) -> forall m acc l, n <= m -> le (p_lvalues one n acc l) (p_lvalues two m acc l).
Proof.
  intros HO. induction n as [|n IH]; intros m acc l H; [apply le_out|]. destruct m as [|m]; [lia|]. cbn [p_lvalues].
  destruct l as [|[p|s|s|s|s|k s] l]; try apply le_refl. destruct p; try apply le_refl. apply le_bind; [apply HO|]. intros x. apply IH. lia.
Qed.
Lemma le_lvalue n : forall m l, n <= m -> le (p_lvalue n l) (p_lvalue m l).
Proof.
  induction n as [|n IH]; intros m l H; [apply le_out|]. destruct m as [|m]; [lia|]. cbn [p_lvalue]. assert (n <= m) as HL by lia.
  destruct l as [|[p|s|s|s|s|k s] l]; try apply le_refl; [|now apply le_selects]. destruct p; try apply le_refl. apply le_bind; [now apply IH|]. intros x. apply le_lvalues; auto.
Qed.
Lemma le_delays n m l : n <= m -> le (p_delays n l) (p_delays m l).
Proof.
  intros H. destruct l as [|[p|s|s|s|s|k s] l]; try apply le_refl. destruct p; try apply le_refl. cbn [p_delays]. destruct l as [|[p|s|s|s|s|k s] l]; try apply le_refl. destruct p; try apply le_refl. apply le_bind; [auto with fuel|intros; apply le_refl].
Qed.
#[local] Hint Resolve le_selects le_lvalue le_delays : fuel.
Lemma le_asg n m ld l : n <= m -> le (p_asg n ld l) (p_asg m ld l).
Proof.
  intros H. apply le_bind; [auto with fuel|]. intros [x r]. cbn [fst snd]. destruct r as [|[p|s|s|s|s|k s] r]; try apply le_refl. destruct p; try apply le_refl; (apply le_bind; [auto with fuel|]; intros d; apply le_bind; [auto with fuel|]; intros; apply le_refl).
Qed.
Lemma le_asg_stm n m ld l : n <= m -> le (p_asg_stm n ld l) (p_asg_stm m ld l).
Proof. intros H. apply le_bind; [now apply le_asg|]. intros; apply le_refl. Qed.
Lemma le_signal n m k l : n <= m -> le (p_signal n k l) (p_signal m k l).
Proof. intros H. destruct l as [|[p|s|s|s|s|i s] l]; try apply le_refl. cbn [p_signal]. apply le_bind; [auto with fuel|]. intros; apply le_refl. Qed.
Lemma le_edge n m l : n <= m -> le (p_edge n l) (p_edge m l).
Proof. intros H. destruct l as [|t l]; [apply le_refl|]. cbn [p_edge]. destruct (is_kw "posedge" t); [now apply le_signal|]. destruct (is_kw "negedge" t); [now apply le_signal|apply le_refl]. Qed.
Lemma le_sigs one two n : (forall l, le (one l) (two l)) -> forall m acc l, n <= m -> le (p_sigs one n acc l) (p_sigs two m acc l).
Proof.
  intros HO. induction n as [|n IH]; intros m acc l H; [apply le_out|]. destruct m as [|m]; [lia|]. cbn [p_sigs]. destruct l as [|t l]; [apply le_refl|].
  assert (le (do x <- one l; p_sigs one n (acc ++ [fst x])%list (snd x)) (do x <- two l; p_sigs two m (acc ++ [fst x])%list (snd x))) as K by (apply le_bind; [apply HO|]; intros x; apply IH; lia).
  destruct t as [p|s|s|s|s|k s]; [destruct p|..]; try exact K; try apply le_refl; (destruct (is_kw "or" _); [exact K|apply le_refl]).
Qed.
#[local] Hint Resolve le_asg le_asg_stm le_signal le_edge : fuel.
Lemma le_senslist n m l : n <= m -> le (p_senslist n l) (p_senslist m l).
Proof.
  intros H. destruct l as [|[p|s|s|s|s|k s] l]; try apply le_refl. destruct p; try apply le_refl.
  assert (forall l, le (do x <- p_signal n Level l; Ok ([fst x], snd x)) (do x <- p_signal m Level l; Ok ([fst x], snd x))) as K1 by (intros l0; apply le_bind; [auto with fuel|intros; apply le_refl]).
  assert (forall l, le (do x <- p_signal n Level l; p_sigs (p_signal n Level) n [fst x] (snd x)) (do x <- p_signal m Level l; p_sigs (p_signal m Level) m [fst x] (snd x))) as K2 by (intros l0; apply le_bind; [auto with fuel|intros x; apply le_sigs; auto with fuel]).
  assert (forall l, le (do x <- p_edge n l; p_sigs (p_edge n) n [fst x] (snd x)) (do x <- p_edge m l; p_sigs (p_edge m) m [fst x] (snd x))) as K3 by (intros l0; apply le_bind; [auto with fuel|intros x; apply le_sigs; auto with fuel]).
  cbn [p_senslist]. destruct l as [|[p|s|s|s|s|k s] l]; try apply K1. destruct p; try apply K1; [apply le_refl|]. destruct l as [|[p|s|s|s|s|k s] l]; try apply K3; [|apply K2]. destruct p; try apply K3. apply le_refl.
Qed.
Lemma le_conds n : forall m acc l, n <= m -> le (p_conds n acc l) (p_conds m acc l).
Proof.
  induction n as [|n IH]; intros m acc l H; [apply le_out|]. destruct m as [|m]; [lia|]. cbn [p_conds]. assert (n <= m) as HL by lia. destruct l as [|[p|s|s|s|s|k s] l]; try apply le_refl. destruct p; try apply le_refl. apply le_bind; [auto with fuel|]. intros x. now apply IH.
Qed.
Lemma le_paren n m l : n <= m -> le (p_paren n l) (p_paren m l).
Proof. intros H. apply le_same. intros r. apply le_bind; [auto with fuel|intros; apply le_refl]. Qed.
Lemma le_forpre n m l : n <= m -> le (p_forpre n l) (p_forpre m l).
Proof.
  intros H. assert (le (do d <- p_delays n l; do a <- p_asg_stm n (fst d) (snd d); match a with ((false, a), r) => Ok (Some a, r) | _ => Err ParseError end) (do d <- p_delays m l; do a <- p_asg_stm m (fst d) (snd d); match a with ((false, a), r) => Ok (Some a, r) | _ => Err ParseError end)) as K by (apply le_bind; [auto with fuel|]; intros d; apply le_bind; [auto with fuel|intros; apply le_refl]).
  unfold p_forpre. destruct l as [|[p|s|s|s|s|k s] l]; try exact K. destruct p; exact K || apply le_refl.
Qed.
Lemma le_forcond n m l : n <= m -> le (p_forcond n l) (p_forcond m l).
Proof.
  intros H. assert (le (do x <- p_expr n l; do r <- expect (is_p SEMICOLON) (snd x); Ok (Some (fst x), r)) (do x <- p_expr m l; do r <- expect (is_p SEMICOLON) (snd x); Ok (Some (fst x), r))) as K by (apply le_bind; [auto with fuel|intros; apply le_refl]).
  unfold p_forcond. destruct l as [|[p|s|s|s|s|k s] l]; try exact K. destruct p; exact K || apply le_refl.
Qed.
Lemma le_forpost n m l : n <= m -> le (p_forpost n l) (p_forpost m l).
Proof.
  intros H. assert (le (do d <- p_delays n l; do a <- p_asg n (fst d) (snd d); match a with ((false, a), r) => Ok (Some a, r) | _ => Err ParseError end) (do d <- p_delays m l; do a <- p_asg m (fst d) (snd d); match a with ((false, a), r) => Ok (Some a, r) | _ => Err ParseError end)) as K by (apply le_bind; [auto with fuel|]; intros d; apply le_bind; [auto with fuel|intros; apply le_refl]).
  unfold p_forpost. destruct l as [|[p|s|s|s|s|k s] l]; try exact K. destruct p; exact K || apply le_refl.
Qed.
#[local] Hint Resolve le_senslist le_conds le_paren le_forpre le_forcond le_forpost : fuel.

Section Rules.
  Variables (n m : nat) (s1 s2 : list token -> res (stm * list token)) (b1 b2 : string -> list stm -> list token -> res (list stm * list token))
            (i1 i2 : list (option (list expr) * stm) -> list token -> res (list (option (list expr) * stm) * list token)).
  Hypotheses (HN : n <= m) (HS : forall l, le (s1 l) (s2 l)) (HB : forall c a l, le (b1 c a l) (b2 c a l)) (HI : forall a l, le (i1 a l) (i2 a l)).
  Lemma le_if l : le (r_if n s1 l) (r_if m s2 l).
  Proof. apply le_bind; [auto with fuel|]. intros c. apply le_bind; [apply HS|]. intros t. destruct (snd t) as [|w r]; [apply le_refl|]. destruct (is_kw "else" w); [|apply le_refl]. apply le_bind; [apply HS|intros; apply le_refl]. Qed.
  Lemma le_case k l : le (r_case n i1 k l) (r_case m i2 k l).
  Proof. apply le_bind; [auto with fuel|]. intros c. apply le_bind; [apply HI|intros; apply le_refl]. Qed.
  Lemma le_assign ld l : le (r_assign n ld l) (r_assign m ld l).
  Proof. apply le_bind; [auto with fuel|intros; apply le_refl]. Qed.
  Lemma le_word t r : le (r_word n s1 b1 i1 t r) (r_word m s2 b2 i2 t r).
  Proof.
    unfold r_word. destruct (is_kw "if" t); [apply le_if|]. destruct (is_kw "case" t); [apply le_case|]. destruct (is_kw "casex" t); [apply le_case|]. destruct (is_kw "casez" t); [apply le_case|]. destruct (is_kw "unique" t); [apply le_same; intros; apply le_bind; [apply le_case|intros; apply le_refl]|].
    destruct (is_kw "for" t). { apply le_same. intros r1. apply le_bind; [auto with fuel|]. intros x. apply le_bind; [auto with fuel|]. intros c. apply le_bind; [auto with fuel|]. intros y. apply le_same. intros r2. apply le_bind; [apply HS|intros; apply le_refl]. }
    destruct (is_kw "while" t). { apply le_bind; [auto with fuel|]. intros c. apply le_bind; [apply HS|intros; apply le_refl]. }
    destruct (is_kw "wait" t).
    { apply le_bind; [auto with fuel|]. intros c. assert (le (do b <- s1 (snd c); Ok (TWait (fst c) (Some (fst b)), snd b)) (do b <- s2 (snd c); Ok (TWait (fst c) (Some (fst b)), snd b))) as K by (apply le_bind; [apply HS|intros; apply le_refl]).
      destruct (snd c) as [|[p|s|s|s|s|k s] q]; try exact K. destruct p; exact K || apply le_refl. }
    destruct (is_kw "forever" t). { apply le_bind; [apply HS|intros; apply le_refl]. }
    destruct (is_kw "begin" t).
    { assert (forall sc l, le (do b <- b1 "end" [] l; Ok (TBlock sc (fst b), snd b)) (do b <- b2 "end" [] l; Ok (TBlock sc (fst b), snd b))) as K by (intros sc l; apply le_bind; [apply HB|intros; apply le_refl]).
      destruct r as [|[p|s|s|s|s|k s] r]; try apply K. destruct p; try apply K. destruct r as [|[p|s|s|s|s|k s] r]; apply K. }
    destruct (is_kw "fork" t). { apply le_bind; [apply HB|intros; apply le_refl]. } apply le_refl.
  Qed.
  Lemma le_stm_rule l : le (r_stm n s1 b1 i1 l) (r_stm m s2 b2 i2 l).
  Proof.
    destruct l as [|t r]; [apply le_refl|]. destruct t as [p|s|s|s|s|k s]; [|exact (le_assign None _)|exact (le_word _ _)..].
    destruct p; try exact (le_word _ _); try exact (le_assign None _).
    - cbn [r_stm]. apply le_bind; [auto with fuel|intros; apply le_refl].
    - cbn [r_stm]. apply le_bind; [auto with fuel|intros; apply le_refl].
    - cbn [r_stm]. assert (le (do x <- p_expr n r; do r <- expect (is_p SEMICOLON) (snd x); Ok (TDelay (fst x), r)) (do x <- p_expr m r; do r <- expect (is_p SEMICOLON) (snd x); Ok (TDelay (fst x), r))) as [E|E] by (apply le_bind; [auto with fuel|intros; apply le_refl]); rewrite E; [apply le_out|].
      destruct (do x <- p_expr m r; do r <- expect (is_p SEMICOLON) (snd x); Ok (TDelay (fst x), r)) as [x|[]]; try apply le_refl.
      apply le_bind; [auto with fuel|]. intros d. destruct (snd d) as [|t q]; [apply le_refl|]. destruct (is_kw "if" t); [apply le_if|apply le_assign].
    - cbn [r_stm]. apply le_bind; [auto with fuel|intros; apply le_refl].
  Qed.
End Rules.
Lemma le_stm n : forall m, n <= m -> (forall l, le (p_stm n l) (p_stm m l)) /\ (forall c a l, le (p_stms n c a l) (p_stms m c a l)) /\ (forall a l, le (p_items n a l) (p_items m a l)).
Proof.
  induction n as [|n IH]; intros m H; [split; [|split]; intros; apply le_out|]. destruct m as [|m]; [lia|]. assert (n <= m) as HL by lia. destruct (IH m HL) as (IHs & IHb & IHi). split; [|split].
  - intros l. exact (le_stm_rule n m _ _ _ _ _ _ HL IHs IHb IHi l).
  - intros c a l. cbn [p_stms]. destruct l as [|t r]; [apply le_refl|]. destruct (is_kw c t); [apply le_refl|]. apply le_bind; [apply IHs|]. intros s. apply IHb.
  - intros a l. cbn [p_items]. destruct l as [|t r]; [apply le_refl|]. destruct (is_kw "endcase" t); [apply le_refl|]. destruct (is_kw "default" t).
    + apply le_same. intros q. apply le_bind; [apply IHs|]. intros s. apply IHi.
    + apply le_bind; [auto with fuel|]. intros x. apply le_bind; [auto with fuel|]. intros c. apply le_bind; [apply IHs|]. intros s. apply IHi.
Qed.
Lemma le_item n m l : n <= m -> le (p_item n l) (p_item m l).
Proof.
  intros H. destruct (le_stm n m H) as (K & _). assert (forall k r, le (do x <- p_senslist n r; do s <- p_stm n (snd x); need_end (fst s) (IAlways k (fst x) (fst s), snd s)) (do x <- p_senslist m r; do s <- p_stm m (snd x); need_end (fst s) (IAlways k (fst x) (fst s), snd s))) as K2.
  { intros k r. apply le_bind; [auto with fuel|]. intros x. apply le_bind; [apply K|intros; apply le_refl]. }
  destruct l as [|t r]; [apply le_refl|]. unfold p_item. destruct (is_kw "always" t); [apply K2|]. destruct (is_kw "always_ff" t); [apply K2|]. destruct (is_kw "always_comb" t); [apply K2|]. destruct (is_kw "always_latch" t); [apply K2|].
  destruct (is_kw "initial" t); [|apply le_refl]. apply le_bind; [apply K|intros; apply le_refl].
Qed.
Theorem parse_stm_more n m s x : n <= m -> parse_stm n s = x -> x <> Err OutOfFuel -> parse_stm m s = x.
Proof.
  intros H <- HX. assert (le (parse_stm n s) (parse_stm m s)) as [E|E]; [|contradiction|now symmetry]. apply le_same. intros l. apply le_bind; [apply le_stm; exact H|intros; apply le_refl].
Qed.
Theorem parse_item_more n m s x : n <= m -> parse_item n s = x -> x <> Err OutOfFuel -> parse_item m s = x.
Proof.
  intros H <- HX. assert (le (parse_item n s) (parse_item m s)) as [E|E]; [|contradiction|now symmetry]. apply le_same. intros l. apply le_bind; [apply le_item; exact H|intros; apply le_refl].
Qed.
