(** SrcFuel.v - more fuel does not change what the parser of source files answers. *)
From Verif Require Import Base DfModel LexModel ExprModel ParseModel StmModel StmFuel SrcModel.
Local Open Scope string_scope.
#[local] Hint Resolve le_refl le_out le_expr le_selects le_lvalue le_delays le_asg le_asg_stm le_paren le_forpre le_forcond le_forpost le_item : fuel.
Ltac fu := repeat first [ apply le_refl | apply le_out | solve [auto with fuel] | apply le_bind; [|intros ?] | match goal with |- le (match ?x with _ => _ end) _ => destruct x end ].
Ltac more n IH := induction n as [|n IH]; intros m; intros; [apply le_out|]; destruct m as [|m]; [lia|]; assert (n <= m) by lia.
Lemma le_range n m l : n <= m -> le (p_range n l) (p_range m l).
Proof. intros H. unfold p_range. fu. Qed.
#[local] Hint Resolve le_range : fuel.
Lemma le_range_opt n m l : n <= m -> le (p_range_opt n l) (p_range_opt m l).
Proof. intros H. destruct l as [|t l]; [apply le_refl|]. unfold p_range_opt. fu. Qed.
Lemma le_dims n : forall m acc l, n <= m -> le (p_dims n acc l) (p_dims m acc l).
Proof. more n IH. cbn [p_dims]. destruct l as [|[p|s|s|s|s|k s] l]; try apply le_refl. destruct p; try apply le_refl. fu. Qed.
#[local] Hint Resolve le_range_opt le_dims : fuel.
Lemma le_declnames n : forall m sg w acc l, n <= m -> le (p_declnames n sg w acc l) (p_declnames m sg w acc l).
Proof. more n IH. cbn [p_declnames]. fu. Qed.
#[local] Hint Resolve le_declnames : fuel.
Lemma le_decl as' n m l : n <= m -> le (p_decl as' n l) (p_decl as' m l).
Proof. intros H. unfold p_decl. destruct (p_sigtypes l) as [sg r]. apply le_bind; [auto with fuel|]. intros [w q]. cbn [fst snd]. fu. Qed.
Lemma le_integers n : forall m acc l, n <= m -> le (p_integers n acc l) (p_integers m acc l).
Proof. more n IH. cbn [p_integers]. fu. Qed.
#[local] Hint Resolve le_decl le_integers : fuel.
Lemma le_integerdecl n m l : n <= m -> le (p_integerdecl n l) (p_integerdecl m l).
Proof. intros H. unfold p_integerdecl. destruct l as [|[p|s|s|s|s|k s] l]; fu. Qed.
Lemma le_param_head n m l : n <= m -> le (p_param_head n l) (p_param_head m l).
Proof. intros H. unfold p_param_head. fu. Qed.
Lemma le_substs n : forall m mk acc l, n <= m -> le (p_substs n mk acc l) (p_substs m mk acc l).
Proof. more n IH. cbn [p_substs]. fu. Qed.
#[local] Hint Resolve le_integerdecl le_param_head le_substs : fuel.
Lemma le_parameters local n m l : n <= m -> le (p_parameters local n l) (p_parameters local m l).
Proof. intros H. unfold p_parameters. fu. Qed.
#[local] Hint Resolve le_parameters : fuel.
Lemma le_paramdecl local n m l : n <= m -> le (p_paramdecl local n l) (p_paramdecl local m l).
Proof. intros H. unfold p_paramdecl. fu. Qed.
Lemma le_params n : forall m acc l, n <= m -> le (p_params n acc l) (p_params m acc l).
Proof. more n IH. cbn [p_params]. fu. Qed.
#[local] Hint Resolve le_paramdecl le_params : fuel.
Lemma le_paramlist n m l : n <= m -> le (p_paramlist n l) (p_paramlist m l).
Proof. intros H. unfold p_paramlist. fu. Qed.
Lemma le_ioport n m l : n <= m -> le (p_ioport n l) (p_ioport m l).
Proof. intros H. unfold p_ioport. destruct (p_sigtypes l) as [sg r]. fu. Qed.
#[local] Hint Resolve le_paramlist le_ioport : fuel.
Lemma le_ioports n : forall m acc l, n <= m -> le (p_ioports n acc l) (p_ioports m acc l).
Proof. more n IH. cbn [p_ioports]. fu. Qed.
#[local] Hint Resolve le_ioports : fuel.
Lemma le_portlist n m l : n <= m -> le (p_portlist n l) (p_portlist m l).
Proof. intros H. unfold p_portlist. fu. Qed.
Lemma le_assignment n m l : n <= m -> le (p_assignment n l) (p_assignment m l).
Proof. intros H. unfold p_assignment. destruct l as [|[p|s|s|s|s|k s] l]; fu. Qed.
Lemma le_named n m l : n <= m -> le (p_named n l) (p_named m l).
Proof.
  intros H. unfold p_named. apply le_same. intros r. apply le_same. intros x. apply le_same. intros q.
  assert (le (do e <- p_expr n q; do r <- expect (is_p RPAREN) (snd e); Ok ((Some (fst x), Some (fst e)), r)) (do e <- p_expr m q; do r <- expect (is_p RPAREN) (snd e); Ok ((Some (fst x), Some (fst e)), r))) as K by fu.
  destruct q as [|[p|s|s|s|s|k s] q]; try exact K. destruct p; exact K || apply le_refl.
Qed.
Lemma le_unnamed n m l : n <= m -> le (p_unnamed n l) (p_unnamed m l).
Proof. intros H. unfold p_unnamed. fu. Qed.
#[local] Hint Resolve le_portlist le_assignment le_named le_unnamed : fuel.
Lemma le_named_param n m l : n <= m -> le (p_named_param n l) (p_named_param m l).
Proof. intros H. unfold p_named_param. fu. Qed.
Lemma le_args one two n : (forall l, le (one l) (two l)) -> forall m acc l, n <= m -> le (p_args one n acc l) (p_args two m acc l).
Proof. intros HO. more n IH. cbn [p_args]. destruct l as [|[p|s|s|s|s|k s] l]; try apply le_refl. destruct p; try apply le_refl. apply le_bind; [apply HO|]. intros x. now apply IH. Qed.
#[local] Hint Resolve le_named_param : fuel.
Lemma le_port_args n m l : n <= m -> le (p_port_args n l) (p_port_args m l).
Proof.
  intros H. unfold p_port_args. destruct l as [|[p|s|s|s|s|k s] l]; [..|]; try (apply le_bind; [auto with fuel|]; intros x; apply le_args; auto with fuel).
  destruct p; try (apply le_bind; [auto with fuel|]; intros x; apply le_args; auto with fuel); apply le_args; auto with fuel.
Qed.
Lemma le_param_args n m l : n <= m -> le (p_param_args n l) (p_param_args m l).
Proof.
  intros H. unfold p_param_args. destruct l as [|[p|s|s|s|s|k s] l]; [..|]; try (apply le_bind; [auto with fuel|]; intros x; apply le_args; auto with fuel).
  destruct p; try (apply le_bind; [auto with fuel|]; intros x; apply le_args; auto with fuel); apply le_args; auto with fuel.
Qed.
#[local] Hint Resolve le_port_args le_param_args : fuel.
Lemma le_body nm n m l : n <= m -> le (p_body nm n l) (p_body nm m l).
Proof. intros H. unfold p_body. destruct nm; fu. Qed.
#[local] Hint Resolve le_body : fuel.
Lemma le_bodies nm n : forall m acc l, n <= m -> le (p_bodies nm n acc l) (p_bodies nm m acc l).
Proof. more n IH. cbn [p_bodies]. fu. Qed.
#[local] Hint Resolve le_bodies : fuel.
Lemma le_instance k n m l : n <= m -> le (p_instance k n l) (p_instance k m l).
Proof. intros H. unfold p_instance. destruct l as [|[p|s|s|s|s|i s] l]; fu. Qed.
Lemma le_funcvar n m l : n <= m -> le (p_funcvar n l) (p_funcvar m l).
Proof. intros H. unfold p_funcvar. apply le_bind; [|intros; apply le_refl]. fu. Qed.
#[local] Hint Resolve le_instance le_funcvar : fuel.
Lemma le_funcvars n : forall m acc l, n <= m -> le (p_funcvars n acc l) (p_funcvars m acc l).
Proof. more n IH. cbn [p_funcvars]. destruct (starts_decl l); fu. Qed.
Lemma le_calc n m l : n <= m -> le (p_calc n l) (p_calc m l).
Proof. intros H. unfold p_calc. apply le_bind; [now apply le_stm|]. intros; apply le_refl. Qed.
#[local] Hint Resolve le_funcvars le_calc : fuel.
Lemma le_function n m l : n <= m -> le (p_function n l) (p_function m l).
Proof.
  intros H. unfold p_function. apply le_bind; [destruct l as [|[p|s|s|s|s|k s] l]; fu|]. intros w. apply le_same. intros x. apply le_same. intros r. apply le_bind; [auto with fuel|]. intros d. destruct (fst d); fu.
Qed.
Lemma le_task n m l : n <= m -> le (p_task n l) (p_task m l).
Proof. intros H. unfold p_task. fu. Qed.
Lemma le_pragma_run n : forall m c, n <= m -> le (pragma_run n c) (pragma_run m c).
Proof.
  more n IH. cbn [pragma_run].
  assert (le (match step c with Some c' => pragma_run n c' | None => Err ParseError end) (match step c with Some c' => pragma_run m c' | None => Err ParseError end)) as K by (destruct (step c); [apply IH; lia|apply le_refl]).
  destruct c as [[|[t|x|s|x|l|l] [|z st]] input]; try exact K. destruct input as [|[p|s|s|s|s|k s] input]; try exact K. destruct p; try exact K. destruct input as [|[p|s|s|s|s|k s] input]; try exact K. destruct p; try exact K. apply le_refl.
Qed.
#[local] Hint Resolve le_function le_task le_pragma_run : fuel.
Lemma le_pragma n m l : n <= m -> le (p_pragma n l) (p_pragma m l).
Proof. intros H. unfold p_pragma. fu. Qed.
#[local] Hint Resolve le_pragma : fuel.
Lemma le_decl_of x y : le x y -> le (decl_of x) (decl_of y).
Proof. intros H. apply le_bind; [exact H|intros; apply le_refl]. Qed.
#[local] Hint Resolve le_decl_of : fuel.
Lemma le_standard n m l : n <= m -> le (p_standard n l) (p_standard m l).
Proof.
  intros H. destruct l as [|t l]; [apply le_refl|].
  assert (le (if is_kw "or" t then p_instance "or" n l
      else match sigtype t with Some _ => decl_of (p_decl true n (t :: l)) | None =>
      if is_kw "integer" t then decl_of (p_integerdecl n l)
      else if is_kw "real" t then decl_of (p_realdecl l)
      else if is_kw "parameter" t then decl_of (p_paramdecl false n l)
      else if is_kw "localparam" t then decl_of (p_paramdecl true n l)
      else if is_kw "genvar" t then decl_of (p_genvardecl l)
      else if is_kw "assign" t then do a <- p_assignment n l; Ok (JAssign (fst a), snd a)
      else if is_kw "function" t then p_function n l
      else if is_kw "task" t then p_task n l
      else do i <- p_item n (t :: l); Ok (JItem (fst i), snd i) end)
    (if is_kw "or" t then p_instance "or" m l
      else match sigtype t with Some _ => decl_of (p_decl true m (t :: l)) | None =>
      if is_kw "integer" t then decl_of (p_integerdecl m l)
      else if is_kw "real" t then decl_of (p_realdecl l)
      else if is_kw "parameter" t then decl_of (p_paramdecl false m l)
      else if is_kw "localparam" t then decl_of (p_paramdecl true m l)
      else if is_kw "genvar" t then decl_of (p_genvardecl l)
      else if is_kw "assign" t then do a <- p_assignment m l; Ok (JAssign (fst a), snd a)
      else if is_kw "function" t then p_function m l
      else if is_kw "task" t then p_task m l
      else do i <- p_item m (t :: l); Ok (JItem (fst i), snd i) end)) as K by fu.
  destruct t as [p|s|s|s|s|k s]; try exact K; [|cbn [p_standard]; auto with fuel]. destruct p; try exact K. cbn [p_standard]. fu.
Qed.
#[local] Hint Resolve le_standard : fuel.
Lemma le_gitem n : forall m, n <= m -> (forall l, le (p_gitem n l) (p_gitem m l)) /\ (forall c a l, le (p_gitems n c a l) (p_gitems m c a l)).
Proof.
  induction n as [|n IH]; intros m H; [split; intros; apply le_out|]. destruct m as [|m]; [lia|]. assert (n <= m) as HL by lia. destruct (IH m HL) as (IHs & IHb).
  assert (forall l, le (r_content (p_gitems n "end") (p_gitem n) l) (r_content (p_gitems m "end") (p_gitem m) l)) as KC.
  { intros l. unfold r_content. destruct l as [|t r]; [apply le_refl|]. destruct (is_kw "begin" t); [|apply IHs]. assert (forall l sc, le (do b <- p_gitems n "end" [] l; Ok (JBlock sc (fst b), snd b)) (do b <- p_gitems m "end" [] l; Ok (JBlock sc (fst b), snd b))) as K by (intros; apply le_bind; [apply IHb|intros; apply le_refl]).
    destruct r as [|[p|s|s|s|s|k s] r]; try apply K. destruct p; try apply K. apply le_same. intros x. apply K. }
  split.
  - intros l. cbn [p_gitem]. generalize dependent (r_content (p_gitems n "end") (p_gitem n)). generalize (r_content (p_gitems m "end") (p_gitem m)). intros c2 c1 KC. unfold r_gitem. destruct l as [|t r]; [apply le_refl|]. destruct (is_kw "if" t).
    { apply le_bind; [auto with fuel|]. intros c. apply le_bind; [apply KC|]. intros x. destruct (snd x) as [|w q]; [apply le_refl|]. destruct (is_kw "else" w); [|apply le_refl]. apply le_bind; [apply KC|intros; apply le_refl]. }
    destruct (is_kw "for" t); [|auto with fuel]. apply le_same. intros q. do 3 (apply le_bind; [auto with fuel|]; intros ?). apply le_same. intros ?. apply le_bind; [apply KC|intros; apply le_refl].
  - intros c a l. cbn [p_gitems]. destruct l as [|t r]; [apply le_refl|]. destruct (is_kw c t); [apply le_refl|]. apply le_bind; [apply IHs|]. intros s. apply IHb.
Qed.
Lemma le_mitems n : forall m a l, n <= m -> le (p_mitems n a l) (p_mitems m a l).
Proof.
  more n IH. cbn [p_mitems]. destruct l as [|t r]; [apply le_refl|]. destruct (is_kw "endmodule" t); [apply le_refl|]. destruct (is_kw "generate" t); [apply le_bind; [now apply le_gitem|]; intros; now apply IH|]. apply le_bind; [auto with fuel|]. intros. now apply IH.
Qed.
#[local] Hint Resolve le_mitems : fuel.
Lemma le_module n m l : n <= m -> le (p_module n l) (p_module m l).
Proof. intros H. unfold p_module. apply le_same. intros x. fu. Qed.
#[local] Hint Resolve le_module : fuel.
Lemma le_definition n m l : n <= m -> le (p_definition n l) (p_definition m l).
Proof.
  intros H. destruct l as [|t r]; [apply le_refl|]. assert (le (if is_kw "module" t then do x <- p_module n r; Ok (DModule (fst x), snd x) else Err ParseError) (if is_kw "module" t then do x <- p_module m r; Ok (DModule (fst x), snd x) else Err ParseError)) as K by fu.
  destruct t as [p|s|s|s|s|k s]; try exact K. destruct p; try exact K. cbn [p_definition]. fu.
Qed.
Lemma le_definitions n : forall m a l, n <= m -> le (p_definitions n a l) (p_definitions m a l).
Proof. more n IH. cbn [p_definitions]. apply le_bind; [now apply le_definition|]. intros x. cbn zeta. destruct (snd x); [apply le_refl|]. now apply IH. Qed.
Theorem parse_source_more n m t x : n <= m -> parse_source n t = x -> x <> Err OutOfFuel -> parse_source m t = x.
Proof.
  intros H E N. subst x. unfold parse_source in *. destruct (lex 1 t) as [l|e]; [|reflexivity]. cbn [bind] in *. destruct (le_definitions n m [] (map lt_tok (l_tokens l)) H) as [K|K]; [contradiction|now rewrite K].
Qed.
