(** VisitProps.v - C38, C39, C40: tables of scopes, labels, assignments in procedural blocks. *)
From Verif Require Import Base ScopeModel ScopeSpec ScopeProofs DfModel DfSpec BindModel BindSpec BindProofs LitModel OptProps VisitModel VisitSpec VisitProofs VisitProofs2.

(** ** C38 *)
(** For every history of scopes being opened and left and of declarations, a search from an opened
    scope finds the declaration of the innermost scope that has one, not beyond the module. *)
Theorem C38_constant_lookup : forall node (h : list (act node)) s key fl n, run node h (empty_table node) = Ok s -> Forall plain_act h -> opened h key fl ->
  match searchConstantDefinition node s key n with
  | Ok r => finds (fun c => constants_in h c n) h key r
  | Err e => e = KeyError /\ forall q, inside q key -> q <> [] -> constants_in h q n = [] /\ ~ is_module h q
  end.
Proof.
  intros node h s key fl n E HP HO. pose proof (run_inv h [] _ s init_inv HP E) as HI. cbn [app] in HI. pose proof HI as (_ & _ & _ & H4 & _ & H6). destruct (H6 key fl HO) as (Hk & f & Ef & _).
  refine (search_ok h s (f_consts node) (fun c n => constants_in h c n) HI _ n (S (length key)) key Hk (Nat.lt_succ_diag_r _) _); [|congruence].
  intros c f' n' Hc E'. destruct (H4 c f' Hc E') as (_ & _ & _ & K1 & _ & K2 & _). auto.
Qed.
Print Assumptions C38_constant_lookup.
Theorem C38_signal_lookup : forall node (h : list (act node)) s key fl n, run node h (empty_table node) = Ok s -> Forall plain_act h -> opened h key fl ->
  match searchSignalDefinition node s key n with
  | Ok r => finds (fun c => signals_in h c n) h key r
  | Err e => e = KeyError /\ forall q, inside q key -> q <> [] -> signals_in h q n = [] /\ ~ is_module h q
  end.
Proof.
  intros node h s key fl n E HP HO. pose proof (run_inv h [] _ s init_inv HP E) as HI. cbn [app] in HI. pose proof HI as (_ & _ & _ & H4 & _ & H6). destruct (H6 key fl HO) as (Hk & f & Ef & _).
  refine (search_ok h s (f_signals node) (fun c n => signals_in h c n) HI _ n (S (length key)) key Hk (Nat.lt_succ_diag_r _) _); [|congruence].
  intros c f' n' Hc E'. destruct (H4 c f' Hc E') as (_ & _ & _ & _ & K1 & _ & K2). auto.
Qed.
Print Assumptions C38_signal_lookup.
(** If outermost scopes are modules, the search always returns. *)
Theorem C38_lookup_returns : forall node (h : list (act node)) s key fl n, run node h (empty_table node) = Ok s -> Forall plain_act h -> tops_are_modules h -> opened h key fl ->
  (exists r, searchConstantDefinition node s key n = Ok r) /\ (exists r, searchSignalDefinition node s key n = Ok r).
Proof.
  intros node h s key fl n E HP HT HO.
  assert (exists l, inside [l] key /\ is_module h [l]) as (l & H1 & H2).
  { pose proof (run_inv h [] _ s init_inv HP E) as HI. cbn [app] in HI. destruct HI as (_ & _ & _ & H4 & _ & H6).
    assert (forall k key f, (length key <= k)%nat -> no_any key -> dget (ft_dict _ s) key = Some f -> exists l, inside [l] key /\ exists fl, opened h [l] fl) as K.
    { induction k as [|k IH]; intros key' f' HL Hk Ef; destruct (H4 key' f' Hk Ef) as ((l & K1) & K2 & K3 & _); [rewrite K1, app_length in HL; cbn in HL; lia|].
      destruct K2 as [K2|K2]; [rewrite K2 in K1; cbn in K1; subst key'; exists l; split; [exists []; reflexivity|eauto]|].
      destruct (dget (ft_dict _ s) (f_previous _ f')) as [f2|] eqn:E2; [|congruence]. destruct (IH (f_previous _ f') f2) as (l' & (r & I1) & I2); [rewrite K1, app_length in HL; cbn in HL; lia|rewrite K1 in Hk; eapply no_any_init; eauto|exact E2|].
      exists l'. split; [|exact I2]. exists (r ++ [l]). rewrite K1, I1. cbn. reflexivity. }
    destruct (H6 key fl HO) as (Hk & f & Ef & _). destruct (K (length key) key f (le_n _) Hk Ef) as (l & I1 & fl' & I2). exists l. split; [exact I1|]. exists fl'. split; [exact I2|]. exact (HT l fl' I2). }
  split.
  - pose proof (C38_constant_lookup node h s key fl n E HP HO) as K. destruct (searchConstantDefinition node s key n) as [r|e]; [eauto|]. destruct K as [_ K]. destruct (K [l] H1 ltac:(discriminate)) as [_ N]. contradiction.
  - pose proof (C38_signal_lookup node h s key fl n E HP HO) as K. destruct (searchSignalDefinition node s key n) as [r|e]; [eauto|]. destruct K as [_ K]. destruct (K [l] H1 ltac:(discriminate)) as [_ N]. contradiction.
Qed.
Print Assumptions C38_lookup_returns.
(** The answer is determined by the specification. *)
Theorem C38_answer_unique : forall node (h : list (act node)) (decls : chain -> list node) key r r', finds decls h key r -> finds decls h key r' -> r = r'.
Proof.
  intros node h decls key r r'.
  assert (forall p q, inside p key -> inside q key -> inside p q \/ inside q p) as HC.
  { intros p q (a & Ea) (b & Eb). rewrite Ea in Eb. clear Ea. revert q Eb. induction p as [|x p IH]; intros [|y q] Eb; [left; exists []; reflexivity|left; exists (y :: q); reflexivity|right; exists (x :: p); reflexivity|]. cbn in Eb. injection Eb as <- Eb. destruct (IH q Eb) as [(z & ->)|(z & ->)]; [left|right]; exists z; reflexivity. }
  assert (forall p q, inside p key -> inside q key -> (decls p <> [] \/ is_module h p) -> (decls q <> [] \/ is_module h q) -> nothing_inside decls h p key -> nothing_inside decls h q key -> p = q) as HU.
  { intros p q Ip Iq Dp Dq Np Nq. destruct (chain_dec p q) as [|NE]; [assumption|exfalso]. destruct (HC p q Ip Iq) as [I|I].
    - destruct (Np q I (fun K => NE (eq_sym K)) Iq) as [K1 K2]. destruct Dq; contradiction.
    - destruct (Nq p I NE Ip) as [K1 K2]. destruct Dp; contradiction. }
  destruct r as [[p vs]|], r' as [[q vs']|]; cbn [finds].
  - intros (P1 & -> & P3 & P4) (Q1 & -> & Q3 & Q4). rewrite (HU p q) by auto. reflexivity.
  - intros (P1 & -> & P3 & P4) (q & Q1 & Q2 & Q3 & Q4). rewrite (HU p q) in P3 by auto. contradiction.
  - intros (p & P1 & P2 & P3 & P4) (Q1 & -> & Q3 & Q4). rewrite (HU p q) in P2 by auto. contradiction.
  - reflexivity.
Qed.
Print Assumptions C38_answer_unique.

Definition no_flags : flags := Flags false false false false false false None None.
Definition module_flags : flags := Flags true false false false false false None (Some "m"%string).
Definition always_flags : flags := Flags false false false false true false None None.
Definition lab (n : string) (t : scopetype) : label := Label n t None.
(** top (parameter P = 1) contains the block al (localparam P = 2, block if) and the instance u. *)
Definition scopes_history : list (act nat) :=
  [OpenScope _ (lab "top" STmodule) module_flags; AddConst _ "P" 1; AddConst _ "P" 7;
   OpenScope _ (lab "al" STalways) always_flags; AddConst _ "P" 2; OpenScope _ (lab "if0" STif) always_flags;
   MoveTo _ [lab "top" STmodule]; OpenScope _ (lab "u" STmodule) module_flags]%nat.
Definition in_if : chain := [lab "top" STmodule; lab "al" STalways; lab "if0" STif].
Example C38_hypotheses_met : exists s, run nat scopes_history (empty_table nat) = Ok s /\ Forall plain_act scopes_history /\ tops_are_modules scopes_history /\ opened scopes_history in_if always_flags /\
  searchConstantDefinition nat s in_if "P" = Ok (Some ([lab "top" STmodule; lab "al" STalways], [2%nat])) /\
  searchConstantDefinition nat s [lab "top" STmodule] "P" = Ok (Some ([lab "top" STmodule], [1%nat])) /\
  searchConstantDefinition nat s [lab "top" STmodule; lab "u" STmodule] "P" = Ok None.
Proof.
  eexists. split; [reflexivity|]. split; [repeat constructor; cbn; discriminate|]. split; [|split].
  - intros l fl (h1 & l' & h2 & E & Hc). destruct (current_after h1) as [|x [|y r]] eqn:EC; [|discriminate..].
    destruct h1 as [|a1 [|a2 [|a3 [|a4 [|a5 [|a6 [|a7 [|a8 h1]]]]]]]]; try discriminate E; cbn in E.
    + injection E as _ <-. reflexivity.
    + injection E as <- <- <- _ _. discriminate EC.
    + injection E as <- <- <- <- <- _ _. discriminate EC.
    + injection E as <- <- <- <- <- <- <- _ _. discriminate EC.
    + destruct h1; discriminate.
  - exists [OpenScope _ (lab "top" STmodule) module_flags; AddConst _ "P" 1; AddConst _ "P" 7; OpenScope _ (lab "al" STalways) always_flags; AddConst _ "P" 2]%nat, (lab "if0" STif). eexists. split; reflexivity.
  - repeat split; vm_compute; reflexivity.
Qed.

(** ** C39 *)
Theorem C39_labels_fresh_partial : forall names, Forall (fun n => ends_with_digit n = false) names -> NoDup (given [] names).
Proof. intros names H. apply given_fresh; [intros n; cbn; lia|exact H]. Qed.
Print Assumptions C39_labels_fresh_partial.
(** The names the visitors ask labels for, with the prefix of any scope. *)
Theorem C39_visitor_labels_fresh : forall names,
  Forall (fun n => exists fl base, n = (label_prefix fl ++ base)%string /\ In base ["always"; "if"; "for"; "while"; "generate"; "block"; "functioncall"; "taskcall"]%string) names ->
  NoDup (given [] names).
Proof.
  intros names H. apply C39_labels_fresh_partial. eapply Forall_impl; [|exact H]. intros n (fl & base & -> & Hb). destruct fl as [a b c d e f ai mn]. unfold label_prefix. cbn [fl_module fl_generate fl_always fl_initial fl_functioncall fl_taskcall].
  repeat (destruct Hb as [<-|Hb]; [destruct a, b, c, d, e, f; reflexivity|]). contradiction.
Qed.
Print Assumptions C39_visitor_labels_fresh.
Example C39_labels : given [] ["md_if"; "md_for"; "md_if"; "md_al_if"; "md_if"]%string = ["md_if0"; "md_for0"; "md_if1"; "md_al_if0"; "md_if2"]%string.
Proof. reflexivity. Qed.
(** Not for names that end with a digit: the second label for a1 is the twelfth for a. *)
Definition labels_fresh : Prop := forall names, NoDup (given [] names).
Theorem C39_labels_fresh_refuted : ~ labels_fresh.
Proof.
  intros H. specialize (H ["a1"; "a1"; "a"; "a"; "a"; "a"; "a"; "a"; "a"; "a"; "a"; "a"; "a"; "a"]%string). vm_compute in H.
  inversion H as [|? ? _ H1]; subst. inversion H1 as [|? ? K _]; subst. apply K. cbn. tauto.
Qed.
Print Assumptions C39_labels_fresh_refuted.

(** ** C40 *)
(** Nonblocking assignments: whatever happens in other blocks and to other signals, what is
    recorded in a block is the last assignment to each slice. *)
Theorem C40_nonblocking_recorded_partial : forall h w c d, Forall ordinary_event h -> all_happen no_assigns h = Ok w -> no_any c -> no_any d ->
  nested_free (nonblocking_to c d h) -> last_assignments (nonblocking_to c d h) (nonblocking_of w c d).
Proof.
  intros h w c d HE E Hc Hd HN. apply puts_from_nothing; [apply events_norm; auto|exact HN|].
  apply (all_happen_nonblocking h no_assigns [] w); auto. split; [apply owned_init|]. intros c' _. constructor.
Qed.
Print Assumptions C40_nonblocking_recorded_partial.
(** Blocking and nonblocking assignments, as long as no block passes its assignments on. *)
Theorem C40_assignments_recorded_partial : forall h, Forall ordinary_event h -> Forall no_end h ->
  exists w, all_happen no_assigns h = Ok w /\ forall c d, no_any c -> no_any d ->
    (nested_free (blocking_to c d h) -> last_assignments (blocking_to c d h) (blocking_of w c d)) /\
    (nested_free (nonblocking_to c d h) -> last_assignments (nonblocking_to c d h) (nonblocking_of w c d)).
Proof.
  intros h HE HN. destruct (all_happen_both h no_assigns [] (owned_init true) HE HN) as (w & E & HP).
  - intros [] c d _ _; constructor.
  - intros [] c d _ _; reflexivity.
  - exists w. split; [exact E|]. intros c d Hc Hd. split; intros HF; (apply puts_from_nothing; [apply events_norm; auto|exact HF|]); [exact (HP false c d Hc Hd)|exact (HP true c d Hc Hd)].
Qed.
Print Assumptions C40_assignments_recorded_partial.

Definition at_ (x : string) (m l t : string) : bind_ := Bind (L t) (sig x) (L m) (L l) DNone None "".
Definition blk (x : string) : chain := [lab "top" STmodule; lab x STalways].
Definition assigns_history : list event :=
  [Blocking (blk "a") (sig "q") (at_ "q" "7" "4" "1"); Nonblocking (blk "a") (sig "q") (at_ "q" "7" "4" "2"); Blocking (blk "b") (sig "q") (at_ "q" "7" "4" "3");
   Blocking (blk "a") (sig "q") (at_ "q" "3" "0" "4"); Blocking (blk "a") (sig "q") (at_ "q" "7" "4" "5")].
Example C40_hypotheses_met : Forall ordinary_event assigns_history /\ Forall no_end assigns_history /\ nested_free (blocking_to (blk "a") (sig "q") assigns_history) /\
  exists w, all_happen no_assigns assigns_history = Ok w /\ blocking_of w (blk "a") (sig "q") = [at_ "q" "7" "4" "5"; at_ "q" "3" "0" "4"] /\
    blocking_of w (blk "b") (sig "q") = [at_ "q" "7" "4" "3"] /\ nonblocking_of w (blk "a") (sig "q") = [at_ "q" "7" "4" "2"].
Proof.
  split; [repeat constructor; cbn; discriminate|]. split; [repeat constructor|]. split.
  - intros x y Hx Hy. vm_compute in Hx, Hy. destruct Hx as [<-|[<-|[<-|[]]]], Hy as [<-|[<-|[<-|[]]]]; cbn; congruence.
  - eexists. split; [vm_compute; reflexivity|]. vm_compute. auto.
Qed.

(** Without the side conditions. *)
Definition assignments_recorded : Prop := forall h w c d, Forall ordinary_event h -> Forall no_end h -> all_happen no_assigns h = Ok w -> no_any c -> no_any d -> last_assignments (blocking_to c d h) (blocking_of w c d).
Definition nested_history : list event := [Blocking (blk "a") (sig "q") (at_ "q" "7" "0" "1"); Blocking (blk "a") (sig "q") (at_ "q" "7" "4" "2")].
(** When block i inside o ends, its assignments are passed on to o; then o assigns again. *)
Definition shared_history : list event := [Blocking (blk "i") (sig "q") (at_ "q" "7" "0" "1"); EndBlock (blk "i") (blk "o"); Blocking (blk "o") (sig "q") (at_ "q" "7" "0" "2")].
Theorem C40_assignments_recorded_refuted :
  ~ assignments_recorded /\
  (* q[7:0] = 1; q[7:4] = 2; is recorded as q[7:0] = 2 *)
  (exists w, all_happen no_assigns nested_history = Ok w /\ blocking_of w (blk "a") (sig "q") = [at_ "q" "7" "0" "2"]) /\
  (* the assignment in o changes what was recorded in i *)
  (exists w, all_happen no_assigns shared_history = Ok w /\ blocking_of w (blk "i") (sig "q") = [at_ "q" "7" "0" "2"]).
Proof.
  assert (exists w, all_happen no_assigns nested_history = Ok w /\ blocking_of w (blk "a") (sig "q") = [at_ "q" "7" "0" "2"]) as HX by (eexists; split; vm_compute; reflexivity).
  split; [|split; [exact HX|eexists; split; vm_compute; reflexivity]].
  intros H. destruct HX as (w & E & R). destruct (H nested_history w (blk "a") (sig "q")) as (_ & _ & K); auto; try (repeat constructor; cbn; discriminate). rewrite R in K.
  destruct (K [at_ "q" "7" "0" "1"] (at_ "q" "7" "4" "2") []) as (r & [<-|[]] & S & _); [reflexivity|intros []|discriminate].
Qed.
Print Assumptions C40_assignments_recorded_refuted.
