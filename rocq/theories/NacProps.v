(** NacProps.v - C76. *)
From Verif Require Import Base ScopeModel ScopeSpec ScopeProofs DfModel DfSpec DfProofs ReorderModel ReorderSpec ReorderProofs BindModel BindSpec BindProofs AccSpec AccProofs AsgModel AsgSpec AsgProofs AsgProofs4 AsgProps BacProofs NacSpec NacProofs.
Local Open Scope list_scope.

(** C76: the analysis of every legal always block of nonblocking assignments ends with one result, the same for all recursion depths that are
    large enough; no signal is added, and what is recorded fits the next block. *)
Theorem C76_blocks_accepted_partial : forall ai s x, tidy s -> names_plain s -> legal_nonblocking x ->
  exists s' k0, (forall k, k0 <= k -> visit_always k ai s x = Ok s') /\ s_terms s' = s_terms s /\ tidy s' /\ names_plain s'.
Proof. intros ai s x H1 H2 H3. destruct (always_goes ai s x H1 H2 H3) as (s' & [k0 A] & [F1 F2 F3]). exists s', k0. auto. Qed.
Print Assumptions C76_blocks_accepted_partial.

(** What getTree makes of an expression is an expression (so the trees in a block are, before and after this step). *)
Theorem C76_expressions_sorted : forall t, expression t = true -> exists t' k0, (forall k, k0 <= k -> reorder k t = Ok t') /\ expression t' = true.
Proof. intros t H. rewrite expression_well in H. destruct (reorder_well t H) as (t' & [k0 A] & W & _). exists t', k0. split; [exact A|]. now rewrite expression_well. Qed.
Print Assumptions C76_expressions_sorted.

(** The always blocks of a module, one after the other. *)
Fixpoint always_blocks (k : nat) (s : store) (l : list (option alwaysinfo * stmt)) : res store :=
  match l with [] => Ok s | (ai, x) :: r => do s' <- visit_always k ai s x; always_blocks k s' r end.
Theorem C76_all_blocks_accepted_partial : forall l s, tidy s -> names_plain s -> Forall (fun b => legal_nonblocking (snd b)) l ->
  exists s' k0, (forall k, k0 <= k -> always_blocks k s l = Ok s') /\ s_terms s' = s_terms s.
Proof.
  intros l s H1 H2 HL. assert (K : exists s', arrives (fun k => always_blocks k s l) s' /\ s_terms s' = s_terms s).
  { revert s H1 H2. induction HL as [|[ai x] l Hx _ IH]; intros s H1 H2; cbn [always_blocks]; [exists s; split; [apply arrives_const|reflexivity]|]. cbn [snd] in Hx.
    destruct (always_goes ai s x H1 H2 Hx) as (s1 & A & [F1 F2 F3]). destruct (IH s1 F1 F2) as (s2 & A2 & E2). exists s2. split; [|congruence]. refine (arrives_bind _ _ _ _ A _). exact A2. }
  destruct K as (s' & [k0 A] & E). exists s', k0. auto.
Qed.
Print Assumptions C76_all_blocks_accepted_partial.

(** The result is right, without supposing that there is one: in the blocks in the scope of C51 every assigned target has a tree with the value that
    executing the block schedules for it. *)
Theorem C76_blocks_right_partial : forall ai s x, tidy s -> names_plain s -> legal_nonblocking x ->
  exists s' k0, (forall k, k0 <= k -> visit_always k ai s x = Ok s') /\
    forall I q, sane I -> no_any (q_name q) -> fresh s q -> wf q x -> supported q x ->
      (assigns q x = true -> exists t, has_tree s' q t) /\ forall t, has_tree s' q t -> eval I t = exec I q x (i_none I).
Proof.
  intros ai s x H1 H2 H3. destruct (always_goes ai s x H1 H2 H3) as (s' & [k0 A] & _). exists s', k0. split; [exact A|]. intros I q HI Hq Hf Hw Hs.
  exact (C51_always_tree_exact_partial I q k0 ai s x s' HI Hq Hf Hw Hs (A k0 (le_n _))).
Qed.
Print Assumptions C76_blocks_right_partial.

(** ** Where the full property fails *)
Local Open Scope string_scope.
(** if (c) ; else q <= 1; is legal Verilog; the code adds a text to None. *)
Theorem C76_empty_then_refuted : forall k ai s, visit_always k ai s (SIf (w51 "c") None (Some (SNon [d51 "q"] (DInt "1")))) = Err TypeError.
Proof. intros k ai s. reflexivity. Qed.
Print Assumptions C76_empty_then_refuted.
(** q <= a[(c ? 1 : 2):0]; ends in NameError. *)
Theorem C76_conditional_bound_refuted : forall k, 3 <= k ->
  visit_always k None empty_store (SNon [d51 "q"] (DPart (w51 "a") (DBranch (w51 "c") (DInt "1") (DInt "2")) (DInt "0"))) = Err NameError.
Proof. intros k H. do 3 (destruct k as [|k]; [lia|]). reflexivity. Qed.
Print Assumptions C76_conditional_bound_refuted.

(** ** Examples *)
(** A block out of the scope of C51 too: a conditional operator in a condition, a concatenation of a word of a memory and a part of a register on the
    left, nested ifs after default values, a case without default, a part select and an index in values. *)
Definition x76 : stmt :=
  SIf (DBranch (w51 "rst") (w51 "a") (DOp [w51 "b"; w51 "c"] Land)) (Some (SBlock [SNon [d51 "q"] (DInt "0")]))
    (Some (SBlock [SNon [d51 "q"] (DBranch (w51 "a") (w51 "d") (DPart (w51 "x") (DInt "3") (DInt "1")));
                   SNon [Dest (g51 "m") DNone DNone (w51 "x") (DInt "2") (DInt "1"); Dest (g51 "r") (DInt "1") (DInt "1") DNone (DInt "0") (DInt "0")] (DConcat [w51 "a"; DPtr (w51 "m") (w51 "d")]);
                   SIf (w51 "a") (Some (SBlock [SIf (w51 "b") (Some (SNon [d51 "q"] (DInt "1"))) None; SIf (w51 "c") (Some (SNon [Dest (g51 "m") DNone DNone (w51 "x") DNone DNone] (w51 "q"))) (Some (SBlock []))])) None;
                   SCase (w51 "x") [(Some [DInt "1"; DInt "2"], Some (SNon [d51 "q"] (w51 "d"))); (Some [DInt "3"], None)]])).
Ltac legal76 :=
  repeat first [ apply Forall_nil | apply Forall_cons | reflexivity
               | match goal with
                 | |- legal_nonblocking (SNon _ _) => apply legal_non
                 | |- legal_nonblocking (SBlock _) => apply legal_begin
                 | |- legal_nonblocking (SIf _ _ _) => apply legal_sif; [|discriminate| |]
                 | |- legal_nonblocking (SCase _ _) => apply legal_scase
                 | |- forall y, Some _ = Some y -> _ => intros ? [= <-]
                 | |- forall y, None = Some y -> _ => discriminate
                 | |- (forall y, _) /\ _ => split
                 | |- _ :: _ <> [] /\ _ => split; [discriminate|]
                 | |- legal_dest _ _ => split; [repeat constructor; discriminate|split; [|split; [|split]]]
                 | |- bound (d_msb _) => first [left; reflexivity | right; reflexivity]
                 | |- bound (d_lsb _) => first [left; reflexivity | right; reflexivity]
                 | |- bound (d_ptr _) => first [left; reflexivity | right; reflexivity]
                 | |- _ = true -> rigid _ /\ _ => first [discriminate | intros _; split; reflexivity]
                 end; cbn [fst snd] ].
Example C76_hypotheses_met : tidy empty_store /\ names_plain empty_store /\ legal_nonblocking x76 /\
  match visit_always 30 None empty_store x76 with Ok s' => length (s_binds s') = 3 | Err _ => False end.
Proof. split; [constructor|]. split; [constructor|]. split; [unfold x76; legal76|vm_compute; reflexivity]. Qed.
(** The block of C51's example is legal, so its tree is right whatever the values. *)
Example C76_right_hypotheses_met : legal_nonblocking x51 /\ wf (q51 "q") x51 /\ supported (q51 "q") x51 /\ assigns (q51 "q") x51 = true.
Proof. split; [unfold x51; legal76|]. split; [wf51|]. split; [vm_compute; discriminate|reflexivity]. Qed.
