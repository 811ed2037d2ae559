(** RngTreeProps.v - C71: range conditions as dataflow trees. *)
From Verif Require Import Base ScopeModel DfModel BindModel ActiveModel ActiveSpec ActiveProps RngModel RngSpec RngProps RngTreeModel RngTreeSpec.
Local Open Scope Z_scope.

Lemma true_le val n a : tree_true val (DOp [DEval (PInt a) (Some 32) false false; DTerm n] LessEq) <-> a <= val n.
Proof.
  split; [|intros H; eapply t_le; [constructor|constructor|exact H]].
  intros H. inversion H as [? ? x y H1 H2 H3| | | | |? ? H1]; subst; [|inversion H1]. inversion H1; inversion H2; subst. exact H3.
Qed.
Lemma true_ge val n a : tree_true val (DOp [DTerm n; DEval (PInt a) (Some 32) false false] GreaterEq) <-> a <= val n.
Proof.
  split; [|intros H; eapply t_ge; [constructor|constructor|exact H]].
  intros H. inversion H as [|? ? x y H1 H2 H3| | | |? ? H1]; subst; [|inversion H1]. inversion H1; inversion H2; subst. exact H3.
Qed.
Lemma true_and val a b : tree_true val (DOp [a; b] Land) <-> tree_true val a /\ tree_true val b.
Proof.
  split; [|intros [H1 H2]; now constructor].
  intros H. inversion H as [| |? ? H1 H2| | |? ? H1]; subst; [auto|inversion H1].
Qed.
Lemma true_or val a b : tree_true val (DOp [a; b] Lor) <-> tree_true val a \/ tree_true val b.
Proof.
  split; [|intros [H1|H1]; [now apply t_left|now apply t_right]].
  intros H. inversion H as [| | |? ? H1|? ? H1|? ? H1]; subst; [auto|auto|inversion H1].
Qed.
Lemma range_ok n r : fst r <> None -> exists t, range_tree n r = Ok t /\ t <> DNone /\ forall val, tree_true val t <-> above r (val n).
Proof.
  destruct r as [[a|] b]; cbn [fst snd]; [intros _|congruence]. unfold range_tree, above. cbn [fst snd bound_value]. destruct b as [b|].
  - exists (DOp [DOp [DEval (PInt a) (Some 32) false false; DTerm n] LessEq; DOp [DTerm n; DEval (PInt b) (Some 32) false false] GreaterEq] Land).
    split; [reflexivity|]. split; [discriminate|]. intros val. rewrite true_and, true_le, true_ge. split.
    + intros [H1 H2]. split; [now exists a|exact H2].
    + intros [(a' & [= <-] & H1) H2]. auto.
  - exists (DOp [DEval (PInt a) (Some 32) false false; DTerm n] LessEq). split; [reflexivity|]. split; [discriminate|]. intros val. rewrite true_le. split.
    + intros H1. split; [now exists a|exact Logic.I].
    + intros [(a' & [= <-] & H1) _]. auto.
Qed.
Lemma any_ok n l : Forall (fun r => fst r <> None) l -> forall acc, acc <> DNone ->
  exists t, any_tree n acc l = Ok t /\ t <> DNone /\ forall val, tree_true val t <-> tree_true val acc \/ exists r, In r l /\ above r (val n).
Proof.
  induction 1 as [|r l Hr Hl IH]; intros acc Ha; cbn [any_tree].
  - exists acc. split; [reflexivity|]. split; [exact Ha|]. intros val. split; [auto|intros [?|(r & [] & _)]; auto].
  - destruct (range_ok n r Hr) as (t & -> & Ht & K). cbn [bind].
    assert (is_none acc = false) as -> by (destruct acc; [congruence|reflexivity..]).
    assert (mkOp [acc; t] Lor = Ok (DOp [acc; t] Lor)) as ->.
    { unfold mkOp. cbn [existsb]. assert (is_none acc = false) as -> by (destruct acc; [congruence|reflexivity..]).
      assert (is_none t = false) as -> by (destruct t; [congruence|reflexivity..]). reflexivity. }
    cbn [bind]. destruct (IH (DOp [acc; t] Lor)) as (t' & -> & Ht' & K'); [discriminate|]. exists t'. split; [reflexivity|]. split; [exact Ht'|].
    intros val. rewrite K', true_or, K. split.
    + intros [[H|H]|(r' & H1 & H2)]; [auto|right; exists r; cbn; auto|right; exists r'; cbn; auto].
    + intros [H|(r' & [<-|H1] & H2)]; [auto|auto|right; exists r'; auto].
Qed.
Lemma term_ok t : given t -> exists x, term_tree t = Ok x /\ x <> DNone /\ forall val, tree_true val x <-> exists r, In r (a_ranges t) /\ above r (val (a_name t)).
Proof.
  intros [Hn Hr]. unfold term_tree. destruct (a_ranges t) as [|r l]; [congruence|]. inversion Hr as [|? ? H1 H2]; subst. cbn [any_tree].
  destruct (range_ok (a_name t) r H1) as (x & -> & Hx & K). cbn [bind is_none]. destruct (any_ok (a_name t) l H2 x Hx) as (y & -> & Hy & K').
  exists y. split; [reflexivity|]. split; [exact Hy|]. intros val. rewrite K', K. split.
  - intros [H|(r' & ? & ?)]; [exists r; cbn; auto|exists r'; cbn; auto].
  - intros (r' & [<-|?] & ?); [auto|right; exists r'; auto].
Qed.
Lemma all_ok d : Forall (fun p => given (snd p)) d -> forall acc, acc <> DNone ->
  exists x, all_tree acc d = Ok x /\ x <> DNone /\ forall val, tree_true val x <-> tree_true val acc /\ forall k t, In (k, t) d -> exists r, In r (a_ranges t) /\ above r (val (a_name t)).
Proof.
  induction 1 as [|[k t] d Ht Hd IH]; intros acc Ha; cbn [all_tree].
  - exists acc. split; [reflexivity|]. split; [exact Ha|]. intros val. split; [intros H; split; [exact H|intros ? ? []]|tauto].
  - cbn [snd] in Ht. destruct (term_ok t Ht) as (x & -> & Hx & K). cbn [bind].
    assert (is_none acc = false) as -> by (destruct acc; [congruence|reflexivity..]).
    assert (mkOp [acc; x] Land = Ok (DOp [acc; x] Land)) as ->.
    { unfold mkOp. cbn [existsb]. assert (is_none acc = false) as -> by (destruct acc; [congruence|reflexivity..]).
      assert (is_none x = false) as -> by (destruct x; [congruence|reflexivity..]). reflexivity. }
    cbn [bind]. destruct (IH (DOp [acc; x] Land)) as (y & -> & Hy & K'); [discriminate|]. exists y. split; [reflexivity|]. split; [exact Hy|].
    intros val. rewrite K', true_and, K. split.
    + intros [[H1 H2] H3]. split; [exact H1|]. intros k' t' [E|H]; [injection E as <- <-; exact H2|eauto].
    + intros [H1 H2]. split; [split; [exact H1|apply (H2 k t); now left]|]. intros k' t' H. apply (H2 k' t'). now right.
Qed.

(** C71 (exactly): the tree of a condition whose terms have ranges with lower bounds is true if the value of each signal has
    reached, for one of its ranges, the lower and - if there is one - also the upper bound. *)
Theorem C71_tree_partial : forall d : cond, (forall k t, In (k, t) d -> given t) ->
  exists x, cond_tree d = Ok x /\ forall val, tree_true val x <-> forall k t, In (k, t) d -> exists r, In r (a_ranges t) /\ above r (val (a_name t)).
Proof.
  intros d H. destruct d as [|[k t] d]; cbn [cond_tree].
  - eexists. split; [reflexivity|]. intros val. split; [intros _ k t []|]. intros _. eapply t_number; [constructor|discriminate].
  - cbn [all_tree]. destruct (term_ok t (H k t (or_introl eq_refl))) as (x & -> & Hx & K). cbn [bind is_none].
    destruct (all_ok d) with (acc := x) as (y & -> & _ & K'); [apply Forall_forall; intros [k' t'] Hp; exact (H k' t' (or_intror Hp))|exact Hx|].
    exists y. split; [reflexivity|]. intros val. rewrite K', K. split.
    + intros [H1 H2] k' t' [E|Hp]; [injection E as <- <-; exact H1|eauto].
    + intros H1. split; [apply (H1 k t); now left|]. intros k' t' Hp. apply (H1 k' t'). now right.
Qed.
Print Assumptions C71_tree_partial.
(** So it is the condition if no range has an upper bound. *)
Theorem C71_open_ranges_partial : forall d : cond, (forall k t, In (k, t) d -> given t /\ Forall (fun r => snd r = None) (a_ranges t)) ->
  exists x, cond_tree d = Ok x /\ forall val, tree_true val x <-> meets d val.
Proof.
  intros d H. destruct (C71_tree_partial d) as (x & E & K); [intros k t Hp; exact (proj1 (H k t Hp))|]. exists x. split; [exact E|].
  intros val. rewrite K. unfold meets. split; intros J k t Hp; specialize (J k t Hp); destruct (H k t Hp) as [[_ G] O]; rewrite Forall_forall in G, O.
  - destruct J as ([a b] & Hr & (a' & Ea & La) & _). exists (a, b). split; [exact Hr|]. pose proof (O _ Hr) as Eb. cbn [fst snd] in Ea, Eb. subst. split; [exact La|exact Logic.I].
  - destruct J as ([a b] & Hr & [La Lb]). exists (a, b). split; [exact Hr|]. pose proof (O _ Hr) as Eb. pose proof (G _ Hr) as Ga. cbn [fst snd] in *. subst b.
    destruct a as [a|]; [|congruence]. split; [exists a; split; [reflexivity|exact La]|exact Logic.I].
Qed.
Print Assumptions C71_open_ranges_partial.
Example C71_met : exists t x, asks [DTerm sa] t /\ given t /\ Forall (fun r => snd r = None) (a_ranges t) /\ cond_tree [(sa, t)] = Ok x /\
  tree_true (fun _ => 1) x /\ ~ tree_true (fun _ => 0) x.
Proof.
  exists (ATerm_ sa [(Some 1, None)] 0 15). exists (DOp [DEval (PInt 1) (Some 32) false false; DTerm sa] LessEq).
  split; [eexists _, _, _, _; split; [vm_compute; reflexivity|]; split; reflexivity|]. split; [split; [discriminate|constructor; [discriminate|constructor]]|].
  split; [constructor; [reflexivity|constructor]|]. split; [reflexivity|]. rewrite !true_le. lia.
Qed.

(** A range without a lower bound is not true of any value, whatever its upper bound; so a condition with a signal
    that has only such ranges is never true. *)
Lemma open_range n b t val : range_tree n (None, b) = Ok t -> ~ tree_true val t.
Proof.
  assert (F : ~ tree_true val (DOp [DEval PNone (Some 32) false false; DTerm n] LessEq)).
  { intros H. inversion H as [? ? x y H1 H2 H3| | | | |? ? H1]; subst; [|inversion H1]. inversion H1. }
  unfold range_tree. cbn [fst snd bound_value]. destruct b as [b|]; intros E; cbn in E; injection E as <-; [|exact F]. intros H. apply true_and in H as [H _]. exact (F H).
Qed.
Lemma open_any n val l : Forall (fun r => fst r = None) l -> forall acc x, any_tree n acc l = Ok x -> (is_none acc = true \/ ~ tree_true val acc) -> is_none x = true \/ ~ tree_true val x.
Proof.
  induction 1 as [|[a b] l Hr _ IH]; intros acc x E HA; cbn [any_tree] in E; [injection E as <-; exact HA|]. cbn [fst] in Hr. subst a.
  apply bind_ok in E as (t & E1 & E). pose proof (open_range n b t val E1) as Nt. apply bind_ok in E as (acc' & E2 & E). apply (IH acc' x E).
  right. destruct (is_none acc) eqn:Q; [injection E2 as <-; exact Nt|]. destruct HA as [HA|HA]; [discriminate|].
  unfold mkOp in E2. destruct (existsb is_none [acc; t]); [discriminate|]. injection E2 as <-. intros H. apply true_or in H as [H|H]; auto.
Qed.
Lemma open_all val d : forall acc x, all_tree acc d = Ok x -> is_none acc = false -> tree_true val x -> tree_true val acc /\ forall k t, In (k, t) d -> exists y, term_tree t = Ok y /\ is_none y = false /\ tree_true val y.
Proof.
  induction d as [|[k t] d IH]; intros acc x E HA H; cbn [all_tree] in E; [injection E as <-; split; [exact H|intros ? ? []]|].
  apply bind_ok in E as (y & E1 & E). apply bind_ok in E as (acc' & E2 & E). rewrite HA in E2. unfold mkOp in E2. destruct (existsb is_none [acc; y]) eqn:Q; [discriminate|]. injection E2 as <-.
  cbn [existsb] in Q. apply orb_false_iff in Q as [_ Q]. apply orb_false_iff in Q as [Q _].
  destruct (IH _ _ E eq_refl H) as [H1 H2]. apply true_and in H1 as [H0 H1]. split; [exact H0|]. intros k' t' [X|X]; [injection X as <- <-; eauto|eauto].
Qed.
Theorem C71_no_lower_bound : forall (d : cond) k t x val, In (k, t) d -> a_ranges t <> [] -> Forall (fun r => fst r = None) (a_ranges t) ->
  cond_tree d = Ok x -> ~ tree_true val x.
Proof.
  intros d k t x val Hd Hn Hr E H.
  assert (NT : forall y, term_tree t = Ok y -> is_none y = false -> tree_true val y -> False).
  { intros y Ey Ny Hy. destruct (open_any (a_name t) val _ Hr DNone y Ey (or_introl eq_refl)) as [C|C]; [congruence|exact (C Hy)]. }
  assert (NN : forall y, term_tree t = Ok y -> is_none y = false).
  { intros y Ey. unfold term_tree in Ey. destruct (a_ranges t) as [|[a b] l] eqn:Q; [congruence|]. inversion Hr as [|? ? Ha Hl]; subst. cbn [fst] in Ha. subst a. cbn [any_tree] in Ey.
    apply bind_ok in Ey as (r & E1 & Ey). cbn [is_none bind] in Ey.
    assert (Nr : is_none r = false) by (unfold range_tree in E1; cbn [fst snd bound_value] in E1; destruct b; cbn in E1; injection E1 as <-; reflexivity).
    clear -Ey Nr. revert r Ey Nr. induction l as [|r0 l IH]; intros r Ey Nr; cbn [any_tree] in Ey; [injection Ey as <-; exact Nr|]. apply bind_ok in Ey as (u & _ & Ey). rewrite Nr in Ey. apply bind_ok in Ey as (a & E2 & Ey).
    apply (IH a Ey). unfold mkOp in E2. destruct (existsb is_none [r; u]); [discriminate|]. now injection E2 as <-. }
  revert E Hd. unfold cond_tree. destruct d as [|p d]; [intros _ []|]. generalize (p :: d). clear p d. intros d.
  induction d as [|[k' t'] d IH]; intros E Hd; [destruct Hd|]. cbn [all_tree is_none] in E. apply bind_ok in E as (y & E1 & E). cbn [bind] in E.
  destruct Hd as [Q|Hd].
  - injection Q as -> ->. pose proof (NN y E1) as Ny. destruct (open_all val d y x E Ny H) as [Hy _]. exact (NT y E1 Ny Hy).
  - destruct (is_none y) eqn:Ny; [destruct y; try discriminate; exact (IH E Hd)|]. destruct (open_all val d y x E Ny H) as [_ HK]. destruct (HK k t Hd) as (z & Ez & Nz & Hz). exact (NT z Ez Nz Hz).
Qed.
Print Assumptions C71_no_lower_bound.
Example C71_no_lower_bound_met : exists x, cond_tree [(sb, ATerm_ sb [(Some 1, None)] 0 15); (sa, ATerm_ sa [(None, Some 4); (None, None)] 0 15)] = Ok x /\ x <> DNone.
Proof. eexists. split; [reflexivity|discriminate]. Qed.
(** C71 is false: upper bounds are compared the wrong way round. The tree reported for a < 5 is false for 0, which is
    less than 5, and true for 9. *)
Theorem C71_upper_bound_refuted : exists t x, asks [lt_ sa 5] t /\ given t /\ bounded t /\ cond_tree [(sa, t)] = Ok x /\
  meets [(sa, t)] (fun _ => 0) /\ ~ tree_true (fun _ => 0) x /\ ~ meets [(sa, t)] (fun _ => 9) /\ tree_true (fun _ => 9) x.
Proof.
  exists (ATerm_ sa [(Some 0, Some 4)] 0 15).
  destruct (C71_tree_partial [(sa, ATerm_ sa [(Some 0, Some 4)] 0 15)]) as (x & E & K).
  { intros k t [Hp|[]]. injection Hp as <- <-. split; [discriminate|constructor; [discriminate|constructor]]. }
  exists x. split; [eexists _, _, _, _; split; [vm_compute; reflexivity|]; split; reflexivity|].
  split; [split; [discriminate|constructor; [discriminate|constructor]]|]. split; [constructor; [split; discriminate|constructor]|]. split; [exact E|].
  split; [|split; [|split]].
  - intros k t [Hp|[]]. injection Hp as <- <-. exists (Some 0, Some 4). split; [now left|]. split; cbn; lia.
  - rewrite K. intros H. destruct (H sa _ (or_introl eq_refl)) as (r & [<-|[]] & _ & H2). cbn in H2. lia.
  - intros H. destruct (H sa _ (or_introl eq_refl)) as (r & [<-|[]] & _ & H2). cbn in H2. lia.
  - apply K. intros k t [Hp|[]]. injection Hp as <- <-. exists (Some 0, Some 4). split; [now left|]. split; [exists 0; cbn; split; [reflexivity|lia]|cbn; lia].
Qed.
Print Assumptions C71_upper_bound_refuted.
(** Signals without ranges, which no value satisfies, are dropped if they come first and end in an exception otherwise. *)
Theorem C71_no_range_refuted : exists t u x, asks [DOp [DOp [DTerm sa; TransProps.num 0] GreaterEq] Ulnot] t /\
  (forall val, ~ meets [(sa, t); (sb, u)] val) /\ cond_tree [(sa, t)] = Ok DNone /\
  cond_tree [(sa, t); (sb, u)] = Ok x /\ tree_true (fun _ => 1) x /\ cond_tree [(sb, u); (sa, t)] = Err DefinitionError.
Proof.
  exists (ATerm_ sa [] 0 15), (ATerm_ sb [(Some 1, None)] 0 15), (DOp [DEval (PInt 1) (Some 32) false false; DTerm sb] LessEq).
  split; [eexists _, _, _, _; split; [vm_compute; reflexivity|]; split; reflexivity|]. split; [|split; [reflexivity|split; [reflexivity|split; [|reflexivity]]]].
  - intros val H. destruct (H sa _ (or_introl eq_refl)) as (r & [] & _).
  - apply true_le. lia.
Qed.
Print Assumptions C71_no_range_refuted.
