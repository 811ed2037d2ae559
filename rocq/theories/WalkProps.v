(** WalkProps.v - C32, C33: expanding a signal into its definition. *)
From Coq Require Import Relations.
From Verif Require Import Base ScopeModel ScopeProofs DfModel DfSpec ReorderModel BindModel LitModel OptModel OptSpec OptProps ScopeSpec HierModel HierProps MergeModel WalkModel WalkSpec WalkProofs WalkProofs2 WalkProofs3 WalkFuel.
Local Open Scope Z_scope.

(** ** C32 *)
(** Whatever the definitions are (cyclic or not), expansions nest at most once per declared name
    and scope kind; beyond that bound the result no longer changes. *)
Theorem C32_expansion_terminates : forall terms combination tree_of, (forall n p, tree_of n p <> Err OutOfFuel) ->
  forall visited step msb lsb ptr t,
  walkTree terms combination tree_of visited step msb lsb ptr t <> Err OutOfFuel /\
  forall fuel, (length (known_names terms) <= fuel)%nat ->
    walk terms combination tree_of fuel visited step msb lsb ptr t = walkTree terms combination tree_of visited step msb lsb ptr t.
Proof.
  intros terms combination tree_of HT visited step msb lsb ptr t.
  assert (walkTree terms combination tree_of visited step msb lsb ptr t <> Err OutOfFuel) as K by (apply walk_total; [exact HT|apply fresh_bound]).
  split; [exact K|]. intros fuel HF. apply walk_more; [exact HF|exact K].
Qed.
Print Assumptions C32_expansion_terminates.
(** The definitions are those merged from any lists of assignments, with a simplifier that
    terminates. *)
Theorem C32_walkBind_terminates : forall terms binds resolved optimize optconst reorder_,
  (forall t, optimize t <> Err OutOfFuel) -> (forall t, optconst t <> Err OutOfFuel) -> (forall t, reorder_ t <> Err OutOfFuel) ->
  forall name step, walkBind terms (isCombination binds) (getTreePtr terms optimize optconst reorder_ resolved) name step <> Err OutOfFuel.
Proof.
  intros terms binds resolved optimize optconst reorder_ H1 H2 H3 name step. unfold walkBind. destruct (negb _); [discriminate|].
  apply nf_bind; [now apply nf_getTreePtr|]. intros t _. apply nf_bind; [|intros; apply nf_replaceUndefined]. apply walk_total; [intros; now apply nf_getTreePtr|apply fresh_bound].
Qed.
Print Assumptions C32_walkBind_terminates.

(** Designs for the examples: names top.x, the simplifier at its default level. *)
Definition nm (x : string) : chain := [Label "top" STmodule None; Label x STsignal None].
Definition S_ (x : string) : df := DTerm (nm x).
Definition decl (x : string) (ty : list string) (m l : string) : chain * term := (nm x, Term (nm x) ty (L m) (L l) None).
Definition assign (x : string) (t : df) : chain * list bind_ := (nm x, [Bind t (nm x) DNone DNone DNone None "assign"]).
Definition clock : alwaysinfo := Always (CName (nm "clk")) (Some "posedge"%string) 0 CEmpty None 0.
Definition clocked_assign (x : string) (t : df) : chain * list bind_ := (nm x, [Bind t (nm x) DNone DNone DNone (Some clock) ""]).
Definition simp (ts : ndict term) (t : df) : res df := do u <- optC (OptEnv ts []) 9 t; optH (OptEnv ts []) log2z key 9 u.
Definition defs (ts : ndict term) (bs : ndict (list bind_)) : chain -> df -> res df := getTreePtr ts (simp ts) (optC (OptEnv ts []) 9) (reorder 9) bs.
Definition expanded (ts : ndict term) (bs : ndict (list bind_)) (x : string) (step : Z) : res df := walkBind ts (isCombination bs) (defs ts bs) x step.

(** A combinational and a sequential cycle. *)
Definition loop_terms : ndict term := [decl "a" ["Wire"%string] "7" "0"; decl "b" ["Wire"%string] "7" "0"; decl "q" ["Reg"%string] "7" "0"].
Definition loop_binds : ndict (list bind_) := [assign "a" (S_ "b"); assign "b" (DOp [S_ "a"; S_ "q"] And); clocked_assign "q" (DOp [S_ "q"] Unot)].
Example C32_cycles : expanded loop_terms loop_binds "top.a" 0 = Ok (DOp [S_ "b"; S_ "q"] And) /\
  expanded loop_terms loop_binds "top.a" 5 = Ok (DOp [S_ "b"; DOp [S_ "q"] Unot] And).
Proof. split; vm_compute; reflexivity. Qed.

(** ** C33 *)
(** The expanded tree has the value and the width of the original, for every valuation that
    satisfies the combinational definitions. The full claim, without the conditions in
    [complete] (nothing missing) and [declared] (vectors numbered from 0), is false: see below. *)
Theorem C33_values_preserved_partial : forall u terms combination tree_of rho fuel visited t t',
  declared terms rho -> consistent u terms combination tree_of rho -> complete u rho t ->
  walk terms combination tree_of fuel visited 0 DNone DNone DNone t = Ok t' ->
  value rho t' = value rho t /\ width rho t' = width rho t.
Proof.
  intros u terms combination tree_of rho fuel visited t t' HD HC HT H. destruct (proj1 (walk_values u terms combination tree_of rho HD HC fuel _ _ _ _ _ _ H) HT) as [_ K]. unfold value, width. now rewrite K.
Qed.
Print Assumptions C33_values_preserved_partial.
(** A whole signal; where its own definition assigns nothing it keeps its value. *)
Theorem C33_signal_preserved_partial : forall terms combination tree_of rho name d t,
  let n := toTermname_str name in
  declared terms rho -> consistent false terms combination tree_of rho ->
  tree_of n DNone = Ok d -> complete false rho (keeping n d) -> ev rho (keeping n d) = ev rho (DTerm n) ->
  walkBind terms combination tree_of name 0 = Ok t -> value rho t = Some (e_val rho n) /\ width rho t = Some (e_wid rho n).
Proof.
  intros terms combination tree_of rho name d t n HD HC Hd HK HE H. unfold walkBind in H. fold n in H. destruct (negb _); [discriminate|]. rewrite Hd in H. apply bind_ok in H as (d' & E & H). injection E as <-. apply bind_ok in H as (w & HW & HR).
  destruct (keeping_walk terms combination tree_of rho _ _ n HD HC _ _ _ _ _ _ HK HW HR) as [_ K]. unfold value, width. rewrite K, HE. split; reflexivity.
Qed.
Print Assumptions C33_signal_preserved_partial.
(** What is left in an expanded tree, at any step: inputs of the top module, clocked registers,
    arrays, and signals on a loop. *)
Theorem C33_only_sources_left : forall terms combination tree_of fuel step t t',
  walk terms combination tree_of fuel [] step DNone DNone DNone t = Ok t' ->
  forall n, In n (signals t') ->
  (exists tm, dget terms n = Some tm /\ (top_input n tm \/ clocked combination n tm \/ t_dims tm <> None)) \/ loops tree_of n.
Proof.
  intros terms combination tree_of fuel step t t' H n Hn. destruct (walk_leaves _ _ _ _ _ _ _ _ _ _ _ H n Hn) as [[K|K] _]; [discriminate K|exact K].
Qed.
Print Assumptions C33_only_sources_left.

(** A design: inputs a, b, register q, c = a & b, d = c[3:0], e = {d, q[7:4]}. *)
Definition ex_terms : ndict term :=
  [decl "a" ["Input"%string] "7" "0"; decl "b" ["Input"%string] "7" "0"; decl "q" ["Reg"%string] "7" "0";
   decl "c" ["Wire"%string] "7" "0"; decl "d" ["Wire"%string] "3" "0"; decl "e" ["Wire"%string] "7" "0"].
Definition slice (x : string) (m l : Z) : df := DPart (S_ x) (pint m) (pint l).
Definition ex_binds : ndict (list bind_) :=
  [assign "c" (DOp [S_ "a"; S_ "b"] And); assign "d" (slice "c" 3 0); assign "e" (DConcat [S_ "d"; slice "q" 7 4]); clocked_assign "q" (S_ "e")].
Definition ex_val (a b q : Z) (x : string) : Z :=
  let c := Z.land a b in let d := low c 4 in let e := cat [(d, 4); (low (q / 2 ^ 4) 4, 4)] 0 in
  if String.eqb x "a" then a else if String.eqb x "b" then b else if String.eqb x "q" then q else
  if String.eqb x "c" then c else if String.eqb x "d" then d else e.
Definition local (n : chain) : string := match map sname n with [_; x] => x | _ => "" end.
Definition ex_rho (a b q : Z) : venv :=
  VEnv (fun n => ex_val a b q (local n)) (fun n => if String.eqb (local n) "d" then 4 else 8) (fun _ => false) (fun _ _ => 0) (fun _ _ => 0).
Lemma nm_local x n : chain_eq (nm x) n = true -> local n = x /\ length n = 2%nat.
Proof.
  intros H. apply chain_eq_agree in H. apply agree_path in H. unfold path in H. destruct n as [|l1 [|l2 [|l3 r]]]; cbn in H; try discriminate. injection H as _ _ H _. split; [exact (eq_sym H)|reflexivity].
Qed.
Lemma ex_declared a b q : declared ex_terms (ex_rho a b q).
Proof.
  split.
  - intros n t H. apply dget_in in H as (k & H & _). split; [discriminate|]. intros K. exfalso. apply K. cbn in H. repeat (destruct H as [H|H]; [injection H as <- <-; reflexivity|]). destruct H.
  - reflexivity.
  - intros n t s H E. cbn in H. repeat (destruct H as [H|H]; [injection H as <- <-; injection E as <-; reflexivity|]). destruct H.
  - intros n t v w x y H E. cbn in H. repeat (destruct H as [H|H]; [injection H as <- <-; discriminate E|]). destruct H.
Qed.
Definition ex_defs := defs ex_terms ex_binds.
Lemma ex_consistent u a b q : consistent u ex_terms (isCombination ex_binds) ex_defs (ex_rho a b q).
Proof.
  split.
  - intros n t d H HD HI HC H'. unfold ex_defs, defs, getTreePtr, getTerm in H'. rewrite H in H'. unfold ex_terms in H at 1. cbn [dget fst decl] in H.
    assert (forall x, chain_eq (nm x) n = true -> local n = x /\ length n = 2%nat) as HL by (intros; now apply nm_local).
    destruct (chain_eq (nm "a") n) eqn:Ea; [injection H as <-; exfalso; apply HI; split; [now apply (HL "a"%string)|left; reflexivity]|].
    destruct (chain_eq (nm "b") n) eqn:Eb; [injection H as <-; exfalso; apply HI; split; [now apply (HL "b"%string)|left; reflexivity]|].
    destruct (chain_eq (nm "q") n) eqn:Eq.
    { injection H as <-. exfalso. apply HC. split; [left; reflexivity|]. split; [|intros [K|[]]; discriminate K]. unfold isCombination. cbn [ex_binds dget fst assign clocked_assign]. destruct (HL _ Eq) as [E _].
      destruct (chain_eq (nm "c") n) eqn:E1; [apply HL in E1 as [E1 _]; congruence|]. destruct (chain_eq (nm "d") n) eqn:E2; [apply HL in E2 as [E2 _]; congruence|]. destruct (chain_eq (nm "e") n) eqn:E3; [apply HL in E3 as [E3 _]; congruence|]. rewrite Eq. reflexivity. }
    destruct (chain_eq (nm "c") n) eqn:Ec.
    { injection H as <-. assert (dget ex_binds n = Some [Bind (DOp [S_ "a"; S_ "b"] And) (nm "c") DNone DNone DNone None "assign"]) as K by (cbn [ex_binds dget fst assign]; rewrite Ec; reflexivity).
      rewrite K in H'. vm_compute in H'. injection H' as <-. destruct (HL _ Ec) as [E _]. split; [cbn; auto|]. cbn [ev ex_rho e_val e_wid]. rewrite E. reflexivity. }
    destruct (chain_eq (nm "d") n) eqn:Ed.
    { injection H as <-. assert (dget ex_binds n = Some [Bind (slice "c" 3 0) (nm "d") DNone DNone DNone None "assign"]) as K by (cbn [ex_binds dget fst assign]; rewrite Ec, Ed; reflexivity).
      rewrite K in H'. vm_compute in H'. injection H' as <-. destruct (HL _ Ed) as [E _]. split; [cbn [complete]; repeat split; auto; exists 3, 0, 8; repeat split; auto; lia|]. cbn [ev ex_rho e_val e_wid]. rewrite E. cbn [ev fst obind]. unfold ex_val. cbn -[low Z.land]. now rewrite Z.div_1_r. }
    destruct (chain_eq (nm "e") n) eqn:Ee; [|discriminate].
    injection H as <-. assert (dget ex_binds n = Some [Bind (DConcat [S_ "d"; slice "q" 7 4]) (nm "e") DNone DNone DNone None "assign"]) as K by (cbn [ex_binds dget fst assign]; rewrite Ec, Ed, Ee; reflexivity).
    rewrite K in H'. vm_compute in H'. injection H' as <-. destruct (HL _ Ee) as [E _]. split; [cbn [complete fold_right map]; repeat split; auto; exists 7, 4, 8; repeat split; auto; lia|]. cbn [ev ex_rho e_val e_wid]. rewrite E. reflexivity.
  - intros n t p d H HD. exfalso. apply HD. apply dget_in in H as (k & H & _). cbn in H. repeat (destruct H as [H|H]; [injection H as <- <-; reflexivity|]). destruct H.
Qed.
(** e is expanded to {(a & b)[3:0], q[7:4]} *)
Example C33_hypotheses_met : forall a b q, let rho := ex_rho a b q in let n := toTermname_str "top.e" in
  declared ex_terms rho /\ consistent false ex_terms (isCombination ex_binds) ex_defs rho /\
  complete false rho (S_ "e") /\ walkTree ex_terms (isCombination ex_binds) ex_defs [] 0 DNone DNone DNone (S_ "e") = Ok (DConcat [DPart (DOp [S_ "a"; S_ "b"] And) (pint 3) (pint 0); slice "q" 7 4]) /\
  (exists d, ex_defs n DNone = Ok d /\ complete false rho (keeping n d) /\ ev rho (keeping n d) = ev rho (DTerm n)) /\
  expanded ex_terms ex_binds "top.e" 0 = Ok (DConcat [DPart (DOp [S_ "a"; S_ "b"] And) (pint 3) (pint 0); slice "q" 7 4]).
Proof.
  intros a b q rho n. split; [apply ex_declared|]. split; [apply ex_consistent|]. split; [reflexivity|]. split; [vm_compute; reflexivity|]. split; [|vm_compute; reflexivity].
  eexists. split; [vm_compute; reflexivity|]. split; [cbn [keeping complete fold_right map]; repeat split; auto; exists 7, 4, 8; repeat split; auto; lia|reflexivity].
Qed.

(** *** What goes wrong *)
(** The full claim for whole signals: every definition holds, a signal keeping its value where
    it is not assigned. *)
Definition signals_preserved : Prop := forall terms combination tree_of rho name t,
  declared terms rho ->
  (forall n tm d, dget terms n = Some tm -> ~ top_input n tm -> ~ clocked combination n tm -> tree_of n DNone = Ok d ->
     complete false rho (keeping n d) /\ ev rho (keeping n d) = ev rho (DTerm n)) ->
  walkBind terms combination tree_of name 0 = Ok t -> value rho t = Some (e_val rho (toTermname_str name)).
(** always @* if(c) b = d;  assign a = !b;  The expansion of a is !(c ? d : a), with a where b is meant. *)
Definition latch_terms : ndict term := [decl "c" ["Input"%string] "0" "0"; decl "d" ["Input"%string] "0" "0"; decl "b" ["Reg"%string] "0" "0"; decl "a" ["Wire"%string] "0" "0"].
Definition latch_binds : ndict (list bind_) := [assign "b" (DBranch (S_ "c") (S_ "d") DNone); assign "a" (DOp [S_ "b"] Ulnot)].
Definition latch_rho : venv := VEnv (fun n => if String.eqb (local n) "b" then 1 else 0) (fun n => 1) (fun _ => false) (fun _ _ => 0) (fun _ _ => 0).
Theorem C33_nested_hold_refuted : ~ signals_preserved /\
  expanded latch_terms latch_binds "top.a" 0 = Ok (DOp [DBranch (S_ "c") (S_ "d") (DTerm (toTermname_str "top.a"))] Ulnot).
Proof.
  assert (expanded latch_terms latch_binds "top.a" 0 = Ok (DOp [DBranch (S_ "c") (S_ "d") (DTerm (toTermname_str "top.a"))] Ulnot)) as K by (vm_compute; reflexivity).
  split; [|exact K]. intros H. specialize (H latch_terms (isCombination latch_binds) (defs latch_terms latch_binds) latch_rho "top.a"%string (DOp [DBranch (S_ "c") (S_ "d") (DTerm (toTermname_str "top.a"))] Ulnot)). assert (Some 1 = Some 0); [|discriminate]. refine (eq_trans _ (H _ _ K)); [reflexivity| |]; clear.
  - split; [intros n t H; split; [discriminate|intros K; exfalso; apply K; apply dget_in in H as (k & H & _); cbn in H; repeat (destruct H as [H|H]; [injection H as <- <-; reflexivity|]); destruct H]|reflexivity| |];
      intros n t *; intros H E; cbn in H; repeat (destruct H as [H|H]; [injection H as <- <-; first [discriminate E|injection E as <-; reflexivity]|]); destruct H.
  - intros n t d H HI HC H'. unfold defs, getTreePtr, getTerm in H'. rewrite H in H'. unfold latch_terms in H at 1. cbn [dget fst decl] in H.
    assert (forall x, chain_eq (nm x) n = true -> local n = x /\ length n = 2%nat) as HL by (intros; now apply nm_local).
    destruct (chain_eq (nm "c") n) eqn:Ea; [injection H as <-; exfalso; apply HI; split; [now apply (HL "c"%string)|left; reflexivity]|].
    destruct (chain_eq (nm "d") n) eqn:Eb; [injection H as <-; exfalso; apply HI; split; [now apply (HL "d"%string)|left; reflexivity]|].
    destruct (chain_eq (nm "b") n) eqn:Ec.
    { injection H as <-. assert (dget latch_binds n = Some [Bind (DBranch (S_ "c") (S_ "d") DNone) (nm "b") DNone DNone DNone None "assign"]) as K by (cbn [latch_binds dget fst assign]; rewrite Ec; reflexivity).
      rewrite K in H'. vm_compute in H'. injection H' as <-. destruct (HL _ Ec) as [E _]. split; [cbn; auto|]. cbn [keeping ev latch_rho e_val e_wid]. rewrite E. reflexivity. }
    destruct (chain_eq (nm "a") n) eqn:Ed; [|discriminate].
    injection H as <-. assert (dget latch_binds n = Some [Bind (DOp [S_ "b"] Ulnot) (nm "a") DNone DNone DNone None "assign"]) as K by (cbn [latch_binds dget fst assign]; rewrite Ec, Ed; reflexivity).
    rewrite K in H'. vm_compute in H'. injection H' as <-. destruct (HL _ Ed) as [E _]. split; [cbn; auto|]. cbn [keeping ev latch_rho e_val e_wid]. rewrite E. reflexivity.
Qed.
Print Assumptions C33_nested_hold_refuted.
(** A signal without driver is replaced by the signal that is expanded: assign a = !n; gives !a. *)
Theorem C33_undriven_refuted : expanded [decl "a" ["Wire"%string] "0" "0"; decl "n" ["Wire"%string] "0" "0"] [assign "a" (DOp [S_ "n"] Ulnot)] "top.a" 0 = Ok (DOp [DTerm (toTermname_str "top.a")] Ulnot).
Proof. vm_compute. reflexivity. Qed.
Print Assumptions C33_undriven_refuted.
(** Vectors numbered from another bit: wire [7:4] n; assign n = a; and n[5:4] gives a[5:4], although a is [3:0]. *)
Theorem C33_offset_refuted : forall bs, bs = [assign "n" (S_ "a"); assign "x" (slice "n" 5 4)] ->
  expanded [decl "a" ["Input"%string] "3" "0"; decl "n" ["Wire"%string] "7" "4"; decl "x" ["Wire"%string] "1" "0"] bs "top.x" 0 = Ok (slice "a" 5 4).
Proof. intros bs ->. vm_compute. reflexivity. Qed.
Print Assumptions C33_offset_refuted.
(** Widths: wire [7:0] n; assign n = s; (one bit) and {a, n} gives {a, s}: 9 bits instead of 16. *)
Theorem C33_width_refuted : exists t, expanded [decl "a" ["Input"%string] "7" "0"; decl "s" ["Input"%string] "0" "0"; decl "n" ["Wire"%string] "7" "0"; decl "x" ["Wire"%string] "15" "0"]
    [assign "n" (S_ "s"); assign "x" (DConcat [S_ "a"; S_ "n"])] "top.x" 0 = Ok t /\
  let rho := VEnv (fun n => 1) (fun n => if String.eqb (local n) "s" then 1 else 8) (fun _ => false) (fun _ _ => 0) (fun _ _ => 0) in
  value rho (S_ "n") = value rho (S_ "s") /\ value rho (DConcat [S_ "a"; S_ "n"]) = Some 257 /\ value rho t = Some 3.
Proof. eexists. split; [vm_compute; reflexivity|]. repeat split. Qed.
Print Assumptions C33_width_refuted.
(** An element of an array that is assigned in slices becomes an empty concatenation. *)
Theorem C33_array_slices_refuted :
  let ts := [decl "x" ["Input"%string] "7" "0"; (nm "m", Term (nm "m") ["Wire"%string] (L "7") (L "0") (Some [(L "0", L "3")])); decl "y" ["Wire"%string] "7" "0"] in
  let half m l := Bind (slice "x" m l) (nm "m") (pint m) (pint l) (pint 1) None "assign" in
  array_tree ts (simp ts) (nm "m") [half 7 4; half 3 0] (pint 1) = Ok (DConcat []).
Proof. vm_compute. reflexivity. Qed.
Print Assumptions C33_array_slices_refuted.
