(** BacProps.v - C75. *)
From Verif Require Import Base ScopeModel ScopeSpec ScopeProofs DfModel DfSpec DfProofs ReorderModel ReorderSpec ReorderProofs BindModel BindSpec BindProofs AsgModel AsgSpec AsgProofs AccSpec AccProofs BlkModel BlkSpec BlkProofs BlkProofs2 BlkProofs4 BlkProps BacSpec BacProofs BacProofs2 BacProofs3.
Local Open Scope list_scope.

Lemma legal_assigned asg array s x : legal_stmt asg array s x -> forall n, bassigns x n = true -> In n (bs_terms s) /\ n <> [] /\ dget (bs_trees s) n = None.
Proof.
  induction x as [m e|l IH|c t e IHt IHe|comp items IH] using bstmt_ind'; intros HL n H; cbn [bassigns] in H.
  - inversion HL; subst. unfold same_name in H. destruct (chain_dec m n) as [<-|]; [auto|discriminate].
  - inversion HL as [|? HL'| |]; subst. apply existsb_exists in H as (y & Hy & H). rewrite Forall_forall in IH, HL'. exact (IH y Hy (HL' y Hy) n H).
  - inversion HL as [| |? ? ? _ _ Lt Le|]; subst. apply orb_true_iff in H as [H|H]; [destruct t as [y|]; [exact (IHt y eq_refl (Lt y eq_refl) n H)|discriminate]|destruct e as [y|]; [exact (IHe y eq_refl (Le y eq_refl) n H)|discriminate]].
  - inversion HL as [| | |? ? _ Li]; subst. apply existsb_exists in H as ([g y] & Hy & H). cbn [snd] in H. destruct y as [y|]; [|discriminate]. rewrite Forall_forall in IH, Li. exact (IH _ Hy y eq_refl (proj2 (Li _ Hy) y eq_refl) n H).
Qed.
Lemma legal_arrives array s x : bst_ok s -> (0 <= bs_cnt s)%Z -> legal_block array s x -> exists s', arrives (fun k => bvisit_always k array s x) s'.
Proof.
  intros [B1 B2] Hc HL. pose proof (legal_assigned _ _ _ _ HL) as LA.
  assert (S0 : st_ok (bassigns x) s s).
  { constructor; auto; [eapply Forall_impl; [|exact B2]; intros p (K & _); exact K|apply incl_refl|]. intros n Hn. destruct (LA n Hn) as (_ & _ & E). unfold tree_of. rewrite E. reflexivity. }
  destruct (visit_goes (bassigns x) array s B1 (fun n H => conj (proj1 (LA n H)) (proj1 (proj2 (LA n H)))) x HL (fun n H => H) s None [] [] S0) as ([s' t'] & A & _ & _); [constructor; [split; [constructor|exact Logic.I]|constructor]|].
  exists s'. unfold bvisit_always. refine (arrives_bind _ _ _ _ A _). exact (arrives_const _).
Qed.

(** C75: the analysis of every legal always block ends with one result, the same for all recursion depths that are large enough. *)
Theorem C75_blocks_accepted_partial : forall array s x, bst_ok s -> (0 <= bs_cnt s)%Z -> legal_block array s x ->
  exists s' k0, forall k, k0 <= k -> bvisit_always k array s x = Ok s'.
Proof. intros array s x H1 H2 H3. destruct (legal_arrives array s x H1 H2 H3) as (s' & k0 & A). exists s', k0. exact A. Qed.
Print Assumptions C75_blocks_accepted_partial.

(** The result is right, without supposing that there is one: whatever the values of the signals, values for the added signals fit their trees, and
    with them, in blocks in the scope of C55, the tree of every assigned signal has the value after the block is executed. *)
Theorem C75_blocks_right_partial : forall array s x, bst_ok s -> (0 <= bs_cnt s)%Z -> legal_block array s x -> bwf s array x -> bsupported x ->
  exists s' k0, (forall k, k0 <= k -> bvisit_always k array s x = Ok s') /\
    forall I, ops_sane I -> exists f, (forall n, In n (bs_terms s) -> f n = i_term I n) /\ consistent (with_signals I f) s s' /\
      (forall n, bassigns x n = true -> exists t, dget (bs_trees s') n = Some t /\ tree_value (with_signals I f) (f n) t = bexec (with_signals I f) x f n) /\
      (forall n, In n (bs_terms s) -> bassigns x n = false -> dget (bs_trees s') n = dget (bs_trees s) n).
Proof.
  intros array s x H1 H2 H3 Hw Hs. destruct (legal_arrives array s x H1 H2 H3) as (s' & k0 & A). exists s', k0. split; [exact A|]. intros I HI. pose proof (A k0 (le_n _)) as E.
  destruct (C55_added_signals_determined I k0 array s x s' H1 Hw E) as (f & F1 & F2 & _). exists f. split; [exact F1|]. split; [exact F2|].
  exact (C55_blocking_values_partial (with_signals I f) k0 array s x s' HI H1 Hw Hs E F2).
Qed.
Print Assumptions C75_blocks_right_partial.

(** ** Where the full property fails *)
Local Open Scope string_scope.
(** if (c) ; else x = 1; is legal Verilog; the code adds a text to None. *)
Theorem C75_empty_then_refuted : forall k, bvisit_always k (fun _ => false) (start55 ["x"; "c"]) (BIf (w55 "c") None (Some (BAsg (g55 "x") (DInt "1")))) = Err TypeError.
Proof. intros k. reflexivity. Qed.
Print Assumptions C75_empty_then_refuted.
(** if (c) i = 1; y = a[i:0]; (i is the bound): the bound becomes a conditional, which ends in NameError. *)
Theorem C75_assigned_bound_refuted : forall k, 5 <= k ->
  bvisit_always k (fun _ => false) (start55 ["a"; "c"; "i"; "y"]) (BBlock [BIf (w55 "c") (Some (BAsg (g55 "i") (DInt "1"))) None; BAsg (g55 "y") (DPart (w55 "a") (w55 "i") (DInt "0"))]) = Err NameError.
Proof. intros k H. do 5 (destruct k as [|k]; [lia|]). reflexivity. Qed.
Print Assumptions C75_assigned_bound_refuted.
(** y = $random; in the block is rejected with FormatError. *)
Theorem C75_system_call_refuted : forall k, bvisit_always k (fun _ => false) (start55 ["y"]) (BAsg (g55 "y") (DSys "random" [])) = Err FormatError.
Proof. intros k. reflexivity. Qed.
Print Assumptions C75_system_call_refuted.

(** ** Examples *)
(** A block with a condition that reads an assigned signal, conditional operators (one as the condition of another), a part select of an assigned signal, a word
    of a memory with an assigned index, nested ifs and a case without default. *)
Definition m75 (n : chain) : bool := same_name n (g55 "mem").
Definition x75 : bstmt :=
  BBlock [BAsg (g55 "i") (DOp [w55 "a"; DInt "1"] Plus);
          BIf (DBranch (w55 "c") (w55 "a") (w55 "i")) (Some (BAsg (g55 "i") (DInt "2"))) None;
          BIf (w55 "i") (Some (BIf (w55 "c") (Some (BAsg (g55 "x") (DPtr (w55 "mem") (w55 "i")))) (Some (BBlock [])))) (Some (BAsg (g55 "x") (w55 "i")));
          BCase (w55 "a") [(Some [DInt "1"; w55 "c"], Some (BAsg (g55 "y") (DPart (w55 "x") (DInt "3") (w55 "a")))); (Some [w55 "a"], None); (None, Some (BAsg (g55 "x") (DConcat [w55 "i"; w55 "x"])))];
          BAsg (g55 "y") (DBranch (DBranch (w55 "c") (w55 "a") (w55 "i")) (DOp [w55 "x"; w55 "y"] Plus) (w55 "i"))].
Definition s75 : bst := Eval vm_compute in start55 ["a"; "c"; "i"; "mem"; "x"; "y"].
Ltac plain75 := repeat match goal with
  | |- plain _ _ (DTerm _) => apply plain_term
  | |- plain _ _ _ => constructor
  | |- Forall _ _ => constructor
  | |- In _ _ => vm_compute; repeat first [left; reflexivity | right]
  | |- ~ moving _ _ => intros K; vm_compute in K; discriminate K
  end.
Lemma x75_legal : legal_block m75 s75 x75.
Proof.
  unfold legal_block. set (asg := bassigns x75). unfold x75.
  repeat match goal with
  | |- legal_stmt _ _ _ _ => constructor
  | |- Forall _ _ => constructor
  | |- plain _ _ _ => plain75
  | |- In _ _ => vm_compute; repeat first [left; reflexivity | right]
  | |- _ <> [] => discriminate
  | |- forall y, Some _ = Some y -> _ => let E := fresh in intros ? E; injection E as <-
  | |- forall y, None = Some y -> _ => intros ? ?; discriminate
  | |- Some _ = None -> _ => discriminate
  | |- None = None -> _ => intros _
  | |- None = None => reflexivity
  | |- _ /\ _ => split
  | |- _ = false => reflexivity
  | |- dget _ _ = None => reflexivity
  | |- _ => progress cbn [fst snd]
  end.
Qed.
Example C75_accepted : bst_ok s75 /\ (0 <= bs_cnt s75)%Z /\ legal_block m75 s75 x75 /\
  (exists s', bvisit_always 60 m75 s75 x75 = Ok s' /\ (length (bs_terms s') = length (bs_terms s75) + 7)%nat).
Proof.
  split; [exact (start55_ok ["a"; "c"; "i"; "mem"; "x"; "y"])|]. split; [discriminate|]. split; [exact x75_legal|]. eexists. split; [vm_compute; reflexivity|vm_compute; reflexivity].
Qed.
(** The block of C55 meets all hypotheses of the second theorem. *)
Example C75_right_met : bst_ok s55 /\ (0 <= bs_cnt s55)%Z /\ legal_block (fun _ => false) s55 x55 /\ bwf s55 (fun _ => false) x55 /\ bsupported x55.
Proof.
  split; [exact (start55_ok ["a"; "c"; "t"; "u"; "x"; "y"; "z"])|]. split; [discriminate|]. split; [|split; [solve [unfold x55; wf55]|vm_compute; discriminate]].
  unfold legal_block. set (asg := bassigns x55). unfold x55.
  repeat match goal with
  | |- legal_stmt _ _ _ _ => constructor
  | |- Forall _ _ => constructor
  | |- plain _ _ _ => plain75
  | |- In _ _ => vm_compute; repeat first [left; reflexivity | right]
  | |- _ <> [] => discriminate
  | |- forall y, Some _ = Some y -> _ => let E := fresh in intros ? E; injection E as <-
  | |- forall y, None = Some y -> _ => intros ? ?; discriminate
  | |- Some _ = None -> _ => discriminate
  | |- None = None -> _ => intros _
  | |- None = None => reflexivity
  | |- _ /\ _ => split
  | |- _ = false => reflexivity
  | |- dget _ _ = None => reflexivity
  | |- _ => progress cbn [fst snd]
  end.
Qed.
