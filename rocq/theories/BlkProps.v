(** BlkProps.v - C55. *)
From Verif Require Import Base ScopeModel ScopeSpec ScopeProofs DfModel DfSpec DfProofs ReorderModel ReorderSpec ReorderProofs BindModel BindSpec BindProofs AsgModel AsgSpec AsgProofs AsgProofs2 BlkModel BlkSpec BlkProofs BlkProofs2 BlkProofs3 BlkProofs4 BlkProofs5 BlkProofs6 BlkNames.

Lemma wf_assigned s array x : bwf s array x -> forall n, bassigns x n = true -> In n (bs_terms s) /\ array n = false /\ dget (bs_trees s) n = None.
Proof.
  induction x as [m e|l IH|c t e IHt IHe|comp items IH] using bstmt_ind'; cbn [bwf bassigns]; intros Hw n H.
  - unfold same_name in H. destruct (chain_dec m n) as [<-|]; [|discriminate]. tauto.
  - induction IH as [|y l Hy _ IHl]; cbn [existsb] in H; [discriminate|]. destruct Hw as [H1 H2]. apply orb_true_iff in H as [H|H]; [exact (Hy H1 n H)|exact (IHl H2 H)].
  - destruct Hw as (_ & _ & H1 & H2). apply orb_true_iff in H as [H|H]; [destruct t as [y|]; [exact (IHt y eq_refl H1 n H)|discriminate]|destruct e as [y|]; [exact (IHe y eq_refl H2 n H)|discriminate]].
  - destruct Hw as (_ & _ & Hw). induction IH as [|[g y] l Hy _ IHl]; cbn [existsb snd] in H; [discriminate|]. destruct Hw as (_ & H1 & H2). apply orb_true_iff in H as [H|H]; [|exact (IHl H2 H)].
    destruct y as [y|]; [exact (Hy y eq_refl H1 n H)|discriminate].
Qed.
Lemma wf_declared s array x : bwf s array x -> declared_in (bs_terms s) x.
Proof.
  induction x as [m e|l IH|c t e IHt IHe|comp items IH] using bstmt_ind'; cbn [bwf declared_in]; intros Hw.
  - destruct Hw as (H1 & _ & _ & _ & H2). auto.
  - induction IH as [|y l Hy _ IHl]; [exact Hw|]. destruct Hw as [H1 H2]. split; [exact (Hy H1)|exact (IHl H2)].
  - destruct Hw as ((_ & H0) & _ & H1 & H2). split; [exact H0|]. split; [destruct t as [y|]; [exact (IHt y eq_refl H1)|exact Logic.I]|destruct e as [y|]; [exact (IHe y eq_refl H2)|exact Logic.I]].
  - destruct Hw as ((_ & H0) & _ & Hw). split; [exact H0|]. induction IH as [|[g y] l Hy _ IHl]; [exact Hw|]. destruct Hw as (H1 & H2 & H3). cbn [snd] in Hy. split; [|split; [destruct y as [y|]; [exact (Hy y eq_refl H2)|exact H2]|exact (IHl H3)]].
    destruct g as [ws|]; [|exact H1]. eapply Forall_impl; [|exact H1]. intros w [[_ K] _]. exact K.
Qed.
Lemma dget_found {V} (d : ndict V) n v : Forall (fun p => no_any (fst p)) d -> no_any n -> dget d n = Some v -> In (n, v) d.
Proof.
  induction 1 as [|[a b] d Ha _ IH]; cbn [dget]; intros Hn E; [discriminate|]. destruct (chain_eq a n) eqn:Ec; [|right; auto]. injection E as <-. apply chain_eq_no_any in Ec; [|assumption|assumption]. subst a. now left.
Qed.

(** C55: for the supported statements, the tree of every assigned signal has the value the signal has after the
    block, if the added signals have the values of their trees; the other signals' trees are kept. *)
Theorem C55_blocking_values_partial : forall I k array s x s',
  ops_sane I -> bst_ok s -> bwf s array x -> bsupported x -> bvisit_always k array s x = Ok s' -> consistent I s s' ->
  (forall n, bassigns x n = true -> exists t, dget (bs_trees s') n = Some t /\ tree_value I (i_term I n) t = bexec I x (i_term I) n) /\
  (forall n, In n (bs_terms s) -> bassigns x n = false -> dget (bs_trees s') n = dget (bs_trees s) n).
Proof.
  intros I k array s x s' (HN & HT & HL) (B1 & B2) Hw Hsup E HC. unfold bvisit_always in E. apply bind_ok in E as ([s1 t1] & E & E'). injection E' as <-. cbn [fst].
  set (Q := bassigns x). assert (forall n, Q n = true -> In n (bs_terms s) /\ array n = false) as HQ by (intros n Hn; destruct (wf_assigned s array x Hw n Hn) as (K1 & K2 & _); auto).
  assert (forall n, Q n = true -> tree_of s n = DNone) as HD by (intros n Hn; unfold tree_of; destruct (wf_assigned s array x Hw n Hn) as (_ & _ & ->); reflexivity).
  assert (Forall (fun p => no_any (fst p)) (bs_trees s)) as Pl by (eapply Forall_impl; [|exact B2]; intros p (K & _); exact K).
  unfold bsupported in Hsup. destruct (bflow x (fun _ => (BVacant, false))) as [w'|] eqn:Ef; [|congruence].
  assert (Inv I k array (bs_terms s) Q s None [] [] [] (fun _ => (BVacant, false)) (i_term I)) as H0.
  { split; [|split; [|split; [|split; [|split; [|split; [|split]]]]]].
    - split; [exact B1|]. split; [exact Pl|]. split; [apply incl_refl|]. split.
      + intros n t Hn Et. apply (dget_found _ _ _ Pl Hn) in Et. exact (proj1 (proj2 (proj1 (Forall_forall _ _) B2 _ Et))).
      + intros n Hn. rewrite (HD n Hn). split; [exact Logic.I|reflexivity].
    - intros _ n Hn. rewrite (HD n Hn). reflexivity.
    - constructor; [|constructor]. split; [split; constructor|]. split; [exact Logic.I|]. discriminate.
    - reflexivity.
    - constructor.
    - intros _ _ n _. reflexivity.
    - intros n _. split; [|intros K; discriminate K]. split; [reflexivity|]. intros Hn. rewrite (HD n Hn). auto.
    - discriminate. }
  pose proof (main I k array s Q HN HT HL B1 HQ x s None [] [] [] _ (i_term I) w' s1 t1 H0 Hw (fun n Hn => Hn) ltac:(intros n _ [K|K]; exact K) Ef E) as P.
  pose proof (p_inv _ _ _ _ _ _ _ _ _ _ _ _ _ _ _ _ P) as (S1 & V1 & F1 & _).
  assert (cons I (bs_terms s) s1) as HC' by (intros n t K1 K2 K3; exact (HC n t K1 K2 K3)).
  split.
  - intros n Hn. destruct (p_asg _ _ _ _ _ _ _ _ _ _ _ _ _ _ _ _ P n Hn) as [K _]. destruct (dget t1 n) as [e|] eqn:Et; [|congruence]. inversion F1 as [|f0 r0 (_ & _ & Ft) _]; subst f0 r0.
    destruct (Ft n e (ns_plain _ B1 n (proj1 (HQ n Hn))) Et) as (_ & D & _). pose proof (V1 HC' n Hn) as V. unfold tree_of in V. destruct (dget (bs_trees s1) n) as [t|]; [|congruence]. exists t. auto.
  - intros n Hn Ha. exact (p_same _ _ _ _ _ _ _ _ _ _ _ _ _ _ _ _ P n Hn Ha).
Qed.
Print Assumptions C55_blocking_values_partial.

(** The added signals always have such values, whatever the statement, and only these: whatever the values of the declared
    signals, exactly one choice of values for the added signals fits their trees. *)
Theorem C55_added_signals_determined : forall I k array s x s',
  bst_ok s -> bwf s array x -> bvisit_always k array s x = Ok s' ->
  exists f, (forall n, In n (bs_terms s) -> f n = i_term I n) /\ consistent (with_signals I f) s s' /\
    forall g, (forall n, In n (bs_terms s) -> g n = i_term I n) -> consistent (with_signals I g) s s' -> forall n, In n (bs_terms s') -> g n = f n.
Proof.
  intros I k array s x s' (B1 & B2) Hw E. unfold bvisit_always in E. apply bind_ok in E as ([s1 t1] & E & E'). injection E' as <-. cbn [fst].
  apply (grows_values (bs_terms s) I s s1).
  refine (proj1 (proj2 (visit_grow k array (bs_terms s) B1 x s None [] [] s1 t1 _ _ (wf_declared s array x Hw) E))).
  - split; [exact B1|]. split; [eapply Forall_impl; [|exact B2]; intros p (K & _); exact K|]. split; [apply incl_refl|]. eapply Forall_impl; [|exact B2]. intros p (_ & _ & K). apply Forall_forall. exact K.
  - constructor; [|constructor]. split; [constructor|exact Logic.I].
Qed.
Print Assumptions C55_added_signals_determined.

(** ** the full property does not hold *)
Definition blocking_values : Prop := forall I k array s x s',
  ops_sane I -> bst_ok s -> bwf s array x -> bvisit_always k array s x = Ok s' -> consistent I s s' ->
  forall n, bassigns x n = true -> exists t, dget (bs_trees s') n = Some t /\ tree_value I (i_term I n) t = bexec I x (i_term I) n.

(** Signals, and interpretations over the integers that list the signals' values. *)
Definition g55 (s : string) : chain := [Label "top" STmodule None; Label s STsignal None].
Definition w55 (s : string) : df := DTerm (g55 s).
Fixpoint lookup55 (l : list (string * Z)) (s : string) : Z := match l with [] => 0%Z | (m, v) :: r => if String.eqb m s then v else lookup55 r s end.
Definition env55 (l : list (string * Z)) (n : chain) : Z := match n with [_; x] => lookup55 l (sname x) | _ => 0%Z end.
Definition const55 (t : df) : Z := match t with DInt s => if String.eqb s "1" then 1 else if String.eqb s "2" then 2 else if String.eqb s "3" then 3 else 0 | _ => 0 end%Z.
Definition I55 (l : list (string * Z)) : interp :=
  Interp Z (-1)%Z (env55 l) const55
    (fun o l => match o, l with
                | Eq, [u; v] => if (u =? v)%Z then 1 else 0
                | Lor, [u; v] => if (negb (u =? 0) || negb (v =? 0))%Z then 1 else 0
                | Plus, [u; v] => u + v
                | _, _ => 0
                end%Z)
    (fun v m l => if (v =? -1)%Z then (-1)%Z else ((v / 2 ^ l) mod 2 ^ (m - l + 1))%Z) (fun v p => if (v =? -1)%Z then (-1)%Z else 0%Z)
    (fun _ => 0%Z) (fun v => v) (fun _ _ => 0%Z) (fun v => negb (v =? 0)%Z).
Lemma sane55 l : ops_sane (I55 l).
Proof. split; [split; intros; reflexivity|]. split; [reflexivity|]. intros u v. cbn [i_op I55 i_truth]. destruct (negb (u =? 0)%Z || negb (v =? 0)%Z); reflexivity. Qed.
Lemma consistent55 l s s' : forallb (fun n => existsb (same_name n) (bs_terms s) || match dget (bs_trees s') n with Some t => (env55 l n =? eval (I55 l) t)%Z | None => true end) (bs_terms s') = true ->
  consistent (I55 l) s s'.
Proof.
  rewrite forallb_forall. intros H n t Hn Hx E. specialize (H n Hn). rewrite E in H. apply orb_true_iff in H as [H|H]; [|now apply Z.eqb_eq]. exfalso. apply Hx. apply existsb_exists in H as (m & Hm & K). unfold same_name in K. destruct (chain_dec n m); congruence.
Qed.
Definition start55 (l : list string) : bst := BSt [] (map g55 l) 0.
Lemma start55_ok l : bst_ok (start55 l).
Proof. split; [|constructor]. apply Forall_forall. intros n Hn. apply in_map_iff in Hn as (s & <- & _). repeat constructor; discriminate. Qed.
Lemma incl55 l ns : forallb (fun n => existsb (same_name n) ns) l = true -> incl l ns.
Proof. rewrite forallb_forall. intros H n Hn. apply H in Hn. apply existsb_exists in Hn as (m & Hm & K). unfold same_name in K. destruct (chain_dec n m); congruence. Qed.
Ltac wf55 := cbn [bwf]; unfold expr_ok; repeat match goal with
  | |- _ /\ _ => split
  | |- True => exact Logic.I
  | |- incl _ _ => apply incl55; vm_compute; reflexivity
  | |- In _ _ => vm_compute; repeat first [left; reflexivity | right]
  | |- Forall _ _ => constructor
  | |- _ = _ => vm_compute; reflexivity
  | |- _ => progress (cbn [branch_free]; unfold branch_free, expr_ok)
  end.

Local Open Scope string_scope.
(** x = 0; if (c) if (d) x = 1; with c false leaves x at 0, but the tree keeps the old value 3. *)
Definition x55a : bstmt := BBlock [BAsg (g55 "x") (DInt "0"); BIf (w55 "c") (Some (BIf (w55 "d") (Some (BAsg (g55 "x") (DInt "1"))) None)) None].
(** x = 1; if (x) begin x = 0; y = 1; end sets y to 1, but the tree of y keeps the old value 3: the condition is
    taken again from x after its assignment. *)
Definition x55b : bstmt := BBlock [BAsg (g55 "x") (DInt "1"); BIf (w55 "x") (Some (BBlock [BAsg (g55 "x") (DInt "0"); BAsg (g55 "y") (DInt "1")])) None].
Definition wrong55 (I : interp) (s : bst) (x : bstmt) (n : chain) : Prop :=
  ops_sane I /\ bst_ok s /\ bwf s (fun _ => false) x /\ bassigns x n = true /\
  exists s' t, bvisit_always 30 (fun _ => false) s x = Ok s' /\ consistent I s s' /\ dget (bs_trees s') n = Some t /\ tree_value I (i_term I n) t <> bexec I x (i_term I) n.
Theorem C55_nested_default_refuted : exists I s n, wrong55 I s x55a n.
Proof.
  exists (I55 [("x", 3); ("c", 0); ("d", 0); ("_rn0_x", 0); ("_rn1_x", 1)]%Z), (start55 ["x"; "c"; "d"]), (g55 "x").
  split; [apply sane55|]. split; [apply start55_ok|]. split; [solve [unfold x55a; wf55]|]. split; [vm_compute; reflexivity|].
  eexists _, _. split; [vm_compute; reflexivity|]. split; [apply consistent55; vm_compute; reflexivity|]. split; [vm_compute; reflexivity|]. vm_compute. discriminate.
Qed.
Print Assumptions C55_nested_default_refuted.
Theorem C55_changed_condition_refuted : exists I s n, wrong55 I s x55b n.
Proof.
  exists (I55 [("x", 2); ("y", 3); ("_rn0_x", 1); ("_rn1_x", 0); ("_rn2_y", 1)]%Z), (start55 ["x"; "y"]), (g55 "y").
  split; [apply sane55|]. split; [apply start55_ok|]. split; [solve [unfold x55b; wf55]|]. split; [vm_compute; reflexivity|].
  eexists _, _. split; [vm_compute; reflexivity|]. split; [apply consistent55; vm_compute; reflexivity|]. split; [vm_compute; reflexivity|]. vm_compute. discriminate.
Qed.
Print Assumptions C55_changed_condition_refuted.
Theorem C55_blocking_values_refuted : ~ blocking_values.
Proof.
  intros K. destruct C55_nested_default_refuted as (I & s & n & H1 & H2 & H3 & H4 & s' & t & H5 & H6 & H7 & H8).
  destruct (K I 30%nat _ s _ s' H1 H2 H3 H5 H6 n H4) as (t' & E & V). assert (t' = t) as -> by congruence. contradiction.
Qed.
Print Assumptions C55_blocking_values_refuted.

(** A block in the scope of the theorem: y takes earlier assigned values, x has a default and is overridden in an if and in a case,
    the case reads an assigned signal. *)
Definition x55 : bstmt :=
  BBlock [BAsg (g55 "t") (DOp [w55 "a"; DInt "1"] Plus);
          BAsg (g55 "x") (w55 "t");
          BIf (w55 "c") (Some (BBlock [BAsg (g55 "x") (DOp [w55 "x"; w55 "t"] Plus); BAsg (g55 "y") (w55 "x")])) (Some (BAsg (g55 "y") (DInt "0")));
          BAsg (g55 "u") (DOp [w55 "x"; w55 "y"] Plus);
          BCase (w55 "t") [(Some [DInt "1"; DInt "2"], Some (BBlock [BAsg (g55 "x") (w55 "u"); BAsg (g55 "y") (w55 "x")])); (Some [w55 "a"], Some (BAsg (g55 "x") (DInt "3"))); (None, Some (BAsg (g55 "x") (DOp [w55 "x"; DInt "1"] Plus)))];
          BAsg (g55 "z") (DOp [w55 "x"; w55 "y"] Plus)].
Definition s55 : bst := Eval vm_compute in start55 ["a"; "c"; "t"; "u"; "x"; "y"; "z"].
Definition s55' : bst := Eval vm_compute in match bvisit_always 60 (fun _ => false) s55 x55 with Ok s => s | Err _ => s55 end.
(** The values of the added signals, taken from their trees in the order in which they were added. *)
Definition v55 : list (string * Z) := Eval vm_compute in
  fold_left (fun v n => if existsb (same_name n) (bs_terms s55) then v else
               match dget (bs_trees s55') n, n with Some t, [_; x] => (v ++ [(sname x, eval (I55 v) t)])%list | _, _ => v end)
            (bs_terms s55') [("a", 1); ("c", 1); ("y", 5)]%Z.
Example C55_hypotheses_met :
  ops_sane (I55 v55) /\ bst_ok s55 /\ bwf s55 (fun _ => false) x55 /\ bsupported x55 /\ bvisit_always 60 (fun _ => false) s55 x55 = Ok s55' /\ consistent (I55 v55) s55 s55' /\
  (exists c x y, dget (bs_trees s55') (g55 "y") = Some (DBranch c x y)) /\
  (length (bs_terms s55') = length (bs_terms s55) + 11)%nat /\ bexec (I55 v55) x55 (i_term (I55 v55)) (g55 "z") = 16%Z.
Proof.
  split; [apply sane55|]. split; [exact (start55_ok ["a"; "c"; "t"; "u"; "x"; "y"; "z"])|]. split; [solve [unfold x55; wf55]|]. split; [vm_compute; discriminate|]. split; [vm_compute; reflexivity|].
  split; [apply consistent55; vm_compute; reflexivity|]. split; [eexists _, _, _; vm_compute; reflexivity|]. split; vm_compute; reflexivity.
Qed.
