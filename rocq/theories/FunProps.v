(** FunProps.v - C67: function calls in continuous assignments. *)
From Verif Require Import Base ScopeModel ScopeSpec ScopeFlat DfModel DfSpec BindModel BindSpec AsgModel ExprModel BlkModel BlkSpec FunModel FunSpec FunProofs FunProofs5 FunProofs6.

(** For every module, functions and expression with calls, nested in any way: whenever the analysis of [assign y = e] succeeds, the
    tree of y has a value of the expression where calls have the values the functions return - given that the signals the
    analysis has added have the values of their trees. All other known signals keep their trees. *)
Theorem C67_call_values_partial : forall I funcs array times count k fuel M0 m st y e st',
  let M := M0 ++ [Label m STmodule None] in                      (* the module *)
  let g := fun s => i_term I (M ++ [sig s]) in                   (* the values of its signals *)
  let arr := fun s => array (M ++ [sig s]) in
  ops_sane I -> (forall e c, times e = Ok c -> count e = c) -> (forall n c, In (frame c) n -> array n = false) ->
  no_any M -> fstate_ok st -> Forall (func_ok funcs) funcs -> casts e = true -> forallb user (ids e) = true ->
  visit_Assign funcs array times k fuel M st y e = Ok st' ->
  (exists t, dget (bs_trees (fs_st st')) (M ++ [sig y]) = Some t /\
     (consistent I (fs_st st) (fs_st st') -> means I count arr (returns I count funcs arr fuel g) g e (eval I t))) /\
  (forall n, In n (bs_terms (fs_st st)) -> n <> M ++ [sig y] -> dget (bs_trees (fs_st st')) n = dget (bs_trees (fs_st st)) n) /\
  incl (bs_terms (fs_st st)) (bs_terms (fs_st st')).
Proof.
  intros I funcs array times count k fuel M0 m st y e st' M g arr HI Ht Ha HM Hst HF Hc Hu E.
  exact (assign_ok I funcs array times count k fuel M0 m st y e st' HI Ht HM Hst HF Ha Hc Hu E).
Qed.
Print Assumptions C67_call_values_partial.

(** ** examples: interpretations over the integers that list the values of signals *)
Definition key67 (n : chain) : string := String.concat "." (map sname (tl n)).
Fixpoint look67 (l : list (string * Z)) (s : string) : Z := match l with [] => 0%Z | (m, v) :: r => if String.eqb m s then v else look67 r s end.
Definition const67 (t : df) : Z := match t with DInt s => if String.eqb s "1" then 1 else if String.eqb s "2" then 2 else 0 | _ => 0 end%Z.
Definition I67 (l : list (string * Z)) : interp :=
  Interp Z (-1)%Z (fun n => look67 l (key67 n)) const67
    (fun o l => match o, l with
                | Eq, [u; v] => if (u =? v)%Z then 1 else 0
                | Lor, [u; v] => if (negb (u =? 0) || negb (v =? 0))%Z then 1 else 0
                | Plus, [u; v] => u + v
                | _, _ => 0
                end%Z)
    (fun v m l => if (v =? -1)%Z then (-1)%Z else ((v / 2 ^ l) mod 2 ^ (m - l + 1))%Z) (fun v p => if (v =? -1)%Z then (-1)%Z else 0%Z)
    (fun _ => 0%Z) (fun v => v) (fun _ _ => 0%Z) (fun v => negb (v =? 0)%Z).
Lemma sane67 l : ops_sane (I67 l).
Proof. split; [split; intros; reflexivity|]. split; [reflexivity|]. intros u v. cbn [i_op I67 i_truth]. destruct (negb (u =? 0)%Z || negb (v =? 0)%Z); reflexivity. Qed.
Definition M67 : chain := [Label "m" STmodule None].
Definition at67 (s : string) : chain := M67 ++ [sig s].
Lemma M67_any : no_any M67.
Proof. constructor; [discriminate|constructor]. Qed.
Definition start67 (l : list string) : fstate := FSt (BSt [] (map at67 l) 0) 0.
Lemma start67_ok l : fstate_ok (start67 l).
Proof.
  split; [|split; [constructor|split; [cbn [start67 fs_calls]; lia|]]].
  - apply Forall_forall. intros n Hn. apply in_map_iff in Hn as (s & <- & _). constructor; [discriminate|]. constructor; [discriminate|constructor].
  - intros n c Hn Hc. apply in_map_iff in Hn as (s & <- & _). destruct Hc as [Hc|[Hc|[]]]; discriminate Hc.
Qed.
Definition times67 (e : expr) : res Z := Err Unmodelled.
Definition count67 (e : expr) : Z := 0%Z.
Definition eqv (n m : chain) : bool := if chain_dec n m then true else false.
Lemma consistent67 l s s' : forallb (fun n => existsb (eqv n) (bs_terms s) || match dget (bs_trees s') n with Some t => (look67 l (key67 n) =? tree_value (I67 l) (look67 l (key67 n)) t)%Z | None => true end) (bs_terms s') = true ->
  consistent (I67 l) s s'.
Proof.
  rewrite forallb_forall. intros H n t Hn Hx E. specialize (H n Hn). rewrite E in H. apply orb_true_iff in H as [H|H]; [|now apply Z.eqb_eq]. exfalso. apply Hx. apply existsb_exists in H as (m & Hm & K). unfold eqv in K. destruct (chain_dec n m); congruence.
Qed.
Local Open Scope string_scope. Local Open Scope list_scope.

(** function f(input a, b); reg t; begin t = g(a); if (b) f = t + c; else f = c; end
    function g(input x); g = x + c;         assign y = f(p, q + 1) + 1; *)
Definition f67 : func := Func "f" ["a"; "b"] ["t"]
  (FBlock [FAsg "t" (XCall "g" [XId "a"]); FIf (XId "b") (Some (FAsg "f" (XBin Plus (XId "t") (XId "c")))) (Some (FAsg "f" (XId "c")))]).
Definition g67 : func := Func "g" ["x"] [] (FAsg "g" (XBin Plus (XId "x") (XId "c"))).
Definition e67 : expr := XBin Plus (XCall "f" [XId "p"; XBin Plus (XId "q") (XInt "1")]) (XInt "1").
Definition st67 : fstate := start67 ["y"; "p"; "q"; "c"; "t"].
Definition v67 : list (string * Z) := [("p", 3); ("q", 1); ("c", 2); ("t", 40); ("functioncall0.a", 3); ("functioncall0.b", 2); ("functioncall0.functioncall1.x", 3);
  ("functioncall0.functioncall1._rn0_g", 5); ("functioncall0.functioncall1.g", 5); ("functioncall0._rn1_t", 5); ("functioncall0.t", 5); ("functioncall0._rn2_f", 7); ("functioncall0._rn3_f", 2); ("functioncall0.f", 7)]%Z.
Ltac ok67 := repeat split; try (vm_compute; reflexivity); try (repeat (constructor; [cbn [In]; intuition discriminate|]); constructor); vm_compute; discriminate.
Lemma funcs67_ok : Forall (func_ok [f67; g67]) [f67; g67].
Proof. constructor; [ok67|]. constructor; [ok67|constructor]. Qed.
Example C67_call_values_hypotheses_met : exists st' t,
  ops_sane (I67 v67) /\ no_any M67 /\ fstate_ok st67 /\ Forall (func_ok [f67; g67]) [f67; g67] /\ casts e67 = true /\ forallb user (ids e67) = true /\
  visit_Assign [f67; g67] (fun _ => false) times67 60 5 M67 st67 "y" e67 = Ok st' /\ dget (bs_trees (fs_st st')) (at67 "y") = Some t /\
  consistent (I67 v67) (fs_st st67) (fs_st st') /\ eval (I67 v67) t = 8%Z.
Proof.
  eexists _, _. split; [apply sane67|]. split; [exact M67_any|]. split; [apply start67_ok|]. split; [exact funcs67_ok|]. split; [reflexivity|]. split; [reflexivity|].
  split; [vm_compute; reflexivity|]. split; [vm_compute; reflexivity|]. split; [apply consistent67; vm_compute; reflexivity|]. vm_compute. reflexivity.
Qed.

(** ** the full property does not hold: it fails for functions outside of func_ok *)
Definition call_values : Prop := forall I funcs array times count k fuel M0 m st y e st' t,
  let M := M0 ++ [Label m STmodule None] in
  let g := fun s => i_term I (M ++ [sig s]) in
  let arr := fun s => array (M ++ [sig s]) in
  ops_sane I -> (forall e c, times e = Ok c -> count e = c) -> (forall n c, In (frame c) n -> array n = false) ->
  no_any M -> fstate_ok st -> casts e = true -> forallb user (ids e) = true ->
  visit_Assign funcs array times k fuel M st y e = Ok st' -> dget (bs_trees (fs_st st')) (M ++ [sig y]) = Some t ->
  consistent I (fs_st st) (fs_st st') -> means I count arr (returns I count funcs arr fuel g) g e (eval I t).
(** assign y = f(p) gives y the value [x] by its tree; by the functions it is another one. *)
Definition wrong67 (l : list (string * Z)) (funcs : list func) (x x' : Z) : Prop := exists st' t,
  visit_Assign funcs (fun _ => false) times67 60 5 M67 (start67 ["y"; "p"; "c"]) "y" (XCall "f" [XId "p"]) = Ok st' /\
  dget (bs_trees (fs_st st')) (at67 "y") = Some t /\ consistent (I67 l) (fs_st (start67 ["y"; "p"; "c"])) (fs_st st') /\
  eval (I67 l) t = x /\ x <> x' /\ let g := fun s => i_term (I67 l) (at67 s) in
  forall z, means (I67 l) count67 (fun _ => false) (returns (I67 l) count67 funcs (fun _ => false) 5 g) g (XCall "f" [XId "p"]) z <-> z = x'.
Ltac tree67 := eexists _, _; split; [vm_compute; reflexivity|]; split; [vm_compute; reflexivity|]; split; [apply consistent67; vm_compute; reflexivity|]; split; [vm_compute; reflexivity|]; split; [discriminate|].
(** Reads see the last assignment: begin t = a; f = t; t = 2; end. *)
Definition late67 : func := Func "f" ["a"] ["t"] (FBlock [FAsg "t" (XId "a"); FAsg "f" (XId "t"); FAsg "t" (XInt "2")]).
Definition one67 (g : string -> Z) (s : string) : Z := if String.eqb s "a" then 1%Z else g s.
Lemma one67_out fn g s : fn_ports fn = ["a"] -> own fn s = false -> one67 g s = g s.
Proof. intros H. unfold own. rewrite H. intros K. apply orb_false_iff in K as [_ K]. cbn [mem existsb] in K. unfold one67. destruct (String.eqb s "a"); [discriminate|reflexivity]. Qed.
Ltac inv67 := intros ([|y [|]] & H & R); try (destruct H; contradiction); try contradiction; destruct H as [-> _]; cbn [returns] in R; destruct R as (fn & v & v' & F & P & G & R & ->); vm_compute in F; injection F as <-;
  inversion P as [|? ? ? ? Pa _]; subst; cbn [fn_body fn_ports fn_name runs means] in *.
Ltac val67 := repeat (unfold assign_to; cbn [String.eqb Ascii.eqb Bool.eqb]).
Ltac step67 := eexists; split; [eexists; split; [reflexivity|apply agrees_refl]|].
Ltac use67 fn g := intros ->; exists [1%Z]; split; [split; [reflexivity|exact Logic.I]|]; cbn [returns]; exists fn, (one67 g); eexists;
  split; [reflexivity|]; split; [constructor; [reflexivity|constructor]|]; split; [intros s Hs; exact (one67_out fn g s eq_refl Hs)|].
Theorem C67_read_before_change_refuted : exists l, wrong67 l [late67] 2 1.
Proof.
  exists [("p", 1); ("functioncall0.a", 1); ("functioncall0._rn0_t", 1); ("functioncall0._rn2_t", 2); ("functioncall0.t", 2); ("functioncall0._rn1_f", 2); ("functioncall0.f", 2)]%Z.
  tree67. intros g z. rewrite means_call. cbn [each means]. split.
  - inv67. destruct R as (u1 & (y1 & -> & A1) & u2 & (y2 & -> & A2) & u3 & (y3 & -> & A3) & A). rewrite A, A3. val67. rewrite A2. val67. rewrite A1. val67. rewrite Pa. reflexivity.
  - use67 late67 g. split; [cbn [late67 fn_body runs means]; step67; step67; step67; apply agrees_refl|]. reflexivity.
Qed.
Print Assumptions C67_read_before_change_refuted.
(** Inputs may be assigned in Verilog: begin f = a; a = 2; end returns the argument, but the tree the new value of a. *)
Definition input67 : func := Func "f" ["a"] [] (FBlock [FAsg "f" (XId "a"); FAsg "a" (XInt "2")]).
Theorem C67_assigned_input_refuted : exists l, wrong67 l [input67] 2 1.
Proof.
  exists [("p", 1); ("functioncall0.a", 2); ("functioncall0._rn1_a", 2); ("functioncall0._rn0_f", 2); ("functioncall0.f", 2)]%Z.
  tree67. intros g z. rewrite means_call. cbn [each means]. split.
  - inv67. destruct R as (u1 & (y1 & -> & A1) & u2 & (y2 & -> & A2) & A). rewrite A, A2. val67. rewrite A1. val67. rewrite Pa. reflexivity.
  - use67 input67 g. split; [cbn [input67 fn_body runs means]; step67; step67; apply agrees_refl|]. reflexivity.
Qed.
Print Assumptions C67_assigned_input_refuted.
(** The scope of a call lies in the caller's scope: a function that reads the module's c gets the local
    variable c of the function that calls it. *)
Definition shadow67 : func := Func "f" ["a"] ["c"] (FBlock [FAsg "c" (XInt "2"); FAsg "f" (XCall "g" [XId "a"])]).
Theorem C67_callers_local_refuted : exists l, wrong67 l [shadow67; g67] 3 1.
Proof.
  exists [("p", 1); ("c", 0); ("functioncall0.a", 1); ("functioncall0._rn0_c", 2); ("functioncall0.c", 2); ("functioncall0.functioncall1.x", 1); ("functioncall0.functioncall1._rn1_g", 3); ("functioncall0.functioncall1.g", 3); ("functioncall0._rn2_f", 3); ("functioncall0.f", 3)]%Z.
  tree67. intros g z. rewrite means_call. cbn [each means]. split.
  - inv67. destruct R as (u1 & (y1 & -> & A1) & u2 & (y2 & (ys & Hy & R2) & A2) & A). cbn [returns] in R2. destruct R2 as (fn & w & w' & F & P2 & G2 & R2 & ->). vm_compute in F. injection F as <-.
    destruct ys as [|y4 [|]]; [contradiction| |destruct Hy; contradiction]. destruct Hy as [Hy _]. inversion P2 as [|? ? ? ? Px _]; subst. cbn [means runs fn_body fn_ports fn_name] in *. destruct R2 as (y3 & (y5 & y6 & -> & -> & ->) & A3).
    rewrite A, A2. val67. rewrite A3. val67. rewrite Px, (G2 "c" eq_refl), A1. val67. rewrite Pa. reflexivity.
  - use67 shadow67 g. split.
    + cbn [shadow67 fn_body runs means]. step67. eexists. split; [|apply agrees_refl]. eexists. split; [|apply agrees_refl].
      exists [1%Z]. split; [split; [reflexivity|exact Logic.I]|]. exists g67, (fun s => if String.eqb s "x" then 1%Z else g s). eexists. split; [reflexivity|]. split; [constructor; [reflexivity|constructor]|]. split.
      * intros s Hs. unfold own in Hs. cbn [g67 vars fn_name fn_locals fn_ports mem existsb] in Hs. destruct (String.eqb s "x"); [rewrite orb_true_r in Hs; discriminate Hs|reflexivity].
      * split; [|reflexivity]. cbn [g67 fn_body runs means]. eexists. split; [|apply agrees_refl]. eexists _, _. split; [reflexivity|]. split; [reflexivity|]. reflexivity.
    + reflexivity.
Qed.
Print Assumptions C67_callers_local_refuted.
(** begin f = 2; if (a) f = 1; else begin f = 0; end end loses the assignment in the inner block. *)
Definition else67 : func := Func "f" ["b"] [] (FBlock [FAsg "f" (XInt "2"); FIf (XId "b") (Some (FAsg "f" (XInt "1"))) (Some (FBlock [FAsg "f" (XInt "0")]))]).
Theorem C67_else_block_refuted : exists l, wrong67 l [else67] 2 0.
Proof.
  exists [("p", 0); ("functioncall0.b", 0); ("functioncall0._rn0_f", 2); ("functioncall0._rn1_f", 1); ("functioncall0._rn2_f", 0); ("functioncall0.f", 2)]%Z.
  tree67. intros g z. rewrite means_call. cbn [each means]. split.
  - inv67. destruct R as (u1 & (y1 & -> & A1) & u2 & (y2 & -> & R) & A). rewrite A1 in R. cbn [assign_to String.eqb Ascii.eqb Bool.eqb] in R. rewrite Pa in R. cbn [i_truth I67] in R. vm_compute (negb (g "p" =? 0)%Z) in R. destruct R as (u3 & (y3 & -> & A3) & A2). rewrite A, A2, A3. reflexivity.
  - intros ->. exists [0%Z]. split; [split; [reflexivity|exact Logic.I]|]. cbn [returns]. exists else67, (fun s => if String.eqb s "b" then 0%Z else g s). eexists. split; [reflexivity|]. split; [constructor; [reflexivity|constructor]|]. split.
    { intros s Hs. unfold own in Hs. cbn [else67 vars fn_name fn_locals fn_ports mem existsb] in Hs. destruct (String.eqb s "b"); [rewrite orb_true_r in Hs; discriminate Hs|reflexivity]. }
    split; [|shelve]. cbn [else67 fn_body runs means]. step67. eexists. split; [|apply agrees_refl]. eexists. split; [reflexivity|]. cbn. eexists. split; [eexists; split; [reflexivity|apply agrees_refl]|apply agrees_refl].
    Unshelve. reflexivity.
Qed.
Print Assumptions C67_else_block_refuted.
Theorem C67_call_values_refuted : ~ call_values.
Proof.
  intros H. destruct C67_read_before_change_refuted as (l & st' & t & E & D & HC & X & N & J). apply N. rewrite <- X. apply J.
  refine (H (I67 l) [late67] (fun _ => false) times67 count67 60%nat 5%nat [] "m" (start67 ["y"; "p"; "c"]) "y" (XCall "f" [XId "p"]) st' t (sane67 l) _ (fun _ _ _ => eq_refl) M67_any (start67_ok _) eq_refl eq_refl E D HC).
  intros e c K. discriminate K.
Qed.
Print Assumptions C67_call_values_refuted.

(** A function that computes in steps - begin f = a; f = f + 1; end - gives f a tree that mentions f: no values fit. *)
Definition step67_ : func := Func "f" ["a"] [] (FBlock [FAsg "f" (XId "a"); FAsg "f" (XBin Plus (XId "f") (XInt "1"))]).
Theorem C67_stepwise_refuted : exists st',
  visit_Assign [step67_] (fun _ => false) times67 60 5 M67 (start67 ["y"; "p"]) "y" (XCall "f" [XId "p"]) = Ok st' /\
  forall l, ~ consistent (I67 l) (fs_st (start67 ["y"; "p"])) (fs_st st').
Proof.
  eexists. split; [vm_compute; reflexivity|]. intros l H.
  assert (forall s, existsb (eqv (M67 ++ [frame 0; sig s])) (map at67 ["y"; "p"]) = false -> ~ In (M67 ++ [frame 0; sig s]) (map at67 ["y"; "p"])) as N.
  { intros s K J. assert (existsb (eqv (M67 ++ [frame 0; sig s])) (map at67 ["y"; "p"]) = true); [|congruence]. apply existsb_exists. eexists. split; [exact J|]. unfold eqv. destruct (chain_dec _ _); congruence. }
  assert (look67 l "functioncall0.f" = look67 l "functioncall0._rn1_f") as A.
  { refine (H (M67 ++ [frame 0; sig "f"]) _ _ (N "f" eq_refl) eq_refl). vm_compute. repeat first [left; reflexivity|right]. }
  assert (look67 l "functioncall0._rn1_f" = look67 l "functioncall0.f" + 1)%Z as B.
  { refine (H (M67 ++ [frame 0; sig "_rn1_f"]) _ _ (N "_rn1_f" eq_refl) eq_refl). vm_compute. repeat first [left; reflexivity|right]. }
  lia.
Qed.
Print Assumptions C67_stepwise_refuted.

(** ** failures *)
(** A call with too few or too many arguments is never accepted; but the error is an AttributeError instead of the
    FormatError meant. *)
Theorem C67_wrong_arguments : forall funcs array times k fuel st scope f args fn,
  List.find (fun fn => String.eqb (fn_name fn) f) funcs = Some fn -> length (fn_ports fn) <> length args ->
  call funcs array times k (S fuel) st scope f args = Err AttributeError.
Proof.
  intros funcs array times k fuel st scope f args fn F N. cbn [call]. rewrite F. apply Nat.eqb_neq in N. now rewrite N.
Qed.
Print Assumptions C67_wrong_arguments.
Theorem C67_unknown_function : forall funcs array times k fuel st scope f args,
  (forall fn, In fn funcs -> fn_name fn <> f) -> call funcs array times k (S fuel) st scope f args = Err DefinitionError.
Proof.
  intros funcs array times k fuel st scope f args H. cbn [call]. destruct (List.find _ funcs) as [fn|] eqn:F; [|reflexivity].
  apply find_some in F as [F1 F2]. apply String.eqb_eq in F2. now apply H in F1.
Qed.
Print Assumptions C67_unknown_function.
