(** LoopProps.v - C65: for and while loops in always blocks are unrolled; the trees give the values of running them. *)
From Verif Require Import Base ScopeModel ScopeSpec ScopeProofs DfModel DfSpec DfProofs ReorderModel ReorderSpec BindModel BindSpec BindProofs AsgModel AsgSpec AsgProofs AsgProofs2 AsgProofs4 BlkModel BlkSpec BlkProofs BlkProofs2 BlkProofs3 BlkProofs4 BlkProofs5 BlkProofs6 BlkProps LitModel OptModel OptSpec HierModel LoopModel LoopSpec LoopProofs LoopProofs2 LoopProofs3 LoopProofs4 LoopProofs5.

(** Analysing a statement gives the trees, added signals and numbering that analysing an unrolled form of it gives. *)
Theorem C65_loops_unrolled : forall k array range log2i tocode fuel st x st',
  lvisit_always k array range log2i tocode fuel st x = Ok st' ->
  exists ys, unrolls x ys /\ bvisit_always k array (l_bst st) (one ys) = Ok (l_bst st').
Proof.
  intros k array range log2i tocode fuel st x st' E. unfold lvisit_always in E. apply bind_ok in E as ([st1 t1] & E & E'). injection E' as <-. cbn [fst].
  destruct (visit_unrolled k array range log2i tocode fuel x st None [] [] st1 t1 E) as (ys & U & V). exists ys. split; [exact U|]. unfold bvisit_always. rewrite (one_visit k array ys _ _ _ _ V). reflexivity.
Qed.
Print Assumptions C65_loops_unrolled.

(** Running a statement has at most one outcome. *)
Scheme runs_min := Minimality for lruns Sort Prop
  with runs_all_min := Minimality for lruns_all Sort Prop
  with runs_opt_min := Minimality for lruns_opt Sort Prop
  with runs_case_min := Minimality for lruns_case Sort Prop
  with runs_loop_min := Minimality for lruns_loop Sort Prop.
Combined Scheme runs_mutual from runs_min, runs_all_min, runs_opt_min, runs_case_min, runs_loop_min.
Lemma runs_fun I :
  (forall x v v', lruns I x v v' -> forall u, lruns I x v u -> v' = u) /\
  (forall l v v', lruns_all I l v v' -> forall u, lruns_all I l v u -> v' = u) /\
  (forall o v v', lruns_opt I o v v' -> forall u, lruns_opt I o v u -> v' = u) /\
  (forall comp l v v', lruns_case I comp l v v' -> forall u, lruns_case I comp l v u -> v' = u) /\
  (forall c step body v v', lruns_loop I c step body v v' -> forall u, lruns_loop I c step body v u -> v' = u).
Proof.
  apply (runs_mutual I (fun x v v' => forall u, lruns I x v u -> v' = u) (fun l v v' => forall u, lruns_all I l v u -> v' = u) (fun o v v' => forall u, lruns_opt I o v u -> v' = u)
           (fun comp l v v' => forall u, lruns_case I comp l v u -> v' = u) (fun c step body v v' => forall u, lruns_loop I c step body v u -> v' = u)).
  - intros n e v u H. inversion H. reflexivity.
  - intros l v v' _ IH u H. inversion H; subst. auto.
  - intros c t e v v' _ IH u H. inversion H; subst. auto.
  - intros comp items v v' _ IH u H. inversion H; subst. auto.
  - intros i a c j b body v v' _ IH u H. inversion H; subst. auto.
  - intros c body v v' _ IH u H. inversion H; subst. auto.
  - intros v u H. inversion H. reflexivity.
  - intros x l v v1 v2 _ IH1 _ IH2 u H. inversion H as [|x0 l0 v0 w1 w2 H1 H2]; subst. apply IH1 in H1. subst w1. auto.
  - intros v u H. inversion H. reflexivity.
  - intros x v v' _ IH u H. inversion H; subst. auto.
  - intros comp v u H. inversion H. reflexivity.
  - intros comp g y l v v' E _ IH u H. inversion H; subst; [auto|congruence].
  - intros comp g y l v v' E _ IH u H. inversion H; subst; [congruence|auto].
  - intros c step body v E u H. inversion H; subst; [reflexivity|congruence].
  - intros c step body v v1 v2 E _ IH1 _ IH2 u H. inversion H as [|c0 s0 b0 v0 w1 w2 E' H1 H2]; subst; [congruence|]. apply IH1 in H1. subst w1. auto.
Qed.
Theorem C65_execution_deterministic : forall I x v v' u, lruns I x v v' -> lruns I x v u -> v' = u.
Proof. intros I x v v' u H. exact (proj1 (runs_fun I) x v v' H u). Qed.
Print Assumptions C65_execution_deterministic.

Lemma lwf_assigned s array x : lwf s array x -> forall n, lassigns x n = true -> In n (bs_terms s) /\ array n = false /\ dget (bs_trees s) n = None.
Proof.
  assert (forall m e n, bwf s array (BAsg m e) -> same_name m n = true -> In n (bs_terms s) /\ array n = false /\ dget (bs_trees s) n = None) as A.
  { intros m e n Hw H. exact (wf_assigned s array (BAsg m e) Hw n H). }
  induction x as [m e|l IH|c t e IHt IHe|comp items IH|i a c j b body IH|c body IH] using lstmt_ind'; cbn [lwf lassigns]; intros Hw n H.
  - exact (A m e n Hw H).
  - induction IH as [|y l Hy _ IHl]; cbn [existsb] in H; [discriminate|]. destruct Hw as [H1 H2]. apply orb_true_iff in H as [H|H]; [exact (Hy H1 n H)|exact (IHl H2 H)].
  - destruct Hw as (_ & _ & H1 & H2). apply orb_true_iff in H as [H|H]; [destruct t as [y|]; [exact (IHt y eq_refl H1 n H)|discriminate]|destruct e as [y|]; [exact (IHe y eq_refl H2 n H)|discriminate]].
  - destruct Hw as (_ & _ & Hw). induction IH as [|[g y] l Hy _ IHl]; cbn [existsb snd] in H; [discriminate|]. destruct Hw as (_ & H1 & H2). apply orb_true_iff in H as [H|H]; [|exact (IHl H2 H)].
    destruct y as [y|]; [exact (Hy y eq_refl H1 n H)|discriminate].
  - destruct Hw as (H1 & H2 & _ & H3). apply orb_true_iff in H as [H|H]; [|exact (IH H3 n H)]. apply orb_true_iff in H as [H|H]; [exact (A i a n H1 H)|exact (A j b n H2 H)].
  - destruct Hw as (_ & H1). exact (IH H1 n H).
Qed.

(** If the analysis succeeds, running the block ends, and every assigned signal's tree has the value the signal then has;
    a signal that stays without tree (its loops made no round) keeps its value. *)
Theorem C65_loop_values_partial : forall I num k array range log2i tocode fuel K st x st',
  ops_sane I -> numbers I num -> bst_ok (l_bst st) -> lwf (l_bst st) array x -> lsupported K x -> known_constants I num K (lassigns x) (l_opt st) ->
  lvisit_always k array range log2i tocode fuel st x = Ok st' -> consistent I (l_bst st) (l_bst st') ->
  exists v', lruns I x (i_term I) v' /\
    (forall n, lassigns x n = true ->
       match dget (bs_trees (l_bst st')) n with Some t => tree_value I (i_term I n) t = v' n | None => v' n = i_term I n end) /\
    (forall n, In n (bs_terms (l_bst st)) -> lassigns x n = false -> dget (bs_trees (l_bst st')) n = dget (bs_trees (l_bst st)) n).
Proof.
  intros I num k array range log2i tocode fuel K st x st' (HN & HT & HL) HI (B1 & B2) Hw Hsup [KC1 KC2] E HC. unfold lvisit_always in E. apply bind_ok in E as ([s1 t1] & E & E'). injection E' as <-. cbn [fst] in *.
  set (s := l_bst st) in *. set (Q := lassigns x). assert (forall n, Q n = true -> In n (bs_terms s) /\ array n = false) as HQ by (intros n Hn; destruct (lwf_assigned s array x Hw n Hn) as (K1 & K2 & _); auto).
  assert (forall n, Q n = true -> dget (bs_trees s) n = None) as HD0 by (intros n Hn; exact (proj2 (proj2 (lwf_assigned s array x Hw n Hn)))).
  assert (forall n, Q n = true -> tree_of s n = DNone) as HD by (intros n Hn; unfold tree_of; rewrite (HD0 n Hn); reflexivity).
  assert (Forall (fun p => no_any (fst p)) (bs_trees s)) as Pl by (eapply Forall_impl; [|exact B2]; intros p (X & _); exact X).
  assert (Inv I k array (bs_terms s) Q s None [] [] [] (fun _ => (BVacant, false)) (i_term I)) as H0.
  { split; [|split; [|split; [|split; [|split; [|split; [|split]]]]]].
    - split; [exact B1|]. split; [exact Pl|]. split; [apply incl_refl|]. split.
      + intros n t Hn Et. apply (dget_found _ _ _ Pl Hn) in Et. exact (proj1 (proj2 (proj1 (Forall_forall _ _) B2 _ Et))).
      + intros n Hn. rewrite (HD n Hn). split; [exact Logic.I|reflexivity].
    - intros _ n Hn. rewrite (HD n Hn). reflexivity.
    - constructor; [|constructor]. split; [split; constructor|]. split; [exact Logic.I|]. discriminate.
    - reflexivity.
    - constructor.
    - intros _ _ n _. reflexivity.
    - intros n _. split; [|intros X; discriminate X]. split; [reflexivity|]. intros Hn. rewrite (HD n Hn). auto.
    - discriminate. }
  assert (Good I num (bs_terms s) Q K st [BFrame None []]) as G0.
  { split; [exact KC1|]. split; [intros m _ Hk Hq; exact (KC2 m Hk Hq)|]. split.
    - intros n _ Hk. apply andb_true_iff in Hk as [Hq _]. fold s. rewrite (HD n Hq). constructor.
    - constructor; [|constructor]. intros n e _ _ X. discriminate X. }
  destruct (lmain I num HI k array range log2i tocode fuel s Q K HN HT HL B1 HQ x st None [] [] [] _ (i_term I) s1 t1 H0 G0 Hw (fun n Hn => Hn) ltac:(intros n _ [X|X]; exact X) Hsup E) as (ys & w' & U & V & F & X & G & R).
  assert (cons I (bs_terms s) (l_bst s1)) as HC' by (intros n t K1 K2 K3; exact (HC n t K1 K2 K3)).
  exists (bexec I (BBlock ys) (i_term I)). split; [exact (R HC' eq_refl)|]. fold s in V.
  assert (Post I k array (bs_terms s) Q s (l_bst s1) None [] t1 [] [] w' (i_term I) (bexec I (BBlock ys) (i_term I)) (bassigns (BBlock ys))) as P.
  { refine (post_seq I k array s Q HN HT HL B1 HQ ys s None [] [] [] _ (i_term I) w' (l_bst s1) t1 H0 (proj1 (block_wf s array ys) (unroll_wf s array x ys Hw U)) _ _ F V).
    - intros n Hn. exact (unroll_assigns x ys n U Hn).
    - intros n _ [Y|Y]; exact Y. }
  pose proof (p_inv _ _ _ _ _ _ _ _ _ _ _ _ _ _ _ _ P) as (S1 & V1 & F1 & _).
  split.
  - intros n Hn. pose proof (V1 HC' n Hn) as Vn. unfold tree_of in Vn. destruct (dget (bs_trees (l_bst s1)) n) as [t|]; [exact Vn|]. exact (eq_sym Vn).
  - intros n Hn Ha. apply (p_same _ _ _ _ _ _ _ _ _ _ _ _ _ _ _ _ P n Hn). destruct (bassigns (BBlock ys) n) eqn:Eb; [|reflexivity]. pose proof (unroll_assigns x ys n U Eb) as Y. fold Q in Y. congruence.
Qed.
Print Assumptions C65_loop_values_partial.

(** ** Without the conditions on loop headers. *)
Definition loop_values : Prop := forall I num k array range log2i tocode fuel K st x st',
  ops_sane I -> numbers I num -> bst_ok (l_bst st) -> lwf (l_bst st) array x -> known_constants I num K (lassigns x) (l_opt st) ->
  lvisit_always k array range log2i tocode fuel st x = Ok st' -> consistent I (l_bst st) (l_bst st') ->
  forall v', lruns I x (i_term I) v' -> forall n, lassigns x n = true ->
    match dget (bs_trees (l_bst st')) n with Some t => tree_value I (i_term I n) t = v' n | None => v' n = i_term I n end.
(** Integers. *)
Definition const65 (t : df) : Z :=
  match t with DInt s => match int_eval s with Ok z => z | Err _ => 0 end | DEval (PInt z) _ _ _ => z | _ => 0 end%Z.
Definition I65 (l : list (string * Z)) : interp :=
  Interp Z (-1)%Z (env55 l) const65 (fun o vs => match op_value o vs 0 with Some z => z | None => 0%Z end)
    (fun v m l => if (v =? -1)%Z then (-1)%Z else ((v / 2 ^ l) mod 2 ^ (m - l + 1))%Z) (fun v p => if (v =? -1)%Z then (-1)%Z else 0%Z)
    (fun _ => 0%Z) (fun v => v) (fun _ _ => 0%Z) (fun v => negb (v =? 0)%Z).
Lemma sane65 l : ops_sane (I65 l).
Proof. split; [split; intros; reflexivity|]. split; [reflexivity|]. intros u v. cbn [i_op I65 i_truth op_value]. destruct (negb (u =? 0)%Z || negb (v =? 0)%Z); reflexivity. Qed.
Lemma numbers65 l : numbers (I65 l) (fun z => z).
Proof.
  split; [intros s z _ E; cbn [i_const I65 const65]; rewrite E; reflexivity|]. split; [reflexivity|]. split; [|reflexivity].
  intros o zs z _ E. cbn [i_op I65]. rewrite map_id, E. reflexivity.
Qed.
Lemma consistent65 l s s' : forallb (fun n => existsb (same_name n) (bs_terms s) || match dget (bs_trees s') n with Some t => (env55 l n =? eval (I65 l) t)%Z | None => true end) (bs_terms s') = true ->
  consistent (I65 l) s s'.
Proof.
  rewrite forallb_forall. intros H n t Hn Hx E. specialize (H n Hn). rewrite E in H. apply orb_true_iff in H as [H|H]; [|now apply Z.eqb_eq]. exfalso. apply Hx. apply existsb_exists in H as (m & Hm & X). unfold same_name in X. destruct (chain_dec n m); congruence.
Qed.
Definition range65 (n : chain) : df * df := (DEval (PInt 31) (Some 32%Z) false false, DEval (PInt 0) (Some 32%Z) false false).
Definition term65 (s : string) : chain * term := (g55 s, Term (g55 s) ["Reg"%string] (fst (range65 [])) (snd (range65 [])) None).
Definition start65 (l : list string) (cs : list (string * Z)) : lst :=
  LSt (start55 l) (OptEnv (map term65 l) (map (fun c => (g55 (fst c), DEval (PInt (snd c)) (Some 32%Z) false false)) cs)).
Definition an65 := lvisit_always 40 (fun _ => false) range65 (fun _ => None) (fun _ => Err Unmodelled) 20.
Ltac wf65 := cbn [lwf bwf]; unfold expr_ok; repeat match goal with
  | |- _ /\ _ => split
  | |- True => exact Logic.I
  | |- incl _ _ => apply incl55; vm_compute; reflexivity
  | |- In _ _ => vm_compute; repeat first [left; reflexivity | right]
  | |- Forall _ _ => constructor
  | |- _ = _ => vm_compute; reflexivity
  | |- _ => progress (cbn [branch_free]; unfold branch_free, expr_ok)
  end.
Definition wrong65 (x : lstmt) : Prop :=
  exists l names n v' st', lwf (start55 names) (fun _ => false) x /\ an65 (start65 names []) x = Ok st' /\ consistent (I65 l) (start55 names) (l_bst st') /\
    lruns (I65 l) x (i_term (I65 l)) v' /\ lassigns x n = true /\
    match dget (bs_trees (l_bst st')) n with Some t => tree_value (I65 l) (i_term (I65 l) n) t <> v' n | None => v' n <> i_term (I65 l) n end.
Lemma wrong_refutes x : wrong65 x -> ~ loop_values.
Proof.
  intros (l & names & n & v' & st' & H1 & H2 & H3 & H4 & H5 & H6) H.
  pose proof (H (I65 l) (fun z => z) 40%nat (fun _ => false) range65 (fun _ => None) (fun _ => Err Unmodelled) 20%nat (fun _ => false) (start65 names []) x st' (sane65 l) (numbers65 l) (start55_ok names) H1) as X.
  assert (known_constants (I65 l) (fun z => z) (fun _ => false) (lassigns x) (l_opt (start65 names []))) as KC by (split; [constructor|intros m Y; discriminate Y]).
  specialize (X KC H2 H3 v' H4 n H5). destruct (dget (bs_trees (l_bst st')) n); contradiction.
Qed.
Ltac run65 := repeat match goal with
  | |- lruns _ _ _ _ => constructor
  | |- lruns_opt _ (if ?b then _ else _) _ _ => let c := eval vm_compute in b in change b with c; cbv iota
  | |- lruns_opt _ _ _ _ => constructor
  | |- lruns_all _ [] _ _ => constructor
  | |- lruns_all _ (_ :: _) _ _ => eapply r_cons
  | |- lruns_loop ?I ?c _ _ ?v _ => let b := eval vm_compute in (true_in I v c) in
                                    match b with true => eapply r_round; [vm_compute; reflexivity| |] | false => apply r_end; vm_compute; reflexivity end
  end.
Local Open Scope string_scope.
(** for (i = -2; i; i = i + 1) acc = acc + 1: a negative condition is true, but the analysis makes no round. *)
Definition x65a : lstmt := LFor (g55 "i") (DOp [DInt "2"] Uminus) (w55 "i") (g55 "i") (DOp [w55 "i"; DInt "1"] Plus) (LAsg (g55 "acc") (DOp [w55 "acc"; DInt "1"] Plus)).
Theorem C65_negative_condition_refuted : wrong65 x65a.
Proof.
  exists [("acc", 7); ("_rn0_i", -2)]%Z, ["i"; "acc"], (g55 "acc"). eexists _, _. split; [solve [unfold x65a; wf65]|]. split; [vm_compute; reflexivity|]. split; [apply consistent65; vm_compute; reflexivity|].
  split; [unfold x65a; run65|]. split; [vm_compute; reflexivity|]. vm_compute. discriminate.
Qed.
Print Assumptions C65_negative_condition_refuted.
(** if (c) x = 3; else while (x < 5) x = x + 1: the constant of the first branch decides the rounds in the other. *)
Definition x65b : lstmt := LIf (w55 "c") (Some (LAsg (g55 "x") (DInt "3"))) (Some (LWhile (DOp [w55 "x"; DInt "5"] LessThan) (LAsg (g55 "x") (DOp [w55 "x"; DInt "1"] Plus)))).
Theorem C65_constant_of_other_branch_refuted : wrong65 x65b.
Proof.
  exists [("c", 0); ("x", 10); ("_rn0_x", 3); ("_rn1_x", 11); ("_rn2_x", 12)]%Z, ["c"; "x"], (g55 "x"). eexists _, _. split; [solve [unfold x65b; wf65]|]. split; [vm_compute; reflexivity|]. split; [apply consistent65; vm_compute; reflexivity|].
  split; [unfold x65b; run65|]. split; [vm_compute; reflexivity|]. vm_compute. discriminate.
Qed.
Print Assumptions C65_constant_of_other_branch_refuted.
Theorem C65_loop_values_refuted : ~ loop_values.
Proof. exact (wrong_refutes x65a C65_negative_condition_refuted). Qed.
Print Assumptions C65_loop_values_refuted.

(** Loops in the scope of the theorem: acc = 0; for (i = 0; i < N; i = i + 1) begin acc = acc + a; if (c) m = acc; end
    with a parameter N, and while (i > 1) i = i - 1 afterwards. *)
Definition body65 : lstmt := LBlock [LAsg (g55 "acc") (DOp [w55 "acc"; w55 "a"] Plus); LIf (w55 "c") (Some (LAsg (g55 "m") (w55 "acc"))) None].
Definition x65 : lstmt :=
  LBlock [LAsg (g55 "acc") (DInt "0");
          LFor (g55 "i") (DInt "0") (DOp [w55 "i"; w55 "N"] LessThan) (g55 "i") (DOp [w55 "i"; DInt "1"] Plus) body65;
          LWhile (DOp [w55 "i"; DInt "1"] GreaterThan) (LAsg (g55 "i") (DOp [w55 "i"; DInt "1"] Minus))].
Definition K65 (n : chain) : bool := same_name (g55 "i") n || same_name (g55 "N") n.
Definition P65 (w : env) : Prop :=
  w (g55 "i") = (BHere, true) /\ w (g55 "acc") = (BHere, true) /\ w (g55 "c") = (BVacant, false) /\
  (w (g55 "m") = (BVacant, false) \/ w (g55 "m") = (BHere, false)).
Lemma body65_unrolls zs : unrolls body65 zs -> zs = [BBlock [BAsg (g55 "acc") (DOp [w55 "acc"; w55 "a"] Plus); BIf (w55 "c") (Some (BAsg (g55 "m") (w55 "acc"))) None]].
Proof.
  intros (yss & H & ->). destruct yss as [|z1 [|z2 [|z3 yss]]]; [destruct H|destruct H as (_ & [])| |destruct H as (_ & _ & [])].
  destruct H as (-> & (t' & e' & H1 & H2 & ->) & _). destruct e'; [contradiction|]. destruct t' as [y|]; [|contradiction]. destruct H1 as (zs & -> & ->). reflexivity.
Qed.
Lemma body65_flow zs w w' : unrolls body65 zs -> P65 w -> flow_all zs w w' -> P65 w'.
Proof.
  intros U (H1 & H2 & H3 & H4) F. apply body65_unrolls in U. subst zs. unfold flow_all in F. cbn [bflow obind] in F. rewrite H2 in F. cbn [AsgSpec.obind] in F.
  assert (forall s, s <> "acc" -> set_env w (g55 "acc") (BHere, true) (g55 s) = w (g55 s)) as S.
  { intros s N. unfold set_env. destruct (chain_dec (g55 "acc") (g55 s)) as [X|X]; [|reflexivity]. exfalso. apply N. injection X as X. auto. }
  set (w1 := set_env w (g55 "acc") (BHere, true)) in *.
  assert (w1 (g55 "acc") = (BHere, true)) as A by (unfold w1, set_env; destruct (chain_dec (g55 "acc") (g55 "acc")); congruence).
  assert (readable w1 (bassigns (BIf (w55 "c") (Some (BAsg (g55 "m") (w55 "acc"))) None)) (w55 "c") = true) as R.
  { unfold readable. cbn [names w55 forallb]. rewrite S by discriminate. rewrite H3. reflexivity. }
  rewrite R in F.
  assert (exists f, enter (fun _ => false) w1 (g55 "m") = f /\ fst f <> BFar) as (f & Ef & Nf).
  { unfold enter. rewrite S by discriminate. destruct H4 as [-> | ->]; (eexists; split; [reflexivity|]; cbn; discriminate). }
  rewrite Ef in F. destruct f as [[| | |] f]; try (now destruct Nf); cbn [AsgSpec.obind] in F; injection F as <-; unfold P65, leave; vm_compute bassigns; rewrite !S by discriminate; rewrite A; cbn; auto.
Qed.
Lemma set65 w s s' : set_env w (g55 s) (BHere, true) (g55 s') = if String.eqb s s' then (BHere, true) else w (g55 s').
Proof.
  unfold set_env. destruct (String.eqb_spec s s') as [-> |N]; destruct (chain_dec (g55 _) (g55 _)) as [X|X]; try reflexivity; [congruence|]. exfalso. apply N. injection X as X. exact X.
Qed.
Lemma step65 e w w' : P65 w -> bflow (BAsg (g55 "i") e) w = Some w' -> P65 w'.
Proof.
  intros (H1 & H2 & H3 & H4) F. cbn [bflow] in F. rewrite H1 in F. injection F as <-. unfold P65. rewrite !set65. cbn [String.eqb Ascii.eqb Bool.eqb]. auto.
Qed.
Lemma for65 e : forall rounds w w', Forall (unrolls body65) rounds -> P65 w -> bflows (flat_map (fun zs => [BBlock zs; BAsg (g55 "i") e]) rounds) w = Some w' -> P65 w'.
Proof.
  induction rounds as [|zs l IH]; intros w w' U Hp F; cbn [flat_map bflows app] in F; [injection F as <-; exact Hp|]. inversion U as [|z0 l0 U1 U2]; subst z0 l0.
  destruct (bflow (BBlock zs) w) as [w1|] eqn:F1; [|discriminate F]. cbn [AsgSpec.obind] in F. destruct (bflow (BAsg (g55 "i") e) w1) as [w2|] eqn:F2; [|discriminate F]. cbn [AsgSpec.obind] in F.
  exact (IH w2 w' U2 (step65 e w1 w2 (body65_flow zs w w1 U1 Hp F1) F2) F).
Qed.
Lemma while65 n e : n = g55 "i" -> forall rounds w w', Forall (unrolls (LAsg n e)) rounds -> P65 w -> bflows (map BBlock rounds) w = Some w' -> P65 w'.
Proof.
  intros ->. induction rounds as [|zs l IH]; intros w w' U Hp F; cbn [map bflows] in F; [injection F as <-; exact Hp|]. inversion U as [|z0 l0 U1 U2]; subst z0 l0. cbn [unrolls] in U1. subst zs.
  rewrite block1_flow in F. destruct (bflow (BAsg (g55 "i") e) w) as [w1|] eqn:F1; [|discriminate F]. cbn [AsgSpec.obind] in F. exact (IH w1 w' U2 (step65 e w w1 Hp F1) F).
Qed.
Lemma controlled65 A w s o : A (g55 "N") = false -> P65 w -> arith o = true -> one_operand o = false -> (s = w55 "N" \/ s = DInt "1") -> controlled K65 A w (DOp [w55 "i"; s] o).
Proof.
  intros HA (H1 & _) Ho Ho' Hs. split.
  - destruct Hs as [-> | ->]; cbn [simple w55 forallb length]; rewrite Ho, Ho'; reflexivity.
  - intros n Hn. assert (n = g55 "i" \/ n = g55 "N") as [-> | ->].
    { destruct Hs as [-> | ->]; cbn [names w55 flat_map app In] in Hn; intuition. }
    + split; [vm_compute; reflexivity|]. right. rewrite H1. reflexivity.
    + split; [vm_compute; reflexivity|]. left. exact HA.
Qed.
Lemma body65_safe A w : P65 w -> A (g55 "N") = false -> lsafe K65 A body65 w.
Proof.
  intros Hp HA. pose proof Hp as (H1 & H2 & H3 & H4). unfold body65. cbn [lsafe]. split.
  { split; [rewrite H2; exact Logic.I|]. vm_compute. discriminate. }
  intros ys w' -> F. unfold flow_all in F. rewrite block1_flow in F. cbn [bflow] in F. rewrite H2 in F. injection F as <-. split; [|auto]. split.
  - unfold readable. cbn [names w55 forallb]. rewrite set65. cbn [String.eqb Ascii.eqb Bool.eqb]. rewrite H3. reflexivity.
  - split; [|exact Logic.I]. split; [|vm_compute; discriminate]. unfold enter. rewrite set65. cbn [String.eqb Ascii.eqb Bool.eqb]. destruct H4 as [-> | ->]; exact Logic.I.
Qed.
Lemma supported65 : lsupported K65 x65.
Proof.
  unfold lsupported. set (A := lassigns x65). assert (A (g55 "N") = false) as HA by reflexivity. unfold x65. cbn [lsafe]. split; [split; [exact Logic.I|vm_compute; discriminate]|].
  intros ys w -> F. unfold flow_all in F. rewrite block1_flow in F. cbn [bflow] in F. injection F as <-. set (w0 := set_env _ _ _).
  assert (forall e w, bflow (BAsg (g55 "i") e) w0 = Some w -> P65 w) as P0.
  { intros e w F. cbn [bflow] in F. unfold w0 in F at 1. rewrite set65 in F. cbn [String.eqb Ascii.eqb Bool.eqb] in F. injection F as <-. unfold P65, w0. rewrite !set65. cbn [String.eqb Ascii.eqb Bool.eqb]. auto. }
  assert (forall e e' rounds w, Forall (unrolls body65) rounds -> flow_all (BAsg (g55 "i") e :: flat_map (fun zs => [BBlock zs; BAsg (g55 "i") e']) rounds) w0 w -> P65 w) as P1.
  { intros e e' rounds w U F. unfold flow_all in F. rewrite flow_block in F. cbn [bflows] in F. destruct (bflow (BAsg (g55 "i") e) w0) as [w1|] eqn:F1; [|discriminate F]. cbn [AsgSpec.obind] in F. exact (for65 e' rounds w1 w U (P0 e w1 F1) F). }
  split; [split|].
  - split; [unfold w0; rewrite set65; exact Logic.I|]. intros _. split; [reflexivity|]. intros n [].
  - intros rounds w U F. pose proof (P1 _ _ rounds w U F) as Hp. split; [apply controlled65; auto|]. split; [reflexivity|]. split; [exact (body65_safe A w Hp HA)|].
    intros ys w' U' F'. pose proof (body65_flow ys w w' U' Hp F') as Hp'. split; [rewrite (proj1 Hp'); exact Logic.I|]. intros _. apply controlled65; auto.
  - intros ys w (rounds & U & ->) F. pose proof (P1 _ _ rounds w U F) as Hp. split; [|auto]. intros rounds' w' U' F'. unfold flow_all in F'. rewrite flow_block in F'. pose proof (while65 _ _ eq_refl rounds' w w' U' Hp F') as Hp'.
    split; [apply controlled65; auto|]. split; [reflexivity|]. split; [rewrite (proj1 Hp'); exact Logic.I|]. intros _. apply controlled65; auto.
Qed.
Definition st65 : lst := Eval vm_compute in start65 ["a"; "c"; "N"; "acc"; "i"; "m"] [("N", 3%Z)].
Definition st65' : lst := Eval vm_compute in match an65 st65 x65 with Ok s => s | Err _ => st65 end.
Definition v65 : list (string * Z) := Eval vm_compute in
  fold_left (fun v n => if existsb (same_name n) (bs_terms (l_bst st65)) then v else
               match dget (bs_trees (l_bst st65')) n, n with Some t, [_; x] => (v ++ [(sname x, eval (I65 v) t)])%list | _, _ => v end)
            (bs_terms (l_bst st65')) [("a", 5); ("c", 1); ("N", 3); ("m", 7)]%Z.
Example C65_hypotheses_met :
  ops_sane (I65 v65) /\ numbers (I65 v65) (fun z => z) /\ bst_ok (l_bst st65) /\ lwf (l_bst st65) (fun _ => false) x65 /\ lsupported K65 x65 /\
  known_constants (I65 v65) (fun z => z) K65 (lassigns x65) (l_opt st65) /\ an65 st65 x65 = Ok st65' /\ consistent (I65 v65) (l_bst st65) (l_bst st65') /\
  (length (bs_terms (l_bst st65')) = length (bs_terms (l_bst st65)) + 13)%nat /\
  exists v', lruns (I65 v65) x65 (i_term (I65 v65)) v' /\ v' (g55 "m") = 15%Z /\ v' (g55 "i") = 1%Z.
Proof.
  split; [apply sane65|]. split; [apply numbers65|]. split; [exact (start55_ok ["a"; "c"; "N"; "acc"; "i"; "m"])|]. split; [solve [unfold x65, body65; wf65]|]. split; [exact supported65|].
  split. { split; [repeat constructor; discriminate|]. intros n Hk Ha. assert (n = g55 "N") as ->.
    { unfold K65, same_name in Hk. destruct (chain_dec (g55 "i") n) as [<- |]; [discriminate Ha|]. destruct (chain_dec (g55 "N") n) as [<- |]; [reflexivity|discriminate Hk]. }
    eexists _, _, _, _. split; [vm_compute; reflexivity|]. vm_compute. reflexivity. }
  split; [vm_compute; reflexivity|]. split; [apply consistent65; vm_compute; reflexivity|]. split; [vm_compute; reflexivity|].
  eexists. split; [unfold x65, body65; run65|]. split; vm_compute; reflexivity.
Qed.
