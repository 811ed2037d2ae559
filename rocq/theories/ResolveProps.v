(** ResolveProps.v - C37: parameters are resolved to their values. *)
From Verif Require Import Base ScopeModel ScopeSpec ScopeProofs DfModel BindModel BindSpec BindProofs LitModel LitSpec OptModel OptSpec OptProofs OptProofs2 OptProps WalkModel WalkSpec WalkProofs WalkProps ResolveModel ResolveSpec ResolveProofs.
Local Open Scope Z_scope.

(** Parameters declared before they are used get the values that solve their definitions,
    whatever the length of the chains of dependencies. *)
Theorem C37_parameters_resolved_partial : forall terms binds V,
  plain_names terms binds -> declared_before_use terms binds -> solves terms binds V ->
  exists k0, forall k, (k0 <= k)%nat ->
    (forall C, constants k terms binds = Ok C -> forall n c, no_any n -> dget V n = Some c -> dget C n = Some c) /\
    (all_declared terms binds -> (forall n t, no_any n -> dget terms n = Some t -> parameter t -> exists c, dget V n = Some c) -> exists C, constants k terms binds = Ok C).
Proof.
  intros terms binds V HP HO HS. destruct (enough_depth terms binds V HP HS) as (k0 & H). exists k0. intros k Hk.
  destruct (constants_right terms binds V HP HO HS k (H k Hk)) as [H1 H2]. split.
  - intros C E n c Hn Hc. apply (H1 C E); auto. destruct (HS n c Hn Hc) as (t & b & bs & v & w & _ & _ & Hb & _). eapply in_binds; eauto.
  - intros HA HC. apply H2. intros n bs Hin. destruct (HA n bs Hin) as (t & Ht). exists t. split; [exact Ht|]. intros Hp. apply (HC n t); auto. eapply binds_plain; [exact HP|]. apply in_map_iff. exists (n, bs). auto.
Qed.
Print Assumptions C37_parameters_resolved_partial.

(** What parameters are resolved to satisfies their definitions: each value is what its definition
    folds to with the resolved values, so it is the value of the definition. *)
Theorem C37_never_wrong_partial : forall terms binds k C, plain_names terms binds -> declared_before_use terms binds -> constants k terms binds = Ok C ->
  forall n c, no_any n -> dget C n = Some c ->
  exists t b bs, dget terms n = Some t /\ parameter t /\ dget binds n = Some (b :: bs) /\ optC (OptEnv terms C) k (b_tree b) = Ok c /\
  forall rho, agrees (OptEnv terms C) rho -> fold_safe (OptEnv terms C) rho (b_tree b) -> forall v, value rho (b_tree b) = Some v -> value rho c = Some v.
Proof.
  intros terms binds k C HP HO E n c Hn Hc. destruct (constants_consistent terms binds k HP HO C E) as (_ & H2 & H3).
  destruct (H2 n Hn) as (Hin & t & b & bs & Ht & Hp & Hb); [congruence|]. exists t, b, bs. split; [exact Ht|]. split; [exact Hp|]. split; [exact Hb|].
  destruct (H3 n Hn Hin t b bs Ht Hp Hb) as (x & X1 & X2). rewrite Hc in X2. destruct (isEval x); [|discriminate]. injection X2 as <-. split; [exact X1|].
  intros rho HA HF v Hv. exact (proj1 (C10_folding_preserves_partial _ _ _ _ _ HA HF X1) v Hv).
Qed.
Print Assumptions C37_never_wrong_partial.

(** The ranges of the signals and the assignments afterwards. *)
Theorem C37_ranges_resolved_partial : forall terms binds V,
  plain_names terms binds -> plain_ranges terms -> declared_before_use terms binds -> solves terms binds V ->
  forall n t v w v' w', dget terms n = Some t -> folds (OptEnv terms V) (t_msb t) v w -> folds (OptEnv terms V) (t_lsb t) v' w' ->
  exists k0, forall k, (k0 <= k)%nat -> forall C ts bs, resolveConstant k terms binds = Ok (C, ts, bs) ->
    (exists t', dget ts n = Some t' /\ t_name t' = t_name t /\ t_type t' = t_type t /\ t_msb t' = int_value v w /\ t_lsb t' = int_value v' w') /\
    (forall m c l, no_any m -> dget V m = Some c -> In (m, l) bs -> Forall (fun b => b_tree b = c) l).
Proof.
  intros terms binds V HP HR HO HS n t v w v' w' Ht F1 F2. destruct (C37_parameters_resolved_partial terms binds V HP HO HS) as (k0 & H0).
  destruct (proj1 (folds_optC (OptEnv terms V)) _ _ _ F1) as (k1 & H1). destruct (proj1 (folds_optC (OptEnv terms V)) _ _ _ F2) as (k2 & H2).
  exists (Nat.max k0 (Nat.max k1 k2)). intros k Hk C ts bs E. unfold resolveConstant in E. apply bind_ok in E as (C' & E1 & E). apply bind_ok in E as (ts' & E2 & E). injection E as -> -> <-.
  destruct (H0 k ltac:(lia)) as [HC _]. specialize (HC C E1). split.
  - assert (forall x y z, folds (OptEnv terms V) x y z -> (forall m, In m (signals x) -> no_any m) -> optC (OptEnv terms C) k x = optC (OptEnv terms V) k x) as HL.
    { intros x y z F Hx. apply (optC_local terms C V (fun m => no_any m /\ in_range terms V m)).
      - intros m [K1 [(c & K2) _]]. rewrite K2. auto.
      - intros m tm [K1 [_ K2]] _ Hm HN. destruct (K2 tm Hm HN) as [(a1 & b1 & G1) (a2 & b2 & G2)].
        split; intros j Hj; (split; [apply (HR m tm j Hm), in_or_app; auto|]); [exact (proj1 (folds_signals terms V) _ _ _ G1 j Hj)|exact (proj1 (folds_signals terms V) _ _ _ G2 j Hj)].
      - intros m Hm. split; [auto|]. exact (proj1 (folds_signals terms V) _ _ _ F m Hm). }
    assert (optC (OptEnv terms C) k (t_msb t) = Ok (int_value v w)) as M1. { rewrite (HL _ _ _ F1); [apply H1; lia|]. intros m Hm. apply (HR n t m Ht), in_or_app. auto. }
    assert (optC (OptEnv terms C) k (t_lsb t) = Ok (int_value v' w')) as M2. { rewrite (HL _ _ _ F2); [apply H2; lia|]. intros m Hm. apply (HR n t m Ht), in_or_app. auto. }
    unfold resolved_terms in E2. clear - E2 Ht M1 M2. revert ts E2 Ht.
    set (f := fun p : chain * term => do t <- resolve_term k terms C (snd p); Ok (fst p, t)).
    assert (forall d ts, mapM f d = Ok ts -> dget d n = Some t -> exists t' : term, dget ts n = Some t' /\ t_name t' = t_name t /\ t_type t' = t_type t /\ t_msb t' = int_value v w /\ t_lsb t' = int_value v' w') as K.
    { induction d as [|[m u] r IH]; intros ts E Hd; [discriminate|]. cbn [mapM] in E. apply bind_ok in E as (y & E1 & E). apply bind_ok in E as (ys & E2 & E). injection E as <-. unfold f in E1. cbn [fst snd] in E1. apply bind_ok in E1 as (u' & E1 & EY). injection EY as <-.
      cbn [dget] in *. destruct (chain_eq m n); [|exact (IH ys E2 Hd)]. injection Hd as ->. exists u'. split; [reflexivity|].
      unfold resolve_term in E1. rewrite M1, M2 in E1. cbn [bind] in E1. apply bind_ok in E1 as (dd & _ & E1). injection E1 as <-. auto. }
    intros ts E. apply K; exact E.
  - intros m c l Hm Hc Hin. unfold resolved_binds in Hin. apply in_map_iff in Hin as ([m' l'] & EQ & _). cbn [fst snd] in EQ. injection EQ as -> <-.
    apply Forall_forall. intros b Hb. apply in_map_iff in Hb as (b' & <- & _). unfold resolve_bind. rewrite (HC m c Hm Hc). reflexivity.
Qed.
Print Assumptions C37_ranges_resolved_partial.

(** An example: W is declared in the top module, the parameters of the instance u use it, and the
    range of the signal d uses those. *)
Definition sub (x : string) : chain := [Label "top" STmodule None; Label "u" STmodule None; Label x STsignal None].
Definition par (n : chain) (m l : df) : chain * term := (n, Term n ["Parameter"%string] m l None).
Definition def_ (n : chain) (t : df) : chain * list bind_ := (n, [Bind t n DNone DNone DNone None "parameter"]).
Definition plus (a b : df) : df := DOp [a; b] Plus.
Definition minus (a b : df) : df := DOp [a; b] Minus.
Definition pt : ndict term :=
  [(sub "d", Term (sub "d") ["Wire"%string] (minus (DTerm (sub "N")) (L "1")) (L "0") None);
   par (sub "M") DNone DNone; par (sub "N") (minus (DTerm (nm "W")) (L "1")) (L "0"); par (nm "W") DNone DNone].
Definition pb : ndict (list bind_) :=
  [def_ (sub "M") (DTerm (nm "W")); def_ (sub "N") (plus (DTerm (sub "M")) (L "1")); def_ (nm "W") (L "8")].
Definition pv : ndict df := [(nm "W", int_value 8 32); (sub "M", int_value 8 32); (sub "N", int_value 9 32)].
Example C37_resolved : exists bs, resolveConstant 9 pt pb = Ok (pv,
  [(sub "d", Term (sub "d") ["Wire"%string] (int_value 8 32) (int_value 0 32) None);
   par (sub "M") DNone DNone; par (sub "N") (int_value 7 32) (int_value 0 32); par (nm "W") DNone DNone], bs).
Proof. eexists. vm_compute. reflexivity. Qed.
Lemma plain_of n : forallb (fun x => match stype x with STany => false | _ => true end) n = true -> no_any n.
Proof. intros H. unfold no_any. apply Forall_forall. rewrite forallb_forall in H. intros x Hx K. specialize (H x Hx). rewrite K in H. discriminate. Qed.
Lemma found {A} n : no_any n -> forall d : ndict A, Forall (fun p => no_any (fst p)) d -> forall c, dget d n = Some c -> In (n, c) d.
Proof.
  intros Hn d HF c H. induction d as [|[m x] r IH]; [discriminate|]. inversion HF; subst. cbn [dget fst] in *. destruct (chain_eq m n) eqn:E; [|right; auto]. apply chain_eq_no_any in E; auto. injection H as ->. left. now subst.
Qed.
Lemma digit_folds E c d : In (c, d) digits_of -> d < 10 -> folds E (DInt (String c "")) d 32.
Proof. intros H1 H2. apply (f_int E _ None). now apply digit1. Qed.
Ltac digit := apply digit_folds; [simpl; tauto|lia].
Example C37_hypotheses_met : plain_names pt pb /\ plain_ranges pt /\ declared_before_use pt pb /\ solves pt pb pv /\ all_declared pt pb /\
  (forall n t, no_any n -> dget pt n = Some t -> parameter t -> exists c, dget pv n = Some c) /\
  folds (OptEnv pt pv) (minus (DTerm (sub "N")) (L "1")) 8 32.
Proof.
  assert (plain_names pt pb) as HP.
  { split; [|split]; [repeat constructor; cbn; discriminate|repeat constructor; cbn; discriminate|]. repeat constructor; cbn; intuition discriminate. }
  assert (Forall (fun p => no_any (fst p)) pv) as HV by (repeat constructor; cbn; discriminate).
  assert (folds (OptEnv pt pv) (DTerm (nm "W")) 8 32) as FW by (eapply f_term_plain; [reflexivity|reflexivity|left; reflexivity]).
  assert (folds (OptEnv pt pv) (DTerm (sub "M")) 8 32) as FM by (eapply f_term_plain; [reflexivity|reflexivity|left; reflexivity]).
  assert (folds (OptEnv pt pv) (DTerm (sub "N")) 9 8) as FN.
  { change 8 with (7 - 0 + 1). eapply f_term_range with (wm := 32); [reflexivity|reflexivity|discriminate|discriminate| |digit].
    apply (f_op _ _ Minus [8; 1] [32; 32]); [|reflexivity|exact I]. repeat constructor; auto; digit. }
  split; [exact HP|]. split; [|split; [|split; [|split; [|split]]]].
  - intros n t m H. destruct (dget pt n) as [t'|] eqn:E; [|discriminate]. injection H as <-. unfold pt in E. cbn [dget par] in E.
    repeat (destruct (chain_eq _ n) in E; [injection E as <-; cbn [t_msb t_lsb minus signals flat_map app L]; intros Hm; repeat (destruct Hm as [<-|Hm]; [apply plain_of; reflexivity|]); contradiction|]). discriminate.
  - intros n t b bs m Hn Ht Hp Hb Hm. apply (found n Hn _ (proj1 HP)) in Ht. apply (found n Hn _ (proj1 (proj2 HP))) in Hb. unfold comes_before.
    destruct Hb as [Hb|[Hb|[Hb|[]]]]; injection Hb as <- <- <-; destruct Ht as [Ht|[Ht|[Ht|[Ht|[]]]]]; try discriminate Ht; injection Ht as <-; cbn in Hm;
      repeat (destruct Hm as [<-|Hm]; [split; [cbn; tauto|first [left; cbn; lia|right; split; [reflexivity|exists [], [sub "N"; nm "W"]; cbn; auto]]]|]); contradiction.
  - intros n c Hn Hc. apply (found n Hn _ HV) in Hc. destruct Hc as [Hc|[Hc|[Hc|[]]]]; injection Hc as <- <-.
    + exists (Term (nm "W") ["Parameter"%string] DNone DNone None), (Bind (L "8") (nm "W") DNone DNone DNone None "parameter"), [], 8, 32.
      split; [reflexivity|]. split; [left; left; reflexivity|]. split; [reflexivity|]. split; [digit|reflexivity].
    + exists (Term (sub "M") ["Parameter"%string] DNone DNone None), (Bind (DTerm (nm "W")) (sub "M") DNone DNone DNone None "parameter"), [], 8, 32.
      split; [reflexivity|]. split; [left; left; reflexivity|]. split; [reflexivity|]. split; [exact FW|reflexivity].
    + exists (Term (sub "N") ["Parameter"%string] (minus (DTerm (nm "W")) (L "1")) (L "0") None), (Bind (plus (DTerm (sub "M")) (L "1")) (sub "N") DNone DNone DNone None "parameter"), [], 9, 32.
      split; [reflexivity|]. split; [left; left; reflexivity|]. split; [reflexivity|]. split; [|reflexivity].
      apply (f_op _ _ Plus [8; 1] [32; 32]); [|reflexivity|exact I]. repeat constructor; auto; digit.
  - intros n x Hin. destruct Hin as [H|[H|[H|[]]]]; injection H as <- <-; eexists; reflexivity.
  - intros n t Hn Ht Hp. apply (found n Hn _ (proj1 HP)) in Ht. destruct Ht as [Ht|[Ht|[Ht|[Ht|[]]]]]; injection Ht as <- <-; [|eexists; reflexivity..]. exfalso. destruct Hp as [[Hp|[]]|[Hp|[]]]; discriminate.
  - apply (f_op _ _ Minus [9; 1] [8; 32]); [|reflexivity|exact I]. repeat constructor; auto; digit.
Qed.

(** Full property, without the order of declarations and with the ranges of parameters. *)
Definition parameters_resolved : Prop := forall terms binds V, plain_names terms binds -> solves terms binds V ->
  exists k0, forall k, (k0 <= k)%nat -> forall C, constants k terms binds = Ok C -> forall n c, no_any n -> dget V n = Some c -> dget C n = Some c.
Definition chain_terms : ndict term := [par (nm "A") DNone DNone; par (nm "B") DNone DNone; par (nm "C") DNone DNone].
Definition chain_binds : ndict (list bind_) := [def_ (nm "A") (S_ "B"); def_ (nm "B") (S_ "C"); def_ (nm "C") (L "5")].
Definition chain_values : ndict df := [(nm "A", int_value 5 32); (nm "B", int_value 5 32); (nm "C", int_value 5 32)].
(** A range that uses a parameter declared later: P has 4 bits, so Q = {1'd1, P} = 17, and R = Q. *)
Definition late_terms : ndict term :=
  [par (nm "P") (minus (S_ "W") (L "1")) (L "0"); par (nm "R") DNone DNone; par (nm "Q") DNone DNone; par (nm "W") DNone DNone].
Definition late_binds : ndict (list bind_) := [def_ (nm "P") (L "1"); def_ (nm "R") (S_ "Q"); def_ (nm "Q") (DConcat [L "1'd1"; S_ "P"]); def_ (nm "W") (L "4")].
Theorem C37_parameters_resolved_refuted :
  (* parameter A = B, B = C, C = 5: two passes are too few for A *)
  ~ parameters_resolved /\
  (forall k, (2 <= k)%nat -> constants k chain_terms chain_binds = Ok [(nm "C", int_value 5 32); (nm "B", int_value 5 32)]) /\
  (* R is 2^32 + 1 instead of 17, the value of Q *)
  constants 9 late_terms late_binds = Ok [(nm "P", int_value 1 32); (nm "Q", int_value 17 5); (nm "W", int_value 4 32); (nm "R", int_value (2 ^ 32 + 1) 33)] /\
  (* parameter [3:0] P = 255 is 255 *)
  constants 9 [par (nm "P") (L "3") (L "0")] [def_ (nm "P") (L "255")] = Ok [(nm "P", int_value 255 32)].
Proof.
  assert (forall k, (2 <= k)%nat -> constants k chain_terms chain_binds = Ok [(nm "C", int_value 5 32); (nm "B", int_value 5 32)]) as HK.
  { intros [|[|k]] Hk; [lia|lia|]. reflexivity. }
  split; [|split; [exact HK|split; vm_compute; reflexivity]].
  intros H. assert (solves chain_terms chain_binds chain_values) as HS.
  { intros n c Hn Hc. apply (found n Hn) in Hc; [|repeat constructor; cbn; discriminate]. destruct Hc as [Hc|[Hc|[Hc|[]]]]; injection Hc as <- <-.
    - exists (Term (nm "A") ["Parameter"%string] DNone DNone None), (Bind (S_ "B") (nm "A") DNone DNone DNone None "parameter"), [], 5, 32.
      split; [reflexivity|]. split; [left; left; reflexivity|]. split; [reflexivity|]. split; [|reflexivity]. eapply f_term_plain; [reflexivity|reflexivity|left; reflexivity].
    - exists (Term (nm "B") ["Parameter"%string] DNone DNone None), (Bind (S_ "C") (nm "B") DNone DNone DNone None "parameter"), [], 5, 32.
      split; [reflexivity|]. split; [left; left; reflexivity|]. split; [reflexivity|]. split; [|reflexivity]. eapply f_term_plain; [reflexivity|reflexivity|left; reflexivity].
    - exists (Term (nm "C") ["Parameter"%string] DNone DNone None), (Bind (L "5") (nm "C") DNone DNone DNone None "parameter"), [], 5, 32.
      split; [reflexivity|]. split; [left; left; reflexivity|]. split; [reflexivity|]. split; [|reflexivity]. digit. }
  assert (plain_names chain_terms chain_binds) as HP.
  { split; [|split]; [repeat constructor; cbn; discriminate|repeat constructor; cbn; discriminate|]. repeat constructor; cbn; intuition discriminate. }
  destruct (H chain_terms chain_binds chain_values HP HS) as (k0 & K). assert (2 <= k0 + 2)%nat as HK2 by lia. specialize (K (k0 + 2)%nat ltac:(lia) _ (HK _ HK2) (nm "A") (int_value 5 32)).
  discriminate K; [apply plain_of; reflexivity|reflexivity].
Qed.
Print Assumptions C37_parameters_resolved_refuted.
