(** ResolveProps2.v - C37: the dimensions of arrays are resolved. *)
From Verif Require Import Base ScopeModel ScopeSpec ScopeProofs DfModel BindModel BindSpec BindProofs LitModel LitSpec OptModel OptSpec OptProofs OptProofs2 OptProps WalkModel WalkSpec WalkProofs WalkProps ResolveModel ResolveSpec ResolveProofs ResolveProps.
Local Open Scope Z_scope.

(** The names in the dimensions of arrays are plain, too. *)
Definition plain_dims (terms : ndict term) : Prop :=
  forall n t ds x m, dget terms n = Some t -> t_dims t = Some ds -> In x ds -> In m (signals (fst x) ++ signals (snd x)) -> no_any m.

(** The bounds of every dimension of an array, with the values of parameters. *)
Theorem C37_dimensions_resolved_partial : forall terms binds V,
  plain_names terms binds -> plain_ranges terms -> plain_dims terms -> declared_before_use terms binds -> solves terms binds V ->
  forall n t ds bounds, dget terms n = Some t -> t_dims t = Some ds ->
  Forall2 (fun d b => folds (OptEnv terms V) (fst d) (fst (fst b)) (snd (fst b)) /\ folds (OptEnv terms V) (snd d) (fst (snd b)) (snd (snd b))) ds bounds ->
  exists k0, forall k, (k0 <= k)%nat -> forall C ts bs, resolveConstant k terms binds = Ok (C, ts, bs) ->
    exists t', dget ts n = Some t' /\ t_dims t' = Some (map (fun b => (int_value (fst (fst b)) (snd (fst b)), int_value (fst (snd b)) (snd (snd b)))) bounds).
Proof.
  intros terms binds V HP HR HD HO HS n t ds bounds Ht Hd HF. destruct (C37_parameters_resolved_partial terms binds V HP HO HS) as (k0 & H0).
  assert (exists k1, forall k, (k1 <= k)%nat -> Forall2 (fun d b => optC (OptEnv terms V) k (fst d) = Ok (int_value (fst (fst b)) (snd (fst b))) /\ optC (OptEnv terms V) k (snd d) = Ok (int_value (fst (snd b)) (snd (snd b)))) ds bounds) as (k1 & H1).
  { clear - HF. induction HF as [|d b ds bounds [F1 F2] _ (k1 & IH)]; [exists 0%nat; constructor|].
    destruct (proj1 (folds_optC _) _ _ _ F1) as (k2 & H2). destruct (proj1 (folds_optC _) _ _ _ F2) as (k3 & H3).
    exists (Nat.max k1 (Nat.max k2 k3)). intros k Hk. constructor; [split; [apply H2|apply H3]; lia|apply IH; lia]. }
  exists (Nat.max k0 k1). intros k Hk C ts bs E. unfold resolveConstant in E. apply bind_ok in E as (C' & E1 & E). apply bind_ok in E as (ts' & E2 & E). injection E as -> -> <-.
  destruct (H0 k ltac:(lia)) as [HC _]. specialize (HC C E1). specialize (H1 k ltac:(lia)).
  assert (forall x y z, folds (OptEnv terms V) x y z -> (forall m, In m (signals x) -> no_any m) -> optC (OptEnv terms C) k x = optC (OptEnv terms V) k x) as HL.
  { intros x y z F Hx. apply (optC_local terms C V (fun m => no_any m /\ in_range terms V m)).
    - intros m [K1 [(c & K2) _]]. rewrite K2. auto.
    - intros m tm [K1 [_ K2]] _ Hm HN. destruct (K2 tm Hm HN) as [(a1 & b1 & G1) (a2 & b2 & G2)].
      split; intros j Hj; (split; [apply (HR m tm j Hm), in_or_app; auto|]); [exact (proj1 (folds_signals terms V) _ _ _ G1 j Hj)|exact (proj1 (folds_signals terms V) _ _ _ G2 j Hj)].
    - intros m Hm. split; [auto|]. exact (proj1 (folds_signals terms V) _ _ _ F m Hm). }
  assert (mapM (fun lr => do x <- optC (OptEnv terms C) k (fst lr); do y <- optC (OptEnv terms C) k (snd lr); Ok (x, y)) ds =
          Ok (map (fun b => (int_value (fst (fst b)) (snd (fst b)), int_value (fst (snd b)) (snd (snd b)))) bounds)) as HM.
  { assert (forall x m, In x ds -> In m (signals (fst x) ++ signals (snd x)) -> no_any m) as HN by (intros x m; exact (HD n t ds x m Ht Hd)).
    clear - H1 HF HL HN. induction HF as [|d b ds bounds [F1 F2] _ IH]; [reflexivity|]. inversion H1 as [|? ? ? ? [K1 K2] H1']; subst.
    cbn [mapM map]. rewrite (HL _ _ _ F1), (HL _ _ _ F2); [|intros m Hm; apply (HN d m (or_introl eq_refl)), in_or_app; auto..].
    rewrite K1, K2. cbn [bind]. rewrite (IH H1'); [reflexivity|]. intros x m Hx. apply (HN x m). now right. }
  clear - E2 Ht Hd HM. unfold resolved_terms in E2.
  assert (forall d ts, mapM (fun p : chain * term => do t <- resolve_term k terms C (snd p); Ok (fst p, t)) d = Ok ts -> dget d n = Some t ->
    exists t' : term, dget ts n = Some t' /\ resolve_term k terms C t = Ok t') as K.
  { induction d as [|[m u] r IH]; intros ts0 E Hg; [discriminate|]. cbn [mapM] in E. apply bind_ok in E as (y & E1 & E). apply bind_ok in E as (ys & E3 & E). injection E as <-. cbn [fst snd] in E1. apply bind_ok in E1 as (u' & E1 & EY). injection EY as <-.
    cbn [dget] in *. destruct (chain_eq m n); [|exact (IH ys E3 Hg)]. injection Hg as ->. exists u'. auto. }
  destruct (K _ _ E2 Ht) as (t' & K1 & K2). exists t'. split; [exact K1|]. unfold resolve_term in K2. rewrite Hd in K2.
  apply bind_ok in K2 as (m & _ & K2). apply bind_ok in K2 as (l & _ & K2). rewrite HM in K2. cbn [bind] in K2. injection K2 as <-. reflexivity.
Qed.
Print Assumptions C37_dimensions_resolved_partial.

(** reg [7:0] mem [0:W-1] with parameter W = 8. *)
Definition dt : ndict term :=
  [(nm "mem", Term (nm "mem") ["Reg"%string] (L "7") (L "0") (Some [(L "0", minus (DTerm (nm "W")) (L "1"))])); par (nm "W") DNone DNone].
Definition db : ndict (list bind_) := [def_ (nm "W") (L "8")].
Definition dv : ndict df := [(nm "W", int_value 8 32)].
Example C37_dimensions_met : plain_names dt db /\ plain_ranges dt /\ plain_dims dt /\ declared_before_use dt db /\ solves dt db dv /\
  folds (OptEnv dt dv) (L "0") 0 32 /\ folds (OptEnv dt dv) (minus (DTerm (nm "W")) (L "1")) 7 32 /\
  exists bs, resolveConstant 9 dt db = Ok (dv, [(nm "mem", Term (nm "mem") ["Reg"%string] (int_value 7 32) (int_value 0 32) (Some [(int_value 0 32, int_value 7 32)])); par (nm "W") DNone DNone], bs).
Proof.
  assert (plain_names dt db) as HP.
  { split; [|split]; [repeat constructor; cbn; discriminate|repeat constructor; cbn; discriminate|]. repeat constructor; cbn; intuition discriminate. }
  assert (folds (OptEnv dt dv) (DTerm (nm "W")) 8 32) as FW by (eapply f_term_plain; [reflexivity|reflexivity|left; reflexivity]).
  split; [exact HP|]. split; [|split; [|split; [|split; [|split; [|split]]]]].
  - intros n t m H. unfold dt in H. cbn [dget par] in H.
    repeat (destruct (chain_eq _ n) in H; [injection H as <-; cbn [t_msb t_lsb minus signals flat_map app L]; intros Hm; repeat (destruct Hm as [<-|Hm]; [apply plain_of; reflexivity|]); contradiction|]). discriminate.
  - intros n t ds x m H Hd Hx. unfold dt in H. cbn [dget par] in H.
    repeat (destruct (chain_eq _ n) in H; [injection H as <-; cbn [t_dims] in Hd; first [discriminate Hd|injection Hd as <-; destruct Hx as [<-|[]]; cbn [fst snd minus signals flat_map app L]; intros Hm; repeat (destruct Hm as [<-|Hm]; [apply plain_of; reflexivity|]); contradiction]|]). discriminate.
  - intros n t b bs m Hn Ht Hp Hb Hm. apply (found n Hn _ (proj1 (proj2 HP))) in Hb. apply (found n Hn _ (proj1 HP)) in Ht. destruct Hb as [Hb|[]]. injection Hb as <- <- <-. destruct Ht as [Ht|[Ht|[]]]; [discriminate Ht|]. injection Ht as <-. destruct Hm.
  - intros n c Hn Hc. apply (found n Hn) in Hc; [|repeat constructor; cbn; discriminate]. destruct Hc as [Hc|[]]; injection Hc as <- <-.
    exists (Term (nm "W") ["Parameter"%string] DNone DNone None), (Bind (L "8") (nm "W") DNone DNone DNone None "parameter"), [], 8, 32.
    split; [reflexivity|]. split; [left; left; reflexivity|]. split; [reflexivity|]. split; [digit|reflexivity].
  - digit.
  - apply (f_op _ _ Minus [8; 1] [32; 32]); [|reflexivity|exact I]. repeat constructor; auto; digit.
  - eexists. vm_compute. reflexivity.
Qed.
