(** PbProps.v - C72: parameters, localparams and supply nets in the dataflow. *)
From Verif Require Import Base ScopeModel ScopeSpec ScopeProofs DfModel DfSpec DfProofs ReorderModel ReorderSpec ReorderProofs BindModel BindSpec BindProofs AsgModel AsgProofs ExprModel MkModel MkSpec MkProps LitModel ConModel ConSpec ConProofs ConProofs2 ConProofs3 ConProps PbModel PbSpec PbProofs.
Local Open Scope list_scope.

Lemma parameters_names ds : paramnames ds = parameters ds.
Proof. unfold paramnames, parameters. induction ds as [|d ds IH]; [reflexivity|]. cbn [flat_map filter]. destruct (p_kind d); cbn [map app]; now rewrite IH. Qed.
Lemma parameters_in ds x : In x (parameters ds) <-> exists d, In d ds /\ p_kind d = KParam /\ p_name d = x.
Proof.
  unfold parameters. rewrite in_map_iff. split.
  - intros (d & <- & H). apply filter_In in H as [H K]. exists d. split; [exact H|]. split; [|reflexivity]. now destruct (p_kind d).
  - intros (d & H & K & <-). exists d. split; [reflexivity|]. apply filter_In. split; [exact H|]. now rewrite K.
Qed.
Lemma same_name ds d d' : NoDup (map p_name ds) -> In d ds -> In d' ds -> p_name d = p_name d' -> d = d'.
Proof.
  intros ND H H' E. induction ds as [|x ds IH]; [destruct H|]. cbn [map] in ND. inversion ND as [|? ? D1 D2]; subst.
  destruct H as [<-|H], H' as [<-|H']; [reflexivity| | |auto]; exfalso; apply D1; [rewrite E|rewrite <- E]; now apply in_map.
Qed.
(** An instance: its parameters have the given values, read where the instance is; the other parameters, the
    localparams and the supply nets have the declared ones, read in the module. No part of them has another
    value, nothing else changes, and only parameters of the module can be given. *)
Theorem C72_instance_partial : forall k times is_module I count s inst parent names_out names_in args ds s',
  fits I count times -> plain_store s -> no_any inst -> inst <> [] -> no_any parent ->
  named is_module s parent names_out -> named is_module s inst names_in ->
  NoDup (map p_name ds) -> NoDup (map fst (given (parameters ds) args)) -> entered s inst ds ->
  no_calls_in ds -> (forall a, In a args -> no_calls (snd a) = true) ->
  instance_p k times is_module s inst parent args ds = Ok s' ->
  (forall d t v, In d ds -> fst (fst (fst t)) = net inst (p_name d) ->
     (stored I s' t v <-> t = whole I (net inst (p_name d)) /\
        worth I (means I count s names_out) (means I count s names_in) (given (parameters ds) args) d v)) /\
  (forall t v, no_any (fst (fst (fst t))) -> (forall d, In d ds -> fst (fst (fst t)) <> net inst (p_name d)) -> (stored I s' t v <-> stored I s t v)) /\
  incl (map fst (given (parameters ds) args)) (parameters ds) /\ plain_store s'.
Proof.
  intros k times im I count s inst parent no_ ni args ds s' F P Hi Hne Hp No Ni ND NDg EN C Ca E.
  unfold instance_p in E. rewrite parameters_names in E. apply bind_ok in E as (s1 & E1 & E). set (gs := given (parameters ds) args) in *.
  destruct (give_ok k times im I count F inst parent no_ (parameters ds) Hi Hne Hp args (parameters ds) s s1 P No) as (A1 & A2 & A3 & A4); [|exact Ca|exact NDg|exact E1|].
  { intros x Hx. apply parameters_in in Hx as (d & Hd & _ & <-). exact (proj1 (EN d Hd)). }
  fold gs in A3, A4. pose proof (similar_terms _ _ A1) as S1. pose proof (named_similar _ _ _ _ _ Hi S1 Ni) as N1.
  set (held := fun x => existsb (String.eqb x) (map fst gs)).
  assert (HE : forall x, held x = true <-> In x (map fst gs)).
  { intros x. unfold held. rewrite existsb_exists. split; [intros (y & Hy & Ey); apply String.eqb_eq in Ey; now subst|intros H; exists x; split; [exact H|apply String.eqb_refl]]. }
  assert (HH : forall d, In d ds -> held (p_name d) = false <-> getBindlist (s_binds s1) (net inst (p_name d)) = []).
  { intros d Hd. split.
    - intros H. apply (effect_bare I s _ s1 _ A3 (no_any_net _ _ Hi)); [|exact (proj2 (EN d Hd))].
      intros C'. apply in_map_iff in C' as (w & Ew & Hw). apply in_map_iff in Hw as (g & <- & Hg). cbn [fst whole] in Ew. unfold whole in Ew. cbn [fst] in Ew. apply net_inj in Ew as [_ Ew].
      assert (held (p_name d) = true) as K; [|congruence]. apply HE. rewrite <- Ew. now apply in_map.
    - intros H. destruct (held (p_name d)) eqn:K; [|reflexivity]. exfalso. apply HE in K. apply in_map_iff in K as (g & Eg & Hg).
      refine (proj1 (bare_stored I s1 _) H (i_none I) (i_none I) (i_none I) (means I count s no_ (snd g)) _). rewrite <- Eg.
      apply (proj1 A3). apply in_map_iff. exists g. split; [reflexivity|exact Hg]. }
  destruct (declare_all_ok k times im I count F inst [] ni Hi Hne (Forall_nil _) held ds s1 s' A2 N1 ND C) as (B1 & B2 & B3 & _ & _); [|exact E|].
  { intros d Hd. split; [intros C'; apply (proj1 (EN d Hd)); now apply (S1 _ (no_any_net _ _ Hi))|]. intros _. exact (HH d Hd). }
  rewrite (all_writes_similar im I count inst ni Hi s s1 held ds Ni S1) in B3.
  assert (TG : forall w, In w (gwrites I count inst no_ s gs) -> exists d e, In d ds /\ p_kind d = KParam /\ In (p_name d, e) gs /\ w = (whole I (net inst (p_name d)), means I count s no_ e)).
  { intros w Hw. apply in_map_iff in Hw as ([x e] & <- & Hg). destruct (proj1 (parameters_in ds x) (A4 x (in_map fst _ _ Hg))) as (d & Hd & Kd & <-). exists d, e. auto. }
  assert (TD : forall w, In w (all_writes I count inst ni s held ds) -> exists d, In d ds /\ (p_kind d = KParam -> ~ In (p_name d) (map fst gs)) /\ w = (whole I (net inst (p_name d)), means I count s ni (p_value d))).
  { intros w Hw. apply in_flat_map in Hw as (d & Hd & Hw). exists d. split; [exact Hd|]. split; [|exact (writes_key _ _ _ _ _ _ _ _ Hw)].
    intros Kd C'. unfold writes_of in Hw. rewrite Kd, (proj2 (HE _) C') in Hw. destruct Hw. }
  assert (EF : effect I s (gwrites I count inst no_ s gs ++ all_writes I count inst ni s held ds) s').
  { refine (effect_app I _ _ _ _ _ A3 B3 _ _).
    - apply Forall_forall. intros w Hw. destruct (TG w Hw) as (d & e & _ & _ & _ & ->). exact (no_any_net _ _ Hi).
    - intros t Ht Ht'. apply in_map_iff in Ht as (w & <- & Hw). apply in_map_iff in Ht' as (w' & Ew & Hw').
      destruct (TG w Hw) as (d & e & Hd & Kd & Hg & ->). destruct (TD w' Hw') as (d' & Hd' & Kd' & ->). unfold whole in Ew. cbn [fst] in Ew. injection Ew as Ew. apply net_inj in Ew as [_ Ew].
      assert (d' = d) as -> by exact (same_name _ _ _ ND Hd' Hd Ew). exact (Kd' Kd (in_map fst _ _ Hg)). }
  destruct EF as (F1 & F2 & F3). split; [|split; [|split; [exact A4|exact B2]]].
  - intros d t v Hd Et. split.
    + intros S. assert (Nt : no_any (fst (fst (fst t)))) by (rewrite Et; exact (no_any_net _ _ Hi)). destruct (F3 t v Nt S) as [K|K].
      * apply in_app_iff in K as [K|K].
        -- destruct (TG _ K) as (d' & e & Hd' & Kd & Hg & Ew). injection Ew as -> ->. cbn [fst] in Et. apply net_inj in Et as [_ Et].
           assert (d' = d) as -> by exact (same_name _ _ _ ND Hd' Hd Et). split; [reflexivity|]. now apply worth_given.
        -- destruct (TD _ K) as (d' & Hd' & Kd & Ew). injection Ew as -> ->. cbn [fst] in Et. apply net_inj in Et as [_ Et].
           assert (d' = d) as -> by exact (same_name _ _ _ ND Hd' Hd Et). split; [reflexivity|].
           destruct (p_kind d) eqn:Q; [apply worth_default; auto|apply worth_fixed; congruence|apply worth_fixed; congruence].
      * exfalso. destruct t as [[[n a] b] c]. cbn [fst] in Et. subst n. exact (proj1 (bare_stored I s _) (proj2 (EN d Hd)) _ _ _ _ K).
    + intros [-> W]. apply F1. apply in_app_iff. destruct W as [d e Kd Hg|d Kd Hg|d Kd].
      * left. apply in_map_iff. exists (p_name d, e). split; [reflexivity|exact Hg].
      * right. apply in_flat_map. exists d. split; [exact Hd|]. unfold writes_of. rewrite Kd. destruct (held (p_name d)) eqn:Q; [apply HE in Q; contradiction|]. left. reflexivity.
      * right. apply in_flat_map. exists d. split; [exact Hd|]. unfold writes_of. destruct (p_kind d); [congruence| |]; left; reflexivity.
  - intros t v Nt H. apply F2; [exact Nt|]. intros C'. apply in_map_iff in C' as (w & <- & Hw). apply in_app_iff in Hw as [Hw|Hw].
    + destruct (TG _ Hw) as (d & e & Hd & _ & _ & ->). exact (H d Hd eq_refl).
    + destruct (TD _ Hw) as (d & Hd & _ & ->). exact (H d Hd eq_refl).
Qed.
Print Assumptions C72_instance_partial.

(** Declarations outside of an instance with parameters (the top module; a scope inside a module whose
    conditions hold): every name has the declared value. *)
Theorem C72_scope_partial : forall k times is_module I count s scope p names ds s',
  fits I count times -> plain_store s -> no_any scope -> scope <> [] -> taken I p -> named is_module s scope names ->
  NoDup (map p_name ds) -> entered s scope ds -> no_calls_in ds ->
  declare_all k times is_module s scope p ds = Ok s' ->
  (forall d t v, In d ds -> fst (fst (fst t)) = net scope (p_name d) ->
     (stored I s' t v <-> t = whole I (net scope (p_name d)) /\ v = means I count s names (p_value d))) /\
  (forall t v, no_any (fst (fst (fst t))) -> (forall d, In d ds -> fst (fst (fst t)) <> net scope (p_name d)) -> (stored I s' t v <-> stored I s t v)) /\
  plain_store s'.
Proof.
  intros k times im I count s scope p names ds s' F P Hs Hne HP N ND EN C E.
  destruct (declare_all_ok k times im I count F scope p names Hs Hne HP (fun _ => false) ds s s' P N ND C) as (B1 & B2 & (F1 & F2 & F3) & _); [|exact E|].
  { intros d Hd. split; [exact (proj1 (EN d Hd))|]. intros _. split; [intros _; exact (proj2 (EN d Hd))|reflexivity]. }
  assert (W : forall d, writes_of I count scope names s (fun _ => false) d = [(whole I (net scope (p_name d)), means I count s names (p_value d))]) by (intros d; unfold writes_of; now destruct (p_kind d)).
  split; [|split; [|exact B2]].
  - intros d t v Hd Et. split.
    + intros S. destruct (F3 t v) as [K|K]; [rewrite Et; exact (no_any_net _ _ Hs)|exact S| |].
      * apply in_flat_map in K as (d' & Hd' & K). rewrite W in K. destruct K as [K|[]]. injection K as <- <-. cbn [fst whole] in Et. unfold whole in Et. cbn [fst] in Et. apply net_inj in Et as [_ Et].
        assert (d' = d) as -> by exact (same_name _ _ _ ND Hd' Hd Et). split; reflexivity.
      * exfalso. destruct t as [[[n a] b] c]. cbn [fst] in Et. subst n. exact (proj1 (bare_stored I s _) (proj2 (EN d Hd)) _ _ _ _ K).
    + intros [-> ->]. apply F1. apply in_flat_map. exists d. split; [exact Hd|]. rewrite W. left. reflexivity.
  - intros t v Nt H. apply F2; [exact Nt|]. intros C'. apply in_map_iff in C' as (w & <- & Hw). apply in_flat_map in Hw as (d & Hd & Hw). rewrite W in Hw. destruct Hw as [<-|[]]. exact (H d Hd eq_refl).
Qed.
Print Assumptions C72_scope_partial.

(** The range and the kind of a declared name: [31:0] for parameters and localparams without a range, one bit for
    supply nets, the declared one otherwise; the declarations of other names do not change. *)
Theorem C72_ranges_partial : forall k times is_module I count s inst parent names_out names_in args ds s',
  fits I count times -> plain_store s -> no_any inst -> inst <> [] -> no_any parent ->
  named is_module s parent names_out -> named is_module s inst names_in ->
  NoDup (map p_name ds) -> NoDup (map fst (given (parameters ds) args)) -> entered s inst ds ->
  no_calls_in ds -> (forall a, In a args -> no_calls (snd a) = true) ->
  instance_p k times is_module s inst parent args ds = Ok s' ->
  (forall d o, In d ds -> known s (net inst (p_name d)) = Some o -> exists t, known s' (net inst (p_name d)) = Some t /\
     In (match p_kind d with KParam => "Parameter" | KLocal => "Localparam" | KSupply => "Supply" end)%string (t_type t) /\ incl (t_type o) (t_type t) /\ t_dims t = t_dims o /\
     (t_msb o = DNone -> t_lsb o = DNone -> range_of I (means I count s names_in) d (eval I (t_msb t)) (eval I (t_lsb t)))) /\
  (forall n, no_any n -> (forall d, In d ds -> n <> net inst (p_name d)) -> known s' n = known s n).
Proof.
  intros k times im I count s inst parent no_ ni args ds s' F P Hi Hne Hp No Ni ND NDg EN C Ca E.
  unfold instance_p in E. rewrite parameters_names in E. apply bind_ok in E as (s1 & E1 & E). set (gs := given (parameters ds) args) in *.
  destruct (give_ok k times im I count F inst parent no_ (parameters ds) Hi Hne Hp args (parameters ds) s s1 P No) as (A1 & A2 & A3 & A4); [|exact Ca|exact NDg|exact E1|].
  { intros x Hx. apply parameters_in in Hx as (d & Hd & _ & <-). exact (proj1 (EN d Hd)). }
  pose proof (similar_terms _ _ A1) as S1. pose proof (named_similar _ _ _ _ _ Hi S1 Ni) as N1.
  destruct (declare_all_ok k times im I count F inst [] ni Hi Hne (Forall_nil _) (fun x => match getBindlist (s_binds s1) (net inst x) with [] => false | _ => true end) ds s1 s' A2 N1 ND C) as (_ & _ & _ & B4 & B5); [|exact E|].
  { intros d Hd. split; [intros C'; apply (proj1 (EN d Hd)); now apply (S1 _ (no_any_net _ _ Hi))|]. intros _. destruct (getBindlist (s_binds s1) (net inst (p_name d))); split; congruence. }
  assert (KS : forall n, known s1 n = known s n) by (intros n; unfold known; now rewrite A1). split.
  - intros d o Hd Ko. destruct (B4 d Hd) as (o' & t & G1 & (G2 & G3 & G4 & m & l & G5 & G6 & G7) & G8). rewrite KS, Ko in G1. injection G1 as <-.
    exists t. split; [exact G8|]. split; [apply G3; right; now destruct (p_kind d)|]. split; [intros x Hx; apply G3; auto|]. split; [exact G4|]. intros Hm Hl. rewrite G6, G7, Hm, Hl. cbn [is_none].
    unfold range_of in *. destruct (p_width d) as [[a b]|]; [|exact G5]. now rewrite !(means_similar I count im s s1 inst ni _ Hi Ni S1) in G5.
  - intros n Hn H. rewrite B5, KS; [reflexivity|exact Hn|]. intros C'. apply in_map_iff in C' as (d & Ed & Hd). exact (H d Hd (eq_sym Ed)).
Qed.
Print Assumptions C72_ranges_partial.

(** ** An instance u #(.Q(c + 1)) in module top, of a module with parameter P = 7, Q = 3, localparam [P:0] L = Q and
    a supply net g = 0. *)
Local Open Scope string_scope.
Local Open Scope list_scope.
Definition T72 (sc : chain) (x : string) (ty : string) : chain * term := (net sc x, Term (net sc x) [ty] DNone DNone None).
Definition s72 : store := Store [T72 top59 "c" "Wire"; T72 u59 "P" "Parameter"; T72 u59 "Q" "Parameter"; T72 u59 "L" "Localparam"; T72 u59 "g" "Supply"] [].
Definition ds72 : list pdecl :=
  [PDecl KParam "P" (XInt "7") (Some (XInt "1", XInt "0")); PDecl KParam "Q" (XInt "3") None; PDecl KLocal "L" (XId "Q") (Some (XId "P", XInt "0"));
   PDecl KSupply "g" (XInt "0") None].
Definition args72 : list (option string * expr) := [(Some "Q", XBin Plus (XId "c") (XInt "1"))].
Lemma fits72 : fits I59 (fun _ => 0%Z) times59.
Proof. destruct fair59 as (A & B & C & _ & D & _). split; [exact A|]. split; [exact B|]. split; [exact C|exact D]. Qed.
Example C72_instance_met : (exists s', instance_p 9 times59 mod59 s72 u59 top59 args72 ds72 = Ok s' /\
    map (fun x => map (fun b => (b_tree b, b_param b)) (getBindlist (s_binds s') (net u59 x))) ["P"; "Q"; "L"; "g"] =
      [[(DInt "7", "parameter")]; [(DOp [DTerm (net top59 "c"); DInt "1"] Plus, "parameter")]; [(DTerm (net u59 "Q"), "localparam")]; [(DInt "0", "parameter")]] /\
    known s' (net u59 "L") = Some (Term (net u59 "L") ["Localparam"] (DTerm (net u59 "P")) (DInt "0") None)) /\
  plain_store s72 /\ no_any u59 /\ no_any top59 /\ (exists n, named mod59 s72 top59 n) /\ (exists n, named mod59 s72 u59 n) /\ NoDup (map p_name ds72) /\
  given (parameters ds72) args72 = [("Q", XBin Plus (XId "c") (XInt "1"))] /\ entered s72 u59 ds72 /\ no_calls_in ds72.
Proof.
  split; [eexists; split; [vm_compute; reflexivity|split; vm_compute; reflexivity]|].
  split; [split; [|constructor]; repeat (constructor; [repeat (constructor; [discriminate|]); constructor|]); constructor|].
  split; [repeat (constructor; [discriminate|]); constructor|]. split; [repeat (constructor; [discriminate|]); constructor|].
  split; [apply names_exist|]. split; [apply names_exist|].
  split; [cbn; repeat (constructor; [cbn; intros C; repeat (destruct C as [C|C]; [discriminate C|]); exact C|]); constructor|]. split; [reflexivity|]. split.
  - intros d Hd. repeat (destruct Hd as [<-|Hd]; [split; [vm_compute; discriminate|reflexivity]|]). destruct Hd.
  - intros d Hd. repeat (destruct Hd as [<-|Hd]; [repeat split|]). destruct Hd.
Qed.

(** ** Where the full property fails *)
(** parameter [1:0] P = 7 is worth 7, which no two bits can be. *)
Theorem C72_value_fits_range_refuted : match declare_all 9 times59 mod59 s72 u59 [] [PDecl KParam "P" (XInt "7") (Some (XInt "1", XInt "0"))] with
  | Ok s => (exists t, known s (net u59 "P") = Some t /\ eval I59 (t_msb t) = Some 1%Z /\ eval I59 (t_lsb t) = Some 0%Z) /\
      forall v, stored I59 s (whole I59 (net u59 "P")) v <-> v = Some 7%Z
  | Err _ => False end.
Proof.
  vm_compute declare_all. split; [eexists; vm_compute; split; [reflexivity|split; reflexivity]|]. intros v. split.
  - intros (b & Hb & _ & _ & _ & Ev). vm_compute in Hb. destruct Hb as [<-|[]]. rewrite <- Ev. reflexivity.
  - intros ->. eexists. split; [vm_compute; left; reflexivity|]. repeat split.
Qed.
Print Assumptions C72_value_fits_range_refuted.
(** A wrong parameter name is reported as such, but not if the module has no parameters, or if the value is not
    known. *)
Theorem C72_wrong_name_refuted :
  instance_p 9 times59 mod59 s72 u59 top59 [(Some "R", XInt "1")] ds72 = Err FormatError /\
  instance_p 9 times59 mod59 s72 u59 top59 [(Some "R", XInt "1")] [PDecl KLocal "L" (XInt "1") None] = Err IndexError /\
  instance_p 9 times59 mod59 s72 u59 top59 [(Some "R", XId "x")] ds72 = Err DefinitionError.
Proof. split; [vm_compute; reflexivity|]. split; vm_compute; reflexivity. Qed.
Print Assumptions C72_wrong_name_refuted.
