(** PbProps2.v - C72: what the assignments to parameters, localparams and supply nets are called. *)
From Verif Require Import Base ScopeModel ScopeSpec ScopeProofs DfModel DfSpec ReorderModel BindModel BindSpec BindProofs AsgModel AsgProofs ExprModel MkModel MkSpec MkProps LitModel ConModel ConSpec ConProofs ConProofs2 ConProofs3 ConProps PbModel PbSpec PbProofs PbProps.
Local Open Scope list_scope.

Section Tag.
  Variables (k : nat) (times : expr -> res Z) (im : chain -> bool).
  Variable W : chain -> string -> Prop.
  Definition tagged (s : store) : Prop := forall n b, no_any n -> In b (getBindlist (s_binds s) n) -> W n (b_param b).
  Lemma put_tagged (P : string -> Prop) : forall l b l', put_bind l b = Ok l' -> (forall x, In x l -> P (b_param x)) -> P (b_param b) -> forall x, In x l' -> P (b_param x).
  Proof.
    induction l as [|c l IH]; intros b l' E H Hb x Hx; cbn [put_bind] in E.
    - apply Ok_inj in E. subst l'. destruct Hx as [<-|[]]. exact Hb.
    - apply bind_ok in E as (e & _ & E). destruct e.
      + apply Ok_inj in E. subst l'. destruct Hx as [<-|Hx]; [exact (H c (or_introl eq_refl))|exact (H x (or_intror Hx))].
      + apply bind_ok in E as (r & E1 & E). apply Ok_inj in E. subst l'. destruct Hx as [<-|Hx]; [exact (H c (or_introl eq_refl))|]. exact (IH b r E1 (fun y Hy => H y (or_intror Hy)) Hb x Hx).
  Qed.
  Lemma name_tagged s ls x p rs e ty s' : plain_store s -> no_any ls -> ls <> [] -> known s (net ls x) <> None -> tagged s -> W (net ls x) ty ->
    bind_name k times im s ls p x rs e ty = Ok s' -> plain_store s' /\ s_terms s' = s_terms s /\ tagged s'.
  Proof.
    intros P Hl Hne K T Ht E. unfold bind_name in E. rewrite (search_self im _ _ _ Hne K) in E. apply bind_ok in E as (t & _ & E). unfold addDataflow in E. cbn [length setDataflow] in E.
    apply bind_ok in E as (b & E1 & E). apply bind_ok in E as (s1 & E2 & E). apply Ok_inj in E. subst s1. apply addBind_shape in E2 as (l' & E2 & ->). cbn [d_name] in *.
    assert (Eb : b_param b = ty). { unfold makeBind in E1. cbv zeta in E1. apply bind_ok in E1 as (? & _ & E1). apply bind_ok in E1 as (? & _ & E1). apply bind_ok in E1 as (? & _ & E1). apply bind_ok in E1 as (? & _ & E1). apply Ok_inj in E1. now subst b. }
    pose proof (no_any_net ls x Hl) as Hn. cbn [s_terms s_binds]. split; [split; [exact (proj1 P)|apply dset_plain; [exact (proj2 P)|exact Hn]]|]. split; [reflexivity|].
    intros n c Nn Hc. cbn [s_binds] in Hc. unfold getBindlist in Hc. rewrite (dget_dset _ _ _ n (proj2 P) Hn Nn) in Hc. destruct (chain_dec (net ls x) n) as [<-|_].
    - refine (put_tagged (W (net ls x)) _ _ _ E2 _ _ c Hc); [intros y Hy; exact (T _ y Hn Hy)|now rewrite Eb].
    - exact (T n c Nn Hc).
  Qed.
  Lemma give_tagged inst parent all : no_any inst -> inst <> [] -> forall args ns s s', plain_store s -> (forall x, In x all -> known s (net inst x) <> None /\ W (net inst x) "parameter"%string) -> tagged s ->
    give k times im s inst parent all ns args = Ok s' -> plain_store s' /\ s_terms s' = s_terms s /\ tagged s'.
  Proof.
    intros Hi Hne. induction args as [|[x e] args IH]; intros ns s s' P K T E; cbn [give] in E; [apply Ok_inj in E; subst; auto|]. destruct ns as [|n ns]; [discriminate|].
    cbv zeta in E. destruct (existsb (String.eqb match x with Some x => x | None => n end) all) eqn:X; [|apply bind_ok in E as (? & _ & E); discriminate].
    apply existsb_exists in X as (y & Hy & X). apply String.eqb_eq in X. rewrite X in E. destruct (K y Hy) as [K1 K2].
    apply bind_ok in E as (s1 & E1 & E). destruct (name_tagged s inst y [] parent e _ s1 P Hi Hne K1 T K2 E1) as (P1 & T1 & G1).
    destruct (IH ns s1 s' P1) as (P2 & T2 & G2); [|exact G1|exact E|split; [exact P2|split; [congruence|exact G2]]].
    intros z Hz. unfold known. rewrite T1. exact (K z Hz).
  Qed.
  Lemma declare_tagged scope p : no_any scope -> scope <> [] -> forall ds s s', plain_store s -> (forall d, In d ds -> known s (net scope (p_name d)) <> None /\ W (net scope (p_name d)) (bind_type (p_kind d))) -> tagged s ->
    declare_all k times im s scope p ds = Ok s' -> plain_store s' /\ tagged s'.
  Proof.
    intros Hs Hne. induction ds as [|d ds IH]; intros s s' P K T E; cbn [declare_all] in E; [apply Ok_inj in E; subst; auto|].
    apply bind_ok in E as (s2 & E1 & E). unfold declare_p in E1. apply bind_ok in E1 as (s1 & E0 & E1).
    unfold add_decl in E0. apply bind_ok in E0 as (m & _ & E0). apply bind_ok in E0 as (l & _ & E0). apply Ok_inj in E0. change (sig scope (p_name d)) with (net scope (p_name d)) in *.
    destruct (K d (or_introl eq_refl)) as [K1 K2].
    destruct (add_similar s (net scope (p_name d)) (Term (net scope (p_name d)) [class_name (p_kind d)] m l None) P (no_any_net _ _ Hs) K1 eq_refl) as (S & P1 & B & _). rewrite E0 in *.
    assert (KS : forall x, known s (net scope x) <> None -> known s1 (net scope x) <> None) by (intros x H C; apply H; now apply (S _ (no_any_net _ _ Hs))).
    assert (T1 : tagged s1) by (intros n b Hn Hb; rewrite B in Hb; exact (T n b Hn Hb)).
    assert (R : plain_store s2 /\ s_terms s2 = s_terms s1 /\ tagged s2).
    { cbv zeta in E1. destruct (p_kind d) eqn:Q; [destruct (getBindlist (s_binds s1) (net scope (p_name d)))| |]; try (exact (name_tagged s1 scope _ p scope _ _ s2 P1 Hs Hne (KS _ K1) T1 K2 E1)).
      apply Ok_inj in E1. subst s2. auto. }
    destruct R as (P2 & T2 & G2). apply (IH s2 s' P2); [|exact G2|exact E]. intros d' Hd'. destruct (K d' (or_intror Hd')) as [A B']. split; [|exact B']. unfold known. rewrite T2. exact (KS _ A).
  Qed.
End Tag.

(** Assignments to localparams are called localparam, those to parameters and supply nets parameter, whether the value
    is given or declared. *)
Theorem C72_kinds : forall k times is_module s inst parent args ds s',
  plain_store s -> no_any inst -> inst <> [] -> NoDup (map p_name ds) -> entered s inst ds ->
  instance_p k times is_module s inst parent args ds = Ok s' ->
  forall d b, In d ds -> In b (getBindlist (s_binds s') (net inst (p_name d))) ->
    b_param b = match p_kind d with KLocal => "localparam"%string | KParam | KSupply => "parameter"%string end.
Proof.
  intros k times im s inst parent args ds s' P Hi Hne ND EN E d b Hd Hb.
  set (W := fun (n : chain) (ty : string) => forall d, In d ds -> n = net inst (p_name d) -> ty = match p_kind d with KLocal => "localparam"%string | KParam | KSupply => "parameter"%string end).
  assert (WI : forall d0, In d0 ds -> W (net inst (p_name d0)) (bind_type (p_kind d0))).
  { intros d0 H0 d1 H1 Q. apply net_inj in Q as [_ Q]. rewrite (same_name _ _ _ ND H0 H1 Q). now destruct (p_kind d1). }
  unfold instance_p in E. rewrite parameters_names in E. apply bind_ok in E as (s1 & E1 & E).
  (* before: no assignments to these names *)
  assert (T0 : forall n c, In n (map (fun d => net inst (p_name d)) ds) -> In c (getBindlist (s_binds s) n) -> False).
  { intros n c Hn Hc. apply in_map_iff in Hn as (d0 & <- & H0). rewrite (proj2 (EN d0 H0)) in Hc. exact Hc. }
  assert (TW : tagged W s). { intros n c Nn Hc d0 H0 ->. exfalso. apply (T0 (net inst (p_name d0)) c); [apply in_map_iff; eauto|exact Hc]. }
  destruct (give_tagged k times im W inst parent (parameters ds) Hi Hne args (parameters ds) s s1 P) as (P1 & T1 & G1); [|exact TW|exact E1|].
  { intros x Hx. apply parameters_in in Hx as (d0 & H0 & K0 & <-). split; [exact (proj1 (EN d0 H0))|]. pose proof (WI d0 H0) as Q. rewrite K0 in Q. exact Q. }
  destruct (declare_tagged k times im W inst [] Hi Hne ds s1 s' P1) as (_ & G2); [|exact G1|exact E|].
  { intros d0 H0. split; [unfold known; rewrite T1; exact (proj1 (EN d0 H0))|exact (WI d0 H0)]. }
  exact (G2 _ b (no_any_net _ _ Hi) Hb d Hd eq_refl).
Qed.
Print Assumptions C72_kinds.
