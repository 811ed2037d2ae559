(** ConProofs3.v - continuous assignments, connections and gates. *)
From Verif Require Import Base ScopeModel ScopeSpec ScopeProofs DfModel DfSpec DfProofs ReorderModel ReorderSpec ReorderProofs BindModel BindSpec BindProofs AsgModel AsgProofs ExprModel MkModel MkSpec MkProps LitModel ConModel ConSpec ConProofs ConProofs2.
Local Open Scope list_scope.

Lemma NoDup_app_l {A} (a b : list A) : NoDup (a ++ b) -> NoDup a.
Proof. induction a as [|x a IH]; cbn [app]; intros H; [constructor|]. inversion H; subst. constructor; [|auto]. intros K. apply H2. apply in_app_iff. auto. Qed.
Lemma NoDup_app_r {A} (a b : list A) : NoDup (a ++ b) -> NoDup b.
Proof. induction a as [|x a IH]; cbn [app]; intros H; [exact H|]. inversion H; auto. Qed.
Lemma NoDup_app_disj {A} (a b : list A) : NoDup (a ++ b) -> forall x, In x a -> ~ In x b.
Proof. induction a as [|y a IH]; cbn [app]; intros H x Hx; [destruct Hx|]. inversion H as [|? ? N1 N2]; subst. destruct Hx as [<-|Hx]; [|auto]. intros K. apply N1. apply in_app_iff. auto. Qed.

Section Con.
  Variables (k : nat) (opt : df -> res df) (times : expr -> res Z) (is_module : chain -> bool) (nettype : string).
  Variables (I : interp) (num : Z -> dom I) (count : expr -> Z).
  Hypothesis HN : none_strict I.
  Hypothesis HI : by_name I.
  Hypothesis HC : plain_casts I.
  Hypothesis HO : sound I opt.
  Hypothesis HT : forall x c, times x = Ok c -> count x = c.
  Hypothesis HZ : numbers I num.
  Variables (s : store) (scope : chain) (names : string -> chain).
  Hypothesis Hs : no_any scope.
  Hypothesis Hne : scope <> [].
  Hypothesis Hnames : named is_module s scope names.
  Notation means := (means I count s names).
  Notation Inv es := (Inv is_module nettype s scope es).

  Lemma assign_ok es cur p l e s' : Inv es cur -> binds_plain cur -> holds I p = true -> incl (flat l) es -> forallb no_calls (flat l) = true -> no_calls e = true ->
    assign k opt times is_module nettype cur scope p l e = Ok s' ->
    Inv es s' /\ Forall (fun x => exists t, place I count s names x t) (flat l) /\
    forall ws, writes I num count s names (means e) (flat l) ws -> NoDup (map fst ws) -> effect I cur ws s' /\ binds_plain s'.
  Proof.
    intros HV BP HP Hes N1 N2 E. unfold assign in E. apply bind_ok in E as ([s1 ds] & E1 & E). apply bind_ok in E as (t & E2 & E). cbn [fst snd] in *.
    pose proof (places_ok k opt times is_module nettype I count HC HO HT s scope es names Hs Hne Hnames _ _ _ _ HV Hes N1 E1) as PL.
    destruct (destinations_ok k opt times is_module nettype I num count HN HC HO HT HZ s scope es names Hs Hne Hnames _ _ _ _ HV Hes N1 E1) as (A & B & C).
    pose proof (tree_means k times is_module nettype I count HN HC HT s scope es names Hs Hnames _ _ _ A N2 E2) as M.
    assert (BP1 : binds_plain s1) by (unfold binds_plain; rewrite B; exact BP).
    assert (TM : s_terms s' = s_terms s1). { clear -E. unfold addDataflow in E. revert E. generalize (length ds) as nd. revert s1. induction ds as [|d ds IH]; intros s1 nd E; cbn [setDataflow] in E; [injection E as <-; reflexivity|].
      apply bind_ok in E as (b & _ & E). apply bind_ok in E as (s2 & E2 & E). apply addBind_shape in E2 as (l' & _ & ->). exact (IH _ _ E). }
    split; [exact (inv_terms _ _ _ _ _ _ _ A TM)|]. split; [exact PL|]. intros ws W ND. rewrite <- M in W. destruct (C t ws W) as [C1 C2].
    destruct (dataflow_effect k I HN HI _ _ _ _ _ _ _ HP BP1 C1 C2 ND E) as (F1 & F2 & _). split; [exact (effect_binds I _ _ _ _ B F1)|exact F2].
  Qed.

  Lemma place_plain e t : place I count s names e t -> no_any (key I t).
  Proof. intros H. destruct H as [e n i H|e n m l i H]; cbn; destruct H; apply (names_plain is_module s scope Hs names Hnames). Qed.

  (** ** connections *)
  Variables (inst : chain) (pr : path) (i : option Z) (es : list expr).
  Hypothesis Hi : no_any inst.
  Hypothesis Hm : is_module inst = true.
  Hypothesis Hp : holds I pr = true.
  Notation connection := (connection I count s inst names i).
  Notation connections := (connections I count s inst names i).

  Definition is_dir (t : string) : bool := existsb (String.eqb t) ["Input"; "Output"; "Inout"]%string.
  Lemma link_dirs port arg : forall types cur, link k opt times is_module nettype cur inst scope pr port arg types = link k opt times is_module nettype cur inst scope pr port arg (filter is_dir types).
  Proof.
    induction types as [|t r IH]; intros cur; [reflexivity|]. cbn [filter]. destruct (is_dir t) eqn:D.
    - cbn [link]. match goal with |- bind ?a _ = _ => destruct a end; [|reflexivity]. cbn [bind]. apply IH.
    - cbn [link]. unfold is_dir in D. cbn [existsb] in D. apply orb_false_iff in D as [D1 D]. apply orb_false_iff in D as [D2 D]. apply orb_false_iff in D as [D3 _]. rewrite D1, D2, D3. cbn [orb]. destruct arg; cbn [bind]; apply IH.
  Qed.
  Lemma pick_indexed e : indexed i e = pick i e.
  Proof. reflexivity. Qed.
  Lemma pick_calls e : no_calls e = true -> no_calls (pick i e) = true.
  Proof. intros H. destruct i; cbn [pick no_calls]; [rewrite H; reflexivity|exact H]. Qed.

  Lemma input_ok cur e t port s' : Inv es cur -> binds_plain cur -> no_any port -> no_calls e = true -> getTree k times is_module cur scope e = Ok t ->
    addDataflow k cur [Dest port DNone DNone DNone DNone DNone] t [] "" = Ok s' ->
    Inv es s' /\ binds_plain s' /\ effect I cur [((port, i_none I, i_none I, i_none I), means e)] s'.
  Proof.
    intros HV BP NP N E1 E. pose proof (tree_means k times is_module nettype I count HN HC HT s scope es names Hs Hnames _ _ _ HV N E1) as M.
    destruct (dataflow_effect k I HN HI cur [Dest port DNone DNone DNone DNone DNone] t [] "" s' [((port, i_none I, i_none I, i_none I), means e)]) as (F1 & F2 & F3); auto.
    - cbn [map rev app length]. unfold dtgt, dval. cbn [Nat.ltb Nat.leb d_name d_msb d_lsb d_ptr eval]. now rewrite M.
    - cbn [map]. constructor; [intros []|constructor].
    - split; [exact (inv_terms _ _ _ _ _ _ _ HV F3)|]. auto.
  Qed.
  Lemma output_ok cur e t port cur' ds s' q : Inv es cur -> binds_plain cur -> In e es -> no_calls e = true -> getDestinations k opt times is_module nettype cur scope (LOne e) = Ok (cur', ds) ->
    reorder k (DTerm port) = Ok t -> addDataflow k cur' ds t pr "" = Ok s' -> place I count s names e q ->
    Inv es s' /\ binds_plain s' /\ effect I cur [(q, i_term I port)] s'.
  Proof.
    intros HV BP He N E1 E2 E Q. apply (reorder_eval I HN) in E2. cbn [eval] in E2.
    assert (Hes : incl (flat (LOne e)) es) by (intros x [<-|[]]; exact He). assert (N1 : forallb no_calls (flat (LOne e)) = true) by (cbn; now rewrite N).
    destruct (destinations_ok k opt times is_module nettype I num count HN HC HO HT HZ s scope es names Hs Hne Hnames _ _ _ _ HV Hes N1 E1) as (A & B & C).
    assert (BP1 : binds_plain cur') by (unfold binds_plain; rewrite B; exact BP).
    destruct (C t [(q, i_term I port)]) as [C1 C2]; [rewrite E2; constructor; exact Q|].
    destruct (dataflow_effect k I HN HI _ _ _ _ _ _ _ Hp BP1 C1 C2 ltac:(cbn [map]; constructor; [intros []|constructor]) E) as (F1 & F2 & F3).
    split; [exact (inv_terms _ _ _ _ _ _ _ A F3)|]. split; [exact F2|exact (effect_binds I _ _ _ _ B F1)].
  Qed.

  Lemma port_here cur q port : searchTerminal is_module cur inst q = Some port -> port = net inst q.
  Proof.
    intros H. apply search_visible in H as (up & down & E & N & -> & K & F). destruct down as [|x down]; [rewrite app_nil_r in E; now subst|].
    destruct (F (x :: down) [] ltac:(now rewrite app_nil_r) ltac:(discriminate)) as [_ C]. rewrite <- E in C. congruence.
  Qed.
  Definition args (cs : list conn) : list expr := flat_map (fun c => match c_arg c with Some e => [pick i e] | None => [] end) cs.
  Lemma conn_ok cur c q s' w : Inv es cur -> binds_plain cur -> (forall e, c_arg c = Some e -> In (pick i e) es /\ no_calls e = true) ->
    addInstancePortBind k opt times is_module nettype cur inst scope pr c q i = Ok s' ->
    connection c (match c_port c with Some p => p | None => q end) w -> NoDup (map fst w) ->
    Inv es s' /\ binds_plain s' /\ effect I cur w s' /\ Forall (fun x => no_any (key I (fst x))) w.
  Proof.
    intros HV BP Ha E W ND. unfold addInstancePortBind in E. cbv zeta in E.
    set (pn := match c_port c with Some p => p | None => q end) in *. destruct (searchTerminal is_module cur inst pn) as [port|] eqn:S; [|discriminate]. apply port_here in S as ->.
    destruct (dget (s_terms cur) (net inst pn)) as [tt_|] eqn:K; [|discriminate]. assert (NP : no_any (net inst pn)) by now apply no_any_net.
    assert (KK : forall t, known s (net inst pn) = Some t -> t_type tt_ = t_type t). { intros t Ht. destruct HV as [[D1 _] _]. pose proof (D1 _ _ NP Ht) as K'. unfold known in K'. congruence. }
    destruct W as [Hn|e t Hc Ht Hd|e t qq Hc Ht Hd Hq|e t qq Hc Ht Hd Hq].
    - rewrite Hn in E. assert (SK : forall types c0, link k opt times is_module nettype c0 inst scope pr (net inst pn) None types = Ok c0) by (induction types as [|x r IH]; intros c0; [reflexivity|exact (IH c0)]).
      rewrite SK in E. injection E as <-. split; [exact HV|]. split; [exact BP|]. split; [now apply effect_nil|constructor].
    - rewrite Hc in E. destruct (Ha _ Hc) as [He Nc]. apply pick_calls in Nc. rewrite link_dirs, (KK _ Ht) in E. rewrite (Hd : filter is_dir (t_type t) = _) in E. cbn [link String.eqb Ascii.eqb Bool.eqb orb] in E.
      apply bind_ok in E as (s1 & E1 & E). injection E as <-. apply bind_ok in E1 as (s2 & E1 & E). injection E as <-. apply bind_ok in E1 as (t1 & E1 & E). rewrite pick_indexed in E1.
      destruct (input_ok _ _ _ _ _ HV BP NP Nc E1 E) as (A & B & C). split; [exact A|]. split; [exact B|]. split; [exact C|]. constructor; [exact NP|constructor].
    - rewrite Hc in E. destruct (Ha _ Hc) as [He Nc]. apply pick_calls in Nc. rewrite link_dirs, (KK _ Ht) in E. rewrite (Hd : filter is_dir (t_type t) = _) in E. cbn [link String.eqb Ascii.eqb Bool.eqb orb bind] in E.
      apply bind_ok in E as (s1 & E1 & E). injection E as <-. apply bind_ok in E1 as ([s2 ds] & E1 & E). apply bind_ok in E as (t1 & E2 & E). rewrite pick_indexed in E1. cbn [fst snd] in E.
      destruct (output_ok _ _ _ _ _ _ _ _ HV BP He Nc E1 E2 E Hq) as (A & B & C). split; [exact A|]. split; [exact B|]. split; [exact C|]. constructor; [exact (place_plain _ _ Hq)|constructor].
    - rewrite Hc in E. destruct (Ha _ Hc) as [He Nc]. apply pick_calls in Nc. rewrite link_dirs, (KK _ Ht) in E. rewrite (Hd : filter is_dir (t_type t) = _) in E. cbn [link String.eqb Ascii.eqb Bool.eqb orb bind] in E.
      apply bind_ok in E as (s3 & E1 & E). injection E as <-. apply bind_ok in E1 as (s2 & E1 & E). apply bind_ok in E1 as (t1 & E1 & E3). rewrite pick_indexed in *.
      destruct (input_ok _ _ _ _ _ HV BP NP Nc E1 E3) as (A & B & C).
      apply bind_ok in E as ([s4 ds] & E4 & E). apply bind_ok in E as (t2 & E5 & E). cbn [fst snd] in E.
      destruct (output_ok _ _ _ _ _ _ _ _ A B He Nc E4 E5 E Hq) as (A' & B' & C'). split; [exact A'|]. split; [exact B'|]. split.
      + cbn [map fst] in ND. inversion ND as [|? ? D1 D2]; subst. refine (effect_app I cur [_] s2 [_] s3 C C' _ _); [constructor; [exact NP|constructor]|]. intros t0 [<-|[]]. exact D1.
      + constructor; [exact NP|]. constructor; [exact (place_plain _ _ Hq)|constructor].
  Qed.
  Lemma connect_ok all : forall cs ports cur s' ws, Inv es cur -> binds_plain cur -> (forall c e, In c cs -> c_arg c = Some e -> In (pick i e) es /\ no_calls e = true) ->
    connect k opt times is_module nettype cur inst scope pr all ports cs i = Ok s' -> connections ports cs ws -> NoDup (map fst ws) ->
    Inv es s' /\ binds_plain s' /\ effect I cur ws s'.
  Proof.
    induction cs as [|c cs IH]; intros ports cur s' ws HV BP Ha E W ND; cbn [connect] in E.
    - assert (E0 : Ok cur = Ok s') by (rewrite <- E; now destruct ports). injection E0 as <-. clear E. inversion W; subst. split; [exact HV|]. split; [exact BP|]. now apply effect_nil.
    - destruct ports as [|q ports]; cbn [connect] in E; apply bind_ok in E as (? & _ & E); [discriminate|]. apply bind_ok in E as (s1 & E1 & E). inversion W as [|? ? ? ? w ws' W1 W2]; subst. rewrite map_app in ND.
      assert (ND1 : NoDup (map fst w)) by exact (NoDup_app_l _ _ ND). assert (ND2 : NoDup (map fst ws')) by exact (NoDup_app_r _ _ ND).
      destruct (conn_ok _ _ _ _ _ HV BP (fun e He => Ha c e (or_introl eq_refl) He) E1 W1 ND1) as (A & B & C & F).
      destruct (IH _ _ _ _ A B (fun c e Hc => Ha c e (or_intror Hc)) E W2 ND2) as (A' & B' & C'). split; [exact A'|]. split; [exact B'|].
      refine (effect_app I _ _ _ _ _ C C' F _). intros t H1 H2. exact (NoDup_app_disj _ _ ND t H1 H2).
  Qed.
End Con.
