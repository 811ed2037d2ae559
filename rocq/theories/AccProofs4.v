(** AccProofs4.v - legal connections, gates, parameters and module bodies are accepted. *)
From Verif Require Import Base ScopeModel ScopeSpec ScopeProofs DfModel DfSpec DfProofs ReorderModel ReorderSpec ReorderProofs BindModel BindSpec BindProofs AsgModel AsgProofs ExprModel MkModel MkSpec MkProps LitModel ConModel ConSpec ConProofs ConProofs2 ConProofs3 PbModel AccSpec AccProofs AccProofs2 AccProofs3.
Local Open Scope list_scope.

Section Acc.
  Variables (opt : df -> res df) (times : expr -> res Z) (is_module : chain -> bool) (nettype : string).
  Variables (s : store) (scope : chain) (names : string -> chain).
  Hypothesis Hs : no_any scope.
  Hypothesis Hne : scope <> [].
  Hypothesis Hnames : named is_module s scope names.
  Variable es : list expr.
  Notation Inv := (Inv is_module nettype s scope es).
  Notation legal := (legal times is_module s scope names).
  Notation legal_left := (legal_left opt times is_module nettype s scope names).
  Hypothesis Is : Inv s.
  Definition fine (c : store) : Prop := Inv c /\ tidy c /\ keys_plain (s_binds c).

  Section Conn.
    Variables (inst : chain) (pr : path) (i : option Z).
    Hypothesis Hi : no_any inst.
    Hypothesis Hni : inst <> [].
    Hypothesis Hm : is_module inst = true.
    Hypothesis Hpr : tidy_path pr.
    Lemma link_total port arg : no_any port -> (forall e, arg = Some e -> In e es) -> forall types cur, fine cur ->
      (forall e ty, arg = Some e -> In ty types -> ((ty = "Input" \/ ty = "Inout")%string -> legal e) /\ ((ty = "Output" \/ ty = "Inout")%string -> legal_left e)) ->
      exists s', arrives (fun k => link k opt times is_module nettype cur inst scope pr port arg types) s' /\ fine s'.
    Proof.
      intros Hp Hes. induction types as [|ty types IH]; intros cur F L; cbn [link]; [exists cur; split; [apply arrives_const|exact F]|].
      assert (exists s1, arrives (fun k => match arg with
                 | None => Ok cur
                 | Some e =>
                     do s1 <- (if String.eqb ty "Input" || String.eqb ty "Inout"
                               then do t <- getTree k times is_module cur scope e; addDataflow k cur [Dest port DNone DNone DNone DNone DNone] t [] ""
                               else Ok cur);
                     if String.eqb ty "Output" || String.eqb ty "Inout"
                     then do rd <- getDestinations k opt times is_module nettype s1 scope (LOne e);
                          do t <- reorder k (DTerm port);
                          addDataflow k (fst rd) (snd rd) t pr ""
                     else Ok s1
                 end) s1 /\ fine s1) as (s1 & A1 & F1).
      { destruct arg as [e|]; [|exists cur; split; [apply arrives_const|exact F]]. destruct (L e ty eq_refl (or_introl eq_refl)) as [LI LO].
        assert (exists s1, arrives (fun k => if String.eqb ty "Input" || String.eqb ty "Inout" then do t <- getTree k times is_module cur scope e; addDataflow k cur [Dest port DNone DNone DNone DNone DNone] t [] "" else Ok cur) s1 /\ fine s1) as (s1 & A1 & F1).
        { destruct (String.eqb ty "Input" || String.eqb ty "Inout") eqn:D; [|exists cur; split; [apply arrives_const|exact F]].
          assert (LE : legal e). { apply LI. apply orb_true_iff in D as [D|D]; apply String.eqb_eq in D; auto. }
          destruct F as (Ic & T & KP). destruct (getTree_total times is_module nettype s scope names Hs Hnames es cur e Ic LE) as (t & At & St).
          destruct (flow_total is_module nettype s scope es cur [Dest port DNone DNone DNone DNone DNone] t [] "" Ic T KP) as (s1 & A & R).
          - constructor.
          - exact St.
          - constructor; [|constructor]. split; [exact Hp|]. split; [left; reflexivity|]. split; [left; reflexivity|]. split; [left; reflexivity|]. discriminate.
          - exists s1. split; [exact (arrives_bind _ _ _ _ At A)|exact R]. }
        destruct (String.eqb ty "Output" || String.eqb ty "Inout") eqn:D.
        - assert (LE : legal_left e). { apply LO. apply orb_true_iff in D as [D|D]; apply String.eqb_eq in D; auto. }
          destruct F1 as (I1 & T1 & K1). destruct (getDestinations_total opt times is_module nettype s scope names Hs Hne Hnames es Is s1 (LOne e) I1) as (c2 & ds & A2 & I2 & B2 & D2).
          { split; [constructor; [exact LE|constructor]|]. cbn [flat length]. congruence. }
          { intros x [<-|[]]. exact (Hes e eq_refl). }
          destruct (flow_total is_module nettype s scope es c2 ds (DTerm port) pr "" I2) as (s2 & A3 & R); [unfold tidy; now rewrite B2|now rewrite B2|exact Hpr|exact (sorts_rigid (DTerm port) eq_refl)|exact D2|].
          exists s2. split; [|exact R]. refine (arrives_bind _ _ _ _ A1 _). refine (arrives_bind _ _ _ _ A2 _). cbn [fst snd]. refine (arrives_bind _ _ _ _ (rigid_reorder (DTerm port) eq_refl) _). exact A3.
        - exists s1. split; [|exact F1]. refine (arrives_bind _ _ _ _ A1 _). apply arrives_const. }
      destruct (IH s1 F1) as (s2 & A2 & F2). { intros e ty' He Ht. apply L; [exact He|right; exact Ht]. }
      exists s2. split; [|exact F2]. exact (arrives_bind _ _ _ _ A1 A2).
    Qed.
    Notation legal_conn := (legal_conn opt times is_module nettype s scope names inst i).
    Lemma connect_total all : forall cs ports cur, fine cur -> length cs <= length ports -> Forall2 (legal_conn all) (firstn (length cs) ports) cs ->
      incl (arguments i cs) es ->
      exists s', arrives (fun k => connect k opt times is_module nettype cur inst scope pr all ports cs i) s' /\ fine s'.
    Proof.
      induction cs as [|c cs IH]; intros ports cur F Hl HF He; cbn [connect length firstn] in *.
      { exists cur. split; [|exact F]. refine (arrives_ext (fun _ => Ok cur) _ _ _ _); [intros k; now destruct ports|apply arrives_const]. }
      destruct ports as [|q ports]; cbn [length firstn] in *; [lia|]. inversion HF as [|? ? ? ? LC HF2]; subst. destruct LC as [LP (t & K & LT)].
      unfold arguments in He. cbn [flat_map] in He. apply incl_app_inv in He as [He1 He2].
      assert (no_any (net inst (port_of q c))) as Np by now apply no_any_net.
      assert (S : searchTerminal is_module cur inst (port_of q c) = Some (net inst (port_of q c)) /\ known cur (net inst (port_of q c)) = Some t).
      { destruct F as ([[D _] _] & _). pose proof (D _ _ Np K) as K'. split; [|exact K']. apply search_visible. exists inst, []. rewrite app_nil_r. split; [reflexivity|]. split; [exact Hni|]. split; [reflexivity|]. split; [congruence|].
        intros d r Ed. symmetry in Ed. apply app_eq_nil in Ed as [-> _]. congruence. }
      destruct S as [S1 S2].
      destruct (link_total (net inst (port_of q c)) (match c_arg c with None => None | Some e => Some (pick i e) end) Np) with (types := t_type t) (cur := cur) as (s1 & A1 & F1).
      { intros e E. destruct (c_arg c); [|discriminate]. injection E as <-. apply He1. left. reflexivity. }
      { exact F. }
      { intros e ty E Ht. destruct (c_arg c) as [e0|] eqn:Ea; [|discriminate]. injection E as <-. now apply LT. }
      destruct (IH ports s1 F1) as (s2 & A2 & F2); [lia|exact HF2|exact He2|]. exists s2. split; [|exact F2].
      assert (CH : match c_port c with None => Ok tt | Some p => if existsb (String.eqb p) all then Ok tt else Err (if has_name (c_arg c) then FormatError else AttributeError) end = Ok tt).
      { destruct (c_port c) as [p|]; [|reflexivity]. replace (existsb (String.eqb p) all) with true; [reflexivity|]. symmetry. apply existsb_exists. exists p. split; [exact LP|apply String.eqb_refl]. }
      refine (arrives_ext (fun k => do s' <- addInstancePortBind k opt times is_module nettype cur inst scope pr c q i; connect k opt times is_module nettype s' inst scope pr all ports cs i) _ _ _ _); [intros k; cbn [connect]; rewrite CH; reflexivity|].
      refine (arrives_bind _ _ _ _ _ A2). refine (arrives_ext (fun k => link k opt times is_module nettype cur inst scope pr (net inst (port_of q c)) (match c_arg c with None => None | Some e => Some (pick i e) end) (t_type t)) _ _ _ A1).
      intros k. unfold addInstancePortBind. cbv zeta. change (match c_port c with None => q | Some p0 => p0 end) with (port_of q c). rewrite S1. unfold known in S2. rewrite S2. reflexivity.
    Qed.
  End Conn.

  Notation assigns := (assigns opt times is_module nettype).
  Lemma assigns_total p : tidy_path p -> forall l cur, fine cur ->
    Forall (fun a => legal_lefts opt times is_module nettype s scope names (flat (fst a)) /\ legal (snd a)) l -> incl (flat_map (fun a => flat (fst a)) l) es ->
    exists s', arrives (fun k => assigns k cur scope p l) s' /\ fine s'.
  Proof.
    intros P. induction l as [|[x e] l IH]; intros cur F L He; cbn [assigns flat_map fst] in *; [exists cur; split; [apply arrives_const|exact F]|].
    inversion L as [|? ? L1 L2]; subst. destruct L1 as [L0 L1]. cbn [fst snd] in *. apply incl_app_inv in He as [He1 He2]. destruct F as (Ic & T & KP).
    destruct (assign_total opt times is_module nettype s scope names Hs Hne Hnames es Is cur p x e Ic T KP P L0 He1 L1) as (s1 & A1 & F1). destruct (IH s1 F1 L2 He2) as (s2 & A2 & F2).
    exists s2. split; [exact (arrives_bind _ _ _ _ A1 A2)|exact F2].
  Qed.
End Acc.
