(** AccProps.v - C74: legal assignments, connections, gates and parameters are accepted. *)
From Verif Require Import Base ScopeModel ScopeSpec ScopeProofs DfModel DfSpec ReorderModel BindModel BindSpec BindProofs AsgModel AsgProofs ExprModel MkModel MkSpec MkProps LitModel ConModel ConSpec ConProofs ConProofs2 ConProofs3 ConProps PbModel PbSpec PbProofs PbProps AccSpec AccProofs AccProofs2 AccProofs3 AccProofs4 AccProofs5.
Local Open Scope list_scope.

(** A legal right side has a tree, and the tree has its value under any interpretation. *)
Theorem C74_expressions_partial : forall times is_module s scope names e,
  plain_store s -> no_any scope -> named is_module s scope names -> legal times is_module s scope names e ->
  exists t, arrives (fun k => getTree k times is_module s scope e) t /\ sorts t /\
    forall I count, fits I count times -> eval I t = means I count s names e.
Proof.
  intros times is_module s scope names e P Hs N L. destruct (getTree_here times is_module s scope names e Hs N P L) as (t & A & S). exists t. split; [exact A|]. split; [exact S|].
  intros I count F. apply arrives_here in A as [k E]. exact (tree_ok k times is_module I count F s scope names e t Hs P N (proj1 L) E).
Qed.
Print Assumptions C74_expressions_partial.

Lemma legal_left_calls opt times is_module nettype s scope names e : legal_left opt times is_module nettype s scope names e -> no_calls e = true.
Proof.
  assert (B : forall e, legal_bound opt times is_module s scope names e -> no_calls e = true) by (intros e0 H; apply H).
  destruct e as [x|x|o a|o a b|c t f|l|v n|v m l|v q|f l|f l]; cbn [legal_left]; intros L; try (exfalso; exact L); try reflexivity.
  - destruct v as [x| | | | | | | |v q| | ]; try (exfalso; exact L).
    + destruct L as (_ & Lm & Ll). cbn [no_calls]. now rewrite (B _ Lm), (B _ Ll).
    + destruct v as [x| | | | | | | | | | ]; try (exfalso; exact L). destruct L as (_ & _ & Lq & Lm & Ll). cbn [no_calls]. now rewrite (B _ Lq), (B _ Lm), (B _ Ll).
  - destruct v as [x| | | | | | | |v q0| | ]; try (exfalso; exact L).
    + destruct L as (_ & Lq). cbn [no_calls]. now rewrite (B _ Lq).
    + destruct v as [x| | | | | | | | | | ]; try (exfalso; exact L). destruct L as (_ & _ & Lq & Lm). cbn [no_calls]. now rewrite (B _ Lq), (B _ Lm).
Qed.

(** A legal assignment is accepted, with enough recursion depth always with the same result, which can be worked
    on further; and it assigns what it says. *)
Theorem C74_assign_partial : forall opt times is_module nettype s scope names p l e,
  plain_store s -> tidy s -> no_any scope -> scope <> [] -> named is_module s scope names -> tidy_path p ->
  legal_lefts opt times is_module nettype s scope names (flat l) -> legal times is_module s scope names e ->
  exists s', arrives (fun k => assign k opt times is_module nettype s scope p l e) s' /\ plain_store s' /\ tidy s' /\
    declared is_module nettype s scope (flat l) s' /\
    forall I num count, fair I num count opt times -> taken I p ->
      forall ws, writes I num count s names (means I count s names e) (flat l) ws -> NoDup (map fst ws) -> effect I s ws s'.
Proof.
  intros opt times is_module nettype s scope names p l e P T Hs Hne N TP LL LE. pose proof (here_inv is_module nettype s scope (flat l) P) as Is.
  destruct (assign_total opt times is_module nettype s scope names Hs Hne N (flat l) Is s p l e Is T (proj2 P) TP LL (incl_refl _) LE) as (s' & A & (D & K1) & T' & K2).
  exists s'. split; [exact A|]. split; [split; [exact K1|exact K2]|]. split; [exact T'|]. split; [exact D|].
  intros I num count F TK ws W ND. apply arrives_here in A as [k E]. refine (proj1 (proj2 (proj2 (C59_assign_partial k opt times is_module nettype I num count s scope names p l e s' F P Hs Hne N TK _ E)) ws W ND)).
  cbn [forallb]. rewrite (proj1 LE). cbn [andb]. apply forallb_forall. intros x Hx. destruct LL as [LL _]. rewrite Forall_forall in LL. exact (legal_left_calls _ _ _ _ _ _ _ _ (LL x Hx)).
Qed.
Print Assumptions C74_assign_partial.

(** A module with legal assignments is accepted, however many there are. *)
Theorem C74_module_partial : forall opt times is_module nettype s scope names p l,
  plain_store s -> tidy s -> no_any scope -> scope <> [] -> named is_module s scope names -> tidy_path p ->
  Forall (fun a => legal_lefts opt times is_module nettype s scope names (flat (fst a)) /\ legal times is_module s scope names (snd a)) l ->
  exists s', arrives (fun k => assigns opt times is_module nettype k s scope p l) s' /\ plain_store s' /\ tidy s' /\
    declared is_module nettype s scope (flat_map (fun a => flat (fst a)) l) s'.
Proof.
  intros opt times is_module nettype s scope names p l P T Hs Hne N TP L. pose proof (here_inv is_module nettype s scope (flat_map (fun a => flat (fst a)) l) P) as Is.
  destruct (assigns_total opt times is_module nettype s scope names Hs Hne N _ Is p TP l s (conj Is (conj T (proj2 P))) L (incl_refl _)) as (s' & A & (D & K1) & T' & K2).
  exists s'. split; [exact A|]. split; [split; [exact K1|exact K2]|]. split; [exact T'|exact D].
Qed.
Print Assumptions C74_module_partial.

(** Legal connections of an instance are accepted, and connect what they say. *)
Theorem C74_connections_partial : forall opt times is_module nettype s scope names inst pr all ports cs i,
  plain_store s -> tidy s -> no_any scope -> scope <> [] -> named is_module s scope names -> tidy_path pr ->
  no_any inst -> inst <> [] -> is_module inst = true ->
  legal_conns opt times is_module nettype s scope names inst i all ports cs ->
  exists s', arrives (fun k => connect k opt times is_module nettype s inst scope pr all ports cs i) s' /\ plain_store s' /\ tidy s' /\
    declared is_module nettype s scope (arguments i cs) s' /\
    forall I num count, fair I num count opt times -> taken I pr -> forallb no_calls (arguments i cs) = true ->
      forall ws, connections I count s inst names i ports cs ws -> NoDup (map fst ws) -> effect I s ws s'.
Proof.
  intros opt times is_module nettype s scope names inst pr all ports cs i P T Hs Hne N TP Hi Hni Hm [LL LC]. pose proof (here_inv is_module nettype s scope (arguments i cs) P) as Is.
  destruct (connect_total opt times is_module nettype s scope names Hs Hne N _ Is inst pr i Hi Hni TP all cs ports s (conj Is (conj T (proj2 P))) LL LC (incl_refl _)) as (s' & A & (D & K1) & T' & K2).
  exists s'. split; [exact A|]. split; [split; [exact K1|exact K2]|]. split; [exact T'|]. split; [exact D|].
  intros I num count F TK NC ws W ND. apply arrives_here in A as [k E]. exact (proj1 (C59_connections_partial k opt times is_module nettype I num count s scope names inst pr all ports cs i s' ws F P Hs Hne N TK Hi Hm NC E W ND)).
Qed.
Print Assumptions C74_connections_partial.

(** A legal gate is accepted, and its first argument takes the reduction of the others. *)
Theorem C74_gates_partial : forall opt times is_module nettype s scope names p name g cs i o ins,
  plain_store s -> tidy s -> no_any scope -> scope <> [] -> named is_module s scope names -> tidy_path p ->
  In (name, g) primitives -> map c_arg cs = map Some (o :: ins) -> ins <> [] -> forallb no_calls (o :: ins) = true ->
  legal_left opt times is_module nettype s scope names (pick i o) -> Forall (fun e => legal times is_module s scope names (bit i e)) ins ->
  exists s', arrives (fun k => primitive k opt times is_module nettype s scope p g cs i) s' /\ plain_store s' /\ tidy s' /\
    forall I num count, fair I num count opt times -> taken I p ->
      forall t v, place I count s names (pick i o) t -> gate_value I name (map (fun e => means I count s names (bit i e)) ins) = Some v -> effect I s [(t, v)] s'.
Proof.
  intros opt times is_module nettype s scope names p name g cs i o ins P T Hs Hne N TP Hg Hcs Hins NC Lo Li.
  destruct cs as [|c cs]; [discriminate|]. pose proof Hcs as Hcs0. cbn [map] in Hcs. injection Hcs as Hc Hcs.
  assert (FA : forall c e, c_arg c = Some e -> first_arg c = Ok e) by (intros c0 e0 H0; unfold first_arg; now rewrite H0).
  assert (ALL : mapM first_arg cs = Ok ins).
  { clear -Hcs FA. revert ins Hcs. induction cs as [|d cs IH]; intros [|e ins] Hcs; try discriminate; [reflexivity|]. cbn [map] in Hcs. injection Hcs as Hd Hcs. cbn [mapM]. rewrite (FA _ _ Hd). cbn [bind]. rewrite (IH ins Hcs). reflexivity. }
  assert (R : exists r, legal times is_module s scope names r /\ forall k, primitive k opt times is_module nettype s scope p g (c :: cs) i = assign k opt times is_module nettype s scope p (LOne (pick i o)) r).
  { destruct ins as [|e ins]; [congruence|]. destruct cs as [|d cs]; [discriminate|]. pose proof Hcs as Hd. cbn [map] in Hd. injection Hd as Hd _. inversion Li as [|? ? Le _]; subst.
    destruct g as [op_| |].
    - exists (XUn op_ (XConcat (map (bit i) (e :: ins)))). split.
      + apply legal_un, legal_concat. apply Forall_forall. intros x Hx. apply in_map_iff in Hx as (y & <- & Hy). rewrite Forall_forall in Li. exact (Li y Hy).
      + intros k. unfold primitive. rewrite (FA _ _ Hc). cbn [bind]. cbv zeta. rewrite ALL. reflexivity.
    - exists (XUn Ulnot (bit i e)). split; [exact (legal_un times is_module s scope names Ulnot _ Le)|]. intros k. unfold primitive. rewrite (FA _ _ Hc). cbn [bind]. cbv zeta. rewrite (FA _ _ Hd). reflexivity.
    - exists (bit i e). split; [exact Le|]. intros k. unfold primitive. rewrite (FA _ _ Hc). cbn [bind]. cbv zeta. rewrite (FA _ _ Hd). reflexivity. }
  destruct R as (r & Lr & Er).
  destruct (C74_assign_partial opt times is_module nettype s scope names p (LOne (pick i o)) r P T Hs Hne N TP) as (s' & A & P' & T' & _).
  { split; [constructor; [exact Lo|constructor]|]. cbn [flat length]. congruence. }
  { exact Lr. }
  exists s'. split; [exact (arrives_ext _ _ _ (fun k => eq_sym (Er k)) A)|]. split; [exact P'|]. split; [exact T'|].
  intros I num count F TK t v PL GV. apply arrives_here in A as [k E]. rewrite <- Er in E.
  exact (C59_gates_partial k opt times is_module nettype I num count s scope names p name g (c :: cs) i s' o ins t v F P Hs Hne N TK Hg Hcs0 NC E PL GV).
Qed.
Print Assumptions C74_gates_partial.

(** An instance that gives legal values to parameters of its module is accepted, and so are the declarations of
    the module. *)
Theorem C74_parameters_partial : forall times is_module s inst parent names_out names_in args ds,
  plain_store s -> tidy s -> no_any inst -> inst <> [] -> no_any parent ->
  named is_module s parent names_out -> named is_module s inst names_in ->
  Forall (legal_decl times is_module s inst names_in) ds -> legal_args times is_module s parent names_out (parameters ds) args ->
  exists s', arrives (fun k => instance_p k times is_module s inst parent args ds) s' /\ plain_store s' /\ tidy s' /\
    forall I count, fits I count times -> NoDup (map p_name ds) -> NoDup (map fst (given (parameters ds) args)) -> entered s inst ds ->
      forall d t v, In d ds -> fst (fst (fst t)) = net inst (p_name d) ->
        (stored I s' t v <-> t = whole I (net inst (p_name d)) /\ worth I (means I count s names_out) (means I count s names_in) (given (parameters ds) args) d v).
Proof.
  intros times is_module s inst parent names_out names_in args ds P T Hi Hni Hp No Ni LD [LA1 LA2].
  destruct (give_total times is_module inst parent names_out (parameters ds) Hi Hni Hp args (parameters ds) s (conj P T) No) as (s1 & A1 & G1 & S1).
  { intros x Hx. unfold parameters in Hx. apply in_map_iff in Hx as (d & <- & Hd). apply filter_In in Hd as [Hd _]. rewrite Forall_forall in LD. exact (proj1 (LD d Hd)). }
  { exact LA1. } { apply incl_refl. } { intros [x e] Hx. exact (LA2 x e Hx). }
  destruct (declare_all_total times is_module inst names_in [] Hi Hni (Forall_nil _) ds s1 G1 (named_similar _ _ _ _ _ Hi S1 Ni)) as (s2 & A2 & [P2 T2] & _).
  { refine (Forall_impl _ _ LD). intros d. exact (legal_decl_similar times is_module inst names_in Hi s s1 d Ni S1). }
  assert (A : arrives (fun k => instance_p k times is_module s inst parent args ds) s2).
  { unfold instance_p. rewrite parameters_names. exact (arrives_bind _ _ _ _ A1 A2). }
  exists s2. split; [exact A|]. split; [exact P2|]. split; [exact T2|]. intros I count F ND NG EN. apply arrives_here in A as [k E].
  refine (proj1 (C72_instance_partial k times is_module I count s inst parent names_out names_in args ds s2 F P Hi Hni Hp No Ni ND NG EN _ _ E)).
  - intros d Hd. rewrite Forall_forall in LD. destruct (LD d Hd) as (_ & V & W). split; [exact (proj1 V)|]. destruct (p_width d) as [[m l]|]; [|exact Logic.I]. exact (conj (proj1 (proj1 W)) (proj1 (proj2 W))).
  - intros [x e] Ha. exact (proj1 (proj2 (LA2 x e Ha))).
Qed.
Print Assumptions C74_parameters_partial.

(** ** Examples *)
Local Open Scope string_scope.
Local Open Scope list_scope.
Lemma tidy_empty t : tidy (Store t []).
Proof. constructor. Qed.
Ltac sees := eexists; apply search_visible; vm_compute; reflexivity.
Ltac isleg := split; [reflexivity|split; [reflexivity|split; [reflexivity|cbn [over fold_right bit pick]; repeat split; try sees]]].
Lemma bound59 is_module s scope names x : legal_bound opt59 times59 is_module s scope names (XInt x).
Proof. split; [isleg|]. split; [reflexivity|]. intros k t H. unfold mk in H. destruct k; cbn in H; apply Ok_inj in H; subst t; eexists; (split; [reflexivity|reflexivity]). Qed.
(** {a, {m[2][1:0], w}} = c + 1; then a[1:0] = c ? a : m[c]. *)
Definition body74 : list (lval * expr) :=
  [(left59, right59); (LOne (XPart (XId "a") (XInt "1") (XInt "0")), XCond (XId "c") (XId "a") (XPtr (XId "m") (XCond (XId "c") (XInt "1") (XInt "0"))))].
Example C74_module_hypotheses_met : plain_store s59 /\ tidy s59 /\ no_any sc59 /\ sc59 <> [] /\ named mod59 s59 sc59 names59 /\ tidy_path [(DTerm (net top59 "c"), true)] /\
  Forall (fun a => legal_lefts opt59 times59 mod59 "wire" s59 sc59 names59 (flat (fst a)) /\ legal times59 mod59 s59 sc59 names59 (snd a)) body74.
Proof.
  split; [exact plain59|]. split; [apply tidy_empty|]. split; [repeat (constructor; [discriminate|]); constructor|]. split; [discriminate|]. split; [exact named59|].
  split; [constructor; [split; [reflexivity|exact (sorts_rigid (DTerm _) eq_refl)]|constructor]|].
  constructor; [|constructor; [|constructor]]; cbn [fst snd].
  - split; [|isleg]. split; cbn [flat flat_map app left59].
    + constructor; [left; sees|]. constructor; [|constructor; [right; discriminate|constructor]]. split; [sees|]. split; [reflexivity|]. split; [apply bound59|]. split; apply bound59.
    + intros _. constructor; [|constructor; [exact I|constructor; [|constructor]]]; intros n V; apply search_visible in V; vm_compute in V; [|discriminate]. injection V as <-. eexists. split; [vm_compute; reflexivity|split; reflexivity].
  - split; [|isleg]. split; [|cbn; congruence]. constructor; [|constructor]. split; [sees|]. split; apply bound59.
Qed.
(** u (.y(d), .x(c)), and u (c[2], d) in an array of instances. *)
Example C74_connections_hypotheses_met :
  legal_conns opt59 times59 mod59 "wire" s59 top59 namesT u59 None ["x"; "y"] ["x"; "y"] conns59 /\
  legal_conns opt59 times59 mod59 "wire" s59 top59 namesT u59 (Some 2%Z) ["x"; "y"] ["x"; "y"] [Conn None (Some (XId "c")); Conn None (Some (XId "d"))] /\
  no_any u59 /\ u59 <> [] /\ mod59 u59 = true.
Proof.
  split; [|split; [|split; [repeat (constructor; [discriminate|]); constructor|split; [discriminate|reflexivity]]]].
  - split; [cbn; lia|]. constructor; [|constructor; [|constructor]]; (split; [cbn; auto|]); (eexists; split; [vm_compute; reflexivity|]); cbn [c_arg t_type]; intros e ty Ea Ht; injection Ea as <-;
      (destruct Ht as [<-|[<-|[]]]; split; intros [C|C]; try discriminate C; cbn [pick]; [isleg || (left; sees)]).
  - split; [cbn; lia|]. constructor; [|constructor; [|constructor]]; (split; [cbn; auto|]); (eexists; split; [vm_compute; reflexivity|]); cbn [c_arg t_type]; intros e ty Ea Ht; injection Ea as <-;
      (destruct Ht as [<-|[<-|[]]]; split; intros [C|C]; try discriminate C; cbn [pick]; [isleg || (split; [sees|apply bound59])]).
Qed.
(** and (a, c, d) *)
Example C74_gates_hypotheses_met : In ("and", Reduction Uand) primitives /\ legal_left opt59 times59 mod59 "wire" s59 top59 namesT (pick None (XId "a")) /\
  Forall (fun e => legal times59 mod59 s59 top59 namesT (bit None e)) [XId "c"; XId "d"].
Proof. split; [left; reflexivity|]. split; [left; sees|]. constructor; [isleg|constructor; [isleg|constructor]]. Qed.
Example C74_parameters_hypotheses_met : exists no_ ni, named mod59 s72 top59 no_ /\ named mod59 s72 u59 ni /\
  Forall (legal_decl times59 mod59 s72 u59 ni) ds72 /\ legal_args times59 mod59 s72 top59 no_ (parameters ds72) args72.
Proof.
  destruct (names_exist mod59 s72 top59) as [no_ No], (names_exist mod59 s72 u59) as [ni Ni]. exists no_, ni. split; [exact No|]. split; [exact Ni|]. split.
  - repeat (constructor; [split; [vm_compute; discriminate|split; [isleg|cbn; try exact Logic.I; split; isleg]]|]). constructor.
  - split; [cbn; lia|]. intros x e [H|[]]. injection H as <- <-. split; [cbn; auto|isleg].
Qed.

(** ** Where the full property fails *)
(** Verilog allows these; the code raises errors that are not about the text: a conditional in the bounds of a
    part select or in the index of a bit select, a condition that is itself conditional. *)
Theorem C74_conditional_bound_refuted : forall k, 9 <= k ->
  assign k opt59 times59 mod59 "wire" s59 top59 [] (LOne (XId "d")) (XPart (XId "c") (XCond (XId "a") (XInt "3") (XInt "1")) (XInt "0")) = Err NameError /\
  assign k opt59 times59 mod59 "wire" s59 top59 [] (LOne (XId "d")) (XPtr (XId "c") (XCond (XId "a") (XInt "3") (XInt "1"))) = Err NameError.
Proof. intros k H. do 9 (destruct k as [|k]; [lia|]). split; reflexivity. Qed.
Print Assumptions C74_conditional_bound_refuted.
Theorem C74_nested_condition_refuted : forall k, 9 <= k ->
  assign k opt59 times59 mod59 "wire" s59 top59 [] (LOne (XId "d")) (XBin Plus (XCond (XCond (XId "a") (XId "c") (XId "d")) (XInt "3") (XInt "1")) (XInt "0")) = Err AttributeError.
Proof. intros k H. do 9 (destruct k as [|k]; [lia|]). reflexivity. Qed.
Print Assumptions C74_nested_condition_refuted.
