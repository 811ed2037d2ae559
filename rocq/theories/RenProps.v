(** RenProps.v - C43: listing and replacing identifiers. *)
From Verif Require Import Base VisitModel VisitProofs AstTable AstModel AstSpec AstProofs AstProofs2 AstProps RenModel RenSpec RenProofs RenProofs2.

(** For every tree without shared objects and every renaming: replacing succeeds, gives a tree
    without shared objects, and the identifiers of the result are the renamed identifiers of the
    tree, in order. *)
Theorem C43_listing : forall ids h x v (P : nat -> Prop) n l, tree h x v P -> (forall b, P b -> (b < length h)%nat) -> made v -> (vsize v < n)%nat -> getIdentifiers v = Ok l ->
  exists h' x' v' Q, visit ids n h x = Ok (h', x') /\ tree h' x' v' Q /\ getIdentifiers v' = Ok (map (new_name ids) l).
Proof.
  intros ids h x v P n l HT HB HM HS HL. destruct (visit_ok ids n h x v P HS HM HT HB) as (h' & x' & v' & E & R & T & F). exists h', x', v', (ext P h h'). split; [exact E|]. split; [exact T|]. unfold getIdentifiers. eapply list_ren; eauto.
Qed.
Print Assumptions C43_listing.
(** If moreover no identifier in it has a scope, the result is the tree with its identifiers renamed
    and nothing else changed, and no other object of the heap is changed. *)
Theorem C43_nothing_else_partial : forall ids h x v (P : nat -> Prop) n, tree h x v P -> (forall b, P b -> (b < length h)%nat) -> made v -> plain v -> (vsize v < n)%nat -> (forall t l, v <> VSeq t l) ->
  exists h' x' v' Q, visit ids n h x = Ok (h', x') /\ tree h' x' v' Q /\ renamed ids v v' /\ (length h <= length h')%nat /\ forall b, (b < length h)%nat -> ~ P b -> nth_error h' b = nth_error h b.
Proof.
  intros ids h x v P n HT HB HM HP HS HN. destruct (visit_ok ids n h x v P HS HM HT HB) as (h' & x' & v' & E & R & T & F). exists h', x', v', (ext P h h'). split; [exact E|]. split; [exact T|]. split; [eapply ren_renamed; eauto|]. exact F.
Qed.
Print Assumptions C43_nothing_else_partial.

(** The tree that [tree] speaks of is the one read from the heap. *)
Lemma tree_keys h (foot : string -> nat -> Prop) : forall fs vs, map fst fs = map fst vs -> NoDup (map fst fs) -> (forall f x v, sget fs f = Some x -> sget vs f = Some v -> reads h x v) ->
  Forall2 (fun (p : string * hval) (q : string * val) => fst p = fst q /\ reads h (snd p) (snd q)) fs vs.
Proof.
  induction fs as [|[f x] fs IH]; intros [|[g v] vs] EK ND H; try discriminate; [constructor|]. cbn in EK. injection EK as <- EK. cbn in ND. inversion ND as [|? ? N1 N2]; subst. constructor.
  - split; [reflexivity|]. cbn. apply (H f x v); cbn; rewrite String.eqb_refl; reflexivity.
  - apply IH; auto. intros k y w E1 E2. apply (H k y w); cbn; (destruct (String.eqb_spec f k) as [<-|]; [|assumption]); exfalso; apply N1; apply keys_in; eauto.
Qed.
Theorem C43_tree_reads : forall h x v P, tree h x v P -> reads h x v.
Proof.
  intros h. apply (tree_mut h (fun x v P _ => reads h x v) (fun l vs P _ => Forall2 (reads h) l vs)); try (intros; constructor; auto; fail).
  intros a c fs vs foot P Ea Pa EK ND HF IH HD HB. eapply rd_node; [exact Ea|]. apply (tree_keys h foot); auto.
Qed.
Print Assumptions C43_tree_reads.

(** An example: q = {a, b[i]} with a and b swapped. *)
Definition hid (s : string) : obj := ("Identifier", [("lineno", HInt 1); ("name", HStr s); ("scope", HNone)])%string.
Definition vid (s : string) : val := VNode "Identifier" [("lineno", VInt 1); ("name", VStr s); ("scope", VNone)]%string.
Definition ex_heap : heap := [hid "a"; hid "b"; hid "i"; ("Pointer", [("lineno", HInt 1); ("ptr", HRef 2); ("var", HRef 1)]); ("Concat", [("lineno", HInt 2); ("list", HSeq false [HRef 0; HRef 3])]); hid "q"; ("Assign", [("lineno", HInt 1); ("left", HRef 5); ("right", HRef 4); ("ldelay", HNone); ("rdelay", HNone)])]%string.
Definition ex_tree (a b : string) : val := VNode "Assign" [("lineno", VInt 1); ("left", vid "q"); ("right", VNode "Concat" [("lineno", VInt 2); ("list", VSeq false [vid a; VNode "Pointer" [("lineno", VInt 1); ("ptr", vid "i"); ("var", vid b)]])]); ("ldelay", VNone); ("rdelay", VNone)]%string.
Definition swap : list (string * string) := [("a", "b"); ("b", "a")]%string.
Definition in_ (l : list nat) (b : nat) : Prop := In b l.
Lemma hid_tree h n s (P : nat -> Prop) : nth_error h n = Some (hid s) -> P n -> tree h (HRef n) (vid s) P.
Proof.
  intros E Pn. eapply t_node with (foot := fun _ _ => False); [exact E|exact Pn|reflexivity|repeat constructor; cbn; intuition discriminate| |intros ? ? ? []|intros ? ? []].
  intros f x v E1 E2. cbn [sget] in E1, E2. destruct (String.eqb "lineno" f); [injection E1 as <-; injection E2 as <-; constructor|]. destruct (String.eqb "name" f); [injection E1 as <-; injection E2 as <-; constructor|]. destruct (String.eqb "scope" f); [injection E1 as <-; injection E2 as <-; constructor|discriminate].
Qed.
Ltac field E1 E2 k := match type of E1 with context [String.eqb ?a ?f] => destruct (String.eqb_spec a f) as [<-|]; [injection E1 as <-; injection E2 as <-|k] end.
Ltac pnode := apply p_node; [discriminate| |cbn; intuition discriminate|cbn; let f := fresh "f" in let Hf := fresh "Hf" in intros f Hf; intuition (subst; reflexivity)|cbn; intuition discriminate].
Ltac pfields PI := let f := fresh "f" in let v := fresh "v" in let E := fresh "E" in intros f v E _; unfold has in E; cbn [sget] in E; repeat match type of E with (if ?b then _ else _) = _ => destruct b; [injection E as <-|] end; try discriminate E; try apply PI; try (apply p_none); try (apply p_int); try (apply p_str).
Example C43_hypotheses_met : tree ex_heap (HRef 6) (ex_tree "a" "b") (in_ [0; 1; 2; 3; 4; 5; 6]%nat) /\ (forall b, in_ [0; 1; 2; 3; 4; 5; 6]%nat b -> (b < length ex_heap)%nat) /\
  made (ex_tree "a" "b") /\ plain (ex_tree "a" "b") /\ getIdentifiers (ex_tree "a" "b") = Ok ["q"; "a"; "b"; "i"]%string.
Proof.
  split; [|split; [|split; [|split]]].
  - eapply t_node with (foot := fun f => if String.eqb f "left" then in_ [5%nat] else if String.eqb f "right" then in_ [0; 1; 2; 3; 4]%nat else in_ []); [reflexivity|cbn; tauto|reflexivity|repeat constructor; cbn; intuition discriminate| | |].
    + intros f x v E1 E2. cbn [sget ex_tree] in E1, E2. field E1 E2 ltac:(idtac); [constructor|]. field E1 E2 ltac:(idtac); [apply hid_tree; [reflexivity|cbn; tauto]|]. field E1 E2 ltac:(idtac); [|field E1 E2 ltac:(idtac); [constructor|field E1 E2 ltac:(idtac); [constructor|discriminate]]].
      eapply t_node with (foot := fun f => if String.eqb f "list" then in_ [0; 1; 2; 3]%nat else in_ []); [reflexivity|cbn; tauto|reflexivity|repeat constructor; cbn; intuition discriminate| | |].
      * intros f x v E1 E2. cbn [sget] in E1, E2. field E1 E2 ltac:(idtac); [constructor|]. field E1 E2 ltac:(idtac); [|discriminate]. cbn. constructor.
        eapply ts_cons with (P := in_ [0]%nat) (Q := in_ [1; 2; 3]%nat); [apply hid_tree; [reflexivity|cbn; tauto]| |cbn; intros b; lia|cbn; intros b; lia].
        eapply ts_cons with (P := in_ [1; 2; 3]%nat) (Q := in_ []); [|constructor|cbn; intros b; lia|cbn; intros b; lia].
        eapply t_node with (foot := fun f => if String.eqb f "ptr" then in_ [2]%nat else if String.eqb f "var" then in_ [1]%nat else in_ []); [reflexivity|cbn; tauto|reflexivity|repeat constructor; cbn; intuition discriminate| | |].
        -- intros f x v E1 E2. cbn [sget] in E1, E2. field E1 E2 ltac:(idtac); [constructor|]. field E1 E2 ltac:(idtac); [apply hid_tree; [reflexivity|cbn; tauto]|]. field E1 E2 ltac:(idtac); [apply hid_tree; [reflexivity|cbn; tauto]|discriminate].
        -- intros f g b. destruct (String.eqb_spec f "ptr"), (String.eqb_spec g "ptr"), (String.eqb_spec f "var"), (String.eqb_spec g "var"); subst; cbn; intros; try congruence; lia.
        -- intros f b. destruct (String.eqb_spec f "ptr"), (String.eqb_spec f "var"); cbn; intros; lia.
      * intros f g b. destruct (String.eqb_spec f "list"), (String.eqb_spec g "list"); subst; cbn; intros; try congruence; lia.
      * intros f b. destruct (String.eqb_spec f "list"); cbn; intros; lia.
    + intros f g b. destruct (String.eqb_spec f "left"), (String.eqb_spec g "left"), (String.eqb_spec f "right"), (String.eqb_spec g "right"); subst; cbn; intros; try congruence; lia.
    + intros f b. destruct (String.eqb_spec f "left"), (String.eqb_spec f "right"); cbn; intros; lia.
  - cbn. intros b. lia.
  - apply made_by. reflexivity.
  - assert (forall s, plain (vid s)) as PI by (intros s; eapply p_ident; reflexivity).
    pnode. pfields PI. pnode. pfields PI. apply p_seq; [|cbn; intuition discriminate]. constructor; [apply PI|]. constructor; [|constructor]. pnode. pfields PI.
  - vm_compute. reflexivity.
Qed.

(** Full property, whatever is shared and scoped. It is false. *)
Definition always_renamed : Prop := forall ids n h x v h' x' v', reads h x v -> made v -> plain v -> visit ids n h x = Ok (h', x') -> reads h' x' v' -> renamed ids v v'.
Definition always_listed : Prop := forall ids n h x v h' x' v' l, reads h x v -> made v -> getIdentifiers v = Ok l -> visit ids n h x = Ok (h', x') -> reads h' x' v' -> getIdentifiers v' = Ok (map (new_name ids) l).
Definition scopes_kept : Prop := forall ids n h x v h' x' v' P, tree h x v P -> (forall b, P b -> (b < length h)%nat) -> made v -> visit ids n h x = Ok (h', x') -> reads h' x' v' -> renamed ids v v'.
(** m #(.P(a)) u(); as the parser builds it (parser.py:1774-1781): the list of parameters belongs both
    to the Instance and to the InstanceList. *)
Definition inst_heap : heap := [hid "a"; ("ParamArg", [("lineno", HInt 1); ("paramname", HStr "P"); ("argname", HRef 0)]);
  ("Instance", [("lineno", HInt 1); ("module", HStr "m"); ("name", HStr "u"); ("portlist", HSeq true []); ("parameterlist", HSeq true [HRef 1]); ("array", HNone)]);
  ("InstanceList", [("lineno", HInt 1); ("module", HStr "m"); ("parameterlist", HSeq true [HRef 1]); ("instances", HSeq true [HRef 2])])]%string.
Definition arg_tree (a : val) : val := VNode "ParamArg" [("lineno", VInt 1); ("paramname", VStr "P"); ("argname", a)]%string.
Definition inst_tree (a : val) : val := VNode "InstanceList" [("lineno", VInt 1); ("module", VStr "m"); ("parameterlist", VSeq true [arg_tree a]);
  ("instances", VSeq true [VNode "Instance" [("lineno", VInt 1); ("module", VStr "m"); ("name", VStr "u"); ("portlist", VSeq true []); ("parameterlist", VSeq true [arg_tree a]); ("array", VNone)]])]%string.
Definition vnew (s : string) : val := VNode "Identifier" [("lineno", VInt 0); ("name", VStr s); ("scope", VNone)]%string.
Ltac rd := repeat (first [reflexivity | apply rd_none | apply rd_int | apply rd_str | apply rd_seq | (eapply rd_node; [reflexivity|]) | (apply Forall2_cons; [|]) | apply Forall2_nil | (split; [reflexivity|cbn [fst snd]])]).
Theorem C43_refuted : ~ always_renamed /\ ~ always_listed /\ ~ scopes_kept /\
  (* with a and b swapped, the instance keeps a *)
  (exists h', visit swap 9 inst_heap (HRef 3) = Ok (h', HRef 3) /\ reads inst_heap (HRef 3) (inst_tree (vid "a")) /\ reads h' (HRef 3) (inst_tree (vnew "a"))) /\
  (* top.a renamed to b is b *)
  snd (match visit swap 9 [hid "x"; ("IdentifierScope", [("labellist", HSeq true [])]); ("Identifier", [("lineno", HInt 1); ("name", HStr "a"); ("scope", HRef 1)])]%string (HRef 2) with Ok p => p | Err _ => ([], HNone) end) = HRef 3 /\
  visit swap 9 [hid "x"; ("IdentifierScope", [("labellist", HSeq true [])]); ("Identifier", [("lineno", HInt 1); ("name", HStr "a"); ("scope", HRef 1)])]%string (HRef 2) =
    Ok ([hid "x"; ("IdentifierScope", [("labellist", HSeq true [])]); ("Identifier", [("lineno", HInt 1); ("name", HStr "a"); ("scope", HRef 1)]); ("Identifier", [("lineno", HInt 0); ("name", HStr "b"); ("scope", HNone)])]%string, HRef 3).
Proof.
  assert (exists h', visit swap 9 inst_heap (HRef 3) = Ok (h', HRef 3) /\ reads inst_heap (HRef 3) (inst_tree (vid "a")) /\ reads h' (HRef 3) (inst_tree (vnew "a"))) as SH.
  { eexists. split; [vm_compute; reflexivity|]. split; rd. }
  assert (plain (inst_tree (vid "a"))) as HP.
  { assert (forall s, plain (vid s)) as PI by (intros s; eapply p_ident; reflexivity).
    assert (plain (arg_tree (vid "a"))) as PA by (pnode; pfields PI).
    pnode. pfields PI.
    - apply p_seq; [constructor; [exact PA|constructor]|cbn; intuition discriminate].
    - apply p_seq; [|cbn; intuition discriminate]. constructor; [|constructor]. pnode. pfields PI.
      + apply p_seq; [constructor|cbn; intuition discriminate].
      + apply p_seq; [constructor; [exact PA|constructor]|cbn; intuition discriminate]. }
  split; [|split; [|split; [|split; [exact SH|split; vm_compute; reflexivity]]]].
  - intros H. destruct SH as (h' & E & R1 & R2). specialize (H swap 9%nat _ _ _ _ _ _ R1 (made_by (inst_tree (vid "a")) eq_refl) HP E R2).
    inversion H as [| | | | | |? ? ? _ _ _ HF]; subst. assert (~ In "parameterlist"%string (attr_names "InstanceList")) as NA by (cbv; intuition discriminate).
    specialize (HF _ _ _ NA eq_refl eq_refl). inversion HF as [| | | |? ? ? ? HF2| |]; subst. inversion HF2 as [|? ? ? ? HA _]; subst. inversion HA as [| | | | | |? ? ? _ _ _ HG]; subst.
    assert (~ In "argname"%string (attr_names "ParamArg")) as NB by (cbv; intuition discriminate). specialize (HG _ _ _ NB eq_refl eq_refl). inversion HG as [| | | | |? ? s ? ? G1 G2|? ? ? Nc]; subst; [|congruence]. unfold has in *. cbv in G1. injection G1 as <-. cbv in G2. discriminate.
  - intros H. destruct SH as (h' & E & R1 & R2). specialize (H swap 9%nat _ _ _ _ _ _ ["a"; "a"]%string R1 (made_by (inst_tree (vid "a")) eq_refl) eq_refl E R2). vm_compute in H. discriminate.
  - intros H. set (h := [("IdentifierScope", [("labellist", HSeq true [])]); ("Identifier", [("lineno", HInt 1); ("name", HStr "a"); ("scope", HRef 0)])]%string : heap).
    set (v := VNode "Identifier" [("lineno", VInt 1); ("name", VStr "a"); ("scope", VNode "IdentifierScope" [("labellist", VSeq true [])])]%string).
    assert (tree h (HRef 1) v (in_ [0; 1]%nat)) as HT.
    { eapply t_node with (foot := fun f => if String.eqb f "scope" then in_ [0%nat] else in_ []); [reflexivity|cbn; tauto|reflexivity|repeat constructor; cbn; intuition discriminate| | |].
      - intros f x w E1 E2. cbn [sget] in E1, E2. field E1 E2 ltac:(idtac); [constructor|]. field E1 E2 ltac:(idtac); [constructor|]. field E1 E2 ltac:(idtac); [|discriminate].
        eapply t_node with (foot := fun _ => in_ []); [reflexivity|cbn; tauto|reflexivity|repeat constructor; cbn; intuition discriminate| |intros ? ? ? []|intros ? ? []]. intros f x w E1 E2. cbn [sget] in E1, E2. field E1 E2 ltac:(idtac); [constructor; constructor|discriminate].
      - intros f g b. destruct (String.eqb_spec f "scope"), (String.eqb_spec g "scope"); subst; cbn; intros; try congruence; lia.
      - intros f b. destruct (String.eqb_spec f "scope"); cbn; intros; lia. }
    specialize (H swap 9%nat h (HRef 1) v _ _ (vnew "b") _ HT ltac:(cbn; intros b; lia) (made_by v eq_refl) eq_refl ltac:(rd)).
    inversion H as [| | | | |? ? s sc sc' G1 G2 G3 G4 G5|? ? ? Nc]; subst; [|congruence]. unfold has in *. cbv in G3. injection G3 as <-. cbv in G4. injection G4 as <-. inversion G5.
Qed.
Print Assumptions C43_refuted.
