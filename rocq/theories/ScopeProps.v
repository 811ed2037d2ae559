(** ScopeProps.v - C06, C07, C08. *)
From Verif Require Import Base ScopeModel ScopeSpec ScopeFlatSpec ScopeProofs ScopeFlat.
Local Open Scope string_scope.

(** C06: names compare reflexively and symmetrically, equal names hash equally, and
    comparison is exactly agreement of paths with matching kinds up to wildcards. *)
Theorem C06_name_eq_spec : forall a b : chain,
  (chain_eq a b = true <-> agree a b) /\ chain_eq a a = true /\ chain_eq a b = chain_eq b a /\
  (chain_eq a b = true -> chain_hash a = chain_hash b).
Proof. exact (fun a b => conj (chain_eq_agree a b) (conj (chain_eq_refl a)
                        (conj (chain_eq_sym a b) (chain_eq_hash a b)))). Qed.
Print Assumptions C06_name_eq_spec.

Theorem C06_name_eq_plain : forall a b, no_any a -> no_any b -> (chain_eq a b = true <-> a = b).
Proof. exact chain_eq_no_any. Qed.
Print Assumptions C06_name_eq_plain.

(** C06: a user-written list of component names finds exactly the signals with those
    component names (and no loop index), whatever the scope kinds. *)
Theorem C06_user_name_finds : forall names c,
  chain_eq (toTermname_list names) c = true <-> path c = map (fun n => (n, None)) names.
Proof. exact termname_lookup. Qed.
Print Assumptions C06_user_name_finds.

(** C06 (negative part): with wildcards comparison is not transitive, so it is not an
    equivalence: one user-written name equals two different signals. *)
Theorem C06_transitivity_refuted : exists a b c,
  chain_eq a b = true /\ chain_eq b c = true /\ chain_eq a c = false.
Proof.
  exists [Label "m" STmodule None], [Label "m" STany None], [Label "m" STblock None].
  repeat split; reflexivity.
Qed.
Print Assumptions C06_transitivity_refuted.

Example C06_witness :
  let c := [Label "top" STmodule None; Label "led" STsignal None] in
  no_any c /\ chain_eq (toTermname_str "top.led") c = true.
Proof. split; [repeat constructor; discriminate | reflexivity]. Qed.

(** C07: flat names are not unique. *)
Theorem C07_flat_names_unique_refuted : exists c1 c2,
  no_any c1 /\ no_any c2 /\ chain_eq c1 c2 = false /\ toFlatname c1 = toFlatname c2.
Proof.
  exists [Label "top" STmodule None; Label "a_b" STsignal None],
         [Label "top" STmodule None; Label "a" STmodule None; Label "b" STsignal None].
  split; [|split; [|split; reflexivity]]; repeat constructor; discriminate.
Qed.
Print Assumptions C07_flat_names_unique_refuted.

(** C07, what holds: names whose components are printable, non-empty and free of
    underscores flatten injectively. *)
Theorem C07_flat_names_unique_partial : forall c1 c2, plain c1 -> plain c2 ->
  toFlatname c1 = toFlatname c2 -> map sname c1 = map sname c2.
Proof. exact flat_inj_plain. Qed.
Print Assumptions C07_flat_names_unique_partial.

Example C07_witness :
  plain [Label "top" STmodule None; Label "inst" STmodule None; Label "led" STsignal None] /\
  toFlatname [Label "top" STmodule None; Label "inst" STmodule None; Label "led" STsignal None]
    = "top_inst_led".
Proof. split; [repeat constructor; discriminate | reflexivity]. Qed.

(** C07, loop iterations included: names whose printed components are non-empty and free of
    underscores flatten to different texts whenever their printed components or the loop
    iterations they sit in differ. *)
Theorem C07_flat_names_iterations_partial : forall c1 c2 v1 v2, shows c1 v1 -> shows c2 v2 ->
  toFlatname c1 = toFlatname c2 -> v1 = v2.
Proof. exact shows_flat_inj. Qed.
Print Assumptions C07_flat_names_iterations_partial.

Example C07_iteration_witness :
  let c i := [Label "top" STmodule None; Label "g" STgenerate None; Label "loop" STfor (Some i);
              Label "blk" STblock None; Label "led" STsignal None] in
  (forall i, shows (c i) [("top", None); ("blk", Some i); ("led", None)]) /\
  toFlatname (c 3%Z) = "top_blk_3__led" /\ toFlatname (c 12%Z) = "top_blk_12__led".
Proof.
  cbv zeta. split; [intros i|split; vm_compute; reflexivity].
  apply shows_name; [repeat split; discriminate|].
  apply shows_hidden; [reflexivity|discriminate|].
  apply shows_iteration; [reflexivity|reflexivity|repeat split; discriminate|].
  apply shows_name; [repeat split; discriminate|constructor].
Qed.

(** C08. *)
Theorem C08_dotted_roundtrip : forall s, chain_repr (toTermname_str s) = s.
Proof. exact repr_termname. Qed.
Print Assumptions C08_dotted_roundtrip.

Theorem C08_dotted_injective : forall s1 s2,
  chain_eq (toTermname_str s1) (toTermname_str s2) = true -> s1 = s2.
Proof. exact termname_str_inj. Qed.
Print Assumptions C08_dotted_injective.

Example C08_witness : toTermname_str "top.inst.led" =
  [Label "top" STany None; Label "inst" STany None; Label "led" STany None].
Proof. reflexivity. Qed.
