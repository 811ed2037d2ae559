(** BindProps.v - C36, C50. *)
From Verif Require Import Base ScopeModel ScopeSpec DfModel DfSpec BindModel BindSpec BindProofs.
Local Open Scope string_scope.

(** C36: every history of additions (with wildcard-free names and bounds) succeeds; then, for
    every signal, the assignments are, in order of first addition, one per slice, each with
    the last tree added for its slice (and the clock information of the first). *)
Theorem C36_one_entry_per_slice : forall h, Forall plain_action h ->
  exists s, run empty_store h = Ok s /\
  forall n, no_any n ->
    NoDup (map slice (getBindlist (s_binds s) n)) /\
    exists fs, first_order (binds_of n h) fs /\
               Forall2 (entry_of (binds_of n h)) fs (getBindlist (s_binds s) n).
Proof.
  intros h H. destruct (run_inv h H) as (s & E & _ & _ & K & _). exists s. split; auto.
  intros n Hn. destruct (K n Hn) as [(fs & F1 & F2 & F3 & _) _]. split; [|exists fs; auto].
  replace (map slice (getBindlist (s_binds s) n)) with (map slice fs); auto.
  clear -F2. induction F2 as [|f x fs l (H & _) _ IH]; simpl; auto. now rewrite H, IH.
Qed.
Print Assumptions C36_one_entry_per_slice.

(** C36: declarations accumulate their types and keep the first range and dimensions given. *)
Theorem C36_declarations_accumulate : forall h, Forall plain_action h ->
  exists s, run empty_store h = Ok s /\
  forall n, no_any n ->
    match dget (s_terms s) n with
    | None => terms_of n h = []
    | Some t => terms_of n h <> [] /\
        (forall x, In x (t_type t) <-> exists t', In t' (terms_of n h) /\ In x (t_type t')) /\
        t_msb t = first_present is_none DNone (map t_msb (terms_of n h)) /\
        t_lsb t = first_present is_none DNone (map t_lsb (terms_of n h)) /\
        t_dims t = first_present (fun d => match d with None => true | _ => false end) None (map t_dims (terms_of n h))
    end.
Proof.
  intros h H. destruct (run_inv h H) as (s & E & _ & _ & _ & K). exists s. split; auto.
Qed.
Print Assumptions C36_declarations_accumulate.

(** C50: for a tree without wildcard names, the sources are exactly the names in it, each once,
    and the tree's value is determined by them. *)
Theorem C50_sources_exact : forall t l, no_wild (names t) ->
  getSources t = Ok l \/ getTreeSources t = Ok l ->
  name_set l (names t) /\
  forall I f g, (forall n, In n l -> f n = g n) -> eval (with_signals I f) t = eval (with_signals I g) t.
Proof.
  intros t l HW [E|E]; (pose proof (sources_spec _ t HW l E) as [H1 H2]; split; [split; auto|]);
  intros I f g H; apply eval_names; intros n Hn; apply H, H1, Hn.
Qed.
Print Assumptions C50_sources_exact.

(** C50: they are found exactly for trees without high-impedance and system-call nodes (and,
    for getTreeSources, without delay nodes). *)
Theorem C50_sources_succeed : forall t,
  ((exists l, getSources t = Ok l) <-> occurs (src_bad true) t = false) /\
  ((exists l, getTreeSources t = Ok l) <-> occurs (src_bad false) t = false).
Proof. exact (fun t => conj (sources_ok true t) (sources_ok false t)). Qed.
Print Assumptions C50_sources_succeed.

(** C50: the sources of a signal's definition. *)
Theorem C50_definition_sources_exact : forall terms binds n l,
  no_wild (definition_names (dget terms n) (getBindlist binds n)) ->
  getBindSources terms binds n = Ok l ->
  name_set l (definition_names (dget terms n) (getBindlist binds n)).
Proof. exact bind_sources_spec. Qed.
Print Assumptions C50_definition_sources_exact.

Definition nm (s : string) : chain := [Label "top" STmodule None; Label s STsignal None].
Definition bd (t : df) (m l : Z) : bind_ :=
  Bind t (nm "q") (DEval (PInt m) (Some 32%Z) false false) (DEval (PInt l) (Some 32%Z) false false) DNone None "".
Example C36_witness :
  let h := [ATerm (nm "q") (Term (nm "q") ["Output"] DNone DNone None);
            ABind (nm "q") (bd (DTerm (nm "a")) 7 4); ABind (nm "q") (bd (DTerm (nm "b")) 3 0);
            ATerm (nm "q") (Term (nm "q") ["Reg"] (DInt "7") (DInt "0") None);
            ABind (nm "q") (bd (DTerm (nm "c")) 7 4)] in
  Forall plain_action h /\
  exists s, run empty_store h = Ok s /\
    getBindlist (s_binds s) (nm "q") = [bd (DTerm (nm "c")) 7 4; bd (DTerm (nm "b")) 3 0] /\
    dget (s_terms s) (nm "q") = Some (Term (nm "q") ["Output"; "Reg"] (DInt "7") (DInt "0") None).
Proof.
  split; [repeat constructor; discriminate|]. eexists; split; [reflexivity|]. split; reflexivity.
Qed.
Example C50_witness :
  let t := DBranch (DTerm (nm "c")) (DOp [DTerm (nm "a"); DTerm (nm "c")] Plus) (DPart (DTerm (nm "b")) (DInt "3") (DInt "0")) in
  no_wild (names t) /\ getSources t = Ok [nm "c"; nm "a"; nm "b"].
Proof. split; [repeat constructor; discriminate|reflexivity]. Qed.
