(** ResolveSpec.v - values of parameters. *)
From Verif Require Import Base ScopeModel ScopeSpec DfModel BindModel OptModel OptSpec WalkSpec.
Local Open Scope Z_scope.

Definition parameter (t : term) : Prop := has_type t "Parameter" \/ has_type t "Localparam".
Definition int_value (v w : Z) : df := DEval (PInt v) (Some w) false false.

(** Values for (some of) the parameters that satisfy all their definitions at once: each is the
    value and width of its definition, which uses no other parameters than these. *)
Definition solves (terms : ndict term) (binds : ndict (list bind_)) (V : ndict df) : Prop :=
  forall n c, no_any n -> dget V n = Some c ->
  exists t b bs v w, dget terms n = Some t /\ parameter t /\ dget binds n = Some (b :: bs) /\
    folds (OptEnv terms V) (b_tree b) v w /\ c = int_value v w.

(** n comes before m: it belongs to a module higher up, or is written earlier at the same depth. *)
Definition written_before (l : list chain) (n m : chain) : Prop := exists l1 l2, l = l1 ++ n :: l2 /\ In m l2.
Definition comes_before {A} (d : ndict A) (n m : chain) : Prop :=
  In n (map fst d) /\ ((length n < length m)%nat \/ length n = length m /\ written_before (map fst d) n m).
(** Names in the definition and in the declared range of a parameter. *)
Definition mentioned (t : term) (b : bind_) : list chain := signals (b_tree b) ++ signals (t_msb t) ++ signals (t_lsb t).
(** Parameters are declared before they are used. *)
Definition declared_before_use (terms : ndict term) (binds : ndict (list bind_)) : Prop :=
  forall n t b bs m, no_any n -> dget terms n = Some t -> parameter t -> dget binds n = Some (b :: bs) -> In m (mentioned t b) -> comes_before binds m n.
(** No wildcards in names, no name twice. *)
Definition plain_names (terms : ndict term) (binds : ndict (list bind_)) : Prop :=
  Forall (fun p => no_any (fst p)) terms /\ Forall (fun p => no_any (fst p)) binds /\ NoDup (map fst binds).
(** No wildcards in the names that ranges mention. *)
Definition plain_ranges (terms : ndict term) : Prop :=
  forall n t m, dget terms n = Some t -> In m (signals (t_msb t) ++ signals (t_lsb t)) -> no_any m.
(** All the assignments are to declared names. *)
Definition all_declared {A} (terms : ndict term) (binds : ndict A) : Prop := forall n x, In (n, x) binds -> exists t, dget terms n = Some t.
