(** SubsetSpec.v - reachability between definitions, and merging of dictionaries. *)
From Verif Require Import Base ScopeModel ScopeSpec DfModel DfSpec BindModel BindSpec SubsetModel.

(** On the names in [D] (those of the design and those users write), comparison of names is
    comparison of paths: no two different things have the same path. *)
Definition consistent (D : chain -> Prop) : Prop :=
  forall a b, D a -> D b -> (chain_eq a b = true <-> path a = path b).
Definition keys_in {V} (D : chain -> Prop) (d : ndict V) : Prop := Forall (fun p => D (fst p)) d.

Section Reach.
  Variables (terms : ndict term) (binds : ndict (list bind_)) (main : chain).
  (** The names in the definition of n. *)
  Definition defs (n : chain) : list chain := definition_names (dget terms n) (getBindlist binds n).
  (** The bind is clocked by c, other than the main clock. *)
  Definition clocked_by (b : bind_) (c : chain) : Prop :=
    exists a, b_always b = Some a /\ clock_name a = CName c /\
      (clock_edge a = Some "posedge" \/ clock_edge a = Some "negedge")%string /\ ~ agree c main.
  (** n is defined by m: m occurs in its declaration or assignments, or clocks it. *)
  Definition uses (n m : chain) : Prop :=
    In m (defs n) \/ exists b, In b (getBindlist binds n) /\ clocked_by b m.
  Inductive reaches (n : chain) : chain -> Prop :=
  | r_refl : reaches n n
  | r_step m k : reaches n m -> uses m k -> reaches n k.

  (** A well-formed design: its names are in D, its assignments contain no delay nodes and no
      wildcard names. *)
  Definition plain_cname (c : cname) : Prop := match c with CName n => no_any n | _ => True end.
  Definition whole_bind (b : bind_) : Prop :=
    plain_tree (b_tree b) /\ plain_bind b /\ no_any (b_dest b) /\
    match b_always b with None => True | Some a => plain_cname (clock_name a) /\ plain_cname (reset_name a) end.
  Record design (D : chain -> Prop) : Prop := {
    ds_consistent : consistent D;
    ds_terms : keys_in D terms;
    ds_binds : keys_in D binds;
    ds_defs : forall n, D n -> no_wild (defs n) /\ Forall D (defs n);
    ds_clocks : forall n b c, D n -> In b (getBindlist binds n) -> clocked_by b c -> D c;
    ds_whole : forall n b, D n -> In b (getBindlist binds n) -> whole_bind b
  }.
  (** Every name is declared, definitions contain no high-impedance constant, system call or
      delay (which make extraction fail), and clocks have names. *)
  Record complete (D : chain -> Prop) : Prop := {
    cp_terms : forall n, D n -> dget terms n <> None;
    cp_trees : forall n, D n ->
      match dget terms n with
      | None => True
      | Some t => occurs (src_bad false) (t_msb t) = false /\ occurs (src_bad false) (t_lsb t) = false /\
          match t_dims t with
          | None => True
          | Some l => Forall (fun p => occurs (src_bad false) (fst p) = false /\ occurs (src_bad false) (snd p) = false) l
          end
      end /\
      Forall (fun b => occurs (src_bad false) (b_msb b) = false /\ occurs (src_bad false) (b_lsb b) = false /\
                       occurs (src_bad false) (b_ptr b) = false /\ occurs (src_bad false) (b_tree b) = false)
             (getBindlist binds n);
    cp_clocks : forall n b a, D n -> In b (getBindlist binds n) -> b_always b = Some a -> clock_name a <> CNone
  }.
End Reach.

(** The elements a dictionary of lists holds under a path. *)
Definition holds_under {V} (d : ndict (list V)) (p : list (string * option Z)) (x : V) : Prop :=
  exists k l, In (k, l) d /\ path k = p /\ In x l.
Definition in_path (m : chain) (l : list chain) : Prop := exists m', In m' l /\ path m' = path m.

(** [r] is [l] followed by the elements of [xs] not yet present, each once. *)
Definition followed_by_new {V} (l xs r : list V) : Prop :=
  exists ys, r = l ++ ys /\ NoDup ys /\ (forall y, In y ys <-> In y xs /\ ~ In y l).

(** Distinct keys. *)
Definition distinct_keys {V} (d : ndict V) : Prop := NoDup (map (fun p => path (fst p)) d).
