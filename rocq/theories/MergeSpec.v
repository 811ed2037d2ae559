(** MergeSpec.v - what merging assignments means. *)
From Verif Require Import Base ScopeModel DfModel BindModel OptModel OptSpec MergeModel.
Local Open Scope Z_scope.

(** ** Assignment trees *)
(** The leaf a tree assigns, for given truth of conditions; DNone if it assigns nothing. *)
Fixpoint chosen (holds : df -> bool) (t : df) : df :=
  match t with DBranch c a b => if holds c then chosen holds a else chosen holds b | _ => t end.
(** The conditions of a tree. *)
Fixpoint conds (t : df) : list df := match t with DBranch c a b => c :: conds a ++ conds b | _ => [] end.
Definition not_branch (t : df) : Prop := match t with DBranch _ _ _ => False | _ => True end.
(** An unconditional later tree never meets a conditional earlier one. *)
Fixpoint no_overwrite (optimize : df -> res df) (first second : df) : Prop :=
  match first, second with
  | DBranch c a b, DBranch c' a' b' =>
      (exists x y, optimize c = Ok x /\ optimize c' = Ok y /\ df_eq x y = Ok true) ->
      no_overwrite optimize a a' /\ no_overwrite optimize b b'
  | DBranch _ _ _, DNone => True
  | DBranch _ _ _, _ => False
  | _, _ => True
  end.

(** ** Slices *)
(** An assignment to bits m..l (constants) of a signal. *)
Definition slice_of (b : bind_) : option (Z * Z) :=
  match b_msb b, b_lsb b, b_ptr b with DEval (PInt m) _ _ _, DEval (PInt l) _ _ _, DNone => Some (m, l) | _, _, _ => None end.
(** Bit p is assigned by b. *)
Definition covers (b : bind_) (p : Z) : Prop := exists m l, slice_of b = Some (m, l) /\ l <= p <= m.
(** Slices, without overlap, of all bits 0..n-1. *)
Definition tiles (n : Z) (bs : list bind_) : Prop :=
  Forall (fun b => exists m l, slice_of b = Some (m, l) /\ 0 <= l <= m /\ m < n) bs /\
  ForallOrdPairs (fun a b => forall p, ~ (covers a p /\ covers b p)) bs /\
  forall p, 0 <= p < n -> exists b, In b bs /\ covers b p.
(** The tree of an assignment is as wide as the slice, and its value fits. *)
Definition sized (rho : venv) (b : bind_) : Prop :=
  exists m l v, slice_of b = Some (m, l) /\ width rho (b_tree b) = Some (m - l + 1) /\ value rho (b_tree b) = Some v /\ 0 <= v < 2 ^ (m - l + 1).
(** v has, at the position of each slice, that slice's value. *)
Definition placed (rho : venv) (v : Z) (bs : list bind_) : Prop :=
  forall b m l x, In b bs -> slice_of b = Some (m, l) -> value rho (b_tree b) = Some x -> low (v / 2 ^ l) (m - l + 1) = x.

(** ** Ranges (msb, lsb, pointer) *)
Definition inside (r : range) (x : Z) : Prop := snd (fst r) <= x <= fst (fst r).
(** The same with the ends in either order. *)
Definition between (r : range) (x : Z) : Prop := Z.min (fst (fst r)) (snd (fst r)) <= x <= Z.max (fst (fst r)) (snd (fst r)).
Definition proper (r : range) : Prop := snd (fst r) <= fst (fst r).
Definition apart (r s : range) : Prop := forall x, ~ (inside r x /\ inside s x).
