(** MergeSpec2.v - what merging and cutting a list of assignments means. *)
From Verif Require Import Base ScopeModel DfModel BindModel OptModel OptSpec MergeModel MergeSpec.
Require Import Coq.Sorting.Sorted.
Local Open Scope Z_scope.

(** The element (None: not an array element) and the bits msb..lsb that an assignment with constant
    bounds writes. *)
Definition place := (option Z * Z * Z)%type.
Definition place_of (b : bind_) : option place :=
  match b_msb b, b_lsb b with
  | DEval (PInt m) _ _ _, DEval (PInt l) _ _ _ =>
      match b_ptr b with
      | DNone => Some (None, m, l)
      | DEval (PInt p) _ _ _ => Some (Some p, m, l)
      | _ => None
      end
  | _, _ => None
  end.
Definition place_dec : forall a b : option place, {a = b} + {a <> b}.
Proof. repeat decide equality. Defined.
Definition same_place (a b : bind_) : bool := if place_dec (place_of a) (place_of b) then true else false.
(** Two assignments to elements of an array, or two to slices of a vector; in one element the bits are the same
    or disjoint. *)
Definition same_or_apart (a b : bind_) : Prop :=
  forall p m l p' m' l', place_of a = Some (p, m, l) -> place_of b = Some (p', m', l') ->
  (p = None <-> p' = None) /\ (p = p' -> (m = m' /\ l = l') \/ m < l' \/ m' < l).
(** a's element comes before b's, or in the same element a's bits are below b's. *)
Definition below (a b : bind_) : Prop :=
  exists p m l p' m' l', place_of a = Some (p, m, l) /\ place_of b = Some (p', m', l') /\
  match p, p' with
  | Some x, Some y => x < y \/ (x = y /\ m < l')
  | None, None => m < l'
  | _, _ => False
  end.
(** t is made of the trees ts by merging one after the other. *)
Inductive merged_in_order (optimize : df -> res df) : list df -> df -> Prop :=
| MOne : forall t, merged_in_order optimize [t] t
| MMore : forall ts u t v w, merged_in_order optimize ts u -> mergeTree optimize u t = Ok v -> optimize v = Ok w -> merged_in_order optimize (ts ++ [t]) w.

(** The pieces of b: together its bits, without overlap, and of the same signal. *)
Definition pieces_of (b : bind_) (g : list bind_) : Prop :=
  (forall x, covers b x <-> exists c, In c g /\ covers c x) /\
  ForallOrdPairs (fun c d => forall x, ~ (covers c x /\ covers d x)) g /\
  Forall (fun c => slice_of c <> None /\ b_dest c = b_dest b) g.
(** p lies between two bits of b. *)
Definition cuts (p : Z) (b : bind_) : Prop := covers b (p - 1) /\ covers b p.
(** All of b's bits are bits of a. *)
Definition within (b a : bind_) : Prop := forall x, covers b x -> covers a x.
Definition disjoint (a b : bind_) : Prop := forall x, ~ (covers a x /\ covers b x).
Definition same_bits (a b : bind_) : Prop := slice_of a = slice_of b.
(** a's bits are strictly inside b's. *)
Definition strictly_inside (a b : bind_) : Prop := exists m l m' l', slice_of a = Some (m, l) /\ slice_of b = Some (m', l') /\ l' < l /\ m < m'.
(** No bit is written by three of the assignments. *)
Definition never_three (l : list bind_) : Prop :=
  forall l1 a l2 b l3 c l4 x, l = l1 ++ a :: l2 ++ b :: l3 ++ c :: l4 -> ~ (covers a x /\ covers b x /\ covers c x).
