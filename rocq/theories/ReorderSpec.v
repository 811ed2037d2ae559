(** ReorderSpec.v - branch-first form, and what undefined-replacement must preserve. *)
From Verif Require Import Base ScopeModel DfModel DfSpec.

(** [branch_first true t]: branches only on top: conditions and leaves contain none.
    [branch_first false t]: no branch at all. The inside of a delay node is judged on its own. *)
Fixpoint branch_first (top : bool) (t : df) : bool :=
  match t with
  | DBranch c a b => top && branch_first false c && branch_first true a && branch_first true b
  | DOp l _ | DConcat l | DSys _ l => forallb (branch_first false) l
  | DPart v m l => branch_first false v && branch_first false m && branch_first false l
  | DPtr v p => branch_first false v && branch_first false p
  | DDelay a => branch_first true a
  | _ => true
  end.

(** Trees on which reordering must succeed. *)
Definition branch_free (t : df) : Prop := occurs isBranch t = false.
(** No branch arm that can surface at the root of [t] is missing. *)
Fixpoint arms_present (t : df) : bool :=
  match t with
  | DNone => false
  | DBranch _ a b => arms_present a && arms_present b
  | DPart v _ _ => is_none v || arms_present v
  | DPtr v _ => is_none v || arms_present v
  | _ => true
  end.
Fixpoint reorderable (t : df) : bool :=
  match t with
  | DSys _ _ => false
  | DOp l _ => forallb reorderable l && forallb arms_present l
  | DConcat l => forallb reorderable l
  | DPart v m l => reorderable v && reorderable m && reorderable l
                   && negb (occurs isBranch m) && negb (occurs isBranch l)
  | DPtr v p => reorderable v && reorderable p
  | DBranch c a b => reorderable c && reorderable a && reorderable b
  | DDelay a => reorderable a
  | _ => true
  end.

(** Nodes undefined-replacement rejects: high impedance, delay, system call. *)
Definition ru_bad (t : df) : bool := isHiz t || isDelay t || isSys t.

(** Interpretation that reads the signal [n] for every missing or undefined part. *)
Definition with_old_value (I : interp) (n : chain) : interp :=
  Interp (dom I) (i_term I n) (i_term I)
         (fun t => match t with DUndef _ => i_term I n | _ => i_const I t end)
         (i_op I) (i_part I) (i_ptr I) (i_concat I) (i_delay I) (i_sys I) (i_truth I).

(** Substituting [u] for every missing or undefined part, as a plain tree substitution. *)
Fixpoint fill (u t : df) : df :=
  match t with
  | DNone | DUndef _ => u
  | DOp l o => DOp (map (fill u) l) o
  | DPart v m l => DPart (fill u v) (fill u m) (fill u l)
  | DPtr v p => DPtr (fill u v) (fill u p)
  | DConcat l => DConcat (map (fill u) l)
  | DBranch c a b => DBranch (fill u c) (fill u a) (fill u b)
  | DDelay a => DDelay (fill u a)
  | DSys s l => DSys s (map (fill u) l)
  | _ => t
  end.
