(** ActiveSpec.v - what ranges, terms and conditions mean. *)
From Verif Require Import Base ScopeModel DfModel DfSpec BindModel TransModel TransSpec ActiveModel.
Local Open Scope Z_scope.

(** A value is in one of the ranges; a missing bound is no bound. *)
Definition in_range (r : rng) (x : Z) : Prop :=
  match fst r with Some a => a <= x | None => True end /\ match snd r with Some b => x <= b | None => True end.
Definition in_ranges (l : list rng) (x : Z) : Prop := exists r, In r l /\ in_range r x.
(** A term holds if its signal's value is in its ranges; a condition if all its terms do; a list if
    one of its conditions does. *)
Definition term_holds (h : heap) (i : nat) (val : chain -> Z) : Prop := exists t, nth_error (terms h) i = Some t /\ in_ranges (a_ranges t) (val (a_name t)).
Definition cond_holds (h : heap) (c : nat) (val : chain -> Z) : Prop := exists d, nth_error (conds h) c = Some d /\ forall k i, In (k, i) d -> term_holds h i val.
Definition some_holds (h : heap) (l : list nat) (val : chain -> Z) : Prop := exists c, In c l /\ cond_holds h c val.
Definition holds (h : heap) (v : aval) (val : chain -> Z) : Prop :=
  match v with ANone => True | ATerm t => term_holds h t val | ACond c => cond_holds h c val | AList l => some_holds h l val end.

(** The designs' values: every signal has a value that fits its width, and operators mean what they
    mean. *)
Record world (width : chain -> res Z) (I : interp) (val : chain -> Z) : Prop := {
  w_reads : forall n, reads_state I n (val n);
  w_same : forall n m, chain_eq n m = true -> val n = val m;
  w_fits : forall n w, width n = Ok w -> 0 <= val n < 2 ^ w }.
Definition truth (I : interp) (c : df) : bool := i_truth I (eval I c).
Definition can_be (width : chain -> res Z) (b : bool) (c : df) : Prop := exists I val, world width I val /\ bitwise_logical I c /\ truth I c = b.

(** The conditions that are inferred exactly: *)
Inductive kind := KTerm | KCond | KList.
Definition kind_not (k : kind) : kind := match k with KTerm => KTerm | _ => KList end.
Definition kind_and (k l : kind) : kind := match k, l with KList, _ | _, KList => KList | _, _ => KCond end.
Fixpoint kind_of (c : df) : kind :=
  match c with
  | DOp [x] _ => kind_not (kind_of x)
  | DOp [x; y] o => if isOr o then KList else if isAnd o then kind_and (kind_of x) (kind_of y) else KTerm
  | _ => KTerm
  end.
Fixpoint signals (c : df) : list chain :=
  match c with DTerm n => [n] | DOp l _ => flat_map signals l | _ => [] end.
Definition apart (x y : df) : Prop := forall n m, In n (signals x) -> In m (signals y) -> chain_eq n m = false.
Definition not_neq (o : op) : Prop := o <> NotEq /\ o <> NotEql.
Definition not_term (c : df) : Prop := forall n, c <> DTerm n.
(** (a) signals and comparisons (not by !=) of a signal with a constant that can be true and can be
    false; (b) negations of such and of conjunctions of such; (c) conjunctions that can be true, in
    which no signal of a part with a disjunction (or a negated conjunction) occurs in the other part;
    (d) disjunctions. *)
Inductive exact (width : chain -> res Z) : df -> Prop :=
| ex_signal n : can_be width true (DTerm n) -> can_be width false (DTerm n) -> exact width (DTerm n)
| ex_left n e o : isCompare o = true -> not_neq o -> cmp_ok o e = true -> can_be width true (DOp [DTerm n; e] o) -> can_be width false (DOp [DTerm n; e] o) -> exact width (DOp [DTerm n; e] o)
| ex_right n e o : isCompare (swap_op o) = true -> isCompare o = true -> not_neq o -> cmp_ok (swap_op o) e = true -> can_be width true (DOp [e; DTerm n] o) -> can_be width false (DOp [e; DTerm n] o) -> exact width (DOp [e; DTerm n] o)
| ex_not x o : isNot o = true -> exact width x -> kind_of x <> KList -> exact width (DOp [x] o)
| ex_and x y o : isAnd o = true -> exact width x -> exact width y -> can_be width true (DOp [x; y] o) -> (kind_and (kind_of x) (kind_of y) = KList -> apart x y) -> exact width (DOp [x; y] o)
| ex_or x y o : isOr o = true -> exact width x -> exact width y -> exact width (DOp [x; y] o).
(** A list of conditions that must all hold, as one condition. *)
Definition all_of (c : df) (cs : list df) : df := fold_left (fun a b => DOp [a; b] Land) cs c.
