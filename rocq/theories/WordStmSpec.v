(** WordStmSpec.v - what a statement leaves in a word of a memory. *)
From Verif Require Import Base ScopeModel DfModel DfSpec BindModel BindSpec PartsSpec WordSpec WordCondSpec WordStmModel.
Local Open Scope list_scope.

(** The word m[p] after the statement; v: before it. *)
Fixpoint executes (I : interp) (s : wstm) (p : df) (v : dom I) : dom I :=
  match s with
  | WSkip => v
  | WPut w => if hits I (k_index w) p then i_term I (k_held w) else v
  | WSeq a b => executes I b p (executes I a p v)
  | WBlock a => executes I a p v
  | WIf c a b => if i_truth I (eval I c) then executes I a p v else executes I b p v
  | WCase l => selects I l p v
  end
with selects (I : interp) (l : witems) (p : df) (v : dom I) : dom I :=
  match l with INil => v | ICons c a r => if i_truth I (eval I c) then executes I a p v else selects I r p v end.
(** The assignments in the text, with the conditions around them. *)
Fixpoint in_text (c : list (df * bool)) (s : wstm) : list cond_write :=
  match s with
  | WSkip => []
  | WPut w => [CondWrite c w]
  | WSeq a b => in_text c a ++ in_text c b
  | WBlock a => in_text c a
  | WIf d a b => in_text (c ++ [(d, true)]) a ++ in_text (c ++ [(d, false)]) b
  | WCase l => in_items c l
  end
with in_items (c : list (df * bool)) (l : witems) : list cond_write :=
  match l with INil => [] | ICons d a r => in_text (c ++ [(d, true)]) a ++ in_items (c ++ [(d, false)]) r end.
(** for (i = 0; i < n; i = i + 1) m[i] = ..., unrolled: a frame for each iteration, as for a block (bindvisitor.py:453-468), the index is the
    number of the iteration; the value of iteration i is held by the added signal g i. *)
Fixpoint filled (g : nat -> chain) (n : nat) : wstm :=
  match n with O => WSkip | S n => WSeq (filled g n) (WBlock (WPut (WordWrite (num (Z.of_nat n)) (g n)))) end.
