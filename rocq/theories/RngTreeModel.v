(** RngTreeModel.v - model of toTree in pyverilog/controlflow/active_range.py: a range condition as a dataflow tree. *)
From Verif Require Import Base ScopeModel DfModel BindModel ActiveModel RngModel.

(** DFEvalValue(x) for a bound, which may be None. *)
Definition bound_value (b : option Z) : df := DEval (match b with None => PNone | Some z => PInt z end) (Some 32%Z) false false.
(** active_range.py:506-515 - the tree of one range. *)
Definition range_tree (n : chain) (r : rng) : res df :=
  match snd r with
  | None => mkOp [bound_value (fst r); DTerm n] LessEq
  | Some b =>
      do l <- mkOp [bound_value (fst r); DTerm n] LessEq;
      do u <- mkOp [DTerm n; bound_value (Some b)] GreaterEq;
      mkOp [l; u] Land
  end.
(** active_range.py:504-520 - ActiveTerm.toTree: retnode is None (DNone) at the start. *)
Fixpoint any_tree (n : chain) (acc : df) (l : list rng) : res df :=
  match l with
  | [] => Ok acc
  | r :: rest =>
      do t <- range_tree n r;
      do acc' <- (if is_none acc then Ok t else mkOp [acc; t] Lor);
      any_tree n acc' rest
  end.
Definition term_tree (t : aterm) : res df := any_tree (a_name t) DNone (a_ranges t).
(** active_range.py:567-577 - ActiveCondition.toTree. *)
Fixpoint all_tree (acc : df) (d : cond) : res df :=
  match d with
  | [] => Ok acc
  | (_, t) :: rest =>
      do x <- term_tree t;
      do acc' <- (if is_none acc then Ok x else mkOp [acc; x] Land);
      all_tree acc' rest
  end.
Definition cond_tree (d : cond) : res df := match d with [] => Ok (bound_value (Some 1%Z)) | _ => all_tree DNone d end.
