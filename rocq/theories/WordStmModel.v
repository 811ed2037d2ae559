(** WordStmModel.v - model of pyverilog/dataflow/bindvisitor.py: statements that assign words of a memory. *)
From Verif Require Import Base ScopeModel DfModel ReorderModel BindModel AsgModel PartsModel WordModel WordSpec WordCondModel.
Local Open Scope list_scope.

(** Statements: nothing, an assignment of a word (its value is held by an added signal), one after the other, a begin-end block, if-else
    (WSkip for a missing else branch or an empty block; an else after a missing then branch is an error, BlkModel.v, and left out), case (items with their conditions; that of the default is the number 1). Reads and other assignments are left out; the conditions are trees over signals that the statement does not assign. *)
Inductive wstm := WSkip | WPut (w : word_write) | WSeq (a b : wstm) | WBlock (a : wstm) | WIf (c : df) (a b : wstm) | WCase (l : witems)
with witems := INil | ICons (c : df) (a : wstm) (r : witems).
(** The entries of several frames are copied, in order. *)
Fixpoint notes_all (l : list bind_) (ts : list (list bind_)) : res (list bind_) := match ts with [] => Ok l | t :: r => do l' <- notes l t; notes_all l' r end.
(** bindvisitor.py:525-543 (visit_Block), 313-318 (visit_IfStatement), 361-373, 378-425 (visit_CaseStatement, _case: a frame for each item, one for the others), 548-549 with 1458-1468 (an assignment, each index for the first time),
    668-672 (copyBlockingAssigns). [p]: getCondlist and getFlowlist (965-991); [cur]: the entries of the current frame; the result are its entries afterwards. *)
Fixpoint wvisit (m : chain) (ai : option alwaysinfo) (p : path) (cur : list bind_) (s : wstm) : res (list bind_) :=
  match s with
  | WSkip => Ok cur
  | WPut w => do b <- cond_entry m ai p (k_index w) (k_held w); note cur b
  | WSeq a b => do c <- wvisit m ai p cur a; wvisit m ai p c b
  | WBlock a => do c <- wvisit m ai p [] a; notes cur c
  | WIf c a b =>
      do t <- wvisit m ai (p ++ [(c, true)]) [] a; do e <- wvisit m ai (p ++ [(c, false)]) [] b;
      do x <- notes cur t; notes x e
  | WCase l => do ts <- wcase m ai p l; notes_all cur ts
  end
with wcase (m : chain) (ai : option alwaysinfo) (p : path) (l : witems) : res (list (list bind_)) :=
  match l with
  | INil => Ok []
  | ICons c a r =>
      do t <- wvisit m ai (p ++ [(c, true)]) [] a;
      match r with INil => Ok [t] | _ => do ts <- wcase m ai (p ++ [(c, false)]) r; Ok (t :: [] :: ts) end
  end.
(** The statement, then a read after it (WordModel.read_word). *)
Definition read_after_stm (m : chain) (ai : option alwaysinfo) (s : wstm) (q : df) : res df := do l <- wvisit m ai [] [] s; read_word m l q.
