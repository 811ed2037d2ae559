(** WordCondModel.v - model of pyverilog/dataflow/bindvisitor.py: words of a memory assigned under if statements. *)
From Verif Require Import Base ScopeModel DfModel ReorderModel BindModel AsgModel PartsModel WordModel.
Local Open Scope list_scope.

(** bindvisitor.py:1458-1468 - setRenamedFlow, with makeBind (1470-1516, AsgModel.insert): the entry of the first assignment with this index, under the
    conditions [c]; the assigned value is held by the added signal [held]. *)
Definition cond_entry (m : chain) (ai : option alwaysinfo) (c : path) (i : df) (held : chain) : res bind_ :=
  do t <- insert DNone c (DTerm held); Ok (Bind t m DNone DNone i ai "blocking").
