(** WordModel.v - model of pyverilog/dataflow/bindvisitor.py: a word of a memory is read after blocking assignments to words. *)
From Verif Require Import Base ScopeModel DfModel ReorderModel BindModel AsgModel PartsModel.

(** bindvisitor.py:1247-1250 - the loop over the recorded assignments; the constructor check of DFOperator is in mkOp. *)
Fixpoint over_binds (t : df) (l : list bind_) (p : df) : res df :=
  match l with
  | [] => Ok t
  | b :: r => do c <- mkOp [b_ptr b; p] Eq; over_binds (DBranch c (b_tree b) t) r p
  end.
(** bindvisitor.py:1239-1253 - resolveBlockingAssign of a pointer into an array; [p] is the resolved index, [l] the entries found. *)
Definition read_word (n : chain) (l : list bind_) (p : df) : res df := over_binds (DPtr (DTerm n) p) l p.
(** Assignments one after the other (PartsModel.notes), then a read. *)
Definition read_word_after (n : chain) (ws : list bind_) (p : df) : res df := do l <- notes [] ws; read_word n l p.
(** bindvisitor.py:1386 - getDst: the index of an assigned word is made and optimized, blocking assignments to the signals in it are not looked up.
    The index is a single name here. *)
Definition index_written (i : chain) : df := DTerm i.
(** bindvisitor.py:1205-1213, 1240 - the index of a read word is resolved; [ws]: the earlier assignments to the whole signal i. *)
Definition index_read (opt : df -> res df) (tmsb tlsb : df) (i : chain) (ws : list bind_) : res df := read_after opt tmsb tlsb i ws.
