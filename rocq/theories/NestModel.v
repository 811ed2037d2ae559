(** NestModel.v - model of pyverilog/dataflow/bindvisitor.py: begin-end blocks around assignments to and reads of words of a memory. *)
From Verif Require Import Base ScopeModel DfModel ReorderModel BindModel AsgModel PartsModel WordModel.
Local Open Scope list_scope.

(** What happens in an always block, in order, as far as one memory is concerned: a begin-end block starts or ends, a word is assigned, a word is read. *)
Inductive event (A : Type) := EOpen | EClose | EPut (a : A) | ELook (p : df).
Arguments EOpen {A}. Arguments EClose {A}. Arguments EPut {A} a. Arguments ELook {A} p.
(** visit.py:785-795 - FrameTable.getBlockingAssign: the entries of the innermost frame that has some; the frames are those of the always block. *)
Fixpoint nearest (s : list (list bind_)) : list bind_ := match s with [] => [] | [] :: r => nearest r | c :: _ => c end.
(** bindvisitor.py:525-543 - visit_Block: a new frame at the begin; at the end its entries are copied to the frame around it
    (668-672, copyBlockingAssigns). 1458-1468 - setRenamedFlow records an assignment in the current frame. 1239-1253 - a word is read
    (without entries: 1252, the word itself). The result are the trees that the reads get. Events that match no begin are errors here; the parser
    gives none. *)
Fixpoint run (n : chain) (s : list (list bind_)) (l : list (event bind_)) : res (list df) :=
  match l with
  | [] => Ok []
  | EOpen :: r => run n ([] :: s) r
  | EClose :: r => match s with c :: d :: s' => do d' <- notes d c; run n (d' :: s') r | _ => Err KeyError end
  | EPut b :: r => match s with c :: s' => do c' <- note c b; run n (c' :: s') r | [] => Err KeyError end
  | ELook p :: r => do t <- read_word n (nearest s) p; do ts <- run n s r; Ok (t :: ts)
  end.
