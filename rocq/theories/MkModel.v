(** MkModel.v - model of pyverilog/dataflow/bindvisitor.py:1001-1165 (makeDFTree): the dataflow tree
    of an expression. *)
From Verif Require Import Base ScopeModel DfModel ReorderModel AsgModel ExprModel.

(** dataflow/reorder.py:94-97 - insertUnaryOp. *)
Fixpoint insertUnaryOp (base : df) (o : op) : res df :=
  match base with
  | DBranch c t f => do a <- insertUnaryOp t o; do b <- insertUnaryOp f o; Ok (DBranch c a b)
  | _ => mkOp [base] o
  end.

Section Mk.
  Variable find : string -> res chain.      (* searchTerminal in the scope; DefinitionError if there is none (:1006-1016) *)
  Variable array : chain -> bool.           (* getTermDims(name) is not None *)
  Variable times : expr -> res Z.           (* optimize(getTree(node.times)).value (:1077) *)
  Variable k : nat.                         (* recursion depth of insertConcat *)

  (** bindvisitor.py:1001-1165 - makeDFTree. Identifiers with a scope, strings, floats and the inlining
      of function calls are left out. reorder.insertCond (:1031) does not exist. *)
  Fixpoint makeDFTree (e : expr) : res df :=
    match e with
    | XId s => do n <- find s; Ok (DTerm n)
    | XInt s => Ok (DInt s)
    | XCond c t f =>
        do t' <- makeDFTree t; do f' <- makeDFTree f; do c' <- makeDFTree c;
        if isBranch c' then Err AttributeError else Ok (DBranch c' t' f')
    | XUn o a => do a' <- makeDFTree a; if isBranch a' then insertUnaryOp a' o else mkOp [a'] o
    | XBin o a b =>
        do a' <- makeDFTree a; do b' <- makeDFTree b;
        if isBranch a' || isBranch b' then insertOp a' b' o else mkOp [a'; b'] o
    | XPart v m l =>
        do v' <- makeDFTree v; do m' <- makeDFTree m; do l' <- makeDFTree l;
        Ok (if isBranch v' then insertPartselect v' m' l' else DPart v' m' l')
    | XPtr v p =>
        do v' <- makeDFTree v; do p' <- makeDFTree p;
        Ok (match v' with
            | DTerm n => if array n then DPtr v' p' else DPart v' p' p'
            | _ => DPart v' p' p'
            end)
    | XConcat l =>
        do l' <- mapM makeDFTree l;
        if existsb isBranch l' then insertConcat k l' else Ok (DConcat l')
    | XRepeat v n => do c <- times n; do v' <- makeDFTree v; Ok (DConcat (repeat v' (Z.to_nat c)))
    | XSys f l =>
        if String.eqb f "unsigned" || String.eqb f "signed"
        then match l with a :: _ => makeDFTree a | [] => Err IndexError end
        else Ok (DInt "0")
    | XCall _ _ => Err Unmodelled
    end.
End Mk.
