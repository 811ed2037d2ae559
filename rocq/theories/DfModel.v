(** DfModel.v - model of the dataflow tree classes of pyverilog/dataflow/dataflow.py:
    constructors, equality and hashing. *)
From Verif Require Import Base ScopeModel.

(** Operator names are strings in the code (the class names of the Verilog AST operators,
    vparser/ast.py:384-560); the model enumerates them. *)
Inductive op :=
| Uplus | Uminus | Ulnot | Unot | Uand | Unand | Uor | Unor | Uxor | Uxnor
| Power | Times | Divide | Mod | Plus | Minus
| Sll | Srl | Sla | Sra
| LessThan | GreaterThan | LessEq | GreaterEq
| Eq | NotEq | Eql | NotEql
| And | Xor | Xnor | Or | Land | Lor.
Scheme Equality for op.

(** The payload of a DFEvalValue: Python int, float (kept as its source text), str or None. *)
Inductive pyval := PInt (z : Z) | PFloat (s : string) | PStr (s : string) | PNone.

(** dataflow/dataflow.py:75-687 - the node classes. [DNone] is Python's None, which the code
    allows in the places of tree nodes (missing branch arms, missing bounds).
    DFEvalValue.width may be None. Children are tuples in the code; lists here. *)
Inductive df :=
| DNone
| DTerm (name : chain)                                   (* :75  DFTerminal *)
| DInt (value : string)                                  (* :145 DFIntConst *)
| DFloat (value : string)                                (* :190 DFFloatConst *)
| DStr (value : string)                                  (* :202 DFStringConst *)
| DOp (nextnodes : list df) (operator : op)              (* :218 DFOperator *)
| DPart (var msb lsb : df)                               (* :266 DFPartselect *)
| DPtr (var ptr : df)                                    (* :315 DFPointer *)
| DConcat (nextnodes : list df)                          (* :354 DFConcat *)
| DBranch (condnode truenode falsenode : df)             (* :394 DFBranch *)
| DEval (value : pyval) (width : option Z) (isfloat isstring : bool)  (* :482 DFEvalValue *)
| DUndef (width : Z)                                     (* :541 DFUndefined *)
| DHiz (width : Z)                                       (* :576 DFHighImpedance *)
| DDelay (nextnode : df)                                 (* :611 DFDelay *)
| DSys (syscall : string) (nextnodes : list df).         (* :645 DFSyscall *)

Section DfInd.
  Variable P : df -> Prop.
  Hypothesis HNone : P DNone.
  Hypothesis HTerm : forall n, P (DTerm n).
  Hypothesis HInt : forall s, P (DInt s).
  Hypothesis HFloat : forall s, P (DFloat s).
  Hypothesis HStr : forall s, P (DStr s).
  Hypothesis HOp : forall l o, Forall P l -> P (DOp l o).
  Hypothesis HPart : forall v m l, P v -> P m -> P l -> P (DPart v m l).
  Hypothesis HPtr : forall v p, P v -> P p -> P (DPtr v p).
  Hypothesis HConcat : forall l, Forall P l -> P (DConcat l).
  Hypothesis HBranch : forall c t f, P c -> P t -> P f -> P (DBranch c t f).
  Hypothesis HEval : forall v w f s, P (DEval v w f s).
  Hypothesis HUndef : forall w, P (DUndef w).
  Hypothesis HHiz : forall w, P (DHiz w).
  Hypothesis HDelay : forall t, P t -> P (DDelay t).
  Hypothesis HSys : forall s l, Forall P l -> P (DSys s l).
  Fixpoint df_ind' (t : df) : P t :=
    let go := fix go (l : list df) : Forall P l :=
      match l with [] => Forall_nil _ | x :: xs => Forall_cons _ (df_ind' x) (go xs) end in
    match t with
    | DNone => HNone | DTerm n => HTerm n | DInt s => HInt s | DFloat s => HFloat s
    | DStr s => HStr s
    | DOp l o => HOp l o (go l)
    | DPart v m l => HPart v m l (df_ind' v) (df_ind' m) (df_ind' l)
    | DPtr v p => HPtr v p (df_ind' v) (df_ind' p)
    | DConcat l => HConcat l (go l)
    | DBranch c t f => HBranch c t f (df_ind' c) (df_ind' t) (df_ind' f)
    | DEval v w f s => HEval v w f s
    | DUndef w => HUndef w | DHiz w => HHiz w
    | DDelay t => HDelay t (df_ind' t)
    | DSys s l => HSys s l (go l)
    end.
End DfInd.

Definition is_none (t : df) : bool := match t with DNone => true | _ => false end.
Definition isBranch (t : df) : bool := match t with DBranch _ _ _ => true | _ => false end.

(** dataflow/dataflow.py:221-227 - DFOperator.__init__ raises DefinitionError if an operand
    is None. *)
Definition mkOp (l : list df) (o : op) : res df :=
  if existsb is_none l then Err DefinitionError else Ok (DOp l o).

Definition pyval_eqb (a b : pyval) : bool :=
  match a, b with
  | PInt x, PInt y => Z.eqb x y
  | PFloat x, PFloat y => String.eqb x y     (* simplification: floats compared as texts *)
  | PStr x, PStr y => String.eqb x y
  | PNone, PNone => true
  | _, _ => false
  end.

(** dataflow/dataflow.py:107-110, 136-139, 257-260, 306-309, 345-348, 385-388, 471-476,
    529-535, 567-570, 602-605, 636-639, 678-683 - the __eq__ methods. [type(self) !=
    type(other)] makes nodes of different classes unequal; conjunctions short-circuit;
    DFDelay.__eq__ reads the missing attribute [nextnodes]. Tuples compare element by
    element, then by length. Simplification: CPython's identity shortcut for tuple
    elements is not modelled. *)
Fixpoint df_eq (a b : df) {struct a} : res bool :=
  let fix list_eq (xs ys : list df) {struct xs} : res bool :=
    match xs, ys with
    | x :: xs', y :: ys' => do e <- df_eq x y; if e then list_eq xs' ys' else Ok false
    | [], [] => Ok true
    | _, _ => Ok false
    end in
  let both (p : res bool) (q : res bool) : res bool :=
    do e <- p; if e then q else Ok false in
  match a, b with
  | DNone, DNone => Ok true
  | DTerm n, DTerm m => Ok (chain_eq n m)
  | DInt s, DInt s' | DFloat s, DFloat s' | DStr s, DStr s' => Ok (String.eqb s s')
  | DOp l o, DOp l' o' => if op_beq o o' then list_eq l l' else Ok false
  | DPart v m l, DPart v' m' l' => both (df_eq v v') (both (df_eq m m') (df_eq l l'))
  | DPtr v p, DPtr v' p' => both (df_eq v v') (df_eq p p')
  | DConcat l, DConcat l' => list_eq l l'
  | DBranch c t f, DBranch c' t' f' => both (df_eq c c') (both (df_eq t t') (df_eq f f'))
  | DEval v w f s, DEval v' w' f' s' =>
      Ok (pyval_eqb v v' && opt_eqb Z.eqb w w' && Bool.eqb f f' && Bool.eqb s s')
  | DUndef w, DUndef w' | DHiz w, DHiz w' => Ok (Z.eqb w w')
  | DDelay _, DDelay _ => Err AttributeError
  | DSys s l, DSys s' l' => if String.eqb s s' then list_eq l l' else Ok false
  | _, _ => Ok false
  end.

(** What Python's [hash] is applied to: nested tuples of strings, numbers and names. *)
Inductive hval :=
| HvNone | HvStr (s : string) | HvZ (z : Z) | HvOpt (z : option Z) | HvBool (b : bool)
| HvName (n : list (string * option Z)) | HvPy (v : pyval) | HvOp (o : op)
| HvTup (l : list hval).

(** dataflow/dataflow.py:112, 141, 262, 311, 350, 390, 478, 537, 572, 607, 641, 685 - the
    __hash__ methods, as the value whose hash is taken. DFDelay.__hash__ fails. *)
Fixpoint df_hash (t : df) : res hval :=
  let fix hlist (l : list df) : res (list hval) :=
    match l with
    | [] => Ok []
    | x :: xs => do h <- df_hash x; do hs <- hlist xs; Ok (h :: hs)
    end in
  match t with
  | DNone => Ok HvNone
  | DTerm n => Ok (HvName (chain_hash n))
  | DInt s | DFloat s | DStr s => Ok (HvStr s)
  | DOp l o => do hs <- hlist l; Ok (HvTup [HvOp o; HvTup hs])
  | DPart v m l => do a <- df_hash v; do b <- df_hash m; do c <- df_hash l; Ok (HvTup [a; b; c])
  | DPtr v p => do a <- df_hash v; do b <- df_hash p; Ok (HvTup [a; b])
  | DConcat l => do hs <- hlist l; Ok (HvTup hs)
  | DBranch c t f => do a <- df_hash c; do b <- df_hash t; do d <- df_hash f; Ok (HvTup [a; b; d])
  | DEval v w f s => Ok (HvTup [HvPy v; HvOpt w; HvBool f; HvBool s])
  | DUndef w | DHiz w => Ok (HvZ w)
  | DDelay _ => Err AttributeError
  | DSys _ l => do hs <- hlist l; Ok (HvTup hs)
  end.
