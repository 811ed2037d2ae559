(** GraphModel.v - model of pyverilog/dataflow/graphgen.py: the nodes and edges that
    VerilogGraphGenerator adds to its graph. *)
From Verif Require Import Base ScopeModel DfModel LitModel CodeModel.
Local Open Scope string_scope.

(** Operators are their class names: dataflow.py:229-230. *)
Definition op_repr (o : op) : string :=
  match o with
  | Uplus => "Uplus" | Uminus => "Uminus" | Ulnot => "Ulnot" | Unot => "Unot" | Uand => "Uand" | Unand => "Unand" | Uor => "Uor" | Unor => "Unor" | Uxor => "Uxor" | Uxnor => "Uxnor"
  | Power => "Power" | Times => "Times" | Divide => "Divide" | Mod => "Mod" | Plus => "Plus" | Minus => "Minus" | Sll => "Sll" | Srl => "Srl" | Sla => "Sla" | Sra => "Sra"
  | LessThan => "LessThan" | GreaterThan => "GreaterThan" | LessEq => "LessEq" | GreaterEq => "GreaterEq" | Eq => "Eq" | NotEq => "NotEq" | Eql => "Eql" | NotEql => "NotEql"
  | And => "And" | Xor => "Xor" | Xnor => "Xnor" | Or => "Or" | Land => "Land" | Lor => "Lor"
  end.
(** tolabel() (dataflow.py:57, 100-101): __repr__ (dataflow.py:122, 229, 274, 322, 360, 402, 491, 547,
    582, 617, 652), and tocode() for a terminal. *)
Definition tolabel (t : df) : res string :=
  match t with
  | DNone => Err AttributeError
  | DTerm n => Ok (chain_tocode n)
  | DInt s | DFloat s | DStr s => Ok s
  | DOp _ o => Ok (op_repr o)
  | DPart _ _ _ => Ok "PartSelect"
  | DPtr _ _ => Ok "Pointer"
  | DConcat _ => Ok "Concat"
  | DBranch _ _ _ => Ok "Branch"
  | DEval v w _ s => eval_repr v w s
  | DUndef w => Ok (width_str (Some w) ++ "'dx")
  | DHiz w => Ok (width_str (Some w) ++ "'dz")
  | DDelay _ => Ok "Delay"
  | DSys _ _ => Ok "Syscall"
  end.

(** What is done to the graph, in order: add_node (shared: by add_DF) and add_edge.
    graphgen.py:174-189. Simplification: the drawing itself is pygraphviz's. *)
Inductive event := Node (shared : bool) (name : string) (label : option string) (color : string) | Edge (start end_ : string) (color : string) (label : option string).
Record st := St { counter : Z; log : list event }.
(** A step ends normally or with an exception; what was added stays. *)
Definition act := st -> st * option exn.
Definition done : act := fun s => (s, None).
Definition then_ (a b : act) : act := fun s => match a s with (s1, None) => b s1 | r => r end.
Section Each.
  Context {A : Type} (f : A -> act).
  Fixpoint each (l : list A) : act := match l with [] => done | x :: r => then_ (f x) (each r) end.
End Each.

(** graphgen.py:169-172 - rename *)
Definition rename (name : string) (c : Z) : string := name ++ "_graphrename_" ++ py_str c.

Section Gen.
  Variable withcolor : bool.
  Definition shown (c : string) : string := if withcolor then c else "black".
  Definition edge (parent name color : string) (el : option string) : event := Edge parent name (shown color) (match el with Some "" => None | _ => el end).
  (** graphgen.py:158-167 - add_RenamedDF *)
  Definition add_renamed (t : df) (parent color : string) (el : option string) (k : string -> act) : act := fun s =>
    match tolabel t with
    | Err e => (s, Some e)
    | Ok l => let name := rename l (counter s) in
              k name (St (counter s + 1) (log s ++ [Node false name (Some l) (shown color); edge parent name color el]))
    end.
  (** graphgen.py:148-156 - add_DF *)
  Definition add_df (t : df) (parent color : string) (el : option string) : act := fun s =>
    match tolabel t with
    | Err e => (s, Some e)
    | Ok name => (St (counter s) (log s ++ [Node true name None (shown color); edge parent name color el]), None)
    end.

  Variable identical : bool.
  (** graphgen.py:28-37, 84-146 - visit, generic_visit and the visit_DF... methods. There is no
      visit_DFSyscall: generic_visit visits its arguments for the same parent. *)
  Fixpoint visit (t : df) (parent color : string) (el : option string) {struct t} : act :=
    match t with
    | DNone => done
    | DTerm _ => if identical then add_renamed t parent color el (fun _ => done) else add_df t parent color el
    | DInt _ | DFloat _ | DStr _ | DEval _ _ _ _ | DUndef _ | DHiz _ => add_renamed t parent color el (fun _ => done)
    | DOp l _ => add_renamed t parent color el (fun name => each (fun c => visit c name color None) l)
    | DConcat l => add_renamed t parent color el (fun name => each (fun c => visit c name color None) l)
    | DPart v m l => add_renamed t parent color el (fun name =>
        then_ (visit v name color (Some "VAR")) (then_ (visit m name "orange" (Some "MSB")) (visit l name "orange" (Some "LSB"))))
    | DPtr v p => add_renamed t parent color el (fun name => then_ (visit v name color (Some "VAR")) (visit p name "orange" (Some "PTR")))
    | DBranch c a b => add_renamed t parent color el (fun name =>
        then_ (visit c name "blue" (Some "COND")) (then_ (visit a name "green" (Some "TRUE")) (visit b name "red" (Some "FALSE"))))
    | DDelay x => add_renamed t parent color el (fun name => visit x name color None)
    | DSys _ l => each (fun c => visit c parent color el) l
    end.
End Gen.

(** One call of generate (graphgen.py:56-76) with the tree it gets from the walker and the optimizer
    (a parameter here), and all calls on one generator. An exception ends a call, not the history. *)
Record call := Call { c_signal : string; c_identical : bool; c_tree : df }.
Definition generate (withcolor : bool) (c : call) : act := fun s =>
  let name := rename (c_signal c) (counter s) in
  visit withcolor (c_identical c) (c_tree c) name "black" None (St (counter s + 1) (log s ++ [Node false name (Some (c_signal c)) (shown withcolor "black")])).
Fixpoint history (withcolor : bool) (l : list call) (s : st) : st := match l with [] => s | c :: r => history withcolor r (fst (generate withcolor c s)) end.
(** graphgen.py:39-54 *)
Definition start : st := St 0 [].
