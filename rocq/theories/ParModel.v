(** ParModel.v - model of pyverilog/dataflow/bindvisitor.py: the constants of a scope (parameters, localparams,
    genvars) in the pass over the design that makes the dataflow, and the parameters given by an instance. *)
From Verif Require Import Base ScopeModel DfModel BindModel LitModel OptModel ReorderModel AsgModel ExprModel MkModel HierModel BlkModel VisitModel ElabModel LoopModel.
Local Open Scope Z_scope.

Section Par.
Variable log2i : Z -> option Z.          (* HierModel.v *)
Variable tocode : df -> res string.      (* HierModel.v *)
Variable has : chain -> bool.            (* dataflow.hasTerm: copyAllFrameInfo (627-644) has entered all names of the design *)
Variable genvar : chain -> bool.         (* isGenvar of the type of the term *)
Variable array : chain -> bool.          (* getTermDims(name) is not None *)
Variable ismodule : chain -> bool.       (* frames.dict[scope].isModule() *)

(** bindvisitor.py:791-800 - searchTerminal, the scope given backwards. *)
Fixpoint search (scope : list label) (n : string) : option chain :=
  match scope with
  | [] => None
  | _ :: r =>
      let c := sig (rev scope) n in
      if has c then Some c else if ismodule (rev scope) then None else search r n
  end.
(** bindvisitor.py:1006-1016 - the terminal of an identifier. *)
Definition find (scope : chain) (n : string) : res chain :=
  match search (rev scope) n with Some c => Ok c | None => Err DefinitionError end.
(** bindvisitor.py:1202-1208, 674-684 - a name in resolveBlockingAssign: a genvar is read from the table of
    constants. (Constant expressions have no signals, so there are no blocking assignments of their names.) *)
Definition rd (E : optenv) (n : chain) : res df :=
  if genvar n then match dget (o_const E) n with Some v => Ok v | None => Err DefinitionError end else Ok (DTerm n).

Variable k : nat.                        (* recursion depth *)
(** bindvisitor.py:993-999, 562-563 - optimize(getTree(e, scope)). [d]: depth of the counts of repetitions. *)
Fixpoint value_at (d : nat) (E : optenv) (scope : chain) (e : expr) : res df :=
  match d with
  | O => Err OutOfFuel
  | S d =>
      do t <- makeDFTree (find scope) array (fun n => do v <- value_at d E scope n; int_attr v) k e;
      do t <- resolve k array (rd E) t;
      do t <- reorder k t;
      optimize E log2i tocode k t
  end.
Definition value : optenv -> chain -> expr -> res df := value_at k.
(** makeDFTree (1001-1165) in a scope. *)
Definition tree_at (E : optenv) (scope : chain) (e : expr) : res df :=
  makeDFTree (find scope) array (fun n => do v <- value E scope n; int_attr v) k e.

(** bindvisitor.py:842-847 - makeConstantTerm. *)
Definition const_term (E : optenv) (n : chain) (kind : string) (w : option (expr * expr)) (scope : chain) : res term :=
  match w with
  | None => Ok (Term n [kind] (DInt "31") (DInt "0") None)
  | Some (m, l) => do m <- tree_at E scope m; do l <- tree_at E scope l; Ok (Term n [kind] m l None)
  end.
Definition kind_of (d : decl) : string * option (expr * expr) :=
  match d with NParam w _ => ("Parameter"%string, w) | NLocal _ => ("Localparam"%string, None) | NGenvar => ("Genvar"%string, None) | NSignal => (""%string, None) end.
(** bindvisitor.py:593-600 - the first check. *)
Fixpoint single (l : list (string * list decl)) : res unit :=
  match l with
  | [] => Ok tt
  | (_, _ :: _ :: _) :: _ => Err FormatError
  | _ :: r => single r
  end.
(** bindvisitor.py:602-607. *)
Fixpoint copy_terms (E : optenv) (c : chain) (l : list (string * list decl)) : res optenv :=
  match l with
  | [] => Ok E
  | (n, d :: _) :: r =>
      do t <- const_term E (sig c n) (fst (kind_of d)) (snd (kind_of d)) c;
      copy_terms (set_term E (sig c n) t) c r
  | (_, []) :: r => copy_terms E c r
  end.
(** bindvisitor.py:609-625 - one pass over the constants, and passes until all have values. *)
Fixpoint const_pass (E : optenv) (c : chain) (l : list (string * list decl)) (passed : bool) : res (bool * optenv) :=
  match l with
  | [] => Ok (passed, E)
  | (n, ds) :: r =>
      match ds with
      | _ :: _ :: _ => Err FormatError
      | [] => const_pass E c r passed
      | [d] =>
          if dmem (o_const E) (sig c n) then const_pass E c r passed
          else match d with
               | NGenvar => const_pass E c r passed
               | NSignal => Err AttributeError
               | NParam _ e | NLocal e =>
                   do v <- value E c e;
                   if isEval v then const_pass (set_const E (sig c n) v) c r passed else const_pass E c r false
               end
      end
  end.
Fixpoint const_passes (j : nat) (E : optenv) (c : chain) (l : list (string * list decl)) : res optenv :=
  match j with
  | O => Err OutOfFuel
  | S j => do p <- const_pass E c l true; if fst p then Ok (snd p) else const_passes j (snd p) c l
  end.
(** bindvisitor.py:593-625 - copyFrameInfo of a scope with the constants [l]. *)
Definition copyFrame (E : optenv) (c : chain) (l : list (string * list decl)) : res optenv :=
  do _ <- single l; do E <- copy_terms E c l; const_passes k E c l.

(** bindvisitor.py:164-177 - the parameters given by an instance. The Bind of the parameter (165, 896-902) is
    left out, but for the index of the name, which is looked up for named parameters as well. str(value.value)
    is an AttributeError for a value that is not known; the declared range (31:0) is the default. *)
Fixpoint overrides (E : optenv) (outer inner : chain) (names : list string) (i : nat) (l : list (option string * expr)) : res optenv :=
  match l with
  | [] => Ok E
  | (n, e) :: r =>
      do p <- match nth_error names i with Some p => Ok p | None => Err IndexError end;
      do v <- value E outer e;
      let n := match n with Some n => n | None => p end in
      if negb (existsb (String.eqb n) names) then Err FormatError
      else
        let E1 := set_const E (sig inner n) v in
        do _ <- value_attr v;
        do t <- const_term E1 (sig inner n) "Parameter" None outer;
        overrides (set_term E1 (sig inner n) t) outer inner names (S i) r
  end.
(** bindvisitor.py:153-189, 565-569 - _visit_Instance_body up to the visit of the module: stackInstanceFrame
    copies the constants of the new scope, then the parameters are set, then the constants are copied again.
    The binds of the ports are left out. *)
Definition enter (E : optenv) (outer inner : chain) (names : list string) (l : list (string * list decl)) (args : list (option string * expr)) : res optenv :=
  do E <- copyFrame E inner l;
  do E <- overrides E outer inner names 0 args;
  copyFrame E inner l.
(** bindvisitor.py:292-298 - the condition of a generate-if. *)
Definition decides (E : optenv) (scope : chain) (c : expr) : res bool :=
  do v <- value E scope c; positive v.
End Par.
