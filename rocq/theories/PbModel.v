(** PbModel.v - model of the parts of pyverilog/dataflow/bindvisitor.py that enter parameters, localparams and
    supply nets in the dataflow: visit_Parameter, visit_Supply, visit_Localparam, addTerm and addBind for these,
    addInstanceParameterBind, and the parameter loop of _visit_Instance_body. The constants table, which the
    same functions fill, is modelled in ParModel.v. *)
From Verif Require Import Base ScopeModel DfModel ReorderModel BindModel AsgModel ExprModel MkModel ConModel.
Local Open Scope string_scope.

(** The classes Parameter, Localparam and Supply. *)
Inductive pkind := KParam | KLocal | KSupply.
(** A declaration: node.name, node.value, and node.width as the pair of its bounds. node.dimensions is None
    (parser.py gives none of these declarations dimensions). *)
Record pdecl := PDecl { p_kind : pkind; p_name : string; p_value : expr; p_width : option (expr * expr) }.
(** node.__class__.__name__ *)
Definition class_name (p : pkind) : string := match p with KParam => "Parameter" | KLocal => "Localparam" | KSupply => "Supply" end.
(** The bindtype visit_Parameter, visit_Localparam and visit_Supply give. *)
Definition bind_type (p : pkind) : string := match p with KLocal => "localparam" | _ => "parameter" end.

Section Pb.
  Variable k : nat.                        (* recursion depth of reorder and insertConcat *)
  Variable times : expr -> res Z.          (* optimize(getTree(node.times)).value *)
  Variable is_module : chain -> bool.      (* frames.dict[scope].isModule() *)

  (** bindvisitor.py:849-882 - addTerm, outside functions and tasks. *)
  Definition add_decl (s : store) (scope : chain) (d : pdecl) : res store :=
    do m <- match p_width d with
            | None => Ok (DInt (match p_kind d with KSupply => "0" | _ => "31" end))
            | Some (m, _) => mk k times is_module s scope m
            end;
    do l <- match p_width d with None => Ok (DInt "0") | Some (_, l) => mk k times is_module s scope l end;
    Ok (addTerm s (sig scope (p_name d)) (Term (sig scope (p_name d)) [class_name (p_kind d)] m l None)).
  (** bindvisitor.py:884-902, 942-945, 1336-1339 - addBind and addInstanceParameterBind: the name x as seen from
      the scope ls takes the tree of e in the scope rs; p are the conditions of ls. Where x is not declared the
      code stores a bind for the name None. *)
  Definition bind_name (s : store) (ls : chain) (p : path) (x : string) (rs : chain) (e : expr) (ty : string) : res store :=
    match searchTerminal is_module s ls x with
    | Some n => do t <- getTree k times is_module s rs e; addDataflow k s [Dest n DNone DNone DNone DNone DNone] t p ty
    | None => do _ <- getTree k times is_module s rs e; Err Unmodelled
    end.
  (** bindvisitor.py:86-111 - visit_Parameter, visit_Supply, visit_Localparam; the constants table is left out. *)
  Definition declare_p (s : store) (scope : chain) (p : path) (d : pdecl) : res store :=
    do s1 <- add_decl s scope d;
    let add := bind_name s1 scope p (p_name d) scope (p_value d) (bind_type (p_kind d)) in
    match p_kind d with
    | KParam => match getBindlist (s_binds s1) (sig scope (p_name d)) with [] => add | _ :: _ => Ok s1 end
    | _ => add
    end.
  Fixpoint declare_all (s : store) (scope : chain) (p : path) (l : list pdecl) : res store :=
    match l with [] => Ok s | d :: r => do s' <- declare_p s scope p d; declare_all s' scope p r end.

  (** bindvisitor.py:164-172 - the loop over node.parameterlist; all is paramnames, names what is left of it. A
      name that is not a parameter of the module is rejected after its bind is made. inst is the instance's
      frame (a module's, so without conditions), parent the scope of the instance. *)
  Fixpoint give (s : store) (inst parent : chain) (all names : list string) (args : list (option string * expr)) {struct args} : res store :=
    match args with
    | [] => Ok s
    | (x, e) :: r =>
        match names with
        | [] => Err IndexError
        | n :: names' =>
            let x := match x with Some x => x | None => n end in
            if existsb (String.eqb x) all
            then do s' <- bind_name s inst [] x parent e "parameter"; give s' inst parent all names' r
            else do _ <- getTree k times is_module s parent e; Err FormatError
        end
    end.
  (** bindvisitor.py:153-189 - _visit_Instance_body, without ports: the parameters given, and then the
      declarations of the module. paramnames are the names of its parameters (modulevisitor.py:45-47). *)
  Definition paramnames (l : list pdecl) : list string := flat_map (fun d => match p_kind d with KParam => [p_name d] | _ => [] end) l.
  Definition instance_p (s : store) (inst parent : chain) (args : list (option string * expr)) (l : list pdecl) : res store :=
    do s' <- give s inst parent (paramnames l) (paramnames l) args; declare_all s' inst [] l.
End Pb.
