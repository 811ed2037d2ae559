(** LstModel.v - model of the listings of pyverilog/dataflow/visit.py: what FrameTable's getAllInstances,
    getAllSignals, getAllConsts, getAllFunctions, getAllTasks, getSignals and getConsts answer (through
    dataflow_analyzer.py:71-86), how module instances, functions and tasks are entered in it, and how
    bindvisitor.py copies it into the dataflow. *)
From Verif Require Import Base ScopeModel DfModel BindModel VisitModel.
Local Open Scope string_scope.

Section Lst.
  Variable node : Type.                   (* declarations (syntax trees) *)
  Variable name_of : node -> string.      (* node.name *)
  Variable class_of : node -> string.     (* node.__class__.__name__ *)
  (** isinstance(var, Input): Input has no subclasses (vparser/ast.py:297). *)
  Definition is_input (d : node) : bool := String.eqb (class_of d) "Input".

  (** ** Functions and tasks *)
  (** visit.py:218-239 - DefinitionInfo: the definition and its ports (its variables and parameters are not
      used for functions and tasks). *)
  Record info := Info { i_def : node; i_ports : list node }.
  (** visit.py:261-276 - DefinitionInfoTable. *)
  Record deftable := DefTable { dt_dict : list (string * info); dt_current : option string }.
  Definition empty_deftable : deftable := DefTable [] None.
  (** visit.py:266-270 - addDefinition. *)
  Definition addDefinition (t : deftable) (d : node) : res deftable :=
    match sget (dt_dict t) (name_of d) with
    | Some _ => Err DefinitionError
    | None => Ok (DefTable (sset (dt_dict t) (name_of d) (Info d [])) (Some (name_of d)))
    end.
  (** visit.py:235-236 and 275-276 - addPort. *)
  Definition addPort (t : deftable) (d : node) : res deftable :=
    match dt_current t with
    | None => Err KeyError
    | Some n => match sget (dt_dict t) n with
                | None => Err KeyError
                | Some i => Ok (DefTable (sset (dt_dict t) n (Info (i_def i) (i_ports i ++ [d]))) (Some n))
                end
    end.

  (** ** The table *)
  (** visit.py:357-390 and 523-532 - the frames, with the functions and the tasks of each frame (in Frame itself
      in the code; here beside it, by scope; nothing stands for an empty table), and function_def and task_def. *)
  Record table := Table { t_frames : ftable node; t_functions : ndict deftable; t_tasks : ndict deftable; t_function_def : bool; t_task_def : bool }.
  Definition empty : table := Table (empty_table node) [] [] false false.
  Definition deftable_of (d : ndict deftable) (c : chain) : deftable := match dget d c with Some t => t | None => empty_deftable end.

  (** visit.py:150-151 - VariableTable.update: dict.update. *)
  Definition supdate (d t : vtable node) : vtable node := fold_left (fun d p => sset d (fst p) (snd p)) t d.
  (** What ModuleVisitor finds in a module, in order: its ports and its parameters. *)
  Inductive mdecl := MPort (d : node) | MParam (d : node).
  (** dataflow/modulevisitor.py:34-50 and visit.py:175-183, 218-230 - the Variables of a module (here in an otherwise empty
      Frame). visit_Locaparam, with its name misspelt, is never called. *)
  Definition module_info (ds : list mdecl) : frame node :=
    fold_left (fun f d => match d with MPort d => frame_addSignal node f (name_of d) d | MParam d => frame_addConst node f (name_of d) d end) ds
              (Frame node [] [] (Flags true false false false false false None None) [] [] []).
  (** visit.py:205-209, 456-460 and 691-695 - updateSignal, updateConst. *)
  Definition frame_updateSignal (f : frame node) (t : vtable node) : frame node :=
    Frame node (f_previous node f) (f_next node f) (f_flags node f) (supdate (f_signals node f) t) (f_consts node f) (f_genvars node f).
  Definition frame_updateConst (f : frame node) (t : vtable node) : frame node :=
    Frame node (f_previous node f) (f_next node f) (f_flags node f) (f_signals node f) (supdate (f_consts node f) t) (f_genvars node f).
  (** dataflow/signalvisitor.py:357-362 - stackInstanceFrame. *)
  Definition stackInstanceFrame (s : ftable node) (inst modname : string) (ds : list mdecl) : res (ftable node) :=
    do s1 <- addFrame node s (Label inst STmodule None) (Flags true false false false false false None (Some modname));
    do s2 <- on_current node s1 (fun f => frame_updateSignal f (f_signals node (module_info ds)));
    on_current node s2 (fun f => frame_updateConst f (f_consts node (module_info ds))).

  (** What the visitor does to the table: opening a scope that is not a module's, leaving one, a net, variable or
      port declaration (signalvisitor.py:41-63), a parameter, localparam or genvar (65-84), the beginning and the
      end of a function and of a task (86-96), and an instance of a module. *)
  Inductive ev :=
  | Open (l : label) (fl : flags) | Move (c : chain) | Declare (d : node) | Constant (d : node)
  | Function (d : node) | EndFunction | Task (d : node) | EndTask | Instance (inst modname : string) (ds : list mdecl).
  Definition with_frames (s : table) (f : ftable node) : table := Table f (t_functions s) (t_tasks s) (t_function_def s) (t_task_def s).
  Definition on_defs (d : ndict deftable) (s : table) (g : deftable -> res deftable) : res (ndict deftable) :=
    let cur := ft_current node (t_frames s) in
    match dget (ft_dict node (t_frames s)) cur with
    | None => Err KeyError
    | Some _ => do t <- g (deftable_of d cur); Ok (dset d cur t)
    end.
  (** visit.py:670-689 - FrameTable.addSignal, addConst, addFunction, addTask; 610-620 - setFunctionDef and so on. *)
  Definition happen (s : table) (e : ev) : res table :=
    match e with
    | Open l fl => do f <- addFrame node (t_frames s) l fl; Ok (with_frames s f)
    | Move c => Ok (with_frames s (setCurrent node (t_frames s) c))
    | Declare d =>
        if t_function_def s && is_input d
        then do x <- on_defs (t_functions s) s (fun t => addPort t d); Ok (Table (t_frames s) x (t_tasks s) (t_function_def s) (t_task_def s))
        else if t_task_def s && is_input d
        then do x <- on_defs (t_tasks s) s (fun t => addPort t d); Ok (Table (t_frames s) (t_functions s) x (t_function_def s) (t_task_def s))
        else do f <- on_current node (t_frames s) (fun f => frame_addSignal node f (name_of d) d); Ok (with_frames s f)
    | Constant d => do f <- on_current node (t_frames s) (fun f => frame_addConst node f (name_of d) d); Ok (with_frames s f)
    | Function d => do x <- on_defs (t_functions s) s (fun t => addDefinition t d); Ok (Table (t_frames s) x (t_tasks s) true (t_task_def s))
    | EndFunction => Ok (Table (t_frames s) (t_functions s) (t_tasks s) false (t_task_def s))
    | Task d => do x <- on_defs (t_tasks s) s (fun t => addDefinition t d); Ok (Table (t_frames s) (t_functions s) x (t_function_def s) true)
    | EndTask => Ok (Table (t_frames s) (t_functions s) (t_tasks s) (t_function_def s) false)
    | Instance i m ds => do f <- stackInstanceFrame (t_frames s) i m ds; Ok (with_frames s f)
    end.
  Fixpoint visit (h : list ev) (s : table) : res table :=
    match h with [] => Ok s | e :: r => do s' <- happen s e; visit r s' end.

  (** ** Listings *)
  Section Maps.
    Context {V : Type}.
    (** visit.py:24 - map_key. *)
    Definition map_key (f : string -> chain) (d : list (string * V)) : ndict V := fold_left (fun r p => dset r (f (fst p)) (snd p)) d [].
    (** dict.update *)
    Definition update (r d : ndict V) : ndict V := fold_left (fun r p => dset r (fst p) (snd p)) d r.
    (** visit.py:704-730 - the loops of getAllSignals, getAllConsts, getAllFunctions and getAllTasks: pick is what
        is read of a frame, ty the type of the labels. *)
    Definition all (s : ftable node) (ty : scopetype) (pick : chain -> frame node -> list (string * V)) : ndict V :=
      fold_left (fun ret p => update ret (map_key (fun x => chain_add_label (fst p) (Label x ty None)) (pick (fst p) (snd p)))) (ft_dict node s) [].
    (** visit.py:732-746 - getSignals and so on, with a scope. *)
    Definition one (s : ftable node) (ty : scopetype) (pick : chain -> frame node -> list (string * V)) (c : chain) : res (ndict V) :=
      match dget (ft_dict node s) c with
      | Some f => Ok (map_key (fun x => chain_add_label c (Label x ty None)) (pick c f))
      | None => Err KeyError
      end.
  End Maps.
  (** visit.py:697-702 - getAllInstances. The empty scope is no key. *)
  Definition getAllInstances (s : table) : list (chain * option string) :=
    flat_map (fun p => match rev (fst p) with
                       | l :: _ => match stype l with STmodule => [(fst p, fl_modulename (f_flags node (snd p)))] | _ => [] end
                       | [] => []
                       end) (ft_dict node (t_frames s)).
  (** visit.py:704-730. *)
  Definition getAllSignals (s : table) : ndict (list node) := all (t_frames s) STsignal (fun _ f => f_signals node f).
  Definition getAllConsts (s : table) : ndict (list node) := all (t_frames s) STsignal (fun _ f => f_consts node f).
  Definition getAllFunctions (s : table) : ndict info := all (t_frames s) STfunction (fun c _ => dt_dict (deftable_of (t_functions s) c)).
  Definition getAllTasks (s : table) : ndict info := all (t_frames s) STtask (fun c _ => dt_dict (deftable_of (t_tasks s) c)).
  (** visit.py:732-738. *)
  Definition getSignals (s : table) (c : chain) : res (ndict (list node)) := one (t_frames s) STsignal (fun _ f => f_signals node f) c.
  Definition getConsts (s : table) (c : chain) : res (ndict (list node)) := one (t_frames s) STsignal (fun _ f => f_consts node f) c.

  (** ** The terms of the dataflow *)
  (** dataflow/bindvisitor.py:627-640 - the first two loops of copyAllFrameInfo: one term per definition. *)
  Definition bare (n : chain) (d : node) : term := Term n [class_of d] DNone DNone None.
  Fixpoint copy_consts (s : store) (l : ndict (list node)) : res store :=
    match l with
    | [] => Ok s
    | (n, ds) :: r => if (1 <? length ds)%nat then Err FormatError else copy_consts (fold_left (fun s d => addTerm s n (bare n d)) ds s) r
    end.
  Fixpoint copy_signals (s : store) (l : ndict (list node)) : store :=
    match l with [] => s | (n, ds) :: r => copy_signals (fold_left (fun s d => addTerm s n (bare n d)) ds s) r end.
  Definition copyAllFrameInfo (s : table) (st : store) : res store :=
    do st' <- copy_consts st (getAllConsts s); Ok (copy_signals st' (getAllSignals s)).
End Lst.
