(** VisitModel.v - model of pyverilog/dataflow/visit.py: labels of anonymous scopes, the table of
    scopes (FrameTable) and the assignments recorded in them. *)
From Verif Require Import Base ScopeModel DfModel BindModel LitModel.
Local Open Scope Z_scope.

(** ** Labels *)
(** visit.py:125-130 - Labels.labels: a dictionary of counters (Label.cnt, visit.py:107-110). *)
Definition labels := list (string * Z).
Fixpoint sget {V} (d : list (string * V)) (k : string) : option V :=
  match d with [] => None | (k', v) :: r => if String.eqb k' k then Some v else sget r k end.
Fixpoint sset {V} (d : list (string * V)) (k : string) (v : V) : list (string * V) :=
  match d with [] => [(k, v)] | (k', v') :: r => if String.eqb k' k then (k', v) :: r else (k', v') :: sset r k v end.
(** visit.py:112-118 and 127-130 - Label.get, Label.inc, Labels.get. *)
Definition labels_get (st : labels) (name : string) : string * labels :=
  let cnt := match sget st name with Some c => c | None => 0 end in
  ((name ++ py_str_nat cnt)%string, sset st name (cnt + 1)).
(** visit.py:132-135 - Labels.inc. *)
Definition labels_inc (st : labels) (name : string) : labels :=
  let cnt := match sget st name with Some c => c | None => 0 end in sset st name (cnt + 1).

(** ** Scopes *)
(** visit.py:344-380 - the flags and the condition of a Frame. loop and loop_iter are those of
    generate loops. Simplification: conditions are dataflow trees or syntax trees that nothing here
    looks into; they are left out. *)
Record flags := Flags {
  fl_module : bool; fl_functioncall : bool; fl_taskcall : bool; fl_generate : bool; fl_always : bool; fl_initial : bool;
  fl_alwaysinfo : option alwaysinfo; fl_modulename : option string }.

Section Tables.
  Variable node : Type.                  (* declarations (syntax trees) *)

  (** visit.py:138-158 - VariableTable: all the declarations of each name. *)
  Definition vtable := list (string * list node).
  Definition vadd (d : vtable) (name : string) (v : node) : vtable :=
    match sget d name with Some l => sset d name (l ++ [v]) | None => sset d name [v] end.

  (** visit.py:172-175 and 344-386 - Variables (signals, constants, genvars) in a Frame. *)
  Record frame := Frame { f_previous : chain; f_next : list chain; f_flags : flags; f_signals : vtable; f_consts : vtable; f_genvars : list string }.
  (** visit.py:518-527 - FrameTable. self.dict keys are scopes without wildcards. *)
  Record ftable := FTable { ft_dict : ndict frame; ft_current : chain }.
  Definition empty_table : ftable := FTable [] [].

  (** visit.py:177-190 - Variables.addSignal, addConst, addGenvar: ignored after a constant of the
      same name. *)
  Definition frame_addSignal (f : frame) (name : string) (v : node) : frame :=
    match sget (f_consts f) name with
    | Some _ => f
    | None => Frame (f_previous f) (f_next f) (f_flags f) (vadd (f_signals f) name v) (f_consts f) (f_genvars f)
    end.
  Definition frame_addConst (f : frame) (name : string) (v : node) : frame :=
    match sget (f_consts f) name with
    | Some _ => f
    | None => Frame (f_previous f) (f_next f) (f_flags f) (f_signals f) (vadd (f_consts f) name v) (f_genvars f)
    end.
  Definition frame_addGenvar (f : frame) (name : string) : frame :=
    match sget (f_consts f) name with
    | Some _ => f
    | None => Frame (f_previous f) (f_next f) (f_flags f) (f_signals f) (f_consts f) (f_genvars f ++ [name])
    end.
  Definition frame_setNext (f : frame) (c : chain) : frame :=
    Frame (f_previous f) (f_next f ++ [c]) (f_flags f) (f_signals f) (f_consts f) (f_genvars f).

  (** visit.py:534-560 - FrameTable.addFrame with a label. *)
  Definition addFrame (s : ftable) (l : label) (fl : flags) : res ftable :=
    let scope := chain_add_label (ft_current s) l in
    if dmem (ft_dict s) scope then Err DefinitionError
    else
      do d <- match ft_current s with
              | [] => Ok (ft_dict s)
              | _ => match dget (ft_dict s) (ft_current s) with
                     | Some p => Ok (dset (ft_dict s) (ft_current s) (frame_setNext p scope))
                     | None => Err KeyError
                     end
              end;
      Ok (FTable (dset d scope (Frame (ft_current s) [] fl [] [] [])) scope).
  (** visit.py:562-563 - hasFrame. *)
  Definition hasFrame (s : ftable) (c : chain) : bool := dmem (ft_dict s) c.
  (** visit.py:645-646 - setCurrent. *)
  Definition setCurrent (s : ftable) (c : chain) : ftable := FTable (ft_dict s) c.
  (** visit.py:670-686 - addSignal (outside function and task definitions), addConst, addGenvar in
      the current scope. *)
  Definition on_current (s : ftable) (g : frame -> frame) : res ftable :=
    match dget (ft_dict s) (ft_current s) with
    | Some f => Ok (FTable (dset (ft_dict s) (ft_current s) (g f)) (ft_current s))
    | None => Err KeyError
    end.

  (** What is done to a table. *)
  Inductive act :=
  | OpenScope (l : label) (fl : flags) | MoveTo (c : chain)
  | AddSignal (name : string) (v : node) | AddConst (name : string) (v : node) | AddGenvar (name : string).
  Definition step (s : ftable) (a : act) : res ftable :=
    match a with
    | OpenScope l fl => addFrame s l fl
    | MoveTo c => Ok (setCurrent s c)
    | AddSignal n v => on_current s (fun f => frame_addSignal f n v)
    | AddConst n v => on_current s (fun f => frame_addConst f n v)
    | AddGenvar n => on_current s (fun f => frame_addGenvar f n)
    end.
  Fixpoint run (h : list act) (s : ftable) : res ftable :=
    match h with [] => Ok s | a :: r => do s' <- step s a; run r s' end.

  (** visit.py:835-841 and 848-854 - searchConstantDefinition, searchSignalDefinition. *)
  Fixpoint search (pick : frame -> vtable) (fuel : nat) (s : ftable) (key : chain) (name : string) : res (option (chain * list node)) :=
    match fuel with
    | O => Err OutOfFuel
    | S fuel =>
        match dget (ft_dict s) key with
        | None => Err KeyError
        | Some f =>
            match sget (pick f) name with
            | Some v => Ok (Some (key, v))
            | None => if fl_module (f_flags f) then Ok None else search pick fuel s (f_previous f) name
            end
        end
    end.
  Definition searchConstantDefinition (s : ftable) (key : chain) (name : string) := search f_consts (S (length key)) s key name.
  Definition searchSignalDefinition (s : ftable) (key : chain) (name : string) := search f_signals (S (length key)) s key name.

  (** visit.py:765-780 - getAlwaysStatus: the clock and reset of the enclosing always block. *)
  Fixpoint alwaysStatus (fuel : nat) (s : ftable) (key : chain) : res (option alwaysinfo) :=
    match fuel with
    | O => Err OutOfFuel
    | S fuel =>
        match dget (ft_dict s) key with
        | None => Err KeyError
        | Some f =>
            if fl_functioncall (f_flags f) then Ok None
            else if fl_taskcall (f_flags f) then Ok None
            else if negb (fl_always (f_flags f)) then Ok None
            else match fl_alwaysinfo (f_flags f) with
                 | Some a => Ok (Some a)
                 | None => alwaysStatus fuel s (f_previous f)
                 end
        end
    end.
  Definition getAlwaysStatus (s : ftable) : res (option alwaysinfo) := alwaysStatus (S (length (ft_current s))) s (ft_current s).

  (** visit.py:654-668 - getLabelKey: the label is prefixed by the kinds of the current scope. *)
  Definition label_prefix (fl : flags) : string :=
    ((if fl_module fl then "md_" else "") ++ (if fl_generate fl then "ge_" else "") ++ (if fl_always fl then "al_" else "") ++
     (if fl_initial fl then "in_" else "") ++ (if fl_functioncall fl then "fc_" else "") ++ (if fl_taskcall fl then "tc_" else ""))%string.
  Definition getLabelKey (s : ftable) (name : string) : res string :=
    match dget (ft_dict s) (ft_current s) with Some f => Ok (label_prefix (f_flags f) ++ name)%string | None => Err KeyError end.
End Tables.

(** ** Assignments in procedural blocks *)
(** Binds are mutable objects: a heap of binds, and each scope maps names to tuples of references
    (visit.py:383-384, self.blockingassign and self.nonblockingassign). *)
Record assigns := Assigns { as_blocking : ndict (list nat); as_nonblocking : ndict (list nat) }.
Record world := World { w_heap : list bind_; w_scopes : ndict assigns }.
Definition get (h : list bind_) (r : nat) : bind_ := nth r h (Bind DNone [] DNone DNone DNone None "").
Definition scope_assigns (w : world) (c : chain) : assigns := match dget (w_scopes w) c with Some a => a | None => Assigns [] [] end.

(** visit.py:492-494 - the test [c.msb == bind.msb and c.msb == bind.msb and c.ptr == bind.ptr]. *)
Definition same_target (c b : bind_) : res bool :=
  do m <- df_eq (b_msb c) (b_msb b);
  if m then do m' <- df_eq (b_msb c) (b_msb b); if m' then df_eq (b_ptr c) (b_ptr b) else Ok false else Ok false.
Fixpoint find_target (h : list bind_) (l : list nat) (b : bind_) : res (option nat) :=
  match l with
  | [] => Ok None
  | r :: l' => do e <- same_target (get h r) b; if e then Ok (Some r) else find_target h l' b
  end.
Definition set_tree (b : bind_) (t : df) : bind_ := Bind t (b_dest b) (b_msb b) (b_lsb b) (b_ptr b) (b_always b) (b_param b).
Fixpoint update {A} (l : list A) (r : nat) (x : A) : list A :=
  match l, r with [], _ => [] | _ :: l', O => x :: l' | y :: l', S r' => y :: update l' r' x end.
(** visit.py:486-496 - Frame.setBlockingAssign: the entry is the object itself; an entry for the
    same target gets a new tree. *)
Definition setBlocking (h : list bind_) (d : ndict (list nat)) (dst : chain) (r : nat) : res (list bind_ * ndict (list nat)) :=
  match dget d dst with
  | None => Ok (h, dset d dst [r])
  | Some cur =>
      do f <- find_target h cur (get h r);
      match f with
      | Some c => Ok (update h c (set_tree (get h c) (b_tree (get h r))), d)
      | None => Ok (h, dset d dst (cur ++ [r]))
      end
  end.
(** visit.py:506-516 - Frame.addNonblockingAssign: entries are deep copies. *)
Definition addNonblocking (h : list bind_) (d : ndict (list nat)) (dst : chain) (r : nat) : res (list bind_ * ndict (list nat)) :=
  match dget d dst with
  | None => Ok (h ++ [get h r], dset d dst [length h])
  | Some cur =>
      do f <- find_target h cur (get h r);
      match f with
      | Some c => Ok (update h c (set_tree (get h c) (b_tree (get h r))), d)
      | None => Ok (h ++ [get h r], dset d dst (cur ++ [length h]))
      end
  end.
(** visit.py:801-802 and 813-814 - FrameTable.setBlockingAssign, addNonblockingAssign. *)
Definition setBlockingAssign (w : world) (c dst : chain) (r : nat) : res world :=
  do hd <- setBlocking (w_heap w) (as_blocking (scope_assigns w c)) dst r;
  Ok (World (fst hd) (dset (w_scopes w) c (Assigns (snd hd) (as_nonblocking (scope_assigns w c))))).
Definition addNonblockingAssign (w : world) (c dst : chain) (r : nat) : res world :=
  do hd <- addNonblocking (w_heap w) (as_nonblocking (scope_assigns w c)) dst r;
  Ok (World (fst hd) (dset (w_scopes w) c (Assigns (as_blocking (scope_assigns w c)) (snd hd)))).
(** A new Bind object. *)
Definition alloc (w : world) (b : bind_) : world * nat := (World (w_heap w ++ [b]) (w_scopes w), length (w_heap w)).
(** dataflow/bindvisitor.py:668-672 - copyBlockingAssigns. *)
Fixpoint copy_refs (w : world) (to dst : chain) (l : list nat) : res world :=
  match l with [] => Ok w | r :: l' => do w' <- setBlockingAssign w to dst r; copy_refs w' to dst l' end.
Fixpoint copy_entries (w : world) (to : chain) (l : ndict (list nat)) : res world :=
  match l with [] => Ok w | (n, rs) :: l' => do w' <- copy_refs w to n rs; copy_entries w' to l' end.
Definition copyBlockingAssigns (w : world) (from to : chain) : res world := copy_entries w to (as_blocking (scope_assigns w from)).
(** What is recorded for dst in a block. *)
Definition blocking_of (w : world) (c dst : chain) : list bind_ :=
  map (get (w_heap w)) (match dget (as_blocking (scope_assigns w c)) dst with Some l => l | None => [] end).
Definition nonblocking_of (w : world) (c dst : chain) : list bind_ :=
  map (get (w_heap w)) (match dget (as_nonblocking (scope_assigns w c)) dst with Some l => l | None => [] end).
