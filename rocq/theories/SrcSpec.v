(** SrcSpec.v - which source files can be written down in Verilog (as far as the parser takes them), which of them the
    generator prints right, and what the difference between a tree and the tree of its text is. *)
From Verif Require Import Base DfModel LexModel ExprModel ExprSpec StmModel StmSpec SrcModel.
Require Import Coq.Strings.Ascii.
Local Open Scope string_scope.

(** ** What can be written *)
Definition range_written (r : range) : Prop := written (fst r) /\ written (snd r).
Definition undelayed (a : asg) : Prop := a_ldelay a = None /\ a_rdelay a = None.
(** Of a real the parser keeps the word "real". *)
Definition member_written (m : member) : Prop :=
  match m with
  | MVar _ n w _ dims => ident n /\ opt range_written w /\ Forall range_written dims
  | MSupply _ n w _ => ident n /\ opt range_written w
  | MInteger n v => ident n /\ opt written v
  | MReal n => n = "real"
  | MGenvar n => ident n
  | MParam _ n v w _ => ident n /\ written v /\ opt range_written w
  | MAssign a => asg_written a /\ undelayed a
  end.
(** Functions and tasks declare inputs, registers and integers, and end with one statement that takes no time. *)
Definition local_member (m : member) : Prop := match m with MVar (KInput | KReg) _ _ _ _ | MInteger _ _ => True | _ => False end.
Definition timeless (s : stm) : Prop :=
  match s with TAsg false _ | TIf _ _ _ | TFor _ _ _ _ | TWhile _ _ | TCase (KCase | KCasex | KCasez) _ _ | TBlock _ _ => True | _ => False end.
Definition locals_written (l : list (list member)) : Prop := Forall (Forall (fun m => member_written m /\ local_member m)) l.
(** Arguments: all by name or all by position; a port that is named may have no expression. *)
Definition by_name (x : option string * option expr) : Prop := match x with (Some n, e) => ident n /\ opt written e | _ => False end.
Definition by_position (x : option string * option expr) : Prop := match x with (None, Some e) => written e | _ => False end.
Definition args_written (l : list (option string * option expr)) : Prop := Forall by_name l \/ Forall by_position l.
(** Instances have all a name or, without parameters, none has. *)
Definition named_inst (i : inst) : Prop := ident (i_name i) /\ opt range_written (i_array i) /\ args_written (i_ports i).
Definition unnamed_inst (i : inst) : Prop := i_name i = "" /\ i_array i = None /\ args_written (i_ports i).
(** The item ends with an if without else. *)
Fixpoint jopen (x : sitem) : bool :=
  match x with
  | JItem (IAlways _ _ s) | JItem (IInitial s) => open_if s
  | JIf _ _ None => true
  | JIf _ _ (Some e) => jopen e
  | JFor _ _ _ b => jopen b
  | _ => false
  end.
(** Where an item stands: in a module, in a generate or a block of it, or as a branch (of if or for) in a generate. *)
Inductive place := InModule | InGenerate | InBranch.
Fixpoint jwritten (p : place) (x : sitem) : Prop :=
  match x with
  | JDecl l => Forall member_written l
  | JAssign a => asg_written a
  | JItem i => item_written i
  | JInst m params l =>
      (ident m \/ m = "or") /\ args_written (map (fun x => (fst x, Some (snd x))) params) /\ l <> [] /\
      (Forall named_inst l \/ params = [] /\ Forall unnamed_inst l)
  | JFunc n w decls s => ident n /\ range_written w /\ decls <> [] /\ locals_written decls /\ swritten s /\ timeless s
  | JTask n decls s => ident n /\ locals_written decls /\ swritten s /\ timeless s
  | JPragma n v => ident n /\ opt written v
  | JGen l => p = InModule /\ (fix all (l : list sitem) : Prop := match l with [] => True | x :: r => jwritten InGenerate x /\ all r end) l
  | JIf c t e =>
      p <> InModule /\ written c /\ jwritten InBranch t /\ match e with None => True | Some e => jopen t = false /\ jwritten InBranch e end
  | JFor pre c post b => p <> InModule /\ opt asg_written pre /\ opt written c /\ opt asg_written post /\ jwritten InBranch b
  | JBlock scope l =>
      p = InBranch /\ opt ident scope /\ (fix all (l : list sitem) : Prop := match l with [] => True | x :: r => jwritten InGenerate x /\ all r end) l
  end.
Definition param_written (l : list member) : Prop := l <> [] /\ Forall (fun m => member_written m /\ match m with MParam false _ _ _ _ => True | _ => False end) l.
(** Ports: names, or declarations (with dimensions only if there is a width). A missing port comes from "output wire a, b". *)
Definition ioport_written (p : port) : Prop :=
  match p with
  | Ioport k1 k2 n w _ dims =>
      match k1, k2 with
      | KInput, (None | Some KWire) | KOutput, (None | Some KWire | Some KReg) | KInout, (None | Some KWire | Some KTri) => True
      | _, _ => False
      end /\ ident n /\ opt range_written w /\ Forall range_written dims /\ (w = None -> dims = [])
  | Port _ => False
  | NoPort => True
  end.
Definition ports_written (l : list port) : Prop := Forall (fun p => match p with Port n => ident n | _ => False end) l \/ Forall ioport_written l.
Definition module_written (m : vmodule) : Prop :=
  (ident (m_name m) \/ m_name m = "or") /\ Forall param_written (m_params m) /\ ports_written (m_ports m) /\ Forall (jwritten InModule) (m_items m).
Definition definition_written (d : definition) : Prop :=
  match d with DModule m => module_written m | DPragma n v => ident n /\ opt written v end.
Definition source_written (l : list definition) : Prop := l <> [] /\ Forall definition_written l.

(** ** What the generator prints right *)
(** Blanks in bounds are removed. *)
Definition range_printable (r : range) : bool := printable (fst r) && blank_free (fst r) && (printable (snd r) && blank_free (snd r)).
Definition assign_printable (a : asg) : bool := printable (a_left a) && printable (a_right a) && is_none (a_ldelay a) && is_none (a_rdelay a).
Definition member_printable (m : member) : bool :=
  match m with
  | MVar _ _ w _ dims => optb range_printable w && forallb range_printable dims
  | MSupply _ _ _ _ | MReal _ => false
  | MInteger _ v => is_none v
  | MGenvar _ => true
  | MParam _ _ v w _ => printable v && optb range_printable w
  | MAssign a => assign_printable a
  end.
Definition nonnil {A} (l : list A) : bool := match l with [] => false | _ => true end.
Definition inst_printable (i : inst) : bool := optb range_printable (i_array i) && forallb (fun x => optb printable (snd x)) (i_ports i).
(** Of the values of pragmas only names and numbers are considered here. *)
Definition simple_value (e : expr) : bool := match e with XId _ | XInt _ => true | _ => false end.
(** The text of a generate runs its items together: "end" must not be followed by a word. *)
Fixpoint ends_end (x : sitem) : bool :=
  match x with JIf _ _ (Some e) => ends_end e | JFor _ _ _ b => ends_end b | JBlock _ _ => true | _ => false end.
Definition starts_word (x : sitem) : bool := match x with JDecl _ | JAssign _ | JIf _ _ _ | JFor _ _ _ _ => true | _ => false end.
Fixpoint apart (l : list sitem) : bool :=
  match l with x :: ((y :: _) as r) => negb (ends_end x && starts_word y) && apart r | _ => true end.
(** Below if and for, only the first member of a declaration is subject to the condition or the loop. *)
Definition one_member (x : sitem) : bool := match x with JDecl [_] => true | JDecl _ => false | _ => true end.
Fixpoint jprintable (x : sitem) : bool :=
  match x with
  | JDecl l => nonnil l && forallb member_printable l
  | JAssign a => assign_printable a
  | JItem i => item_printable i
  | JInst _ params l => forallb (fun x => printable (snd x)) params && forallb inst_printable l
  | JFunc _ w decls s => range_printable w && existsb nonnil decls && forallb (forallb member_printable) decls && sprintable s
  | JTask _ decls s => forallb (forallb member_printable) decls && sprintable s
  | JPragma _ v => optb simple_value v
  | JGen l => forallb jprintable l && apart l
  | JIf c t e => printable c && (one_member t && jprintable t) && match e with None => true | Some e => one_member e && jprintable e end
  | JFor pre c post b =>
      negb (is_none pre) && optb for_printable pre && optb (fun c => printable c && blank_free c) c && optb for_printable post &&
      (one_member b && jprintable b)
  | JBlock _ l => forallb jprintable l
  end.
(** Semicolons are removed from a parameter in the head of a module, also from its escaped names. *)
Fixpoint has_semi (s : string) : bool := match s with "" => false | String c r => Ascii.eqb c ";" || has_semi r end.
Fixpoint semi_free (e : expr) : bool :=
  match e with
  | XId s => negb (has_semi s)
  | XInt _ => true
  | XUn _ a => semi_free a
  | XBin _ a b => semi_free a && semi_free b
  | XCond c t f => semi_free c && semi_free t && semi_free f
  | XConcat l => forallb semi_free l
  | XRepeat v n => semi_free v && semi_free n
  | XPart v m l => semi_free v && semi_free m && semi_free l
  | XPtr v p => semi_free v && semi_free p
  | XCall f l | XSys f l => negb (has_semi f) && forallb semi_free l
  end.
(** One parameter after each "parameter". *)
Definition param_printable (l : list member) : bool :=
  match l with [MParam _ n v w _] => printable v && semi_free v && negb (has_semi n) && optb range_printable w | _ => false end.
Definition port_printable (p : port) : bool :=
  match p with Ioport _ _ _ w _ dims => optb range_printable w && forallb range_printable dims | Port _ => true | NoPort => false end.
Definition module_printable (m : vmodule) : bool :=
  forallb param_printable (m_params m) && forallb port_printable (m_ports m) && forallb jprintable (m_items m).
Definition definition_printable (d : definition) : bool := match d with DModule m => module_printable m | DPragma _ v => optb simple_value v end.
Definition source_printable (l : list definition) : bool := forallb definition_printable l.

(** ** What is read back: a declaration for each name, and an assignment of its own for each declaration with a value. *)
Definition single (m : member) : sitem := match m with MAssign a => JAssign a | _ => JDecl [m] end.
Definition singles (l : list (list member)) : list (list member) := map (fun m => [m]) (List.concat l).
Fixpoint split_item (x : sitem) : list sitem :=
  match x with
  | JDecl l => map single l
  | JFunc n w decls s => [JFunc n w (singles decls) s]
  | JTask n decls s => [JTask n (singles decls) s]
  | JGen l => [JGen (flat_map split_item l)]
  | JIf c t e => [JIf c (hd t (split_item t)) (match e with None => None | Some e => Some (hd e (split_item e)) end)]
  | JFor pre c post b => [JFor pre c post (hd b (split_item b))]
  | JBlock scope l => [JBlock scope (flat_map split_item l)]
  | _ => [x]
  end.
Definition split_module (m : vmodule) : vmodule := VModule (m_name m) (m_params m) (m_ports m) (flat_map split_item (m_items m)).
Definition split_source (l : list definition) : list definition :=
  map (fun d => match d with DModule m => DModule (split_module m) | DPragma _ _ => d end) l.
