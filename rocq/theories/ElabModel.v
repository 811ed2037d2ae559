(** ElabModel.v - model of pyverilog/dataflow/modulevisitor.py and signalvisitor.py: elaboration of the
    hierarchy of modules (parameters, instances, generate constructs). *)
From Verif Require Import Base ScopeModel DfModel BindModel LitModel OptModel ReorderModel AsgModel ExprModel MkModel HierModel VisitModel.
Local Open Scope Z_scope.

(** vparser/ast.py:112-131, 275-384, 721-1056, 1147-1158 - items of a module and statements, as far as the
    visitor looks at them. Simplifications: all signal declarations are one kind (ANSI ports are the first
    items); functions and tasks are left out; assignments, initial blocks, while loops and other
    statements, which the visitor passes over, are [ISkip]; instances have their connections elsewhere. *)
Inductive item :=
| ISignal (port : bool) (n : string)                            (* declared; port: Input, Output, Inout among the items *)
| IParam (n : string) (w : option (expr * expr)) (e : expr)
| ILocal (n : string) (e : expr)
| IGenvar (n : string)
| IInst (m n : string) (array : option (expr * expr)) (args : list (option string * expr))
| IGenerate (l : list item)
| IIf (c : expr) (t f : option item)
| IFor (x : string) (pre c : expr) (y : string) (post : expr) (b : item)
| IBlock (n : option string) (l : list item)
| IAlways (b : item)
| ICase (l : list (option item))
| ISkip.
Record mod_ := MDef { m_name : string; m_items : list item }.

(** The declarations a table refers to. *)
Inductive decl := NSignal | NParam (w : option (expr * expr)) (e : expr) | NLocal (e : expr) | NGenvar.

(** ** Modules *)
(** visit.py:218-258 - DefinitionInfo. *)
Record info := Info { i_signals : vtable decl; i_consts : vtable decl; i_params : list string }.
(** modulevisitor.py:23-66 with visit.py:45-52 and 177-185 - what is found in the items of a module. (The
    method for localparams is misspelt, so they are not registered.) *)
Fixpoint collect (i : info) (x : item) : info :=
  match x with
  | ISignal true n =>
      match sget (i_consts i) n with
      | Some _ => i
      | None => Info (vadd decl (i_signals i) n NSignal) (i_consts i) (i_params i)
      end
  | IParam n w e =>
      Info (i_signals i) (match sget (i_consts i) n with Some _ => i_consts i | None => vadd decl (i_consts i) n (NParam w e) end)
           (i_params i ++ [n])
  | IGenerate l | IBlock _ l => fold_left collect l i
  | IIf _ t f =>
      let i := match t with Some x => collect i x | None => i end in
      match f with Some x => collect i x | None => i end
  | IFor _ _ _ _ _ b => collect i b
  | ICase l => fold_left (fun i o => match o with Some x => collect i x | None => i end) l i
  | _ => i
  end.
Definition mod_info (m : mod_) : info := fold_left collect (m_items m) (Info [] [] []).
(** visit.py:266-270 - addDefinition. *)
Definition mtable := list (string * (mod_ * info)).
Fixpoint modules (D : list mod_) (t : mtable) : res mtable :=
  match D with
  | [] => Ok t
  | m :: r => match sget t (m_name m) with
              | Some _ => Err DefinitionError
              | None => modules r (t ++ [(m_name m, (m, mod_info m))])
              end
  end.
(** visit.py:287-313 - getSignals, getConsts, getDefinition, getParamNames. *)
Definition getInfo (t : mtable) (n : string) : res (mod_ * info) :=
  match sget t n with Some x => Ok x | None => Err DefinitionError end.

(** visit.py:31-40 - primitives. *)
Definition primitive (n : string) : bool :=
  existsb (String.eqb n) ["and"; "nand"; "or"; "nor"; "xor"; "xnor"; "not"; "buf"]%string.

(** ** The visitor *)
(** signalvisitor.py:25-33 - frames, labels and the constants known to the optimizer. The optimizer's terms
    are only looked up for terminals, and trees have none here: they are left out. *)
Record st := St { s_fr : ftable decl; s_lb : labels; s_cs : ndict df }.
Definition with_fr (s : st) (f : ftable decl) : st := St f (s_lb s) (s_cs s).
Definition current (s : st) : chain := ft_current decl (s_fr s).
Definition goto (s : st) (c : chain) : st := with_fr s (setCurrent decl (s_fr s) c).
Definition sig (c : chain) (n : string) : chain := chain_add_label c (Label n STsignal None).
(** signalvisitor.py:412-419 - setConstant, getConstant, hasConstant. *)
Definition setConstant (s : st) (n : chain) (v : df) : st := St (s_fr s) (s_lb s) (dset (s_cs s) n v).
Definition getConstant (s : st) (n : chain) : res df :=
  match dget (s_cs s) n with Some v => Ok v | None => Err DefinitionError end.
(** signalvisitor.py:453-461 - searchConstantDefinition: constants, then signals, of the scopes around. *)
Definition search_const (s : st) (key : chain) (n : string) : res chain :=
  do r <- searchConstantDefinition decl (s_fr s) key n;
  match r with
  | Some (c, _) => Ok (sig c n)
  | None =>
      do r <- searchSignalDefinition decl (s_fr s) key n;
      match r with Some (c, _) => Ok (sig c n) | None => Err DefinitionError end
  end.
(** signalvisitor.py:463-466 - searchConstantValue. *)
Definition value_of (s : st) (key : chain) (n : string) : res df :=
  do c <- search_const s key n; getConstant s c.

Section Elab.
Variable log2i : Z -> option Z.          (* int(math.log2(v)) when it is exact (HierModel.v) *)
Variable tocode : df -> res string.      (* DFNode.tocode, the sort key of merged conditions (HierModel.v) *)

(** signalvisitor.py:357-358 - optimize. *)
Definition opt (k : nat) (t : df) : res df := optimize (OptEnv [] []) log2i tocode k t.

Section Tree.
  Variable find : string -> res df.      (* searchConstantValue in the scope *)
  Variable k : nat.
  (** signalvisitor.py:479-556 - makeDFTree: names are replaced by values. Names with a scope, strings and
      floats are left out. *)
  Fixpoint tree (e : expr) : res df :=
    match e with
    | XId s => find s
    | XInt s => Ok (DInt s)
    | XCond c t f =>
        do t' <- tree t; do f' <- tree f; do c' <- tree c;
        if isBranch c' then Err AttributeError else Ok (DBranch c' t' f')
    | XUn o a => do a' <- tree a; if isBranch a' then insertUnaryOp a' o else mkOp [a'] o
    | XBin o a b =>
        do a' <- tree a; do b' <- tree b;
        if isBranch a' || isBranch b' then insertOp a' b' o else mkOp [a'; b'] o
    | XPart v m l =>
        do v' <- tree v; do m' <- tree m; do l' <- tree l;
        Ok (if isBranch v' then insertPartselect v' m' l' else DPart v' m' l')
    | XPtr v p => do v' <- tree v; do p' <- tree p; Ok (DPtr v' p')
    | XConcat l =>
        do l' <- mapM tree l;
        if existsb isBranch l' then insertConcat k l' else Ok (DConcat l')
    | XRepeat v n =>
        do n' <- tree n; do c <- opt k n'; do z <- int_attr c; do v' <- tree v; Ok (DConcat (repeat v' (Z.to_nat z)))
    | XSys f l =>
        if String.eqb f "unsigned" || String.eqb f "signed"
        then match l with _ :: _ => Err TypeError | [] => Err IndexError end
        else Ok (DInt "0")
    | XCall _ _ => Err FormatError
    end.
End Tree.
(** signalvisitor.py:475-477 with 357-358 - optimize(getTree(e, scope)). *)
Definition eval (k : nat) (s : st) (scope : chain) (e : expr) : res df :=
  do t <- tree (value_of s scope) k e; opt k t.

(** visit.py:534-560 - addFrame; the caller restores the previous scope. *)
Definition frame_in (s : st) (l : label) (fl : flags) : res st :=
  do f <- addFrame decl (s_fr s) l fl; Ok (with_fr s f).
Definition get_label (s : st) (kind : string) : res (string * st) :=
  do key <- getLabelKey decl (s_fr s) kind;
  let p := labels_get (s_lb s) key in Ok (fst p, St (s_fr s) (snd p) (s_cs s)).
Definition here (s : st) : res flags :=
  match dget (ft_dict decl (s_fr s)) (current s) with Some f => Ok (f_flags decl f) | None => Err KeyError end.
Definition on_here (s : st) (g : frame decl -> frame decl) : res st :=
  do f <- on_current decl (s_fr s) g; Ok (with_fr s f).
Definition plain_flags (gen alw ini : bool) : flags := Flags false false false gen alw ini None None.
Definition module_flags (m : string) : flags := Flags true false false false false false None (Some m).

(** visit.py:150-151, 205-209, 691-695 - update of the tables of a scope. *)
Definition supdate {V} (d new : list (string * V)) : list (string * V) := fold_left (fun d p => sset d (fst p) (snd p)) new d.
Definition frame_update (f : frame decl) (i : info) : frame decl :=
  Frame decl (f_previous decl f) (f_next decl f) (f_flags decl f) (supdate (f_signals decl f) (i_signals i)) (supdate (f_consts decl f) (i_consts i)) (f_genvars decl f).

Section Visit.
  Variable T : mtable.

  (** signalvisitor.py:360-365 - stackInstanceFrame. *)
  Definition stackInstanceFrame (s : st) (n m : string) : res st :=
    do s <- frame_in s (Label n STmodule None) (module_flags m);
    do d <- getInfo T m; on_here s (fun f => frame_update f (snd d)).

  (** visit.py:736-738 - getConsts of a scope. *)
  Definition consts_at (s : st) (c : chain) : res (list (string * list decl)) :=
    match dget (ft_dict decl (s_fr s)) c with Some f => Ok (f_consts decl f) | None => Err KeyError end.

  (** signalvisitor.py:367-378, 468-473 - setInstanceSimpleConstantTerms: a deep copy without bounds; makeDFTree of None is
      a FormatError. *)
  Fixpoint simple_terms (l : list (string * list decl)) : res unit :=
    match l with
    | [] => Ok tt
    | (_, [NParam (Some _) _]) :: _ => Err FormatError
    | (_, [_]) :: r | (_, []) :: r => simple_terms r
    | _ :: _ => Err FormatError
    end.
  (** signalvisitor.py:380-387, 468-473 - setInstanceConstantTerms. *)
  Fixpoint const_terms (k : nat) (s : st) (c : chain) (l : list (string * list decl)) : res unit :=
    match l with
    | [] => Ok tt
    | (_, [NParam (Some (m, x)) _]) :: r =>
        do _ <- tree (value_of s c) k m; do _ <- tree (value_of s c) k x; const_terms k s c r
    | (_, [_]) :: r | (_, []) :: r => const_terms k s c r
    | _ :: _ => Err FormatError
    end.
  (** signalvisitor.py:389-410 - setInstanceConstants: one pass over the constants, and passes until all have values. *)
  Fixpoint const_pass (k : nat) (s : st) (c : chain) (l : list (string * list decl)) (passed : bool) : res (bool * st) :=
    match l with
    | [] => Ok (passed, s)
    | (n, ds) :: r =>
        match ds with
        | _ :: _ :: _ => Err FormatError
        | [] => const_pass k s c r passed
        | [d] =>
            if dmem (s_cs s) (sig c n) then const_pass k s c r passed
            else match d with
                 | NGenvar => const_pass k s c r passed
                 | NSignal => Err AttributeError
                 | NParam _ e | NLocal e =>
                     do v <- eval k s c e;
                     if isEval v then const_pass k (setConstant s (sig c n) v) c r passed else const_pass k s c r false
                 end
        end
    end.
  Fixpoint const_passes (j k : nat) (s : st) (c : chain) : res st :=
    match j with
    | O => Err OutOfFuel
    | S j =>
        do l <- consts_at s c;
        do p <- const_pass k s c l true;
        if fst p then Ok (snd p) else const_passes j k (snd p) c
    end.

  (** signalvisitor.py:142-150 - the parameters given by an instance. *)
  Fixpoint overrides (k : nat) (s : st) (outer inner : chain) (names : list string) (i : nat) (l : list (option string * expr)) : res st :=
    match l with
    | [] => Ok s
    | (n, e) :: r =>
        do n <- match n with Some n => Ok n | None => match nth_error names i with Some n => Ok n | None => Err IndexError end end;
        if negb (existsb (String.eqb n) names) then Err FormatError
        else
          do v <- eval k s outer e;
          do c <- search_const s inner n;
          overrides k (setConstant s c v) outer inner names (S i) r
    end.

  Section Rules.
    Variable rec : st -> item -> res st.     (* self.visit *)
    Variable k : nat.

    Fixpoint each (s : st) (l : list item) : res st :=
      match l with [] => Ok s | x :: r => do s <- rec s x; each s r end.

    (** signalvisitor.py:129-156 - _visit_Instance_body. *)
    Definition instance (s : st) (m n : string) (args : list (option string * expr)) : res st :=
      if primitive m then Ok s
      else if String.eqb n "" then Err FormatError
      else
        let outer := current s in
        do s <- stackInstanceFrame s n m;
        let inner := current s in
        do cs <- consts_at s inner; do _ <- simple_terms cs;
        do d <- getInfo T m;
        do s <- overrides k s outer inner (i_params (snd d)) 0 args;
        do s <- const_passes k k s inner;
        do cs <- consts_at s inner; do _ <- const_terms k s inner cs;
        do s <- each s (m_items (fst d));
        Ok (goto s outer).
    Fixpoint instances (s : st) (m n : string) (args : list (option string * expr)) (l : list Z) : res st :=
      match l with
      | [] => Ok s
      | i :: r => do s <- instance s m (n ++ "_" ++ py_str i)%string args; instances s m n args r
      end.

    (** A statement in a new scope, the previous scope restored at the end. *)
    Definition inside_of (s : st) (l : label) (fl : flags) (b : st -> res st) : res st :=
      let c := current s in do s <- frame_in s l fl; do s <- b s; Ok (goto s c).
    Definition same_flags (s : st) : res flags :=
      do fl <- here s; Ok (Flags false (fl_functioncall fl) (fl_taskcall fl) (fl_generate fl) (fl_always fl) (fl_initial fl) None None).

    (** signalvisitor.py:191-224 - _if_true, _if_false. *)
    Definition if_true (s : st) (t : option item) : res (option string * st) :=
      match t with
      | None => Ok (None, s)
      | Some x =>
          do p <- get_label s "if"; do fl <- same_flags (snd p);
          do s <- inside_of (snd p) (Label (fst p) STif None) fl (fun s => rec s x); Ok (Some (fst p), s)
      end.
    Definition if_false (s : st) (f : option item) (l : option string) : res st :=
      match f with
      | None => Ok s
      | Some x =>
          match l with
          | None => Err TypeError
          | Some l => do fl <- same_flags s; inside_of s (Label (l ++ "_ELSE")%string STif None) fl (fun s => rec s x)
          end
      end.
    (** A condition of a generate-if or a for loop. *)
    Definition positive (v : df) : res bool :=
      match v with
      | DEval (PInt z) _ _ _ => Ok (0 <? z)
      | DEval (PFloat _) _ _ _ => Err Unmodelled
      | DEval _ _ _ _ => Err TypeError
      | _ => Err FormatError
      end.
    Definition generate_only (fl : flags) : bool :=
      fl_generate fl && negb (fl_always fl) && negb (fl_initial fl) && negb (fl_functioncall fl) && negb (fl_taskcall fl).
    (** signalvisitor.py:169-189 - visit_IfStatement. *)
    Definition if_statement (s : st) (c : expr) (t f : option item) : res st :=
      do fl <- here s;
      if generate_only fl then
        do v <- eval k s (current s) c;
        do z <- positive v;
        if z then do p <- if_true s t; Ok (snd p)
        else do p <- get_label s "if"; if_false (snd p) f (Some (fst p))
      else do p <- if_true s t; if_false (snd p) f (fst p).
    (** signalvisitor.py:226-269 - visit_CaseStatement, _case: the rest of the items is in the else scope. *)
    Fixpoint case_items (s : st) (l : list (option item)) : res st :=
      match l with
      | [] => Ok s
      | x :: r =>
          do p <- get_label s "if"; do fl <- same_flags (snd p);
          do s <- inside_of (snd p) (Label (fst p) STif None) fl (fun s => match x with Some y => rec s y | None => Ok s end);
          match r with
          | [] => Ok s
          | _ => do s <- frame_in s (Label (fst p ++ "_ELSE")%string STif None) fl; case_items s r
          end
      end.
    Definition case_statement (s : st) (l : list (option item)) : res st :=
      let c := current s in do s <- case_items s l; Ok (goto s c).

    (** signalvisitor.py:345-352 - visit_BlockingSubstitution in the header of a for loop. *)
    Definition for_assign (s : st) (x : string) (e : expr) : res st :=
      do c <- search_const s (current s) x; do v <- eval k s (current s) e; Ok (setConstant s c v).
    Definition loop_value (v : df) : res Z :=
      do p <- value_attr v; match p with PInt z => Ok z | _ => Err Unmodelled end.
    (** signalvisitor.py:271-314 - visit_ForStatement. *)
    Fixpoint for_loop (j : nat) (s : st) (label : string) (loop : Z) (c : expr) (y : string) (post : expr) (b : item) : res st :=
      match j with
      | O => Err OutOfFuel
      | S j =>
          do v <- eval k s (current s) c;
          do z <- positive v;
          if negb z then Ok s
          else
            do fl <- same_flags s;
            do s <- inside_of s (Label label STfor (Some loop)) fl (fun s => rec s b);
            do v <- eval k s (current s) post;
            do loop <- loop_value v;
            do s <- for_assign s y post;
            for_loop j s label loop c y post b
      end.
    Definition for_statement (s : st) (x : string) (pre c : expr) (y : string) (post : expr) (b : item) : res st :=
      do v <- eval k s (current s) pre;
      do loop <- loop_value v;
      do s <- for_assign s x pre;
      do p <- get_label s "for";
      for_loop k (snd p) (fst p) loop c y post b.

    (** signalvisitor.py:41-84 - declarations; a constant gets its value unless it has one. *)
    Definition constant (s : st) (n : string) (d : decl) (v : st -> res df) : res st :=
      do s <- on_here s (fun f => frame_addConst decl f n d);
      if dmem (s_cs s) (sig (current s) n) then Ok s
      else do x <- v s; Ok (setConstant s (sig (current s) n) x).

    Definition rule (s : st) (x : item) : res st :=
      match x with
      | ISignal _ n => on_here s (fun f => frame_addSignal decl f n NSignal)
      | IParam n w e => constant s n (NParam w e) (fun s => eval k s (current s) e)
      | ILocal n e => constant s n (NLocal e) (fun s => eval k s (current s) e)
      | IGenvar n => constant s n NGenvar (fun _ => Ok (DEval (PInt 0) (Some 32) false false))
      (* signalvisitor.py:107-127 - visit_Instance, _visit_Instance_array *)
      | IInst m n None args => instance s m n args
      | IInst m n (Some (hi, lo)) args =>
          if String.eqb n "" then Err FormatError
          else
            do h <- eval k s (current s) hi; do h <- int_attr h;
            do l <- eval k s (current s) lo; do l <- int_attr l;
            instances s m n args (map (fun i => l + Z.of_nat i) (seq 0 (Z.to_nat (h + 1 - l))))
      (* signalvisitor.py:319-324 - visit_GenerateStatement *)
      | IGenerate l =>
          do p <- get_label s "generate";
          inside_of (snd p) (Label (fst p) STgenerate None) (plain_flags true false false) (fun s => each s l)
      | IIf c t f => if_statement s c t f
      | IFor x pre c y post b => for_statement s x pre c y post b
      (* signalvisitor.py:326-340 - visit_Block *)
      | IBlock n l =>
          do p <- match n with Some n => Ok (n, s) | None => get_label s "block" end;
          do fl <- same_flags (snd p);
          inside_of (snd p) (Label (fst p) STblock None) fl (fun s => each s l)
      (* signalvisitor.py:161-167 - visit_Always *)
      | IAlways b =>
          do p <- get_label s "always"; do fl <- here (snd p);
          inside_of (snd p) (Label (fst p) STalways None) (plain_flags (fl_generate fl) true false) (fun s => rec s b)
      | ICase l => case_statement s l
      | ISkip => Ok s
      end.
  End Rules.

  (** visit.py:45-52 - visit. [k] bounds the depth of the recursion and the number of iterations. *)
  Fixpoint visit (k : nat) (s : st) (x : item) : res st :=
    match k with O => Err OutOfFuel | S k => rule (visit k) k s x end.
End Visit.

(** dataflow_analyzer.py:39-53 with signalvisitor.py:25-39 - generate with nobind=True: the frame table of a design. *)
Definition elaborate (k : nat) (D : list mod_) (top : string) : res st :=
  do T <- modules D [];
  do s <- stackInstanceFrame T (St (empty_table decl) [] []) top top;
  do d <- getInfo T top;
  each (visit T k) s (m_items (fst d)).
End Elab.
(** visit.py:697-702 and dataflow_analyzer.py:69-72 - getInstances. *)
Definition getInstances (s : st) : list (chain * option string) :=
  flat_map (fun p => match last (fst p) (Label "" STany None) with
                     | Label _ STmodule _ => [(fst p, fl_modulename (f_flags decl (snd p)))]
                     | _ => []
                     end) (ft_dict decl (s_fr s)).
