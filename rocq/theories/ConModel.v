(** ConModel.v - model of pyverilog/dataflow/bindvisitor.py: the destinations of an assignment,
    continuous assignments, and the connections of instances and gates. *)
From Verif Require Import Base ScopeModel DfModel ReorderModel BindModel AsgModel ExprModel MkModel LitModel.
Local Open Scope string_scope.

(** The left side of an assignment: an expression, or an LConcat of such (vparser/ast.py:406); the
    argument of a port is always an expression (parser.py:1921-1949), a Concat in particular. *)
Inductive lval := LOne (e : expr) | LCat (l : list lval).

(** dataflow/visit.py:31-40 - primitives. *)
Inductive gate := Reduction (o : op) | Inverter | Buffer.
Definition primitives : list (string * gate) :=
  [("and", Reduction Uand); ("nand", Reduction Unand); ("or", Reduction Uor); ("nor", Reduction Unor); ("xor", Reduction Uxor);
   ("xnor", Reduction Uxnor); ("not", Inverter); ("buf", Buffer)].

Section Con.
  Variable k : nat.                        (* recursion depth of reorder and insertConcat *)
  Variable opt : df -> res df.             (* self.optimize *)
  Variable times : expr -> res Z.          (* optimize(getTree(node.times)).value *)
  Variable is_module : chain -> bool.      (* frames.dict[scope].isModule() *)
  Variable nettype : string.               (* self.default_nettype: "wire", "reg" or "none" *)

  Definition sig (scope : chain) (name : string) : chain := (scope ++ [Label name STsignal None])%list.
  (** bindvisitor.py:791-800 - searchTerminal. *)
  Fixpoint search_up (s : store) (name : string) (n : nat) (scope : chain) : option chain :=
    match n with
    | O => None
    | S n' => if dmem (s_terms s) (sig scope name) then Some (sig scope name)
              else if is_module scope then None else search_up s name n' (removelast scope)
    end.
  Definition searchTerminal (s : store) (scope : chain) (name : string) : option chain := search_up s name (length scope) scope.
  (** bindvisitor.py:1006-1016 - an undeclared signal in an expression. *)
  Definition find (s : store) (scope : chain) (name : string) : res chain :=
    match searchTerminal s scope name with Some n => Ok n | None => Err DefinitionError end.
  (** bindvisitor.py:691-693 - getTermDims; :687-689 - getTermWidth. *)
  Definition is_array (s : store) (n : chain) : bool :=
    match dget (s_terms s) n with Some t => match t_dims t with Some _ => true | None => false end | None => false end.
  Definition getTermWidth (s : store) (n : chain) : res (df * df) :=
    match dget (s_terms s) n with Some t => Ok (t_msb t, t_lsb t) | None => Err AttributeError end.
  (** bindvisitor.py:993-999 - getTree, where no blocking assignments are recorded
      (resolveBlockingAssign is left out). *)
  Definition mk (s : store) (scope : chain) (e : expr) : res df := makeDFTree (find s scope) (is_array s) times k e.
  Definition getTree (s : store) (scope : chain) (e : expr) : res df := do t <- mk s scope e; reorder k t.
  Definition bound (s : store) (scope : chain) (e : expr) : res df := do t <- mk s scope e; opt t.

  (** bindvisitor.py:1336-1392 - getDst. Part selects of undeclared names (name None) and scoped
      names are left out. *)
  Definition dst := (chain * df * df * df)%type.
  Fixpoint getDst (s : store) (scope : chain) (e : expr) : res (store * dst) :=
    match e with
    | XId x =>
        match searchTerminal s scope x with
        | Some n => Ok (s, (n, DNone, DNone, DNone))
        | None =>
            if String.eqb nettype "none" then Err FormatError
            else
              let ty := if String.eqb nettype "reg" then "Reg" else "Wire" in
              let s' := addTerm s (sig scope x) (Term (sig scope x) [ty] (DInt "0") (DInt "0") None) in
              match searchTerminal s' scope x with Some n => Ok (s', (n, DNone, DNone, DNone)) | None => Err Unmodelled end
        end
    | XPart v m l =>
        match v with
        | XPtr _ _ =>
            do r <- getDst s scope v;
            let '(s, (n, a, b, p)) := r in
            if is_none a && is_none b then do m' <- bound s scope m; do l' <- bound s scope l; Ok (s, (n, m', l', p)) else Err FormatError
        | XId x =>
            match searchTerminal s scope x with
            | Some n => do m' <- bound s scope m; do l' <- bound s scope l; Ok (s, (n, m', l', DNone))
            | None => Err Unmodelled
            end
        | _ => Err AttributeError
        end
    | XPtr v q =>
        match v with
        | XPtr _ _ =>
            do r <- getDst s scope v;
            let '(s, (n, a, b, p)) := r in
            if is_none a && is_none b then do q' <- bound s scope q; Ok (s, (n, q', q', p)) else Err FormatError
        | XId x =>
            match searchTerminal s scope x with
            | Some n => do q' <- bound s scope q; if is_array s n then Ok (s, (n, DNone, DNone, q')) else Ok (s, (n, q', q', DNone))
            | None => Err Unmodelled
            end
        | _ => Err AttributeError
        end
    | _ => Err FormatError
    end.
  (** bindvisitor.py:1325-1334 - getDsts. *)
  Fixpoint getDsts (s : store) (scope : chain) (l : lval) {struct l} : res (store * list dst) :=
    match l with
    | LOne e => do r <- getDst s scope e; Ok (fst r, [snd r])
    | LCat l =>
        (fix go (s : store) (l : list lval) : res (store * list dst) :=
           match l with
           | [] => Ok (s, [])
           | x :: r => do a <- getDsts s scope x; do b <- go (fst a) r; Ok (fst b, snd a ++ snd b)%list
           end) s l
    end.
  (** bindvisitor.py:1307-1321 - getDestinations, the loop over several destinations, from the right. *)
  Fixpoint parts (s : store) (offset : df) (l : list dst) : res (list dest) :=
    match l with
    | [] => Ok []
    | (n, m, l', p) :: r =>
        do ml <- (if is_none m && is_none l' then getTermWidth s n else Ok (m, l'));
        let (m, l') := (ml : df * df) in
        do d <- mkOp [m; l'] Minus; do diff <- reorder k d;
        do a <- mkOp [offset; diff] Plus; do part_msb <- reorder k a;
        do b <- mkOp [part_msb; DInt "1"] Plus; do next <- reorder k b;
        do r' <- parts s next r;
        Ok (Dest n m l' p part_msb offset :: r')
    end.
  (** bindvisitor.py:1304-1323 - getDestinations. *)
  Definition getDestinations (s : store) (scope : chain) (l : lval) : res (store * list dest) :=
    do r <- getDsts s scope l;
    match snd r with
    | [(n, m, l', p)] => Ok (fst r, [Dest n m l' p DNone DNone])
    | ds => do x <- parts (fst r) (DInt "0") (rev ds); Ok (fst r, x)
    end.
  (** bindvisitor.py:1394-1404 - setDataflow outside always blocks. *)
  Fixpoint setDataflow (s : store) (ds : list dest) (raw : df) (p : path) (num_dst : nat) (ty : string) : res store :=
    match ds with
    | [] => Ok s
    | d :: r => do b <- makeBind k None s d raw p num_dst ty; do s' <- addBind s (d_name d) b; setDataflow s' r raw p num_dst ty
    end.
  (** bindvisitor.py:942-945 - addDataflow; p are the conditions of the scope of the left side. *)
  Definition addDataflow (s : store) (ds : list dest) (raw : df) (p : path) (ty : string) : res store := setDataflow s ds raw p (length ds) ty.
  (** bindvisitor.py:884-898, 546-547 - visit_Assign and addBind. *)
  Definition assign (s : store) (scope : chain) (p : path) (l : lval) (e : expr) : res store :=
    do r <- getDestinations s scope l;
    do t <- getTree (fst r) scope e;
    addDataflow (fst r) (snd r) t p "assign".

  (** A connection: PortArg(portname, argname). *)
  Record conn := Conn { c_port : option string; c_arg : option expr }.
  Definition indexed (i : option Z) (e : expr) : expr := match i with None => e | Some i => XPtr e (XInt (py_str i)) end.
  (** bindvisitor.py:918-940 - the loop over the types of the port. The instance's frame is a
      module's, so its conditions are empty; pr are the conditions of the parent's scope. *)
  Fixpoint link (s : store) (inst parent : chain) (pr : path) (port : chain) (arg : option expr) (types : list string) : res store :=
    match types with
    | [] => Ok s
    | t :: r =>
        do s' <- match arg with
                 | None => Ok s
                 | Some e =>
                     do s1 <- (if String.eqb t "Input" || String.eqb t "Inout"
                               then do t <- getTree s parent e; addDataflow s [Dest port DNone DNone DNone DNone DNone] t [] ""
                               else Ok s);
                     if String.eqb t "Output" || String.eqb t "Inout"
                     then do rd <- getDestinations s1 parent (LOne e);
                          do t <- reorder k (DTerm port);
                          addDataflow (fst rd) (snd rd) t pr ""
                     else Ok s1
                 end;
        link s' inst parent pr port arg r
    end.
  (** bindvisitor.py:908-917 - addInstancePortBind. *)
  Definition addInstancePortBind (s : store) (inst parent : chain) (pr : path) (c : conn) (instport : string) (i : option Z) : res store :=
    let portname := match c_port c with None => instport | Some p => p end in
    match searchTerminal s inst portname with
    | None => Err DefinitionError
    | Some port =>
        match dget (s_terms s) port with
        | None => Err AttributeError
        | Some t => link s inst parent pr port (match c_arg c with None => None | Some e => Some (indexed i e) end) (t_type t)
        end
    end.
  (** bindvisitor.py:177-182 - the ports of an instance. The message of the error takes
      port.argname.name, which only identifiers have. *)
  Definition has_name (e : option expr) : bool := match e with Some (XId _) | Some (XCall _ _) => true | _ => false end.
  Fixpoint connect (s : store) (inst parent : chain) (pr : path) (all ports : list string) (cs : list conn) (i : option Z) : res store :=
    match cs with
    | [] => Ok s
    | c :: r =>
        do _ <- match c_port c with
                | None => Ok tt
                | Some p => if existsb (String.eqb p) all then Ok tt else Err (if has_name (c_arg c) then FormatError else AttributeError)
                end;
        match ports with
        | [] => Err IndexError
        | q :: ports' => do s' <- addInstancePortBind s inst parent pr c q i; connect s' inst parent pr all ports' r i
        end
    end.
  (** bindvisitor.py:188-207 - _visit_Instance_primitive. A missing argument has no tree. *)
  Definition first_arg (c : conn) : res expr := match c_arg c with Some e => Ok e | None => Err Unmodelled end.
  Definition primitive (s : store) (scope : chain) (p : path) (g : gate) (cs : list conn) (i : option Z) : res store :=
    match cs with
    | [] => Err IndexError
    | c :: r =>
        do out <- first_arg c;
        let bit e := XPtr e (XInt (match i with None => "0" | Some i => py_str i end)) in
        do right_ <- match g with
                    | Buffer => match r with [] => Err IndexError | d :: _ => do e <- first_arg d; Ok (bit e) end
                    | Inverter => match r with [] => Err IndexError | d :: _ => do e <- first_arg d; Ok (XUn Ulnot (bit e)) end
                    | Reduction o => do l <- mapM first_arg r; Ok (XUn o (XConcat (map bit l)))
                    end;
        assign s scope p (LOne (indexed i out)) right_
    end.
End Con.
