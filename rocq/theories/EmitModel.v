(** EmitModel.v - model of the text of declarations and assignments (dataflow/dataflow.py:437-460, 735-770, 823-905), of
    dataflow/subset.py:75-150, of dataflow/merge.py:56-100 and of dataflow/dataflow_codegen.py. *)
From Verif Require Import Base ScopeModel DfModel BindModel LexModel ExprModel CodeModel SubsetModel.
Local Open Scope string_scope.

(** utils/signaltype.py:15-20 - isType. *)
Definition is_type (ty : list string) (s : string) : bool := existsb (fun t => String.eqb t s) ty.

(** dataflow.py - tocode(dest) where dest may be None (getdest, Term.tocode): as CodeModel.tocode, but the None used for a
    missing arm cannot be added to a string. *)
Definition arm_to (dest : option string) (t : df) (code : res string) : res string :=
  match t with DNone => match dest with Some d => Ok d | None => Err TypeError end | _ => code end.
Fixpoint tocode_to (dest : option string) (t : df) : res string :=
  match t with
  | DNone => Err AttributeError
  | DTerm n => Ok (chain_tocode n)
  | DInt s | DFloat s | DStr s => Ok s
  | DOp l o =>
      match l with
      | a :: b :: _ =>
          do x <- tocode_to dest a;
          match op2mark o with
          | Some m => do y <- tocode_to dest b; Ok ("(" ++ x ++ m ++ y ++ ")")
          | None => Err TypeError
          end
      | [a] => match op2mark o with Some m => do x <- tocode_to dest a; Ok ("(" ++ m ++ x ++ ")") | None => Err TypeError end
      | [] => match op2mark o with Some _ => Err IndexError | None => Err TypeError end
      end
  | DPart v m l =>
      do x <- tocode_to dest v; do y <- tocode_to dest m; do z <- tocode_to dest l;
      Ok (if String.eqb y z then x ++ "[" ++ y ++ "]" else x ++ "[" ++ y ++ ":" ++ z ++ "]")
  | DPtr v p => do x <- tocode_to dest v; do y <- tocode_to dest p; Ok (x ++ "[" ++ y ++ "]")
  | DConcat l => do xs <- mapM (tocode_to dest) l; Ok (members "{" xs ++ "}")
  | DBranch c t f =>
      do x <- match c with DNone => Ok "" | _ => do x <- tocode_to dest c; Ok ("(" ++ x ++ ")") end;
      do y <- arm_to dest t (tocode_to dest t);
      do z <- arm_to dest f (tocode_to dest f);
      Ok ("(" ++ x ++ "? " ++ y ++ " : " ++ z ++ ")")
  | DEval v w _ s => eval_repr v w s
  | DUndef w => Ok (width_str (Some w) ++ "'dx")
  | DHiz w => Ok (width_str (Some w) ++ "'dz")
  | DDelay _ => Err DefinitionError
  | DSys f l => do xs <- mapM (tocode_to dest) l; Ok (members ("$" ++ f ++ "(") xs ++ ")")
  end.

(** ** Bind.tocode *)
Definition nl (s : string) : string := s ++ String NL "".
(** dataflow.py:437-460 - DFBranch._tocode_always; 879-884, 897-902 - the text of another tree. *)
Fixpoint assigns (nonblocking : bool) (dest : string) (t : df) : res string :=
  match t with
  | DBranch c a b =>
      do x <- (if is_none c then Ok "" else tocode_to (Some dest) c);
      do y <- (if is_none a then Ok "" else assigns nonblocking dest a);
      do z <- (if is_none b then Ok "" else do z <- assigns nonblocking dest b; Ok (nl "else begin" ++ z ++ nl "end"));
      Ok ("if(" ++ x ++ nl ") begin" ++ y ++ nl "end" ++ z)
  | _ => do x <- tocode_to (Some dest) t; Ok (dest ++ (if nonblocking then " <= " else " = ") ++ x ++ nl ";")
  end.
(** dataflow.py:842-853 - getdest. *)
Definition getdest (b : bind_) : res string :=
  do p <- (if is_none (b_ptr b) then Ok "" else do x <- tocode_to None (b_ptr b); Ok ("[" ++ x ++ "]"));
  do s <- (if is_none (b_msb b) || is_none (b_lsb b) then Ok "" else
           do x <- tocode_to None (b_msb b); do y <- tocode_to None (b_lsb b);
           Ok (if String.eqb x y then "[" ++ x ++ "]" else "[" ++ x ++ ":" ++ y ++ "]"));
  Ok (toFlatname (b_dest b) ++ p ++ s).
(** dataflow.py:855-871 - _parameter, _localparam, _assign. *)
Definition statement (word : string) (b : bind_) : res string :=
  do dest <- getdest b; do x <- tocode_to (Some dest) (b_tree b); Ok (word ++ " " ++ dest ++ " = " ++ x ++ nl ";").
(** toFlatname of a clock or reset name: '' has no tocode. *)
Definition edge_text (e : option string) (n : cname) : res (option string) :=
  match e, n with
  | None, _ | _, CNone => Ok None
  | Some _, CEmpty => Err AttributeError
  | Some e, CName n => Ok (Some (e ++ " " ++ toFlatname n))
  end.
(** dataflow.py:873-906 - _always_clockedge, _always_combination. *)
Definition always_clockedge (a : alwaysinfo) (b : bind_) : res string :=
  do dest <- getdest b; do c <- edge_text (clock_edge a) (clock_name a); do r <- edge_text (reset_edge a) (reset_name a);
  do x <- assigns true dest (b_tree b);
  Ok ("always @(" ++ match c with Some c => c | None => "" end ++ match r with Some r => " or " ++ r | None => "" end ++
      nl ") begin" ++ x ++ nl (nl "end")).
Definition always_combination (b : bind_) : res string :=
  do dest <- getdest b; do x <- assigns false dest (b_tree b); Ok (nl "always @* begin" ++ x ++ nl (nl "end")).
(** dataflow.py:830-840 - Bind.tocode. *)
Definition bind_tocode (b : bind_) : res string :=
  if String.eqb (b_param b) "parameter" then statement "parameter" b
  else if String.eqb (b_param b) "localparam" then statement "localparam" b
  else match b_always b with
       | None => statement "assign" b
       | Some a => if always_isCombination a then always_combination b else always_clockedge a b
       end.

(** ** Term.tocode (dataflow.py:729-769). A Length of dims is printed with the name 'dest' for a missing arm. *)
Definition term_words (top : bool) (ty : list string) : string :=
  (if top then
     (if is_type ty "Input" then "input " else if is_type ty "Inout" then "inout " else if is_type ty "Output" then "output " else "")
   else
     (if is_type ty "Input" then "wire " else if is_type ty "Inout" then "wire "
      else if is_type ty "Output" && negb (is_type ty "Reg") then "wire " else "")) ++
  (if is_type ty "Reg" then "reg " else "") ++ (if is_type ty "Wire" then "wire " else "") ++
  (if is_type ty "Integer" then "integer " else "") ++ (if is_type ty "Function" then "wire " else "") ++
  (if is_type ty "Rename" then "wire " else "").
Definition isTopmodule (n : chain) : bool := Nat.eqb (length (getScope n)) 1.
Definition dim_text (x : df * df) : res string :=
  do l <- tocode_to (Some "dest") (fst x); do r <- tocode_to (Some "dest") (snd x); Ok ("[" ++ l ++ ":" ++ r ++ "]").
Definition term_tocode (t : term) : res string :=
  do w <- (if is_type (t_type t) "Integer" || is_none (t_msb t) || is_none (t_lsb t) then Ok "" else
           do x <- tocode_to None (t_msb t); do y <- tocode_to None (t_lsb t); Ok ("[" ++ x ++ ":" ++ y ++ "] "));
  do d <- match t_dims t with None => Ok "" | Some l => do xs <- mapM dim_text l; Ok (String.concat "" xs) end;
  Ok (term_words (isTopmodule (t_name t)) (t_type t) ++ w ++ toFlatname (t_name t) ++ d ++ nl ";").

(** ** VerilogCodeGenerator *)
Section Generator.
  Variable terms : ndict term.                                   (* self.terms *)
  Variables topmodule modulename clock reset enable : string.    (* self.clock_name, self.reset_name, self.enable_name *)
  Variable num_indent : nat.
  Variable flat : bool.
  Variable order : list bind_ -> list bind_.                     (* the iteration order of a set of binds *)

  (** merge.py:56-60 - getTermtype. *)
  Definition getTermtype (n : chain) : res (list string) :=
    match dget terms n with Some t => Ok (t_type t) | None => Err DefinitionError end.
  Inductive assign_type := TClockedge | TCombination | TAssign | TParameter | TLocalparam.
  (** merge.py:68-100 - getAssignType: signaltype has no isWireArray (line 72), so what follows is never reached. *)
  Definition getAssignType (n : chain) (b : bind_) : res assign_type :=
    do ty <- getTermtype n; if is_type ty "Wire" then Ok TAssign else Err AttributeError.

  Record parts := Parts {
    p_terms : ndict term; p_parameter : ndict bind_; p_assign : ndict (list bind_);
    p_clockedge : ndict (list bind_); p_combination : ndict (list bind_) }.
  (** d.setdefault(left, set()).add(right) *)
  Definition set_add (d : ndict (list bind_)) (k : chain) (b : bind_) : res (ndict (list bind_)) :=
    match dget d k with
    | Some l => do e <- lmem bind_eq b l; Ok (if e then d else dset d k (l ++ [b])%list)
    | None => Ok (dset d k [b])
    end.
  (** subset.py:85-95 - the declarations. *)
  Fixpoint sources_loop (l : list chain) (acc : ndict term) : res (ndict term) :=
    match l with
    | [] => Ok acc
    | n :: r =>
        match dget terms n with
        | None => Err DefinitionError
        | Some t => sources_loop r (if is_type (t_type t) "Parameter" || is_type (t_type t) "Localparam" then acc else dset acc n t)
        end
    end.
  (** subset.py:97-124 - the assignments. *)
  Definition one_bind (left : chain) (b : bind_) (p : parts) : res parts :=
    do k <- getAssignType left b;
    let declare (d : ndict term) : res (ndict term) :=
      match dget d left with
      | Some _ => Ok d
      | None => match dget terms left with Some t => Ok (dset d left t) | None => Err KeyError end
      end in
    match k with
    | TClockedge => do s <- set_add (p_clockedge p) left b; do d <- declare (p_terms p); Ok (Parts d (p_parameter p) (p_assign p) s (p_combination p))
    | TCombination => do s <- set_add (p_combination p) left b; do d <- declare (p_terms p); Ok (Parts d (p_parameter p) (p_assign p) (p_clockedge p) s)
    | TAssign => do s <- set_add (p_assign p) left b; do d <- declare (p_terms p); Ok (Parts d (p_parameter p) s (p_clockedge p) (p_combination p))
    | TParameter | TLocalparam => Ok (Parts (p_terms p) (dset (p_parameter p) left b) (p_assign p) (p_clockedge p) (p_combination p))
    end.
  Fixpoint rights_loop (left : chain) (l : list bind_) (p : parts) : res parts :=
    match l with [] => Ok p | b :: r => do q <- one_bind left b p; rights_loop left r q end.
  Fixpoint binds_loop (l : list (chain * list bind_)) (p : parts) : res parts :=
    match l with [] => Ok p | (n, bs) :: r => do q <- rights_loop n bs p; binds_loop r q end.
  (** subset.py:84-124 - _discretion; 75-78 - getEntire; 80-82 - getSubset. *)
  Definition discretion (binds : ndict (list bind_)) (sources : list chain) : res parts :=
    do d <- sources_loop sources []; binds_loop binds (Parts d [] [] [] []).
  Definition getEntire (resolved : ndict (list bind_)) : res parts := discretion resolved (map fst terms).

  (** dataflow_codegen.py:68-71, 132-137 - the inputs that are the clock or the reset of the top module. *)
  Definition is_system (n : chain) (ty : list string) : bool :=
    is_type ty "Input" && (chain_eq n (toTermname_list [topmodule; reset]) || chain_eq n (toTermname_list [topmodule; clock])).
  (** 62-80 - the ports. *)
  Fixpoint port_names (l : list (chain * term)) : res (list string) :=
    match l with
    | [] => Ok []
    | (n, _) :: r =>
        if isTopmodule n then
          do ty <- getTermtype n;
          do x <- port_names r;
          Ok (if is_system n ty then x
              else if is_type ty "Input" || is_type ty "Inout" || is_type ty "Output" then toFlatname n :: x else x)
        else port_names r
    end.
  Fixpoint spaces (n : nat) : string := match n with O => "" | S n => String " " (spaces n) end.
  (** Python's s[:-2] *)
  Definition cut2 (s : string) : string := ScopeModel.drop_last (ScopeModel.drop_last s).
  (** 53-81 - _modulehead. *)
  Definition modulehead (d : ndict term) : res string :=
    do l <- port_names d;
    Ok (cut2 (nl "`default_nettype none" ++ "module " ++ modulename ++ nl "(" ++ spaces num_indent ++
              clock ++ ", " ++ reset ++ ", " ++ enable ++ nl ", " ++ spaces num_indent ++
              String.concat "" (map (fun s => s ++ ", ") l)) ++ nl (nl ");")).
  (** 41-51, 83-99 - _input, _wire, _system_io. *)
  Definition system_io : string :=
    let flat n := toFlatname (toTermname_list [topmodule; n]) in
    "input " ++ clock ++ nl ";" ++ "input " ++ reset ++ nl ";" ++ "input " ++ enable ++ nl ";" ++
    "wire " ++ flat clock ++ nl ";" ++ "wire " ++ flat reset ++ nl ";" ++
    "assign " ++ flat clock ++ " = " ++ clock ++ nl ";" ++ "assign " ++ flat reset ++ " = " ++ reset ++ nl ";" ++ nl "".
  (** 131-138 *)
  Fixpoint declarations (l : list (chain * term)) : res string :=
    match l with
    | [] => Ok ""
    | (n, t) :: r =>
        do ty <- getTermtype n;
        do x <- (if is_system n ty then Ok "" else term_tocode t);
        do y <- declarations r; Ok (x ++ y)
    end.
  Fixpoint texts (l : list bind_) : res string :=
    match l with [] => Ok "" | b :: r => do x <- bind_tocode b; do y <- texts r; Ok (x ++ y) end.
  Definition bind_sets (d : ndict (list bind_)) : list bind_ := flat_map (fun x => order (snd x)) d.
  (** re.sub('\.', '_', ret) *)
  Fixpoint undot (s : string) : string :=
    match s with "" => "" | String c r => String (if ceqb c "." then "_"%char else c) (undot r) end.
  (** 123-171 - _toCode. *)
  Definition toCode (p : parts) : res string :=
    do h <- modulehead (p_terms p);
    do d <- declarations (p_terms p);
    do x <- texts (map snd (p_parameter p));
    do y <- texts (bind_sets (p_assign p));
    do z <- texts (bind_sets (p_clockedge p));
    do w <- texts (bind_sets (p_combination p));
    let ret := h ++ system_io ++ d ++ x ++ y ++ z ++ w ++ nl (nl "" ++ "endmodule") in
    Ok (if flat then undot ret else ret).
  (** 117-121 - generateEntireCode. *)
  Definition generateEntireCode (resolved : ndict (list bind_)) : res string := do p <- getEntire resolved; toCode p.
  (** 112-116 - generateSubsetCode; the order of the sets of names is a parameter too. *)
  Definition generateSubsetCode (binds : ndict (list bind_)) (names : list chain -> list chain) (fuel : nat) (targets : list string) : res string :=
    do x <- getBindSourceSubset terms binds topmodule clock names fuel targets;
    do p <- discretion (fst x) (names (snd x)); toCode p.
End Generator.
