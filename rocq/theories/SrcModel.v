(** SrcModel.v - model of whole source files: vparser/parser.py:82-850, 1774-2225 (modules, ports, declarations,
    assignments, instances, generate, functions, tasks, pragmas) and ast_code_generator/codegen.py:112-190, 256-412,
    635-647, 844-1000 with the templates. *)
From Verif Require Import Base DfModel LexModel ExprModel ParseModel StmModel.
Require Import Coq.Strings.Ascii.
Local Open Scope string_scope.

(** ** Trees (vparser/ast.py:83-390, 700-720, 1000-1110, 1170-1240). Line numbers, the default net type (LexModel) and
    what an Instance repeats of its InstanceList are left out. No Dimensions is an empty list of Lengths. *)
Definition range := (expr * expr)%type.                                    (* Width, Length: msb, lsb *)
Inductive vkind := KInput | KOutput | KInout | KWire | KReg | KTri.
(** Members of a Decl. The width of an Integer, Real and Genvar is always [31:0]. *)
Inductive member :=
| MVar (k : vkind) (n : string) (w : option range) (sg : bool) (dims : list range)
| MSupply (one : bool) (n : string) (w : option range) (sg : bool)
| MInteger (n : string) (v : option expr)
| MReal (n : string)
| MGenvar (n : string)
| MParam (local : bool) (n : string) (v : expr) (w : option range) (sg : bool)
| MAssign (a : asg).
(** Instance: name, array, portlist of PortArg (portname, argname). *)
Record inst := Inst { i_name : string; i_array : option range; i_ports : list (option string * option expr) }.
Inductive sitem :=
| JDecl (l : list member)
| JAssign (a : asg)                                                        (* Assign with its delays *)
| JItem (i : item)
| JInst (m : string) (params : list (option string * expr)) (l : list inst)
| JFunc (n : string) (w : range) (decls : list (list member)) (s : stm)
| JTask (n : string) (decls : list (list member)) (s : stm)
| JPragma (n : string) (v : option expr)
| JGen (l : list sitem)
| JIf (c : expr) (t : sitem) (e : option sitem)
| JFor (pre : option asg) (c : option expr) (post : option asg) (b : sitem)
| JBlock (scope : option string) (l : list sitem).
(** Port, Ioport (first, second: name, width, sign and dimensions are those of both), or the None of parser.py:322. *)
Inductive port :=
| Port (n : string)
| Ioport (first : vkind) (second : option vkind) (n : string) (w : option range) (sg : bool) (dims : list range)
| NoPort.
Record vmodule := VModule { m_name : string; m_params : list (list member); m_ports : list port; m_items : list sitem }.
Inductive definition := DModule (m : vmodule) | DPragma (n : string) (v : option expr).

(** ** Text *)
(** codegen.py:179-197, 73-77 - Width, Length; Dimensions have no visit method: the Lengths one after the other. *)
Definition range_text (r : range) : string := gen_width (fst r) (snd r).
Definition dims_text (l : list range) : string := String.concat "" (map range_text l).
Definition kind_text (k : vkind) : string :=
  match k with KInput => "input" | KOutput => "output" | KInout => "inout" | KWire => "wire" | KReg => "reg" | KTri => "tri" end.
(** {% if signed %}signed {% endif %}{% if width != '' %}{{ width }} {% endif %} *)
Definition attr_text (sg : bool) (w : option range) : string :=
  (if sg then "signed " else "") ++ match w with Some w => range_text w ++ " " | None => "" end.
(** {{ name }}{% if dimensions != '' %} {{ dimensions }}{% endif %} *)
Definition name_text (n : string) (dims : list range) : string :=
  escape n ++ match dims with [] => "" | _ => " " ++ dims_text dims end.
(** codegen.py:635-647; assign.txt. The delays are not written. *)
Definition gen_assign (a : asg) : string :=
  indent_multiline_assign ("assign " ++ gen_rvalue (a_left a) ++ " = " ++ gen_rvalue (a_right a) ++ ";").
(** codegen.py:268-366, 380-403; input.txt ... localparam.txt. The value of an Integer is not written. There is no
    visit_Supply: its children, value and width. (Values that are strings are not modelled.) *)
Definition gen_member (m : member) : string :=
  match m with
  | MVar k n w sg dims => kind_text k ++ " " ++ attr_text sg w ++ name_text n dims ++ ";"
  | MSupply one _ w _ => (if one then "1" else "0") ++ match w with Some w => range_text w | None => "" end
  | MInteger n _ => "integer " ++ escape n ++ ";"
  | MReal n => "real " ++ escape n ++ ";"
  | MGenvar n => "genvar " ++ escape n ++ ";"
  | MParam local n v w sg => (if local then "localparam " else "parameter ") ++ attr_text sg w ++ escape n ++ " = " ++ gen_rvalue v ++ ";"
  | MAssign a => gen_assign a
  end.
(** codegen.py:405-412; decl.txt: the members one after the other. *)
Definition gen_decl (l : list member) : string := String.concat "" (map gen_member l).
(** codegen.py:872-890; paramarg.txt, portarg.txt. *)
Definition gen_param_arg (x : option string * expr) : string :=
  match fst x with Some n => "." ++ escape n ++ "(" ++ gen_rvalue (snd x) ++ ")" | None => gen_rvalue (snd x) end.
Definition gen_port_arg (x : option string * option expr) : string :=
  let arg := match snd x with Some e => gen_rvalue e | None => "" end in
  match fst x with Some n => "." ++ escape n ++ "(" ++ arg ++ ")" | None => arg end.
(** "{% for x in l %}\n{{ x }}{%- if loop.index < len -%},\n{%- endif -%}{% endfor %}" *)
Fixpoint rows (l : list string) : string :=
  match l with [] => "" | [x] => String NL x | x :: r => String NL (x ++ "," ++ rows r) end.
(** codegen.py:858-870; instance.txt. *)
Definition gen_inst (i : inst) : string :=
  escape (i_name i) ++ match i_array i with Some w => range_text w | None => "" end ++ String NL "(" ++
  rows (map (fun x => indent "  " (gen_port_arg x)) (i_ports i)) ++ String NL ")".
(** codegen.py:844-856; instancelist.txt. *)
Definition gen_insts (m : string) (params : list (option string * expr)) (l : list inst) : string :=
  String NL (escape m ++
    match params with [] => "" | _ => String NL "#(" ++ rows (map (fun x => indent "  " (gen_param_arg x)) params) ++ String NL ")" end ++
    rows (map gen_inst l) ++ ";" ++ String NL "").
(** codegen.py:966-980; pragma.txt, pragmaentry.txt. *)
Definition gen_pragma (n : string) (v : option expr) : string :=
  "(* " ++ escape n ++ match v with Some v => " = " ++ gen v | None => "" end ++ " *)".
(** codegen.py:718-748, 789-797, 892-900, 914-921, 935-942; function.txt, task.txt, generatestatement.txt and the
    templates of if, for and block. *)
Fixpoint gen_sitem (x : sitem) : string :=
  match x with
  | JDecl l => gen_decl l
  | JAssign a => gen_assign a
  | JItem i => gen_item i
  | JInst m params l => gen_insts m params l
  | JFunc n w decls s =>
      String NL ("function " ++ range_text w ++ " " ++ escape n ++ ";" ++
        lines (map (indent "  ") (map gen_decl decls ++ [gen_stm s])%list) ++ String NL ("endfunction" ++ String NL ""))
  | JTask n decls s =>
      String NL ("task " ++ escape n ++ ";" ++
        lines (map (indent "  ") (map gen_decl decls ++ [gen_stm s])%list) ++ String NL ("endtask" ++ String NL ""))
  | JPragma n v => gen_pragma n v
  | JGen l => String NL ("generate " ++ String.concat "" (map gen_sitem l) ++ String NL ("endgenerate" ++ String NL ""))
  | JIf c t e => if_text (del_paren (gen c)) (gen_sitem t) (match e with None => "" | Some e => gen_sitem e end)
  | JFor pre c post b =>
      "for(" ++ match pre with None => "" | Some a => del_space (gen_asg false a) end ++ " " ++
      match c with None => "" | Some c => del_space (del_paren (gen c)) end ++ "; " ++
      match post with None => "" | Some a => del_space (del_semicolon (gen_asg false a)) end ++ ") " ++ gen_sitem b
  | JBlock scope l => "begin" ++ scope_text scope ++ lines (map (fun x => indent "  " (gen_sitem x)) l) ++ String NL "end"
  end.
(** codegen.py:168-174, 368-379; port.txt, ioport.txt. *)
Definition gen_port (p : port) : string :=
  match p with
  | Port n => escape n
  | Ioport first second n w sg dims =>
      kind_text first ++ " " ++ match second with Some k => kind_text k ++ " " | None => "" end ++ attr_text sg w ++ name_text n dims
  | NoPort => ""
  end.
(** paramlist.txt, portlist.txt: separated by ",\n". *)
Fixpoint sep_rows (l : list string) : string :=
  match l with [] => "" | [x] => x | x :: r => x ++ "," ++ String NL (sep_rows r) end.
(** codegen.py:133-166; moduledef.txt. *)
Definition gen_module (m : vmodule) : string :=
  let params := indent "  " (sep_rows (map (fun d => del_semicolon (gen_decl d)) (m_params m))) in
  let ports := indent "  " (sep_rows (map gen_port (m_ports m))) in
  String NL ("module " ++ escape (m_name m) ++
    (if String.eqb params "" then "" else " #" ++ String NL ("(" ++ String NL (params ++ String NL ")"))) ++
    String NL ("(" ++ String NL (ports ++ String NL (");" ++ String NL (String NL (
    String.concat "" (map (fun x => indent "  " (gen_sitem x) ++ String NL "") (m_items m)) ++
    String NL ("endmodule" ++ String NL ""))))))).
Definition gen_definition (d : definition) : string := match d with DModule m => gen_module m | DPragma n v => gen_pragma n v end.
(** codegen.py:112-131; description.txt, source.txt. *)
Definition gen_source (l : list definition) : string :=
  String.concat "" (map (fun d => String NL (gen_definition d ++ String NL "")) l).
(** Printing fails on the trees of unique case (StmModel) and on a missing port: None has no children. *)
Fixpoint fails (x : sitem) : bool :=
  match x with
  | JItem i => has_unique (match i with IAlways _ _ s | IInitial s => s end)
  | JFunc _ _ _ s | JTask _ _ s => has_unique s
  | JGen l | JBlock _ l => existsb fails l
  | JIf _ t e => fails t || match e with Some e => fails e | None => false end
  | JFor _ _ _ b => fails b
  | _ => false
  end.
Definition def_fails (d : definition) : bool :=
  match d with
  | DModule m => existsb (fun p => match p with NoPort => true | _ => false end) (m_ports m) || existsb fails (m_items m)
  | DPragma _ _ => false
  end.
Definition code_source (l : list definition) : res string := if existsb def_fails l then Err AttributeError else Ok (gen_source l).

(** ** Parsing, in the style of StmModel. *)
(** parser.py:440-465 - width and length; dimensions. *)
Definition p_range (n : nat) (l : list token) : res (range * list token) :=
  do r <- expect (is_p LBRACKET) l; do a <- p_expr n r; do r <- expect (is_p COLON) (snd a); do b <- p_expr n r;
  do r <- expect (is_p RBRACKET) (snd b); Ok ((fst a, fst b), r).
Definition p_range_opt (n : nat) (l : list token) : res (option range * list token) :=
  match l with P LBRACKET :: _ => do x <- p_range n l; Ok (Some (fst x), snd x) | _ => Ok (None, l) end.
Fixpoint p_dims (fuel : nat) (acc : list range) (l : list token) : res (list range * list token) :=
  match fuel with
  | O => Err OutOfFuel
  | S n => match l with P LBRACKET :: _ => do x <- p_range n l; p_dims n (acc ++ [fst x])%list (snd x) | _ => Ok (acc, l) end
  end.
Definition p_id (l : list token) : res (string * list token) := match l with ID s :: r => Ok (s, r) | _ => Err ParseError end.
(** parser.py:262-309 - sigtypes. *)
Definition sigtype (t : token) : option string :=
  match t with
  | KW s => if existsb (String.eqb s) ["input"; "output"; "inout"; "tri"; "reg"; "logic"; "wire"; "signed"; "supply0"; "supply1"] then Some s else None
  | _ => None
  end.
Fixpoint p_sigtypes (l : list token) : list string * list token :=
  match l with
  | t :: r => match sigtype t with Some s => let x := p_sigtypes r in (s :: fst x, snd x) | None => ([], l) end
  | [] => ([], [])
  end.
Definition has (s : string) (l : list string) : bool := existsb (String.eqb s) l.
Definition both (a b : string) (l : list string) : bool := has a l && has b l.
(** parser.py:549-575 - typecheck_decl. *)
Definition decl_error (sg : list string) (dims : list range) : bool :=
  (has "supply0" sg || has "supply1" sg) && negb (match dims with [] => true | _ => false end) ||
  (Nat.eqb (length sg) 1 && has "signed" sg) ||
  both "input" "output" sg || both "inout" "output" sg || both "inout" "input" sg || both "input" "reg" sg || both "inout" "reg" sg ||
  both "input" "tri" sg || both "output" "tri" sg.
(** parser.py:515-547 - create_decl. *)
Definition create_decl (sg : list string) (n : string) (w : option range) (dims : list range) : res (list member) :=
  if decl_error sg dims then Err ParseError else
  let signed := has "signed" sg in
  let var s k := if has s sg then [MVar k n w signed dims] else [] in
  Ok (var "input" KInput ++ var "output" KOutput ++ var "inout" KInout ++ var "wire" KWire ++ var "reg" KReg ++ var "tri" KTri ++
      (if has "supply0" sg then [MSupply false n w signed] else []) ++ (if has "supply1" sg then [MSupply true n w signed] else []))%list.
(** parser.py:641-666 - typecheck_declassign. *)
Definition declassign_error (sg : list string) : bool :=
  (Nat.eqb (length sg) 1 && has "signed" sg) || negb (has "reg" sg || has "wire" sg) ||
  both "input" "output" sg || both "inout" "output" sg || both "inout" "input" sg || both "input" "reg" sg || both "inout" "reg" sg ||
  (has "supply0" sg || has "supply1" sg) && negb (Nat.eqb (length sg) 1).
(** parser.py:614-639, 684-690 - create_declassign, declassign_element. *)
Definition create_declassign (sg : list string) (n : string) (w : option range) (e : expr) : res (list member) :=
  if declassign_error sg then Err ParseError else
  let signed := has "signed" sg in
  let var s k := if has s sg then [MVar k n w signed []] else [] in
  Ok (var "input" KInput ++ var "output" KOutput ++ var "inout" KInout ++ var "wire" KWire ++ var "reg" KReg ++
      [MAssign (Asg (XId n) e None None)])%list.
(** parser.py:577-612 - decl, declnamelist, declname, up to the semicolon. *)
Fixpoint p_declnames (fuel : nat) (sg : list string) (w : option range) (acc : list member) (l : list token) : res (list member * list token) :=
  match fuel with
  | O => Err OutOfFuel
  | S n =>
      do x <- p_id l; do d <- p_dims n [] (snd x);
      match snd d with
      | P COMMA :: r => do m <- create_decl sg (fst x) w (fst d); p_declnames n sg w (acc ++ m)%list r
      | P SEMICOLON :: r => do m <- create_decl sg (fst x) w (fst d); Ok ((acc ++ m)%list, r)
      | _ => Err ParseError
      end
  end.
(** parser.py:668-699 - declassign. With a delay, the declared name is the delay (line 699), which is not modelled. *)
Definition p_decl (assigns : bool) (n : nat) (l : list token) : res (list member * list token) :=
  let (sg, r) := p_sigtypes l in
  do w <- p_range_opt n r;
  match snd w with
  | ID s :: P EQUALS :: r =>
      if assigns then
        do e <- p_expr n r; do r <- expect (is_p SEMICOLON) (snd e); do m <- create_declassign sg s (fst w) (fst e); Ok (m, r)
      else Err ParseError
  | P DELAY :: _ => if assigns then Err Unmodelled else Err ParseError
  | r => p_declnames n sg (fst w) [] r
  end.
(** parser.py:702-745 - integerdecl. After "integer signed" the names are taken from the word "signed" (line 722):
    its characters cannot be unpacked. *)
Fixpoint p_integers (fuel : nat) (acc : list member) (l : list token) : res (list member * list token) :=
  match fuel with
  | O => Err OutOfFuel
  | S n =>
      do x <- p_id l;
      do v <- match snd x with P EQUALS :: r => do e <- p_expr n r; Ok (Some (fst e), snd e) | r => Ok (None, r) end;
      let m := MInteger (fst x) (fst v) in
      match snd v with
      | P COMMA :: r => p_integers n (acc ++ [m])%list r
      | P SEMICOLON :: r => Ok ((acc ++ [m])%list, r)
      | _ => Err ParseError
      end
  end.
Definition p_integerdecl (n : nat) (l : list token) : res (list member * list token) :=
  match l with
  | KW s :: r => if String.eqb s "signed" then do x <- p_integers n [] r; Err ValueError else Err ParseError
  | _ => p_integers n [] l
  end.
(** Names separated by commas, and a semicolon. *)
Fixpoint p_names (acc : list string) (l : list token) : res (list string * list token) :=
  match l with
  | ID s :: P COMMA :: r => p_names (acc ++ [s])%list r
  | ID s :: P SEMICOLON :: r => Ok ((acc ++ [s])%list, r)
  | _ => Err ParseError
  end.
(** parser.py:748-770 - realdecl: each name becomes "real" (line 751). 2004-2025 - genvardecl. *)
Definition p_realdecl (l : list token) : res (list member * list token) :=
  do x <- p_names [] l; Ok (map (fun _ => MReal "real") (fst x), snd x).
Definition p_genvardecl (l : list token) : res (list member * list token) :=
  do x <- p_names [] l; Ok (map MGenvar (fst x), snd x).
(** parser.py:773-838 - parameters: the words before the names; param_substitution_list. *)
Definition p_param_head (n : nat) (l : list token) : res (bool * option range * list token) :=
  match l with
  | t :: r =>
      if is_kw "integer" t then Ok (false, None, r)
      else if is_kw "signed" t then do w <- p_range_opt n r; Ok (true, fst w, snd w)
      else do w <- p_range_opt n l; Ok (false, fst w, snd w)
  | [] => Err ParseError
  end.
Fixpoint p_substs (fuel : nat) (mk : string -> expr -> member) (acc : list member) (l : list token) : res (list member * list token) :=
  match fuel with
  | O => Err OutOfFuel
  | S n =>
      do x <- p_id l; do r <- expect (is_p EQUALS) (snd x); do e <- p_expr n r;
      let acc := (acc ++ [mk (fst x) (fst e)])%list in
      match snd e with
      | P COMMA :: KW s :: _ => Ok (acc, snd e)                                  (* the comma of param *)
      | P COMMA :: r => p_substs n mk acc r
      | _ => Ok (acc, snd e)
      end
  end.
Definition p_parameters (local : bool) (n : nat) (l : list token) : res (list member * list token) :=
  do h <- p_param_head n l; p_substs n (fun s e => MParam local s e (snd (fst h)) (fst (fst h))) [] (snd h).
Definition p_paramdecl (local : bool) (n : nat) (l : list token) : res (list member * list token) :=
  do x <- p_parameters local n l; do r <- expect (is_p SEMICOLON) (snd x); Ok (fst x, r).
(** parser.py:146-225 - paramlist, params. *)
Fixpoint p_params (fuel : nat) (acc : list (list member)) (l : list token) : res (list (list member) * list token) :=
  match fuel with
  | O => Err OutOfFuel
  | S n =>
      do r <- expect (is_kw "parameter") l; do x <- p_parameters false n r;
      let acc := (acc ++ [fst x])%list in
      match snd x with
      | P COMMA :: r => p_params n acc r
      | P RPAREN :: r => Ok (acc, r)
      | _ => Err ParseError
      end
  end.
Definition p_paramlist (n : nat) (l : list token) : res (list (list member) * list token) :=
  match l with P DELAY :: r => do r <- expect (is_p LPAREN) r; p_params n [] r | _ => Ok ([], l) end.
(** parser.py:344-405 - create_ioport, typecheck_ioport. *)
Definition ioport_error (sg : list string) : bool :=
  negb (has "input" sg || has "output" sg || has "inout" sg) ||
  both "input" "output" sg || both "inout" "output" sg || both "inout" "input" sg || both "input" "reg" sg || both "inout" "reg" sg ||
  both "input" "tri" sg || both "output" "tri" sg.
Definition create_ioport (sg : list string) (n : string) (w : option range) (dims : list range) : res port :=
  if ioport_error sg then Err ParseError else
  let first := if has "inout" sg then KInout else if has "output" sg then KOutput else KInput in
  let second := if has "tri" sg then Some KTri else if has "reg" sg then Some KReg else if has "wire" sg then Some KWire else None in
  Ok (Ioport first second n w (has "signed" sg) dims).
(** parser.py:408-438 - ioport, ioport_head. *)
Definition p_ioport (n : nat) (l : list token) : res (port * list token) :=
  let (sg, r) := p_sigtypes l in
  do w <- p_range_opt n r; do x <- p_id (snd w);
  match fst w with
  | None => do p <- create_ioport sg (fst x) None []; Ok (p, snd x)
  | Some _ => do d <- p_dims n [] (snd x); do p <- create_ioport sg (fst x) (fst w) (fst d); Ok (p, snd d)
  end.
(** parser.py:311-337 - ioports: a bare name takes over from the last port that is an input, an inout, or an output
    without net type or with reg; the sign and the dimensions are dropped. *)
Fixpoint inherit (n : string) (l : list port) : res port :=
  match l with
  | [] => Ok NoPort
  | Ioport KInput _ _ w _ _ :: _ => Ok (Ioport KInput None n w false [])
  | Ioport KOutput None _ w _ _ :: _ => Ok (Ioport KOutput None n w false [])
  | Ioport KOutput (Some KReg) _ w _ _ :: _ => Ok (Ioport KOutput (Some KReg) n w false [])
  | Ioport KInout _ _ w _ _ :: _ => Ok (Ioport KInout None n w false [])
  | Ioport _ _ _ _ _ _ :: r => inherit n r
  | _ :: r => Err AttributeError                                                 (* None.first *)
  end.
Fixpoint p_ioports (fuel : nat) (acc : list port) (l : list token) : res (list port * list token) :=
  match fuel with
  | O => Err OutOfFuel
  | S n =>
      match l with
      | P RPAREN :: r => Ok (acc, r)
      | P COMMA :: ID s :: r => do p <- inherit s (rev acc); p_ioports n (acc ++ [p])%list r
      | P COMMA :: r => do p <- p_ioport n r; p_ioports n (acc ++ [fst p])%list (snd p)
      | _ => Err ParseError
      end
  end.
Fixpoint p_ports (acc : list port) (l : list token) : res (list port * list token) :=
  match l with
  | P COMMA :: ID s :: r => p_ports (acc ++ [Port s])%list r
  | P RPAREN :: r => Ok (acc, r)
  | _ => Err ParseError
  end.
(** parser.py:228-260 - portlist. *)
Definition p_portlist (n : nat) (l : list token) : res (list port * list token) :=
  match l with
  | P SEMICOLON :: r => Ok ([], r)
  | P LPAREN :: P RPAREN :: r => do r <- expect (is_p SEMICOLON) r; Ok ([], r)
  | P LPAREN :: ID s :: r => do x <- p_ports [Port s] r; do r <- expect (is_p SEMICOLON) (snd x); Ok (fst x, r)
  | P LPAREN :: r => do p <- p_ioport n r; do x <- p_ioports n [fst p] (snd p); do r <- expect (is_p SEMICOLON) (snd x); Ok (fst x, r)
  | _ => Err ParseError
  end.
(** parser.py:839-850 - assignment: without delays, or with one on the left. *)
Definition p_assignment (n : nat) (l : list token) : res (asg * list token) :=
  match l with
  | P DELAY :: _ =>
      do d <- p_delays n l; do x <- p_lvalue n (snd d); do r <- expect (is_p EQUALS) (snd x); do d2 <- p_delays n r; do e <- p_expr n (snd d2);
      do r <- expect (is_p SEMICOLON) (snd e); Ok (Asg (fst x) (fst e) (fst d) (fst d2), r)
  | _ =>
      do x <- p_lvalue n l; do r <- expect (is_p EQUALS) (snd x); do e <- p_expr n r; do r <- expect (is_p SEMICOLON) (snd e);
      Ok (Asg (fst x) (fst e) None None, r)
  end.
(** parser.py:1860-2000 - the arguments of instances, up to the closing parenthesis. A list may begin with a comma: it
    is read as the empty list and a comma. *)
Definition p_named (n : nat) (l : list token) : res ((option string * option expr) * list token) :=
  do r <- expect (is_p DOT) l; do x <- p_id r; do r <- expect (is_p LPAREN) (snd x);
  match r with
  | P RPAREN :: r => Ok ((Some (fst x), None), r)
  | _ => do e <- p_expr n r; do r <- expect (is_p RPAREN) (snd e); Ok ((Some (fst x), Some (fst e)), r)
  end.
Definition p_unnamed (n : nat) (l : list token) : res ((option string * option expr) * list token) :=
  do e <- p_expr n l; Ok ((None, Some (fst e)), snd e).
Fixpoint p_args (one : list token -> res ((option string * option expr) * list token)) (fuel : nat) (acc : list (option string * option expr)) (l : list token) : res (list (option string * option expr) * list token) :=
  match fuel with
  | O => Err OutOfFuel
  | S n =>
      match l with
      | P RPAREN :: r => Ok (acc, r)
      | P COMMA :: r => do x <- one r; p_args one n (acc ++ [fst x])%list (snd x)
      | _ => Err ParseError
      end
  end.
Definition p_port_args (n : nat) (l : list token) : res (list (option string * option expr) * list token) :=
  match l with
  | P RPAREN :: _ | P COMMA :: _ => p_args (p_unnamed n) n [] l
  | P DOT :: _ => do x <- p_named n l; p_args (p_named n) n [fst x] (snd x)
  | _ => do x <- p_unnamed n l; p_args (p_unnamed n) n [fst x] (snd x)
  end.
(** A parameter has an expression. *)
Definition p_named_param (n : nat) (l : list token) : res ((option string * option expr) * list token) :=
  do x <- p_named n l; match snd (fst x) with Some _ => Ok x | None => Err ParseError end.
Definition p_param_args (n : nat) (l : list token) : res (list (option string * option expr) * list token) :=
  match l with
  | P RPAREN :: _ | P COMMA :: _ => p_args (p_named_param n) n [] l
  | P DOT :: _ => do x <- p_named_param n l; p_args (p_named_param n) n [fst x] (snd x)
  | _ => do x <- p_unnamed n l; p_args (p_unnamed n) n [fst x] (snd x)
  end.
Definition param_of (x : option string * option expr) : option string * expr := (fst x, match snd x with Some e => e | None => XId "" end).
(** parser.py:1774-1857 - instance_bodylist, instance_bodylist_noname, up to the semicolon. *)
Definition p_body (named : bool) (n : nat) (l : list token) : res (inst * list token) :=
  do x <- (if named then p_id l else Ok ("", l)); do w <- (if named then p_range_opt n (snd x) else Ok (None, snd x));
  do r <- expect (is_p LPAREN) (snd w); do p <- p_port_args n r; Ok (Inst (fst x) (fst w) (fst p), snd p).
Fixpoint p_bodies (named : bool) (fuel : nat) (acc : list inst) (l : list token) : res (list inst * list token) :=
  match fuel with
  | O => Err OutOfFuel
  | S n =>
      do x <- p_body named n l;
      let acc := (acc ++ [fst x])%list in
      match snd x with
      | P COMMA :: r => p_bodies named n acc r
      | P SEMICOLON :: r => Ok (acc, r)
      | _ => Err ParseError
      end
  end.
Definition p_instance (m : string) (n : nat) (l : list token) : res (sitem * list token) :=
  match l with
  | P LPAREN :: _ => do x <- p_bodies false n [] l; Ok (JInst m [] (fst x), snd x)
  | P DELAY :: r =>
      do r <- expect (is_p LPAREN) r; do a <- p_param_args n r; do x <- p_bodies true n [] (snd a); Ok (JInst m (map param_of (fst a)) (fst x), snd x)
  | _ => do x <- p_bodies true n [] l; Ok (JInst m [] (fst x), snd x)
  end.
(** parser.py:2130-2151, 2190-2207 - funcvardecl, taskvardecl: inputs, registers and integers. *)
Definition func_member (m : member) : bool :=
  match m with MVar KInput _ _ _ _ | MVar KReg _ _ _ _ | MInteger _ _ => true | _ => false end.
Definition starts_decl (l : list token) : bool :=
  match l with t :: _ => is_kw "integer" t || match sigtype t with Some _ => true | None => false end | [] => false end.
Definition p_funcvar (n : nat) (l : list token) : res (list member * list token) :=
  do x <- match l with t :: r => if is_kw "integer" t then p_integerdecl n r else p_decl false n l | [] => Err ParseError end;
  if forallb func_member (fst x) then Ok x else Err ParseError.
Fixpoint p_funcvars (fuel : nat) (acc : list (list member)) (l : list token) : res (list (list member) * list token) :=
  match fuel with
  | O => Err OutOfFuel
  | S n => if starts_decl l then do x <- p_funcvar n l; p_funcvars n (acc ++ [fst x])%list (snd x) else Ok (acc, l)
  end.
(** parser.py:2153-2165, 2209-2221 - function_calc, task_calc. *)
Definition calc (s : stm) : bool :=
  match s with
  | TAsg false _ | TIf _ _ _ | TFor _ _ _ _ | TWhile _ _ | TCase KCase _ _ | TCase KCasex _ _ | TCase KCasez _ _ | TBlock _ _ => true
  | _ => false
  end.
Definition p_calc (n : nat) (l : list token) : res (stm * list token) :=
  do s <- p_stm n l; if calc (fst s) then Ok s else Err ParseError.
(** parser.py:2096-2128 - function: without a width it is [0:0], integer is [31:0]. *)
Definition p_function (n : nat) (l : list token) : res (sitem * list token) :=
  do w <- match l with
          | P LBRACKET :: _ => p_range n l
          | t :: r => if is_kw "integer" t then Ok ((XInt "31", XInt "0"), r) else Ok ((XInt "0", XInt "0"), l)
          | [] => Err ParseError
          end;
  do x <- p_id (snd w); do r <- expect (is_p SEMICOLON) (snd x); do d <- p_funcvars n [] r;
  match fst d with
  | [] => Err ParseError
  | _ => do s <- p_calc n (snd d); do r <- expect (is_kw "endfunction") (snd s); Ok (JFunc (fst x) (fst w) (fst d) (fst s), r)
  end.
(** parser.py:2181-2190 - task. *)
Definition p_task (n : nat) (l : list token) : res (sitem * list token) :=
  do x <- p_id l; do r <- expect (is_p SEMICOLON) (snd x); do d <- p_funcvars n [] r; do s <- p_calc n (snd d);
  do r <- expect (is_kw "endtask") (snd s); Ok (JTask (fst x) (fst d) (fst s), r).
(** parser.py:110-122 - pragma, after the parenthesis: the value ends where "*" and ")" follow; as an operator "*" is
    shifted in both cases. *)
Fixpoint pragma_run (fuel : nat) (c : config) : res (expr * list token) :=
  match fuel with
  | O => Err OutOfFuel
  | S n =>
      match c with
      | ([SE e], P TIMES :: P RPAREN :: r) => Ok (e, r)
      | _ => match step c with Some c' => pragma_run n c' | None => Err ParseError end
      end
  end.
Definition p_pragma (n : nat) (l : list token) : res ((string * option expr) * list token) :=
  match l with
  | P TIMES :: ID s :: P TIMES :: P RPAREN :: r => Ok ((s, None), r)
  | P TIMES :: ID s :: P EQUALS :: r => do x <- pragma_run n ([], r); Ok ((s, Some (fst x)), snd x)
  | _ => Err ParseError
  end.
(** parser.py:485-512 - standard_item. *)
Definition decl_of (x : res (list member * list token)) : res (sitem * list token) := do x <- x; Ok (JDecl (fst x), snd x).
Definition p_standard (n : nat) (l : list token) : res (sitem * list token) :=
  match l with
  | ID m :: r => p_instance m n r
  | P LPAREN :: r => do x <- p_pragma n r; Ok (JPragma (fst (fst x)) (snd (fst x)), snd x)
  | t :: r =>
      if is_kw "or" t then p_instance "or" n r
      else match sigtype t with Some _ => decl_of (p_decl true n l) | None =>
      if is_kw "integer" t then decl_of (p_integerdecl n r)
      else if is_kw "real" t then decl_of (p_realdecl r)
      else if is_kw "parameter" t then decl_of (p_paramdecl false n r)
      else if is_kw "localparam" t then decl_of (p_paramdecl true n r)
      else if is_kw "genvar" t then decl_of (p_genvardecl r)
      else if is_kw "assign" t then do a <- p_assignment n r; Ok (JAssign (fst a), snd a)
      else if is_kw "function" t then p_function n r
      else if is_kw "task" t then p_task n r
      else do i <- p_item n l; Ok (JItem (fst i), snd i)
      end
  | [] => Err ParseError
  end.
(** parser.py:2027-2094 - generate_item, generate_block, generate_if, generate_for. *)
Definition r_content (items : list sitem -> list token -> res (list sitem * list token)) (one : list token -> res (sitem * list token)) (l : list token) : res (sitem * list token) :=
  match l with
  | t :: r =>
      if is_kw "begin" t then
        match r with
        | P COLON :: r => do x <- p_id r; do b <- items [] (snd x); Ok (JBlock (Some (fst x)) (fst b), snd b)
        | _ => do b <- items [] r; Ok (JBlock None (fst b), snd b)
        end
      else one l
  | [] => Err ParseError
  end.
Definition r_gitem (n : nat) (content : list token -> res (sitem * list token)) (l : list token) : res (sitem * list token) :=
  match l with
  | t :: r =>
      if is_kw "if" t then
        do c <- p_paren n r; do x <- content (snd c);
        match snd x with
        | w :: r => if is_kw "else" w then do y <- content r; Ok (JIf (fst c) (fst x) (Some (fst y)), snd y) else Ok (JIf (fst c) (fst x) None, snd x)
        | [] => Ok (JIf (fst c) (fst x) None, [])
        end
      else if is_kw "for" t then
        do r <- expect (is_p LPAREN) r; do x <- p_forpre n r; do c <- p_forcond n (snd x); do y <- p_forpost n (snd c);
        do r <- expect (is_p RPAREN) (snd y); do b <- content r; Ok (JFor (fst x) (fst c) (fst y) (fst b), snd b)
      else p_standard n l
  | [] => Err ParseError
  end.
Fixpoint p_gitem (fuel : nat) (l : list token) {struct fuel} : res (sitem * list token) :=
  match fuel with
  | O => Err OutOfFuel
  | S n => r_gitem n (r_content (p_gitems n "end") (p_gitem n)) l
  end
with p_gitems (fuel : nat) (close : string) (acc : list sitem) (l : list token) {struct fuel} : res (list sitem * list token) :=
  match fuel with
  | O => Err OutOfFuel
  | S n =>
      match l with
      | t :: r => if is_kw close t then Ok (acc, r) else do x <- p_gitem n l; p_gitems n close (acc ++ [fst x])%list (snd x)
      | [] => Err ParseError
      end
  end.
(** parser.py:466-483 - items, item. *)
Fixpoint p_mitems (fuel : nat) (acc : list sitem) (l : list token) : res (list sitem * list token) :=
  match fuel with
  | O => Err OutOfFuel
  | S n =>
      match l with
      | t :: r =>
          if is_kw "endmodule" t then Ok (acc, r)
          else if is_kw "generate" t then do x <- p_gitems n "endgenerate" [] r; p_mitems n (acc ++ [JGen (fst x)])%list (snd x)
          else do x <- p_standard n l; p_mitems n (acc ++ [fst x])%list (snd x)
      | [] => Err ParseError
      end
  end.
(** parser.py:125-144 - moduledef, modulename. *)
Definition p_module (n : nat) (l : list token) : res (vmodule * list token) :=
  do x <- match l with ID s :: r => Ok (s, r) | t :: r => if is_kw "or" t then Ok ("or", r) else Err ParseError | [] => Err ParseError end;
  do a <- p_paramlist n (snd x); do p <- p_portlist n (snd a); do i <- p_mitems n [] (snd p);
  Ok (VModule (fst x) (fst a) (fst p) (fst i), snd i).
(** parser.py:82-108 - source_text, description, definitions, definition. *)
Definition p_definition (n : nat) (l : list token) : res (definition * list token) :=
  match l with
  | P LPAREN :: r => do x <- p_pragma n r; Ok (DPragma (fst (fst x)) (snd (fst x)), snd x)
  | t :: r => if is_kw "module" t then do x <- p_module n r; Ok (DModule (fst x), snd x) else Err ParseError
  | [] => Err ParseError
  end.
Fixpoint p_definitions (fuel : nat) (acc : list definition) (l : list token) : res (list definition) :=
  match fuel with
  | O => Err OutOfFuel
  | S n =>
      do x <- p_definition n l;
      let acc := (acc ++ [fst x])%list in
      match snd x with [] => Ok acc | r => p_definitions n acc r end
  end.
(** VerilogParser.parse(text) *)
Definition parse_source (fuel : nat) (s : string) : res (list definition) := do l <- lex 1 s; p_definitions fuel [] (map lt_tok (l_tokens l)).
