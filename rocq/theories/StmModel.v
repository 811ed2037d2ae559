(** StmModel.v - model of the statements: ast_code_generator/codegen.py:648-842, 950-960, 1001-1027 with
    the templates, and the statement rules of vparser/parser.py:852-946, 1300-1770, 2252-2277. *)
From Verif Require Import Base DfModel LexModel ExprModel ParseModel.
Require Import Coq.Strings.Ascii.
Local Open Scope string_scope.

(** ** Trees (vparser/ast.py:721-1000, 1243-1280). Line numbers are left out, and so are declarations in
    named blocks. A Concat on the left of an assignment stands for an LConcat. *)
Inductive edge := Posedge | Negedge | Level.
(** Sens: type 'all' with sig None, or a signal. *)
Inductive sensitem := SAll | SSig (k : edge) (e : expr).
(** BlockingSubstitution and NonblockingSubstitution: left, right, ldelay, rdelay (of the DelayStatements, the delay). *)
Record asg := Asg { a_left : expr; a_right : expr; a_ldelay : option expr; a_rdelay : option expr }.
Inductive casekind := KCase | KCasex | KCasez | KUnique.
Inductive stm :=
| TAsg (nonblocking : bool) (a : asg)
| TIf (c : expr) (t : stm) (e : option stm)
| TFor (pre : option asg) (c : option expr) (post : option asg) (b : stm)
| TWhile (c : expr) (b : stm)
| TCase (k : casekind) (comp : expr) (items : list (option (list expr) * stm))
| TBlock (scope : option string) (l : list stm)
| TPar (scope : option string) (l : list stm)
| TEvent (l : list sensitem)
| TWait (c : expr) (b : option stm)
| TForever (b : stm)
| TDelay (e : expr)
| TSys (f : string) (l : list expr)
| TDisable (s : string)
(** UniqueCaseStatement('(', ')'): parser.py:1695 takes the parentheses for the expression and the cases. *)
| TUnique.
Inductive alwayskind := KAlways | KAlwaysFF | KAlwaysComb | KAlwaysLatch.
Inductive item := IAlways (k : alwayskind) (l : list sensitem) (s : stm) | IInitial (s : stm).

(** ** Text *)
(** codegen.py:35-50 - textwrap.indent: the prefix goes before each line that is not blank. Lines end at
    newlines; the other characters at which Python breaks lines do not occur in the texts. *)
Fixpoint blank_line (s : string) : bool :=
  match s with "" => true | String c r => ceqb c NL || is_space c && blank_line r end.
Fixpoint indent_go (pre : string) (bol : bool) (s : string) : string :=
  match s with
  | "" => ""
  | String c r => (if bol && negb (blank_line s) then pre else "") ++ String c (indent_go pre (ceqb c NL) r)
  end.
Definition indent (pre s : string) : string := indent_go pre true s.
(** codegen.py:53-64 - indent_multiline_assign. *)
Fixpoint index_eq (s : string) : option nat :=      (* texts[0].index('=') *)
  match s with "" => None | String c r => if ceqb c NL then None else if ceqb c "=" then Some 0 else match index_eq r with Some n => Some (S n) | None => None end end.
Fixpoint split_line (s : string) : string * option string :=
  match s with "" => ("", None) | String c r => if ceqb c NL then ("", Some r) else let (a, b) := split_line r in (String c a, b) end.
Fixpoint blanks (n : nat) : string := match n with O => "" | S n => String " " (blanks n) end.
Definition indent_multiline_assign (s : string) : string :=
  match split_line s with
  | (_, None) => s
  | (a, Some r) => match index_eq s with Some p => a ++ String NL (indent (blanks (p + 2)) r) | None => s end
  end.

(** codegen.py:836-842 - DelayStatement; as used in the templates of assignments: "{{ ldelay }} ". *)
Definition gen_delay (d : expr) : string := "#" ++ gen d.
Definition gen_delay_opt (d : option expr) : string := match d with None => "" | Some d => gen_delay d ++ " " end.
(** codegen.py:468-484, 692-716; blockingsubstitution.txt, nonblockingsubstitution.txt. LConcat is printed as Concat is. *)
Definition gen_asg (nonblocking : bool) (a : asg) : string :=
  indent_multiline_assign (gen_delay_opt (a_ldelay a) ++ gen_rvalue (a_left a) ++ (if nonblocking then " <= " else " = ") ++
                           gen_delay_opt (a_rdelay a) ++ gen_rvalue (a_right a) ++ ";").
(** codegen.py:658-677; sens.txt, senslist.txt. *)
Definition gen_sens (x : sensitem) : string :=
  match x with
  | SAll => "*"
  | SSig Posedge e => "posedge " ++ gen e
  | SSig Negedge e => "negedge " ++ gen e
  | SSig Level e => gen e
  end.
Fixpoint gen_senslist (l : list sensitem) : string := match l with [] => "" | [x] => gen_sens x | x :: r => gen_sens x ++ " or " ++ gen_senslist r end.
(** str.replace(';', '') *)
Fixpoint del_semicolon (s : string) : string := match s with "" => "" | String c r => if ceqb c ";" then del_semicolon r else String c (del_semicolon r) end.
(** ifstatement.txt: a blank after the true statement unless there is one, a line break if the true statement is
    one line and there is an else. (Newlines at the ends of template lines are removed by "{%-" and "-%}".) *)
Definition if_text (c t f : string) : string :=
  "if(" ++ c ++ ") " ++ t ++
  (match last_char t with Some d => if ceqb d " " || ceqb d NL then "" else " " | None => " " end) ++
  (if Nat.eqb (newlines t) 0 && negb (String.eqb f "") then String NL "" else "") ++
  (if String.eqb f "" then "" else "else " ++ f).
(** "{%- for x in l %}\n{{ x }}\n{%- endfor %}\n" *)
Definition lines (l : list string) : string := String.concat "" (map (fun s => String NL s) l).
Definition scope_text (scope : option string) : string := match scope with None => "" | Some s => " : " ++ escape s end.
(** codegen.py:773-787; case.txt. *)
Definition case_text (conds : option (list expr)) (body : string) : string :=
  match conds with None => "default" | Some l => join (map (fun c => del_paren (gen c)) l) end ++ ": " ++ body.
(** codegen.py:718-842, 950-960, 1001-1027 and templates. There are no visit_CasezStatement and
    visit_UniqueCaseStatement: generic_visit (lines 73-77) writes the children one after the other.
    disable.txt says "diable". *)
Fixpoint gen_stm (s : stm) : string :=
  match s with
  | TAsg nb a => gen_asg nb a
  | TIf c t e => if_text (del_paren (gen c)) (gen_stm t) (match e with None => "" | Some e => gen_stm e end)
  | TFor pre c post b =>
      "for(" ++ match pre with None => "" | Some a => del_space (gen_asg false a) end ++ " " ++
      match c with None => "" | Some c => del_space (del_paren (gen c)) end ++ "; " ++
      match post with None => "" | Some a => del_space (del_semicolon (gen_asg false a)) end ++ ") " ++ gen_stm b
  | TWhile c b => "while(" ++ del_paren (gen c) ++ ") " ++ gen_stm b
  | TCase k comp items =>
      let case (i : option (list expr) * stm) := case_text (fst i) (gen_stm (snd i)) in
      match k with
      | KCase => "case(" ++ del_paren (gen comp) ++ ")" ++ lines (map (fun i => indent "  " (case i)) items) ++ String NL "endcase"
      | KCasex => "casex(" ++ del_paren (gen comp) ++ ")" ++ lines (map (fun i => indent "  " (case i)) items) ++ String NL "endcase"
      | KCasez | KUnique => gen comp ++ String.concat "" (map case items)
      end
  | TBlock scope l => "begin" ++ scope_text scope ++ lines (map (fun x => indent "  " (gen_stm x)) l) ++ String NL "end"
  | TPar scope l => "fork" ++ scope_text scope ++ lines (map (fun x => indent "  " (gen_stm x)) l) ++ String NL "join"
  | TEvent l => "@(" ++ del_paren (gen_senslist l) ++ ");"
  | TWait c b => "wait(" ++ del_paren (gen c) ++ ")" ++ match b with Some b => " " ++ gen_stm b | None => ";" end
  | TForever b => "forever " ++ gen_stm b
  | TDelay e => gen_delay e ++ ";"
  | TSys f l => gen (XSys f l) ++ ";"
  | TDisable s => "diable " ++ escape s ++ ";"
  | TUnique => ""
  end.
(** generic_visit of the texts '(' and ')' fails: they have no children (codegen.py:73-77). All of the tree is visited. *)
Fixpoint has_unique (s : stm) : bool :=
  match s with
  | TUnique => true
  | TIf _ t e => has_unique t || match e with Some e => has_unique e | None => false end
  | TFor _ _ _ b | TWhile _ b | TForever b | TWait _ (Some b) => has_unique b
  | TCase _ _ items => existsb (fun i => has_unique (snd i)) items
  | TBlock _ l | TPar _ l => existsb has_unique l
  | _ => false
  end.
Definition code_stm (s : stm) : res string := if has_unique s then Err AttributeError else Ok (gen_stm s).
(** codegen.py:648-656, 799-806; always.txt, initial.txt. There are no visit methods for AlwaysFF, AlwaysComb and
    AlwaysLatch: generic_visit. *)
Definition gen_item (i : item) : string :=
  match i with
  | IAlways KAlways l s => String NL ("always @(" ++ gen_senslist l ++ ") " ++ gen_stm s ++ String NL "")
  | IAlways _ l s => gen_senslist l ++ gen_stm s
  | IInitial s => String NL ("initial " ++ gen_stm s ++ String NL "")
  end.
Definition code_item (i : item) : res string := if has_unique (match i with IAlways _ _ s | IInitial s => s end) then Err AttributeError else Ok (gen_item i).

(** ** Parsing. The rules are read as functions that take what they derive from the front of the tokens;
    the next token decides between rules as in the LALR table, and where PLY reports a shift/reduce conflict
    (a dangling else) it shifts. *)
Definition is_kw (w : string) (t : token) : bool := match t with KW s => String.eqb s w | _ => false end.
Definition expect (p : token -> bool) (l : list token) : res (list token) :=
  match l with t :: r => if p t then Ok r else Err ParseError | [] => Err ParseError end.
Definition punct_dec (p q : punct) : {p = q} + {p <> q}.
Proof. decide equality. Defined.
Definition is_p (q : punct) (t : token) : bool := match t with P p => if punct_dec p q then true else false | _ => false end.

(** An expression, with the machine of ParseModel: it ends where the next token cannot continue it. *)
Fixpoint expr_run (fuel : nat) (c : config) : res (expr * list token) :=
  match fuel with
  | O => Err OutOfFuel
  | S fuel =>
      let more := match step c with Some c' => expr_run fuel c' | None => Err ParseError end in
      match c with
      | ([SE e], input) => match infix (hd_error input) with None => Ok (e, input) | Some _ => more end
      | _ => more
      end
  end.
Definition p_expr (fuel : nat) (l : list token) : res (expr * list token) := expr_run fuel ([], l).

(** parser.py:852-885, 1247-1256 - indexed identifiers: pointers, at last perhaps a part select. *)
Fixpoint p_selects (fuel : nat) (v : expr) (l : list token) : res (expr * list token) :=
  match fuel with
  | O => Err OutOfFuel
  | S fuel =>
      match l with
      | P LBRACKET :: r =>
          do x <- p_expr fuel r;
          match snd x with
          | P RBRACKET :: r => p_selects fuel (XPtr v (fst x)) r
          | P COLON :: r => do y <- p_expr fuel r; do r <- expect (is_p RBRACKET) (snd y); Ok (XPart v (fst x) (fst y), r)
          | P PLUSCOLON :: r => do y <- p_expr fuel r; do r <- expect (is_p RBRACKET) (snd y); Ok (XPart v (fst x) (XBin Plus (fst x) (fst y)), r)
          | P MINUSCOLON :: r => do y <- p_expr fuel r; do r <- expect (is_p RBRACKET) (snd y); Ok (XPart v (fst x) (XBin Minus (fst x) (fst y)), r)
          | _ => Err ParseError
          end
      | _ => Ok (v, l)
      end
  end.
(** parser.py:887-940 - lvalue, lconcat. *)
Fixpoint p_lvalues (one : list token -> res (expr * list token)) (fuel : nat) (acc : list expr) (l : list token) : res (expr * list token) :=
  match fuel with
  | O => Err OutOfFuel
  | S fuel =>
      match l with
      | P COMMA :: r => do x <- one r; p_lvalues one fuel (acc ++ [fst x])%list (snd x)
      | P RBRACE :: r => Ok (XConcat acc, r)
      | _ => Err ParseError
      end
  end.
Fixpoint p_lvalue (fuel : nat) (l : list token) : res (expr * list token) :=
  match fuel with
  | O => Err OutOfFuel
  | S fuel =>
      match l with
      | ID s :: r => p_selects fuel (XId s) r
      | P LBRACE :: r => do x <- p_lvalue fuel r; p_lvalues (p_lvalue fuel) fuel [fst x] (snd x)
      | _ => Err ParseError
      end
  end.
(** parser.py:1473-1497 - delays. Floats are left out. *)
Definition p_delays (fuel : nat) (l : list token) : res (option expr * list token) :=
  match l with
  | P DELAY :: P LPAREN :: r => do x <- p_expr fuel r; do r <- expect (is_p RPAREN) (snd x); Ok (Some (fst x), r)
  | P DELAY :: ID s :: r => Ok (Some (XId s), r)
  | P DELAY :: INT _ s :: r => Ok (Some (XInt s), r)
  | P DELAY :: _ => Err ParseError
  | _ => Ok (None, l)
  end.
(** parser.py:1454-1470 - substitutions, after the delays and without the semicolon. *)
Definition p_asg (fuel : nat) (ld : option expr) (l : list token) : res (bool * asg * list token) :=
  do x <- p_lvalue fuel l;
  match snd x with
  | P EQUALS :: r => do d <- p_delays fuel r; do y <- p_expr fuel (snd d); Ok (false, Asg (fst x) (fst y) ld (fst d), snd y)
  | P LE :: r => do d <- p_delays fuel r; do y <- p_expr fuel (snd d); Ok (true, Asg (fst x) (fst y) ld (fst d), snd y)
  | _ => Err ParseError
  end.
Definition p_asg_stm (fuel : nat) (ld : option expr) (l : list token) : res (bool * asg * list token) :=
  do a <- p_asg fuel ld l; do r <- expect (is_p SEMICOLON) (snd a); Ok (fst a, r).
(** parser.py:1324-1424 - senslist. *)
Definition p_signal (fuel : nat) (k : edge) (l : list token) : res (sensitem * list token) :=
  match l with
  | ID s :: r => do x <- p_selects fuel (XId s) r;
                 match k, fst x with Level, _ => Ok (SSig k (fst x), snd x) | _, XPart _ _ _ => Err ParseError | _, _ => Ok (SSig k (fst x), snd x) end
  | _ => Err ParseError
  end.
Definition p_edge (fuel : nat) (l : list token) : res (sensitem * list token) :=
  match l with
  | t :: r => if is_kw "posedge" t then p_signal fuel Posedge r else if is_kw "negedge" t then p_signal fuel Negedge r else Err ParseError
  | [] => Err ParseError
  end.
Fixpoint p_sigs (one : list token -> res (sensitem * list token)) (fuel : nat) (acc : list sensitem) (l : list token) : res (list sensitem * list token) :=
  match fuel with
  | O => Err OutOfFuel
  | S fuel =>
      match l with
      | P RPAREN :: r => Ok (acc, r)
      | P COMMA :: r => do x <- one r; p_sigs one fuel (acc ++ [fst x])%list (snd x)
      | t :: r => if is_kw "or" t then do x <- one r; p_sigs one fuel (acc ++ [fst x])%list (snd x) else Err ParseError
      | [] => Err ParseError
      end
  end.
Definition p_senslist (fuel : nat) (l : list token) : res (list sensitem * list token) :=
  match l with
  | P AT :: P TIMES :: r => Ok ([SAll], r)
  | P AT :: P LPAREN :: P TIMES :: r => do r <- expect (is_p RPAREN) r; Ok ([SAll], r)
  | P AT :: P LPAREN :: r =>
      match r with
      | ID _ :: _ => do x <- p_signal fuel Level r; p_sigs (p_signal fuel Level) fuel [fst x] (snd x)
      | _ => do x <- p_edge fuel r; p_sigs (p_edge fuel) fuel [fst x] (snd x)
      end
  | P AT :: r => do x <- p_signal fuel Level r; Ok ([fst x], snd x)
  | _ => Ok ([SAll], l)
  end.
(** parser.py:1719-1727 - casecontent_condition. *)
Fixpoint p_conds (fuel : nat) (acc : list expr) (l : list token) : res (list expr * list token) :=
  match fuel with
  | O => Err OutOfFuel
  | S fuel =>
      match l with
      | P COMMA :: r => do x <- p_expr fuel r; p_conds fuel (acc ++ [fst x])%list (snd x)
      | P COLON :: r => Ok (acc, r)
      | _ => Err ParseError
      end
  end.
(** ( cond ) *)
Definition p_paren (fuel : nat) (l : list token) : res (expr * list token) :=
  do r <- expect (is_p LPAREN) l; do x <- p_expr fuel r; do r <- expect (is_p RPAREN) (snd x); Ok (fst x, r).
(** parser.py:1629-1655 - forpre, forcond, forpost. *)
Definition p_forpre (fuel : nat) (l : list token) : res (option asg * list token) :=
  match l with
  | P SEMICOLON :: r => Ok (None, r)
  | _ => do d <- p_delays fuel l; do a <- p_asg_stm fuel (fst d) (snd d);
         match a with ((false, a), r) => Ok (Some a, r) | _ => Err ParseError end
  end.
Definition p_forcond (fuel : nat) (l : list token) : res (option expr * list token) :=
  match l with
  | P SEMICOLON :: r => Ok (None, r)
  | _ => do x <- p_expr fuel l; do r <- expect (is_p SEMICOLON) (snd x); Ok (Some (fst x), r)
  end.
Definition p_forpost (fuel : nat) (l : list token) : res (option asg * list token) :=
  match l with
  | P RPAREN :: _ => Ok (None, l)
  | _ => do d <- p_delays fuel l; do a <- p_asg fuel (fst d) (snd d);
         match a with ((false, a), r) => Ok (Some a, r) | _ => Err ParseError end
  end.

(** parser.py:1427-1445, 1500-1537, 1568-1770, 2252-2277 - the rules of statements. The parsers of a statement, of the
    statements up to a closing word and of the contents of a case are parameters here. *)
(** if and always statements take over the last line of the statement in them (parser.py:1304, 1310, 1316, 1322, 1583,
    1589, 1595, 1601): an attribute that for, while, event, wait, forever and fork statements do not get. *)
Definition has_end_lineno (s : stm) : bool :=
  match s with TFor _ _ _ _ | TWhile _ _ | TEvent _ | TWait _ _ | TForever _ | TPar _ _ => false | _ => true end.
Definition need_end {A} (s : stm) (x : A) : res A := if has_end_lineno s then Ok x else Err AttributeError.
Definition r_if (n : nat) (ps : list token -> res (stm * list token)) (l : list token) : res (stm * list token) :=
  do c <- p_paren n l; do t <- ps (snd c);
  match snd t with
  | w :: r => if is_kw "else" w then do e <- ps r; need_end (fst e) (TIf (fst c) (fst t) (Some (fst e)), snd e) else need_end (fst t) (TIf (fst c) (fst t) None, snd t)
  | [] => need_end (fst t) (TIf (fst c) (fst t) None, [])
  end.
Definition r_case (n : nat) (pis : list (option (list expr) * stm) -> list token -> res (list (option (list expr) * stm) * list token)) (k : casekind) (l : list token) : res (stm * list token) :=
  do c <- p_paren n l; do i <- pis [] (snd c); Ok (TCase k (fst c) (fst i), snd i).
Definition r_assign (n : nat) (ld : option expr) (l : list token) : res (stm * list token) :=
  do a <- p_asg_stm n ld l; Ok (TAsg (fst (fst a)) (snd (fst a)), snd a).
Definition r_word (n : nat) (ps : list token -> res (stm * list token))
    (pss : string -> list stm -> list token -> res (list stm * list token))
    (pis : list (option (list expr) * stm) -> list token -> res (list (option (list expr) * stm) * list token)) (t : token) (r : list token) : res (stm * list token) :=
  if is_kw "if" t then r_if n ps r
  else if is_kw "case" t then r_case n pis KCase r
  else if is_kw "casex" t then r_case n pis KCasex r
  else if is_kw "casez" t then r_case n pis KCasez r
  else if is_kw "unique" t then do r <- expect (is_kw "case") r; do x <- r_case n pis KUnique r; Ok (TUnique, snd x)
  else if is_kw "for" t then
    do r <- expect (is_p LPAREN) r; do x <- p_forpre n r; do c <- p_forcond n (snd x); do y <- p_forpost n (snd c);
    do r <- expect (is_p RPAREN) (snd y); do b <- ps r; Ok (TFor (fst x) (fst c) (fst y) (fst b), snd b)
  else if is_kw "while" t then do c <- p_paren n r; do b <- ps (snd c); Ok (TWhile (fst c) (fst b), snd b)
  else if is_kw "wait" t then
    do c <- p_paren n r;
    match snd c with
    | P SEMICOLON :: r => Ok (TWait (fst c) None, r)                               (* shift, not the empty senslist *)
    | r => do b <- ps r; Ok (TWait (fst c) (Some (fst b)), snd b)
    end
  else if is_kw "forever" t then do b <- ps r; Ok (TForever (fst b), snd b)
  else if is_kw "begin" t then
    match r with
    | P COLON :: ID s :: r => do b <- pss "end" [] r; Ok (TBlock (Some s) (fst b), snd b)
    | _ => do b <- pss "end" [] r; Ok (TBlock None (fst b), snd b)
    end
  else if is_kw "fork" t then do b <- pss "join" [] r; Ok (TPar None (fst b), snd b)
  else if is_kw "disable" t then
    match r with ID s :: r => do r <- expect (is_p SEMICOLON) r; Ok (TDisable s, r) | _ => Err ParseError end
  else Err ParseError.
Definition r_stm (n : nat) (ps : list token -> res (stm * list token))
    (pss : string -> list stm -> list token -> res (list stm * list token))
    (pis : list (option (list expr) * stm) -> list token -> res (list (option (list expr) * stm) * list token)) (l : list token) : res (stm * list token) :=
  match l with
  | P DELAY :: r =>
      match (do x <- p_expr n r; do r <- expect (is_p SEMICOLON) (snd x); Ok (TDelay (fst x), r)) with
      | Err ParseError =>
          do d <- p_delays n l;
          match snd d with
          | t :: r => if is_kw "if" t then r_if n ps r else r_assign n (fst d) (t :: r)       (* :1591-1601 drop the delay *)
          | [] => Err ParseError
          end
      | x => x
      end
  | P DOLLER :: _ =>
      do x <- p_expr n l; do r <- expect (is_p SEMICOLON) (snd x);
      match fst x with XSys f a => Ok (TSys f a, r) | _ => Err ParseError end
  | P AT :: _ | P SEMICOLON :: _ => do x <- p_senslist n l; do r <- expect (is_p SEMICOLON) (snd x); Ok (TEvent (fst x), r)
  | ID _ :: _ | P LBRACE :: _ => r_assign n None l
  | t :: r => r_word n ps pss pis t r
  | [] => Err ParseError
  end.
(** Statements. *)
Fixpoint p_stm (fuel : nat) (l : list token) {struct fuel} : res (stm * list token) :=
  match fuel with
  | O => Err OutOfFuel
  | S n => r_stm n (p_stm n) (p_stms n) (p_items n) l
  end
(** block_statements and the closing word *)
with p_stms (fuel : nat) (close : string) (acc : list stm) (l : list token) {struct fuel} : res (list stm * list token) :=
  match fuel with
  | O => Err OutOfFuel
  | S n =>
      match l with
      | t :: r => if is_kw close t then Ok (acc, r) else do s <- p_stm n l; p_stms n close (acc ++ [fst s])%list (snd s)
      | [] => Err ParseError
      end
  end
(** casecontent_statements and ENDCASE *)
with p_items (fuel : nat) (acc : list (option (list expr) * stm)) (l : list token) {struct fuel} : res (list (option (list expr) * stm) * list token) :=
  match fuel with
  | O => Err OutOfFuel
  | S n =>
      match l with
      | t :: r =>
          if is_kw "endcase" t then match acc with [] => Err ParseError | _ => Ok (acc, r) end
          else if is_kw "default" t then do r <- expect (is_p COLON) r; do s <- p_stm n r; p_items n (acc ++ [(None, fst s)])%list (snd s)
          else do x <- p_expr n l; do c <- p_conds n [fst x] (snd x); do s <- p_stm n (snd c); p_items n (acc ++ [(Some (fst c), fst s)])%list (snd s)
      | [] => Err ParseError
      end
  end.
(** parser.py:1300-1322, 1735-1743 - always and initial. *)
Definition p_item (fuel : nat) (l : list token) : res (item * list token) :=
  let p_always (k : alwayskind) (r : list token) : res (item * list token) :=
    do x <- p_senslist fuel r; do s <- p_stm fuel (snd x); need_end (fst s) (IAlways k (fst x) (fst s), snd s) in
  match l with
  | t :: r =>
      if is_kw "always" t then p_always KAlways r
      else if is_kw "always_ff" t then p_always KAlwaysFF r
      else if is_kw "always_comb" t then p_always KAlwaysComb r
      else if is_kw "always_latch" t then p_always KAlwaysLatch r
      else if is_kw "initial" t then do s <- p_stm fuel r; Ok (IInitial (fst s), snd s)
      else Err ParseError
  | [] => Err ParseError
  end.
(** A text that is one statement, or one always or initial block. *)
Definition whole {A} (x : res (A * list token)) : res A := do x <- x; match snd x with [] => Ok (fst x) | _ => Err ParseError end.
Definition parse_stm (fuel : nat) (s : string) : res stm := do l <- lex 1 s; whole (p_stm fuel (map lt_tok (l_tokens l))).
Definition parse_item (fuel : nat) (s : string) : res item := do l <- lex 1 s; whole (p_item fuel (map lt_tok (l_tokens l))).
