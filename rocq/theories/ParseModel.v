(** ParseModel.v - model of the expression rules of vparser/parser.py (949-1256, 2054-2092,
    2156-2175, 2227-2230), as the shift/reduce machine that PLY makes of them. A state of the
    LALR automaton is represented by the symbols on the stack; a conflict between shifting an
    operator and reducing is decided as PLY does (yacc.py, lr_parse_table): shift if the level of
    the token is higher than that of the rule, or equal and the rule is right associative. The
    machine may notice a syntax error later than the automaton does. Floats, strings and scopes
    are left out. *)
From Verif Require Import Base DfModel LexModel ExprModel.
Local Open Scope string_scope.

(** Grammar symbols: a terminal; the nonterminals expression, identifier, pointer, concat; and
    concatlist, func_args, sysargs, which are all lists of expressions. *)
Inductive sym :=
| ST (t : token)
| SE (e : expr)
| SId (s : string)
| SPtr (e : expr)
| SCat (l : list expr)
| SList (l : list expr).

(** parser.py:1001-1137 - the rules for binary operators. *)
Definition binary_op (p : punct) : option op :=
  match p with
  | POWER => Some Power | TIMES => Some Times | DIVIDE => Some Divide | MOD => Some Mod | PLUS => Some Plus | MINUS => Some Minus
  | LSHIFT => Some Sll | RSHIFT => Some Srl | LSHIFTA => Some Sla | RSHIFTA => Some Sra
  | LT => Some LessThan | GT => Some GreaterThan | LE => Some LessEq | GE => Some GreaterEq
  | EQ => Some Eq | NE => Some NotEq | EQL => Some Eql | NEL => Some NotEql
  | AND => Some And | XOR => Some Xor | XNOR => Some Xnor | OR => Some Or | LAND => Some Land | LOR => Some Lor
  | _ => None
  end.
(** parser.py:949-997 - the rules for unary operators; plus has no node. *)
Definition unary_op (p : punct) : option (expr -> expr) :=
  match p with
  | MINUS => Some (XUn Uminus) | PLUS => Some (fun e => e) | LNOT => Some (XUn Ulnot) | NOT => Some (XUn Unot)
  | AND => Some (XUn Uand) | NAND => Some (XUn Unand) | OR => Some (XUn Uor) | NOR => Some (XUn Unor)
  | XOR => Some (XUn Uxor) | XNOR => Some (XUn Uxnor)
  | _ => None
  end.
(** parser.py:34-50 - precedence, from 1 (weakest); all binary operators are left associative. *)
Definition prec (p : punct) : nat :=
  match p with
  | LOR => 1 | LAND => 2 | OR => 3 | XOR | XNOR => 4 | AND => 5 | EQ | NE | EQL | NEL => 6 | LT | GT | LE | GE => 7
  | LSHIFT | RSHIFT | LSHIFTA | RSHIFTA => 8 | PLUS | MINUS => 9 | TIMES | DIVIDE | MOD => 10 | POWER => 11
  | _ => 0
  end.
(** The lookahead continues an expression: a binary operator or "?" (which has no precedence: 0). *)
Definition infix (la : option token) : option nat :=
  match la with
  | Some (P COND) => Some 0
  | Some (P p) => match binary_op p with Some _ => Some (prec p) | None => None end
  | _ => None
  end.
(** "," or a closing bracket: the end of a member of a list. *)
Definition ends_member (la : option token) : bool := match la with Some (P (COMMA | RBRACE | RPAREN)) => true | _ => false end.

Inductive act := Shift | Reduce (st : list sym).

(** What follows "$": an identifier, or the keyword signed (parser.py:2059-2068). *)
Definition call_head (t : token) : option string :=
  match t with ID s => Some s | KW s => if String.eqb s "signed" then Some s else None | _ => None end.
(** A "(" that opens arguments: after an identifier, or after "$" and a name. *)
Definition call_before (r : list sym) : bool :=
  match r with
  | SId _ :: _ => true
  | ST t :: ST (P DOLLER) :: _ => match call_head t with Some _ => true | None => false end
  | _ => false
  end.
(** The top is an expression y (parser.py:949-1150, 1198-1206, 2161-2175). The unary rules have the
    highest level, so they are always reduced. *)
Definition after_expr (y : expr) (r : list sym) (la : option token) : act :=
  match r with
  | ST (P COLON) :: SE x :: ST (P COND) :: SE c :: r' =>
      match infix la with Some _ => Shift | None => Reduce (SE (XCond c x y) :: r') end
  | ST (P COMMA) :: SList l :: r' => if ends_member la then Reduce (SList (l ++ [y])%list :: r') else Shift
  | ST (P LBRACE) :: _ => if ends_member la then Reduce (SList [y] :: r) else Shift
  | ST (P p) :: SE x :: r' =>
      match binary_op p with
      | Some o =>
          match infix la with
          | Some n => if Nat.ltb (prec p) n then Shift else Reduce (SE (XBin o x y) :: r')
          | None => Reduce (SE (XBin o x y) :: r')
          end
      | None => Shift
      end
  | ST (P LPAREN) :: r' => if call_before r' && ends_member la then Reduce (SList [y] :: r) else Shift
  | ST (P p) :: r' => match unary_op p with Some f => Reduce (SE (f y) :: r') | None => Shift end
  | _ => Shift
  end.
(** The top is ")" (parser.py:1147-1150, 2059-2068, 2156-2159). *)
Definition close_paren (r : list sym) : act :=
  match r with
  | SE e :: ST (P LPAREN) :: r' => Reduce (SE e :: r')
  | SList l :: ST (P LPAREN) :: SId f :: r' => Reduce (SE (XCall f l) :: r')
  | SList l :: ST (P LPAREN) :: ST t :: ST (P DOLLER) :: r' =>
      match call_head t with Some f => Reduce (SE (XSys f l) :: r') | None => Shift end
  | _ => Shift
  end.
(** The top is "}" (parser.py:1193-1211). *)
Definition close_brace (r : list sym) : act :=
  match r with
  | SList l :: ST (P LBRACE) :: r' => Reduce (SCat l :: r')
  | SCat l :: SE n :: ST (P LBRACE) :: r' => Reduce (SE (XRepeat (XConcat l) n) :: r')
  | _ => Shift
  end.
(** The top is "]" (parser.py:1213-1256). *)
Definition selected (s : sym) : option expr := match s with SId v => Some (XId v) | SPtr v => Some v | _ => None end.
Definition close_bracket (r : list sym) : act :=
  match r with
  | SE p :: ST (P LBRACKET) :: v :: r' => match selected v with Some v => Reduce (SPtr (XPtr v p) :: r') | None => Shift end
  | SE l :: ST (P COLON) :: SE m :: ST (P LBRACKET) :: v :: r' => match selected v with Some v => Reduce (SE (XPart v m l) :: r') | None => Shift end
  | SE l :: ST (P PLUSCOLON) :: SE m :: ST (P LBRACKET) :: v :: r' => match selected v with Some v => Reduce (SE (XPart v m (XBin Plus m l)) :: r') | None => Shift end
  | SE l :: ST (P MINUSCOLON) :: SE m :: ST (P LBRACKET) :: v :: r' => match selected v with Some v => Reduce (SE (XPart v m (XBin Minus m l)) :: r') | None => Shift end
  | _ => Shift
  end.
Definition action (st : list sym) (la : option token) : act :=
  match st with
  | SE y :: r => after_expr y r la
  | SId s :: r => match la with Some (P (LBRACKET | LPAREN | DOT)) => Shift | _ => Reduce (SE (XId s) :: r) end
  | SPtr e :: r => match la with Some (P (LBRACKET | DOT)) => Shift | _ => Reduce (SE e :: r) end
  | SCat l :: r => match r with SE _ :: ST (P LBRACE) :: _ => Shift | _ => Reduce (SE (XConcat l) :: r) end
  | SList _ :: _ => Shift
  | ST (INT _ s) :: r => Reduce (SE (XInt s) :: r)
  | ST (ID s) :: ST (P DOLLER) :: r => match la with Some (P LPAREN) => Shift | _ => Reduce (SE (XSys s []) :: r) end
  | ST (ID s) :: r => Reduce (SId s :: r)
  | ST (P LPAREN) :: r => match la with Some (P (COMMA | RPAREN)) => if call_before r then Reduce (SList [] :: st) else Shift | _ => Shift end
  | ST (P RPAREN) :: r => close_paren r
  | ST (P RBRACE) :: r => close_brace r
  | ST (P RBRACKET) :: r => close_bracket r
  | _ => Shift
  end.

(** A configuration: the stack, top first, and the remaining tokens. *)
Definition config := (list sym * list token)%type.
Definition step (c : config) : option config :=
  let (st, input) := c in
  match action st (hd_error input) with
  | Reduce st' => Some (st', input)
  | Shift => match input with t :: r => Some (ST t :: st, r) | [] => None end
  end.
(** The parser run on a whole expression. *)
Fixpoint run (fuel : nat) (c : config) : res expr :=
  match fuel with
  | O => Err OutOfFuel
  | S fuel =>
      match step c with
      | Some c' => run fuel c'
      | None => match c with ([SE e], []) => Ok e | _ => Err ParseError end
      end
  end.
Definition parse_tokens (fuel : nat) (l : list token) : res expr := run fuel ([], l).
(** Text to tree: lexer, then parser. *)
Definition parse_text (fuel : nat) (s : string) : res expr := do l <- lex 1 s; parse_tokens fuel (map lt_tok (l_tokens l)).
