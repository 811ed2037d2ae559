(** PrecSpec.v - Verilog expressions as a grammar with one level per row of the precedence table
    (IEEE 1364-2005, clause 5.1.2 table 5-4, and annex A.8), over the tokens of the lexer. *)
From Verif Require Import Base DfModel LexModel ExprModel.

(** Binary operators, from the weakest (1) to the strongest (11); all are left associative. *)
Definition binary (p : punct) : option (op * nat) :=
  match p with
  | LOR => Some (Lor, 1)
  | LAND => Some (Land, 2)
  | OR => Some (Or, 3)
  | XOR => Some (Xor, 4) | XNOR => Some (Xnor, 4)
  | AND => Some (And, 5)
  | EQ => Some (Eq, 6) | NE => Some (NotEq, 6) | EQL => Some (Eql, 6) | NEL => Some (NotEql, 6)
  | LT => Some (LessThan, 7) | LE => Some (LessEq, 7) | GT => Some (GreaterThan, 7) | GE => Some (GreaterEq, 7)
  | LSHIFT => Some (Sll, 8) | RSHIFT => Some (Srl, 8) | LSHIFTA => Some (Sla, 8) | RSHIFTA => Some (Sra, 8)
  | PLUS => Some (Plus, 9) | MINUS => Some (Minus, 9)
  | TIMES => Some (Times, 10) | DIVIDE => Some (Divide, 10) | MOD => Some (Mod, 10)
  | POWER => Some (Power, 11)
  | _ => None
  end.
(** Unary operators bind more strongly than all binary ones. Unary plus leaves its operand as it is. *)
Inductive unary : punct -> expr -> expr -> Prop :=
| u_plus e : unary PLUS e e
| u_minus e : unary MINUS e (XUn Uminus e)
| u_lnot e : unary LNOT e (XUn Ulnot e)
| u_not e : unary NOT e (XUn Unot e)
| u_and e : unary AND e (XUn Uand e)
| u_nand e : unary NAND e (XUn Unand e)
| u_or e : unary OR e (XUn Uor e)
| u_nor e : unary NOR e (XUn Unor e)
| u_xor e : unary XOR e (XUn Uxor e)
| u_xnor e : unary XNOR e (XUn Uxnor e).

(** The name after "$". *)
Inductive system : token -> string -> Prop :=
| s_id f : system (ID f) f
| s_signed : system (KW "signed") "signed".

(** [reads n l e]: the tokens l are an expression of level n or above, and e is its tree.
    0: conditional; 1-11: binary; 12: unary; 13: primary. *)
Inductive reads : nat -> list token -> expr -> Prop :=
| r_up n l e : reads (S n) l e -> reads n l e
| r_cond c a b lc la lb : reads 1 lc c -> reads 0 la a -> reads 0 lb b -> reads 0 (lc ++ [P COND] ++ la ++ [P COLON] ++ lb) (XCond c a b)
| r_binary p o n a b la lb : binary p = Some (o, n) -> reads n la a -> reads (S n) lb b -> reads n (la ++ [P p] ++ lb) (XBin o a b)
| r_unary p a e la : unary p a e -> reads 12 la a -> reads 12 (P p :: la) e
| r_number k s : reads 13 [INT k s] (XInt s)
| r_paren l e : reads 0 l e -> reads 13 ([P LPAREN] ++ l ++ [P RPAREN]) e
| r_select l v : selects l v -> reads 13 l v
| r_part lv lm ll v m l : selects lv v -> reads 0 lm m -> reads 0 ll l ->
    reads 13 (lv ++ [P LBRACKET] ++ lm ++ [P COLON] ++ ll ++ [P RBRACKET]) (XPart v m l)
| r_concat l es : lists l es -> reads 13 ([P LBRACE] ++ l ++ [P RBRACE]) (XConcat es)
| r_repeat ln n l es : reads 0 ln n -> lists l es -> reads 13 ([P LBRACE] ++ ln ++ [P LBRACE] ++ l ++ [P RBRACE] ++ [P RBRACE]) (XRepeat (XConcat es) n)
| r_call f l es : lists l es -> reads 13 ([ID f] ++ [P LPAREN] ++ l ++ [P RPAREN]) (XCall f es)
| r_call0 f : reads 13 ([ID f] ++ [P LPAREN] ++ [P RPAREN]) (XCall f [])
| r_sys t f l es : system t f -> lists l es -> reads 13 ([P DOLLER] ++ [t] ++ [P LPAREN] ++ l ++ [P RPAREN]) (XSys f es)
| r_sys0 t f : system t f -> reads 13 ([P DOLLER] ++ [t] ++ [P LPAREN] ++ [P RPAREN]) (XSys f [])
| r_sysn f : reads 13 ([P DOLLER] ++ [ID f]) (XSys f [])
(** A signal, or an element of an array of signals. *)
with selects : list token -> expr -> Prop :=
| s_name s : selects [ID s] (XId s)
| s_element lv lp v p : selects lv v -> reads 0 lp p -> selects (lv ++ [P LBRACKET] ++ lp ++ [P RBRACKET]) (XPtr v p)
(** One or more expressions, separated by commas. *)
with lists : list token -> list expr -> Prop :=
| l_one l e : reads 0 l e -> lists l [e]
| l_more l es l' e : lists l es -> reads 0 l' e -> lists (l ++ [P COMMA] ++ l') (es ++ [e]).

(** Without the token pairs and tokens left out above: an empty first argument, and +: and -:. *)
Fixpoint ordinary (l : list token) : bool :=
  match l with
  | [] => true
  | P (PLUSCOLON | MINUSCOLON) :: _ => false
  | P LPAREN :: (P COMMA :: _) => false
  | _ :: r => ordinary r
  end.
