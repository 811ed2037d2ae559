(** ExprModel.v - model of the expression part of vparser/ast.py and of
    ast_code_generator/codegen.py with its templates. *)
From Verif Require Import Base DfModel LexModel.
Require Import Coq.Strings.Ascii.
Local Open Scope string_scope.

(** vparser/ast.py:99-164, 385-470, 493-700, 960-1010 - expression nodes; an Identifier without a
    scope, an IntConst, a unary or binary Operator, Cond, Concat, Repeat, Partselect, Pointer,
    FunctionCall and SystemCall. Line numbers, floats, strings and scopes are left out. *)
Inductive expr :=
| XId (s : string)
| XInt (s : string)
| XUn (o : op) (a : expr)
| XBin (o : op) (a b : expr)
| XCond (c t f : expr)
| XConcat (l : list expr)
| XRepeat (v n : expr)
| XPart (v m l : expr)
| XPtr (v p : expr)
| XCall (f : string) (l : list expr)
| XSys (f : string) (l : list expr).

(** utils/op2mark.py:10-27 - op2mark. *)
Definition op2mark (o : op) : option string :=
  match o with
  | Uplus => None
  | Uminus => Some "-" | Ulnot => Some "!" | Unot => Some "~" | Uand => Some "&" | Unand => Some "~&"
  | Uor => Some "|" | Unor => Some "~|" | Uxor => Some "^" | Uxnor => Some "~^"
  | Power => Some "**" | Times => Some "*" | Divide => Some "/" | Mod => Some "%"
  | Plus => Some "+" | Minus => Some "-"
  | Sll => Some "<<" | Srl => Some ">>" | Sla => Some "<<<" | Sra => Some ">>>"
  | LessThan => Some "<" | GreaterThan => Some ">" | LessEq => Some "<=" | GreaterEq => Some ">="
  | Eq => Some "==" | NotEq => Some "!=" | Eql => Some "===" | NotEql => Some "!=="
  | And => Some "&" | Xor => Some "^" | Xnor => Some "~^" | Or => Some "|" | Land => Some "&&" | Lor => Some "||"
  end.
(** utils/op2mark.py:30-49 - op2order. *)
Definition op2order (o : op) : option nat :=
  match o with
  | Uplus => None
  | Uminus | Ulnot | Unot | Uand | Unand | Uor | Unor | Uxor | Uxnor => Some 0
  | Power => Some 1
  | Times | Divide | Mod => Some 2
  | Plus | Minus => Some 3
  | Sll | Srl | Sla | Sra => Some 4
  | LessThan | GreaterThan | LessEq | GreaterEq => Some 5
  | Eq | NotEq | Eql | NotEql => Some 6
  | And => Some 7
  | Xor | Xnor => Some 8
  | Or => Some 9
  | Land => Some 10
  | Lor => Some 11
  end.
Definition node_order (e : expr) : option nat := match e with XUn o _ | XBin o _ _ => op2order o | _ => None end.

(** codegen.py:85-98 - escape, del_paren, del_space. *)
Definition escape (s : string) : string := match s with String "\" _ => s ++ " " | _ => s end.
Fixpoint last_char (s : string) : option ascii := match s with "" => None | String c "" => Some c | String _ r => last_char r end.
Fixpoint drop_last (s : string) : string := match s with "" => "" | String _ "" => "" | String c r => String c (drop_last r) end.
Definition del_paren (s : string) : string :=
  match s with
  | String c r => if ceqb c "(" && match last_char s with Some d => ceqb d ")" | None => false end then drop_last r else s
  | "" => s
  end.
Fixpoint del_space (s : string) : string := match s with "" => "" | String c r => if ceqb c " " then del_space r else String c (del_space r) end.
(** {% for item in items %}{{ item }}{% if loop.index < len_items %}, {% endif %}{% endfor %} *)
Fixpoint join (l : list string) : string := match l with [] => "" | [x] => x | x :: r => x ++ ", " ++ join r end.

(** codegen.py:493-500 - the operators whose parentheses are kept. *)
Definition kept (e : expr) : bool :=
  match e with
  | XBin (Sll | Srl | Sra | LessThan | GreaterThan | LessEq | GreaterEq | Eq | NotEq | Eql | NotEql) _ _ => true
  | _ => false
  end.
Definition show (o : option string) : string := match o with Some s => s | None => "None" end.
Definition is_cond (e : expr) : bool := match e with XCond _ _ _ => true | _ => false end.
(** lorder is not None and lorder <= order; order > rorder. Comparing None with a number is a
    TypeError, which cannot happen here: visit_Operator is only called for operators of the table. *)
Definition bare_left (o : op) (a : expr) : bool :=
  negb (kept a) && match node_order a, op2order o with Some x, Some y => Nat.leb x y | _, _ => false end.
Definition bare_right (o : op) (b : expr) : bool :=
  negb (kept b) && match node_order b, op2order o with Some x, Some y => Nat.ltb x y | _, _ => false end.

(** codegen.py:199-234, 413-520, 599-610, 906-960 - the text of an expression. There is no
    visit_Sla: generic_visit (lines 73-77) writes the operands one after the other. *)
Fixpoint gen (e : expr) : string :=
  match e with
  | XId s => escape s
  | XInt s => s
  | XUn o a => "(" ++ show (op2mark o) ++ gen a ++ ")"
  | XBin Sla a b => gen a ++ gen b
  | XBin o a b =>
      let left := if bare_left o a then del_paren (gen a) else gen a in
      let right := if bare_right o b then del_paren (gen b) else gen b in
      "(" ++ left ++ " " ++ show (op2mark o) ++ " " ++ right ++ ")"
  | XCond c t f =>
      "((" ++ del_paren (gen c) ++ ")? " ++ del_paren (gen t) ++ " : " ++
      (if is_cond f then String NL (del_paren (gen f)) else del_paren (gen f)) ++ ")"
  | XConcat l => "{ " ++ join (map (fun x => del_paren (gen x)) l) ++ " }"
  | XRepeat v n => "{ " ++ del_paren (gen n) ++ del_paren (gen v) ++ " }"
  | XPart v m l => gen v ++ "[" ++ del_space (del_paren (gen m)) ++ ":" ++ del_space (del_paren (gen l)) ++ "]"
  | XPtr v p => gen v ++ "[" ++ del_paren (gen p) ++ "]"
  | XCall f l => escape f ++ "(" ++ join (map gen l) ++ ")"
  | XSys f l => "$" ++ escape f ++ match l with [] => "" | _ => "(" ++ join (map gen l) ++ ")" end
  end.
(** codegen.py:478-486 - Rvalue; 179-187 - the bounds of a Width. *)
Definition gen_rvalue (e : expr) : string := del_paren (gen e).
Definition gen_width (m l : expr) : string := "[" ++ del_space (del_paren (gen m)) ++ ":" ++ del_space (del_paren (gen l)) ++ "]".
