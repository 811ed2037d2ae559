(** LexSpec.v - what the tokens, lines and directives of a text should be. *)
From Verif Require Import Base LexModel.
Require Import Coq.Strings.Ascii.
Local Open Scope string_scope.

(** The number of newlines of a text. *)
Definition count_nl (s : string) : nat := length (filter (fun c => Nat.eqb (nat_of_ascii c) 10) (list_ascii_of_string s)).
(** How a token is written. *)
Definition punct_text (p : punct) : string :=
  match p with
  | PLUS => "+" | MINUS => "-" | POWER => "**" | TIMES => "*" | DIVIDE => "/" | MOD => "%" | NOT => "~" | OR => "|" | NOR => "~|"
  | AND => "&" | NAND => "~&" | XOR => "^" | XNOR => "~^" | LOR => "||" | LAND => "&&" | LNOT => "!"
  | LSHIFTA => "<<<" | RSHIFTA => ">>>" | LSHIFT => "<<" | RSHIFT => ">>" | LT => "<" | GT => ">" | LE => "<=" | GE => ">="
  | EQ => "==" | NE => "!=" | EQL => "===" | NEL => "!==" | COND => "?" | EQUALS => "=" | AT => "@" | COMMA => "," | COLON => ":"
  | SEMICOLON => ";" | DOT => "." | PLUSCOLON => "+:" | MINUSCOLON => "-:" | LPAREN => "(" | RPAREN => ")" | LBRACKET => "["
  | RBRACKET => "]" | LBRACE => "{" | RBRACE => "}" | DELAY => "#" | DOLLER => "$"
  end.
Definition text_of (t : token) : string :=
  match t with P p => punct_text p | ID s | KW s | STRING s | FLOAT s | INT _ s => s end.
(** Text without meaning: blanks, newlines, comments and directives. *)
Inductive filler : string -> Prop :=
| f_nil : filler ""
| f_blank c s : In c [" "%char; ascii_of_nat 9; ascii_of_nat 10] -> filler s -> filler (String c s)
| f_line body s : count_nl body = 0 -> filler s -> filler ("//" ++ body ++ String (ascii_of_nat 10) s)
| f_directive body s : count_nl body = 0 -> filler s -> filler ("`" ++ body ++ String (ascii_of_nat 10) s)
| f_comment body s : (forall a b, body ++ "*" <> a ++ "*/" ++ b) -> filler s -> filler ("/*" ++ body ++ "*/" ++ s).
(** A text is its tokens with fillers before, between and after them. *)
Inductive laid_out : string -> list token -> Prop :=
| lo_end g : filler g -> laid_out g []
| lo_token g t s ts : filler g -> text_of t <> "" -> laid_out s ts -> laid_out (g ++ text_of t ++ s) (t :: ts).
(** Where a piece of text stands: at offset [pos], on line [line]. *)
Definition at_place (s piece : string) (line pos : nat) : Prop :=
  exists pre post, s = pre ++ piece ++ post /\ String.length pre = pos /\ line = 1 + count_nl pre.
(** Identifiers, for the classification of words. *)
Definition all_chars (p : ascii -> bool) (s : string) : Prop := Forall (fun c => p c = true) (list_ascii_of_string s).
