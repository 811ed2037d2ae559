(** LexModel.v - model of pyverilog/vparser/lexer.py: tokens, lines and directives. PLY tries the
    function rules in the order of the file, then the string rules from the longest pattern to
    the shortest, after skipping the characters of t_ignore; characters are those with codes
    below 256. *)
From Verif Require Import Base.
Require Import Coq.Strings.Ascii.
Local Open Scope string_scope.

(** lexer.py:65-87 - operators and punctuation. *)
Inductive punct :=
| PLUS | MINUS | POWER | TIMES | DIVIDE | MOD | NOT | OR | NOR | AND | NAND | XOR | XNOR | LOR | LAND | LNOT
| LSHIFTA | RSHIFTA | LSHIFT | RSHIFT | LT | GT | LE | GE | EQ | NE | EQL | NEL | COND | EQUALS
| AT | COMMA | COLON | SEMICOLON | DOT | PLUSCOLON | MINUSCOLON
| LPAREN | RPAREN | LBRACKET | RBRACKET | LBRACE | RBRACE | DELAY | DOLLER.
(** lexer.py:88-98 - the other tokens. *)
Inductive numkind := BIN | SBIN | OCT | SOCT | HEX | SHEX | DEC | SDEC.
Inductive token :=
| P (p : punct)
| ID (s : string)
| KW (s : string)
| STRING (s : string)
| FLOAT (s : string)
| INT (k : numkind) (s : string).

(** lexer.py:127-190 - the string rules, longest pattern first (PLY sorts them by the length of
    the pattern, in which special characters are escaped). *)
Definition punct_table : list (string * punct) :=
  [("||", LOR); ("&&", LAND); ("**", POWER);
   ("~|", NOR); ("~&", NAND); ("~^", XNOR); ("<<<", LSHIFTA); (">>>", RSHIFTA); ("===", EQL); ("!==", NEL); ("+:", PLUSCOLON);
   ("|", OR); ("&", AND); ("^", XOR); ("<<", LSHIFT); (">>", RSHIFT); ("==", EQ); ("!=", NE); ("<=", LE); (">=", GE);
   ("+", PLUS); ("*", TIMES); ("?", COND); ("-:", MINUSCOLON); (".", DOT);
   ("(", LPAREN); (")", RPAREN); ("[", LBRACKET); ("]", RBRACKET); ("{", LBRACE); ("}", RBRACE); ("#", DELAY); ("$", DOLLER);
   ("!", LNOT); ("~", NOT); ("<", LT); (">", GT); ("-", MINUS); ("/", DIVIDE); ("%", MOD); ("=", EQUALS);
   ("@", AT); (",", COMMA); (";", SEMICOLON); (":", COLON)].
(** lexer.py:54-63 - reserved words. *)
Definition reserved : list string :=
  ["module"; "endmodule"; "begin"; "end"; "generate"; "endgenerate"; "genvar"; "function"; "endfunction"; "task"; "endtask";
   "input"; "inout"; "output"; "tri"; "reg"; "logic"; "wire"; "integer"; "real"; "signed"; "parameter"; "localparam"; "supply0"; "supply1";
   "assign"; "always"; "always_ff"; "always_comb"; "always_latch"; "or"; "posedge"; "negedge"; "initial";
   "if"; "else"; "for"; "while"; "case"; "casex"; "casez"; "unique"; "endcase"; "default"; "wait"; "forever"; "disable"; "fork"; "join"].

(** Character classes. *)
Definition code (c : ascii) : nat := nat_of_ascii c.
Definition within (a b : nat) (c : ascii) : bool := Nat.leb a (code c) && Nat.leb (code c) b.
Definition ceqb (a b : ascii) : bool := Ascii.eqb a b.
Definition one_of (s : string) (c : ascii) : bool := existsb (ceqb c) (list_ascii_of_string s).
Definition NL : ascii := ascii_of_nat 10.
Definition TAB : ascii := ascii_of_nat 9.
Definition QUOTE : ascii := ascii_of_nat 34.
Definition is_digit : ascii -> bool := within 48 57.
Definition is_alpha (c : ascii) : bool := within 65 90 c || within 97 122 c.
Definition is_hex (c : ascii) : bool := is_digit c || within 65 70 c || within 97 102 c.
Definition is_xz : ascii -> bool := one_of "xXzZ?".
Definition id_start (c : ascii) : bool := is_alpha c || ceqb c "_"%char.
Definition id_char (c : ascii) : bool := id_start c || is_digit c || ceqb c "$"%char.
(** \s of Python's re, for characters below 256. *)
Definition is_space (c : ascii) : bool := within 9 13 c || within 28 32 c || Nat.eqb (code c) 133 || Nat.eqb (code c) 160.

(** The longest prefix of characters with p, and the rest. *)
Fixpoint span (p : ascii -> bool) (s : string) : string * string :=
  match s with
  | String c r => if p c then let (a, b) := span p r in (String c a, b) else ("", s)
  | "" => ("", "")
  end.
(** s without the prefix p. *)
Fixpoint strip (p s : string) : option string :=
  match p, s with
  | "", _ => Some s
  | String a p', String b s' => if ceqb a b then strip p' s' else None
  | String _ _, "" => None
  end.

(** .*?\n *)
Fixpoint to_newline (s : string) : option (string * string) :=
  match s with
  | String c r =>
      if ceqb c NL then Some (String c "", r)
      else match to_newline r with Some (a, b) => Some (String c a, b) | None => None end
  | "" => None
  end.
(** (.|\n)*?\*/ *)
Fixpoint to_close (s : string) : option (string * string) :=
  match s with
  | String c r =>
      match strip "*/" s with
      | Some r' => Some ("*/", r')
      | None => match to_close r with Some (a, b) => Some (String c a, b) | None => None end
      end
  | "" => None
  end.
Definition with_prefix (p : string) (o : option (string * string)) : option (string * string) :=
  match o with Some (a, b) => Some (p ++ a, b) | None => None end.
(** lexer.py:108, 120, 121 - directive, linecomment, commentout. *)
Definition m_directive (s : string) := match strip "`" s with Some r => with_prefix "`" (to_newline r) | None => None end.
Definition m_linecomment (s : string) := match strip "//" s with Some r => with_prefix "//" (to_newline r) | None => None end.
Definition m_comment (s : string) := match strip "/*" s with Some r => with_prefix "/*" (to_close r) | None => None end.
(** lexer.py:209-214 - string_literal: the pattern is a sequence of characters other than the
    quote, backslash and newline, and of a backslash followed by a letter, an octal digit or one
    of \ ? ' and the quote (more digits are ordinary characters). *)
Definition esc_char (c : ascii) : bool := is_alpha c || within 48 55 c || one_of "\?'" c || ceqb c QUOTE.
Fixpoint str_body (s : string) : option (string * string) :=
  match s with
  | String c r =>
      if ceqb c QUOTE then Some (String c "", r)
      else if ceqb c "\"%char then
        match r with
        | String d r' => if esc_char d then match str_body r' with Some (a, b) => Some (String c (String d a), b) | None => None end else None
        | "" => None
        end
      else if ceqb c NL then None
      else match str_body r with Some (a, b) => Some (String c a, b) | None => None end
  | "" => None
  end.
Definition m_string (s : string) : option (string * string) :=
  match s with String c r => if ceqb c QUOTE then with_prefix (String c "") (str_body r) else None | "" => None end.

(** lexer.py:204-207 - exponent_part, optional and required. *)
Definition m_exp (s : string) : option (string * string) :=
  match s with
  | String c r =>
      if one_of "eE" c then
        let (sg, r1) := match r with String d r' => if one_of "+-" d then (String d "", r') else ("", r) | "" => ("", r) end in
        let (ds, r2) := span is_digit r1 in
        match ds with "" => None | _ => Some (String c (sg ++ ds), r2) end
      else None
  | "" => None
  end.
Definition opt_exp (p s : string) : string * string := match m_exp s with Some (a, b) => (p ++ a, b) | None => (p, s) end.
(** float_number. *)
Definition m_float (s : string) : option (string * string) :=
  let (ds, r) := span is_digit s in
  match r with
  | String c r1 =>
      if ceqb c "."%char then
        let (fs, r2) := span is_digit r1 in
        match fs, ds with
        | "", "" => None
        | _, _ => Some (opt_exp (ds ++ String c fs) r2)
        end
      else match ds with "" => None | _ => with_prefix ds (m_exp r) end
  | "" => None
  end.
(** lexer.py:192-202 - [0-9]*'[sS][b][first][more]*; sg: with the sign letter. *)
Definition m_based (sg : bool) (base : string) (first more : ascii -> bool) (s : string) : option (string * string) :=
  let (ds, r) := span is_digit s in
  match r with
  | String q r0 =>
      if ceqb q "'"%char then
        match (if sg then match r0 with String c r1 => if one_of "sS" c then Some (String q (String c ""), r1) else None | "" => None end
               else Some (String q "", r0)) with
        | Some (pre, String b (String f r2)) =>
            if one_of base b && first f then let (a, rest) := span more r2 in Some (ds ++ pre ++ String b (String f a), rest) else None
        | _ => None
        end
      else None
  | "" => None
  end.
Definition bin_digit (c : ascii) : bool := one_of "01" c || is_xz c.
Definition oct_digit (c : ascii) : bool := within 48 55 c || is_xz c.
Definition hex_digit (c : ascii) : bool := is_hex c || is_xz c.
Definition dec_digit (c : ascii) : bool := is_digit c || is_xz c.
Definition or_bar (p : ascii -> bool) (c : ascii) : bool := p c || ceqb c "_"%char.
(** signed_bin_number's first digit is [0-1xZzZ?]: no X. *)
Definition sbin_first (c : ascii) : bool := one_of "01xZz?" c.
Definition m_plain (s : string) : option (string * string) :=
  match s with
  | String c r => if is_digit c then let (a, b) := span (or_bar is_digit) r in Some (String c a, b) else None
  | "" => None
  end.
Definition number_rules : list (numkind * (string -> option (string * string))) :=
  [(SBIN, m_based true "bB" sbin_first (or_bar bin_digit)); (BIN, m_based false "bB" bin_digit (or_bar bin_digit));
   (SOCT, m_based true "oO" oct_digit (or_bar oct_digit)); (OCT, m_based false "oO" oct_digit (or_bar oct_digit));
   (SHEX, m_based true "hH" hex_digit (or_bar hex_digit)); (HEX, m_based false "hH" hex_digit (or_bar hex_digit));
   (SDEC, m_based true "dD" dec_digit (or_bar dec_digit)); (DEC, m_based false "dD" dec_digit (or_bar dec_digit)); (DEC, m_plain)].
Fixpoint first_rule {K} (rules : list (K * (string -> option (string * string)))) (s : string) : option (K * (string * string)) :=
  match rules with
  | [] => None
  | (k, m) :: r => match m s with Some x => Some (k, x) | None => first_rule r s end
  end.
(** lexer.py:216 - identifier. *)
Definition m_id (s : string) : option (string * string) :=
  match s with
  | String c r =>
      if id_start c then let (a, b) := span id_char r in Some (String c a, b)
      else if ceqb c "\"%char then
        match span (fun d => negb (is_space d)) r with ("", _) => None | (a, b) => Some (String c a, b) end
      else None
  | "" => None
  end.
(** lexer.py:258-260 - t_ID. *)
Definition id_token (s : string) : token := if existsb (String.eqb s) reserved then KW s else ID s.
(** lexer.py:262-265 - t_NEWLINE. *)
Definition m_newline (s : string) : option (string * string) :=
  match span (fun c => ceqb c NL) s with ("", _) => None | x => Some x end.
Fixpoint m_punct (table : list (string * punct)) (s : string) : option (punct * (string * string)) :=
  match table with
  | [] => None
  | (t, p) :: r => match strip t s with Some rest => Some (p, (t, rest)) | None => m_punct r s end
  end.

(** One match of the master pattern. *)
Inductive lexeme := Blank | Directive | Comment | Newline | Token (t : token).
Definition lex1 (s : string) : option (lexeme * (string * string)) :=
  match s with
  | String c r =>
      if one_of (String TAB " ") c then Some (Blank, (String c "", r)) else
      match m_directive s with Some x => Some (Directive, x) | None =>
      match m_linecomment s with Some x => Some (Comment, x) | None =>
      match m_comment s with Some x => Some (Comment, x) | None =>
      match m_string s with Some x => Some (Token (STRING (fst x)), x) | None =>
      match m_float s with Some x => Some (Token (FLOAT (fst x)), x) | None =>
      match first_rule number_rules s with Some (k, x) => Some (Token (INT k (fst x)), x) | None =>
      match m_id s with Some x => Some (Token (id_token (fst x)), x) | None =>
      match m_newline s with Some x => Some (Newline, x) | None =>
      match m_punct punct_table s with Some (p, x) => Some (Token (P p), x) | None => None
      end end end end end end end end end
  | "" => None
  end.
(** t.value.count("\n") *)
Fixpoint newlines (s : string) : nat :=
  match s with String c r => (if ceqb c NL then 1 else 0) + newlines r | "" => 0 end.

(** A token with its lineno and lexpos. *)
Record ltoken := LTok { lt_tok : token; lt_line : nat; lt_pos : nat }.
(** The lexer's state after a text: lexer.lineno and directives. *)
Record lexed := Lexed { l_tokens : list ltoken; l_directives : list (nat * string); l_line : nat }.
(** Tokens from position pos on. An illegal character is an error (t_error, error_func raises). *)
Fixpoint lex_go (fuel : nat) (line pos : nat) (s : string) : res lexed :=
  match fuel with
  | O => Err OutOfFuel
  | S fuel =>
      match s with
      | "" => Ok (Lexed [] [] line)
      | _ =>
          match lex1 s with
          | None => Err ParseError
          | Some (k, (text, rest)) =>
              let line' := match k with Directive | Comment | Newline => line + newlines text | _ => line end in
              do l <- lex_go fuel line' (pos + String.length text) rest;
              match k with
              | Token t => Ok (Lexed (LTok t line pos :: l_tokens l) (l_directives l) (l_line l))
              | Directive => Ok (Lexed (l_tokens l) ((line, text) :: l_directives l) (l_line l))
              | _ => Ok l
              end
          end
      end
  end.
(** The whole text, with lexer.lineno = line before: 1 for a new lexer. *)
Definition lex (line : nat) (s : string) : res lexed := lex_go (S (String.length s)) line 0 s.

(** lexer.py:110-118 - default_nettype, after the directives: the last one of the form
    "^`default_nettype\s+(.+)\n". *)
Definition nettype_of (text : string) : option string :=
  match strip "`default_nettype" text with
  | Some r =>
      match to_newline r with
      | Some (b, _) =>
          let b := substring 0 (String.length b - 1) b in
          match span is_space b with
          | ("", _) => None
          | (ws, "") => match String.length ws with S (S n) => Some (substring (S n) 1 ws) | _ => None end
          | (_, v) => Some v
          end
      | None => None
      end
  | None => None
  end.
Definition default_nettype (d : list (nat * string)) : string :=
  fold_left (fun old x => match nettype_of (snd x) with Some v => v | None => old end) d "wire".
