(** ExprSpec.v - which expressions can be written down in Verilog, and when blanks may go. *)
From Verif Require Import Base DfModel LexModel LexSpec ExprModel.
Require Import Coq.Strings.Ascii.
Local Open Scope string_scope.

(** ** Words *)
(** A simple identifier: a letter or "_", then letters, digits, "_" and "$"; not a keyword. *)
Definition simple_id (s : string) : Prop := exists c r, s = String c r /\ id_start c = true /\ all_chars id_char r /\ ~ In s reserved.
(** An escaped identifier: a backslash and one or more characters other than blanks. *)
Definition escaped_id (s : string) : Prop := exists c r, s = String "\" (String c r) /\ all_chars (fun d => negb (is_space d)) (String c r).
(** Number literals, by kind: sign letter, base letters, digits. *)
Inductive number : numkind -> string -> Prop :=
| n_plain c r : is_digit c = true -> all_chars (or_bar is_digit) r -> number DEC (String c r)
| n_bin size b d r : all_chars is_digit size -> one_of "bB" b = true -> bin_digit d = true -> all_chars (or_bar bin_digit) r -> number BIN (size ++ "'" ++ String b (String d r))
| n_oct size b d r : all_chars is_digit size -> one_of "oO" b = true -> oct_digit d = true -> all_chars (or_bar oct_digit) r -> number OCT (size ++ "'" ++ String b (String d r))
| n_hex size b d r : all_chars is_digit size -> one_of "hH" b = true -> hex_digit d = true -> all_chars (or_bar hex_digit) r -> number HEX (size ++ "'" ++ String b (String d r))
| n_dec size b d r : all_chars is_digit size -> one_of "dD" b = true -> dec_digit d = true -> all_chars (or_bar dec_digit) r -> number DEC (size ++ "'" ++ String b (String d r))
| n_sbin size g b d r : all_chars is_digit size -> one_of "sS" g = true -> one_of "bB" b = true -> bin_digit d = true -> d <> "X"%char -> all_chars (or_bar bin_digit) r -> number SBIN (size ++ "'" ++ String g (String b (String d r)))
| n_soct size g b d r : all_chars is_digit size -> one_of "sS" g = true -> one_of "oO" b = true -> oct_digit d = true -> all_chars (or_bar oct_digit) r -> number SOCT (size ++ "'" ++ String g (String b (String d r)))
| n_shex size g b d r : all_chars is_digit size -> one_of "sS" g = true -> one_of "hH" b = true -> hex_digit d = true -> all_chars (or_bar hex_digit) r -> number SHEX (size ++ "'" ++ String g (String b (String d r)))
| n_sdec size g b d r : all_chars is_digit size -> one_of "sS" g = true -> one_of "dD" b = true -> dec_digit d = true -> all_chars (or_bar dec_digit) r -> number SDEC (size ++ "'" ++ String g (String b (String d r))).

(** ** Verilog's marks (IEEE 1364, table 5-1) *)
Definition is_unary (o : op) : bool :=
  match o with Uplus | Uminus | Ulnot | Unot | Uand | Unand | Uor | Unor | Uxor | Uxnor => true | _ => false end.
Definition verilog_mark (o : op) : string :=
  match o with
  | Uplus | Plus => "+" | Uminus | Minus => "-" | Ulnot => "!" | Unot => "~" | Uand | And => "&" | Unand => "~&" | Uor | Or => "|" | Unor => "~|"
  | Uxor | Xor => "^" | Uxnor | Xnor => "~^" | Power => "**" | Times => "*" | Divide => "/" | Mod => "%"
  | Sll => "<<" | Srl => ">>" | Sla => "<<<" | Sra => ">>>" | LessThan => "<" | GreaterThan => ">" | LessEq => "<=" | GreaterEq => ">="
  | Eq => "==" | NotEq => "!=" | Eql => "===" | NotEql => "!==" | Land => "&&" | Lor => "||"
  end.

(** ** Blanks *)
Definition escaped (s : string) : bool := match s with String "\" _ => true | _ => false end.
(** The unary operator a text without outer parentheses starts with. *)
Fixpoint first_op (e : expr) : option op :=
  match e with XUn o _ => Some o | XBin o a _ => if bare_left o a then first_op a else None | _ => None end.
(** "a & &b" and "a | |b" change their meaning when blanks are removed. *)
Definition glues (o : op) (b : expr) : bool :=
  bare_right o b && match o, first_op b with And, Some Uand => true | Or, Some Uor => true | _, _ => false end.
(** Blanks may be removed from the text of e. *)
Fixpoint blank_free (e : expr) : bool :=
  match e with
  | XId s => negb (escaped s)
  | XInt _ => true
  | XUn _ a => blank_free a
  | XBin o a b => blank_free a && blank_free b && negb (glues o b)
  | XCond c t f => blank_free c && blank_free t && blank_free f
  | XConcat l => forallb blank_free l
  | XRepeat v n => blank_free v && blank_free n
  | XPart v m l => blank_free v && blank_free m && blank_free l
  | XPtr v p => blank_free v && blank_free p
  | XCall f l => negb (escaped f) && forallb blank_free l
  | XSys f l => negb (escaped f) && forallb blank_free l
  end.

(** ** Expressions *)
(** What can be indexed: an identifier or an indexed one. *)
Definition indexable (e : expr) : Prop := match e with XId _ | XPtr _ _ => True | _ => False end.
(** The trees of Verilog expressions. *)
Inductive written : expr -> Prop :=
| w_id s : simple_id s \/ escaped_id s -> written (XId s)
| w_int k s : number k s -> written (XInt s)
| w_un o a : is_unary o = true -> written a -> written (XUn o a)
| w_bin o a b : is_unary o = false -> written a -> written b -> written (XBin o a b)
| w_cond c t f : written c -> written t -> written f -> written (XCond c t f)
| w_concat l : l <> [] -> Forall written l -> written (XConcat l)
| w_repeat l n : l <> [] -> Forall written l -> written n -> written (XRepeat (XConcat l) n)
| w_part v m l : indexable v -> written v -> written m -> written l -> written (XPart v m l)
| w_ptr v p : indexable v -> written v -> written p -> written (XPtr v p)
| w_call f l : simple_id f \/ escaped_id f -> Forall written l -> written (XCall f l)
| w_sys f l : (simple_id f \/ escaped_id f) \/ f = "signed" -> Forall written l -> written (XSys f l).
(** What the generator cannot print: unary plus, <<<, $signed(), and bounds that change when
    their blanks are removed. *)
Fixpoint printable (e : expr) : bool :=
  match e with
  | XId _ | XInt _ => true
  | XUn o a => match o with Uplus => false | _ => printable a end
  | XBin o a b => match o with Sla => false | _ => printable a && printable b end
  | XCond c t f => printable c && printable t && printable f
  | XConcat l | XCall _ l => forallb printable l
  | XRepeat v n => printable v && printable n
  | XPart v m l => printable v && printable m && printable l && blank_free m && blank_free l
  | XPtr v p => printable v && printable p
  | XSys f l => negb (String.eqb f "signed" && match l with [] => true | _ => false end) && forallb printable l
  end.
(** Both together, as an induction. *)
Inductive good : expr -> Prop :=
| g_id s : simple_id s \/ escaped_id s -> good (XId s)
| g_int k s : number k s -> good (XInt s)
| g_un o a : is_unary o = true -> o <> Uplus -> good a -> good (XUn o a)
| g_bin o a b : is_unary o = false -> o <> Sla -> good a -> good b -> good (XBin o a b)
| g_cond c t f : good c -> good t -> good f -> good (XCond c t f)
| g_concat l : l <> [] -> Forall good l -> good (XConcat l)
| g_repeat l n : good (XConcat l) -> good n -> good (XRepeat (XConcat l) n)
| g_part v m l : indexable v -> good v -> good m -> good l -> blank_free m = true -> blank_free l = true -> good (XPart v m l)
| g_ptr v p : indexable v -> good v -> good p -> good (XPtr v p)
| g_call f l : simple_id f \/ escaped_id f -> Forall good l -> good (XCall f l)
| g_sys f l : simple_id f \/ escaped_id f -> Forall good l -> good (XSys f l)
| g_signed l : l <> [] -> Forall good l -> good (XSys "signed" l).
