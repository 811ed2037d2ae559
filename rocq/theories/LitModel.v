(** LitModel.v - model of integer literals: pyverilog/dataflow/dataflow.py:145-187
    (DFIntConst.eval, DFIntConst.width) and :482-515 (printing of DFEvalValue), together with
    the parts of Python's re and int() they rely on. *)
From Verif Require Import Base.
Local Open Scope Z_scope.

Definition in_str (cs : list ascii) (c : ascii) : bool := existsb (Ascii.eqb c) cs.
Definition nonempty (s : string) : bool := match s with EmptyString => false | _ => true end.

(** str.replace('_', '') (dataflow.py:154, 177). *)
Fixpoint drop_underscores (s : string) : string :=
  match s with
  | EmptyString => EmptyString
  | String c r => if Ascii.eqb c "_" then drop_underscores r else String c (drop_underscores r)
  end.

(** re.search(r'[Xx](.+)', s).group(1) for a set of letters (dataflow.py:156-171): what follows
    the first such letter that is not the last character. Simplification: '.' matches every
    character here; a literal contains no newline. *)
Fixpoint search_after (cs : list ascii) (s : string) : option string :=
  match s with
  | EmptyString => None
  | String c r => if in_str cs c && nonempty r then Some r else search_after cs r
  end.

(** re.search(r"(.+)\'[Xx].+", s).group(1) (dataflow.py:178-189): the longest non-empty prefix
    followed by a quote, one of the letters and at least one more character. [start] tells
    that the prefix so far is empty. *)
Fixpoint prefix_before (cs : list ascii) (start : bool) (s : string) : option string :=
  match s with
  | EmptyString => None
  | String c r =>
      match prefix_before cs false r with
      | Some p => Some (String c p)
      | None =>
          if start then None else
          match r with
          | String d r' => if Ascii.eqb c "'" && in_str cs d && nonempty r' then Some EmptyString else None
          | EmptyString => None
          end
      end
  end.

(** The value of a digit character, as int() reads it. *)
Definition digit_val (c : ascii) : option Z :=
  let n := Z.of_nat (nat_of_ascii c) in
  if (48 <=? n) && (n <=? 57) then Some (n - 48)
  else if (97 <=? n) && (n <=? 122) then Some (n - 87)
  else if (65 <=? n) && (n <=? 90) then Some (n - 55)
  else None.
Fixpoint parse_digits (b : Z) (s : string) (acc : Z) : res Z :=
  match s with
  | EmptyString => Ok acc
  | String c r =>
      match digit_val c with
      | Some d => if d <? b then parse_digits b r (acc * b + d) else Err ValueError
      | None => Err ValueError
      end
  end.
Definition is_space (c : ascii) : bool :=
  let n := Z.of_nat (nat_of_ascii c) in ((9 <=? n) && (n <=? 13)) || ((28 <=? n) && (n <=? 32)).
Fixpoint lstrip (s : string) : string :=
  match s with String c r => if is_space c then lstrip r else s | EmptyString => s end.
Fixpoint rstrip (s : string) : string :=
  match s with
  | EmptyString => s
  | String c r => match rstrip r with
                  | EmptyString => if is_space c then EmptyString else String c EmptyString
                  | r' => String c r'
                  end
  end.
(** An optional 0x, 0o or 0b prefix matching the base. *)
Definition strip_prefix (b : Z) (s : string) : string :=
  match s with
  | String c0 (String c1 r) =>
      if Ascii.eqb c0 "0" &&
         ((b =? 16) && in_str ["x"%char; "X"%char] c1 || (b =? 8) && in_str ["o"%char; "O"%char] c1
          || (b =? 2) && in_str ["b"%char; "B"%char] c1)
      then r else s
  | _ => s
  end.
Definition py_int_digits (b : Z) (s : string) : res Z :=
  let s' := strip_prefix b s in if nonempty s' then parse_digits b s' 0 else Err ValueError.
(** Python's int(s, b): surrounding blanks, sign, prefix, digits; ValueError otherwise.
    Simplifications: ASCII only; underscores inside the digits are rejected (every caller
    removes them first). *)
Definition py_int (b : Z) (s : string) : res Z :=
  match rstrip (lstrip s) with
  | String c r =>
      if Ascii.eqb c "-" then do v <- py_int_digits b r; Ok (- v)
      else if Ascii.eqb c "+" then py_int_digits b r
      else py_int_digits b (String c r)
  | EmptyString => Err ValueError
  end.

(** dataflow/dataflow.py:153-173 - DFIntConst.eval. The search for [Ss] only sets an unused
    variable. *)
Definition int_eval (value : string) : res Z :=
  let targ := drop_underscores value in
  match search_after ["H"%char; "h"%char] targ with
  | Some r => py_int 16 r
  | None =>
  match search_after ["D"%char; "d"%char] targ with
  | Some r => py_int 10 r
  | None =>
  match search_after ["O"%char; "o"%char] targ with
  | Some r => py_int 8 r
  | None =>
  match search_after ["B"%char; "b"%char] targ with
  | Some r => py_int 2 r
  | None => py_int 10 targ
  end end end end.

(** dataflow/dataflow.py:175-190 - DFIntConst.width. *)
Definition int_width (value : string) : res Z :=
  let targ := drop_underscores value in
  match prefix_before ["H"%char; "h"%char] true targ with
  | Some p => py_int 10 p
  | None =>
  match prefix_before ["D"%char; "d"%char] true targ with
  | Some p => py_int 10 p
  | None =>
  match prefix_before ["O"%char; "o"%char] true targ with
  | Some p => py_int 10 p
  | None =>
  match prefix_before ["B"%char; "b"%char] true targ with
  | Some p => py_int 10 p
  | None => Ok 32
  end end end end.

(** str() of a non-negative int: decimal digits, [fuel] at least their number. *)
Definition digit_char (d : Z) : ascii := ascii_of_nat (Z.to_nat (48 + d)).
Fixpoint dec_digits (fuel : nat) (n : Z) (acc : string) : string :=
  match fuel with
  | O => acc
  | S k => let acc' := String (digit_char (n mod 10)) acc in
           if n <? 10 then acc' else dec_digits k (n / 10) acc'
  end.
Definition py_str_nat (n : Z) : string := dec_digits (S (Z.to_nat n)) n EmptyString.
Definition py_str (n : Z) : string := if n <? 0 then String "-" (py_str_nat (- n)) else py_str_nat n.

(** dataflow/dataflow.py:491-502, 517-518 - DFEvalValue.__repr__ (and tocode) of an integer
    with an integer width. *)
Definition eval_value_str (v w : Z) : string :=
  let neg := Z.ltb v 0 in
  ((if neg then "(-" else "") ++ (if Z.eqb w 32 then "" else py_str w) ++ "'d" ++ py_str_nat (Z.abs v) ++
   (if neg then ")" else ""))%string.
