(** LitSpec.v - Verilog integer literals and the numbers they denote. *)
From Verif Require Import Base.
Local Open Scope Z_scope.

(** The value of a digit: its index in 0123456789abcdef, capitals as small letters. *)
Definition digits_of : list (ascii * Z) :=
  [("0"%char, 0); ("1"%char, 1); ("2"%char, 2); ("3"%char, 3); ("4"%char, 4); ("5"%char, 5); ("6"%char, 6); ("7"%char, 7);
   ("8"%char, 8); ("9"%char, 9); ("a"%char, 10); ("b"%char, 11); ("c"%char, 12); ("d"%char, 13); ("e"%char, 14); ("f"%char, 15);
   ("A"%char, 10); ("B"%char, 11); ("C"%char, 12); ("D"%char, 13); ("E"%char, 14); ("F"%char, 15)].
Definition is_digit (b : Z) (c : ascii) (d : Z) : Prop := In (c, d) digits_of /\ d < b.

(** [numeral b s n]: s is a string of base-b digits and underscores, and reading on from the
    value n gives the value m. *)
Inductive reads (b : Z) : Z -> string -> Z -> Prop :=
| reads_nil n : reads b n EmptyString n
| reads_digit n c d s m : is_digit b c d -> reads b (n * b + d) s m -> reads b n (String c s) m
| reads_underscore n s m : reads b n s m -> reads b n (String "_" s) m.
(** A numeral starts with a digit. *)
Definition numeral (b : Z) (s : string) (n : Z) : Prop :=
  exists c d r, s = String c r /\ is_digit b c d /\ reads b d r n.

Inductive base_letter : ascii -> Z -> Prop :=
| bl_b : base_letter "b" 2 | bl_B : base_letter "B" 2
| bl_o : base_letter "o" 8 | bl_O : base_letter "O" 8
| bl_d : base_letter "d" 10 | bl_D : base_letter "D" 10
| bl_h : base_letter "h" 16 | bl_H : base_letter "H" 16.
Inductive sign_mark : string -> Prop :=
| sm_none : sign_mark "" | sm_s : sign_mark "s" | sm_S : sign_mark "S".
(** The size before the quote: absent, or a decimal numeral. *)
Inductive size_part : string -> option Z -> Prop :=
| sp_none : size_part "" None
| sp_some s n : numeral 10 s n -> size_part s (Some n).

(** [literal s sg w n]: s is an integer literal with sign mark sg, size w and value n. *)
Inductive literal : string -> string -> option Z -> Z -> Prop :=
| lit_plain s n : numeral 10 s n -> literal s "" None n
| lit_based size w sg c b ds n : size_part size w -> sign_mark sg -> base_letter c b -> numeral b ds n ->
    literal (size ++ "'" ++ sg ++ String c ds) sg w n.
