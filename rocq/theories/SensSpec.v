(** SensSpec.v - what the sensitivity list of an always block says, independently of the code. *)
From Verif Require Import Base ScopeModel DfModel BindModel ExprModel StmModel LitSpec ConSpec MachSpec.

(** The signal of an expression, and the bit taken of it: a decimal literal. *)
Inductive signal_of : expr -> string -> Prop :=
| so_id x : signal_of (XId x) x
| so_bit v i x : signal_of v x -> signal_of (XPtr v i) x
| so_part v m l x : signal_of v x -> signal_of (XPart v m l) x.
Definition decimal (s : string) (n : Z) : Prop :=
  numeral 10 s n /\ ~ within "__" s /\ forall t, s <> (t ++ "_")%string.
Inductive bit_at : expr -> Z -> Prop :=
| ba_bit v s n : decimal s n -> bit_at (XPtr v (XInt s)) n
| ba_whole e : (forall v i, e <> XPtr v i) -> bit_at e 0%Z.

(** Clock and reset signals go by their names: they contain one of the words, in any case of letters. *)
Definition says (words : list string) (s : string) : Prop :=
  exists w p, within w s /\ In p words /\ Forall2 same_letter (list_ascii_of_string w) (list_ascii_of_string p).
Definition clock_word : string -> Prop := says ["clk"; "clock"]%string.
Definition reset_word : string -> Prop := says ["reset"; "rst"]%string.

(** An item: edge, signal and bit. *)
Definition item_is (i : sensitem) (k : edge) (x : string) (n : Z) : Prop :=
  exists e, i = SSig k e /\ signal_of e x /\ bit_at e n.
Definition clock_item (i : sensitem) (k : edge) (x : string) (n : Z) : Prop := item_is i k x n /\ clock_word x.
Definition reset_item (i : sensitem) (k : edge) (x : string) (n : Z) : Prop := item_is i k x n /\ ~ clock_word x /\ reset_word x.
Definition other_item (i : sensitem) : Prop := exists k x n, item_is i k x n /\ ~ clock_word x /\ ~ reset_word x.
Definition clear (i : sensitem) : Prop := i = SAll \/ exists k x n, item_is i k x n.
(** Index literals as the lexer makes them: without blanks and signs. *)
Definition bare (s : string) : Prop := forall c, In c (list_ascii_of_string s) -> LitModel.is_space c = false /\ c <> "+"%char /\ c <> "-"%char.
Definition bare_index (i : sensitem) : Prop := forall k v s, i = SSig k (XPtr v (XInt s)) -> bare s.

(** The last item of a list with a property. *)
Definition last_with (P : sensitem -> Prop) (l : list sensitem) (i : sensitem) : Prop :=
  exists a b, l = (a ++ i :: b)%list /\ P i /\ Forall (fun j => ~ P j) b.
Definition is_clock (i : sensitem) : Prop := exists k x n, clock_item i k x n.
Definition is_reset (i : sensitem) : Prop := exists k x n, reset_item i k x n.
Definition edged (k : edge) : Prop := k = Posedge \/ k = Negedge.
(** The items of l with a property, in order. *)
Inductive only (P : sensitem -> Prop) : list sensitem -> list sensitem -> Prop :=
| only_nil : only P [] []
| only_take i l r : P i -> only P l r -> only P (i :: l) (i :: r)
| only_drop i l r : ~ P i -> only P l r -> only P (i :: l) r.
(** What is recorded of the clock (or reset): nothing, or edge, bit and signal of the last one; the signal is
    the one visible from the scope, if there is one. *)
Section Recorded.
  Variable sees : string -> chain -> Prop.
  Definition found (x : string) (o : option chain) : Prop :=
    match o with Some c => sees x c | None => forall c, ~ sees x c end.
  Definition recorded (P : sensitem -> Prop) (l : list sensitem) (o : option (option chain * edge * Z)) : Prop :=
    match o with
    | None => Forall (fun i => ~ P i) l
    | Some (c, k, n) => exists i x, last_with P l i /\ item_is i k x n /\ found x c
    end.
End Recorded.
(** A list that mixes clock or reset signals with others. *)
Definition mixed (l : list sensitem) : Prop := Exists other_item l /\ (Exists is_clock l \/ Exists is_reset l).
