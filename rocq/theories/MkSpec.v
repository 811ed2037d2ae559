(** MkSpec.v - the meaning of an expression, under any interpretation of signals and operators. *)
From Verif Require Import Base ScopeModel DfModel DfSpec ExprModel.

Section Meaning.
  Variable I : interp.
  Variable signal : string -> chain.        (* the signal an identifier denotes *)
  Variable array : chain -> bool.           (* is it an array *)
  Variable count : expr -> Z.               (* the value of a repetition count *)

  (** [v[p]] is an element if v is an array, and a one-bit slice otherwise. *)
  Fixpoint element (v : expr) : bool := match v with XId s => array (signal s) | XSys _ [a] => element a | _ => false end.
  Fixpoint meaning (e : expr) : dom I :=
    match e with
    | XId s => i_term I (signal s)
    | XInt s => i_const I (DInt s)
    | XUn o a => i_op I o [meaning a]
    | XBin o a b => i_op I o [meaning a; meaning b]
    | XCond c t f => if i_truth I (meaning c) then meaning t else meaning f
    | XConcat l => i_concat I (map meaning l)
    | XRepeat v n => i_concat I (repeat (meaning v) (Z.to_nat (count n)))
    | XPart v m l => i_part I (meaning v) (meaning m) (meaning l)
    | XPtr v p => if element v then i_ptr I (meaning v) (meaning p) else i_part I (meaning v) (meaning p) (meaning p)
    | XSys f l | XCall f l => i_sys I f (map meaning l)
    end.
End Meaning.

(** $signed and $unsigned do not change the value. *)
Definition plain_casts (I : interp) : Prop := forall f x, f = "signed"%string \/ f = "unsigned"%string -> i_sys I f [x] = x.
(** No function calls, and no system functions but casts. *)
Fixpoint no_calls (e : expr) : bool :=
  match e with
  | XId _ | XInt _ => true
  | XUn _ a => no_calls a
  | XBin _ a b => no_calls a && no_calls b
  | XCond c t f => no_calls c && no_calls t && no_calls f
  | XConcat l => forallb no_calls l
  | XRepeat v _ => no_calls v
  | XPart v m l => no_calls v && no_calls m && no_calls l
  | XPtr v p => no_calls v && no_calls p
  | XSys f [a] => (String.eqb f "signed" || String.eqb f "unsigned") && no_calls a
  | XSys _ _ | XCall _ _ => false
  end.
(** A conditional operator, possibly below other operators, selects the value (not an index, a bound or
    a repeated value). *)
Fixpoint conditional (e : expr) : bool :=
  match e with
  | XCond _ _ _ => true
  | XUn _ a => conditional a
  | XBin _ a b => conditional a || conditional b
  | XConcat l => existsb conditional l
  | XPart v _ _ => conditional v
  | XSys _ (a :: _) => conditional a
  | _ => false
  end.
(** Conditions are not conditional themselves. *)
Fixpoint simple_conds (e : expr) : bool :=
  match e with
  | XId _ | XInt _ => true
  | XUn _ a => simple_conds a
  | XBin _ a b => simple_conds a && simple_conds b
  | XCond c t f => negb (conditional c) && simple_conds c && simple_conds t && simple_conds f
  | XConcat l | XSys _ l | XCall _ l => forallb simple_conds l
  | XRepeat v _ => simple_conds v
  | XPart v m l => simple_conds v && simple_conds m && simple_conds l
  | XPtr v p => simple_conds v && simple_conds p
  end.
(** All identifiers are declared, all repetition counts are known. *)
Fixpoint resolved (find : string -> res chain) (times : expr -> res Z) (e : expr) : Prop :=
  match e with
  | XId s => exists n, find s = Ok n
  | XInt _ => True
  | XUn _ a => resolved find times a
  | XBin _ a b => resolved find times a /\ resolved find times b
  | XCond c t f => resolved find times c /\ resolved find times t /\ resolved find times f
  | XConcat l | XSys _ l | XCall _ l => fold_right (fun x P => resolved find times x /\ P) True l
  | XRepeat v n => resolved find times v /\ exists c, times n = Ok c
  | XPart v m l => resolved find times v /\ resolved find times m /\ resolved find times l
  | XPtr v p => resolved find times v /\ resolved find times p
  end.
