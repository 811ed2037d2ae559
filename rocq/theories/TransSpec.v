(** TransSpec.v - what state ranges and transition conditions mean. *)
From Verif Require Import Base ScopeModel DfModel DfSpec TransModel.
Local Open Scope Z_scope.

(** Membership in a list of inclusive ranges. *)
Definition inr (l : list (Z * Z)) (x : Z) : Prop := exists lo hi, In (lo, hi) l /\ lo <= x <= hi.

(** Proper lists of ranges: every range non-empty, two ranges never overlap. *)
Definition nonempty_ranges (l : list (Z * Z)) : Prop := Forall (fun p => fst p <= snd p) l.
Inductive disjoint_ranges : list (Z * Z) -> Prop :=
| dr_nil : disjoint_ranges []
| dr_cons p l : Forall (fun q => snd p < fst q \/ snd q < fst p) l -> disjoint_ranges l ->
                disjoint_ranges (p :: l).
Definition proper (l : list (Z * Z)) : Prop := nonempty_ranges l /\ disjoint_ranges l.

(** The unsigned comparison an operator stands for. *)
Definition compares (o : op) (s v : Z) : bool :=
  match o with
  | LessThan => s <? v | GreaterThan => v <? s | LessEq => s <=? v | GreaterEq => v <=? s
  | Eq | Eql => s =? v | NotEq | NotEql => negb (s =? v)
  | _ => false
  end.

(** The set of values an InferredValue describes, for a register holding 0..M. *)
Definition inferred_holds (v : inferred) (M x : Z) : Prop :=
  let inside := match iv_min v with None => 0 | Some a => a end <= x
                /\ x <= match iv_max v with None => M | Some b => b end in
  if iv_inv v then ~ inside else inside.

(** A state node holds for state value s under the input interpretation I. *)
Definition node_holds (I : interp) (s : Z) (n : snode) : Prop :=
  (isany n = true \/ inr (range_pairs n) s) /\
  (transcond n = DNone \/ i_truth I (eval I (transcond n)) = true).
Definition sres_holds (I : interp) (s : Z) (r : sres) : Prop :=
  match r with
  | SNone => False
  | SOne n => node_holds I s n
  | SList l => Exists (node_holds I s) l
  end.

(** Interpretations in which the logical operators mean what they say and the register
    [tn] holds s: a comparison of the register with a constant is the comparison of s; a
    signal is true exactly when it is greater than 0; unary +, - and reduction-or keep truth. *)
Record reads_state (I : interp) (tn : chain) (s : Z) : Prop := {
  rs_land : forall a b, i_truth I (i_op I Land [a; b]) = i_truth I a && i_truth I b;
  rs_lor : forall a b, i_truth I (i_op I Lor [a; b]) = i_truth I a || i_truth I b;
  rs_or : forall a b, i_truth I (i_op I Or [a; b]) = i_truth I a || i_truth I b;
  rs_not : forall a, i_truth I (i_op I Ulnot [a]) = negb (i_truth I a);
  rs_keep : forall o a, In o [Uplus; Uminus; Uor] -> i_truth I (i_op I o [a]) = i_truth I a;
  rs_sig : forall n, i_truth I (i_term I n) =
                     i_truth I (eval I (DOp [DTerm n; DEval (PInt 0) (Some 32) false false] GreaterThan));
  rs_left : forall n o v w f g, chain_eq n tn = true -> isCompare o = true ->
      i_truth I (eval I (DOp [DTerm n; DEval (PInt v) w f g] o)) = compares o s v;
  rs_right : forall n o v w f g, chain_eq n tn = true -> isCompare o = true ->
      i_truth I (eval I (DOp [DEval (PInt v) w f g; DTerm n] o)) = compares (swap_op o) s v
}.

(** Bitwise not/and inside the condition act on 1-bit values, i.e. like the logical ones. *)
Fixpoint bitwise_logical (I : interp) (c : df) : Prop :=
  match c with
  | DOp [x] o => bitwise_logical I x /\
      (o = Unot -> i_truth I (eval I c) = negb (i_truth I (eval I x)))
  | DOp [x; y] o => bitwise_logical I x /\ bitwise_logical I y /\
      (o = And -> i_truth I (eval I c) = i_truth I (eval I x) && i_truth I (eval I y))
  | _ => True
  end.

(** Conditions the inference supports: the register is compared only with integer
    constants (on either side, not by >= with the constant on the left, not by < 0); unary
    operators are not/plus/minus/reduction-or; nothing missing. *)
Definition int_const (t : df) : option Z := match t with DEval (PInt v) _ _ _ => Some v | _ => None end.
Definition cmp_ok (o : op) (t : df) : bool :=
  match o, int_const t with
  | LessThan, Some v => 0 <? v
  | (GreaterThan | GreaterEq | Eq | NotEq | Eql | NotEql), Some _ => true
  | _, _ => false
  end.
Fixpoint supported (tn : chain) (c : df) : bool :=
  match c with
  | DNone => false
  | DOp [x] o => match o with Ulnot | Unot | Uplus | Uminus | Uor => supported tn x | _ => false end
  | DOp [x; y] o =>
      match o with
      | And | Land | Or | Lor => supported tn x && supported tn y
      | Ulnot | Unot => false
      | LessThan | GreaterThan | GreaterEq | Eq | NotEq | Eql | NotEql =>
          if is_state x tn then cmp_ok o y
          else if is_state y tn then cmp_ok (swap_op o) x else true
      | _ => true
      end
  | DOp _ _ => false
  | _ => true
  end.

(** The pairs (inputs, state) a condition can be judged in. *)
Definition situation (tn : chain) (w : Z) (cs : list df) (I : interp) (s : Z) : Prop :=
  reads_state I tn s /\ 0 <= s < 2 ^ w /\ Forall (bitwise_logical I) cs.
Definition all_true (I : interp) (cs : list df) : Prop :=
  Forall (fun c => i_truth I (eval I c) = true) cs.
Definition satisfiable (tn : chain) (w : Z) (cs : list df) : Prop :=
  exists I s, situation tn w cs I s /\ all_true I cs.

(** No sub-condition under a not, and or or is contradictory. *)
Fixpoint no_contradiction (tn : chain) (w : Z) (c : df) : Prop :=
  satisfiable tn w [c] /\
  match c with
  | DOp [x] _ => no_contradiction tn w x
  | DOp [x; y] o => match o with
                    | And | Land | Or | Lor => no_contradiction tn w x /\ no_contradiction tn w y
                    | _ => True
                    end
  | _ => True
  end.
