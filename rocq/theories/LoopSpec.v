(** LoopSpec.v - what the statements of an always block do, with loops; what unrolling them means; the statements
    for which the analysis unrolls them as they run. *)
From Verif Require Import Base ScopeModel ScopeSpec DfModel DfSpec ReorderSpec BindModel BindSpec AsgModel AsgSpec BlkModel BlkSpec LitModel OptModel OptSpec LoopModel.

(** ** Execution *)
Section Runs.
  Variable I : interp.
  Notation state := (state I).
  Definition value_in (v : state) (e : df) : dom I := eval (at_state I v) e.
  Definition true_in (v : state) (e : df) : bool := i_truth I (value_in v e).
  Definition set_to (n : chain) (e : df) (v : state) : state := update I v n (value_in v e).
  Inductive lruns : lstmt -> state -> state -> Prop :=
  | r_asg n e v : lruns (LAsg n e) v (set_to n e v)
  | r_block l v v' : lruns_all l v v' -> lruns (LBlock l) v v'
  | r_if c t e v v' : lruns_opt (if true_in v c then t else e) v v' -> lruns (LIf c t e) v v'
  | r_case comp items v v' : lruns_case comp items v v' -> lruns (LCase comp items) v v'
  | r_for i a c j b body v v' : lruns_loop c (Some (j, b)) body (set_to i a v) v' -> lruns (LFor i a c j b body) v v'
  | r_while c body v v' : lruns_loop c None body v v' -> lruns (LWhile c body) v v'
  with lruns_all : list lstmt -> state -> state -> Prop :=
  | r_nil v : lruns_all [] v v
  | r_cons x l v v1 v2 : lruns x v v1 -> lruns_all l v1 v2 -> lruns_all (x :: l) v v2
  with lruns_opt : option lstmt -> state -> state -> Prop :=
  | r_none v : lruns_opt None v v
  | r_some x v v' : lruns x v v' -> lruns_opt (Some x) v v'
  with lruns_case : df -> list (option (list df) * option lstmt) -> state -> state -> Prop :=
  | r_no_item comp v : lruns_case comp [] v v
  | r_match comp g y l v v' : label_matches (at_state I v) comp g = true -> lruns_opt y v v' -> lruns_case comp ((g, y) :: l) v v'
  | r_next comp g y l v v' : label_matches (at_state I v) comp g = false -> lruns_case comp l v v' -> lruns_case comp ((g, y) :: l) v v'
  (** While the condition holds: the body, then the step. *)
  with lruns_loop : df -> option (chain * df) -> lstmt -> state -> state -> Prop :=
  | r_end c step body v : true_in v c = false -> lruns_loop c step body v v
  | r_round c step body v v1 v2 : true_in v c = true -> lruns body v v1 ->
      lruns_loop c step body (match step with Some (j, b) => set_to j b v1 | None => v1 end) v2 -> lruns_loop c step body v v2.
End Runs.

(** ** Unrolling: the statements a statement stands for, with its loops written out for some numbers of rounds. *)
Definition one (ys : list bstmt) : bstmt := match ys with [y] => y | _ => BBlock ys end.
Fixpoint unrolls (x : lstmt) (ys : list bstmt) {struct x} : Prop :=
  match x with
  | LAsg n e => ys = [BAsg n e]
  | LBlock l =>
      exists yss, (fix all (l : list lstmt) (yss : list (list bstmt)) : Prop :=
                     match l, yss with [], [] => True | x :: l, zs :: yss => unrolls x zs /\ all l yss | _, _ => False end) l yss /\
                  ys = [BBlock (concat yss)]
  | LIf c t e =>
      exists t' e', match t, t' with None, None => True | Some x, Some y => exists zs, unrolls x zs /\ y = one zs | _, _ => False end /\
                    match e, e' with None, None => True | Some x, Some y => exists zs, unrolls x zs /\ y = one zs | _, _ => False end /\
                    ys = [BIf c t' e']
  | LCase comp items =>
      exists items', (fix all (l : list (option (list df) * option lstmt)) (l' : list (option (list df) * option bstmt)) : Prop :=
                        match l, l' with
                        | [], [] => True
                        | (g, o) :: l, (g', o') :: l' =>
                            g = g' /\ match o, o' with None, None => True | Some x, Some y => exists zs, unrolls x zs /\ y = one zs | _, _ => False end /\ all l l'
                        | _, _ => False
                        end) items items' /\ ys = [BCase comp items']
  | LFor i a c j b body => exists rounds, Forall (unrolls body) rounds /\ ys = BAsg i a :: flat_map (fun zs => [BBlock zs; BAsg j b]) rounds
  | LWhile c body => exists rounds, Forall (unrolls body) rounds /\ ys = map BBlock rounds
  end.

(** ** Which signals are assigned; well-formed statements, as in BlkSpec. *)
Fixpoint lassigns (x : lstmt) (n : chain) : bool :=
  match x with
  | LAsg m _ => same_name m n
  | LBlock l => existsb (fun y => lassigns y n) l
  | LIf _ t e => match t with Some y => lassigns y n | None => false end || match e with Some y => lassigns y n | None => false end
  | LCase _ items => existsb (fun gy => match snd gy with Some y => lassigns y n | None => false end) items
  | LFor i _ _ j _ body => same_name i n || same_name j n || lassigns body n
  | LWhile _ body => lassigns body n
  end.
Fixpoint lwf (s : bst) (array : chain -> bool) (x : lstmt) : Prop :=
  match x with
  | LAsg n e => bwf s array (BAsg n e)
  | LBlock l => (fix all (l : list lstmt) : Prop := match l with [] => True | y :: r => lwf s array y /\ all r end) l
  | LIf c t e => expr_ok (bs_terms s) c /\ branch_free c /\ match t with Some y => lwf s array y | None => True end
                 /\ match e with Some y => lwf s array y | None => True end
  | LCase comp items =>
      expr_ok (bs_terms s) comp /\ branch_free comp /\
      (fix all (l : list (option (list df) * option lstmt)) : Prop :=
         match l with
         | [] => True
         | (g, y) :: r => match g with Some ws => Forall (fun w => expr_ok (bs_terms s) w /\ branch_free w) ws | None => True end
                          /\ match y with Some y => lwf s array y | None => True end /\ all r
         end) items
  | LFor i a c j b body => bwf s array (BAsg i a) /\ bwf s array (BAsg j b) /\ expr_ok (bs_terms s) c /\ lwf s array body
  | LWhile c body => expr_ok (bs_terms s) c /\ lwf s array body
  end.

(** ** Loop headers: integer arithmetic without widths. *)
Definition arith (o : op) : bool :=
  match o with
  | Uminus | Ulnot | Power | Times | Plus | Minus | Sll | Sra | LessThan | GreaterThan | LessEq | GreaterEq
  | Eq | NotEq | Eql | NotEql | And | Or | Xor | Land | Lor => true
  | _ => false
  end.
Definition one_operand (o : op) : bool := match o with Uminus | Ulnot => true | _ => false end.
(** Made of signals, integer literals and these operators. *)
Fixpoint simple (t : df) : bool :=
  match t with
  | DTerm _ => true
  | DInt s => negb (has_xz s)
  | DEval (PInt _) _ _ _ => true
  | DOp l o => arith o && (length l =? if one_operand o then 1 else 2)%nat && forallb simple l
  | _ => false
  end.
(** A comparison or a logical operator on top: the value is 0 or 1. *)
Definition test (t : df) : bool := match t with DOp _ o => bool_op o | _ => false end.
(** Numbers in an interpretation: [num z] is the value of the number z; 0 is the false one. *)
Definition numbers (I : interp) (num : Z -> dom I) : Prop :=
  (forall s z, has_xz s = false -> int_eval s = Ok z -> i_const I (DInt s) = num z) /\
  (forall z w f g, i_const I (DEval (PInt z) w f g) = num z) /\
  (forall o zs z, arith o = true -> op_value o zs 0 = Some z -> i_op I o (map num zs) = num z) /\
  (forall z, i_truth I (num z) = negb (z =? 0)%Z).

(** ** The statements for which loops are unrolled as they run. *)
Section Safe.
  Variable K : chain -> bool.               (* the signals the loop conditions depend on *)
  Variable A : chain -> bool.               (* all assigned signals *)
  (** An expression over them, at a place where they are assigned unconditionally (or not assigned in the block at
      all: parameters). *)
  Definition controlled (w : env) (e : df) : Prop :=
    simple e = true /\
    forall n, In n (names e) -> K n = true /\ (A n = false \/ match w n with (BVacant, _) => False | (_, f) => f = true end).
  Definition assignable (w : env) (n : chain) (e : df) : Prop :=
    match w n with (BFar, _) => False | _ => True end /\ (K n = true -> controlled w e).
  Definition flow_all (ys : list bstmt) (w w' : env) : Prop := bflow (BBlock ys) w = Some w'.
  (** As bflow, for every number of rounds. *)
  Fixpoint lsafe (x : lstmt) (w : env) {struct x} : Prop :=
    match x with
    | LAsg n e => assignable w n e
    | LBlock l =>
        (fix all (l : list lstmt) (w : env) : Prop :=
           match l with
           | [] => True
           | y :: r => lsafe y w /\ forall ys w', unrolls y ys -> flow_all ys w w' -> all r w'
           end) l w
    | LIf c t e =>
        readable w (lassigns x) c = true /\
        match t with Some y => lsafe y (enter (fun _ => false) w) | None => True end /\
        match e with
        | Some y => match t with
                    | None => lsafe y (enter (fun _ => false) w)
                    | Some y' => forall ys, unrolls y' ys -> lsafe y (enter (bassigns (one ys)) w)
                    end
        | None => True
        end
    | LCase comp items =>
        readable w (lassigns x) comp = true /\
        Forall (fun gy => match fst gy with Some ws => forallb (readable w (lassigns x)) ws = true | None => True end) items /\
        (fix all (l : list (option (list df) * option lstmt)) (w : env) : Prop :=
           match l with
           | [] => True
           | (_, None) :: r => all r (enter (fun _ => false) w)
           | (_, Some y) :: r => lsafe y (enter (fun _ => false) w) /\ forall ys, unrolls y ys -> all r (enter (bassigns (one ys)) w)
           end) items w
    | LFor i a c j b body =>
        assignable w i a /\
        forall rounds w', Forall (unrolls body) rounds -> flow_all (BAsg i a :: flat_map (fun zs => [BBlock zs; BAsg j b]) rounds) w w' ->
          controlled w' c /\ test c = true /\ lsafe body w' /\
          forall ys w'', unrolls body ys -> flow_all ys w' w'' -> assignable w'' j b
    | LWhile c body =>
        forall rounds w', Forall (unrolls body) rounds -> flow_all (map BBlock rounds) w w' ->
          controlled w' c /\ test c = true /\ lsafe body w'
    end.
End Safe.
Definition lsupported (K : chain -> bool) (x : lstmt) : Prop := lsafe K (lassigns x) x (fun _ => (BVacant, false)).
(** The constants the optimizer knows of the parameters in loop headers are their values. *)
Definition known_constants (I : interp) (num : Z -> dom I) (K A : chain -> bool) (E : optenv) : Prop :=
  Forall (fun p => no_any (fst p)) (o_const E) /\
  forall n, K n = true -> A n = false -> exists z w f g, dget (o_const E) n = Some (DEval (PInt z) w f g) /\ i_term I n = num z.
