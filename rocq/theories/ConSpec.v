(** ConSpec.v - what assignments, connections and gates assign: targets and values, under any
    interpretation of signals and operators. *)
From Verif Require Import Base ScopeModel ScopeSpec DfModel DfSpec BindModel ExprModel MkSpec LitModel ConModel.

Definition net (scope : chain) (x : string) : chain := (scope ++ [Label x STsignal None])%list.
Definition known (s : store) (n : chain) : option term := dget (s_terms s) n.
(** The signal x seen from a scope: the innermost enclosing one, not beyond the module. *)
Definition visible (is_module : chain -> bool) (s : store) (scope : chain) (x : string) (n : chain) : Prop :=
  exists up down, scope = (up ++ down)%list /\ up <> [] /\ n = net up x /\ known s n <> None /\
    forall d r, down = (d ++ r)%list -> d <> [] -> known s (net (up ++ d) x) = None /\ is_module (up ++ d)%list = false.
(** [names] gives every identifier its signal; an undeclared one would be declared in the scope. *)
Definition named (is_module : chain -> bool) (s : store) (scope : chain) (names : string -> chain) : Prop :=
  forall x, visible is_module s scope x (names x) \/ ((forall n, ~ visible is_module s scope x n) /\ names x = net scope x).
Definition array (s : store) (n : chain) : bool := match known s n with Some (Term _ _ _ _ (Some _)) => true | _ => false end.

(** The expressions of a left side, from left to right. *)
Fixpoint flat (l : lval) : list expr := match l with LOne e => [e] | LCat l => flat_map flat l end.

(** Literal 0 and 1, + and - are those of the integers on the values [num z]. *)
Definition numbers (I : interp) (num : Z -> dom I) : Prop :=
  i_const I (DInt "0") = num 0%Z /\ i_const I (DInt "1") = num 1%Z /\
  (forall a b, i_op I Plus [num a; num b] = num (a + b)%Z) /\ (forall a b, i_op I Minus [num a; num b] = num (a - b)%Z).
(** Signal names that compare equal are the same signal. *)
Definition by_name (I : interp) : Prop := forall n m, agree n m -> i_term I n = i_term I m.
(** The optimizer keeps values. *)
Definition sound (I : interp) (opt : df -> res df) : Prop := forall t t', opt t = Ok t' -> eval I t' = eval I t /\ (t <> DNone -> t' <> DNone).

Section Spec.
  Variable I : interp.
  Variable num : Z -> dom I.
  Variable is_module : chain -> bool.
  Variable count : expr -> Z.               (* repetition counts *)

  (** A target: a signal with the values of its upper and lower bound and its index ([i_none] if it
      has none). *)
  Definition target := (chain * dom I * dom I * dom I)%type.
  (** The store assigns the value v to the target. *)
  Definition stored (s : store) (t : target) (v : dom I) : Prop :=
    let '(n, m, l, p) := t in
    exists b, In b (getBindlist (s_binds s) n) /\ eval I (b_msb b) = m /\ eval I (b_lsb b) = l /\ eval I (b_ptr b) = p /\ eval I (b_tree b) = v.
  (** The writes ws lead from s to s'. *)
  Definition effect (s : store) (ws : list (target * dom I)) (s' : store) : Prop :=
    (forall t v, In (t, v) ws -> stored s' t v) /\
    (forall t v, no_any (fst (fst (fst t))) -> ~ In t (map fst ws) -> (stored s' t v <-> stored s t v)) /\
    (forall t v, no_any (fst (fst (fst t))) -> stored s' t v -> In (t, v) ws \/ stored s t v).
  (** Declarations: the ones there were, and new one-bit nets for the undeclared ones among the identifiers es. *)
  Definition declared (nettype : string) (s : store) (scope : chain) (es : list expr) (s' : store) : Prop :=
    (forall n t, no_any n -> known s n = Some t -> known s' n = Some t) /\
    (forall n, no_any n -> known s n = None -> known s' n = None \/
       exists x, In (XId x) es /\ (forall m, ~ visible is_module s scope x m) /\ n = net scope x /\
         known s' n = Some (Term n [if String.eqb nettype "reg" then "Reg" else "Wire"]%string (DInt "0") (DInt "0") None)).

  (** ** Expressions in a scope *)
  Section Scope.
    Variable s : store.
    Variable names : string -> chain.
    Definition means (e : expr) : dom I := meaning I names (array s) count e.
    (** The signal, the range and the index of an expression on a left side. *)
    Inductive spot : expr -> chain -> option (expr * expr) -> option expr -> Prop :=
    | spot_whole x : spot (XId x) (names x) None None
    | spot_range x m l : spot (XPart (XId x) m l) (names x) (Some (m, l)) None
    | spot_bit x i : array s (names x) = false -> spot (XPtr (XId x) i) (names x) (Some (i, i)) None
    | spot_word x i : array s (names x) = true -> spot (XPtr (XId x) i) (names x) None (Some i)
    | spot_word_range x i m l : array s (names x) = true -> spot (XPart (XPtr (XId x) i) m l) (names x) (Some (m, l)) (Some i)
    | spot_word_bit x i j : array s (names x) = true -> spot (XPtr (XPtr (XId x) i) j) (names x) (Some (j, j)) (Some i).
    Definition index (i : option expr) : dom I := match i with Some e => means e | None => i_none I end.
    (** A left side by itself. *)
    Inductive place : expr -> target -> Prop :=
    | place_whole e n i : spot e n None i -> place e (n, i_none I, i_none I, index i)
    | place_range e n m l i : spot e n (Some (m, l)) i -> place e (n, means m, means l, index i).
    (** One of several left sides, with its range [hi:lo] in numbers: as written, or as declared; one bit if not declared. *)
    Inductive spans : expr -> Z -> Z -> target -> Prop :=
    | spans_range e n m l i hi lo : spot e n (Some (m, l)) i -> means m = num hi -> means l = num lo -> spans e hi lo (n, num hi, num lo, index i)
    | spans_declared e n i t hi lo : spot e n None i -> known s n = Some t -> eval I (t_msb t) = num hi -> eval I (t_lsb t) = num lo ->
        spans e hi lo (n, num hi, num lo, index i)
    | spans_implicit e n i : spot e n None i -> known s n = None -> spans e 0 0 (n, num 0%Z, num 0%Z, index i).
    (** The left sides es take the value v apart, the last one taking the lowest bits; w is the width. *)
    Inductive split_among (v : dom I) : list expr -> list (target * dom I) -> Z -> Prop :=
    | split_nil : split_among v [] [] 0
    | split_cons e es hi lo t ws w : split_among v es ws w -> spans e hi lo t -> (lo <= hi)%Z ->
        split_among v (e :: es) ((t, i_part I v (num (w + (hi - lo))%Z) (num w)) :: ws) (w + (hi - lo + 1))%Z.
    (** The writes of an assignment of v to the left sides es. *)
    Inductive writes (v : dom I) : list expr -> list (target * dom I) -> Prop :=
    | writes_one e t : place e t -> writes v [e] [(t, v)]
    | writes_many es ws w : length es <> 1%nat -> split_among v es ws w -> writes v es ws.
  End Scope.

  (** ** Connections of an instance *)
  Inductive direction := In_ | Out_ | Both.
  Definition directed (types : list string) (d : direction) : Prop :=
    filter (fun t => existsb (String.eqb t) ["Input"; "Output"; "Inout"]%string) types = [match d with In_ => "Input" | Out_ => "Output" | Both => "Inout" end]%string.
  (** Element number i of an array of instances takes bit i of every argument. *)
  Definition pick (i : option Z) (e : expr) : expr := match i with None => e | Some i => XPtr e (XInt (py_str i)) end.
  Section Instance.
    Variables (s : store) (inst : chain) (names : string -> chain) (i : option Z).
    Inductive connection (c : conn) (portname : string) : list (target * dom I) -> Prop :=
    | open_ : c_arg c = None -> connection c portname []
    | input e t : c_arg c = Some e -> known s (net inst portname) = Some t -> directed (t_type t) In_ ->
        connection c portname [(net inst portname, i_none I, i_none I, i_none I, means s names (pick i e))]
    | output e t q : c_arg c = Some e -> known s (net inst portname) = Some t -> directed (t_type t) Out_ -> place s names (pick i e) q ->
        connection c portname [(q, i_term I (net inst portname))]
    | inout e t q : c_arg c = Some e -> known s (net inst portname) = Some t -> directed (t_type t) Both -> place s names (pick i e) q ->
        connection c portname [(net inst portname, i_none I, i_none I, i_none I, means s names (pick i e)); (q, i_term I (net inst portname))].
    (** A connection goes to the port it names, or to the port in its position. *)
    Inductive connections : list string -> list conn -> list (target * dom I) -> Prop :=
    | no_connections ports : connections ports [] []
    | more_connections p ports c cs w ws : connection c (match c_port c with Some q => q | None => p end) w -> connections ports cs ws ->
        connections (p :: ports) (c :: cs) (w ++ ws).
  End Instance.
End Spec.

(** ** Gates: the reduction of the inputs, taken one bit each. *)
Definition bit (i : option Z) (e : expr) : expr := XPtr e (XInt (match i with None => "0"%string | Some i => py_str i end)).
Definition gate_value (I : interp) (name : string) (vs : list (dom I)) : option (dom I) :=
  let reduce o := Some (i_op I o [i_concat I vs]) in
  if String.eqb name "and" then reduce Uand else if String.eqb name "nand" then reduce Unand else if String.eqb name "or" then reduce Uor
  else if String.eqb name "nor" then reduce Unor else if String.eqb name "xor" then reduce Uxor else if String.eqb name "xnor" then reduce Uxnor
  else if String.eqb name "not" then match vs with [v] => Some (i_op I Ulnot [v]) | _ => None end
  else if String.eqb name "buf" then match vs with [v] => Some v | _ => None end else None.

(** The interpretation and the parameters of the code fit together. *)
Definition fair (I : interp) (num : Z -> dom I) (count : expr -> Z) (opt : df -> res df) (times : expr -> res Z) : Prop :=
  none_strict I /\ by_name I /\ plain_casts I /\ sound I opt /\ (forall x c, times x = Ok c -> count x = c) /\ numbers I num.
(** No stored name has a wildcard. *)
Definition plain_store (s : store) : Prop := Forall (fun e => no_any (fst e)) (s_terms s) /\ Forall (fun e => no_any (fst e)) (s_binds s).
(** The conditions around an assignment hold. *)
Definition taken (I : interp) (p : list (df * bool)) : Prop := Forall (fun cb => i_truth I (eval I (fst cb)) = snd cb) p.
(** The arguments of connections. *)
Definition arguments (i : option Z) (cs : list conn) : list expr := flat_map (fun c => match c_arg c with Some e => [pick i e] | None => [] end) cs.
