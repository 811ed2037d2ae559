(** VisitSpec.v - scopes, declarations and assignments as a history of events. *)
From Verif Require Import Base ScopeModel ScopeSpec DfModel DfSpec BindModel BindSpec VisitModel.

(** ** Scopes *)
Section Scopes.
  Context {node : Type}.
  Implicit Type h : list (act node).
  Implicit Type c p q key : chain.

  (** The current scope after an event and after a history. *)
  Definition after (cur : chain) (a : act node) : chain :=
    match a with OpenScope _ l _ => cur ++ [l] | MoveTo _ c => c | _ => cur end.
  Definition current_after h : chain := fold_left after h [].
  (** A scope was opened, with these flags. *)
  Definition opened h c (fl : flags) : Prop :=
    exists h1 l h2, h = h1 ++ OpenScope _ l fl :: h2 /\ c = current_after h1 ++ [l].
  Definition is_module h c : Prop := exists fl, opened h c fl /\ fl_module fl = true.
  (** What was done while c was the current scope. *)
  Fixpoint done_in (cur : chain) c h : list (act node) :=
    match h with
    | [] => []
    | a :: r => (if chain_dec cur c then [a] else []) ++ done_in (after cur a) c r
    end.
  (** The declaration of a constant that counts is the first one; signals are declared as long as
      there is no constant of that name. *)
  Fixpoint constant_decl (l : list (act node)) (n : string) : list node :=
    match l with
    | [] => []
    | AddConst _ m v :: r => if String.eqb m n then [v] else constant_decl r n
    | _ :: r => constant_decl r n
    end.
  Fixpoint signal_decls (l : list (act node)) (n : string) : list node :=
    match l with
    | [] => []
    | AddConst _ m v :: r => if String.eqb m n then [] else signal_decls r n
    | AddSignal _ m v :: r => if String.eqb m n then v :: signal_decls r n else signal_decls r n
    | _ :: r => signal_decls r n
    end.
  Definition constants_in h c n : list node := constant_decl (done_in [] c h) n.
  Definition signals_in h c n : list node := signal_decls (done_in [] c h) n.

  (** c lies in p. *)
  Definition inside p c : Prop := exists r, c = p ++ r.
  (** The answer of a search from key: the innermost scope around key with a declaration, not
      beyond the innermost module. *)
  Definition nothing_inside (decls : chain -> list node) h p key : Prop :=
    forall q, inside p q -> q <> p -> inside q key -> decls q = [] /\ ~ is_module h q.
  Definition finds (decls : chain -> list node) h key (r : option (chain * list node)) : Prop :=
    match r with
    | Some (p, vs) => inside p key /\ vs = decls p /\ vs <> [] /\ nothing_inside decls h p key
    | None => exists p, inside p key /\ decls p = [] /\ is_module h p /\ nothing_inside decls h p key
    end.
  (** Names have no wildcards. *)
  Definition plain_act (a : act node) : Prop :=
    match a with OpenScope _ l _ => stype l <> STany | MoveTo _ c => no_any c | _ => True end.
  (** Outermost scopes are modules. *)
  Definition tops_are_modules h : Prop := forall l fl, opened h [l] fl -> fl_module fl = true.
End Scopes.

(** ** Labels *)
(** The labels given to a sequence of requests. *)
Fixpoint given (st : labels) (names : list string) : list string :=
  match names with [] => [] | n :: r => fst (labels_get st n) :: given (snd (labels_get st n)) r end.
Definition is_digit (c : ascii) : bool := (48 <=? nat_of_ascii c)%nat && (nat_of_ascii c <=? 57)%nat.
Fixpoint ends_with_digit (s : string) : bool :=
  match s with
  | EmptyString => false
  | String c EmptyString => is_digit c
  | String _ r => ends_with_digit r
  end.

(** ** Assignments *)
(** Assignments in procedural blocks: an assignment to dst in block c, or the end of a block whose
    blocking assignments are passed on to the block around it. *)
Inductive event := Blocking (c dst : chain) (b : bind_) | Nonblocking (c dst : chain) (b : bind_) | EndBlock (inner outer : chain).
Definition happens (w : world) (e : event) : res world :=
  match e with
  | Blocking c dst b => let (w', r) := alloc w b in setBlockingAssign w' c dst r
  | Nonblocking c dst b => let (w', r) := alloc w b in addNonblockingAssign w' c dst r
  | EndBlock i o => copyBlockingAssigns w i o
  end.
Fixpoint all_happen (w : world) (h : list event) : res world :=
  match h with [] => Ok w | e :: r => do w' <- happens w e; all_happen w' r end.
Definition no_assigns : world := World [] [].
(** The assignments to dst in c, in order. *)
Definition blocking_to (c dst : chain) (h : list event) : list bind_ :=
  flat_map (fun e => match e with Blocking c' d' b => if chain_dec c' c then if chain_dec d' dst then [b] else [] else [] | _ => [] end) h.
Definition nonblocking_to (c dst : chain) (h : list event) : list bind_ :=
  flat_map (fun e => match e with Nonblocking c' d' b => if chain_dec c' c then if chain_dec d' dst then [b] else [] else [] | _ => [] end) h.

(** The part of the destination that is assigned. *)
Definition slice (b : bind_) : df * df * df := (b_msb b, b_lsb b, b_ptr b).
(** The last assignment to each slice. *)
Definition last_assignments (history recorded : list bind_) : Prop :=
  NoDup (map slice recorded) /\
  (forall r, In r recorded -> In (slice r) (map slice history)) /\
  (forall h1 b h2, history = h1 ++ b :: h2 -> ~ In (slice b) (map slice h2) -> exists r, In r recorded /\ slice r = slice b /\ b_tree r = b_tree b).

(** Names without wildcards; bounds and indices without delays and wildcards. *)
Definition ordinary (t : df) : Prop := occurs isDelay t = false /\ occurs wild_term t = false.
Definition ordinary_event (e : event) : Prop :=
  match e with
  | Blocking c d b | Nonblocking c d b => no_any c /\ no_any d /\ ordinary (b_msb b) /\ ordinary (b_ptr b)
  | EndBlock i o => no_any i /\ no_any o
  end.
(** No two slices start at the same bit and end at different ones. *)
Definition nested_free (l : list bind_) : Prop :=
  forall a b, In a l -> In b l -> b_msb a = b_msb b -> b_ptr a = b_ptr b -> b_lsb a = b_lsb b.
Definition no_end (e : event) : Prop := match e with EndBlock _ _ => False | _ => True end.
