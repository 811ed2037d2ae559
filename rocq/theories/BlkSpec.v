(** BlkSpec.v - what the blocking assignments of an always block do. *)
From Verif Require Import Base ScopeModel ScopeSpec DfModel DfSpec ReorderSpec BindModel BindSpec AsgModel AsgSpec BlkModel.

(** ** Execution: statements change the values of signals, in order. *)
Section Exec.
  Variable I : interp.
  Definition state := chain -> dom I.
  Definition at_state (v : state) : interp := with_signals I v.
  Definition update (v : state) (n : chain) (x : dom I) : state := fun m => if chain_dec n m then x else v m.
  Fixpoint bexec (x : bstmt) (v : state) : state :=
    match x with
    | BAsg n e => update v n (eval (at_state v) e)
    | BBlock l => (fix go (l : list bstmt) (v : state) : state := match l with [] => v | y :: r => go r (bexec y v) end) l v
    | BIf c t e => if i_truth I (eval (at_state v) c) then match t with Some y => bexec y v | None => v end
                   else match e with Some y => bexec y v | None => v end
    | BCase comp items =>
        (fix go (l : list (option (list df) * option bstmt)) : state :=
           match l with
           | [] => v
           | (g, y) :: r => if label_matches (at_state v) comp g then match y with Some y => bexec y v | None => v end else go r
           end) items
    end.
  (** The value of the tree of a signal: a missing arm leaves the old value. *)
  Fixpoint tree_value (old : dom I) (t : df) : dom I :=
    match t with
    | DNone => old
    | DBranch c x y => if i_truth I (eval I c) then tree_value old x else tree_value old y
    | _ => eval I t
    end.
  (** The signals the analysis has added have the values of their trees. *)
  Definition consistent (s s' : bst) : Prop :=
    forall n t, In n (bs_terms s') -> ~ In n (bs_terms s) -> dget (bs_trees s') n = Some t -> i_term I n = eval I t.
End Exec.

(** Does a statement assign the signal? *)
Definition same_name (n m : chain) : bool := if chain_dec n m then true else false.
Fixpoint bassigns (x : bstmt) (n : chain) : bool :=
  match x with
  | BAsg m _ => same_name m n
  | BBlock l => existsb (fun y => bassigns y n) l
  | BIf _ t e => match t with Some y => bassigns y n | None => false end || match e with Some y => bassigns y n | None => false end
  | BCase _ items => existsb (fun gy => match snd gy with Some y => bassigns y n | None => false end) items
  end.

(** ** Well-formed statements over the declared signals [ns]: expressions as they are made from the
    source (nothing missing, no delays, no system functions); conditions without conditional
    operators; arrays and signals that have a tree already are not assigned. *)
Definition odd_node (t : df) : bool :=
  match t with DNone | DUndef _ | DHiz _ | DDelay _ | DSys _ _ => true | _ => false end.
Definition expr_ok (ns : list chain) (e : df) : Prop := occurs odd_node e = false /\ incl (names e) ns.
Fixpoint bwf (s : bst) (array : chain -> bool) (x : bstmt) : Prop :=
  match x with
  | BAsg n e => In n (bs_terms s) /\ array n = false /\ dget (bs_trees s) n = None /\ expr_ok (bs_terms s) e
  | BBlock l => (fix all (l : list bstmt) : Prop := match l with [] => True | y :: r => bwf s array y /\ all r end) l
  | BIf c t e => expr_ok (bs_terms s) c /\ branch_free c /\ match t with Some y => bwf s array y | None => True end
                 /\ match e with Some y => bwf s array y | None => True end
  | BCase comp items =>
      expr_ok (bs_terms s) comp /\ branch_free comp /\
      (fix all (l : list (option (list df) * option bstmt)) : Prop :=
         match l with
         | [] => True
         | (g, y) :: r => match g with Some ws => Forall (fun w => expr_ok (bs_terms s) w /\ branch_free w) ws | None => True end
                          /\ match y with Some y => bwf s array y | None => True end /\ all r
         end) items
  end.
(** The declared names and the names with trees have no wildcards; names with trees and names in
    trees are declared. *)
Definition bst_ok (s : bst) : Prop :=
  Forall no_any (bs_terms s) /\ Forall (fun p => no_any (fst p) /\ In (fst p) (bs_terms s) /\ incl (names (snd p)) (bs_terms s)) (bs_trees s).
(** 1 is true, || is "or", parts of nothing are nothing. *)
Definition ops_sane (I : interp) : Prop :=
  none_strict I /\ i_truth I (i_const I (DInt "1")) = true /\ forall a b, i_truth I (i_op I Lor [a; b]) = i_truth I a || i_truth I b.

(** ** The statements for which the trees are right. What is known of a signal at a place:
    - BVacant: not assigned on the way here;
    - BHere: assigned, and its tree branches on all the conditions around this place;
    - BNear: assigned, and its tree branches on all of them but the last one;
    - BFar: assigned.
    The flag says that its last assignment was not made under a further condition. *)
Inductive bplace := BVacant | BHere | BNear | BFar.
Definition env := chain -> bplace * bool.
Definition set_env (v : env) (n : chain) (i : bplace * bool) : env := fun m => if chain_dec n m then i else v m.
(** Entering an arm; [other]: the signals the other arm has assigned already. *)
Definition enter (other : chain -> bool) (v : env) : env := fun n =>
  match v n with
  | (BVacant, f) => (BVacant, f)
  | (BHere, f) => (if other n then BHere else BNear, f)
  | (_, f) => (BFar, f)
  end.
(** Leaving an if or a case. *)
Definition leave (assigned : chain -> bool) (v : env) : env := fun n => if assigned n then (BHere, false) else v n.
(** A condition reads signals that are not assigned so far, or unconditionally and not in the arms. *)
Definition readable (v : env) (assigned : chain -> bool) (c : df) : bool :=
  forallb (fun n => match v n with (BVacant, _) => true | (_, f) => f && negb (assigned n) end) (names c).
Definition oassigns (x : option bstmt) (n : chain) : bool := match x with Some y => bassigns y n | None => false end.

Fixpoint bflow (x : bstmt) (v : env) : option env :=
  match x with
  | BAsg n _ => match v n with (BFar, _) => None | _ => Some (set_env v n (BHere, true)) end
  | BBlock l => (fix go (l : list bstmt) (v : env) : option env := match l with [] => Some v | y :: r => obind (bflow y v) (go r) end) l v
  | BIf c t e =>
      if readable v (bassigns x) c then
        obind (match t with Some y => bflow y (enter (fun _ => false) v) | None => Some v end) (fun _ =>
        obind (match e with Some y => bflow y (enter (oassigns t) v) | None => Some v end) (fun _ =>
        Some (leave (bassigns x) v)))
      else None
  | BCase comp items =>
      if readable v (bassigns x) comp && forallb (fun gy => match fst gy with Some ws => forallb (readable v (bassigns x)) ws | None => true end) items then
        obind ((fix go (l : list (option (list df) * option bstmt)) (v : env) : option env :=
                  match l with
                  | [] => Some v
                  | (_, y) :: r =>
                      obind (match y with Some y => bflow y (enter (fun _ => false) v) | None => Some v end) (fun _ =>
                      go r (enter (oassigns y) v))
                  end) items v) (fun _ =>
        Some (leave (bassigns x) v))
      else None
  end.
Definition bsupported (x : bstmt) : Prop := bflow x (fun _ => (BVacant, false)) <> None.
