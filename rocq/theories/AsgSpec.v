(** AsgSpec.v - what the nonblocking assignments of an always block do to one target. *)
From Verif Require Import Base ScopeModel ScopeSpec DfModel DfSpec ReorderSpec BindModel BindSpec AsgModel.

Definition df_dec : forall a b : df, {a = b} + {a <> b}.
Proof.
  assert (DO : forall a b : op, {a = b} + {a <> b}) by decide equality.
  assert (DZ : forall a b : option Z, {a = b} + {a <> b}) by (decide equality; apply Z.eq_dec).
  assert (DP : forall a b : pyval, {a = b} + {a <> b}) by (decide equality; auto using Z.eq_dec, string_dec).
  fix rec 1. intros a b.
  decide equality; auto using string_dec, Z.eq_dec, bool_dec; try apply chain_dec; apply list_eq_dec; apply rec.
Defined.

(** A target: a signal with the bounds and the index written in the assignment. *)
Record target := Target { q_name : chain; q_msb : df; q_lsb : df; q_ptr : df }.
Definition dest_target (d : dest) : target := Target (d_name d) (d_msb d) (d_lsb d) (d_ptr d).
Definition target_dec : forall a b : target, {a = b} + {a <> b}.
Proof. decide equality; auto using df_dec, chain_dec. Defined.
Definition is_target (q : target) (d : dest) : bool := if target_dec (dest_target d) q then true else false.
(** The tree a store has for a target. *)
Definition has_tree (s : store) (q : target) (t : df) : Prop :=
  exists b, In b (getBindlist (s_binds s) (q_name q)) /\ slice b = (q_msb q, q_lsb q, q_ptr q) /\ b_tree b = t.

(** ** Execution. [v] is the value scheduled for the target so far (a mark for "none" at first). *)
Section Exec.
  Variable I : interp.
  Variable q : target.
  Definition exec_dest (many : bool) (x : dom I) (v : dom I) (d : dest) : dom I :=
    if is_target q d then if many then i_part I x (eval I (d_pmsb d)) (eval I (d_plsb d)) else x else v.
  Definition label_matches (comp : df) (g : option (list df)) : bool :=
    match g with
    | None => true
    | Some l => existsb (fun w => i_truth I (i_op I Eq [eval I comp; eval I w])) l
    end.
  Fixpoint exec (x : stmt) (v : dom I) : dom I :=
    match x with
    | SNon ds y => fold_left (exec_dest (1 <? length ds) (eval I y)) ds v
    | SBlock l => (fix go (l : list stmt) (v : dom I) : dom I :=
                     match l with [] => v | y :: r => go r (exec y v) end) l v
    | SIf c t e => if i_truth I (eval I c) then match t with Some y => exec y v | None => v end
                   else match e with Some y => exec y v | None => v end
    | SCase comp items =>
        (fix go (l : list (option (list df) * option stmt)) : dom I :=
           match l with
           | [] => v
           | (g, y) :: r => if label_matches comp g then match y with Some y => exec y v | None => v end else go r
           end) items
    end.
End Exec.

(** Interpretations for which the code's conditions mean what they say: 1 is true, || is "or",
    names that compare equal are the same signal, a slice of nothing is nothing. *)
Definition sane (I : interp) : Prop :=
  none_strict I /\ (forall n m, agree n m -> i_term I n = i_term I m) /\ i_truth I (i_const I (DInt "1")) = true /\
  forall a b, i_truth I (i_op I Lor [a; b]) = i_truth I a || i_truth I b.

(** ** Well-formed statements: conditions have no delays and no conditional operators, the
    names and bounds of destinations are plain, and no destination differs from the target
    in its lower bound only. *)
Definition cond_ok (c : df) : Prop := no_delay c /\ branch_free c.
Definition dest_ok (q : target) (d : dest) : Prop :=
  no_any (d_name d) /\ plain_tree (d_msb d) /\ plain_tree (d_lsb d) /\ plain_tree (d_ptr d) /\
  (d_name d = q_name q -> d_msb d = q_msb q -> d_ptr d = q_ptr q -> d_lsb d = q_lsb q).
Fixpoint wf (q : target) (x : stmt) : Prop :=
  match x with
  | SNon ds _ => Forall (dest_ok q) ds
  | SBlock l => (fix all (l : list stmt) : Prop := match l with [] => True | y :: r => wf q y /\ all r end) l
  | SIf c t e => cond_ok c /\ match t with Some y => wf q y | None => True end
                 /\ match e with Some y => wf q y | None => True end
  | SCase comp items =>
      cond_ok comp /\
      (fix all (l : list (option (list df) * option stmt)) : Prop :=
         match l with
         | [] => True
         | (g, y) :: r => match g with Some ws => Forall cond_ok ws | None => True end
                          /\ match y with Some y => wf q y | None => True end /\ all r
         end) items
  end.

(** Does a statement assign the target? *)
Fixpoint assigns (q : target) (x : stmt) : bool :=
  match x with
  | SNon ds _ => existsb (is_target q) ds
  | SBlock l => existsb (assigns q) l
  | SIf _ t e => match t with Some y => assigns q y | None => false end
                 || match e with Some y => assigns q y | None => false end
  | SCase _ items => existsb (fun gy => match snd gy with Some y => assigns q y | None => false end) items
  end.

(** ** The statements for which the tree is right. What is known, at a place in the block:
    - Vacant: nothing has been assigned on the way here;
    - Open: there were assignments, all in finished statements of this list or around it, and
      none is remembered by this frame;
    - Recorded: the last assignment was made here, and is remembered;
    - Stale: an assignment is remembered, but a later statement has assigned the target too;
    - Near: one if deeper than an Open place, in an arm whose condition is not in the tree;
    - Far: deeper than that.
    [None]: not supported. *)
Inductive place := Vacant | Open | Recorded | Stale | Near | Far.
(** Entering begin ... end (nothing is remembered there). *)
Definition enter_block (p : place) : place :=
  match p with Recorded | Stale => Open | _ => p end.
(** Entering an arm of an if; [other]: the other arm has already assigned the target. *)
Definition enter_arm (other : bool) (p : place) : option place :=
  match p with
  | Vacant => Some Vacant
  | Open => Some (if other then Open else Near)
  | Recorded => Some Recorded
  | Stale => None
  | Near => Some Far
  | Far => Some Far
  end.
(** After a begin ... end, if or case that has assigned the target or not. *)
Definition leave (assigned : bool) (p : place) : place :=
  if assigned then match p with Recorded | Stale => Stale | _ => Open end else p.

Definition obind {A B} (o : option A) (f : A -> option B) : option B :=
  match o with Some x => f x | None => None end.
Fixpoint flow (q : target) (x : stmt) (p : place) : option place :=
  match x with
  | SNon ds _ =>
      if existsb (is_target q) ds
      then match ds, p with
           | [_], Far => None
           | [_], _ => Some Recorded
           | _, _ => None
           end
      else Some p
  | SBlock l =>
      obind ((fix go (l : list stmt) (p : place) : option place :=
                match l with [] => Some p | y :: r => obind (flow q y p) (go r) end) l (enter_block p))
            (fun _ => Some (leave (existsb (assigns q) l) p))
  | SIf _ t e =>
      obind (match t with
             | None => Some false
             | Some y => obind (enter_arm false p) (fun p1 => obind (flow q y p1) (fun _ => Some (assigns q y)))
             end) (fun bt =>
      obind (match e with
             | None => Some false
             | Some y => obind (enter_arm bt p) (fun p1 => obind (flow q y p1) (fun _ => Some (assigns q y)))
             end) (fun be =>
      Some (leave (bt || be) p)))
  | SCase _ items =>
      obind ((fix go (l : list (option (list df) * option stmt)) (p : place) : option bool :=
                match l with
                | [] => Some false
                | (_, y) :: r =>
                    obind (enter_arm false p) (fun p1 =>
                    obind (match y with
                           | None => Some false
                           | Some y => obind (flow q y p1) (fun _ => Some (assigns q y))
                           end) (fun b1 =>
                    match r with
                    | [] => Some b1
                    | _ => obind (enter_arm b1 p) (fun p2 => obind (go r p2) (fun b2 => Some (b1 || b2)))
                    end))
                end) items p)
            (fun b => Some (leave b p))
  end.
Definition supported (q : target) (x : stmt) : Prop := flow q x Vacant <> None.

(** A store without an entry for the target. *)
Definition fresh (s : store) (q : target) : Prop :=
  Forall (fun e => no_any (fst e)) (s_binds s) /\ Forall plain_bind (getBindlist (s_binds s) (q_name q)) /\
  forall t, ~ has_tree s q t.
