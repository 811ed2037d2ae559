(** FunSpec.v - what a function call means: the inputs get the values of the arguments, the body runs, and
    the value of the function's name is the result. *)
From Verif Require Import Base ScopeModel ScopeSpec DfModel DfSpec BindModel AsgSpec ExprModel BlkModel BlkSpec FunModel.

Definition mem (s : string) (l : list string) : bool := existsb (String.eqb s) l.
(** The names of a function: its own signals. *)
Definition vars (f : func) : list string := fn_name f :: fn_locals f.
Definition own (f : func) (s : string) : bool := mem s (vars f) || mem s (fn_ports f).

Section Meaning.
  Variable I : interp.
  Variable count : expr -> Z.               (* the value of a repetition count *)
  Definition state := string -> dom I.
  Definition agrees (v w : state) : Prop := forall s, v s = w s.

  (** ** Expressions: relations, since functions may have several results (their variables are not
      initialised). *)
  Section Expr.
    Variable arr : string -> bool.          (* is the name an array *)
    Variable ret : string -> list (dom I) -> dom I -> Prop.   (* the results of functions *)
    (** [v[p]] is an element of an array, or a bit. *)
    Fixpoint elem (e : expr) : bool := match e with XId s => arr s | XSys _ [a] => elem a | _ => false end.
    Fixpoint means (v : state) (e : expr) (x : dom I) {struct e} : Prop :=
      let each := fix each (l : list expr) (xs : list (dom I)) {struct l} : Prop :=
        match l, xs with [], [] => True | a :: l', y :: ys => means v a y /\ each l' ys | _, _ => False end in
      match e with
      | XId s => x = v s
      | XInt s => x = i_const I (DInt s)
      | XUn o a => exists y, means v a y /\ x = i_op I o [y]
      | XBin o a b => exists y z, means v a y /\ means v b z /\ x = i_op I o [y; z]
      | XCond c t f => exists y, means v c y /\ if i_truth I y then means v t x else means v f x
      | XConcat l => exists ys, each l ys /\ x = i_concat I ys
      | XRepeat a n => exists y, means v a y /\ x = i_concat I (repeat y (Z.to_nat (count n)))
      | XPart a m l => exists y z w, means v a y /\ means v m z /\ means v l w /\ x = i_part I y z w
      | XPtr a p => exists y z, means v a y /\ means v p z /\ x = if elem a then i_ptr I y z else i_part I y z z
      | XSys f l => match l with [a] => (f = "signed"%string \/ f = "unsigned"%string) /\ means v a x | _ => False end
      | XCall f l => exists ys, each l ys /\ ret f ys x
      end.
  End Expr.

  (** ** Statements, for any meaning of expressions. *)
  Section Runs.
    Variable ev : state -> expr -> dom I -> Prop.
    Definition assign_to (v : state) (s : string) (x : dom I) : state := fun r => if String.eqb r s then x else v r.
    (** Does a case item match the value [y]? *)
    Definition matches (v : state) (y : dom I) (g : option (list expr)) (b : bool) : Prop :=
      match g with
      | None => b = true
      | Some ws => exists zs, Forall2 (ev v) ws zs /\ b = existsb (fun z => i_truth I (i_op I Eq [y; z])) zs
      end.
    Fixpoint runs (x : fstmt) (v v' : state) {struct x} : Prop :=
      match x with
      | FAsg s e => exists y, ev v e y /\ agrees v' (assign_to v s y)
      | FBlock l =>
          (fix go (l : list fstmt) (v : state) : Prop :=
             match l with [] => agrees v' v | y :: r => exists u, runs y v u /\ go r u end) l v
      | FIf c t e =>
          exists y, ev v c y /\
          if i_truth I y then match t with Some z => runs z v v' | None => agrees v' v end
          else match e with Some z => runs z v v' | None => agrees v' v end
      | FCase comp items =>
          exists y, ev v comp y /\
          (fix go (l : list (option (list expr) * option fstmt)) : Prop :=
             match l with
             | [] => agrees v' v
             | (g, z) :: r => exists b, matches v y g b /\ if b then match z with Some z => runs z v v' | None => agrees v' v end else go r
             end) items
      end.
  End Runs.

  (** ** Functions: [g] are the values of the module's signals, [arr] its arrays. [n] bounds the depth of
      calls. *)
  Variable funcs : list func.
  Variable arr : string -> bool.
  Fixpoint returns (n : nat) (g : state) (f : string) (ys : list (dom I)) (x : dom I) : Prop :=
    match n with
    | O => False
    | S m => exists fn v v',
        List.find (fun fn => String.eqb (fn_name fn) f) funcs = Some fn /\
        Forall2 (fun p y => v p = y) (fn_ports fn) ys /\ (forall s, own fn s = false -> v s = g s) /\
        runs (means (fun s => arr s && negb (own fn s)) (returns m g)) (fn_body fn) v v' /\ x = v' (fn_name fn)
    end.

  (** The signals the analysis has added have the values of their trees; where a tree says nothing, the
      signal keeps its value. *)
  Definition consistent (s s' : bst) : Prop :=
    forall n t, In n (bs_terms s') -> ~ In n (bs_terms s) -> dget (bs_trees s') n = Some t -> i_term I n = tree_value I (i_term I n) t.
End Meaning.

(** ** Functions the analysis gets right. *)
(** Signals read in an expression. *)
Fixpoint ids (e : expr) : list string :=
  match e with
  | XId s => [s]
  | XInt _ => []
  | XUn _ a | XRepeat a _ => ids a
  | XBin _ a b | XPtr a b => ids a ++ ids b
  | XCond a b c | XPart a b c => ids a ++ ids b ++ ids c
  | XConcat l | XSys _ l | XCall _ l => flat_map ids l
  end.
(** No system functions but casts. *)
Fixpoint casts (e : expr) : bool :=
  match e with
  | XId _ | XInt _ => true
  | XUn _ a | XRepeat a _ => casts a
  | XBin _ a b | XPtr a b => casts a && casts b
  | XCond a b c | XPart a b c => casts a && casts b && casts c
  | XConcat l | XCall _ l => forallb casts l
  | XSys f [a] => (String.eqb f "signed" || String.eqb f "unsigned") && casts a
  | XSys _ _ => false
  end.
(** No calls, no system functions but casts, and with [c] no conditional operators. *)
Fixpoint pure (c : bool) (e : expr) : bool :=
  match e with
  | XId _ | XInt _ => true
  | XUn _ a | XRepeat a _ => pure c a
  | XBin _ a b | XPtr a b => pure c a && pure c b
  | XCond x y z => negb c && pure c x && pure c y && pure c z
  | XPart x y z => pure c x && pure c y && pure c z
  | XConcat l => forallb (pure c) l
  | XSys f [a] => (String.eqb f "signed" || String.eqb f "unsigned") && pure c a
  | XSys _ _ | XCall _ _ => false
  end.
Definition lids (g : option (list expr)) : list string := match g with Some ws => flat_map ids ws | None => [] end.
Definition opt {A B} (d : B) (f : A -> B) (x : option A) : B := match x with Some a => f a | None => d end.

(** The signals a statement assigns; those it assigns outside of begin ... end. *)
Fixpoint assigned (x : fstmt) : list string :=
  match x with
  | FAsg s _ => [s]
  | FBlock l => flat_map assigned l
  | FIf _ t e => opt [] assigned t ++ opt [] assigned e
  | FCase _ l => flat_map (fun gy => opt [] assigned (snd gy)) l
  end.
Fixpoint direct (x : fstmt) : list string :=
  match x with
  | FAsg s _ => [s]
  | FBlock _ => []
  | FIf _ t e => opt [] direct t ++ opt [] direct e
  | FCase _ l => flat_map (fun gy => opt [] direct (snd gy)) l
  end.
(** What one arm assigns directly, a later arm does not assign in a begin ... end only. *)
Definition later_direct (d a e : list string) : bool := forallb (fun s => implb (mem s a) (mem s e)) d.
Fixpoint settles (x : fstmt) : bool :=
  match x with
  | FAsg _ _ => true
  | FBlock l => forallb settles l
  | FIf _ t e => opt true settles t && opt true settles e && later_direct (opt [] direct t) (opt [] assigned e) (opt [] direct e)
  | FCase _ l =>
      (fix go (l : list (option (list expr) * option fstmt)) : bool :=
         match l with
         | [] => true
         | gy :: r => opt true settles (snd gy) && later_direct (opt [] direct (snd gy)) (flat_map (fun gy => opt [] assigned (snd gy)) r) (flat_map (fun gy => opt [] direct (snd gy)) r) && go r
         end) l
  end.
(** Nothing is assigned after it was read; [later]: the signals assigned after the statement. *)
Definition none_of (l m : list string) : bool := forallb (fun s => negb (mem s m)) l.
Fixpoint final_reads (later : list string) (x : fstmt) : bool :=
  match x with
  | FAsg s e => none_of (ids e) (s :: later)
  | FBlock l =>
      (fix go (l : list fstmt) : bool :=
         match l with [] => true | y :: r => final_reads (flat_map assigned r ++ later) y && go r end) l
  | FIf c t e => none_of (ids c) (assigned x ++ later) && opt true (final_reads later) t && opt true (final_reads later) e
  | FCase comp l =>
      none_of (ids comp) (assigned x ++ later) &&
      forallb (fun gy => none_of (lids (fst gy)) (assigned x ++ later) && opt true (final_reads later) (snd gy)) l
  end.
(** The shapes of the expressions: under a condition ([under]) no calls; conditions and case labels are
    pure and have no conditional operators. *)
Fixpoint plain_body (under : bool) (x : fstmt) : bool :=
  match x with
  | FAsg _ e => if under then pure false e else casts e
  | FBlock l => forallb (plain_body under) l
  | FIf c t e => pure true c && opt true (plain_body true) t && opt true (plain_body true) e
  | FCase comp l => pure true comp && forallb (fun gy => opt true (forallb (pure true)) (fst gy) && opt true (plain_body true) (snd gy)) l
  end.
(** The signals a statement reads. *)
Fixpoint reads (x : fstmt) : list string :=
  match x with
  | FAsg _ e => ids e
  | FBlock l => flat_map reads l
  | FIf c t e => ids c ++ opt [] reads t ++ opt [] reads e
  | FCase comp l => ids comp ++ flat_map (fun gy => lids (fst gy) ++ opt [] reads (snd gy)) l
  end.
(** Where the tree of a signal branches (as in BlkSpec). *)
Definition fenv := string -> bplace.
Definition in_arm (other : list string) (w : fenv) : fenv := fun s =>
  match w s with
  | BVacant => BVacant
  | BHere => if mem s other then BHere else BNear
  | _ => BFar
  end.
Definition out_of (l : list string) (w : fenv) : fenv := fun s => if mem s l then BHere else w s.
Fixpoint places (x : fstmt) (w : fenv) : option fenv :=
  match x with
  | FAsg s _ => match w s with BFar => None | _ => Some (out_of [s] w) end
  | FBlock l => (fix go (l : list fstmt) (w : fenv) : option fenv := match l with [] => Some w | y :: r => obind (places y w) (go r) end) l w
  | FIf c t e =>
      obind (opt (Some w) (fun y => places y (in_arm [] w)) t) (fun _ =>
      obind (opt (Some w) (fun y => places y (in_arm (opt [] assigned t) w)) e) (fun _ =>
      Some (out_of (assigned x) w)))
  | FCase comp items =>
      obind ((fix go (l : list (option (list expr) * option fstmt)) (w : fenv) : option fenv :=
                match l with
                | [] => Some w
                | (_, y) :: r =>
                    obind (opt (Some w) (fun y => places y (in_arm [] w)) y) (fun _ =>
                    go r (in_arm (opt [] assigned y) w))
                end) items w) (fun _ =>
      Some (out_of (assigned x) w))
  end.

(** Names that are not like the ones the analysis makes up. *)
Definition user (s : string) : bool := negb (String.prefix "_rn" s).
(** The names a function reads and does not own belong to no function: otherwise a function calling it
    could own them. *)
Definition free_name (funcs : list func) (s : string) : bool := negb (existsb (fun f => own f s) funcs).
Definition func_ok (funcs : list func) (f : func) : Prop :=
  forallb user (vars f ++ fn_ports f ++ reads (fn_body f)) = true /\
  NoDup (fn_ports f) /\ none_of (fn_ports f) (vars f) = true /\
  forallb (fun s => own f s || free_name funcs s) (reads (fn_body f)) = true /\
  forallb (fun s => mem s (vars f)) (assigned (fn_body f)) = true /\
  plain_body false (fn_body f) = true /\ settles (fn_body f) = true /\ final_reads [] (fn_body f) = true /\
  places (fn_body f) (fun _ => BVacant) <> None.

(** The state before: names without wildcards, trees of declared names, no scopes of later calls. *)
Definition fstate_ok (st : fstate) : Prop :=
  Forall no_any (bs_terms (fs_st st)) /\
  Forall (fun p => no_any (fst p) /\ In (fst p) (bs_terms (fs_st st))) (bs_trees (fs_st st)) /\
  (0 <= fs_calls st)%Z /\ forall n c, In n (bs_terms (fs_st st)) -> In (frame c) n -> (c < fs_calls st)%Z.
