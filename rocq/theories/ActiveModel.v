(** ActiveModel.v - model of pyverilog/controlflow/active_range.py: conditions on signals as ranges
    of values. Terms and conditions are objects that are modified in place, so they live on a heap. *)
From Verif Require Import Base ScopeModel DfModel BindModel TransModel.
Local Open Scope Z_scope.

(** A range (min, max); None is kept as it is. *)
Definition rng := (option Z * option Z)%type.
(** active_range.py:453-458 - ActiveTerm *)
Record aterm := ATerm_ { a_name : chain; a_ranges : list rng; a_min : Z; a_max : Z }.
(** active_range.py:534-536 - ActiveCondition: its termdict, with references to the terms. *)
Record heap := Heap { terms : list aterm; conds : list (ndict nat) }.
(** What a walk returns: None, an ActiveTerm, an ActiveCondition or an ActiveConditionList
    (active_range.py:660-662; its tuple of conditions is never changed here). *)
Inductive aval := ANone | ATerm (t : nat) | ACond (c : nat) | AList (l : list nat).
(** Statements that change the heap or raise. *)
Definition M (A : Type) := heap -> res (heap * A).
Definition ret {A} (x : A) : M A := fun h => Ok (h, x).
Definition bnd {A B} (a : M A) (f : A -> M B) : M B := fun h => match a h with Ok (h', x) => f x h' | Err e => Err e end.
Definition lift {A} (r : res A) : M A := fun h => match r with Ok x => Ok (h, x) | Err e => Err e end.
Notation "x <<- a ; b" := (bnd a (fun x => b)) (at level 100, a at level 99, b at level 200, right associativity).
Notation "a ;;; b" := (bnd a (fun _ => b)) (at level 100, b at level 200, right associativity).
Fixpoint upd {A} (l : list A) (i : nat) (x : A) : list A :=
  match l, i with [], _ => [] | _ :: r, O => x :: r | y :: r, S k => y :: upd r k x end.
Section Each.
  Context {A : Type} (f : A -> M unit).
  Fixpoint each (l : list A) : M unit := match l with [] => ret tt | x :: r => f x;;; each r end.
End Each.
Section Map.
  Context {A B : Type} (f : A -> M B).
  Fixpoint maps (l : list A) : M (list B) := match l with [] => ret [] | x :: r => y <<- f x; ys <<- maps r; ret (y :: ys) end.
End Map.

Definition new_term (t : aterm) : M nat := fun h => Ok (Heap (terms h ++ [t]) (conds h), length (terms h)).
Definition new_cond : M nat := fun h => Ok (Heap (terms h) (conds h ++ [[]]), length (conds h)).
Definition get_term (i : nat) : M aterm := fun h => match nth_error (terms h) i with Some t => Ok (h, t) | None => Err Unmodelled end.
Definition get_cond (i : nat) : M (ndict nat) := fun h => match nth_error (conds h) i with Some d => Ok (h, d) | None => Err Unmodelled end.
Definition put_cond (i : nat) (d : ndict nat) : M unit := fun h => Ok (Heap (terms h) (upd (conds h) i d), tt).
(** active_range.py:460-461 - ActiveTerm.set *)
Definition set_ranges (i : nat) (l : list rng) : M unit := fun h =>
  match nth_error (terms h) i with Some t => Ok (Heap (upd (terms h) i (ATerm_ (a_name t) l (a_min t) (a_max t))) (conds h), tt) | None => Err Unmodelled end.

(** Ranges whose minima, or whose minima and maxima, are numbers. Simplification: Python raises
    TypeError only when it comes to a None; None occurs only in lists of one range. *)
Definition min_of (r : rng) (dflt : Z) : res (Z * Z) := match r with (Some a, Some b) => Ok (a, b) | (Some a, None) => Ok (a, dflt) | (None, _) => Err TypeError end.
Definition both (r : rng) : res (Z * Z) := match r with (Some a, Some b) => Ok (a, b) | _ => Err TypeError end.
Definition some2 (p : Z * Z) : rng := (Some (fst p), Some (snd p)).
(** active_range.py:470-481 - _inv_range_pairs: None as a maximum is maxval. The loop is that of
    transition.py's _not_range_pairs. *)
Definition inv_ranges (l : list rng) (minval maxval : Z) : res (list rng) :=
  do l' <- mapM (fun r => min_of r maxval) l; Ok (map some2 (not_range_pairs l' minval maxval)).
(** active_range.py:466-468 - opNot *)
Definition term_not (i : nat) : M unit :=
  t <<- get_term i; match a_ranges t with [] => ret tt | l => l' <<- lift (inv_ranges l (a_min t) (a_max t)); set_ranges i l' end.
(** active_range.py:596-629 - _and_range_pairs. The loop is that of transition.py's; here an empty
    list gives an empty list. *)
Definition and_ranges (A B : list rng) : res (list rng) :=
  match A, B with
  | [], _ | _, [] => Ok []
  | _, _ => do a <- mapM both A; do b <- mapM both B; do r <- and_range_pairs a b; Ok (map some2 r)
  end.
(** active_range.py:541-545, 591-594 - ActiveCondition.set and _andTerm *)
Definition cond_set (c : nat) (name : chain) (t : nat) : M unit :=
  d <<- get_cond c;
  match dget d name with
  | None => put_cond c (dset d name t)
  | Some cur => tc <<- get_term cur; tn <<- get_term t; l <<- lift (and_ranges (a_ranges tc) (a_ranges tn)); set_ranges cur l
  end.
(** active_range.py:550-556 - resolve *)
Definition empty_term (t : aterm) : bool := match a_ranges t with [] => true | _ => false end.
Fixpoint kept (d : ndict nat) : M (ndict nat) :=
  match d with [] => ret [] | (k, i) :: r => t <<- get_term i; r' <<- kept r; ret (if empty_term t then r' else (k, i) :: r') end.
Definition resolve (c : nat) : M unit := d <<- get_cond c; d' <<- kept d; put_cond c d'.

Definition set_name (c t : nat) : M unit := x <<- get_term t; cond_set c (a_name x) t.
Definition set_item (c : nat) (p : chain * nat) : M unit := cond_set c (fst p) (snd p).
(** active_range.py:251-294 - _activecond_opNot. For a condition list, opNot returns None, so that
    nothing is ever appended and None is returned; but the terms of the first two conditions are
    inverted: each of the first once, each of the second once for each of the first. *)
Definition op_not (v : aval) : M aval :=
  match v with
  | ATerm t => term_not t;;; ret v
  | ACond c => d <<- get_cond c; l <<- maps (fun p => term_not (snd p);;; n <<- new_cond; set_item n p;;; ret n) d; ret (AList l)
  | AList (c0 :: c1 :: _) =>
      d0 <<- get_cond c0; each (fun p => term_not (snd p);;; d1 <<- get_cond c1; each (fun q => term_not (snd q)) d1) d0;;; ret ANone
  | AList _ | ANone => ret ANone
  end.
(** active_range.py:326-340 - _activecond_opAnd_right_condition with two conditions *)
Definition and_conds (l r : nat) : M nat :=
  n <<- new_cond; dl <<- get_cond l; each (set_item n) dl;;; dr <<- get_cond r; each (set_item n) dr;;; ret n.
(** active_range.py:296-369 - _activecond_opAnd and its three cases *)
Definition op_and (l r : aval) : M aval :=
  match l, r with
  | ATerm t, ATerm u => n <<- new_cond; set_name n t;;; set_name n u;;; ret (ACond n)
  | ATerm t, ACond c => n <<- new_cond; set_name n t;;; d <<- get_cond c; each (set_item n) d;;; ret (ACond n)
  | ATerm t, AList cs => each (fun c => set_name c t) cs;;; ret (AList cs)
  | ACond c, ATerm t => n <<- new_cond; d <<- get_cond c; each (set_item n) d;;; set_name n t;;; ret (ACond n)
  | ACond c, ACond e => n <<- and_conds c e; ret (ACond n)
  | ACond c, AList cs => l' <<- maps (fun e => and_conds c e) cs; ret (AList l')
  | AList cs, ATerm t => each (fun c => set_name c t) cs;;; ret (AList cs)
  | AList cs, ACond e => l' <<- maps (fun c => and_conds c e) cs; ret (AList l')
  | AList cs, AList es => l' <<- maps (fun p => and_conds (fst p) (snd p)) (flat_map (fun e => map (fun c => (c, e)) cs) es); ret (AList l')
  | _, _ => ret ANone
  end.
(** active_range.py:371-450 - _activecond_opOr and its three cases *)
Definition as_conds (v : aval) : M (list nat) :=
  match v with
  | ATerm t => n <<- new_cond; set_name n t;;; ret [n]
  | ACond c => ret [c]
  | AList cs => ret cs
  | ANone => ret []
  end.
Definition op_or (l r : aval) : M aval :=
  match l, r with
  | ANone, _ | _, ANone => ret ANone
  | _, _ => a <<- as_conds l; b <<- as_conds r; ret (AList (a ++ b))
  end.

(** isinstance(x, DFEvalValue) and its value. Simplification: values other than int are as if
    there were none. *)
Definition int_value (t : df) : option Z := match t with DEval (PInt v) _ _ _ => Some v | _ => None end.

Section Walk.
  (** controlflow_analyzer.py:103-110 - getWidth *)
  Variable width : chain -> res Z.
  Definition leaf (o : op) (n : chain) (e : df) : M aval :=
    v <<- lift (infer o e); w <<- lift (width n); t <<- new_term (ATerm_ n [(iv_min v, iv_max v)] 0 (maxValue w)); ret (ATerm t).
  (** active_range.py:166-249 - walkActiveCond, _walkActiveCond and its two cases *)
  Fixpoint walk (c : df) : M aval :=
    match c with
    | DTerm n => leaf GreaterThan n (DEval (PInt 0) (Some 32) false false)
    | DOp [x] o => a <<- walk x; if isNot o then op_not a else ret ANone
    | DOp [x; y] o =>
        if isOr o then a <<- walk x; b <<- walk y; match a, b with ANone, _ => ret b | _, ANone => ret a | _, _ => op_or a b end
        else if isAnd o then a <<- walk x; b <<- walk y; match a, b with ANone, _ => ret b | _, ANone => ret a | _, _ => op_and a b end
        else match x, y with
        | DTerm n, _ => leaf o n y
        | _, DTerm n => leaf (swap_op o) n x
        | _, _ =>
            match o with
            | Eq => a <<- walk x; b <<- walk y;
                match a, b, int_value x, int_value y with
                | ANone, ANone, _, _ => ret ANone
                | _, ANone, _, Some v => if 0 <? v then ret a else op_not a
                | ANone, _, Some v, _ => if 0 <? v then ret b else op_not b
                | _, _, _, _ => op_and a b
                end
            | NotEq => a <<- walk x; b <<- walk y;
                match a, b, int_value x, int_value y with
                | ANone, ANone, _, _ => ret ANone
                | _, ANone, _, Some v => if v =? 0 then ret a else op_not a
                | ANone, _, Some v, _ => if v =? 0 then ret b else op_not b
                | _, _, _, _ => ret ANone
                end
            | _ => ret ANone
            end
        end
    | _ => ret ANone
    end.
  (** active_range.py:156-164 - inferActiveCondition *)
  Fixpoint infer_from (v : aval) (l : list df) : M aval :=
    match l with
    | [] => ret v
    | c :: r => a <<- walk c; v' <<- match v with ANone => ret a | _ => op_and v a end; infer_from v' r
    end.
  Definition infer_condition (l : list df) : M aval := infer_from ANone l.
  (** active_range.py:114-132 - inferActiveConditions. ActiveCondition has no __eq__: "in" is
      identity. *)
  Definition add1 (c : nat) (acc : list nat) : list nat := if existsb (Nat.eqb c) acc then acc else acc ++ [c].
  Fixpoint infer_conditions (ls : list (list df)) (acc : list nat) : M (list nat) :=
    match ls with
    | [] => ret acc
    | l :: r =>
        v <<- infer_condition l;
        acc' <<- match v with
                 | ANone => ret acc
                 | ATerm t => n <<- new_cond; set_name n t;;; ret (add1 n acc)
                 | ACond c => resolve c;;; d <<- get_cond c; ret (match d with [] => acc | _ => add1 c acc end)
                 | AList cs => each resolve cs;;; ret (fold_left (fun a c => add1 c a) cs acc)
                 end;
        infer_conditions r acc'
    end.
End Walk.
(** active_range.py:504-520 - ActiveTerm.toTree: the upper bound is written with GreaterEq. *)
Definition num (v : Z) : df := DEval (PInt v) (Some 32) false false.
Definition range_tree (n : chain) (r : rng) : df :=
  match r with
  | (Some a, None) => DOp [num a; DTerm n] LessEq
  | (Some a, Some b) => DOp [DOp [num a; DTerm n] LessEq; DOp [DTerm n; num b] GreaterEq] Land
  | _ => DNone
  end.
Definition term_tree (t : aterm) : df :=
  match a_ranges t with [] => DNone | r :: rs => fold_left (fun acc r' => DOp [acc; range_tree (a_name t) r'] Lor) rs (range_tree (a_name t) r) end.
