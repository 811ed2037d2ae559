(** TransModel.v - model of pyverilog/utils/inference.py and
    pyverilog/controlflow/transition.py. *)
From Verif Require Import Base ScopeModel DfModel.
Local Open Scope Z_scope.

(** utils/inference.py:85-89 - InferredValue. *)
Record inferred := Inferred { iv_min : option Z; iv_max : option Z; iv_inv : bool }.

(** utils/inference.py:20-82 - infer and the op_* functions. The function is looked up by
    name: there is no op_LessEq (only op_LassEq), so LessEq, like every other operator,
    raises FormatError. Payloads other than int are not modelled. *)
Definition infer (o : op) (node : df) : res inferred :=
  match node with
  | DEval (PInt val) _ _ _ =>
      match o with
      | LessThan => if val - 1 <? 0 then Ok (Inferred None None false)            (* 30-36 *)
                    else Ok (Inferred (Some 0) (Some (val - 1)) false)
      | GreaterThan => Ok (Inferred (Some (val + 1)) None false)                  (* 39-42 *)
      | GreaterEq => Ok (Inferred (Some val) None false)                          (* 51-54 *)
      | Eq | Eql => Ok (Inferred (Some val) (Some val) false)                     (* 57, 69 *)
      | NotEq | NotEql => Ok (Inferred (Some val) (Some val) true)                (* 63, 75 *)
      | _ => Err FormatError                                                      (* 81-82 *)
      end
  | DEval _ _ _ _ => Err Unmodelled
  | _ => Err FormatError                                                          (* 22-23 *)
  end.

(** utils/signaltype.py:88-122. *)
Definition isCompare (o : op) : bool :=      (* 'LassEq' in the table is not an operator name *)
  match o with LessThan | GreaterThan | GreaterEq | Eq | NotEq | Eql | NotEql => true | _ => false end.
Definition isNot (o : op) : bool := match o with Ulnot | Unot => true | _ => false end.
Definition isAnd (o : op) : bool := match o with And | Land => true | _ => false end.
Definition isOr (o : op) : bool := match o with Or | Lor => true | _ => false end.
Definition isNonConditionOp (o : op) : bool := negb (isCompare o || isNot o || isAnd o || isOr o).

(** utils/util.py:86-87 - maxValue. *)
Definition maxValue (width : Z) : Z := 2 ^ width - 1.

(** controlflow/transition.py:291-297 - StateNode; [transcond] is DNone for Python's None. *)
Record snode := SNode {
  range_pairs : list (Z * Z);
  minvalue : Z;
  maxvalue : Z;
  transcond : df;
  isany : bool
}.
(** Results of the walk: None, a StateNode or a StateNodeList (transition.py:314-316). *)
Inductive sres := SNone | SOne (n : snode) | SList (l : list snode).

Definition range_leb (a b : Z * Z) : bool := fst a <=? fst b.
Definition sort_ranges (l : list (Z * Z)) : list (Z * Z) := sort_by range_leb l.

(** controlflow/transition.py:225-241 - the loop of _and_range_pairs. The pointers a_ptr,
    b_ptr are represented by the suffixes that start at them; [moved] says whether the
    previous iteration moved a pointer (at the start last_a_ptr = last_b_ptr = -1, so it is
    true). The list of pairs appended is returned in order. *)
Fixpoint and_loop (fuel : nat) (a : Z * Z) (ra : list (Z * Z)) (b : Z * Z) (rb : list (Z * Z))
    (first : bool) : res (list (Z * Z)) :=
  match fuel with
  | O => Err OutOfFuel
  | S k =>
      let '(amin, amax) := a in
      let '(bmin, bmax) := b in
      let out := if (bmax <? amin) || (amax <? bmin) then []
                 else [(Z.max amin bmin, Z.min amax bmax)] in
      match (if bmax <=? amax then rb else []), (if amax <=? bmax then ra else []) with
      | b' :: rb', _ => do r <- and_loop k a ra b' rb' false; Ok (out ++ r)          (* 232-234 *)
      | [], a' :: ra' => do r <- and_loop k a' ra' b rb false; Ok (out ++ r)         (* 235-237 *)
      | [], [] =>                                                                  (* 238-241 *)
          (* neither pointer moves: stop, except that on the very first iteration the
             last pointers are -1 and the body runs once more *)
          if first then do r <- and_loop k a ra b rb false; Ok (out ++ r) else Ok out
      end
  end.

Definition pair_eqb (p q : Z * Z) : bool := (fst p =? fst q) && (snd p =? snd q).
Fixpoint dedup_pairs (l : list (Z * Z)) : list (Z * Z) :=
  match l with
  | [] => []
  | x :: xs => x :: List.filter (fun y => negb (pair_eqb x y)) (dedup_pairs xs)
  end.

(** controlflow/transition.py:215-244 - _and_range_pairs. The result is list(set(...)): the
    set's order is unspecified, the model keeps the order of first insertion. Empty inputs
    are an IndexError (line 221). *)
Definition and_range_pairs (A B : list (Z * Z)) : res (list (Z * Z)) :=
  match sort_ranges A, sort_ranges B with
  | a :: ra, b :: rb =>
      do l <- and_loop (length A + length B + 2) a ra b rb true; Ok (dedup_pairs l)
  | _, _ => Err IndexError
  end.

(** controlflow/transition.py:250-255 - the loop of _not_range_pairs. *)
Fixpoint not_loop (l : list (Z * Z)) (cur maxv : Z) : list (Z * Z) :=
  match l with
  | [] => if cur <=? maxv then [(cur, maxv)] else []
  | (rmin, rmax) :: rest =>
      (if cur <=? rmin - 1 then [(cur, rmin - 1)] else []) ++
      not_loop rest (Z.max (rmax + 1) cur) maxv
  end.
(** controlflow/transition.py:247-256 - _not_range_pairs. *)
Definition not_range_pairs (l : list (Z * Z)) (minv maxv : Z) : list (Z * Z) :=
  not_loop (sort_ranges l) minv maxv.

(** controlflow/transition.py:259-266 - _not_transcond. *)
Definition not_transcond (t : df) : df :=
  match t with
  | DNone => DNone
  | DOp (x :: _) Ulnot => x
  | DOp (x :: _) Unot => x
  | _ => DOp [t] Ulnot
  end.

(** controlflow/transition.py:168-178 - notStateNode. *)
Definition notStateNode (n : snode) : sres :=
  if isany n then SOne (SNode [] 0 (maxvalue n) (not_transcond (transcond n)) true)
  else
    let a := SNode (not_range_pairs (range_pairs n) (minvalue n) (maxvalue n)) 0 (maxvalue n) DNone false in
    if is_none (transcond n) then SOne a
    else SList [a; SNode (range_pairs n) 0 (maxvalue n) (not_transcond (transcond n)) false].

(** controlflow/transition.py:181-212 - andStateNode (both arguments present). *)
Definition andStateNode (a b : snode) : res (option snode) :=
  do rp <- (if isany a && isany b then Ok []
            else if isany a then Ok (range_pairs b)
            else if isany b then Ok (range_pairs a)
            else if (0 <? length (range_pairs a))%nat && (0 <? length (range_pairs b))%nat
                 then and_range_pairs (range_pairs a) (range_pairs b)
            else Ok []);
  let any := isany a && isany b in
  if negb any && (length rp =? 0)%nat then Ok None                                 (* 200 *)
  else
    let tc := match is_none (transcond a), is_none (transcond b) with              (* 203-209 *)
              | false, false => DOp [transcond a; transcond b] Land
              | false, true => transcond a
              | true, false => transcond b
              | true, true => DNone
              end in
    Ok (Some (SNode rp 0 (Z.max (maxvalue a) (maxvalue b)) tc any)).

(** All pairs, keeping the present results (transition.py:138-143, 148-152, 157-161). *)
Fixpoint and_pairs (l : list (snode * snode)) : res (list snode) :=
  match l with
  | [] => Ok []
  | (x, y) :: r => do v <- andStateNode x y; do vs <- and_pairs r;
                   Ok (match v with Some n => n :: vs | None => vs end)
  end.
Definition mk_list (l : list snode) : sres := match l with [] => SNone | _ => SList l end.

(** controlflow/transition.py:127-165 - andStateNodeList. *)
Definition andStateNodeList (l r : sres) : res sres :=
  match l, r with
  | SNone, SNone => Ok SNone
  | SNone, _ => Ok r
  | _, SNone => Ok l
  | SOne a, SOne b => do v <- andStateNode a b; Ok (match v with Some n => SOne n | None => SNone end)
  | SList la, SList lb => do v <- and_pairs (list_prod la lb); Ok (mk_list v)
  | SList la, SOne b => do v <- and_pairs (list_prod la [b]); Ok (mk_list v)
  | SOne a, SList lb => do v <- and_pairs (list_prod [a] lb); Ok (mk_list v)
  end.

(** controlflow/transition.py:106-124 - orStateNodeList. *)
Definition orStateNodeList (l r : sres) : sres :=
  match l, r with
  | SOne a, SOne b => SList [a; b]
  | SList la, SList lb => SList (la ++ lb)
  | SList la, SOne b => SList (la ++ [b])
  | SOne a, SList lb => SList (a :: lb)
  | _, _ => SNone
  end.

(** controlflow/transition.py:96-102 - the fold of notStateNodeList. *)
Fixpoint not_fold (l : list snode) (acc : sres) : res sres :=
  match l with
  | [] => Ok acc
  | n :: r => match acc with
              | SNone => not_fold r (notStateNode n)
              | _ => do acc' <- andStateNodeList acc (notStateNode n); not_fold r acc'
              end
  end.
(** controlflow/transition.py:89-103 - notStateNodeList. *)
Definition notStateNodeList (n : sres) : res sres :=
  match n with
  | SOne a => Ok (notStateNode a)
  | SList l => not_fold l SNone
  | SNone => Ok SNone
  end.

(** controlflow/transition.py:269-280 - createStateNode. *)
Definition createStateNode (v : inferred) (width : Z) : res sres :=
  let mn := match iv_min v with None => 0 | Some z => z end in
  let mx := match iv_max v with None => maxValue width | Some z => z end in
  let ret := SOne (SNode [(mn, mx)] 0 (maxValue width) DNone false) in
  if iv_inv v then notStateNodeList ret else Ok ret.

(** controlflow/transition.py:44, 57, 86 - a condition that does not constrain the state. *)
Definition any_node (cond : df) (width : Z) : sres := SOne (SNode [] 0 (maxValue width) cond true).

(** controlflow/transition.py:79-81 - exchanging 'Greater' and 'Less' in the name. *)
Definition swap_op (o : op) : op :=
  match o with
  | GreaterThan => LessThan | LessThan => GreaterThan
  | GreaterEq => LessEq | LessEq => GreaterEq
  | _ => o
  end.

Definition is_state (t : df) (termname : chain) : bool :=
  match t with DTerm n => chain_eq n termname | _ => false end.

(** controlflow/transition.py:72-86 - comparison with the state register, or opaque. *)
Definition walk_tail (x y : df) (o : op) (termname : chain) (width : Z) : res sres :=
  if is_state x termname then do v <- infer o y; createStateNode v width
  else if is_state y termname then do v <- infer (swap_op o) x; createStateNode v width
  else Ok (any_node (DOp [x; y] o) width).

(** controlflow/transition.py:34-86 - walkCond, _walkCond_DFOperator_unary and
    _walkCond_DFOperator_dual. *)
Fixpoint walkCond (cond : df) (termname : chain) (width : Z) {struct cond} : res sres :=
  match cond with
  | DOp [x] o =>
      do n <- walkCond x termname width;
      if isNot o then notStateNodeList n else Ok n
  | DOp [x; y] o =>
      if isNonConditionOp o then Ok (any_node cond width)
      else if isOr o then
        do ln <- walkCond x termname width;
        do rn <- walkCond y termname width;
        match orStateNodeList ln rn with
        | SNone => walk_tail x y o termname width
        | r => Ok r
        end
      else if isAnd o then
        do ln <- walkCond x termname width;
        do rn <- walkCond y termname width;
        do ret <- andStateNodeList ln rn;
        match ret with
        | SNone => walk_tail x y o termname width
        | r => Ok r
        end
      else walk_tail x y o termname width
  | DTerm _ => walk_tail cond (DEval (PInt 0) (Some 32) false false) GreaterThan termname width
  | _ => Ok (any_node cond width)
  end.

(** controlflow/transition.py:25-31 - the loop of walkCondlist. *)
Fixpoint walk_loop (conds : list df) (node : sres) (termname : chain) (width : Z) : res sres :=
  match conds with
  | [] => Ok node
  | c :: r =>
      do rslt <- walkCond c termname width;
      do node' <- match node, rslt with
                  | SNone, SNone => Ok SNone
                  | SNone, _ => Ok rslt
                  | _, SNone => Ok node
                  | _, _ => andStateNodeList node rslt
                  end;
      walk_loop r node' termname width
  end.
(** controlflow/transition.py:20-31 - walkCondlist. *)
Definition walkCondlist (conds : list df) (termname : chain) (width : Z) : res sres :=
  match conds with
  | [] => Ok (SOne (SNode [] 0 (maxValue width) DNone true))
  | _ => walk_loop conds SNone termname width
  end.
