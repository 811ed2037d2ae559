(** FsmModel.v - model of class FiniteStateMachine in
    pyverilog/controlflow/controlflow_analyzer.py. *)
From Verif Require Import Base ScopeModel DfModel TransModel.
Local Open Scope Z_scope.

(** controlflow_analyzer.py:121-126. self.fsm: src -> (cond -> dst) and self.any: cond -> dst, in
    insertion order; a condition is DNone for None. State numbers are integers. *)
Definition cdict := list (df * Z).
Record machine := Machine { m_fsm : list (Z * cdict); m_any : cdict }.

Fixpoint zget {V} (d : list (Z * V)) (k : Z) : option V :=
  match d with
  | [] => None
  | (k', v) :: r => if k' =? k then Some v else zget r k
  end.
Fixpoint zset {V} (d : list (Z * V)) (k : Z) (v : V) : list (Z * V) :=
  match d with
  | [] => [(k, v)]
  | (k', v') :: r => if k' =? k then (k', v) :: r else (k', v') :: zset r k v
  end.

(** d[cond] = dst. Conditions are compared by __eq__ (equal conditions hash equal, C09). *)
Fixpoint cput (d : cdict) (c : df) (dst : Z) : res cdict :=
  match d with
  | [] => Ok [(c, dst)]
  | (c', dst') :: r => do e <- df_eq c' c;
                       if e then Ok ((c', dst) :: r) else do r' <- cput r c dst; Ok ((c', dst') :: r')
  end.

(** range(sb, se + 1) *)
Definition zrange (sb se : Z) : list Z := map (fun i => sb + Z.of_nat i) (seq 0 (Z.to_nat (se + 1 - sb))).

(** controlflow_analyzer.py:173-178 - add. *)
Fixpoint add_srcs (m : list (Z * cdict)) (srcs : list Z) (dst : Z) (c : df) : res (list (Z * cdict)) :=
  match srcs with
  | [] => Ok m
  | s :: r =>
      let dd := match zget m s with Some dd => dd | None => [] end in
      do dd' <- cput dd c dst;
      add_srcs (zset m s dd') r dst c
  end.
Definition add (m : machine) (rp : Z * Z) (dst : Z) (c : df) : res machine :=
  do f <- add_srcs (m_fsm m) (zrange (fst rp) (snd rp)) dst c; Ok (Machine f (m_any m)).

(** controlflow_analyzer.py:170-171 - add_any. *)
Definition add_any (m : machine) (dst : Z) (c : df) : res machine :=
  do a <- cput (m_any m) c dst; Ok (Machine (m_fsm m) a).

(** controlflow_analyzer.py:160-168 - construct (with a node that is not None). *)
Fixpoint add_ranges (m : machine) (rps : list (Z * Z)) (dst : Z) (c : df) : res machine :=
  match rps with
  | [] => Ok m
  | rp :: r => do m' <- add m rp dst c; add_ranges m' r dst c
  end.
Definition construct (m : machine) (dst : Z) (n : snode) : res machine :=
  do m' <- (if isany n then add_any m dst (transcond n) else Ok m);
  add_ranges m' (range_pairs n) dst (transcond n).

(** controlflow_analyzer.py:184-195 - the first loop of resolve, for one source state;
    [optimize] is evaluate.optimize. *)
Section Resolve.
  Variable optimize : df -> res df.
  Fixpoint by_dst (items : cdict) (acc : list (Z * df)) : res (list (Z * df)) :=
    match items with
    | [] => Ok acc
    | (c, dst) :: r =>
        match zget acc dst with
        | None => by_dst r (zset acc dst c)
        | Some cur =>
            if is_none cur then by_dst r acc
            else if is_none c then by_dst r (zset acc dst DNone)
            else do o <- optimize (DOp [cur; c] Lor); by_dst r (zset acc dst o)
        end
    end.
  (** controlflow_analyzer.py:196-201 - the second loop. *)
  Definition always_true (c : df) : res bool :=
    match c with
    | DEval (PInt v) _ _ _ => Ok (0 <? v)
    | DEval _ _ _ _ => Err Unmodelled
    | _ => Ok false
    end.
  Fixpoint by_cond (items : list (Z * df)) (acc : cdict) : res cdict :=
    match items with
    | [] => Ok acc
    | (dst, c) :: r => do t <- always_true c;
                       do acc' <- cput acc (if t then DNone else c) dst;
                       by_cond r acc'
    end.
  Definition dst_leb (a b : df * Z) : bool := snd a <=? snd b.
  Definition src_leb (a b : Z * cdict) : bool := fst a <=? fst b.
  Definition resolve_src (dd : cdict) : res cdict :=
    do l <- by_dst (sort_by dst_leb dd) []; by_cond l [].
  (** controlflow_analyzer.py:180-203 - resolve. *)
  Fixpoint resolve_all (items : list (Z * cdict)) (acc : list (Z * cdict)) : res (list (Z * cdict)) :=
    match items with
    | [] => Ok acc
    | (s, dd) :: r => do dd' <- resolve_src dd; resolve_all r (zset acc s dd')
    end.
  Definition resolve (m : machine) : res machine :=
    do f <- resolve_all (sort_by src_leb (m_fsm m)) []; Ok (Machine f (m_any m)).
End Resolve.

(** ** Loops *)
Definition values (dd : cdict) : list Z := map snd dd.
(** A set of integers, as a list without repetitions; set difference. *)
Definition zset_of (l : list Z) : list Z := nodup Z.eq_dec l.
Definition zminus (l vis : list Z) : list Z := List.filter (fun x => negb (existsb (Z.eqb x) vis)) l.

(** controlflow_analyzer.py:289-304 - _looppath. The counter cnt counts up and the search is cut
    when cnt > 50; [left] is 51 - cnt. The set of paths is a list. *)
Fixpoint looppath (m : list (Z * cdict)) (left : nat) (src node : Z) (visited : list Z) : list (list Z) :=
  match left with
  | O => []
  | S k =>
      if src =? node then [[src]]
      else match zget m node with
           | None => []
           | Some dd => flat_map (fun n => map (cons node) (looppath m k src n (node :: visited)))
                                 (zminus (zset_of (values dd)) visited)
           end
  end.
(** controlflow_analyzer.py:278-287 - get_looppath. *)
Definition get_looppath (m : list (Z * cdict)) (src : Z) : list (list Z) :=
  match zget m src with
  | None => []
  | Some dd => flat_map (fun n => looppath m 51 src n [n]) (zset_of (values dd))
  end.
(** controlflow_analyzer.py:273-276 - rotate: the path from the first position of its minimum. *)
Definition zmin (l : list Z) : Z := match l with [] => 0 | x :: r => fold_left Z.min r x end.
Fixpoint split_at (v : Z) (l : list Z) : list Z * list Z :=
  match l with
  | [] => ([], [])
  | x :: r => if x =? v then ([], l) else let (a, b) := split_at v r in (x :: a, b)
  end.
Definition rotate (p : list Z) : list Z := let (a, b) := split_at (zmin p) p in b ++ a.

(** controlflow_analyzer.py:253-271 - get_loop. [cnt] is loop_node_cnt (0 when absent). *)
Definition path_mem (p : list Z) (l : list (list Z)) : bool := existsb (fun q => if list_eq_dec Z.eq_dec q p then true else false) l.
Definition lookup_cnt (cnt : list (Z * Z)) (k : Z) : Z := match zget cnt k with Some c => c | None => 0 end.
Definition count_up (cnt : list (Z * Z)) (p : list Z) : list (Z * Z) :=
  fold_left (fun c r => zset c r (lookup_cnt c r + 1)) p cnt.
Definition add_path (st : list (list Z) * list (Z * Z)) (p : list Z) : list (list Z) * list (Z * Z) :=
  let r := rotate p in
  if path_mem r (fst st) then st else (fst st ++ [r], count_up (snd st) r).
Definition loop_step (m : list (Z * cdict)) (st : list (list Z) * list (Z * Z)) (k : Z) : list (list Z) * list (Z * Z) :=
  match zget m k with
  | None => st
  | Some dd =>
      if Z.of_nat (length (values dd)) <=? lookup_cnt (snd st) k then st
      else fold_left add_path (get_looppath m k) st
  end.
Definition get_loop (m : list (Z * cdict)) : list (list Z) :=
  fst (fold_left (loop_step m) (sort_by Z.leb (map fst m)) ([], [])).
