(** AsgModel.v - model of pyverilog/dataflow/bindvisitor.py: the tree of a signal that is assigned
    by nonblocking assignments under if and case statements of an always block. *)
From Verif Require Import Base ScopeModel DfModel ReorderModel BindModel.

(** The conditions that enclose an assignment, outermost first, each with the arm taken
    (bindvisitor.py:965-991, getCondlist and getFlowlist: one entry per enclosing if frame in both,
    so one list of pairs here). *)
Definition path := list (df * bool).

(** bindvisitor.py:1518-1532 - diffBranchTree: the subtree where the path leaves the tree, the rest
    of the path, and the arms taken up to there. *)
Fixpoint diffBranchTree (tree : df) (p : path) (m : list bool) : res (df * path * list bool) :=
  match p with
  | [] => Ok (tree, p, m)
  | (c, b) :: r =>
      match tree with
      | DBranch c' x y =>
          do e <- df_eq c c';
          if e then diffBranchTree (if b then x else y) r (m ++ [b]) else Ok (tree, p, m)
      | _ => Ok (tree, p, m)
      end
  end.
(** bindvisitor.py:1534-1552 - makeBranchTree. *)
Fixpoint makeBranchTree (p : path) (t : df) : df :=
  match p with
  | [] => t
  | (c, true) :: r => DBranch c (makeBranchTree r t) DNone
  | (c, false) :: r => DBranch c DNone (makeBranchTree r t)
  end.
(** bindvisitor.py:1554-1572 - appendBranchTree: replace the subtree at pos. *)
Fixpoint appendBranchTree (base : df) (pos : list bool) (t : df) : res df :=
  match pos with
  | [] => Ok t
  | b :: r =>
      match base with
      | DBranch c x y =>
          if b then do x' <- appendBranchTree x r t; Ok (DBranch c x' y)
          else do y' <- appendBranchTree y r t; Ok (DBranch c x y')
      | _ => Err AttributeError
      end
  end.
(** rest_flowlist[:-1] + (not rest_flowlist[-1],) (bindvisitor.py:1506) *)
Fixpoint flip_last (l : list bool) : list bool :=
  match l with [] => [] | [b] => [negb b] | b :: r => b :: flip_last r end.

(** bindvisitor.py:1493-1508 - makeBind: the tree after one more assignment of [raw] at path p. *)
Definition insert (cur : df) (p : path) (raw : df) : res df :=
  do d <- diffBranchTree cur p [];
  let '(rest, rp, m) := d in
  let add := makeBranchTree rp raw in
  do add' <- match rp with
             | [] => Ok add
             | _ => if is_none rest then Ok add else appendBranchTree add (flip_last (map snd rp)) rest
             end;
  appendBranchTree cur m add'.

(** bindvisitor.py:1304-1323 - one destination: name, msb, lsb, ptr, and the part of the assigned
    value (part_msb, part_lsb) if there are several destinations. *)
Record dest := Dest { d_name : chain; d_msb : df; d_lsb : df; d_ptr : df; d_pmsb : df; d_plsb : df }.

(** bindvisitor.py:1474-1491 - the tree already recorded for the same slice: current_tree. *)
Fixpoint current_tree (l : list bind_) (b : bind_) : res df :=
  match l with
  | [] => Ok DNone
  | c :: r => do e <- same_slice c b; if e then Ok (b_tree c) else current_tree r b
  end.

Section Asg.
  Variable k : nat.                        (* recursion depth of reorder *)
  Variable ai : option alwaysinfo.         (* frames.getAlwaysStatus() in the block *)

  (** bindvisitor.py:1470-1516 - makeBind. *)
  Definition makeBind (s : store) (d : dest) (raw : df) (p : path) (num_dst : nat) (ty : string) : res bind_ :=
    let b0 := Bind DNone (d_name d) (d_msb d) (d_lsb d) (d_ptr d) ai ty in
    do cur <- current_tree (getBindlist (s_binds s) (d_name d)) b0;
    do t <- insert cur p raw;
    do t1 <- reorder k t;
    do t2 <- (if (1 <? num_dst)%nat then reorder k (DPart t1 (d_pmsb d) (d_plsb d)) else Ok t1);
    Ok (Bind t2 (d_name d) (d_msb d) (d_lsb d) (d_ptr d) ai ty).

  (** visit.py:508-517 - Frame.addNonblockingAssign. The entries are deep copies, so values here;
      the lower bounds are not compared (c.msb == bind.msb twice). *)
  Definition table := ndict (list bind_).
  Definition same_target (c b : bind_) : res bool :=
    do m <- df_eq (b_msb c) (b_msb b);
    if m then do m' <- df_eq (b_msb c) (b_msb b); if m' then df_eq (b_ptr c) (b_ptr b) else Ok false else Ok false.
  Fixpoint note (l : list bind_) (b : bind_) : res (list bind_) :=
    match l with
    | [] => Ok [b]
    | c :: r => do e <- same_target c b;
                if e then Ok (with_tree c (b_tree b) :: r) else do r' <- note r b; Ok (c :: r')
    end.
  Definition addNonblockingAssign (t : table) (n : chain) (b : bind_) : res table :=
    match dget t n with
    | None => Ok (dset t n [b])
    | Some l => do l' <- note l b; Ok (dset t n l')
    end.

  (** bindvisitor.py:1418-1424 - setNonblockingAssign. *)
  Definition setNonblockingAssign (t : table) (d : dest) (raw : df) (num_dst : nat) : res table :=
    do v <- (if (1 <? num_dst)%nat then reorder k (DPart raw (d_pmsb d) (d_plsb d)) else Ok raw);
    addNonblockingAssign t (d_name d) (Bind v (d_name d) (d_msb d) (d_lsb d) (d_ptr d) ai "").

  (** bindvisitor.py:1394-1410 - setDataflow, in an always block (alwaysinfo is not None). *)
  Fixpoint setDataflow (t : table) (s : store) (ds : list dest) (raw : df) (p : path) (num_dst : nat) : res (table * store) :=
    match ds with
    | [] => Ok (t, s)
    | d :: r =>
        do b <- makeBind s d raw p num_dst "nonblocking";
        do s' <- addBind s (d_name d) b;
        do t' <- setNonblockingAssign t d raw num_dst;
        setDataflow t' s' r raw p num_dst
    end.

  (** bindvisitor.py:650-666 - copyPreviousNonblockingAssign: what the enclosing frame has recorded
      (visit.py:806-813) is assigned again in the new frame. *)
  Fixpoint copy_binds (new : table) (s : store) (n : chain) (l : list bind_) (p : path) : res (table * store) :=
    match l with
    | [] => Ok (new, s)
    | b :: r =>
        do new' <- addNonblockingAssign new n b;
        do nb <- makeBind s (Dest n (b_msb b) (b_lsb b) (b_ptr b) DNone DNone) (b_tree b) p 1 "";
        do s' <- addBind s n nb;
        copy_binds new' s' n r p
    end.
  Fixpoint copyPrevious (new : table) (s : store) (prev : table) (p : path) : res (table * store) :=
    match prev with
    | [] => Ok (new, s)
    | (n, l) :: r => do ts <- copy_binds new s n l p; copyPrevious (fst ts) (snd ts) r p
    end.

  (** Statements of an always block. Conditions, case expressions, values and destinations are the
      dataflow trees made from them (makeDFTree, bindvisitor.py:1001-1165); without blocking
      assignments in the block they do not depend on what was visited before. *)
  Inductive stmt :=
  | SNon (ds : list dest) (v : df)                       (* nonblocking assignment *)
  | SBlock (l : list stmt)                               (* begin ... end *)
  | SIf (c : df) (t e : option stmt)
  | SCase (comp : df) (items : list (option (list df) * option stmt)).   (* None: default *)

  (** bindvisitor.py:382-391 - the condition of a case item; reorder.py:101-106 - insertOp. *)
  Fixpoint insertOp_r (left right : df) (o : op) : res df :=
    match right with
    | DBranch c x y => do a <- insertOp_r left x o; do b <- insertOp_r left y o; Ok (DBranch c a b)
    | _ => mkOp [left; right] o
    end.
  Fixpoint insertOp (left right : df) (o : op) : res df :=
    match left with
    | DBranch c x y => do a <- insertOp x right o; do b <- insertOp y right o; Ok (DBranch c a b)
    | _ => insertOp_r left right o
    end.
  Fixpoint lor_eqs (comp acc : df) (l : list df) : res df :=
    match l with
    | [] => Ok acc
    | v :: r => do e <- insertOp comp v Eq; do a <- insertOp acc e Lor; lor_eqs comp a r
    end.
  Definition item_cond (comp : df) (c : option (list df)) : res df :=
    match c with
    | None => Ok (DInt "1")
    | Some [] => Err IndexError
    | Some (v :: r) => do e <- insertOp comp v Eq; lor_eqs comp e r
    end.

  (** bindvisitor.py:282-427, 525-543, 551-557 - the visitor. Each frame of an
      always block is entered once (its label is new), so the table of a frame is a local value
      here: [visit t s p x] has the current frame's table and returns it with the store. *)
  Fixpoint visit (t : table) (s : store) (p : path) (x : stmt) {struct x} : res (table * store) :=
    match x with
    | SNon ds v => setDataflow t s ds v p (length ds)
    | SBlock l =>
        do r <- (fix go (t : table) (s : store) (l : list stmt) : res (table * store) :=
                   match l with [] => Ok (t, s) | y :: l' => do r <- visit t s p y; go (fst r) (snd r) l' end) [] s l;
        Ok (t, snd r)
    | SIf c th el =>
        do s1 <- match th with
                 | None => Ok s
                 | Some y => do a <- copyPrevious [] s t (p ++ [(c, true)]); do r <- visit (fst a) (snd a) (p ++ [(c, true)]) y; Ok (snd r)
                 end;
        do s2 <- match el with
                 | None => Ok s1
                 | Some y =>
                     match th with
                     | None => Err TypeError             (* None + '_ELSE' *)
                     | Some _ => do a <- copyPrevious [] s1 t (p ++ [(c, false)]); do r <- visit (fst a) (snd a) (p ++ [(c, false)]) y; Ok (snd r)
                     end
                 end;
        Ok (t, s2)
    | SCase comp items =>
        do s' <- (fix case (t : table) (s : store) (p : path) (l : list (option (list df) * option stmt)) : res store :=
                    match l with
                    | [] => Ok s
                    | (g, y) :: l' =>
                        do c <- item_cond comp g;
                        do a <- copyPrevious [] s t (p ++ [(c, true)]);
                        do r <- match y with None => Ok a | Some y => visit (fst a) (snd a) (p ++ [(c, true)]) y end;
                        match l' with
                        | [] => Ok (snd r)
                        | _ => do a <- copyPrevious [] (snd r) t (p ++ [(c, false)]); case (fst a) (snd a) (p ++ [(c, false)]) l'
                        end
                    end) t s p items;
        Ok (t, s')
    end.

  (** bindvisitor.py:218-232 - visit_Always: the frame of the block, with an empty table. *)
  Definition visit_always (s : store) (x : stmt) : res store := do r <- visit [] s [] x; Ok (snd r).
End Asg.
