(** PartsModel.v - model of pyverilog/dataflow/bindvisitor.py: a signal that is assigned in parts by blocking assignments is read. *)
From Verif Require Import Base ScopeModel DfModel ReorderModel BindModel AsgModel.

(** x.value of a bound or index (an optimized tree) that is used as a number; values that are no integers are left out. *)
Definition value_of (t : df) : res Z := match t with DEval (PInt z) _ _ _ => Ok z | DEval _ _ _ _ => Err TypeError | _ => Err AttributeError end.
(** 0 if x.lsb is None else x.lsb.value; -1 if bind.msb is None else bind.msb.value *)
Definition value_or (d : Z) (t : df) : res Z := match t with DNone => Ok d | _ => value_of t end.
(** d if not isinstance(x.ptr, DFEvalValue) else x.ptr.value *)
Definition ptr_or (d : Z) (t : df) : res Z := match t with DEval _ _ _ _ => value_of t | _ => Ok d end.

Section Read.
  Variable opt : df -> res df.         (* self.optimize *)
  Variables tmsb tlsb : df.            (* the declared range of the signal: getTermWidth(name), getTerm(dest) *)
  (** bindvisitor.py:1285-1291 - bindkey. *)
  Definition bindkey (b : bind_) : res Z :=
    do l <- value_or 0 (b_lsb b); do p <- ptr_or 0 (b_ptr b);
    do m1 <- opt tmsb; do m <- value_of m1; do n1 <- opt tlsb; do n <- value_of n1;
    Ok (p * (Z.abs (m - n) + 1) + l)%Z.
  (** sorted(bindlist, key=bindkey): stable. *)
  Fixpoint put_sorted (x : Z * bind_) (l : list (Z * bind_)) : list (Z * bind_) :=
    match l with [] => [x] | y :: r => if (fst x <=? fst y)%Z then x :: l else y :: put_sorted x r end.
  Definition by_key (l : list (Z * bind_)) : list (Z * bind_) := fold_right put_sorted [] l.
  (** bindvisitor.py:1292-1301 - the loop of getMergedTree. *)
  Fixpoint gather (last_msb last_ptr : Z) (l : list bind_) : res (list df) :=
    match l with
    | [] => Ok []
    | b :: r =>
        do lsb <- value_or 0 (b_lsb b); do p <- ptr_or (-1) (b_ptr b);
        if negb (last_ptr =? p)%Z then gather last_msb last_ptr r
        else do m <- value_or (-1) (b_msb b); do rest <- gather m p r;
             Ok ((if (last_msb + 1 <? lsb)%Z then [DUndef (last_msb - lsb - 1)] else []) ++ b_tree b :: rest)
    end.
  (** bindvisitor.py:1280-1302 - getMergedTree. *)
  Definition getMergedTree (l : list bind_) : res df :=
    do ks <- mapM (fun b => do key <- bindkey b; Ok (key, b)) l;
    do ts <- gather (-1) (-1) (map snd (by_key ks)); Ok (DConcat (rev ts)).
  (** bindvisitor.py:1269-1278 - getFitTree. *)
  Fixpoint fits (om ol : df) (all l : list bind_) : res df :=
    match l with
    | [] => getMergedTree all
    | b :: r =>
        if is_none (b_msb b) && is_none (b_lsb b) then Ok (b_tree b)
        else do m <- opt (b_msb b); do e1 <- df_eq m om;
             do e2 <- (if e1 then do n <- opt (b_lsb b); df_eq n ol else Ok false);
             if e2 then Ok (b_tree b) else fits om ol all r
    end.
  Definition getFitTree (l : list bind_) : res df := do om <- opt tmsb; do ol <- opt tlsb; fits om ol l l.
  (** bindvisitor.py:1184-1193 - removeOverwrappedCondition, at the path p. *)
  Definition removeOverwrapped (n : chain) (l : list bind_) (p : path) : res df :=
    do t <- getFitTree l; do d <- diffBranchTree t p []; replaceUndefined (fst (fst d)) n.
  (** visit.py:488-497 - Frame.setBlockingAssign, for the entries of one signal, is the code of addNonblockingAssign (AsgModel.note)
      but for a copy. Assignments one after the other, then a read (bindvisitor.py:1205-1213). *)
  Fixpoint notes (l : list bind_) (ws : list bind_) : res (list bind_) := match ws with [] => Ok l | b :: r => do l' <- note l b; notes l' r end.
  Definition read_after (n : chain) (ws : list bind_) : res df :=
    do l <- notes [] ws; match l with [] => Ok (DTerm n) | _ => removeOverwrapped n l [] end.
End Read.
