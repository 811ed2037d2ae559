(** MergeModel.v - model of pyverilog/dataflow/merge.py:110-158 and 280-532: one tree for a
    signal that is assigned in several places. [optimize], [optconst] and [reorder_] stand for
    VerilogOptimizer.optimize, optimizeConstant and reorder.reorder. Arrays are not modelled in
    getTree (merge.py:118-153). *)
From Verif Require Import Base ScopeModel DfModel BindModel OptModel.
Local Open Scope Z_scope.

Definition pint (z : Z) : df := DEval (PInt z) (Some 32) false false.

Section Merge.
  Variable terms : ndict term.
  Variables optimize optconst reorder_ : df -> res df.

  (** merge.py:32-39 - getTerm, with a ScopeChain. *)
  Definition getTerm (n : chain) : option term := dget terms n.
  (** merge.py:285-291, 328-334 - bindkey. *)
  Definition term_msb (n : chain) : res df := match getTerm n with Some t => Ok (t_msb t) | None => Err AttributeError end.
  Definition term_lsb (n : chain) : res df := match getTerm n with Some t => Ok (t_lsb t) | None => Err AttributeError end.
  Definition bindkey (b : bind_) : res Z :=
    do lsb <- (if is_none (b_lsb b) then Ok 0 else int_attr (b_lsb b));
    do ptr <- match b_ptr b with DEval v _ _ _ => as_int v | _ => Ok 0 end;
    do tm <- term_msb (b_dest b); do m <- optimize tm; do mz <- int_attr m;
    do tl <- term_lsb (b_dest b); do l <- optimize tl; do lz <- int_attr l;
    Ok (ptr * (Z.abs (mz - lz) + 1) + lsb).
  (** sorted(l, key=bindkey) *)
  Definition sort_binds (l : list bind_) : res (list bind_) :=
    do ks <- mapM bindkey l;
    Ok (map snd (sort_by (fun a b => fst a <=? fst b) (combine ks l))).
  (** -1 if not isinstance(bind.ptr, DFEvalValue) else bind.ptr.value *)
  Definition ptr_or (b : bind_) : res Z := match b_ptr b with DEval v _ _ _ => as_int v | _ => Ok (-1) end.

  (** merge.py:280-301 - getMergedTree. concatlist is kept reversed. *)
  Fixpoint merged_go (l : list bind_) (last_msb last_ptr : Z) (acc : list df) : res (list df) :=
    match l with
    | [] => Ok acc
    | b :: r =>
        do lsb <- (if is_none (b_lsb b) then Ok 0 else int_attr (b_lsb b));
        do p <- ptr_or b;
        if negb (last_ptr =? p) then merged_go r last_msb last_ptr acc
        else
          let acc := if last_msb + 1 <? lsb then DUndef (last_msb - lsb - 1) :: acc else acc in
          do msb <- (if is_none (b_msb b) then Ok (-1) else int_attr (b_msb b));
          merged_go r msb p (b_tree b :: acc)
    end.
  Definition getMergedTree (l : list bind_) : res df :=
    do s <- sort_binds l; do c <- merged_go s (-1) (-1) []; Ok (DConcat c).

  (** merge.py:392-397 - appendTail. *)
  Fixpoint appendTail (appended target : df) : df :=
    match target with
    | DNone => appended
    | DBranch c a b => DBranch c (appendTail appended a) (appendTail appended b)
    | _ => target
    end.
  (** merge.py:359-390 - mergeTree. *)
  Fixpoint mergeTree (first second : df) : res df :=
    match first, second with
    | DBranch c a b, DBranch c' a' b' =>
        do x <- optimize c; do y <- optimize c';
        do e <- df_eq x y;
        if e then do u <- mergeTree a a'; do v <- mergeTree b b'; Ok (DBranch x u v)
        else Ok (DBranch y (appendTail first a') (appendTail first b'))
    | _, DNone => Ok first
    | DNone, _ => Ok second
    | DBranch c a b, _ => do x <- optimize c; Ok (DBranch x (appendTail second a) (appendTail second b))
    | _, DBranch c' a' b' => do y <- optimize c'; Ok (DBranch y (appendTail first a') (appendTail first b'))
    | _, _ => Ok second
    end.

  Definition set_tree (b : bind_) (t : df) : bind_ := Bind t (b_dest b) (b_msb b) (b_lsb b) (b_ptr b) (b_always b) (b_param b).
  (** merge.py:324-357 - mergeBindlist. merged_bindlist is kept reversed; its head is last_bind. *)
  Definition same_slice (a b : bind_) : res bool :=
    do x <- value_attr (b_lsb a); do y <- value_attr (b_lsb b);
    if negb (pyval_eqb x y) then Ok false else
    do x <- value_attr (b_msb a); do y <- value_attr (b_msb b); Ok (pyval_eqb x y).
  Definition other_element (a b : bind_) : bool :=
    match b_ptr a, b_ptr b with DEval v _ _ _, DEval w _ _ _ => negb (pyval_eqb v w) | _, _ => false end.
  Fixpoint mergeBind_go (l : list bind_) (acc : list bind_) : res (list bind_) :=
    match l with
    | [] => Ok (rev acc)
    | b :: r =>
        match acc with
        | [] => mergeBind_go r [b]
        | last :: acc' =>
            if other_element last b || is_none (b_lsb last) || is_none (b_lsb b) || is_none (b_msb b) then mergeBind_go r (b :: acc)
            else
              do e <- same_slice last b;
              if e then do t <- mergeTree (b_tree last) (b_tree b); do t' <- optimize t; mergeBind_go r (set_tree b t' :: acc')
              else mergeBind_go r (b :: acc)
        end
    end.
  Definition mergeBindlist (l : list bind_) : res (list bind_) := do s <- sort_binds l; mergeBind_go s [].

  (** merge.py:413-451 - splitBind. *)
  Definition set_slice (b : bind_) (t : df) (m l : Z) : bind_ := Bind t (b_dest b) (pint m) (pint l) (b_ptr b) (b_always b) (b_param b).
  Definition splitBind (b : bind_) (pos : Z) : res (bind_ * option bind_) :=
    do m0 <- optconst (b_msb b); do l0 <- optconst (b_lsb b); do p <- optconst (b_ptr b);
    do ml <- (if negb (is_none p) && is_none m0 || is_none l0
              then match getTerm (b_dest b) with
                   | None => Err DefinitionError
                   | Some t => match t_dims t with Some _ => Err NameError | None => Ok (p, p) end
                   end
              else Ok (m0, l0));
    let '(m1, l1) := ml in
    do ml <- (if is_none p && is_none m1 || is_none l1
              then do tm <- term_msb (b_dest b); do tl <- term_lsb (b_dest b); do m <- optconst tm; do l <- optconst tl; Ok (m, l)
              else Ok (m1, l1));
    let '(m2, l2) := ml in
    do lz <- int_attr l2;
    if negb (lz <? pos) then Ok (b, None) else
    do mz <- int_attr m2;
    if negb (pos <=? mz) then Ok (b, None) else
    let right_width := pos - lz in
    let left_width := mz - pos + 1 in
    do rt <- reorder_ (DPart (b_tree b) (pint (right_width - 1)) (pint 0));
    do lt <- reorder_ (DPart (b_tree b) (pint mz) (pint (mz - left_width + 1)));
    do rt' <- optimize rt; do lt' <- optimize lt;
    Ok (set_slice b lt' mz pos, Some (set_slice b rt' (pos - 1) lz)).
  (** merge.py:399-411 - splitBindPositions, splitBindlist. *)
  Fixpoint splitBindPositions (b : bind_) (ps : list Z) : res (list bind_) :=
    match ps with
    | [] => Ok [b]
    | p :: r => do lr <- splitBind b p; do l <- splitBindPositions (fst lr) r; Ok (match snd lr with Some x => x :: l | None => l end)
    end.
  Fixpoint splitBindlist (l : list bind_) (ps : list Z) : res (list bind_) :=
    match l with [] => Ok [] | b :: r => do x <- splitBindPositions b ps; do y <- splitBindlist r ps; Ok (x ++ y) end.

  (** merge.py:488-506 - matchedRange. A range is (msb, lsb, ptr). *)
  Definition range := (Z * Z * option Z)%type.
  Definition optZ_eqb (a b : option Z) : bool := match a, b with Some x, Some y => x =? y | None, None => true | _, _ => false end.
  Fixpoint matchedRange (assigned : list range) (sm sl : Z) (sp : option Z) : list range :=
    match assigned with
    | [] => []
    | (m, l, p) :: r =>
        if match sp with Some _ => negb (optZ_eqb p sp) | None => false end then matchedRange r sm sl sp
        else
          let a := (l <=? sl) && (sl <=? m) in
          let b := (l <=? sm) && (sm <=? m) in
          if a || b then (if b then sm else m, if a then sl else l, sp) :: matchedRange r sm sl sp
          else matchedRange r sm sl sp
    end.
  (** merge.py:508-532 - unmatchedRange. *)
  Definition optmin (a : option Z) (x : Z) : option Z := match a with None => Some x | Some y => Some (if x <? y then x else y) end.
  Definition optmax (a : option Z) (x : Z) : option Z := match a with None => Some x | Some y => Some (if y <? x then x else y) end.
  Fixpoint unmatched_go (l : list range) (minval maxval last : option Z) (acc : list range) (sp : option Z) : option Z * option Z * list range :=
    match l with
    | [] => (minval, maxval, acc)
    | (m, l', p) :: r =>
        if match sp with Some _ => negb (optZ_eqb p sp) | None => false end then unmatched_go r minval maxval last acc sp
        else
          let acc := match last with Some x => if l' <? x + 1 then acc ++ [(x + 1, l' - 1, p)] else acc | None => acc end in
          unmatched_go r (optmin minval l') (optmax maxval m) (Some m) acc sp
    end.
  Definition unmatchedRange (matched : list range) (sm sl : Z) (sp : option Z) : list range :=
    match unmatched_go (sort_by (fun a b => fst (fst a) <=? fst (fst b)) matched) None None None [] sp with
    | (Some lo, Some hi, acc) =>
        acc ++ (if sl <? lo then [(sl, lo - 1, sp)] else []) ++ (if hi <? sm then [(hi + 1, sm, sp)] else [])
    | _ => [(sm, sl, sp)]
    end.
  (** merge.py:479-486 - getPositionsFromRange: the name search is not defined. *)
  Definition zadd (s : list Z) (x : Z) : list Z := if existsb (Z.eqb x) s then s else s ++ [x].
  Definition getPositions (matched : list range) (sp : option Z) : res (list Z) :=
    match sp, matched with
    | Some _, _ :: _ => Err NameError
    | _, _ => Ok (fold_left (fun s r => zadd (zadd s (snd (fst r))) (fst (fst r) + 1)) matched [])
    end.
  (** merge.py:453-477 - splitPositions. *)
  Fixpoint splitPos_go (l : list bind_) (pos : list Z) (assigned : list range) : res (list Z) :=
    match l with
    | [] => Ok pos
    | b :: r =>
        do p <- optconst (b_ptr b); do m0 <- optconst (b_msb b); do l0 <- optconst (b_lsb b);
        do ml <- (if is_none m0 && is_none l0
                  then do tm <- term_msb (b_dest b); do tl <- term_lsb (b_dest b); do m <- optconst tm; do l <- optconst tl; Ok (m, l)
                  else if negb (isEval m0) || negb (isEval l0) then Err NameError else Ok (m0, l0));
        let '(m1, l1) := ml in
        if is_none p || isEval p then
          do pv <- (if is_none p then Ok None else do z <- int_attr p; Ok (Some z));
          do mz <- int_attr m1; do lz <- int_attr l1;
          let matched := matchedRange assigned mz lz pv in
          let unmatched := unmatchedRange matched mz lz pv in
          do q <- getPositions matched pv;
          splitPos_go r (fold_left zadd q pos) (assigned ++ matched ++ unmatched)
        else splitPos_go r pos assigned
    end.
  Definition splitPositions (l : list bind_) : res (list Z) := do p <- splitPos_go l [] []; Ok (sort_by Z.leb p).

  (** merge.py:303-322 - getOptimizedBindlist. *)
  Definition optimize_bind (b : bind_) : res bind_ :=
    do t <- optimize (b_tree b); do m <- optimize (b_msb b); do l <- optimize (b_lsb b); do p <- optimize (b_ptr b);
    Ok (Bind t (b_dest b) m l p (b_always b) (b_param b)).
  Definition getOptimizedBindlist (l : list bind_) : res (list bind_) :=
    match l with
    | [] => Ok []
    | _ =>
        do l' <- mapM optimize_bind l;
        match l' with
        | [b] => Ok [b]
        | _ => do ps <- splitPositions l'; do s <- splitBindlist l' ps; mergeBindlist s
        end
    end.
  (** merge.py:110-116, 155-158 - getTree, for a signal that is not an array. *)
  Definition getTree (binds : ndict (list bind_)) (n : chain) : res df :=
    do l <- getOptimizedBindlist (match dget binds n with Some l => l | None => [] end);
    match l with
    | [] => Ok DNone
    | _ =>
        match getTerm n with
        | None => Err DefinitionError
        | Some t =>
            match t_dims t with
            | Some _ => Err Unmodelled
            | None => match l with [b] => Ok (b_tree b) | _ => do u <- getMergedTree l; optimize u end
            end
        end
    end.
End Merge.
