(** BlkModel.v - model of pyverilog/dataflow/bindvisitor.py and visit.py: blocking assignments in an
    always block. Each assignment makes a renamed signal (_rn0_x, _rn1_x, ...) and the tree of x selects
    among them; a read of x sees what the frames have recorded. *)
From Verif Require Import Base ScopeModel DfModel ReorderModel BindModel AsgModel.

(** Trees, terms and counter (self.dataflow's binddict and terms, self.renamecnt). Only assignments to
    whole signals are modelled (msb, lsb and ptr are None), so a signal has one Bind, and its
    tree stands for it. *)
Record bst := BSt { bs_trees : ndict df; bs_terms : list chain; bs_cnt : Z }.
Definition tree_of (s : bst) (n : chain) : df := match dget (bs_trees s) n with Some t => t | None => DNone end.
Definition set_tree (s : bst) (n : chain) (t : df) : bst := BSt (dset (bs_trees s) n t) (bs_terms s) (bs_cnt s).

(** An entry of a frame's blockingassign is a Bind object. The first Bind made for a signal is
    also the object in the dataflow (dataflow.py:989-990 keeps it), whose tree later assignments change
    in place (dataflow.py:1001): Live. Any other one is the frame's own: Own. (When a frame's entries are
    copied to the enclosing frame, bindvisitor.py:668-673, the objects are shared, but the inner frame
    is not used any more.) *)
Inductive entry := Live | Own (t : df).
Definition btable := ndict entry.
Record bframe := BFrame { bf_cond : option (df * bool); bf_tab : btable }.

(** The tree of an entry's Bind. *)
Definition entry_tree (s : bst) (n : chain) (e : entry) : df := match e with Live => tree_of s n | Own t => t end.
(** visit.py:488-497 - Frame.setBlockingAssign; the new Bind is given as an entry. *)
Definition put_entry (s : bst) (t : btable) (n : chain) (e : entry) : bst * btable :=
  match dget t n with
  | None => (s, dset t n e)
  | Some Live => (set_tree s n (entry_tree s n e), t)
  | Some (Own _) => (s, dset t n (Own (entry_tree s n e)))
  end.
(** bindvisitor.py:668-673 - copyBlockingAssigns. *)
Fixpoint copy_table (s : bst) (t : btable) (from : btable) : bst * btable :=
  match from with
  | [] => (s, t)
  | (n, e) :: r => let st := put_entry s t n e in copy_table (fst st) (snd st) r
  end.
Fixpoint copy_tables (s : bst) (t : btable) (l : list btable) : bst * btable :=
  match l with
  | [] => (s, t)
  | f :: r => let st := copy_table s t f in copy_tables (fst st) (snd st) r
  end.
(** visit.py:788-795 - FrameTable.getBlockingAssign: innermost frame first. The frames around the
    always block have no entries. *)
Fixpoint find_entry (fs : list bframe) (n : chain) : option entry :=
  match fs with
  | [] => None
  | f :: r => match dget (bf_tab f) n with Some e => Some e | None => find_entry r n end
  end.

Section Blk.
  Variable k : nat.                         (* recursion depth of reorder and of the insert functions *)
  Variable array : chain -> bool.           (* getTermDims(name) is not None *)

  (** bindvisitor.py:1195-1260 - resolveBlockingAssign. [rd] reads a signal (:1205-1213); genvars are left
      out. Arrays are not assigned in the modelled statements (:1241-1251: no entry). *)
  Section Resolve.
    Variable rd : chain -> res df.
    Fixpoint resolve (t : df) : res df :=
      match t with
      | DNone | DInt _ | DFloat _ | DStr _ | DEval _ _ _ _ => Ok t
      | DTerm n => rd n
      | DBranch c x y =>
          do x' <- resolve x; do y' <- resolve y; do c' <- resolve c;
          Ok (if isBranch c' then insertBranch c' x' y' else DBranch c' x' y')
      | DOp l o => do l' <- mapM resolve l; if existsb isBranch l' then insertOpList k l' o else mkOp l' o
      | DConcat l => do l' <- mapM resolve l; if existsb isBranch l' then insertConcat k l' else Ok (DConcat l')
      | DPart v m l =>
          do m' <- resolve m; do l' <- resolve l; do v' <- resolve v;
          Ok (if isBranch v' then insertPartselect v' m' l' else DPart v' m' l')
      | DPtr v p =>
          do p' <- resolve p;
          if match v with DTerm n => array n | _ => false end then Ok (DPtr v p')
          else do v' <- resolve v; Ok (if isBranch v' then insertPointer v' p' else DPtr v' p')
      | DUndef _ | DHiz _ | DDelay _ | DSys _ _ => Err FormatError
      end.
  End Resolve.

  (** bindvisitor.py:1184-1193 - removeOverwrappedCondition, and :1262-1271 getFitTree (a whole
      signal's Bind is taken as it is; the optimize calls there are left out). [p] is the path of
      the scope (getCondflow). *)
  Definition read_at (s : bst) (fs : list bframe) (p : path) (n : chain) : res df :=
    match find_entry fs n with
    | None => Ok (DTerm n)
    | Some e => do d <- diffBranchTree (entry_tree s n e) p []; replaceUndefined (fst (fst d)) n
    end.
  (** bindvisitor.py:959-991 - getCondflow, getCondlist, getFlowlist; :1167-1182 - reduceIfScope,
      resolveCondlist: the condition of an if frame is resolved in the frames around it. Everything is
      resolved anew each time. *)
  Fixpoint condpath (s : bst) (fs : list bframe) : res path :=
    match fs with
    | [] => Ok []
    | f :: r =>
        do p <- condpath s r;
        match bf_cond f with
        | None => Ok p
        | Some (c, b) => do c' <- resolve (read_at s r p) c; Ok (p ++ [(c', b)])
        end
    end.
  (** bindvisitor.py:993-999 - getTree. *)
  Definition getTree (s : bst) (fs : list bframe) (p : path) (e : df) : res df :=
    do t <- resolve (read_at s fs p) e; reorder k t.

  (** bindvisitor.py:708-713 - renameVar; :1426-1434 - the loop of getRenamedDst (it ends: one more
      name is tried than there are terms). *)
  Fixpoint init_last (n : chain) : option (chain * label) :=
    match n with
    | [] => None
    | [l] => Some ([], l)
    | l :: r => match init_last r with Some (i, x) => Some (l :: i, x) | None => None end
    end.
  Definition renameVar (n : chain) (cnt : Z) : res chain :=
    match init_last n with
    | None => Err IndexError
    | Some (i, l) => Ok (i ++ [Label ("_rn" ++ nat_str cnt ++ "_" ++ sname l) STsignal None])
    end.
  Fixpoint new_name (tries : nat) (terms : list chain) (n : chain) (cnt : Z) : res (chain * Z) :=
    match tries with
    | O => Err OutOfFuel
    | S m => do r <- renameVar n cnt; if smem terms r then new_name m terms n (cnt + 1) else Ok (r, cnt + 1)%Z
    end.

  (** bindvisitor.py:941-958 - addDataflow_blocking with one destination (the constant table of the
      optimizer is left out: it is only used to compute bounds); :1412-1416 - setDataflow_rename;
      :1426-1468 - getRenamedDst, setRenamedTree, setRenamedFlow; makeBind as in AsgModel. *)
  Definition assign (s : bst) (f : bframe) (r : list bframe) (n : chain) (e : df) : res (bst * btable) :=
    do p <- condpath s (f :: r);
    do raw <- getTree s (f :: r) p e;
    do rc <- new_name (S (length (bs_terms s))) (bs_terms s) n (bs_cnt s);
    let s1 := BSt (dset (bs_trees s) (fst rc) raw) (bs_terms s ++ [fst rc]) (snd rc) in
    do t <- insert (tree_of s1 n) p (DTerm (fst rc));
    do t' <- reorder k t;
    let e := match dget (bs_trees s1) n with None => Live | Some _ => Own t' end in
    Ok (put_entry (set_tree s1 n t') (bf_tab f) n e).

  (** Statements. Conditions, values, case expressions and labels are the trees made from them. *)
  Inductive bstmt :=
  | BAsg (n : chain) (e : df)
  | BBlock (l : list bstmt)
  | BIf (c : df) (t e : option bstmt)
  | BCase (comp : df) (items : list (option (list df) * option bstmt)).

  (** bindvisitor.py:282-427, 525-543, 548-549 - the visitor. [c], [t]: condition and entries of the
      current frame, [r]: the frames around it. Returns the entries of the current frame. Each frame
      is new. *)
  Fixpoint bvisit (s : bst) (c : option (df * bool)) (t : btable) (r : list bframe) (x : bstmt) {struct x} : res (bst * btable) :=
    match x with
    | BAsg n e => assign s (BFrame c t) r n e
    | BBlock l =>
        do q <- (fix go (s : bst) (u : btable) (l : list bstmt) : res (bst * btable) :=
                   match l with [] => Ok (s, u) | y :: l' => do q <- bvisit s None u (BFrame c t :: r) y; go (fst q) (snd q) l' end) s [] l;
        Ok (copy_table (fst q) t (snd q))
    | BIf cnd th el =>
        do q1 <- match th with
                 | None => Ok (s, [])
                 | Some y => bvisit s (Some (cnd, true)) [] (BFrame c t :: r) y
                 end;
        do q2 <- match el with
                 | None => Ok (fst q1, [])
                 | Some y =>
                     match th with
                     | None => Err TypeError             (* None + '_ELSE' *)
                     | Some _ => bvisit (fst q1) (Some (cnd, false)) [] (BFrame c t :: r) y
                     end
                 end;
        Ok (copy_tables (fst q2) t [snd q1; snd q2])
    | BCase comp items =>
        do q <- (fix case (s : bst) (r : list bframe) (l : list (option (list df) * option bstmt)) : res (bst * list btable) :=
                   match l with
                   | [] => Ok (s, [])
                   | (g, y) :: l' =>
                       do cnd <- item_cond comp g;
                       do q1 <- match y with None => Ok (s, []) | Some y => bvisit s (Some (cnd, true)) [] r y end;
                       match l' with
                       | [] => Ok (fst q1, [snd q1])
                       | _ => do q2 <- case (fst q1) (BFrame (Some (cnd, false)) [] :: r) l'; Ok (fst q2, snd q1 :: [] :: snd q2)
                       end
                   end) s (BFrame c t :: r) items;
        Ok (copy_tables (fst q) t (snd q))
    end.

  (** bindvisitor.py:218-232 - visit_Always. *)
  Definition bvisit_always (s : bst) (x : bstmt) : res bst := do q <- bvisit s None [] [] x; Ok (fst q).
End Blk.
