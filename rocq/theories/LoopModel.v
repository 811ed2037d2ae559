(** LoopModel.v - model of pyverilog/dataflow/bindvisitor.py: for and while statements in an always block, and
    the table of constants by which their headers are evaluated. Built on BlkModel. *)
From Verif Require Import Base ScopeModel DfModel ReorderModel BindModel AsgModel BlkModel OptModel HierModel.

(** Trees, terms, counter (BlkModel) and the optimizer's tables. *)
Record lst := LSt { l_bst : bst; l_opt : optenv }.
(** optimizer.py:30-35, 48-49 - setConstant, resetConstant, setTerm. *)
Definition set_const (E : optenv) (n : chain) (c : df) : optenv := OptEnv (o_terms E) (dset (o_const E) n c).
Definition reset_const (E : optenv) (n : chain) : optenv := OptEnv (o_terms E) (filter (fun p => negb (chain_eq (fst p) n)) (o_const E)).
Definition set_term (E : optenv) (n : chain) (t : term) : optenv := OptEnv (dset (o_terms E) n t) (o_const E).

(** Statements. The for statement's first and last part are blocking assignments of whole signals. *)
Inductive lstmt :=
| LAsg (n : chain) (e : df)
| LBlock (l : list lstmt)
| LIf (c : df) (t e : option lstmt)
| LCase (comp : df) (items : list (option (list df) * option lstmt))
| LFor (i : chain) (a : df) (c : df) (j : chain) (b : df) (body : lstmt)
| LWhile (c : df) (body : lstmt).

Section Loop.
  Variable k : nat.                         (* recursion depth of reorder and of the optimizer *)
  Variable array : chain -> bool.
  Variable range : chain -> df * df.        (* msb and lsb of a declared signal (getTermWidth) *)
  Variable log2i : Z -> option Z.           (* HierModel: the exponent of a power of two *)
  Variable tocode : df -> res string.       (* HierModel: the text of a tree *)
  Variable fuel : nat.                      (* bound of the "while True" loops *)

  (** bindvisitor.py:941-958 - addDataflow_blocking with one destination that is not a genvar. The value is
      optimized twice: for the renamed signal (:1436-1452 - setRenamedTree) and for the signal itself. *)
  Definition lassign (st : lst) (f : bframe) (r : list bframe) (n : chain) (e : df) : res (lst * btable) :=
    let s := l_bst st in
    do q <- assign k array s f r n e;
    do p <- condpath k array s (f :: r);
    do raw <- getTree k array s (f :: r) p e;
    do rc <- new_name (S (length (bs_terms s))) (bs_terms s) n (bs_cnt s);
    do v1 <- optimize (l_opt st) log2i tocode k raw;
    let E1 := if isEval v1 then set_const (l_opt st) (fst rc) v1 else l_opt st in
    let E2 := set_term E1 (fst rc) (Term (fst rc) ["Rename"%string] (fst (range n)) (snd (range n)) None) in
    do v2 <- optimize E2 log2i tocode k raw;
    let E3 := if isEval v2 then set_const E2 n v2 else reset_const E2 n in
    Ok (LSt (fst q) E3, snd q).
  (** bindvisitor.py:436-437, 447-448 ... - getTree and optimize of a header expression, in the current frame. *)
  Definition header (st : lst) (f : bframe) (r : list bframe) (e : df) : res df :=
    do p <- condpath k array (l_bst st) (f :: r);
    do t <- getTree k array (l_bst st) (f :: r) p e;
    optimize (l_opt st) log2i tocode k t.
  (** The test of a loop (:449-453, 497-501): false if the loop ends. A value that is not an integer cannot be
      compared or is a float: not modelled. *)
  Definition goes_on (st : lst) (f : bframe) (r : list bframe) (c : df) : res bool :=
    do v <- header st f r c;
    match v with
    | DEval x _ _ _ => do z <- as_int x; Ok (0 <? z)%Z
    | _ => Err FormatError
    end.
  (** [loop = ... .value] (:438, 473): the value names the frame of the next round. *)
  Definition loop_value (st : lst) (f : bframe) (r : list bframe) (e : df) : res Z :=
    do v <- header st f r e; do x <- value_attr v; as_int x.

  (** bindvisitor.py:282-427, 525-543, 548-549 - the visitor, as in BlkModel, with for statements (:430-476) and
      while statements (:478-515). Each round has a new frame inside the current one, whose entries are copied to
      the current frame. A for loop whose value comes again would use the frame of the earlier round: not modelled
      (signalvisitor.py:295 rejects it before: addFrame, DefinitionError). *)
  Fixpoint lvisit (st : lst) (c : option (df * bool)) (t : btable) (r : list bframe) (x : lstmt) {struct x} : res (lst * btable) :=
    match x with
    | LAsg n e => lassign st (BFrame c t) r n e
    | LBlock l =>
        do q <- (fix go (st : lst) (u : btable) (l : list lstmt) : res (lst * btable) :=
                   match l with [] => Ok (st, u) | y :: l' => do q <- lvisit st None u (BFrame c t :: r) y; go (fst q) (snd q) l' end) st [] l;
        let z := copy_table (l_bst (fst q)) t (snd q) in Ok (LSt (fst z) (l_opt (fst q)), snd z)
    | LIf cnd th el =>
        do q1 <- match th with
                 | None => Ok (st, [])
                 | Some y => lvisit st (Some (cnd, true)) [] (BFrame c t :: r) y
                 end;
        do q2 <- match el with
                 | None => Ok (fst q1, [])
                 | Some y =>
                     match th with
                     | None => Err TypeError
                     | Some _ => lvisit (fst q1) (Some (cnd, false)) [] (BFrame c t :: r) y
                     end
                 end;
        let z := copy_tables (l_bst (fst q2)) t [snd q1; snd q2] in Ok (LSt (fst z) (l_opt (fst q2)), snd z)
    | LCase comp items =>
        do q <- (fix case (st : lst) (r : list bframe) (l : list (option (list df) * option lstmt)) : res (lst * list btable) :=
                   match l with
                   | [] => Ok (st, [])
                   | (g, y) :: l' =>
                       do cnd <- item_cond comp g;
                       do q1 <- match y with None => Ok (st, []) | Some y => lvisit st (Some (cnd, true)) [] r y end;
                       match l' with
                       | [] => Ok (fst q1, [snd q1])
                       | _ => do q2 <- case (fst q1) (BFrame (Some (cnd, false)) [] :: r) l'; Ok (fst q2, snd q1 :: [] :: snd q2)
                       end
                   end) st (BFrame c t :: r) items;
        let z := copy_tables (l_bst (fst q)) t (snd q) in Ok (LSt (fst z) (l_opt (fst q)), snd z)
    | LFor i a cnd j b body =>
        do lv <- loop_value st (BFrame c t) r a;
        do q <- lassign st (BFrame c t) r i a;
        (fix go (m : nat) (st : lst) (t : btable) (seen : list Z) (lv : Z) : res (lst * btable) :=
           match m with
           | O => Err OutOfFuel
           | S m =>
               do g <- goes_on st (BFrame c t) r cnd;
               if negb g then Ok (st, t)
               else if existsb (Z.eqb lv) seen then Err Unmodelled
               else
                 do q <- lvisit st None [] (BFrame c t :: r) body;
                 let z := copy_table (l_bst (fst q)) t (snd q) in
                 let st1 := LSt (fst z) (l_opt (fst q)) in
                 do lv' <- loop_value st1 (BFrame c (snd z)) r b;
                 do q' <- lassign st1 (BFrame c (snd z)) r j b;
                 go m (fst q') (snd q') (lv :: seen) lv'
           end) fuel (fst q) (snd q) [] lv
    | LWhile cnd body =>
        (fix go (m : nat) (st : lst) (t : btable) : res (lst * btable) :=
           match m with
           | O => Err OutOfFuel
           | S m =>
               do g <- goes_on st (BFrame c t) r cnd;
               if negb g then Ok (st, t)
               else
                 do q <- lvisit st None [] (BFrame c t :: r) body;
                 let z := copy_table (l_bst (fst q)) t (snd q) in
                 go m (LSt (fst z) (l_opt (fst q))) (snd z)
           end) fuel st t
    end.

  (** bindvisitor.py:218-232 - visit_Always. *)
  Definition lvisit_always (st : lst) (x : lstmt) : res lst := do q <- lvisit st None [] [] x; Ok (fst q).
End Loop.
