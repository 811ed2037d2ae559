(** FunModel.v - model of pyverilog/dataflow/bindvisitor.py: function calls in continuous assignments. Each
    call gets a scope of its own, with signals for the function's name, inputs and local variables; the
    body is visited there, and the call's value is the signal of the function's name. *)
From Verif Require Import Base ScopeModel DfModel ReorderModel BindModel AsgModel ExprModel MkModel BlkModel.

(** Statements of a function body, and functions: the names of the inputs in their order, of the local
    variables, and the body. Widths are left out. *)
Inductive fstmt :=
| FAsg (x : string) (e : expr)
| FBlock (l : list fstmt)
| FIf (c : expr) (t e : option fstmt)
| FCase (comp : expr) (items : list (option (list expr) * option fstmt)).   (* None: default *)
Record func := Func { fn_name : string; fn_ports : list string; fn_locals : list string; fn_body : fstmt }.

(** The dataflow (trees, terms, rename counter; BlkModel), and the number of calls so far. *)
Record fstate := FSt { fs_st : bst; fs_calls : Z }.
Definition sig (s : string) : label := Label s STsignal None.
(** bindvisitor.py:1085 - the label of the scope of a call. The prefixes of visit.py:654-668 (md_, fc_) are
    left out and all calls are counted together: the labels of different calls differ. *)
Definition frame (c : Z) : label := Label ("functioncall" ++ nat_str c) STfunctioncall None.
(** bindvisitor.py:853-876 - addTerm: the name is known from now on. *)
Definition declare (st : fstate) (n : chain) : fstate :=
  FSt (BSt (bs_trees (fs_st st)) (bs_terms (fs_st st) ++ [n]) (bs_cnt (fs_st st))) (fs_calls st).
Definition put (st : fstate) (n : chain) (t : df) : fstate := FSt (set_tree (fs_st st) n t) (fs_calls st).

(** bindvisitor.py:791-800 - searchTerminal: from the scope outwards, up to the module (the scope is given
    with its innermost label first). *)
Fixpoint search (terms : list chain) (rscope : list label) (s : string) : option chain :=
  match rscope with
  | [] => None
  | l :: r =>
      let n := rev rscope ++ [sig s] in
      if smem terms n then Some n else match stype l with STmodule => None | _ => search terms r s end
  end.
(** bindvisitor.py:1006-1016 - an identifier in an expression. *)
Definition find (st : fstate) (scope : chain) (s : string) : res chain :=
  match search (bs_terms (fs_st st)) (rev scope) s with Some n => Ok n | None => Err DefinitionError end.

(** Left-to-right evaluation of a list, with the state. *)
Section Each.
  Context {S A B : Type}.
  Variable f : S -> A -> res (S * B).
  Fixpoint eachM (st : S) (l : list A) : res (S * list B) :=
    match l with
    | [] => Ok (st, [])
    | a :: r => do q <- f st a; do q' <- eachM (fst q) r; Ok (fst q', snd q :: snd q')
    end.
End Each.

Section Fun.
  Variable funcs : list func.               (* the functions of the module *)
  Variable array : chain -> bool.           (* getTermDims(name) is not None *)
  Variable times : expr -> res Z.           (* repetition counts, as in MkModel *)
  Variable k : nat.                         (* recursion depth of reorder and of the insert functions *)

  Section Calls.
  Variable call : fstate -> chain -> string -> list expr -> res (fstate * chain).
  Section Scope.
  Variable scope : chain.
  (** bindvisitor.py:1001-1165 - makeDFTree, as in MkModel, with the state: calls add signals. *)
  Fixpoint mkS (st : fstate) (e : expr) {struct e} : res (fstate * df) :=
    match e with
    | XId s => do n <- find st scope s; Ok (st, DTerm n)
    | XInt s => Ok (st, DInt s)
    | XCond c t f =>
        do t' <- mkS st t; do f' <- mkS (fst t') f; do c' <- mkS (fst f') c;
        if isBranch (snd c') then Err AttributeError else Ok (fst c', DBranch (snd c') (snd t') (snd f'))
    | XUn o a => do a' <- mkS st a; do t <- (if isBranch (snd a') then insertUnaryOp (snd a') o else mkOp [snd a'] o); Ok (fst a', t)
    | XBin o a b =>
        do a' <- mkS st a; do b' <- mkS (fst a') b;
        do t <- (if isBranch (snd a') || isBranch (snd b') then insertOp (snd a') (snd b') o else mkOp [snd a'; snd b'] o); Ok (fst b', t)
    | XPart v m l =>
        do v' <- mkS st v; do m' <- mkS (fst v') m; do l' <- mkS (fst m') l;
        Ok (fst l', if isBranch (snd v') then insertPartselect (snd v') (snd m') (snd l') else DPart (snd v') (snd m') (snd l'))
    | XPtr v p =>
        do v' <- mkS st v; do p' <- mkS (fst v') p;
        Ok (fst p', match snd v' with
                    | DTerm n => if array n then DPtr (snd v') (snd p') else DPart (snd v') (snd p') (snd p')
                    | _ => DPart (snd v') (snd p') (snd p')
                    end)
    | XConcat l =>
        do l' <- eachM mkS st l;
        do t <- (if existsb isBranch (snd l') then insertConcat k (snd l') else Ok (DConcat (snd l'))); Ok (fst l', t)
    | XRepeat v n => do c <- times n; do v' <- mkS st v; Ok (fst v', DConcat (repeat (snd v') (Z.to_nat c)))
    | XSys f l =>
        if String.eqb f "unsigned" || String.eqb f "signed"
        then match l with a :: _ => mkS st a | [] => Err IndexError end
        else Ok (st, DInt "0")
    | XCall f l => do q <- call st scope f l; Ok (fst q, DTerm (snd q))        (* :1081-1122 *)
    end.
  (** bindvisitor.py:993-999 - getTree. Outside always blocks no read goes through the frames' entries
      (visit.py:788-795: isAlways is false), so resolveBlockingAssign keeps the signals. *)
  Definition keep_signals (t : df) : res df := resolve k array (fun n => Ok (DTerm n)) t.
  Definition getTreeS (st : fstate) (e : expr) : res (fstate * df) :=
    do q <- mkS st e; do t <- keep_signals (snd q); do t' <- reorder k t; Ok (fst q, t').
  (** bindvisitor.py:936-939 - addDataflow without conditions around it: makeBind (AsgModel) with an empty path. *)
  Definition addDataflow (st : fstate) (n : chain) (e : expr) : res fstate :=
    do q <- getTreeS st e;
    do t <- insert (tree_of (fs_st (fst q)) n) [] (snd q);
    do t' <- reorder k t; Ok (put (fst q) n t').

  (** bindvisitor.py:382-391 - the condition of a case item. *)
  Definition case_cond (comp : expr) (g : option (list expr)) : res expr :=
    match g with
    | None => Ok (XInt "1")
    | Some [] => Err IndexError
    | Some (w :: ws) => Ok (fold_left (fun c w => XBin Lor c (XBin Eq comp w)) ws (XBin Eq comp w))
    end.
  (** bindvisitor.py:964-976 - the tree of the condition of an if frame. (The code makes these trees again at
      each assignment below the frame, with the same result; here they are made when the frame is entered.
      Calls in conditions are left out: each such assignment would add another copy of the call.) *)
  Definition cond_tree (st : fstate) (c : expr) : res df := do t <- makeDFTree (find st scope) array times k c; keep_signals t.

  (** bindvisitor.py:941-958, 1412-1468 - a blocking assignment (BlkModel.assign; [p]: the conditions around
      it). Calls in values under conditions are left out: their own signals would be conditional too. *)
  Definition assignF (st : fstate) (p : path) (t : btable) (x : string) (e : expr) : res (fstate * btable) :=
    do n <- find st scope x;
    do q <- match p with
            | [] => getTreeS st e
            | _ => do u <- makeDFTree (find st scope) array times k e; do u' <- keep_signals u; do u'' <- reorder k u'; Ok (st, u'')
            end;
    let s := fs_st (fst q) in
    do rc <- new_name (S (length (bs_terms s))) (bs_terms s) n (bs_cnt s);
    let s1 := BSt (dset (bs_trees s) (fst rc) (snd q)) (bs_terms s ++ [fst rc]) (snd rc) in
    do u <- insert (tree_of s1 n) p (DTerm (fst rc));
    do u' <- reorder k u;
    let en := match dget (bs_trees s1) n with None => Live | Some _ => Own u' end in
    let st := put_entry (set_tree s1 n u') t n en in
    Ok (FSt (fst st) (fs_calls (fst q)), snd st).

  (** bindvisitor.py:282-427, 525-543, 548-549 - the visitor, below a call: isAlways is false, so the entries
      of a begin ... end are not copied out (:541-543); those of the arms of if and case are.
      The labels of blocks and ifs in the scopes of inner calls are left out. *)
  Fixpoint fvisit (st : fstate) (p : path) (t : btable) (x : fstmt) {struct x} : res (fstate * btable) :=
    match x with
    | FAsg x e => assignF st p t x e
    | FBlock l =>
        do q <- (fix go (st : fstate) (u : btable) (l : list fstmt) : res (fstate * btable) :=
                   match l with [] => Ok (st, u) | y :: l' => do q <- fvisit st p u y; go (fst q) (snd q) l' end) st [] l;
        Ok (fst q, t)
    | FIf c th el =>
        do cd <- cond_tree st c;
        do q1 <- match th with None => Ok (st, []) | Some y => fvisit st (p ++ [(cd, true)]) [] y end;
        do q2 <- match el with
                 | None => Ok (fst q1, [])
                 | Some y =>
                     match th with
                     | None => Err TypeError             (* None + '_ELSE' *)
                     | Some _ => fvisit (fst q1) (p ++ [(cd, false)]) [] y
                     end
                 end;
        let r := copy_tables (fs_st (fst q2)) t [snd q1; snd q2] in
        Ok (FSt (fst r) (fs_calls (fst q2)), snd r)
    | FCase comp items =>
        do q <- (fix case (st : fstate) (p : path) (l : list (option (list expr) * option fstmt)) : res (fstate * list btable) :=
                   match l with
                   | [] => Ok (st, [])
                   | (g, y) :: l' =>
                       do c <- case_cond comp g;
                       do cd <- cond_tree st c;
                       do q1 <- match y with None => Ok (st, []) | Some y => fvisit st (p ++ [(cd, true)]) [] y end;
                       match l' with
                       | [] => Ok (fst q1, [snd q1])
                       | _ => do q2 <- case (fst q1) (p ++ [(cd, false)]) l'; Ok (fst q2, snd q1 :: [] :: snd q2)
                       end
                   end) st p items;
        let r := copy_tables (fs_st (fst q)) t (snd q) in
        Ok (FSt (fst r) (fs_calls (fst q)), snd r)
    end.
  End Scope.

  (** bindvisitor.py:1105-1115 - the inputs get the arguments, whose trees are made in the caller's scope. *)
  Fixpoint bind_args (scope cf : chain) (st : fstate) (ports : list string) (args : list expr) : res fstate :=
    match ports, args with
    | p :: ps, a :: es => do st' <- addDataflow scope st (cf ++ [sig p]) a; bind_args scope cf st' ps es
    | _, _ => Ok st
    end.
  End Calls.

  (** bindvisitor.py:1081-1122 - a function call; :802-810 - searchFunction (functions of the module only). Fuel:
      depth of nested calls. A wrong number of arguments ends in an AttributeError, since the message asks for
      the name of the name (:1103). *)
  Fixpoint call (fuel : nat) (st : fstate) (scope : chain) (f : string) (args : list expr) : res (fstate * chain) :=
    match fuel with
    | O => Err OutOfFuel
    | S m =>
        match List.find (fun fn => String.eqb (fn_name fn) f) funcs with
        | None => Err DefinitionError
        | Some fn =>
            let cf := scope ++ [frame (fs_calls st)] in
            let st1 := declare (FSt (fs_st st) (fs_calls st + 1)) (cf ++ [sig (fn_name fn)]) in
            if negb (length (fn_ports fn) =? length args)%nat then Err AttributeError
            else
              let st2 := fold_left declare (map (fun p => cf ++ [sig p]) (fn_ports fn)) st1 in
              do st3 <- bind_args (call m) scope cf st2 (fn_ports fn) args;
              let st4 := fold_left declare (map (fun p => cf ++ [sig p]) (fn_locals fn)) st3 in
              do q <- fvisit (call m) cf st4 [] [] (fn_body fn);
              Ok (fst q, cf ++ [sig (fn_name fn)])
        end
    end.

  (** bindvisitor.py:545-546 - visit_Assign: a continuous assignment in the module. *)
  Definition visit_Assign (fuel : nat) (scope : chain) (st : fstate) (y : string) (e : expr) : res fstate :=
    do n <- find st scope y; addDataflow (call fuel) scope st n e.
End Fun.
