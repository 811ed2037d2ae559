(** WalkModel.v - model of pyverilog/dataflow/walker.py (expanding a signal into its definition),
    with the array part of merge.py:getTree. replaceUndefined is in ReorderModel.v. *)
From Verif Require Import Base ScopeModel DfModel ReorderModel BindModel LitModel OptModel MergeModel.
Local Open Scope Z_scope.

(** utils/signaltype.py:14-18 - isType. *)
Definition isType (tt : list string) (s : string) : bool := existsb (fun t => String.eqb t s) tt.

(** The eval() method of constants and values (dataflow.py:133, 153, 198, 210, 526), used as a
    number; other nodes have no such method. *)
Definition eval_attr (t : df) : res Z :=
  match t with
  | DInt s => int_eval s
  | DEval (PInt z) _ _ _ => Ok z
  | DEval (PFloat _) _ _ _ | DFloat _ => Err Unmodelled
  | DEval _ _ _ _ | DStr _ => Err TypeError
  | _ => Err AttributeError
  end.
(** str() of the trees whose expansion can be a part select (dataflow.py:81-85, 274, 323). *)
Definition var_str (t : df) : string :=
  match t with DTerm n => chain_repr n | DPart _ _ _ => "PartSelect" | DPtr _ _ => "Pointer" | _ => "" end.

(** ** merge.py:118-153 - getTree for arrays *)
Section Arrays.
  Variable terms : ndict term.
  Variables optimize optconst reorder_ : df -> res df.
  (** discretebinds (merge.py:119-130): the assignments of each constant index, in order of first
      use; None if some index is not constant. *)
  Fixpoint group_add (d : list (Z * list bind_)) (k : Z) (b : bind_) : list (Z * list bind_) :=
    match d with
    | [] => [(k, [b])]
    | (k', l) :: r => if k' =? k then (k', l ++ [b]) :: r else (k', l) :: group_add r k b
    end.
  Fixpoint group_binds (l : list bind_) (d : list (Z * list bind_)) : res (option (list (Z * list bind_))) :=
    match l with
    | [] => Ok (Some d)
    | b :: r => match b_ptr b with
                | DEval v _ _ _ => do k <- as_int v; group_binds r (group_add d k b)
                | _ => Ok None
                end
    end.
  Definition zget (d : list (Z * list bind_)) (k : Z) : option (list bind_) :=
    match find (fun p => fst p =? k) d with Some p => Some (snd p) | None => None end.
  (** merge.py:135-139, 144-151 - the tree of one element. *)
  Definition element_tree (d : list (Z * list bind_)) (k : Z) : res df :=
    match zget d k with
    | None => Err KeyError
    | Some [] => Ok DNone
    | Some [b] => Ok (b_tree b)
    | Some l => getMergedTree terms optimize l
    end.
  (** merge.py:141-153 - range(minptr, maxptr + 1); n is the number of remaining indices. *)
  Fixpoint index_tree (d : list (Z * list bind_)) (ptr : df) (n : nat) (c : Z) (ret : df) : res df :=
    match n with
    | O => Ok ret
    | S n' => do t <- element_tree d c; do e <- mkOp [pint c; ptr] Eq; index_tree d ptr n' (c + 1) (DBranch e t ret)
    end.
  Definition array_tree (n : chain) (l : list bind_) (ptr : df) : res df :=
    do g <- group_binds l [];
    match g with
    | None => Ok (DTerm n)
    | Some d =>
        match ptr with
        | DEval v _ _ _ => do k <- as_int v; element_tree d k
        | _ =>
            match map fst d with
            | [] => Err ValueError
            | k :: ks => let lo := fold_left Z.min ks k in let hi := fold_left Z.max ks k in
                         index_tree d ptr (Z.to_nat (hi + 1 - lo)) lo DNone
            end
        end
    end.
  (** merge.py:110-158 - getTree. *)
  Definition getTreePtr (binds : ndict (list bind_)) (n : chain) (ptr : df) : res df :=
    do l <- getOptimizedBindlist terms optimize optconst reorder_ (match dget binds n with Some l => l | None => [] end);
    match l with
    | [] => Ok DNone
    | _ =>
        match getTerm terms n with
        | None => Err DefinitionError
        | Some t =>
            match t_dims t with
            | Some _ => array_tree n l ptr
            | None => match l with [b] => Ok (b_tree b) | _ => do u <- getMergedTree terms optimize l; optimize u end
            end
        end
    end.
End Arrays.

(** merge.py:98-106 - isCombination, on the original assignments. *)
Definition isCombination (binds : ndict (list bind_)) (n : chain) : bool :=
  existsb b_isCombination (match dget binds n with Some l => l | None => [] end).

(** ** walker.py *)
Section Walk.
  Variable terms : ndict term.
  Variable combination : chain -> bool.          (* isCombination *)
  Variable tree_of : chain -> df -> res df.      (* getTree(name, ptr), DNone for ptr = None *)

  (** merge.py:32-36 - getTerm with a string: the first name with that text. *)
  Definition getTerm_str (s : string) : option term :=
    match find (fun p => String.eqb s (chain_repr (fst p))) terms with Some p => Some (snd p) | None => None end.

  (** walker.py:50-81 - the DFTerminal case: [None] means that the tree itself is returned,
      [Some (ptr, step)] that the definition is expanded. *)
  Definition expand (visited : list chain) (step : Z) (msb lsb ptr : df) (n : chain) : res (option (df * Z)) :=
    if smem visited n then Ok None else
    match dget terms n with
    | None => Err DefinitionError
    | Some t =>
        if isTopmodule (getScope n) && isType (t_type t) "Input" then Ok None else
        match t_dims t with
        | Some _ =>
            if is_none ptr then Err FormatError
            else if negb (is_none msb) && negb (is_none lsb) then Ok None
            else if isType (t_type t) "Reg" && negb (combination n) && negb (isType (t_type t) "Rename")
                 then if step =? 0 then Ok None else Ok (Some (ptr, step - 1))
                 else Ok (Some (ptr, step))
        | None =>
            if isType (t_type t) "Reg" && negb (combination n) && negb (isType (t_type t) "Rename")
            then if step =? 0 then Ok None else Ok (Some (DNone, step - 1))
            else Ok (Some (DNone, step))
        end
    end.
  (** merge.py:65-69 - getTermDims(name) is not None *)
  Definition is_array (n : chain) : res bool :=
    match dget terms n with None => Err DefinitionError | Some t => Ok (match t_dims t with Some _ => true | None => false end) end.
  (** walker.py:95-104 *)
  Definition select (src var m l : df) : res df :=
    match var with
    | DPart v _ l' =>
        match getTerm_str (var_str src) with
        | None => Err AttributeError
        | Some t =>
            do b <- eval_attr (t_lsb t);
            do mz <- eval_attr m; do lz <- eval_attr l'; do kz <- eval_attr l;
            Ok (DPart v (DInt (py_str (mz + lz - b))) (DInt (py_str (kz + lz - b))))
        end
    | _ => Ok (DPart var m l)
    end.
  (** walker.py:106-113 *)
  Definition index (src var p : df) : res df :=
    match src with
    | DTerm n => do a <- is_array n;
                 if a && negb (match var with DTerm m => chain_eq m n | _ => false end) then Ok var else Ok (DPtr var p)
    | _ => Ok (DPtr var p)
    end.
  (** walker.py:36-121 - walkTree. [fuel] bounds the number of nested expansions. The argument
      delay is only handed down and is left out. *)
  Fixpoint walk (fuel : nat) (visited : list chain) (step : Z) (msb lsb ptr : df) (t : df) {struct fuel} : res df :=
    let fix go (visited : list chain) (step : Z) (msb lsb ptr : df) (t : df) {struct t} : res df :=
      match t with
      | DNone => Ok (DUndef 32)
      | DUndef _ | DHiz _ | DInt _ | DFloat _ | DStr _ | DEval _ _ _ _ => Ok t
      | DTerm n =>
          do e <- expand visited step msb lsb ptr n;
          match e with
          | None => Ok t
          | Some (p, s) =>
              do d <- tree_of n p;
              match fuel with
              | O => Err OutOfFuel
              | S f => walk f (n :: visited) s DNone DNone DNone d
              end
          end
      | DBranch c a b =>
          do c' <- go visited step DNone DNone DNone c;
          do a' <- go visited step DNone DNone DNone a;
          do b' <- go visited step DNone DNone DNone b; Ok (DBranch c' a' b')
      | DOp l o => do l' <- mapM (go visited step DNone DNone DNone) l; mkOp l' o
      | DPart v m l =>
          do m' <- go visited step DNone DNone DNone m;
          do l' <- go visited step DNone DNone DNone l;
          do v' <- go visited step m' l' DNone v; select v v' m' l'
      | DPtr v p =>
          do p' <- go visited step DNone DNone DNone p;
          do v' <- go visited step DNone DNone p' v; index v v' p'
      | DConcat l => do l' <- mapM (go visited step DNone DNone DNone) l; Ok (DConcat l')
      | DDelay _ | DSys _ _ => Err DefinitionError
      end in
    go visited step msb lsb ptr t.
  (** Names that can be looked up: each declared name with any scope kinds. A bound for the
      nested expansions, not in the code. *)
  Definition all_types : list scopetype :=
    [STgenerate; STalways; STfunction; STtask; STtaskcall; STinitial; STfor; STwhile; STif; STmodule; STblock; STsignal; STfunctioncall; STany].
  Fixpoint variants (c : chain) : list chain :=
    match c with
    | [] => [[]]
    | l :: r => flat_map (fun t => map (cons (Label (sname l) t (sloop l))) (variants r)) all_types
    end.
  Definition known_names : list chain := flat_map (fun p => variants (fst p)) terms.
  Definition walkTree := walk (length known_names).
  (** walker.py:28-34 - walkBind. *)
  Definition walkBind (name : string) (step : Z) : res df :=
    let n := toTermname_str name in
    if negb (dmem terms n) then Err DefinitionError else
    do t <- tree_of n DNone; do w <- walkTree [] step DNone DNone DNone t; replaceUndefined w n.
End Walk.
