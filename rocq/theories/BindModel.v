(** BindModel.v - model of the declaration and assignment records (dataflow/dataflow.py
    Term, Bind; dataflow/visit.py AlwaysInfo), of dictionaries keyed by signal names, of the
    DataFlow store, and of the source-signal functions of dataflow/merge.py. *)
From Verif Require Import Base ScopeModel DfModel.

(** A Python dict keyed by hierarchical names, in insertion order. A lookup compares the key
    with the stored keys by ScopeChain.__eq__ (equal names hash equal, C06); the model takes
    the first stored key that compares equal. *)
Definition ndict (V : Type) := list (chain * V).
Fixpoint dget {V} (d : ndict V) (k : chain) : option V :=
  match d with
  | [] => None
  | (k', v) :: r => if chain_eq k' k then Some v else dget r k
  end.
Definition dmem {V} (d : ndict V) (k : chain) : bool :=
  match dget d k with Some _ => true | None => false end.
Fixpoint dset {V} (d : ndict V) (k : chain) (v : V) : ndict V :=
  match d with
  | [] => [(k, v)]
  | (k', v') :: r => if chain_eq k' k then (k', v) :: r else (k', v') :: dset r k v
  end.

(** A Python set of names, in insertion order. *)
Definition smem (s : list chain) (n : chain) : bool := existsb (fun m => chain_eq m n) s.
Definition sadd (s : list chain) (n : chain) : list chain := if smem s n then s else s ++ [n].
Definition sunion (a b : list chain) : list chain := fold_left sadd b a.

(** dataflow/visit.py:56-65 - AlwaysInfo. A clock or reset name is '' (no name), None or a
    ScopeChain. *)
Inductive cname := CEmpty | CNone | CName (n : chain).
Record alwaysinfo := Always {
  clock_name : cname; clock_edge : option string; clock_bit : Z;
  reset_name : cname; reset_edge : option string; reset_bit : Z }.
Definition edge_is (e : option string) (s : string) : bool :=
  match e with Some x => String.eqb x s | None => false end.
Definition cname_empty (c : cname) : bool := match c with CEmpty => true | _ => false end.
(** dataflow/visit.py:85-90 - AlwaysInfo.isClockEdge. *)
Definition always_isClockEdge (a : alwaysinfo) : bool :=
  (negb (cname_empty (clock_name a)) && edge_is (clock_edge a) "posedge")
  || (negb (cname_empty (clock_name a)) && edge_is (clock_edge a) "negedge").
(** dataflow/visit.py:92-95 - AlwaysInfo.isCombination. *)
Definition always_isCombination (a : alwaysinfo) : bool :=
  match clock_name a with CNone => true | _ => false end.

(** dataflow/dataflow.py:689-695 - Term. termtype is a set of strings (a list here); msb and
    lsb are DNone for Python's None. *)
Record term := Term {
  t_name : chain; t_type : list string; t_msb : df; t_lsb : df; t_dims : option (list (df * df)) }.
(** dataflow/dataflow.py:771-782 - Bind. msb, lsb, ptr are DNone for Python's None. *)
Record bind_ := Bind {
  b_tree : df; b_dest : chain; b_msb : df; b_lsb : df; b_ptr : df;
  b_always : option alwaysinfo; b_param : string }.
(** dataflow/dataflow.py:803-808 and 930-933 - Bind.isCombination, Bind.isClockEdge. *)
Definition b_isCombination (b : bind_) : bool :=
  match b_always b with None => true | Some a => always_isCombination a end.
Definition b_isClockEdge (b : bind_) : bool :=
  match b_always b with None => false | Some a => always_isClockEdge a end.

(** ** The store (dataflow/dataflow.py:963-1015). Objects are values here: the model does not
    represent that setTerm and setBind modify the object first added in place. *)
Record store := Store { s_terms : ndict term; s_binds : ndict (list bind_) }.
Definition empty_store : store := Store [] [].

(** termtype |= other *)
Definition type_union (a b : list string) : list string :=
  fold_left (fun s x => if existsb (String.eqb x) s then s else s ++ [x]) b a.
(** dataflow/dataflow.py:980-987 - setTerm. *)
Definition merge_term (old new : term) : term :=
  Term (t_name old) (type_union (t_type old) (t_type new))
       (if is_none (t_msb old) then t_msb new else t_msb old)
       (if is_none (t_lsb old) then t_lsb new else t_lsb old)
       (match t_dims old with None => t_dims new | Some d => Some d end).
(** dataflow/dataflow.py:974-978 - addTerm. *)
Definition addTerm (s : store) (name : chain) (t : term) : store :=
  match dget (s_terms s) name with
  | None => Store (dset (s_terms s) name t) (s_binds s)
  | Some old => Store (dset (s_terms s) name (merge_term old t)) (s_binds s)
  end.

(** dataflow/dataflow.py:1009-1016 - the loop of setBind. *)
Definition same_slice (c b : bind_) : res bool :=
  do e1 <- df_eq (b_msb c) (b_msb b);
  if e1 then do e2 <- df_eq (b_lsb c) (b_lsb b);
             if e2 then df_eq (b_ptr c) (b_ptr b) else Ok false
  else Ok false.
Definition with_tree (c : bind_) (t : df) : bind_ :=
  Bind t (b_dest c) (b_msb c) (b_lsb c) (b_ptr c) (b_always c) (b_param c).
Fixpoint put_bind (l : list bind_) (b : bind_) : res (list bind_) :=
  match l with
  | [] => Ok [b]
  | c :: r => do e <- same_slice c b;
              if e then Ok (with_tree c (b_tree b) :: r)
              else do r' <- put_bind r b; Ok (c :: r')
  end.
(** dataflow/dataflow.py:997-1016 - addBind, setBind. *)
Definition addBind (s : store) (name : chain) (b : bind_) : res store :=
  match dget (s_binds s) name with
  | None => Ok (Store (s_terms s) (dset (s_binds s) name [b]))
  | Some l => do l' <- put_bind l b; Ok (Store (s_terms s) (dset (s_binds s) name l'))
  end.
(** dataflow/dataflow.py:1018-1021 - getBindlist. *)
Definition getBindlist (d : ndict (list bind_)) (name : chain) : list bind_ :=
  match dget d name with Some l => l | None => [] end.

(** ** Source signals *)
Section Sources.
  Variable delays : bool.   (* getSources accepts delay nodes, getTreeSources does not *)
  Fixpoint sources (t : df) : res (list chain) :=
    match t with
    | DNone | DInt _ | DFloat _ | DStr _ | DUndef _ | DEval _ _ _ _ => Ok []
    | DTerm n => Ok [n]
    | DBranch c a b => do x <- sources c; do y <- sources a; do z <- sources b;
                       Ok (sunion (sunion (sunion [] x) y) z)
    | DOp l _ | DConcat l => do ls <- mapM sources l; Ok (fold_left sunion ls [])
    | DPart v m l => do x <- sources v; do y <- sources m; do z <- sources l;
                     Ok (sunion (sunion (sunion [] x) y) z)
    | DPtr v p => do x <- sources v; do y <- sources p; Ok (sunion (sunion [] x) y)
    | DDelay a => if delays then do x <- sources a; Ok (sunion [] x) else Err DefinitionError
    | DHiz _ | DSys _ _ => Err DefinitionError
    end.
End Sources.
(** dataflow/merge.py:161-205 - getSources. The operator and concatenation cases collect a
    list and make a set of it: the same set. *)
Definition getSources : df -> res (list chain) := sources true.
(** dataflow/merge.py:235-275 - getTreeSources. *)
Definition getTreeSources : df -> res (list chain) := sources false.

(** dataflow/merge.py:213-224 - getTermSources (the term lookup is done by the caller). *)
Fixpoint dims_sources (l : list (df * df)) (acc : list chain) : res (list chain) :=
  match l with
  | [] => Ok acc
  | (a, b) :: r => do x <- getTreeSources a; do y <- getTreeSources b;
                   dims_sources r (sunion (sunion acc x) y)
  end.
Definition getTermSources (terms : ndict term) (name : chain) : res (list chain) :=
  match dget terms name with
  | None => Ok []
  | Some t => do x <- getTreeSources (t_msb t); do y <- getTreeSources (t_lsb t);
              let s := sunion (sunion [] x) y in
              match t_dims t with None => Ok s | Some l => dims_sources l s end
  end.
(** dataflow/merge.py:226-233 - getBindinfoSources. *)
Fixpoint binds_sources (l : list bind_) (acc : list chain) : res (list chain) :=
  match l with
  | [] => Ok acc
  | b :: r => do x <- getTreeSources (b_msb b); do y <- getTreeSources (b_lsb b);
              do z <- getTreeSources (b_ptr b); do w <- getTreeSources (b_tree b);
              binds_sources r (sunion (sunion (sunion (sunion acc x) y) z) w)
  end.
Definition getBindinfoSources (binds : ndict (list bind_)) (name : chain) : res (list chain) :=
  binds_sources (getBindlist binds name) [].
(** dataflow/merge.py:207-211 - getBindSources. *)
Definition getBindSources (terms : ndict term) (binds : ndict (list bind_)) (name : chain) : res (list chain) :=
  do x <- getTermSources terms name; do y <- getBindinfoSources binds name;
  Ok (sunion (sunion [] x) y).
