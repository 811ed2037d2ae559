(** SubsetModel.v - model of pyverilog/dataflow/subset.py and of utils/util.py dictlistmerge. *)
From Verif Require Import Base ScopeModel DfModel BindModel.

(** ** dictlistmerge (utils/util.py:73-83). The lists of the first dictionary are extended in
    place by the code; the model returns new values. [eqb] is the elements' __eq__. *)
Section Merge.
  Context {V : Type} (eqb : V -> V -> res bool).
  (** bvv in l *)
  Fixpoint lmem (x : V) (l : list V) : res bool :=
    match l with
    | [] => Ok false
    | y :: r => do e <- eqb y x; if e then Ok true else lmem x r
    end.
  Fixpoint append_new (l xs : list V) : res (list V) :=
    match xs with
    | [] => Ok l
    | x :: r => do e <- lmem x l; append_new (if e then l else l ++ [x]) r
    end.
  Fixpoint dictlistmerge (a b : ndict (list V)) : res (ndict (list V)) :=
    match b with
    | [] => Ok a
    | (k, v) :: r =>
        match dget a k with
        | Some l => do l' <- append_new l v; dictlistmerge (dset a k l') r
        | None => dictlistmerge (dset a k v) r
        end
    end.
End Merge.

(** dataflow/dataflow.py:788-797 - Bind.__eq__. AlwaysInfo has no __eq__ (identity of the
    object); the model compares its fields. *)
Definition cname_eqb (a b : cname) : bool :=
  match a, b with
  | CEmpty, CEmpty | CNone, CNone => true
  | CName x, CName y => chain_eq x y
  | _, _ => false
  end.
Definition always_eqb (a b : alwaysinfo) : bool :=
  cname_eqb (clock_name a) (clock_name b) && opt_eqb String.eqb (clock_edge a) (clock_edge b)
  && Z.eqb (clock_bit a) (clock_bit b)
  && cname_eqb (reset_name a) (reset_name b) && opt_eqb String.eqb (reset_edge a) (reset_edge b)
  && Z.eqb (reset_bit a) (reset_bit b).
Definition both (p q : res bool) : res bool := do e <- p; if e then q else Ok false.
Definition bind_eq (a b : bind_) : res bool :=
  both (df_eq (b_tree a) (b_tree b))
  (both (Ok (chain_eq (b_dest a) (b_dest b)))
  (both (df_eq (b_msb a) (b_msb b))
  (both (df_eq (b_lsb a) (b_lsb b))
  (both (df_eq (b_ptr a) (b_ptr b))
  (both (Ok (opt_eqb always_eqb (b_always a) (b_always b)))
        (Ok (String.eqb (b_param a) (b_param b)))))))).

Section Subset.
  Variable terms : ndict term.
  Variable binds : ndict (list bind_).
  Variables topmodule clock : string.           (* self.topmodule, self.clock_name *)
  Variable order : list chain -> list chain.    (* the iteration order of a set of names *)

  Definition bset := ndict (list bind_).
  Definition main_clock : chain := toTermname_list [topmodule; clock].

  (** The clock to follow for a bind (subset.py:48-50): None if the bind is not clocked or is
      clocked by the main clock; a clock without name is looked up as None and not found. *)
  Definition other_clock (b : bind_) : res (option chain) :=
    match b_always b with
    | Some a =>
        if always_isClockEdge a then
          match clock_name a with
          | CName c => Ok (if chain_eq c main_clock then None else Some c)
          | CNone => Err DefinitionError
          | CEmpty => Ok None
          end
        else Ok None
    | None => Ok None
    end.

  (** ret_binds[termname].append(bind) with the default [] (subset.py:45-47). *)
  Definition push (d : bset) (k : chain) (b : bind_) : bset :=
    match dget d k with Some l => dset d k (l ++ [b]) | None => dset d k [b] end.

  Section Step.
    Variable rec : chain -> list chain -> res (bset * list chain).
    (** subset.py:44-53 - the loop over the binds. *)
    Fixpoint bind_loop (n : chain) (bl : list bind_) (d : bset) (next : list chain) : res (bset * list chain) :=
      match bl with
      | [] => Ok (d, next)
      | b :: r =>
          let d := push d n b in
          do c <- other_clock b;
          match c with
          | None => bind_loop n r d next
          | Some c => do x <- rec c next;
                      do d' <- dictlistmerge bind_eq d (fst x);
                      bind_loop n r d' (sunion next (snd x))
          end
      end.
    (** subset.py:56-62 - the loop over the sources; [visited] is the argument, not [next]. *)
    Fixpoint src_loop (visited : list chain) (srcs : list chain) (d : bset) (next : list chain) : res (bset * list chain) :=
      match srcs with
      | [] => Ok (d, next)
      | s :: r =>
          if smem visited s then src_loop visited r d next
          else
            let next := sadd next s in
            do x <- rec s next;
            do d' <- dictlistmerge bind_eq d (fst x);
            src_loop visited r d' (sunion next (snd x))
      end.
  End Step.

  (** dataflow/subset.py:38-63 - getBindSubset. The recursion is bounded by fuel. *)
  Fixpoint getBindSubset (fuel : nat) (n : chain) (visited : list chain) : res (bset * list chain) :=
    match fuel with
    | O => Err OutOfFuel
    | S k =>
        match dget terms n with
        | None => Err DefinitionError
        | Some _ =>
            do x <- bind_loop (getBindSubset k) n (getBindlist binds n) [] visited;
            do srcs <- getBindSources terms binds n;
            src_loop (getBindSubset k) visited (order srcs) (fst x) (snd x)
        end
    end.

  (** dataflow/subset.py:65-73 - getBindSourceSubset (the targets already converted by
      toTermname). *)
  Fixpoint targets_loop (fuel : nat) (targets : list chain) (d : bset) (visited : list chain) : res (bset * list chain) :=
    match targets with
    | [] => Ok (d, visited)
    | t :: r => do x <- getBindSubset fuel t visited;
                do d' <- dictlistmerge bind_eq d (fst x);
                targets_loop fuel r d' (sunion visited (snd x))
    end.
  Definition getBindSourceSubset (fuel : nat) (targets : list string) : res (bset * list chain) :=
    targets_loop fuel (map toTermname_str targets) [] [].
End Subset.
