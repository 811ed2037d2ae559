(** BacSpec.v - the always blocks of blocking assignments that the analyzer has to accept. *)
From Verif Require Import Base ScopeModel DfModel DfSpec ReorderSpec BindModel BindSpec BlkModel BlkSpec.

(** An expression that cannot be a bound of a part select: it has a conditional operator, or it reads one of the signals [asg]. *)
Definition moving (asg : chain -> bool) (t : df) : Prop := occurs (fun u => match u with DBranch _ _ _ => true | DTerm n => asg n | _ => false end) t = true.
(** Expressions as they are made from the source, over the declared signals [ns]; the bounds of part selects have no
    conditional operators and read no signal that the block assigns. *)
Inductive plain (asg : chain -> bool) (ns : list chain) : df -> Prop :=
| plain_term n : In n ns -> plain asg ns (DTerm n)
| plain_int s : plain asg ns (DInt s)
| plain_float s : plain asg ns (DFloat s)
| plain_str s : plain asg ns (DStr s)
| plain_op l o : Forall (plain asg ns) l -> plain asg ns (DOp l o)
| plain_concat l : Forall (plain asg ns) l -> plain asg ns (DConcat l)
| plain_part v m l : plain asg ns v -> plain asg ns m -> plain asg ns l -> ~ moving asg m -> ~ moving asg l -> plain asg ns (DPart v m l)
| plain_ptr v p : plain asg ns v -> plain asg ns p -> plain asg ns (DPtr v p)
| plain_cond c x y : plain asg ns c -> plain asg ns x -> plain asg ns y -> plain asg ns (DBranch c x y).

(** Statements: declared signals, not arrays and without a tree so far, are assigned; an if with an else has something
    before the else (a block, if nothing else), case items have labels or are the default. *)
Section Legal.
  Variables (asg : chain -> bool) (array : chain -> bool) (s : bst).
  Inductive legal_stmt : bstmt -> Prop :=
  | legal_asg n e : In n (bs_terms s) -> n <> [] -> array n = false -> dget (bs_trees s) n = None -> plain asg (bs_terms s) e -> legal_stmt (BAsg n e)
  | legal_seq l : Forall legal_stmt l -> legal_stmt (BBlock l)
  | legal_if c t e : plain asg (bs_terms s) c -> (t = None -> e = None) -> (forall y, t = Some y -> legal_stmt y) -> (forall y, e = Some y -> legal_stmt y) -> legal_stmt (BIf c t e)
  | legal_case comp items :
      plain asg (bs_terms s) comp ->
      Forall (fun gy => (forall ws, fst gy = Some ws -> ws <> [] /\ Forall (plain asg (bs_terms s)) ws) /\ forall y, snd gy = Some y -> legal_stmt y) items ->
      legal_stmt (BCase comp items).
End Legal.
(** A whole always block. *)
Definition legal_block (array : chain -> bool) (s : bst) (x : bstmt) : Prop := legal_stmt (bassigns x) array s x.
