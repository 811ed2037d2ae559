(** WordSpec.v - assignments to words of a memory, one after the other, and what a word holds afterwards. *)
From Verif Require Import Base ScopeModel DfModel DfSpec BindModel BindSpec.

(** m[index] = value; the value is held by an added signal. *)
Record word_write := WordWrite { k_index : df; k_held : chain }.
Definition word_bind (m : chain) (ai : option alwaysinfo) (w : word_write) : bind_ := Bind (DTerm (k_held w)) m DNone DNone (k_index w) ai "blocking".
(** Does an assignment to m[i] change m[p]? *)
Definition hits (I : interp) (i p : df) : bool := i_truth I (i_op I Eq [eval I i; eval I p]).
(** The word m[p] afterwards. *)
Fixpoint word_value (I : interp) (ws : list word_write) (p : df) (v : dom I) : dom I :=
  match ws with [] => v | w :: r => word_value I r p (if hits I (k_index w) p then i_term I (k_held w) else v) end.
(** An index that is an expression without delays, over whole names. *)
Definition index_ok (i : df) : Prop := i <> DNone /\ plain_tree i.
(** An index expression is used again. *)
Definition reused (ws : list word_write) (i : df) : Prop := exists pre w post, ws = pre ++ w :: post /\ k_index w = i /\ In i (map k_index pre).
(** An index expression that is used again names no word that another index expression names and that is read. *)
Definition undisturbed (I : interp) (ws : list word_write) (p : df) : Prop :=
  forall i w, reused ws i -> In w ws -> k_index w <> i -> hits I i p = true -> hits I (k_index w) p = false.
