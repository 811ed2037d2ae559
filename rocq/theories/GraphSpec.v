(** GraphSpec.v - what is said about the graph. *)
From Verif Require Import Base ScopeModel DfModel LitModel CodeModel GraphModel.

(** The names that an event uses. *)
Definition uses (e : event) (name : string) : Prop := match e with Node _ n _ _ => n = name | Edge a b _ _ => a = name \/ b = name end.
(** The terminals of a tree. *)
Inductive occurs (n : chain) : df -> Prop :=
| o_term : occurs n (DTerm n)
| o_op l o t : In t l -> occurs n t -> occurs n (DOp l o)
| o_concat l t : In t l -> occurs n t -> occurs n (DConcat l)
| o_sys f l t : In t l -> occurs n t -> occurs n (DSys f l)
| o_part v m l t : In t [v; m; l] -> occurs n t -> occurs n (DPart v m l)
| o_ptr v p t : In t [v; p] -> occurs n t -> occurs n (DPtr v p)
| o_branch c a b t : In t [c; a; b] -> occurs n t -> occurs n (DBranch c a b)
| o_delay t : occurs n t -> occurs n (DDelay t).
(** No terminal is written like a renamed node: x_graphrename_3, say. *)
Definition clear_of_renamed (t : df) : Prop := forall n, occurs n t -> forall x c, (0 <= c)%Z -> chain_tocode n <> (x ++ "_graphrename_" ++ py_str c)%string.
(** Nodes of a tree that are drawn as nodes of their own: all but None, system calls and, unless
    identical, terminals. *)
Fixpoint own_nodes (identical : bool) (t : df) : nat :=
  match t with
  | DNone => 0
  | DTerm _ => if identical then 1 else 0
  | DOp l _ | DConcat l => S (list_sum (map (own_nodes identical) l))
  | DSys _ l => list_sum (map (own_nodes identical) l)
  | DPart v m l => S (own_nodes identical v + own_nodes identical m + own_nodes identical l)
  | DPtr v p => S (own_nodes identical v + own_nodes identical p)
  | DBranch c a b => S (own_nodes identical c + own_nodes identical a + own_nodes identical b)
  | DDelay x => S (own_nodes identical x)
  | _ => 1
  end.
Definition is_own (e : event) : bool := match e with Node false _ _ _ => true | _ => false end.
