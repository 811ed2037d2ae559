(** NameSpec.v - which scopes a hierarchical name denotes. *)
From Verif Require Import Base ScopeModel ScopeSpec DfModel BindModel BindSpec VisitModel VisitSpec.

(** Scopes with a name that can be written: instances, blocks, calls. The others (generate, if, for, always ...) are layers in between. *)
Definition named_scope (l : label) : Prop := stype l = STmodule \/ stype l = STblock \/ stype l = STsignal \/ stype l = STfunctioncall.
Definition layer (l : label) : Prop :=
  In (stype l) [STgenerate; STalways; STfunction; STtask; STtaskcall; STinitial; STfor; STwhile; STif].
(** A name a[i].b.c: the scopes a (in round i of a loop), b, c one inside the other, with layers in between. A layer of a loop has
    the index given, if one is given. *)
Inductive spells : list label -> list (string * option Z) -> Prop :=
| sp_last l : named_scope l -> sloop l = None -> spells [l] [(sname l, None)]
| sp_name l r p : named_scope l -> sloop l = None -> spells r p -> spells (l :: r) ((sname l, None) :: p)
| sp_index l r n z p : stype l = STfor -> sloop l = Some z -> spells r ((n, None) :: p) -> spells (l :: r) ((n, Some z) :: p)
| sp_layer l r n o p : layer l -> (stype l = STfor -> o = None) -> spells r ((n, o) :: p) -> spells (l :: r) ((n, o) :: p).
(** The scope c is denoted by the name p, written in the module instance m. *)
Definition denotes {node} (h : list (act node)) (m : chain) (p : list (string * option Z)) (c : chain) : Prop :=
  exists r fl, c = m ++ r /\ opened h c fl /\ spells r p.
(** The innermost instance around a scope. *)
Definition instance_of (c m : chain) : Prop :=
  exists b l r, m = b ++ [l] /\ c = m ++ r /\ stype l = STmodule /\ Forall (fun x => stype x <> STmodule) r.
(** Indices and their values. *)
Definition indices {E} (value : E -> res df) (p : list (string * option E)) (q : list (string * option Z)) : Prop :=
  Forall2 (fun a b => fst a = fst b /\ match snd a, snd b with
                                       | None, None => True
                                       | Some e, Some z => exists w f g, value e = Ok (DEval (PInt z) w f g)
                                       | _, _ => False
                                       end) p q.
(** The same name as that of the signal n in c: equal, whatever the kind of the last scope, and with the same hash. *)
Definition same_signal (v c : chain) (n : string) : Prop :=
  exists b l l', c = b ++ [l] /\ v = b ++ [l'; Label n STsignal None] /\ sname l' = sname l /\ sloop l' = sloop l /\ (l' = l \/ stype l' = STany).
