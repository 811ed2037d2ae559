(** NacSpec.v - the always blocks of nonblocking assignments that the analyzer has to accept. *)
From Verif Require Import Base ScopeModel ScopeSpec DfModel DfSpec ReorderSpec BindModel BindSpec AsgModel AccSpec.

(** Expressions: names, constants, operators, concatenations, part selects, indices and conditional operators; the bounds of part
    selects have no conditional operators. *)
Definition not_in_bound (u : df) : bool := match u with DBranch _ _ _ | DNone | DUndef _ | DHiz _ | DDelay _ | DSys _ _ => true | _ => false end.
Fixpoint expression (t : df) : bool :=
  match t with
  | DTerm _ | DInt _ | DFloat _ | DStr _ | DEval _ _ _ _ => true
  | DOp l _ | DConcat l => forallb expression l
  | DPart v m l => expression v && negb (occurs not_in_bound m) && negb (occurs not_in_bound l)
  | DPtr v p => expression v && expression p
  | DBranch c x y => expression c && expression x && expression y
  | DNone | DUndef _ | DHiz _ | DDelay _ | DSys _ _ => false
  end.
(** A bound or index of a left side: absent, or names, constants, operators, concatenations and selections. *)
Definition bound (t : df) : Prop := t = DNone \/ rigid t.
(** A left side: a signal with its bounds and index; if it is one of several in a concatenation, the part of the value for it is known. *)
Definition legal_dest (many : bool) (d : dest) : Prop :=
  no_any (d_name d) /\ bound (d_msb d) /\ bound (d_lsb d) /\ bound (d_ptr d) /\ (many = true -> rigid (d_pmsb d) /\ rigid (d_plsb d)).
(** Statements: an if with an else has something before the else (a block, if nothing else), case items have labels or are the default. *)
Inductive legal_nonblocking : stmt -> Prop :=
| legal_non ds v : Forall (legal_dest (1 <? length ds)) ds -> expression v = true -> legal_nonblocking (SNon ds v)
| legal_begin l : Forall (legal_nonblocking) l -> legal_nonblocking (SBlock l)
| legal_sif c t e : expression c = true -> (t = None -> e = None) -> (forall y, t = Some y -> legal_nonblocking y) -> (forall y, e = Some y -> legal_nonblocking y) -> legal_nonblocking (SIf c t e)
| legal_scase comp items :
    expression comp = true ->
    Forall (fun gy => (forall ws, fst gy = Some ws -> ws <> [] /\ Forall (fun w => expression w = true) ws) /\ forall y, snd gy = Some y -> legal_nonblocking y) items ->
    legal_nonblocking (SCase comp items).
(** The names in a store are those of declared signals. *)
Definition names_plain (s : store) : Prop := Forall (fun e => no_any (fst e)) (s_binds s).
