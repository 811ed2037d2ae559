(** BindSpec.v - names occurring in trees and definitions; histories of additions. *)
From Verif Require Import Base ScopeModel ScopeSpec DfModel DfSpec BindModel.

(** All the signal names in a tree, from left to right, with repetitions. *)
Fixpoint names (t : df) : list chain :=
  match t with
  | DTerm n => [n]
  | DOp l _ | DConcat l | DSys _ l => flat_map names l
  | DPart v m l => names v ++ names m ++ names l
  | DPtr v p => names v ++ names p
  | DBranch c a b => names c ++ names a ++ names b
  | DDelay a => names a
  | _ => []
  end.

(** [l] lists exactly the names of [ns], each once. *)
Definition name_set (l ns : list chain) : Prop := (forall n, In n l <-> In n ns) /\ NoDup l.

(** No name in the list has a wildcard component. *)
Definition no_wild (ns : list chain) : Prop := Forall no_any ns.

(** The nodes that make the source functions fail. *)
Definition src_bad (delays : bool) (t : df) : bool := isHiz t || isSys t || (negb delays && isDelay t).

(** An interpretation with the signals' values replaced. *)
Definition with_signals (I : interp) (f : chain -> dom I) : interp :=
  Interp (dom I) (i_none I) f (i_const I) (i_op I) (i_part I) (i_ptr I)
         (i_concat I) (i_delay I) (i_sys I) (i_truth I).

(** The names in the definition of a signal: its declared range and dimensions and its
    assignments with their bounds and indices. *)
Definition opt_names (d : option (list (df * df))) : list chain :=
  match d with None => [] | Some l => flat_map (fun p => names (fst p) ++ names (snd p)) l end.
Definition definition_names (t : option term) (bl : list bind_) : list chain :=
  match t with
  | None => []
  | Some t => names (t_msb t) ++ names (t_lsb t) ++ opt_names (t_dims t)
  end ++
  flat_map (fun b => names (b_msb b) ++ names (b_lsb b) ++ names (b_ptr b) ++ names (b_tree b)) bl.

(** Plain bounds: no delay nodes and no wildcard names (what the analyzer produces). *)
Definition plain_tree (t : df) : Prop := no_delay t /\ occurs wild_term t = false.
Definition plain_bind (b : bind_) : Prop :=
  plain_tree (b_msb b) /\ plain_tree (b_lsb b) /\ plain_tree (b_ptr b).

(** The slice a bind assigns. *)
Definition slice (b : bind_) : df * df * df := (b_msb b, b_lsb b, b_ptr b).

(** A history of additions to one signal: the slices in order of first addition ... *)
Inductive first_order : list bind_ -> list bind_ -> Prop :=
| fo_nil : first_order [] []
| fo_new h b fs : first_order h fs -> ~ In (slice b) (map slice h) -> first_order (h ++ [b]) (fs ++ [b])
| fo_old h b fs : first_order h fs -> In (slice b) (map slice h) -> first_order (h ++ [b]) fs.
(** ... and the last tree added for a slice. *)
Definition last_tree (h : list bind_) (sl : df * df * df) (t : df) : Prop :=
  exists h1 b h2, h = h1 ++ b :: h2 /\ slice b = sl /\ b_tree b = t /\ ~ In sl (map slice h2).

(** What one entry of the store says about the history of its signal. *)
Definition entry_of (h : list bind_) (f b : bind_) : Prop :=
  slice b = slice f /\ b_dest b = b_dest f /\ b_always b = b_always f /\ b_param b = b_param f /\
  last_tree h (slice f) (b_tree b).

(** Histories over a whole store. *)
Inductive action := ATerm (n : chain) (t : term) | ABind (n : chain) (b : bind_).
Fixpoint run (s : store) (h : list action) : res store :=
  match h with
  | [] => Ok s
  | ATerm n t :: r => run (addTerm s n t) r
  | ABind n b :: r => do s' <- addBind s n b; run s' r
  end.
Definition chain_dec (a b : chain) : {a = b} + {a <> b}.
Proof. repeat decide equality. Defined.
(** The assignments, and the declarations, of one signal in a history. *)
Definition binds_of (n : chain) (h : list action) : list bind_ :=
  flat_map (fun a => match a with ABind m b => if chain_dec m n then [b] else [] | _ => [] end) h.
Definition terms_of (n : chain) (h : list action) : list term :=
  flat_map (fun a => match a with ATerm m t => if chain_dec m n then [t] else [] | _ => [] end) h.
Definition plain_action (a : action) : Prop :=
  match a with ATerm n _ => no_any n | ABind n b => no_any n /\ plain_bind b end.

(** The first present value of a field over a list of declarations. *)
Fixpoint first_present {A} (absent : A -> bool) (none : A) (l : list A) : A :=
  match l with [] => none | x :: r => if absent x then first_present absent none r else x end.
