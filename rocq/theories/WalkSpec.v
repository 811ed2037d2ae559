(** WalkSpec.v - what expanding a signal into its definition means. *)
From Coq Require Import Relations.
From Verif Require Import Base ScopeModel DfModel DfSpec BindModel LitModel OptModel OptSpec.
Local Open Scope Z_scope.

(** The signals of a tree. *)
Fixpoint signals (t : df) : list chain :=
  match t with
  | DTerm n => [n]
  | DOp l _ | DConcat l | DSys _ l => flat_map signals l
  | DPart v m l => signals v ++ signals m ++ signals l
  | DPtr v p => signals v ++ signals p
  | DBranch c a b => signals c ++ signals a ++ signals b
  | DDelay a => signals a
  | _ => []
  end.

(** ** Kinds of signals *)
Definition has_type (t : term) (s : string) : Prop := In s (t_type t).
(** An input of the top module: its name is top.x *)
Definition top_input (n : chain) (t : term) : Prop := length n = 2%nat /\ has_type t "Input".
(** A register written by clocked blocks only. *)
Definition clocked (combination : chain -> bool) (n : chain) (t : term) : Prop :=
  has_type t "Reg" /\ combination n = false /\ ~ has_type t "Rename".

(** ** Dependencies: the definition of n (of its element p, for arrays) mentions m. *)
Definition uses (tree_of : chain -> df -> res df) (n m : chain) : Prop :=
  exists p d, tree_of n p = Ok d /\ In m (signals d).
(** n depends on itself. *)
Definition loops (tree_of : chain -> df -> res df) (n : chain) : Prop :=
  exists m, chain_eq m n = true /\ clos_trans _ (uses tree_of) m n.

(** ** Values *)
(** Complete trees: no missing parts, arrays only under an index, selects inside their operand;
    without undefined parts if [u] is false. *)
Fixpoint complete (u : bool) (rho : venv) (t : df) : Prop :=
  match t with
  | DNone => False
  | DUndef _ => u = true
  | DTerm n => e_arr rho n = false
  | DOp l _ | DConcat l | DSys _ l => fold_right and True (map (complete u rho) l)
  | DPart v m l =>
      complete u rho v /\ complete u rho m /\ complete u rho l /\
      exists mz lz w, value rho m = Some mz /\ value rho l = Some lz /\ width rho v = Some w /\ 0 <= lz <= mz /\ mz < w
  | DPtr v p => complete u rho p /\ (match v with DTerm _ => True | _ => complete u rho v end)
  | DBranch c a b => complete u rho c /\ complete u rho a /\ complete u rho b
  | DDelay a => complete u rho a
  | _ => True
  end.

(** The valuation agrees with the declarations, and vectors are numbered from 0. *)
Record declared (terms : ndict term) (rho : venv) : Prop := {
  d_array : forall n t, dget terms n = Some t -> (e_arr rho n = true <-> t_dims t <> None);
  d_name : forall n m, chain_eq n m = true -> e_arr rho n = e_arr rho m;
  d_zero : forall n t s, In (n, t) terms -> t_lsb t = DInt s -> int_eval s = Ok 0;
  d_zero' : forall n t v w a b, In (n, t) terms -> t_lsb t = DEval v w a b -> v = PInt 0 }.
(** The valuation satisfies every combinational definition: each signal that is not a top-level
    input and not a clocked register has the value, and the width, of its definition; so does
    each element of an array whose assignments have constant indices. *)
Record consistent (u : bool) (terms : ndict term) (combination : chain -> bool) (tree_of : chain -> df -> res df) (rho : venv) : Prop := {
  c_signal : forall n t d, dget terms n = Some t -> t_dims t = None -> ~ top_input n t -> ~ clocked combination n t ->
    tree_of n DNone = Ok d -> complete u rho d /\ ev rho d = ev rho (DTerm n);
  c_element : forall n t p d, dget terms n = Some t -> t_dims t <> None -> ~ top_input n t -> ~ clocked combination n t -> complete u rho p ->
    tree_of n p = Ok d -> d = DTerm n \/ complete u rho d /\ ev rho d = ev rho (DPtr (DTerm n) p) }.

(** A definition with missing arms: where nothing is assigned the signal keeps its value. *)
Fixpoint keeping (n : chain) (t : df) : df :=
  match t with
  | DNone => DTerm n
  | DBranch c a b => DBranch c (keeping n a) (keeping n b)
  | _ => t
  end.
