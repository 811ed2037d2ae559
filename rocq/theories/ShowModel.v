(** ShowModel.v - model of how a finite state machine is shown: FiniteStateMachine.label_range, view and tograph,
    controlflow/controlflow_analyzer.py:139-158, 205-248. *)
From Verif Require Import Base ScopeModel DfModel CodeModel GraphModel FsmModel.
Local Open Scope Z_scope.

(** controlflow_analyzer.py:143-150 (sources) and 151-158 (targets) - one state is taken into the bounds. *)
Definition bounds := (option Z * option Z)%type.
Definition widen (b : bounds) (x : Z) : bounds :=
  (match fst b with None => Some x | Some m => if x <? m then Some x else Some m end,
   match snd b with None => Some x | Some m => if m <? x then Some x else Some m end).
(** controlflow_analyzer.py:139-158 - label_range. *)
Definition label_range (m : machine) : bounds :=
  fold_left (fun b p => fold_left widen (map snd (snd p)) (widen b (fst p))) (m_fsm m) (None, None).

(** controlflow_analyzer.py:206-224 - the text of a condition in view; '%d' of a number. *)
Definition cond_code (c : df) : res string := match c with DNone => Ok "None"%string | _ => tocode "dest" c end.
Definition any_line (t : df * Z) : res string :=
  do x <- cond_code (fst t); Ok ("any -- " ++ x ++ "--> " ++ z_str (snd t))%string.
Definition state_line (s : Z) (t : df * Z) : res string :=
  do x <- cond_code (fst t); Ok (z_str s ++ " --" ++ x ++ "--> " ++ z_str (snd t))%string.
(** print, one line after the other; an exception ends it, what was printed stays. *)
Fixpoint print_all (ls : list (res string)) : list string * option exn :=
  match ls with
  | [] => ([], None)
  | Err e :: _ => ([], Some e)
  | Ok l :: r => let (a, e) := print_all r in (l :: a, e)
  end.
(** controlflow_analyzer.py:205-225 - view. *)
Definition view (m : machine) : list string * option exn :=
  print_all (map any_line (m_any m) ++ flat_map (fun p => map (state_line (fst p)) (snd p)) (m_fsm m)).

(** str(cond): 'None', and __repr__ of a node (dataflow.py:81-85 for a terminal; all others as tolabel). *)
Definition str_cond (c : df) : res string :=
  match c with DNone => Ok "None"%string | DTerm n => Ok (chain_repr n) | _ => tolabel c end.

(** The graph of pygraphviz, AGraph(directed=True): nodes and edges are kept once (the graph is strict), attributes given
    again replace the old ones. Writing file.dot, the layout and the drawing are left out. *)
Record graph := Graph { g_nodes : list (string * string); g_edges : list ((string * string) * string) }.
Fixpoint sset {V} (d : list (string * V)) (k : string) (v : V) : list (string * V) :=
  match d with
  | [] => [(k, v)]
  | (k', v') :: r => if String.eqb k' k then (k', v) :: r else (k', v') :: sset r k v
  end.
Definition add_node (g : graph) (n l : string) : graph := Graph (sset (g_nodes g) n l) (g_edges g).
Fixpoint eset {V} (d : list ((string * string) * V)) (k : string * string) (v : V) : list ((string * string) * V) :=
  match d with
  | [] => [(k, v)]
  | (k', v') :: r => if String.eqb (fst k') (fst k) && String.eqb (snd k') (snd k) then (k', v) :: r else (k', v') :: eset r k v
  end.
Definition add_edge (g : graph) (a b l : string) : graph := Graph (g_nodes g) (eset (g_edges g) (a, b) l).

Section Draw.
  Variable nolabel : bool.
  (** controlflow_analyzer.py:233-237, 241-245 - one transition. *)
  Definition draw_edge (s : Z) (g : graph) (t : df * Z) : res graph :=
    let g' := add_node g (z_str (snd t)) (z_str (snd t)) in
    if nolabel then Ok (add_edge g' (z_str s) (z_str (snd t)) EmptyString)
    else do l <- str_cond (fst t); Ok (add_edge g' (z_str s) (z_str (snd t)) l).
  Fixpoint draw_edges (s : Z) (ts : cdict) (g : graph) : res graph :=
    match ts with [] => Ok g | t :: r => do g' <- draw_edge s g t; draw_edges s r g' end.
  (** controlflow_analyzer.py:231-237 - one state and its transitions. *)
  Fixpoint draw_states (f : list (Z * cdict)) (g : graph) : res graph :=
    match f with
    | [] => Ok g
    | (s, dd) :: r => do g' <- draw_edges s dd (add_node g (z_str s) (z_str s)); draw_states r g'
    end.
  (** controlflow_analyzer.py:238-245 - the transitions from any state, for every state. *)
  Fixpoint draw_any (srcs : list Z) (any : cdict) (g : graph) : res graph :=
    match srcs with [] => Ok g | s :: r => do g' <- draw_edges s any g; draw_any r any g' end.
  (** controlflow_analyzer.py:226-248 - tograph, the graph that is drawn. *)
  Definition tograph (m : machine) : res graph :=
    do g <- draw_states (m_fsm m) (Graph [] []); draw_any (map fst (m_fsm m)) (m_any m) g.
End Draw.
