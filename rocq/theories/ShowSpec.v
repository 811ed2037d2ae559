(** ShowSpec.v - the states and transitions of a machine, the lines and the drawing that show them. *)
From Verif Require Import Base ScopeModel DfModel FsmModel FsmSpec.
Local Open Scope Z_scope.

(** The transitions, with the state they start in (None: any state), the condition and the target. *)
Definition transition : Type := option Z * df * Z.
Definition has (m : machine) (t : transition) : Prop :=
  match t with
  | (Some s, c, d) => exists dd, In (s, dd) (m_fsm m) /\ In (c, d) dd
  | (None, c, d) => In (c, d) (m_any m)
  end.
(** The states the machine knows: those transitions are known for, and the targets of these. *)
Definition source (m : machine) (s : Z) : Prop := In s (map fst (m_fsm m)).
Definition known (m : machine) (s : Z) : Prop := source m s \/ exists q c, has m (Some q, c, s).
(** It can go from s to d: by a transition of s or by one from any state. *)
Definition leads (m : machine) (s d : Z) (c : df) : Prop := has m (Some s, c, d) \/ (source m s /\ has m (None, c, d)).

(** A line of the listing: the state or the word any, the text of the condition, the target. *)
Definition who (s : option Z) : string := match s with None => "any -- " | Some s => z_str s ++ " --" end%string.
Definition line (s : option Z) (text : string) (d : Z) : string := (who s ++ text ++ "--> " ++ z_str d)%string.
