(** WordCondSpec.v - words of a memory assigned under conditions. *)
From Verif Require Import Base ScopeModel DfModel DfSpec BindModel BindSpec WordSpec.
Local Open Scope list_scope.

(** if (c1) .. else .. if (cn) m[index] = value; a condition with false stands for the else branch. *)
Record cond_write := CondWrite { c_conds : list (df * bool); c_write : word_write }.
(** Is it executed? *)
Definition executed (I : interp) (w : cond_write) : bool := forallb (fun c => Bool.eqb (i_truth I (eval I (fst c))) (snd c)) (c_conds w).
(** The word m[p] afterwards. *)
Fixpoint cond_value (I : interp) (ws : list cond_write) (p : df) (v : dom I) : dom I :=
  match ws with [] => v | w :: r => cond_value I r p (if (hits I (k_index (c_write w)) p && executed I w)%bool then i_term I (k_held (c_write w)) else v) end.
(** The last assignment in the text whose index names the word m[p], if any, is executed. *)
Fixpoint last_executed (I : interp) (ws : list cond_write) (p : df) : Prop :=
  match ws with
  | [] => True
  | w :: r => last_executed I r p /\ ((forall u, In u r -> hits I (k_index (c_write u)) p = false) -> hits I (k_index (c_write w)) p = true -> executed I w = true)
  end.
(** What the code makes of it: an assignment that is not executed leaves no value in the word that its index names. *)
Fixpoint found_value (I : interp) (ws : list cond_write) (p : df) (v : dom I) : dom I :=
  match ws with
  | [] => v
  | w :: r => found_value I r p (if hits I (k_index (c_write w)) p then (if executed I w then i_term I (k_held (c_write w)) else i_none I) else v)
  end.
