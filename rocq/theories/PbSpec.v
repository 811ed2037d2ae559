(** PbSpec.v - what parameters, localparams and supply nets are worth, under any interpretation of signals and
    operators: the given value, or the declared one. *)
From Verif Require Import Base ScopeModel ScopeSpec DfModel DfSpec BindModel ExprModel MkSpec LitModel ConModel ConSpec PbModel.

(** The parameters an instance gives, by name or by position. *)
Fixpoint given (names : list string) (args : list (option string * expr)) : list (string * expr) :=
  match args with
  | [] => []
  | (Some x, e) :: r => (x, e) :: given (tl names) r
  | (None, e) :: r => match names with n :: _ => [(n, e)] | [] => [] end ++ given (tl names) r
  end.
(** The parameters of a module, in order. *)
Definition parameters (ds : list pdecl) : list string := map p_name (filter (fun d => match p_kind d with KParam => true | _ => false end) ds).

(** The interpretation and the repetition counts of the code fit together. *)
Definition fits (I : interp) (count : expr -> Z) (times : expr -> res Z) : Prop :=
  none_strict I /\ by_name I /\ plain_casts I /\ forall x c, times x = Ok c -> count x = c.

Section Spec.
  Variable I : interp.
  (** [outside] and [inside] are the values of expressions where the instance is and in the module. *)
  Variables outside inside : expr -> dom I.
  (** The value of a declared name: a parameter that is given has the given value, everything else the declared one. *)
  Inductive worth (gs : list (string * expr)) : pdecl -> dom I -> Prop :=
  | worth_given d e : p_kind d = KParam -> In (p_name d, e) gs -> worth gs d (outside e)
  | worth_default d : p_kind d = KParam -> ~ In (p_name d) (map fst gs) -> worth gs d (inside (p_value d))
  | worth_fixed d : p_kind d <> KParam -> worth gs d (inside (p_value d)).
  (** The whole of a signal. *)
  Definition whole (n : chain) : target I := (n, i_none I, i_none I, i_none I).
  (** The range of a declaration. *)
  Definition range_of (d : pdecl) (hi lo : dom I) : Prop :=
    match p_width d with
    | Some (m, l) => hi = inside m /\ lo = inside l
    | None => hi = i_const I (DInt (match p_kind d with KSupply => "0" | _ => "31" end)%string) /\ lo = i_const I (DInt "0"%string)
    end.
End Spec.
(** The names are declared; nothing is assigned to them yet. *)
Definition entered (s : store) (scope : chain) (ds : list pdecl) : Prop :=
  forall d, In d ds -> known s (net scope (p_name d)) <> None /\ getBindlist (s_binds s) (net scope (p_name d)) = [].
(** No functions are called in the values and ranges. *)
Definition no_calls_in (ds : list pdecl) : Prop :=
  forall d, In d ds -> no_calls (p_value d) = true /\ match p_width d with Some (m, l) => no_calls m = true /\ no_calls l = true | None => True end.
