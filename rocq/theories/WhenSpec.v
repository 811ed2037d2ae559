(** WhenSpec.v - what the reports about a signal's activity should say. *)
From Verif Require Import Base ScopeModel DfModel DfSpec BindSpec SplitSpec TransModel TransSpec FsmModel FsmSpec MachSpec.
Local Open Scope Z_scope.

(** [reaches I t good leaf]: reset conditions aside, the tree t comes to leaf, which is good: all conditions on
    the route to it that are not about reset are true. *)
Definition reaches (I : interp) (t : df) (good : df -> Prop) (leaf : df) : Prop :=
  good leaf /\ exists k kept dropped, route t k leaf /\ parted k kept dropped /\ all_true I kept.

(** [lists I r sig s]: the report r lists state s of register sig, under a condition that is true
    (or under none). *)
Definition lists (I : interp) (r : list (chain * list (Z * df))) (sig : chain) (s : Z) : Prop :=
  exists l c, In (sig, l) r /\ In (s, c) l /\ (c = DNone \/ i_truth I (eval I c) = true).

(** [on_state sig c]: the condition c constrains the state sig, whatever other signals it reads. *)
Fixpoint on_state (sig : chain) (c : df) : bool :=
  match c with
  | DTerm n => chain_eq n sig
  | DOp [x] _ => on_state sig x
  | DOp [x; y] o =>
      match o with
      | Or | Lor => on_state sig x && on_state sig y
      | And | Land => on_state sig x || on_state sig y
      | LessThan | GreaterThan | GreaterEq | Eq | NotEq | Eql | NotEql =>
          match x, y with
          | DTerm n, DTerm m => chain_eq n sig || chain_eq m sig
          | DTerm n, _ | _, DTerm n => chain_eq n sig
          | _, _ => false
          end
      | _ => false
      end
  | _ => false
  end.

(** A simplifier of conditions keeps their truth, in the interpretations P. *)
Definition simplifies (P : interp -> Prop) (optimize : df -> res df) : Prop :=
  forall c r, plain_tree c -> c <> DNone -> optimize c = Ok r ->
    r <> DNone /\ forall I, P I -> i_truth I (eval I r) = i_truth I (eval I c).

(** What makes a leaf active, or a value change. *)
Definition constant_where (rel : Z -> Prop) (leaf : df) : Prop := exists z w f g, leaf = DEval (PInt z) w f g /\ rel z.
Definition is_signal (tn : chain) (leaf : df) : Prop := exists n, leaf = DTerm n /\ chain_eq n tn = true.
(** The six comparisons. *)
Definition relation (op : string) (a b : Z) : Prop :=
  match op with
  | ">" => b < a | ">=" => b <= a | "<" => a < b | "<=" => a <= b | "==" => a = b | "!=" => a <> b
  | _ => False
  end%string.
