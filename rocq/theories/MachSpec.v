(** MachSpec.v - what an extracted state machine should say about its register. *)
From Verif Require Import Base ScopeModel DfModel DfSpec BindSpec SplitSpec TransModel TransSpec FsmModel FsmSpec.
Local Open Scope Z_scope.

(** [route t k leaf]: the decision tree t reaches leaf when every condition of k is true, k listing
    the conditions met on the way (those not taken appear negated). *)
Inductive route : df -> list df -> df -> Prop :=
| route_leaf t : isBranch t = false -> t <> DNone -> route t [] t
| route_true c a b k leaf : route a k leaf -> route (DBranch c a b) (c :: k) leaf
| route_false c a b k leaf : route b k leaf -> route (DBranch c a b) (DOp [c] Ulnot :: k) leaf.

(** A tree is about reset if a name, a system function or a text in it contains "reset" or "rst",
    in any case of letters. *)
Definition within (p s : string) : Prop := exists a b, s = (a ++ p ++ b)%string.
Definition same_letter (a b : ascii) : Prop :=
  a = b \/ (65 <= nat_of_ascii a <= 90 /\ nat_of_ascii b = nat_of_ascii a + 32)%nat
        \/ (65 <= nat_of_ascii b <= 90 /\ nat_of_ascii a = nat_of_ascii b + 32)%nat.
Definition says_reset (s : string) : Prop :=
  exists w p, within w s /\ In p ["reset"; "rst"]%string /\
  Forall2 same_letter (list_ascii_of_string w) (list_ascii_of_string p).
Fixpoint texts (t : df) : list string :=
  match t with
  | DTerm n => map sname n
  | DInt s | DFloat s | DStr s | DEval (PStr s) _ _ _ => [s]
  | DOp l _ | DConcat l => flat_map texts l
  | DSys f l => f :: flat_map texts l
  | DPart v m l => texts v ++ texts m ++ texts l
  | DPtr v p => texts v ++ texts p
  | DBranch c a b => texts c ++ texts a ++ texts b
  | DDelay x => texts x
  | _ => []
  end.
Definition about_reset (c : df) : Prop := Exists says_reset (texts c).

(** [parted k kept dropped]: kept lists the conditions of k that are not about reset, dropped the
    others. *)
Inductive parted : list df -> list df -> list df -> Prop :=
| parted_nil : parted [] [] []
| parted_keep c k l r : ~ about_reset c -> parted k l r -> parted (c :: k) (c :: l) r
| parted_drop c k l r : about_reset c -> parted k l r -> parted (c :: k) l (c :: r).

(** The constant d. *)
Definition is_const (d : Z) (leaf : df) : Prop := exists w f g, leaf = DEval (PInt d) w f g.

(** Conditions that the inference of transition conditions handles (C24). *)
Definition analysable (tn : chain) (w : Z) (cs : list df) : Prop :=
  Forall (fun c => supported tn c = true) cs /\ Forall (no_contradiction tn w) cs /\ satisfiable tn w cs.

(** Trees the splitter handles: no delay, no wildcard name, no missing condition. *)
Definition proper_tree (t : df) : Prop := plain_tree t /\ conds_present t = true.

(** The inputs I, with the register tn holding s, give each condition on the routes of t its meaning. *)
Definition setting (tn : chain) (w : Z) (t : df) (I : interp) (s : Z) : Prop :=
  reads_state I tn s /\ 0 <= s < 2 ^ w /\
  forall k leaf, route t k leaf -> Forall (bitwise_logical I) k.

Section Delayed.
  Variable tree : chain -> res df.
  (** A register whose tree, away from reset, is just another signal. *)
  Definition copies (tn u : chain) : Prop :=
    exists t, tree tn = Ok t /\ (exists k, route t k (DTerm u)) /\
              forall k leaf, route t k leaf -> Forall about_reset k.
  (** tn holds what u held n clocks before. *)
  Inductive delayed : chain -> Z -> chain -> Prop :=
  | delayed_here tn : delayed tn 0 tn
  | delayed_next tn u n v : copies tn u -> delayed u n v -> delayed tn (n + 1) v.
End Delayed.
