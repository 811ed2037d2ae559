(** SplitProps.v - C21. *)
From Verif Require Import Base ScopeModel DfModel DfSpec SplitModel SplitSpec SplitProofs.
Local Open Scope string_scope.

(** C21: splitting succeeds; under each interpretation at most one listed path holds; the leaf of
    a path that holds means what the whole tree means; some path holds whenever the tree
    selects a present leaf; and (unless a nested branch has no leaf at all) the leaf of the path
    that holds is the very leaf selected, so a path holds exactly when a present leaf is. *)
Theorem C21_split_paths : forall t, no_delay t -> conds_present t = true -> isBranch t = true ->
  exists d, split t = Ok d /\
  forall I, not_law I ->
    (forall k leaf, In (k, leaf) d -> holds I k -> eval I leaf = eval I t) /\
    (forall k1 l1 k2 l2, In (k1, l1) d -> In (k2, l2) d -> holds I k1 -> holds I k2 -> k1 = k2 /\ l1 = l2) /\
    (pick I t <> DNone -> exists k leaf, In (k, leaf) d /\ holds I k) /\
    (no_hollow t = true -> forall k leaf, In (k, leaf) d -> holds I k -> leaf = pick I t /\ leaf <> DNone).
Proof. exact split_spec. Qed.
Print Assumptions C21_split_paths.

(** C21: every path is listed once. *)
Theorem C21_paths_listed_once : forall t d, no_delay t -> conds_present t = true ->
  split t = Ok d -> NoDup (map fst d).
Proof. exact split_keys_distinct. Qed.
Print Assumptions C21_paths_listed_once.

Definition s21 (s : string) := DTerm [Label "top" STmodule None; Label s STsignal None].
Definition I21 (b : bool) : interp :=
  Interp Z 0%Z (fun _ => if b then 1%Z else 0%Z) (fun _ => 7%Z)
         (fun o l => match o, l with Ulnot, [v] => if (v =? 0)%Z then 1%Z else 0%Z | _, _ => 0%Z end)
         (fun v _ _ => v) (fun v p => v) (fun l => 0%Z) (fun x => x) (fun _ _ => 0%Z)
         (fun z => negb (Z.eqb z 0)).
Example C21_witness :
  let t := DBranch (s21 "rst") (DInt "0") (DBranch (s21 "en") (s21 "d") DNone) in
  no_delay t /\ conds_present t = true /\ isBranch t = true /\ no_hollow t = true /\ not_law (I21 true) /\
  split t = Ok [([s21 "rst"], DInt "0");
                ([DOp [s21 "rst"] Ulnot; s21 "en"], s21 "d")] /\
  pick (I21 true) t = DInt "0" /\ pick (I21 false) t = DNone.
Proof. repeat split. intros v. simpl. destruct (v =? 0)%Z; reflexivity. Qed.
