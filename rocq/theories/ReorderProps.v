(** ReorderProps.v - C18, C19, C20. *)
From Verif Require Import Base ScopeModel DfModel DfSpec ReorderModel ReorderSpec ReorderProofs.
Local Open Scope string_scope.

(** C18: whatever signals, constants and operators mean, reordering does not change what a
    tree means (a slice or element of a missing part being missing). *)
Theorem C18_reorder_preserves_value : forall I : interp, none_strict I ->
  forall n t t', reorder n t = Ok t' -> eval I t' = eval I t.
Proof. exact reorder_eval. Qed.
Print Assumptions C18_reorder_preserves_value.

(** C18: reordering ends, with one result, on every tree; and it succeeds on every tree
    without system calls, without branches in slice bounds and without missing operands. *)
Theorem C18_reorder_terminates : forall t, exists r, r <> Err OutOfFuel /\
  exists n0, forall n, n0 <= n -> reorder n t = r.
Proof. exact reorder_settled. Qed.
Print Assumptions C18_reorder_terminates.

Theorem C18_reorder_succeeds : forall t, reorderable t = true ->
  exists t' n0, forall n, n0 <= n -> reorder n t = Ok t'.
Proof. exact reorder_total. Qed.
Print Assumptions C18_reorder_succeeds.

(** C19 *)
Theorem C19_reorder_branch_first : forall n t t', reorder n t = Ok t' -> branch_first true t' = true.
Proof. exact reorder_branch_first. Qed.
Print Assumptions C19_reorder_branch_first.

Theorem C19_reorder_idempotent : forall n t t', reorder n t = Ok t' ->
  exists n0, forall m, n0 <= m -> reorder m t' = Ok t'.
Proof. exact reorder_idem. Qed.
Print Assumptions C19_reorder_idempotent.

(** C20: the result is the tree with exactly its missing and undefined parts replaced by the
    signal; none remain; doing it again changes nothing; and its meaning is the original's
    with the signal's own value for each such part. *)
Theorem C20_replace_undefined : forall t n t', replaceUndefined t n = Ok t' ->
  t' = fill (DTerm n) t /\ occurs is_none t' = false /\ occurs isUndef t' = false /\
  replaceUndefined t' n = Ok t' /\ forall I, eval I t' = eval (with_old_value I n) t.
Proof. exact replace_spec. Qed.
Print Assumptions C20_replace_undefined.

(** C20: it succeeds exactly on trees without high-impedance, delay and system-call nodes. *)
Theorem C20_replace_succeeds : forall t n,
  (exists t', replaceUndefined t n = Ok t') <-> occurs ru_bad t = false.
Proof. exact (fun t n => conj (fun H => match H with ex_intro _ t' E => replace_err t n t' E end)
                              (fun H => ex_intro _ _ (replace_ok t n H))). Qed.
Print Assumptions C20_replace_succeeds.

Definition sig (s : string) := DTerm [Label "top" STmodule None; Label s STsignal None].
Definition I0 : interp :=
  Interp Z 0%Z (fun n => Z.of_nat (List.length n)) (fun _ => 1%Z) (fun _ l => fold_right Z.add 0%Z l)
         (fun v _ _ => v) (fun v p => (v * p)%Z) (fun l => fold_right Z.add 0%Z l) (fun x => x)
         (fun _ _ => 0%Z) (fun z => negb (Z.eqb z 0)).
Example C18_witness :
  let t := DOp [DBranch (DBranch (sig "a") (sig "b") (DInt "0")) (sig "x") (sig "y");
                DPtr (sig "m") (DBranch (sig "s") (DInt "1") (DInt "2"))] Plus in
  none_strict I0 /\ reorderable t = true /\
  exists t', reorder 20 t = Ok t' /\ branch_first true t' = true /\ branch_first true t = false.
Proof.
  simpl. split; [split; intros; reflexivity|]. split; [reflexivity|].
  eexists; split; [reflexivity|]. split; reflexivity.
Qed.
Example C20_witness :
  replaceUndefined (DBranch (sig "en") (DConcat [DUndef 4; sig "d"]) DNone) [Label "q" STsignal None]
  = Ok (DBranch (sig "en") (DConcat [DTerm [Label "q" STsignal None]; sig "d"]) (DTerm [Label "q" STsignal None])).
Proof. reflexivity. Qed.
