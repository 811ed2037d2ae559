(** Base.v - exceptions as values, and generic facts about lists, strings and Z.
    Nothing here models a particular function of /repo. *)
From Coq Require Export String Ascii ZArith Lia Bool Arith List.
Export ListNotations.
Open Scope list_scope.

(** Python exceptions that the modelled code can raise. [OutOfFuel] stands for a
    recursion deeper than the fuel given to a model function (Python: RecursionError
    or non-termination); [Unmodelled] marks the few operations on floating-point
    payloads that the model does not compute. *)
Inductive exn :=
| DefinitionError | FormatError | NameError | TypeError | ValueError | IndexError
| KeyError | AttributeError | ZeroDivisionError | OverflowError
| ParseError | OutOfFuel | Unmodelled.

Inductive res (A : Type) := Ok (a : A) | Err (e : exn).
Arguments Ok {A} a.
Arguments Err {A} e.

Definition bind {A B} (r : res A) (f : A -> res B) : res B :=
  match r with Ok a => f a | Err e => Err e end.
Notation "'do' x <- r ; k" := (bind r (fun x => k))
  (at level 200, x pattern, r at level 100, k at level 200, right associativity).

(** Sequential map, stopping at the first exception (a Python [for] loop or
    comprehension). *)
Section MapM.
  Context {A B : Type} (f : A -> res B).
  Fixpoint mapM (l : list A) : res (list B) :=
    match l with
    | [] => Ok []
    | x :: xs => do y <- f x; do ys <- mapM xs; Ok (y :: ys)
    end.
End MapM.

Lemma bind_ok {A B} (r : res A) (f : A -> res B) b :
  bind r f = Ok b -> exists a, r = Ok a /\ f a = Ok b.
Proof. destruct r as [a|e]; simpl; [eauto | discriminate]. Qed.

Lemma mapM_ok_Forall2 {A B} (f : A -> res B) l l' :
  mapM f l = Ok l' -> Forall2 (fun x y => f x = Ok y) l l'.
Proof.
  revert l'; induction l as [|x xs IH]; simpl; intros l' H.
  - injection H as <-; constructor.
  - destruct (f x) as [y|e] eqn:Ey; simpl in H; [|discriminate].
    destruct (mapM f xs) as [ys|e] eqn:Eys; simpl in H; [|discriminate].
    injection H as <-; constructor; auto.
Qed.

Lemma mapM_Forall2_ok {A B} (f : A -> res B) l l' :
  Forall2 (fun x y => f x = Ok y) l l' -> mapM f l = Ok l'.
Proof.
  induction 1 as [|x y xs ys Hx H IH]; simpl; [reflexivity|].
  now rewrite Hx; simpl; rewrite IH.
Qed.

Lemma mapM_ext_Forall {A B} (f g : A -> res B) l :
  Forall (fun x => f x = g x) l -> mapM f l = mapM g l.
Proof. induction 1 as [|x xs Hx H IH]; simpl; [reflexivity|]; now rewrite Hx, IH. Qed.

Ltac inv H := inversion H; subst; clear H.

(** Option helpers. *)
Definition opt_eqb {A} (eqb : A -> A -> bool) (a b : option A) : bool :=
  match a, b with
  | None, None => true
  | Some x, Some y => eqb x y
  | _, _ => false
  end.

Fixpoint list_eqb {A} (eqb : A -> A -> bool) (a b : list A) : bool :=
  match a, b with
  | [], [] => true
  | x :: xs, y :: ys => eqb x y && list_eqb eqb xs ys
  | _, _ => false
  end.

Lemma list_eqb_length {A} (eqb : A -> A -> bool) a b :
  list_eqb eqb a b = true -> length a = length b.
Proof.
  revert b; induction a as [|x a IH]; intros [|y b]; simpl; try discriminate; auto.
  intros H; apply andb_true_iff in H as [_ H]; now rewrite (IH _ H).
Qed.

(** Python's stable [sorted(l, key=k)] for a total preorder on keys: insertion sort,
    inserting each element after the elements with smaller or equal key. *)
Fixpoint insert_by {A} (leb : A -> A -> bool) (x : A) (l : list A) : list A :=
  match l with
  | [] => [x]
  | y :: ys => if leb x y then x :: l else y :: insert_by leb x ys
  end.
Fixpoint sort_by {A} (leb : A -> A -> bool) (l : list A) : list A :=
  match l with
  | [] => []
  | x :: xs => insert_by leb x (sort_by leb xs)
  end.

Require Import Coq.Sorting.Permutation Coq.Sorting.Sorted.

Lemma insert_by_perm {A} (leb : A -> A -> bool) x l :
  Permutation (x :: l) (insert_by leb x l).
Proof.
  induction l as [|y ys IH]; simpl; [reflexivity|].
  destruct (leb x y); [reflexivity|].
  rewrite perm_swap; now constructor.
Qed.

Lemma sort_by_perm {A} (leb : A -> A -> bool) l : Permutation l (sort_by leb l).
Proof.
  induction l as [|x xs IH]; simpl; [reflexivity|].
  rewrite <- insert_by_perm; now constructor.
Qed.

Lemma sort_by_length {A} (leb : A -> A -> bool) l : length (sort_by leb l) = length l.
Proof. symmetry; apply Permutation_length, sort_by_perm. Qed.

Lemma sort_by_in {A} (leb : A -> A -> bool) l x : In x (sort_by leb l) <-> In x l.
Proof.
  split; intros H; [eapply Permutation_in; [symmetry|]|eapply Permutation_in]; eauto using sort_by_perm.
Qed.

Section SortSorted.
  Context {A} (leb : A -> A -> bool).
  Hypothesis total : forall x y, leb x y = true \/ leb y x = true.

  Lemma insert_by_hd x y l :
    HdRel (fun a b => leb a b = true) y l -> leb y x = true ->
    HdRel (fun a b => leb a b = true) y (insert_by leb x l).
  Proof.
    intros H Hyx; destruct l as [|z zs]; simpl; [constructor; auto|].
    inversion H; subst; destruct (leb x z); constructor; auto.
  Qed.

  Lemma insert_by_sorted x l :
    Sorted (fun a b => leb a b = true) l ->
    Sorted (fun a b => leb a b = true) (insert_by leb x l).
  Proof.
    induction 1 as [|y ys Hs IH Hhd]; simpl; [repeat constructor|].
    destruct (leb x y) eqn:E.
    - constructor; [constructor; auto|constructor; auto].
    - constructor; auto. apply insert_by_hd; auto.
      destruct (total x y) as [H|H]; congruence.
  Qed.

  Lemma sort_by_sorted l : Sorted (fun a b => leb a b = true) (sort_by leb l).
  Proof. induction l as [|x xs IH]; simpl; [constructor|]; now apply insert_by_sorted. Qed.
End SortSorted.
