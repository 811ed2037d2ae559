(** PartsSpec.v - assignments to parts of a signal, one after the other, and the bits they leave. *)
From Verif Require Import Base ScopeModel DfModel BindModel.

(** A bound as the optimizer gives it for a decimal number. *)
Definition num (z : Z) : df := DEval (PInt z) (Some 32%Z) false false.
(** x[msb:lsb] = value; the value is held by an added signal. *)
Record write := Write { w_msb : Z; w_lsb : Z; w_held : chain }.
Definition covers (w : write) (i : Z) : bool := ((w_lsb w <=? i) && (i <=? w_msb w))%Z.
(** The record of the assignment (x is the signal). *)
Definition write_bind (x : chain) (ai : option alwaysinfo) (w : write) : bind_ := Bind (DTerm (w_held w)) x (num (w_msb w)) (num (w_lsb w)) DNone ai "blocking".
(** The bits of the signal afterwards; [value] are the bits of a tree, lowest first. *)
Fixpoint written (value : df -> list bool) (ws : list write) (x : Z -> bool) : Z -> bool :=
  match ws with
  | [] => x
  | w :: r => written value r (fun i => if covers w i then nth (Z.to_nat (i - w_lsb w)) (value (DTerm (w_held w))) false else x i)
  end.
(** Concatenations: the last operand is lowest. *)
Definition concatenates (value : df -> list bool) : Prop := forall l, value (DConcat l) = concat (map value (rev l)).
Definition holds_width (value : df -> list bool) (w : write) : Prop := Z.of_nat (length (value (DTerm (w_held w)))) = (w_msb w - w_lsb w + 1)%Z.
(** Assignments to a signal of W bits that meet each other nowhere, or everywhere, and together assign every bit. *)
Definition inside (W : Z) (w : write) : Prop := (0 <= w_lsb w /\ w_lsb w <= w_msb w /\ w_msb w < W)%Z.
Definition same_or_apart (u w : write) : Prop := (w_msb u = w_msb w /\ w_lsb u = w_lsb w) \/ (w_msb u < w_lsb w)%Z \/ (w_msb w < w_lsb u)%Z.
Definition tiling (W : Z) (ws : list write) : Prop :=
  Forall (inside W) ws /\ (forall u w, In u ws -> In w ws -> same_or_apart u w) /\ forall i, (0 <= i < W)%Z -> exists w, In w ws /\ covers w i = true.
