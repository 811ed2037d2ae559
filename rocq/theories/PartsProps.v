(** PartsProps.v - C77. *)
From Verif Require Import Base ScopeModel DfModel ReorderModel BindModel AsgModel PartsModel PartsSpec PartsProofs.
Local Open Scope list_scope.
Local Open Scope Z_scope.

(** C77: after any number of assignments, in any order and also of the same part again, to parts that meet each other nowhere or everywhere and
    together assign every bit, the tree that a read of the signal gets has its W bits, each the one assigned last. *)
Theorem C77_parts_read_partial : forall opt tmsb tlsb W x ai ws,
  (forall z, opt (num z) = Ok (num z)) -> opt tmsb = Ok (num (W - 1)) -> opt tlsb = Ok (num 0) -> 0 < W -> tiling W ws ->
  exists t, read_after opt tmsb tlsb x (map (write_bind x ai) ws) = Ok t /\
    forall value before, concatenates value -> (forall w, In w ws -> holds_width value w) ->
      Z.of_nat (length (value t)) = W /\ forall i, 0 <= i < W -> nth (Z.to_nat i) (value t) false = written value ws before i.
Proof. intros opt tmsb tlsb W x ai ws H1 H2 H3 H4 H5. exact (read_bits opt tmsb tlsb W x ai H1 H2 H3 H4 x ws H5). Qed.
Print Assumptions C77_parts_read_partial.

(** Without assignments the signal itself is read. *)
Theorem C77_unassigned_read : forall opt tmsb tlsb x, read_after opt tmsb tlsb x [] = Ok (DTerm x).
Proof. reflexivity. Qed.
Print Assumptions C77_unassigned_read.

(** ** Where the full property fails *)
Local Open Scope string_scope.
Definition g77 (s : string) : chain := [Label "top" STmodule None; Label s STsignal None].
Fixpoint bits77 (v : string -> list bool) (t : df) : list bool :=
  match t with
  | DTerm n => match n with [_; l] => v (sname l) | _ => [] end
  | DConcat l => concat (rev (map (bits77 v) l))
  | _ => []
  end.
Lemma cat77 v : concatenates (bits77 v).
Proof. intros l. cbn [bits77]. now rewrite map_rev. Qed.
(** Reading a signal x of the range [hi:lo] after the assignments gives a tree with a wrong number of bits or a wrong bit. *)
Definition misread (hi lo : Z) (ws : list write) : Prop :=
  exists t value before, read_after (fun t => Ok t) (num hi) (num lo) (g77 "x") (map (write_bind (g77 "x") None) ws) = Ok t /\
    concatenates value /\ Forall (holds_width value) ws /\ Forall (fun w => lo <= w_lsb w /\ w_lsb w <= w_msb w /\ w_msb w <= hi) ws /\
    (forall i, lo <= i <= hi -> nth (Z.to_nat (i - lo)) (value (DTerm (g77 "x"))) false = before i) /\ Z.of_nat (length (value (DTerm (g77 "x")))) = hi - lo + 1 /\
    ~ (Z.of_nat (length (value t)) = hi - lo + 1 /\ forall i, lo <= i <= hi -> nth (Z.to_nat (i - lo)) (value t) false = written value ws before i).
Definition wr (m l : Z) (s : string) : write := Write m l (g77 s).
(** The signals a, b hold ones, of widths na, nb; x holds zeros. *)
Definition v77 (na nb nx : nat) (s : string) : list bool :=
  if String.eqb s "a" then repeat false na else if String.eqb s "b" then repeat true nb else repeat false nx.
Lemma zeros_nth n i : nth i (repeat false n) false = false.
Proof. revert i. induction n as [|n IH]; intros [|i]; cbn; auto. Qed.
Ltac misread77 na nb nx := eexists _, (bits77 (v77 na nb nx)), (fun _ => false); split; [reflexivity|]; split; [apply cat77|]; split; [repeat constructor|]; split; [repeat (constructor; [cbn; lia|]); constructor|]; split; [intros i _; exact (zeros_nth nx _)|]; split; [reflexivity|].
(** x[7:0] = a; x[3:0] = b; y = x; reads a: the second assignment is lost. *)
Theorem C77_overlap_refuted : misread 7 0 [wr 7 0 "a"; wr 3 0 "b"].
Proof. misread77 8%nat 4%nat 8%nat. intros [_ H]. specialize (H 0 ltac:(lia)). vm_compute in H. discriminate. Qed.
Print Assumptions C77_overlap_refuted.
(** x[3:0] = a; x[7:6] = b; y = x; reads {b, x, a}, which has 14 bits. *)
Theorem C77_gap_refuted : misread 7 0 [wr 3 0 "a"; wr 7 6 "b"].
Proof. misread77 4%nat 2%nat 8%nat. intros [H _]. vm_compute in H. discriminate. Qed.
Print Assumptions C77_gap_refuted.
(** x[3:0] = b; y = x; reads {b}, which has 4 bits, not 8. *)
Theorem C77_top_missing_refuted : misread 7 0 [wr 3 0 "b"].
Proof. misread77 4%nat 4%nat 8%nat. intros [H _]. vm_compute in H. discriminate. Qed.
Print Assumptions C77_top_missing_refuted.
(** reg [11:4] x; x[7:4] = a; x[11:8] = b; y = x; reads {b, a, x}, which has 16 bits. *)
Theorem C77_range_refuted : misread 11 4 [wr 7 4 "a"; wr 11 8 "b"].
Proof. misread77 4%nat 4%nat 8%nat. intros [H _]. vm_compute in H. discriminate. Qed.
Print Assumptions C77_range_refuted.
(** x[3:0] = a; x[3:2] = b; y = x; the second assignment is recorded as one to x[3:0]: 2 bits are read instead of 4. *)
Theorem C77_same_msb_refuted : misread 3 0 [wr 3 0 "a"; wr 3 2 "b"].
Proof. misread77 4%nat 2%nat 4%nat. intros [H _]. vm_compute in H. discriminate. Qed.
Print Assumptions C77_same_msb_refuted.

(** x[4'd3:0] = a; x[3:0] = b; x[7:4] = c; y = x; bounds of other widths are other bounds: all three assignments are read, in 12 bits instead of 8. *)
Theorem C77_sized_bound_refuted : exists t,
  read_after (fun t => Ok t) (num 7) (num 0) (g77 "x") [Bind (DTerm (g77 "a")) (g77 "x") (DEval (PInt 3) (Some 4) false false) (num 0) DNone None "blocking"; write_bind (g77 "x") None (wr 3 0 "b"); write_bind (g77 "x") None (wr 7 4 "c")] = Ok t /\
  forall value, concatenates value -> (forall s, In s ["a"; "b"; "c"] -> length (value (DTerm (g77 s))) = 4%nat) -> length (value t) = 12%nat.
Proof.
  eexists. split; [vm_compute; reflexivity|]. intros value HC Hw. rewrite HC. cbn [rev map concat app]. rewrite !app_length.
  pose proof (Hw "a" ltac:(cbn; tauto)) as A. pose proof (Hw "b" ltac:(cbn; tauto)) as B. pose proof (Hw "c" ltac:(cbn; tauto)) as C.
  unfold g77 in A, B, C. rewrite A, B, C. reflexivity.
Qed.
Print Assumptions C77_sized_bound_refuted.

(** ** Examples *)
(** x[7:4] = a; x[0] = b; x[3:1] = c; x[7:4] = d; y = x; reads {d, c, b}. *)
Definition ws77 : list write := [wr 7 4 "a"; wr 0 0 "b"; wr 3 1 "c"; wr 7 4 "d"].
Definition v77e (s : string) : list bool :=
  if String.eqb s "a" then [true; true; false; false] else if String.eqb s "b" then [true] else if String.eqb s "c" then [false; true; true] else [false; true; false; true].
Example C77_hypotheses_met : tiling 8 ws77 /\ concatenates (bits77 v77e) /\ (forall w, In w ws77 -> holds_width (bits77 v77e) w) /\
  read_after (fun t => Ok t) (num 7) (num 0) (g77 "x") (map (write_bind (g77 "x") None) ws77) = Ok (DConcat [DTerm (g77 "d"); DTerm (g77 "c"); DTerm (g77 "b")]) /\
  written (bits77 v77e) ws77 (fun _ => false) 7 = true.
Proof.
  split; [|split; [apply cat77|split; [|split; vm_compute; reflexivity]]].
  - split; [repeat (constructor; [unfold inside; cbn; lia|]); constructor|]. split.
    + intros u w Hu Hw. unfold ws77 in Hu, Hw. cbn in Hu, Hw. unfold same_or_apart. destruct Hu as [<-|[<-|[<-|[<-|[]]]]], Hw as [<-|[<-|[<-|[<-|[]]]]]; cbn; lia.
    + intros i Hi. assert (4 <= i \/ i = 0 \/ 1 <= i <= 3) as [H|[H|H]] by lia; [exists (wr 7 4 "a")|exists (wr 0 0 "b")|exists (wr 3 1 "c")]; (split; [unfold ws77; cbn; tauto|apply covers_iff; cbn; lia]).
  - intros w Hw. unfold ws77 in Hw. cbn in Hw. destruct Hw as [<-|[<-|[<-|[<-|[]]]]]; reflexivity.
Qed.
