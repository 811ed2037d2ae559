(** SubsetProps.v - C34, C35, C48. *)
From Verif Require Import Base ScopeModel ScopeSpec ScopeProofs DfModel DfSpec BindModel BindSpec SubsetModel SubsetSpec
  SubsetProofs SubsetProofs2.
From Coq Require Import Sorting.Permutation.
Local Open Scope string_scope.

(** C34: when extraction succeeds, its dictionary has one entry per signal, holding under each
    signal exactly the assignments of the signals reachable backwards from the targets, and
    its set of names is exactly the names in the definitions of those signals. *)
Theorem C34_subset_is_fan_in : forall terms binds top clk order D fuel targets d N,
  (forall l, Permutation (order l) l) ->
  design terms binds (toTermname_list [top; clk]) D ->
  Forall D (map toTermname_str targets) ->
  getBindSourceSubset terms binds top clk order fuel targets = Ok (d, N) ->
  let reached m := exists t, In t (map toTermname_str targets) /\
                             reaches terms binds (toTermname_list [top; clk]) t m in
  distinct_keys d /\
  (forall p b, holds_under d p b <-> exists m, reached m /\ path m = p /\ In b (getBindlist binds m)) /\
  (forall m, In m N -> exists q, reached q /\ In m (defs terms binds q)) /\
  (forall q m, reached q -> In m (defs terms binds q) -> in_path m N).
Proof.
  intros terms binds top clk order D fuel targets d N Ho Hd Ht E.
  assert (forall l m, In m (order l) <-> In m l) as Hiff.
  { intros l m. split; apply Permutation_in; [apply Ho|symmetry; apply Ho]. }
  destruct (subset_exact terms binds top clk order Hiff D Hd fuel targets d N Ht E) as (H1 & H2 & H3 & H4).
  split; [exact H1|]. split; [|split].
  - intros p b. rewrite H2. split.
    + intros (t & m & A & B & C). exists m. split; eauto.
    + intros (m & (t & A & B) & C). exists t, m. auto.
  - intros m Hm. destruct (H3 m Hm) as (t & q & A & B & C). exists q. split; eauto.
  - intros q m (t & A & B) C. eauto.
Qed.
Print Assumptions C34_subset_is_fan_in.

(** C35, C34: on a complete design whose registers' clocks are not circular, extraction
    terminates and succeeds, whatever the iteration order of sets. *)
Theorem C35_subset_succeeds_partial : forall terms binds top clk order D targets rank,
  (forall l, Permutation (order l) l) ->
  design terms binds (toTermname_list [top; clk]) D -> complete terms binds D ->
  (forall n b c, In b (getBindlist binds n) -> clocked_by (toTermname_list [top; clk]) b c -> (rank c < rank n)%nat) ->
  Forall D (map toTermname_str targets) ->
  exists d N fuel, forall f, (fuel <= f)%nat -> getBindSourceSubset terms binds top clk order f targets = Ok (d, N).
Proof.
  intros terms binds top clk order D targets rank Ho Hd Hc Hr Ht.
  assert (forall l m, In m (order l) <-> In m l) as Hiff.
  { intros l m. split; apply Permutation_in; [apply Ho|symmetry; apply Ho]. }
  destruct (subset_succeeds terms binds top clk order Hiff D Hd Hc rank targets Hr Ht) as ((d & N) & f0 & H).
  exists d, N, f0. exact H.
Qed.
Print Assumptions C35_subset_succeeds_partial.

(** C35: even without any well-formedness, extraction terminates when clocks are not circular:
    beyond some recursion depth the outcome (result or exception) no longer depends on the
    depth allowed, and it is not an exhausted depth. *)
Theorem C35_subset_terminates_partial : forall terms binds top clk order targets rank,
  (forall l, Permutation (order l) l) ->
  (forall n b c, In b (getBindlist binds n) -> clocked_by (toTermname_list [top; clk]) b c -> (rank c < rank n)%nat) ->
  exists r fuel, r <> Err OutOfFuel /\
    forall f, (fuel <= f)%nat -> getBindSourceSubset terms binds top clk order f targets = r.
Proof.
  intros terms binds top clk order targets rank Ho Hr. unfold getBindSourceSubset.
  eapply targets_settle; [|exact Hr]. intros l m. apply Permutation_in, Ho.
Qed.
Print Assumptions C35_subset_terminates_partial.

(** A design: register q clocked by a derived clock g, which is computed from q and x. *)
Definition nm (l : list (string * scopetype)) : chain := map (fun p => Label (fst p) (snd p) None) l.
Definition sg (s : string) : chain := nm [("top", STmodule); (s, STsignal)].
Definition tm (s : string) : chain * term := (sg s, Term (sg s) ["Wire"] DNone DNone None).
Definition alw (c : chain) : alwaysinfo := Always (CName c) (Some "posedge") 0 CEmpty None 0.
Definition ex_terms : ndict term := [tm "q"; tm "g"; tm "x"; tm "y"].
Definition ex_b1 := Bind (DTerm (sg "x")) (sg "q") (DInt "0") (DInt "0") DNone (Some (alw (sg "g"))) "".
Definition ex_b2 := Bind (DTerm (sg "q")) (sg "q") (DInt "1") (DInt "1") DNone (Some (alw (sg "g"))) "".
Definition ex_bg := Bind (DOp [DTerm (sg "q"); DTerm (sg "x")] And) (sg "g") DNone DNone DNone None "".
Definition ex_by := Bind (DTerm (sg "q")) (sg "y") DNone DNone DNone None "".
Definition ex_binds : ndict (list bind_) := [(sg "q", [ex_b1; ex_b2]); (sg "g", [ex_bg]); (sg "y", [ex_by])].
Definition ex_names : list chain := [sg "q"; sg "g"; sg "x"; sg "y"; toTermname_str "top.q"].
Definition ex_D (n : chain) : Prop := In n ex_names.

Ltac each := repeat match goal with
  | H : _ \/ _ |- _ => destruct H as [H|H]
  | H : False |- _ => destruct H
  | H : _ = ?x |- _ => subst x
  end.
Lemma ex_design : design ex_terms ex_binds (toTermname_list ["top"; "clk"]) ex_D /\ complete ex_terms ex_binds ex_D.
Proof.
  assert (forall n, ex_D n -> In n ex_names) as HI by auto.
  split; split.
  - intros a b Ha Hb. apply HI in Ha, Hb. simpl in Ha, Hb. each; (vm_compute; split; congruence).
  - unfold keys_in, ex_terms. repeat apply Forall_cons; try apply Forall_nil; unfold ex_D; vm_compute; auto 10.
  - unfold keys_in, ex_binds. repeat apply Forall_cons; try apply Forall_nil; unfold ex_D; vm_compute; auto 10.
  - intros n Hn. apply HI in Hn. simpl in Hn. unfold no_wild, no_any. each;
      (split; [vm_compute; repeat constructor; discriminate|]);
      (apply Forall_forall; intros m Hm; vm_compute in Hm; each; unfold ex_D; vm_compute; auto 10).
  - intros n b c Hn Hb (a & Ha & Hc & _). apply HI in Hn. simpl in Hn.
    each; vm_compute in Hb; each; vm_compute in Ha; try discriminate; inversion Ha; subst a; vm_compute in Hc;
      inversion Hc; unfold ex_D; vm_compute; auto 10.
  - intros n b Hn Hb. apply HI in Hn. simpl in Hn. each; vm_compute in Hb; each;
      (repeat split; try reflexivity; repeat constructor; discriminate).
  - intros n Hn. apply HI in Hn. simpl in Hn. each; vm_compute; discriminate.
  - intros n Hn. apply HI in Hn. simpl in Hn. each; vm_compute; repeat constructor.
  - intros n b a Hn Hb Ha. apply HI in Hn. simpl in Hn. each; vm_compute in Hb; each; vm_compute in Ha; try discriminate;
      injection Ha as <-; discriminate.
Qed.
Definition ex_rank (n : chain) : nat := if chain_eq n (sg "q") then 1 else 0.
Example C35_hypotheses_met : exists d N fuel, forall f, (fuel <= f)%nat ->
  getBindSourceSubset ex_terms ex_binds "top" "clk" (fun l => l) f ["top.q"] = Ok (d, N).
Proof.
  destruct ex_design as [H1 H2].
  apply (C35_subset_succeeds_partial ex_terms ex_binds "top" "clk" (fun l => l) ex_D ["top.q"] ex_rank);
    [intros; apply Permutation_refl|exact H1|exact H2| |apply Forall_cons; [unfold ex_D; vm_compute; auto 10|apply Forall_nil]].
  intros n b c Hb (a & Ha & Hc & _). unfold getBindlist, ex_binds, dget in Hb. unfold ex_rank.
  rewrite (chain_eq_sym n).
  destruct (chain_eq (sg "q") n).
  - simpl in Hb. each; vm_compute in Ha; injection Ha as <-; vm_compute in Hc; injection Hc as <-; vm_compute; auto.
  - destruct (chain_eq (sg "g") n); [simpl in Hb; each; discriminate|].
    destruct (chain_eq (sg "y") n); [simpl in Hb; each; discriminate|destruct Hb].
Qed.
Example C34_hypotheses_met : exists d N,
  getBindSourceSubset ex_terms ex_binds "top" "clk" (fun l => l) 20 ["top.q"] = Ok (d, N) /\
  holds_under d (path (sg "g")) ex_bg /\ ~ holds_under d (path (sg "y")) ex_by.
Proof.
  eexists; eexists. split; [vm_compute; reflexivity|]. split.
  - eexists; eexists. split; [right; left; reflexivity|]. split; [reflexivity|simpl; auto].
  - intros (k & l & Hin & Hp & Hx). simpl in Hin. each; try (injection Hin as <- <-); vm_compute in Hp; discriminate.
Qed.

(** C34 (refutation of "each assignment once"): on that design the lists contain the same
    assignment twice. *)
Theorem C34_each_once_refuted : ~ (forall terms binds top clk order fuel targets d N k l,
  (forall l, Permutation (order l) l) ->
  design terms binds (toTermname_list [top; clk]) ex_D ->
  getBindSourceSubset terms binds top clk order fuel targets = Ok (d, N) -> In (k, l) d ->
  NoDup (getBindlist binds k) -> NoDup l).
Proof.
  intros H. specialize (H ex_terms ex_binds "top" "clk" (fun l => l) 20 ["top.q"]).
  assert (exists d N k l, getBindSourceSubset ex_terms ex_binds "top" "clk" (fun l => l) 20 ["top.q"] = Ok (d, N) /\
            In (k, l) d /\ NoDup (getBindlist ex_binds k) /\ l = [ex_b1; ex_b2; ex_b2]) as (d & N & k & l & E & Hin & Hn & ->).
  { do 4 eexists. split; [vm_compute; reflexivity|]. split; [left; reflexivity|]. split; [|reflexivity].
    vm_compute. repeat constructor; simpl; intuition discriminate. }
  specialize (H d N k _ ltac:(intros; apply Permutation_refl) (proj1 ex_design) E Hin Hn).
  apply NoDup_cons_iff in H as [_ H]. apply NoDup_cons_iff in H as [H _]. apply H. simpl; auto.
Qed.
Print Assumptions C34_each_once_refuted.

(** C35 is false of the code without the hypothesis on clocks: a register clocked by itself
    makes extraction recurse without end. *)
Definition loop_bind := Bind (DTerm (sg "q")) (sg "q") DNone DNone DNone (Some (alw (sg "q"))) "".
Theorem C35_subset_terminates_refuted : ~ (forall terms binds top clk order targets,
  (forall l, Permutation (order l) l) ->
  exists fuel, getBindSourceSubset terms binds top clk order fuel targets <> Err OutOfFuel).
Proof.
  intros H. destruct (H [tm "q"] [(sg "q", [loop_bind])] "top" "clk" (fun l => l) ["top.q"]) as (f & Hf).
  { intros; apply Permutation_refl. }
  apply Hf. clear Hf H. unfold getBindSourceSubset. cbn [map targets_loop].
  assert (forall f V n, n = sg "q" \/ n = toTermname_str "top.q" ->
            getBindSubset [tm "q"] [(sg "q", [loop_bind])] "top" "clk" (fun l => l) f n V = Err OutOfFuel) as HL.
  { clear f. induction f as [|f IH]; intros V n Hn; [reflexivity|]. cbn [getBindSubset].
    destruct Hn as [-> | ->].
    - change (dget [tm "q"] (sg "q")) with (Some (snd (tm "q"))). cbv iota.
      change (getBindlist [(sg "q", [loop_bind])] (sg "q")) with [loop_bind]. cbn [bind_loop].
      change (other_clock "top" "clk" loop_bind) with (Ok (Some (sg "q"))). cbn [bind].
      rewrite IH by auto. reflexivity.
    - change (dget [tm "q"] (toTermname_str "top.q")) with (Some (snd (tm "q"))). cbv iota.
      change (getBindlist [(sg "q", [loop_bind])] (toTermname_str "top.q")) with [loop_bind]. cbn [bind_loop].
      change (other_clock "top" "clk" loop_bind) with (Ok (Some (sg "q"))). cbn [bind].
      rewrite IH by auto. reflexivity. }
  rewrite HL by auto. reflexivity.
Qed.
Print Assumptions C35_subset_terminates_refuted.

(** C48: for a decidable equality on elements and keys compared by path, merging succeeds, has
    one entry per key, and each key has the first list followed by the new elements of the
    second, each once (or the only list there is). *)
Theorem C48_merge_of_lists : forall V (eqb : V -> V -> res bool) (W : V -> Prop) (D : chain -> Prop) a b,
  (forall x y, W x -> W y -> exists e, eqb x y = Ok e /\ (e = true <-> x = y)) ->
  consistent D -> keys_in D a -> keys_in D b -> distinct_keys a -> distinct_keys b ->
  Forall (fun p => Forall W (snd p)) a -> Forall (fun p => Forall W (snd p)) b ->
  exists r, dictlistmerge eqb a b = Ok r /\ distinct_keys r /\
    forall k, D k ->
      match dget a k, dget b k with
      | None, None => dget r k = None
      | Some l, None | None, Some l => dget r k = Some l
      | Some l, Some xs => exists l', dget r k = Some l' /\ followed_by_new l xs l'
      end.
Proof.
  intros V eqb W D a b He HD Ka Kb Da Db Wa Wb.
  destruct (merge_ok eqb W He D HD b) with (a := a) as (r & E & Hr & Hm); [split; auto|split; auto|].
  exists r. split; [exact E|]. split; [apply Hr|]. intros k Hk. specialize (Hm k Hk). unfold merged in Hm.
  destruct (dget a k), (dget b k); exact Hm.
Qed.
Print Assumptions C48_merge_of_lists.
Example C48_hypotheses_met : exists r,
  dictlistmerge (fun x y => Ok (Z.eqb x y)) [(sg "a", [1; 2; 2]%Z)] [(sg "a", [2; 3; 3]%Z); (sg "b", [5; 5]%Z)] = Ok r /\
  r = [(sg "a", [1; 2; 2; 3]%Z); (sg "b", [5; 5]%Z)].
Proof. eexists. split; [vm_compute|]; reflexivity. Qed.
