(** BacProofs2.v - a new name is found for every assignment. *)
From Verif Require Import Base ScopeModel ScopeSpec ScopeProofs ScopeFlat DfModel DfSpec DfProofs ReorderModel ReorderSpec ReorderProofs BindModel BindSpec BindProofs AsgModel AsgProofs AccSpec AccProofs BlkModel BlkSpec BlkProofs BlkProofs2 BacSpec BacProofs.
From Coq Require FinFun.
Local Open Scope list_scope.

Lemma app_length_s a b : String.length (a ++ b)%string = String.length a + String.length b.
Proof. induction a as [|c a IH]; cbn; [reflexivity|]. now rewrite IH. Qed.
Lemma app_right a : forall b s, (a ++ s)%string = (b ++ s)%string -> a = b.
Proof.
  induction a as [|c a IH]; intros [|d b] s H; [reflexivity| | |].
  - apply (f_equal String.length) in H. rewrite !app_length_s in H. cbn in H. lia.
  - apply (f_equal String.length) in H. rewrite !app_length_s in H. cbn in H. lia.
  - cbn in H. injection H as -> H. f_equal. exact (IH b s H).
Qed.
Lemma init_last_some n : n <> [] -> exists i l, init_last n = Some (i, l).
Proof. induction n as [|x n IH]; [congruence|]. intros _. destruct n as [|y n]; [eexists _, _; reflexivity|]. destruct (IH ltac:(discriminate)) as (i & l & E). exists (x :: i), l. change (match init_last (y :: n) with Some (i0, x0) => Some (x :: i0, x0) | None => None end = Some (x :: i, l)). now rewrite E. Qed.
Definition candidate (i : chain) (l : label) (c : Z) : chain := i ++ [Label ("_rn" ++ nat_str c ++ "_" ++ sname l)%string STsignal None].
Lemma candidate_inj i l c d : (0 <= c)%Z -> (0 <= d)%Z -> candidate i l c = candidate i l d -> c = d.
Proof.
  intros Hc Hd H. apply app_inv_head in H. injection H as H.
  apply nat_str_inj; [exact Hc|exact Hd|]. exact (app_right _ _ _ H).
Qed.
Lemma renamed n i l c : init_last n = Some (i, l) -> renameVar n c = Ok (candidate i l c).
Proof. intros E. unfold renameVar. now rewrite E. Qed.
Lemma new_name_taken terms n i l : init_last n = Some (i, l) -> no_any n -> Forall no_any terms -> forall m c, (exists rc, new_name m terms n c = Ok rc) \/ forall j, j < m -> In (candidate i l (c + Z.of_nat j)) terms.
Proof.
  intros E Hn Ht. induction m as [|m IH]; intros c; [right; intros j Hj; lia|]. cbn [new_name]. rewrite (renamed n i l c E). cbn [bind].
  destruct (smem terms (candidate i l c)) eqn:S1; [|left; eauto]. destruct (IH (c + 1)%Z) as [K|K]; [left; exact K|right]. intros [|j] Hj.
  - change (Z.of_nat 0) with 0%Z. rewrite Z.add_0_r. unfold smem in S1. apply existsb_exists in S1 as (m0 & Hm & E0). apply chain_eq_no_any in E0; [now subst m0| |].
    + rewrite Forall_forall in Ht. now apply Ht.
    + exact (rename_plain n c _ Hn (renamed n i l c E)).
  - replace (c + Z.of_nat (S j))%Z with (c + 1 + Z.of_nat j)%Z by lia. apply K. lia.
Qed.
Lemma new_name_total terms n c : n <> [] -> no_any n -> Forall no_any terms -> (0 <= c)%Z -> exists r c', new_name (S (length terms)) terms n c = Ok (r, c').
Proof.
  intros Hne Hn Ht Hc. destruct (init_last_some n Hne) as (i & l & E). destruct (new_name_taken terms n i l E Hn Ht (S (length terms)) c) as [[[r c'] K]|K]; [eauto|exfalso].
  set (L := map (fun j => candidate i l (c + Z.of_nat j)) (seq 0 (S (length terms)))).
  assert (ND : NoDup L).
  { unfold L. apply FinFun.Injective_map_NoDup; [|apply seq_NoDup]. intros a b H. apply candidate_inj in H; lia. }
  assert (IL : incl L terms) by (intros x Hx; apply in_map_iff in Hx as (j & <- & Hj); apply in_seq in Hj; apply K; lia).
  pose proof (NoDup_incl_length ND IL) as Q. unfold L in Q. rewrite map_length, seq_length in Q. lia.
Qed.
Lemma new_name_count m terms n : forall c r c', new_name m terms n c = Ok (r, c') -> (c <= c')%Z.
Proof.
  induction m as [|m IH]; intros c r c' E; [discriminate|]. cbn [new_name] in E. apply bind_ok in E as (r1 & _ & E). destruct (smem terms r1); [apply IH in E; lia|]. injection E as _ <-. lia.
Qed.
