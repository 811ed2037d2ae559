(** WordStmProps.v - C78, C79: statements that assign words. *)
From Verif Require Import Base ScopeModel DfModel DfSpec DfProofs ReorderModel BindModel BindSpec BindProofs AsgModel AsgSpec PartsModel PartsSpec WordModel WordSpec WordProofs WordProps WordCondModel WordCondSpec WordCondProps WordStmModel WordStmSpec.
Local Open Scope list_scope.

Definition ckeys (l : list cond_write) : list df := map (fun w => k_index (c_write w)) l.
Lemma nodup_right {A} (l r : list A) : NoDup (l ++ r) -> NoDup r.
Proof. induction l as [|a l IH]; cbn; intros H; [exact H|]. inversion H; auto. Qed.
Lemma nodup_left {A} (l r : list A) : NoDup (l ++ r) -> NoDup l.
Proof. induction l as [|a l IH]; cbn; intros H; [constructor|]. inversion H; subst. constructor; [rewrite in_app_iff in *; tauto|auto]. Qed.
Scheme wstm_mut := Induction for wstm Sort Prop with witems_mut := Induction for witems Sort Prop.
Combined Scheme wstm_items from wstm_mut, witems_mut.
Lemma split_keys l r : NoDup (ckeys (l ++ r)) -> NoDup (ckeys l) /\ NoDup (ckeys r).
Proof. unfold ckeys. rewrite map_app. intros H. split; [now apply nodup_left in H|now apply nodup_right in H]. Qed.
Lemma notes_all_text m ai : forall ls cur, ok_conds (cur ++ concat ls) -> NoDup (ckeys (cur ++ concat ls)) ->
  notes_all (map (cbind m ai) cur) (map (map (cbind m ai)) ls) = Ok (map (cbind m ai) (cur ++ concat ls)).
Proof.
  induction ls as [|l ls IH]; intros cur HO HD; cbn [concat map notes_all] in *; [now rewrite app_nil_r|]. rewrite app_assoc in *. rewrite cnotes.
  - cbn [bind]. now apply IH.
  - apply Forall_app in HO as [Q _]. exact Q.
  - exact (proj1 (split_keys _ _ HD)).
Qed.
Lemma wvisit_both m ai :
  (forall s p cur, ok_conds (cur ++ in_text p s) -> NoDup (ckeys (cur ++ in_text p s)) ->
    wvisit m ai p (map (cbind m ai) cur) s = Ok (map (cbind m ai) (cur ++ in_text p s))) /\
  (forall l p, ok_conds (in_items p l) -> NoDup (ckeys (in_items p l)) ->
    exists ls, wcase m ai p l = Ok (map (map (cbind m ai)) ls) /\ concat ls = in_items p l).
Proof.
  apply wstm_items.
  - intros p cur HO HD. cbn [wvisit in_text] in *. now rewrite app_nil_r.
  - intros w p cur HO HD. cbn [wvisit in_text] in *. unfold cond_entry. rewrite insert_first. cbn [bind]. apply Forall_app in HO as [O1 O2]. apply (cnote m ai cur (CondWrite p w)); [exact O1|exact (Forall_inv O2)|].
    unfold ckeys in HD. rewrite map_app in HD. cbn [map] in HD. apply NoDup_remove_2 in HD. intros K. apply HD. rewrite in_app_iff. now left.
  - intros a IHa b IHb p cur HO HD. cbn [wvisit in_text] in *. rewrite app_assoc in *. rewrite IHa.
    + cbn [bind]. rewrite IHb; auto.
    + apply Forall_app in HO as [O1 O2]. exact O1.
    + exact (proj1 (split_keys _ _ HD)).
  - intros a IHa p cur HO HD. cbn [wvisit in_text] in *. change (@nil bind_) with (map (cbind m ai) []). rewrite IHa; cbn [app].
    + cbn [bind]. now apply cnotes.
    + apply Forall_app in HO as [O1 O2]. exact O2.
    + exact (proj2 (split_keys _ _ HD)).
  - intros c a IHa b IHb p cur HO HD. cbn [wvisit in_text] in *. change (@nil bind_) with (map (cbind m ai) []). pose proof HO as HO'. apply Forall_app in HO' as [O1 O2]. apply Forall_app in O2 as [O2 O3].
    destruct (split_keys _ _ (proj2 (split_keys _ _ HD))) as [D2 D3].
    rewrite IHa; cbn [app]; [|exact O2|exact D2]. cbn [bind]. rewrite IHb; cbn [app]; [|exact O3|exact D3]. cbn [bind].
    rewrite app_assoc in *. rewrite cnotes.
    + cbn [bind]. now apply cnotes.
    + apply Forall_app in HO as [Q _]. exact Q.
    + exact (proj1 (split_keys _ _ HD)).
  - intros l IHl p cur HO HD. cbn [wvisit in_text] in *. destruct (IHl p) as (ls & E1 & E2).
    + apply Forall_app in HO as [_ Q]. exact Q.
    + exact (proj2 (split_keys _ _ HD)).
    + rewrite E1. cbn [bind]. rewrite <- E2 in *. now apply notes_all_text.
  - intros p _ _. exists []. split; reflexivity.
  - intros c a IHa r IHr p HO HD. cbn [wcase in_items] in *. change (@nil bind_) with (map (cbind m ai) []). apply Forall_app in HO as [O2 O3]. destruct (split_keys _ _ HD) as [D2 D3].
    rewrite IHa; cbn [app]; [|exact O2|exact D2]. cbn [bind]. destruct r as [|d b r].
    + exists [in_text (p ++ [(c, true)]) a]. split; reflexivity.
    + destruct (IHr _ O3 D3) as (ls & E1 & E2). rewrite E1. cbn [bind]. exists (in_text (p ++ [(c, true)]) a :: [] :: ls). split; [reflexivity|]. cbn [concat app]. now rewrite E2.
Qed.
Lemma wvisit_text m ai s p cur : ok_conds (cur ++ in_text p s) -> NoDup (ckeys (cur ++ in_text p s)) ->
  wvisit m ai p (map (cbind m ai) cur) s = Ok (map (cbind m ai) (cur ++ in_text p s)).
Proof. apply wvisit_both. Qed.
Lemma cond_app I p : forall l r v, cond_value I (l ++ r) p v = cond_value I r p (cond_value I l p v).
Proof. induction l as [|w l IH]; intros r v; cbn [app cond_value]; auto. Qed.
Definition holds (I : interp) (c : list (df * bool)) : bool := forallb (fun d => Bool.eqb (i_truth I (eval I (fst d))) (snd d)) c.
Lemma text_both I p :
  (forall s c v, cond_value I (in_text c s) p v = if holds I c then executes I s p v else v) /\
  (forall l c v, cond_value I (in_items c l) p v = if holds I c then selects I l p v else v).
Proof.
  apply wstm_items.
  - intros c v. cbn. now destruct (holds I c).
  - intros w c v. cbn [in_text cond_value executes]. unfold executed. cbn [c_conds c_write]. fold (holds I c). destruct (hits I (k_index w) p), (holds I c); reflexivity.
  - intros a IHa b IHb c v. cbn [in_text executes]. rewrite cond_app, IHa, IHb. now destruct (holds I c).
  - intros a IHa c v. apply IHa.
  - intros d a IHa b IHb c v. cbn [in_text executes]. rewrite cond_app, IHa, IHb. unfold holds. rewrite !forallb_app. cbn [forallb fst snd]. fold (holds I c). destruct (holds I c), (i_truth I (eval I d)); reflexivity.
  - intros l IHl c v. apply IHl.
  - intros c v. cbn. now destruct (holds I c).
  - intros d a IHa r IHr c v. cbn [in_items selects]. rewrite cond_app, IHa, IHr. unfold holds. rewrite !forallb_app. cbn [forallb fst snd]. fold (holds I c). destruct (holds I c), (i_truth I (eval I d)); reflexivity.
Qed.
Lemma text_value I p s c v : cond_value I (in_text c s) p v = if holds I c then executes I s p v else v.
Proof. apply text_both. Qed.

(** C78, C79: after any statement of assignments to words, begin-end blocks, if, else and case in any nesting, with different index expressions, a read gets
    the word as the statement leaves it: in every interpretation in which the last assignment in the text whose index names the word, if any, is executed. *)
Theorem C78_statements_read_partial : forall m ai s q,
  Forall (fun w => index_ok (k_index (c_write w))) (in_text [] s) -> NoDup (map (fun w => k_index (c_write w)) (in_text [] s)) -> q <> DNone ->
  exists t, read_after_stm m ai s q = Ok t /\
    forall I, last_executed I (in_text [] s) q -> eval I t = executes I s q (eval I (DPtr (DTerm m) q)).
Proof.
  intros m ai s q HO HD Hq. destruct (cover m ai q Hq _ (DPtr (DTerm m) q) HO) as (t & E1 & E2). exists t. split.
  - unfold read_after_stm. change (@nil bind_) with (map (cbind m ai) []). rewrite (wvisit_text m ai s [] []); cbn [app bind]; auto.
  - intros I HL. rewrite (E2 I HL), text_value. reflexivity.
Qed.
Print Assumptions C78_statements_read_partial.

(** ** A memory that is filled by a loop *)
Lemma fill_text g n : in_text [] (filled g n) = map (fun i => CondWrite [] (WordWrite (num (Z.of_nat i)) (g i))) (seq 0 n).
Proof. induction n as [|n IH]; [reflexivity|]. rewrite seq_S, map_app. cbn [filled in_text Nat.add map]. now rewrite IH. Qed.
Lemma all_executed I q l : Forall (fun w => c_conds w = []) l -> last_executed I l q.
Proof. induction 1 as [|w l Hw _ IH]; cbn [last_executed]; [exact Logic.I|]. split; [exact IH|]. intros _ _. unfold executed. rewrite Hw. reflexivity. Qed.
(** for (i = 0; i < n; i = i + 1) m[i] = ..., unrolled: a read of m[q] after it gets the value of the k-th iteration if q is k < n, and the word before
    the loop if q is no such number. *)
Theorem C78_loop_fills : forall m ai g n q, q <> DNone ->
  exists t, read_after_stm m ai (filled g n) q = Ok t /\ forall I,
    (forall k, (k < n)%nat -> (forall i, (i < n)%nat -> hits I (num (Z.of_nat i)) q = Nat.eqb i k) -> eval I t = i_term I (g k)) /\
    ((forall i, (i < n)%nat -> hits I (num (Z.of_nat i)) q = false) -> eval I t = eval I (DPtr (DTerm m) q)).
Proof.
  intros m ai g n q Hq. destruct (C78_statements_read_partial m ai (filled g n) q) as (t & E & H); [| |exact Hq|].
  - rewrite fill_text. apply Forall_forall. intros w Hw. apply in_map_iff in Hw as (i & <- & _). cbn. split; [discriminate|]. split; reflexivity.
  - rewrite fill_text, map_map. cbn [c_write k_index]. apply FinFun.Injective_map_NoDup; [|apply seq_NoDup]. intros a b K. injection K as K. lia.
  - exists t. split; [exact E|]. intros I. rewrite (H I).
    + clear. generalize (eval I (DPtr (DTerm m) q)). split.
      * intros k. revert d. induction n as [|n IH]; intros v Hk Hh; [lia|]. cbn [filled executes k_index k_held]. rewrite (Hh n) by lia. destruct (Nat.eqb_spec n k) as [<-|N]; [reflexivity|]. apply IH; [lia|]. intros i Hi. apply Hh. lia.
      * intros Hh. induction n as [|n IH]; [reflexivity|]. cbn [filled executes k_index]. rewrite (Hh n) by lia. apply IH. intros i Hi. apply Hh. lia.
    + rewrite fill_text. apply all_executed. apply Forall_forall. intros w Hw. apply in_map_iff in Hw as (i & <- & _). reflexivity.
Qed.
Print Assumptions C78_loop_fills.

(** ** Examples *)
Local Open Scope string_scope.
(** if (c) m[i] = a; else begin m[j+1] = b; if (d) m[k] = f; end, y = m[i]; with i = k = 3, c false and d true: f. The second if is a case here. *)
Definition s78 : wstm := WIf (t78 "c") (WPut (wo "i" "a")) (WBlock (WSeq (WPut (WordWrite j1 (g78 "b"))) (WCase (ICons (t78 "d") (WPut (wo "k" "f")) (ICons (DInt "1") WSkip INil))))).
Example C78_statement_hypotheses_met : Forall (fun w => index_ok (k_index (c_write w))) (in_text [] s78) /\ NoDup (map (fun w => k_index (c_write w)) (in_text [] s78)) /\
  last_executed (i78 vc78) (in_text [] s78) (t78 "i") /\ executes (i78 vc78) s78 (t78 "i") "old" = "f" /\
  (exists t, read_after_stm (g78 "m") None s78 (t78 "i") = Ok t /\ eval (i78 vc78) t = "f").
Proof.
  split; [|split; [|split; [|split; [reflexivity|eexists; split; reflexivity]]]].
  - cbn. repeat (constructor; [split; [discriminate|split; reflexivity]|]). constructor.
  - cbn. constructor; [cbn; intros [K|[K|[]]]; discriminate|]. constructor; [cbn; intros [K|[]]; discriminate|]. constructor; [intros []|constructor].
  - cbn. split; [split; [split; [exact Logic.I|]|]|].
    + reflexivity.
    + intros _ H. vm_compute in H. discriminate.
    + intros H. specialize (H _ (or_intror (or_introl eq_refl))). vm_compute in H. discriminate.
Qed.
(** Values are numbers: a memory of 4 words filled by a loop, read at the signal k, which holds 2; iteration i holds 10 i. *)
Definition g4 (i : nat) : chain := [Label "top" STmodule None; Label "_rn" STfor (Some (Z.of_nat i)); Label "m" STsignal None].
Definition iz78 : interp :=
  {| dom := Z; i_none := (-1)%Z; i_term := fun c => match c with [_; l; _] => match sloop l with Some z => (10 * z)%Z | None => 0%Z end | _ => 2%Z end;
     i_const := fun t => match t with DEval (PInt z) _ _ _ => z | _ => 0%Z end;
     i_op := fun o l => match o, l with Eq, [a; b] => if (a =? b)%Z then 1%Z else 0%Z | _, _ => 0%Z end;
     i_part := fun v _ _ => v; i_ptr := fun _ _ => (-5)%Z; i_concat := fun _ => 0%Z; i_delay := fun x => x; i_sys := fun _ _ => 0%Z;
     i_truth := fun z => negb (z =? 0)%Z |}.
Example C78_loop_hypotheses_met : (forall i, (i < 4)%nat -> hits iz78 (num (Z.of_nat i)) (t78 "k") = Nat.eqb i 2) /\
  exists t, read_after_stm (g78 "m") None (filled g4 4) (t78 "k") = Ok t /\ eval iz78 t = 20%Z.
Proof.
  split; [|eexists; split; reflexivity]. intros i Hi. do 4 (destruct i as [|i]; [reflexivity|]). lia.
Qed.
