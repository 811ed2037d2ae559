(** WordCondProps.v - C78, assignments under conditions. *)
From Verif Require Import Base ScopeModel DfModel DfSpec DfProofs ReorderModel BindModel BindSpec BindProofs AsgModel AsgSpec PartsModel PartsSpec WordModel WordSpec WordProofs WordProps WordCondModel WordCondSpec.
Local Open Scope list_scope.

Definition ctree (w : cond_write) : df := makeBranchTree (c_conds w) (DTerm (k_held (c_write w))).
Definition cbind (m : chain) (ai : option alwaysinfo) (w : cond_write) : bind_ := Bind (ctree w) m DNone DNone (k_index (c_write w)) ai "blocking".
Lemma insert_first p t : insert DNone p t = Ok (makeBranchTree p t).
Proof. destruct p as [|[c b] p]; reflexivity. Qed.
Lemma entries_are m ai ws : mapM (fun w => cond_entry m ai (c_conds w) (k_index (c_write w)) (k_held (c_write w))) ws = Ok (map (cbind m ai) ws).
Proof. induction ws as [|w ws IH]; [reflexivity|]. cbn [mapM map]. unfold cond_entry at 1. rewrite insert_first. cbn [bind]. rewrite IH. reflexivity. Qed.
Lemma ctree_value I w : executed I w = true -> eval I (ctree w) = i_term I (k_held (c_write w)).
Proof.
  unfold executed, ctree. destruct w as [p w]. cbn [c_conds c_write]. induction p as [|[c b] p IH]; cbn [forallb makeBranchTree fst snd]; intros H; [reflexivity|].
  apply andb_true_iff in H as [H1 H2]. apply Bool.eqb_prop in H1. destruct b; cbn [eval]; rewrite H1; auto.
Qed.
Definition ok_conds (ws : list cond_write) : Prop := Forall (fun w => index_ok (k_index (c_write w))) ws.
Lemma cnote m ai E w : ok_conds E -> index_ok (k_index (c_write w)) -> ~ In (k_index (c_write w)) (map (fun u => k_index (c_write u)) E) ->
  note (map (cbind m ai) E) (cbind m ai w) = Ok (map (cbind m ai) (E ++ [w])).
Proof.
  intros HE Hw. induction HE as [|u E Hu HE IH]; cbn [map note app]; intros N; [reflexivity|].
  assert (T : same_target (cbind m ai u) (cbind m ai w) = Ok false).
  { destruct Hu as [_ Hu], Hw as [_ Hw]. unfold same_target. cbn [cbind b_msb b_ptr df_eq bind]. destruct (df_eq_plain _ _ Hu Hw) as [Q|Q]; [|exact Q]. exfalso. apply N. left. exact (proj1 (df_eq_plain_iff _ _ Hu Hw) Q). }
  rewrite T. cbn [bind]. rewrite IH; [reflexivity|]. intros K. apply N. now right.
Qed.
Lemma cnotes m ai : forall ws E, ok_conds (E ++ ws) -> NoDup (map (fun u => k_index (c_write u)) (E ++ ws)) -> notes (map (cbind m ai) E) (map (cbind m ai) ws) = Ok (map (cbind m ai) (E ++ ws)).
Proof.
  induction ws as [|w ws IH]; intros E HO HD; cbn [notes map]; [now rewrite app_nil_r|]. unfold ok_conds in HO. pose proof HO as HO'. apply Forall_app in HO' as [O1 O2]. rewrite cnote.
  - cbn [bind]. rewrite IH; rewrite <- app_assoc; auto.
  - exact O1.
  - exact (Forall_inv O2).
  - rewrite map_app in HD. cbn [map] in HD. apply NoDup_remove_2 in HD. intros K. apply HD. rewrite in_app_iff. now left.
Qed.
Lemma cover m ai p : p <> DNone -> forall E t, ok_conds E -> exists t', over_binds t (map (cbind m ai) E) p = Ok t' /\
  forall I, last_executed I E p -> eval I t' = cond_value I E p (eval I t) .
Proof.
  intros Hp. assert (Np : is_none p = false) by (destruct p; [congruence|reflexivity..]). induction E as [|w E IH]; intros t HE; cbn [map over_binds]; [exists t; auto|].
  destruct (Forall_inv HE) as [Hn _]. assert (Nw : is_none (k_index (c_write w)) = false) by (destruct (k_index (c_write w)); [congruence|reflexivity..]).
  unfold mkOp. cbn [existsb cbind b_ptr b_tree]. rewrite Nw, Np. cbn [orb bind].
  destruct (IH (DBranch (DOp [k_index (c_write w); p] Eq) (ctree w) t) (Forall_inv_tail HE)) as (t' & E1 & E2). exists t'. split; [exact E1|]. intros I [L1 L2]. rewrite (E2 I L1). cbn [cond_value eval map].
  change (i_truth I (i_op I Eq [eval I (k_index (c_write w)); eval I p])) with (hits I (k_index (c_write w)) p). clear E1 E2.
  destruct (hits I (k_index (c_write w)) p) eqn:H; cbn [andb]; [|reflexivity].
  destruct (executed I w) eqn:X; [now rewrite ctree_value|].
  (* a later assignment goes to the word *)
  assert (K : exists u, In u E /\ hits I (k_index (c_write u)) p = true).
  { clear IH. destruct (existsb (fun u => hits I (k_index (c_write u)) p) E) eqn:Q; [now apply existsb_exists in Q|]. exfalso. enough (W : false = true) by discriminate W. apply L2; [|reflexivity].
    intros u Hu. destruct (hits I (k_index (c_write u)) p) eqn:Y; [|reflexivity]. rewrite <- Q. symmetry. apply existsb_exists. exists u. auto. }
  clear - L1 K. generalize (eval I (ctree w)) (eval I t). induction E as [|x E IH]; intros v v'; [destruct K as (u & [] & _)|]. cbn [cond_value]. destruct L1 as [L1 L3].
  destruct (existsb (fun u => hits I (k_index (c_write u)) p) E) eqn:Q.
  - apply existsb_exists in Q. destruct (hits I (k_index (c_write x)) p && executed I x)%bool; [reflexivity|]. exact (IH L1 Q v v').
  - assert (Z : forall u, In u E -> hits I (k_index (c_write u)) p = false). { intros u Hu. destruct (hits I (k_index (c_write u)) p) eqn:Y; [|reflexivity]. rewrite <- Q. symmetry. apply existsb_exists. exists u. auto. }
    destruct K as (u & [<-|Hu] & Y); [|rewrite Z in Y by exact Hu; discriminate]. rewrite Y, (L3 Z Y). reflexivity.
Qed.

(** C78 with assignments under any conditions, with different index expressions: in every interpretation in which the last assignment in the text whose
    index names the word that is read, if any, is executed, the read gets the word as the executed assignments have left it. *)
Theorem C78_conditional_words_read_partial : forall m ai ws p,
  Forall (fun w => index_ok (k_index (c_write w))) ws -> NoDup (map (fun w => k_index (c_write w)) ws) -> p <> DNone ->
  exists bs t, mapM (fun w => cond_entry m ai (c_conds w) (k_index (c_write w)) (k_held (c_write w))) ws = Ok bs /\ read_word_after m bs p = Ok t /\
    forall I, last_executed I ws p -> eval I t = cond_value I ws p (eval I (DPtr (DTerm m) p)).
Proof.
  intros m ai ws p HO HD Hp. destruct (cover m ai p Hp ws (DPtr (DTerm m) p) HO) as (t & E1 & E2). exists (map (cbind m ai) ws), t. split; [apply entries_are|]. split; [|exact E2].
  unfold read_word_after. change (notes [] (map (cbind m ai) ws)) with (notes (map (cbind m ai) []) (map (cbind m ai) ws)). rewrite cnotes by assumption. cbn [bind app]. exact E1.
Qed.
Print Assumptions C78_conditional_words_read_partial.

Lemma ctree_none I w : executed I w = false -> eval I (ctree w) = i_none I.
Proof.
  unfold executed, ctree. destruct w as [p w]. cbn [c_conds c_write]. induction p as [|[c b] p IH]; cbn [forallb makeBranchTree fst snd]; intros H; [discriminate|].
  apply andb_false_iff in H as [H|H].
  - destruct b; cbn [eval]; destruct (i_truth I (eval I c)); try discriminate; reflexivity.
  - destruct b; cbn [eval]; destruct (i_truth I (eval I c)); auto.
Qed.
Lemma cfound m ai p : p <> DNone -> forall E t, ok_conds E -> exists t', over_binds t (map (cbind m ai) E) p = Ok t' /\ forall I, eval I t' = found_value I E p (eval I t).
Proof.
  intros Hp. assert (Np : is_none p = false) by (destruct p; [congruence|reflexivity..]). induction E as [|w E IH]; intros t HE; cbn [map over_binds]; [exists t; auto|].
  destruct (Forall_inv HE) as [Hn _]. assert (Nw : is_none (k_index (c_write w)) = false) by (destruct (k_index (c_write w)); [congruence|reflexivity..]).
  unfold mkOp. cbn [existsb cbind b_ptr b_tree]. rewrite Nw, Np. cbn [orb bind].
  destruct (IH (DBranch (DOp [k_index (c_write w); p] Eq) (ctree w) t) (Forall_inv_tail HE)) as (t' & E1 & E2). exists t'. split; [exact E1|]. intros I. rewrite E2. cbn [found_value eval map].
  change (i_truth I (i_op I Eq [eval I (k_index (c_write w)); eval I p])) with (hits I (k_index (c_write w)) p). destruct (executed I w) eqn:X; [rewrite (ctree_value I w X)|rewrite (ctree_none I w X)]; reflexivity.
Qed.
(** In all interpretations: the read gets the value of the last assignment in the text whose index names the word, no value if it is not executed,
    and the earlier word if there is none. *)
Theorem C78_conditional_words_found : forall m ai ws p,
  Forall (fun w => index_ok (k_index (c_write w))) ws -> NoDup (map (fun w => k_index (c_write w)) ws) -> p <> DNone ->
  exists bs t, mapM (fun w => cond_entry m ai (c_conds w) (k_index (c_write w)) (k_held (c_write w))) ws = Ok bs /\ read_word_after m bs p = Ok t /\
    forall I, eval I t = found_value I ws p (eval I (DPtr (DTerm m) p)).
Proof.
  intros m ai ws p HO HD Hp. destruct (cfound m ai p Hp ws (DPtr (DTerm m) p) HO) as (t & E1 & E2). exists (map (cbind m ai) ws), t. split; [apply entries_are|]. split; [|exact E2].
  unfold read_word_after. change (notes [] (map (cbind m ai) ws)) with (notes (map (cbind m ai) []) (map (cbind m ai) ws)). rewrite cnotes by assumption. cbn [bind app]. exact E1.
Qed.
Print Assumptions C78_conditional_words_found.

(** ** Examples *)
Local Open Scope string_scope.
(** if (c) m[i] = a; else m[j+1] = b; if (d) if (e) m[k] = f; y = m[3 held by i] : with i = k = 3, c false, d and e true, the word read is f. *)
Definition vc78 (s : string) : string := if orb (String.eqb s "i") (String.eqb s "k") then "3" else if orb (String.eqb s "d") (String.eqb s "e") then "1" else s.
Definition cw78 : list cond_write := [CondWrite [(t78 "c", true)] (wo "i" "a"); CondWrite [(t78 "c", false)] (WordWrite j1 (g78 "b")); CondWrite [(t78 "d", true); (t78 "e", true)] (wo "k" "f")].
Example C78_conditional_hypotheses_met : Forall (fun w => index_ok (k_index (c_write w))) cw78 /\ NoDup (map (fun w => k_index (c_write w)) cw78) /\
  last_executed (i78 vc78) cw78 (t78 "i") /\ executed (i78 vc78) (hd (CondWrite [] (wo "" "")) cw78) = false /\ cond_value (i78 vc78) cw78 (t78 "i") "old" = "f".
Proof.
  split; [|split; [|split; [|split; reflexivity]]].
  - repeat (constructor; [split; [discriminate|split; reflexivity]|]). constructor.
  - cbn. constructor; [cbn; intros [K|[K|[]]]; discriminate|]. constructor; [cbn; intros [K|[]]; discriminate|]. constructor; [intros []|constructor].
  - cbn. split; [split; [split; [exact Logic.I|]|]|].
    + reflexivity.
    + intros _ H. vm_compute in H. discriminate.
    + intros H. specialize (H _ (or_intror (or_introl eq_refl))). vm_compute in H. discriminate.
Qed.
