(** BlkProofs.v - reading, resolving, copying of frames' entries. *)
From Verif Require Import Base ScopeModel ScopeSpec ScopeProofs DfModel DfSpec DfProofs ReorderModel ReorderSpec ReorderProofs BindModel BindSpec BindProofs AsgModel AsgSpec AsgProofs BlkModel BlkSpec.

(** ** trees of signals: branches on good conditions, with signals or nothing at the leaves *)
Definition wild (n : chain) : bool := existsb (fun l => match stype l with STany => true | _ => false end) n.
Lemma wild_plain n : wild n = false <-> no_any n.
Proof.
  unfold wild, no_any. induction n as [|l n IH]; cbn [existsb]; [split; [constructor|reflexivity]|]. rewrite orb_false_iff, IH. split.
  - intros [H1 H2]. constructor; [|exact H2]. intros E. rewrite E in H1. discriminate H1.
  - intros H. inv H. split; [|assumption]. destruct (stype l); try reflexivity. congruence.
Qed.
Definition odd2 (t : df) : bool := match t with DNone | DUndef _ | DHiz _ | DDelay _ | DSys _ _ => true | DTerm n => wild n | _ => false end.
Lemma odd2_ok c : occurs odd_node c = false -> Forall no_any (names c) -> occurs odd2 c = false.
Proof.
  assert (HL : forall l, Forall (fun c => occurs odd_node c = false -> Forall no_any (names c) -> occurs odd2 c = false) l -> existsb (occurs odd_node) l = false -> Forall no_any (flat_map names l) -> existsb (occurs odd2) l = false).
  { induction 1 as [|a l Ha _ IH]; [reflexivity|]. cbn [existsb flat_map]. intros H K. apply orb_false_iff in H as [H1 H2]. apply Forall_app in K as [K1 K2]. rewrite Ha, IH; auto. }
  induction c as [ |n|s|s|s|l o IH|v m l IHv IHm IHl|v p IHv IHp|l IH|c t f IHc IHt IHf|v w f s|w|w|t IH|s l IH] using df_ind'; cbn [occurs odd_node odd2 names orb]; intros H K; try discriminate; auto;
    repeat match goal with J : _ || _ = false |- _ => apply orb_false_iff in J as [? ?] end; repeat match goal with J : Forall _ (_ ++ _) |- _ => apply Forall_app in J as [? ?] end;
    rewrite ?IHv, ?IHm, ?IHl, ?IHp, ?IHc, ?IHt, ?IHf by auto; auto.
  inv K. rewrite orb_false_r; now apply wild_plain.
Qed.
Definition good_cond (c : df) : Prop := cond_ok c /\ occurs odd2 c = false.
Fixpoint shaped (t : df) : Prop :=
  match t with
  | DNone => True
  | DTerm n => wild n = false
  | DBranch c x y => good_cond c /\ shaped x /\ shaped y
  | _ => False
  end.
Definition good_path (p : path) : Prop := Forall (fun cb => good_cond (fst cb)) p.
Lemma good_path_ok p : good_path p -> path_ok p.
Proof. intros H. eapply Forall_impl; [|exact H]. intros cb [H1 _]. exact H1. Qed.
Lemma shaped_graft p M : good_path p -> shaped M -> forall T, shaped T -> shaped (graft p T M).
Proof.
  intros Hp HM. induction Hp as [|[c b] p Hc Hp IH]; intros T HT; [exact HM|]. simpl in Hc.
  destruct (step_of c T) as [c' x y -> E|G _ _].
  - cbn [graft]. rewrite E. destruct HT as (H1 & H2 & H3). destruct b; split; [exact H1|split; auto|exact H1|split; auto].
  - rewrite G. destruct b; split; [exact Hc|split; auto|exact Hc|split; auto].
Qed.

Section Value.
  Variable I : interp.
  Lemma same_plain_eval a : forall b, occurs odd2 a = false -> occurs odd2 b = false -> same Req a b -> eval I a = eval I b.
  Proof.
    assert (HL : forall l, Forall (fun a => forall b, occurs odd2 a = false -> occurs odd2 b = false -> same Req a b -> eval I a = eval I b) l ->
      forall l', existsb (occurs odd2) l = false -> existsb (occurs odd2) l' = false -> Forall2 (same Req) l l' -> map (eval I) l = map (eval I) l').
    { induction 1 as [|x l Hx H IH]; intros l' K1 K2 K; inv K; simpl in *; auto. apply orb_false_iff in K1 as [? ?], K2 as [? ?]. f_equal; auto. }
    induction a as [ |n|s|s|s|l o IH|v m l IHv IHm IHl|v p IHv IHp|l IH|c t f IHc IHt IHf|v w f s|w|w|t IH|s l IH]
      using df_ind'; intros b Ka Kb Hb; inv Hb; cbn [eval]; auto; cbn [occurs odd2 orb] in Ka, Kb; try discriminate; repeat match goal with J : _ || _ = false |- _ => apply orb_false_iff in J as [? ?] end.
    - f_equal. repeat match goal with J : wild _ = false |- _ => apply wild_plain in J end. now apply chain_eq_no_any.
    - f_equal. now apply HL.
    - f_equal; auto.
    - f_equal; auto.
    - f_equal; now apply HL.
    - rewrite (IHc c'), (IHt t'), (IHf f') by assumption. reflexivity.
  Qed.
  Lemma good_eval c c' : good_cond c -> good_cond c' -> eqc c c' = true -> eval I c = eval I c'.
  Proof.
    intros [[Hc _] H1] [_ H2] E. apply same_plain_eval; [assumption|assumption|]. destruct (df_eq_ok c Hc c') as (r & H & K). unfold eqc in E. rewrite H in E. now apply K.
  Qed.
  Lemma tv_graft old p : good_path p -> forall T M, shaped T -> tree_value I old (graft p T M) = if holds I p then tree_value I old M else tree_value I old T.
  Proof.
    induction 1 as [|[c b] p Hc Hp IH]; intros T M HT; [reflexivity|]. simpl in Hc.
    unfold holds. cbn [forallb fst snd]. fold (holds I p).
    destruct (step_of c T) as [c' x y -> E|G _ _].
    - cbn [graft]. rewrite E. destruct HT as (T1 & T2 & T3). rewrite (good_eval _ _ Hc T1 E). destruct b; cbn [tree_value]; destruct (i_truth I (eval I c')); cbn [Bool.eqb andb]; rewrite ?IH; auto.
    - rewrite G. destruct b; cbn [tree_value]; destruct (i_truth I (eval I c)); cbn [Bool.eqb andb]; rewrite ?IH; auto.
  Qed.
  Lemma diff_value old p : good_path p -> forall T m rest rp m', shaped T -> holds I p = true -> diffBranchTree T p m = Ok (rest, rp, m') -> tree_value I old rest = tree_value I old T.
  Proof.
    induction 1 as [|[c b] p Hc Hp IH]; intros T m rest rp m' HT H E; [destruct T; injection E as <- _ _; reflexivity|]. simpl in Hc.
    unfold holds in H. cbn [forallb fst snd] in H. fold (holds I p) in H. apply andb_true_iff in H as [H1 H2]. apply eqb_prop in H1.
    destruct T as [ |n|s|s|s|l o|v m0 l|v q|l|c' x y|v w f s|w|w|t|s l]; try (injection E as <- _ _; reflexivity).
    cbn [diffBranchTree] in E. rewrite (eqc_ok c c' (proj1 (proj1 Hc))) in E. cbn [bind] in E. destruct (eqc c c') eqn:Q; [|injection E as <- _ _; reflexivity]. destruct HT as (T1 & T2 & T3).
    rewrite (IH _ _ _ _ _ (if b as b return shaped (if b then x else y) then T2 else T3) H2 E). rewrite (good_eval _ _ Hc T1 Q) in H1. cbn [tree_value]. rewrite H1. destruct b; reflexivity.
  Qed.
  Lemma diff_shaped p : forall T m rest rp m', diffBranchTree T p m = Ok (rest, rp, m') -> shaped T -> shaped rest.
  Proof.
    induction p as [|[c b] p IH]; intros T m rest rp m' E H; [destruct T; injection E as <- _ _; exact H|].
    destruct T as [ |n|s|s|s|l o|v m0 l|v q|l|c' x y|v w f s|w|w|t|s l]; try (injection E as <- _ _; exact H).
    cbn [diffBranchTree] in E. apply bind_ok in E as (e & _ & E). destruct e; [|injection E as <- _ _; exact H].
    apply (IH _ _ _ _ _ E). destruct H as (_ & H1 & H2). destruct b; assumption.
  Qed.
  Lemma diff_leaf p0 p1 r : path_ok (p0 ++ p1) -> forall T m, present p0 T = true -> get p0 T = DTerm r -> exists rp m', diffBranchTree T (p0 ++ p1) m = Ok (DTerm r, rp, m').
  Proof.
    induction p0 as [|[c b] p0 IH]; cbn [app]; intros Hp T m HP HG.
    - cbn [get] in HG. subst T. destruct p1 as [|[c b] p1]; cbn [diffBranchTree]; eauto.
    - inv Hp. destruct H1 as [Hc _]. simpl in Hc. cbn [present] in HP. destruct T; try discriminate; [rewrite get_none in HG; discriminate|].
      apply andb_true_iff in HP as [E HP]. cbn [get] in HG. rewrite E in HG. cbn [diffBranchTree]. rewrite (eqc_ok _ _ Hc), E. cbn [bind].
      apply (IH H2 (if b then T2 else T3) (m ++ [b])); destruct b; assumption.
  Qed.
  Lemma odd_fill u c : occurs odd2 c = false -> fill u c = c.
  Proof.
    intros H. apply fill_id.
    - revert H. induction c as [ |n|s|s|s|l o IH|v m l IHv IHm IHl|v p IHv IHp|l IH|c t f IHc IHt IHf|v w f s|w|w|t IH|s l IH] using df_ind'; cbn [occurs odd2 is_none orb]; intros H; try discriminate; auto;
        repeat match goal with J : _ || _ = false |- _ => apply orb_false_iff in J as [? ?] end; rewrite ?IHv, ?IHm, ?IHl, ?IHp, ?IHc, ?IHt, ?IHf by auto; auto;
        (induction IH as [|a l Ha _ IHl]; [reflexivity|]; cbn [existsb] in *; apply orb_false_iff in H as [? ?]; rewrite Ha, IHl; auto).
    - revert H. induction c as [ |n|s|s|s|l o IH|v m l IHv IHm IHl|v p IHv IHp|l IH|c t f IHc IHt IHf|v w f s|w|w|t IH|s l IH] using df_ind'; cbn [occurs odd2 isUndef orb]; intros H; try discriminate; auto;
        repeat match goal with J : _ || _ = false |- _ => apply orb_false_iff in J as [? ?] end; rewrite ?IHv, ?IHm, ?IHl, ?IHp, ?IHc, ?IHt, ?IHf by auto; auto;
        (induction IH as [|a l Ha _ IHl]; [reflexivity|]; cbn [existsb] in *; apply orb_false_iff in H as [? ?]; rewrite Ha, IHl; auto).
  Qed.
  Lemma fill_value n T : shaped T -> eval I (fill (DTerm n) T) = tree_value I (i_term I n) T.
  Proof.
    induction T as [ |m|s|s|s|l o|v IHv m IHm l IHl|v IHv q IHq|l|c IHc x IHx y IHy|v w f s|w|w|t IHt|s l]; intros H; try destruct H; try reflexivity.
    destruct H0 as [H1 H2]. destruct H as [_ Ho]. cbn [fill eval tree_value]. rewrite (odd_fill _ _ Ho), IHx, IHy by assumption. reflexivity.
  Qed.
  Lemma replace_value n T t : shaped T -> replaceUndefined T n = Ok t -> eval I t = tree_value I (i_term I n) T.
  Proof. intros H E. pose proof (replace_err _ _ _ E) as B. rewrite (replace_ok _ _ B) in E. injection E as <-. now apply fill_value. Qed.

  (** ** resolving *)
  Variable k : nat.
  Variable array : chain -> bool.
  Hypothesis HN : none_strict I.
  Lemma resolve_value rd v : forall e t,
    (forall n t, In n (names e) -> rd n = Ok t -> eval I t = v n) -> (forall n, In n (names e) -> array n = true -> i_term I n = v n) ->
    resolve k array rd e = Ok t -> eval I t = eval (at_state I v) e.
  Proof.
    assert (HM : forall l, Forall (fun e => forall t, (forall n t, In n (names e) -> rd n = Ok t -> eval I t = v n) -> (forall n, In n (names e) -> array n = true -> i_term I n = v n) ->
      resolve k array rd e = Ok t -> eval I t = eval (at_state I v) e) l -> forall l', (forall n t, In n (flat_map names l) -> rd n = Ok t -> eval I t = v n) -> (forall n, In n (flat_map names l) -> array n = true -> i_term I n = v n) ->
      mapM (resolve k array rd) l = Ok l' -> map (eval I) l' = map (eval (at_state I v)) l).
    { induction 1 as [|a l Ha _ IH]; intros l' H1 H2 E; cbn [mapM] in E; [injection E as <-; reflexivity|].
      apply bind_ok in E as (x & E1 & E). apply bind_ok in E as (xs & E2 & E). injection E as <-. cbn [map flat_map] in *. f_equal.
      - apply Ha; auto; intros; [apply (H1 n)|apply (H2 n)]; auto; apply in_or_app; auto.
      - apply IH; auto; intros; [apply (H1 n)|apply (H2 n)]; auto; apply in_or_app; auto. }
    induction e as [ |n|s|s|s|l o IH|x m l IHx IHm IHl|x p IHx IHp|l IH|c x y IHc IHx IHy|x w f s|w|w|x IH|s l IH] using df_ind'; intros t H1 H2 E; cbn [resolve] in E; try discriminate; try (injection E as <-; reflexivity).
    - apply (H1 n t); [now left|exact E].
    - apply bind_ok in E as (l' & El & E). cbn [eval]. change (i_op (at_state I v)) with (i_op I). rewrite <- (HM l IH l' H1 H2 El). destruct (existsb isBranch l').
      + exact (eval_insertOpList I _ _ _ _ E).
      + apply mkOp_ok in E as [-> _]. reflexivity.
    - cbn [names] in *. apply bind_ok in E as (m' & Em & E). apply bind_ok in E as (l' & El & E). apply bind_ok in E as (x' & Ex & E). injection E as <-. cbn [eval]. change (i_part (at_state I v)) with (i_part I).
      rewrite <- (IHm m'), <- (IHl l'), <- (IHx x'); auto; try (intros; [apply (H1 n)|apply (H2 n)]; auto; rewrite !in_app_iff; auto); try (intros; apply (H1 n); auto; rewrite !in_app_iff; auto); try (intros; apply (H2 n); auto; rewrite !in_app_iff; auto).
      destruct (isBranch x') eqn:B; [|reflexivity]. destruct x'; try discriminate B. exact (eval_insertPart I HN _ _ _).
    - cbn [names] in *. apply bind_ok in E as (p' & Ep & E). cbn [eval]. change (i_ptr (at_state I v)) with (i_ptr I).
      rewrite <- (IHp p'); auto; try (intros; apply (H1 n); auto; rewrite in_app_iff; auto); try (intros; apply (H2 n); auto; rewrite in_app_iff; auto).
      destruct (match x with DTerm n => array n | _ => false end) eqn:A.
      + injection E as <-. destruct x; try discriminate A. cbn [eval]. rewrite (H2 _ (or_introl eq_refl) A). reflexivity.
      + apply bind_ok in E as (x' & Ex & E). injection E as <-.
        rewrite <- (IHx x'); auto; try (intros; apply (H1 n); auto; rewrite in_app_iff; auto); try (intros; apply (H2 n); auto; rewrite in_app_iff; auto).
        destruct (isBranch x') eqn:B; [|reflexivity]. destruct x'; try discriminate B. exact (eval_insertPtr I HN _ _).
    - apply bind_ok in E as (l' & El & E). cbn [eval]. change (i_concat (at_state I v)) with (i_concat I). rewrite <- (HM l IH l' H1 H2 El). destruct (existsb isBranch l').
      + exact (eval_insertConcat I _ _ _ E).
      + injection E as <-. reflexivity.
    - cbn [names] in *. apply bind_ok in E as (x' & Ex & E). apply bind_ok in E as (y' & Ey & E). apply bind_ok in E as (c' & Ec & E). injection E as <-. cbn [eval]. change (i_truth (at_state I v)) with (i_truth I).
      rewrite <- (IHx x'), <- (IHy y'), <- (IHc c'); auto; try (intros; apply (H1 n); auto; rewrite !in_app_iff; auto); try (intros; apply (H2 n); auto; rewrite !in_app_iff; auto).
      destruct (isBranch c') eqn:B; [|reflexivity]. destruct c'; try discriminate B. exact (eval_insertBranch I _ _ _).
  Qed.
End Value.
