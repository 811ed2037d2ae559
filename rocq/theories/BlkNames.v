(** BlkNames.v - the signals in the trees that a visit makes: every added signal has a tree over older ones. *)
From Verif Require Import Base ScopeModel ScopeSpec ScopeProofs DfModel DfSpec DfProofs ReorderModel ReorderSpec ReorderProofs BindModel BindSpec BindProofs AsgModel AsgSpec AsgProofs AsgProofs2 BlkModel BlkSpec BlkProofs BlkProofs2 BlkProofs4.

Definition on (P : chain -> Prop) (t : df) : Prop := Forall P (names t).
Section On.
  Variable P : chain -> Prop.
  Notation on := (on P).
  Lemma on_list l : Forall P (flat_map names l) <-> Forall on l.
  Proof.
    induction l as [|a l IH]; cbn [flat_map]; [split; constructor|]. rewrite Forall_app, IH. split; [intros [? ?]; now constructor|intros H; inv H; auto].
  Qed.
  Lemma on_branch c x y : on (DBranch c x y) <-> on c /\ on x /\ on y.
  Proof. unfold BlkNames.on. cbn [names]. rewrite !Forall_app. tauto. Qed.
  Lemma on_part x m l : on (DPart x m l) <-> on x /\ on m /\ on l.
  Proof. unfold BlkNames.on. cbn [names]. rewrite !Forall_app. tauto. Qed.
  Lemma on_ptr x p : on (DPtr x p) <-> on x /\ on p.
  Proof. unfold BlkNames.on. cbn [names]. rewrite !Forall_app. tauto. Qed.
  Lemma on_op l o : on (DOp l o) <-> Forall on l.
  Proof. unfold BlkNames.on at 1. cbn [names]. apply on_list. Qed.
  Lemma on_concat l : on (DConcat l) <-> Forall on l.
  Proof. unfold BlkNames.on at 1. cbn [names]. apply on_list. Qed.
  Lemma on_delay t : on (DDelay t) <-> on t.
  Proof. reflexivity. Qed.
  Lemma on_none : on DNone.
  Proof. constructor. Qed.
  Lemma on_mkop l o t : Forall on l -> mkOp l o = Ok t -> on t.
  Proof. intros H E. apply mkOp_ok in E as [-> _]. now apply on_op. Qed.
  Lemma on_insertBranch c : forall x y, on c -> on x -> on y -> on (insertBranch c x y).
  Proof.
    induction c; intros a b Hc Ha Hb; cbn [insertBranch]; try (apply on_branch; auto; fail). apply on_branch in Hc as (H1 & H2 & H3). apply on_branch. auto.
  Qed.
  Lemma on_insertPart v : forall m l, on v -> on m -> on l -> on (insertPartselect v m l).
  Proof. induction v; intros a b Hv Ha Hb; cbn [insertPartselect]; try exact on_none; try (apply on_part; auto; fail). apply on_branch in Hv as (H1 & H2 & H3). apply on_branch. auto. Qed.
  Lemma on_insertPtr v : forall p, on v -> on p -> on (insertPointer v p).
  Proof. induction v; intros a Hv Ha; cbn [insertPointer]; try exact on_none; try (apply on_ptr; auto; fail). apply on_branch in Hv as (H1 & H2 & H3). apply on_branch. auto. Qed.
  Lemma on_split l : forall d c t f r, split_branch l = Some (d, (c, t, f), r) -> Forall on l -> Forall on d /\ on c /\ on t /\ on f /\ Forall on r.
  Proof.
    induction l as [|a l IH]; intros d c t f r E H; [discriminate|]. inv H. cbn [split_branch] in E.
    assert (match a with DBranch c0 t0 f0 => Some ([], (c0, t0, f0), l) | _ => match split_branch l with Some (d0, b, r0) => Some (a :: d0, b, r0) | None => None end end = Some (d, (c, t, f), r)) as E' by exact E.
    clear E. destruct a; try (destruct (split_branch l) as [[[d0 [[c0 t0] f0]] r0]|]; [|discriminate]; injection E' as <- <- <- <- <-; destruct (IH _ _ _ _ _ eq_refl H3) as (K1 & K2); split; [constructor|]; assumption).
    injection E' as <- <- <- <- <-. apply on_branch in H2 as (K1 & K2 & K3). split; [constructor|auto].
  Qed.
  Lemma on_insertOpList k : forall l o t, Forall on l -> insertOpList k l o = Ok t -> on t.
  Proof.
    induction k as [|k IH]; intros l o t H E; [discriminate|]. cbn [insertOpList] in E. destruct (split_branch l) as [[[d [[c x] y]] r]|] eqn:Es; [|exact (on_mkop _ _ _ H E)].
    destruct (on_split _ _ _ _ _ _ Es H) as (K1 & K2 & K3 & K4 & K5). apply bind_ok in E as (x' & E1 & E). apply bind_ok in E as (y' & E2 & E). injection E as <-. apply on_branch. split; [exact K2|]. split.
    - refine (IH _ _ _ _ E1). apply Forall_app; split; [exact K1|constructor; assumption].
    - refine (IH _ _ _ _ E2). apply Forall_app; split; [exact K1|constructor; assumption].
  Qed.
  Lemma on_insertConcat k : forall l t, Forall on l -> insertConcat k l = Ok t -> on t.
  Proof.
    induction k as [|k IH]; intros l t H E; [discriminate|]. cbn [insertConcat] in E. destruct (split_branch l) as [[[d [[c x] y]] r]|] eqn:Es; [|injection E as <-; now apply on_concat].
    destruct (on_split _ _ _ _ _ _ Es H) as (K1 & K2 & K3 & K4 & K5). apply bind_ok in E as (x' & E1 & E). apply bind_ok in E as (y' & E2 & E). injection E as <-. apply on_branch. split; [exact K2|]. split.
    - refine (IH _ _ _ E1). apply Forall_app; split; [exact K1|constructor; assumption].
    - refine (IH _ _ _ E2). apply Forall_app; split; [exact K1|constructor; assumption].
  Qed.
  Lemma on_mapM f l : (forall a b, In a l -> f a = Ok b -> on a -> on b) -> forall l', mapM f l = Ok l' -> Forall on l -> Forall on l'.
  Proof.
    induction l as [|a l IH]; intros H l' E K; cbn [mapM] in E; [injection E as <-; constructor|]. apply bind_ok in E as (b & E1 & E). apply bind_ok in E as (r & E2 & E). injection E as <-. inv K.
    constructor; [exact (H a b (or_introl eq_refl) E1 H2)|]. apply (IH (fun a b Ha => H a b (or_intror Ha)) r E2 H3).
  Qed.
  Lemma on_reorder k : forall t t', reorder k t = Ok t' -> on t -> on t'.
  Proof.
    induction k as [|k IH]; intros t t' E H; [discriminate|].
    destruct t as [ |nm|s|s|s|l o|v m l|v p|l|c t f|v w f s|w|w|t|s l]; cbn [reorder] in E; try (injection E as <-; exact H); try discriminate.
    - apply bind_ok in E as (l' & E1 & E). apply on_op in H. apply (on_mapM (reorder k) l (fun a b _ => IH a b) l' E1) in H. destruct (existsb isBranch l'); [exact (on_insertOpList _ _ _ _ H E)|exact (on_mkop _ _ _ H E)].
    - apply bind_ok in E as (m' & E1 & E). apply bind_ok in E as (l' & E2 & E). apply bind_ok in E as (v' & E3 & E). apply on_part in H as (H1 & H2 & H3). apply IH in E1; [|assumption]. apply IH in E2; [|assumption]. apply IH in E3; [|assumption].
      destruct (isBranch m' || isBranch l'); [discriminate|]. assert (t' = insertPartselect v' m' l' \/ t' = DPart v' m' l') as [->| ->] by (destruct v'; injection E as <-; auto); [now apply on_insertPart|now apply on_part].
    - apply bind_ok in E as (p' & E1 & E). apply bind_ok in E as (v' & E2 & E). apply on_ptr in H as (H1 & H2). apply IH in E1; [|assumption]. apply IH in E2; [|assumption].
      assert ((exists c t f a b, p' = DBranch c t f /\ reorder k (DPtr v' t) = Ok a /\ reorder k (DPtr v' f) = Ok b /\ t' = DBranch c a b) \/ t' = insertPointer v' p' \/ t' = DPtr v' p') as [K|[->| ->]].
      { destruct p'; try (right; destruct v'; injection E as <-; auto; fail). left. apply bind_ok in E as (a & Ea & E). apply bind_ok in E as (b & Eb & E). injection E as <-. eauto 10. }
      + destruct K as (c & t & f & a & b & -> & Ea & Eb & ->). apply on_branch in E1 as (K1 & K2 & K3). apply on_branch. split; [exact K1|]. split; [apply (IH _ _ Ea)|apply (IH _ _ Eb)]; apply on_ptr; auto.
      + now apply on_insertPtr.
      + now apply on_ptr.
    - apply bind_ok in E as (l' & E1 & E). apply on_concat in H. apply (on_mapM (reorder k) l (fun a b _ => IH a b) l' E1) in H. destruct (existsb isBranch l'); [exact (on_insertConcat _ _ _ H E)|injection E as <-; now apply on_concat].
    - apply bind_ok in E as (x' & E1 & E). apply bind_ok in E as (y' & E2 & E). apply bind_ok in E as (c' & E3 & E). apply on_branch in H as (H1 & H2 & H3). apply IH in E1; [|assumption]. apply IH in E2; [|assumption]. apply IH in E3; [|assumption].
      assert (t' = insertBranch c' x' y' \/ t' = DBranch c' x' y') as [->| ->] by (destruct c'; injection E as <-; auto); [now apply on_insertBranch|now apply on_branch].
    - apply bind_ok in E as (x' & E1 & E). injection E as <-. apply IH in E1; assumption.
  Qed.
  Lemma on_replace n (Hn : P n) : forall t t', replaceUndefined t n = Ok t' -> on t -> on t'.
  Proof.
    assert (on (DTerm n)) as Hn' by (constructor; [exact Hn|constructor]).
    assert (HM : forall l, Forall (fun t => forall t', replaceUndefined t n = Ok t' -> on t -> on t') l -> forall l', mapM (fun t => replaceUndefined t n) l = Ok l' -> Forall on l -> Forall on l').
    { intros l H l'. apply on_mapM. intros a b Ha. exact (proj1 (Forall_forall _ _) H a Ha b). }
    induction t as [ |nm|s|s|s|l o IH|x m l IHx IHm IHl|x p IHx IHp|l IH|c x y IHc IHx IHy|x w f s|w|w|x IH|s l IH] using df_ind'; intros t' E H; cbn [replaceUndefined] in E; try discriminate; try (injection E as <-; assumption).
    - apply bind_ok in E as (l' & E1 & E). apply on_op in H. exact (on_mkop _ _ _ (HM l IH l' E1 H) E).
    - apply bind_ok in E as (m' & E1 & E). apply bind_ok in E as (l' & E2 & E). apply bind_ok in E as (v' & E3 & E). injection E as <-. apply on_part in H as (H1 & H2 & H3). apply on_part. auto.
    - apply bind_ok in E as (p' & E1 & E). apply bind_ok in E as (v' & E2 & E). injection E as <-. apply on_ptr in H as (H1 & H2). apply on_ptr. auto.
    - apply bind_ok in E as (l' & E1 & E). injection E as <-. apply on_concat in H. apply on_concat. exact (HM l IH l' E1 H).
    - apply bind_ok in E as (c' & E1 & E). apply bind_ok in E as (x' & E2 & E). apply bind_ok in E as (y' & E3 & E). injection E as <-. apply on_branch in H as (H1 & H2 & H3). apply on_branch. auto.
  Qed.
  Lemma on_resolve k array rd : forall t t', (forall n u, In n (names t) -> P n -> rd n = Ok u -> on u) -> resolve k array rd t = Ok t' -> on t -> on t'.
  Proof.
    assert (HM : forall l, Forall (fun t => forall t', (forall n u, In n (names t) -> P n -> rd n = Ok u -> on u) -> resolve k array rd t = Ok t' -> on t -> on t') l ->
      (forall n u, In n (flat_map names l) -> P n -> rd n = Ok u -> on u) -> forall l', mapM (resolve k array rd) l = Ok l' -> Forall on l -> Forall on l').
    { intros l H K l'. apply on_mapM. intros a b Ha Eb. refine (proj1 (Forall_forall _ _) H a Ha b _ Eb). intros n u Hn. apply K. apply in_flat_map. eauto. }
    induction t as [ |nm|s|s|s|l o IH|x m l IHx IHm IHl|x p IHx IHp|l IH|c x y IHc IHx IHy|x w f s|w|w|x IH|s l IH] using df_ind'; intros t' HR E H; cbn [resolve names] in *; try discriminate; try (injection E as <-; assumption).
    - inv H. apply (HR nm t' (or_introl eq_refl)); assumption.
    - apply bind_ok in E as (l' & E1 & E). apply on_op in H. apply (HM l IH HR l' E1) in H. destruct (existsb isBranch l'); [exact (on_insertOpList _ _ _ _ H E)|exact (on_mkop _ _ _ H E)].
    - apply bind_ok in E as (m' & E1 & E). apply bind_ok in E as (l' & E2 & E). apply bind_ok in E as (v' & E3 & E). apply on_part in H as (H1 & H2 & H3).
      apply IHm in E1; [|intros; eapply HR; eauto; rewrite !in_app_iff; auto|assumption]. apply IHl in E2; [|intros; eapply HR; eauto; rewrite !in_app_iff; auto|assumption]. apply IHx in E3; [|intros; eapply HR; eauto; rewrite !in_app_iff; auto|assumption].
      injection E as <-. destruct (isBranch v'); [now apply on_insertPart|now apply on_part].
    - apply bind_ok in E as (p' & E1 & E). apply on_ptr in H as (H1 & H2). apply IHp in E1; [|intros; eapply HR; eauto; rewrite !in_app_iff; auto|assumption].
      destruct (match x with DTerm n => array n | _ => false end); [injection E as <-; now apply on_ptr|]. apply bind_ok in E as (v' & E2 & E). apply IHx in E2; [|intros; eapply HR; eauto; rewrite !in_app_iff; auto|assumption].
      injection E as <-. destruct (isBranch v'); [now apply on_insertPtr|now apply on_ptr].
    - apply bind_ok in E as (l' & E1 & E). apply on_concat in H. apply (HM l IH HR l' E1) in H. destruct (existsb isBranch l'); [exact (on_insertConcat _ _ _ H E)|injection E as <-; now apply on_concat].
    - apply bind_ok in E as (x' & E1 & E). apply bind_ok in E as (y' & E2 & E). apply bind_ok in E as (c' & E3 & E). apply on_branch in H as (H1 & H2 & H3).
      apply IHx in E1; [|intros; eapply HR; eauto; rewrite !in_app_iff; auto|assumption]. apply IHy in E2; [|intros; eapply HR; eauto; rewrite !in_app_iff; auto|assumption]. apply IHc in E3; [|intros; eapply HR; eauto; rewrite !in_app_iff; auto|assumption].
      injection E as <-. destruct (isBranch c'); [now apply on_insertBranch|now apply on_branch].
  Qed.
  Definition onp (p : path) : Prop := Forall (fun cb => on (fst cb)) p.
  Lemma on_diff p : forall T m rest rp m', diffBranchTree T p m = Ok (rest, rp, m') -> on T -> onp p -> on rest /\ onp rp.
  Proof.
    induction p as [|[c b] p IH]; intros T m rest rp m' E H K; [destruct T; injection E as <- <- _; auto|].
    destruct T as [ |n|s|s|s|l o|v m0 l|v q|l|c' x y|v w f s|w|w|t|s l]; try (injection E as <- <- _; auto; fail).
    cbn [diffBranchTree] in E. apply bind_ok in E as (e & _ & E). destruct e; [|injection E as <- <- _; auto]. apply on_branch in H as (H1 & H2 & H3). inv K. apply (IH _ _ _ _ _ E); [destruct b; assumption|assumption].
  Qed.
  Lemma on_make p : forall t, onp p -> on t -> on (makeBranchTree p t).
  Proof. induction p as [|[c b] p IH]; intros t K H; [exact H|]. inv K. cbn [makeBranchTree]. destruct b; apply on_branch; auto using on_none. Qed.
  Lemma on_append m : forall T t t', appendBranchTree T m t = Ok t' -> on T -> on t -> on t'.
  Proof.
    induction m as [|b m IH]; intros T t t' E H K; [rewrite append_nil in E; injection E as <-; exact K|]. cbn [appendBranchTree] in E. destruct T; try discriminate. apply on_branch in H as (H1 & H2 & H3).
    destruct b; apply bind_ok in E as (x' & E1 & E); injection E as <-; apply on_branch; repeat split; auto; exact (IH _ _ _ E1 ltac:(assumption) K).
  Qed.
  Lemma on_insert T p V t : insert T p V = Ok t -> on T -> onp p -> on V -> on t.
  Proof.
    intros E H K HV. unfold insert in E. apply bind_ok in E as ([[rest rp] m] & E1 & E). destruct (on_diff _ _ _ _ _ _ E1 H K) as [R1 R2]. apply bind_ok in E as (add & E2 & E).
    apply (on_append _ _ _ _ E H). destruct rp as [|cb rp]; [injection E2 as <-; exact HV|]. destruct (is_none rest); [injection E2 as <-; exact (on_make (cb :: rp) V R2 HV)|]. exact (on_append _ _ _ _ E2 (on_make _ _ R2 HV) R1).
  Qed.
  Lemma on_insertOp_r l r o : forall t, on l -> on r -> insertOp_r l r o = Ok t -> on t.
  Proof.
    induction r; intros u Hl Hr E; cbn [insertOp_r] in E; try (eapply on_mkop; [|exact E]; auto; fail).
    apply on_branch in Hr as (H1 & H2 & H3). apply bind_ok in E as (a & E1 & E). apply bind_ok in E as (b & E2 & E). injection E as <-. apply on_branch. auto.
  Qed.
  Lemma on_insertOp l r o : forall t, on l -> on r -> insertOp l r o = Ok t -> on t.
  Proof.
    induction l; intros u Hl Hr E; cbn [insertOp] in E; try (eapply on_insertOp_r; [| |exact E]; assumption).
    apply on_branch in Hl as (H1 & H2 & H3). apply bind_ok in E as (a & E1 & E). apply bind_ok in E as (b & E2 & E). injection E as <-. apply on_branch. auto.
  Qed.
  Lemma on_item comp g c : on comp -> match g with Some ws => Forall on ws | None => True end -> item_cond comp g = Ok c -> on c.
  Proof.
    intros Hc Hg E. destruct g as [[|w l]|]; cbn [item_cond] in E; [discriminate| |injection E as <-; constructor].
    apply bind_ok in E as (e & E1 & E). inversion Hg as [|w0 l0 HX HY]; subst w0 l0. apply on_insertOp in E1; [|assumption|assumption]. clear HX Hg. revert e E1 E. induction HY as [|v l Hv _ IH]; intros e He E; [injection E as <-; exact He|].
    cbn [lor_eqs] in E. apply bind_ok in E as (e1 & E1 & E). apply bind_ok in E as (a & E2 & E). apply on_insertOp in E1; [|assumption|assumption]. apply on_insertOp in E2; [|assumption|assumption]. exact (IH a E2 E).
  Qed.
End On.

(** ** the visit *)
Section Visit.
  Variable k : nat.
  Variable array : chain -> bool.
  Variable ns : list chain.                   (* the declared signals *)
  Hypothesis Hns : Forall no_any ns.
  Notation bvisit := (bvisit k array).

  Definition below (s : bst) : chain -> Prop := fun n => In n (bs_terms s).
  Definition closed (s : bst) : Prop := Forall no_any (bs_terms s) /\ plain_st s /\ incl ns (bs_terms s) /\ Forall (fun nt => on (below s) (snd nt)) (bs_trees s).
  Definition tab_closed (s : bst) (t : btable) : Prop := Forall (fun ne => In (fst ne) ns /\ match snd ne with Own u => on (below s) u | Live => True end) t.
  Definition frame_closed (s : bst) (f : bframe) : Prop := tab_closed s (bf_tab f) /\ match bf_cond f with Some (c, _) => incl (names c) ns | None => True end.

  (** Signals added one after the other. *)
  Fixpoint stacked (terms : list chain) (news : list (chain * df)) : Prop :=
    match news with
    | [] => True
    | (rn, raw) :: r => on (fun n => In n terms) raw /\ ~ In rn terms /\ no_any rn /\ stacked (terms ++ [rn]) r
    end.
  Definition grows (s s' : bst) : Prop := exists news, bs_terms s' = bs_terms s ++ map fst news /\ stacked (bs_terms s) news /\
    Forall (fun nt => dget (bs_trees s') (fst nt) = Some (snd nt)) news /\
    (forall m, no_any m -> ~ In m ns -> In m (bs_terms s) -> dget (bs_trees s') m = dget (bs_trees s) m).
  Lemma stacked_app n1 : forall terms n2, stacked terms n1 -> stacked (terms ++ map fst n1) n2 -> stacked terms (n1 ++ n2).
  Proof.
    induction n1 as [|[rn raw] n1 IH]; intros terms n2 H1 H2; [cbn [map] in H2; now rewrite app_nil_r in H2|]. cbn [app stacked map fst] in *. destruct H1 as (A & B & C & D). split; [exact A|]. split; [exact B|]. split; [exact C|].
    apply IH; [exact D|]. now rewrite <- app_assoc.
  Qed.
  Lemma stacked_new news : forall terms rn raw, stacked terms news -> In (rn, raw) news -> no_any rn /\ ~ In rn terms.
  Proof.
    induction news as [|[a b] news IH]; intros terms rn raw H Hin0; [destruct Hin0|]; destruct Hin0 as [E|Hin]; destruct H as (A & B & C & D); [injection E as <- <-; auto|]. destruct (IH _ _ _ D Hin) as [K1 K2]. split; [exact K1|]. intros Hi. apply K2, in_or_app. auto.
  Qed.
  Lemma grows_refl s : grows s s.
  Proof. exists []. cbn [map stacked]. rewrite app_nil_r. split; [reflexivity|]. split; [exact Logic.I|]. split; [constructor|auto]. Qed.
  Lemma grows_trans s s1 s2 : incl ns (bs_terms s) -> grows s s1 -> grows s1 s2 -> grows s s2.
  Proof.
    intros H0 (n1 & T1 & S1 & F1 & K1) (n2 & T2 & S2 & F2 & K2). exists (n1 ++ n2). rewrite map_app, app_assoc, <- T1. split; [exact T2|]. split; [apply stacked_app; [exact S1|now rewrite <- T1]|]. split.
    - apply Forall_app. split; [|exact F2]. apply Forall_forall. intros [rn raw] Hin. destruct (stacked_new _ _ _ _ S1 Hin) as [P1 P2]. cbn [fst snd]. rewrite K2; [exact (proj1 (Forall_forall _ _) F1 _ Hin)|exact P1| |].
      + intros Hi. apply P2, H0, Hi.
      + rewrite T1. apply in_or_app. right. apply in_map_iff. exists (rn, raw). auto.
    - intros m Hm Hx Hi. rewrite K2; [now apply K1|exact Hm|exact Hx|]. rewrite T1. apply in_or_app. auto.
  Qed.
  Lemma grows_terms s s' : grows s s' -> incl (bs_terms s) (bs_terms s').
  Proof. intros (n1 & T1 & _) n Hn. rewrite T1. apply in_or_app. auto. Qed.
  Lemma on_mono (P P' : chain -> Prop) t : (forall n, P n -> P' n) -> on P t -> on P' t.
  Proof. intros H. apply Forall_impl. exact H. Qed.
  Lemma tab_mono s s' t : incl (bs_terms s) (bs_terms s') -> tab_closed s t -> tab_closed s' t.
  Proof. intros H. apply Forall_impl. intros [n e] [H1 H2]. split; [exact H1|]. destruct (snd (n, e)); [exact Logic.I|]. revert H2. apply on_mono. exact H. Qed.
  Lemma frame_mono s s' f : incl (bs_terms s) (bs_terms s') -> frame_closed s f -> frame_closed s' f.
  Proof. intros H [H1 H2]. split; [exact (tab_mono _ _ _ H H1)|exact H2]. Qed.
  Lemma dget_mem {V} (d : ndict V) n v : dget d n = Some v -> exists m, In (m, v) d.
  Proof. induction d as [|[a b] d IH]; cbn [dget]; [discriminate|]. destruct (chain_eq a n); [intros E; injection E as <-; exists a; now left|]. intros E. destruct (IH E) as (m & Hm). exists m. now right. Qed.
  Lemma dset_mem {V} (d : ndict V) n v x : In x (dset d n v) -> In x d \/ (snd x = v /\ (fst x = n \/ chain_eq (fst x) n = true /\ In (fst x) (map fst d))).
  Proof.
    induction d as [|[a b] d IH]; cbn [dset].
    - intros [<-|[]]. right. cbn. auto.
    - destruct (chain_eq a n) eqn:E; intros [<-|H].
      + right. cbn [fst snd map In]. auto 6.
      + left. now right.
      + left. now left.
      + destruct (IH H) as [K|(K1 & [K2|(K2 & K3)])]; [left; now right|right; auto|right; cbn [map In]; auto].
  Qed.
  Lemma tree_closed s n : closed s -> on (below s) (tree_of s n).
  Proof. intros (_ & _ & _ & H). unfold tree_of. destruct (dget (bs_trees s) n) as [t|] eqn:E; [|constructor]. apply dget_mem in E as (m & Hm). exact (proj1 (Forall_forall _ _) H _ Hm). Qed.
  Lemma entry_closed s t n e : closed s -> tab_closed s t -> dget t n = Some e -> on (below s) (entry_tree s n e).
  Proof.
    intros Hs Ht E. destruct e as [|u]; [now apply tree_closed|]. apply dget_mem in E as (m & Hm). exact (proj2 (proj1 (Forall_forall _ _) Ht _ Hm)).
  Qed.
  Lemma set_closed s n t : closed s -> In n ns -> on (below s) t -> closed (set_tree s n t) /\ grows s (set_tree s n t).
  Proof.
    intros (H1 & H2 & H3 & H4) Hn Ht. assert (no_any n) as Pn by exact (proj1 (Forall_forall _ _) Hns n Hn). split.
    - split; [exact H1|]. split; [now apply dset_plain|]. split; [exact H3|]. apply Forall_forall. intros x Hx. cbn [bs_trees set_tree] in Hx. apply dset_mem in Hx as [Hx|[Hx _]]; [exact (proj1 (Forall_forall _ _) H4 x Hx)|]. rewrite Hx. exact Ht.
    - exists []. cbn [map stacked]. rewrite app_nil_r. split; [reflexivity|]. split; [exact Logic.I|]. split; [constructor|]. intros m Hm Hx _. cbn [bs_trees set_tree]. rewrite dget_dset by assumption. destruct (chain_dec n m) as [->|]; [contradiction|reflexivity].
  Qed.
  Lemma put_closed s t n e : closed s -> tab_closed s t -> In n ns -> match e with Own u => on (below s) u | Live => True end ->
    closed (fst (put_entry s t n e)) /\ grows s (fst (put_entry s t n e)) /\ tab_closed (fst (put_entry s t n e)) (snd (put_entry s t n e)).
  Proof.
    intros Hs Ht Hn He. assert (no_any n) as Pn by exact (proj1 (Forall_forall _ _) Hns n Hn).
    assert (forall u, match u with Own x => on (below s) x | Live => True end -> tab_closed s (dset t n u)) as Kd.
    { intros u Hu. apply Forall_forall. intros x Hx. apply dset_mem in Hx as [Hx|[Hx K]]; [exact (proj1 (Forall_forall _ _) Ht x Hx)|]. rewrite Hx. split; [|exact Hu]. destruct K as [->|[_ K]]; [exact Hn|]. apply in_map_iff in K as (y & Ey & K). rewrite <- Ey. exact (proj1 (proj1 (Forall_forall _ _) Ht y K)). }
    assert (on (below s) (entry_tree s n e)) as Ke by (destruct e as [|u]; [apply tree_closed, Hs|exact He]).
    unfold put_entry. destruct (dget t n) as [[|u]|] eqn:E; cbn [fst snd].
    - destruct (set_closed s n _ Hs Hn Ke) as [K1 K2]. auto.
    - split; [exact Hs|]. split; [apply grows_refl|]. apply Kd. exact Ke.
    - split; [exact Hs|]. split; [apply grows_refl|]. apply Kd. exact He.
  Qed.
  Lemma copy_closed from : forall s t, closed s -> tab_closed s t -> tab_closed s from ->
    closed (fst (copy_table s t from)) /\ grows s (fst (copy_table s t from)) /\ tab_closed (fst (copy_table s t from)) (snd (copy_table s t from)).
  Proof.
    induction from as [|[n e] from IH]; intros s t Hs Ht Hf; cbn [copy_table]; [split; [exact Hs|split; [apply grows_refl|exact Ht]]|].
    inv Hf. destruct H1 as [Hn He]. cbn [fst snd] in *. destruct (put_closed s t n e Hs Ht Hn He) as (P1 & P2 & P3). destruct (IH _ _ P1 P3 (tab_mono _ _ _ (grows_terms _ _ P2) H2)) as (Q1 & Q2 & Q3).
    split; [exact Q1|]. split; [|exact Q3]. exact (grows_trans _ _ _ (proj1 (proj2 (proj2 Hs))) P2 Q2).
  Qed.
  Lemma copies_closed l : forall s t, closed s -> tab_closed s t -> Forall (tab_closed s) l ->
    closed (fst (copy_tables s t l)) /\ grows s (fst (copy_tables s t l)) /\ tab_closed (fst (copy_tables s t l)) (snd (copy_tables s t l)).
  Proof.
    induction l as [|f l IH]; intros s t Hs Ht Hf; cbn [copy_tables]; [split; [exact Hs|split; [apply grows_refl|exact Ht]]|].
    inv Hf. destruct (copy_closed f s t Hs Ht H1) as (P1 & P2 & P3). destruct (IH _ _ P1 P3 ltac:(eapply Forall_impl; [|exact H2]; intros u; apply tab_mono, grows_terms, P2)) as (Q1 & Q2 & Q3).
    split; [exact Q1|]. split; [|exact Q3]. exact (grows_trans _ _ _ (proj1 (proj2 (proj2 Hs))) P2 Q2).
  Qed.
  Lemma find_closed s fs n e : closed s -> Forall (frame_closed s) fs -> find_entry fs n = Some e -> on (below s) (entry_tree s n e).
  Proof.
    intros Hs. induction 1 as [|f fs [Hf _] _ IH]; cbn [find_entry]; [discriminate|]. destruct (dget (bf_tab f) n) as [e'|] eqn:E; [|exact IH]. intros J. injection J as <-. exact (entry_closed s _ n e' Hs Hf E).
  Qed.
  Lemma read_closed s fs p n u : closed s -> Forall (frame_closed s) fs -> onp (below s) p -> below s n -> read_at s fs p n = Ok u -> on (below s) u.
  Proof.
    intros Hs Hf Hp Hn E. unfold read_at in E. destruct (find_entry fs n) as [e|] eqn:Ef; [|injection E as <-; constructor; [exact Hn|constructor]]. apply bind_ok in E as ([[rest rp] m] & E1 & E). cbn [fst] in E.
    apply (on_replace _ n Hn _ _ E). exact (proj1 (on_diff _ _ _ _ _ _ _ E1 (find_closed s fs n e Hs Hf Ef) Hp)).
  Qed.
  Lemma path_closed s fs : closed s -> Forall (frame_closed s) fs -> forall p, condpath k array s fs = Ok p -> onp (below s) p.
  Proof.
    intros Hs. induction 1 as [|f fs Hf Hfs IH]; intros p E; cbn [condpath] in E; [injection E as <-; constructor|]. apply bind_ok in E as (p0 & E0 & E). specialize (IH p0 E0).
    destruct Hf as [_ Hc]. destruct (bf_cond f) as [[c b]|]; [|injection E as <-; exact IH]. apply bind_ok in E as (c' & E1 & E). injection E as <-. apply Forall_app. split; [exact IH|]. constructor; [|constructor]. cbn [fst].
    apply (on_resolve (below s) k array _ c c' (fun n u _ Hn => read_closed s fs p0 n u Hs Hfs IH Hn) E1). apply Forall_forall. intros n Hn. apply (proj1 (proj2 (proj2 Hs))), Hc, Hn.
  Qed.
  Lemma assign_closed s f r n e s' t' : closed s -> Forall (frame_closed s) (f :: r) -> In n ns -> incl (names e) ns -> assign k array s f r n e = Ok (s', t') ->
    closed s' /\ grows s s' /\ tab_closed s' t'.
  Proof.
    intros Hs Hf Hn He E. assert (no_any n) as Pn by exact (proj1 (Forall_forall _ _) Hns n Hn). unfold assign in E. apply bind_ok in E as (p & Ep & E). pose proof (path_closed s (f :: r) Hs Hf p Ep) as Hp.
    apply bind_ok in E as (raw & E1 & E). unfold getTree in E1. apply bind_ok in E1 as (raw0 & E0 & E1). apply bind_ok in E as ([rn cnt] & E2 & E). cbn [fst snd] in E.
    destruct (new_name_ok _ _ _ Pn _ _ _ E2) as [Rp Rn]. apply bind_ok in E as (T1 & E3 & E). apply bind_ok in E as (T2 & E4 & E). set (s1 := BSt (dset (bs_trees s) rn raw) (bs_terms s ++ [rn]) cnt) in *.
    pose proof Hs as (C1 & C2 & C3 & C4).
    assert (on (below s) raw) as Hraw.
    { apply (on_reorder _ _ _ _ E1). apply (on_resolve (below s) k array _ e raw0 (fun m u _ Hm => read_closed s (f :: r) p m u Hs Hf Hp Hm) E0). apply Forall_forall. intros m Hm. apply C3, He, Hm. }
    assert (forall m, below s m -> below s1 m) as Up by (intros m Hm; apply in_or_app; left; exact Hm).
    assert (closed s1) as Hs1.
    { split; [apply Forall_app; split; [exact C1|constructor; [exact Rp|constructor]]|]. split; [now apply dset_plain|]. split; [intros m Hm; apply Up, C3, Hm|]. apply Forall_forall. intros x Hx. cbn [bs_trees s1] in Hx. apply dset_mem in Hx as [Hx|[Hx _]].
      - eapply on_mono; [exact Up|]. exact (proj1 (Forall_forall _ _) C4 x Hx).
      - rewrite Hx. eapply on_mono; [exact Up|exact Hraw]. }
    assert (grows s s1) as G1.
    { exists [(rn, raw)]. cbn [map fst stacked]. split; [reflexivity|]. split; [split; [exact Hraw|auto]|]. split.
      - constructor; [|constructor]. cbn [fst snd bs_trees s1]. rewrite dget_dset by assumption. destruct (chain_dec rn rn); congruence.
      - intros m Hm _ Hi. cbn [bs_trees s1]. rewrite dget_dset by assumption. destruct (chain_dec rn m) as [<-|]; [contradiction|reflexivity]. }
    assert (on (below s1) T2) as HT2.
    { apply (on_reorder _ _ _ _ E4). apply (on_insert _ _ _ _ _ E3 (tree_closed s1 n Hs1)).
      - eapply Forall_impl; [|exact Hp]. intros cb. apply on_mono, Up.
      - constructor; [apply in_or_app; right; now left|constructor]. }
    destruct (set_closed s1 n T2 Hs1 Hn HT2) as [D1 D2]. inversion Hf as [|f0 r0 [Ft _] Fr]; subst f0 r0.
    assert (tab_closed (set_tree s1 n T2) (bf_tab f)) as Ft' by (apply (tab_mono s); [exact Up|exact Ft]).
    destruct (put_closed (set_tree s1 n T2) (bf_tab f) n (match dget (bs_trees s1) n with None => Live | Some _ => Own T2 end) D1 Ft' Hn ltac:(destruct (dget (bs_trees s1) n); [exact HT2|exact Logic.I])) as (P1 & P2 & P3).
    match type of E with Ok ?q = _ => set (q' := q) in *; assert (q' = (s', t')) as Eq by congruence end. rewrite Eq in P1, P2, P3. cbn [fst snd] in *.
    split; [exact P1|]. split; [|exact P3]. apply (grows_trans s s1 s' C3 G1). exact (grows_trans s1 _ s' (proj1 (proj2 (proj2 Hs1))) D2 P2).
  Qed.

  (** Statements over the declared signals. *)
  Fixpoint declared_in (x : bstmt) : Prop :=
    match x with
    | BAsg n e => In n ns /\ incl (names e) ns
    | BBlock l => (fix all (l : list bstmt) : Prop := match l with [] => True | y :: r => declared_in y /\ all r end) l
    | BIf c t e => incl (names c) ns /\ match t with Some y => declared_in y | None => True end /\ match e with Some y => declared_in y | None => True end
    | BCase comp items => incl (names comp) ns /\
      (fix all (l : list (option (list df) * option bstmt)) : Prop :=
         match l with
         | [] => True
         | (g, y) :: r => match g with Some ws => Forall (fun w => incl (names w) ns) ws | None => True end /\ match y with Some y => declared_in y | None => True end /\ all r
         end) items
    end.
  Definition Grow (x : bstmt) : Prop := forall s c t r s' t', closed s -> Forall (frame_closed s) (BFrame c t :: r) -> declared_in x -> bvisit s c t r x = Ok (s', t') ->
    closed s' /\ grows s s' /\ tab_closed s' t'.
  Lemma nil_closed s : tab_closed s [].
  Proof. constructor. Qed.
  Lemma frames_mono s s' fs : grows s s' -> Forall (frame_closed s) fs -> Forall (frame_closed s') fs.
  Proof. intros G. apply Forall_impl. intros f. apply frame_mono, grows_terms, G. Qed.
  Lemma ovisit_grow y : (forall z, y = Some z -> Grow z) -> forall s c r s' u, closed s -> Forall (frame_closed s) (BFrame c [] :: r) -> match y with Some y => declared_in y | None => True end -> ovisit k array s c r y = Ok (s', u) ->
    closed s' /\ grows s s' /\ tab_closed s' u.
  Proof.
    intros HM s c r s' u Hs Hf Hd E. destruct y as [y|]; cbn [ovisit] in E; [exact (HM y eq_refl s c [] r s' u Hs Hf Hd E)|]. injection E as <- <-. split; [exact Hs|]. split; [apply grows_refl|apply nil_closed].
  Qed.
  Lemma arm_frame s fs cnd b : Forall (frame_closed s) fs -> incl (names cnd) ns -> Forall (frame_closed s) (BFrame (Some (cnd, b)) [] :: fs).
  Proof. intros H1 H2. constructor; [split; [apply nil_closed|exact H2]|exact H1]. Qed.
  Lemma visit_grow x : Grow x.
  Proof.
    induction x as [n e|l IH|cnd th el IHt IHe|comp its IH] using bstmt_ind'; intros s c t r s' t' Hs Hf Hd E.
    - destruct Hd as [D1 D2]. exact (assign_closed s _ r n e s' t' Hs Hf D1 D2 E).
    - rewrite visit_block in E. apply bind_ok in E as ([s1 u] & E1 & E). cbn [fst snd] in E.
      assert (forall l, Forall Grow l -> forall s u s' u', closed s -> Forall (frame_closed s) (BFrame None u :: BFrame c t :: r) -> (fix all (l : list bstmt) : Prop := match l with [] => True | y :: r => declared_in y /\ all r end) l ->
        bvisits k array s u (BFrame c t :: r) l = Ok (s', u') -> closed s' /\ grows s s' /\ tab_closed s' u') as K.
      { clear - Hns. induction 1 as [|y l Hy _ IHl]; intros s u s' u' Hs Hf Hd E; cbn [bvisits] in E.
        - injection E as <- <-. split; [exact Hs|]. split; [apply grows_refl|]. inv Hf. exact (proj1 H1).
        - apply bind_ok in E as ([s1 u1] & E1 & E). cbn [fst snd] in E. destruct Hd as [D1 D2]. destruct (Hy s None u _ s1 u1 Hs Hf D1 E1) as (P1 & P2 & P3). inversion Hf as [|f0 r0 H1 H2]; subst f0 r0.
          destruct (IHl s1 u1 s' u' P1) as (Q1 & Q2 & Q3); [constructor; [split; [exact P3|exact Logic.I]|exact (frames_mono _ _ _ P2 H2)]|exact D2|exact E|].
          split; [exact Q1|]. split; [|exact Q3]. exact (grows_trans _ _ _ (proj1 (proj2 (proj2 Hs))) P2 Q2). }
      destruct (K l IH s [] s1 u Hs) as (P1 & P2 & P3); [constructor; [split; [apply nil_closed|exact Logic.I]|exact Hf]|exact Hd|exact E1|]. inversion Hf as [|f0 r0 [Ft Fc] Fr]; subst f0 r0.
      destruct (copy_closed u s1 t P1 (tab_mono _ _ _ (grows_terms _ _ P2) Ft) P3) as (Q1 & Q2 & Q3). assert (copy_table s1 t u = (s', t')) as Ec by congruence. rewrite Ec in Q1, Q2, Q3. cbn [fst snd] in *.
      split; [exact Q1|]. split; [|exact Q3]. exact (grows_trans _ _ _ (proj1 (proj2 (proj2 Hs))) P2 Q2).
    - destruct Hd as (D1 & D2 & D3). cbn [BlkModel.bvisit] in E. apply bind_ok in E as ([s1 u1] & E1 & E). apply bind_ok in E as ([s2 u2] & E2 & E). cbn [fst snd] in *.
      assert (ovisit k array s1 (Some (cnd, false)) (BFrame c t :: r) el = Ok (s2, u2)) as E2' by (destruct el as [z|]; [destruct th as [y|]; [exact E2|discriminate E2]|exact E2]).
      destruct (ovisit_grow th IHt s (Some (cnd, true)) (BFrame c t :: r) s1 u1 Hs (arm_frame _ _ _ _ Hf D1) D2 E1) as (P1 & P2 & P3).
      destruct (ovisit_grow el IHe s1 (Some (cnd, false)) (BFrame c t :: r) s2 u2 P1 (arm_frame _ _ _ _ (frames_mono _ _ _ P2 Hf) D1) D3 E2') as (Q1 & Q2 & Q3).
      pose proof (grows_trans _ _ _ (proj1 (proj2 (proj2 Hs))) P2 Q2) as G. inversion Hf as [|f0 r0 [Ft Fc] Fr]; subst f0 r0.
      destruct (copies_closed [u1; u2] s2 t Q1 (tab_mono _ _ _ (grows_terms _ _ G) Ft)) as (R1 & R2 & R3); [constructor; [exact (tab_mono _ _ _ (grows_terms _ _ Q2) P3)|constructor; [exact Q3|constructor]]|].
      assert (copy_tables s2 t [u1; u2] = (s', t')) as Ec by congruence. rewrite Ec in R1, R2, R3. cbn [fst snd] in *. split; [exact R1|]. split; [|exact R3]. exact (grows_trans _ _ _ (proj1 (proj2 (proj2 Hs))) G R2).
    - destruct Hd as (D1 & D2). rewrite visit_case in E. apply bind_ok in E as ([s1 tabs] & E1 & E). cbn [fst snd] in E.
      assert (forall l, Forall (fun gy => forall y, snd gy = Some y -> Grow y) l -> forall s fs s' tabs, closed s -> Forall (frame_closed s) fs ->
        (fix all (l : list (option (list df) * option bstmt)) : Prop :=
         match l with
         | [] => True
         | (g, y) :: r => match g with Some ws => Forall (fun w => incl (names w) ns) ws | None => True end /\ match y with Some y => declared_in y | None => True end /\ all r
         end) l -> ivisit k array comp s fs l = Ok (s', tabs) -> closed s' /\ grows s s' /\ Forall (tab_closed s') tabs) as K.
      { clear - Hns D1. induction 1 as [|[g y] l Hy _ IHl]; intros s fs s' tabs Hs Hf Hd E; cbn [ivisit] in E.
        - injection E as <- <-. split; [exact Hs|]. split; [apply grows_refl|constructor].
        - apply bind_ok in E as (cnd & Ec & E). apply bind_ok in E as ([s1 u1] & E1 & E). cbn [fst snd] in E. destruct Hd as (H1 & H2 & H3).
          assert (incl (names cnd) ns) as Nc.
          { intros n Hn. apply (proj1 (Forall_forall _ _) (on_item (fun n => In n ns) comp g cnd ltac:(apply Forall_forall; exact D1) ltac:(destruct g as [ws|]; [eapply Forall_impl; [|exact H1]; intros w Hw; apply Forall_forall; exact Hw|exact Logic.I]) Ec) n Hn). }
          destruct (ovisit_grow y Hy s (Some (cnd, true)) fs s1 u1 Hs (arm_frame _ _ _ _ Hf Nc) H2 E1) as (P1 & P2 & P3). destruct l as [|gy l].
          + injection E as <- <-. split; [exact P1|]. split; [exact P2|]. constructor; [exact P3|constructor].
          + apply bind_ok in E as ([s2 tabs2] & E2 & E). cbn [fst snd] in E. injection E as <- <-. destruct (IHl s1 _ s2 tabs2 P1 (arm_frame _ _ _ _ (frames_mono _ _ _ P2 Hf) Nc) H3 E2) as (Q1 & Q2 & Q3).
            split; [exact Q1|]. split; [exact (grows_trans _ _ _ (proj1 (proj2 (proj2 Hs))) P2 Q2)|]. constructor; [exact (tab_mono _ _ _ (grows_terms _ _ Q2) P3)|]. constructor; [apply nil_closed|exact Q3]. }
      destruct (K its IH s _ s1 tabs Hs Hf D2 E1) as (P1 & P2 & P3). inversion Hf as [|f0 r0 [Ft Fc] Fr]; subst f0 r0.
      destruct (copies_closed tabs s1 t P1 (tab_mono _ _ _ (grows_terms _ _ P2) Ft) P3) as (R1 & R2 & R3).
      assert (copy_tables s1 t tabs = (s', t')) as Ec by congruence. rewrite Ec in R1, R2, R3. cbn [fst snd] in *. split; [exact R1|]. split; [|exact R3]. exact (grows_trans _ _ _ (proj1 (proj2 (proj2 Hs))) P2 R2).
  Qed.

  (** ** values for the added signals *)
  Lemma values I news : forall terms f, stacked terms news -> exists g, (forall n, In n terms -> g n = f n) /\
    Forall (fun nt => g (fst nt) = eval (with_signals I g) (snd nt)) news /\
    forall h, (forall n, In n terms -> h n = f n) -> Forall (fun nt => h (fst nt) = eval (with_signals I h) (snd nt)) news -> forall n, In n (terms ++ map fst news) -> h n = g n.
  Proof.
    induction news as [|[rn raw] news IH]; intros terms f H; [exists f; split; [auto|split; [constructor|]]; intros h H1 _ n Hn; rewrite app_nil_r in Hn; auto|]. destruct H as (H1 & H2 & H3 & H4).
    destruct (IH (terms ++ [rn]) (update I f rn (eval (with_signals I f) raw)) H4) as (g & G1 & G2 & G3). exists g.
    assert (forall n, In n terms -> g n = f n) as K. { intros n Hn. rewrite G1 by (apply in_or_app; auto). unfold update. destruct (chain_dec rn n) as [->|]; [contradiction|reflexivity]. }
    split; [exact K|]. split; [constructor; [|exact G2]|].
    - cbn [fst snd]. rewrite G1 by (apply in_or_app; right; now left). unfold update. destruct (chain_dec rn rn); [|congruence].
      apply eval_names. intros n Hn. symmetry. apply K. exact (proj1 (Forall_forall _ _) H1 n Hn).
    - intros h Hh Hc n Hn. inv Hc. cbn [fst snd] in *. apply G3; [|assumption|cbn [map fst] in Hn; now rewrite <- app_assoc].
      intros m Hm. unfold update. apply in_app_or in Hm as [Hm|[<-|[]]].
      + destruct (chain_dec rn m) as [->|]; [contradiction|]. auto.
      + destruct (chain_dec rn rn); [|congruence]. rewrite H5. apply eval_names. intros m Hm. apply Hh. exact (proj1 (Forall_forall _ _) H1 m Hm).
  Qed.
  Lemma grows_values I s s' : grows s s' -> exists f, (forall n, In n (bs_terms s) -> f n = i_term I n) /\ consistent (with_signals I f) s s' /\
    forall h, (forall n, In n (bs_terms s) -> h n = i_term I n) -> consistent (with_signals I h) s s' -> forall n, In n (bs_terms s') -> h n = f n.
  Proof.
    intros (news & T & S1 & F & _). destruct (values I news (bs_terms s) (i_term I) S1) as (g & G1 & G2 & G3). exists g. split; [exact G1|]. split.
    - intros n t Hn Hx E. rewrite T in Hn. apply in_app_or in Hn as [Hn|Hn]; [contradiction|]. apply in_map_iff in Hn as ([m raw] & Em & Hn). cbn [fst] in Em. subst m.
      pose proof (proj1 (Forall_forall _ _) F _ Hn) as E'. cbn [fst snd] in E'. assert (raw = t) as -> by congruence. exact (proj1 (Forall_forall _ _) G2 _ Hn).
    - intros h H1 H2 n Hn. rewrite T in Hn. apply (G3 h H1); [|exact Hn]. apply Forall_forall. intros [rn raw] Hin. cbn [fst snd]. apply H2.
      + rewrite T. apply in_or_app. right. apply in_map_iff. exists (rn, raw). auto.
      + exact (proj2 (stacked_new _ _ _ _ S1 Hin)).
      + exact (proj1 (Forall_forall _ _) F _ Hin).
  Qed.
End Visit.
