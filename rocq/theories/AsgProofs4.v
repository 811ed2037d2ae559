(** AsgProofs4.v - statements. *)
From Verif Require Import Base ScopeModel ScopeSpec ScopeProofs DfModel DfSpec DfProofs ReorderModel ReorderSpec ReorderProofs BindModel BindSpec BindProofs AsgModel AsgSpec AsgProofs AsgProofs2 AsgProofs3.

Section StmtInd.
  Variable P : stmt -> Prop.
  Hypothesis HN : forall ds v, P (SNon ds v).
  Hypothesis HB : forall l, Forall P l -> P (SBlock l).
  Hypothesis HF : forall c t e, (forall y, t = Some y -> P y) -> (forall y, e = Some y -> P y) -> P (SIf c t e).
  Hypothesis HC : forall comp items, Forall (fun gy => forall y, snd gy = Some y -> P y) items -> P (SCase comp items).
  Fixpoint stmt_ind' (x : stmt) : P x :=
    let opt (o : option stmt) : forall y, o = Some y -> P y :=
      match o with
      | None => fun y E => match E with eq_refl => I end
      | Some z => fun y E => match E in _ = r return match r with Some y => P y | None => True end with eq_refl => stmt_ind' z end
      end in
    match x with
    | SNon ds v => HN ds v
    | SBlock l => HB l ((fix go l : Forall P l := match l with [] => Forall_nil _ | y :: r => Forall_cons _ (stmt_ind' y) (go r) end) l)
    | SIf c t e => HF c t e (opt t) (opt e)
    | SCase comp items => HC comp items
        ((fix go l : Forall (fun gy => forall y, snd gy = Some y -> P y) l :=
            match l with [] => Forall_nil _ | gy :: r => Forall_cons _ (opt (snd gy)) (go r) end) items)
    end.
End StmtInd.

(** ** the condition of a case item *)
Lemma insertOp_bf l r o t : branch_free l -> branch_free r -> insertOp l r o = Ok t -> t = DOp [l; r] o.
Proof.
  intros Hl Hr E.
  assert (insertOp l r o = mkOp [l; r] o) as K.
  { unfold branch_free in *. destruct l; try discriminate; destruct r; try discriminate; reflexivity. }
  rewrite K in E. now apply mkOp_ok in E as [-> _].
Qed.
Lemma cond_op l r o : cond_ok l -> cond_ok r -> cond_ok (DOp [l; r] o).
Proof.
  unfold cond_ok, no_delay, branch_free. intros [A B] [C D]. cbn [occurs isDelay isBranch existsb]. rewrite A, B, C, D. auto.
Qed.
Section Cond.
  Variable I : interp.
  Hypothesis HI : sane I.
  Lemma lor_eqs_ok comp l : cond_ok comp -> Forall cond_ok l -> forall acc t, cond_ok acc -> lor_eqs comp acc l = Ok t ->
    cond_ok t /\ i_truth I (eval I t) = i_truth I (eval I acc) || existsb (fun w => i_truth I (i_op I Eq [eval I comp; eval I w])) l.
  Proof.
    intros Hc. induction 1 as [|w l Hw Hl IH]; intros acc t Ha E; cbn [lor_eqs] in E.
    - injection E as <-. split; auto. simpl. now rewrite orb_false_r.
    - apply bind_ok in E as (e & E1 & E). apply bind_ok in E as (a & E2 & E).
      apply insertOp_bf in E1; [|apply Hc|apply Hw]. subst e.
      pose proof (cond_op _ _ Eq Hc Hw) as He. apply insertOp_bf in E2; [|apply Ha|apply He]. subst a.
      destruct (IH _ t (cond_op _ _ Lor Ha He) E) as [A B]. split; auto. rewrite B. cbn [eval map existsb].
      destruct HI as (_ & _ & _ & HL). rewrite HL. now rewrite orb_assoc.
  Qed.
  Lemma item_cond_ok comp g c : cond_ok comp -> match g with Some ws => Forall cond_ok ws | None => True end ->
    item_cond comp g = Ok c -> cond_ok c /\ i_truth I (eval I c) = label_matches I comp g.
  Proof.
    intros Hc Hg E. destruct g as [[|w l]|]; cbn [item_cond] in E; [discriminate| |].
    - apply bind_ok in E as (e & E1 & E). inv Hg. apply insertOp_bf in E1; [|apply Hc|apply H1]. subst e.
      destruct (lor_eqs_ok comp l Hc H2 _ c (cond_op _ _ Eq Hc H1) E) as [A B]. split; auto.
    - injection E as <-. split; [split; reflexivity|]. cbn [eval label_matches]. apply HI.
  Qed.
End Cond.

Section Main.
  Variable q : target.
  Hypothesis Hq : no_any (q_name q).
  Variable I : interp.
  Hypothesis HI : sane I.
  Variable k : nat.
  Variable ai : option alwaysinfo.
  Notation rec := (rec q).
  Notation Tl := (Tl q).
  Notation T := (T q).
  Notation tok := (tok q).
  Notation sok := (sok q).
  Notation post := (post I).
  Notation keeps := (keeps q).

  Definition inv (g : place) (p : path) (T0 : df) (r : list df) : Prop :=
    match g with
    | Vacant => r = [] /\ get p T0 = DNone /\ present p T0 = true
    | Open => r = [] /\ present p T0 = true
    | Recorded => exists V, r = [V] /\ present p T0 = true /\ (holds I p = true -> eval I V = eval I T0)
    | Stale => exists V, r = [V] /\ present p T0 = true
    | Near => r = [] /\ near p T0
    | Far => r = []
    end.
  Definition arm_pre (other : bool) (g : place) (p : path) (T0 : df) (r : list df) : Prop :=
    match g with
    | Vacant => r = [] /\ get p T0 = DNone /\ present p T0 = true
    | Open => r = [] /\ if other then present p T0 = true else near p T0
    | Recorded => exists V, r = [V] /\ near p T0 /\ (holds I p = true -> eval I V = eval I T0)
    | Stale => True
    | Near | Far => r = []
    end.
  Lemma near_snoc p cb T0 : present p T0 = true -> near (p ++ [cb]) T0.
  Proof. intros H. right. eauto. Qed.
  Lemma first_arm g p c b T0 r : inv g p T0 r -> arm_pre false g (p ++ [(c, b)]) T0 r.
  Proof.
    destruct g; simpl; auto.
    - intros (A & B & C). split; auto. rewrite get_app, B, get_none. split; auto. apply present_app. rewrite B. auto using present_none.
    - intros [A B]. split; auto using near_snoc.
    - intros (V & A & B & C). exists V. split; auto. split; [now apply near_snoc|]. rewrite holds_snoc. intros H. apply andb_true_iff in H as [H _]. auto.
    - intros [A B]. auto.
  Qed.
  Lemma else_arm g p c T0 T1 a f r : path_ok p -> cond_ok c -> inv g p T0 r -> post (p ++ [(c, true)]) T0 T1 a f ->
    (a = false -> r = [] -> T1 = T0) -> arm_pre a g (p ++ [(c, false)]) T1 r.
  Proof.
    intros Hp Hc Hi Po Hs.
    assert (Hpc : path_ok (p ++ [(c, true)])) by (apply Forall_app; split; auto).
    assert (PP : present p T0 = true -> present p T1 = true).
    { intros H. apply (post_present I _ _ _ _ _ Hp (post_up I _ _ _ _ _ _ _ Po) H). }
    assert (SH : a = true -> exists M, T1 = graft (p ++ [(c, true)]) T0 M).
    { intros ->. destruct (po_shape _ _ _ _ _ _ Po) as [H|[_ H]]; [auto|discriminate]. }
    assert (FA : forall x, holds I (p ++ [(c, false)]) = true -> holds I p = true /\ holds I (p ++ [(c, x)]) = negb x).
    { intros x H. rewrite holds_snoc in *. apply andb_true_iff in H as [-> H]. apply eqb_prop in H. rewrite H. destruct x; auto. }
    destruct g; simpl in *; auto.
    - destruct Hi as (A & B & C). split; auto. destruct a.
      + destruct (SH eq_refl) as [M ->]. destruct (sibling p c true T0 M Hp (proj1 Hc)) as [K1 K2]. simpl in K1, K2. rewrite K2. split; auto.
        rewrite get_app, B. apply get_none.
      + rewrite (Hs eq_refl A). rewrite get_app, B. split; [apply get_none|]. apply present_app. rewrite B. auto using present_none.
    - destruct Hi as (A & B). split; auto. destruct a.
      + destruct (SH eq_refl) as [M ->]. now destruct (sibling p c true T0 M Hp (proj1 Hc)).
      + apply near_snoc. auto.
    - destruct Hi as (V & A & B & C). exists V. split; auto. split; [apply near_snoc; auto|]. intros H.
      destruct (FA true H) as [H1 H2]. rewrite (po_out _ _ _ _ _ _ Po H2). auto.
    - destruct Hi as [A _]. auto.
  Qed.
  Lemma after_compound g p T0 T1 a f r : path_ok p -> inv g p T0 r -> post p T0 T1 a f -> (a = false -> r = [] -> T1 = T0) -> inv (leave a g) p T1 r.
  Proof.
    intros Hp Hi Po Hs. unfold leave.
    pose proof (fun H => post_present I _ _ _ _ _ Hp Po H) as PP.
    assert (PR : a = true -> present p T1 = true).
    { intros ->. destruct (po_shape _ _ _ _ _ _ Po) as [[M ->]|[_ H]]; [now apply present_graft|discriminate]. }
    destruct a.
    - specialize (PR eq_refl). destruct g; simpl in *.
      + destruct Hi as (A & _). auto.
      + destruct Hi as (A & _). auto.
      + destruct Hi as (V & A & _). eauto.
      + destruct Hi as (V & A & _). eauto.
      + destruct Hi as (A & _). auto.
      + auto.
    - destruct g; simpl in *.
      + destruct Hi as (A & B & C). rewrite (Hs eq_refl A). auto.
      + destruct Hi as (A & B). auto.
      + destruct Hi as (V & A & B & C). exists V. split; auto. split; auto. intros H. rewrite (po_same _ _ _ _ _ _ Po eq_refl). auto.
      + destruct Hi as (V & A & B). eauto.
      + destruct Hi as (A & B). rewrite (Hs eq_refl A). auto.
      + auto.
  Qed.
  Lemma inv_path_rec g p T0 r : inv g p T0 r -> r = [] \/ exists V, r = [V].
  Proof. destruct g; simpl; intros H; [left|left|right|right|left|left]; try tauto; destruct H as (V & -> & _); eauto. Qed.

  (** entering an arm *)
  Lemma arm_copy other g g1 p t s a : path_ok p -> tok t -> sok s -> stable true (T s) = true ->
    arm_pre other g p (T s) (rec t) -> enter_arm other g = Some g1 ->
    copyPrevious k ai [] s t p = Ok a ->
    tok (fst a) /\ sok (snd a) /\ keeps s (snd a) /\ stable true (T (snd a)) = true /\
    inv g1 p (T (snd a)) (rec (fst a)) /\ post p (T s) (T (snd a)) false (fun v => v) /\
    (rec t = [] -> rec (fst a) = [] /\ T (snd a) = T s).
  Proof.
    intros Hp Ht Hs HT Ha Hg E. destruct a as [new s1]. cbn [fst snd].
    assert (HN : rec t = [] -> tok new /\ sok s1 /\ keeps s s1 /\ rec new = [] /\ T s1 = T s).
    { intros R. destruct (copyPrevious_none q Hq k ai p t [] s new s1 Ht (proj1 (tok_nil q)) Hs R E) as (A & B & C & D & F).
      split; [exact A|]. split; [exact B|]. split; [exact C|]. split; [rewrite D; apply tok_nil|]. apply Tl_T; auto. }
    assert (HZ : rec t = [] -> inv g1 p (T s) [] ->
      tok new /\ sok s1 /\ keeps s s1 /\ stable true (T s1) = true /\ inv g1 p (T s1) (rec new) /\ post p (T s) (T s1) false (fun v => v) /\
      (rec t = [] -> rec new = [] /\ T s1 = T s)).
    { intros R Hi. destruct (HN R) as (A & B & C & D & F). rewrite D, F. split; [exact A|]. split; [exact B|]. split; [exact C|].
      split; [exact HT|]. split; [exact Hi|]. split; [now apply post_refl|]. auto. }
    destruct g; simpl in Ha, Hg; try discriminate; injection Hg as <-.
    - destruct Ha as (A & B & C). apply HZ; auto. simpl. auto.
    - destruct Ha as (A & B). apply HZ; auto. destruct other; simpl; auto.
    - destruct Ha as (V & A & B & C).
      destruct (copyPrevious_some q Hq I HI k ai p V Hp t [] s new s1 Ht (proj1 (tok_nil q)) Hs HT A (proj2 (tok_nil q)) B E) as (A1 & A2 & A3 & A4 & A5 & A6).
      destruct A6 as (M & EM & Ev).
      assert (EE : eval I (T s1) = eval I (T s)).
      { rewrite EM, (eval_graft I (proj1 (proj2 HI))) by auto. destruct (holds I p) eqn:H; auto. rewrite Ev. auto. }
      split; [exact A1|]. split; [exact A2|]. split; [exact A3|]. split; [exact A4|]. split; [|split].
      + exists V. split; auto. split; [rewrite EM; now apply present_graft|]. intros H. rewrite EE. auto.
      + constructor; auto. left. eauto.
      + intros R. congruence.
    - apply HZ; auto. simpl. auto.
    - apply HZ; auto. simpl. auto.
  Qed.

  (** ** the main statement about one statement *)
  Definition good (x : stmt) : Prop := wf q x ->
    forall g g' p t s t' s', path_ok p -> tok t -> sok s -> stable true (T s) = true -> inv g p (T s) (rec t) ->
    flow q x g = Some g' -> visit k ai t s p x = Ok (t', s') ->
    tok t' /\ sok s' /\ keeps s s' /\ (assigns q x = true -> Tl s' <> []) /\
    post p (T s) (T s') (assigns q x) (exec I q x) /\ inv g' p (T s') (rec t') /\
    (assigns q x = false -> rec t = [] -> rec t' = [] /\ T s' = T s).

  (** a list of statements *)
  Fixpoint vlist (p : path) (t : table) (s : store) (l : list stmt) : res (table * store) :=
    match l with [] => Ok (t, s) | y :: l' => do r <- visit k ai t s p y; vlist p (fst r) (snd r) l' end.
  Fixpoint flist (l : list stmt) (g : place) : option place :=
    match l with [] => Some g | y :: r => obind (flow q y g) (flist r) end.
  Fixpoint elist (l : list stmt) (v : dom I) : dom I := match l with [] => v | y :: r => elist r (exec I q y v) end.
  Fixpoint wlist (l : list stmt) : Prop := match l with [] => True | y :: r => wf q y /\ wlist r end.
  Lemma visit_block t s p l : visit k ai t s p (SBlock l) = do r <- vlist p [] s l; Ok (t, snd r).
  Proof.
    cbn [visit]. f_equal.
    all: generalize (@nil (chain * list bind_)); revert s; induction l as [|y l IH]; intros s t0; cbn [vlist]; auto.
    all: destruct (visit k ai t0 s p y) as [r|e]; cbn [bind]; auto.
  Qed.
  Lemma flow_block l g : flow q (SBlock l) g = obind (flist l (enter_block g)) (fun _ => Some (leave (existsb (assigns q) l) g)).
  Proof.
    reflexivity.
  Qed.
  Lemma exec_block l v : exec I q (SBlock l) v = elist l v.
  Proof. cbn [exec]. revert v. induction l as [|y l IH]; intros v; cbn [elist]; auto. Qed.
  Lemma wf_block l : wf q (SBlock l) <-> wlist l.
  Proof. cbn [wf]. induction l as [|y l IH]; cbn [wlist]; [tauto|]. rewrite <- IH. tauto. Qed.

  Lemma list_good l : Forall good l -> wlist l ->
    forall g g' p t s t' s', path_ok p -> tok t -> sok s -> stable true (T s) = true -> inv g p (T s) (rec t) ->
    flist l g = Some g' -> vlist p t s l = Ok (t', s') ->
    tok t' /\ sok s' /\ keeps s s' /\ (existsb (assigns q) l = true -> Tl s' <> []) /\
    post p (T s) (T s') (existsb (assigns q) l) (elist l) /\ inv g' p (T s') (rec t') /\
    (existsb (assigns q) l = false -> rec t = [] -> rec t' = [] /\ T s' = T s).
  Proof.
    induction 1 as [|y l Hy Hl IH]; intros Hw g g' p t s t' s' Hp Ht Hs HT Hi Hf E; cbn [vlist flist elist existsb wlist] in *.
    - injection E as <- <-. injection Hf as <-. split; [exact Ht|]. split; [exact Hs|]. split; [intros K; exact K|]. split; [discriminate|].
      split; [now apply post_refl|]. split; [exact Hi|]. auto.
    - apply bind_ok in E as ([t1 s1] & E1 & E). cbn [fst snd] in E. destruct Hw as [Hw1 Hw2].
      destruct (flow q y g) as [g1|] eqn:F1; [|discriminate]. cbn [obind] in Hf.
      destruct (Hy Hw1 g g1 p t s t1 s1 Hp Ht Hs HT Hi F1 E1) as (A1 & A2 & A3 & A4 & A5 & A6 & A7).
      destruct (IH Hw2 g1 g' p t1 s1 t' s' Hp A1 A2 (po_stable _ _ _ _ _ _ A5) A6 Hf E) as (B1 & B2 & B3 & B4 & B5 & B6 & B7).
      split; [exact B1|]. split; [exact B2|]. split; [eapply keeps_trans; eauto|]. split.
      { intros H. apply orb_true_iff in H as [H|H]; auto. }
      split; [exact (post_trans I _ _ _ _ _ _ _ _ Hp A5 B5)|]. split; [exact B6|].
      intros H R. apply orb_false_iff in H as [H1 H2]. destruct (A7 H1 R) as [R1 T1]. destruct (B7 H2 R1) as [R2 T2]. split; congruence.
  Qed.

  Lemma enter_block_inv g p T0 r : inv g p T0 r -> inv (enter_block g) p T0 [].
  Proof.
    destruct g; simpl; auto.
    - intros (A & B). tauto.
    - intros (A & B). tauto.
    - intros (V & A & B & _). auto.
    - intros (V & A & B). auto.
    - intros (A & B). auto.
  Qed.

  (** one arm with an optional statement *)
  Definition exec_o (o : option stmt) (v : dom I) : dom I := match o with Some y => exec I q y v | None => v end.
  Definition asg_o (o : option stmt) : bool := match o with Some y => assigns q y | None => false end.
  Lemma arm_good other g g1 p t s a o r : path_ok p -> tok t -> sok s -> stable true (T s) = true ->
    arm_pre other g p (T s) (rec t) -> enter_arm other g = Some g1 ->
    (forall y, o = Some y -> good y /\ wf q y /\ flow q y g1 <> None) ->
    copyPrevious k ai [] s t p = Ok a -> match o with None => Ok a | Some y => visit k ai (fst a) (snd a) p y end = Ok r ->
    sok (snd r) /\ keeps s (snd r) /\ (asg_o o = true -> Tl (snd r) <> []) /\
    post p (T s) (T (snd r)) (asg_o o) (exec_o o) /\ (asg_o o = false -> rec t = [] -> T (snd r) = T s).
  Proof.
    intros Hp Ht Hs HT Ha Hg Ho Ec Ev.
    destruct (arm_copy other g g1 p t s a Hp Ht Hs HT Ha Hg Ec) as (A1 & A2 & A3 & A4 & A5 & A6 & A7).
    destruct o as [y|].
    - destruct (Ho y eq_refl) as (Gy & Wy & Fy). destruct (flow q y g1) as [g2|] eqn:F; [|congruence]. destruct r as [t2 s2].
      destruct (Gy Wy g1 g2 p (fst a) (snd a) t2 s2 Hp A1 A2 A4 A5 F Ev) as (B1 & B2 & B3 & B4 & B5 & B6 & B7).
      cbn [snd asg_o exec_o]. split; [exact B2|]. split; [eapply keeps_trans; eauto|]. split; [exact B4|]. split; [exact (post_trans I _ _ _ _ _ _ _ _ Hp A6 B5)|].
      intros H R. destruct (A7 R) as [R1 T1]. destruct (B7 H R1) as [_ T2]. congruence.
    - injection Ev as <-. cbn [asg_o exec_o]. split; [exact A2|]. split; [exact A3|]. split; [discriminate|]. split; [exact A6|]. intros _ R. now apply A7.
  Qed.

  (** case items *)
  Definition vcase (comp : df) := fix vcase (t : table) (s : store) (p : path) (l : list (option (list df) * option stmt)) : res store :=
    match l with
    | [] => Ok s
    | (g, y) :: l' =>
        do c <- item_cond comp g;
        do a <- copyPrevious k ai [] s t (p ++ [(c, true)]);
        do r <- match y with None => Ok a | Some y => visit k ai (fst a) (snd a) (p ++ [(c, true)]) y end;
        match l' with
        | [] => Ok (snd r)
        | _ => do a <- copyPrevious k ai [] (snd r) t (p ++ [(c, false)]); vcase (fst a) (snd a) (p ++ [(c, false)]) l'
        end
    end.
  Fixpoint fcase (l : list (option (list df) * option stmt)) (p : place) : option bool :=
    match l with
    | [] => Some false
    | (_, y) :: r =>
        obind (enter_arm false p) (fun p1 =>
        obind (match y with None => Some false | Some y => obind (flow q y p1) (fun _ => Some (assigns q y)) end) (fun b1 =>
        match r with
        | [] => Some b1
        | _ => obind (enter_arm b1 p) (fun p2 => obind (fcase r p2) (fun b2 => Some (b1 || b2)))
        end))
    end.
  Fixpoint ecase (comp : df) (v : dom I) (l : list (option (list df) * option stmt)) : dom I :=
    match l with
    | [] => v
    | (g, y) :: r => if label_matches I comp g then exec_o y v else ecase comp v r
    end.
  Fixpoint wcase (l : list (option (list df) * option stmt)) : Prop :=
    match l with
    | [] => True
    | (g, y) :: r => match g with Some ws => Forall cond_ok ws | None => True end
                     /\ match y with Some y => wf q y | None => True end /\ wcase r
    end.
  Definition acase (l : list (option (list df) * option stmt)) : bool := existsb (fun gy => asg_o (snd gy)) l.
  Lemma visit_case t s p comp l : visit k ai t s p (SCase comp l) = do s' <- vcase comp t s p l; Ok (t, s').
  Proof. reflexivity. Qed.
  Lemma flow_case comp l g : flow q (SCase comp l) g = obind (fcase l g) (fun b => Some (leave b g)).
  Proof. reflexivity. Qed.
  Lemma exec_case comp l v : exec I q (SCase comp l) v = ecase comp v l.
  Proof. cbn [exec]. induction l as [|[g y] l IH]; cbn [ecase]; auto. rewrite <- IH. reflexivity. Qed.
  Lemma wf_case comp l : wf q (SCase comp l) <-> cond_ok comp /\ wcase l.
  Proof. reflexivity. Qed.
  Lemma fcase_acase l : forall g b, fcase l g = Some b -> b = acase l.
  Proof.
    induction l as [|[c y] l IH]; intros g b H; cbn [fcase] in H; [injection H as <-; reflexivity|].
    destruct (enter_arm false g) as [g1|]; [|discriminate]. cbn [obind] in H. cbn [acase existsb snd].
    assert (exists b1, match y with None => Some false | Some y => obind (flow q y g1) (fun _ => Some (assigns q y)) end = Some b1 /\ b1 = asg_o y) as (b1 & E & ->).
    { destruct y as [y|]; [|eauto]. destruct (flow q y g1); cbn [obind] in H |- *; [eauto|discriminate]. }
    rewrite E in H. cbn [obind] in H. destruct l as [|gy l]; [injection H as <-; cbn [existsb]; now rewrite orb_false_r|].
    destruct (enter_arm (asg_o y) g) as [g2|]; [|discriminate]. cbn [obind] in H. destruct (fcase (gy :: l) g2) as [b2|] eqn:F; [|discriminate].
    cbn [obind] in H. injection H as <-. rewrite (IH _ _ F). reflexivity.
  Qed.

  Lemma case_good comp l : cond_ok comp -> Forall (fun gy => forall y, snd gy = Some y -> good y) l -> wcase l ->
    forall g p t s s', path_ok p -> tok t -> sok s -> stable true (T s) = true -> inv g p (T s) (rec t) ->
    fcase l g <> None -> vcase comp t s p l = Ok s' ->
    sok s' /\ keeps s s' /\ (acase l = true -> Tl s' <> []) /\ post p (T s) (T s') (acase l) (fun v => ecase comp v l) /\
    (acase l = false -> rec t = [] -> T s' = T s).
  Proof.
    intros Hcomp. induction 1 as [|[lab y] l Hy Hl IH]; intros Hw g p t s s' Hp Ht Hs HT Hi Hf E; cbn [vcase] in E.
    - injection E as <-. split; [exact Hs|]. split; [intros K; exact K|]. split; [discriminate|]. split; [now apply post_refl|]. auto.
    - apply bind_ok in E as (c & Ec & E). apply bind_ok in E as (a & Ea & E). apply bind_ok in E as (r & Er & E).
      destruct Hw as (W1 & W2 & W3). destruct (item_cond_ok I HI comp lab c Hcomp W1 Ec) as [Hc Ht1].
      assert (P1 : path_ok (p ++ [(c, true)])) by (apply Forall_app; split; auto).
      assert (P2 : path_ok (p ++ [(c, false)])) by (apply Forall_app; split; auto).
      cbn [fcase] in Hf. destruct (enter_arm false g) as [g1|] eqn:G1; [|now destruct Hf]. cbn [obind] in Hf.
      assert (Ho : forall z, y = Some z -> good z /\ wf q z /\ flow q z g1 <> None).
      { intros z ->. split; [now apply Hy|]. split; [exact W2|]. intros K. rewrite K in Hf. now apply Hf. }
      destruct (arm_good false g g1 (p ++ [(c, true)]) t s a y r P1 Ht Hs HT (first_arm _ _ c true _ _ Hi) G1 Ho Ea Er) as (A1 & A2 & A3 & A4 & A5).
      assert (EB : match y with None => Some false | Some y => obind (flow q y g1) (fun _ => Some (assigns q y)) end = Some (asg_o y)).
      { destruct y as [z|]; auto. destruct (Ho z eq_refl) as (_ & _ & Q). destruct (flow q z g1); [reflexivity|congruence]. }
      rewrite EB in Hf. cbn [obind] in Hf.
      pose proof (post_up I _ _ _ _ _ _ _ A4) as U1.
      destruct l as [|gy l].
      + injection E as <-. cbn [acase existsb snd]. rewrite orb_false_r. split; [exact A1|]. split; [exact A2|]. split; [exact A3|]. split; [|exact A5].
        eapply post_ext; [|exact U1]. intros v. cbn [ecase]. rewrite Ht1. destruct (label_matches I comp lab); reflexivity.
      + apply bind_ok in E as (a2 & Ea2 & E). destruct (enter_arm (asg_o y) g) as [g2|] eqn:G2; [|now destruct Hf]. cbn [obind] in Hf.
        pose proof (else_arm g p c (T s) (T (snd r)) (asg_o y) _ (rec t) Hp Hc Hi A4 A5) as Pre.
        destruct (arm_copy (asg_o y) g g2 (p ++ [(c, false)]) t (snd r) a2 P2 Ht A1 (po_stable _ _ _ _ _ _ A4) Pre G2 Ea2) as (C1 & C2 & C3 & C4 & C5 & C6 & C7).
        assert (F2 : fcase (gy :: l) g2 <> None) by (intros K; rewrite K in Hf; now apply Hf).
        destruct (IH W3 g2 (p ++ [(c, false)]) (fst a2) (snd a2) s' P2 C1 C2 C4 C5 F2 E) as (D1 & D2 & D3 & D4 & D5).
        pose proof (post_up I _ _ _ _ _ _ _ (post_trans I _ _ _ _ _ _ _ _ P2 C6 D4)) as U2.
        pose proof (post_trans I _ _ _ _ _ _ _ _ Hp U1 U2) as U.
        change (acase ((lab, y) :: gy :: l)) with (asg_o y || acase (gy :: l)).
        assert (KK : keeps (snd r) s') by (eapply keeps_trans; eauto).
        split; [exact D1|]. split; [eapply keeps_trans; eauto|]. split.
        { intros H. apply orb_true_iff in H as [H|H]; auto. }
        split.
        { cbn [orb] in U. eapply post_ext; [|exact U]. intros v. cbn beta. rewrite Ht1. change (ecase comp v ((lab, y) :: gy :: l)) with (if label_matches I comp lab then exec_o y v else ecase comp v (gy :: l)).
          destruct (label_matches I comp lab); reflexivity. }
        intros H R. apply orb_false_iff in H as [H1 H2]. pose proof (A5 H1 R) as T1. destruct (C7 R) as [R2 T2]. rewrite (D5 H2 R2). congruence.
  Qed.

  (** the destinations of an assignment *)
  Lemma setDataflow_other p n ds raw : Forall (dest_ok q) ds -> existsb (is_target q) ds = false -> forall t s t' s',
    tok t -> sok s -> setDataflow k ai t s ds raw p n = Ok (t', s') ->
    tok t' /\ sok s' /\ rec t' = rec t /\ Tl s' = Tl s.
  Proof.
    induction 1 as [|d ds Hd Hds IH]; cbn [existsb setDataflow]; intros Hx t s t' s' Ht Hs E.
    - injection E as <- <-. auto.
    - apply orb_false_iff in Hx as [X1 X2].
      apply bind_ok in E as (b & E1 & E). apply bind_ok in E as (s1 & E2 & E). apply bind_ok in E as (t1 & E3 & E).
      destruct Hd as (D1 & D2 & D3 & D4 & D5).
      pose proof (makeBind_shape _ _ _ _ _ _ _ _ _ E1) as Sh.
      assert (plain_bind b) as Hb by (unfold slice in Sh; injection Sh as K1 K2 K3; unfold plain_bind; rewrite K1, K2, K3; auto).
      destruct (addBind_ok q Hq s _ b s1 D1 Hb Hs E2) as [Hs1 EL].
      pose proof (target_cases q Hq d b Sh) as TC. rewrite X1 in TC.
      unfold setNonblockingAssign in E3. apply bind_ok in E3 as (v & E4 & E3).
      assert (Hrb : rb q (d_name d) (Bind v (d_name d) (d_msb d) (d_lsb d) (d_ptr d) ai "")) by (split; [exact (conj D2 (conj D3 D4))|exact D5]).
      destruct (addNon_ok q Hq t _ _ t1 D1 Hrb Ht E3) as [Ht1 Er].
      pose proof (target_cases q Hq d (Bind v (d_name d) (d_msb d) (d_lsb d) (d_ptr d) ai "") eq_refl) as TC2. rewrite X1 in TC2.
      assert (Tl s1 = Tl s) as EL' by (destruct (chain_dec (d_name d) (q_name q)); [rewrite TC in EL|]; exact EL).
      assert (rec t1 = rec t) as Er' by (destruct (chain_dec (d_name d) (q_name q)); [rewrite TC2 in Er|]; exact Er).
      destruct (IH X2 t1 s1 t' s' Ht1 Hs1 E) as (A & B & C & D). split; [exact A|]. split; [exact B|]. split; congruence.
  Qed.

  Theorem all_good : forall x, good x.
  Proof.
    induction x as [ds v|l IH|c th el IHt IHe|comp items IH] using stmt_ind'; intros Hw g g' p t s t' s' Hp Ht Hs HT Hi Hf E.
    - (* assignment *)
      cbn [visit flow assigns exec wf] in *. destruct (existsb (is_target q) ds) eqn:X.
      + destruct ds as [|d [|d2 ds]]; try (destruct g; discriminate).
        assert (NF : g <> Far /\ g' = Recorded) by (destruct g; try discriminate; injection Hf as <-; split; congruence). destruct NF as [NF ->].
        cbn [existsb] in X. rewrite orb_false_r in X.
        assert (HD : dest_target d = q) by (unfold is_target in X; destruct (target_dec _ q); congruence).
        pose proof (Forall_inv Hw) as (D1 & D2 & D3 & D4 & D5).
        cbn [setDataflow length] in E. apply bind_ok in E as (b & E1 & E). apply bind_ok in E as (s1 & E2 & E). apply bind_ok in E as (t1 & E3 & E). injection E as <- <-.
        assert (NR : near p (T s)).
        { destruct g; simpl in Hi.
          - apply present_near. tauto.
          - apply present_near. tauto.
          - destruct Hi as (V & _ & ? & _). now apply present_near.
          - destruct Hi as (V & _ & ?). now apply present_near.
          - tauto.
          - congruence. }
        destruct (makeBind_q q I HI k ai s d v p b "nonblocking" Hs Hp HD D2 D3 D4 HT NR E1) as (Hb & Qb & St & M & EM & Ev).
        destruct (addBind_ok q Hq s _ b s1 D1 Hb Hs E2) as [Hs1 EL].
        assert (EN : d_name d = q_name q) by now rewrite <- HD.
        destruct (chain_dec (d_name d) (q_name q)) as [_|N]; [|contradiction]. rewrite Qb in EL.
        unfold setNonblockingAssign in E3. change (1 <? 1) with false in E3. cbn [bind] in E3.
        assert (Hrb : rb q (d_name d) (Bind v (d_name d) (d_msb d) (d_lsb d) (d_ptr d) ai "")) by (split; [exact (conj D2 (conj D3 D4))|exact D5]).
        destruct (addNon_ok q Hq t _ _ t1 D1 Hrb Ht E3) as [Ht1 Er].
        destruct (chain_dec (d_name d) (q_name q)) as [_|N]; [|contradiction].
        pose proof (target_cases q Hq d (Bind v (d_name d) (d_msb d) (d_lsb d) (d_ptr d) ai "") eq_refl) as TC. rewrite X in TC.
        destruct (chain_dec (d_name d) (q_name q)) as [_|N]; [|contradiction]. rewrite TC in Er. cbn [b_tree] in Er.
        assert (ET : T s1 = b_tree b) by (unfold AsgProofs2.T; rewrite EL; reflexivity).
        assert (EV : eval I (T s1) = if holds I p then eval I v else eval I (T s)) by (rewrite ET, EM, (eval_graft I (proj1 (proj2 HI))), Ev by auto; reflexivity).
        split; [exact Ht1|]. split; [exact Hs1|]. split; [intros _; rewrite EL; discriminate|]. split; [intros _; rewrite EL; discriminate|].
        split; [|split].
        * constructor.
          -- now rewrite ET.
          -- intros H. rewrite EV, H. cbn [fold_left length]. unfold exec_dest. rewrite X. reflexivity.
          -- intros H. now rewrite EV, H.
          -- discriminate.
          -- left. exists M. congruence.
        * exists v. split; [exact Er|]. split; [rewrite ET, EM; now apply present_graft|]. intros H. now rewrite EV, H.
        * discriminate.
      + injection Hf as <-. destruct (setDataflow_other p (length ds) ds v Hw X t s t' s' Ht Hs E) as (A & B & C & D).
        pose proof (Tl_T q _ _ D) as ET. rewrite C, ET. split; [exact A|]. split; [exact B|]. split; [intros K; now rewrite D|]. split; [discriminate|].
        split; [|split; auto]. apply post_ext with (f := fun v => v); [|now apply post_refl].
        intros v0. clear -X. generalize (1 <? length ds). intros m. revert v0 X. induction ds as [|d ds IH]; cbn [existsb fold_left]; intros v0 X; auto.
        apply orb_false_iff in X as [X1 X2]. rewrite <- IH by auto. unfold exec_dest. now rewrite X1.
    - (* block *)
      rewrite visit_block in E. apply bind_ok in E as ([t1 s1] & E & E'). injection E' as <- <-.
      rewrite flow_block in Hf. destruct (flist l (enter_block g)) as [g1|] eqn:F; [|discriminate]. cbn [obind] in Hf. injection Hf as <-.
      apply wf_block in Hw.
      assert (Hi0 : inv (enter_block g) p (T s) (rec [])) by (rewrite (proj2 (tok_nil q)); eapply enter_block_inv; eauto).
      destruct (list_good l IH Hw _ _ p [] s t1 s1 Hp (proj1 (tok_nil q)) Hs HT Hi0 F E) as (A & B & C & D & F1 & G & H).
      cbn [snd]. change (assigns q (SBlock l)) with (existsb (assigns q) l).
      split; [exact Ht|]. split; [exact B|]. split; [exact C|]. split; [exact D|]. split; [|split].
      + eapply post_ext; [|exact F1]. intros v. now rewrite exec_block.
      + eapply after_compound; [exact Hp|exact Hi|exact F1|]. intros H1 _. now apply H.
      + intros H1 R. split; [exact R|]. apply H; auto.
    - (* if *)
      cbn [visit] in E. apply bind_ok in E as (s1 & E1 & E). apply bind_ok in E as (s2 & E2 & E). injection E as <- <-.
      cbn [wf] in Hw. destruct Hw as (Hc & W1 & W2).
      assert (P1 : path_ok (p ++ [(c, true)])) by (apply Forall_app; split; auto).
      assert (P2 : path_ok (p ++ [(c, false)])) by (apply Forall_app; split; auto).
      cbn [flow] in Hf.
      set (ft := match th with None => Some false | Some y => obind (enter_arm false g) (fun p1 => obind (flow q y p1) (fun _ => Some (assigns q y))) end) in Hf.
      assert (FT : ft = Some (asg_o th)).
      { unfold ft in *. destruct th as [y|]; [|reflexivity]. destruct (enter_arm false g); [|discriminate]. cbn [obind] in *. destruct (flow q y p0); [reflexivity|discriminate]. }
      assert (A : sok s1 /\ keeps s s1 /\ (asg_o th = true -> Tl s1 <> []) /\ post (p ++ [(c, true)]) (T s) (T s1) (asg_o th) (exec_o th) /\ (asg_o th = false -> rec t = [] -> T s1 = T s)).
      { destruct th as [y|].
        - apply bind_ok in E1 as (a & Ea & E1). apply bind_ok in E1 as (r & Er & E1). injection E1 as <-.
          unfold ft in FT. destruct (enter_arm false g) as [g1|] eqn:G1; [|discriminate]. cbn [obind] in FT.
          apply (arm_good false g g1 _ t s a (Some y) r P1 Ht Hs HT (first_arm _ _ c true _ _ Hi) G1); auto.
          intros z Z. injection Z as <-. split; [now apply IHt|]. split; [exact W1|]. intros K. rewrite K in FT. discriminate.
        - injection E1 as <-. split; [exact Hs|]. split; [intros K; exact K|]. split; [discriminate|]. split; [now apply post_refl|]. auto. }
      destruct A as (A1 & A2 & A3 & A4 & A5). rewrite FT in Hf. cbn [obind] in Hf.
      set (fe := match el with None => Some false | Some y => obind (enter_arm (asg_o th) g) (fun p1 => obind (flow q y p1) (fun _ => Some (assigns q y))) end) in Hf.
      assert (FE : fe = Some (asg_o el)).
      { unfold fe in *. destruct el as [y|]; [|reflexivity]. destruct (enter_arm (asg_o th) g); [|discriminate]. cbn [obind] in *. destruct (flow q y p0); [reflexivity|discriminate]. }
      pose proof (else_arm g p c (T s) (T s1) (asg_o th) _ (rec t) Hp Hc Hi A4 A5) as Pre.
      pose proof (po_stable _ _ _ _ _ _ A4) as HT1.
      assert (B : sok s2 /\ keeps s1 s2 /\ (asg_o el = true -> Tl s2 <> []) /\ post (p ++ [(c, false)]) (T s1) (T s2) (asg_o el) (exec_o el) /\ (asg_o el = false -> rec t = [] -> T s2 = T s1)).
      { destruct el as [y|].
        - destruct th as [y0|]; [|discriminate]. apply bind_ok in E2 as (a & Ea & E2). apply bind_ok in E2 as (r & Er & E2). injection E2 as <-.
          unfold fe in FE. destruct (enter_arm (asg_o (Some y0)) g) as [g1|] eqn:G1; [|discriminate]. cbn [obind] in FE.
          apply (arm_good (asg_o (Some y0)) g g1 _ t s1 a (Some y) r P2 Ht A1 HT1 Pre G1); auto.
          intros z Z. injection Z as <-. split; [now apply IHe|]. split; [exact W2|]. intros K. rewrite K in FE. discriminate.
        - injection E2 as <-. split; [exact A1|]. split; [intros K; exact K|]. split; [discriminate|]. split; [now apply post_refl|]. auto. }
      destruct B as (B1 & B2 & B3 & B4 & B5). rewrite FE in Hf. cbn [obind] in Hf. injection Hf as <-.
      pose proof (post_trans I _ _ _ _ _ _ _ _ Hp (post_up I _ _ _ _ _ _ _ A4) (post_up I _ _ _ _ _ _ _ B4)) as U.
      assert (U' : post p (T s) (T s2) (asg_o th || asg_o el) (exec I q (SIf c th el))).
      { eapply post_ext; [|exact U]. intros v. cbn beta. cbn [exec]. destruct (i_truth I (eval I c)); reflexivity. }
      change (assigns q (SIf c th el)) with (asg_o th || asg_o el).
      split; [exact Ht|]. split; [exact B1|]. split; [eapply keeps_trans; eauto|]. split.
      { intros H. apply orb_true_iff in H as [H|H]; auto. }
      assert (SM : asg_o th || asg_o el = false -> rec t = [] -> T s2 = T s).
      { intros H R. apply orb_false_iff in H as [H1 H2]. rewrite (B5 H2 R). auto. }
      split; [exact U'|]. split; [eapply after_compound; eauto|]. intros H R. auto.
    - (* case *)
      rewrite visit_case in E. apply bind_ok in E as (s1 & E & E'). injection E' as <- <-.
      rewrite flow_case in Hf. destruct (fcase items g) as [b|] eqn:F; [|discriminate]. cbn [obind] in Hf. injection Hf as <-.
      pose proof (fcase_acase _ _ _ F) as ->. apply wf_case in Hw as [Hc Hw].
      destruct (case_good comp items Hc IH Hw g p t s s1 Hp Ht Hs HT Hi ltac:(rewrite F; discriminate) E) as (A & B & C & D & G).
      change (assigns q (SCase comp items)) with (acase items).
      assert (U : post p (T s) (T s1) (acase items) (exec I q (SCase comp items))).
      { eapply post_ext; [|exact D]. intros v. now rewrite exec_case. }
      split; [exact Ht|]. split; [exact A|]. split; [exact B|]. split; [exact C|]. split; [exact U|]. split; [eapply after_compound; eauto|]. auto.
  Qed.
End Main.
