(** ConProofs.v - one assignment: the tree it records, and the store after it. *)
From Verif Require Import Base ScopeModel ScopeSpec ScopeProofs DfModel DfSpec DfProofs ReorderModel ReorderSpec ReorderProofs BindModel BindSpec BindProofs AsgModel AsgProofs ExprModel MkModel MkSpec MkProps LitModel ConModel ConSpec.

Lemma df_eq_same a : forall b, df_eq a b = Ok true -> same Req a b.
Proof.
  assert (HL : forall l, Forall (fun a => forall b, df_eq a b = Ok true -> same Req a b) l -> forall l', list_eq l l' = Ok true -> Forall2 (same Req) l l').
  { induction 1 as [|x l Hx H IH]; intros [|y l'] E; simpl in E; try discriminate; constructor.
    - apply bind_ok in E as ([|] & E1 & E); [auto|discriminate].
    - apply bind_ok in E as ([|] & E1 & E); [auto|discriminate]. }
  induction a as [ |n|s|s|s|l o IH|v m l IHv IHm IHl|v p IHv IHp|l IH|c t f IHc IHt IHf|v w f s|w|w|t IH|s l IH]
    using df_ind'; intros b E; destruct b as [ |n'|s'|s'|s'|l' o'|v' m' l'|v' p'|l'|c' t' f'|v' w' f' s'|w'|w'|t'|s' l']; try discriminate E; cbn [df_eq] in E; fold list_eq in E.
  - constructor.
  - injection E as E. now constructor.
  - injection E as E. apply String.eqb_eq in E as ->. constructor.
  - injection E as E. apply String.eqb_eq in E as ->. constructor.
  - injection E as E. apply String.eqb_eq in E as ->. constructor.
  - destruct (op_beq o o') eqn:Eo; [|discriminate]. apply internal_op_dec_bl in Eo as ->. constructor. now apply HL.
  - apply bind_ok in E as ([|] & E1 & E); [|discriminate]. apply bind_ok in E as ([|] & E2 & E); [|discriminate]. constructor; auto.
  - apply bind_ok in E as ([|] & E1 & E); [|discriminate]. constructor; auto.
  - constructor. now apply HL.
  - apply bind_ok in E as ([|] & E1 & E); [|discriminate]. apply bind_ok in E as ([|] & E2 & E); [|discriminate]. constructor; auto.
  - destruct (df_eq_ok (DEval v w f s) eq_refl (DEval v' w' f' s')) as (r & E1 & E2). cbn [df_eq] in E1. rewrite E in E1. injection E1 as <-. now apply E2.
  - injection E as E. apply Z.eqb_eq in E as ->. constructor.
  - injection E as E. apply Z.eqb_eq in E as ->. constructor.
  - destruct (String.eqb s s') eqn:Es; [|discriminate]. apply String.eqb_eq in Es as ->. constructor. now apply HL.
Qed.

Section One.
  Variable I : interp.
  Hypothesis HN : none_strict I.
  Hypothesis HI : by_name I.
  Definition tgt (n : chain) (b : bind_) : target I := (n, eval I (b_msb b), eval I (b_lsb b), eval I (b_ptr b)).

  Lemma df_eq_eval a b : df_eq a b = Ok true -> eval I a = eval I b.
  Proof. intros H. apply (same_eval I HI). now apply df_eq_same. Qed.
  Lemma same_slice_eval c b n : BindModel.same_slice c b = Ok true -> tgt n c = tgt n b.
  Proof.
    unfold BindModel.same_slice, tgt. intros H. apply bind_ok in H as ([|] & E1 & H); [|discriminate]. apply bind_ok in H as ([|] & E2 & H); [|discriminate].
    now rewrite (df_eq_eval _ _ E1), (df_eq_eval _ _ E2), (df_eq_eval _ _ H).
  Qed.
  Lemma put_effect n b : forall l l', put_bind l b = Ok l' ->
    (exists b', In b' l' /\ tgt n b' = tgt n b /\ b_tree b' = b_tree b) /\
    (forall c, In c l -> tgt n c <> tgt n b -> In c l') /\
    (forall c, In c l' -> In c l \/ (tgt n c = tgt n b /\ b_tree c = b_tree b)).
  Proof.
    induction l as [|c l IH]; intros l' H; cbn [put_bind] in H.
    - injection H as <-. split; [exists b; cbn; auto|]. split; [intros ? []|]. intros c [<-|[]]. right. auto.
    - apply bind_ok in H as ([|] & E & H).
      + injection H as <-. apply (same_slice_eval _ _ n) in E. split; [|split].
        * exists (with_tree c (b_tree b)). split; [left; reflexivity|]. split; [exact E|reflexivity].
        * intros d [<-|Hd] N; [contradiction|right; exact Hd].
        * intros d [<-|Hd]; [right; split; [exact E|reflexivity]|left; right; exact Hd].
      + apply bind_ok in H as (l1 & E1 & H). injection H as <-. destruct (IH _ E1) as ((b' & B1 & B2) & K1 & K2). split; [|split].
        * exists b'. split; [right; exact B1|exact B2].
        * intros d [<-|Hd] N; [left; reflexivity|right; auto].
        * intros d [<-|Hd]; [left; left; reflexivity|]. destruct (K2 _ Hd); auto. left. right. exact H.
  Qed.

  Definition binds_plain (s : store) : Prop := keys_plain (s_binds s).
  Lemma getBindlist_dset (d : ndict (list bind_)) n l m : keys_plain d -> no_any n -> no_any m ->
    getBindlist (dset d n l) m = if chain_dec n m then l else getBindlist d m.
  Proof. intros H1 H2 H3. unfold getBindlist. rewrite (dget_dset d n l m H1 H2 H3). now destruct (chain_dec n m). Qed.
  Lemma addBind_shape s n b s' : addBind s n b = Ok s' -> exists l', put_bind (getBindlist (s_binds s) n) b = Ok l' /\ s' = Store (s_terms s) (dset (s_binds s) n l').
  Proof.
    unfold addBind, getBindlist. destruct (dget (s_binds s) n) as [l|]; intros H.
    - apply bind_ok in H as (l' & E & H). injection H as <-. eauto.
    - injection H as <-. exists [b]. split; reflexivity.
  Qed.
  Lemma addBind_effect s n b s' : binds_plain s -> no_any n -> addBind s n b = Ok s' ->
    effect I s [(tgt n b, eval I (b_tree b))] s' /\ binds_plain s' /\ s_terms s' = s_terms s.
  Proof.
    intros Hp Hn H. apply addBind_shape in H as (l' & E & ->). destruct (put_effect n b _ _ E) as ((b' & B1 & B2 & B3) & K1 & K2).
    assert (G : forall m, no_any m -> getBindlist (dset (s_binds s) n l') m = if chain_dec n m then l' else getBindlist (s_binds s) m) by (intros m Hm; now apply getBindlist_dset).
    split; [|split; [now apply dset_plain|reflexivity]]. unfold tgt in *. split; [|split].
    - intros t v [K|[]]. injection K as <- <-. cbn [stored s_binds]. rewrite G by exact Hn. destruct (chain_dec n n); [|congruence]. exists b'.
      injection B2 as C1 C2 C3. rewrite B3. auto.
    - intros [[[m x] y] z] v Hm N. cbn [fst map] in *. cbn [stored s_binds]. rewrite G by exact Hm. destruct (chain_dec n m) as [->|Nm]; [|tauto]. split.
      + intros (c & C1 & C2 & C3 & C4 & C5). destruct (K2 _ C1) as [K|[K _]]; [exists c; auto|]. exfalso. apply N. left. rewrite <- K. now rewrite C2, C3, C4.
      + intros (c & C1 & C2 & C3 & C4 & C5). exists c. split; [|auto]. apply (K1 _ C1). intros K. apply N. left. rewrite <- K. now rewrite C2, C3, C4.
    - intros [[[m x] y] z] v Hm. cbn [fst] in *. cbn [stored s_binds]. rewrite G by exact Hm. destruct (chain_dec n m) as [->|Nm]; [|auto].
      intros (c & C1 & C2 & C3 & C4 & C5). destruct (K2 _ C1) as [K|[K KT]]; [right; exists c; auto|]. left. left. rewrite <- K, <- KT, C2, C3, C4, C5. reflexivity.
  Qed.

  Definition key (t : target I) : chain := fst (fst (fst t)).
  Lemma effect_nil s s' : s_binds s' = s_binds s -> effect I s [] s'.
  Proof.
    intros E. split; [intros ? ? []|]. split; [|].
    - intros [[[m x] y] z] v _ _. unfold stored. rewrite E. tauto.
    - intros [[[m x] y] z] v _ H. right. unfold stored in *. now rewrite E in H.
  Qed.
  Lemma effect_app s w1 s1 w2 s2 : effect I s w1 s1 -> effect I s1 w2 s2 -> Forall (fun w => no_any (key (fst w))) w1 ->
    (forall t, In t (map fst w1) -> ~ In t (map fst w2)) -> effect I s (w1 ++ w2) s2.
  Proof.
    intros (A1 & A2 & A3) (B1 & B2 & B3) F D. split; [|split].
    - intros t v H. apply in_app_iff in H as [H|H]; [|auto]. apply B2; [exact (proj1 (Forall_forall _ _) F _ H)| |auto]. apply D. exact (in_map fst _ _ H).
    - intros t v Hn H. rewrite map_app, in_app_iff in H. rewrite B2 by (auto; tauto). apply A2; [exact Hn|tauto].
    - intros t v Hn H. rewrite in_app_iff. destruct (B3 t v Hn H) as [K|K]; [tauto|]. destruct (A3 t v Hn K); tauto.
  Qed.
  Lemma effect_weak s w1 w2 s' : effect I s w1 s' -> (forall x, In x w1 <-> In x w2) -> effect I s w2 s'.
  Proof.
    intros (A1 & A2 & A3) E. assert (M : forall t, In t (map fst w1) <-> In t (map fst w2)). { intros t. rewrite !in_map_iff. split; intros (x & X1 & X2); exists x; split; auto; now apply E. }
    split; [|split].
    - intros t v H. apply A1. now apply E.
    - intros t v Hn H. apply A2; [exact Hn|]. now rewrite M.
    - intros t v Hn H. rewrite <- E. auto.
  Qed.

  (** ** the tree of an assignment under conditions that hold *)
  Lemma graft_none_eval : forall p, holds I p = true -> forall t, eval I (makeBranchTree p t) = eval I t.
  Proof.
    induction p as [|[c [|]] p IH]; intros H t; cbn [makeBranchTree holds forallb fst snd] in *; [reflexivity|..]; apply andb_true_iff in H as [H1 H2]; apply eqb_prop in H1; cbn [eval]; rewrite H1; now apply IH.
  Qed.
  Lemma append_flip : forall p, holds I p = true -> p <> [] -> forall t r t', appendBranchTree (makeBranchTree p t) (flip_last (map snd p)) r = Ok t' -> eval I t' = eval I t.
  Proof.
    induction p as [|[c b] p IH]; intros H N t r t' E; [congruence|]. cbn [holds forallb fst snd] in H. apply andb_true_iff in H as [H1 H2]. apply eqb_prop in H1.
    destruct p as [|q p].
    - destruct b; cbn [map snd flip_last makeBranchTree negb appendBranchTree bind] in E; injection E as <-; cbn [eval]; rewrite H1; reflexivity.
    - change (map snd ((c, b) :: q :: p)) with (b :: map snd (q :: p)) in E. assert (FL : flip_last (b :: map snd (q :: p)) = b :: flip_last (map snd (q :: p))) by reflexivity. rewrite FL in E. clear FL.
      cbn [makeBranchTree] in E. destruct b; cbn [appendBranchTree] in E; apply bind_ok in E as (x & E & K); injection K as <-; cbn [eval]; rewrite H1;
        (eapply IH; [exact H2|discriminate|exact E]).
  Qed.
  Lemma diff_eval : forall p, holds I p = true -> forall cur m0 rest rp m, diffBranchTree cur p m0 = Ok (rest, rp, m) ->
    exists m1, m = m0 ++ m1 /\ holds I rp = true /\ forall t t', appendBranchTree cur m1 t = Ok t' -> eval I t' = eval I t.
  Proof.
    induction p as [|[c b] p IH]; intros H cur m0 rest rp m E.
    - assert (E0 : Ok (cur, @nil (df * bool), m0) = Ok (rest, rp, m)) by (rewrite <- E; now destruct cur). injection E0 as <- <- <-. clear E. exists []. rewrite app_nil_r. split; [reflexivity|split; [reflexivity|]]. intros t t2 K; destruct cur; injection K as <-; reflexivity.
    - assert (STOP : Ok (cur, (c, b) :: p, m0) = Ok (rest, rp, m) -> exists m1, m = m0 ++ m1 /\ holds I rp = true /\ forall t t', appendBranchTree cur m1 t = Ok t' -> eval I t' = eval I t).
      { intros K. injection K as <- <- <-. exists []. rewrite app_nil_r. split; [reflexivity|split; [exact H|]]. intros t t2 K; destruct cur; injection K as <-; reflexivity. }
      cbn [diffBranchTree] in E. destruct cur as [| | | | | | | | |c' x y| | | | | ]; try (exact (STOP E)).
      apply bind_ok in E as ([|] & E1 & E); [|exact (STOP E)]. cbn [holds forallb fst snd] in H. apply andb_true_iff in H as [H1 H2]. apply eqb_prop in H1. rewrite (df_eq_eval _ _ E1) in H1.
      destruct (IH H2 _ _ _ _ _ E) as (m1 & -> & K1 & K2). exists (b :: m1). rewrite <- app_assoc. split; [reflexivity|split; [exact K1|]].
      intros t t' K. cbn [appendBranchTree] in K. destruct b; apply bind_ok in K as (z & K & K'); injection K' as <-; cbn [eval]; rewrite H1; apply K2; exact K.
  Qed.
  Lemma insert_eval p cur raw t : holds I p = true -> insert cur p raw = Ok t -> eval I t = eval I raw.
  Proof.
    intros H E. unfold insert in E. apply bind_ok in E as ([[rest rp] m] & E1 & E). apply bind_ok in E as (a & E2 & E).
    destruct (diff_eval p H _ _ _ _ _ E1) as (m1 & -> & H1 & K). cbn [app] in E. rewrite (K _ _ E). clear E K E1 m1.
    destruct rp as [|q rp]; [injection E2 as <-; reflexivity|]. destruct (is_none rest); [injection E2 as <-; exact (graft_none_eval _ H1 _)|]. eapply append_flip; [exact H1|discriminate|exact E2].
  Qed.

  Variable k : nat.
  Definition dtgt (d : dest) : target I := (d_name d, eval I (d_msb d), eval I (d_lsb d), eval I (d_ptr d)).
  Definition dval (raw : df) (num_dst : nat) (d : dest) : dom I := if (1 <? num_dst)%nat then i_part I (eval I raw) (eval I (d_pmsb d)) (eval I (d_plsb d)) else eval I raw.
  Lemma makeBind_ok s d raw p nd ty b : holds I p = true -> makeBind k None s d raw p nd ty = Ok b -> tgt (d_name d) b = dtgt d /\ eval I (b_tree b) = dval raw nd d.
  Proof.
    intros H E. unfold makeBind in E. apply bind_ok in E as (cur & _ & E). apply bind_ok in E as (t & E1 & E). apply bind_ok in E as (t1 & E2 & E). apply bind_ok in E as (t2 & E3 & E). injection E as <-.
    split; [reflexivity|]. cbn [b_tree]. apply (insert_eval _ _ _ _ H) in E1. apply (reorder_eval I HN) in E2. unfold dval. destruct (1 <? nd)%nat.
    - apply (reorder_eval I HN) in E3. rewrite E3. cbn [eval]. congruence.
    - injection E3 as <-. congruence.
  Qed.
  Lemma setDataflow_effect raw p nd ty : holds I p = true -> forall ds s s', binds_plain s -> Forall (fun d => no_any (d_name d)) ds -> NoDup (map dtgt ds) ->
    setDataflow k s ds raw p nd ty = Ok s' ->
    effect I s (map (fun d => (dtgt d, dval raw nd d)) ds) s' /\ binds_plain s' /\ s_terms s' = s_terms s.
  Proof.
    intros H. induction ds as [|d ds IH]; intros s s' Hp Hn ND E; cbn [setDataflow] in E.
    - injection E as <-. split; [now apply effect_nil|auto].
    - apply bind_ok in E as (b & E1 & E). apply bind_ok in E as (s1 & E2 & E). inversion Hn as [|? ? N1 N2]; subst. inversion ND as [|? ? D1 D2]; subst.
      apply (makeBind_ok _ _ _ _ _ _ _ H) in E1 as [T1 T2]. destruct (addBind_effect _ _ _ _ Hp N1 E2) as (A1 & A2 & A3).
      destruct (IH _ _ A2 N2 D2 E) as (B1 & B2 & B3). split; [|split; [exact B2|congruence]].
      rewrite T1, T2 in A1. cbn [map]. change ((dtgt d, dval raw nd d) :: map (fun d => (dtgt d, dval raw nd d)) ds) with ([(dtgt d, dval raw nd d)] ++ map (fun d => (dtgt d, dval raw nd d)) ds).
      apply (effect_app _ _ s1); auto.
      intros t [<-|[]] K. apply D1. rewrite map_map in K. exact K.
  Qed.
End One.
