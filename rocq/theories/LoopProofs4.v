(** LoopProofs4.v - the constants of the signals in loop headers. *)
From Verif Require Import Base ScopeModel ScopeSpec ScopeProofs DfModel DfSpec DfProofs ReorderModel ReorderSpec ReorderProofs BindModel BindSpec BindProofs AsgModel AsgSpec AsgProofs AsgProofs2 BlkModel BlkSpec BlkProofs BlkProofs2 BlkProofs3 BlkProofs4 BlkProofs5 LitModel OptModel OptSpec OptProofs HierModel LoopModel LoopSpec LoopProofs LoopProofs2 LoopProofs3.
Local Open Scope Z_scope.

(** The signals a tree selects among. *)
Fixpoint vl (t : df) : list chain := match t with DTerm n => [n] | DBranch _ x y => vl x ++ vl y | _ => [] end.
Lemma vl_graft p : forall T M x, In x (vl (graft p T M)) -> In x (vl T) \/ In x (vl M).
Proof.
  induction p as [|[c b] p IH]; intros T M x H; [now right|].
  assert (In x (vl (graft p T M) ++ vl T) -> In x (vl T) \/ In x (vl M)) as K by (intros J; apply in_app_or in J as [J|J]; [apply IH, J|now left]).
  assert (In x (vl T ++ vl (graft p T M)) -> In x (vl T) \/ In x (vl M)) as K' by (intros J; apply in_app_or in J as [J|J]; [now left|apply IH, J]).
  cbn [graft] in H. destruct T as [ |m|s|s|s|l o|v m l|v q|l|c' u y|v w f s|w|w|t|s l]; try (destruct b; cbn [vl] in H; [exact (K H)|exact (K' H)]).
  destruct (eqc c c'); [|destruct b; cbn [vl] in H; [exact (K H)|exact (K' H)]]. clear K K'. destruct b; cbn [vl] in *; apply in_app_or in H as [H|H]; rewrite in_app_iff; try (apply IH in H as [H|H]); auto.
Qed.
Lemma vl_get p : forall T x, In x (vl (get p T)) -> In x (vl T).
Proof.
  induction p as [|[c b] p IH]; intros T x H; [exact H|]. cbn [get] in H. destruct T as [ |m|s|s|s|l o|v m l|v q|l|c' u y|v w f s|w|w|t|s l]; try exact (IH _ _ H).
  destruct (eqc c c'); [|exact (IH _ _ H)]. apply IH in H. cbn [vl]. apply in_or_app. destruct b; auto.
Qed.
Lemma dget_reset {V} (d : ndict V) n m : keys_plain d -> no_any n -> no_any m -> m <> n -> dget (filter (fun p => negb (chain_eq (fst p) n)) d) m = dget d m.
Proof.
  intros Hd Hn Hm N. induction Hd as [|[x u] d Hx Hd IH]; [reflexivity|]. cbn [filter fst dget] in *. destruct (chain_eq x n) eqn:E; cbn [negb].
  - apply chain_eq_no_any in E; [|exact Hx|exact Hn]. subst x. rewrite IH. destruct (chain_eq n m) eqn:E'; [|reflexivity]. apply chain_eq_no_any in E'; [|exact Hn|exact Hm]. congruence.
  - cbn [dget]. rewrite IH. reflexivity.
Qed.
Lemma plain_reset {V} (d : ndict V) n : keys_plain d -> keys_plain (filter (fun p => negb (chain_eq (fst p) n)) d).
Proof. intros H. apply Forall_forall. intros x Hx. apply filter_In in Hx as [Hx _]. exact (proj1 (Forall_forall _ _) H x Hx). Qed.

Section Consts.
  Variable I : interp.
  Variable num : Z -> dom I.
  Hypothesis HI : numbers I num.
  Variable k : nat.
  Variable array : chain -> bool.
  Variable range : chain -> df * df.
  Variable log2i : Z -> option Z.
  Variable tocode : df -> res string.
  Variable ns : list chain.
  Variable Q : chain -> bool.
  Variable K : chain -> bool.
  Hypothesis HN : none_strict I.
  Hypothesis Hns : Forall no_any ns.
  Hypothesis HQ : forall n, Q n = true -> In n ns /\ array n = false.
  Notation state := (state I).
  Notation Inv := (Inv I k array ns Q).
  Notation cons := (cons I ns).
  Notation lassign := (lassign k array range log2i tocode).
  Notation goes_on := (goes_on k array log2i tocode).
  Let plain n (H : In n ns) : no_any n := ns_plain ns Hns n H.

  (** An added signal with a constant, its value. *)
  Definition Known (st : lst) (r : chain) : Prop :=
    In r (bs_terms (l_bst st)) /\ ~ In r ns /\ exists z w f g, dget (o_const (l_opt st)) r = Some (DEval (PInt z) w f g) /\ (cons (l_bst st) -> i_term I r = num z).
  Definition Ext (st st' : lst) : Prop :=
    incl (bs_terms (l_bst st)) (bs_terms (l_bst st')) /\
    (forall r, In r (bs_terms (l_bst st)) -> Q r = false -> dget (o_const (l_opt st')) r = dget (o_const (l_opt st)) r) /\
    (cons (l_bst st') -> cons (l_bst st)).
  Definition okt (st : lst) (t : df) : Prop := Forall (Known st) (vl t).
  Definition oke (st : lst) (e : entry) : Prop := match e with Own u => okt st u | Live => True end.
  Definition GoodF (st : lst) (f : bframe) : Prop := forall n e, In n ns -> Q n && K n = true -> dget (bf_tab f) n = Some e -> oke st e.
  Definition Good (st : lst) (fs : list bframe) : Prop :=
    keys_plain (o_const (l_opt st)) /\
    (forall m, In m ns -> K m = true -> Q m = false -> exists z w f g, dget (o_const (l_opt st)) m = Some (DEval (PInt z) w f g) /\ i_term I m = num z) /\
    (forall n, In n ns -> Q n && K n = true -> okt st (tree_of (l_bst st) n)) /\
    Forall (GoodF st) fs.

  Lemma ext_refl st : Ext st st.
  Proof. split; [apply incl_refl|]. split; auto. Qed.
  Lemma ext_trans a b c : Ext a b -> Ext b c -> Ext a c.
  Proof. intros (A1 & A2 & A3) (B1 & B2 & B3). split; [exact (incl_tran A1 B1)|]. split; [|auto]. intros r Hr Hq. rewrite B2; auto. Qed.
  Lemma known_ext st st' r : Ext st st' -> Known st r -> Known st' r.
  Proof.
    intros (A1 & A2 & A3) (K1 & K2 & z & w & f & g & K3 & K4). split; [auto|]. split; [exact K2|]. exists z, w, f, g. split; [|auto]. rewrite A2; [exact K3|exact K1|].
    destruct (Q r) eqn:E; [|reflexivity]. exfalso. apply K2. now apply HQ.
  Qed.
  Lemma okt_ext st st' t : Ext st st' -> okt st t -> okt st' t.
  Proof. intros E H. eapply Forall_impl; [|exact H]. intros r. exact (known_ext st st' r E). Qed.
  Lemma oke_ext st st' e : Ext st st' -> oke st e -> oke st' e.
  Proof. intros E. destruct e; [auto|]. apply okt_ext, E. Qed.
  Lemma goodF_ext st st' f : Ext st st' -> GoodF st f -> GoodF st' f.
  Proof. intros E H n e Hn Hk Ed. exact (oke_ext st st' e E (H n e Hn Hk Ed)). Qed.
  Lemma good_found st fs n e : Good st fs -> In n ns -> Q n && K n = true -> find_entry fs n = Some e -> okt st (entry_tree (l_bst st) n e).
  Proof.
    intros (_ & _ & G3 & G4) Hn Hk Ef. assert (oke st e) as Ho.
    { induction G4 as [|f fs Hf _ IH]; cbn [find_entry] in Ef; [discriminate|]. destruct (dget (bf_tab f) n) as [e'|] eqn:E; [|exact (IH Ef)]. injection Ef as ->. exact (Hf n e Hn Hk E). }
    destruct e as [|u]; [exact (G3 n Hn Hk)|exact Ho].
  Qed.

  (** ** copying entries *)
  Lemma copy_okv st es : Forall (fun o => match o with Some e => oke st e | None => True end) es -> forall a to,
    match a with Some t => okt st t | None => True end -> match to with Some e => oke st e | None => True end ->
    match snd (fold_left put1 es (a, to)) with Some e => oke st e | None => True end.
  Proof.
    induction 1 as [|o es Ho _ IH]; intros a to Ha Ht; [exact Ht|]. cbn [fold_left]. assert (forall e, oke st e -> okt st (val a e)) as Kv by (intros [|u] He; cbn [val]; [destruct a; [exact Ha|constructor]|exact He]).
    destruct o as [e|]; [|exact (IH a to Ha Ht)]. unfold put1 at 2. cbn [fst snd]. destruct to as [[|u]|]; [apply (IH (Some (val a e)) (Some Live)); [exact (Kv e Ho)|exact Logic.I]|apply (IH a (Some (Own (val a e)))); [exact Ha|exact (Kv e Ho)]|apply (IH a (Some e)); [exact Ha|exact Ho]].
  Qed.
  (** The trees are not changed by the copy (as [finish] shows). *)
  Lemma good_copy st t c r tabs : plain_st (l_bst st) -> plain_tab t -> Forall plain_tab tabs -> Forall no_any (bs_terms (l_bst st)) ->
    Good st (BFrame c t :: r) -> Forall (fun u => GoodF st (BFrame None u)) tabs ->
    let s2 := fst (copy_tables (l_bst st) t tabs) in let t2 := snd (copy_tables (l_bst st) t tabs) in
    (forall n, no_any n -> dget (bs_trees s2) n = dget (bs_trees (l_bst st)) n) ->
    Ext st (LSt s2 (l_opt st)) /\ Good (LSt s2 (l_opt st)) (BFrame c t2 :: r).
  Proof.
    intros Hs Ht Htabs Hpl (G1 & G2 & G3 & G4) GT. destruct (copy_tables_view tabs Htabs (l_bst st) t Hs Ht) as (C1 & C2 & C3 & C4 & C5). cbv zeta. set (s2 := fst (copy_tables (l_bst st) t tabs)) in *. set (t2 := snd (copy_tables (l_bst st) t tabs)) in *. intros HT.
    assert (Ext st (LSt s2 (l_opt st))) as EX.
    { split; [cbn [l_bst]; rewrite C3; apply incl_refl|]. split; [reflexivity|]. cbn [l_bst]. intros HC n u Hn Hx E. apply HC; [rewrite C3; exact Hn|exact Hx|]. rewrite HT; [exact E|]. exact (proj1 (Forall_forall _ _) Hpl n Hn). }
    split; [exact EX|]. inversion G4 as [|f0 r0 Gt Gr]; subst f0 r0. split; [exact G1|]. split; [exact G2|]. split.
    - intros n Hn Hk. cbn [l_bst]. rewrite (tree_of_eq (l_bst st) s2 n) by (apply HT, plain, Hn). apply (okt_ext st); [exact EX|auto].
    - constructor.
      + intros n e Hn Hk E. cbn [bf_tab] in E. apply (oke_ext st); [exact EX|]. pose proof (C5 n (plain n Hn)) as V. unfold view in V. apply (f_equal snd) in V. cbn [snd] in V. rewrite E in V.
        assert (match snd (fold_left put1 (map (fun u => dget u n) tabs) (dget (bs_trees (l_bst st)) n, dget t n)) with Some e => oke st e | None => True end) as X.
        { apply copy_okv.
          - apply Forall_map. eapply Forall_impl; [|exact GT]. intros u Hu. destruct (dget u n) as [e'|] eqn:Eu; [|exact Logic.I]. exact (Hu n e' Hn Hk Eu).
          - pose proof (G3 n Hn Hk) as X. unfold tree_of in X. destruct (dget (bs_trees (l_bst st)) n); [exact X|exact Logic.I].
          - destruct (dget t n) as [e'|] eqn:Et; [|exact Logic.I]. exact (Gt n e' Hn Hk Et). }
        rewrite <- V in X. exact X.
      + eapply Forall_impl; [|exact Gr]. intros f. apply goodF_ext, EX.
  Qed.

  (** ** headers *)
  Lemma controlled_tree st c t r p w v e tr : Inv (l_bst st) c t r p w v -> Good st (BFrame c t :: r) -> incl (names e) ns -> controlled K Q w e ->
    getTree k array (l_bst st) (BFrame c t :: r) p e = Ok tr ->
    simple tr = true /\ (forall n, In n (names tr) -> knows I num (l_opt st) (cons (l_bst st)) n) /\ (test e = true -> test tr = true) /\
    (cons (l_bst st) -> holds I p = true -> eval I tr = value_in I v e).
  Proof.
    intros H G Hn [Cs Cn] E. pose proof H as (I1 & I2 & I3 & I4 & I5 & I6 & I7 & I8). unfold getTree in E. apply bind_ok in E as (u & E1 & E2). pose proof G as (_ & GP & _).
    assert (simple u = true /\ (forall m, In m (names u) -> knows I num (l_opt st) (cons (l_bst st)) m) /\ (test e = true -> test u = true)) as (U1 & U2 & U3).
    { apply (resolve_simple k array (read_at (l_bst st) (BFrame c t :: r) p) _ e u Cs); [|exact E1]. intros n Hi. destruct (Cn n Hi) as [Hk Hf]. pose proof (Hn n Hi) as Hin. unfold read_at.
      destruct (find_entry (BFrame c t :: r) n) as [en|] eqn:Ef.
      - destruct (found_entry_ok ns Q Hns (l_bst st) _ n en I3 Hin Ef) as (Hq & _). destruct Hf as [Hf|Hf]; [congruence|]. destruct (I7 n Hin) as [P1 P2].
        assert (snd (w n) = true /\ fst (w n) <> BVacant) as [S1 S2] by (destruct (w n) as [[| | |] f]; cbn [fst snd]; try contradiction; (split; [exact Hf|discriminate])).
        destruct (P2 S1 S2) as (e0 & p0 & p1 & r0 & Ee & -> & X1 & X2). assert (e0 = en) as -> by congruence. destruct (diff_leaf p0 p1 r0 (good_path_ok _ I5) _ [] X1 X2) as (rp & m' & ->). cbn [bind fst replaceUndefined].
        exists r0. split; [reflexivity|]. assert (In r0 (vl (entry_tree (l_bst st) n en))) as Hr by (apply (vl_get p0); rewrite X2; now left).
        destruct (proj1 (Forall_forall _ _) (good_found st _ n en G Hin (proj2 (andb_true_iff _ _) (conj Hq Hk)) Ef) r0 Hr) as (_ & _ & Kr). exact Kr.
      - exists n. split; [reflexivity|]. destruct (Q n) eqn:Hq.
        + exfalso. destruct Hf as [Hf|Hf]; [congruence|]. destruct (I7 n Hin) as [P1 _]. destruct (w n) as [[| | |] f]; cbn [fst] in P1; [exact Hf|exact (proj1 P1 Ef)|exact (proj1 P1 Ef)|exact (P1 Ef)].
        + destruct (GP n Hin Hk Hq) as (z & w0 & f & g & X1 & X2). exists z, w0, f, g. split; [exact X1|auto]. }
    rewrite (reorder_simple k u tr U1 E2). split; [exact U1|]. split; [exact U2|]. split; [exact U3|]. intros HC HH. exact (expr_value I k array ns Q HN Hns HQ (l_bst st) (BFrame c t :: r) p v e u I6 I3 I5 Hn E1 HC HH).
  Qed.
  Lemma header_value st c t r p w v e d : Inv (l_bst st) c t r p w v -> Good st (BFrame c t :: r) -> incl (names e) ns -> controlled K Q w e ->
    header k array log2i tocode st (BFrame c t) r e = Ok d ->
    exists z w f g, d = DEval (PInt z) w f g /\ (cons (l_bst st) -> holds I p = true -> value_in I v e = num z) /\ (test e = true -> z = 0 \/ z = 1).
  Proof.
    intros H G Hn C E. unfold header in E. apply bind_ok in E as (p' & Ep & E). assert (p' = p) as -> by (destruct H as (_ & _ & _ & I4 & _); congruence). apply bind_ok in E as (tr & Et & E).
    destruct (controlled_tree st c t r p w v e tr H G Hn C Et) as (T1 & T2 & T3 & T4). destruct (optimize_simple I num HI (l_opt st) (cons (l_bst st)) log2i tocode tr T1 T2 k d E) as (z & w0 & f & g & -> & O1 & O2).
    exists z, w0, f, g. split; [reflexivity|]. split; [|auto]. intros HC HH. rewrite <- (T4 HC HH). auto.
  Qed.
  Lemma goes_on_right st c t r p w v e g : Inv (l_bst st) c t r p w v -> Good st (BFrame c t :: r) -> incl (names e) ns -> controlled K Q w e -> test e = true ->
    goes_on st (BFrame c t) r e = Ok g -> cons (l_bst st) -> holds I p = true -> true_in I v e = g.
  Proof.
    intros H G Hn C Ht E HC HH. unfold LoopModel.goes_on in E. apply bind_ok in E as (d & Ed & E). destruct (header_value st c t r p w v e d H G Hn C Ed) as (z & w0 & f & gg & -> & V & B).
    cbn [as_int bind] in E. injection E as <-. unfold true_in. rewrite (V HC HH). destruct HI as (_ & _ & _ & HI4). rewrite HI4. destruct (B Ht) as [Hz | Hz]; subst z; reflexivity.
  Qed.

  (** ** assignments *)
  Lemma lassign_good st c t r p w w' v n e st' t' : Inv (l_bst st) c t r p w v -> Good st (BFrame c t :: r) -> In n ns -> Q n = true -> expr_ok ns e -> ~ locked (BFrame c t :: r) n ->
    bflow (BAsg n e) w = Some w' -> (K n = true -> controlled K Q w e) -> lassign st (BFrame c t) r n e = Ok (st', t') ->
    Ext st st' /\ Good st' (BFrame c t' :: r).
  Proof.
    intros H G Hn Hq He Hu Hf HK E. pose proof H as (I1 & I2 & I3 & I4 & I5 & I6 & I7 & I8). pose proof G as (G1 & G2 & G3 & G4). inversion I3 as [|f0 r0 Ft Fr]; subst f0 r0. inversion G4 as [|f0 r0 Gt Gr]; subst f0 r0.
    unfold LoopModel.lassign in E. cbv zeta in E. set (s := l_bst st) in *. apply bind_ok in E as ([s' t0] & EA & E). apply bind_ok in E as (p' & Ep & E). assert (p' = p) as -> by congruence. apply bind_ok in E as (raw & Eraw & E). apply bind_ok in E as ([rn cnt] & En & E). cbn [fst snd] in E.
    apply bind_ok in E as (v1 & Ev1 & E). set (E1 := if isEval v1 then set_const (l_opt st) rn v1 else l_opt st) in *. set (E2 := set_term E1 rn _) in *. apply bind_ok in E as (v2 & Ev2 & E). injection E as <- <-. cbn [fst snd].
    pose proof (assign_post I k array ns Q HN Hns HQ s c t r p w w' v n e s' t0 H Hn Hq He Hu Hf EA) as PP.
    unfold assign in EA. rewrite I4 in EA. cbn [bind] in EA. rewrite Eraw, En in EA. cbn [bind fst snd] in EA. destruct (new_name_ok _ _ _ (plain n Hn) _ _ _ En) as [Rp Rn].
    destruct I1 as (S1 & S2 & S3 & S4 & S5). pose proof (S3 n Hn) as Hnt. assert (rn <> n) as Nn by (intros ->; contradiction).
    apply bind_ok in EA as (T1 & E3 & EA). apply bind_ok in EA as (T2 & E4 & EA). set (s1 := BSt (dset (bs_trees s) rn raw) (bs_terms s ++ [rn]) cnt) in *.
    assert (forall m, no_any m -> m <> rn -> dget (bs_trees s1) m = dget (bs_trees s) m) as K1.
    { intros m Hm N. subst s1. cbn [bs_trees]. rewrite dget_dset by assumption. destruct (chain_dec rn m); [congruence|reflexivity]. }
    assert (dget (bs_trees s1) n = dget (bs_trees s) n) as K1n by (apply K1; [apply plain, Hn|congruence]).
    assert (near p (tree_of s n)) as Nr.
    { destruct (I7 n Hn) as [P _]. cbn [bflow] in Hf. destruct (w n) as [[| | |] f]; cbn [fst] in P; [apply present_near, (proj2 P Hq)|apply present_near, (proj2 P)|exact (proj2 P)|discriminate Hf]. }
    pose proof (good_path_ok _ I5) as Pp.
    rewrite (tree_of_eq s s1 n K1n), insert_graft in E3 by assumption. injection E3 as <-.
    destruct (reorder_graft p Pp _ _ _ _ (proj2 (S5 n Hq)) E4) as (M' & k' & EM & ->). assert (M' = DTerm rn) as -> by (destruct k'; [discriminate EM|injection EM as <-; reflexivity]). clear EM.
    set (T2 := graft p (tree_of s n) (DTerm rn)) in *.
    set (en := match dget (bs_trees s1) n with None => Live | Some _ => Own T2 end) in *.
    set (s2 := set_tree s1 n T2) in *.
    assert (plain_st s1) as Ps1 by (apply dset_plain; assumption).
    assert (plain_st s2) as Ps2 by (apply dset_plain; [assumption|apply plain, Hn]).
    destruct (put_entry_view s2 t n en Ps2 (proj1 Ft) (plain n Hn)) as (V1 & V2 & V3 & V4 & V5). cbv zeta in V1, V2, V3, V4, V5. cbn [bf_tab] in EA.
    assert (s' = fst (put_entry s2 t n en) /\ t0 = snd (put_entry s2 t n en)) as [Es' Et0] by (destruct (put_entry s2 t n en); cbn [fst snd]; split; congruence). rewrite <- Es', <- Et0 in *. clear EA Es' Et0.
    assert (bs_terms s' = bs_terms s ++ [rn]) as Kts by exact V3.
    assert (forall m, no_any m -> dget (bs_trees s2) m = if chain_dec n m then Some T2 else dget (bs_trees s1) m) as K2.
    { intros m Hm. subst s2. unfold set_tree. cbn [bs_trees]. apply dget_dset; auto. }
    assert (val (Some T2) en = T2) as Ven by (subst en; destruct (dget (bs_trees s1) n); reflexivity).
    assert (dget (bs_trees s2) n = Some T2) as K2n by (rewrite K2 by (apply plain, Hn); destruct (chain_dec n n); congruence).
    assert (tree_of s' n = T2) as Kt.
    { pose proof (f_equal fst (V5 n (plain n Hn))) as V. unfold view at 1 in V. cbn [fst] in V. unfold tree_of. rewrite V. destruct (chain_dec n n); [|congruence]. unfold put1, view. cbn [snd fst]. rewrite K2n. destruct (dget t n) as [[|u]|]; cbn [fst]; rewrite ?Ven; reflexivity. }
    assert (forall m, no_any m -> m <> n -> m <> rn -> dget (bs_trees s') m = dget (bs_trees s) m) as K2m.
    { intros m Hm N N'. pose proof (f_equal fst (V5 m Hm)) as V. destruct (chain_dec n m) as [<-|_]; [congruence|]. unfold view in V. cbn [fst] in V. rewrite V, K2 by exact Hm. destruct (chain_dec n m); [congruence|]. apply K1; assumption. }
    assert (dget (bs_trees s') rn = Some raw) as Kr.
    { pose proof (f_equal fst (V5 rn Rp)) as V. destruct (chain_dec n rn) as [->|_]; [congruence|]. unfold view in V. cbn [fst] in V. rewrite V, K2 by exact Rp. destruct (chain_dec n rn) as [->|_]; [congruence|]. subst s1. cbn [bs_trees]. rewrite dget_dset by assumption. destruct (chain_dec rn rn); congruence. }
    assert (cons s' -> cons s) as CB.
    { apply cons_back; [rewrite Kts; intros m Hm; apply in_or_app; auto|]. intros m Hm Hx. apply K2m; [exact (proj1 (Forall_forall _ _) S1 m Hm)|intros ->; contradiction|intros ->; contradiction]. }
    set (E3 := if isEval v2 then set_const E2 n v2 else reset_const E2 n).
    assert (keys_plain (o_const E1)) as KP1 by (subst E1; destruct (isEval v1); [apply dset_plain; assumption|exact G1]).
    assert (forall m, no_any m -> m <> n -> dget (o_const E3) m = dget (o_const E1) m) as KE3.
    { intros m Hm N. subst E3. destruct (isEval v2); cbn [set_const reset_const o_const E2 set_term].
      - unfold E2, set_term. cbn [o_const]. rewrite dget_dset; [|exact KP1|apply plain, Hn|exact Hm]. destruct (chain_dec n m); [congruence|reflexivity].
      - unfold E2, set_term. cbn [o_const]. apply dget_reset; [exact KP1|apply plain, Hn|exact Hm|exact N]. }
    assert (Ext st (LSt s' E3)) as EX.
    { split; [cbn [l_bst]; fold s; rewrite Kts; intros m Hm; apply in_or_app; auto|]. split; [|exact CB]. cbn [l_opt]. fold s. intros m Hm Hqm. assert (no_any m) as Pm by exact (proj1 (Forall_forall _ _) S1 m Hm).
      rewrite KE3; [|exact Pm|intros ->; congruence]. subst E1. destruct (isEval v1); [|reflexivity]. cbn [set_const o_const]. rewrite dget_dset by assumption. destruct (chain_dec rn m) as [->|]; [contradiction|reflexivity]. }
    split; [exact EX|].
    assert (K n = true -> okt (LSt s' E3) T2) as OT.
    { intros Hk. apply Forall_forall. intros x Hx. apply vl_graft in Hx as [Hx|[Hx|[]]].
      - apply (known_ext st); [exact EX|]. exact (proj1 (Forall_forall _ _) (G3 n Hn (proj2 (andb_true_iff _ _) (conj Hq Hk))) x Hx).
      - subst x. split; [cbn [l_bst]; rewrite Kts; apply in_or_app; right; now left|]. split; [intros Hin; apply Rn, S3, Hin|].
        destruct (controlled_tree st c t r p w v e raw H G (proj2 He) (HK Hk) Eraw) as (X1 & X2 & _ & _). destruct (optimize_simple I num HI (l_opt st) (cons s) log2i tocode raw X1 X2 k v1 Ev1) as (z & w0 & f & g & -> & O1 & _).
        exists z, w0, f, g. split.
        + cbn [l_opt]. rewrite KE3 by assumption. subst E1. cbn [isEval set_const o_const]. rewrite dget_dset by assumption. destruct (chain_dec rn rn); congruence.
        + cbn [l_bst]. intros HC. rewrite <- (O1 (CB HC)). apply HC; [rewrite Kts; apply in_or_app; right; now left|intros Hin; apply Rn, S3, Hin|exact Kr]. }
    split; [|split; [|split]].
    - cbn [l_opt]. subst E3. destruct (isEval v2); unfold E2, set_term; cbn [set_const reset_const o_const]; [apply dset_plain; [exact KP1|apply plain, Hn]|apply plain_reset, KP1].
    - intros m Hm Hk Hqm. destruct (G2 m Hm Hk Hqm) as (z & w0 & f & g & X1 & X2). exists z, w0, f, g. split; [|exact X2]. rewrite (proj1 (proj2 EX)); [exact X1|apply S3, Hm|exact Hqm].
    - intros m Hm Hk. cbn [l_bst]. destruct (chain_dec m n) as [->|N]; [rewrite Kt; exact (OT (proj2 (proj1 (andb_true_iff _ _) Hk)))|]. rewrite (tree_of_eq s s' m); [apply (okt_ext st); [exact EX|exact (G3 m Hm Hk)]|]. apply K2m; [apply plain, Hm|exact N|intros ->; apply Rn, S3, Hm].
    - constructor; [|eapply Forall_impl; [|exact Gr]; intros f; apply goodF_ext, EX].
      intros m en' Hm Hk Em. cbn [bf_tab] in Em. pose proof (f_equal snd (V5 m (plain m Hm))) as V. unfold view at 1 in V. cbn [snd] in V. rewrite Em in V. destruct (chain_dec n m) as [<-|N].
      + unfold put1, view in V. cbn [snd fst] in V. rewrite K2n in V. assert (oke (LSt s' E3) en) as Oen by (subst en; destruct (dget (bs_trees s1) n); [exact (OT (proj2 (proj1 (andb_true_iff _ _) Hk)))|exact Logic.I]).
        destruct (dget t n) as [[|u]|]; cbn [snd] in V; injection V as ->; [exact Logic.I|cbn [oke]; rewrite Ven; exact (OT (proj2 (proj1 (andb_true_iff _ _) Hk)))|exact Oen].
      + apply (oke_ext st); [exact EX|]. exact (Gt m en' Hm Hk (eq_sym V)).
  Qed.
End Consts.
