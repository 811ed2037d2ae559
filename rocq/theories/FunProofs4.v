(** FunProofs4.v - the visit of a function's body. *)
From Verif Require Import Base ScopeModel ScopeSpec ScopeProofs DfModel DfSpec DfProofs ReorderModel ReorderSpec ReorderProofs BindModel BindSpec BindProofs AsgModel AsgSpec AsgProofs ExprModel MkModel MkProps BlkModel BlkSpec BlkProofs BlkProofs2 BlkProofs3 FunModel FunSpec FunProofs FunProofs2 FunProofs3.

Lemma new_shape m terms n : forall c r c', new_name m terms n c = Ok (r, c') -> exists i l s, n = i ++ [l] /\ r = i ++ [Label ("_rn" ++ s) STsignal None].
Proof.
  induction m as [|m IH]; intros c r c' E; [discriminate|]. cbn [new_name] in E. apply bind_ok in E as (r1 & E1 & E). destruct (smem terms r1); [exact (IH _ _ _ E)|]. injection E as <- _.
  unfold renameVar in E1. destruct (init_last n) as [[i l]|] eqn:L; [|discriminate]. apply init_last_eq in L. injection E1 as <-. exists i, l, (nat_str c ++ "_" ++ sname l)%string. split; [exact L|reflexivity].
Qed.

Section Case.
  Variable I : interp.
  Variable count : expr -> Z.
  Hypothesis HT : i_truth I (i_const I (DInt "1")) = true.
  Hypothesis HL : forall x y, i_truth I (i_op I Lor [x; y]) = i_truth I x || i_truth I y.
  Variable a : string -> bool.
  Variable ret : string -> list (dom I) -> dom I -> Prop.
  Variable G : string -> dom I.
  Notation mean := (means I count a ret G).
  (** With a fixed meaning of expressions, the state at the start matters up to pointwise equality. *)
  Variable E : expr -> dom I -> Prop.
  Lemma runs_start x : forall v w v', agrees I v w -> runs I (fun _ => E) x w v' -> runs I (fun _ => E) x v v'.
  Proof.
    induction x as [s e|l IH|c t e IHt IHe|comp l IH] using fstmt_ind'; intros v w v' H R.
    - destruct R as (y & R1 & R2). exists y. split; [exact R1|]. intros r. rewrite R2. unfold assign_to. destruct (String.eqb r s); [reflexivity|]. symmetry. apply H.
    - apply run_block in R. apply run_block. revert v w H R. induction IH as [|y l Hy _ IHl]; intros v w H R; cbn [runs_block] in *.
      + intros r. rewrite R. symmetry. apply H.
      + destruct R as (u & R1 & R2). exists u. split; [exact (Hy _ _ _ H R1)|exact R2].
    - destruct R as (y & R1 & R2). exists y. split; [exact R1|]. destruct (i_truth I y).
      + destruct t as [z|]; [exact (IHt z eq_refl _ _ _ H R2)|]. intros r. rewrite R2. symmetry. apply H.
      + destruct e as [z|]; [exact (IHe z eq_refl _ _ _ H R2)|]. intros r. rewrite R2. symmetry. apply H.
    - apply run_case in R as (y & R1 & R2). apply run_case. exists y. split; [exact R1|]. clear R1. induction IH as [|[g z] l Hz _ IHl]; cbn [runs_items] in *.
      + intros r. rewrite R2. symmetry. apply H.
      + destruct R2 as (b & B1 & B2). exists b. split; [exact B1|]. destruct b; [|exact (IHl B2)]. destruct z as [z|]; cbn [runs_opt] in *; [exact (Hz z eq_refl _ _ _ H B2)|]. intros r. rewrite B2. symmetry. apply H.
  Qed.
  Lemma opt_start z v w v' : agrees I v w -> runs_opt I (fun _ => E) z w v' -> runs_opt I (fun _ => E) z v v'.
  Proof. intros H R. destruct z as [z|]; cbn [runs_opt] in *; [exact (runs_start z _ _ _ H R)|]. intros r. rewrite R. symmetry. apply H. Qed.
  Lemma opt_end z v v' w' : agrees I w' v' -> runs_opt I (fun _ => E) z v v' -> runs_opt I (fun _ => E) z v w'.
  Proof. intros H R. destruct z as [z|]; cbn [runs_opt] in *; [exact (runs_end I _ z _ _ _ H R)|]. exact (agrees_trans I _ _ _ H R). Qed.
  Lemma items_start y l v w v' : agrees I v w -> runs_items I (fun _ => E) y l w v' -> runs_items I (fun _ => E) y l v v'.
  Proof.
    intros H. induction l as [|[g z] l IH]; cbn [runs_items]; intros R.
    - intros r. rewrite R. symmetry. apply H.
    - destruct R as (b & B1 & B2). exists b. split; [exact B1|]. destruct b; [|auto]. exact (opt_start z v w v' H B2).
  Qed.

  (** The condition of a case item. *)
  Lemma fold_pure comp : pure true comp = true -> forall ws acc, forallb (pure true) ws = true -> pure true acc = true -> pure true (fold_left (fun c w => XBin Lor c (XBin Eq comp w)) ws acc) = true.
  Proof.
    intros Hc. induction ws as [|w ws IH]; intros acc Hw Ha; [exact Ha|]. cbn [forallb fold_left] in *. apply andb_true_iff in Hw as [W1 W2]. apply IH; [exact W2|]. cbn [pure]. now rewrite Ha, Hc, W1.
  Qed.
  Lemma fold_ids comp s : forall ws acc, In s (ids (fold_left (fun c w => XBin Lor c (XBin Eq comp w)) ws acc)) -> In s (ids acc) \/ In s (ids comp) \/ In s (flat_map ids ws).
  Proof.
    induction ws as [|w ws IH]; intros acc H; [now left|]. cbn [fold_left flat_map] in *. apply IH in H. cbn [ids] in H. rewrite !in_app_iff in *. tauto.
  Qed.
  Lemma fold_mean comp y : pure true comp = true -> mean comp y -> forall ws acc x, mean (fold_left (fun c w => XBin Lor c (XBin Eq comp w)) ws acc) x ->
    exists xa zs, mean acc xa /\ Forall2 mean ws zs /\ i_truth I x = i_truth I xa || existsb (fun z => i_truth I (i_op I Eq [y; z])) zs.
  Proof.
    intros Hc Hy. induction ws as [|w ws IH]; intros acc x H.
    - exists x, []. split; [exact H|]. split; [constructor|]. cbn [existsb]. now rewrite orb_false_r.
    - cbn [fold_left] in H. destruct (IH _ _ H) as (xa' & zs & A & B & C). destruct A as (xa & q & A1 & (yc & zw & A2 & A3 & A4) & A5). rewrite (means_fun _ _ _ _ _ _ _ Hc _ _ A2 Hy) in A4.
      exists xa, (zw :: zs). split; [exact A1|]. split; [constructor; assumption|]. rewrite C, A5, HL, A4. cbn [existsb]. now rewrite orb_assoc.
  Qed.
  Lemma item_value comp g ce v : pure true comp = true -> opt true (forallb (pure true)) g = true -> case_cond comp g = Ok ce ->
    pure true ce = true /\ (forall s, In s (ids ce) -> In s (ids comp) \/ In s (lids g)) /\
    forall y x, mean comp y -> mean ce x -> matches I (fun _ => mean) v y g (i_truth I x).
  Proof.
    intros Hc Hg H. destruct g as [[|w ws]|]; cbn [case_cond] in H; [discriminate| |].
    - injection H as <-. cbn [opt forallb] in Hg. apply andb_true_iff in Hg as [G1 G2]. split; [apply fold_pure; auto; cbn [pure]; now rewrite Hc, G1|]. split.
      + intros s Hs. apply fold_ids in Hs. cbn [ids lids flat_map] in *. rewrite !in_app_iff in *. tauto.
      + intros y x My Mx. destruct (fold_mean comp y Hc My _ _ _ Mx) as (xa & zs & A & B & C). destruct A as (yc & zw & A2 & A3 & A4). rewrite (means_fun _ _ _ _ _ _ _ Hc _ _ A2 My) in A4.
        exists (zw :: zs). split; [constructor; assumption|]. rewrite C, A4. reflexivity.
    - injection H as <-. split; [reflexivity|]. split; [intros s []|]. intros y x My Mx. cbn [means] in Mx. subst x. cbn [matches]. exact HT.
  Qed.
End Case.

Section Visit.
  Variable I : interp.
  Variable array : chain -> bool.
  Variable times : expr -> res Z.
  Variable count : expr -> Z.
  Variable k : nat.
  Hypothesis Ht : forall e c, times e = Ok c -> count e = c.
  Hypothesis HN : none_strict I.
  Hypothesis HT : i_truth I (i_const I (DInt "1")) = true.
  Hypothesis HL : forall x y, i_truth I (i_op I Lor [x; y]) = i_truth I x || i_truth I y.
  Variable call : fstate -> chain -> string -> list expr -> res (fstate * chain).
  Variable cf : chain.
  Hypothesis Hcf : no_any cf.
  Hypothesis Hne : cf <> [].
  Variables (vis fr : string -> bool) (g g0 : string -> dom I) (a arr : string -> bool).
  Hypothesis Hvis : forall s, vis s = true -> user s = true.
  Hypothesis Hfr : forall s, fr s = true -> user s = true.
  Variable ret : string -> list (dom I) -> dom I -> Prop.
  Hypothesis Hcall : forall st f args st' n, Good st -> sees I array st cf vis g a -> sees I array st cf fr g0 arr -> (forall c, In (frame c) cf -> (c < fs_calls st)%Z) -> forallb casts args = true -> (forall s, In s (flat_map ids args) -> vis s = true) ->
    call st cf f args = Ok (st', n) -> Ext cf st st' /\ array n = false /\
      (consistent I (fs_st st) (fs_st st') -> exists ys, each I (means I count a ret g) args ys /\ ret f ys (i_term I n)).
  Variable vs : list string.
  Notation nm := (nm cf).
  Notation Ready := (Ready I array cf vis fr g g0 a arr).
  Notation Core := (Core cf vs).
  Notation Arms := (Arms cf vs).
  Notation Post := (Post cf vs).
  Notation Tab := (Tab cf vs).
  Notation placed := (placed cf vs).
  Notation declared := (declared cf vs).
  Notation ev := (fun _ : state I => means I count a ret g).
  Notation visit := (fvisit array times k call cf).

  Definition V (st : fstate) : state I := fun s => if mem s vs then tree_value I (i_term I (nm s)) (tree_of (fs_st st) (nm s)) else g s.
  Definition shapes (st : fstate) : Prop := forall s, In s vs -> shaped (tree_of (fs_st st) (nm s)) /\ stable true (tree_of (fs_st st) (nm s)) = true.
  Record Inv (st : fstate) (p : path) (w : fenv) : Prop := {
    i_ready : Ready st; i_decl : declared st; i_shape : shapes st; i_path : good_path p; i_placed : placed st p w }.
  Lemma find_own st s : Good st -> declared st -> In s vs -> find st cf s = Ok (nm s).
  Proof.
    intros G D Hs. unfold find. assert (exists l r, rev cf = l :: r) as (l & r & E) by (destruct (rev cf) as [|l r] eqn:E; [|eauto]; exfalso; apply Hne; rewrite <- (rev_involutive cf), E; reflexivity).
    rewrite E. cbn [search]. rewrite <- E, rev_involutive. fold (nm s). rewrite (proj2 (smem_in _ _ (g_any _ G) (nm_any cf Hcf s))); [reflexivity|]. now apply D.
  Qed.
  Lemma V_same st st' : (forall s, In s vs -> dget (trees st') (nm s) = dget (trees st) (nm s)) -> agrees I (V st') (V st).
  Proof. intros H s. unfold V. destruct (mem s vs) eqn:E; [|reflexivity]. apply mem_in in E. now rewrite (tree_of_eq (fs_st st) (fs_st st') (nm s) (H s E)). Qed.

  (** ** an assignment *)
  Lemma value_tree st p under e : good_path p -> (under = false -> p = []) -> (if (under : bool) then pure false e else casts e) = true -> Ready st -> (forall s, In s (ids e) -> vis s = true) ->
    forall q, match p with
              | [] => getTreeS array times k call cf st e
              | _ => do u <- makeDFTree (find st cf) array times k e; do u' <- keep_signals array k u; do u'' <- reorder k u'; Ok (st, u'')
              end = Ok q ->
    Ext cf st (fst q) /\ leaves_present (snd q) = true /\ (consistent I (fs_st st) (fs_st (fst q)) -> means I count a ret g e (eval I (snd q))).
  Proof.
    intros Hp Hu He R Hv [st1 t] E. assert (casts e = true) as Hc by (destruct under; [exact (pure_casts _ _ He)|exact He]).
    assert (exists u, mkS array times k call cf st e = Ok (st1, u) /\ exists u', keep_signals array k u = Ok u' /\ reorder k u' = Ok t) as (u & E1 & u' & E2 & E3).
    { destruct p as [|cb p].
      - unfold getTreeS in E. apply bind_ok in E as ([s1 u] & E1 & E). apply bind_ok in E as (u' & E2 & E). apply bind_ok in E as (u'' & E3 & E). cbn [fst snd] in *. injection E as <- <-. eauto.
      - destruct under; [|discriminate (Hu eq_refl)]. apply bind_ok in E as (u & E1 & E). apply bind_ok in E as (u' & E2 & E). apply bind_ok in E as (u'' & E3 & E). injection E as <- <-. exists u. rewrite (mk_pure array times k call cf false e He st), E1. eauto. }
    destruct (mk_ok I array times count k Ht call cf Hcf vis fr g g0 a arr Hvis Hfr ret Hcall e st st1 u R Hc Hv E1) as (X & A & _ & M). cbn [fst snd]. split; [exact X|].
    split; [exact (arms_leaves _ _ _ E3 (keep_arms k array _ _ A E2))|]. intros HC. rewrite (reorder_eval I HN _ _ _ E3), (keep_value k array I HN _ _ E2). auto.
  Qed.
  Lemma place_near p T w : at_place p T w -> w <> BFar -> near p T.
  Proof. destruct w; cbn [at_place]; intros H N; [apply present_near, H|apply present_near, H|exact H|congruence]. Qed.
  Lemma assign_arms st p t w x e under st' t' : Inv st p w -> Tab st t -> (under = false -> p = []) -> (if (under : bool) then pure false e else casts e) = true ->
    (forall s, In s (ids e) -> vis s = true) -> In x vs -> w x <> BFar -> assignF array times k call cf st p t x e = Ok (st', t') ->
    Post st st' t t' p [x] [x] /\
    (consistent I (fs_st st) (fs_st st') -> if holds I p then runs I ev (FAsg x e) (V st) (V st') else agrees I (V st') (V st)).
  Proof.
    intros [R D S Gp Pl] HTab Hu He Hv Hx Hw E. pose proof (good_path_ok _ Gp) as Pp. pose proof R as (G & _). unfold assignF in E. rewrite (find_own st x G D Hx) in E. cbn [bind] in E.
    apply bind_ok in E as (q & E1 & E). destruct (value_tree st p under e Gp Hu He R Hv q E1) as (X & Lp & M). clear E1. destruct q as [st1 raw]. cbn [fst snd] in *. set (n := nm x) in *.
    pose proof (e_good _ _ _ X) as G1. assert (In n (terms st)) as Hn0 by (apply D, Hx). pose proof (e_terms _ _ _ X n Hn0) as Hn1. assert (no_any n) as Hna by apply (nm_any cf Hcf).
    apply bind_ok in E as ([rr cnt] & E2 & E). cbn [fst snd] in E. destruct (new_name_ok _ _ _ Hna _ _ _ E2) as [Rp Rn]. destruct (new_shape _ _ _ _ _ _ E2) as (i & l & sx & Ei & Er). clear E2.
    assert (rr <> n) as Nn by (intros ->; contradiction).
    apply bind_ok in E as (T1 & E3 & E). apply bind_ok in E as (T2 & E4 & E). set (s1 := BSt (dset (trees st1) rr raw) (terms st1 ++ [rr]) cnt) in *.
    pose proof (g_plain _ G1) as Ps0.
    assert (forall m, no_any m -> m <> rr -> dget (bs_trees s1) m = dget (trees st1) m) as K1.
    { intros m Hm N. subst s1. cbn [bs_trees]. rewrite dget_dset by assumption. destruct (chain_dec rr m); [congruence|reflexivity]. }
    assert (dget (bs_trees s1) n = dget (trees st) n) as K1n by (rewrite K1 by congruence; exact (e_same _ _ _ X n Hn0)).
    destruct (S x Hx) as [Sh0 Sb0]. fold n in Sh0, Sb0.
    rewrite (tree_of_eq (fs_st st) s1 n K1n), insert_graft in E3; [|exact Pp|exact (place_near _ _ _ (Pl x Hx) Hw)]. injection E3 as <-.
    destruct (reorder_graft p Pp _ _ _ _ Sb0 E4) as (M' & k' & EM & ET2). assert (M' = DTerm rr) as EM' by (destruct k'; [discriminate EM|injection EM as <-; reflexivity]). rewrite EM' in ET2. clear EM EM' M'.
    set (en := match dget (bs_trees s1) n with None => Live | Some _ => Own T2 end) in *. set (s2 := set_tree s1 n T2) in *.
    assert (plain_st s1) as Ps1 by (apply dset_plain; assumption). assert (plain_st s2) as Ps2 by (apply dset_plain; assumption).
    assert (forall m, no_any m -> dget (bs_trees s2) m = if chain_dec n m then Some T2 else dget (bs_trees s1) m) as K2 by (intros m Hm; subst s2; unfold set_tree; cbn [bs_trees]; apply dget_dset; auto).
    assert (dget (bs_trees s2) n = Some T2) as K2n by (rewrite K2 by exact Hna; destruct (chain_dec n n); congruence).
    assert (tree_of s2 n = T2) as Kt by (unfold tree_of; now rewrite K2n).
    assert (forall m, In m (terms st1) -> m <> n -> dget (bs_trees s2) m = dget (trees st1) m) as K2m.
    { intros m Hm N. assert (no_any m) as Hm' by exact (proj1 (Forall_forall _ _) (g_any _ G1) m Hm). rewrite K2 by exact Hm'. destruct (chain_dec n m); [congruence|]. apply K1; [exact Hm'|]. intros ->. contradiction. }
    assert (dget (bs_trees s2) rr = Some raw) as Kr.
    { rewrite K2 by exact Rp. destruct (chain_dec n rr); [congruence|]. subst s1. cbn [bs_trees]. rewrite dget_dset by assumption. destruct (chain_dec rr rr); congruence. }
    assert (bs_terms s2 = terms st1 ++ [rr]) as Kts by reflexivity.
    set (stm := FSt s2 (fs_calls st1)).
    assert (Good stm) as Gm.
    { destruct G1 as [A1 A2 A3 A4 A5]. constructor; cbn [fs_st fs_calls stm]; auto.
      - rewrite Kts. apply Forall_app. split; [exact A1|constructor; [exact Rp|constructor]].
      - intros m u Hm Em. rewrite Kts. apply in_or_app. rewrite K2 in Em by exact Hm. destruct (chain_dec n m) as [<-|N]; [auto|]. destruct (chain_dec m rr) as [->|N']; [right; now left|]. rewrite K1 in Em by assumption. left. eauto.
      - intros m c Hm Hc. rewrite Kts in Hm. apply in_app_or in Hm as [Hm|[<-|[]]]; [exact (A5 m c Hm Hc)|]. rewrite Er in Hc. apply in_app_or in Hc as [Hc|[Hc|[]]]; [|discriminate Hc]. apply (A5 n c Hn1). rewrite Ei. apply in_or_app. auto. }
    assert (Grow cf st1 stm) as W1.
    { constructor; [exact Gm| | |cbn [fs_calls stm]; lia]; cbn [fs_st stm]; rewrite Kts; intros m Hm; [apply in_or_app; auto|]. intros N. apply in_app_or in Hm as [Hm|[<-|[]]]; [contradiction|]. left. exists i, (Label ("_rn" ++ sx) STsignal None). split; [exact Er|destruct sx; reflexivity]. }
    pose proof (grow_trans _ _ _ _ (e_grow _ _ _ X) W1) as W.
    assert (shaped T2 /\ stable true T2 = true) as [Sh Sb] by (split; [rewrite ET2; apply shaped_graft; [exact Gp|apply wild_plain, Rp|exact Sh0]|exact (reorder_stable _ _ _ E4)]).
    assert (forall s, In s vs -> s <> x -> dget (bs_trees s2) (nm s) = dget (trees st) (nm s)) as Kv.
    { intros s Hs N. rewrite K2m; [apply (e_same _ _ _ X), D, Hs|apply (e_terms _ _ _ X), D, Hs|]. intros J. apply nm_inj in J. contradiction. }
    assert (Core st stm p [x]) as C.
    { constructor.
      - exact W.
      - intros m Hm N. cbn [fs_st stm]. rewrite K2m; [exact (e_same _ _ _ X m Hm)|exact (e_terms _ _ _ X m Hm)|]. apply N. now left.
      - intros s [<-|[]]. split; [exact Hx|]. cbn [fs_st stm]. fold n. rewrite K2n. split; [discriminate|]. exists (DTerm rr). now rewrite Kt.
      - intros s Hs. cbn [fs_st stm]. destruct (string_dec s x) as [->|N]; [fold n; rewrite Kt; auto|]. rewrite (tree_of_eq (fs_st st) s2 (nm s) (Kv s Hs N)). exact (S s Hs). }
    assert (Arms st stm [[(n, en)]] p [x] [x]) as A.
    { constructor.
      - exact C.
      - constructor; [|constructor]. split; [constructor; [exact Hna|constructor]|]. cbn [map fst]. constructor; [intros []|constructor].
      - intros s Hs. cbn [map dget]. destruct (chain_eq n (nm s)) eqn:Ec; [|split; exact Logic.I].
        apply chain_eq_no_any in Ec; [|exact Hna|apply (nm_any cf Hcf)]. apply nm_inj in Ec. subst s. fold n. split.
        + subst en. rewrite K1n. destruct (dget (trees st) n); cbn [disciplined]; [constructor|]. split; [reflexivity|constructor].
        + cbn [last_entry fs_st stm]. rewrite K2n. subst en. destruct (dget (bs_trees s1) n); congruence.
      - intros m Hm. cbn [map dget last_entry]. destruct (chain_eq n m) eqn:Ec.
        + apply chain_eq_no_any in Ec; [|exact Hna|exact Hm]. split; [|discriminate]. intros _. exists x. split; [now left|]. now rewrite <- Ec.
        + split; [congruence|]. intros (s & [<-|[]] & ->). rewrite chain_eq_refl in Ec. discriminate Ec.
      - apply incl_refl. }
    destruct (post_of_arms cf Hcf vs st stm [[(n, en)]] t p [x] [x] G HTab A) as (P & Pt & Ptr).
    assert (put_entry s2 t n en = copy_tables s2 t [[(n, en)]]) as Ep by (cbn [copy_tables copy_table fst snd]; destruct (put_entry s2 t n en); reflexivity).
    change (fs_st stm) with s2 in *. change (fs_calls stm) with (fs_calls st1) in *. rewrite <- Ep in P, Pt, Ptr. fold n in E. fold en in E. fold s2 in E. cbv zeta in E. injection E as <- <-.
    split; [exact P|]. intros HC. set (stf := FSt (fst (put_entry s2 t n en)) (fs_calls st1)) in *.
    assert (agrees I (V stf) (V stm)) as Vf by (apply V_same; intros s _; apply Ptr, (nm_any cf Hcf)).
    assert (consistent I (fs_st st) s2) as HC2.
    { intros m u Hm N Em. apply (HC m u); [rewrite Pt; exact Hm|exact N|]. rewrite Ptr; [exact Em|]. exact (proj1 (Forall_forall _ _) (g_any _ Gm) m Hm). }
    assert (V stm x = if holds I p then eval I raw else V st x) as Vx.
    { unfold V. rewrite (proj2 (mem_in x vs) Hx). cbn [fs_st stm]. fold n. rewrite Kt, ET2, tv_graft by assumption. destruct (holds I p); [|reflexivity]. cbn [tree_value eval].
      rewrite (HC2 rr raw); [now apply tv_eval|rewrite Kts; apply in_or_app; right; now left| |exact Kr]. intros Hin. apply Rn, (e_terms _ _ _ X), Hin. }
    assert (forall s, s <> x -> V stm s = V st s) as Vo.
    { intros s N. unfold V. destruct (mem s vs) eqn:Em; [|reflexivity]. apply mem_in in Em. cbn [fs_st stm]. now rewrite (tree_of_eq (fs_st st) s2 (nm s) (Kv s Em N)). }
    destruct (holds I p) eqn:Hh.
    - exists (eval I raw). split.
      + apply M. apply (cons_left I (fs_st st) (fs_st st1) s2 HC2 (w_terms _ _ _ W1)). intros m Hm N. apply K2m; [exact Hm|]. intros ->. contradiction.
      + intros s. rewrite Vf. unfold assign_to. destruct (String.eqb_spec s x) as [->|N]; [exact Vx|exact (Vo s N)].
    - intros s. rewrite Vf. destruct (string_dec s x) as [->|N]; [exact Vx|exact (Vo s N)].
  Qed.

  (** ** conditions *)
  Lemma cond_ready st c cd : Ready st -> pure true c = true -> (forall s, In s (ids c) -> vis s = true) -> cond_tree array times k cf st c = Ok cd -> fine cd /\ means I count a ret g c (eval I cd).
  Proof.
    intros R Hc Hv E. unfold cond_tree in E. apply bind_ok in E as (t & E1 & E). pose proof R as (G & _). pose proof (mk_fine array times k cf Hcf c Hc st t G E1) as F. split.
    - destruct (keep_fine k array t F) as (t' & K1 & K2). congruence.
    - assert (mkS array times k call cf st c = Ok (st, t)) as E2 by (rewrite (mk_pure array times k call cf true c Hc st), E1; reflexivity).
      destruct (mk_ok I array times count k Ht call cf Hcf vis fr g g0 a arr Hvis Hfr ret Hcall c st st t R (pure_casts _ _ Hc) Hv E2) as (_ & _ & _ & M). rewrite (keep_value k array I HN _ _ E). apply M. intros n u Hn N. contradiction.
  Qed.
  Lemma holds_end p cd b : holds I (p ++ [(cd, b)]) = holds I p && Bool.eqb (i_truth I (eval I cd)) b.
  Proof. rewrite holds_app. unfold holds at 2. cbn [forallb fst snd]. now rewrite andb_true_r. Qed.
  Lemma path_end p cd b : good_path p -> fine cd -> good_path (p ++ [(cd, b)]).
  Proof. intros H F. apply Forall_app. split; [exact H|]. constructor; [exact (fine_good _ F)|constructor]. Qed.

  (** ** statements *)
  Definition Main (x : fstmt) : Prop := forall under st p t w w' st' t', Inv st p w -> Tab st t -> (under = false -> p = []) -> plain_body under x = true -> settles x = true ->
    (forall s, In s (reads x) -> vis s = true) -> (forall s, In s (assigned x) -> In s vs) -> places x w = Some w' -> visit st p t x = Ok (st', t') ->
    Post st st' t t' p (assigned x) (direct x) /\ placed st' p w' /\
    (consistent I (fs_st st) (fs_st st') -> if holds I p then runs I ev x (V st) (V st') else agrees I (V st') (V st)).
  Lemma inv_next st st' p q asg w w' : Inv st p w -> Core st st' q asg -> good_path q -> forall r, good_path r -> placed st' r w' -> Inv st' r w'.
  Proof.
    intros [R D S Gp Pl] C Gq r Gr Pl'. constructor; auto.
    - exact (ready_grow I array cf Hcf vis fr g g0 a arr Hvis Hfr st st' R (c_grow _ _ _ _ _ _ C)).
    - exact (decl_grow _ _ _ _ (c_grow _ _ _ _ _ _ C) D).
    - exact (c_shape _ _ _ _ _ _ C).
  Qed.
  Definition ovisit (st : fstate) (p : path) (y : option fstmt) : res (fstate * btable) := match y with None => Ok (st, []) | Some y => visit st p [] y end.
  Definition runs_or (p : path) (st st' : fstate) (P : Prop) : Prop := if holds I p then P else agrees I (V st') (V st).
  Lemma arm y : (forall y', y = Some y' -> Main y') -> forall st p w st' u, Inv st p w -> opt true (plain_body true) y = true -> opt true settles y = true ->
    (forall s, In s (opt [] reads y) -> vis s = true) -> (forall s, In s (opt [] assigned y) -> In s vs) -> opt (Some w) (fun y => places y w) y <> None -> ovisit st p y = Ok (st', u) ->
    Arms st st' [u] p (opt [] assigned y) (opt [] direct y) /\
    (consistent I (fs_st st) (fs_st st') -> runs_or p st st' (runs_opt I ev y (V st) (V st'))).
  Proof.
    intros Hy st p w st' u H Hb Hs Hr Ha Hp E. destruct y as [y|]; cbn [opt ovisit] in *.
    - destruct (places y w) as [w'|] eqn:Ep; [|congruence].
      destruct (Hy y eq_refl true st p [] w w' st' u H (tab_nil cf vs st) ltac:(discriminate) Hb Hs Hr Ha Ep E) as (P & _ & K). split; [exact (post_arms cf vs _ _ _ _ _ _ P)|exact K].
    - injection E as <- <-. split; [|intros _; unfold runs_or; destruct (holds I p); apply agrees_refl]. apply arms_nil; [apply (i_ready _ _ _ H)|exact (i_shape _ _ _ H)|now right].
  Qed.

  Fixpoint ivisit (comp : expr) (st : fstate) (p : path) (l : list (option (list expr) * option fstmt)) : res (fstate * list btable) :=
    match l with
    | [] => Ok (st, [])
    | (g1, y) :: l' =>
        do c <- case_cond comp g1;
        do cd <- cond_tree array times k cf st c;
        do q1 <- ovisit st (p ++ [(cd, true)]) y;
        match l' with
        | [] => Ok (fst q1, [snd q1])
        | _ => do q2 <- ivisit comp (fst q1) (p ++ [(cd, false)]) l'; Ok (fst q2, snd q1 :: [] :: snd q2)
        end
    end.
  Lemma visit_case st p t comp l : visit st p t (FCase comp l) = do q <- ivisit comp st p l; let r := copy_tables (fs_st (fst q)) t (snd q) in Ok (FSt (fst r) (fs_calls (fst q)), snd r).
  Proof.
    cbn [fvisit]. f_equal. revert st p. induction l as [|[g1 y] l IH]; intros st p; [reflexivity|]. cbn [ivisit].
    destruct (case_cond comp g1) as [c|e]; [|reflexivity]. cbn [bind]. destruct (cond_tree array times k cf st c) as [cd|e]; [|reflexivity]. cbn [bind]. unfold ovisit.
    destruct (match y with None => Ok (st, []) | Some y0 => visit st (p ++ [(cd, true)]) [] y0 end) as [q1|e]; [|reflexivity]. cbn [bind].
    destruct l as [|gy l]; [reflexivity|]. now rewrite (IH (fst q1) (p ++ [(cd, false)])).
  Qed.
  Fixpoint visits (st : fstate) (p : path) (u : btable) (l : list fstmt) : res (fstate * btable) :=
    match l with [] => Ok (st, u) | y :: l' => do q <- visit st p u y; visits (fst q) p (snd q) l' end.
  Lemma visit_block st p t l : visit st p t (FBlock l) = do q <- visits st p [] l; Ok (fst q, t).
  Proof.
    cbn [fvisit]. f_equal. generalize (@nil (chain * entry)) as u. revert st. induction l as [|y l IH]; intros st u; [reflexivity|]. cbn [visits].
    destruct (visit st p u y) as [q|e]; [|reflexivity]. cbn [bind]. apply IH.
  Qed.
  Fixpoint iplaces (l : list (option (list expr) * option fstmt)) (w : fenv) : option fenv :=
    match l with
    | [] => Some w
    | (_, y) :: r => obind (opt (Some w) (fun y => places y (in_arm [] w)) y) (fun _ => iplaces r (in_arm (opt [] assigned y) w))
    end.
  Lemma places_case comp l w : places (FCase comp l) w = obind (iplaces l w) (fun _ => Some (out_of (assigned (FCase comp l)) w)).
  Proof. cbn [places]. f_equal. Qed.
  Fixpoint isettles (l : list (option (list expr) * option fstmt)) : bool :=
    match l with
    | [] => true
    | gy :: r => opt true settles (snd gy) && later_direct (opt [] direct (snd gy)) (flat_map (fun gy => opt [] assigned (snd gy)) r) (flat_map (fun gy => opt [] direct (snd gy)) r) && isettles r
    end.
  Fixpoint bplaces (l : list fstmt) (w : fenv) : option fenv := match l with [] => Some w | y :: r => obind (places y w) (bplaces r) end.
  Lemma later_in d b e s : later_direct d b e = true -> In s d -> In s b -> In s e.
  Proof.
    unfold later_direct. rewrite forallb_forall. intros H Hd Hb. specialize (H s Hd). apply mem_in. apply mem_in in Hb. rewrite Hb in H. exact H.
  Qed.
  Lemma arm_places y w : opt (Some w) (fun y => places y (in_arm [] w)) y <> None -> forall w0 : fenv, opt (Some w0) (fun y => places y (in_arm [] w)) y <> None.
  Proof. destruct y; cbn [opt]; [auto|discriminate]. Qed.

  Lemma items comp : pure true comp = true -> (forall s, In s (ids comp) -> vis s = true) -> forall l, Forall (fun gy => forall y, snd gy = Some y -> Main y) l ->
    forall st p w st' tabs, Inv st p w -> forallb (fun gy => opt true (forallb (pure true)) (fst gy) && opt true (plain_body true) (snd gy)) l = true -> isettles l = true ->
    (forall s, In s (flat_map (fun gy => lids (fst gy) ++ opt [] reads (snd gy)) l) -> vis s = true) -> (forall s, In s (flat_map (fun gy => opt [] assigned (snd gy)) l) -> In s vs) ->
    iplaces l w <> None -> ivisit comp st p l = Ok (st', tabs) ->
    Arms st st' tabs p (flat_map (fun gy => opt [] assigned (snd gy)) l) (flat_map (fun gy => opt [] direct (snd gy)) l) /\
    (consistent I (fs_st st) (fs_st st') -> forall y, means I count a ret g comp y -> runs_or p st st' (runs_items I ev y l (V st) (V st'))).
  Proof.
    intros Hcp Hcv l IH. induction IH as [|[g1 y] l Hy Hl IH]; intros st p w st' tabs H Hb Hs Hr Ha Hp E; cbn [ivisit] in E.
    - injection E as <- <-. split; [apply arms_nil; [apply (i_ready _ _ _ H)|exact (i_shape _ _ _ H)|now left]|]. intros _ y _. unfold runs_or. destruct (holds I p); apply agrees_refl.
    - cbn [forallb isettles fst snd flat_map iplaces] in *. apply andb_true_iff in Hb as [Hb Hbl]. apply andb_true_iff in Hb as [Hg Hby]. apply andb_true_iff in Hs as [Hs Hsl]. apply andb_true_iff in Hs as [Hsy Hlt].
      apply bind_ok in E as (c & Ec & E). apply bind_ok in E as (cd & Ed & E). apply bind_ok in E as ([st1 u1] & E1 & E). cbn [fst snd] in E.
      destruct (item_value I count HT HL a ret g (means I count a ret g) comp g1 c (V st) Hcp Hg Ec) as (Pc & Ic & Mc).
      assert (forall s, In s (ids c) -> vis s = true) as Hvc by (intros s Hi; destruct (Ic s Hi) as [K|K]; [exact (Hcv s K)|apply Hr; rewrite !in_app_iff; auto]).
      destruct (cond_ready st c cd (i_ready _ _ _ H) Pc Hvc Ed) as [Fd Md]. pose proof (proj1 (proj1 (fine_good _ Fd))) as Dd.
      pose proof (i_path _ _ _ H) as Gp. pose proof (good_path_ok _ Gp) as Pp. pose proof (path_end p cd true Gp Fd) as G1. pose proof (path_end p cd false Gp Fd) as G2.
      assert (opt (Some w) (fun y => places y (in_arm [] w)) y <> None /\ iplaces l (in_arm (opt [] assigned y) w) <> None) as [Fy Fl] by (destruct (opt (Some w) (fun y => places y (in_arm [] w)) y); cbn [obind] in Hp; split; congruence).
      pose proof (core_refl cf vs st (p ++ [(cd, negb true)]) (proj1 (i_ready _ _ _ H)) (i_shape _ _ _ H)) as C0.
      pose proof (inv_next st st p _ [] w (in_arm [] w) H C0 G2 (p ++ [(cd, true)]) G1 (placed_arm cf vs st st p cd true [] w (i_decl _ _ _ H) Pp Dd (i_placed _ _ _ H) C0)) as In1.
      destruct (arm y Hy st (p ++ [(cd, true)]) (in_arm [] w) st1 u1 In1 Hby Hsy (fun s Hi => Hr s ltac:(rewrite !in_app_iff; auto)) (fun s Hi => Ha s ltac:(rewrite !in_app_iff; auto)) (arm_places y w Fy _) E1) as [A1 V1].
      assert (Inv st1 (p ++ [(cd, false)]) (in_arm (opt [] assigned y) w)) as In2.
      { refine (inv_next st st1 p (p ++ [(cd, true)]) _ w _ H (a_core _ _ _ _ _ _ _ _ A1) G1 (p ++ [(cd, false)]) G2 _). exact (placed_arm cf vs st st1 p cd false _ w (i_decl _ _ _ H) Pp Dd (i_placed _ _ _ H) (a_core _ _ _ _ _ _ _ _ A1)). }
      assert (exists tabs2, Arms st1 st' tabs2 (p ++ [(cd, false)]) (flat_map (fun gy => opt [] assigned (snd gy)) l) (flat_map (fun gy => opt [] direct (snd gy)) l) /\
        (tabs = u1 :: tabs2 \/ tabs = u1 :: [] :: tabs2) /\
        (consistent I (fs_st st1) (fs_st st') -> forall y, means I count a ret g comp y -> runs_or (p ++ [(cd, false)]) st1 st' (runs_items I ev y l (V st1) (V st')))) as (tabs2 & A2 & Et & V2).
      { destruct l as [|gy l].
        - injection E as <- <-. exists []. split; [apply arms_nil; [apply (i_ready _ _ _ In2)|exact (i_shape _ _ _ In2)|now left]|]. split; [now left|]. intros _ y0 _. unfold runs_or. destruct (holds I (p ++ [(cd, false)])); apply agrees_refl.
        - apply bind_ok in E as ([st2 tabs2] & E2 & E). cbn [fst snd] in E. injection E as <- <-. exists tabs2.
          destruct (IH st1 (p ++ [(cd, false)]) (in_arm (opt [] assigned y) w) st2 tabs2 In2 Hbl Hsl (fun s Hi => Hr s ltac:(rewrite !in_app_iff; auto)) (fun s Hi => Ha s ltac:(rewrite !in_app_iff; auto)) Fl E2) as [A2 V2]. auto. }
      assert (Arms st st' tabs p (opt [] assigned y ++ flat_map (fun gy => opt [] assigned (snd gy)) l) (opt [] direct y ++ flat_map (fun gy => opt [] direct (snd gy)) l)) as AA.
      { assert (forall s, In s (opt [] direct y) -> In s (flat_map (fun gy => opt [] assigned (snd gy)) l) -> In s (flat_map (fun gy => opt [] direct (snd gy)) l)) as Hlt' by (intros s; exact (later_in _ _ _ s Hlt)).
        pose proof (arms_app cf Hcf vs st st1 st' [u1] tabs2 p [(cd, true)] [(cd, false)] _ _ _ _ Pp (i_decl _ _ _ H) Hlt' A1 A2) as AA. destruct Et as [Et|Et]; rewrite Et; [exact AA|].
        destruct AA as [B1 B2 B3 B4 B5]. constructor; auto; [|intros s Hv; specialize (B3 s Hv)|intros n Hn; specialize (B4 n Hn)].
        - inversion B2 as [|? ? X1 X2]; subst. constructor; [exact X1|]. constructor; [split; constructor|exact X2].
        - cbn [map app dget] in *. destruct B3 as [X1 X2]. split; [destruct (dget u1 (nm s)) as [[|q]|]; cbn [disciplined] in *|cbn [last_entry] in *; destruct (last_entry (map (fun u => dget u (nm s)) tabs2)); exact X2].
          + split; [exact (proj1 X1)|constructor; [discriminate|exact (proj2 X1)]].
          + constructor; [discriminate|exact X1].
          + exact X1.
        - cbn [map app dget last_entry] in *. destruct (last_entry (map (fun u => dget u n) tabs2)); exact B4. }
      split; [exact AA|]. intros HC y0 My.
      destruct (core_cons cf vs I st st1 st' _ _ _ _ (i_decl _ _ _ H) (a_core _ _ _ _ _ _ _ _ A1) (a_core _ _ _ _ _ _ _ _ A2) HC) as [HC1 HC2]. specialize (V1 HC1). specialize (V2 HC2 y0 My). specialize (Mc y0 _ My Md).
      unfold runs_or in *. rewrite holds_end in V1, V2. destruct (holds I p); cbn [andb] in *; [|exact (agrees_trans I _ _ _ V2 V1)]. cbn [runs_items]. exists (i_truth I (eval I cd)). split; [exact Mc|].
      destruct (i_truth I (eval I cd)); cbn [Bool.eqb] in *; [exact (opt_end I _ y _ _ _ V2 V1)|]. exact (items_start I _ y0 l _ _ _ (agrees_sym I _ _ V1) V2).
  Qed.

  Lemma main x : Main x.
  Proof.
    induction x as [s e|l IH|c th el IHt IHe|comp l IH] using fstmt_ind'; intros under st p t w w' st' t' H HTab Hu Hb Hs Hr Ha Hp E.
    - cbn [plain_body reads assigned places] in *. assert (In s vs) as Hx by (apply Ha; now left).
      assert (w s <> BFar /\ w' = out_of [s] w) as [Hw ->] by (destruct (w s); split; congruence).
      destruct (assign_arms st p t w s e under st' t' H HTab Hu Hb Hr Hx Hw E) as [P K]. split; [exact P|]. split; [|exact K].
      exact (placed_out cf vs st st' p [s] w (i_decl _ _ _ H) (good_path_ok _ (i_path _ _ _ H)) (i_placed _ _ _ H) (q_core _ _ _ _ _ _ _ _ _ P)).
    - rewrite visit_block in E. apply bind_ok in E as ([st1 u] & E & E1). cbn [fst snd] in E1. injection E1 as <- <-.
      assert (bplaces l w = Some w') as Hp' by exact Hp. clear Hp. cbn [plain_body settles reads assigned direct] in *.
      assert (forall st w u0 st' u, Inv st p w -> Tab st u0 -> bplaces l w = Some w' -> visits st p u0 l = Ok (st', u) -> Core st st' p (flat_map assigned l) /\ placed st' p w' /\
        (consistent I (fs_st st) (fs_st st') -> if holds I p then runs_block I ev l (V st) (V st') else agrees I (V st') (V st))) as K.
      { clear st w t st1 u H HTab Hp' E. induction IH as [|y l Hy _ IHl]; intros st w u0 st' u H HTab Hp E; cbn [visits bplaces forallb flat_map] in *.
        - injection E as <- <-. injection Hp as <-. split; [apply core_refl; [apply (i_ready _ _ _ H)|exact (i_shape _ _ _ H)]|]. split; [exact (i_placed _ _ _ H)|]. intros _. destruct (holds I p); apply agrees_refl.
        - apply bind_ok in E as ([st1 u1] & E1 & E). cbn [fst snd] in E. destruct (places y w) as [w1|] eqn:Ep; [|discriminate Hp]. cbn [obind] in Hp. apply andb_true_iff in Hb as [Hb1 Hb2]. apply andb_true_iff in Hs as [Hs1 Hs2].
          destruct (Hy under st p u0 w w1 st1 u1 H HTab Hu Hb1 Hs1 (fun s Hi => Hr s (in_or_app _ _ _ (or_introl Hi))) (fun s Hi => Ha s (in_or_app _ _ _ (or_introl Hi))) Ep E1) as (P & Pl1 & V1).
          pose proof (q_core _ _ _ _ _ _ _ _ _ P) as C1. pose proof (i_path _ _ _ H) as Gp. pose proof (inv_next st st1 p p _ w w1 H C1 Gp p Gp Pl1) as H1.
          destruct (IHl Hb2 Hs2 (fun s Hi => Hr s (in_or_app _ _ _ (or_intror Hi))) (fun s Hi => Ha s (in_or_app _ _ _ (or_intror Hi))) st1 w1 u1 st' u H1 (q_tab _ _ _ _ _ _ _ _ _ P) Hp E) as (C2 & Pl2 & V2).
          pose proof C1 as C1'. pose proof C2 as C2'. rewrite <- (app_nil_r p) in C1', C2'. split; [exact (core_app cf vs st st1 st' p [] [] _ _ (good_path_ok _ Gp) (i_decl _ _ _ H) C1' C2')|]. split; [exact Pl2|].
          intros HC. destruct (core_cons cf vs I st st1 st' _ _ _ _ (i_decl _ _ _ H) C1 C2 HC) as [HC1 HC2]. specialize (V1 HC1). specialize (V2 HC2). destruct (holds I p); [|exact (agrees_trans I _ _ _ V2 V1)]. cbn [runs_block]. exists (V st1). auto. }
      destruct (K st w [] st1 u H (tab_nil cf vs st) Hp' E) as (C & Pl & Vl). split; [|split; [exact Pl|]].
      + constructor; [exact C|exact (tab_core cf vs _ _ _ _ _ (i_decl _ _ _ H) C HTab)|reflexivity|intros s []|intros s _ J; left; exact J|intros s []].
      + intros HC. specialize (Vl HC). destruct (holds I p); [|exact Vl]. now apply run_block.
    - cbn [plain_body settles reads places] in Hb, Hs, Hr, Hp. change (assigned (FIf c th el)) with (opt [] assigned th ++ opt [] assigned el) in *. change (direct (FIf c th el)) with (opt [] direct th ++ opt [] direct el).
      apply andb_true_iff in Hb as [Hb Hbe]. apply andb_true_iff in Hb as [Hc Hbt]. apply andb_true_iff in Hs as [Hs Hlt]. apply andb_true_iff in Hs as [Hst Hse].
      assert (opt (Some w) (fun y => places y (in_arm [] w)) th <> None /\ opt (Some w) (fun y => places y (in_arm (opt [] assigned th) w)) el <> None /\ w' = out_of (opt [] assigned th ++ opt [] assigned el) w) as (Fy & Fl & ->).
      { destruct (opt (Some w) (fun y => places y (in_arm [] w)) th); cbn [obind] in Hp; [|discriminate Hp]. destruct (opt (Some w) (fun y => places y (in_arm (opt [] assigned th) w)) el); cbn [obind] in Hp; [|discriminate Hp]. injection Hp as <-. split; [discriminate|]. split; [discriminate|reflexivity]. }
      clear Hp. cbn [fvisit] in E. apply bind_ok in E as (cd & Ed & E). apply bind_ok in E as ([st1 u1] & E1 & E). apply bind_ok in E as ([st2 u2] & E2 & E). cbn [fst snd] in *.
      change (ovisit st (p ++ [(cd, true)]) th = Ok (st1, u1)) in E1. assert (ovisit st1 (p ++ [(cd, false)]) el = Ok (st2, u2)) as E2' by (destruct el; [destruct th; [exact E2|discriminate E2]|exact E2]). clear E2.
      destruct (cond_ready st c cd (i_ready _ _ _ H) Hc (fun s Hi => Hr s ltac:(rewrite !in_app_iff; auto)) Ed) as [Fd Md]. pose proof (proj1 (proj1 (fine_good _ Fd))) as Dd.
      pose proof (i_path _ _ _ H) as Gp. pose proof (good_path_ok _ Gp) as Pp. pose proof (path_end p cd true Gp Fd) as G1. pose proof (path_end p cd false Gp Fd) as G2.
      pose proof (core_refl cf vs st (p ++ [(cd, negb true)]) (proj1 (i_ready _ _ _ H)) (i_shape _ _ _ H)) as C0.
      pose proof (inv_next st st p _ [] w (in_arm [] w) H C0 G2 (p ++ [(cd, true)]) G1 (placed_arm cf vs st st p cd true [] w (i_decl _ _ _ H) Pp Dd (i_placed _ _ _ H) C0)) as In1.
      destruct (arm th IHt st (p ++ [(cd, true)]) (in_arm [] w) st1 u1 In1 Hbt Hst (fun s Hi => Hr s ltac:(rewrite !in_app_iff; auto)) (fun s Hi => Ha s ltac:(rewrite !in_app_iff; auto)) (arm_places th w Fy _) E1) as [A1 V1].
      assert (Inv st1 (p ++ [(cd, false)]) (in_arm (opt [] assigned th) w)) as In2.
      { refine (inv_next st st1 p (p ++ [(cd, true)]) _ w _ H (a_core _ _ _ _ _ _ _ _ A1) G1 (p ++ [(cd, false)]) G2 _). exact (placed_arm cf vs st st1 p cd false _ w (i_decl _ _ _ H) Pp Dd (i_placed _ _ _ H) (a_core _ _ _ _ _ _ _ _ A1)). }
      assert (opt (Some (in_arm (opt [] assigned th) w)) (fun y => places y (in_arm (opt [] assigned th) w)) el <> None) as Fl' by (destruct el; cbn [opt] in *; [exact Fl|discriminate]).
      destruct (arm el IHe st1 (p ++ [(cd, false)]) (in_arm (opt [] assigned th) w) st2 u2 In2 Hbe Hse (fun s Hi => Hr s ltac:(rewrite !in_app_iff; auto)) (fun s Hi => Ha s ltac:(rewrite !in_app_iff; auto)) Fl' E2') as [A2 V2].
      assert (forall s, In s (opt [] direct th) -> In s (opt [] assigned el) -> In s (opt [] direct el)) as Hlt' by (intros s; exact (later_in _ _ _ s Hlt)).
      pose proof (arms_app cf Hcf vs st st1 st2 [u1] [u2] p [(cd, true)] [(cd, false)] _ _ _ _ Pp (i_decl _ _ _ H) Hlt' A1 A2) as AA. cbn [app] in AA.
      destruct (post_of_arms cf Hcf vs st st2 [u1; u2] t p _ _ (proj1 (i_ready _ _ _ H)) HTab AA) as (P & Pt & Ptr). cbv zeta in *. injection E as <- <-.
      set (stf := FSt (fst (copy_tables (fs_st st2) t [u1; u2])) (fs_calls st2)) in *. split; [exact P|]. split; [exact (placed_out cf vs st stf p _ w (i_decl _ _ _ H) Pp (i_placed _ _ _ H) (q_core _ _ _ _ _ _ _ _ _ P))|].
      intros HC. assert (agrees I (V stf) (V st2)) as Vf by (apply V_same; intros s _; apply Ptr, (nm_any cf Hcf)).
      assert (consistent I (fs_st st) (fs_st st2)) as HC0.
      { intros m q Hm N Em. apply (HC m q); [rewrite <- Pt in Hm; exact Hm|exact N|]. change (dget (trees stf) m = Some q). rewrite Ptr; [exact Em|]. exact (proj1 (Forall_forall _ _) (g_any _ (w_good _ _ _ (c_grow _ _ _ _ _ _ (a_core _ _ _ _ _ _ _ _ AA)))) m Hm). }
      destruct (core_cons cf vs I st st1 st2 _ _ _ _ (i_decl _ _ _ H) (a_core _ _ _ _ _ _ _ _ A1) (a_core _ _ _ _ _ _ _ _ A2) HC0) as [HC1 HC2]. specialize (V1 HC1). specialize (V2 HC2).
      unfold runs_or in V1, V2. rewrite holds_end in V1, V2. destruct (holds I p); cbn [andb] in *; [|exact (agrees_trans I _ _ _ Vf (agrees_trans I _ _ _ V2 V1))]. exists (eval I cd). split; [exact Md|].
      destruct (i_truth I (eval I cd)); cbn [Bool.eqb] in *.
      + exact (opt_end I _ th _ _ _ (agrees_trans I _ _ _ Vf V2) V1).
      + exact (opt_start I _ el _ _ _ (agrees_sym I _ _ V1) (opt_end I _ el _ _ _ Vf V2)).
    - rewrite places_case in Hp. destruct (iplaces l w) as [w1|] eqn:Ep; [|discriminate Hp]. cbn [obind] in Hp. injection Hp as <-.
      cbn [plain_body reads] in Hb, Hr. assert (isettles l = true) as Hs' by exact Hs. apply andb_true_iff in Hb as [Hc Hbl].
      rewrite visit_case in E. apply bind_ok in E as ([st2 tabs] & E2 & E). cbn [fst snd] in E. cbv zeta in E.
      assert (iplaces l w <> None) as Fl by congruence.
      destruct (items comp Hc (fun s Hi => Hr s (in_or_app _ _ _ (or_introl Hi))) l IH st p w st2 tabs H Hbl Hs' (fun s Hi => Hr s (in_or_app _ _ _ (or_intror Hi))) Ha Fl E2) as [AA V2].
      destruct (post_of_arms cf Hcf vs st st2 tabs t p _ _ (proj1 (i_ready _ _ _ H)) HTab AA) as (P & Pt & Ptr). cbv zeta in *. injection E as <- <-.
      pose proof (good_path_ok _ (i_path _ _ _ H)) as Pp.
      set (stf := FSt (fst (copy_tables (fs_st st2) t tabs)) (fs_calls st2)) in *. split; [exact P|]. split; [exact (placed_out cf vs st stf p _ w (i_decl _ _ _ H) Pp (i_placed _ _ _ H) (q_core _ _ _ _ _ _ _ _ _ P))|].
      intros HC. assert (agrees I (V stf) (V st2)) as Vf by (apply V_same; intros s _; apply Ptr, (nm_any cf Hcf)).
      assert (consistent I (fs_st st) (fs_st st2)) as HC0.
      { intros m q Hm N Em. apply (HC m q); [rewrite <- Pt in Hm; exact Hm|exact N|]. change (dget (trees stf) m = Some q). rewrite Ptr; [exact Em|]. exact (proj1 (Forall_forall _ _) (g_any _ (w_good _ _ _ (c_grow _ _ _ _ _ _ (a_core _ _ _ _ _ _ _ _ AA)))) m Hm). }
      destruct (means_total I count a ret g true comp Hc) as (y & My). specialize (V2 HC0 y My). unfold runs_or in V2. destruct (holds I p); [|exact (agrees_trans I _ _ _ Vf V2)].
      apply run_case. exists y. split; [exact My|]. clear -V2 Vf. induction l as [|[g1 z] l IHl]; cbn [runs_items] in *; [exact (agrees_trans I _ _ _ Vf V2)|]. destruct V2 as (b & B1 & B2). exists b. split; [exact B1|]. destruct b; [exact (opt_end I _ z _ _ _ Vf B2)|exact (IHl B2)].
  Qed.
End Visit.
