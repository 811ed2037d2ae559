(** FunProofs5.v - calls, and continuous assignments with calls. *)
From Verif Require Import Base ScopeModel ScopeSpec ScopeProofs ScopeFlat DfModel DfSpec DfProofs ReorderModel ReorderSpec ReorderProofs BindModel BindSpec BindProofs AsgModel AsgSpec AsgProofs ExprModel MkModel MkProps BlkModel BlkSpec BlkProofs BlkProofs2 BlkProofs3 FunModel FunSpec FunProofs FunProofs2 FunProofs3 FunProofs4.

Lemma append_inj a x y : (a ++ x)%string = (a ++ y)%string -> x = y.
Proof. induction a as [|c a IH]; cbn [append]; intros H; [exact H|]. injection H as H. auto. Qed.
Lemma frame_inj c d : (0 <= c)%Z -> (0 <= d)%Z -> frame c = frame d -> c = d.
Proof. intros Hc Hd H. unfold frame in H. apply (f_equal sname) in H. cbn [sname] in H. apply append_inj in H. exact (nat_str_inj c d Hc Hd H). Qed.
Lemma frame_any c : no_any [frame c].
Proof. constructor; [discriminate|constructor]. Qed.
Lemma frame_lt c d b : (0 <= b)%Z -> (c < b)%Z -> (0 <= c)%Z -> frame d = frame c -> (d < b)%Z.
Proof. intros Hb Hc H0 E. destruct (Z_lt_ge_dec d 0) as [N|N]; [lia|]. apply frame_inj in E; lia. Qed.
Lemma fold_declare l : forall st, terms (fold_left declare l st) = terms st ++ l /\ trees (fold_left declare l st) = trees st /\ fs_calls (fold_left declare l st) = fs_calls st.
Proof.
  induction l as [|n l IH]; intros st; cbn [fold_left]; [now rewrite app_nil_r|]. destruct (IH (declare st n)) as (A & B & C). rewrite A, B, C. cbn [declare fs_st bs_terms bs_trees fs_calls]. rewrite <- app_assoc. auto.
Qed.
Lemma F2_and {A B} (P Q : A -> B -> Prop) l m : Forall2 P l m -> (forall a b, P a b -> Q a b) -> Forall2 Q l m.
Proof. intros H K. induction H; constructor; auto. Qed.

Section Calls.
  Variable I : interp.
  Variable array : chain -> bool.
  Variable times : expr -> res Z.
  Variable count : expr -> Z.
  Variable k : nat.
  Hypothesis Ht : forall e c, times e = Ok c -> count e = c.
  Hypothesis HN : none_strict I.
  Hypothesis HT : i_truth I (i_const I (DInt "1")) = true.
  Hypothesis HL : forall x y, i_truth I (i_op I Lor [x; y]) = i_truth I x || i_truth I y.
  Variable funcs : list func.
  Hypothesis Hfuncs : Forall (func_ok funcs) funcs.
  Hypothesis Harr : forall n c, In (frame c) n -> array n = false.
  Variable g0 : string -> dom I.
  Variable arr : string -> bool.
  Definition fr (s : string) : bool := user s && free_name funcs s.
  Lemma fr_user s : fr s = true -> user s = true.
  Proof. intros H. apply andb_true_iff in H. apply H. Qed.

  (** ** arguments *)
  Section Args.
    Variable call : fstate -> chain -> string -> list expr -> res (fstate * chain).
    Variable sc : chain.
    Hypothesis Hsc : no_any sc.
    Variables (vis : string -> bool) (g : string -> dom I) (a : string -> bool).
    Hypothesis Hvis : forall s, vis s = true -> user s = true.
    Variable ret : string -> list (dom I) -> dom I -> Prop.
    Hypothesis Hcall : forall st f args st' n, Good st -> sees I array st sc vis g a -> sees I array st sc fr g0 arr -> (forall c, In (frame c) sc -> (c < fs_calls st)%Z) -> forallb casts args = true -> (forall s, In s (flat_map ids args) -> vis s = true) ->
      call st sc f args = Ok (st', n) -> Ext sc st st' /\ array n = false /\
        (consistent I (fs_st st) (fs_st st') -> exists ys, each I (means I count a ret g) args ys /\ ret f ys (i_term I n)).
    Notation Ready := (Ready I array sc vis fr g g0 a arr).
    Lemma flow_ok st n e st' : Ready st -> In n (terms st) -> no_any n -> casts e = true -> (forall s, In s (ids e) -> vis s = true) -> addDataflow array times k call sc st n e = Ok st' ->
      Grow sc st st' /\ (forall m, In m (terms st) -> m <> n -> dget (trees st') m = dget (trees st) m) /\
      exists t st1, dget (trees st') n = Some t /\ leaves_present t = true /\ terms st' = terms st1 /\ Ext sc st st1 /\ (forall m, no_any m -> m <> n -> dget (trees st') m = dget (trees st1) m) /\
        (consistent I (fs_st st) (fs_st st1) -> means I count a ret g e (eval I t)).
    Proof.
      intros R Hn Ha Hc Hv E. unfold addDataflow in E. apply bind_ok in E as (q & E1 & E). apply bind_ok in E as (t & E2 & E). apply bind_ok in E as (t' & E3 & E). injection E as <-.
      assert (path_ok []) as P0 by constructor. rewrite (insert_ins _ _ _ P0), ins_nil in E2. injection E2 as <-.
      assert (stable true (snd q) = true) as Sq by (unfold getTreeS in E1; apply bind_ok in E1 as (u & _ & E1); apply bind_ok in E1 as (u' & _ & E1); apply bind_ok in E1 as (u'' & E4 & E1); injection E1 as <-; exact (reorder_stable _ _ _ E4)).
      apply stable_id in E3; [|exact Sq]. subst t'.
      destruct (value_tree I array times count k Ht HN call sc Hsc vis fr g g0 a arr Hvis fr_user ret Hcall st [] false e ltac:(constructor) (fun _ => eq_refl) Hc R Hv q E1) as (X & Lp & M).
      destruct q as [st1 t]. cbn [fst snd] in *. pose proof (e_good _ _ _ X) as G1.
      assert (forall m, no_any m -> dget (trees (put st1 n t)) m = if chain_dec n m then Some t else dget (trees st1) m) as K by (intros m Hm; cbn [put fs_st set_tree bs_trees]; apply dget_dset; auto; apply G1).
      assert (forall m, no_any m -> m <> n -> dget (trees (put st1 n t)) m = dget (trees st1) m) as K' by (intros m Hm N; rewrite K by exact Hm; destruct (chain_dec n m); [congruence|reflexivity]).
      assert (Good (put st1 n t)) as G2.
      { destruct G1 as [A1 A2 A3 A4 A5]. constructor; auto.
        - apply dset_plain; assumption.
        - intros m u Hm Em. cbn [put fs_st set_tree bs_terms]. rewrite K in Em by exact Hm. destruct (chain_dec n m) as [<-|N]; [exact (e_terms _ _ _ X n Hn)|eauto]. }
      split; [|split].
      - destruct (e_grow _ _ _ X) as [W1 W2 W3 W4]. constructor; auto.
      - intros m Hm N. rewrite K'; [exact (e_same _ _ _ X m Hm)| |exact N]. pose proof (e_terms _ _ _ X m Hm) as J. exact (proj1 (Forall_forall _ _) (g_any _ G1) m J).
      - exists t, st1. split; [rewrite K by exact Ha; destruct (chain_dec n n); congruence|]. split; [exact Lp|]. split; [reflexivity|]. split; [exact X|]. split; [exact K'|exact M].
    Qed.
    Variable cf : chain.
    Hypothesis Hcf : no_any cf.
    Lemma args_ok ports : forall args st st', NoDup ports -> Ready st -> (forall p, In p ports -> In (nm cf p) (terms st)) -> length ports = length args -> forallb casts args = true -> (forall s, In s (flat_map ids args) -> vis s = true) ->
      bind_args array times k call sc cf st ports args = Ok st' ->
      Grow sc st st' /\ (forall n, In n (terms st) -> (forall p, In p ports -> n <> nm cf p) -> dget (trees st') n = dget (trees st) n) /\
      exists ts, Forall2 (fun p t => dget (trees st') (nm cf p) = Some t /\ leaves_present t = true) ports ts /\
        (consistent I (fs_st st) (fs_st st') -> Forall2 (fun e t => means I count a ret g e (eval I t)) args ts).
    Proof.
      induction ports as [|p ports IH]; intros [|e args] st st' ND R HP Hl Hc Hv E; cbn [bind_args length] in *; try discriminate Hl.
      - injection E as <-. split; [apply grow_refl, R|]. split; [reflexivity|]. exists []. split; [constructor|]. intros _. constructor.
      - apply bind_ok in E as (stB & E1 & E). cbn [forallb flat_map] in *. apply andb_true_iff in Hc as [Hc1 Hc2]. inversion ND as [|? ? N1 N2]; subst. injection Hl as Hl.
        destruct (flow_ok st (nm cf p) e stB R (HP p (or_introl eq_refl)) (nm_any cf Hcf p) Hc1 (fun s H => Hv s (in_or_app _ _ _ (or_introl H))) E1) as (W1 & S1 & t & stA & T1 & T2 & T3 & T4 & T5 & T6).
        pose proof (ready_grow I array sc Hsc vis fr g g0 a arr Hvis fr_user st stB R W1) as R1.
        destruct (IH args stB st' N2 R1 (fun q Hq => w_terms _ _ _ W1 _ (HP q (or_intror Hq))) Hl Hc2 (fun s H => Hv s (in_or_app _ _ _ (or_intror H))) E) as (W2 & S2 & ts & F1 & F2).
        split; [exact (grow_trans _ _ _ _ W1 W2)|]. split.
        + intros n Hn N. rewrite (S2 n (w_terms _ _ _ W1 n Hn) (fun q Hq => N q (or_intror Hq))). apply S1; [exact Hn|]. apply N. now left.
        + exists (t :: ts). split; [constructor; [split; [|exact T2]|exact F1]|].
          * rewrite S2; [exact T1|apply (w_terms _ _ _ W1), HP; now left|]. intros q Hq J. apply nm_inj in J. subst q. contradiction.
          * intros HC. constructor; [|exact (F2 (cons_right I _ _ _ (w_terms _ _ _ W1) HC))]. apply T6.
            assert (incl (terms stA) (terms st')) as HI by (rewrite <- T3; exact (w_terms _ _ _ W2)). apply (cons_left I _ _ _ HC HI). intros n Hn N. rewrite S2; [|rewrite T3; exact Hn|].
            -- apply T5; [exact (proj1 (Forall_forall _ _) (g_any _ (e_good _ _ _ T4)) n Hn)|]. intros ->. apply N, HP. now left.
            -- intros q Hq ->. apply N, HP. now right.
    Qed.
  End Args.

  (** ** calls *)
  Definition CallOk (m : nat) : Prop := forall sc vis g a, no_any sc -> (forall s, vis s = true -> user s = true) ->
    forall st f args st' n, Good st -> sees I array st sc vis g a -> sees I array st sc fr g0 arr -> (forall c, In (frame c) sc -> (c < fs_calls st)%Z) -> forallb casts args = true -> (forall s, In s (flat_map ids args) -> vis s = true) ->
    call funcs array times k m st sc f args = Ok (st', n) -> Ext sc st st' /\ array n = false /\
      (consistent I (fs_st st) (fs_st st') -> exists ys, each I (means I count a (returns I count funcs arr m g0) g) args ys /\ returns I count funcs arr m g0 f ys (i_term I n)).

  Lemma find_in f fn : List.find (fun fn => String.eqb (fn_name fn) f) funcs = Some fn -> In fn funcs.
  Proof. intros H. exact (proj1 (find_some _ _ H)). Qed.
  Lemma call_ok m : CallOk m.
  Proof.
    induction m as [|m IH]; intros sc vis g a Hsc Hvis st f args st' n G Sv Sf Fr Hc Hv E; [discriminate|]. cbn [call] in E.
    destruct (List.find (fun fn => String.eqb (fn_name fn) f) funcs) as [fn|] eqn:Ef; [|discriminate]. pose proof (find_in f fn Ef) as Hin.
    destruct (proj1 (Forall_forall _ _) Hfuncs fn Hin) as (U & ND & NP & RD & AS & PB & ST & FR & PL).
    assert (forall s, In s (vars fn ++ fn_ports fn ++ reads (fn_body fn)) -> user s = true) as Us by (rewrite forallb_forall in U; exact U).
    destruct (length (fn_ports fn) =? length args)%nat eqn:El; [|discriminate E]. apply Nat.eqb_eq in El. cbn [negb] in E.
    pose proof (g_pos _ G) as Gp. set (c := fs_calls st) in *. set (cf := sc ++ [frame c]) in *.
    assert (no_any cf) as Hcf by (apply no_any_app; split; [exact Hsc|apply frame_any]).
    assert (cf <> []) as Hne by (subst cf; destruct sc; discriminate).
    assert (forall s, nm cf s = sc ++ frame c :: [sig s]) as Nm by (intros s; unfold nm; subst cf; now rewrite <- app_assoc).
    assert (forall s, In (frame c) (nm cf s)) as Nf by (intros s; rewrite Nm; apply in_or_app; right; now left).
    assert (forall s, ~ In (nm cf s) (terms st)) as Fresh by (intros s J; pose proof (g_frames _ G _ c J (Nf s)) as K; fold c in K; lia).
    assert (forall s b, (c < b)%Z -> forall d, In (frame d) (nm cf s) -> (d < b)%Z) as Fd.
    { intros s b Hb d Hd. rewrite Nm in Hd. apply in_app_or in Hd as [Hd|[Hd|[Hd|[]]]]; [specialize (Fr d Hd); lia| |discriminate Hd]. symmetry in Hd. exact (frame_lt c d b ltac:(lia) Hb Gp Hd). }
    assert (forall s, user s = true -> ~ added sc (c + 1) (nm cf s)) as NA.
    { intros s Hs [(i & l & J & P)|(d & r & A & B & J)].
      - unfold nm in J. apply last_inj in J as [_ <-]. cbn [sname sig] in P. unfold user in Hs. rewrite P in Hs. discriminate Hs.
      - rewrite Nm in J. apply app_inv_head in J. injection J as J _. assert (c = d) by (apply frame_inj; [lia|lia|unfold frame; now rewrite J]). lia. }
    set (st1 := declare (FSt (fs_st st) (c + 1)) (cf ++ [sig (fn_name fn)])) in *. set (st2 := fold_left declare (map (fun p => cf ++ [sig p]) (fn_ports fn)) st1) in *.
    destruct (fold_declare (map (fun p => cf ++ [sig p]) (fn_ports fn)) st1) as (Q1 & Q2 & Q3). fold st2 in Q1, Q2, Q3. cbn [st1 declare fs_st bs_terms bs_trees fs_calls] in Q1, Q2, Q3.
    assert (terms st2 = terms st ++ map (nm cf) (fn_name fn :: fn_ports fn)) as T2 by (rewrite Q1, <- app_assoc; reflexivity). clear Q1.
    assert (Good st2) as G2.
    { destruct G as [A1 A2 A3 A4 A5]. constructor.
      - rewrite T2. apply Forall_app. split; [exact A1|]. apply Forall_map, Forall_forall. intros s _. exact (nm_any cf Hcf s).
      - unfold plain_st. rewrite Q2. exact A2.
      - intros x t Hx. rewrite Q2, T2. intros Ex. apply in_or_app. left. eauto.
      - rewrite Q3. lia.
      - intros x d Hx Hd. rewrite Q3. rewrite T2 in Hx. apply in_app_or in Hx as [Hx|Hx]; [specialize (A5 x d Hx Hd); fold c in A5; lia|]. apply in_map_iff in Hx as (s & <- & _). exact (Fd s (c + 1)%Z ltac:(lia) d Hd). }
    assert (Grow sc st st2) as W2.
    { constructor; [exact G2| | |fold c; rewrite Q3; lia].
      - rewrite T2. intros x Hx. apply in_or_app. auto.
      - intros x Hx N. rewrite T2 in Hx. apply in_app_or in Hx as [Hx|Hx]; [contradiction|]. apply in_map_iff in Hx as (s & <- & _). right. exists c, [sig s]. split; [fold c; lia|]. split; [discriminate|]. apply Nm. }
    assert (Ready I array sc vis fr g g0 a arr st2) as R2.
    { split; [exact G2|]. split; [exact (sees_ext I array sc st st2 vis g a W2 G Hsc Hvis Sv)|]. split; [exact (sees_ext I array sc st st2 fr g0 arr W2 G Hsc fr_user Sf)|]. intros d Hd. rewrite Q3. specialize (Fr d Hd). lia. }
    apply bind_ok in E as (st3 & E3 & E). cbv zeta in E.
    assert (forall p, In p (fn_ports fn) -> In (nm cf p) (terms st2)) as Pd by (intros p Hp; rewrite T2; apply in_or_app; right; apply in_map; now right).
    destruct (args_ok (call funcs array times k m) sc Hsc vis g a Hvis (returns I count funcs arr m g0) (IH sc vis g a Hsc Hvis) cf Hcf (fn_ports fn) args st2 st3 ND R2 Pd El Hc Hv E3) as (W3 & S3 & ts & F3 & M3).
    set (st4 := fold_left declare (map (fun p => cf ++ [sig p]) (fn_locals fn)) st3) in *.
    destruct (fold_declare (map (fun p => cf ++ [sig p]) (fn_locals fn)) st3) as (Q4 & Q5 & Q6). fold st4 in Q4, Q5, Q6. pose proof (w_good _ _ _ W3) as G3. pose proof (w_calls _ _ _ W3) as C3. rewrite Q3 in C3.
    assert (terms st4 = terms st3 ++ map (nm cf) (fn_locals fn)) as T4 by exact Q4. clear Q4.
    assert (Good st4) as G4.
    { destruct G3 as [A1 A2 A3 A4 A5]. constructor.
      - rewrite T4. apply Forall_app. split; [exact A1|]. apply Forall_map, Forall_forall. intros s _. exact (nm_any cf Hcf s).
      - unfold plain_st. rewrite Q5. exact A2.
      - intros x t Hx. rewrite Q5, T4. intros Ex. apply in_or_app. left. eauto.
      - rewrite Q6. lia.
      - intros x d Hx Hd. rewrite Q6. rewrite T4 in Hx. apply in_app_or in Hx as [Hx|Hx]; [exact (A5 x d Hx Hd)|]. apply in_map_iff in Hx as (s & <- & _). exact (Fd s (fs_calls st3) ltac:(lia) d Hd). }
    assert (Grow sc st st4) as W4.
    { pose proof (grow_trans _ _ _ _ W2 W3) as [V1 V2 V3 V4]. constructor; [exact G4| | |rewrite Q6; exact V4].
      - rewrite T4. intros x Hx. apply in_or_app. auto.
      - intros x Hx N. rewrite T4 in Hx. apply in_app_or in Hx as [Hx|Hx]; [auto|]. apply in_map_iff in Hx as (s & <- & _). right. exists c, [sig s]. split; [fold c; lia|]. split; [discriminate|]. apply Nm. }
    assert (forall s, user s = true -> In (nm cf s) (terms st4) -> own fn s = true) as Ow.
    { intros s Hs J. unfold own, vars. rewrite orb_true_iff, !mem_in. rewrite T4 in J. apply in_app_or in J as [J|J]; [|apply in_map_iff in J as (r & J & Hr); apply nm_inj in J; subst r; left; now right].
      destruct (in_dec chain_dec (nm cf s) (terms st2)) as [J2|J2]; [|exfalso; apply (NA s Hs); rewrite <- Q3; exact (w_new _ _ _ W3 _ J J2)].
      rewrite T2 in J2. apply in_app_or in J2 as [J2|J2]; [exfalso; exact (Fresh s J2)|]. apply in_map_iff in J2 as (r & J2 & Hr). apply nm_inj in J2. subst r. destruct Hr as [<-|Hr]; [left; now left|now right]. }
    assert (forall s, own fn s = true -> In (nm cf s) (terms st4)) as Wo.
    { intros s J. unfold own, vars in J. rewrite orb_true_iff, !mem_in in J. rewrite T4. apply in_or_app. destruct J as [[<-|J]|J].
      - left. apply (w_terms _ _ _ W3). rewrite T2. apply in_or_app. right. apply in_map. now left.
      - right. now apply in_map.
      - left. apply (w_terms _ _ _ W3). now apply Pd. }
    assert (forall s, own fn s = true -> find st4 cf s = Ok (nm cf s)) as Fo.
    { intros s J. unfold find. subst cf. rewrite rev_app_distr. cbn [rev app search]. rewrite rev_involutive. pose proof (proj2 (smem_in _ _ (g_any _ G4) (nm_any _ Hcf s)) (Wo s J)) as Sm. unfold nm in Sm |- *. rewrite Sm. reflexivity. }
    assert (forall s x, user s = true -> own fn s = false -> find st4 cf s = Ok x -> find st sc s = Ok x) as Fn.
    { intros s x Hs J Ex. rewrite <- (find_ext sc st st4 s W4 G Hsc Hs). unfold find in *. subst cf. rewrite rev_app_distr in Ex. cbn [rev app search] in Ex. rewrite rev_involutive in Ex.
      destruct (smem (terms st4) ((sc ++ [frame c]) ++ [sig s])) eqn:Em; [|exact Ex]. exfalso. apply (smem_in _ _ (g_any _ G4) (nm_any _ Hcf s)) in Em. rewrite (Ow s Hs Em) in J. discriminate J. }
    set (vis' := fun s => user s && (own fn s || free_name funcs s)). set (g' := fun s => if own fn s then i_term I (nm cf s) else g0 s). set (a' := fun s => arr s && negb (own fn s)).
    assert (forall s, vis' s = true -> user s = true) as Hvis' by (intros s J; apply andb_true_iff in J; apply J).
    assert (forall s, free_name funcs s = true -> own fn s = false) as Fo'.
    { intros s J. unfold free_name in J. destruct (own fn s) eqn:Eo; [|reflexivity]. rewrite negb_true_iff in J. rewrite <- J. symmetry. apply existsb_exists. eauto. }
    assert (sees I array st4 cf fr g0 arr) as Sf4.
    { intros s x J Ex. apply (Sf s x J). apply Fn; [exact (fr_user s J)| |exact Ex]. apply andb_true_iff in J as [_ J]. exact (Fo' s J). }
    assert (sees I array st4 cf vis' g' a') as Sv4.
    { intros s x J Ex. unfold g', a'. apply andb_true_iff in J as [J1 J2]. destruct (own fn s) eqn:Eo.
      - rewrite (Fo s Eo) in Ex. injection Ex as <-. split; [reflexivity|]. rewrite andb_false_r. symmetry. exact (Harr _ c (Nf s)).
      - cbn [orb] in J2. cbn [negb]. rewrite andb_true_r. apply (Sf4 s x); [unfold fr; now rewrite J1, J2|exact Ex]. }
    assert (forall d, In (frame d) cf -> (d < fs_calls st4)%Z) as Fr4.
    { intros d Hd. rewrite Q6. apply in_app_or in Hd as [Hd|[Hd|[]]]; [specialize (Fr d Hd); lia|]. symmetry in Hd. exact (frame_lt c d (fs_calls st3) ltac:(lia) ltac:(lia) Gp Hd). }
    assert (forall s, In s (vars fn) -> dget (trees st4) (nm cf s) = None) as Nt.
    { intros s Hs. rewrite Q5. assert (user s = true) as Hu by (apply Us, in_or_app; auto).
      assert (forall p, In p (fn_ports fn) -> nm cf s <> nm cf p) as Np by (intros p Hp J; apply nm_inj in J; subst p; pose proof (none_of_in _ _ _ NP Hp) as K; apply mem_in in Hs; congruence).
      destruct (in_dec chain_dec (nm cf s) (terms st2)) as [J2|J2].
      - rewrite (S3 _ J2 Np), Q2. destruct (dget (trees st) (nm cf s)) as [t|] eqn:Et; [|reflexivity]. exfalso. exact (Fresh s (g_in _ G _ t (nm_any cf Hcf s) Et)).
      - destruct (dget (trees st3) (nm cf s)) as [t|] eqn:Et; [|reflexivity]. exfalso. apply (NA s Hu). rewrite <- Q3. apply (w_new _ _ _ W3); [exact (g_in _ G3 _ t (nm_any cf Hcf s) Et)|exact J2]. }
    assert (forall s, In s (vars fn) -> tree_of (fs_st st4) (nm cf s) = DNone) as Nd by (intros s Hs; unfold tree_of; now rewrite (Nt s Hs)).
    assert (Inv I array cf vis' fr g' g0 a' arr (vars fn) st4 [] (fun _ => BVacant)) as Iv.
    { constructor.
      - split; [exact G4|]. split; [exact Sv4|]. split; [exact Sf4|exact Fr4].
      - intros s Hs. apply Wo. unfold own. apply mem_in in Hs. now rewrite Hs.
      - intros s Hs. rewrite (Nd s Hs). split; [exact Logic.I|reflexivity].
      - constructor.
      - intros s Hs. rewrite (Nd s Hs). split; reflexivity. }
    apply bind_ok in E as ([stf tf] & E5 & E). cbn [fst snd] in E. injection E as <- <-.
    destruct (places (fn_body fn) (fun _ => BVacant)) as [w'|] eqn:Ep; [|congruence].
    assert (forall s, In s (reads (fn_body fn)) -> vis' s = true) as Hrd.
    { intros s Hs. unfold vis'. rewrite (Us s); [|rewrite !in_app_iff; auto]. rewrite forallb_forall in RD. exact (RD s Hs). }
    assert (forall s, In s (assigned (fn_body fn)) -> In s (vars fn)) as Has by (intros s Hs; rewrite forallb_forall in AS; apply mem_in; exact (AS s Hs)).
    destruct (main I array times count k Ht HN HT HL (call funcs array times k m) cf Hcf Hne vis' fr g' g0 a' arr Hvis' fr_user (returns I count funcs arr m g0) (IH cf vis' g' a' Hcf Hvis') (vars fn) (fn_body fn)
      false st4 [] [] (fun _ => BVacant) w' stf tf Iv (tab_nil cf (vars fn) st4) (fun _ => eq_refl) PB ST Hrd Has Ep E5) as (P & _ & Vb).
    pose proof (q_core _ _ _ _ _ _ _ _ _ P) as C. pose proof (c_grow _ _ _ _ _ _ C) as [Wf1 Wf2 Wf3 Wf4].
    assert (Ext sc st stf) as X.
    { constructor; [constructor|].
      - exact Wf1.
      - intros x Hx. apply Wf2, (w_terms _ _ _ W4), Hx.
      - intros x Hx N. destruct (in_dec chain_dec x (terms st4)) as [J|J]; [exact (w_new _ _ _ W4 x J N)|]. destruct (Wf3 x Hx J) as [K|(d & r & K1 & K2 & K3)]; [now left|]. right. exists c, (frame d :: r). split; [fold c; lia|]. split; [discriminate|].
        rewrite K3. subst cf. now rewrite <- app_assoc.
      - pose proof (w_calls _ _ _ W4). lia.
      - intros x Hx. rewrite (c_same _ _ _ _ _ _ C x (w_terms _ _ _ W4 x Hx)) by (intros s _ ->; exact (Fresh s Hx)). rewrite Q5. rewrite S3; [now rewrite Q2|exact (w_terms _ _ _ W2 x Hx)|]. intros p _ ->. exact (Fresh p Hx). }
    split; [exact X|]. split; [exact (Harr _ c (Nf (fn_name fn)))|]. intros HC.
    assert (consistent I (fs_st st4) (fs_st stf)) as HC4 by exact (cons_right I _ _ _ (w_terms _ _ _ W4) HC).
    assert (consistent I (fs_st st2) (fs_st st3)) as HC3.
    { intros x t Hx N Et. assert (In x (terms st4)) as Hx4 by (rewrite T4; apply in_or_app; auto). apply (HC x t); [apply Wf2, Hx4|intros J; apply N, (w_terms _ _ _ W2), J|].
      rewrite (c_same _ _ _ _ _ _ C x Hx4); [rewrite Q5; exact Et|]. intros s Hs J. subst x. apply (NA s); [apply Us, in_or_app; left; exact (Has s Hs)|]. rewrite <- Q3. exact (w_new _ _ _ W3 _ Hx N). }
    specialize (M3 HC3). specialize (Vb HC4). cbn [holds forallb] in Vb.
    assert (forall s, own fn s = false -> mem s (vars fn) = false) as Ov by (intros s J; apply orb_false_iff in J; apply J).
    assert (agrees I (V I cf g' (vars fn) st4) g') as V4.
    { intros s. unfold V. destruct (mem s (vars fn)) eqn:Em; [|reflexivity]. pose proof Em as Em'. apply mem_in in Em'. rewrite (Nd s Em'). unfold g'. unfold own. rewrite Em. reflexivity. }
    assert (agrees I (V I cf g' (vars fn) stf) g') as Vf.
    { intros s. unfold V. destruct (mem s (vars fn)) eqn:Em; [|reflexivity]. unfold g', own. rewrite Em. cbn [orb]. unfold tree_of. destruct (dget (trees stf) (nm cf s)) as [t|] eqn:Et; [|reflexivity].
      symmetry. apply (HC (nm cf s) t); [|apply Fresh|exact Et]. apply Wf2, Wo. unfold own. now rewrite Em. }
    pose proof (final_runs I count a' (returns I count funcs arr m g0) g' (fn_body fn) [] _ _ FR (fun s _ => Vf s) Vb) as RN.
    exists (map (eval I) ts). split.
    - apply each_F2. clear -M3. induction M3 as [|e t es ts He _ IHM]; cbn [map]; constructor; [|exact IHM]. revert He. apply means_sub; [|reflexivity]. intros f0 ys x. apply returns_more. lia.
    - cbn [returns]. exists fn, (V I cf g' (vars fn) st4), (V I cf g' (vars fn) stf). split; [exact Ef|]. split; [|split; [|split; [exact RN|]]].
      + assert (forall p t, In p (fn_ports fn) -> dget (trees st3) (nm cf p) = Some t -> leaves_present t = true -> i_term I (nm cf p) = eval I t) as K.
        { intros p t Hp Et Lp. assert (In (nm cf p) (terms st4)) as Hp4 by (apply Wo; unfold own; apply mem_in in Hp; rewrite Hp; apply orb_true_r). rewrite (HC (nm cf p) t); [now apply tv_eval|apply Wf2, Hp4|apply Fresh|].
          rewrite (c_same _ _ _ _ _ _ C _ Hp4); [rewrite Q5; exact Et|]. intros s Hs J. apply nm_inj in J. subst s. pose proof (none_of_in _ _ _ NP Hp) as J. pose proof (Has p Hs) as J'. apply mem_in in J'. congruence. }
        assert (forall p, In p (fn_ports fn) -> V I cf g' (vars fn) st4 p = i_term I (nm cf p)) as Vp.
        { intros p Hp. rewrite V4. unfold g', own. apply mem_in in Hp. now rewrite Hp, orb_true_r. }
        clear -F3 K Vp. revert K Vp. induction F3 as [|p t ps ts [H1 H2] _ IHF]; cbn [map]; intros K Vp; constructor.
        * rewrite (Vp p (or_introl eq_refl)). apply K; [now left|exact H1|exact H2].
        * apply IHF; [intros q u Hq; apply K; now right|intros q Hq; apply Vp; now right].
      + intros s J. rewrite V4. unfold g'. now rewrite J.
      + rewrite Vf. unfold g', own, vars. cbn [mem existsb]. rewrite String.eqb_refl. reflexivity.
  Qed.
End Calls.
