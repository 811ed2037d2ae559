(** NacProofs.v - legal always blocks with nonblocking assignments are accepted. *)
From Verif Require Import Base ScopeModel ScopeSpec ScopeProofs DfModel DfSpec DfProofs ReorderModel ReorderSpec ReorderProofs BindModel BindSpec BindProofs AsgModel AsgProofs AsgProofs4 AccSpec AccProofs BlkModel BlkSpec BacProofs NacSpec.
Local Open Scope list_scope.

Lemma occurs_ext f g : (forall u, f u = g u) -> forall t, occurs f t = occurs g t.
Proof.
  intros E. assert (HL : forall l, Forall (fun t => occurs f t = occurs g t) l -> existsb (occurs f) l = existsb (occurs g) l) by (induction 1; cbn [existsb]; congruence).
  induction t using df_ind'; cbn [occurs]; rewrite E; try reflexivity; rewrite ?IHt, ?IHt1, ?IHt2, ?IHt3; try reflexivity; f_equal; auto.
Qed.
Lemma expression_well : forall t, expression t = well t.
Proof.
  assert (HB : forall t, occurs not_in_bound t = occurs hb t) by (apply occurs_ext; intros []; reflexivity).
  assert (HL : forall l, Forall (fun t => expression t = well t) l -> forallb expression l = forallb well l) by (induction 1; cbn [forallb]; congruence).
  induction t using df_ind'; cbn [expression well]; try reflexivity; unfold hard; rewrite ?HB; try congruence; auto.
Qed.
Lemma insertOp_expression o a b : well a = true -> well b = true -> exists t, insertOp a b o = Ok t /\ well t = true.
Proof.
  intros Ha Hb.
  assert (M : forall a b, well a = true -> well b = true -> exists t, mkOp [a; b] o = Ok t /\ well t = true).
  { intros x y Hx Hy. unfold mkOp. cbn [existsb]. rewrite (well_none x Hx), (well_none y Hy). eexists. split; [reflexivity|]. cbn [well forallb]. now rewrite Hx, Hy. }
  assert (R : forall a, well a = true -> forall b, well b = true -> exists t, insertOp_r a b o = Ok t /\ well t = true).
  { clear a Ha b Hb. intros a Ha. induction b as [| | | | | | | | |c IHc x IHx y IHy| | | | | ]; intros Hb; try exact (M _ _ Ha Hb). cbn [well] in Hb. ands.
    destruct (IHx ltac:(assumption)) as (u & Eu & Gu), (IHy ltac:(assumption)) as (v & Ev & Gv). cbn [insertOp_r]. rewrite Eu. cbn [bind]. rewrite Ev. cbn [bind]. eexists. split; [reflexivity|]. cbn [well]. rewrite Gu, Gv, !andb_true_r. assumption. }
  revert Ha. induction a as [| | | | | | | | |c IHc x IHx y IHy| | | | | ]; intros Ha; try exact (R _ Ha _ Hb). cbn [well] in Ha. ands.
  destruct (IHx ltac:(assumption)) as (u & Eu & Gu), (IHy ltac:(assumption)) as (v & Ev & Gv). cbn [insertOp]. rewrite Eu. cbn [bind]. rewrite Ev. cbn [bind]. eexists. split; [reflexivity|]. cbn [well]. rewrite Gu, Gv, !andb_true_r. assumption.
Qed.
Lemma well_sorts t : well t = true -> sorts t.
Proof. intros H. apply sorts_reorderable. exact (proj1 (well_fit t H)). Qed.
Lemma tidy_snoc p c b : tidy_path p -> well c = true -> tidy_path (p ++ [(c, b)]).
Proof. intros Hp Hc. apply Forall_app. split; [exact Hp|]. constructor; [|constructor]. cbn [fst]. split; [exact (proj2 (proj2 (well_fit c Hc)))|now apply well_sorts]. Qed.

Section Accept.
  Variable ai : option alwaysinfo.
  Definition flat (d : dest) : Prop := no_any (d_name d) /\ no_delay (d_msb d) /\ no_delay (d_lsb d) /\ no_delay (d_ptr d).
  Lemma bound_delay t : bound t -> no_delay t.
  Proof. exact (slot_delay t). Qed.
  Lemma make_total s d raw p nd ty : tidy s -> tidy_path p -> sorts raw -> flat d -> ((1 <? nd) = true -> rigid (d_pmsb d) /\ rigid (d_plsb d)) -> exists b, arrives (fun k => makeBind k ai s d raw p nd ty) b /\ neat b.
  Proof.
    intros Ht Hp Hr (Hn & H1 & H2 & H3) H4. unfold makeBind. destruct (current_total (getBindlist (s_binds s) (d_name d)) (Bind DNone (d_name d) (d_msb d) (d_lsb d) (d_ptr d) ai ty) (tidy_get s _ Ht)) as (cur & -> & Hc). cbn [bind].
    destruct (insert_total p cur raw Hp Hc Hr) as (t & -> & St). cbn [bind]. destruct St as [t1 A1]. pose proof (sorts_result _ _ A1) as S1.
    assert (exists t2, arrives (fun k => if 1 <? nd then reorder k (DPart t1 (d_pmsb d) (d_plsb d)) else Ok t1) t2 /\ sorts t2) as (t2 & A2 & S2).
    { destruct (1 <? nd); [|exists t1; split; [apply arrives_const|exact S1]]. destruct (H4 eq_refl) as [R1 R2]. destruct (sorts_part t1 _ _ S1 R1 R2) as [t2 A2]. exists t2. split; [exact A2|exact (sorts_result _ _ A2)]. }
    eexists. split.
    - refine (arrives_bind _ _ _ _ A1 _). refine (arrives_bind _ _ _ _ A2 _). apply arrives_const.
    - split; [exact S2|]. cbn. auto.
  Qed.

  (** ** the assignments a frame records *)
  Definition table_ok (t : table) : Prop := Forall (fun e => no_any (fst e) /\ Forall neat (snd e)) t.
  Lemma note_total l b : Forall neat l -> neat b -> exists l', note l b = Ok l' /\ Forall neat l'.
  Proof.
    intros Hl Hb. induction Hl as [|c l Hc Hl (l' & E & IH)]; cbn [note]; [eexists; split; [reflexivity|auto]|].
    assert (exists e, same_target c b = Ok e) as [e ->].
    { destruct Hc as (_ & H1 & H2 & H3). unfold same_target. destruct (df_eq_ok _ H1 (b_msb b)) as (r1 & -> & _). cbn [bind]. destruct r1; [|eexists; reflexivity]. cbn [bind]. destruct (df_eq_ok _ H3 (b_ptr b)) as (r3 & -> & _). eexists; reflexivity. }
    cbn [bind]. destruct e.
    - eexists. split; [reflexivity|]. constructor; [|exact Hl]. destruct Hc as (_ & H1 & H2 & H3), Hb as (H0 & _). unfold neat. cbn. auto.
    - rewrite E. cbn [bind]. eexists. split; [reflexivity|]. auto.
  Qed.
  Lemma table_set t n l : table_ok t -> no_any n -> Forall neat l -> table_ok (dset t n l).
  Proof. intros Ht Hn Hl. induction Ht as [|[m v] t [H1 H2] Ht IH]; cbn [dset]; [constructor; auto|]. destruct (chain_eq m n); constructor; auto. Qed.
  Lemma table_get t n l : table_ok t -> dget t n = Some l -> Forall neat l.
  Proof. induction 1 as [|[m v] t [H1 H2] Ht IH]; cbn [dget]; intros E; [discriminate|]. destruct (chain_eq m n); [injection E as <-; exact H2|auto]. Qed.
  Lemma add_total t n b : table_ok t -> no_any n -> neat b -> exists t', addNonblockingAssign t n b = Ok t' /\ table_ok t'.
  Proof.
    intros Ht Hn Hb. unfold addNonblockingAssign. destruct (dget t n) as [l|] eqn:E.
    - destruct (note_total l b (table_get t n l Ht E) Hb) as (l' & -> & Hl). cbn [bind]. eexists. split; [reflexivity|]. now apply table_set.
    - eexists. split; [reflexivity|]. apply table_set; auto.
  Qed.

  (** ** the store *)
  Record fine (s0 s : store) : Prop := Fine { fi_tidy : tidy s; fi_keys : keys_plain (s_binds s); fi_terms : s_terms s = s_terms s0 }.
  Definition Goes (s0 : store) (f : nat -> res (table * store)) : Prop := exists q, arrives f q /\ table_ok (fst q) /\ fine s0 (snd q).
  Lemma fine_add s0 s n b : fine s0 s -> no_any n -> neat b -> exists s', addBind s n b = Ok s' /\ fine s0 s'.
  Proof. intros [H1 H2 H3] Hn Hb. destruct (addBind_total s n b H1 Hb H2 Hn) as (s' & E & T & K & P). exists s'. split; [exact E|]. constructor; auto. congruence. Qed.
  Lemma set_goes s0 ds : forall t s v p nd, table_ok t -> fine s0 s -> tidy_path p -> sorts v -> Forall (legal_dest (1 <? nd)) ds -> Goes s0 (fun k => setDataflow k ai t s ds v p nd).
  Proof.
    induction ds as [|d ds IH]; intros t s v p nd Ht Hs Hp Hv Hd; cbn [setDataflow]; [exists (t, s); split; [apply arrives_const|auto]|].
    inversion Hd as [|? ? (D1 & D2 & D3 & D4 & D5) Dr]; subst. assert (F : flat d) by (unfold flat; auto using bound_delay).
    destruct (make_total s d v p nd "nonblocking" (fi_tidy _ _ Hs) Hp Hv F D5) as (b & Ab & Nb). destruct (fine_add s0 s (d_name d) b Hs D1 Nb) as (s1 & E1 & F1).
    assert (exists w, arrives (fun k => if 1 <? nd then reorder k (DPart v (d_pmsb d) (d_plsb d)) else Ok v) w /\ sorts w) as (w & Aw & Sw).
    { destruct (1 <? nd); [|exists v; split; [apply arrives_const|exact Hv]]. destruct (D5 eq_refl) as [R1 R2]. destruct (sorts_part v _ _ Hv R1 R2) as [w A]. exists w. split; [exact A|exact (sorts_result _ _ A)]. }
    destruct (add_total t (d_name d) (Bind w (d_name d) (d_msb d) (d_lsb d) (d_ptr d) ai "") Ht D1) as (t1 & E2 & T1); [split; [exact Sw|]; cbn; destruct F as (_ & ? & ? & ?); auto|].
    destruct (IH t1 s1 v p nd T1 F1 Hp Hv Dr) as (q & Aq & Q1 & Q2). exists q. split; [|auto].
    assert (A2 : arrives (fun k => setNonblockingAssign k ai t d v nd) t1) by (unfold setNonblockingAssign; refine (arrives_bind _ _ _ _ Aw _); rewrite E2; apply arrives_const).
    refine (arrives_bind _ _ _ _ Ab _). rewrite E1. cbn [bind]. refine (arrives_bind _ _ _ _ A2 _). exact Aq.
  Qed.
  Lemma binds_goes s0 n l p : no_any n -> Forall neat l -> tidy_path p -> forall new s, table_ok new -> fine s0 s -> Goes s0 (fun k => copy_binds k ai new s n l p).
  Proof.
    intros Hn Hl Hp. induction Hl as [|b l Hb Hl IH]; intros new s Ht Hs; cbn [copy_binds]; [exists (new, s); split; [apply arrives_const|auto]|].
    destruct (add_total new n b Ht Hn Hb) as (t1 & -> & T1). cbn [bind]. pose proof Hb as (B0 & B1 & B2 & B3).
    destruct (make_total s (Dest n (b_msb b) (b_lsb b) (b_ptr b) DNone DNone) (b_tree b) p 1 "" (fi_tidy _ _ Hs) Hp B0 ltac:(unfold flat; auto) ltac:(discriminate)) as (nb & Ab & Nb).
    destruct (fine_add s0 s n nb Hs Hn Nb) as (s1 & E1 & F1). destruct (IH t1 s1 T1 F1) as (q & Aq & Q). exists q. split; [|exact Q].
    refine (arrives_bind _ _ _ _ Ab _). rewrite E1. cbn [bind]. exact Aq.
  Qed.
  Lemma copy_goes s0 p : tidy_path p -> forall prev, table_ok prev -> forall new s, table_ok new -> fine s0 s -> Goes s0 (fun k => copyPrevious k ai new s prev p).
  Proof.
    intros Hp. induction 1 as [|[n l] prev [H1 H2] _ IH]; intros new s Ht Hs; cbn [copyPrevious]; [exists (new, s); split; [apply arrives_const|auto]|]. cbn [fst snd] in *.
    destruct (binds_goes s0 n l p H1 H2 Hp new s Ht Hs) as ([t1 s1] & A & T1 & S1). cbn [fst snd] in *. destruct (IH t1 s1 T1 S1) as (q & Aq & Q). exists q. split; [|exact Q]. refine (arrives_bind _ _ _ _ A _). exact Aq.
  Qed.

  (** ** statements *)
  Definition Accepted (x : stmt) : Prop := legal_nonblocking x -> forall s0 t s p, table_ok t -> fine s0 s -> tidy_path p -> Goes s0 (fun k => visit k ai t s p x).
  (** An arm: the recorded assignments are copied, then the statement is visited. *)
  Definition arm (k : nat) (t : table) (s : store) (p : path) (y : option stmt) : res (table * store) :=
    do a <- copyPrevious k ai [] s t p; match y with None => Ok a | Some y => visit k ai (fst a) (snd a) p y end.
  Lemma arm_goes y s0 t s p : (forall z, y = Some z -> Accepted z) -> (forall z, y = Some z -> legal_nonblocking z) -> table_ok t -> fine s0 s -> tidy_path p -> Goes s0 (fun k => arm k t s p y).
  Proof.
    intros HA HL Ht Hs Hp. unfold arm. destruct (copy_goes s0 p Hp t Ht [] s (Forall_nil _) Hs) as ([t1 s1] & A & T1 & S1). cbn [fst snd] in *.
    destruct y as [y|].
    - destruct (HA y eq_refl (HL y eq_refl) s0 t1 s1 p T1 S1 Hp) as (q & Aq & Q). exists q. split; [|exact Q]. refine (arrives_bind _ _ _ _ A _). exact Aq.
    - exists (t1, s1). split; [|auto]. refine (arrives_bind _ _ _ _ A _). apply arrives_const.
  Qed.
  Fixpoint items_visit (k : nat) (comp : df) (t : table) (s : store) (p : path) (l : list (option (list df) * option stmt)) : res store :=
    match l with
    | [] => Ok s
    | (g, y) :: l' =>
        do c <- item_cond comp g;
        do r <- arm k t s (p ++ [(c, true)]) y;
        match l' with
        | [] => Ok (snd r)
        | _ => do a <- copyPrevious k ai [] (snd r) t (p ++ [(c, false)]); items_visit k comp (fst a) (snd a) (p ++ [(c, false)]) l'
        end
    end.
  Lemma bind_assoc {A B C} (m : res A) (f : A -> res B) (g : B -> res C) : bind (bind m f) g = bind m (fun a => bind (f a) g).
  Proof. destruct m; reflexivity. Qed.
  Lemma visit_items k comp : forall l t s p, visit k ai t s p (SCase comp l) = do s' <- items_visit k comp t s p l; Ok (t, s').
  Proof.
    intros l t s p. rewrite visit_case. f_equal. revert t s p. induction l as [|[g y] l IH]; intros t s p; cbn [vcase items_visit]; [reflexivity|]. destruct (item_cond comp g) as [c|e]; cbn [bind]; [|reflexivity].
    unfold arm. rewrite bind_assoc. destruct (copyPrevious k ai [] s t (p ++ [(c, true)])) as [a|e]; cbn [bind]; [|reflexivity].
    destruct (match y with None => Ok a | Some y0 => visit k ai (fst a) (snd a) (p ++ [(c, true)]) y0 end) as [r|e]; cbn [bind]; [|reflexivity]. destruct l; [reflexivity|].
    destruct (copyPrevious k ai [] (snd r) t (p ++ [(c, false)])) as [a2|e]; cbn [bind]; [|reflexivity]. apply IH.
  Qed.
  Lemma cond_item comp g : expression comp = true -> (forall ws, g = Some ws -> ws <> [] /\ Forall (fun w => expression w = true) ws) -> exists c, item_cond comp g = Ok c /\ well c = true.
  Proof.
    rewrite expression_well. intros Hc Hg. destruct g as [ws|]; [|exists (DInt "1"); split; reflexivity]. destruct (Hg ws eq_refl) as [Hn Hw]. destruct ws as [|v r]; [congruence|]. inversion Hw as [|? ? Hv Hr]; subst. cbn [item_cond].
    rewrite expression_well in Hv. destruct (insertOp_expression Eq comp v Hc Hv) as (e & Ee & Ge). rewrite Ee. cbn [bind]. clear Ee Hn Hw Hg Hv. revert e Ge. induction Hr as [|v2 r H2 Hr IH]; intros e Ge; [exists e; auto|]. cbn [lor_eqs].
    rewrite expression_well in H2. destruct (insertOp_expression Eq comp v2 Hc H2) as (e2 & -> & G2). cbn [bind]. destruct (insertOp_expression Lor e e2 Ge G2) as (e3 & -> & G3). cbn [bind]. exact (IH e3 G3).
  Qed.
  Lemma visit_goes x : Accepted x.
  Proof.
    induction x as [ds v|l IH|c th el IHt IHe|comp its IH] using stmt_ind'; intros HL s0 t s p Ht Hs Hp.
    - inversion HL; subst. apply set_goes; auto. apply well_sorts. rewrite <- expression_well. assumption.
    - inversion HL as [|? HL'| |]; subst.
      assert (forall u s, table_ok u -> fine s0 s -> Goes s0 (fun k => vlist k ai p u s l)) as K.
      { clear Hs Ht HL s t. induction IH as [|y l Hy _ IHl]; intros u s Hu Hs; cbn [vlist]; [exists (u, s); split; [apply arrives_const|auto]|]. inversion HL' as [|? ? L1 L2]; subst.
        destruct (Hy L1 s0 u s p Hu Hs Hp) as ([t1 s1] & A & T1 & S1). cbn [fst snd] in *. destruct (IHl L2 t1 s1 T1 S1) as (q & Aq & Q). exists q. split; [|exact Q]. refine (arrives_bind _ _ _ _ A _). exact Aq. }
      destruct (K [] s (Forall_nil _) Hs) as ([t1 s1] & A & _ & S1). cbn [fst snd] in *. exists (t, s1). split; [|auto].
      apply (arrives_ext (fun k => do r <- vlist k ai p [] s l; Ok (t, snd r))); [intros k; symmetry; apply visit_block|]. refine (arrives_bind _ _ _ _ A _). apply arrives_const.
    - inversion HL as [| |? ? ? Lc Le Lt Lf|]; subst. assert (Wc : well c = true) by (rewrite <- expression_well; assumption).
      assert (exists s1, arrives (fun k => match th with None => Ok s | Some y => do r <- arm k t s (p ++ [(c, true)]) (Some y); Ok (snd r) end) s1 /\ fine s0 s1) as (s1 & A1 & F1).
      { destruct th as [y|]; [|exists s; split; [apply arrives_const|exact Hs]]. destruct (arm_goes (Some y) s0 t s (p ++ [(c, true)]) IHt Lt Ht Hs (tidy_snoc p c true Hp Wc)) as ([u s1] & A & _ & S1). exists s1. split; [|exact S1]. refine (arrives_bind _ _ _ _ A _). apply arrives_const. }
      assert (exists s2, arrives (fun k => match el with None => Ok s1 | Some y => do r <- arm k t s1 (p ++ [(c, false)]) (Some y); Ok (snd r) end) s2 /\ fine s0 s2) as (s2 & A2 & F2).
      { destruct el as [y|]; [|exists s1; split; [apply arrives_const|exact F1]]. destruct (arm_goes (Some y) s0 t s1 (p ++ [(c, false)]) IHe Lf Ht F1 (tidy_snoc p c false Hp Wc)) as ([u s2] & A & _ & S2). exists s2. split; [|exact S2]. refine (arrives_bind _ _ _ _ A _). apply arrives_const. }
      exists (t, s2). split; [|auto].
      apply (arrives_ext (fun k => do s1 <- match th with None => Ok s | Some y => do r <- arm k t s (p ++ [(c, true)]) (Some y); Ok (snd r) end; do s2 <- match el with None => Ok s1 | Some y => do r <- arm k t s1 (p ++ [(c, false)]) (Some y); Ok (snd r) end; Ok (t, s2))).
      + intros k. cbn [visit]. unfold arm. destruct th as [y|]; [|rewrite (Le eq_refl); reflexivity]. rewrite bind_assoc.
        destruct (copyPrevious k ai [] s t (p ++ [(c, true)])) as [a|e]; cbn [bind]; [|reflexivity]. destruct (visit k ai (fst a) (snd a) (p ++ [(c, true)]) y) as [r|e]; cbn [bind]; [|reflexivity].
        destruct el as [z|]; [|reflexivity]. destruct (copyPrevious k ai [] (snd r) t (p ++ [(c, false)])) as [a2|e]; reflexivity.
      + refine (arrives_bind _ _ _ _ A1 _). refine (arrives_bind _ _ _ _ A2 _). apply arrives_const.
    - inversion HL as [| | |? ? Lc Li]; subst.
      assert (forall t s p, table_ok t -> fine s0 s -> tidy_path p -> exists s', arrives (fun k => items_visit k comp t s p its) s' /\ fine s0 s') as K.
      { clear Hs Ht Hp HL s t p. induction IH as [|[g y] l Hy _ IHl]; intros t s p Ht Hs Hp; cbn [items_visit]; [exists s; split; [apply arrives_const|exact Hs]|].
        inversion Li as [|? ? [Lg Ly] Ll]; subst. cbn [fst snd] in *. destruct (cond_item comp g Lc Lg) as (c & -> & Wc). cbn [bind].
        destruct (arm_goes y s0 t s (p ++ [(c, true)]) Hy Ly Ht Hs (tidy_snoc p c true Hp Wc)) as ([t1 s1] & A & T1 & S1). cbn [fst snd] in *.
        destruct l as [|gy l]; [exists s1; split; [refine (arrives_bind _ _ _ _ A _); apply arrives_const|exact S1]|].
        destruct (copy_goes s0 (p ++ [(c, false)]) (tidy_snoc p c false Hp Wc) t Ht [] s1 (Forall_nil _) S1) as ([t2 s2] & A2 & T2 & S2). cbn [fst snd] in *.
        destruct (IHl Ll t2 s2 (p ++ [(c, false)]) T2 S2 (tidy_snoc p c false Hp Wc)) as (s3 & A3 & F3). exists s3. split; [|exact F3].
        refine (arrives_bind _ _ _ _ A _). cbn [snd]. refine (arrives_bind _ _ _ _ A2 _). exact A3. }
      destruct (K t s p Ht Hs Hp) as (s1 & A & F1). exists (t, s1). split; [|auto]. apply (arrives_ext (fun k => do s' <- items_visit k comp t s p its; Ok (t, s'))); [intros k; symmetry; apply visit_items|].
      refine (arrives_bind _ _ _ _ A _). apply arrives_const.
  Qed.
  Lemma always_goes s x : tidy s -> names_plain s -> legal_nonblocking x -> exists s', arrives (fun k => visit_always k ai s x) s' /\ fine s s'.
  Proof.
    intros H1 H2 H3. destruct (visit_goes x H3 s [] s [] (Forall_nil _)) as ([t s'] & A & _ & F); [constructor; auto|constructor|]. exists s'. split; [|exact F]. unfold visit_always. refine (arrives_bind _ _ _ _ A _). apply arrives_const.
  Qed.
End Accept.
