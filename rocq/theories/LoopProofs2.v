(** LoopProofs2.v - the parts of the visitor with names; every visit is the visit of an unrolling. *)
From Verif Require Import Base ScopeModel ScopeSpec ScopeProofs DfModel DfSpec ReorderModel BindModel BindSpec BindProofs AsgModel AsgSpec BlkModel BlkSpec BlkProofs4 OptModel OptSpec HierModel LoopModel LoopSpec LoopProofs.

Section Parts.
  Variable k : nat.
  Variable array : chain -> bool.
  Variable range : chain -> df * df.
  Variable log2i : Z -> option Z.
  Variable tocode : df -> res string.
  Variable fuel : nat.
  Notation lvisit := (lvisit k array range log2i tocode fuel).
  Notation lassign := (lassign k array range log2i tocode).
  Notation goes_on := (goes_on k array log2i tocode).
  Notation loop_value := (loop_value k array log2i tocode).
  Notation seqv := (seqv k array).
  Definition finish1 (q : lst * btable) (t : btable) : lst * btable :=
    let z := copy_table (l_bst (fst q)) t (snd q) in (LSt (fst z) (l_opt (fst q)), snd z).
  Definition finishn (q : lst * list btable) (t : btable) : lst * btable :=
    let z := copy_tables (l_bst (fst q)) t (snd q) in (LSt (fst z) (l_opt (fst q)), snd z).
  Fixpoint lvisits (st : lst) (u : btable) (r : list bframe) (l : list lstmt) : res (lst * btable) :=
    match l with [] => Ok (st, u) | y :: l' => do q <- lvisit st None u r y; lvisits (fst q) (snd q) r l' end.
  Definition olvisit (st : lst) (c : option (df * bool)) (r : list bframe) (y : option lstmt) : res (lst * btable) :=
    match y with None => Ok (st, []) | Some y => lvisit st c [] r y end.
  Fixpoint livisit (comp : df) (st : lst) (r : list bframe) (l : list (option (list df) * option lstmt)) : res (lst * list btable) :=
    match l with
    | [] => Ok (st, [])
    | (g, y) :: l' =>
        do cnd <- item_cond comp g;
        do q1 <- olvisit st (Some (cnd, true)) r y;
        match l' with
        | [] => Ok (fst q1, [snd q1])
        | _ => do q2 <- livisit comp (fst q1) (BFrame (Some (cnd, false)) [] :: r) l'; Ok (fst q2, snd q1 :: [] :: snd q2)
        end
    end.
  Fixpoint for_loop (c : option (df * bool)) (r : list bframe) (cnd : df) (j : chain) (b : df) (body : lstmt) (m : nat) (st : lst) (t : btable) (seen : list Z) (lv : Z) : res (lst * btable) :=
    match m with
    | O => Err OutOfFuel
    | S m =>
        do g <- goes_on st (BFrame c t) r cnd;
        if negb g then Ok (st, t)
        else if existsb (Z.eqb lv) seen then Err Unmodelled
        else
          do q <- lvisit st None [] (BFrame c t :: r) body;
          let z := finish1 q t in
          do lv' <- loop_value (fst z) (BFrame c (snd z)) r b;
          do q' <- lassign (fst z) (BFrame c (snd z)) r j b;
          for_loop c r cnd j b body m (fst q') (snd q') (lv :: seen) lv'
    end.
  Fixpoint while_loop (c : option (df * bool)) (r : list bframe) (cnd : df) (body : lstmt) (m : nat) (st : lst) (t : btable) : res (lst * btable) :=
    match m with
    | O => Err OutOfFuel
    | S m =>
        do g <- goes_on st (BFrame c t) r cnd;
        if negb g then Ok (st, t)
        else do q <- lvisit st None [] (BFrame c t :: r) body; let z := finish1 q t in while_loop c r cnd body m (fst z) (snd z)
    end.
  Lemma lvisit_block st c t r l : lvisit st c t r (LBlock l) = do q <- lvisits st [] (BFrame c t :: r) l; Ok (finish1 q t).
  Proof.
    cbn [LoopModel.lvisit]. f_equal. generalize (@nil (chain * entry)) as u. revert st. induction l as [|y l IH]; intros st u; [reflexivity|]. cbn [lvisits].
    destruct (lvisit st None u (BFrame c t :: r) y) as [q|e]; [|reflexivity]. cbn [bind]. apply IH.
  Qed.
  Lemma lvisit_if st c t r cnd th el : lvisit st c t r (LIf cnd th el) =
    do q1 <- olvisit st (Some (cnd, true)) (BFrame c t :: r) th;
    do q2 <- match el with Some _ => match th with None => Err TypeError | Some _ => olvisit (fst q1) (Some (cnd, false)) (BFrame c t :: r) el end | None => Ok (fst q1, []) end;
    Ok (finishn (fst q2, [snd q1; snd q2]) t).
  Proof. cbn [LoopModel.lvisit]. destruct el, th; reflexivity. Qed.
  Lemma lvisit_case st c t r comp l : lvisit st c t r (LCase comp l) = do q <- livisit comp st (BFrame c t :: r) l; Ok (finishn q t).
  Proof.
    cbn [LoopModel.lvisit]. f_equal. generalize (BFrame c t :: r) as fs. revert st. induction l as [|[g y] l IH]; intros st fs; [reflexivity|]. cbn [livisit].
    destruct (item_cond comp g) as [cnd|e]; [|reflexivity]. cbn [bind]. unfold olvisit.
    destruct (match y with None => Ok (st, []) | Some y0 => lvisit st (Some (cnd, true)) [] fs y0 end) as [q1|e]; [|reflexivity]. cbn [bind].
    destruct l as [|gy l]; [reflexivity|]. now rewrite (IH (fst q1) (BFrame (Some (cnd, false)) [] :: fs)).
  Qed.
  Lemma lvisit_for st c t r i a cnd j b body : lvisit st c t r (LFor i a cnd j b body) =
    do lv <- loop_value st (BFrame c t) r a; do q <- lassign st (BFrame c t) r i a; for_loop c r cnd j b body fuel (fst q) (snd q) [] lv.
  Proof.
    cbn [LoopModel.lvisit]. destruct (loop_value st (BFrame c t) r a) as [lv|e]; [|reflexivity]. cbn [bind]. destruct (lassign st (BFrame c t) r i a) as [[st1 t1]|e]; [|reflexivity]. cbn [bind fst snd].
    match goal with |- ?F fuel st1 t1 [] lv = _ => assert (forall m st1 t1 lv seen, F m st1 t1 seen lv = for_loop c r cnd j b body m st1 t1 seen lv) as K; [|apply K] end.
    clear st1 t1 lv. induction m as [|m IH]; intros st1 t1 lv seen; [reflexivity|]. cbn [for_loop].
    destruct (goes_on st1 (BFrame c t1) r cnd) as [g|e]; [|reflexivity]. cbn [bind]. destruct (negb g); [reflexivity|]. destruct (existsb (Z.eqb lv) seen); [reflexivity|].
    destruct (lvisit st1 None [] (BFrame c t1 :: r) body) as [q|e]; [|reflexivity]. cbn [bind]. unfold finish1. cbn [fst snd].
    destruct (loop_value _ _ _ _) as [lv'|e]; [|reflexivity]. cbn [bind]. destruct (lassign _ _ _ _ _) as [q'|e]; [|reflexivity]. cbn [bind]. apply IH.
  Qed.
  Lemma lvisit_while st c t r cnd body : lvisit st c t r (LWhile cnd body) = while_loop c r cnd body fuel st t.
  Proof.
    cbn [LoopModel.lvisit].
    match goal with |- ?F fuel st t = _ => assert (forall m st t, F m st t = while_loop c r cnd body m st t) as K; [|apply K] end.
    clear st t. induction m as [|m IH]; intros st t; [reflexivity|]. cbn [while_loop].
    destruct (goes_on st (BFrame c t) r cnd) as [g|e]; [|reflexivity]. cbn [bind]. destruct (negb g); [reflexivity|]. destruct (lvisit st None [] (BFrame c t :: r) body) as [q|e]; [|reflexivity]. cbn [bind]. unfold finish1. cbn [fst snd]. apply IH.
  Qed.

  (** Unrolling, by parts. *)
  Fixpoint unroll_all (l : list lstmt) (yss : list (list bstmt)) : Prop :=
    match l, yss with [], [] => True | x :: l, zs :: yss => unrolls x zs /\ unroll_all l yss | _, _ => False end.
  Definition unroll_opt (o : option lstmt) (o' : option bstmt) : Prop :=
    match o, o' with None, None => True | Some x, Some y => exists zs, unrolls x zs /\ y = one zs | _, _ => False end.
  Fixpoint unroll_items (l : list (option (list df) * option lstmt)) (l' : list (option (list df) * option bstmt)) : Prop :=
    match l, l' with
    | [], [] => True
    | (g, o) :: l, (g', o') :: l' => g = g' /\ unroll_opt o o' /\ unroll_items l l'
    | _, _ => False
    end.
  Lemma unrolls_block l ys : unrolls (LBlock l) ys = exists yss, unroll_all l yss /\ ys = [BBlock (concat yss)].
  Proof. reflexivity. Qed.
  Lemma unrolls_if c t e ys : unrolls (LIf c t e) ys = exists t' e', unroll_opt t t' /\ unroll_opt e e' /\ ys = [BIf c t' e'].
  Proof. reflexivity. Qed.
  Lemma unrolls_case comp l ys : unrolls (LCase comp l) ys = exists l', unroll_items l l' /\ ys = [BCase comp l'].
  Proof. reflexivity. Qed.

  Lemma lassign_assign st f r n e st' t' : lassign st f r n e = Ok (st', t') -> assign k array (l_bst st) f r n e = Ok (l_bst st', t').
  Proof.
    unfold LoopModel.lassign. intros E. apply bind_ok in E as ([s1 u] & E1 & E). apply bind_ok in E as (p & _ & E). apply bind_ok in E as (raw & _ & E). apply bind_ok in E as (rc & _ & E).
    apply bind_ok in E as (v1 & _ & E). cbv zeta in E. apply bind_ok in E as (v2 & _ & E). injection E as <- <-. exact E1.
  Qed.
  Lemma seqv_one s c t r y q : bvisit k array s c t r y = Ok q -> seqv s c t r [y] = Ok q.
  Proof. intros E. cbn [LoopProofs.seqv]. rewrite E. destruct q; reflexivity. Qed.
  Lemma block_visit s c t r ys q : seqv s None [] (BFrame c t :: r) ys = Ok q -> bvisit k array s c t r (BBlock ys) = Ok (copy_table (fst q) t (snd q)).
  Proof. intros E. now rewrite visit_block, seqv_visits, E. Qed.

  Definition Unrolled (x : lstmt) : Prop := forall st c t r st' t', lvisit st c t r x = Ok (st', t') -> exists ys, unrolls x ys /\ seqv (l_bst st) c t r ys = Ok (l_bst st', t').
  Lemma unrolled_opt y : (forall x, y = Some x -> Unrolled x) -> forall st c r st' u, olvisit st c r y = Ok (st', u) -> exists y', unroll_opt y y' /\ ovisit k array (l_bst st) c r y' = Ok (l_bst st', u).
  Proof.
    intros H st c r st' u E. destruct y as [x|]; cbn [olvisit] in E.
    - destruct (H x eq_refl _ _ _ _ _ _ E) as (ys & U & V). exists (Some (one ys)). split; [exists ys; auto|]. cbn [ovisit]. now apply one_visit.
    - injection E as <- <-. exists None. split; [exact Logic.I|reflexivity].
  Qed.
  Theorem visit_unrolled x : Unrolled x.
  Proof.
    induction x as [n e|l IH|cnd th el IHt IHe|comp items IH|i a cnd j b body IH|cnd body IH] using lstmt_ind'; intros st c t r st' t' E.
    - exists [BAsg n e]. split; [reflexivity|]. apply seqv_one. exact (lassign_assign _ _ _ _ _ _ _ E).
    - rewrite lvisit_block in E. apply bind_ok in E as ([st1 u] & E1 & E). injection E as <- <-. cbn [fst snd l_bst].
      assert (forall u0 st0, lvisits st0 u0 (BFrame c t :: r) l = Ok (st1, u) -> exists yss, unroll_all l yss /\ seqv (l_bst st0) None u0 (BFrame c t :: r) (concat yss) = Ok (l_bst st1, u)) as K.
      { clear E1. induction IH as [|y l Hy _ IHl]; intros u0 st0 E; cbn [lvisits] in E.
        - injection E as <- <-. exists []. split; [exact Logic.I|reflexivity].
        - apply bind_ok in E as ([st2 u2] & E2 & E). destruct (Hy _ _ _ _ _ _ E2) as (ys & U & V). destruct (IHl _ _ E) as (yss & U' & V'). cbn [fst snd] in V'. exists (ys :: yss). split; [split; assumption|]. cbn [concat]. rewrite seqv_app, V. exact V'. }
      destruct (K _ _ E1) as (yss & U & V). exists [BBlock (concat yss)]. split; [rewrite unrolls_block; eauto|]. apply seqv_one. rewrite (block_visit _ _ _ _ _ _ V). cbn [fst snd]. destruct (copy_table (l_bst st1) t u); reflexivity.
    - rewrite lvisit_if in E. apply bind_ok in E as ([st1 u1] & E1 & E). apply bind_ok in E as ([st2 u2] & E2 & E). injection E as <- <-. cbn [fst snd l_bst] in *.
      destruct (unrolled_opt th IHt _ _ _ _ _ E1) as (th' & U1 & V1).
      assert (exists el', unroll_opt el el' /\ match el' with Some _ => match th' with None => Err TypeError | Some _ => ovisit k array (l_bst st1) (Some (cnd, false)) (BFrame c t :: r) el' end | None => Ok (l_bst st1, []) end = Ok (l_bst st2, u2)) as (el' & U2 & V2).
      { destruct el as [y|]; [|injection E2 as <- <-; exists None; split; [exact Logic.I|reflexivity]]. destruct th as [z|]; [|discriminate E2]. destruct (unrolled_opt (Some y) IHe _ _ _ _ _ E2) as (el' & U2 & V2).
        exists el'. split; [exact U2|]. destruct el' as [y'|]; [|destruct U2]. destruct th' as [z'|]; [exact V2|destruct U1]. }
      exists [BIf cnd th' el']. split; [rewrite unrolls_if; eauto|]. apply seqv_one. cbn [BlkModel.bvisit].
      assert (match th' with None => Ok (l_bst st, []) | Some y => bvisit k array (l_bst st) (Some (cnd, true)) [] (BFrame c t :: r) y end = Ok (l_bst st1, u1)) as -> by exact V1. cbn [bind fst snd].
      match goal with |- (do q <- ?A; _) = _ => assert (A = Ok (l_bst st2, u2)) as -> by (destruct el', th'; exact V2) end. cbn [bind]. exact (f_equal Ok (surjective_pairing (copy_tables (l_bst st2) t [u1; u2]))).
    - rewrite lvisit_case in E. apply bind_ok in E as ([st1 tabs] & E1 & E). injection E as <- <-. cbn [fst snd l_bst].
      assert (forall st0 fs tabs, livisit comp st0 fs items = Ok (st1, tabs) -> exists l', unroll_items items l' /\ ivisit k array comp (l_bst st0) fs l' = Ok (l_bst st1, tabs)) as K.
      { clear E1 tabs. induction IH as [|[g y] l Hy _ IHl]; intros st0 fs tabs E; cbn [livisit] in E.
        - injection E as <- <-. exists []. split; [exact Logic.I|reflexivity].
        - apply bind_ok in E as (cnd & Ec & E). apply bind_ok in E as ([st2 u2] & E2 & E). destruct (unrolled_opt y Hy _ _ _ _ _ E2) as (y' & U & V). cbn [fst snd] in E. destruct l as [|gy l].
          + injection E as <- <-. exists [(g, y')]. split; [split; [reflexivity|split; [exact U|exact Logic.I]]|]. cbn [ivisit]. rewrite Ec. cbn [bind]. rewrite V. reflexivity.
          + apply bind_ok in E as ([st3 tabs3] & E3 & E). cbn [fst snd] in E. assert (st3 = st1) as -> by congruence. destruct (IHl _ _ _ E3) as (l' & U' & V'). exists ((g, y') :: l'). split; [split; [reflexivity|split; [exact U|exact U']]|].
            cbn [ivisit]. rewrite Ec. cbn [bind]. rewrite V. cbn [bind fst snd]. destruct l' as [|gy' l']; [destruct gy; destruct U'|]. rewrite V'. cbn [bind fst snd]. congruence. }
      destruct (K _ _ _ E1) as (l' & U & V). exists [BCase comp l']. split; [rewrite unrolls_case; eauto|]. apply seqv_one. rewrite visit_case, V. cbn [bind fst snd]. unfold finishn. cbn [fst snd]. destruct (copy_tables (l_bst st1) t tabs); reflexivity.
    - rewrite lvisit_for in E. apply bind_ok in E as (lv & _ & E). apply bind_ok in E as ([st1 t1] & E1 & E). cbn [fst snd] in E.
      assert (forall m st1 t1 seen lv, for_loop c r cnd j b body m st1 t1 seen lv = Ok (st', t') -> exists rounds, Forall (unrolls body) rounds /\ seqv (l_bst st1) c t1 r (flat_map (fun zs => [BBlock zs; BAsg j b]) rounds) = Ok (l_bst st', t')) as K.
      { clear E E1 lv st1 t1. induction m as [|m IHm]; intros st1 t1 seen lv E; cbn [for_loop] in E; [discriminate|]. apply bind_ok in E as (g & _ & E). destruct (negb g); [injection E as <- <-; exists []; split; [constructor|reflexivity]|].
        destruct (existsb _ _); [discriminate|]. apply bind_ok in E as ([st2 u2] & E2 & E). apply bind_ok in E as (lv' & _ & E). apply bind_ok in E as ([st3 t3] & E3 & E). cbn [fst snd] in E.
        destruct (IH _ _ _ _ _ _ E2) as (ys & U & V). destruct (IHm _ _ _ _ E) as (rounds & U' & V'). exists (ys :: rounds). split; [constructor; assumption|]. cbn [flat_map app LoopProofs.seqv].
        rewrite (block_visit _ _ _ _ _ _ V). apply lassign_assign in E3. unfold finish1 in E3. cbn [fst snd l_bst] in E3. cbn [bind fst snd BlkModel.bvisit]. rewrite E3. exact V'. }
      destruct (K _ _ _ _ _ E) as (rounds & U & V). eexists. split; [exists rounds; split; [exact U|reflexivity]|]. cbn [LoopProofs.seqv BlkModel.bvisit]. rewrite (lassign_assign _ _ _ _ _ _ _ E1). exact V.
    - rewrite lvisit_while in E.
      assert (forall m st1 t1, while_loop c r cnd body m st1 t1 = Ok (st', t') -> exists rounds, Forall (unrolls body) rounds /\ seqv (l_bst st1) c t1 r (map BBlock rounds) = Ok (l_bst st', t')) as K.
      { clear E st t. induction m as [|m IHm]; intros st1 t1 E; cbn [while_loop] in E; [discriminate|]. apply bind_ok in E as (g & _ & E). destruct (negb g); [injection E as <- <-; exists []; split; [constructor|reflexivity]|].
        apply bind_ok in E as ([st2 u2] & E2 & E). destruct (IH _ _ _ _ _ _ E2) as (ys & U & V). destruct (IHm _ _ E) as (rounds & U' & V'). exists (ys :: rounds). split; [constructor; assumption|]. cbn [map LoopProofs.seqv].
        rewrite (block_visit _ _ _ _ _ _ V). exact V'. }
      destruct (K _ _ _ E) as (rounds & U & V). exists (map BBlock rounds). split; [exists rounds; auto|exact V].
  Qed.
End Parts.
