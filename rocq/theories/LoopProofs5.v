(** LoopProofs5.v - loops are unrolled as they run. *)
From Verif Require Import Base ScopeModel ScopeSpec ScopeProofs DfModel DfSpec DfProofs ReorderModel ReorderSpec ReorderProofs BindModel BindSpec BindProofs AsgModel AsgSpec AsgProofs AsgProofs2 AsgProofs4 BlkModel BlkSpec BlkProofs BlkProofs2 BlkProofs3 BlkProofs4 BlkProofs5 BlkProofs6 LitModel OptModel OptSpec OptProofs HierModel LoopModel LoopSpec LoopProofs LoopProofs2 LoopProofs3 LoopProofs4.

Lemma readable_less w (a b : chain -> bool) c : (forall n, b n = true -> a n = true) -> readable w a c = true -> readable w b c = true.
Proof.
  intros H. unfold readable. rewrite !forallb_forall. intros R n Hn. specialize (R n Hn). destruct (w n) as [[| | |] f]; auto; apply andb_true_iff in R as [-> R]; cbn [andb]; destruct (b n) eqn:E; auto; rewrite (H n E) in R; discriminate R.
Qed.
Lemma flow_asg w n e : match w n with (BFar, _) => False | _ => True end -> bflow (BAsg n e) w = Some (set_env w n (BHere, true)).
Proof. cbn [bflow]. destruct (w n) as [[| | |] f]; intros H; try reflexivity. destruct H. Qed.
Lemma block1_flow y w : bflow (BBlock [y]) w = bflow y w.
Proof. exact (eq_sym (one_block_flow [y] w)). Qed.
Lemma block1_exec I y v : bexec I (BBlock [y]) v = bexec I y v.
Proof. reflexivity. Qed.

Section Main.
  Variable I : interp.
  Variable num : Z -> dom I.
  Hypothesis HI : numbers I num.
  Variable k : nat.
  Variable array : chain -> bool.
  Variable range : chain -> df * df.
  Variable log2i : Z -> option Z.
  Variable tocode : df -> res string.
  Variable fuel : nat.
  Variable s0 : bst.
  Notation ns := (bs_terms s0).
  Variable Q : chain -> bool.
  Variable K : chain -> bool.
  Hypothesis HN : none_strict I.
  Hypothesis HT : i_truth I (i_const I (DInt "1")) = true.
  Hypothesis HL : forall a b, i_truth I (i_op I Lor [a; b]) = i_truth I a || i_truth I b.
  Hypothesis Hns : Forall no_any ns.
  Hypothesis HQ : forall n, Q n = true -> In n ns /\ array n = false.
  Notation state := (state I).
  Notation Inv := (Inv I k array ns Q).
  Notation Arms := (Arms I ns Q).
  Notation Post := (Post I k array ns Q).
  Notation cons := (cons I ns).
  Notation lvisit := (lvisit k array range log2i tocode fuel).
  Notation lassign := (lassign k array range log2i tocode).
  Notation goes_on := (goes_on k array log2i tocode).
  Notation seqv := (seqv k array).
  Notation Ext := (Ext I ns Q).
  Notation Good := (Good I num ns Q K).
  Notation GoodF := (GoodF I num ns Q K).
  Notation extF := (goodF_ext I num array ns Q K HQ).

  (** Statements one after the other. *)
  Lemma post_seq ys : forall s c t r p w v w' s' t', Inv s c t r p w v -> Forall (bwf s0 array) ys -> (forall n, bassigns (BBlock ys) n = true -> Q n = true) ->
    (forall n, bassigns (BBlock ys) n = true -> ~ locked (BFrame c t :: r) n) -> bflow (BBlock ys) w = Some w' -> seqv s c t r ys = Ok (s', t') ->
    Post s s' c t t' r p w' v (if holds I p then bexec I (BBlock ys) v else v) (bassigns (BBlock ys)).
  Proof.
    induction ys as [|y ys IHl]; intros s c t r p w v w' s' t' H Hw Hq HU Hf E; rewrite flow_block in Hf; rewrite exec_block; cbn [bflows LoopProofs.seqv bassigns existsb] in *.
    - injection Hf as <-. injection E as <- <-. change (bexecs I [] v) with v. destruct (holds I p); exact (post_refl I k array ns Q s c t _ p w v H).
    - destruct (bflow y w) as [w1|] eqn:Ef; [|discriminate Hf]. cbn [AsgSpec.obind] in Hf. apply bind_ok in E as ([s1 t1] & E1 & E). cbn [fst snd] in E. inversion Hw as [|y0 l0 Hw1 Hw2]; subst y0 l0.
      assert (Post s s1 c t t1 r p w1 v (if holds I p then bexec I y v else v) (bassigns y)) as P1.
      { apply (main I k array s0 Q HN HT HL Hns HQ y s c t r p w v w1 s1 t1 H Hw1); auto.
        - intros n Hn. apply Hq. rewrite Hn. reflexivity.
        - intros n Hn. apply HU. rewrite Hn. reflexivity. }
      rewrite <- flow_block in Hf.
      pose proof (IHl s1 c t1 r p w1 _ w' s' t' (p_inv _ _ _ _ _ _ _ _ _ _ _ _ _ _ _ _ P1) Hw2) as P2.
      specialize (P2 ltac:(intros n Hn; apply Hq; cbn [bassigns] in Hn; rewrite Hn; apply orb_true_r) ltac:(intros n Hn; apply (HU n); cbn [bassigns] in Hn; rewrite Hn; apply orb_true_r) Hf E).
      pose proof (post_trans I k array ns Q Hns HQ s s1 s' c t t1 t' r p w1 w' v _ _ (bassigns y) _ (fun n => bassigns y n || existsb (fun y => bassigns y n) ys) (inv_path I k array s0 Q _ _ _ _ _ _ _ H) (inv_ns I k array s0 Q _ _ _ _ _ _ _ H) (fun n => eq_refl) P1 P2) as P.
      destruct (holds I p); exact P.
  Qed.

  Definition Bok (x : lstmt) : Prop := forall st c t r p w v st' t', Inv (l_bst st) c t r p w v -> Good st (BFrame c t :: r) -> lwf s0 array x ->
    (forall n, lassigns x n = true -> Q n = true) -> (forall n, lassigns x n = true -> ~ locked (BFrame c t :: r) n) -> lsafe K Q x w -> lvisit st c t r x = Ok (st', t') ->
    exists ys w', unrolls x ys /\ seqv (l_bst st) c t r ys = Ok (l_bst st', t') /\ bflow (BBlock ys) w = Some w' /\ Ext st st' /\ Good st' (BFrame c t' :: r) /\
      (cons (l_bst st') -> holds I p = true -> lruns I x v (bexec I (BBlock ys) v)).

  (** Copying the entries of new frames. *)
  Lemma good_finish s c t r p w v st1 tabs v' asg : Inv s c t r p w v -> Arms s (l_bst st1) tabs p v v' asg -> (forall n, asg n = true -> ~ locked (BFrame c t :: r) n) ->
    Good st1 (BFrame c t :: r) -> Forall (fun u => GoodF st1 (BFrame None u)) tabs ->
    let z := finishn (st1, tabs) t in Ext st1 (fst z) /\ Good (fst z) (BFrame c (snd z) :: r).
  Proof.
    intros H A U G GT. destruct (finish I k array ns Q Hns HQ s c t r p w v (l_bst st1) v' tabs asg H A U) as (C1 & C2 & _). cbv zeta in *. destruct H as (_ & _ & I3 & _). inversion I3 as [|f0 r0 Ft Fr]; subst f0 r0. destruct Ft as (Ft & _).
    unfold finishn. cbn [fst snd]. pose proof (a_st _ _ _ _ _ _ _ _ _ _ A) as (S1 & S2 & _).
    exact (good_copy I num array ns Q K Hns HQ st1 t c r tabs S2 Ft (a_tabs _ _ _ _ _ _ _ _ _ _ A) S1 G GT C2).
  Qed.

  Lemma good_frame st c t r : Good st (BFrame c t :: r) -> GoodF st (BFrame None t).
  Proof. intros (_ & _ & _ & G). inversion G as [|f0 r0 Gt Gr]; subst f0 r0. exact Gt. Qed.
  Lemma good_back st c t fs : Good st (BFrame c t :: fs) -> Good st fs.
  Proof. intros (G1 & G2 & G3 & G). inversion G as [|f0 r0 Gt Gr]; subst f0 r0. split; [exact G1|]. split; [exact G2|]. split; [exact G3|exact Gr]. Qed.
  Lemma good_new st c fs : Good st fs -> Good st (BFrame c [] :: fs).
  Proof. intros (G1 & G2 & G3 & G). split; [exact G1|]. split; [exact G2|]. split; [exact G3|]. constructor; [|exact G]. intros n e _ _ E. discriminate E. Qed.

  Lemma good_lassign st c t r p w v n e st' t' : Inv (l_bst st) c t r p w v -> Good st (BFrame c t :: r) -> bwf s0 array (BAsg n e) -> Q n = true -> ~ locked (BFrame c t :: r) n ->
    assignable K Q w n e -> lassign st (BFrame c t) r n e = Ok (st', t') ->
    bflow (BAsg n e) w = Some (set_env w n (BHere, true)) /\ Ext st st' /\ Good st' (BFrame c t' :: r) /\
    Post (l_bst st) (l_bst st') c t t' r p (set_env w n (BHere, true)) v (if holds I p then set_to I n e v else v) (same_name n).
  Proof.
    intros H G (W1 & W2 & W3 & W4) Hq HU [A1 A2] E. pose proof (flow_asg w n e A1) as Ff. split; [exact Ff|].
    destruct (lassign_good I num HI k array range log2i tocode ns Q K HN Hns HQ st c t r p w _ v n e st' t' H G W1 Hq W4 HU Ff A2 E) as [E1 E2]. split; [exact E1|]. split; [exact E2|].
    exact (assign_post I k array ns Q HN Hns HQ (l_bst st) c t r p w _ v n e (l_bst st') t' H W1 Hq W4 HU Ff (lassign_assign k array range log2i tocode st (BFrame c t) r n e st' t' E)).
  Qed.

  (** One round of a loop: the body in a frame of its own. *)
  Lemma round body : Bok body -> forall st c t r p w v q, Inv (l_bst st) c t r p w v -> Good st (BFrame c t :: r) -> lwf s0 array body ->
    (forall n, lassigns body n = true -> Q n = true) -> (forall n, lassigns body n = true -> ~ locked (BFrame c t :: r) n) -> lsafe K Q body w -> lvisit st None [] (BFrame c t :: r) body = Ok q ->
    let st1 := fst (finish1 q t) in let t1 := snd (finish1 q t) in
    exists ys w1, unrolls body ys /\ bvisit k array (l_bst st) c t r (BBlock ys) = Ok (l_bst st1, t1) /\ bflow (BBlock ys) w = Some w1 /\ Ext st st1 /\ Good st1 (BFrame c t1 :: r) /\
      Inv (l_bst st1) c t1 r p w1 (if holds I p then bexec I (BBlock ys) v else v) /\
      (cons (l_bst st1) -> holds I p = true -> lruns I body v (bexec I (BBlock ys) v)).
  Proof.
    intros HB st c t r p w v [st2 u2] H G Hw Hq HU Hs E. cbv zeta.
    assert (forall n, lassigns body n = true -> ~ locked (BFrame None [] :: BFrame c t :: r) n) as HU' by (intros n Hn [F|F]; [exact F|exact (HU n Hn F)]).
    destruct (HB st None [] (BFrame c t :: r) p w v st2 u2 (block_start I k array ns Q _ c t r p w v H) (good_new st None _ G) Hw Hq HU' Hs E) as (ys & w1 & U & V & F & X & G2 & R).
    exists ys, w1. split; [exact U|]. pose proof (block_visit k array (l_bst st) c t r ys (l_bst st2, u2) V) as BV. cbn [fst snd] in BV.
    assert (bwf s0 array (BBlock ys)) as Wy by exact (unroll_wf s0 array body ys Hw U).
    assert (forall n, bassigns (BBlock ys) n = true -> lassigns body n = true) as As by (intros n; exact (unroll_assigns body ys n U)).
    pose proof (post_seq ys (l_bst st) None [] (BFrame c t :: r) p w v w1 (l_bst st2) u2 (block_start I k array ns Q _ c t r p w v H) (proj1 (block_wf _ _ _) Wy) (fun n Hn => Hq n (As n Hn)) (fun n Hn => HU' n (As n Hn)) F V) as P.
    pose proof (post_arms I k array ns Q Hns HQ _ _ _ _ _ _ _ _ _ _ (inv_ns I k array s0 Q _ _ _ _ _ _ _ H) P) as AA.
    destruct (good_finish (l_bst st) c t r p w v st2 [u2] _ _ H AA (fun n Hn => HU n (As n Hn)) (good_back _ _ _ _ G2) ltac:(constructor; [exact (good_frame _ _ _ _ G2)|constructor])) as [X2 G3].
    assert (finishn (st2, [u2]) t = finish1 (st2, u2) t) as Ef by (unfold finishn, finish1; cbn [fst snd copy_tables]; destruct (copy_table (l_bst st2) t u2); reflexivity).
    rewrite Ef in X2, G3. assert (bvisit k array (l_bst st) c t r (BBlock ys) = Ok (l_bst (fst (finish1 (st2, u2) t)), snd (finish1 (st2, u2) t))) as BV' by (rewrite BV; unfold finish1; cbn [fst snd l_bst]; destruct (copy_table (l_bst st2) t u2); reflexivity).
    split; [exact BV'|]. split; [exact F|]. split; [exact (ext_trans I ns Q _ _ _ X X2)|]. split; [exact G3|]. split.
    - pose proof (main I k array s0 Q HN HT HL Hns HQ (BBlock ys) (l_bst st) c t r p w v w1 _ _ H Wy (fun n Hn => Hq n (As n Hn)) (fun n Hn => HU n (As n Hn)) F BV') as P2. exact (p_inv _ _ _ _ _ _ _ _ _ _ _ _ _ _ _ _ P2).
    - intros HC HH. apply R; [|exact HH]. exact (proj2 (proj2 X2) HC).
  Qed.
  (** ** blocks *)
  Fixpoint lsafes (l : list lstmt) (w : env) : Prop :=
    match l with [] => True | y :: r => lsafe K Q y w /\ forall ys w', unrolls y ys -> flow_all ys w w' -> lsafes r w' end.
  Fixpoint lwfs (l : list lstmt) : Prop := match l with [] => True | y :: r => lwf s0 array y /\ lwfs r end.
  Lemma blocks fs p l : Forall Bok l -> forall st t w v st' t', Inv (l_bst st) None t fs p w v -> Good st (BFrame None t :: fs) -> lwfs l ->
    (forall n, existsb (fun y => lassigns y n) l = true -> Q n = true) -> (forall n, existsb (fun y => lassigns y n) l = true -> ~ locked (BFrame None t :: fs) n) -> lsafes l w ->
    lvisits k array range log2i tocode fuel st t fs l = Ok (st', t') ->
    exists yss w', unroll_all l yss /\ seqv (l_bst st) None t fs (concat yss) = Ok (l_bst st', t') /\ bflow (BBlock (concat yss)) w = Some w' /\ Ext st st' /\ Good st' (BFrame None t' :: fs) /\
      (cons (l_bst st') -> holds I p = true -> lruns_all I l v (bexec I (BBlock (concat yss)) v)).
  Proof.
    induction 1 as [|y l Hy _ IHl]; intros st t w v st' t' H G Hw Hq HU Hs E; cbn [lvisits] in E.
    - injection E as <- <-. exists [], w. split; [exact Logic.I|]. split; [reflexivity|]. split; [reflexivity|]. split; [apply ext_refl|]. split; [exact G|]. intros _ _. constructor.
    - apply bind_ok in E as ([st1 t1] & E1 & E). cbn [fst snd] in E. destruct Hw as [Hw1 Hw2]. destruct Hs as [Hs1 Hs2]. cbn [existsb] in Hq, HU.
      assert (forall n, lassigns y n = true -> Q n = true) as Hq1 by (intros n Hn; apply Hq; rewrite Hn; reflexivity).
      assert (forall n, lassigns y n = true -> ~ locked (BFrame None t :: fs) n) as HU1 by (intros n Hn; apply HU; rewrite Hn; reflexivity).
      destruct (Hy st None t fs p w v st1 t1 H G Hw1 Hq1 HU1 Hs1 E1) as (ys & w1 & U & V & F & X & G1 & R).
      assert (forall n, bassigns (BBlock ys) n = true -> lassigns y n = true) as As by (intros n; exact (unroll_assigns y ys n U)).
      pose proof (post_seq ys (l_bst st) None t fs p w v w1 (l_bst st1) t1 H (proj1 (block_wf _ _ _) (unroll_wf s0 array y ys Hw1 U)) (fun n Hn => Hq1 n (As n Hn)) (fun n Hn => HU1 n (As n Hn)) F V) as P.
      destruct (IHl st1 t1 w1 _ st' t' (p_inv _ _ _ _ _ _ _ _ _ _ _ _ _ _ _ _ P) G1 Hw2) as (yss & w2 & U' & V' & F' & X' & G' & R').
      { intros n Hn. apply Hq. rewrite Hn. apply orb_true_r. } { intros n Hn. apply (HU n). rewrite Hn. apply orb_true_r. } { exact (Hs2 ys w1 U F). } { exact E. }
      exists (ys :: yss), w2. split; [split; assumption|]. cbn [concat]. split; [rewrite seqv_app, V; exact V'|]. split; [rewrite flow_block in *; rewrite bflows_app, F; exact F'|].
      split; [exact (ext_trans I ns Q _ _ _ X X')|]. split; [exact G'|]. intros HC HH. rewrite HH in *. rewrite exec_block, bexecs_app. apply (r_cons I y l v (bexec I (BBlock ys) v)); [apply R; [exact (proj2 (proj2 X') HC)|reflexivity]|].
      specialize (R' HC eq_refl). rewrite !exec_block in R'. rewrite exec_block. exact R'.
  Qed.

  (** ** arms *)
  Definition olassigns (y : option lstmt) (n : chain) : bool := match y with Some y => lassigns y n | None => false end.
  Definition olwf (y : option lstmt) : Prop := match y with Some y => lwf s0 array y | None => True end.
  Definition olsafe (y : option lstmt) (w : env) : Prop := match y with Some y => lsafe K Q y w | None => True end.
  Lemma larm y : (forall x, y = Some x -> Bok x) -> forall st c r p w v st' u, Inv (l_bst st) c [] r p w v -> Good st (BFrame c [] :: r) -> olwf y ->
    (forall n, olassigns y n = true -> Q n = true) -> (forall n, olassigns y n = true -> ~ locked (BFrame c [] :: r) n) -> olsafe y w -> olvisit k array range log2i tocode fuel st c r y = Ok (st', u) ->
    exists y', unroll_opt y y' /\ ovisit k array (l_bst st) c r y' = Ok (l_bst st', u) /\ oflow y' w <> None /\
      Arms (l_bst st) (l_bst st') [u] p v (if holds I p then oexec I y' v else v) (oassigns y') /\ Ext st st' /\ Good st' (BFrame c u :: r) /\
      (cons (l_bst st') -> holds I p = true -> lruns_opt I y v (oexec I y' v)) /\ (forall n, oassigns y' n = true -> olassigns y n = true) /\ owf array s0 y'.
  Proof.
    intros HB st c r p w v st' u H G Hw Hq HU Hs E. destruct y as [x|]; cbn [olvisit olwf olassigns olsafe] in *.
    - destruct (HB x eq_refl st c [] r p w v st' u H G Hw Hq HU Hs E) as (ys & w1 & U & V & F & X & G1 & R). exists (Some (one ys)). pose proof (one_visit k array ys (l_bst st) c r (l_bst st', u) V) as V1.
      assert (forall n, oassigns (Some (one ys)) n = true -> lassigns x n = true) as As by (intros n Hn; cbn [oassigns] in Hn; rewrite one_block_assigns in Hn; exact (unroll_assigns x ys n U Hn)).
      assert (owf array s0 (Some (one ys))) as Wo by exact (one_wf _ _ _ (unroll_wf s0 array x ys Hw U)).
      assert (oflow (Some (one ys)) w <> None) as Fo by (cbn [oflow]; rewrite one_block_flow, F; discriminate).
      split; [exists ys; auto|]. split; [exact V1|]. split; [exact Fo|].
      split; [exact (BlkProofs6.arm I k array s0 Q Hns HQ (Some (one ys)) (fun y' _ => main I k array s0 Q HN HT HL Hns HQ y') (l_bst st) c r p w v (l_bst st') u H Wo (fun n Hn => Hq n (As n Hn)) (fun n Hn => HU n (As n Hn)) Fo V1)|].
      split; [exact X|]. split; [exact G1|]. split; [|split; [exact As|exact Wo]]. intros HC HH. constructor. cbn [oexec]. rewrite one_block_exec. exact (R HC HH).
    - injection E as <- <-. exists None. split; [exact Logic.I|]. split; [reflexivity|]. split; [discriminate|]. split.
      + destruct H as (I1 & I2 & _). destruct (holds I p); exact (arms_nil I ns Q (l_bst st) p v I1 I2).
      + split; [apply ext_refl|]. split; [exact G|]. split; [intros _ _; constructor|]. split; [intros n Hn; exact Hn|exact Logic.I].
  Qed.

  (** ** case items *)
  Definition liassigns (l : list (option (list df) * option lstmt)) (n : chain) : bool := existsb (fun gy => olassigns (snd gy) n) l.
  Definition liwf (l : list (option (list df) * option lstmt)) : Prop :=
    Forall (fun gy => match fst gy with Some ws => Forall (fun w => expr_ok ns w /\ branch_free w) ws | None => True end /\ olwf (snd gy)) l.
  Fixpoint lisafe (l : list (option (list df) * option lstmt)) (w : env) : Prop :=
    match l with
    | [] => True
    | (_, None) :: r => lisafe r (enter (fun _ => false) w)
    | (_, Some y) :: r => lsafe K Q y (enter (fun _ => false) w) /\ forall ys, unrolls y ys -> lisafe r (enter (bassigns (one ys)) w)
    end.
  Lemma litems comp : fine comp -> incl (names comp) ns -> forall l, Forall (fun gy => forall y, snd gy = Some y -> Bok y) l ->
    forall A st c t r p w v st' tabs, Inv (l_bst st) c t r p w v -> Good st (BFrame c t :: r) -> liwf l -> readable w A comp = true ->
    Forall (fun gy : option (list df) * option lstmt => match fst gy with Some ws => forallb (readable w A) ws = true | None => True end) l -> lisafe l w ->
    (forall n, liassigns l n = true -> A n = true) -> (forall n, A n = true -> ~ locked (BFrame c t :: r) n) -> (forall n, A n = true -> Q n = true) ->
    livisit k array range log2i tocode fuel comp st (BFrame c t :: r) l = Ok (st', tabs) ->
    exists l', unroll_items l l' /\ ivisit k array comp (l_bst st) (BFrame c t :: r) l' = Ok (l_bst st', tabs) /\ iflow l' w <> None /\
      Ext st st' /\ Good st' (BFrame c t :: r) /\ Forall (fun u => GoodF st' (BFrame None u)) tabs /\
      (cons (l_bst st') -> holds I p = true -> lruns_case I comp l v (iexec I comp l' v)) /\
      (forall n, iassigns l' n = true -> liassigns l n = true) /\ iwf array s0 l' /\ map fst l' = map fst l.
  Proof.
    intros Fc Nc l HM. induction HM as [|[g y] l Hy HM IH]; intros A st c t r p w v st' tabs H G Hw Rc Rl Hs HA HU HqA E.
    - cbn [livisit] in E. injection E as <- <-. exists []. split; [exact Logic.I|]. split; [reflexivity|]. split; [discriminate|]. split; [apply ext_refl|]. split; [exact G|]. split; [constructor|]. split; [intros _ _; constructor|]. split; [intros n Hn; exact Hn|]. split; [constructor|reflexivity].
    - cbn [livisit] in E. apply bind_ok in E as (cnd & Ec & E). apply bind_ok in E as ([st1 u1] & E1 & E). cbn [fst snd] in E. inversion Hw as [|gy l0 [Hg Hwy] Hwl]; subst gy l0. cbn [fst snd] in Hg, Hwy.
      inversion Rl as [|gy l0 Rg Rl']; subst gy l0. cbn [fst] in Rg.
      assert (match g with Some ws => Forall fine ws | None => True end) as Fg.
      { destruct g as [ws|]; [|exact Logic.I]. eapply Forall_impl; [|exact Hg]. intros e [X Y]. exact (proj1 (expr_fine s0 Hns e X Y)). }
      assert (fine cnd /\ incl (names cnd) (names comp ++ lnames g)) as [Fcnd Ncnd] by (destruct (item_fine I HT HL comp g cnd Fc Fg Ec) as (X & Y & _); auto).
      assert (incl (names cnd) ns) as Nn.
      { intros n Hn. apply Ncnd in Hn. apply in_app_or in Hn as [Hn|Hn]; [exact (Nc n Hn)|]. destruct g as [ws|]; [|destruct Hn]. apply in_flat_map in Hn as (e & He & Hn). exact (proj2 (proj1 (proj1 (Forall_forall _ _) Hg e He)) n Hn). }
      assert (readable w A cnd = true) as Rcnd.
      { unfold readable in *. rewrite forallb_forall in *. intros n Hn. apply Ncnd in Hn. apply in_app_or in Hn as [Hn|Hn]; [exact (Rc n Hn)|]. destruct g as [ws|]; [|destruct Hn]. apply in_flat_map in Hn as (e & He & Hn).
        rewrite forallb_forall in Rg. specialize (Rg e He). rewrite forallb_forall in Rg. exact (Rg n Hn). }
      destruct (cond_ready I k array ns Q HN Hns HQ (l_bst st) c t r p w v A cnd H Rcnd Nn Fcnd) as (c' & Er & Fc' & Vc & Kc).
      assert (forall n, liassigns ((g, y) :: l) n = olassigns y n || liassigns l n) as Has by reflexivity.
      assert (forall n, olassigns y n = true -> A n = true) as HAy by (intros n Hn; apply HA; rewrite Has, Hn; reflexivity).
      assert (forall n, liassigns l n = true -> A n = true) as HAl by (intros n Hn; apply HA; rewrite Has, Hn; apply orb_true_r).
      assert (forall b n, A n = true -> ~ locked (BFrame (Some (cnd, b)) [] :: BFrame c t :: r) n) as HU2 by (intros b; apply arm_unlocked; assumption).
      set (p1 := p ++ [(c', true)]) in *. set (p2 := p ++ [(c', false)]) in *.
      pose proof (proj1 (first_arm I k array s0 Q Hns HQ (l_bst st) c t r p w v (fun _ => false) cnd c' H Er Fc' Nn)) as In1. fold p1 in In1.
      assert (olsafe y (enter (fun _ => false) w)) as Sy by (destruct y; [exact (proj1 Hs)|exact Logic.I]).
      destruct (larm y Hy st (Some (cnd, true)) (BFrame c t :: r) p1 _ v st1 u1 In1 (good_new st _ _ G) Hwy (fun n Hn => HqA n (HAy n Hn)) (fun n Hn => HU2 true n (HAy n Hn)) Sy E1) as (y' & U & V & Fy & A1 & X1 & G1 & R1 & As1 & Wy).
      set (v1 := if holds I p1 then oexec I y' v else v) in *.
      assert (forall b, holds I (p ++ [(c', b)]) = holds I p && Bool.eqb (i_truth I (eval I c')) b) as Hh by (intros b; rewrite holds_app, holds_one; reflexivity).
      assert (cons (l_bst st) -> holds I p = true -> i_truth I (eval I c') = label_matches (at_state I v) comp g) as Tc.
      { intros HC HH. rewrite (Vc HC HH). exact (proj2 (proj2 (item_fine (at_state I v) HT HL comp g cnd Fc Fg Ec))). }
      assert (match g with Some ws => Forall (fun w => expr_ok ns w /\ branch_free w) ws | None => True end /\ owf array s0 y') as Wi by (split; assumption).
      destruct l as [|gy l].
      + assert (st' = st1 /\ tabs = [u1]) as [-> ->] by (injection E as <- <-; auto). clear E. exists [(g, y')]. split; [split; [reflexivity|split; [exact U|exact Logic.I]]|]. split; [cbn [ivisit]; rewrite Ec; cbn [bind]; rewrite V; reflexivity|].
        split; [cbn [iflow]; destruct y' as [z|]; cbn [oflow AsgSpec.obind] in *; [destruct (bflow z _); [discriminate|congruence]|discriminate]|]. split; [exact X1|]. split; [exact (good_back _ _ _ _ G1)|]. split; [constructor; [exact (good_frame _ _ _ _ G1)|constructor]|]. split.
        * intros HC HH. pose proof (Tc (proj2 (proj2 X1) HC) HH) as Tv. cbn [iexec]. destruct (label_matches (at_state I v) comp g) eqn:Lm.
          -- apply r_match; [exact Lm|]. apply R1; [exact HC|]. unfold p1. rewrite Hh, HH, Tv. reflexivity.
          -- apply r_next; [exact Lm|constructor].
        * split; [|split; [constructor; [exact Wi|constructor]|reflexivity]]. intros n Hn. unfold iassigns, liassigns in *. cbn [existsb snd] in *. apply orb_true_iff in Hn as [Hn|Hn]; [|discriminate Hn]. rewrite orb_false_r. exact (As1 n Hn).
      + apply bind_ok in E as ([st2 tabs2] & E2 & E). cbn [fst snd] in E. assert (st' = st2 /\ tabs = u1 :: [] :: tabs2) as [-> ->] by (injection E as <- <-; auto). clear E.
        assert (Inv (l_bst st1) (Some (cnd, false)) [] (BFrame c t :: r) p2 (enter (oassigns y') w) v1) as In2.
        { apply (proj2 (first_arm I k array s0 Q Hns HQ (l_bst st) c t r p w v (oassigns y') cnd c' H Er Fc' Nn) (l_bst st1) [u1] v1 A1); [intros n Hn; exact (HU2 false n (HAy n (As1 n Hn)))|]. subst v1. fold p1. intros ->. reflexivity. }
        assert (lisafe (gy :: l) (enter (oassigns y') w)) as Sl.
        { destruct y as [x|], y' as [x'|]; try destruct U; [destruct H0 as [U ->]; exact (proj2 Hs _ U)|exact Hs]. }
        assert (Forall (fun gy : option (list df) * option lstmt => match fst gy with Some ws => forallb (readable (enter (oassigns y') w) A) ws = true | None => True end) (gy :: l)) as Rl2.
        { eapply Forall_impl; [|exact Rl']. intros gy' Hg'. cbv beta in Hg'. destruct (fst gy'); [|exact Logic.I]. rewrite forallb_forall in *. intros e He. apply enter_readable, Hg', He. }
        destruct (IH A st1 (Some (cnd, false)) [] (BFrame c t :: r) p2 _ v1 st2 tabs2 In2 (good_new st1 _ _ (good_back _ _ _ _ G1)) Hwl (enter_readable _ _ _ _ Rc) Rl2 Sl HAl (HU2 false) HqA E2) as (l' & U2 & V2 & F2 & X2 & G2 & T2 & R2 & As2 & W2 & M2).
        exists ((g, y') :: l'). split; [split; [reflexivity|split; [exact U|exact U2]]|]. split.
        { cbn [ivisit]. rewrite Ec. cbn [bind]. rewrite V. cbn [bind fst snd]. destruct l' as [|gy' l']; [destruct gy; destruct U2|]. rewrite V2. reflexivity. }
        split; [cbn [iflow]; destruct y' as [z|]; cbn [oflow AsgSpec.obind] in *; [destruct (bflow z _); [exact F2|congruence]|exact F2]|].
        split; [exact (ext_trans I ns Q _ _ _ X1 X2)|]. split; [exact (good_back _ _ _ _ G2)|]. split.
        { constructor; [exact (extF st1 st2 _ X2 (good_frame _ _ _ _ G1))|]. constructor; [intros n e _ _ Ed; discriminate Ed|exact T2]. }
        split.
        * intros HC HH. pose proof (proj2 (proj2 X2) HC) as HC1. pose proof (Tc (proj2 (proj2 X1) HC1) HH) as Tv. cbn [iexec]. destruct (label_matches (at_state I v) comp g) eqn:Lm.
          -- apply r_match; [exact Lm|]. apply R1; [exact HC1|]. unfold p1. rewrite Hh, HH, Tv. reflexivity.
          -- apply r_next; [exact Lm|]. assert (holds I p1 = false) as H1 by (unfold p1; rewrite Hh, HH, Tv; reflexivity). unfold v1 in R2. rewrite H1 in R2. apply R2; [exact HC|]. unfold p2. rewrite Hh, HH, Tv. reflexivity.
        * split; [|split; [constructor; [exact Wi|exact W2]|cbn [map fst]; now rewrite M2]]. intros n Hn. change (oassigns y' n || iassigns l' n = true) in Hn. rewrite Has. apply orb_true_iff. apply orb_true_iff in Hn as [Hn|Hn]; [left; exact (As1 n Hn)|right; exact (As2 n Hn)].
  Qed.

  (** ** loops *)
  Notation steps j b := (flat_map (fun zs => [BBlock zs; BAsg j b])).
  Lemma for_rounds c r p cnd j b body w0 i a : Bok body -> incl (names cnd) ns -> bwf s0 array (BAsg j b) -> lwf s0 array body ->
    (forall n, same_name j n || lassigns body n = true -> Q n = true) -> (forall n t, same_name j n || lassigns body n = true -> ~ locked (BFrame c t :: r) n) ->
    (forall rounds w', Forall (unrolls body) rounds -> flow_all (BAsg i a :: steps j b rounds) w0 w' ->
       controlled K Q w' cnd /\ test cnd = true /\ lsafe K Q body w' /\ forall ys w'', unrolls body ys -> flow_all ys w' w'' -> assignable K Q w'' j b) ->
    forall m st t seen lv past w v st' t', Inv (l_bst st) c t r p w v -> Good st (BFrame c t :: r) -> Forall (unrolls body) past -> flow_all (BAsg i a :: steps j b past) w0 w ->
    for_loop k array range log2i tocode fuel c r cnd j b body m st t seen lv = Ok (st', t') ->
    exists rounds w', Forall (unrolls body) rounds /\ seqv (l_bst st) c t r (steps j b rounds) = Ok (l_bst st', t') /\ bflows (steps j b rounds) w = Some w' /\ Ext st st' /\ Good st' (BFrame c t' :: r) /\
      (cons (l_bst st') -> holds I p = true -> lruns_loop I cnd (Some (j, b)) body v (bexecs I (steps j b rounds) v)).
  Proof.
    intros HB Nc Wj Wb Hq HU Hs. induction m as [|m IH]; intros st t seen lv past w v st' t' H G Hp Fp E; cbn [for_loop] in E; [discriminate|].
    destruct (Hs past w Hp Fp) as (Cc & Tc & Sb & Sj). apply bind_ok in E as (g & Eg & E).
    assert (cons (l_bst st) -> holds I p = true -> true_in I v cnd = g) as Vg by exact (goes_on_right I num HI k array log2i tocode ns Q K HN Hns HQ st c t r p w v cnd g H G Nc Cc Tc Eg).
    destruct g; cbn [negb] in E.
    - destruct (existsb (Z.eqb lv) seen); [discriminate|]. apply bind_ok in E as (q & E1 & E). apply bind_ok in E as (lv' & _ & E). apply bind_ok in E as ([st2 t2] & E2 & E). cbn [fst snd] in E.
      assert (forall n, lassigns body n = true -> Q n = true) as Hqb by (intros n Hn; apply Hq; rewrite Hn; apply orb_true_r).
      assert (forall n, lassigns body n = true -> ~ locked (BFrame c t :: r) n) as HUb by (intros n Hn; apply HU; rewrite Hn; apply orb_true_r).
      assert (same_name j j = true) as Jj by (unfold same_name; destruct (chain_dec j j); congruence).
      destruct (round body HB st c t r p w v q H G Wb Hqb HUb Sb E1) as (ys & w1 & U & V & F & X & G1 & H1 & R). cbv zeta in V, X, G1, H1, R. set (st1 := fst (finish1 q t)) in *. set (t1 := snd (finish1 q t)) in *.
      destruct (good_lassign st1 c t1 r p w1 _ j b st2 t2 H1 G1 Wj ltac:(apply Hq; rewrite Jj; reflexivity) ltac:(apply HU; rewrite Jj; reflexivity) (Sj ys w1 U F) E2) as (F2 & X2 & G2 & P2).
      assert (bflows [BBlock ys; BAsg j b] w = Some (set_env w1 j (BHere, true))) as Fr by (cbn [bflows]; rewrite F; cbn [AsgSpec.obind]; rewrite F2; reflexivity).
      assert (flow_all (BAsg i a :: steps j b (past ++ [ys])) w0 (set_env w1 j (BHere, true))) as Fp'.
      { unfold flow_all in *. rewrite flow_block in *. cbn [bflows] in *. destruct (bflow (BAsg i a) w0) as [wa|]; [|discriminate Fp]. cbn [AsgSpec.obind] in *. rewrite flat_map_app, bflows_app, Fp. cbn [AsgSpec.obind obind flat_map app]. exact Fr. }
      destruct (IH st2 t2 (lv :: seen) lv' (past ++ [ys]) _ _ st' t' (p_inv _ _ _ _ _ _ _ _ _ _ _ _ _ _ _ _ P2) G2 ltac:(apply Forall_app; split; [exact Hp|constructor; [exact U|constructor]]) Fp' E) as (rounds & w3 & U3 & V3 & F3 & X3 & G3 & R3).
      exists (ys :: rounds), w3. split; [constructor; assumption|]. split.
      { cbn [flat_map app LoopProofs.seqv]. rewrite V. cbn [bind fst snd BlkModel.bvisit]. rewrite (lassign_assign k array range log2i tocode _ _ _ _ _ _ _ E2). exact V3. }
      split; [cbn [flat_map]; rewrite bflows_app, Fr; exact F3|]. split; [exact (ext_trans I ns Q _ _ _ X (ext_trans I ns Q _ _ _ X2 X3))|]. split; [exact G3|].
      intros HC HH. pose proof (proj2 (proj2 X3) HC) as HC2. pose proof (proj2 (proj2 X2) HC2) as HC1. rewrite HH in *. apply (r_round I cnd (Some (j, b)) body v (bexec I (BBlock ys) v)).
      + apply Vg; [exact (proj2 (proj2 X) HC1)|reflexivity].
      + exact (R HC1 eq_refl).
      + exact (R3 HC eq_refl).
    - injection E as <- <-. exists [], w. split; [constructor|]. split; [reflexivity|]. split; [reflexivity|]. split; [apply ext_refl|]. split; [exact G|]. intros HC HH. apply r_end. exact (Vg HC HH).
  Qed.
  Lemma while_rounds c r p cnd body w0 : Bok body -> incl (names cnd) ns -> lwf s0 array body ->
    (forall n, lassigns body n = true -> Q n = true) -> (forall n t, lassigns body n = true -> ~ locked (BFrame c t :: r) n) ->
    (forall rounds w', Forall (unrolls body) rounds -> flow_all (map BBlock rounds) w0 w' -> controlled K Q w' cnd /\ test cnd = true /\ lsafe K Q body w') ->
    forall m st t past w v st' t', Inv (l_bst st) c t r p w v -> Good st (BFrame c t :: r) -> Forall (unrolls body) past -> flow_all (map BBlock past) w0 w ->
    while_loop k array range log2i tocode fuel c r cnd body m st t = Ok (st', t') ->
    exists rounds w', Forall (unrolls body) rounds /\ seqv (l_bst st) c t r (map BBlock rounds) = Ok (l_bst st', t') /\ bflows (map BBlock rounds) w = Some w' /\ Ext st st' /\ Good st' (BFrame c t' :: r) /\
      (cons (l_bst st') -> holds I p = true -> lruns_loop I cnd None body v (bexecs I (map BBlock rounds) v)).
  Proof.
    intros HB Nc Wb Hq HU Hs. induction m as [|m IH]; intros st t past w v st' t' H G Hp Fp E; cbn [while_loop] in E; [discriminate|].
    destruct (Hs past w Hp Fp) as (Cc & Tc & Sb). apply bind_ok in E as (g & Eg & E).
    assert (cons (l_bst st) -> holds I p = true -> true_in I v cnd = g) as Vg by exact (goes_on_right I num HI k array log2i tocode ns Q K HN Hns HQ st c t r p w v cnd g H G Nc Cc Tc Eg).
    destruct g; cbn [negb] in E.
    - apply bind_ok in E as (q & E1 & E).
      destruct (round body HB st c t r p w v q H G Wb Hq (fun n Hn => HU n t Hn) Sb E1) as (ys & w1 & U & V & F & X & G1 & H1 & R). cbv zeta in V, X, G1, H1, R. set (st1 := fst (finish1 q t)) in *. set (t1 := snd (finish1 q t)) in *.
      assert (flow_all (map BBlock (past ++ [ys])) w0 w1) as Fp'.
      { unfold flow_all in *. rewrite flow_block. rewrite flow_block in Fp. rewrite map_app, bflows_app, Fp. cbn [AsgSpec.obind obind map bflows]. rewrite F. reflexivity. }
      destruct (IH st1 t1 (past ++ [ys]) _ _ st' t' H1 G1 ltac:(apply Forall_app; split; [exact Hp|constructor; [exact U|constructor]]) Fp' E) as (rounds & w3 & U3 & V3 & F3 & X3 & G3 & R3).
      exists (ys :: rounds), w3. split; [constructor; assumption|]. split; [cbn [map LoopProofs.seqv]; rewrite V; exact V3|].
      split; [cbn [map bflows]; rewrite F; exact F3|]. split; [exact (ext_trans I ns Q _ _ _ X X3)|]. split; [exact G3|].
      intros HC HH. pose proof (proj2 (proj2 X3) HC) as HC1. rewrite HH in *. apply (r_round I cnd None body v (bexec I (BBlock ys) v)).
      + apply Vg; [exact (proj2 (proj2 X) HC1)|reflexivity].
      + exact (R HC1 eq_refl).
      + exact (R3 HC eq_refl).
    - injection E as <- <-. exists [], w. split; [constructor|]. split; [reflexivity|]. split; [reflexivity|]. split; [apply ext_refl|]. split; [exact G|]. intros HC HH. apply r_end. exact (Vg HC HH).
  Qed.

  Lemma lmain x : Bok x.
  Proof.
    induction x as [n e|l IH|cnd th el IHt IHe|comp its IH|i a cnd j b body IH|cnd body IH] using lstmt_ind'; intros st c t r p w v st' t' H G Hw Hq HU Hs E.
    - assert (same_name n n = true) as Jj by (unfold same_name; destruct (chain_dec n n); congruence).
      destruct (good_lassign st c t r p w v n e st' t' H G Hw (Hq n Jj) (HU n Jj) Hs E) as (F & X & G1 & _). exists [BAsg n e], (set_env w n (BHere, true)). split; [reflexivity|].
      split; [apply seqv_one; exact (lassign_assign k array range log2i tocode _ _ _ _ _ _ _ E)|]. split; [rewrite block1_flow; exact F|]. split; [exact X|]. split; [exact G1|]. intros _ _. rewrite block1_exec. apply r_asg.
    - rewrite lvisit_block in E. apply bind_ok in E as ([st1 u] & E1 & E). injection E as <- <-.
      assert (forall n, lassigns (LBlock l) n = true -> ~ locked (BFrame None [] :: BFrame c t :: r) n) as HU' by (intros n Hn [F|F]; [exact F|exact (HU n Hn F)]).
      destruct (blocks (BFrame c t :: r) p l IH st [] w v st1 u (block_start I k array ns Q _ c t r p w v H) (good_new st None _ G) Hw Hq HU' Hs E1) as (yss & w1 & U & V & F & X & G1 & R).
      exists [BBlock (concat yss)], w1. assert (unrolls (LBlock l) [BBlock (concat yss)]) as UU by (rewrite unrolls_block; eauto). split; [exact UU|].
      assert (forall n, bassigns (BBlock (concat yss)) n = true -> lassigns (LBlock l) n = true) as As by (intros n Hn; apply (unroll_assigns (LBlock l) [BBlock (concat yss)] n UU); cbn [bassigns existsb] in *; now rewrite orb_false_r).
      assert (bwf s0 array (BBlock (concat yss))) as Wy by (pose proof (unroll_wf s0 array (LBlock l) _ Hw UU) as WW; exact (proj1 WW)).
      pose proof (post_seq (concat yss) (l_bst st) None [] (BFrame c t :: r) p w v w1 (l_bst st1) u (block_start I k array ns Q _ c t r p w v H) (proj1 (block_wf _ _ _) Wy) (fun n Hn => Hq n (As n Hn)) (fun n Hn => HU' n (As n Hn)) F V) as P.
      pose proof (post_arms I k array ns Q Hns HQ _ _ _ _ _ _ _ _ _ _ (inv_ns I k array s0 Q _ _ _ _ _ _ _ H) P) as AA.
      destruct (good_finish (l_bst st) c t r p w v st1 [u] _ _ H AA (fun n Hn => HU n (As n Hn)) (good_back _ _ _ _ G1) ltac:(constructor; [exact (good_frame _ _ _ _ G1)|constructor])) as [X2 G3].
      assert (finishn (st1, [u]) t = finish1 (st1, u) t) as Ef by (unfold finishn, finish1; cbn [fst snd copy_tables]; destruct (copy_table (l_bst st1) t u); reflexivity). rewrite Ef in X2, G3.
      split. { apply seqv_one. rewrite (block_visit k array _ _ _ _ _ _ V). unfold finish1. cbn [fst snd l_bst]. destruct (copy_table (l_bst st1) t u); reflexivity. }
      split; [rewrite block1_flow; exact F|]. split; [exact (ext_trans I ns Q _ _ _ X X2)|]. split; [exact G3|]. intros HC HH. rewrite block1_exec. constructor. apply R; [exact (proj2 (proj2 X2) HC)|exact HH].
    - cbn [lwf] in Hw. destruct Hw as (W1 & W2 & W3 & W4). cbn [lsafe] in Hs. destruct Hs as (Rc & Sy & Se).
      destruct (expr_fine s0 Hns cnd W1 W2) as [Fc Nc].
      destruct (cond_ready I k array ns Q HN Hns HQ (l_bst st) c t r p w v _ cnd H Rc Nc Fc) as (c' & Er & Fc' & Vc & Kc).
      assert (forall n, lassigns (LIf cnd th el) n = olassigns th n || olassigns el n) as Has by reflexivity.
      assert (forall n, olassigns th n = true -> lassigns (LIf cnd th el) n = true) as HAt by (intros n Hn; rewrite Has, Hn; reflexivity).
      assert (forall n, olassigns el n = true -> lassigns (LIf cnd th el) n = true) as HAe by (intros n Hn; rewrite Has, Hn; apply orb_true_r).
      assert (forall b n, lassigns (LIf cnd th el) n = true -> ~ locked (BFrame (Some (cnd, b)) [] :: BFrame c t :: r) n) as HU2 by (intros b; apply arm_unlocked; assumption).
      rewrite lvisit_if in E. apply bind_ok in E as ([st1 u1] & E1 & E). apply bind_ok in E as ([st2 u2] & E2 & E). cbn [fst snd] in *.
      set (p1 := p ++ [(c', true)]) in *. set (p2 := p ++ [(c', false)]) in *.
      pose proof (proj1 (first_arm I k array s0 Q Hns HQ (l_bst st) c t r p w v (fun _ => false) cnd c' H Er Fc' Nc)) as In1. fold p1 in In1.
      destruct (larm th IHt st (Some (cnd, true)) (BFrame c t :: r) p1 _ v st1 u1 In1 (good_new st _ _ G) W3 (fun n Hn => Hq n (HAt n Hn)) (fun n Hn => HU2 true n (HAt n Hn)) Sy E1) as (th' & U & V & Fy & A1 & X1 & G1 & R1 & As1 & Wy).
      set (v1 := if holds I p1 then oexec I th' v else v) in *.
      assert (Inv (l_bst st1) (Some (cnd, false)) [] (BFrame c t :: r) p2 (enter (oassigns th') w) v1) as In2.
      { apply (proj2 (first_arm I k array s0 Q Hns HQ (l_bst st) c t r p w v (oassigns th') cnd c' H Er Fc' Nc) (l_bst st1) [u1] v1 A1); [intros n Hn; exact (HU2 false n (HAt n (As1 n Hn)))|]. subst v1. fold p1. intros ->. reflexivity. }
      assert (olvisit k array range log2i tocode fuel st1 (Some (cnd, false)) (BFrame c t :: r) el = Ok (st2, u2)) as E2' by (destruct el as [z|]; [destruct th as [y|]; [exact E2|discriminate E2]|exact E2]).
      assert (el <> None -> th <> None) as Nth by (destruct el, th; try discriminate; congruence). clear E2.
      assert (olsafe el (enter (oassigns th') w)) as Sl.
      { destruct el as [z|]; [|exact Logic.I]. destruct th as [x|], th' as [x'|]; try destruct U; [destruct H0 as [U ->]; exact (Se _ U)|exact Se]. }
      destruct (larm el IHe st1 (Some (cnd, false)) (BFrame c t :: r) p2 _ v1 st2 u2 In2 (good_new st1 _ _ (good_back _ _ _ _ G1)) W4 (fun n Hn => Hq n (HAe n Hn)) (fun n Hn => HU2 false n (HAe n Hn)) Sl E2') as (el' & U2 & V2 & Fe & A2 & X2 & G2 & R2 & As2 & We).
      pose proof (arms_app I array ns Q HQ (l_bst st) (l_bst st1) (l_bst st2) [u1] [u2] p [(c', true)] [(c', false)] v v1 _ (oassigns th') (oassigns el') (inv_path I k array s0 Q _ _ _ _ _ _ _ H) (inv_ns I k array s0 Q _ _ _ _ _ _ _ H) A1 A2) as AA. cbn [app] in AA.
      assert (forall n, oassigns th' n || oassigns el' n = true -> lassigns (LIf cnd th el) n = true) as As by (intros n Hn; apply orb_true_iff in Hn as [Hn|Hn]; auto).
      destruct (good_finish (l_bst st) c t r p w v st2 [u1; u2] _ _ H AA (fun n Hn => HU n (As n Hn)) (good_back _ _ _ _ G2) ltac:(constructor; [exact (extF st1 st2 _ X2 (good_frame _ _ _ _ G1))|constructor; [exact (good_frame _ _ _ _ G2)|constructor]])) as [X3 G3].
      assert (forall bb, holds I (p ++ [(c', bb)]) = holds I p && Bool.eqb (i_truth I (eval I c')) bb) as Hh by (intros bb; rewrite holds_app, holds_one; reflexivity).
      injection E as <- <-. exists [BIf cnd th' el'], (leave (bassigns (BIf cnd th' el')) w). split; [rewrite unrolls_if; eauto|]. split.
      { apply seqv_one. cbn [BlkModel.bvisit]. assert (match th' with None => Ok (l_bst st, []) | Some y => bvisit k array (l_bst st) (Some (cnd, true)) [] (BFrame c t :: r) y end = Ok (l_bst st1, u1)) as -> by exact V. cbn [bind fst snd].
        match goal with |- (do q <- ?A; _) = _ => assert (A = Ok (l_bst st2, u2)) as -> end.
        { destruct el' as [z'|]; [|exact V2]. destruct th' as [y'|]; [exact V2|]. exfalso. destruct el as [z|]; [|destruct U2]. destruct th as [y|]; [destruct U|]. apply Nth; [discriminate|reflexivity]. }
        cbn [bind]. exact (f_equal Ok (surjective_pairing (copy_tables (l_bst st2) t [u1; u2]))). }
      split.
      { rewrite block1_flow. cbn [bflow]. rewrite (readable_less w _ (bassigns (BIf cnd th' el')) cnd As Rc). 
        destruct th' as [y'|]; cbn [oflow] in Fy; [destruct (bflow y' (enter (fun _ => false) w)); [|congruence]|]; cbn [AsgSpec.obind]; (destruct el' as [z'|]; cbn [oflow] in Fe; [match type of Fe with bflow z' ?u <> _ => destruct (bflow z' u); [|congruence] end|]); reflexivity. }
      split; [exact (ext_trans I ns Q _ _ _ X1 (ext_trans I ns Q _ _ _ X2 X3))|]. split; [exact G3|].
      intros HC HH. pose proof (proj2 (proj2 X3) HC) as HC2. pose proof (proj2 (proj2 X2) HC2) as HC1. pose proof (Vc (proj2 (proj2 X1) HC1) HH) as Tv. rewrite block1_exec. cbn [bexec]. apply r_if. unfold true_in, value_in. rewrite <- Tv.
      destruct (i_truth I (eval I c')) eqn:Tr.
      + apply R1; [exact HC1|]. unfold p1. rewrite Hh, HH. reflexivity.
      + assert (holds I p1 = false) as H1 by (unfold p1; rewrite Hh, HH; reflexivity). unfold v1 in R2. rewrite H1 in R2. apply R2; [exact HC2|]. unfold p2. rewrite Hh, HH. reflexivity.
    - cbn [lwf] in Hw. destruct Hw as (W1 & W2 & W3). cbn [lsafe] in Hs. destruct Hs as (Rc & Rl & Sl). destruct (expr_fine s0 Hns comp W1 W2) as [Fc Nc].
      rewrite lvisit_case in E. apply bind_ok in E as ([st1 tabs] & E1 & E). injection E as <- <-.
      assert (liwf its) as Wi.
      { clear - W3. induction its as [|[g y] its IHi]; [constructor|]. destruct W3 as (X & Y & Z). constructor; [split; [exact X|exact Y]|exact (IHi Z)]. }
      destruct (litems comp Fc Nc its IH (lassigns (LCase comp its)) st c t r p w v st1 tabs H G Wi Rc Rl Sl (fun n Hn => Hn) HU Hq E1) as (l' & U & V & F & X & G1 & GT & R & As & Wl & Ml).
      assert (readable w (bassigns (BCase comp l')) comp = true) as Rc' by (apply (readable_less w (lassigns (LCase comp its))); [exact As|exact Rc]).
      assert (forall aa, Forall (fun gy : option (list df) * option lstmt => match fst gy with Some ws => forallb (readable w aa) ws = true | None => True end) its ->
        forallb (fun gy : option (list df) * option bstmt => match fst gy with Some ws => forallb (readable w aa) ws | None => true end) l' = true) as Rl'.
      { clear - Ml. intros aa Ra. revert its Ml Ra. induction l' as [|gy' l' IHl]; intros [|gy its] Ml Ra; try discriminate Ml; [reflexivity|]. cbn [map] in Ml. assert (fst gy' = fst gy /\ map fst l' = map fst its) as [M1 M2] by (injection Ml; auto).
        inversion Ra as [|g0 l0 Ra1 Ra2]; subst g0 l0. cbn [forallb]. rewrite M1, (IHl its M2 Ra2), andb_true_r. destruct (fst gy); [exact Ra1|reflexivity]. }
      assert (Forall (fun gy : option (list df) * option lstmt => match fst gy with Some ws => forallb (readable w (bassigns (BCase comp l'))) ws = true | None => True end) its) as Rl2.
      { eapply Forall_impl; [|exact Rl]. intros gy. cbv beta. destruct (fst gy) as [ws|]; [|auto]. rewrite !forallb_forall. intros Hr e He. apply (readable_less w (lassigns (LCase comp its))); [exact As|exact (Hr e He)]. }
      pose proof (items I k array s0 Q HN HT HL Hns HQ comp Fc Nc l' ltac:(apply Forall_forall; intros gy _ y _; exact (main I k array s0 Q HN HT HL Hns HQ y)) (lassigns (LCase comp its)) (l_bst st) c t r p w v (l_bst st1) tabs H Wl Rc (Rl' _ Rl) F As HU Hq V) as AA.
      destruct (good_finish (l_bst st) c t r p w v st1 tabs _ _ H AA (fun n Hn => HU n (As n Hn)) G1 GT) as [X3 G3].
      exists [BCase comp l'], (leave (bassigns (BCase comp l')) w). split; [rewrite unrolls_case; eauto|]. split.
      { apply seqv_one. rewrite visit_case, V. cbn [bind fst snd]. unfold finishn. cbn [fst snd l_bst]. destruct (copy_tables (l_bst st1) t tabs); reflexivity. }
      split. { rewrite block1_flow, flow_case, Rc', (Rl' _ Rl2). cbn [andb]. destruct (iflow l' w); [reflexivity|congruence]. }
      split; [exact (ext_trans I ns Q _ _ _ X X3)|]. split; [exact G3|]. intros HC HH. rewrite block1_exec, exec_case. constructor. apply R; [exact (proj2 (proj2 X3) HC)|exact HH].
    - cbn [lwf] in Hw. destruct Hw as (W1 & W2 & W3 & W4). cbn [lsafe] in Hs. destruct Hs as [S1 S2]. rewrite lvisit_for in E. apply bind_ok in E as (lv & _ & E). apply bind_ok in E as ([st1 t1] & E1 & E). cbn [fst snd] in E. cbn [lassigns] in Hq, HU.
      assert (same_name i i = true) as Jj by (unfold same_name; destruct (chain_dec i i); congruence).
      destruct (good_lassign st c t r p w v i a st1 t1 H G W1 ltac:(apply Hq; rewrite Jj; reflexivity) ltac:(apply HU; rewrite Jj; reflexivity) S1 E1) as (F1 & X1 & G1 & P1).
      assert (forall n, same_name j n || lassigns body n = true -> same_name i n || same_name j n || lassigns body n = true) as Hor by (intros n Hn; rewrite <- orb_assoc, Hn; apply orb_true_r).
      assert (flow_all (BAsg i a :: flat_map (fun zs => [BBlock zs; BAsg j b]) []) w (set_env w i (BHere, true))) as F0 by (unfold flow_all; cbn [flat_map]; rewrite block1_flow; exact F1).
      destruct (for_rounds c r p cnd j b body w i a IH (proj2 W3) W2 W4 (fun n Hn => Hq n (Hor n Hn)) (fun n _ Hn => HU n (Hor n Hn)) S2 fuel st1 t1 [] lv [] _ _ st' t' (p_inv _ _ _ _ _ _ _ _ _ _ _ _ _ _ _ _ P1) G1 (Forall_nil _) F0 E)
        as (rounds & w2 & U & V & F & X & G2 & R).
      eexists. exists w2. split; [exists rounds; split; [exact U|reflexivity]|]. split; [cbn [LoopProofs.seqv BlkModel.bvisit]; rewrite (lassign_assign k array range log2i tocode _ _ _ _ _ _ _ E1); exact V|].
      split; [rewrite flow_block; cbn [bflows]; rewrite F1; exact F|]. split; [exact (ext_trans I ns Q _ _ _ X1 X)|]. split; [exact G2|]. intros HC HH. constructor. rewrite HH in R. exact (R HC eq_refl).
    - cbn [lwf] in Hw. destruct Hw as [W1 W2]. cbn [lsafe] in Hs. rewrite lvisit_while in E.
      destruct (while_rounds c r p cnd body w IH (proj2 W1) W2 Hq (fun n _ Hn => HU n Hn) Hs fuel st t [] w v st' t' H G (Forall_nil _) eq_refl E) as (rounds & w2 & U & V & F & X & G2 & R).
      exists (map BBlock rounds), w2. split; [exists rounds; auto|]. split; [exact V|]. split; [rewrite flow_block; exact F|]. split; [exact X|]. split; [exact G2|]. intros HC HH. constructor. rewrite exec_block. exact (R HC HH).
  Qed.
End Main.
