(** AsgProofs.v - trees under paths: the ideal insertion, and when the code's insertion is it. *)
From Verif Require Import Base ScopeModel ScopeSpec ScopeProofs DfModel DfSpec DfProofs ReorderModel ReorderSpec ReorderProofs BindModel BindSpec BindProofs AsgModel AsgSpec.

(** ** equal trees mean the same *)
Lemma same_eval I (HI : forall n m, agree n m -> i_term I n = i_term I m) a : forall b,
  same Req a b -> eval I a = eval I b.
Proof.
  assert (HL : forall l, Forall (fun a => forall b, same Req a b -> eval I a = eval I b) l ->
    forall l', Forall2 (same Req) l l' -> map (eval I) l = map (eval I) l').
  { induction 1 as [|x l Hx H IH]; intros l' K; inv K; simpl; auto. f_equal; auto. }
  induction a as [ |n|s|s|s|l o IH|v m l IHv IHm IHl|v p IHv IHp|l IH|c t f IHc IHt IHf|v w f s|w|w|t IH|s l IH]
    using df_ind'; intros b Hb; inv Hb; cbn [eval]; auto.
  - apply HI. now apply chain_eq_agree.
  - f_equal. now apply HL.
  - f_equal; auto.
  - f_equal; auto.
  - f_equal; now apply HL.
  - rewrite (IHc _ H2), (IHt _ H4), (IHf _ H5). reflexivity.
  - f_equal; now apply HL.
Qed.

Definition eqc (c c' : df) : bool := match df_eq c c' with Ok b => b | Err _ => false end.
Lemma eqc_ok c c' : no_delay c -> df_eq c c' = Ok (eqc c c').
Proof. intros H. unfold eqc. destruct (df_eq_ok c H c') as (r & -> & _). reflexivity. Qed.
Lemma eqc_refl c : no_delay c -> eqc c c = true.
Proof. intros H. unfold eqc. now rewrite df_eq_refl. Qed.

(** ** paths *)
Definition path_ok (p : path) : Prop := Forall (fun cb => cond_ok (fst cb)) p.
Definition holds (I : interp) (p : path) : bool := forallb (fun cb => Bool.eqb (i_truth I (eval I (fst cb))) (snd cb)) p.
Definition side (b : bool) (x y : df) : df := if b then x else y.

Fixpoint get (p : path) (T : df) : df :=
  match p with
  | [] => T
  | (c, b) :: r =>
      match T with
      | DBranch c' x y => if eqc c c' then get r (side b x y) else get r T
      | _ => get r T
      end
  end.
Fixpoint present (p : path) (T : df) : bool :=
  match p with
  | [] => true
  | (c, b) :: r =>
      match T with
      | DNone => true
      | DBranch c' x y => eqc c c' && present r (side b x y)
      | _ => false
      end
  end.
Fixpoint graft (p : path) (T M : df) : df :=
  match p with
  | [] => M
  | (c, b) :: r =>
      match T with
      | DBranch c' x y => if eqc c c' then (if b then DBranch c' (graft r x M) y else DBranch c' x (graft r y M))
                          else if b then DBranch c (graft r T M) T else DBranch c T (graft r T M)
      | _ => if b then DBranch c (graft r T M) T else DBranch c T (graft r T M)
      end
  end.

Lemma get_none p : get p DNone = DNone.
Proof. induction p as [|[c b] p IH]; simpl; auto. Qed.
Lemma present_none p : present p DNone = true.
Proof. destruct p as [|[c b] p]; reflexivity. Qed.
Lemma get_app p r : forall T, get (p ++ r) T = get r (get p T).
Proof.
  induction p as [|[c b] p IH]; intros T; simpl; auto.
  destruct T; auto. destruct (eqc c T1); auto.
Qed.
Lemma present_app p r : forall T, present (p ++ r) T = true <-> present p T = true /\ present r (get p T) = true.
Proof.
  induction p as [|[c b] p IH]; intros T; simpl; [tauto|].
  destruct T; try (split; [discriminate|intros [? ?]; discriminate]).
  - rewrite get_none, present_none. tauto.
  - destruct (eqc c T1); simpl; [apply IH|]. split; [discriminate|intros [? ?]; discriminate].
Qed.

(** One condition on a tree: either the tree branches on it, or not. *)
Lemma graft_cons c b r T M :
  graft ((c, b) :: r) T M =
  match T with
  | DBranch c' x y => if eqc c c' then (if b then DBranch c' (graft r x M) y else DBranch c' x (graft r y M))
                      else if b then DBranch c (graft r T M) T else DBranch c T (graft r T M)
  | _ => if b then DBranch c (graft r T M) T else DBranch c T (graft r T M)
  end.
Proof. reflexivity. Qed.
Inductive step_view (c : df) (T : df) : Prop :=
| sv_branch c' x y : T = DBranch c' x y -> eqc c c' = true -> step_view c T
| sv_other : (forall b r M, graft ((c, b) :: r) T M = if b then DBranch c (graft r T M) T else DBranch c T (graft r T M)) ->
    (forall b r, get ((c, b) :: r) T = get r T) -> (forall b r, present ((c, b) :: r) T = is_none T) -> step_view c T.
Lemma step_of c T : step_view c T.
Proof.
  destruct T as [ |n|s|s|s|l o|v m l|v p|l|c' x y|v w f s|w|w|t|s l]; try (apply sv_other; intros; reflexivity).
  destruct (eqc c c') eqn:E; [eapply sv_branch; eauto|].
  apply sv_other; intros; simpl; now rewrite E.
Qed.

Lemma get_graft p : path_ok p -> forall T M, get p (graft p T M) = M.
Proof.
  induction 1 as [|[c b] p [Hc _] Hp IH]; intros T M; [reflexivity|]. simpl in Hc.
  destruct (step_of c T) as [c' x y -> E|G _ _].
  - cbn [graft]. rewrite E. destruct b; cbn [get]; rewrite E; apply IH.
  - rewrite G. destruct b; cbn [get]; rewrite (eqc_refl _ Hc); apply IH.
Qed.
Lemma present_graft p : path_ok p -> forall T M, present p (graft p T M) = true.
Proof.
  induction 1 as [|[c b] p [Hc _] Hp IH]; intros T M; [reflexivity|]. simpl in Hc.
  destruct (step_of c T) as [c' x y -> E|G _ _].
  - cbn [graft]. rewrite E. destruct b; cbn [present]; rewrite E; apply IH.
  - rewrite G. destruct b; cbn [present]; rewrite (eqc_refl _ Hc); apply IH.
Qed.
Lemma graft_graft p : path_ok p -> forall T M M', graft p (graft p T M) M' = graft p T M'.
Proof.
  induction 1 as [|[c b] p [Hc _] Hp IH]; intros T M M'; [reflexivity|]. simpl in Hc.
  destruct (step_of c T) as [c' x y -> E|G _ _].
  - cbn [graft]. rewrite E. destruct b; cbn [graft]; rewrite E, IH; reflexivity.
  - rewrite !G. destruct b; cbn [graft]; rewrite (eqc_refl _ Hc), IH; reflexivity.
Qed.
Lemma graft_app p r : forall T M, graft (p ++ r) T M = graft p T (graft r (get p T) M).
Proof.
  induction p as [|[c b] p IH]; intros T M; [reflexivity|]. cbn [app].
  destruct (step_of c T) as [c' x y -> E|G Gg _].
  - cbn [graft get]. rewrite E. destruct b; now rewrite IH.
  - rewrite !G, !Gg, !IH. reflexivity.
Qed.
(** The sibling arm of the last condition of a path. *)
Lemma sibling p c b T M : path_ok p -> no_delay c ->
  present (p ++ [(c, negb b)]) (graft (p ++ [(c, b)]) T M) = true /\
  get (p ++ [(c, negb b)]) (graft (p ++ [(c, b)]) T M) = get (p ++ [(c, negb b)]) T.
Proof.
  intros Hp Hc. rewrite graft_app, !get_app, get_graft by auto. split.
  - apply present_app. split; [now apply present_graft|]. rewrite get_graft by auto.
    destruct (step_of c (get p T)) as [c' x y -> E|G _ _].
    + cbn [graft]. rewrite E. destruct b; cbn [present]; now rewrite E.
    + rewrite G. destruct b; cbn [present]; now rewrite (eqc_refl _ Hc).
  - destruct (step_of c (get p T)) as [c' x y -> E|G Gg _].
    + cbn [graft]. rewrite E. destruct b; cbn [get side negb]; now rewrite E.
    + rewrite G. destruct b; cbn [negb]; rewrite Gg; cbn [get]; now rewrite (eqc_refl _ Hc).
Qed.

Section Meaning.
  Variable I : interp.
  Hypothesis HI : forall n m, agree n m -> i_term I n = i_term I m.
  Lemma eqc_eval c c' : no_delay c -> eqc c c' = true -> eval I c = eval I c'.
  Proof.
    intros Hc E. apply (same_eval I HI). destruct (df_eq_ok c Hc c') as (r & H & K). unfold eqc in E. rewrite H in E. now apply K.
  Qed.
  Lemma eval_graft p : path_ok p -> forall T M, eval I (graft p T M) = if holds I p then eval I M else eval I T.
  Proof.
    induction 1 as [|[c b] p [Hc _] Hp IH]; intros T M; [reflexivity|]. simpl in Hc.
    unfold holds. cbn [forallb fst snd]. fold (holds I p).
    destruct (step_of c T) as [c' x y -> E|G _ _].
    - cbn [graft]. rewrite E. rewrite (eqc_eval _ _ Hc E). destruct b; cbn [eval]; destruct (i_truth I (eval I c')); cbn [Bool.eqb andb]; rewrite ?IH; auto.
    - rewrite G. destruct b; cbn [eval]; destruct (i_truth I (eval I c)); cbn [Bool.eqb andb]; rewrite ?IH; auto.
  Qed.
  Lemma eval_get p : path_ok p -> forall T, holds I p = true -> eval I (get p T) = eval I T.
  Proof.
    induction 1 as [|[c b] p [Hc _] Hp IH]; intros T; [reflexivity|]. simpl in Hc.
    unfold holds. cbn [forallb fst snd]. fold (holds I p). intros H. apply andb_true_iff in H as [H1 H2]. apply eqb_prop in H1.
    destruct (step_of c T) as [c' x y -> E|_ G _].
    - cbn [get]. rewrite E, (IH _ H2). rewrite (eqc_eval _ _ Hc E) in H1. cbn [eval]. rewrite H1. now destruct b.
    - rewrite G. auto.
  Qed.
End Meaning.

(** ** the code's insertion *)
Definition stop (T : df) (p : path) (V : df) : res df :=
  match p with
  | [] => Ok V
  | _ => if is_none T then Ok (makeBranchTree p V) else appendBranchTree (makeBranchTree p V) (flip_last (map snd p)) T
  end.
Fixpoint ins (T : df) (p : path) (V : df) : res df :=
  match p with
  | [] => Ok V
  | (c, b) :: r =>
      match T with
      | DBranch c' x y => if eqc c c' then (if b then do x' <- ins x r V; Ok (DBranch c' x' y) else do y' <- ins y r V; Ok (DBranch c' x y'))
                          else stop T p V
      | _ => stop T p V
      end
  end.
Lemma ins_nil T V : ins T [] V = Ok V.
Proof. destruct T; reflexivity. Qed.
Lemma append_nil T a : appendBranchTree T [] a = Ok a.
Proof. destruct T; reflexivity. Qed.
Lemma diff_acc p : path_ok p -> forall T m, exists rest rp m', diffBranchTree T p m = Ok (rest, rp, m ++ m') /\
  forall V, ins T p V = do a <- stop rest rp V; appendBranchTree T m' a.
Proof.
  assert (B : forall V T p, ins T p V = stop T p V ->
    ins T p V = do a <- stop T p V; appendBranchTree T [] a).
  { clear. intros V T p ->. destruct (stop T p V); cbn [bind]; rewrite ?append_nil; reflexivity. }
  induction 1 as [|[c b] p [Hc _] Hp IH]; intros T m.
  - exists T, [], []. rewrite app_nil_r. split; [destruct T; reflexivity|]. intros V. cbn [stop bind]. rewrite append_nil. destruct T; reflexivity.
  - simpl in Hc.
    destruct T as [ |n|s|s|s|l o|v m0 l|v q|l|c' x y|v w f s|w|w|t|s l];
      try (eexists _, _, []; cbn [diffBranchTree]; rewrite app_nil_r; split; [reflexivity|]; intros V; apply B; reflexivity).
    cbn [diffBranchTree ins]. rewrite (eqc_ok c c' Hc). cbn [bind]. destruct (eqc c c') eqn:E.
    + destruct (IH (if b then x else y) (m ++ [b])) as (rest & rp & m' & -> & H).
      exists rest, rp, (b :: m'). rewrite <- app_assoc. split; [reflexivity|]. intros V.
      destruct b; rewrite H; destruct (stop rest rp V) as [a|e]; cbn [bind appendBranchTree]; auto.
    + exists (DBranch c' x y), ((c, b) :: p), []. rewrite app_nil_r. split; [reflexivity|]. intros V.
      destruct (stop (DBranch c' x y) ((c, b) :: p) V); cbn [bind]; rewrite ?append_nil; reflexivity.
Qed.
Lemma insert_ins T p V : path_ok p -> insert T p V = ins T p V.
Proof.
  intros Hp. unfold insert. destruct (diff_acc p Hp T []) as (rest & rp & m' & -> & H). rewrite H. cbn [bind app].
  destruct rp; reflexivity.
Qed.
Lemma make_graft p V : makeBranchTree p V = graft p DNone V.
Proof. induction p as [|[c [|]] p IH]; cbn [makeBranchTree graft]; congruence. Qed.

Lemma stop_one T c b V : stop T [(c, b)] V = Ok (if b then DBranch c V T else DBranch c T V).
Proof. unfold stop. destruct T, b; reflexivity. Qed.

(** The code's insertion is the ideal one if the tree branches on all but the last condition. *)
Lemma ins_graft p c b V : path_ok (p ++ [(c, b)]) -> forall T, present p T = true -> ins T (p ++ [(c, b)]) V = Ok (graft (p ++ [(c, b)]) T V).
Proof.
  induction p as [|[c1 b1] p IH]; intros Hp T HT.
  - cbn [app]. inv Hp. destruct H1 as [Hc _]. simpl in Hc.
    destruct T as [ |n|s|s|s|l o|v m0 l|v q|l|c' x y|v w f s|w|w|t|s l]; try (cbn [ins]; rewrite stop_one; destruct b; reflexivity).
    cbn [ins graft]. destruct (eqc c c'); [destruct b; rewrite ins_nil; reflexivity|]. now rewrite stop_one.
  - cbn [app] in *. inv Hp. cbn [present] in HT. destruct T; try discriminate.
    + cbn [ins]. unfold stop. cbn [is_none]. now rewrite make_graft.
    + apply andb_true_iff in HT as [E HT]. cbn [ins graft]. rewrite E. destruct b1; cbn [side] in HT; rewrite (IH H2 _ HT); reflexivity.
Qed.
(** Where the next insertion is ideal. *)
Definition near (p : path) (T : df) : Prop := p = [] \/ exists p0 cb, p = p0 ++ [cb] /\ present p0 T = true.
Lemma insert_graft p T V : path_ok p -> near p T -> insert T p V = Ok (graft p T V).
Proof.
  intros Hp [->|(p0 & [c b] & -> & H)]; rewrite insert_ins by auto; [apply ins_nil|]. now apply ins_graft.
Qed.
Lemma present_near p T : present p T = true -> near p T.
Proof.
  revert T. induction p as [|cb p IH] using rev_ind; intros T H; [now left|]. right. exists p, cb. split; auto.
  now apply present_app in H.
Qed.

(** ** reordering after an insertion *)
Lemma stable_id k t t' : stable true t = true -> reorder k t = Ok t' -> t' = t.
Proof. intros H E. destruct (stable_reorder t H) as [n0 Hn]. eapply reorder_deterministic; [exact E|apply (Hn n0); lia]. Qed.

Lemma reorder_graft p : path_ok p -> forall k T M R, stable true T = true -> reorder k (graft p T M) = Ok R ->
  exists M' k', reorder k' M = Ok M' /\ R = graft p T M'.
Proof.
  induction 1 as [|[c b] p [Hc Hb] Hp IH]; intros k T M R HT E.
  - exists R, k. auto.
  - simpl in Hc, Hb. destruct k as [|k]; [discriminate|].
    destruct (step_of c T) as [c' x y -> Ec|G _ _].
    + cbn [stable] in HT. apply andb_true_iff in HT as [HT Hy]. apply andb_true_iff in HT as [Hc' Hx]. simpl in Hc'.
      cbn [graft] in *. rewrite Ec in *.
      destruct b; cbn [reorder] in E; apply bind_ok in E as (t' & E1 & E); apply bind_ok in E as (f' & E2 & E); apply bind_ok in E as (c2 & E3 & E);
        apply (stable_id _ _ _ (stable_false_true _ Hc')) in E3; subst c2.
      * apply (stable_id _ _ _ Hy) in E2. subst f'. apply IH in E1 as (M' & k' & Q & ->); auto.
        exists M', k'. split; auto. destruct c'; try discriminate; congruence.
      * apply (stable_id _ _ _ Hx) in E1. subst t'. apply IH in E2 as (M' & k' & Q & ->); auto.
        exists M', k'. split; auto. destruct c'; try discriminate; congruence.
    + rewrite G in E. 
      destruct b; cbn [reorder] in E; apply bind_ok in E as (t' & E1 & E); apply bind_ok in E as (f' & E2 & E); apply bind_ok in E as (c2 & E3 & E);
        apply (branch_free_id _ _ _ Hb) in E3; subst c2.
      * apply (stable_id _ _ _ HT) in E2. subst f'. apply IH in E1 as (M' & k' & Q & ->); auto.
        exists M', k'. split; auto. rewrite G. unfold branch_free in Hb. destruct c; try discriminate; congruence.
      * apply (stable_id _ _ _ HT) in E1. subst t'. apply IH in E2 as (M' & k' & Q & ->); auto.
        exists M', k'. split; auto. rewrite G. unfold branch_free in Hb. destruct c; try discriminate; congruence.
Qed.
