(** BacProofs.v - trees of always blocks with blocking assignments can always be built. *)
From Verif Require Import Base ScopeModel ScopeSpec ScopeProofs DfModel DfSpec DfProofs ReorderModel ReorderSpec ReorderProofs BindModel BindSpec BindProofs AsgModel AsgProofs AccSpec AccProofs BlkModel BlkSpec BacSpec.
Local Open Scope list_scope.

(** ** trees without missing parts *)
Definition hb (u : df) : bool := isBranch u || odd_node u.
Definition hard (t : df) : bool := negb (occurs hb t).
Fixpoint well (t : df) : bool :=
  match t with
  | DTerm _ | DInt _ | DFloat _ | DStr _ | DEval _ _ _ _ => true
  | DOp l _ | DConcat l => forallb well l
  | DPart v m l => well v && hard m && hard l
  | DPtr v p => well v && well p
  | DBranch c x y => well c && well x && well y
  | _ => false
  end.
Lemma hard_list l : negb (existsb (occurs hb) l) = forallb hard l.
Proof. induction l as [|a l IH]; [reflexivity|]. cbn [existsb forallb]. rewrite negb_orb, IH. reflexivity. Qed.
Lemma hard_op l o : hard (DOp l o) = forallb hard l.
Proof. unfold hard at 1. cbn [occurs hb isBranch odd_node orb]. apply hard_list. Qed.
Lemma hard_concat l : hard (DConcat l) = forallb hard l.
Proof. unfold hard at 1. cbn [occurs hb isBranch odd_node orb]. apply hard_list. Qed.
Lemma hard_part v m l : hard (DPart v m l) = hard v && hard m && hard l.
Proof. unfold hard. cbn [occurs hb isBranch odd_node orb]. now rewrite !negb_orb. Qed.
Lemma hard_ptr v p : hard (DPtr v p) = hard v && hard p.
Proof. unfold hard. cbn [occurs hb isBranch odd_node orb]. now rewrite !negb_orb. Qed.
Lemma forallb_In {A} (p : A -> bool) l : forallb p l = true -> forall x, In x l -> p x = true.
Proof. intros H. now apply forallb_forall. Qed.
Lemma list_imp (p q : df -> bool) l : Forall (fun t => p t = true -> q t = true) l -> forallb p l = true -> forallb q l = true.
Proof. induction 1; cbn [forallb]; intros K; [reflexivity|]. ands. rewrite H, IHForall; auto. Qed.
Lemma hard_well t : hard t = true -> well t = true.
Proof.
  induction t as [ |n|s|s|s|l o IH|v m l IHv IHm IHl|v p IHv IHp|l IH|c t f IHc IHt IHf|v w f s|w|w|t IH|s l IH] using df_ind'; intros H; try discriminate; try reflexivity.
  - rewrite hard_op in H. exact (list_imp _ _ _ IH H).
  - rewrite hard_part in H. ands. cbn [well]. rewrite IHv by assumption. now rewrite H0, H1.
  - rewrite hard_ptr in H. ands. cbn [well]. now rewrite IHv, IHp.
  - rewrite hard_concat in H. exact (list_imp _ _ _ IH H).
Qed.
Lemma hard_branch t : hard t = true -> isBranch t = false.
Proof. destruct t; try reflexivity. discriminate. Qed.
Lemma hard_none t : hard t = true -> is_none t = false.
Proof. destruct t; try reflexivity. discriminate. Qed.
Lemma hard_free t : hard t = true -> occurs isBranch t = false.
Proof.
  assert (HL : forall l, Forall (fun t => hard t = true -> occurs isBranch t = false) l -> forallb hard l = true -> existsb (occurs isBranch) l = false).
  { induction 1; cbn [forallb existsb]; intros K; [reflexivity|]. ands. rewrite H, IHForall; auto. }
  induction t as [ |n|s|s|s|l o IH|v m l IHv IHm IHl|v p IHv IHp|l IH|c t f IHc IHt IHf|v w f s|w|w|t IH|s l IH] using df_ind'; intros H; try discriminate; try reflexivity; cbn [occurs isBranch orb].
  - rewrite hard_op in H. exact (HL _ IH H).
  - rewrite hard_part in H. ands. rewrite IHv, IHm, IHl by assumption. reflexivity.
  - rewrite hard_ptr in H. ands. rewrite IHv, IHp by assumption. reflexivity.
  - rewrite hard_concat in H. exact (HL _ IH H).
Qed.
Lemma well_none t : well t = true -> is_none t = false.
Proof. destruct t; try reflexivity. discriminate. Qed.
Lemma well_nones l : forallb well l = true -> existsb is_none l = false.
Proof. induction l as [|a l IH]; cbn [forallb existsb]; intros H; [reflexivity|]. ands. rewrite well_none, IH; auto. Qed.
Lemma well_leaves t : well t = true -> leaves_present t = true.
Proof. induction t; cbn [well leaves_present]; intros H; try reflexivity; try discriminate. ands. now rewrite IHt2, IHt3. Qed.
Lemma well_fit t : well t = true -> reorderable t = true /\ arms_present t = true /\ no_delay t.
Proof.
  assert (HL : forall l, Forall (fun t => well t = true -> reorderable t = true /\ arms_present t = true /\ occurs isDelay t = false) l -> forallb well l = true ->
     forallb reorderable l = true /\ forallb arms_present l = true /\ existsb (occurs isDelay) l = false).
  { induction 1; cbn [forallb existsb]; intros K; [auto|]. ands. destruct (H ltac:(assumption)) as (-> & -> & ->), (IHForall ltac:(assumption)) as (-> & -> & ->). auto. }
  unfold no_delay. induction t as [ |n|s|s|s|l o IH|v m l IHv IHm IHl|v p IHv IHp|l IH|c t f IHc IHt IHf|v w f s|w|w|t IH|s l IH] using df_ind'; intros H; try discriminate; auto; cbn [well] in H; cbn [reorderable arms_present occurs isDelay orb].
  - destruct (HL _ IH H) as (-> & -> & ->). auto.
  - ands. rewrite (hard_free m), (hard_free l) by assumption. destruct (IHv ltac:(assumption)) as (-> & -> & ->), (IHm (hard_well m ltac:(assumption))) as (-> & _ & ->), (IHl (hard_well l ltac:(assumption))) as (-> & _ & ->). now rewrite orb_true_r.
  - ands. destruct (IHv ltac:(assumption)) as (-> & -> & ->), (IHp ltac:(assumption)) as (-> & _ & ->). now rewrite orb_true_r.
  - destruct (HL _ IH H) as (-> & _ & ->). auto.
  - ands. destruct (IHc ltac:(assumption)) as (-> & _ & ->), (IHt ltac:(assumption)) as (-> & -> & ->), (IHf ltac:(assumption)) as (-> & -> & ->). auto.
Qed.
Lemma well_insertBranch x y : well x = true -> well y = true -> forall c, well c = true -> well (insertBranch c x y) = true.
Proof.
  intros Hx Hy. induction c; intros H; try discriminate; cbn [insertBranch]; try (cbn [well] in *; rewrite ?H, ?Hx, ?Hy; reflexivity). cbn [well] in *. ands. rewrite IHc2, IHc3 by assumption. now rewrite H.
Qed.
Lemma well_insertPart m l : hard m = true -> hard l = true -> forall v, well v = true -> well (insertPartselect v m l) = true.
Proof.
  intros Hx Hy. induction v; intros H; try discriminate; cbn [insertPartselect]; try (cbn [well] in *; rewrite ?H, ?Hx, ?Hy; reflexivity). cbn [well] in *. ands. rewrite IHv2, IHv3 by assumption. now rewrite H.
Qed.
Lemma well_insertPtr p : well p = true -> forall v, well v = true -> well (insertPointer v p) = true.
Proof.
  intros Hx. induction v; intros H; try discriminate; cbn [insertPointer]; try (cbn [well] in *; rewrite ?H, ?Hx; reflexivity). cbn [well] in *. ands. rewrite IHv2, IHv3 by assumption. now rewrite H.
Qed.
Lemma well_mk l o t : forallb well l = true -> mkOp l o = Ok t -> well t = true.
Proof. intros H E. apply mkOp_ok in E as [-> _]. exact H. Qed.
Lemma well_split l : forall d c x y r, split_branch l = Some (d, (c, x, y), r) -> forallb well l = true -> forallb well (d ++ x :: r) = true /\ forallb well (d ++ y :: r) = true /\ well c = true.
Proof.
  intros d c x y r E H. apply split_branch_some in E as [-> _]. rewrite !forallb_app in *. cbn [forallb well] in *. ands. rewrite !andb_true_iff. auto 10.
Qed.
Lemma well_insertOpList k : forall l o t, forallb well l = true -> insertOpList k l o = Ok t -> well t = true.
Proof.
  induction k as [|k IH]; intros l o t H E; [discriminate|]. cbn [insertOpList] in E. destruct (split_branch l) as [[[d [[c x] y]] r]|] eqn:Es; [|exact (well_mk _ _ _ H E)].
  destruct (well_split _ _ _ _ _ _ Es H) as (K1 & K2 & K3). apply bind_ok in E as (x' & E1 & E). apply bind_ok in E as (y' & E2 & E). injection E as <-. cbn [well]. rewrite K3, (IH _ _ _ K1 E1), (IH _ _ _ K2 E2). reflexivity.
Qed.
Lemma well_insertConcat k : forall l t, forallb well l = true -> insertConcat k l = Ok t -> well t = true.
Proof.
  induction k as [|k IH]; intros l t H E; [discriminate|]. cbn [insertConcat] in E. destruct (split_branch l) as [[[d [[c x] y]] r]|] eqn:Es; [|injection E as <-; exact H].
  destruct (well_split _ _ _ _ _ _ Es H) as (K1 & K2 & K3). apply bind_ok in E as (x' & E1 & E). apply bind_ok in E as (y' & E2 & E). injection E as <-. cbn [well]. rewrite K3, (IH _ _ K1 E1), (IH _ _ K2 E2). reflexivity.
Qed.
Lemma well_mapM f l : (forall a b, In a l -> f a = Ok b -> well a = true -> well b = true) -> forall l', mapM f l = Ok l' -> forallb well l = true -> forallb well l' = true.
Proof.
  induction l as [|a l IH]; intros H l' E K; cbn [mapM] in E; [injection E as <-; reflexivity|]. apply bind_ok in E as (b & E1 & E). apply bind_ok in E as (r & E2 & E). injection E as <-. cbn [forallb] in *. ands.
  rewrite (H a b (or_introl eq_refl) E1) by assumption. apply (IH (fun a b Ha => H a b (or_intror Ha)) r E2). assumption.
Qed.
Lemma well_reorder k : forall t t', reorder k t = Ok t' -> well t = true -> well t' = true.
Proof.
  induction k as [|k IH]; intros t t' E H; [discriminate|].
  destruct t as [ |nm|s|s|s|l o|v m l|v p|l|c t f|v w f s|w|w|t|s l]; cbn [reorder] in E; try discriminate; try (injection E as <-; exact H); cbn [well] in H.
  - apply bind_ok in E as (l' & E1 & E). apply (well_mapM (reorder k) l (fun a b _ => IH a b) l' E1) in H. destruct (existsb isBranch l'); [exact (well_insertOpList _ _ _ _ H E)|exact (well_mk _ _ _ H E)].
  - ands. apply bind_ok in E as (m' & E1 & E). apply bind_ok in E as (l' & E2 & E). apply bind_ok in E as (v' & E3 & E). apply IH in E3; [|assumption].
    apply branch_free_id in E1; [|now apply hard_free]. apply branch_free_id in E2; [|now apply hard_free]. subst m' l'.
    destruct (isBranch m || isBranch l); [discriminate|]. assert (t' = insertPartselect v' m l \/ t' = DPart v' m l) as [->| ->] by (destruct v'; injection E as <-; auto); [now apply well_insertPart|]. cbn [well]. now rewrite E3, H0, H1.
  - ands. apply bind_ok in E as (p' & E1 & E). apply bind_ok in E as (v' & E2 & E). apply IH in E1; [|assumption]. apply IH in E2; [|assumption].
    assert ((exists c t f a b, p' = DBranch c t f /\ reorder k (DPtr v' t) = Ok a /\ reorder k (DPtr v' f) = Ok b /\ t' = DBranch c a b) \/ t' = insertPointer v' p' \/ t' = DPtr v' p') as [K|[->| ->]].
    { destruct p'; try (right; destruct v'; injection E as <-; auto; fail). left. apply bind_ok in E as (a & Ea & E). apply bind_ok in E as (b & Eb & E). injection E as <-. eauto 10. }
    + destruct K as (c & t & f & a & b & -> & Ea & Eb & ->). cbn [well] in *. ands. apply IH in Ea; [|cbn [well]; rewrite !andb_true_iff; auto]. apply IH in Eb; [|cbn [well]; rewrite !andb_true_iff; auto]. rewrite !andb_true_iff. auto.
    + now apply well_insertPtr.
    + cbn [well]. now rewrite E1, E2.
  - apply bind_ok in E as (l' & E1 & E). apply (well_mapM (reorder k) l (fun a b _ => IH a b) l' E1) in H. destruct (existsb isBranch l'); [exact (well_insertConcat _ _ _ H E)|injection E as <-; exact H].
  - ands. apply bind_ok in E as (x' & E1 & E). apply bind_ok in E as (y' & E2 & E). apply bind_ok in E as (c' & E3 & E). apply IH in E1; [|assumption]. apply IH in E2; [|assumption]. apply IH in E3; [|assumption].
    assert (t' = insertBranch c' x' y' \/ t' = DBranch c' x' y') as [->| ->] by (destruct c'; injection E as <-; auto); [now apply well_insertBranch|cbn [well]; now rewrite E1, E2, E3].
Qed.

(** ** stored trees: branches on top, an arm may be missing *)
Fixpoint nf (t : df) : bool := match t with DNone => true | DBranch c x y => hard c && nf x && nf y | _ => hard t end.
Lemma well_stable t : well t = true -> stable false t = true -> hard t = true.
Proof.
  assert (HL : forall l, Forall (fun t => well t = true -> stable false t = true -> hard t = true) l -> forallb well l = true -> forallb (stable false) l = true -> forallb hard l = true).
  { induction 1; cbn [forallb]; intros K1 K2; [reflexivity|]. ands. rewrite H, IHForall; auto. }
  induction t as [ |n|s|s|s|l o IH|v m l IHv IHm IHl|v p IHv IHp|l IH|c t f IHc IHt IHf|v w f s|w|w|t IH|s l IH] using df_ind'; intros H K; try discriminate; try reflexivity; cbn [well stable] in H, K.
  - rewrite hard_op. ands. auto.
  - rewrite hard_part. ands. now rewrite IHv, IHm, IHl by auto using hard_well.
  - rewrite hard_ptr. ands. now rewrite IHv, IHp.
  - rewrite hard_concat. auto.
Qed.
Lemma well_nf t : well t = true -> stable true t = true -> nf t = true.
Proof.
  induction t as [ |n|s|s|s|l o IH|v m l IHv IHm IHl|v p IHv IHp|l IH|c t f IHc IHt IHf|v w f s|w|w|t IH|s l IH] using df_ind'; intros H K; try (apply well_stable; assumption); try discriminate.
  cbn [well stable nf] in *. ands. now rewrite IHt, IHf, (well_stable c).
Qed.
Lemma hard_nf t : hard t = true -> nf t = true.
Proof. destruct t; auto. discriminate. Qed.
Lemma nf_insertBranch x y : nf x = true -> nf y = true -> forall c, well c = true -> nf c = true -> nf (insertBranch c x y) = true.
Proof.
  intros Hx Hy. induction c; intros W H; try discriminate; cbn [insertBranch]; try (cbn [nf] in *; rewrite ?H, ?Hx, ?Hy; reflexivity). cbn [nf well] in *. ands. rewrite IHc2, IHc3 by assumption. now rewrite H.
Qed.
(** Trees an assignment is put into, before they are reordered. *)
Fixpoint loose (t : df) : bool := match t with DNone => true | DBranch c x y => well c && loose x && loose y | _ => well t end.
Lemma nf_loose t : nf t = true -> loose t = true.
Proof.
  induction t; intros H; try reflexivity; try exact (hard_well _ H). cbn [nf loose] in *. ands. rewrite IHt2, IHt3 by assumption. now rewrite hard_well.
Qed.
Lemma well_loose t : well t = true -> loose t = true.
Proof. induction t; intros H; try exact H; try discriminate. cbn [well loose] in *. ands. now rewrite IHt2, IHt3, H. Qed.
Lemma reorder_well t : well t = true -> exists t', arrives (fun k => reorder k t) t' /\ well t' = true /\ nf t' = true.
Proof.
  intros W. destruct (well_fit t W) as (R & _). destruct (reorder_arrives t R) as (t' & A). exists t'. split; [exact A|]. apply arrives_here in A as [k E]. pose proof (well_reorder k t t' E W) as W'. split; [exact W'|]. exact (well_nf _ W' (reorder_stable _ _ _ E)).
Qed.
Lemma reorder_loose t : loose t = true -> exists t', arrives (fun k => reorder k t) t' /\ nf t' = true.
Proof.
  induction t as [ | | | | | | | | |c IHc x IHx y IHy| | | | | ]; intros H; try (destruct (reorder_well _ H) as (t' & A & _ & N); exists t'; split; [exact A|exact N]).
  - exists DNone. split; [|reflexivity]. apply shift. exact (arrives_const DNone).
  - cbn [loose] in H. ands. destruct (IHx ltac:(assumption)) as (x' & Ax & Nx), (IHy ltac:(assumption)) as (y' & Ay & Ny), (reorder_well c ltac:(assumption)) as (c' & Ac & Wc & Nc).
    exists (match c' with DBranch _ _ _ => insertBranch c' x' y' | _ => DBranch c' x' y' end). split.
    + apply shift. cbn [reorder]. refine (arrives_bind _ _ _ _ Ax _). refine (arrives_bind _ _ _ _ Ay _). refine (arrives_bind _ _ _ _ Ac _). destruct c'; exact (arrives_const _).
    + destruct c'; try (cbn [nf] in *; rewrite ?Nc, ?Nx, ?Ny; reflexivity); try discriminate. now apply nf_insertBranch.
Qed.

(** ** putting a value into a tree *)
Definition sound_path (p : path) : Prop := Forall (fun cb => well (fst cb) = true) p.
Lemma loose_make p V : sound_path p -> loose V = true -> loose (makeBranchTree p V) = true.
Proof. induction 1 as [|[c b] p Hc _ IH]; intros HV; cbn [makeBranchTree]; [exact HV|]. cbn [fst] in Hc. destruct b; cbn [loose]; now rewrite Hc, IH. Qed.
Lemma loose_append T V : loose T = true -> loose V = true -> forall p, sound_path p -> p <> [] -> exists t, appendBranchTree (makeBranchTree p V) (flip_last (map snd p)) T = Ok t /\ loose t = true.
Proof.
  intros HT HV. induction p as [|[c b] p IH]; intros Hp Hn; [congruence|]. inversion Hp as [|? ? H0 H2]; subst. cbn [fst] in *.
  destruct p as [|cb p].
  - destruct b; cbn; eexists; (split; [reflexivity|]); cbn [loose]; now rewrite H0, HT, HV.
  - destruct (IH H2 ltac:(discriminate)) as (t & E & St).
    assert (F : flip_last (map snd ((c, b) :: cb :: p)) = b :: flip_last (map snd (cb :: p))) by reflexivity. rewrite F. cbn [makeBranchTree]. fold (makeBranchTree (cb :: p) V).
    destruct b; cbn [appendBranchTree]; change (match cb with (c0, true) => DBranch c0 (makeBranchTree p V) DNone | (c0, false) => DBranch c0 DNone (makeBranchTree p V) end) with (makeBranchTree (cb :: p) V); rewrite E; cbn [bind]; eexists; (split; [reflexivity|]); cbn [loose]; now rewrite H0, St.
Qed.
Lemma stop_loose T p V : sound_path p -> loose T = true -> loose V = true -> exists t, stop T p V = Ok t /\ loose t = true.
Proof.
  intros Hp HT HV. destruct p as [|cb p]; [exists V; auto|]. cbn [stop]. destruct (is_none T).
  - eexists. split; [reflexivity|]. now apply loose_make.
  - apply loose_append; auto. discriminate.
Qed.
Lemma ins_loose : forall p T V, sound_path p -> loose T = true -> loose V = true -> exists t, ins T p V = Ok t /\ loose t = true.
Proof.
  induction p as [|[c b] p IH]; intros T V Hp HT HV; [exists V; rewrite ins_nil; auto|]. inversion Hp as [|? ? H0 H2]; subst.
  assert (D : forall T', loose T' = true -> exists t, stop T' ((c, b) :: p) V = Ok t /\ loose t = true) by (intros T' H; now apply stop_loose).
  destruct T as [ |n|s|s|s|l o|v m0 l|v q|l|c' x y|v w f s|w|w|t|s l]; cbn [ins]; try exact (D _ HT).
  destruct (eqc c c'); [|exact (D _ HT)]. cbn [loose] in HT. ands.
  destruct b; [destruct (IH x V H2 ltac:(assumption) HV) as (t & E & St)|destruct (IH y V H2 ltac:(assumption) HV) as (t & E & St)]; rewrite E; cbn [bind]; eexists; (split; [reflexivity|]); cbn [loose]; rewrite St; repeat match goal with H : _ = true |- _ => rewrite H end; reflexivity.
Qed.
Lemma diff_total p : sound_path p -> forall T m, exists rest rp m', diffBranchTree T p m = Ok (rest, rp, m ++ m') /\ (nf T = true -> nf rest = true) /\ forall V, ins T p V = do a <- stop rest rp V; appendBranchTree T m' a.
Proof.
  assert (B : forall V T p, ins T p V = stop T p V -> ins T p V = do a <- stop T p V; appendBranchTree T [] a).
  { intros V T p0 ->. destruct (stop T p0 V); cbn [bind]; rewrite ?append_nil; reflexivity. }
  induction 1 as [|[c b] p Hc Hp IH]; intros T m.
  - exists T, [], []. rewrite app_nil_r. split; [destruct T; reflexivity|]. split; [auto|]. intros V. cbn [stop bind]. rewrite append_nil. destruct T; reflexivity.
  - cbn [fst] in Hc. destruct (well_fit c Hc) as (_ & _ & Hd). destruct T as [ |n|s|s|s|l o|v m0 l|v q|l|c' x y|v w f s|w|w|t|s l];
      try (eexists _, _, []; cbn [diffBranchTree]; rewrite app_nil_r; split; [reflexivity|]; split; [auto|]; intros V; apply B; reflexivity).
    cbn [diffBranchTree ins]. rewrite (eqc_ok c c' Hd). cbn [bind]. destruct (eqc c c') eqn:E.
    + destruct (IH (if b then x else y) (m ++ [b])) as (rest & rp & m' & -> & N & H). exists rest, rp, (b :: m'). rewrite <- app_assoc. split; [reflexivity|]. split; [intros K; apply N; cbn [nf] in K; ands; destruct b; assumption|]. intros V.
      destruct b; rewrite H; destruct (stop rest rp V) as [a|e]; cbn [bind appendBranchTree]; auto.
    + exists (DBranch c' x y), ((c, b) :: p), []. rewrite app_nil_r. split; [reflexivity|]. split; [auto|]. intros V.
      destruct (stop (DBranch c' x y) ((c, b) :: p) V); cbn [bind]; rewrite ?append_nil; reflexivity.
Qed.
Lemma insert_loose T p V : sound_path p -> loose T = true -> loose V = true -> exists t, insert T p V = Ok t /\ loose t = true.
Proof.
  intros Hp HT HV. assert (E : insert T p V = ins T p V).
  { unfold insert. destruct (diff_total p Hp T []) as (rest & rp & m' & -> & _ & H). rewrite H. cbn [bind app]. destruct rp; reflexivity. }
  rewrite E. now apply ins_loose.
Qed.

(** ** reading a stored tree *)
Lemma replace_hard n t : hard t = true -> replaceUndefined t n = Ok t.
Proof.
  assert (HL : forall l, Forall (fun t => hard t = true -> replaceUndefined t n = Ok t) l -> forallb hard l = true -> mapM (fun x => replaceUndefined x n) l = Ok l).
  { induction 1; cbn [forallb mapM]; intros K; [reflexivity|]. ands. rewrite H by assumption. cbn [bind]. rewrite IHForall by assumption. reflexivity. }
  induction t as [ |m|s|s|s|l o IH|v m l IHv IHm IHl|v p IHv IHp|l IH|c t f IHc IHt IHf|v w f s|w|w|t IH|s l IH] using df_ind'; intros H; try discriminate; try reflexivity; cbn [replaceUndefined].
  - rewrite hard_op in H. rewrite (HL l IH H). cbn [bind]. unfold mkOp. now rewrite (well_nones l (list_imp _ _ _ (proj2 (Forall_forall _ _) (fun x _ => hard_well x)) H)).
  - rewrite hard_part in H. ands. rewrite IHm by assumption. cbn [bind]. rewrite IHl by assumption. cbn [bind]. rewrite IHv by assumption. reflexivity.
  - rewrite hard_ptr in H. ands. rewrite IHp by assumption. cbn [bind]. rewrite IHv by assumption. reflexivity.
  - rewrite hard_concat in H. rewrite (HL l IH H). reflexivity.
Qed.
Lemma replace_nf n t : nf t = true -> exists t', replaceUndefined t n = Ok t' /\ well t' = true.
Proof.
  induction t as [ | | | | | | | | |c IHc x IHx y IHy| | | | | ]; intros H; try (eexists; split; [apply replace_hard; exact H|apply hard_well; exact H]).
  - exists (DTerm n). auto.
  - cbn [nf] in H. ands. destruct (IHx ltac:(assumption)) as (x' & Ex & Wx), (IHy ltac:(assumption)) as (y' & Ey & Wy). cbn [replaceUndefined]. rewrite (replace_hard n c) by assumption. cbn [bind]. rewrite Ex. cbn [bind]. rewrite Ey. cbn [bind]. eexists. split; [reflexivity|]. cbn [well]. now rewrite Wx, Wy, hard_well.
Qed.

(** ** resolving an expression *)
Lemma opList_arrives l o : forallb well l = true -> exists t, arrives (fun k => insertOpList k l o) t /\ well t = true.
Proof.
  intros W. destruct (insertOpList (S (lsize l)) l o) as [t|e] eqn:E.
  - exists t. split; [|exact (well_insertOpList _ _ _ _ W E)]. exists (S (lsize l)). intros k Hk. apply (insertOpList_mono (S (lsize l))); [exact E|discriminate|exact Hk].
  - exfalso. apply (insertOpList_fuel (S (lsize l)) l o ltac:(lia)). rewrite E. f_equal. eapply insertOpList_noerr; [|exact E]. refine (list_imp _ _ _ _ W). apply Forall_forall. intros x _. apply well_leaves.
Qed.
Lemma concat_arrives l : forallb well l = true -> exists t, arrives (fun k => insertConcat k l) t /\ well t = true.
Proof.
  intros W. destruct (insertConcat (S (lsize l)) l) as [t|e] eqn:E.
  - exists t. split; [|exact (well_insertConcat _ _ _ W E)]. exists (S (lsize l)). intros k Hk. apply (insertConcat_mono (S (lsize l))); [exact E|discriminate|exact Hk].
  - exfalso. apply (insertConcat_fuel (S (lsize l)) l ltac:(lia)). rewrite E. f_equal. eapply insertConcat_noerr. exact E.
Qed.
Section Plain.
  Variables (asg : chain -> bool) (ns : list chain).
  Notation good := (plain asg ns).
  Section Ind.
    Variable P : df -> Prop.
    Hypothesis H1 : forall n, In n ns -> P (DTerm n).
    Hypothesis H2 : forall s, P (DInt s).
    Hypothesis H3 : forall s, P (DFloat s).
    Hypothesis H4 : forall s, P (DStr s).
    Hypothesis H5 : forall l o, Forall good l -> Forall P l -> P (DOp l o).
    Hypothesis H6 : forall l, Forall good l -> Forall P l -> P (DConcat l).
    Hypothesis H7 : forall v m l, good v -> good m -> good l -> ~ moving asg m -> ~ moving asg l -> P v -> P m -> P l -> P (DPart v m l).
    Hypothesis H8 : forall v p, good v -> good p -> P v -> P p -> P (DPtr v p).
    Hypothesis H9 : forall c x y, good c -> good x -> good y -> P c -> P x -> P y -> P (DBranch c x y).
    Fixpoint plain_rect' (t : df) (H : good t) {struct H} : P t :=
      let list := fix list (l : list df) (F : Forall good l) {struct F} : Forall P l := match F with Forall_nil _ => Forall_nil _ | Forall_cons x Hx Hr => Forall_cons x (plain_rect' x Hx) (list _ Hr) end in
      match H with
      | plain_term _ _ n K => H1 n K
      | plain_int _ _ s => H2 s
      | plain_float _ _ s => H3 s
      | plain_str _ _ s => H4 s
      | plain_op _ _ l o F => H5 l o F (list l F)
      | plain_concat _ _ l F => H6 l F (list l F)
      | plain_part _ _ v m l A B C D E => H7 v m l A B C D E (plain_rect' v A) (plain_rect' m B) (plain_rect' l C)
      | plain_ptr _ _ v p A B => H8 v p A B (plain_rect' v A) (plain_rect' p B)
      | plain_cond _ _ c x y A B C => H9 c x y A B C (plain_rect' c A) (plain_rect' x B) (plain_rect' y C)
      end.
  End Ind.
  Variable array : chain -> bool.
  Variable rd : chain -> res df.
  Hypothesis Hrd : forall n, In n ns -> asg n = false -> rd n = Ok (DTerm n).
  Hypothesis Hrw : forall n, In n ns -> exists t, rd n = Ok t /\ well t = true.
  Let mv (u : df) : bool := match u with DBranch _ _ _ => true | DTerm n => asg n | _ => false end.
  Lemma resolve_still : forall t, good t -> occurs mv t = false -> hard t = true /\ forall k, resolve k array rd t = Ok t.
  Proof.
    assert (HL : forall l, Forall (fun t => occurs mv t = false -> hard t = true /\ forall k, resolve k array rd t = Ok t) l -> existsb (occurs mv) l = false -> forallb hard l = true /\ forall k, mapM (resolve k array rd) l = Ok l).
    { induction 1; cbn [existsb forallb mapM]; intros K; [auto|]. apply orb_false_iff in K as [K1 K2]. destruct (H K1) as [-> E], (IHForall K2) as [-> E']. split; [reflexivity|]. intros k. rewrite E. cbn [bind]. rewrite E'. reflexivity. }
    assert (NB : forall l, forallb hard l = true -> existsb isBranch l = false /\ existsb is_none l = false).
    { induction l as [|a l IH]; cbn [forallb existsb]; intros K; [auto|]. ands. destruct (IH ltac:(assumption)) as [-> ->]. rewrite hard_branch, hard_none by assumption. auto. }
    refine (plain_rect' _ _ _ _ _ _ _ _ _ _); cbn [occurs mv orb resolve].
    - intros n Hn K. rewrite orb_false_r in K. split; [reflexivity|]. auto.
    - auto.
    - auto.
    - auto.
    - intros l o _ IH K. destruct (HL l IH K) as [A B]. destruct (NB l A) as [N1 N2]. rewrite hard_op. split; [exact A|]. intros k. rewrite B. cbn [bind]. rewrite N1. unfold mkOp. now rewrite N2.
    - intros l _ IH K. destruct (HL l IH K) as [A B]. destruct (NB l A) as [N1 N2]. rewrite hard_concat. split; [exact A|]. intros k. rewrite B. cbn [bind]. now rewrite N1.
    - intros v m l _ _ _ _ _ IHv IHm IHl K. apply orb_false_iff in K as [K K3]. apply orb_false_iff in K as [K1 K2]. destruct (IHv K1) as [A1 B1], (IHm K2) as [A2 B2], (IHl K3) as [A3 B3]. rewrite hard_part, A1, A2, A3. split; [reflexivity|]. intros k. rewrite B1, B2, B3. cbn [bind]. now rewrite (hard_branch v A1).
    - intros v p _ _ IHv IHp K. apply orb_false_iff in K as [K1 K2]. destruct (IHv K1) as [A1 B1], (IHp K2) as [A2 B2]. rewrite hard_ptr, A1, A2. split; [reflexivity|]. intros k. rewrite B1, B2. cbn [bind]. rewrite (hard_branch v A1). match goal with |- (if ?b then _ else _) = _ => destruct b end; reflexivity.
    - discriminate.
  Qed.
  Lemma still_bound m : ~ moving asg m -> occurs mv m = false.
  Proof. intros H. destruct (occurs mv m) eqn:E; [exfalso; apply H; exact E|reflexivity]. Qed.
  Lemma resolve_arrives : forall t, good t -> exists t', arrives (fun k => resolve k array rd t) t' /\ well t' = true.
  Proof.
    assert (HL : forall l, Forall (fun t => exists t', arrives (fun k => resolve k array rd t) t' /\ well t' = true) l -> exists l', arrives (fun k => mapM (resolve k array rd) l) l' /\ forallb well l' = true).
    { induction 1 as [|t l (t' & A & W) _ (l' & A' & W')]; [exists []; split; [exact (arrives_const _)|reflexivity]|]. exists (t' :: l'). split; [|cbn [forallb]; now rewrite W, W']. cbn [mapM].
      refine (arrives_bind _ _ _ _ A _). refine (arrives_bind _ _ _ _ A' _). exact (arrives_const _). }
    refine (plain_rect' _ _ _ _ _ _ _ _ _ _); cbn [resolve].
    - intros n Hn. destruct (Hrw n Hn) as (t & E & W). exists t. split; [|exact W]. rewrite E. exact (arrives_const _).
    - intros s. exists (DInt s). split; [exact (arrives_const _)|reflexivity].
    - intros s. exists (DFloat s). split; [exact (arrives_const _)|reflexivity].
    - intros s. exists (DStr s). split; [exact (arrives_const _)|reflexivity].
    - intros l o _ IH. destruct (HL l IH) as (l' & A & W). destruct (existsb isBranch l') eqn:B.
      + destruct (opList_arrives l' o W) as (t & At & Wt). exists t. split; [|exact Wt]. refine (arrives_bind _ _ _ _ A _). now rewrite B.
      + exists (DOp l' o). split; [|exact W]. refine (arrives_bind _ _ _ _ A _). rewrite B. unfold mkOp. rewrite (well_nones l' W). exact (arrives_const _).
    - intros l _ IH. destruct (HL l IH) as (l' & A & W). destruct (existsb isBranch l') eqn:B.
      + destruct (concat_arrives l' W) as (t & At & Wt). exists t. split; [|exact Wt]. refine (arrives_bind _ _ _ _ A _). now rewrite B.
      + exists (DConcat l'). split; [|exact W]. refine (arrives_bind _ _ _ _ A _). rewrite B. exact (arrives_const _).
    - intros v m l _ Gm Gl Mm Ml (v' & A & W) _ _. destruct (resolve_still m Gm (still_bound m Mm)) as [Hm Em], (resolve_still l Gl (still_bound l Ml)) as [Hl El].
      exists (if isBranch v' then insertPartselect v' m l else DPart v' m l). split.
      + apply (arrives_ext (fun k => do v' <- resolve k array rd v; Ok (if isBranch v' then insertPartselect v' m l else DPart v' m l))); [intros k; rewrite Em, El; reflexivity|]. refine (arrives_bind _ _ _ _ A _). exact (arrives_const _).
      + destruct (isBranch v'); [now apply well_insertPart|]. cbn [well]. now rewrite W, Hm, Hl.
    - intros v p Gv _ (v' & Av & Wv) (p' & Ap & Wp). destruct (match v with DTerm n => array n | _ => false end) eqn:Ev.
      + exists (DPtr v p'). split; [refine (arrives_bind _ _ _ _ Ap _); exact (arrives_const _)|]. destruct v; try discriminate. cbn [well]. now rewrite Wp.
      + exists (if isBranch v' then insertPointer v' p' else DPtr v' p'). split; [refine (arrives_bind _ _ _ _ Ap _); refine (arrives_bind _ _ _ _ Av _); exact (arrives_const _)|].
        destruct (isBranch v'); [now apply well_insertPtr|]. cbn [well]. now rewrite Wv, Wp.
    - intros c x y _ _ _ (c' & Ac & Wc) (x' & Ax & Wx) (y' & Ay & Wy). exists (if isBranch c' then insertBranch c' x' y' else DBranch c' x' y'). split.
      + refine (arrives_bind _ _ _ _ Ax _). refine (arrives_bind _ _ _ _ Ay _). refine (arrives_bind _ _ _ _ Ac _). exact (arrives_const _).
      + destruct (isBranch c'); [now apply well_insertBranch|]. cbn [well]. now rewrite Wc, Wx, Wy.
  Qed.
End Plain.
