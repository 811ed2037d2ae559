(** BlkProofs2.v - conditions, paths and frames. *)
From Verif Require Import Base ScopeModel ScopeSpec ScopeProofs DfModel DfSpec DfProofs ReorderModel ReorderSpec ReorderProofs BindModel BindSpec BindProofs AsgModel AsgSpec AsgProofs AsgProofs2 BlkModel BlkSpec BlkProofs.

Section Resolve.
  Variable k : nat.
  Variable array : chain -> bool.
  Lemma resolve_ext rd rd' : forall e, (forall n, In n (names e) -> rd n = rd' n) -> resolve k array rd e = resolve k array rd' e.
  Proof.
    assert (HM : forall l, Forall (fun e => (forall n, In n (names e) -> rd n = rd' n) -> resolve k array rd e = resolve k array rd' e) l ->
      (forall n, In n (flat_map names l) -> rd n = rd' n) -> mapM (resolve k array rd) l = mapM (resolve k array rd') l).
    { induction 1 as [|a l Ha _ IH]; intros H; [reflexivity|]. cbn [mapM flat_map] in *. rewrite Ha, IH; auto; intros; apply H; apply in_or_app; auto. }
    induction e as [ |n|s|s|s|l o IH|x m l IHx IHm IHl|x p IHx IHp|l IH|c x y IHc IHx IHy|x w f s|w|w|x IH|s l IH] using df_ind'; intros H; cbn [resolve names] in *; try reflexivity.
    - apply H. now left.
    - now rewrite (HM l IH H).
    - rewrite IHm, IHl, IHx; auto; intros; apply H; rewrite !in_app_iff; auto.
    - rewrite IHp by (intros; apply H; rewrite !in_app_iff; auto). rewrite IHx by (intros; apply H; rewrite !in_app_iff; auto). reflexivity.
    - now rewrite (HM l IH H).
    - rewrite IHc, IHx, IHy; auto; intros; apply H; rewrite !in_app_iff; auto.
  Qed.

  (** A condition whose signals read as signals stays a condition. *)
  Definition fine (t : df) : Prop := occurs isBranch t = false /\ occurs odd2 t = false.
  Lemma fine_good c : fine c -> good_cond c.
  Proof.
    intros [H1 H2]. split; [split; [|exact H1]|exact H2]. clear H1. unfold no_delay. revert H2.
    induction c as [ |n|s|s|s|l o IH|v m l IHv IHm IHl|v p IHv IHp|l IH|c t f IHc IHt IHf|v w f s|w|w|t IH|s l IH] using df_ind'; cbn [occurs odd2 isDelay orb]; intros H; try discriminate; auto;
      repeat match goal with J : _ || _ = false |- _ => apply orb_false_iff in J as [? ?] end; rewrite ?IHv, ?IHm, ?IHl, ?IHp, ?IHc, ?IHt, ?IHf by auto; auto;
      (induction IH as [|a l Ha _ IHl]; [reflexivity|]; cbn [existsb] in *; apply orb_false_iff in H as [? ?]; rewrite Ha, IHl; auto).
  Qed.
  Lemma good_fine c : good_cond c -> fine c.
  Proof. intros [[_ H] H']. split; assumption. Qed.
  Lemma fine_branch t : fine t -> isBranch t = false.
  Proof. intros [H _]. now apply occurs_isBranch. Qed.
  Lemma fine_none t : fine t -> is_none t = false.
  Proof. intros [_ H]. destruct t; try reflexivity. discriminate H. Qed.
  Lemma fine_list l : Forall fine l -> existsb isBranch l = false /\ existsb is_none l = false /\ existsb (occurs isBranch) l = false /\ existsb (occurs odd2) l = false.
  Proof.
    induction 1 as [|a l Ha _ (H1 & H2 & H3 & H4)]; [auto|]. cbn [existsb]. rewrite (fine_branch _ Ha), (fine_none _ Ha), H1, H2, H3, H4. destruct Ha as [-> ->]. auto.
  Qed.
  Lemma fine_split l : existsb (occurs isBranch) l = false -> existsb (occurs odd2) l = false -> Forall fine l.
  Proof.
    induction l as [|a l IH]; cbn [existsb]; intros H1 H2; [constructor|]. apply orb_false_iff in H1 as [A1 H1]. apply orb_false_iff in H2 as [A2 H2]. constructor; [split; assumption|auto].
  Qed.
  Lemma resolve_leaf rd : forall c, (forall n, In n (names c) -> exists r, rd n = Ok (DTerm r) /\ wild r = false) -> fine c -> exists c', resolve k array rd c = Ok c' /\ fine c'.
  Proof.
    assert (HM : forall l, Forall (fun c => (forall n, In n (names c) -> exists r, rd n = Ok (DTerm r) /\ wild r = false) -> fine c -> exists c', resolve k array rd c = Ok c' /\ fine c') l ->
      (forall n, In n (flat_map names l) -> exists r, rd n = Ok (DTerm r) /\ wild r = false) -> Forall fine l -> exists l', mapM (resolve k array rd) l = Ok l' /\ Forall fine l').
    { induction 1 as [|a l Ha _ IH]; intros H HF; [exists []; auto|]. inv HF. cbn [mapM flat_map] in *.
      destruct (Ha (fun n Hn => H n (in_or_app _ _ _ (or_introl Hn))) H2) as (a' & -> & Fa). destruct (IH (fun n Hn => H n (in_or_app _ _ _ (or_intror Hn))) H3) as (l' & -> & Fl).
      exists (a' :: l'). split; [reflexivity|constructor; assumption]. }
    induction c as [ |n|s|s|s|l o IH|x m l IHx IHm IHl|x p IHx IHp|l IH|c x y IHc IHx IHy|x w f s|w|w|x IH|s l IH] using df_ind'; intros H HF; cbn [resolve names] in *;
      try (destruct HF as [_ HF]; discriminate HF); try (eexists; split; [reflexivity|exact HF]).
    - destruct (H n (or_introl eq_refl)) as (r & E & Ew). exists (DTerm r). split; [exact E|split; [reflexivity|cbn [occurs odd2]; now rewrite Ew]].
    - destruct HF as [F1 F2]. destruct (HM l IH H (fine_split _ F1 F2)) as (l' & -> & Fl). destruct (fine_list _ Fl) as (B1 & B2 & B3 & B4). cbn [bind]. rewrite B1. unfold mkOp. rewrite B2.
      eexists. split; [reflexivity|]. split; assumption.
    - destruct HF as [F1 F2]. cbn [occurs isBranch odd2 orb] in F1, F2. apply orb_false_iff in F1 as [F1 F13]. apply orb_false_iff in F1 as [F11 F12]. apply orb_false_iff in F2 as [F2 F23]. apply orb_false_iff in F2 as [F21 F22].
      destruct IHx as (x' & -> & [X1 X2]); [intros; apply H; rewrite !in_app_iff; auto|split; assumption|].
      destruct IHm as (m' & -> & [M1 M2]); [intros; apply H; rewrite !in_app_iff; auto|split; assumption|].
      destruct IHl as (l' & -> & [L1 L2]); [intros; apply H; rewrite !in_app_iff; auto|split; assumption|].
      cbn [bind]. rewrite (fine_branch x' (conj X1 X2)). eexists. split; [reflexivity|]. split; cbn [occurs isBranch odd2 orb]; [rewrite X1, M1, L1|rewrite X2, M2, L2]; reflexivity.
    - destruct HF as [F1 F2]. cbn [occurs isBranch odd2 orb] in F1, F2. apply orb_false_iff in F1 as [F11 F12]. apply orb_false_iff in F2 as [F21 F22].
      destruct IHp as (p' & -> & [P1 P2]); [intros; apply H; rewrite !in_app_iff; auto|split; assumption|]. cbn [bind].
      destruct (match x with DTerm n => array n | _ => false end).
      + eexists. split; [reflexivity|]. split; cbn [occurs isBranch odd2 orb]; [rewrite F11, P1|rewrite F21, P2]; reflexivity.
      + destruct IHx as (x' & -> & [X1 X2]); [intros; apply H; rewrite !in_app_iff; auto|split; assumption|]. cbn [bind]. rewrite (fine_branch x' (conj X1 X2)).
        eexists. split; [reflexivity|]. split; cbn [occurs isBranch odd2 orb]; [rewrite X1, P1|rewrite X2, P2]; reflexivity.
    - destruct HF as [F1 F2]. destruct (HM l IH H (fine_split _ F1 F2)) as (l' & -> & Fl). destruct (fine_list _ Fl) as (B1 & B2 & B3 & B4). cbn [bind]. rewrite B1.
      eexists. split; [reflexivity|]. split; assumption.
    - destruct HF as [HF _]. discriminate HF.
  Qed.

  (** ** paths depend on the trees of the signals that the conditions read from frames *)
  Fixpoint locked (fs : list bframe) (n : chain) : Prop :=
    match fs with
    | [] => False
    | f :: r => match bf_cond f with Some (c, _) => In n (names c) /\ find_entry r n <> None | None => False end \/ locked r n
    end.
  Lemma read_ext s s' fs p n : (find_entry fs n <> None -> dget (bs_trees s') n = dget (bs_trees s) n) -> read_at s fs p n = read_at s' fs p n.
  Proof.
    intros H. unfold read_at. destruct (find_entry fs n) as [e|]; [|reflexivity].
    assert (entry_tree s n e = entry_tree s' n e) as ->; [|reflexivity]. destruct e; [|reflexivity]. cbn [entry_tree]. unfold tree_of. rewrite H; [reflexivity|discriminate].
  Qed.
  Lemma condpath_stable s s' fs : (forall n, locked fs n -> dget (bs_trees s') n = dget (bs_trees s) n) -> condpath k array s' fs = condpath k array s fs.
  Proof.
    induction fs as [|f r IH]; intros H; [reflexivity|]. cbn [condpath]. rewrite IH by (intros n Hn; apply H; cbn [locked]; now right).
    destruct (condpath k array s r) as [p|e]; [|reflexivity]. cbn [bind]. destruct (bf_cond f) as [[c b]|] eqn:Ec; [|reflexivity].
    rewrite (resolve_ext (read_at s' r p) (read_at s r p)); [reflexivity|]. intros n Hn. symmetry. apply read_ext. intros Hf. apply H. cbn [locked]. rewrite Ec. left. auto.
  Qed.
End Resolve.

(** ** new names *)
Lemma init_last_eq n i l : init_last n = Some (i, l) -> n = i ++ [l].
Proof.
  revert i l. induction n as [|x n IH]; intros i l E; [discriminate|]. cbn [init_last] in E. destruct n as [|y n]; [injection E as <- <-; reflexivity|].
  destruct (init_last (y :: n)) as [[i' l']|]; [|discriminate]. injection E as <- <-. cbn [app]. f_equal. now apply IH.
Qed.
Lemma rename_plain n c r : no_any n -> renameVar n c = Ok r -> no_any r.
Proof.
  intros H E. unfold renameVar in E. destruct (init_last n) as [[i l]|] eqn:L; [|discriminate]. injection E as <-. apply init_last_eq in L. subst n.
  unfold no_any in *. apply Forall_app in H as [H _]. apply Forall_app. split; [exact H|]. constructor; [discriminate|constructor].
Qed.
Lemma new_name_ok m terms n : no_any n -> forall c r c', new_name m terms n c = Ok (r, c') -> no_any r /\ ~ In r terms.
Proof.
  intros H. induction m as [|m IH]; intros c r c' E; [discriminate|]. cbn [new_name] in E. apply bind_ok in E as (r1 & E1 & E).
  destruct (smem terms r1) eqn:S1; [exact (IH _ _ _ E)|]. injection E as <- _. split; [exact (rename_plain _ _ _ H E1)|].
  intros Hin. assert (smem terms r1 = true); [|congruence]. unfold smem. apply existsb_exists. exists r1. split; [exact Hin|apply chain_eq_refl].
Qed.

(** ** copying entries, seen from one signal *)
Definition val (a : option df) (e : entry) : df := match e with Live => match a with Some t => t | None => DNone end | Own t => t end.
Definition put1 (v : option df * option entry) (e : option entry) : option df * option entry :=
  match e with
  | None => v
  | Some e => match snd v with
              | None => (fst v, Some e)
              | Some Live => (Some (val (fst v) e), Some Live)
              | Some (Own _) => (fst v, Some (Own (val (fst v) e)))
              end
  end.
Definition view (s : bst) (t : btable) (n : chain) : option df * option entry := (dget (bs_trees s) n, dget t n).
Definition plain_st (s : bst) : Prop := keys_plain (bs_trees s).
Definition plain_tab (t : btable) : Prop := keys_plain t /\ NoDup (map fst t).

Lemma put_entry_view s t n e : plain_st s -> plain_tab t -> no_any n ->
  let st := put_entry s t n e in plain_st (fst st) /\ plain_tab (snd st) /\ bs_terms (fst st) = bs_terms s /\ bs_cnt (fst st) = bs_cnt s /\
  forall m, no_any m -> view (fst st) (snd st) m = if chain_dec n m then put1 (view s t n) (Some e) else view s t m.
Proof.
  intros Hs [Ht Hd] Hn. unfold put_entry. destruct (dget t n) as [[|u]|] eqn:E; cbn [fst snd].
  - split; [now apply dset_plain|]. split; [split; assumption|]. split; [reflexivity|]. split; [reflexivity|]. intros m Hm. unfold view, set_tree. cbn [bs_trees]. rewrite dget_dset by assumption.
    destruct (chain_dec n m) as [<-|N]; [|reflexivity]. unfold put1. cbn [snd fst]. rewrite E. destruct e; reflexivity.
  - split; [assumption|]. split; [split; [now apply dset_plain|now apply dset_keys]|]. split; [reflexivity|]. split; [reflexivity|]. intros m Hm. unfold view. rewrite dget_dset by assumption.
    destruct (chain_dec n m) as [<-|N]; [|reflexivity]. unfold put1. cbn [snd fst]. rewrite E. destruct e; reflexivity.
  - split; [assumption|]. split; [split; [now apply dset_plain|now apply dset_keys]|]. split; [reflexivity|]. split; [reflexivity|]. intros m Hm. unfold view. rewrite dget_dset by assumption.
    destruct (chain_dec n m) as [<-|N]; [|reflexivity]. unfold put1. cbn [snd fst]. rewrite E. reflexivity.
Qed.
Lemma dget_notin {V} (d : ndict V) n : keys_plain d -> no_any n -> ~ In n (map fst d) -> dget d n = None.
Proof.
  intros H Hn. induction H as [|[m v] d Hm H IH]; cbn [dget map fst In]; intros N; [reflexivity|]. destruct (chain_eq m n) eqn:E; [|apply IH; tauto].
  apply chain_eq_no_any in E; [|assumption|assumption]. exfalso. apply N. now left.
Qed.
Lemma copy_table_view from : plain_tab from -> forall s t, plain_st s -> plain_tab t ->
  let st := copy_table s t from in plain_st (fst st) /\ plain_tab (snd st) /\ bs_terms (fst st) = bs_terms s /\ bs_cnt (fst st) = bs_cnt s /\
  forall m, no_any m -> view (fst st) (snd st) m = put1 (view s t m) (dget from m).
Proof.
  intros [Hk Hd]. induction Hk as [|[n e] from Hn Hk IH]; intros s t Hs Ht; [cbn; auto|].
  cbn [map fst] in Hd. inv Hd. simpl in Hn. cbn [copy_table].
  destruct (put_entry_view s t n e Hs Ht Hn) as (P1 & P2 & P3 & P4 & P5). destruct (IH H2 _ _ P1 P2) as (C1 & C2 & C3 & C4 & C5).
  split; [exact C1|]. split; [exact C2|]. split; [congruence|]. split; [congruence|]. intros m Hm. rewrite (C5 m Hm), (P5 m Hm). cbn [dget].
  destruct (chain_dec n m) as [<-|N].
  - rewrite chain_eq_refl. rewrite (dget_notin from n Hk Hn H1). reflexivity.
  - destruct (chain_eq n m) eqn:E; [|reflexivity]. apply chain_eq_no_any in E; [|assumption|assumption]. congruence.
Qed.
Lemma copy_tables_view l : Forall plain_tab l -> forall s t, plain_st s -> plain_tab t ->
  let st := copy_tables s t l in plain_st (fst st) /\ plain_tab (snd st) /\ bs_terms (fst st) = bs_terms s /\ bs_cnt (fst st) = bs_cnt s /\
  forall m, no_any m -> view (fst st) (snd st) m = fold_left put1 (map (fun u => dget u m) l) (view s t m).
Proof.
  induction 1 as [|u l Hu _ IH]; intros s t Hs Ht; [cbn; auto|]. cbn [copy_tables].
  destruct (copy_table_view u Hu s t Hs Ht) as (P1 & P2 & P3 & P4 & P5). destruct (IH _ _ P1 P2) as (C1 & C2 & C3 & C4 & C5).
  split; [exact C1|]. split; [exact C2|]. split; [congruence|]. split; [congruence|]. intros m Hm. rewrite (C5 m Hm), (P5 m Hm). reflexivity.
Qed.

(** The entries the frames of one statement leave for a signal: [a0] and [a] are its trees before and after. *)
Definition all_own (es : list (option entry)) : Prop := Forall (fun e => e <> Some Live) es.
Fixpoint disciplined (a0 : option df) (es : list (option entry)) : Prop :=
  match es with
  | [] => True
  | None :: r => disciplined a0 r
  | Some Live :: r => a0 = None /\ all_own r
  | Some (Own _) :: r => all_own r
  end.
Fixpoint last_entry (es : list (option entry)) : option entry :=
  match es with [] => None | e :: r => match last_entry r with Some x => Some x | None => e end end.
Definition left_by (a0 : option df) (es : list (option entry)) (a : option df) : Prop :=
  disciplined a0 es /\ match last_entry es with None => a = a0 | Some Live => a <> None | Some (Own t) => a = Some t end.
Lemma all_own_disc a es : all_own es -> disciplined a es.
Proof. induction 1 as [|[[|t]|] es H F IH]; cbn [disciplined]; [exact I|congruence|exact F|exact IH]. Qed.
Lemma disc_some es : forall a, a <> None -> disciplined a es -> all_own es.
Proof.
  induction es as [|[[|t]|] es IH]; intros a Ha H; cbn [disciplined] in H.
  - constructor.
  - destruct H as [H _]. congruence.
  - constructor; [discriminate|exact H].
  - constructor; [discriminate|exact (IH a Ha H)].
Qed.
Lemma last_app e1 e2 : last_entry (e1 ++ e2) = match last_entry e2 with Some x => Some x | None => last_entry e1 end.
Proof. induction e1 as [|e e1 IH]; cbn [app last_entry]; [destruct (last_entry e2); reflexivity|]. rewrite IH. destruct (last_entry e2); reflexivity. Qed.
Lemma last_some e1 : last_entry e1 = None -> Forall (fun e => e = None) e1.
Proof. induction e1 as [|e e1 IH]; cbn [last_entry]; intros H; constructor; destruct (last_entry e1); auto; discriminate. Qed.
Lemma disc_app a0 e2 : forall e1, disciplined a0 e1 -> (last_entry e1 = None -> disciplined a0 e2) -> (last_entry e1 <> None -> all_own e2) -> disciplined a0 (e1 ++ e2).
Proof.
  induction e1 as [|[[|t]|] e1 IH]; intros D K1 K2; cbn [app disciplined last_entry] in *.
  - apply K1. reflexivity.
  - destruct D as [D1 D2]. split; [exact D1|]. apply Forall_app. split; [exact D2|]. apply K2. destruct (last_entry e1); discriminate.
  - apply Forall_app. split; [exact D|]. apply K2. destruct (last_entry e1); discriminate.
  - apply IH; [exact D|intros E; apply K1; now rewrite E|intros E; apply K2; destruct (last_entry e1); congruence].
Qed.
Lemma left_app a0 e1 a1 e2 a2 : left_by a0 e1 a1 -> left_by a1 e2 a2 -> left_by a0 (e1 ++ e2) a2.
Proof.
  intros [D1 L1] [D2 L2]. split.
  - apply disc_app; [exact D1| |].
    + intros E. rewrite E in L1. subst a1. exact D2.
    + intros E. apply (disc_some e2 a1); [|exact D2]. destruct (last_entry e1) as [[|t]|]; congruence.
  - rewrite last_app. destruct (last_entry e2) as [e|]; [exact L2|]. subst a2. exact L1.
Qed.
(** Copying them to the frame around the statement. *)
Lemma put_own es : all_own es -> forall a to, fold_left put1 es (a, to) =
  match last_entry es with
  | None => (a, to)
  | Some Live => (a, to)
  | Some (Own t) => match to with Some Live => (Some t, Some Live) | _ => (a, Some (Own t)) end
  end.
Proof.
  induction 1 as [|[[|t]|] es H F IH]; intros a to; cbn [fold_left last_entry]; [reflexivity|congruence| |].
  - unfold put1 at 2. cbn [fst snd]. destruct to as [[|u]|]; cbn [val]; rewrite IH; destruct (last_entry es) as [[|w]|] eqn:E; try reflexivity;
      exfalso; clear -F E; induction F as [|e es He F IH]; cbn [last_entry] in E; [discriminate E| |discriminate E| |discriminate E|]; destruct (last_entry es); [auto|congruence|auto|congruence|auto|congruence].
  - unfold put1 at 2. rewrite IH. destruct (last_entry es) as [[|w]|]; reflexivity.
Qed.
Lemma put_left a0 es a to : left_by a0 es a -> (to <> None -> a0 <> None) ->
  exists to', fold_left put1 es (a, to) = (a, to') /\
    match last_entry es with
    | None => to' = to
    | Some _ => exists e, to' = Some e /\ a = Some (val a e) /\ (e = Live -> to = Some Live \/ a0 = None)
    end.
Proof.
  intros [D L] Ha.
  assert (all_own es -> exists to', fold_left put1 es (a, to) = (a, to') /\
    match last_entry es with
    | None => to' = to
    | Some _ => exists e, to' = Some e /\ a = Some (val a e) /\ (e = Live -> to = Some Live \/ a0 = None)
    end) as K.
  { intros F. rewrite (put_own es F). destruct (last_entry es) as [[|t]|] eqn:E.
    - exfalso. clear -F E. induction F as [|e es He F IH]; cbn [last_entry] in E; [discriminate|]. destruct (last_entry es); [auto|congruence].
    - subst a. destruct to as [[|u]|]; eexists; (split; [reflexivity|]); eexists; (split; [reflexivity|]); (split; [reflexivity|]); intros H; auto; discriminate.
    - eexists. split; [reflexivity|reflexivity]. }
  revert K D L. destruct a0 as [t0|]; intros K D L; [apply K; apply (disc_some es (Some t0)); [discriminate|exact D]|].
  clear K. assert (to = None) as -> by (destruct to; [exfalso; apply Ha; [discriminate|reflexivity]|reflexivity]). clear Ha.
  induction es as [|[[|t]|] es IH]; cbn [disciplined last_entry fold_left] in *.
  - eexists. split; reflexivity.
  - destruct D as [_ D]. unfold put1 at 2. cbn [fst snd]. rewrite (put_own es D). destruct (last_entry es) as [[|w]|].
    + eexists. split; [reflexivity|]. eexists. split; [reflexivity|]. split; [destruct a; [reflexivity|congruence]|auto].
    + subst a. eexists. split; [reflexivity|]. eexists. split; [reflexivity|]. split; [reflexivity|auto].
    + eexists. split; [reflexivity|]. eexists. split; [reflexivity|]. split; [destruct a; [reflexivity|congruence]|auto].
  - unfold put1 at 2. cbn [fst snd]. rewrite (put_own es D). destruct (last_entry es) as [[|w]|] eqn:E.
    + exfalso. clear -D E. induction D as [|e es He F IH]; cbn [last_entry] in E; [discriminate|]. destruct (last_entry es); [auto|congruence].
    + subst a. eexists. split; [reflexivity|]. eexists. split; [reflexivity|]. split; [reflexivity|discriminate].
    + subst a. eexists. split; [reflexivity|]. eexists. split; [reflexivity|]. split; [reflexivity|discriminate].
  - unfold put1 at 2. destruct (last_entry es) as [e|] eqn:E; apply IH; assumption.
Qed.
