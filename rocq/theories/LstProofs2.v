From Verif Require Import Base ScopeModel ScopeSpec ScopeProofs DfModel BindModel BindSpec BindProofs VisitModel VisitSpec VisitProofs VisitProofs2 LstModel LstSpec LstProofs.

Lemma nodup_app {A} (a b : list A) : NoDup a -> NoDup b -> (forall x, In x a -> In x b -> False) -> NoDup (a ++ b).
Proof.
  induction 1 as [|x r H1 H2 IH]; intros Hb HD; [exact Hb|]. cbn [app]. constructor.
  - rewrite in_app_iff. intros [K|K]; [contradiction|]. apply (HD x); [now left|exact K].
  - apply IH; [exact Hb|]. intros y Hy. apply HD. now right.
Qed.

(** ** Loops of dictionary updates *)
Section Folds.
  Context {V : Type}.
  Lemma fold_dset (l : ndict V) : forall r, keys_plain (r ++ l) -> NoDup (map fst (r ++ l)) -> fold_left (fun r p => dset r (fst p) (snd p)) l r = r ++ l.
  Proof.
    induction l as [|[k v] l IH]; intros r Hp Hn; [now rewrite app_nil_r|]. cbn [fold_left fst snd].
    assert (keys_plain r /\ no_any k) as [Hr Hk]. { unfold keys_plain in *. apply Forall_app in Hp as [P1 P2]. inversion P2; subst. auto. }
    rewrite dset_fresh; [|exact Hr|exact Hk|].
    - replace (r ++ (k, v) :: l) with ((r ++ [(k, v)]) ++ l) by (now rewrite <- app_assoc). apply IH; rewrite <- app_assoc; assumption.
    - rewrite map_app in Hn. cbn [map fst] in Hn. intros K. apply NoDup_remove_2 in Hn. apply Hn. apply in_app_iff. now left.
  Qed.
  Lemma label_inj c ty x c' x' : c ++ [Label x ty None] = c' ++ [Label x' ty None] -> c = c' /\ x = x'.
  Proof. intros H. apply app_inj_tail in H as [-> H]. injection H as ->. auto. Qed.
  Lemma no_any_label c x ty : no_any c -> ty <> STany -> no_any (c ++ [Label x ty None]).
  Proof. intros H1 H2. apply Forall_app. split; [exact H1|]. constructor; [exact H2|constructor]. Qed.
  Lemma map_key_spec c ty (d : list (string * V)) : no_any c -> ty <> STany -> NoDup (map fst d) ->
    map_key (fun x => chain_add_label c (Label x ty None)) d = map (fun q => (c ++ [Label (fst q) ty None], snd q)) d.
  Proof.
    intros Hc Ht Hd. unfold map_key. set (l := map (fun q => (c ++ [Label (fst q) ty None], snd q)) d).
    assert (fold_left (fun r p => dset r (chain_add_label c (Label (fst p) ty None)) (snd p)) d [] = fold_left (fun r p => dset r (fst p) (snd p)) l ([] : ndict V)) as ->.
    { unfold l. generalize ([] : ndict V). clear. induction d as [|q r IH]; intros x; [reflexivity|]. cbn [fold_left map fst snd]. unfold chain_add_label. apply IH. }
    rewrite fold_dset; [reflexivity| |]; cbn [app].
    - unfold keys_plain, l. apply Forall_map. apply Forall_forall. intros q _. cbn [fst]. now apply no_any_label.
    - unfold l. rewrite map_map. cbn [fst]. clear - Hd. induction d as [|q r IH]; cbn [map]; [constructor|]. cbn [map] in Hd. inversion Hd as [|? ? N1 N2]; subst. constructor; [|now apply IH].
      intros K. apply in_map_iff in K as (q' & E & Hq'). apply label_inj in E as [_ E]. apply N1. rewrite <- E. now apply in_map.
  Qed.
  Lemma all_spec node (s : ftable node) ty (pick : chain -> frame node -> list (string * V)) : ty <> STany -> keys_plain (ft_dict node s) -> NoDup (map fst (ft_dict node s)) ->
    (forall c f, In (c, f) (ft_dict node s) -> NoDup (map fst (pick c f))) ->
    all node s ty pick = flat_map (fun p => map (fun q => (fst p ++ [Label (fst q) ty None], snd q)) (pick (fst p) (snd p))) (ft_dict node s).
  Proof.
    intros Ht Hk Hn Hp. unfold all. set (g := fun p : chain * frame node => map (fun q => (fst p ++ [Label (fst q) ty None], snd q)) (pick (fst p) (snd p))).
    assert (forall d, keys_plain d -> (forall c f, In (c, f) d -> NoDup (map fst (pick c f))) -> NoDup (map fst d) -> forall r : ndict V, keys_plain r -> NoDup (map fst r) -> (forall c n, In (c ++ [Label n ty None]) (map fst r) -> ~ In c (map fst d)) ->
      fold_left (fun ret p => update ret (map_key (fun x => chain_add_label (fst p) (Label x ty None)) (pick (fst p) (snd p)))) d r = r ++ flat_map g d) as K.
    { clear - Ht. induction d as [|[c f] d IH]; intros Hk Hp Hn r Kr Nr Hd; [cbn; now rewrite app_nil_r|]. inversion Hk as [|? ? K1 K2]; subst. cbn [fst] in K1. cbn [map fst] in Hn. inversion Hn as [|? ? N1 N2]; subst. cbn [fold_left flat_map fst snd].
      rewrite map_key_spec; [|exact K1|exact Ht|apply Hp; now left]. pose proof (Hp c f (or_introl eq_refl)) as Np.
      assert (keys_plain (r ++ g (c, f)) /\ NoDup (map fst (r ++ g (c, f)))) as [G1 G2].
      { unfold g. cbn [fst snd]. split.
        - unfold keys_plain. apply Forall_app. split; [exact Kr|]. apply Forall_map, Forall_forall. intros q _. cbn [fst]. now apply no_any_label.
        - rewrite map_app. apply nodup_app; [exact Nr| |].
          + rewrite map_map. cbn [fst]. clear - Np. induction (pick c f) as [|q t IH]; cbn [map]; [constructor|]. cbn [map] in Np. inversion Np as [|? ? N1 N2]; subst. constructor; [|now apply IH].
            intros K. apply in_map_iff in K as (q' & E & Hq'). apply label_inj in E as [_ E]. apply N1. rewrite <- E. now apply in_map.
          + intros x H1 H2. rewrite map_map in H2. apply in_map_iff in H2 as (q & <- & _). cbn [fst] in H1. apply (Hd _ _ H1). now left. }
      unfold update. rewrite fold_dset by assumption. fold (g (c, f)). rewrite app_assoc. apply IH; [exact K2|intros c' f' H'; apply Hp; now right|exact N2|exact G1|exact G2|].
      intros c' n H'. rewrite map_app in H'. apply in_app_iff in H' as [H'|H'].
      - intros K. apply (Hd c' n H'). now right.
      - unfold g in H'. cbn [fst snd] in H'. rewrite map_map in H'. apply in_map_iff in H' as (q & E & _). cbn [fst] in E. apply label_inj in E as [<- _]. exact N1. }
    rewrite K; [reflexivity|exact Hk|exact Hp|exact Hn|constructor|constructor|intros c n []].
  Qed.
End Folds.

Section Vis.
  Context {node : Type}.
  Variable name_of : node -> string.
  Variable class_of : node -> string.
  Notation visit := (visit node name_of class_of).
  Notation happen := (happen node name_of class_of).
  Implicit Type h : list (ev node).
  Definition decl_act (d : mdecl node) : act node := match d with MPort _ d => AddSignal node (name_of d) d | MParam _ d => AddConst node (name_of d) d end.
  Definition apply_decl (f : frame node) (d : mdecl node) : frame node :=
    match d with MPort _ d => frame_addSignal node f (name_of d) d | MParam _ d => frame_addConst node f (name_of d) d end.

  (** ** Instances *)
  Lemma run_decls ds : forall s f, dget (ft_dict node s) (ft_current node s) = Some f ->
    run node (map decl_act ds) s = Ok (FTable node (dset (ft_dict node s) (ft_current node s) (fold_left apply_decl ds f)) (ft_current node s)).
  Proof.
    induction ds as [|d ds IH]; intros s f E; cbn [map run fold_left].
    - rewrite dset_same by exact E. destruct s. reflexivity.
    - assert (step node s (decl_act d) = Ok (FTable node (dset (ft_dict node s) (ft_current node s) (apply_decl f d)) (ft_current node s))) as -> by (destruct d; cbn [decl_act step apply_decl]; unfold on_current; rewrite E; reflexivity).
      cbn [bind]. rewrite (IH _ (apply_decl f d)) by (cbn [ft_dict ft_current]; apply dget_dset_same). cbn [ft_dict ft_current]. now rewrite dset_dset.
  Qed.
  Lemma apply_frame ds : forall f f', f_signals node f = f_signals node f' -> f_consts node f = f_consts node f' ->
    fold_left apply_decl ds f = Frame node (f_previous node f) (f_next node f) (f_flags node f) (f_signals node (fold_left apply_decl ds f')) (f_consts node (fold_left apply_decl ds f')) (f_genvars node f).
  Proof.
    induction ds as [|d ds IH]; intros f f' H1 H2; cbn [fold_left]; [rewrite <- H1, <- H2; destruct f; reflexivity|].
    rewrite (IH (apply_decl f d) (apply_decl f' d)).
    - destruct d; cbn [apply_decl]; unfold frame_addSignal, frame_addConst; destruct (sget (f_consts node f) (name_of d)); reflexivity.
    - destruct d; cbn [apply_decl]; unfold frame_addSignal, frame_addConst; rewrite <- H2; destruct (sget (f_consts node f) (name_of d)); cbn [f_signals]; congruence.
    - destruct d; cbn [apply_decl]; unfold frame_addSignal, frame_addConst; rewrite <- H2; destruct (sget (f_consts node f) (name_of d)); cbn [f_consts]; congruence.
  Qed.
  Lemma apply_nodup ds : forall f, NoDup (map fst (f_signals node f)) -> NoDup (map fst (f_consts node f)) ->
    NoDup (map fst (f_signals node (fold_left apply_decl ds f))) /\ NoDup (map fst (f_consts node (fold_left apply_decl ds f))).
  Proof.
    induction ds as [|d ds IH]; intros f H1 H2; cbn [fold_left]; [auto|]. apply IH; destruct d; cbn [apply_decl]; unfold frame_addSignal, frame_addConst; destruct (sget (f_consts node f) (name_of d)); cbn [f_signals f_consts]; auto using vadd_nodup.
  Qed.
  Lemma supdate_fresh (t : vtable node) : forall d, NoDup (map fst (d ++ t)) -> supdate node d t = d ++ t.
  Proof.
    induction t as [|[k v] t IH]; intros d H; unfold supdate; cbn [fold_left fst snd]; [now rewrite app_nil_r|]. rewrite sset_fresh.
    - fold (supdate node (d ++ [(k, v)]) t). rewrite IH; rewrite <- app_assoc; [reflexivity|exact H].
    - rewrite map_app in H. cbn [map fst] in H. apply NoDup_remove_2 in H. intros K. apply H. apply in_app_iff. now left.
  Qed.
  Lemma stack_runs s i m ds s' : stackInstanceFrame node name_of s i m ds = Ok s' ->
    run node (OpenScope node (Label i STmodule None) (Flags true false false false false false None (Some m)) :: map decl_act ds) s = Ok s' /\ ft_current node s' = ft_current node s ++ [Label i STmodule None].
  Proof.
    intros E. unfold stackInstanceFrame in E. apply bind_ok in E as (s1 & E1 & E). apply bind_ok in E as (s2 & E2 & E3). cbn [run step]. rewrite E1. cbn [bind].
    unfold addFrame in E1. destruct (dmem _ _); [discriminate|]. apply bind_ok in E1 as (d & _ & E1). injection E1 as <-. unfold chain_add_label in *.
    set (c := ft_current node s ++ [Label i STmodule None]) in *. set (f0 := Frame node (ft_current node s) [] (Flags true false false false false false None (Some m)) [] [] []) in *.
    unfold on_current in E2. cbn [ft_dict ft_current] in E2. rewrite dget_dset_same in E2. injection E2 as <-.
    unfold on_current in E3. cbn [ft_dict ft_current] in E3. rewrite dget_dset_same in E3. injection E3 as <-. cbn [ft_current]. split; [|reflexivity].
    rewrite (run_decls ds _ f0) by (cbn [ft_dict ft_current]; apply dget_dset_same). cbn [ft_dict ft_current]. rewrite !dset_dset. f_equal. f_equal. f_equal.
    pose proof (apply_nodup ds (Frame node [] [] (Flags true false false false false false None None) [] [] []) (NoDup_nil _) (NoDup_nil _)) as [N1 N2].
    rewrite (apply_frame ds f0 (Frame node [] [] (Flags true false false false false false None None) [] [] []) eq_refl eq_refl).
    unfold frame_updateSignal, frame_updateConst. cbn [f_previous f_next f_flags f_signals f_consts f_genvars]. change (module_info node name_of ds) with (fold_left apply_decl ds (Frame node [] [] (Flags true false false false false false None None) [] [] [])).
    rewrite !supdate_fresh by (cbn [app f0 f_signals f_consts]; assumption). reflexivity.
  Qed.

  (** ** The frames of a visit *)
  Lemma run_app_ a : forall b s, run node (a ++ b) s = do s' <- run node a s; run node b s'.
  Proof. induction a as [|x r IH]; intros b s; [reflexivity|]. cbn [app run]. destruct (step node s x); [apply IH|reflexivity]. Qed.
  Lemma happen_runs e r s s1 : happen s e = Ok s1 ->
    exists l, declared name_of class_of (t_function_def node s) (t_task_def node s) (e :: r) = l ++ declared name_of class_of (t_function_def node s1) (t_task_def node s1) r /\
      run node l (t_frames node s) = Ok (t_frames node s1) /\ ft_current node (t_frames node s1) = moved (ft_current node (t_frames node s)) e.
  Proof.
    destruct e as [lb fl|c|d|d|d| |d| |i m ds]; cbn [happen declared moved]; intros E.
    - apply bind_ok in E as (f & E & E'). injection E' as <-. eexists [_]. split; [reflexivity|]. cbn [run step t_frames with_frames]. rewrite E. split; [reflexivity|]. unfold addFrame in E. destruct (dmem _ _); [discriminate|]. apply bind_ok in E as (x & _ & E). injection E as <-. reflexivity.
    - injection E as <-. eexists [_]. split; [reflexivity|]. split; reflexivity.
    - assert (forall f0, on_current node (t_frames node s) (fun f => frame_addSignal node f (name_of d) d) = Ok f0 -> run node [AddSignal node (name_of d) d] (t_frames node s) = Ok f0 /\ ft_current node f0 = ft_current node (t_frames node s)) as K.
      { intros f0 K. cbn [run step]. rewrite K. split; [reflexivity|]. unfold on_current in K. destruct (dget _ _); [|discriminate]. now injection K as <-. }
      unfold is_input in E. destruct (t_function_def node s && String.eqb (class_of d) "Input") eqn:E1; [|destruct (t_task_def node s && String.eqb (class_of d) "Input") eqn:E2].
      + apply andb_true_iff in E1 as [EF EI]. apply bind_ok in E as (x & _ & E). injection E as <-. exists []. rewrite EF, EI. split; [reflexivity|]. split; reflexivity.
      + apply andb_true_iff in E2 as [EF EI]. apply bind_ok in E as (x & _ & E). injection E as <-. exists []. rewrite EF, EI, orb_true_r. split; [reflexivity|]. split; reflexivity.
      + apply bind_ok in E as (f0 & E & E'). injection E' as <-. exists [AddSignal node (name_of d) d]. cbn [with_frames t_frames t_function_def t_task_def]. split; [|exact (K f0 E)].
        rewrite andb_orb_distrib_l, E1, E2. reflexivity.
    - apply bind_ok in E as (f & E & E'). injection E' as <-. eexists [_]. split; [reflexivity|]. cbn [run step t_frames with_frames]. rewrite E. split; [reflexivity|]. unfold on_current in E. destruct (dget _ _); [|discriminate]. now injection E as <-.
    - apply bind_ok in E as (x & _ & E). injection E as <-. exists []. split; [reflexivity|]. split; reflexivity.
    - injection E as <-. exists []. split; [reflexivity|]. split; reflexivity.
    - apply bind_ok in E as (x & _ & E). injection E as <-. exists []. split; [reflexivity|]. split; reflexivity.
    - injection E as <-. exists []. split; [reflexivity|]. split; reflexivity.
    - apply bind_ok in E as (f & E & E'). injection E' as <-. apply stack_runs in E as [E1 E2]. eexists (_ :: map decl_act ds). split; [reflexivity|]. split; [exact E1|exact E2].
  Qed.
  Lemma visit_runs h : forall s s', visit h s = Ok s' -> run node (declared name_of class_of (t_function_def node s) (t_task_def node s) h) (t_frames node s) = Ok (t_frames node s').
  Proof.
    induction h as [|e r IH]; intros s s' E; [now injection E as <-|]. cbn [LstModel.visit] in E. apply bind_ok in E as (s1 & E1 & E2). destruct (happen_runs e r s s1 E1) as (l & -> & Er & _). rewrite run_app_, Er. cbn [bind]. now apply IH.
  Qed.
  Lemma declared_plain h : Forall plain_ev h -> forall f t, Forall plain_act (declared name_of class_of f t h).
  Proof.
    induction 1 as [|e r H1 _ IH]; intros f t; [constructor|]. destruct e as [lb fl|c|d|d|d| |d| |i m ds]; cbn [declared plain_ev] in *; try (apply IH); try (constructor; [|apply IH]; cbn [plain_act]; tauto).
    - apply Forall_app. split; [|apply IH]. destruct (_ && _); [constructor|]. constructor; [exact I|constructor].
    - constructor; [discriminate|]. apply Forall_app. split; [|apply IH]. apply Forall_map, Forall_forall. intros [d|d] _; exact I.
  Qed.

  Lemma run_nodup : forall r a s s', inv a s -> NoDup (map fst (ft_dict node s)) -> Forall plain_act r -> run node r s = Ok s' -> NoDup (map fst (ft_dict node s')).
  Proof.
    induction r as [|x r IH]; intros a s s' HI HN HP E; [injection E as <-; exact HN|]. inversion HP as [|? ? P1 P2]; subst. cbn [run] in E. apply bind_ok in E as (s1 & E1 & E2).
    apply (IH (a ++ [x]) s1); [eapply step_inv; eauto| |exact P2|exact E2]. destruct HI as (H1 & H2 & H3 & _).
    assert (forall g f1, on_current node s g = Ok f1 -> NoDup (map fst (ft_dict node f1))) as HC.
    { intros g f1 E. unfold on_current in E. destruct (dget _ _); [|discriminate]. injection E as <-. cbn [ft_dict]. rewrite H1. now apply dset_nodup. }
    destruct x as [lb fl|c|n v|n v|n]; cbn [step] in E1; try (eapply HC; exact E1).
    - unfold addFrame, chain_add_label in E1. rewrite H1 in E1. destruct (dmem _ _); [discriminate|]. apply bind_ok in E1 as (d & Ed & E1). injection E1 as <-. cbn [ft_dict]. cbn [plain_act] in P1.
      assert (no_any (current_after a ++ [lb])) as Hsc by now apply no_any_snoc.
      assert (keys_plain d /\ NoDup (map fst d)) as [Kd Nd].
      { destruct (current_after a) as [|c0 cr] eqn:EC; [injection Ed as <-; auto|]. rewrite <- EC in *. destruct (dget (ft_dict node s) (current_after a)); [|discriminate]. injection Ed as <-. split; [now apply dset_plain|now apply dset_nodup]. }
      now apply dset_nodup.
    - injection E1 as <-. exact HN.
  Qed.
  Lemma visited h s : visit h (empty node) = Ok s -> Forall plain_ev h ->
    inv (design name_of class_of h) (t_frames node s) /\ ordered (design name_of class_of h) (t_frames node s) /\ NoDup (map fst (ft_dict node (t_frames node s))).
  Proof.
    intros E HP. apply visit_runs in E. cbn [empty t_frames t_function_def t_task_def] in E. pose proof (declared_plain h HP false false) as HD. change (design name_of class_of h) with ([] ++ declared name_of class_of false false h).
    split; [|split]; [exact (run_inv _ _ _ _ init_inv HD E)|exact (run_ordered _ _ _ _ init_inv init_ordered HD E)|exact (run_nodup _ _ _ _ init_inv (NoDup_nil _) HD E)].
  Qed.

  (** ** Listings *)
  Lemma dict_entries a s : inv a s -> ordered a s -> NoDup (map fst (ft_dict node s)) -> forall c f, In (c, f) (ft_dict node s) ->
    no_any c /\ dget (ft_dict node s) c = Some f /\
    f_signals node f = map (fun n => (n, signals_in a c n)) (signal_names (done_in [] c a)) /\
    f_consts node f = map (fun n => (n, constants_in a c n)) (constant_names (done_in [] c a)).
  Proof.
    intros HI HO HN c f Hin. pose proof HI as (H1 & H2 & H3 & H4 & H5 & H6). pose proof HO as (O1 & O2 & O3).
    assert (no_any c) as Hc. { unfold keys_plain in H3. rewrite Forall_forall in H3. exact (H3 _ Hin). }
    pose proof (dget_of_in _ _ _ H3 HN Hin) as Hd. split; [exact Hc|]. split; [exact Hd|]. destruct (O2 c f Hc Hd) as (K1 & K2 & K3 & K4). destruct (H4 c f Hc Hd) as (_ & _ & _ & F1 & F2 & F3 & F4). split.
    - rewrite <- K3. apply sget_entries; [exact K1|]. intros n Hn. pose proof (tab_sget _ _ _ F2 (F4 n)) as T. destruct (signals_in a c n); [|exact T]. apply sget_none in T. contradiction.
    - rewrite <- K4. apply sget_entries; [exact K2|]. intros n Hn. pose proof (tab_sget _ _ _ F1 (F3 n)) as T. destruct (constants_in a c n); [|exact T]. apply sget_none in T. contradiction.
  Qed.
  Lemma flat_map_fst {V W} (d : list (chain * V)) (g : chain * V -> list W) (k : chain -> list W) : (forall p, In p d -> g p = k (fst p)) -> flat_map g d = flat_map k (map fst d).
  Proof. induction d as [|p r IH]; intros H; [reflexivity|]. cbn [flat_map map]. rewrite (H p) by now left. rewrite IH by (intros q Hq; apply H; now right). reflexivity. Qed.
  Lemma names_map_nodup {B} (l : list string) (g : string -> B) : NoDup l -> NoDup (map fst (map (fun n => (n, g n)) l)).
  Proof. intros H. rewrite map_map. cbn [fst]. now rewrite map_id. Qed.
  Lemma signal_names_nodup (l : list (act node)) : NoDup (signal_names l).
  Proof. unfold signal_names. apply NoDup_filter, firsts_nodup. Qed.
  Lemma constant_names_nodup (l : list (act node)) : NoDup (constant_names l).
  Proof. apply firsts_nodup. Qed.
  Lemma signals_ok h s : visit h (empty node) = Ok s -> Forall plain_ev h ->
    getAllSignals node s = flat_map (signals_of (design name_of class_of h)) (scopes (design name_of class_of h)).
  Proof.
    intros E HP. destruct (visited h s E HP) as (HI & HO & HN). pose proof HI as (_ & _ & H3 & _). pose proof HO as (O1 & _). pose proof (dict_entries _ _ HI HO HN) as HE.
    unfold getAllSignals. rewrite all_spec; [|discriminate|exact H3|exact HN|].
    - rewrite <- O1. apply flat_map_fst. intros [c f] Hp. cbn [fst snd]. destruct (HE c f Hp) as (_ & _ & -> & _). unfold signals_of. rewrite map_map. reflexivity.
    - intros c f Hp. destruct (HE c f Hp) as (_ & _ & -> & _). apply names_map_nodup, signal_names_nodup.
  Qed.
  Lemma constants_ok h s : visit h (empty node) = Ok s -> Forall plain_ev h ->
    getAllConsts node s = flat_map (constants_of (design name_of class_of h)) (scopes (design name_of class_of h)).
  Proof.
    intros E HP. destruct (visited h s E HP) as (HI & HO & HN). pose proof HI as (_ & _ & H3 & _). pose proof HO as (O1 & _). pose proof (dict_entries _ _ HI HO HN) as HE.
    unfold getAllConsts. rewrite all_spec; [|discriminate|exact H3|exact HN|].
    - rewrite <- O1. apply flat_map_fst. intros [c f] Hp. cbn [fst snd]. destruct (HE c f Hp) as (_ & _ & _ & ->). unfold constants_of. rewrite map_map. reflexivity.
    - intros c f Hp. destruct (HE c f Hp) as (_ & _ & _ & ->). apply names_map_nodup, constant_names_nodup.
  Qed.
  Lemma scope_listed h s c : visit h (empty node) = Ok s -> Forall plain_ev h -> no_any c ->
    (In c (scopes (design name_of class_of h)) -> getSignals node s c = Ok (signals_of (design name_of class_of h) c) /\ getConsts node s c = Ok (constants_of (design name_of class_of h) c)) /\
    (~ In c (scopes (design name_of class_of h)) -> getSignals node s c = Err KeyError /\ getConsts node s c = Err KeyError).
  Proof.
    intros E HP Hc. destruct (visited h s E HP) as (HI & HO & HN). pose proof HI as (_ & _ & H3 & _). pose proof HO as (O1 & _). pose proof (dict_entries _ _ HI HO HN) as HE.
    rewrite <- O1. unfold getSignals, getConsts, one. split; intros H.
    - apply in_map_iff in H as ([c' f] & <- & Hin). cbn [fst] in *. destruct (HE c' f Hin) as (Hn & -> & ES & EC). rewrite !map_key_spec by (try discriminate; try exact Hn; rewrite ?ES, ?EC; apply names_map_nodup; auto using signal_names_nodup, constant_names_nodup). rewrite ES, EC, !map_map. auto.
    - apply dget_in in H; [|exact H3|exact Hc]. rewrite H. auto.
  Qed.
End Vis.
