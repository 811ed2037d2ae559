From Verif Require Import Base ScopeModel ScopeSpec ScopeProofs DfModel BindModel BindSpec BindProofs VisitModel VisitSpec VisitProofs VisitProofs2 LstModel LstSpec.

(** ** First appearances *)
Lemma firsts_in l : forall x, In x (firsts l) <-> In x l.
Proof.
  induction l as [|y r IH]; intros x; cbn [firsts In]; [tauto|]. split.
  - intros [->|H]; [auto|]. apply in_remove in H as [H _]. right. now apply IH.
  - intros [->|H]; [auto|]. destruct (string_dec x y) as [->|N]; [auto|]. right. apply in_in_remove; [exact N|now apply IH].
Qed.
Lemma remove_app_ (x : string) a b : remove string_dec x (a ++ b) = remove string_dec x a ++ remove string_dec x b.
Proof. induction a as [|y r IH]; [reflexivity|]. cbn [app remove]. destruct (string_dec x y); [exact IH|cbn [app]; now rewrite IH]. Qed.
Lemma firsts_snoc l x : firsts (l ++ [x]) = firsts l ++ (if in_dec string_dec x l then [] else [x]).
Proof.
  induction l as [|y r IH]; [reflexivity|]. cbn [app firsts]. rewrite IH, remove_app_. destruct (in_dec string_dec x r) as [H|H]; destruct (in_dec string_dec x (y :: r)) as [K|K]; cbn [remove app]; rewrite ?app_nil_r; try reflexivity.
  - exfalso. apply K. now right.
  - destruct K as [->|K]; [|contradiction]. destruct (string_dec x x); [now rewrite app_nil_r|congruence].
  - destruct (string_dec y x) as [->|N]; [exfalso; apply K; now left|reflexivity].
Qed.
Lemma nodup_remove (x : string) l : NoDup l -> NoDup (remove string_dec x l).
Proof.
  induction 1 as [|y r H1 H2 IH]; cbn [remove]; [constructor|]. destruct (string_dec x y); [exact IH|]. constructor; [|exact IH]. intros K. apply in_remove in K as [K _]. contradiction.
Qed.
Lemma firsts_nodup l : NoDup (firsts l).
Proof. induction l as [|x r IH]; cbn [firsts]; constructor; [apply remove_In|now apply nodup_remove]. Qed.
Lemma filter_app_ {A} (f : A -> bool) a b : filter f (a ++ b) = filter f a ++ filter f b.
Proof. induction a as [|x r IH]; [reflexivity|]. cbn [app filter]. rewrite IH. destruct (f x); reflexivity. Qed.
Lemma filter_ext_in_ {A} (f g : A -> bool) l : (forall x, In x l -> f x = g x) -> filter f l = filter g l.
Proof.
  induction l as [|x r IH]; intros H; [reflexivity|]. cbn [filter]. rewrite (H x) by now left. rewrite IH by (intros y Hy; apply H; now right). reflexivity.
Qed.

(** ** Keys of string dictionaries *)
Lemma sset_keys {V} (d : list (string * V)) k v : map fst (sset d k v) = map fst d ++ (match sget d k with Some _ => [] | None => [k] end).
Proof.
  induction d as [|[k1 v1] r IH]; [reflexivity|]. cbn [sset sget map fst]. destruct (String.eqb k1 k) eqn:E; cbn [map fst app]; [now rewrite app_nil_r|now rewrite IH].
Qed.
Lemma sget_none {V} (d : list (string * V)) k : sget d k = None <-> ~ In k (map fst d).
Proof.
  induction d as [|[k1 v1] r IH]; cbn [sget map fst In]; [tauto|]. destruct (String.eqb k1 k) eqn:E.
  - apply String.eqb_eq in E. subst. split; [discriminate|tauto].
  - apply String.eqb_neq in E. rewrite IH. tauto.
Qed.
Lemma sset_nodup {V} (d : list (string * V)) k v : NoDup (map fst d) -> NoDup (map fst (sset d k v)).
Proof.
  intros H. rewrite sset_keys. destruct (sget d k) eqn:E; [now rewrite app_nil_r|]. apply sget_none in E. apply NoDup_rev in H. rewrite <- (rev_involutive (_ ++ _)). apply NoDup_rev. rewrite rev_app_distr. cbn. constructor; [|exact H]. now rewrite <- in_rev.
Qed.
Lemma sget_entries {V} (d : list (string * V)) (g : string -> V) : NoDup (map fst d) -> (forall k, In k (map fst d) -> sget d k = Some (g k)) -> d = map (fun k => (k, g k)) (map fst d).
Proof.
  induction d as [|[k v] r IH]; intros HN H; [reflexivity|]. cbn [map fst]. inversion HN as [|? ? N1 N2]; subst. pose proof (H k (or_introl eq_refl)) as Hk. cbn [sget] in Hk. rewrite String.eqb_refl in Hk. injection Hk as <-. f_equal. apply IH; [exact N2|]. intros k' Hk'. pose proof (H k' (or_intror Hk')) as H'. cbn [sget] in H'. destruct (String.eqb k k') eqn:E; [|exact H']. apply String.eqb_eq in E. subst. contradiction.
Qed.
Lemma sset_fresh {V} (d : list (string * V)) k v : ~ In k (map fst d) -> sset d k v = d ++ [(k, v)].
Proof.
  induction d as [|[k1 v1] r IH]; intros H; [reflexivity|]. cbn [sset app map fst In] in *. destruct (String.eqb k1 k) eqn:E; [apply String.eqb_eq in E; tauto|]. rewrite IH by tauto. reflexivity.
Qed.

(** ** Keys of scope dictionaries *)
Lemma dset_keys {V} (d : ndict V) k v : keys_plain d -> no_any k -> map fst (dset d k v) = map fst d ++ (match dget d k with Some _ => [] | None => [k] end).
Proof.
  induction d as [|[k1 v1] r IH]; intros Hd Hk; [reflexivity|]. inversion Hd as [|? ? H1 H2]; subst. cbn [fst] in H1. cbn [dset dget map fst]. destruct (chain_eq k1 k) eqn:E; cbn [map fst app]; [now rewrite app_nil_r|now rewrite (IH H2 Hk)].
Qed.
Lemma dget_in {V} (d : ndict V) k : keys_plain d -> no_any k -> (dget d k = None <-> ~ In k (map fst d)).
Proof.
  induction d as [|[k1 v1] r IH]; intros Hd Hk; [cbn; tauto|]. inversion Hd as [|? ? H1 H2]; subst. cbn [fst] in H1. cbn [dget map fst In]. destruct (chain_eq k1 k) eqn:E.
  - apply chain_eq_no_any in E; [|assumption|assumption]. subst. split; [discriminate|tauto].
  - rewrite (IH H2 Hk). split; [|tauto]. intros H [->|K]; [rewrite chain_eq_refl in E; discriminate|tauto].
Qed.
Lemma dset_fresh {V} (d : ndict V) k v : keys_plain d -> no_any k -> ~ In k (map fst d) -> dset d k v = d ++ [(k, v)].
Proof.
  induction d as [|[k1 v1] r IH]; intros Hd Hk H; [reflexivity|]. inversion Hd as [|? ? H1 H2]; subst. cbn [fst] in H1. cbn [dset app map fst In] in *. destruct (chain_eq k1 k) eqn:E.
  - apply chain_eq_no_any in E; [|assumption|assumption]. tauto.
  - rewrite (IH H2 Hk) by tauto. reflexivity.
Qed.
Lemma dset_dset {V} (d : ndict V) k u v : dset (dset d k u) k v = dset d k v.
Proof.
  induction d as [|[k1 v1] r IH]; cbn [dset]; [now rewrite chain_eq_refl|]. destruct (chain_eq k1 k) eqn:E; cbn [dset]; rewrite E; [reflexivity|now rewrite IH].
Qed.
Lemma dget_dset_same {V} (d : ndict V) k v : dget (dset d k v) k = Some v.
Proof.
  induction d as [|[k1 v1] r IH]; cbn [dset dget]; [now rewrite chain_eq_refl|]. destruct (chain_eq k1 k) eqn:E; cbn [dget]; rewrite E; [reflexivity|exact IH].
Qed.
Lemma dset_same {V} (d : ndict V) k v : dget d k = Some v -> dset d k v = d.
Proof.
  induction d as [|[k1 v1] r IH]; cbn [dset dget]; [discriminate|]. destruct (chain_eq k1 k) eqn:E; intros H; [now injection H as <-|now rewrite IH].
Qed.

(** ** Order of names *)
Section Order.
  Context {node : Type}.
  Implicit Type a l : list (act node).
  Lemma signal_decls_some l n : In n (flat_map (fun x => match x with AddSignal _ n _ => [n] | _ => [] end) l) -> constant_decl l n = [] -> signal_decls l n <> [].
  Proof.
    induction l as [|x r IH]; cbn [flat_map constant_decl signal_decls]; [intros []|]. intros H HC. destruct x as [lb fl|c|m v|m v|m]; cbn [app] in H; try (exact (IH H HC)).
    - destruct H as [->|H]; [rewrite String.eqb_refl; discriminate|]. destruct (String.eqb m n); [discriminate|]. exact (IH H HC).
    - destruct (String.eqb m n) eqn:E; [discriminate|]. exact (IH H HC).
  Qed.
  Lemma signal_decls_in l n : signal_decls l n <> [] -> In n (flat_map (fun x => match x with AddSignal _ n _ => [n] | _ => [] end) l).
  Proof.
    induction l as [|x r IH]; cbn [flat_map signal_decls]; [congruence|]. intros H. destruct x as [lb fl|c|m v|m v|m]; cbn [app]; try (exact (IH H)).
    - destruct (String.eqb m n) eqn:E; [apply String.eqb_eq in E; now left|right; exact (IH H)].
    - destruct (String.eqb m n) eqn:E; [congruence|exact (IH H)].
  Qed.
  Lemma constant_decl_in l n : constant_decl l n <> [] <-> In n (flat_map (fun x => match x with AddConst _ n _ => [n] | _ => [] end) l).
  Proof.
    induction l as [|x r IH]; cbn [flat_map constant_decl]; [cbn; tauto|]. destruct x as [lb fl|c|m v|m v|m]; cbn [app]; try exact IH.
    destruct (String.eqb m n) eqn:E; [apply String.eqb_eq in E; split; [now left|discriminate]|]. rewrite IH. apply String.eqb_neq in E. cbn [In]. tauto.
  Qed.
  Lemma signal_names_in l n : In n (signal_names l) <-> signal_decls l n <> [].
  Proof.
    unfold signal_names. rewrite filter_In, firsts_in. split.
    - intros [_ H]. destruct (signal_decls l n); [discriminate|congruence].
    - intros H. split; [now apply signal_decls_in|]. destruct (signal_decls l n); [congruence|reflexivity].
  Qed.
  Lemma constant_names_in l n : In n (constant_names l) <-> constant_decl l n <> [].
  Proof. unfold constant_names. rewrite firsts_in, constant_decl_in. tauto. Qed.
  Lemma signal_names_snoc l x : signal_names (l ++ [x]) = signal_names l ++
    match x with AddSignal _ n v => match constant_decl l n, signal_decls l n with [], [] => [n] | _, _ => [] end | _ => [] end.
  Proof.
    unfold signal_names. rewrite flat_map_app. cbn [flat_map]. rewrite app_nil_r.
    assert (forall x, (forall n v, x <> AddSignal node n v) -> filter (fun n => match signal_decls (l ++ [x]) n with [] => false | _ => true end) (firsts (flat_map (fun x => match x with AddSignal _ n _ => [n] | _ => [] end) l)) =
      filter (fun n => match signal_decls l n with [] => false | _ => true end) (firsts (flat_map (fun x => match x with AddSignal _ n _ => [n] | _ => [] end) l))) as K.
    { intros y Hy. apply filter_ext_in_. intros n _. rewrite signal_snoc. assert (signal_decls [y] n = []) as -> by (destruct y; cbn [signal_decls]; try reflexivity; [exfalso; eapply Hy; reflexivity|destruct (String.eqb _ _); reflexivity]). destruct (constant_decl l n); now rewrite app_nil_r. }
    destruct x as [lb fl|c|n v|n v|n]; rewrite ?app_nil_r; try (apply K; discriminate).
    rewrite firsts_snoc, filter_app_.
    assert (filter (fun m => match signal_decls (l ++ [AddSignal node n v]) m with [] => false | _ => true end) (firsts (flat_map (fun x => match x with AddSignal _ n _ => [n] | _ => [] end) l)) =
      filter (fun n => match signal_decls l n with [] => false | _ => true end) (firsts (flat_map (fun x => match x with AddSignal _ n _ => [n] | _ => [] end) l))) as ->.
    { apply filter_ext_in_. intros m Hm. rewrite signal_snoc. cbn [signal_decls]. destruct (constant_decl l m) eqn:EC; [|now rewrite app_nil_r]. destruct (String.eqb n m) eqn:E; [|now rewrite app_nil_r]. apply (proj1 (firsts_in _ _)) in Hm. pose proof (signal_decls_some l m Hm EC) as HN. destruct (signal_decls l m); [congruence|reflexivity]. }
    f_equal. destruct (in_dec string_dec n _) as [Hi|Hi].
    - cbn [filter]. destruct (constant_decl l n) eqn:EC; [|reflexivity]. pose proof (signal_decls_some l n Hi EC). destruct (signal_decls l n); [congruence|reflexivity].
    - assert (signal_decls l n = []) as HS. { destruct (signal_decls l n) eqn:ES; [reflexivity|]. exfalso. apply Hi. apply signal_decls_in. rewrite ES. discriminate. }
      cbn [filter]. rewrite signal_snoc, HS. cbn [app signal_decls]. rewrite String.eqb_refl. destruct (constant_decl l n); reflexivity.
  Qed.
  Lemma constant_names_snoc l x : constant_names (l ++ [x]) = constant_names l ++
    match x with AddConst _ n v => match constant_decl l n with [] => [n] | _ => [] end | _ => [] end.
  Proof.
    unfold constant_names. rewrite flat_map_app. cbn [flat_map]. rewrite app_nil_r. destruct x as [lb fl|c|n v|n v|n]; rewrite ?app_nil_r; try reflexivity.
    rewrite firsts_snoc. f_equal. destruct (in_dec string_dec n _) as [Hi|Hi]; [apply constant_decl_in in Hi; destruct (constant_decl l n); [congruence|reflexivity]|]. destruct (constant_decl l n) eqn:E; [reflexivity|]. exfalso. apply Hi. apply constant_decl_in. rewrite E. discriminate.
  Qed.
  Lemma scopes_snoc a x : forall cur, scopes_from cur (a ++ [x]) = scopes_from cur a ++ match x with OpenScope _ lb _ => [fold_left after a cur ++ [lb]] | _ => [] end.
  Proof. induction a as [|y r IH]; intros cur; cbn [app scopes_from fold_left]; [now rewrite app_nil_r|]. rewrite IH, app_assoc. reflexivity. Qed.

  (** The tables list scopes and names in order. *)
  Definition ordered a (s : ftable node) : Prop :=
    map fst (ft_dict node s) = scopes a /\
    (forall c f, no_any c -> dget (ft_dict node s) c = Some f ->
      NoDup (map fst (f_signals node f)) /\ NoDup (map fst (f_consts node f)) /\
      map fst (f_signals node f) = signal_names (done_in [] c a) /\ map fst (f_consts node f) = constant_names (done_in [] c a)) /\
    (forall c, no_any c -> dget (ft_dict node s) c = None -> signal_names (done_in [] c a) = [] /\ constant_names (done_in [] c a) = []).
  Lemma names_nil a s c : inv a s -> no_any c -> dget (ft_dict node s) c = None -> signal_names (done_in [] c a) = [] /\ constant_names (done_in [] c a) = [].
  Proof.
    intros (_ & _ & _ & _ & H5 & _) Hc E. split; match goal with |- ?x = [] => destruct x as [|n r] eqn:EQ; [reflexivity|exfalso] end.
    - assert (In n (signal_names (done_in [] c a))) as K by (rewrite EQ; now left). apply signal_names_in in K. apply K. apply (H5 c Hc E n).
    - assert (In n (constant_names (done_in [] c a))) as K by (rewrite EQ; now left). apply constant_names_in in K. apply K. apply (H5 c Hc E n).
  Qed.
  Lemma tab_sget t n (l : list node) : full t -> tab t n = l -> match l with [] => sget t n = None | _ => sget t n = Some l end.
  Proof. intros HF H. pose proof (tab_nil t n HF) as K. unfold tab in *. destruct (sget t n) as [x|] eqn:E; subst l; [|reflexivity]. destruct x; [exfalso; destruct K as [K _]; specialize (K eq_refl); discriminate|reflexivity]. Qed.
  Lemma vadd_keys (t : vtable node) n v : map fst (vadd node t n v) = map fst t ++ match sget t n with Some _ => [] | None => [n] end.
  Proof. unfold vadd. destruct (sget t n) eqn:E; rewrite sset_keys, E; reflexivity. Qed.
  Lemma vadd_nodup (t : vtable node) n v : NoDup (map fst t) -> NoDup (map fst (vadd node t n v)).
  Proof. unfold vadd. destruct (sget t n); apply sset_nodup. Qed.

  Lemma step_ordered a s x s' : inv a s -> ordered a s -> plain_act x -> step node s x = Ok s' -> ordered (a ++ [x]) s'.
  Proof.
    intros HI (O1 & O2 & O3) HP E. pose proof (step_inv a s x s' HI HP E) as HI'. assert (forall c, no_any c -> dget (ft_dict node s') c = None -> signal_names (done_in [] c (a ++ [x])) = [] /\ constant_names (done_in [] c (a ++ [x])) = []) as N3 by (intros c Hc; now apply names_nil). split; [|split; [|exact N3]].
    - unfold scopes in *. rewrite scopes_snoc. fold (current_after a). destruct HI as (H1 & H2 & H3 & _). destruct x as [lb fl|c|n v|n v|n]; cbn [step] in E; rewrite ?app_nil_r.
      + unfold addFrame, chain_add_label in E. rewrite H1 in E. destruct (dmem (ft_dict node s) (current_after a ++ [lb])) eqn:EM; [discriminate|]. unfold dmem in EM. destruct (dget (ft_dict node s) (current_after a ++ [lb])) eqn:EG; [discriminate|]. apply bind_ok in E as (d & Ed & E). injection E as <-. cbn [ft_dict].
        assert (no_any (current_after a ++ [lb])) as Hsc by now apply no_any_snoc.
        assert (map fst d = map fst (ft_dict node s) /\ keys_plain d) as [Hd Hdp].
        { destruct (current_after a) as [|c0 cr] eqn:EC; [injection Ed as <-; auto|]. rewrite <- EC in *. destruct (dget (ft_dict node s) (current_after a)) eqn:EP; [|discriminate]. injection Ed as <-. split; [|now apply dset_plain]. rewrite dset_keys by assumption. rewrite EP. now rewrite app_nil_r. }
        rewrite dset_keys by assumption. assert (dget d (current_after a ++ [lb]) = None) as -> by (apply dget_in; [assumption|assumption|rewrite Hd; now apply dget_in]). rewrite Hd, O1. reflexivity.
      + injection E as <-. exact O1.
      + unfold on_current in E. destruct (dget (ft_dict node s) (ft_current node s)) eqn:EG; [|discriminate]. injection E as <-. cbn [ft_dict]. rewrite H1 in *. rewrite dset_keys by assumption. rewrite EG, app_nil_r. exact O1.
      + unfold on_current in E. destruct (dget (ft_dict node s) (ft_current node s)) eqn:EG; [|discriminate]. injection E as <-. cbn [ft_dict]. rewrite H1 in *. rewrite dset_keys by assumption. rewrite EG, app_nil_r. exact O1.
      + unfold on_current in E. destruct (dget (ft_dict node s) (ft_current node s)) eqn:EG; [|discriminate]. injection E as <-. cbn [ft_dict]. rewrite H1 in *. rewrite dset_keys by assumption. rewrite EG, app_nil_r. exact O1.
    - intros c f Hc Ef. rewrite done_in_snoc. fold (current_after a). destruct HI as (H1 & H2 & H3 & H4 & H5 & H6).
      assert (forall (g : frame node -> frame node) f1, dget (ft_dict node s) (current_after a) = Some f1 ->
        dget (dset (ft_dict node s) (current_after a) (g f1)) c = Some f -> (current_after a = c /\ f = g f1) \/ (current_after a <> c /\ dget (ft_dict node s) c = Some f)) as HC.
      { intros g f1 _ E'. rewrite dget_dset in E' by assumption. destruct (chain_dec (current_after a) c) as [<-|N]; [left; split; [reflexivity|congruence]|right; auto]. }
      destruct x as [lb fl|c'|n v|n v|n]; cbn [step] in E.
      + assert (signal_names (done_in [] c a ++ (if chain_dec (current_after a) c then [OpenScope node lb fl] else [])) = signal_names (done_in [] c a) /\ constant_names (done_in [] c a ++ (if chain_dec (current_after a) c then [OpenScope node lb fl] else [])) = constant_names (done_in [] c a)) as [-> ->].
        { destruct (chain_dec _ c); [rewrite signal_names_snoc, constant_names_snoc|]; now rewrite !app_nil_r. }
        unfold addFrame, chain_add_label in E. rewrite H1 in E. destruct (dmem (ft_dict node s) (current_after a ++ [lb])) eqn:EM; [discriminate|]. unfold dmem in EM. destruct (dget (ft_dict node s) (current_after a ++ [lb])) eqn:EG; [discriminate|]. apply bind_ok in E as (d & Ed & E). injection E as <-. cbn [ft_dict] in Ef.
        assert (no_any (current_after a ++ [lb])) as Hsc by now apply no_any_snoc.
        assert (keys_plain d /\ forall c, no_any c -> match dget d c with Some f' => exists f0, dget (ft_dict node s) c = Some f0 /\ f_signals node f' = f_signals node f0 /\ f_consts node f' = f_consts node f0 | None => True end) as [Hdp Hd].
        { destruct (current_after a) as [|c0 cr] eqn:EC; [injection Ed as <-; split; [exact H3|]; intros c1 Hc1; destruct (dget (ft_dict node s) c1); eauto|]. rewrite <- EC in *. destruct (dget (ft_dict node s) (current_after a)) as [p|] eqn:EP; [|discriminate]. injection Ed as <-. split; [now apply dset_plain|].
          intros c1 Hc1. rewrite dget_dset by assumption. destruct (chain_dec (current_after a) c1) as [<-|N]; [exists p; cbn; auto|destruct (dget (ft_dict node s) c1); eauto]. }
        rewrite dget_dset in Ef by assumption. destruct (chain_dec (current_after a ++ [lb]) c) as [<-|N].
        * injection Ef as <-. cbn [f_signals f_consts map]. destruct (O3 _ Hsc EG) as [-> ->]. repeat split; constructor.
        * specialize (Hd c Hc). rewrite Ef in Hd. destruct Hd as (f0 & E0 & -> & ->). exact (O2 c f0 Hc E0).
      + injection E as <-. cbn [setCurrent ft_dict] in Ef. destruct (O2 c f Hc Ef) as (K1 & K2 & K3 & K4). split; [exact K1|]. split; [exact K2|]. rewrite K3, K4. destruct (chain_dec _ c); [rewrite signal_names_snoc, constant_names_snoc|]; now rewrite !app_nil_r.
      + unfold on_current in E. rewrite H1 in E. destruct (dget (ft_dict node s) (current_after a)) as [f1|] eqn:EG; [|discriminate]. injection E as <-. cbn [ft_dict] in Ef. destruct (HC (fun f => frame_addSignal node f n v) f1 eq_refl Ef) as [[<- ->]|[N Ef']].
        * destruct (chain_dec (current_after a) (current_after a)) as [_|N]; [|congruence]. destruct (O2 _ f1 H2 EG) as (K1 & K2 & K3 & K4). destruct (H4 _ f1 H2 EG) as (_ & _ & _ & F1 & F2 & F3 & F4). rewrite signal_names_snoc, constant_names_snoc, app_nil_r.
          specialize (F3 n). specialize (F4 n). unfold constants_in in F3. unfold signals_in in F4. apply (tab_sget _ _ _ F1) in F3. apply (tab_sget _ _ _ F2) in F4. unfold frame_addSignal. destruct (constant_decl (done_in [] (current_after a) a) n) eqn:EC; rewrite F3.
          -- cbn [f_signals f_consts]. split; [now apply vadd_nodup|]. split; [exact K2|]. split; [|exact K4]. rewrite vadd_keys, K3. destruct (signal_decls (done_in [] (current_after a) a) n); rewrite F4; reflexivity.
          -- rewrite app_nil_r. auto.
        * destruct (chain_dec (current_after a) c); [congruence|]. rewrite !app_nil_r. exact (O2 c f Hc Ef').
      + unfold on_current in E. rewrite H1 in E. destruct (dget (ft_dict node s) (current_after a)) as [f1|] eqn:EG; [|discriminate]. injection E as <-. cbn [ft_dict] in Ef. destruct (HC (fun f => frame_addConst node f n v) f1 eq_refl Ef) as [[<- ->]|[N Ef']].
        * destruct (chain_dec (current_after a) (current_after a)) as [_|N]; [|congruence]. destruct (O2 _ f1 H2 EG) as (K1 & K2 & K3 & K4). destruct (H4 _ f1 H2 EG) as (_ & _ & _ & F1 & F2 & F3 & F4). rewrite signal_names_snoc, constant_names_snoc, app_nil_r.
          specialize (F3 n). unfold constants_in in F3. apply (tab_sget _ _ _ F1) in F3. unfold frame_addConst. destruct (constant_decl (done_in [] (current_after a) a) n) eqn:EC; rewrite F3.
          -- cbn [f_signals f_consts]. split; [exact K1|]. split; [now apply vadd_nodup|]. split; [exact K3|]. rewrite vadd_keys, K4, F3. reflexivity.
          -- rewrite app_nil_r. auto.
        * destruct (chain_dec (current_after a) c); [congruence|]. rewrite !app_nil_r. exact (O2 c f Hc Ef').
      + unfold on_current in E. rewrite H1 in E. destruct (dget (ft_dict node s) (current_after a)) as [f1|] eqn:EG; [|discriminate]. injection E as <-. cbn [ft_dict] in Ef. destruct (HC (fun f => frame_addGenvar node f n) f1 eq_refl Ef) as [[<- ->]|[N Ef']].
        * destruct (chain_dec (current_after a) (current_after a)) as [_|N]; [|congruence]. rewrite signal_names_snoc, constant_names_snoc, !app_nil_r. destruct (O2 _ f1 H2 EG) as (K1 & K2 & K3 & K4). unfold frame_addGenvar. destruct (sget (f_consts node f1) n); cbn [f_signals f_consts]; auto.
        * destruct (chain_dec (current_after a) c); [congruence|]. rewrite !app_nil_r. exact (O2 c f Hc Ef').
  Qed.
  Lemma run_ordered : forall r a s s', inv a s -> ordered a s -> Forall plain_act r -> run node r s = Ok s' -> ordered (a ++ r) s'.
  Proof.
    induction r as [|x r IH]; intros a s s' HI HO HP E; [injection E as <-; now rewrite app_nil_r|]. inversion HP as [|? ? P1 P2]; subst. cbn [run] in E. apply bind_ok in E as (s1 & E1 & E2).
    change (x :: r) with ([x] ++ r). rewrite app_assoc. apply (IH _ s1); [eapply step_inv; eauto|eapply step_ordered; eauto|exact P2|exact E2].
  Qed.
  Lemma init_ordered : ordered [] (empty_table node).
  Proof. unfold ordered, empty_table. cbn. split; [reflexivity|]. split; [discriminate|auto]. Qed.
End Order.
