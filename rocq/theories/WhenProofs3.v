(** WhenProofs3.v - conditions as ranges of values (active_range.py). *)
From Verif Require Import Base ScopeModel ScopeProofs DfModel DfSpec DfProofs BindModel BindSpec BindProofs SplitModel SplitSpec SplitProofs
  TransModel TransSpec TransProofs TransProps FsmModel FsmSpec FsmProofs FsmProofs2 FsmProps MachModel MachSpec MachText MachProofs MachProofs2 MachProofs3
  ActiveModel ActiveSpec ActiveProofs ActiveProofs2 ActiveProofs3 ActiveProofs4 ActiveProofs5 ActiveProofs6 ActiveProps
  WhenModel WhenSpec WhenProofs WhenProofs2.
Local Open Scope Z_scope.

(** ** The lists of conditions that are kept. *)
Lemma keys_where_spec keep d : forall ls, keys_where keep d = Ok ls ->
  forall l, In l ls <-> exists k f dropped, In (k, f) d /\ keep f = true /\ parted k l dropped.
Proof.
  induction d as [|[k f] d IH]; intros ls E l; cbn [keys_where] in E.
  - injection E as <-. split; [intros []|intros (? & ? & ? & [] & _)].
  - destruct (remove_reset_condlist k) as [c|] eqn:Ec; [|discriminate]. cbn [bind] in E. destruct (keys_where keep d) as [ls0|]; [|discriminate]. cbn [bind] in E.
    apply Ok_inj in E. subst ls. destruct (condlist_parted _ _ Ec) as (r0 & P0). specialize (IH ls0 eq_refl l).
    assert ((exists k0 f0 dropped, In (k0, f0) ((k, f) :: d) /\ keep f0 = true /\ parted k0 l dropped) <-> (keep f = true /\ c = l) \/ In l ls0) as ->.
    { rewrite IH. split.
      - intros (k0 & f0 & dr & [H|H] & K & Q); [injection H as <- <-; left; split; [exact K|exact (proj1 (parted_fun _ _ _ _ _ P0 Q))]|right; eauto 7].
      - intros [[K <-]|(k0 & f0 & dr & H & K & Q)]; [exists k, f, r0; split; [now left|auto]|exists k0, f0, dr; split; [now right|auto]]. }
    destruct (keep f); cbn [In]; intuition congruence.
Qed.
Lemma compare_spec op a b e : py_compare op a b = Ok e -> (e = true <-> relation op a b).
Proof.
  unfold py_compare. intros E.
  repeat match type of E with (if String.eqb op ?x then _ else _) = _ =>
    destruct (String.eqb op x) eqn:Eo; [apply String.eqb_eq in Eo; subst op; injection E as <-; cbn; rewrite ?negb_true_iff, ?Z.ltb_lt, ?Z.leb_le, ?Z.eqb_eq, ?Z.eqb_neq; lia|clear Eo] end.
  discriminate.
Qed.
Lemma active_keys_spec op v d : forall ls, active_keys op v d = Ok ls ->
  forall l, In l ls <-> exists k f dropped, In (k, f) d /\ constant_where (fun z => relation op z v) f /\ parted k l dropped.
Proof.
  induction d as [|[k f] d IH]; intros ls E l; cbn [active_keys] in E.
  - injection E as <-. split; [intros []|intros (? & ? & ? & [] & _)].
  - destruct (remove_reset_condlist k) as [c|] eqn:Ec; [|discriminate]. cbn [bind] in E.
    destruct (match f with DEval (PInt z) _ _ _ => py_compare op z v | DEval _ _ _ _ => Err Unmodelled | _ => Ok false end) as [e|] eqn:Ee; [|discriminate]. cbn [bind] in E.
    assert (e = true <-> constant_where (fun z => relation op z v) f) as He.
    { unfold constant_where. destruct f as [ | | | | | | | | | |pv x y z| | | | ]; try (injection Ee as <-; split; [discriminate|intros (? & ? & ? & ? & K & _); discriminate]).
      destruct pv as [n| | |]; try discriminate. rewrite (compare_spec _ _ _ _ Ee). split; [intros H; exists n, x, y, z; auto|intros (? & ? & ? & ? & K & H); congruence]. }
    destruct (active_keys op v d) as [ls0|]; [|discriminate]. cbn [bind] in E.
    apply Ok_inj in E. subst ls. destruct (condlist_parted _ _ Ec) as (r0 & P0). specialize (IH ls0 eq_refl l).
    assert ((exists k0 f0 dropped, In (k0, f0) ((k, f) :: d) /\ constant_where (fun z => relation op z v) f0 /\ parted k0 l dropped) <-> (e = true /\ c = l) \/ In l ls0) as ->.
    { rewrite IH. split.
      - intros (k0 & f0 & dr & [H|H] & K & Q); [injection H as <- <-; left; split; [now apply He|exact (proj1 (parted_fun _ _ _ _ _ P0 Q))]|right; eauto 7].
      - intros [[K <-]|(k0 & f0 & dr & H & K & Q)]; [exists k, f, r0; split; [now left|split; [now apply He|exact P0]]|exists k0, f0, dr; split; [now right|auto]]. }
    clear He Ee. destruct e; cbn [In]; intuition congruence.
Qed.
(** All conditions of the routes can be written out. *)
Lemma changed_spec tn d : pkeys d -> forall acc r, pkeys acc -> changed_dict tn d acc = Ok r ->
  pkeys r /\ (forall k f, In (k, f) r -> In (k, f) acc \/ exists k0 dropped, In (k0, f) d /\ active_modify tn f = true /\ parted k0 k dropped) /\
  (forall k f, In (k, f) acc -> exists f2, In (k, f2) r) /\
  (forall k kept dropped f, In (k, f) d -> active_modify tn f = true -> parted k kept dropped -> exists f2, In (kept, f2) r).
Proof.
  induction 1 as [|[k f] d Hk Hd IH]; intros acc r Ha E; cbn [changed_dict] in E.
  - injection E as <-. split; [exact Ha|]. split; [auto|]. split; [eauto|]. intros k kept dropped f [].
  - destruct (remove_reset_condlist k) as [c|] eqn:Ec; [|discriminate]. cbn [bind] in E. destruct (condlist_parted _ _ Ec) as (r0 & P0). cbn in Hk.
    destruct (if active_modify tn f then dict_set acc c f else Ok acc) as [acc'|] eqn:Eacc; [|discriminate]. cbn [bind] in E.
    assert (pkeys acc' /\ (forall k' v', In (k', v') acc' -> (active_modify tn f = true /\ k' = c /\ v' = f) \/ In (k', v') acc) /\
      (active_modify tn f = true -> In (c, f) acc') /\ (forall k' v', In (k', v') acc -> exists v2, In (k', v2) acc')) as (S1 & S2 & S3 & S4).
    { destruct (active_modify tn f).
      - destruct (dict_set_spec acc c f Ha (parted_plain _ _ _ P0 Hk) _ Eacc) as (T1 & T2 & T3 & T4). split; [exact T1|]. split; [intros k' v' H; destruct (T2 _ _ H) as [[-> ->]|]; auto|].
        split; [auto|]. intros k' v' H. destruct (T4 _ _ H) as (v2 & A & _). eauto.
      - injection Eacc as <-. split; [exact Ha|]. split; [auto|]. split; [discriminate|eauto]. }
    destruct (IH acc' r S1 E) as (I1 & I2 & I3 & I4). split; [exact I1|]. split; [|split].
    + intros k' f' H. destruct (I2 _ _ H) as [H1|(k0 & dr & A & B & C)]; [|right; exists k0, dr; split; [now right|auto]].
      destruct (S2 _ _ H1) as [(A & -> & ->)|A]; [right; exists k, r0; split; [now left|auto]|now left].
    + intros k' f' H. destruct (S4 _ _ H) as (v2 & A). exact (I3 _ _ A).
    + intros k' kept dropped f' [H|H] Hm Hp; [|exact (I4 _ _ _ _ H Hm Hp)]. injection H as <- <-. destruct (parted_fun _ _ _ _ _ Hp P0) as [-> _]. exact (I3 _ _ (S3 Hm)).
Qed.

(** ** Conditions with the values assigned under them. *)
Section Dict.
  Variable width : chain -> res Z.
  Notation world := (world width).
  Notation exact := (ActiveSpec.exact width).
  Definition under (h : heap) (acc : list (nat * df)) (val : chain -> Z) (g : df) : Prop := exists c, In (c, g) acc /\ cond_holds h c val.
  Lemma put1_fresh c f acc : ~ In c (map fst acc) -> put1 c f acc = acc ++ [(c, f)].
  Proof.
    intros H. unfold put1. destruct (existsb (fun p => Nat.eqb c (fst p)) acc) eqn:E; [|reflexivity]. exfalso. apply existsb_exists in E as ([x y] & A & B). apply Nat.eqb_eq in B.
    apply H. apply in_map_iff. exists (x, y). auto.
  Qed.
  Lemma fold_put f cs : NoDup cs -> forall acc, (forall c, In c cs -> ~ In c (map fst acc)) -> fold_left (fun a c => put1 c f a) cs acc = acc ++ map (fun c => (c, f)) cs.
  Proof.
    induction 1 as [|c cs Hc Hcs IH]; intros acc H; cbn [fold_left map]; [now rewrite app_nil_r|]. rewrite put1_fresh by (apply H; now left). rewrite IH.
    - rewrite <- app_assoc. reflexivity.
    - intros x Hx. rewrite map_app, in_app_iff. cbn. intros [K|[<-|[]]]; [exact (H x (or_intror Hx) K)|contradiction].
  Qed.
  Lemma under_keep h h' acc : keep (length (terms h)) (length (conds h)) h h' -> accgood width h (map fst acc) -> accgood width h' (map fst acc) /\ forall val g, under h' acc val g <-> under h acc val g.
  Proof.
    intros K A. split; [exact (proj1 (acc_keep width _ _ _ K A))|]. intros val g. unfold under.
    assert (forall c, In (c, g) acc -> (cond_holds h' c val <-> cond_holds h c val)) as X.
    { intros c Hc. assert (accgood width h [c]) as A1. { intros x [<-|[]]. apply A. apply in_map_iff. exists (c, g). auto. }
      pose proof (proj2 (acc_keep width _ _ _ K A1) val) as Y. unfold some_holds in Y. cbn [In] in Y. split; intros H.
      - destruct (proj1 Y (ex_intro _ c (conj (or_introl eq_refl) H))) as (c' & [<-|[]] & H'). exact H'.
      - destruct (proj2 Y (ex_intro _ c (conj (or_introl eq_refl) H))) as (c' & [<-|[]] & H'). exact H'. }
    split; intros (c & Hc & H); exists c; (split; [exact Hc|]); apply (X c Hc); exact H.
  Qed.
  Lemma infer_dict_spec : forall ls, (forall l f, In (l, f) ls -> exists c cs, l = c :: cs /\ exact (all_of c cs)) -> forall acc h h' r, accgood width h (map fst acc) ->
    infer_dict width ls acc h = Ok (h', r) ->
    forall I val, world I val -> (forall l f, In (l, f) ls -> Forall (bitwise_logical I) l) ->
      forall g, under h' r val g <-> under h acc val g \/ exists l, In (l, g) ls /\ all_true I l.
  Proof.
    induction ls as [|[l f] ls IH]; intros HL acc h h' r A E I val W BL g; cbn [infer_dict] in E.
    - apply ret_ok in E. destruct E as [-> ->]. split; [auto|intros [H|(l & [] & _)]; exact H].
    - apply bnd_ok in E. destruct E as (h1 & v & E1 & E). apply bnd_ok in E. destruct E as (h2 & acc' & E2 & E). destruct (HL l f (or_introl eq_refl)) as (c & cs & -> & X).
      apply (infer_walk width c cs X) in E1. destruct (walk_exact width _ X _ _ _ E1) as (K & V & KI & HH). destruct (under_keep _ _ _ K A) as [A1 S1].
      pose proof (k_lt _ _ _ _ K) as Lt. pose proof (k_lc _ _ _ _ K) as Lc.
      assert (forall c', (length (conds h) <= c')%nat -> ~ In c' (map fst acc)) as Fresh. { intros c' Hc' Hin. destruct (A c' Hin) as [L _]. lia. }
      assert (exists es, acc' = acc ++ map (fun c => (c, f)) es /\ accgood width h2 es /\ keep (length (terms h1)) (length (conds h1)) h1 h2 /\ forall val, some_holds h2 es val <-> holds h1 v val) as (es & -> & A2 & K2 & S2).
      { destruct v as [|t|e|es]; [contradiction| | |].
        - destruct V as (k & D). apply bnd_ok in E2. destruct E2 as (h3 & x & E3 & E2). apply get_term_ok in E3. destruct E3 as [E3 ->].
          assert (a_ranges x <> []) as NE. { destruct (dg_terms _ _ _ _ _ _ D k t (or_introl eq_refl)) as (_ & (t' & w' & H & y & _ & Y) & _). rewrite (t_at _ _ _ _ _ _ H) in E3. injection E3 as <-. intros Z. rewrite Z in Y. destruct Y as (? & [] & _). }
          assert (exists n, as_conds (ATerm t) h1 = Ok (h2, [n]) /\ acc' = put1 n f acc) as (n & E4 & ->).
          { destruct (a_ranges x) as [|p q]; [congruence|]. cbn [as_conds]. apply bnd_ok in E2. destruct E2 as (h3 & n & E5 & E2). apply bnd_ok in E2. destruct E2 as (h4 & u & E6 & E2). apply ret_ok in E2. destruct E2 as [-> ->]. exists n. split; [|reflexivity]. unfold bnd. rewrite E5, E6. reflexivity. }
          destruct (as_conds_spec width _ _ (length (conds h)) _ _ _ _ (ATerm t) _ (le_n _) (ex_intro _ k D : vgood width _ _ _ _ _ _ (ATerm t)) E4) as (T3 & L3 & O3 & N3 & G3 & H3).
          assert (length (conds h1) <= n < length (conds h2))%nat as Rn.
          { cbn [as_conds] in E4. apply bnd_ok in E4. destruct E4 as (h5 & m & E5 & E4). unfold new_cond in E5. injection E5 as <- <-. apply bnd_ok in E4. destruct E4 as (h6 & u & E6 & E4). apply ret_ok in E4. destruct E4 as [E4 _]. assert (n = length (conds h1)) as -> by congruence.
            destruct (G3 (length (conds h1)) (or_introl eq_refl)) as [_ (dd & Edd & _)]. pose proof (nth_len _ _ _ Edd). lia. }
          exists [n]. split; [apply put1_fresh; apply Fresh; lia|]. split; [|split; [|exact H3]].
          + intros c' Hc. destruct (G3 c' Hc) as [_ G]. destruct Hc as [<-|[]]. split; [lia|]. eapply cgood_more; [| | | | |exact G]; auto; try lia. rewrite T3. lia.
          + constructor; [intros; rewrite T3; reflexivity|exact O3|rewrite T3; lia|exact L3].
        - destruct V as [R G]. apply bnd_ok in E2. destruct E2 as (h3 & u & E3 & E2). rewrite (resolve_same width _ _ _ _ _ G) in E3. injection E3 as <- <-. apply bnd_ok in E2. destruct E2 as (h3 & d & E3 & E2). apply get_cond_ok in E3. destruct E3 as [E3 ->]. apply ret_ok in E2. destruct E2 as [-> ->]. pose proof G as G0. destruct G as (d' & Ed & D). rewrite Ed in E3. injection E3 as <-. destruct d' as [|p d']; [destruct (dg_ne _ _ _ _ _ _ D eq_refl)|].
          exists [e]. split; [apply put1_fresh; apply Fresh; lia|]. split; [|split; [apply keep_refl|]].
          + intros c' [<-|[]]. split; [lia|]. eapply cgood_more; [| | | | |exact G0]; auto; lia.
          + intros val0. cbn [holds]. unfold some_holds. split; [intros (c' & [<-|[]] & H); exact H|]. intros H. exists e. split; [now left|exact H].
        - destruct V as [ND V]. apply bnd_ok in E2. destruct E2 as (h3 & u & E3 & E2). rewrite (each_resolve width _ _ _ _ _ (fun c' Hc => proj2 (V c' Hc))) in E3. injection E3 as <- <-. apply ret_ok in E2. destruct E2 as [-> ->].
          exists es. split; [apply (fold_put f es ND acc); intros c' Hc; apply Fresh; destruct (V c' Hc); lia|]. split; [|split; [apply keep_refl|reflexivity]].
          intros c' Hc. destruct (V c' Hc) as [R G]. split; [lia|]. eapply cgood_more; [| | | | |exact G]; auto; lia. }
      destruct (under_keep _ _ _ K2 A1) as [A3 S3].
      assert (accgood width h2 (map fst (acc ++ map (fun c => (c, f)) es))) as A4.
      { intros x Hx. rewrite map_app, in_app_iff, map_map in Hx. cbn in Hx. rewrite map_id in Hx. destruct Hx as [Hx|Hx]; auto. }
      rewrite (IH (fun l0 f0 Hl => HL l0 f0 (or_intror Hl)) _ h2 h' r A4 E I val W (fun l0 f0 Hl => BL l0 f0 (or_intror Hl)) g).
      assert (under h2 (acc ++ map (fun c => (c, f)) es) val g <-> under h acc val g \/ (g = f /\ all_true I (c :: cs))) as ->.
      { assert (all_true I (c :: cs) <-> some_holds h2 es val) as ->.
        { rewrite S2, (HH I val W (all_of_bitwise I c cs (BL _ _ (or_introl eq_refl)))). symmetry. exact (all_of_truth width I val c cs W). }
        rewrite <- S1, <- S3. unfold under, some_holds. split.
        - intros (c' & Hc & H). apply in_app_or in Hc as [Hc|Hc]; [left; eauto|]. apply in_map_iff in Hc as (c2 & Ec & Hc). injection Ec as <- <-. right. eauto.
        - intros [(c' & Hc & H)|(-> & c' & Hc & H)]; exists c'; (split; [|exact H]); apply in_or_app; [now left|right]. apply in_map_iff. exists c'. auto. }
      split.
      + intros [[H|[-> H]]|(l0 & Hl & H)]; [auto|right; exists (c :: cs); split; [now left|exact H]|right; exists l0; split; [now right|exact H]].
      + intros [H|(l0 & [Hl|Hl] & H)]; [auto|injection Hl as <- <-; auto|right; exists l0; auto].
  Qed.
End Dict.
