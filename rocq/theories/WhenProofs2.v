(** WhenProofs2.v - from trees to reports. *)
From Coq Require Import Sorting.Permutation.
From Verif Require Import Base ScopeModel DfModel DfSpec DfProofs BindSpec BindProofs SplitModel SplitSpec SplitProofs
  TransModel TransSpec TransProofs TransProps FsmModel FsmSpec FsmProofs FsmProofs2 FsmProps MachModel MachSpec MachText MachProofs MachProofs2 MachProofs3
  WhenModel WhenSpec WhenProofs.
Local Open Scope Z_scope.

Lemma paths_leaf t : no_hollow t = true -> forall k f, In (k, f) (paths t) -> isBranch f = false /\ f <> DNone.
Proof.
  assert (forall c a k0 f0, (no_hollow a = true -> forall k0 f0, In (k0, f0) (paths a) -> isBranch f0 = false /\ f0 <> DNone) ->
    no_hollow a = true -> negb (isBranch a) || has_leaf a = true -> In (k0, f0) (partA c (paths a) a) -> isBranch f0 = false /\ f0 <> DNone) as K.
  { intros c a k0 f0 IH Hn Hl H. unfold partA in H. destruct (0 <? length (paths a))%nat eqn:El.
    - apply in_map_iff in H as ([k1 f1] & E1 & H). cbn in E1. injection E1 as _ <-. exact (IH Hn _ _ H).
    - destruct (is_none a) eqn:Ena; [destruct H|]. destruct H as [H|[]]. injection H as _ <-.
      destruct (isBranch a) eqn:Eb; [|split; [reflexivity|intros ->; discriminate]].
      exfalso. cbn in Hl. pose proof (has_leaf_paths a Eb Hl) as Hnp. apply Nat.ltb_ge in El. destruct (paths a); [congruence|cbn in El; lia]. }
  induction t as [ |n|s|s|s|l o IH|v m l IHv IHm IHl|v p IHv IHp|l IH|c a b IHc IHt IHf|v w f s|w|w|t IH|s l IH]
    using df_ind'; intros Hh k0 f0 H; try destruct H.
  cbn [no_hollow] in Hh. repeat match goal with H : _ && _ = true |- _ => apply andb_true_iff in H as [? ?] end.
  change (paths (DBranch c a b)) with (partA c (paths a) a ++ partA (DOp [c] Ulnot) (paths b) b) in H.
  apply in_app_iff in H as [H|H]; [refine (K c a k0 f0 IHt _ _ H)|refine (K (DOp [c] Ulnot) b k0 f0 IHf _ _ H)]; assumption.
Qed.
Lemma filter_plain d tn c : pkeys d -> pkeys (filter_funcs d tn c).
Proof. unfold pkeys, filter_funcs. rewrite !Forall_forall. intros H x Hx. apply filter_In in Hx as [Hx _]. auto. Qed.
Lemma filter_in d tn c k f : In (k, f) (filter_funcs d tn c) <-> In (k, f) d /\ c tn f = true.
Proof. unfold filter_funcs. rewrite filter_In. reflexivity. Qed.

(** What is left of the routes to active leaves. *)
Lemma active_from t tn c d : proper_tree t -> no_hollow t = true -> remove_reset_condition (filter_funcs (paths t) tn c) = Ok d ->
  pkeys d /\ (forall k f, In (k, f) d -> exists k0 r, route t k0 f /\ parted k0 k r /\ c tn f = true).
Proof.
  intros Ht Hh E. destruct (removed_spec _ (filter_plain _ tn c (paths_plain t (proj1 Ht))) _ E) as (R1 & R2 & _). split; [exact R1|].
  intros k f H. destruct (R2 k f H) as (k0 & r & A & B). apply filter_in in A as [A C]. exists k0, r.
  destruct (paths_leaf t Hh k0 f A) as [L1 L2]. split; [exact (paths_route t k0 f A L1 L2)|]. auto.
Qed.
Lemma active_kept t tn c d : proper_tree t -> isBranch t = true -> remove_reset_condition (filter_funcs (paths t) tn c) = Ok d ->
  forall k kept dropped leaf, route t k leaf -> c tn leaf = true -> parted k kept dropped -> kept <> [] -> exists f, In (kept, f) d.
Proof.
  intros Ht Hb E k kept dropped leaf R C Pt Hk. destruct (removed_spec _ (filter_plain _ tn c (paths_plain t (proj1 Ht))) _ E) as (_ & _ & R3 & _).
  refine (R3 k kept dropped leaf _ Pt Hk). apply filter_in. split; [exact (route_paths _ _ _ R Hb)|exact C].
Qed.

Section When.
  Variable known : chain -> bool.
  Variable makeTree : chain -> res df.
  Variable getWidth : chain -> res Z.
  Variable optimize : df -> res df.
  Variable P : interp -> Prop.
  Hypothesis HP : forall I, P I -> logical I.
  Hypothesis Hopt : simplifies P optimize.

  Lemma each_in fsms d : forall r, each_fsm getWidth optimize fsms d = Ok r ->
    (forall sig l, In (sig, l) r -> In sig fsms /\ getActiveConditions_fsm getWidth optimize sig d = Ok l /\ l <> []) /\
    (forall sig, In sig fsms -> exists l, getActiveConditions_fsm getWidth optimize sig d = Ok l /\ (l <> [] -> In (sig, l) r)).
  Proof.
    induction fsms as [|f fsms IH]; intros r E; cbn [each_fsm] in E.
    - injection E as <-. split; [intros sig l []|intros sig []].
    - destruct (getActiveConditions_fsm getWidth optimize f d) as [l|] eqn:El; [|discriminate]. cbn [bind] in E.
      destruct (each_fsm getWidth optimize fsms d) as [ls|]; [|discriminate]. cbn [bind] in E. destruct (IH ls eq_refl) as [I1 I2]. apply Ok_inj in E. subst r. split.
      + intros sig l0 H.
        destruct (0 <? length l)%nat eqn:En.
        * apply Nat.ltb_lt in En. destruct H as [H|H]; [injection H as <- <-; split; [now left|]; split; [exact El|intros K; rewrite K in En; cbn in En; lia]|].
          destruct (I1 _ _ H) as (A & B & C). split; [now right|auto].
        * destruct (I1 _ _ H) as (A & B & C). split; [now right|auto].
      + intros sig [<-|H].
        * exists l. split; [exact El|]. intros Hn. destruct l; [congruence|]. cbn [length Nat.ltb Nat.leb]. now left.
        * destruct (I2 _ H) as (l0 & A & B). exists l0. split; [exact A|]. intros Hn. destruct (0 <? length l)%nat; [right|]; auto.
  Qed.

  Lemma report_parts fsms tn c r t : known tn = true -> makeTree tn = Ok t -> proper_tree t ->
    getActiveConditions known makeTree getWidth optimize fsms tn c = Ok r ->
    exists d, remove_reset_condition (filter_funcs (paths t) tn c) = Ok d /\
    (forall sig l, In (sig, l) r -> (In sig fsms \/ sig = tn) /\ l <> [] /\ getActiveConditions_fsm getWidth optimize sig d = Ok l) /\
    (forall sig l, In sig fsms \/ (sig = tn /\ forall f, In f fsms -> getActiveConditions_fsm getWidth optimize f d = Ok []) ->
      getActiveConditions_fsm getWidth optimize sig d = Ok l -> l <> [] -> In (sig, l) r) /\
    (forall sig, In sig fsms -> exists l, getActiveConditions_fsm getWidth optimize sig d = Ok l) /\
    ((forall f, In f fsms -> forall l, ~ In (f, l) r) -> (forall f, In f fsms -> getActiveConditions_fsm getWidth optimize f d = Ok []) /\ exists l, getActiveConditions_fsm getWidth optimize tn d = Ok l).
  Proof.
    intros Hk Et Ht E. unfold getActiveConditions in E. rewrite Hk, Et in E. cbn [negb bind] in E. rewrite (split_ok t Ht) in E. cbn [bind] in E.
    destruct (remove_reset_condition (filter_funcs (paths t) tn c)) as [d|] eqn:Ed; [|discriminate]. cbn [bind] in E. exists d. split; [reflexivity|].
    assert ((do a <- each_fsm getWidth optimize fsms d;
       match a with
       | [] => do l <- getActiveConditions_fsm getWidth optimize tn d; Ok (if (0 <? length l)%nat then [(tn, l)] else [])
       | _ => Ok a end) = Ok r) as E'. { destruct d as [|[[|x ks] f] [|p2 r2]]; try exact E. discriminate. }
    clear E. rename E' into E. destruct (each_fsm getWidth optimize fsms d) as [a|] eqn:Ea; [|discriminate]. cbn [bind] in E. destruct (each_in fsms d a Ea) as [I1 I2].
    destruct a as [|p a].
    - destruct (getActiveConditions_fsm getWidth optimize tn d) as [l|] eqn:El; [|discriminate]. cbn [bind] in E. apply Ok_inj in E. subst r.
      assert (forall f, In f fsms -> getActiveConditions_fsm getWidth optimize f d = Ok []) as Z.
      { intros f Hf. destruct (I2 f Hf) as (l0 & A & B). destruct l0; [exact A|]. destruct (B ltac:(discriminate)). }
      split; [|split; [|split]].
      + intros sig l0 H. destruct (0 <? length l)%nat eqn:En; [|destruct H]. apply Nat.ltb_lt in En. destruct H as [H|[]]. injection H as <- <-.
        split; [now right|]. split; [intros K; rewrite K in En; cbn in En; lia|exact El].
      + intros sig l0 [H|[-> _]] Hl Hn; [rewrite (Z _ H) in Hl; congruence|]. rewrite El in Hl. injection Hl as <-. destruct l; [congruence|]. now left.
      + intros sig H. exists []. exact (Z _ H).
      + intros _. split; [exact Z|eauto].
    - injection E as <-. split; [|split; [|split]].
      + intros sig l H. destruct (I1 _ _ H) as (A & B & C). auto.
      + intros sig l [H|[-> Z]] Hl Hn.
        * destruct (I2 _ H) as (l0 & A & B). rewrite Hl in A. injection A as <-. auto.
        * exfalso. destruct p as [f0 l0]. destruct (I1 f0 l0 (or_introl eq_refl)) as (A & B & C). rewrite (Z _ A) in B. congruence.
      + intros sig H. destruct (I2 _ H) as (l0 & A & B). eauto.
      + intros H. exfalso. destruct p as [f0 l0]. destruct (I1 f0 l0 (or_introl eq_refl)) as (A & _). exact (H f0 A l0 (or_introl eq_refl)).
  Qed.

  Definition kept_analysable (t : df) (good : df -> bool) (sig : chain) (w : Z) : Prop :=
    forall k kept dropped leaf, route t k leaf -> good leaf = true -> parted k kept dropped -> analysable sig w kept.

  Lemma when_sound fsms tn c r t : known tn = true -> makeTree tn = Ok t -> proper_tree t -> no_hollow t = true ->
    getActiveConditions known makeTree getWidth optimize fsms tn c = Ok r ->
    forall sig l, In (sig, l) r -> (In sig fsms \/ sig = tn) /\ l <> [] /\ exists w, getWidth sig = Ok w /\
    (0 <= w -> kept_analysable t (c tn) sig w -> forall I s, P I -> setting sig w t I s -> listed I l s ->
      exists leaf, reaches I t (fun x => c tn x = true) leaf).
  Proof.
    intros Hk Et Ht Hh E sig l Hin. destruct (report_parts fsms tn c r t Hk Et Ht E) as (d & Ed & R1 & _). destruct (R1 _ _ Hin) as (A & B & C).
    split; [exact A|]. split; [exact B|]. unfold getActiveConditions_fsm in C. destruct (getWidth sig) as [w|]; [|discriminate]. cbn [bind] in C. exists w. split; [reflexivity|].
    intros Hw Ha I s HI HS HL. destruct (active_from t tn c d Ht Hh Ed) as [D1 D2].
    assert (forall k f, In (k, f) (sort_by len_leb d) -> exists k0 r, route t k0 f /\ parted k0 k r /\ c tn f = true) as D2' by (intros k f H; apply sorted_in in H; auto).
    destruct (entries_sound optimize P HP Hopt sig w (sort_by len_leb d) Hw (pkeys_sorted d D1)) with (l := l) (I := I) (s := s) as (k & f & H1 & H2); auto.
    - intros k f H. destruct (D2' k f H) as (k0 & r0 & X1 & X2 & X3). exact (Ha _ _ _ _ X1 X3 X2).
    - intros k f H. destruct (D2' k f H) as (k0 & r0 & X1 & X2 & X3). exact (situation_of _ _ _ _ _ _ _ _ _ HS X1 X2).
    - destruct (D2' k f H1) as (k0 & r0 & X1 & X2 & X3). exists f. split; [exact X3|]. exists k0, k, r0. auto.
  Qed.

  Lemma when_complete fsms tn c r t : known tn = true -> makeTree tn = Ok t -> proper_tree t -> no_hollow t = true -> isBranch t = true ->
    getActiveConditions known makeTree getWidth optimize fsms tn c = Ok r ->
    forall sig w, In sig fsms \/ (sig = tn /\ forall f, In f fsms -> forall l, ~ In (f, l) r) -> getWidth sig = Ok w -> 0 <= w -> kept_analysable t (c tn) sig w ->
    forall I s k kept dropped leaf, P I -> setting sig w t I s -> route t k leaf -> c tn leaf = true -> parted k kept dropped -> all_true I kept ->
      Exists (fun x => on_state sig x = true) kept -> exists l, In (sig, l) r /\ listed I l s.
  Proof.
    intros Hk Et Ht Hh Hb E sig w Hsig Ew Hw Ha I s k kept dropped leaf HI HS R HC Pt HT HO.
    destruct (report_parts fsms tn c r t Hk Et Ht E) as (d & Ed & R1 & R2 & R3 & R4). destruct (active_from t tn c d Ht Hh Ed) as [D1 D2].
    assert (forall k f, In (k, f) (sort_by len_leb d) -> exists k0 r, route t k0 f /\ parted k0 k r /\ c tn f = true) as D2' by (intros k0 f H; apply sorted_in in H; auto).
    destruct (active_kept t tn c d Ht Hb Ed k kept dropped leaf R HC Pt) as (f & Hf); [intros ->; inversion HO|].
    assert (exists l, getActiveConditions_fsm getWidth optimize sig d = Ok l) as (l & El).
    { destruct Hsig as [Hs|[-> Hs]]; [exact (R3 _ Hs)|exact (proj2 (R4 Hs))]. }
    assert (listed I l s) as L.
    { pose proof El as El0. unfold getActiveConditions_fsm in El0. rewrite Ew in El0. cbn [bind] in El0.
      refine (entries_complete optimize P HP Hopt sig w (sort_by len_leb d) Hw (pkeys_sorted d D1) _ l El0 I s kept f HI _ _ HT HO).
      - intros k0 f0 H. destruct (D2' k0 f0 H) as (k1 & r1 & X1 & X2 & X3). exact (Ha _ _ _ _ X1 X3 X2).
      - now apply sorted_in.
      - exact (situation_of _ _ _ _ _ _ _ _ _ HS R Pt). }
    exists l. split; [|exact L]. refine (R2 sig l _ El _); [|intros ->; destruct L as (? & [] & _)].
    destruct Hsig as [Hs|[-> Hs]]; [now left|right; split; [reflexivity|exact (proj1 (R4 Hs))]].
  Qed.
End When.
