(** ActiveProofs2.v *)
From Verif Require Import Base ScopeModel DfModel DfSpec BindModel TransModel TransSpec TransProofs TransProps ActiveModel ActiveSpec ActiveProofs.
Local Open Scope Z_scope.

Lemma in_range_dec r x : {in_range r x} + {~ in_range r x}.
Proof. unfold in_range. destruct (fst r) as [a|], (snd r) as [b|]; try (destruct (Z_le_dec a x)); try (destruct (Z_le_dec x b)); tauto. Qed.
Lemma in_ranges_dec l x : in_ranges l x \/ ~ in_ranges l x.
Proof.
  induction l as [|r l IH]; [right; intros (r & [] & _)|]. destruct (in_range_dec r x) as [K|K]; [left; exists r; cbn; auto|]. destruct IH as [(r' & H & K')|N]; [left; exists r'; cbn; auto|]. right. intros (r' & [->|H] & K'); [auto|]. apply N. exists r'. auto.
Qed.
Lemma each_app {A} (f : A -> M unit) l m h : each f (l ++ m) h = match each f l h with Ok (h1, _) => each f m h1 | Err e => Err e end.
Proof. revert h. induction l as [|x l IH]; intros h; cbn [app each]; [reflexivity|]. unfold bnd. destruct (f x h) as [[h1 u]|e]; [|reflexivity]. apply IH. Qed.
Lemma maps_map {A B C} (g : A -> B) (f : B -> M C) l h : maps f (map g l) h = maps (fun x => f (g x)) l h.
Proof. revert h. induction l as [|x l IH]; intros h; cbn [map maps]; [reflexivity|]. unfold bnd. destruct (f (g x) h) as [[h1 u]|e]; [|reflexivity]. rewrite IH. reflexivity. Qed.
Lemma set_name_eq n t x h : nth_error (terms h) t = Some x -> set_name n t h = set_item n (a_name x, t) h.
Proof. intros E. unfold set_name, bnd, get_term. rewrite E. reflexivity. Qed.

Section Act.
  Variable width : chain -> res Z.
  Notation tgood := (tgood width).
  Notation tok := (tok width).
  Notation val_ok := (val_ok width).
  Definition names := chain -> Prop.
  Definition either (S T : names) : names := fun k => S k \/ T k.
  Record dgood (n0 n1 : nat) (S : names) (h : heap) (d : ndict nat) : Prop := {
    dg_ne : d <> [];
    dg_apart : keys_apart d;
    dg_nodup : NoDup (map snd d);
    dg_terms : forall k i, In (k, i) d -> (n0 <= i < n1)%nat /\ tgood h i k /\ S k }.
  Definition cgood (n0 n1 : nat) (S : names) (h : heap) (c : nat) : Prop := exists d, nth_error (conds h) c = Some d /\ dgood n0 n1 S h d.
  Definition vgood (n0 n1 m0 m1 : nat) (S : names) (h : heap) (v : aval) : Prop :=
    match v with
    | ANone => False
    | ATerm t => exists k, dgood n0 n1 S h [(k, t)]
    | ACond c => (m0 <= c < m1)%nat /\ cgood n0 n1 S h c
    | AList cs => NoDup cs /\ forall c, In c cs -> (m0 <= c < m1)%nat /\ cgood n0 n1 S h c
    end.
  Definition is_kind (k : kind) (v : aval) : Prop := match k, v with KTerm, ATerm _ | KCond, ACond _ | KList, AList _ => True | _, _ => False end.

  Lemma dgood_one n0 n1 (S : names) h k t : (n0 <= t < n1)%nat -> tgood h t k -> S k -> dgood n0 n1 S h [(k, t)].
  Proof. intros H1 H2 H3. constructor; [discriminate|repeat constructor|repeat constructor; intros []|]. intros k' i' [E|[]]. injection E as <- <-. auto. Qed.
  Lemma dgood_more n0 n1 p0 p1 (S T : names) h h' d : (p0 <= n0)%nat -> (n1 <= p1)%nat -> (forall k, S k -> T k) -> (forall i, (n0 <= i < n1)%nat -> nth_error (terms h') i = nth_error (terms h) i) -> dgood n0 n1 S h d -> dgood p0 p1 T h' d.
  Proof. intros H0 H1 HS K [D1 D2 D3 D4]. constructor; auto. intros k i Hi. destruct (D4 k i Hi) as (A & B & C). split; [lia|]. split; [|auto]. eapply tgood_keep; [|exact B]. apply K. exact A. Qed.
  Lemma vgood_more n0 n1 p0 p1 m0 m1 q0 q1 (S T : names) h h' v : (p0 <= n0)%nat -> (n1 <= p1)%nat -> (q0 <= m0)%nat -> (m1 <= q1)%nat -> (forall k, S k -> T k) ->
    (forall i, (n0 <= i < n1)%nat -> nth_error (terms h') i = nth_error (terms h) i) -> (forall i, (m0 <= i < m1)%nat -> nth_error (conds h') i = nth_error (conds h) i) -> vgood n0 n1 m0 m1 S h v -> vgood p0 p1 q0 q1 T h' v.
  Proof.
    intros H0 H1 H2 H3 HS KT KC. assert (forall c, (m0 <= c < m1)%nat /\ cgood n0 n1 S h c -> (q0 <= c < q1)%nat /\ cgood p0 p1 T h' c) as HC.
    { intros c [A (d & E & D)]. split; [lia|]. exists d. split; [rewrite KC by exact A; exact E|]. eapply dgood_more; eauto. }
    destruct v as [|t|c|cs]; cbn [vgood]; [auto|intros (k & D); exists k; eapply dgood_more; eauto|apply HC|]. intros [ND A]. split; [exact ND|]. auto.
  Qed.
  Lemma says_iff h h' d val : (forall k i, In (k, i) d -> nth_error (terms h') i = nth_error (terms h) i) -> (says h' d val <-> says h d val).
  Proof. apply says_keep. Qed.
  Lemma holds_more n0 n1 m0 m1 S h h' v val : (forall i, (n0 <= i < n1)%nat -> nth_error (terms h') i = nth_error (terms h) i) -> (forall i, (m0 <= i < m1)%nat -> nth_error (conds h') i = nth_error (conds h) i) -> vgood n0 n1 m0 m1 S h v -> (holds h' v val <-> holds h v val).
  Proof.
    intros KT KC. assert (forall c, (m0 <= c < m1)%nat /\ cgood n0 n1 S h c -> (cond_holds h' c val <-> cond_holds h c val)) as HC.
    { intros c [A (d & E & D)]. rewrite (cond_says h c d val E), (cond_says h' c d val) by (rewrite KC by exact A; exact E). apply says_keep. intros k i Hi. apply KT. apply (dg_terms _ _ _ _ _ D k i Hi). }
    destruct v as [|t|c|cs]; cbn [vgood holds]; [tauto| |apply HC|].
    - intros (k & D). apply holds_keep. apply KT. apply (dg_terms _ _ _ _ _ D k t (or_introl eq_refl)).
    - intros [ND A]. unfold some_holds. split; intros (c & Hc & K); exists c; (split; [exact Hc|]); apply (HC c (A c Hc)); exact K.
  Qed.
  Lemma dgood_dok n0 n1 S h d : dgood n0 n1 S h d -> dok width h d.
  Proof. intros [D1 D2 D3 D4]. constructor; auto. intros k i Hi. apply tgood_ok. apply (D4 k i Hi). Qed.

  (** The terms of a value that is no list. *)
  Definition items (h : heap) (v : aval) (d : ndict nat) : Prop :=
    match v with ATerm t => exists x, nth_error (terms h) t = Some x /\ d = [(a_name x, t)] | ACond c => nth_error (conds h) c = Some d | _ => False end.
  Lemma vgood_items n0 n1 m0 m1 S h v : vgood n0 n1 m0 m1 S h v -> ~ is_kind KList v -> exists d, items h v d /\ dgood n0 n1 S h d /\ forall val, holds h v val <-> says h d val.
  Proof.
    destruct v as [|t|c|cs]; cbn [vgood is_kind items holds]; try tauto.
    - intros (k & D) _. destruct (dg_terms _ _ _ _ _ D k t (or_introl eq_refl)) as (_ & (x & w & H & _) & _). assert (a_name x = k) as E by apply H. exists [(k, t)]. split; [exists x; rewrite E; split; [apply H|reflexivity]|]. split; [exact D|].
      intros val. split; [intros K k' i' [E'|[]]; injection E' as <- <-; exact K|intros K; apply (K k t); left; reflexivity].
    - intros [A (d & E & D)] _. exists d. split; [exact E|]. split; [exact D|]. intros val. apply cond_says. exact E.
  Qed.
  Lemma nodup_app {A} (l m : list A) : NoDup l -> NoDup m -> (forall x, In x l -> ~ In x m) -> NoDup (l ++ m).
  Proof. intros Hl Hm. induction Hl as [|x l Hx Hl IH]; cbn; intros K; [exact Hm|]. constructor; [intros H; apply in_app_or in H; destruct H as [H|H]; [auto|apply (K x); [left; reflexivity|exact H]]|]. apply IH. intros y Hy. apply K. right. exact Hy. Qed.

  Definition blank (h : heap) : heap := Heap (terms h) (conds h ++ [[]]).
  Lemma tok_blank h i k : tok h i k -> tok (blank h) i k.
  Proof. intros H. eapply tok_keep; [|exact H]. reflexivity. Qed.
  (** Conjunction without lists: all sets, into a new condition. *)
  Lemma each_one {A} (f : A -> M unit) x h : each f [x] h = match f x h with Ok (h1, _) => Ok (h1, tt) | Err e => Err e end.
  Proof. cbn [each]. unfold bnd. destruct (f x h) as [[h1 u]|e]; reflexivity. Qed.
  Lemma op_and_sets n0 n1 n2 m0 m1 m2 S T h h' a b v da db : vgood n0 n1 m0 m1 S h a -> vgood n1 n2 m1 m2 T h b -> (m2 <= length (conds h))%nat -> items h a da -> items h b db -> dgood n0 n1 S h da -> dgood n1 n2 T h db ->
    op_and a b h = Ok (h', v) -> v = ACond (length (conds h)) /\ exists u, each (set_item (length (conds h))) (da ++ db) (blank h) = Ok (h', u).
  Proof.
    intros VA VB L2 IA IB DA DB E. set (n := length (conds h)) in *.
    assert (nth_error (conds (blank h)) n = Some []) as EB by apply nth_snoc_new.
    assert (forall h1 u, each (set_item n) da (blank h) = Ok (h1, u) -> (forall i, (n1 <= i < n2)%nat -> nth_error (terms h1) i = nth_error (terms h) i) /\ forall c, (c < n)%nat -> nth_error (conds h1) c = nth_error (conds h) c) as KA.
    { intros h1 u E1. assert (dok width (blank h) []) as D0 by (constructor; [constructor|constructor|intros k i []]).
      destruct (each_set width da (blank h) h1 n [] u EB D0) as (d' & _ & _ & _ & _ & OC & _ & OT & _); [intros k i Hi; apply tok_blank; apply (d_terms _ _ _ (dgood_dok _ _ _ _ _ DA) k i Hi)|cbn [app]; apply DA|exact E1|]. cbn [app] in OT. split.
      - intros i Hi. rewrite OT; [reflexivity|]. intros K. apply in_map_iff in K. destruct K as ([k j] & <- & K). destruct (dg_terms _ _ _ _ _ DA k j K) as (R & _). cbn in Hi. lia.
      - intros c Hc. rewrite OC by lia. cbn. rewrite nth_error_app1 by exact Hc. reflexivity. }
    rewrite each_app. destruct a as [|t|c|cs]; try contradiction; destruct b as [|t'|c'|cs']; try contradiction; cbn [items] in IA, IB; unfold op_and in E.
    - destruct IA as (x & Ex & ->), IB as (y & Ey & ->). apply bnd_ok in E. destruct E as (h0 & n' & E0 & E). injection E0 as <- <-. fold (blank h) n in E. apply bnd_ok in E. destruct E as (h1 & u1 & E1 & E). rewrite (set_name_eq n t x (blank h) Ex) in E1. apply bnd_ok in E. destruct E as (h2 & u2 & E2 & E). apply ret_ok in E. destruct E as [-> ->].
      split; [reflexivity|]. rewrite each_one, E1. assert (each (set_item n) [(a_name x, t)] (blank h) = Ok (h1, tt)) as E1' by (rewrite each_one, E1; reflexivity). destruct (KA _ _ E1') as [K1 _]. destruct (dg_terms _ _ _ _ _ DB (a_name y) t' (or_introl eq_refl)) as (R & _).
      rewrite (set_name_eq n t' y h1) in E2 by (rewrite K1 by exact R; exact Ey). rewrite each_one, E2. eauto.
    - destruct IA as (x & Ex & ->). apply bnd_ok in E. destruct E as (h0 & n' & E0 & E). injection E0 as <- <-. fold (blank h) n in E. apply bnd_ok in E. destruct E as (h1 & u1 & E1 & E). rewrite (set_name_eq n t x (blank h) Ex) in E1. apply bnd_ok in E. destruct E as (h2 & d2 & E2 & E). apply get_cond_ok in E2. destruct E2 as [E2 ->]. apply bnd_ok in E. destruct E as (h2 & u2 & E3 & E). apply ret_ok in E. destruct E as [-> ->].
      split; [reflexivity|]. assert (each (set_item n) [(a_name x, t)] (blank h) = Ok (h1, tt)) as E1' by (rewrite each_one, E1; reflexivity). rewrite E1'. destruct (KA _ _ E1') as [_ K1]. destruct VB as [RB _]. rewrite K1 in E2 by lia. rewrite IB in E2. injection E2 as <-. eauto.
    - destruct IB as (y & Ey & ->). apply bnd_ok in E. destruct E as (h0 & n' & E0 & E). injection E0 as <- <-. fold (blank h) n in E. apply bnd_ok in E. destruct E as (h1 & d1 & E1 & E). apply get_cond_ok in E1. destruct E1 as [E1 ->]. destruct VA as [RA _], VB as (k & _).
      assert (c < n)%nat as Lc by (apply nth_len in IA; exact IA). cbn in E1. rewrite nth_error_app1 in E1 by exact Lc. rewrite IA in E1. injection E1 as <-.
      apply bnd_ok in E. destruct E as (h1 & u1 & E1 & E). apply bnd_ok in E. destruct E as (h2 & u2 & E2 & E). apply ret_ok in E. destruct E as [-> ->]. split; [reflexivity|]. rewrite E1. destruct (KA _ _ E1) as [K1 _]. destruct (dg_terms _ _ _ _ _ DB (a_name y) t' (or_introl eq_refl)) as (R & _).
      rewrite (set_name_eq n t' y h1) in E2 by (rewrite K1 by exact R; exact Ey). rewrite each_one, E2. eauto.
    - apply bnd_ok in E. destruct E as (hx & nx & E & Ex). apply ret_ok in Ex. destruct Ex as [-> ->]. unfold and_conds in E. apply bnd_ok in E. destruct E as (h0 & n' & E0 & E). injection E0 as <- <-. fold (blank h) n in E. apply bnd_ok in E. destruct E as (h1 & d1 & E1 & E). apply get_cond_ok in E1. destruct E1 as [E1 ->].
      assert (c < n)%nat as Lc by (apply nth_len in IA; exact IA). cbn in E1. rewrite nth_error_app1 in E1 by exact Lc. rewrite IA in E1. injection E1 as <-.
      apply bnd_ok in E. destruct E as (h1 & u1 & E1 & E). apply bnd_ok in E. destruct E as (h2 & d2 & E2 & E). apply get_cond_ok in E2. destruct E2 as [E2 ->]. apply bnd_ok in E. destruct E as (h2 & u2 & E3 & E). apply ret_ok in E. destruct E as [-> ->]. split; [reflexivity|]. rewrite E1. destruct (KA _ _ E1) as [_ K1]. destruct VB as [RB _]. rewrite K1 in E2 by lia. rewrite IB in E2. injection E2 as <-. eauto.
  Qed.
  Lemma tok_good h i k val : tok h i k -> val_ok val -> term_holds h i val -> tgood h i k.
  Proof. intros (t & w & H) [_ V] K. exists t, w. split; [exact H|]. exists (val k). split; [apply V; apply H|]. apply (tok_holds _ _ _ _ _ _ _ H). exact K. Qed.
  Lemma and_plain n0 n1 n2 m0 m1 m2 S T h h' a b v : (n0 <= n1 <= n2)%nat -> (m0 <= m1 <= m2)%nat -> m2 = length (conds h) -> n2 = length (terms h) -> vgood n0 n1 m0 m1 S h a -> vgood n1 n2 m1 m2 T h b -> ~ is_kind KList a -> ~ is_kind KList b ->
    (exists val, val_ok val /\ holds h a val /\ holds h b val) -> op_and a b h = Ok (h', v) ->
    keep n0 m0 h h' /\ vgood n0 (length (terms h')) m0 (length (conds h')) (either S T) h' v /\ is_kind KCond v /\ forall val, val_ok val -> (holds h' v val <-> holds h a val /\ holds h b val).
  Proof.
    intros Ln Lm Em En VA VB KA KB (val0 & V0 & HA0 & HB0) E.
    destruct (vgood_items _ _ _ _ _ _ _ VA KA) as (da & IA & DA & HA). destruct (vgood_items _ _ _ _ _ _ _ VB KB) as (db & IB & DB & HB).
    destruct (op_and_sets n0 n1 n2 m0 m1 m2 S T h h' a b v da db VA VB ltac:(lia) IA IB DA DB E) as (-> & u & E1).
    assert (forall k i, In (k, i) (da ++ db) -> (n0 <= i < n2)%nat /\ tgood h i k /\ either S T k) as HI.
    { intros k i Hi. apply in_app_or in Hi. destruct Hi as [Hi|Hi]; [destruct (dg_terms _ _ _ _ _ DA k i Hi) as (R & G & N)|destruct (dg_terms _ _ _ _ _ DB k i Hi) as (R & G & N)]; (split; [lia|split; [exact G|unfold either; auto]]). }
    assert (NoDup (map snd (da ++ db))) as ND. { rewrite map_app. apply nodup_app; [apply DA|apply DB|]. intros i Hi Ki. apply in_map_iff in Hi, Ki. destruct Hi as ([k j] & <- & Hi), Ki as ([k2 j2] & E2 & Ki). cbn in E2. subst j2. destruct (dg_terms _ _ _ _ _ DA k j Hi) as (R & _). destruct (dg_terms _ _ _ _ _ DB k2 _ Ki) as (R2 & _). cbn in R2. lia. }
    destruct (each_set width (da ++ db) (blank h) h' (length (conds h)) [] u) as (d' & C' & D' & I' & N' & OC & LC & OT & LT & SS).
    { apply nth_snoc_new. } { constructor; [constructor|constructor|intros k i []]. } { intros k i Hi. apply tok_blank, tgood_ok. apply (HI k i Hi). } { exact ND. } { exact E1. }
    cbn [app blank terms conds] in *. rewrite app_length in LC. cbn [length] in LC.
    assert (forall val, val_ok val -> (says h' d' val <-> holds h a val /\ holds h b val)) as HS.
    { intros val V. rewrite (SS val V), HA, HB. unfold says, term_holds, blank. cbn [terms]. split.
      - intros [_ K]. split; intros k i Hi; apply (K k i); apply in_or_app; auto.
      - intros [K1 K2]. split; [intros k i []|]. intros k i Hi. apply in_app_or in Hi. destruct Hi; eauto. }
    split; [constructor|split; [|split; [exact I|]]].
    - intros i Hi. apply OT. intros K. apply in_map_iff in K. destruct K as ([k j] & <- & K). destruct (HI k j K) as (R & _). cbn in Hi. lia.
    - intros i Hi. rewrite OC by lia. rewrite nth_error_app1 by lia. reflexivity.
    - lia.
    - lia.
    - cbn [vgood]. split; [lia|]. exists d'. split; [exact C'|]. constructor.
      + intros ->. destruct (N' eq_refl) as [_ K]. apply app_eq_nil in K. destruct K as [K _]. apply (dg_ne _ _ _ _ _ DA K).
      + apply D'.
      + apply D'.
      + intros k i Hi. destruct (HI k i (I' _ Hi)) as (R & G & N). split; [lia|]. split; [|exact N]. eapply tok_good; [apply (d_terms _ _ _ D' k i Hi)|exact V0|]. apply (proj2 (HS val0 V0) (conj HA0 HB0) k i Hi).
    - intros val V. cbn [holds]. rewrite (cond_says h' _ d' val C'). apply HS. exact V.
  Qed.
End Act.
