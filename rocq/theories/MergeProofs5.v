(** MergeProofs5.v - cutting a list of assignments at the overlaps. *)
From Verif Require Import Base ScopeModel DfModel BindModel LitModel OptModel OptSpec OptArith OptProofs OptProofs2 MergeModel MergeSpec MergeSpec2 MergeProofs2 MergeProofs3 MergeProofs4.
Require Import Coq.Sorting.Permutation Coq.Sorting.Sorted.
Local Open Scope Z_scope.

(** ** Unmatched ranges stay outside the matched ones *)
Lemma unmatched_spec : forall l minv maxv last acc, StronglySorted (fun a b : range => fst (fst a) <= fst (fst b)) l -> Forall proper l -> ForallOrdPairs apart l ->
  match last with Some x => forall r, In r l -> x < snd (fst r) | None => True end ->
  exists lo hi, unmatched_go l minv maxv last acc None = (lo, hi, acc) /\
    (forall r, In r l -> exists a b, lo = Some a /\ hi = Some b /\ a <= snd (fst r) /\ fst (fst r) <= b) /\
    (forall z, minv = Some z -> exists a, lo = Some a /\ a <= z) /\ (forall z, maxv = Some z -> exists b, hi = Some b /\ z <= b).
Proof.
  induction l as [|[[m x] p] l IH]; intros minv maxv last acc HS HP HA HL; cbn [unmatched_go].
  { exists minv, maxv. split; auto. split; [intros r []|]. split; intros z ->; eexists; split; eauto; lia. }
  inversion HS; subst. inversion HP; subst. inversion HA; subst.
  assert (match last with Some y => if x <? y + 1 then acc ++ [(y + 1, x - 1, p)] else acc | None => acc end = acc) as ->.
  { destruct last as [y|]; auto. specialize (HL _ (or_introl eq_refl)). cbn in HL. destruct (Z.ltb_spec x (y + 1)); auto. lia. }
  destruct (IH (optmin minv x) (optmax maxv m) (Some m) acc H1 H4 H6) as (lo & hi & E & K1 & K2 & K3).
  { intros r Hr. rewrite Forall_forall in H2, H4, H5. specialize (H2 _ Hr). specialize (H4 _ Hr). specialize (H5 _ Hr). unfold apart, inside, proper in *. cbn [fst snd] in *. destruct (Z_lt_le_dec m (snd (fst r))); auto. exfalso. apply (H5 m). lia. }
  exists lo, hi. split; [exact E|]. split; [|split].
  - intros r [<-|Hr]; auto. cbn [fst snd]. destruct minv as [z|]; [destruct (K2 _ eq_refl) as (a & -> & Ha)|destruct (K2 _ eq_refl) as (a & -> & Ha)]; destruct maxv as [z'|]; [destruct (K3 _ eq_refl) as (b & -> & Hb)|destruct (K3 _ eq_refl) as (b & -> & Hb)|destruct (K3 _ eq_refl) as (b & -> & Hb)|destruct (K3 _ eq_refl) as (b & -> & Hb)];
      exists a, b; repeat split; auto; try destruct (Z.ltb_spec x z); try destruct (Z.ltb_spec z' m); lia.
  - intros z ->. destruct (K2 _ eq_refl) as (a & -> & Ha). exists a. split; auto. destruct (Z.ltb_spec x z); lia.
  - intros z ->. destruct (K3 _ eq_refl) as (a & -> & Ha). exists a. split; auto. destruct (Z.ltb_spec z m); lia.
Qed.
Lemma apart_perm l l' : Permutation l l' -> ForallOrdPairs apart l -> ForallOrdPairs apart l'.
Proof.
  induction 1; intros H1; auto.
  - inversion H1; subst. constructor; auto. eapply Permutation_Forall; eauto.
  - inversion H1 as [|? ? A1 A2]; subst. inversion A2 as [|? ? B1 B2]; subst. inversion A1 as [|? ? C1 C2]; subst. constructor; [constructor; auto; intros z [Z1 Z2]; apply (C1 z); auto|]. constructor; auto.
Qed.
Theorem unmatched_apart M sm sl r s : Forall proper M -> ForallOrdPairs apart M -> In r (unmatchedRange M sm sl None) -> In s M -> forall x, ~ (between r x /\ inside s x).
Proof.
  intros HP HA Hr Hs x [B I]. unfold unmatchedRange in Hr. match type of Hr with context [unmatched_go ?X] => set (S := X) in Hr end.
  assert (Permutation M S) as HM by apply sort_by_perm.
  destruct (unmatched_spec S None None None []) as (lo & hi & E & K & _ & _); [apply (sort_strong (fun a : range => fst (fst a)))|eapply Permutation_Forall; eauto|eapply apart_perm; eauto|auto|].
  rewrite E in Hr. destruct (K s) as (a & b & -> & -> & K1 & K2); [eapply Permutation_in; eauto|]. cbn [app] in Hr. unfold between, inside in *.
  apply in_app_or in Hr as [Hr|Hr].
  - destruct (Z.ltb_spec sl a); [|contradiction]. destruct Hr as [<-|[]]. cbn [fst snd] in *. lia.
  - destruct (Z.ltb_spec b sm); [|contradiction]. destruct Hr as [<-|[]]. cbn [fst snd] in *. lia.
Qed.
Lemma matched_apart assigned sm sl : sl <= sm -> Forall proper assigned -> ForallOrdPairs apart assigned -> Forall proper (matchedRange assigned sm sl None) /\ ForallOrdPairs apart (matchedRange assigned sm sl None).
Proof.
  intros Hs. induction assigned as [|r l IH]; intros HP HA; [split; constructor|]. inversion HP; subst. inversion HA; subst. destruct (IH H2 H4) as [I1 I2].
  assert (Forall proper (matchedRange (r :: l) sm sl None)) as HP'. { rewrite Forall_forall. intros q Hq. destruct (matched_inter sm sl Hs _ _ _ HP Hq) as (_ & _ & _ & K). auto. }
  split; auto. rewrite matched_cons in *. destruct (_ || _) eqn:E; cbn [app] in *; auto. constructor; auto. rewrite Forall_forall. intros q Hq x [X1 X2].
  destruct (matched_inter sm sl Hs _ _ _ H2 Hq) as (q0 & Q0 & Q1 & _). destruct (proj1 (Q1 x) X2) as [X3 X4]. rewrite Forall_forall in H3. apply (H3 _ Q0 x). split; auto.
  assert (In (cut sm sl r) (matchedRange [r] sm sl None)) as HC by (rewrite matched_cons, E; now left). destruct (matched_inter sm sl Hs [r] None _ (Forall_cons _ H1 (Forall_nil _)) HC) as (r0 & [<-|[]] & R1 & _). apply (proj1 (R1 x) X1).
Qed.

(** ** Cutting *)
Section Cut.
  Variable terms : ndict term.
  Variables optimize optconst reorder_ : df -> res df.
  Hypothesis HO : forall t, isEval t = true \/ t = DNone -> optconst t = Ok t.

  Lemma split_none b m l pos left : slice_of b = Some (m, l) -> splitBind terms optimize optconst reorder_ b pos = Ok (left, None) -> left = b /\ ~ (l < pos <= m).
  Proof.
    intros Hs H. destruct (slice_inv _ _ _ Hs) as (wm & f & g & wl & f' & g' & E1 & E2 & E3). unfold splitBind in H. rewrite E1, E2, E3, !HO in H by auto. cbn [bind is_none negb andb orb int_attr value_attr] in H.
    destruct (Z.ltb_spec l pos) as [Hp|]; cbn [negb] in H; [|injection H as <-; split; auto; lia]. destruct (Z.leb_spec pos m) as [Hm|]; cbn [negb] in H; [|injection H as <-; split; auto; lia]. unbind H. unbind H. unbind H. unbind H. discriminate.
  Qed.
  Definition piece (b : bind_) (m l : Z) (ps : list Z) (c : bind_) : Prop :=
    exists m' l', slice_of c = Some (m', l') /\ l <= l' <= m' /\ m' <= m /\ b_dest c = b_dest b /\ (forall p, In p ps -> ~ (l' < p <= m')) /\ (l' = l \/ In l' ps) /\ (m' = m \/ In (m' + 1) ps).
  Lemma splitPositions_ok ps : forall b m l g, StronglySorted Z.le ps -> slice_of b = Some (m, l) -> l <= m -> splitBindPositions terms optimize optconst reorder_ b ps = Ok g ->
    Forall (piece b m l ps) g /\ pieces_of b g.
  Proof.
    induction ps as [|p ps IH]; intros b m l g HS Hs Hml H; cbn [splitBindPositions] in H.
    { injection H as <-. split; [constructor; [|constructor]; exists m, l; repeat split; auto; try lia; intros ? []|].
      split; [intros x; split; [intros K; exists b; split; [now left|auto]|intros (c & [<-|[]] & K); auto]|]. split; [repeat constructor|repeat constructor; congruence]. }
    unbind H. unbind H. injection H as <-. destruct r as [left [right|]]; cbn [fst snd] in *; inversion HS; subst.
    - destruct (split_ranges _ _ _ _ _ _ _ _ _ _ Hs HO B) as (S1 & S2 & R & D1 & D2). destruct (IH _ _ _ _ H1 S1 ltac:(lia) B0) as [I1 (I2 & I3 & I4)]. rewrite Forall_forall in H2. split.
      + constructor.
        * exists (p - 1), l. repeat split; auto; try lia; [intros q [<-|Hq] K; [lia|specialize (H2 _ Hq); lia]|right; left; lia].
        * eapply Forall_impl; [|exact I1]. intros c (m' & l' & E & F1 & F2 & F3 & F4 & F5 & F6). exists m', l'. repeat split; auto; try lia; [congruence|intros q [<-|Hq] K; [lia|apply (F4 _ Hq K)]| |destruct F6; [now left|right; now right]].
          destruct F5 as [->|F5]; [right; now left|right; now right].
      + split; [|split].
        * intros x. split.
          -- intros (m' & l' & E & K). rewrite Hs in E. injection E as <- <-. destruct (Z_lt_le_dec x p); [exists right; split; [now left|exists (p - 1), l; split; auto; lia]|].
             destruct (proj1 (I2 x)) as (c & Hc & Kc); [exists m, p; split; auto; lia|]. exists c. split; [now right|auto].
          -- intros (c & [<-|Hc] & K); [destruct K as (m' & l' & E & K); rewrite S2 in E; injection E as <- <-; exists m, l; split; auto; lia|]. destruct (proj2 (I2 x) (ex_intro _ c (conj Hc K))) as (m' & l' & E & K'). rewrite S1 in E. injection E as <- <-. exists m, l. split; auto; lia.
        * constructor; auto. rewrite Forall_forall. intros c Hc x [(m1 & l1 & E1 & K1) K2]. rewrite S2 in E1. injection E1 as <- <-. destruct (proj2 (I2 x) (ex_intro _ c (conj Hc K2))) as (m' & l' & E & K'). rewrite S1 in E. injection E as <- <-. lia.
        * constructor; [split; congruence|]. eapply Forall_impl; [|exact I4]. cbn. intros c [? ?]. split; congruence.
    - destruct (split_none _ _ _ _ _ Hs B) as [-> NP]. destruct (IH _ _ _ _ H1 Hs Hml B0) as [I1 I2]. split; auto.
      eapply Forall_impl; [|exact I1]. intros c (m' & l' & E & F1 & F2 & F3 & F4 & F5 & F6). exists m', l'. repeat split; auto; try lia; [intros q [<-|Hq] K; [lia|apply (F4 _ Hq K)]|destruct F5; [now left|right; now right]|destruct F6; [now left|right; now right]].
  Qed.
  Definition slice_ok (b : bind_) : Prop := exists m l, slice_of b = Some (m, l) /\ l <= m.
  Theorem splitBindlist_ok ps l r : StronglySorted Z.le ps -> Forall slice_ok l -> splitBindlist terms optimize optconst reorder_ l ps = Ok r ->
    exists gs, r = concat gs /\ Forall2 (fun b g => pieces_of b g /\ forall m k, slice_of b = Some (m, k) -> Forall (piece b m k ps) g) l gs.
  Proof.
    intros HS. revert r. induction l as [|b l IH]; intros r HF H; cbn [splitBindlist] in H; [injection H as <-; exists []; split; auto|]. inversion HF; subst. unbind H. unbind H. injection H as <-. destruct (IH _ H3 B0) as (gs & -> & G).
    destruct H2 as (m & k & E & Hk). destruct (splitPositions_ok _ _ _ _ _ HS E Hk B) as [K1 K2]. exists (r0 :: gs). split; auto. constructor; auto. split; auto. intros m' k' E'. rewrite E in E'. injection E' as <- <-. auto.
  Qed.
  Lemma splitPositions_sorted l ps : splitPositions terms optconst l = Ok ps -> StronglySorted Z.le ps.
  Proof. unfold splitPositions. intros H. unbind H. injection H as <-. apply (sort_strong (fun x : Z => x)). Qed.

  (** ** Which positions *)
  Lemma zadd_in s x y : In y (zadd s x) <-> In y s \/ y = x.
  Proof. unfold zadd. destruct (existsb (Z.eqb x) s) eqn:E; [|rewrite in_app_iff; cbn; intuition]. apply existsb_exists in E as (z & Hz & Ez). apply Z.eqb_eq in Ez. subst z. split; auto. intros [?| ->]; auto. Qed.
  Lemma zadds_in q : forall s y, In y (fold_left zadd q s) <-> In y s \/ In y q.
  Proof. induction q as [|x q IH]; intros s y; cbn [fold_left]; [cbn; tauto|]. rewrite IH, zadd_in. cbn. intuition. Qed.
  Lemma getPositions_in M q : getPositions M None = Ok q -> forall m l p, In (m, l, p) M -> In l q /\ In (m + 1) q.
  Proof.
    unfold getPositions. intros H. assert (fold_left (fun s r => zadd (zadd s (snd (fst r))) (fst (fst r) + 1)) M [] = q) as <- by (destruct M; injection H as <-; auto). clear H.
    assert (forall s y, In y s -> In y (fold_left (fun s r => zadd (zadd s (snd (fst r))) (fst (fst r) + 1)) M s)) as K1. { induction M as [|r M IH]; intros s y Hy; auto. cbn. apply IH. rewrite !zadd_in. auto. }
    assert (forall s m l p, In (m, l, p) M -> In l (fold_left (fun s r => zadd (zadd s (snd (fst r))) (fst (fst r) + 1)) M s) /\ In (m + 1) (fold_left (fun s r => zadd (zadd s (snd (fst r))) (fst (fst r) + 1)) M s)) as K2; [|intros; eapply K2; eauto].
    clear K1. assert (forall M s y, In y s -> In y (fold_left (fun s (r : range) => zadd (zadd s (snd (fst r))) (fst (fst r) + 1)) M s)) as K1. { clear. induction M as [|r M IH]; intros s y Hy; auto. cbn. apply IH. rewrite !zadd_in. auto. }
    induction M as [|r M IH]; intros s m l p Hr; [contradiction|]. cbn [fold_left]. destruct Hr as [->|Hr]; [cbn [fst snd]; split; apply K1; rewrite !zadd_in; auto|]. eapply IH; eauto.
  Qed.
  Definition as_range (b : bind_) : range := match slice_of b with Some (m, l) => (m, l, None) | None => (0, 0, None) end.
  Lemma cover_range b m l x : slice_of b = Some (m, l) -> (covers b x <-> l <= x <= m).
  Proof. intros E. split; [intros (m' & l' & E' & K); rewrite E in E'; injection E' as <- <-; auto|intros K; exists m, l; auto]. Qed.
  (** One round of the loop. *)
  Lemma splitPos_step b m l r pos assigned : slice_of b = Some (m, l) -> splitPos_go terms optconst (b :: r) pos assigned =
    (do q <- getPositions (matchedRange assigned m l None) None; splitPos_go terms optconst r (fold_left zadd q pos) (assigned ++ matchedRange assigned m l None ++ unmatchedRange (matchedRange assigned m l None) m l None)).
  Proof.
    intros Hs. destruct (slice_inv _ _ _ Hs) as (wm & f & g & wl & f' & g' & E1 & E2 & E3). cbn [splitPos_go]. rewrite E1, E2, E3, !HO by auto. cbn [bind is_none negb andb orb int_attr value_attr isEval]. reflexivity.
  Qed.
  Lemma splitPos_mono : forall l pos assigned ps, Forall slice_ok l -> splitPos_go terms optconst l pos assigned = Ok ps -> forall x, In x pos -> In x ps.
  Proof.
    induction l as [|b l IH]; intros pos assigned ps HF H x Hx; [cbn in H; injection H as <-; auto|]. inversion HF; subst. destruct H2 as (m & k & E & _). rewrite (splitPos_step _ _ _ _ _ _ E) in H. unbind H. eapply IH; eauto. apply zadds_in. auto.
  Qed.
  Definition overlap_cut (ps : list Z) (a b : bind_) : Prop := forall m l m' l', slice_of a = Some (m, l) -> slice_of b = Some (m', l') -> Z.max l l' <= Z.min m m' -> In (Z.max l l') ps /\ In (Z.min m m' + 1) ps.
  Lemma matched_cut assigned m l q m0 l0 : getPositions (matchedRange assigned m l None) None = Ok q -> In (m0, l0, None) assigned -> (l0 <= l <= m0 \/ l0 <= m <= m0) -> l <= m -> l0 <= m0 ->
    In (Z.max l0 l) q /\ In (Z.min m0 m + 1) q.
  Proof.
    intros H HI HE H1 H2. pose proof (matched_all m l assigned _ _ _ HI HE) as K. destruct (getPositions_in _ _ H _ _ _ K) as [P1 P2].
    assert ((if (l0 <=? l) && (l <=? m0) then l else l0) = Z.max l0 l) as <- by (destruct (Z.leb_spec l0 l), (Z.leb_spec l m0); cbn [andb]; lia).
    assert ((if (l0 <=? m) && (m <=? m0) then m else m0) = Z.min m0 m) as <- by (destruct (Z.leb_spec l0 m), (Z.leb_spec m m0); cbn [andb]; lia). auto.
  Qed.
  Lemma matched_none_of done b m l : Forall slice_ok done -> slice_of b = Some (m, l) -> l <= m -> (forall a, In a done -> disjoint a b) -> matchedRange (map as_range done) m l None = [].
  Proof.
    intros HF E Hml HD. apply matched_none. intros r Hr. apply in_map_iff in Hr as (a & <- & Ha). rewrite Forall_forall in HF. destruct (HF _ Ha) as (ma & la & Sa & La). unfold as_range. rewrite Sa. unfold inside. cbn [fst snd].
    specialize (HD _ Ha). split; intros K; [apply (HD l)|apply (HD m)]; rewrite (cover_range _ _ _ _ Sa), (cover_range _ _ _ _ E); lia.
  Qed.
  Lemma matched_app x y m l : matchedRange (x ++ y) m l None = matchedRange x m l None ++ matchedRange y m l None.
  Proof. induction x as [|[[a c] p] x IH]; auto. cbn [app matchedRange]. rewrite IH. destruct (_ || _); auto. Qed.
  Lemma matched_one a b m l : slice_ok a -> slice_of b = Some (m, l) -> l <= m -> within b a -> matchedRange [as_range a] m l None = [(m, l, None)].
  Proof.
    intros (ma & la & Sa & La) E Hml W. unfold as_range. rewrite Sa. cbn [matchedRange].
    assert (la <= l /\ m <= ma) as [? ?]. { assert (covers a l) as C1 by (apply W; rewrite (cover_range _ _ _ _ E); lia). assert (covers a m) as C2 by (apply W; rewrite (cover_range _ _ _ _ E); lia). rewrite (cover_range _ _ _ _ Sa) in C1. rewrite (cover_range _ _ _ _ Sa) in C2. lia. }
    destruct (Z.leb_spec la m), (Z.leb_spec m ma), (Z.leb_spec la l), (Z.leb_spec l ma); cbn [andb orb]; auto; lia.
  Qed.
  (** b overlaps at most one earlier slice, and lies within it. *)
  Definition fits (done : list bind_) (b : bind_) : Prop :=
    (forall a, In a done -> disjoint a b) \/ exists d1 a d2, done = d1 ++ a :: d2 /\ within b a /\ (forall c, In c (d1 ++ d2) -> disjoint c b).
  Lemma fits_step done b m l : Forall slice_ok done -> slice_of b = Some (m, l) -> l <= m -> fits done b ->
    matchedRange (map as_range done) m l None ++ unmatchedRange (matchedRange (map as_range done) m l None) m l None = [as_range b].
  Proof.
    intros HF E Hml [HD|(d1 & a & d2 & -> & W & HD)]; unfold as_range at 3; rewrite E.
    - rewrite (matched_none_of _ _ _ _ HF E Hml HD). reflexivity.
    - apply Forall_app in HF as [F1 F2]. inversion F2; subst. rewrite map_app. cbn [map]. replace (as_range a :: map as_range d2) with ([as_range a] ++ map as_range d2) by reflexivity. rewrite !matched_app, (matched_one _ _ _ _ H1 E Hml W).
      rewrite (matched_none_of d1 b m l F1 E Hml) by (intros; apply HD, in_or_app; auto). rewrite (matched_none_of d2 b m l H2 E Hml) by (intros; apply HD, in_or_app; auto). cbn [app]. unfold unmatchedRange. cbn [sort_by insert_by unmatched_go optmin optmax app]. rewrite Z.ltb_irrefl. rewrite Z.ltb_irrefl. reflexivity.
  Qed.
  Definition never_around (a b : bind_) : Prop := ~ strictly_inside a b.
  Lemma around_ends a b m l m' l' : slice_of a = Some (m, l) -> slice_of b = Some (m', l') -> l <= m -> l' <= m' -> never_around a b -> Z.max l l' <= Z.min m m' -> l <= l' <= m \/ l <= m' <= m.
  Proof. intros Ea Eb H1 H2 HN HO'. destruct (Z_le_gt_dec l l'), (Z_le_gt_dec m' m); try lia. exfalso. apply HN. exists m, l, m', l'. repeat split; auto; lia. Qed.
  Lemma splitPos_cut : forall todo done pos ps, Forall slice_ok (done ++ todo) -> splitPos_go terms optconst todo pos (map as_range done) = Ok ps ->
    (forall t1 b t2, todo = t1 ++ b :: t2 -> (forall a, In a (done ++ t1) -> never_around a b) /\ (t2 <> [] -> fits (done ++ t1) b)) ->
    ForallOrdPairs (overlap_cut pos) done -> ForallOrdPairs (overlap_cut ps) (done ++ todo).
  Proof.
    induction todo as [|b todo IH]; intros done pos ps HF H HT HC; [cbn in H; injection H as <-; now rewrite app_nil_r|].
    pose proof HF as HF'. apply Forall_app in HF' as [F1 F2]. inversion F2; subst. destruct H2 as (m & l & E & Hml). rewrite (splitPos_step _ _ _ _ _ _ E) in H. unbind H.
    destruct (HT [] b todo eq_refl) as [A1 A2]. rewrite app_nil_r in A1, A2.
    assert (ForallOrdPairs (overlap_cut (fold_left zadd r pos)) (done ++ [b])) as HC'.
    { assert (Forall (fun a => overlap_cut (fold_left zadd r pos) a b) done) as K.
      { rewrite Forall_forall. intros a Ha ma la m' l' Ea Eb Hov. rewrite E in Eb. injection Eb as <- <-. rewrite Forall_forall in F1. destruct (F1 _ Ha) as (x & y & Ex & Lx). rewrite Ea in Ex. injection Ex as <- <-.
        destruct (matched_cut _ m l r ma la B) as [K1 K2]; [apply in_map_iff; exists a; split; auto; unfold as_range; now rewrite Ea| |lia|lia|]; [|rewrite !zadds_in; auto].
        eapply around_ends; eauto. }
      assert (ForallOrdPairs (overlap_cut (fold_left zadd r pos)) done) as K'.
      { clear - HC. induction HC as [|a l H HC IH]; constructor; auto. eapply Forall_impl; [|exact H]. intros c Hc m l' m' k' E1 E2 K. destruct (Hc _ _ _ _ E1 E2 K). rewrite !zadds_in. auto. }
      clear - K K'. induction K' as [|a l H HC IH]; cbn [app]; [repeat constructor|]. inversion K; subst. constructor; [apply Forall_app; split; auto|auto]. }
    destruct todo as [|b2 todo].
    - cbn in H. injection H as <-. exact HC'.
    - rewrite (fits_step _ _ _ _ F1 E Hml (A2 ltac:(discriminate))) in H. replace (done ++ b :: b2 :: todo) with ((done ++ [b]) ++ b2 :: todo) in * by (rewrite <- app_assoc; reflexivity).
      eapply (IH (done ++ [b])); [exact HF|rewrite map_app; exact H| |exact HC'].
      intros t1 c t2 Et. rewrite <- app_assoc. cbn [app]. apply (HT (b :: t1) c t2). now rewrite Et.
  Qed.
  (** Pieces of slices whose overlaps are cut. *)
  Lemma pieces_apart ps a b m l m' l' c d : slice_of a = Some (m, l) -> slice_of b = Some (m', l') -> overlap_cut ps a b -> piece a m l ps c -> piece b m' l' ps d -> same_bits c d \/ disjoint c d.
  Proof.
    intros Ea Eb HO' (mc & lc & Ec & C1 & C2 & _ & C3 & C4 & C5) (md & ld & Ed & D1 & D2 & _ & D3 & D4 & D5).
    destruct (Z_le_gt_dec (Z.max lc ld) (Z.min mc md)) as [Hov|]; [|right; intros x [X1 X2]; rewrite (cover_range _ _ _ _ Ec) in X1; rewrite (cover_range _ _ _ _ Ed) in X2; lia].
    left. unfold same_bits. rewrite Ec, Ed. destruct (HO' _ _ _ _ Ea Eb ltac:(lia)) as [P1 P2].
    assert (lc = ld) as <-.
    { destruct (Z.lt_trichotomy lc ld) as [L|[L|L]]; auto; exfalso.
      - destruct D4 as [->|D4]; [|apply (C3 _ D4); lia]. replace (Z.max l l') with l' in P1 by lia. apply (C3 _ P1). lia.
      - destruct C4 as [->|C4]; [|apply (D3 _ C4); lia]. replace (Z.max l l') with l in P1 by lia. apply (D3 _ P1). lia. }
    assert (mc = md) as <-; auto.
    destruct (Z.lt_trichotomy mc md) as [L|[L|L]]; auto; exfalso.
    - destruct C5 as [->|C5]; [|apply (D3 _ C5); lia]. replace (Z.min m m') with m in P2 by lia. apply (D3 _ P2). lia.
    - destruct D5 as [->|D5]; [|apply (C3 _ D5); lia]. replace (Z.min m m') with m' in P2 by lia. apply (C3 _ P2). lia.
  Qed.
End Cut.
