(** MergeProofs4.v - lists of assignments: merging in order, cutting, ranges. *)
From Verif Require Import Base ScopeModel DfModel BindModel LitModel OptModel OptSpec OptArith OptProofs OptProofs2 MergeModel MergeSpec MergeSpec2 MergeProofs2 MergeProofs3.
Require Import Coq.Sorting.Permutation Coq.Sorting.Sorted.
Local Open Scope Z_scope.

(** ** Stable sorting *)
Lemma insert_filter {A} (f : A -> Z) (k : Z) x l : StronglySorted (fun a b => f a <= f b) l ->
  filter (fun y => f y =? k) (insert_by (fun a b => f a <=? f b) x l) = filter (fun y => f y =? k) (x :: l).
Proof.
  induction 1 as [|y ys HS IH HF]; [reflexivity|]. cbn [insert_by]. destruct (Z.leb_spec (f x) (f y)); [reflexivity|].
  cbn [filter] in *. rewrite IH. destruct (Z.eqb_spec (f x) k), (Z.eqb_spec (f y) k); auto. lia.
Qed.
Lemma sort_strong {A} (f : A -> Z) l : StronglySorted (fun a b => f a <= f b) (sort_by (fun a b => f a <=? f b) l).
Proof.
  apply Sorted_StronglySorted; [intros a b c; lia|]. assert (Sorted (fun a b : A => (f a <=? f b) = true) (sort_by (fun a b => f a <=? f b) l)) as K.
  { apply sort_by_sorted. intros x y. rewrite !Z.leb_le. lia. }
  induction K as [|a l' K IH HR]; constructor; auto. inversion HR; subst; constructor. now apply Z.leb_le.
Qed.
Lemma sort_filter {A} (f : A -> Z) (k : Z) l : filter (fun y => f y =? k) (sort_by (fun a b => f a <=? f b) l) = filter (fun y => f y =? k) l.
Proof. induction l as [|x l IH]; auto. cbn [sort_by]. rewrite insert_filter by apply sort_strong. cbn [filter]. now rewrite IH. Qed.
Lemma sort_combine {A} (key : A -> Z) l : map snd (sort_by (fun a b => fst a <=? fst b) (combine (map key l) l)) = sort_by (fun a b => key a <=? key b) l.
Proof.
  assert (forall x s, Forall (fun p => fst p = key (snd p)) s -> Forall (fun p => fst p = key (snd p)) (insert_by (fun a b => fst a <=? fst b) (key x, x) s) /\
     map snd (insert_by (fun a b => fst a <=? fst b) (key x, x) s) = insert_by (fun a b => key a <=? key b) x (map snd s)) as HI.
  { intros x s. induction s as [|p s IH]; intros HF; [cbn; auto|]. inversion HF; subst. destruct (IH H2) as [I1 I2]. cbn [insert_by map fst snd]. rewrite H1. destruct (key x <=? key (snd p)); cbn [map snd fst]; [split; auto|]. split; [constructor; auto|now rewrite I2]. }
  assert (Forall (fun p => fst p = key (snd p)) (sort_by (fun a b => fst a <=? fst b) (combine (map key l) l)) /\ map snd (sort_by (fun a b => fst a <=? fst b) (combine (map key l) l)) = sort_by (fun a b => key a <=? key b) l) as [_ H]; auto.
  induction l as [|x l [I1 I2]]; [cbn; auto|]. cbn [map combine sort_by]. destruct (HI x _ I1) as [J1 J2]. split; auto. now rewrite J2, I2.
Qed.

Section List.
  Variable terms : ndict term.
  Variable optimize : df -> res df.
  Variables (n : chain) (t : term) (hi lo : Z).
  Hypothesis Ht : dget terms n = Some t.
  Hypothesis Hm : optimize (t_msb t) = Ok (MergeModel.pint hi).
  Hypothesis Hl : optimize (t_lsb t) = Ok (MergeModel.pint lo).

  Definition key (b : bind_) : Z := match place_of b with Some (p, m, l) => match p with Some x => x | None => 0 end * (Z.abs (hi - lo) + 1) + l | None => 0 end.
  Definition good (b : bind_) : Prop := b_dest b = n /\ exists p m l, place_of b = Some (p, m, l) /\ lo <= l <= m /\ m <= hi.
  Definition agree (a b : bind_) : Prop := (key a = key b -> place_of a = place_of b) /\ (forall p m l p' m' l', place_of a = Some (p, m, l) -> place_of b = Some (p', m', l') -> (p = None <-> p' = None)).

  Lemma place_inv b p m l : place_of b = Some (p, m, l) -> exists wm f g wl f' g', b_msb b = DEval (PInt m) wm f g /\ b_lsb b = DEval (PInt l) wl f' g' /\
    match p with None => b_ptr b = DNone | Some x => exists w h k, b_ptr b = DEval (PInt x) w h k end.
  Proof.
    unfold place_of. intros H. destruct (b_msb b) as [ |?|?|?|?|? ?|? ? ?|? ?|?|? ? ?|[?| | |] ? ? ?|?|?|?|? ?]; try discriminate. destruct (b_lsb b) as [ |?|?|?|?|? ?|? ? ?|? ?|?|? ? ?|[?| | |] ? ? ?|?|?|?|? ?]; try discriminate.
    destruct (b_ptr b) as [ |?|?|?|?|? ?|? ? ?|? ?|?|? ? ?|[?| | |] ? ? ?|?|?|?|? ?] eqn:E; try discriminate; injection H as <- <- <-; repeat eexists; auto.
  Qed.
  Lemma bindkey_place b k : good b -> bindkey terms optimize b = Ok k -> k = key b.
  Proof.
    intros (Hd & p & m & l & Hp & _) H. unfold key. rewrite Hp. destruct (place_inv _ _ _ _ Hp) as (wm & f & g & wl & f' & g' & E1 & E2 & E3).
    unfold bindkey, term_msb, term_lsb, getTerm in H. rewrite E2, Hd, Ht in H. cbn [is_none int_attr value_attr bind] in H. rewrite Hm, Hl in H.
    destruct p as [x|]; [destruct E3 as (w & h & k' & E3)|]; rewrite E3 in H; cbn in H; injection H as <-; lia.
  Qed.
  Lemma key_agree a b : good a -> good b -> same_or_apart a b -> agree a b.
  Proof.
    intros (_ & p & m & l & E & H1 & H2) (_ & p' & m' & l' & E' & H1' & H2') HS. destruct (HS _ _ _ _ _ _ E E') as [K1 K2]. split; [|intros q y z q' y' z' F F'; rewrite E in F; rewrite E' in F'; injection F as <- <- <-; injection F' as <- <- <-; exact K1].
    unfold key. rewrite E, E'. intros HK. rewrite Z.abs_eq in HK by lia. destruct p as [x|], p' as [y|].
    - assert (x = y) as <- by nia. destruct (K2 eq_refl) as [[-> ->]|[K|K]]; auto; nia.
    - exfalso. assert (Some x = None) by (now apply K1). discriminate.
    - exfalso. assert (Some y = None) by (now apply K1). discriminate.
    - assert (l = l') as <- by lia. destruct (K2 eq_refl) as [[-> _]|[K|K]]; auto; lia.
  Qed.
  Definition before (a b : bind_) : Prop := key a < key b.
  Lemma before_below a b : good a -> good b -> same_or_apart a b -> before a b -> below a b.
  Proof.
    intros (_ & p & m & l & E & H1 & H2) (_ & p' & m' & l' & E' & H1' & H2') HS HK. destruct (HS _ _ _ _ _ _ E E') as [K1 K2]. exists p, m, l, p', m', l'. split; auto. split; auto.
    unfold before, key in HK. rewrite E, E' in HK. rewrite Z.abs_eq in HK by lia. destruct p as [x|], p' as [y|].
    - destruct (Z.lt_trichotomy x y) as [L| [<-|L]]; auto; [|nia]. right. split; auto. destruct (K2 eq_refl) as [[-> ->]|[K|K]]; lia.
    - exfalso. assert (Some x = None) by (now apply K1). discriminate.
    - exfalso. assert (Some y = None) by (now apply K1). discriminate.
    - destruct (K2 eq_refl) as [[-> ->]|[K|K]]; lia.
  Qed.

  Definition inv (acc done : list bind_) : Prop :=
    StronglySorted (fun a b => key b < key a) acc /\
    (forall b, In b done -> exists x, In x acc /\ place_of x = place_of b) /\
    (forall x, In x acc -> exists b, In b done /\ place_of b = place_of x /\ b_dest b = b_dest x) /\
    (forall x, In x acc -> merged_in_order optimize (map b_tree (filter (fun b => key b =? key x) done)) (b_tree x)).
  Lemma key_place a b : place_of a = place_of b -> key a = key b.
  Proof. unfold key. now intros ->. Qed.
  Lemma go_ok : forall l acc done r, (forall b, In b (done ++ l) -> good b) -> (forall a b, In a (done ++ l) -> In b (done ++ l) -> agree a b) ->
    StronglySorted (fun a b => key a <= key b) (done ++ l) -> inv acc done -> mergeBind_go optimize l acc = Ok r -> inv (rev r) (done ++ l).
  Proof.
    induction l as [|b l IH]; intros acc done r HG HA HS HI H; cbn [mergeBind_go] in H.
    { injection H as <-. now rewrite rev_involutive, app_nil_r. }
    replace (done ++ b :: l) with ((done ++ [b]) ++ l) in * by (rewrite <- app_assoc; reflexivity).
    destruct HI as (I1 & I2 & I3 & I4).
    assert (forall d, In d done -> key d <= key b) as HD.
    { intros d Hd. rewrite <- app_assoc in HS. clear - HS Hd. induction done as [|e done IH]; [contradiction|]. cbn in HS. inversion HS; subst. destruct Hd as [->|Hd]; [rewrite Forall_forall in H2; apply H2, in_or_app; right; now left|auto]. }
    assert (forall x, In x acc -> key x <= key b) as HX.
    { intros x Hx. destruct (I3 _ Hx) as (d & Hd & Ep & _). rewrite <- (key_place _ _ Ep). auto. }
    assert (In b ((done ++ [b]) ++ l)) as Hb by (apply in_or_app; left; apply in_or_app; right; now left).
    assert (forall x, In x acc -> agree x b /\ good x) as HAX.
    { intros x Hx. destruct (I3 _ Hx) as (d & Hd & Ep & Ed). assert (In d ((done ++ [b]) ++ l)) as Hd' by (apply in_or_app; left; apply in_or_app; now left). specialize (HA d b Hd' Hb). specialize (HG d Hd').
      unfold agree, good in *. rewrite (key_place _ _ Ep), Ep, Ed in *. auto. }
    assert ((forall x, In x acc -> key x < key b) -> inv (b :: acc) (done ++ [b])) as Hnew.
    { intros Hlt. split; [constructor; auto; now rewrite Forall_forall|]. split; [|split].
      - intros d Hd. apply in_app_or in Hd as [Hd|[<-|[]]]; [|exists b; split; [now left|auto]]. destruct (I2 _ Hd) as (x & Hx & E). exists x. split; [now right|auto].
      - intros x [<-|Hx]; [exists b; split; [apply in_or_app; right; now left|auto]|]. destruct (I3 _ Hx) as (d & Hd & E). exists d. split; [apply in_or_app; now left|auto].
      - intros x [<-|Hx]; rewrite filter_app, map_app; cbn [filter].
        + rewrite Z.eqb_refl. cbn [map]. assert (filter (fun d => key d =? key b) done = []) as ->; [|constructor].
          destruct (filter _ done) as [|d ds] eqn:E; auto. exfalso. assert (In d (filter (fun d => key d =? key b) done)) as K by (rewrite E; now left). apply filter_In in K as [K1 K2]. apply Z.eqb_eq in K2.
          destruct (I2 _ K1) as (x & Hx & Ep). specialize (Hlt _ Hx). rewrite (key_place _ _ Ep) in Hlt. lia.
        + specialize (Hlt _ Hx). destruct (Z.eqb_spec (key b) (key x)); [lia|]. cbn [map]. rewrite app_nil_r. auto. }
    destruct acc as [|last acc'].
    { eapply IH; eauto. apply Hnew. intros x []. }
    destruct (HAX last (or_introl eq_refl)) as [[A1 A2] GL].
    destruct (HG _ Hb) as (_ & p & m & lb & Ep & _). destruct GL as (GLd & p' & m' & l' & Ep' & _). specialize (A2 _ _ _ _ _ _ Ep' Ep).
    destruct (place_inv _ _ _ _ Ep) as (wm & f & g & wl & f' & g' & E1 & E2 & E3). destruct (place_inv _ _ _ _ Ep') as (wm' & f1 & g1 & wl' & f1' & g1' & E1' & E2' & E3').
    assert (other_element last b = true -> key last <> key b) as N1.
    { unfold other_element. intros K E. rewrite (A1 E) in Ep'. rewrite Ep in Ep'. injection Ep' as <- <- <-. destruct p as [x|]; [destruct E3 as (? & ? & ? & E3), E3' as (? & ? & ? & E3')|]; rewrite E3, E3' in K; [|discriminate]. cbn [pyval_eqb] in K. rewrite Z.eqb_refl in K. discriminate. }
    assert (key last <> key b -> inv (b :: last :: acc') (done ++ [b])) as Hnew'.
    { intros Hn. apply Hnew. intros x Hx. pose proof (HX _ Hx). pose proof (HX _ (or_introl eq_refl)). destruct Hx as [<-|Hx]; [lia|]. inversion I1; subst. rewrite Forall_forall in H5. specialize (H5 _ Hx). lia. }
    destruct (other_element last b) eqn:EO; [cbn [orb] in H; eapply IH; eauto|]. rewrite E2, E2', E1 in H. cbn [is_none orb] in H. unfold MergeModel.same_slice in H. rewrite E2, E2', E1, E1' in H. cbn [value_attr bind pyval_eqb] in H.
    destruct (Z.eqb_spec l' lb) as [<-|Nl]; cbn [negb bind] in H.
    2:{ eapply IH; eauto. apply Hnew'. intros E. rewrite (A1 E) in Ep'. congruence. }
    destruct (Z.eqb_spec m' m) as [<-|Nm]; cbn [negb bind] in H.
    2:{ eapply IH; eauto. apply Hnew'. intros E. rewrite (A1 E) in Ep'. congruence. }
    assert (p' = p) as ->.
    { destruct p' as [x|], p as [y|]; auto; [|exfalso; destruct A2 as [_ A2]; discriminate (A2 eq_refl)|exfalso; destruct A2 as [A2 _]; discriminate (A2 eq_refl)].
      destruct E3 as (? & ? & ? & E3), E3' as (? & ? & ? & E3'). unfold other_element in EO. rewrite E3, E3' in EO. cbn [pyval_eqb] in EO. apply negb_false_iff, Z.eqb_eq in EO. now subst. }
    unbind H. unbind H.
    assert (place_of (set_tree b r1) = place_of b) as Es by reflexivity. assert (place_of last = place_of b) as El by congruence.
    eapply IH; [exact HG|exact HA|exact HS| |exact H]. inversion I1; subst. split; [constructor; auto; rewrite (key_place _ _ Es), <- (key_place _ _ El); auto|]. split; [|split].
    - intros d Hd. apply in_app_or in Hd as [Hd|[<-|[]]]; [|exists (set_tree b r1); split; [now left|auto]]. destruct (I2 _ Hd) as (x & [<-|Hx] & E); [exists (set_tree b r1); split; [now left|congruence]|exists x; split; [now right|auto]].
    - intros x [<-|Hx]; [exists b; split; [apply in_or_app; right; now left|auto]|]. destruct (I3 x (or_intror Hx)) as (d & Hd & E). exists d. split; [apply in_or_app; now left|auto].
    - intros x [<-|Hx]; rewrite filter_app, map_app; cbn [filter].
      + rewrite (key_place _ _ Es), Z.eqb_refl. cbn [map]. econstructor; [|exact B|exact B0]. rewrite <- (key_place _ _ El). apply I4. now left.
      + rewrite Forall_forall in H3. specialize (H3 _ Hx). rewrite (key_place _ _ El) in H3. destruct (Z.eqb_spec (key b) (key x)); [lia|]. cbn [map]. rewrite app_nil_r. apply I4. now right.
  Qed.
  Theorem mergeBindlist_ok l l' : (forall b, In b l -> good b) -> (forall a b, In a l -> In b l -> same_or_apart a b) -> mergeBindlist terms optimize l = Ok l' ->
    (forall b, In b l -> exists b', In b' l' /\ place_of b' = place_of b) /\
    (forall b', In b' l' -> merged_in_order optimize (map b_tree (filter (same_place b') l)) (b_tree b')) /\
    StronglySorted below l'.
  Proof.
    intros HG HA H. unfold mergeBindlist, sort_binds in H. unbind H. unbind B. injection B as <-. apply mapM_ok_Forall2 in B0.
    assert (r0 = map key l) as -> by (clear - B0 HG Ht Hm Hl; induction B0; cbn; [auto|]; f_equal; [apply bindkey_place; auto; apply HG; now left|apply IHB0; intros; apply HG; now right]).
    rewrite sort_combine in H. set (s := sort_by (fun a b => key a <=? key b) l) in *.
    assert (forall b, In b s <-> In b l) as Hs by (intros b; apply sort_by_in).
    assert (inv (rev l') s) as (I1 & I2 & I3 & I4).
    { apply (go_ok s [] []); cbn [app]; [intros b Hb; apply HG, Hs; auto|intros a b Ha Hb; apply Hs in Ha, Hb; apply key_agree; auto|apply sort_strong| |exact H].
      split; [constructor|]. split; [intros b []|]. split; intros x []. }
    assert (forall x, In x l' -> good x) as HG'.
    { intros x Hx. rewrite in_rev in Hx. destruct (I3 _ Hx) as (d & Hd & E1 & E2). apply Hs in Hd. specialize (HG _ Hd). unfold good in *. now rewrite E1, E2 in HG. }
    assert (forall x y, In x l' -> In y l' -> same_or_apart x y) as HA'.
    { intros x y Hx Hy. rewrite in_rev in Hx, Hy. destruct (I3 _ Hx) as (d & Hd & E1 & _). destruct (I3 _ Hy) as (d' & Hd' & E1' & _). apply Hs in Hd, Hd'. specialize (HA _ _ Hd Hd'). unfold same_or_apart in *. now rewrite E1, E1' in HA. }
    split; [|split].
    - intros b Hb. apply Hs in Hb. destruct (I2 _ Hb) as (x & Hx & E). exists x. split; auto. now rewrite in_rev.
    - intros x Hx. pose proof Hx as Hx'. rewrite in_rev in Hx. specialize (I4 _ Hx). unfold s in I4. rewrite sort_filter in I4.
      assert (filter (fun b => key b =? key x) l = filter (same_place x) l) as <-; auto. apply filter_ext_in. intros b Hb. unfold same_place. destruct (Z.eqb_spec (key b) (key x)) as [E|E], (place_dec (place_of x) (place_of b)) as [E'|E']; auto; exfalso.
      + apply E'. destruct (I3 _ Hx) as (d & Hd & E1 & _). apply Hs in Hd. rewrite <- E1. apply (proj1 (key_agree d b (HG _ Hd) (HG _ Hb) (HA _ _ Hd Hb))). rewrite (key_place _ _ E1). auto.
      + apply E. symmetry. now apply key_place.
    - assert (StronglySorted before l') as K.
      { clear - I1. assert (forall l, StronglySorted (fun a b => key b < key a) (rev l) -> StronglySorted before l) as K; [|auto]. clear. induction l as [|x l IH]; intros H; constructor.
        - apply IH. cbn in H. clear - H. induction (rev l); [constructor|]. cbn in H. inversion H; subst. constructor; [auto|]. rewrite Forall_forall in *. intros y Hy. apply H3, in_or_app. now left.
        - cbn in H. rewrite Forall_forall. intros y Hy. rewrite in_rev in Hy. clear - H Hy. induction (rev l) as [|z r IH]; [contradiction|]. cbn in H. inversion H; subst. destruct Hy as [->|Hy]; auto. rewrite Forall_forall in H3. unfold before. apply H3, in_or_app. right. now left. }
      clear - K HG' HA'. induction K as [|x l K IH HF]; [constructor|]. constructor; [apply IH; intros; [apply HG'|apply HA']; now right|]. rewrite Forall_forall in *. intros y Hy. apply before_below; [apply HG'; now left|apply HG'; now right|apply HA'; [now left|now right]|auto].
  Qed.
End List.
