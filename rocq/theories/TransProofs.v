(** TransProofs.v *)
From Coq Require Import Sorting.Permutation Sorting.Sorted.
From Verif Require Import Base ScopeModel DfModel DfSpec DfProofs ReorderProofs TransModel TransSpec.
Local Open Scope Z_scope.

(** ** proper lists of ranges, order-free *)
Definition disj (p q : Z * Z) := snd p < fst q \/ snd q < fst p.
Lemma disj_sym p q : disj p q -> disj q p.
Proof. unfold disj; tauto. Qed.

Lemma disjoint_iff l : nonempty_ranges l ->
  (disjoint_ranges l <-> NoDup l /\ forall p q, In p l -> In q l -> p <> q -> disj p q).
Proof.
  intros Hn; induction Hn as [|x l Hx Hn IH]; split.
  - intros _; split; [constructor | intros p q []].
  - constructor.
  - intros H; inv H. destruct (proj1 IH ltac:(assumption)) as [ND D].
    rewrite Forall_forall in H2. split.
    + constructor; auto. intros Hin. apply H2 in Hin. lia.
    + intros p q [<-|Hp] [<-|Hq] Hpq; auto; try congruence.
      * apply H2 in Hq. exact Hq.
      * apply H2 in Hp. apply disj_sym, Hp.
  - intros [ND D]. inv ND. constructor.
    + apply Forall_forall. intros q Hq. apply D; simpl; auto. intros ->; auto.
    + apply IH. split; auto. intros p q Hp Hq. apply D; simpl; auto.
Qed.

Lemma inr_perm l l' : Permutation l l' -> forall x, inr l x <-> inr l' x.
Proof.
  intros H x; split; intros (lo & hi & Hin & Hx); exists lo, hi; split; auto.
  - eapply Permutation_in; [exact H|exact Hin].
  - eapply Permutation_in; [apply Permutation_sym; exact H|exact Hin].
Qed.
Lemma inr_cons p l x : inr (p :: l) x <-> fst p <= x <= snd p \/ inr l x.
Proof.
  destruct p as [a b]. split.
  - intros (lo & hi & [E|Hin] & Hx); [injection E as -> ->; auto | right; exists lo, hi; auto].
  - intros [H|(lo & hi & Hin & Hx)]; [exists a, b; simpl; auto | exists lo, hi; simpl; auto].
Qed.
Lemma inr_nil x : ~ inr [] x.
Proof. intros (? & ? & [] & _). Qed.
Lemma inr_app l l' x : inr (l ++ l') x <-> inr l x \/ inr l' x.
Proof.
  induction l as [|p l IH]; simpl.
  - split; [auto | intros [H|H]; [now apply inr_nil in H|auto]].
  - rewrite !inr_cons, IH. tauto.
Qed.

Lemma leb_total x y : range_leb x y = true \/ range_leb y x = true.
Proof. unfold range_leb. destruct (Z.leb_spec (fst x) (fst y)); [auto|right; apply Z.leb_le; lia]. Qed.

Lemma sort_strong l : StronglySorted (fun p q => fst p <= fst q) (sort_ranges l).
Proof.
  apply Sorted_StronglySorted; [intros a b c; lia|].
  pose proof (sort_by_sorted range_leb leb_total l) as H. unfold sort_ranges.
  induction H as [|x xs H IH Hd]; constructor; auto.
  inv Hd; constructor. now apply Z.leb_le.
Qed.

(** [ordered]: each range ends before every later one starts. *)
Definition ordered l := StronglySorted (fun p q : Z * Z => snd p < fst q) l.
Lemma sort_ordered l : proper l -> ordered (sort_ranges l).
Proof.
  intros [Hn Hd]. pose proof (sort_by_perm range_leb l) as HP. fold (sort_ranges l) in HP.
  assert (nonempty_ranges (sort_ranges l)) as Hn'.
  { unfold nonempty_ranges in *. rewrite Forall_forall in *. intros x Hx. apply Hn.
    eapply Permutation_in; [symmetry; exact HP|exact Hx]. }
  apply (disjoint_iff _ Hn) in Hd as [ND D].
  assert (NoDup (sort_ranges l)) as ND' by (eapply Permutation_NoDup; eauto).
  assert (forall p q, In p (sort_ranges l) -> In q (sort_ranges l) -> p <> q -> disj p q) as D'.
  { intros p q Hp Hq. apply D; eapply Permutation_in; try (apply Permutation_sym; exact HP); assumption. }
  pose proof (sort_strong l) as HS. clear HP Hn ND D. unfold ordered.
  induction HS as [|x xs HS IH HF]; constructor.
  - inv Hn'. inv ND'. apply IH; auto. intros p q Hp Hq; apply D'; simpl; auto.
  - inv Hn'. inv ND'. rewrite Forall_forall in *. intros q Hq.
    destruct (D' x q); simpl; auto; [congruence|].
    specialize (HF q Hq). specialize (H2 q Hq). cbv beta in *. lia.
Qed.

(** ** intersection *)
Definition meets (p q r : Z * Z) : Prop :=
  r = (Z.max (fst p) (fst q), Z.min (snd p) (snd q)) /\ fst p <= snd q /\ fst q <= snd p.

Lemma and_loop_spec n : forall a ra b rb first,
  (length ra + length rb + (if first : bool then 1 else 0) < n)%nat ->
  ordered (a :: ra) -> ordered (b :: rb) ->
  exists r, and_loop n a ra b rb first = Ok r /\
    (forall x, inr r x <-> inr (a :: ra) x /\ inr (b :: rb) x) /\
    (forall p, In p r -> exists pa pb, In pa (a :: ra) /\ In pb (b :: rb) /\ meets pa pb p).
Proof.
  induction n as [|n IH]; intros a ra b rb first Hn Ha Hb; [lia|].
  cbn [and_loop]. destruct a as [amin amax], b as [bmin bmax].
  set (out := if (bmax <? amin) || (amax <? bmin) then [] else [(Z.max amin bmin, Z.min amax bmax)]).
  assert (forall x, inr out x <-> (amin <= x <= amax) /\ (bmin <= x <= bmax)) as Hout.
  { intros x. unfold out. destruct ((bmax <? amin) || (amax <? bmin)) eqn:E.
    - split; [intros H; now apply inr_nil in H|]. apply orb_true_iff in E as [E|E]; apply Z.ltb_lt in E; lia.
    - rewrite inr_cons. simpl. split; [intros [H|H]; [lia|now apply inr_nil in H]|left; lia]. }
  assert (forall p, In p out -> meets (amin, amax) (bmin, bmax) p) as Hmeet.
  { unfold out. destruct ((bmax <? amin) || (amax <? bmin)) eqn:E; [intros p []|].
    apply orb_false_iff in E as [E1 E2]; apply Z.ltb_ge in E1, E2.
    intros p [<-|[]]. unfold meets; simpl. repeat split; lia. }
  pose proof (StronglySorted_inv Ha) as [Ha' Fa]. pose proof (StronglySorted_inv Hb) as [Hb' Fb].
  rewrite Forall_forall in Fa, Fb.
  assert (forall x, inr ra x -> amax < x) as La.
  { intros x (lo & hi & Hin & Hx). apply Fa in Hin. simpl in Hin. lia. }
  assert (forall x, inr rb x -> bmax < x) as Lb.
  { intros x (lo & hi & Hin & Hx). apply Fb in Hin. simpl in Hin. lia. }
  destruct (if bmax <=? amax then rb else []) as [|b' rb'] eqn:Eb.
  - destruct (if amax <=? bmax then ra else []) as [|a' ra'] eqn:Ea.
    + assert (forall x, inr ((amin, amax) :: ra) x /\ inr ((bmin, bmax) :: rb) x <->
                        (amin <= x <= amax) /\ (bmin <= x <= bmax)) as Hstop.
      { intros x. rewrite !inr_cons. simpl. split; [|tauto].
        intros [[H1|H1] [H2|H2]]; auto.
        - apply Lb in H2 as H3. destruct (Z.leb_spec bmax amax); [subst rb; now apply inr_nil in H2|lia].
        - apply La in H1 as H3. destruct (Z.leb_spec amax bmax); [subst ra; now apply inr_nil in H1|lia].
        - exfalso. destruct (Z.leb_spec bmax amax); [subst rb; now apply inr_nil in H2|].
          destruct (Z.leb_spec amax bmax); [subst ra; now apply inr_nil in H1|lia]. }
      destruct first.
      * destruct (IH (amin, amax) ra (bmin, bmax) rb false ltac:(simpl; lia) Ha Hb) as (r & -> & Hr & Hp). simpl.
        eexists; split; [reflexivity|]. split.
        -- intros x. rewrite inr_app, Hr, Hout, Hstop. tauto.
        -- intros p Hin. apply in_app_iff in Hin as [Hin|Hin]; [|eauto].
           exists (amin, amax), (bmin, bmax). simpl. auto.
      * eexists; split; [reflexivity|]. split.
        -- intros x. rewrite Hout, Hstop. tauto.
        -- intros p Hin. exists (amin, amax), (bmin, bmax). simpl. auto.
    + destruct (Z.leb_spec amax bmax) as [Hle|]; [|discriminate]. subst ra.
      destruct (IH a' ra' (bmin, bmax) rb false ltac:(simpl in *; lia) Ha' Hb) as (r & -> & Hr & Hp). simpl.
      eexists; split; [reflexivity|]. split.
      * intros x. rewrite inr_app, Hr, Hout, (inr_cons (amin, amax)), (inr_cons (bmin, bmax)). simpl.
        split; [tauto|]. intros [[H1|H1] H2]; [|tauto]. left. split; auto. destruct H2 as [H2|H2]; auto.
        apply Lb in H2. lia.
      * intros p Hin. apply in_app_iff in Hin as [Hin|Hin].
        -- exists (amin, amax), (bmin, bmax). simpl. auto.
        -- destruct (Hp p Hin) as (pa & pb & H1 & H2 & H3). exists pa, pb. split; [right|]; auto.
  - destruct (Z.leb_spec bmax amax) as [Hle|]; [|discriminate]. subst rb.
    destruct (IH (amin, amax) ra b' rb' false ltac:(simpl in *; lia) Ha Hb') as (r & -> & Hr & Hp). simpl.
    eexists; split; [reflexivity|]. split.
    + intros x. rewrite inr_app, Hr, Hout, (inr_cons (amin, amax)), (inr_cons (bmin, bmax)). simpl.
      split; [tauto|]. intros [H1 [H2|H2]]; [|tauto]. left. split; auto. destruct H1 as [H1|H1]; auto.
      apply La in H1. lia.
    + intros p Hin. apply in_app_iff in Hin as [Hin|Hin].
      * exists (amin, amax), (bmin, bmax). simpl. auto.
      * destruct (Hp p Hin) as (pa & pb & H1 & H2 & H3). exists pa, pb. split; [|split; [right|]]; auto.
Qed.

Lemma pair_eqb_eq p q : pair_eqb p q = true <-> p = q.
Proof.
  destruct p, q. unfold pair_eqb. simpl. rewrite andb_true_iff, !Z.eqb_eq. split; [intros [-> ->]; auto|intros E; injection E; auto].
Qed.
Lemma dedup_in l p : In p (dedup_pairs l) <-> In p l.
Proof.
  induction l as [|x l IH]; simpl; [tauto|]. rewrite filter_In, IH. split; [tauto|].
  intros [->|H]; auto. destruct (pair_eqb x p) eqn:E; [left; now apply pair_eqb_eq|right; auto].
Qed.
Lemma dedup_nodup l : NoDup (dedup_pairs l).
Proof.
  induction l as [|x l IH]; simpl; constructor.
  - intros H. apply filter_In in H as [_ H]. rewrite (proj2 (pair_eqb_eq x x) eq_refl) in H. discriminate.
  - now apply NoDup_filter.
Qed.
Lemma inr_dedup l x : inr (dedup_pairs l) x <-> inr l x.
Proof. split; intros (lo & hi & H & Hx); exists lo, hi; split; auto; now apply dedup_in. Qed.

(** Lists of ranges that occur in state nodes: proper, or one empty range at or above M. *)
Definition wfr (M : Z) (l : list (Z * Z)) : Prop :=
  proper l \/ exists lo hi, l = [(lo, hi)] /\ hi < lo /\ M <= hi.

Lemma wfr_ordered M l : wfr M l -> ordered (sort_ranges l).
Proof.
  intros [H|(lo & hi & -> & _)]; [now apply sort_ordered|]. unfold sort_ranges; simpl. repeat constructor.
Qed.

Lemma and_ranges_ok A B : ordered (sort_ranges A) -> ordered (sort_ranges B) -> A <> [] -> B <> [] ->
  exists r, and_range_pairs A B = Ok r /\ NoDup r /\
    (forall x, inr r x <-> inr A x /\ inr B x) /\
    (forall p, In p r -> exists pa pb, In pa A /\ In pb B /\ meets pa pb p).
Proof.
  intros Ha Hb NA NB. unfold and_range_pairs.
  pose proof (sort_by_perm range_leb A) as PA. pose proof (sort_by_perm range_leb B) as PB.
  fold (sort_ranges A) in PA. fold (sort_ranges B) in PB.
  pose proof (Permutation_length PA) as LA. pose proof (Permutation_length PB) as LB.
  destruct (sort_ranges A) as [|a ra] eqn:EA; [destruct A; [congruence|discriminate]|].
  destruct (sort_ranges B) as [|b rb] eqn:EB; [destruct B; [congruence|discriminate]|].
  simpl in LA, LB.
  destruct (and_loop_spec (length A + length B + 2) a ra b rb true ltac:(simpl; lia) Ha Hb) as (r & -> & Hr & Hp).
  simpl. eexists; split; [reflexivity|]. split; [apply dedup_nodup|]. split.
  - intros x. rewrite inr_dedup, Hr, <- (inr_perm _ _ PA), <- (inr_perm _ _ PB). tauto.
  - intros p Hin. apply dedup_in, Hp in Hin as (pa & pb & H1 & H2 & H3). exists pa, pb.
    repeat split; try apply H3; (eapply Permutation_in; [symmetry; eassumption|assumption]).
Qed.

Lemma NoDup_le1 {A} (l : list A) : NoDup l -> (forall p q, In p l -> In q l -> p = q) -> l = [] \/ exists x, l = [x].
Proof.
  intros ND H. destruct l as [|x [|y l]]; eauto. exfalso. inv ND. apply H2. left. symmetry; apply H; simpl; auto.
Qed.

Lemma meets_det p q r r' : meets p q r -> meets p q r' -> r = r'.
Proof. intros [-> _] [-> _]; reflexivity. Qed.

Lemma proper_and A B r : proper A -> proper B -> NoDup r ->
  (forall p, In p r -> exists pa pb, In pa A /\ In pb B /\ meets pa pb p) -> proper r.
Proof.
  intros [NA DA] [NB DB] ND Hp.
  apply (disjoint_iff _ NA) in DA as [_ DA]. apply (disjoint_iff _ NB) in DB as [_ DB].
  unfold nonempty_ranges in NA, NB. rewrite Forall_forall in NA, NB.
  assert (nonempty_ranges r) as NR.
  { apply Forall_forall. intros p Hin. destruct (Hp p Hin) as (pa & pb & H1 & H2 & -> & H4 & H5).
    apply NA in H1. apply NB in H2. simpl. lia. }
  split; auto. apply disjoint_iff; auto. split; auto.
  intros p q Hin Hin' Hpq.
  destruct (Hp p Hin) as (pa & pb & H1 & H2 & H3), (Hp q Hin') as (qa & qb & G1 & G2 & G3).
  assert (pa <> qa \/ pb <> qb) as [HH|HH].
  { destruct pa as [x y], qa as [x' y'], pb as [z t], qb as [z' t'].
    destruct (Z.eq_dec x x'), (Z.eq_dec y y'), (Z.eq_dec z z'), (Z.eq_dec t t');
      subst; try (left; congruence); try (right; congruence).
    exfalso; apply Hpq; eapply meets_det; eauto. }
  - destruct (DA pa qa H1 G1 HH); destruct H3 as (-> & ? & ?), G3 as (-> & ? & ?); unfold disj; simpl; lia.
  - destruct (DB pb qb H2 G2 HH); destruct H3 as (-> & ? & ?), G3 as (-> & ? & ?); unfold disj; simpl; lia.
Qed.

Lemma meets_sym p q r : meets p q r -> meets q p r.
Proof. intros (-> & ? & ?). unfold meets. rewrite Z.max_comm, Z.min_comm. auto. Qed.

Lemma empty_and M lo hi B r : hi < lo -> M <= hi -> wfr M B -> NoDup r ->
  (forall p, In p r -> exists pb, In pb B /\ meets (lo, hi) pb p) -> wfr M r.
Proof.
  intros Hlt HM HB ND Hp.
  assert (forall p q, In p r -> In q r -> p = q) as Hu.
  { intros p q Hin Hin'. destruct (Hp p Hin) as (pb & H2 & H3), (Hp q Hin') as (qb & G2 & G3).
    assert (pb = qb) as <-; [|eapply meets_det; eauto].
    destruct HB as [[NB DB]|(lo' & hi' & -> & H4 & H5)].
    - apply (disjoint_iff _ NB) in DB as [_ DB].
      destruct (pair_eqb pb qb) eqn:E; [now apply pair_eqb_eq|].
      assert (pb <> qb) as Hne by (intros EE; apply pair_eqb_eq in EE; congruence).
      destruct (DB _ _ H2 G2 Hne) as [D|D]; destruct H3 as (_ & ? & ?), G3 as (_ & ? & ?); simpl in *; lia.
    - destruct H2 as [<-|[]], G2 as [<-|[]]. reflexivity. }
  destruct (NoDup_le1 r ND Hu) as [->|[x ->]].
  - left. split; constructor.
  - destruct (Hp x ltac:(simpl; auto)) as (pb & H2 & -> & H4 & H5). simpl in *.
    right. exists (Z.max lo (fst pb)), (Z.min hi (snd pb)). split; auto. lia.
Qed.

Lemma wfr_and M A B r : wfr M A -> wfr M B -> NoDup r ->
  (forall p, In p r -> exists pa pb, In pa A /\ In pb B /\ meets pa pb p) -> wfr M r.
Proof.
  intros [HA|(lo & hi & -> & H1 & H2)] HB ND Hp.
  - destruct HB as [HB|(lo & hi & -> & H1 & H2)].
    + left. exact (proper_and A B r HA HB ND Hp).
    + eapply (empty_and M lo hi A); eauto; [left; auto|].
      intros p Hin. destruct (Hp p Hin) as (pa & pb & G1 & [<-|[]] & G3). exists pa. auto using meets_sym.
  - eapply (empty_and M lo hi B); eauto.
    intros p Hin. destruct (Hp p Hin) as (pa & pb & [<-|[]] & G2 & G3). eauto.
Qed.

(** ** complement *)
Lemma not_loop_lo l : forall cur M p, In p (not_loop l cur M) -> cur <= fst p.
Proof.
  induction l as [|[a b] l IH]; simpl; intros cur M p H.
  - destruct (cur <=? M); [|destruct H]. destruct H as [<-|[]]. simpl; lia.
  - apply in_app_iff in H as [H|H].
    + destruct (cur <=? a - 1); [|destruct H]. destruct H as [<-|[]]. simpl; lia.
    + apply IH in H. lia.
Qed.

Lemma not_loop_spec l : StronglySorted (fun p q => fst p <= fst q) l -> forall cur M x, cur <= x <= M ->
  (inr (not_loop l cur M) x <-> ~ inr l x).
Proof.
  induction 1 as [|[a b] l HS IH HF]; intros cur M x Hx; cbn [not_loop].
  - destruct (Z.leb_spec cur M); [|lia]. rewrite inr_cons. simpl.
    split; [intros _ H'; now apply inr_nil in H' | intros _; left; lia].
  - rewrite inr_app, inr_cons. simpl.
    assert (inr (if cur <=? a - 1 then [(cur, a - 1)] else []) x <-> x <= a - 1) as ->.
    { destruct (Z.leb_spec cur (a - 1)).
      - rewrite inr_cons. simpl. split; [intros [H'|H']; [lia|now apply inr_nil in H']|left; lia].
      - split; [intros H'; now apply inr_nil in H'|lia]. }
    rewrite Forall_forall in HF.
    destruct (Z_le_gt_dec x (a - 1)) as [Hl|Hg].
    + split; [|intros _; left; lia]. intros _ [H'|(lo & hi & Hin & Hb)]; [lia|]. apply HF in Hin. simpl in Hin. lia.
    + destruct (Z_le_gt_dec x b).
      * split; [|intros H'; exfalso; apply H'; left; lia]. intros [H'|(lo & hi & Hin & Hb)]; [lia|]. apply not_loop_lo in Hin. simpl in Hin. lia.
      * rewrite IH by lia. split; [|tauto]. intros [H'|H'] [H''|H'']; try lia; auto.
Qed.

Lemma not_loop_proper l : nonempty_ranges l -> forall cur M, proper (not_loop l cur M).
Proof.
  induction 1 as [|[a b] l Hab Hl IH]; intros cur M; cbn [not_loop].
  - destruct (Z.leb_spec cur M); split; repeat constructor; simpl; lia.
  - destruct (IH (Z.max (b + 1) cur) M) as [IH1 IH2]. destruct (Z.leb_spec cur (a - 1)); [|split; auto].
    split; constructor; simpl; auto; try lia.
    apply Forall_forall. intros q Hq. apply not_loop_lo in Hq. simpl in *. lia.
Qed.

Lemma not_ranges_spec l M x : 0 <= x <= M -> (inr (not_range_pairs l 0 M) x <-> ~ inr l x).
Proof.
  intros Hx. unfold not_range_pairs. rewrite not_loop_spec; auto using sort_strong.
  pose proof (sort_by_perm range_leb l) as P. fold (sort_ranges l) in P. rewrite (inr_perm _ _ P). tauto.
Qed.

Lemma not_ranges_wfr l M : wfr M l -> wfr M (not_range_pairs l 0 M).
Proof.
  intros [[Hn Hd]|(lo & hi & -> & H1 & H2)]; left.
  - unfold not_range_pairs. apply not_loop_proper. unfold nonempty_ranges in *. rewrite Forall_forall in *.
    intros p Hp. apply Hn. unfold sort_ranges in Hp. now apply sort_by_in in Hp.
  - unfold not_range_pairs, sort_ranges. simpl.
    destruct (Z.leb_spec (Z.max (hi + 1) 0) M); [lia|]. rewrite app_nil_r.
    destruct (Z.leb_spec 0 (lo - 1)); split; repeat constructor; simpl; lia.
Qed.

Lemma not_ranges_proper l minv maxv : nonempty_ranges l -> proper (not_range_pairs l minv maxv).
Proof.
  intros Hn. apply not_loop_proper. unfold nonempty_ranges in *. rewrite Forall_forall in *.
  intros p Hp. apply Hn. unfold sort_ranges in Hp. now apply sort_by_in in Hp.
Qed.

Lemma not_loop_in l : forall cur M p, Forall (fun p => fst p <= M + 1) l -> In p (not_loop l cur M) -> snd p <= M.
Proof.
  induction l as [|[a b] l IH]; simpl; intros cur M p HF H.
  - destruct (cur <=? M); [|destruct H]. destruct H as [<-|[]]. simpl; lia.
  - inv HF. simpl in *. apply in_app_iff in H as [H|H].
    + destruct (cur <=? a - 1); [|destruct H]. destruct H as [<-|[]]. simpl; lia.
    + eapply IH; eauto.
Qed.

Lemma not_ranges_exact l M : Forall (fun p => fst p <= M + 1) l ->
  forall x, inr (not_range_pairs l 0 M) x <-> 0 <= x <= M /\ ~ inr l x.
Proof.
  intros HF x. split.
  - intros H. assert (0 <= x <= M) as Hx.
    { destruct H as (lo & hi & Hin & Hb). unfold not_range_pairs in Hin.
      pose proof (not_loop_lo _ _ _ _ Hin). apply not_loop_in in Hin.
      - simpl in *; lia.
      - rewrite Forall_forall in *. intros p Hp. apply HF. unfold sort_ranges in Hp. now apply sort_by_in in Hp. }
    split; auto. now apply (not_ranges_spec l M x Hx).
  - intros [Hx H]. now apply not_ranges_spec.
Qed.

(** ** state nodes *)
Fixpoint tc_ok (t : df) : bool :=
  match t with
  | DNone => false
  | DOp l Ulnot => match l with [x] => tc_ok x | _ => false end
  | DOp _ Unot => false
  | _ => true
  end.

Section Nodes.
  Variable M : Z.
  Definition wfn (n : snode) : Prop :=
    maxvalue n = M /\ minvalue n = 0 /\ (transcond n = DNone \/ tc_ok (transcond n) = true) /\
    (if isany n then range_pairs n = [] /\ transcond n <> DNone else wfr M (range_pairs n)).
  Definition wfs (r : sres) : Prop :=
    match r with SNone => True | SOne n => wfn n | SList l => Forall wfn l end.

  Section I.
    Variable I : interp.
    Variable tn : chain.
    Variable s : Z.
    Hypothesis Hs : 0 <= s <= M.
    Hypothesis HI : reads_state I tn s.

    Lemma not_tc t : tc_ok t = true ->
      i_truth I (eval I (not_transcond t)) = negb (i_truth I (eval I t)).
    Proof.
      intros H. destruct t as [ |nm|c|c|c|l o|v m l|v p|l|c t f|v w f g|w|w|t|c l]; try discriminate;
        try (simpl; apply (rs_not _ _ _ HI)).
      destruct o; try discriminate; try (destruct l; simpl; apply (rs_not _ _ _ HI)).
      destruct l as [|x [|y l]]; try discriminate. simpl. rewrite (rs_not _ _ _ HI), negb_involutive. reflexivity.
    Qed.
  End I.

  Lemma not_tc_ok t : tc_ok t = true -> tc_ok (not_transcond t) = true.
  Proof.
    intros H. destruct t as [ |nm|c|c|c|l o|v m l|v p|l|c t f|v w f g|w|w|t|c l]; try discriminate; auto.
    destruct o; try discriminate; try (destruct l; exact H).
    destruct l as [|x [|y l]]; try discriminate. exact H.
  Qed.
  Lemma tc_not_none t : tc_ok t = true -> t <> DNone.
  Proof. destruct t; discriminate || congruence. Qed.

  Lemma wfs_not n : wfn n -> wfs (notStateNode n).
  Proof.
    intros (E1 & E2 & E3 & E4). unfold notStateNode. destruct (isany n) eqn:Ea.
    - destruct E4 as [_ E4]. destruct E3 as [E3|E3]; [congruence|].
      simpl. unfold wfn; simpl. repeat split; auto.
      + right. now apply not_tc_ok.
      + apply tc_not_none. now apply not_tc_ok.
    - destruct (is_none (transcond n)) eqn:En.
      + simpl. unfold wfn; simpl. rewrite E1, E2. repeat split; auto. now apply not_ranges_wfr.
      + destruct E3 as [E3|E3]; [rewrite E3 in En; discriminate|]. simpl. rewrite E1, E2.
        constructor; [|constructor; [|constructor]]; unfold wfn; simpl.
        * repeat split; auto. now apply not_ranges_wfr.
        * repeat split; auto. right; now apply not_tc_ok.
  Qed.

  Lemma holds_not I tn s n : 0 <= s <= M -> reads_state I tn s -> wfn n ->
    (sres_holds I s (notStateNode n) <-> ~ node_holds I s n).
  Proof.
    intros Hs HI (E1 & E2 & E3 & E4). unfold notStateNode, node_holds. destruct (isany n) eqn:Ea.
    - destruct E4 as [_ E4]. destruct E3 as [E3|E3]; [congruence|]. simpl. unfold node_holds; simpl.
      rewrite (not_tc I tn s HI _ E3).
      pose proof (tc_not_none _ (not_tc_ok _ E3)).
      destruct (i_truth I (eval I (transcond n))); simpl; intuition congruence.
    - rewrite E1, E2. destruct (is_none (transcond n)) eqn:En.
      + simpl. unfold node_holds; simpl. rewrite (not_ranges_spec _ _ _ Hs).
        assert (transcond n = DNone) by (destruct (transcond n); auto; discriminate). intuition congruence.
      + destruct E3 as [E3|E3]; [rewrite E3 in En; discriminate|]. simpl.
        pose proof (tc_not_none _ (not_tc_ok _ E3)). pose proof (tc_not_none _ E3).
        assert (forall P Q : Prop, Exists (node_holds I s) [] <-> False) as HE by (intros; split; [intros K; inv K|tauto]).
        rewrite !Exists_cons, (HE True True). unfold node_holds; simpl. rewrite (not_ranges_spec _ _ _ Hs), (not_tc I tn s HI _ E3).
        assert (inr (range_pairs n) s \/ ~ inr (range_pairs n) s) as D.
        { clear. induction (range_pairs n) as [|[a b] l IH]; [right; apply inr_nil|]. rewrite inr_cons. simpl.
          destruct (Z_le_dec a s), (Z_le_dec s b); intuition lia. }
        destruct (i_truth I (eval I (transcond n))); simpl; intuition congruence.
  Qed.

  Lemma and_node a b : wfn a -> wfn b -> exists r, andStateNode a b = Ok r /\
    match r with
    | Some n => wfn n
    | None => True
    end /\
    forall I tn s, 0 <= s <= M -> reads_state I tn s ->
      (match r with Some n => node_holds I s n | None => False end <-> node_holds I s a /\ node_holds I s b).
  Proof.
    intros (A1 & A2 & A3 & A4) (B1 & B2 & B3 & B4). unfold andStateNode.
    set (tc := match is_none (transcond a), is_none (transcond b) with
              | false, false => DOp [transcond a; transcond b] Land
              | false, true => transcond a
              | true, false => transcond b
              | true, true => DNone
              end).
    assert (tc = DNone \/ tc_ok tc = true) as Htc.
    { unfold tc. destruct (is_none (transcond a)) eqn:Ea, (is_none (transcond b)) eqn:Eb; auto. }
    assert (forall I tn s, reads_state I tn s ->
      ((tc = DNone \/ i_truth I (eval I tc) = true) <->
       (transcond a = DNone \/ i_truth I (eval I (transcond a)) = true) /\
       (transcond b = DNone \/ i_truth I (eval I (transcond b)) = true))) as Heval.
    { intros I tn s HI. unfold tc.
      destruct (is_none (transcond a)) eqn:Ea, (is_none (transcond b)) eqn:Eb.
      - assert (transcond a = DNone) by (destruct (transcond a); auto; discriminate).
        assert (transcond b = DNone) by (destruct (transcond b); auto; discriminate). tauto.
      - assert (transcond a = DNone) by (destruct (transcond a); auto; discriminate). tauto.
      - assert (transcond b = DNone) by (destruct (transcond b); auto; discriminate). tauto.
      - assert (transcond a <> DNone) by (intros K; rewrite K in Ea; discriminate).
        assert (transcond b <> DNone) by (intros K; rewrite K in Eb; discriminate).
        simpl. rewrite (rs_land _ _ _ HI), andb_true_iff. intuition congruence. }
    assert (isany a && isany b = true -> tc <> DNone) as Hany.
    { intros H. apply andb_true_iff in H as [Ha Hb]. rewrite Ha in A4. rewrite Hb in B4.
      unfold tc. destruct A4 as [_ A4], B4 as [_ B4].
      destruct (is_none (transcond a)) eqn:Ea; [exfalso; destruct (transcond a); try discriminate Ea; apply A4; reflexivity|].
      destruct (is_none (transcond b)) eqn:Eb; [exact A4|discriminate]. }
    clearbody tc.
    assert (exists rp, (if isany a && isany b then Ok []
            else if isany a then Ok (range_pairs b)
            else if isany b then Ok (range_pairs a)
            else if (0 <? length (range_pairs a))%nat && (0 <? length (range_pairs b))%nat
                 then and_range_pairs (range_pairs a) (range_pairs b)
            else Ok []) = Ok rp /\ (isany a && isany b = true -> rp = []) /\
            (isany a && isany b = false -> wfr M rp) /\
            (isany a && isany b = false -> forall s, inr rp s <->
              (isany a = true \/ inr (range_pairs a) s) /\ (isany b = true \/ inr (range_pairs b) s))) as (rp & -> & R1 & R2 & R3).
    { destruct (isany a) eqn:Ea, (isany b) eqn:Eb; simpl.
      - exists []. repeat split; auto; discriminate.
      - exists (range_pairs b). split; [reflexivity|]. split; [discriminate|]. split; [auto|].
        intros _ s. intuition congruence.
      - exists (range_pairs a). split; [reflexivity|]. split; [discriminate|]. split; [auto|].
        intros _ s. intuition congruence.
      - destruct (Nat.ltb_spec 0 (length (range_pairs a))) as [La|La]; simpl.
        + destruct (Nat.ltb_spec 0 (length (range_pairs b))) as [Lb|Lb].
          * destruct (and_ranges_ok (range_pairs a) (range_pairs b)) as (r & -> & ND & Hr & Hp).
            -- eapply wfr_ordered; eauto.
            -- eapply wfr_ordered; eauto.
            -- intros K; rewrite K in La; simpl in La; lia.
            -- intros K; rewrite K in Lb; simpl in Lb; lia.
            -- exists r. split; [reflexivity|]. split; [discriminate|]. split.
               ++ intros _. exact (wfr_and M (range_pairs a) (range_pairs b) r A4 B4 ND Hp).
               ++ intros _ s. rewrite Hr. intuition congruence.
          * assert (range_pairs b = []) as E by (destruct (range_pairs b); auto; simpl in Lb; lia).
            exists []. split; [reflexivity|]. split; [discriminate|]. split.
            -- intros _; left; repeat split; constructor.
            -- intros _ s. rewrite E. pose proof (inr_nil s). intuition congruence.
        + assert (range_pairs a = []) as E by (destruct (range_pairs a); auto; simpl in La; lia).
          exists []. split; [reflexivity|]. split; [discriminate|]. split.
          * intros _; left; repeat split; constructor.
          * intros _ s. rewrite E. pose proof (inr_nil s). intuition congruence. }
    simpl. destruct (isany a && isany b) eqn:Eany; simpl.
    - specialize (R1 eq_refl). subst rp. eexists; split; [reflexivity|]. split.
      + unfold wfn; simpl. rewrite A1, B1, Z.max_id. repeat split; auto.
      + intros I tn s Hs HI. unfold node_holds; simpl. rewrite (Heval I tn s HI).
        apply andb_true_iff in Eany as [-> ->]. tauto.
    - specialize (R2 eq_refl). specialize (R3 eq_refl).
      destruct (Nat.eqb_spec (length rp) 0) as [El|El].
      + assert (rp = []) as -> by (destruct rp; auto; discriminate).
        exists None; split; auto. split; auto. intros I tn s Hs HI. unfold node_holds.
        split; [tauto|]. intros [[H1 _] [H2 _]]. eapply inr_nil. apply R3. split; eauto.
      + eexists; split; [reflexivity|]. split.
        * unfold wfn; simpl. rewrite A1, B1, Z.max_id. repeat split; auto.
        * intros I tn s Hs HI. unfold node_holds; simpl. rewrite (Heval I tn s HI), R3.
          split; [intros [[K|K] ?]; [discriminate|tauto]|tauto].
  Qed.

  Definition holds_opt I s (r : option snode) := match r with Some n => node_holds I s n | None => False end.

  Lemma and_pairs_ok l : Forall (fun p => wfn (fst p) /\ wfn (snd p)) l ->
    exists r, and_pairs l = Ok r /\ Forall wfn r /\
    forall I tn s, 0 <= s <= M -> reads_state I tn s ->
      (Exists (node_holds I s) r <-> Exists (fun p => node_holds I s (fst p) /\ node_holds I s (snd p)) l).
  Proof.
    induction 1 as [|[x y] l [Hx Hy] H (r & E & Wr & Hr)]; simpl.
    - exists []. repeat split; auto; intros K; inv K.
    - destruct (and_node x y Hx Hy) as (v & -> & Wv & Hv). simpl. rewrite E. simpl.
      eexists; split; [reflexivity|]. split; [destruct v; auto|].
      intros I tn s Hs HI. rewrite Exists_cons. simpl. rewrite <- (Hr I tn s Hs HI), <- (Hv I tn s Hs HI).
      destruct v; [apply Exists_cons|tauto].
  Qed.

  Lemma prod_wf la lb : Forall wfn la -> Forall wfn lb -> Forall (fun p => wfn (fst p) /\ wfn (snd p)) (list_prod la lb).
  Proof.
    rewrite !Forall_forall. intros Ha Hb [x y] Hin. apply in_prod_iff in Hin as [? ?]; simpl; auto.
  Qed.
  Lemma prod_holds I s la lb :
    Exists (fun p => node_holds I s (fst p) /\ node_holds I s (snd p)) (list_prod la lb) <->
    Exists (node_holds I s) la /\ Exists (node_holds I s) lb.
  Proof.
    rewrite !Exists_exists. split.
    - intros ([x y] & Hin & H1 & H2). apply in_prod_iff in Hin as [? ?]. simpl in *. split; eauto.
    - intros [(x & Hx & H1) (y & Hy & H2)]. exists (x, y). rewrite in_prod_iff. simpl. auto.
  Qed.

  Lemma mk_list_wf l : Forall wfn l -> wfs (mk_list l).
  Proof. destruct l; simpl; auto. Qed.
  Lemma mk_list_holds I s l : sres_holds I s (mk_list l) <-> Exists (node_holds I s) l.
  Proof. destruct l; simpl; [split; [tauto|intros K; inv K]|tauto]. Qed.

  (** Conjunction of two present results. *)
  Lemma and_list a b : wfs a -> wfs b -> a <> SNone -> b <> SNone ->
    exists r, andStateNodeList a b = Ok r /\ wfs r /\
    forall I tn s, 0 <= s <= M -> reads_state I tn s ->
      (sres_holds I s r <-> sres_holds I s a /\ sres_holds I s b).
  Proof.
    intros Wa Wb Na Nb. destruct a as [|a|la]; [congruence| |]; destruct b as [|b|lb]; try congruence; cbn [andStateNodeList].
    - destruct (and_node a b Wa Wb) as (r & -> & Wr & Hr). simpl. eexists; split; [reflexivity|].
      split; [destruct r; simpl; auto|]. intros I tn s Hs HI. rewrite <- (Hr I tn s Hs HI). destruct r; reflexivity.
    - destruct (and_pairs_ok (list_prod [a] lb)) as (r & -> & Wr & Hr); [apply prod_wf; simpl in *; auto|].
      simpl. eexists; split; [reflexivity|]. split; [now apply mk_list_wf|].
      intros I tn s Hs HI. rewrite mk_list_holds, (Hr I tn s Hs HI), prod_holds, Exists_cons, Exists_nil. simpl. tauto.
    - destruct (and_pairs_ok (list_prod la [b])) as (r & -> & Wr & Hr); [apply prod_wf; simpl in *; auto|].
      simpl. eexists; split; [reflexivity|]. split; [now apply mk_list_wf|].
      intros I tn s Hs HI. rewrite mk_list_holds, (Hr I tn s Hs HI), prod_holds, Exists_cons, Exists_nil. simpl. tauto.
    - destruct (and_pairs_ok (list_prod la lb)) as (r & -> & Wr & Hr); [apply prod_wf; simpl in *; auto|].
      simpl. eexists; split; [reflexivity|]. split; [now apply mk_list_wf|].
      intros I tn s Hs HI. rewrite mk_list_holds, (Hr I tn s Hs HI), prod_holds. simpl. tauto.
  Qed.

  Lemma or_list a b : wfs a -> wfs b -> a <> SNone -> b <> SNone ->
    wfs (orStateNodeList a b) /\ orStateNodeList a b <> SNone /\
    forall I s, sres_holds I s (orStateNodeList a b) <-> sres_holds I s a \/ sres_holds I s b.
  Proof.
    intros Wa Wb Na Nb. destruct a as [|a|la]; [congruence| |]; destruct b as [|b|lb]; try congruence; cbn [orStateNodeList];
      (split; [|split; [discriminate|]]); simpl in *; auto.
    - intros I s. rewrite !Exists_cons, Exists_nil. tauto.
    - intros I s. rewrite !Exists_cons. tauto.
    - apply Forall_app; auto.
    - intros I s. rewrite Exists_app, !Exists_cons, Exists_nil. tauto.
    - apply Forall_app; auto.
    - intros I s. rewrite Exists_app. tauto.
  Qed.

  Lemma notStateNode_present n : notStateNode n <> SNone.
  Proof. unfold notStateNode. destruct (isany n); [discriminate|]. destruct (is_none (transcond n)); discriminate. Qed.

  (** Negation of a list, when some situation satisfies all negations. *)
  Lemma not_fold_ok l : Forall wfn l -> forall acc, wfs acc ->
    (exists I tn s, 0 <= s <= M /\ reads_state I tn s /\ (acc = SNone \/ sres_holds I s acc) /\
       Forall (fun n => ~ node_holds I s n) l) ->
    exists r, not_fold l acc = Ok r /\ wfs r /\ (acc <> SNone \/ l <> [] -> r <> SNone) /\
    forall I tn s, 0 <= s <= M -> reads_state I tn s ->
      (acc <> SNone \/ l <> [] ->
       (sres_holds I s r <-> (acc = SNone \/ sres_holds I s acc) /\ Forall (fun n => ~ node_holds I s n) l)).
  Proof.
    induction 1 as [|n l Hn Hl IH]; intros acc Wa (I0 & tn0 & s0 & Hs0 & HI0 & Hacc & Hnot).
    - simpl. exists acc. repeat split; auto; intuition congruence.
    - cbn [not_fold]. inv Hnot.
      pose proof (proj2 (holds_not I0 tn0 s0 n Hs0 HI0 Hn) ltac:(assumption)) as K.
      assert (forall I tn s, 0 <= s <= M -> reads_state I tn s -> forall P,
         (P /\ sres_holds I s (notStateNode n)) /\ Forall (fun n => ~ node_holds I s n) l <->
         P /\ Forall (fun n => ~ node_holds I s n) (n :: l)) as HH.
      { intros I tn s Hs HI P. rewrite Forall_cons_iff, (holds_not I tn s n Hs HI Hn). tauto. }
      destruct acc as [|a|la].
      + destruct (IH (notStateNode n) (wfs_not n Hn)) as (r & E & Wr & Nr & Hr).
        { exists I0, tn0, s0. auto. }
        pose proof (notStateNode_present n) as Hp.
        exists r. split; [exact E|]. split; [exact Wr|]. split; [intros _; apply Nr; left; exact Hp|].
        intros I tn s Hs HI _. rewrite (Hr I tn s Hs HI (or_introl Hp)).
        pose proof (HH I tn s Hs HI True). intuition congruence.
      + destruct (and_list (SOne a) (notStateNode n) Wa (wfs_not n Hn) ltac:(discriminate) (notStateNode_present n))
          as (acc' & -> & Wacc & Hac). simpl bind.
        destruct Hacc as [Hacc|Hacc]; [discriminate|].
        assert (sres_holds I0 s0 acc') as Ha0 by (apply (Hac I0 tn0 s0 Hs0 HI0); auto).
        destruct (IH acc' Wacc) as (r & E & Wr & Nr & Hr); [exists I0, tn0, s0; auto|].
        assert (acc' <> SNone) as Hne by (intros ->; exact Ha0).
        exists r. split; [exact E|]. split; [exact Wr|]. split; [intros _; apply Nr; left; exact Hne|].
        intros I tn s Hs HI _. rewrite (Hr I tn s Hs HI (or_introl Hne)).
        pose proof (HH I tn s Hs HI True). pose proof (Hac I tn s Hs HI). intuition congruence.
      + destruct (and_list (SList la) (notStateNode n) Wa (wfs_not n Hn) ltac:(discriminate) (notStateNode_present n))
          as (acc' & -> & Wacc & Hac). simpl bind.
        destruct Hacc as [Hacc|Hacc]; [discriminate|].
        assert (sres_holds I0 s0 acc') as Ha0 by (apply (Hac I0 tn0 s0 Hs0 HI0); auto).
        destruct (IH acc' Wacc) as (r & E & Wr & Nr & Hr); [exists I0, tn0, s0; auto|].
        assert (acc' <> SNone) as Hne by (intros ->; exact Ha0).
        exists r. split; [exact E|]. split; [exact Wr|]. split; [intros _; apply Nr; left; exact Hne|].
        intros I tn s Hs HI _. rewrite (Hr I tn s Hs HI (or_introl Hne)).
        pose proof (HH I tn s Hs HI True). pose proof (Hac I tn s Hs HI). intuition congruence.
  Qed.

  Lemma not_list a : wfs a -> a <> SNone -> (forall l, a = SList l -> l <> []) ->
    (exists I tn s, 0 <= s <= M /\ reads_state I tn s /\ ~ sres_holds I s a) ->
    exists r, notStateNodeList a = Ok r /\ wfs r /\ r <> SNone /\
    forall I tn s, 0 <= s <= M -> reads_state I tn s -> (sres_holds I s r <-> ~ sres_holds I s a).
  Proof.
    intros Wa Na Ne (I0 & tn0 & s0 & Hs0 & HI0 & H0). destruct a as [|n|l]; [congruence| |]; cbn [notStateNodeList].
    - exists (notStateNode n). split; auto. split; [now apply wfs_not|]. split; [apply notStateNode_present|].
      intros I tn s Hs HI. now apply (holds_not I tn s n).
    - destruct (not_fold_ok l Wa SNone Logic.I) as (r & E & Wr & Nr & Hr).
      { exists I0, tn0, s0. split; [exact Hs0|]. split; [exact HI0|]. split; [left; reflexivity|]. apply Forall_Exists_neg. exact H0. }
      exists r. split; auto. split; auto. split; [apply Nr; right; now apply Ne|].
      intros I tn s Hs HI. rewrite (Hr I tn s Hs HI) by (right; now apply Ne). simpl.
      rewrite <- Forall_Exists_neg. tauto.
  Qed.
End Nodes.

(** ** comparisons *)
Lemma infer_exact o v w f g : cmp_ok o (DEval (PInt v) w f g) = true ->
  exists r, infer o (DEval (PInt v) w f g) = Ok r /\
  forall M x, 0 <= x <= M -> (inferred_holds r M x <-> compares o x v = true).
Proof.
  unfold cmp_ok, infer; simpl. intros H.
  destruct o; try discriminate; (eexists; split; [reflexivity|]) ||
    (destruct (Z.ltb_spec (v - 1) 0); [apply Z.ltb_lt in H; lia|eexists; split; [reflexivity|]]);
  intros M x Hx; unfold inferred_holds; simpl;
  rewrite ?Z.ltb_lt, ?Z.leb_le, ?negb_true_iff, ?Z.eqb_eq, ?Z.eqb_neq; lia.
Qed.

Lemma create_ok o v w0 f g w : cmp_ok o (DEval (PInt v) w0 f g) = true -> 0 <= w ->
  exists r, (do i <- infer o (DEval (PInt v) w0 f g); createStateNode i w) = Ok r /\ wfs (maxValue w) r /\ r <> SNone /\
  (forall l, r = SList l -> l <> []) /\
  forall I s, 0 <= s <= maxValue w -> (sres_holds I s r <-> compares o s v = true).
Proof.
  intros H Hw. destruct (infer_exact o v w0 f g H) as (i & E & Hi). rewrite E. simpl.
  assert (wfr (maxValue w) [(match iv_min i with None => 0 | Some z => z end, match iv_max i with None => maxValue w | Some z => z end)]) as W.
  { assert (0 <= maxValue w) as HM by (unfold maxValue; pose proof (Z.pow_pos_nonneg 2 w ltac:(lia) Hw); lia).
    unfold cmp_ok, infer in H, E; simpl in H, E. unfold wfr.
    destruct o; try discriminate H;
    [ destruct (Z.ltb_spec (v - 1) 0); [apply Z.ltb_lt in H; lia|] | .. ];
    injection E as <-; simpl.
    - left; repeat constructor; simpl; lia.
    - destruct (Z_le_gt_dec (v + 1) (maxValue w)); [left; repeat constructor; simpl; lia|right; do 2 eexists; split; [reflexivity|lia]].
    - destruct (Z_le_gt_dec v (maxValue w)); [left; repeat constructor; simpl; lia|right; do 2 eexists; split; [reflexivity|lia]].
    - left; repeat constructor; simpl; lia.
    - left; repeat constructor; simpl; lia.
    - left; repeat constructor; simpl; lia.
    - left; repeat constructor; simpl; lia. }
  unfold createStateNode. destruct (iv_inv i) eqn:Ei.
  - cbn [notStateNodeList]. unfold notStateNode. simpl. eexists; split; [reflexivity|].
    split; [|split; [discriminate|split; [discriminate|]]].
    + simpl. unfold wfn; simpl. repeat split; auto. now apply not_ranges_wfr.
    + intros I s Hs. simpl. unfold node_holds; simpl. rewrite (not_ranges_spec _ _ _ Hs), <- (Hi _ _ Hs).
      unfold inferred_holds. rewrite Ei, inr_cons. simpl. pose proof (inr_nil s). intuition congruence.
  - eexists; split; [reflexivity|]. split; [|split; [discriminate|split; [discriminate|]]].
    + simpl. unfold wfn; simpl. repeat split; auto.
    + intros I s Hs. simpl. unfold node_holds; simpl. rewrite <- (Hi _ _ Hs).
      unfold inferred_holds. rewrite Ei, inr_cons. simpl. pose proof (inr_nil s). intuition congruence.
Qed.

(** ** walking a condition *)
Section Walk.
  Variable tn : chain.
  Variable w : Z.
  Hypothesis Hw : 0 <= w.
  Let M := maxValue w.

  Definition good (c : df) (r : sres) : Prop :=
    wfs M r /\ r <> SNone /\ (forall l, r = SList l -> l <> []) /\
    forall I s, situation tn w [c] I s -> (sres_holds I s r <-> i_truth I (eval I c) = true).

  Lemma sit_range cs I s : situation tn w cs I s -> 0 <= s <= M.
  Proof. intros (_ & H & _). unfold M, maxValue. lia. Qed.

  Lemma any_good c : c <> DNone -> tc_ok c = true -> good c (any_node c w).
  Proof.
    intros Hc Ht. unfold good, any_node. simpl. split; [unfold wfn; simpl; auto 6|].
    split; [discriminate|]. split; [discriminate|].
    intros I s _. unfold node_holds; simpl. intuition congruence.
  Qed.

  Lemma holds_nonempty r I s : sres_holds I s r -> forall l, r = SList l -> l <> [].
  Proof. intros H l ->. simpl in H. intros ->. inv H. Qed.

  Lemma cmp_good_left n y o : chain_eq n tn = true -> isCompare o = true -> cmp_ok o y = true ->
    exists r, (do v <- infer o y; createStateNode v w) = Ok r /\ good (DOp [DTerm n; y] o) r.
  Proof.
    intros Hn Ho Hc. unfold cmp_ok in Hc.
    destruct (int_const y) as [v|] eqn:Ey; [|destruct o; discriminate].
    destruct y as [ | | | | | | | | | |pv w0 f g| | | | ]; try discriminate. destruct pv; try discriminate. injection Ey as ->.
    destruct (create_ok o v w0 f g w Hc Hw) as (r & E & Wr & Nr & Lr & Hr).
    exists r; split; auto. split; auto. split; auto. split; auto.
    intros I s HS. pose proof (sit_range _ _ _ HS) as Hs. rewrite (Hr I s Hs).
    destruct HS as (HI & _). rewrite (rs_left _ _ _ HI); tauto.
  Qed.

  Lemma cmp_good_right n x o : chain_eq n tn = true -> isCompare o = true -> cmp_ok (swap_op o) x = true ->
    exists r, (do v <- infer (swap_op o) x; createStateNode v w) = Ok r /\ good (DOp [x; DTerm n] o) r.
  Proof.
    intros Hn Ho Hc. unfold cmp_ok in Hc.
    destruct (int_const x) as [v|] eqn:Ey; [|destruct (swap_op o); discriminate].
    destruct x as [ | | | | | | | | | |pv w0 f g| | | | ]; try discriminate. destruct pv; try discriminate. injection Ey as ->.
    destruct (create_ok (swap_op o) v w0 f g w Hc Hw) as (r & E & Wr & Nr & Lr & Hr).
    exists r; split; auto. split; auto. split; auto. split; auto.
    intros I s HS. pose proof (sit_range _ _ _ HS) as Hs. rewrite (Hr I s Hs).
    destruct HS as (HI & _). rewrite (rs_right _ _ _ HI); tauto.
  Qed.

  Lemma tail_good x y o : isCompare o = true ->
    (if is_state x tn then cmp_ok o y else if is_state y tn then cmp_ok (swap_op o) x else true) = true ->
    exists r, walk_tail x y o tn w = Ok r /\ good (DOp [x; y] o) r.
  Proof.
    intros Ho Hc. unfold walk_tail.
    destruct (is_state x tn) eqn:Ex.
    - destruct x; try discriminate. now apply cmp_good_left.
    - destruct (is_state y tn) eqn:Ey.
      + destruct y; try discriminate. now apply cmp_good_right.
      + eexists; split; [reflexivity|]. apply any_good; [discriminate|]. destruct o; auto; discriminate.
  Qed.

  Lemma sit_sub I s c cs : situation tn w [c] I s -> (forall x, In x cs -> bitwise_logical I c -> bitwise_logical I x) ->
    situation tn w cs I s.
  Proof.
    intros (H1 & H2 & H3) H. split; auto. split; auto. inv H3. apply Forall_forall. auto.
  Qed.

  Lemma walk_good c : supported tn c = true -> no_contradiction tn w c ->
    exists r, walkCond c tn w = Ok r /\ good c r.
  Proof.
    induction c as [ |n|c|c|c|l o IH|v m l IHv IHm IHl|v p IHv IHp|l IH|c t f IHc IHt IHf|v w0 f g|w0|w0|t IH|c l IH]
      using df_ind'; intros Hsup Hnc; try discriminate;
      try (eexists; split; [reflexivity|]; apply any_good; [discriminate|reflexivity]).
    - (* a signal *)
      cbn [walkCond].
      destruct (tail_good (DTerm n) (DEval (PInt 0) (Some 32) false false) GreaterThan eq_refl) as (r & E & W & N & L & H).
      { simpl. destruct (chain_eq n tn); reflexivity. }
      exists r; split; auto. split; auto. split; auto. split; auto.
      intros I s HS. rewrite H.
      + destruct HS as (HI & _). cbn [eval]. rewrite (rs_sig _ _ _ HI). reflexivity.
      + destruct HS as (HI & Hs & _). split; auto. split; auto. repeat constructor. discriminate.
    - destruct l as [|x [|y [|z l]]]; try discriminate.
      + (* unary *)
        inv IH. cbn [supported no_contradiction] in Hsup, Hnc. destruct Hnc as [Hsat Hnc].
        assert (supported tn x = true) as Hx by (destruct o; try discriminate; auto).
        destruct (H1 Hx Hnc) as (rx & Ex & Wx & Nx & Lx & Hrx).
        cbn [walkCond]. rewrite Ex. simpl bind.
        assert (forall I s, situation tn w [DOp [x] o] I s -> situation tn w [x] I s) as HSx.
        { intros I s HS. eapply sit_sub; eauto. intros x' [<-|[]] Hb. simpl in Hb. tauto. }
        destruct (isNot o) eqn:En.
        * assert (forall I s, situation tn w [DOp [x] o] I s ->
            i_truth I (eval I (DOp [x] o)) = negb (i_truth I (eval I x))) as Hneg.
          { intros I s (HI & _ & Hb). destruct o; try discriminate.
            - simpl. apply (rs_not _ _ _ HI).
            - inv Hb. simpl in H3. apply H3; reflexivity. }
          destruct (not_list M rx Wx Nx Lx) as (r & E & Wr & Nr & Hr).
          { destruct Hsat as (I & s & HS & Ht). inv Ht. exists I, tn, s.
            split; [eapply sit_range; eauto|]. split; [apply HS|].
            rewrite (Hrx I s (HSx _ _ HS)). rewrite (Hneg I s HS) in H3. apply negb_true_iff in H3. congruence. }
          exists r. split; auto. split; auto. split; auto. split.
          { destruct Hsat as (I & s & HS & Ht). inv Ht. eapply (holds_nonempty r I s).
            apply (Hr I tn s); [eapply sit_range; eauto|apply HS|].
            rewrite (Hrx I s (HSx _ _ HS)). rewrite (Hneg I s HS) in H3. apply negb_true_iff in H3. congruence. }
          intros I s HS. rewrite (Hr I tn s (sit_range _ _ _ HS) (proj1 HS)), (Hrx I s (HSx _ _ HS)), (Hneg I s HS).
          destruct (i_truth I (eval I x)); simpl; intuition congruence.
        * exists rx. split; auto. split; auto. split; auto. split; auto.
          intros I s HS. rewrite (Hrx I s (HSx _ _ HS)).
          assert (i_truth I (eval I (DOp [x] o)) = i_truth I (eval I x)) as ->; [|tauto].
          destruct HS as (HI & _). simpl. apply (rs_keep _ _ _ HI). destruct o; try discriminate; simpl; auto.
      + (* binary *)
        inv IH. inv H2. cbn [supported no_contradiction] in Hsup, Hnc. destruct Hnc as [Hsat Hnc].
        destruct (isCompare o) eqn:Ec.
        { cbn [walkCond]. assert (isNonConditionOp o = false /\ isOr o = false /\ isAnd o = false) as (-> & -> & ->)
            by (destruct o; try discriminate; auto).
          apply tail_good; auto. destruct o; try discriminate; auto. }
        assert (forall I s, situation tn w [DOp [x; y] o] I s -> situation tn w [x] I s /\ situation tn w [y] I s) as HSx.
        { intros I s HS. split; (eapply sit_sub; [eassumption|]); intros x' [<-|[]] Hb; simpl in Hb; tauto. }
        destruct (isOr o) eqn:Eo.
        * assert (supported tn x = true /\ supported tn y = true) as [Hx Hy]
            by (destruct o; try discriminate; now apply andb_true_iff in Hsup).
          assert (no_contradiction tn w x /\ no_contradiction tn w y) as [Cx Cy] by (destruct o; try discriminate; auto).
          destruct (H1 Hx Cx) as (rx & Ex & Wx & Nx & Lx & Hrx). destruct (H3 Hy Cy) as (ry & Ey & Wy & Ny & Ly & Hry).
          destruct (or_list M rx ry Wx Wy Nx Ny) as (Wr & Nr & Hr).
          exists (orStateNodeList rx ry). split.
          { cbn [walkCond]. assert (isNonConditionOp o = false) as -> by (destruct o; try discriminate; auto).
            rewrite Eo, Ex, Ey. simpl bind. destruct (orStateNodeList rx ry); auto; congruence. }
          split; auto. split; auto. split.
          { destruct rx as [|a|la]; [congruence| |]; destruct ry as [|b|lb]; try congruence; simpl; intros l E; injection E as <-; try discriminate.
            - intros K. apply app_eq_nil in K as [_ K]; discriminate.
            - intros K. apply app_eq_nil in K as [K _]. eapply Lx; eauto. }
          intros I s HS. destruct (HSx I s HS) as [S1 S2]. rewrite Hr, (Hrx I s S1), (Hry I s S2).
          assert (i_truth I (eval I (DOp [x; y] o)) = i_truth I (eval I x) || i_truth I (eval I y)) as ->.
          { destruct HS as (HI & _). destruct o; try discriminate; simpl; [apply (rs_or _ _ _ HI)|apply (rs_lor _ _ _ HI)]. }
          rewrite orb_true_iff. tauto.
        * destruct (isAnd o) eqn:Ea.
          -- assert (supported tn x = true /\ supported tn y = true) as [Hx Hy]
               by (destruct o; try discriminate; now apply andb_true_iff in Hsup).
             assert (no_contradiction tn w x /\ no_contradiction tn w y) as [Cx Cy] by (destruct o; try discriminate; auto).
             destruct (H1 Hx Cx) as (rx & Ex & Wx & Nx & Lx & Hrx). destruct (H3 Hy Cy) as (ry & Ey & Wy & Ny & Ly & Hry).
             destruct (and_list M rx ry Wx Wy Nx Ny) as (r & E & Wr & Hr).
             assert (forall I s, situation tn w [DOp [x; y] o] I s ->
               (sres_holds I s r <-> i_truth I (eval I (DOp [x; y] o)) = true)) as Hex.
             { intros I s HS. destruct (HSx I s HS) as [S1 S2].
               rewrite (Hr I tn s (sit_range _ _ _ HS) (proj1 HS)), (Hrx I s S1), (Hry I s S2).
               assert (i_truth I (eval I (DOp [x; y] o)) = i_truth I (eval I x) && i_truth I (eval I y)) as ->.
               { destruct HS as (HI & _ & Hb). destruct o; try discriminate; simpl.
                 - apply Forall_inv in Hb. simpl in Hb. apply Hb; reflexivity.
                 - apply (rs_land _ _ _ HI). }
               rewrite andb_true_iff. tauto. }
             destruct Hsat as (I & s & HS & Ht). apply Forall_inv in Ht. rename Ht into H5. apply (Hex I s HS) in H5.
             exists r. split.
             { cbn [walkCond]. assert (isNonConditionOp o = false) as -> by (destruct o; try discriminate; auto).
               rewrite Eo, Ea, Ex, Ey. simpl bind. rewrite E. simpl bind. destruct r; auto. destruct H5. }
             split; auto. split; [intros ->; exact H5|]. split; [now apply (holds_nonempty r I s)|exact Hex].
          -- eexists. split.
             { cbn [walkCond]. rewrite Eo, Ea.
               assert (isNonConditionOp o = true) as ->; [|reflexivity].
               unfold isNonConditionOp. rewrite Ec, Eo, Ea. destruct o; try discriminate; reflexivity. }
             apply any_good; [discriminate|]. destruct o; try discriminate; reflexivity.
  Qed.

  Lemma situation_cons c cs I s : situation tn w (c :: cs) I s <-> situation tn w [c] I s /\ situation tn w cs I s.
  Proof. unfold situation. rewrite !Forall_cons_iff. pose proof (Forall_nil (bitwise_logical I)). tauto. Qed.

  Lemma walk_loop_good cs : Forall (fun c => supported tn c = true) cs -> Forall (no_contradiction tn w) cs ->
    forall acc cs0, cs0 <> [] -> wfs M acc ->
    (forall I s, situation tn w cs0 I s -> (sres_holds I s acc <-> all_true I cs0)) ->
    satisfiable tn w (cs0 ++ cs) ->
    exists r, walk_loop cs acc tn w = Ok r /\ wfs M r /\
      forall I s, situation tn w (cs0 ++ cs) I s -> (sres_holds I s r <-> all_true I (cs0 ++ cs)).
  Proof.
    assert (forall a b I s, situation tn w (a ++ b) I s <-> situation tn w a I s /\ situation tn w b I s) as SA.
    { intros. unfold situation. rewrite Forall_app. tauto. }
    induction cs as [|c cs IH]; intros Hs Hn acc cs0 Hne Wa Ha Hsat; cbn [walk_loop].
    - rewrite app_nil_r in *. exists acc. auto.
    - inv Hs. inv Hn. destruct (walk_good c ltac:(assumption) ltac:(assumption)) as (r & -> & Wr & Nr & Lr & Hr).
      simpl bind.
      assert (acc <> SNone) as Hacc.
      { destruct Hsat as (I & s & HS & Ht). apply SA in HS as [S1 S2]. apply Forall_app in Ht as [T1 T2].
        intros ->. apply (Ha I s S1). exact T1. }
      destruct (and_list M acc r Wa Wr Hacc Nr) as (acc' & E & Wacc & Hac).
      assert (match acc, r with
              | SNone, SNone => Ok SNone
              | SNone, _ => Ok r
              | _, SNone => Ok acc
              | _, _ => andStateNodeList acc r
              end = Ok acc') as -> by (destruct acc; [congruence| |]; destruct r; try congruence; auto).
      simpl bind.
      destruct (IH ltac:(assumption) ltac:(assumption) acc' (cs0 ++ [c])) as (r' & E' & W' & H').
      + intros K. apply app_eq_nil in K as [_ K]; discriminate.
      + exact Wacc.
      + intros I s HS. apply SA in HS as [S1 S2].
        rewrite (Hac I tn s (sit_range _ _ _ S1) (proj1 S1)), (Ha I s S1), (Hr I s S2).
        unfold all_true. rewrite Forall_app, Forall_cons_iff. pose proof (Forall_nil (fun c => i_truth I (eval I c) = true)). tauto.
      + rewrite <- app_assoc. exact Hsat.
      + exists r'. rewrite <- app_assoc in H'. auto.
  Qed.

  Lemma walk_list_good cs : Forall (fun c => supported tn c = true) cs -> Forall (no_contradiction tn w) cs ->
    satisfiable tn w cs ->
    exists r, walkCondlist cs tn w = Ok r /\
      forall I s, situation tn w cs I s -> (sres_holds I s r <-> all_true I cs).
  Proof.
    destruct cs as [|c cs]; intros Hs Hn Hsat.
    - eexists; split; [reflexivity|]. intros I s _. simpl. unfold node_holds, all_true; simpl.
      split; intros; [constructor|auto].
    - cbn [walkCondlist walk_loop]. inv Hs. inv Hn.
      destruct (walk_good c ltac:(assumption) ltac:(assumption)) as (r & E & Wr & Nr & Lr & Hr).
      rewrite E. simpl bind.
      assert (match r with SNone => Ok SNone | _ => Ok r end = Ok r) as -> by (destruct r; auto).
      simpl bind.
      destruct (walk_loop_good cs ltac:(assumption) ltac:(assumption) r [c]) as (r' & E' & W' & H').
      + discriminate.
      + exact Wr.
      + intros I s HS. rewrite (Hr I s HS). unfold all_true. rewrite Forall_cons_iff.
        pose proof (Forall_nil (fun c => i_truth I (eval I c) = true)). tauto.
      + exact Hsat.
      + exists r'. auto.
  Qed.
End Walk.
