(** MergeProofs2.v - slices: placement, overlap, splitting. *)
From Verif Require Import Base ScopeModel DfModel BindModel OptModel OptSpec OptArith OptProofs OptProofs2 MergeModel MergeSpec HierProofs HierConcat.
Require Import Coq.Sorting.Permutation Coq.Sorting.Sorted.
Local Open Scope Z_scope.

Lemma slice_inv b m l : slice_of b = Some (m, l) -> exists wm f g wl f' g', b_msb b = DEval (PInt m) wm f g /\ b_lsb b = DEval (PInt l) wl f' g' /\ b_ptr b = DNone.
Proof.
  unfold slice_of. destruct (b_msb b) as [ |?|?|?|?|? ?|? ? ?|? ?|?|? ? ?|[m'| | |] ? ? ?|?|?|?|? ?]; try discriminate. destruct (b_lsb b) as [ |?|?|?|?|? ?|? ? ?|? ?|?|? ? ?|[l'| | |] ? ? ?|?|?|?|? ?]; try discriminate.
  destruct (b_ptr b); try discriminate. intros H. injection H as <- <-. eauto 10.
Qed.

(** ** Overlaps *)
Section Ranges.
  Variable (sm sl : Z).
  Hypothesis Hs : sl <= sm.
  Lemma matched_in assigned sp m l q : In (m, l, q) (matchedRange assigned sm sl sp) ->
    exists m0 l0 p0, In (m0, l0, p0) assigned /\ (l0 <= sl <= m0 \/ l0 <= sm <= m0) /\
      m = (if (l0 <=? sm) && (sm <=? m0) then sm else m0) /\ l = (if (l0 <=? sl) && (sl <=? m0) then sl else l0).
  Proof.
    induction assigned as [|[[m0 l0] p0] r IH]; cbn [matchedRange]; [contradiction|]. destruct (match sp with Some _ => _ | None => _ end).
    - intros H. destruct (IH H) as (m1 & l1 & p1 & H1 & H2). exists m1, l1, p1. split; [now right|auto].
    - destruct ((l0 <=? sl) && (sl <=? m0)) eqn:Ea; [|destruct ((l0 <=? sm) && (sm <=? m0)) eqn:Eb]; cbn [orb].
      + intros [H|H]; [|destruct (IH H) as (m1 & l1 & p1 & H1 & H2); exists m1, l1, p1; split; [now right|auto]].
        injection H as <- <- _. exists m0, l0, p0. split; [now left|]. rewrite Ea. apply andb_true_iff in Ea as [E1 E2]. apply Z.leb_le in E1, E2. repeat split; auto.
      + intros [H|H]; [|destruct (IH H) as (m1 & l1 & p1 & H1 & H2); exists m1, l1, p1; split; [now right|auto]].
        injection H as <- <- _. exists m0, l0, p0. split; [now left|]. rewrite Ea, Eb. apply andb_true_iff in Eb as [E1 E2]. apply Z.leb_le in E1, E2. repeat split; auto.
      + intros H. destruct (IH H) as (m1 & l1 & p1 & H1 & H2). exists m1, l1, p1. split; [now right|auto].
  Qed.
  (** Matched ranges are intersections. *)
  Lemma matched_inter assigned sp r : Forall proper assigned -> In r (matchedRange assigned sm sl sp) ->
    exists r0, In r0 assigned /\ (forall x, inside r x <-> inside r0 x /\ sl <= x <= sm) /\ proper r.
  Proof.
    intros HP H. destruct r as [[m l] q]. apply matched_in in H as (m0 & l0 & p0 & HI & HC & -> & ->). exists (m0, l0, p0). split; auto.
    rewrite Forall_forall in HP. specialize (HP _ HI). unfold inside, proper in *. cbn [fst snd] in *.
    destruct (Z.leb_spec l0 sm), (Z.leb_spec sm m0), (Z.leb_spec l0 sl), (Z.leb_spec sl m0); cbn [andb]; (split; [intros x; lia|lia]).
  Qed.
  Lemma matched_all assigned : forall m0 l0 p0, In (m0, l0, p0) assigned -> (l0 <= sl <= m0 \/ l0 <= sm <= m0) ->
    In (if (l0 <=? sm) && (sm <=? m0) then sm else m0, if (l0 <=? sl) && (sl <=? m0) then sl else l0, None) (matchedRange assigned sm sl None).
  Proof.
    induction assigned as [|[[m1 l1] p1] r IH]; intros m0 l0 p0 HI HC; [contradiction|]. cbn [matchedRange]. destruct HI as [HI|HI].
    - injection HI as -> -> ->. assert (((l0 <=? sl) && (sl <=? m0) || (l0 <=? sm) && (sm <=? m0)) = true) as ->; [|left; auto].
      apply orb_true_iff. rewrite !andb_true_iff, !Z.leb_le. tauto.
    - specialize (IH _ _ _ HI HC). destruct (_ || _); [right|]; auto.
  Qed.

  Definition two_ends (l : list range) : Prop := (l = [] \/ exists a, l = [a] \/ exists b, l = [a; b]).
  (** At most two ranges of a disjoint history contain an end of the slice. *)
  Lemma matched_none assigned sp : (forall r, In r assigned -> ~ inside r sl /\ ~ inside r sm) -> matchedRange assigned sm sl sp = [].
  Proof.
    induction assigned as [|[[m l] p] r IH]; intros H; auto. cbn [matchedRange]. rewrite IH by (intros; apply H; now right). destruct (match sp with Some _ => _ | None => _ end); auto.
    destruct (H _ (or_introl eq_refl)) as [H1 H2]. unfold inside in *. cbn [fst snd] in *.
    destruct (Z.leb_spec l sm), (Z.leb_spec sm m), (Z.leb_spec l sl), (Z.leb_spec sl m); cbn [andb orb]; auto; lia.
  Qed.
  Definition cut (r : range) : range := (if (snd (fst r) <=? sm) && (sm <=? fst (fst r)) then sm else fst (fst r), if (snd (fst r) <=? sl) && (sl <=? fst (fst r)) then sl else snd (fst r), None).
  Definition has_end (r : range) : Prop := inside r sl \/ inside r sm.
  Lemma has_end_b (r : range) : ((snd (fst r) <=? sl) && (sl <=? fst (fst r)) || (snd (fst r) <=? sm) && (sm <=? fst (fst r))) = true <-> has_end r.
  Proof. unfold has_end, inside. rewrite orb_true_iff, !andb_true_iff, !Z.leb_le. tauto. Qed.
  Lemma matched_cons r l : matchedRange (r :: l) sm sl None = (if (snd (fst r) <=? sl) && (sl <=? fst (fst r)) || (snd (fst r) <=? sm) && (sm <=? fst (fst r)) then [cut r] else []) ++ matchedRange l sm sl None.
  Proof. destruct r as [[m l'] p]. cbn [matchedRange fst snd]. destruct (_ || _); reflexivity. Qed.
  Lemma matched_split assigned : ForallOrdPairs apart assigned -> let M := matchedRange assigned sm sl None in
    (M = [] /\ forall r, In r assigned -> ~ has_end r) \/
    (exists r, M = [cut r] /\ In r assigned /\ has_end r) \/
    (exists r s, M = [cut r; cut s] /\ In r assigned /\ In s assigned /\ apart r s /\ (inside r sl /\ inside s sm \/ inside r sm /\ inside s sl)).
  Proof.
    intros H. cbn zeta. induction H as [|r l Hr H IH]; [left; split; auto|]. rewrite matched_cons.
    destruct (_ || _) eqn:E.
    - apply has_end_b in E. destruct IH as [(-> & _)|[(s & -> & I1 & I2)|(s & t & -> & I1 & I2 & I3 & I4)]].
      + right. left. exists r. split; auto. split; auto. now left.
      + right. right. exists r, s. split; auto. split; [now left|]. split; [now right|]. rewrite Forall_forall in Hr. specialize (Hr _ I1). split; auto.
        unfold apart in Hr. destruct E as [E|E], I2 as [I2|I2]; auto; exfalso; eapply Hr; eauto.
      + exfalso. rewrite Forall_forall in Hr. pose proof (Hr _ I1) as A1. pose proof (Hr _ I2) as A2. unfold apart in *. destruct E as [E|E], I4 as [[J1 J2]|[J1 J2]]; [eapply A1|eapply A2|eapply A2|eapply A1]; eauto.
    - assert (~ has_end r) as N by (intros K; apply has_end_b in K; congruence). cbn [app].
      destruct IH as [(-> & I0)|[(s & -> & I1 & I2)|(s & t & -> & I1 & I2 & I3 & I4)]].
      + left. split; auto. intros x [->|K]; auto.
      + right. left. exists s. split; auto. split; auto. now right.
      + right. right. exists s, t. split; auto. split; [now right|]. split; [now right|]. split; auto.
  Qed.
  Theorem cover_ok assigned : Forall proper assigned -> ForallOrdPairs apart assigned ->
    (forall m l p, In (m, l, p) assigned -> ~ (sl < l /\ m < sm)) ->
    (forall r s, In r assigned -> In s assigned -> inside r sl -> inside s sm -> snd (fst s) <= fst (fst r) + 1) ->
    forall x, sl <= x <= sm <-> (exists r, In r (matchedRange assigned sm sl None) /\ inside r x) \/
                                (exists r, In r (unmatchedRange (matchedRange assigned sm sl None) sm sl None) /\ between r x).
  Proof.
    intros HP HA HI HE x. destruct (matched_split _ HA) as [(-> & N)|[(r & -> & I1 & I2)|(r & s & -> & I1 & I2 & I3 & I4)]].
    - split; [intros H; right; exists (sm, sl, None); split; [now left|unfold between; cbn; lia]|]. intros [(r & [] & _)|(r & [<-|[]] & K)]. unfold between in K. cbn in K. lia.
    - rewrite Forall_forall in HP. specialize (HP _ I1). destruct r as [[m l] p]. specialize (HI _ _ _ I1). unfold has_end, inside, proper in *. cbn [fst snd] in *. unfold cut. cbn [fst snd].
      set (a := if (l <=? sm) && (sm <=? m) then sm else m). set (b := if (l <=? sl) && (sl <=? m) then sl else l).
      assert (a = Z.min m sm /\ b = Z.max l sl) as [Ha Hb].
      { subst a b. destruct (Z.leb_spec l sm), (Z.leb_spec sm m), (Z.leb_spec l sl), (Z.leb_spec sl m); cbn [andb]; lia. }
      clearbody a b. unfold unmatchedRange. cbn [sort_by insert_by unmatched_go optmin optmax app].
      destruct (Z.ltb_spec sl b), (Z.ltb_spec a sm); cbn [app].
      all: split;
        [ intros Hx; destruct (Z_lt_le_dec x b); [first [exfalso; lia|right; eexists; split; [left; reflexivity|]; unfold between; cbn [fst snd]; lia]|];
          destruct (Z_lt_le_dec a x); [first [exfalso; lia|right; eexists; split; [left; reflexivity|]; unfold between; cbn [fst snd]; lia|right; eexists; split; [right; left; reflexivity|]; unfold between; cbn [fst snd]; lia]|];
          left; eexists; split; [left; reflexivity|cbn [fst snd]; lia]
        | intros [(r & [<-|[]] & K)|(r & K & K')]; [cbn [fst snd] in K; lia|cbn [In] in K; repeat destruct K as [<-|K]; try contradiction; unfold between in K'; cbn [fst snd] in K'; lia] ].
    - remember [cut r; cut s] as M eqn:EM. assert (exists u v, (In u assigned /\ In v assigned) /\ inside u sl /\ inside v sm /\ apart u v /\ (M = [cut u; cut v] \/ M = [cut v; cut u])) as (u & v & [Iu Iv] & U & Vv & UV & HM).
      { destruct I4 as [[J1 J2]|[J1 J2]]; [exists r, s; auto 10|exists s, r; split; auto; split; auto; split; auto; split; auto; intros y [K1 K2]; apply (I3 y); auto]. }
      clear EM r s I1 I2 I3 I4. pose proof (HE _ _ Iu Iv U Vv) as Adj. rewrite Forall_forall in HP. pose proof (HP _ Iu) as Pu. pose proof (HP _ Iv) as Pv.
      destruct u as [[mu lu] pu], v as [[mv lv] pv]. unfold inside, proper, apart in *. cbn [fst snd] in *.
      assert (mu < lv). { destruct (Z_lt_le_dec mu lv); auto. exfalso. apply (UV (Z.max lu lv)). unfold inside. cbn. lia. }
      assert (cut (mu, lu, pu) = (mu, sl, None)) as Cu. { unfold cut. cbn [fst snd]. destruct (Z.leb_spec lu sl); [|lia]. destruct (Z.leb_spec sl mu); [|lia]. destruct (Z.leb_spec lu sm); [|lia]. destruct (Z.leb_spec sm mu); [lia|]. reflexivity. }
      assert (cut (mv, lv, pv) = (sm, lv, None)) as Cv. { unfold cut. cbn [fst snd]. destruct (Z.leb_spec lv sm); [|lia]. destruct (Z.leb_spec sm mv); [|lia]. destruct (Z.leb_spec lv sl); [lia|]. reflexivity. }
      rewrite Cu, Cv in HM.
      assert (sort_by (fun a b => fst (fst a) <=? fst (fst b)) [cut (mu, lu, pu); cut (mv, lv, pv)] = [(mu, sl, None); (sm, lv, None)]) as S1.
      { rewrite Cu, Cv. cbn [sort_by insert_by fst snd]. destruct (Z.leb_spec mu sm); [reflexivity|lia]. }
      assert (sort_by (fun a b => fst (fst a) <=? fst (fst b)) [cut (mv, lv, pv); cut (mu, lu, pu)] = [(mu, sl, None); (sm, lv, None)]) as S2.
      { rewrite Cu, Cv. cbn [sort_by insert_by fst snd]. destruct (Z.leb_spec sm mu); [lia|reflexivity]. }
      rewrite Cu, Cv in S1, S2.
      assert (forall M, M = [(mu, sl, None); (sm, lv, None)] \/ M = [(sm, lv, None); (mu, sl, None)] -> unmatchedRange M sm sl None = []) as UM.
      { intros M' HMM. unfold unmatchedRange. match goal with |- context [sort_by ?f M'] => replace (sort_by f M') with [(mu, sl, @None Z); (sm, lv, @None Z)] by (destruct HMM as [->| ->]; [symmetry; exact S1|symmetry; exact S2]) end.
        cbn [unmatched_go optmin optmax]. destruct (Z.ltb_spec lv (mu + 1)); [lia|]. destruct (Z.ltb_spec lv sl); [lia|]. destruct (Z.ltb_spec mu sm); [|lia]. rewrite Z.ltb_irrefl.
        destruct (Z.ltb_spec sm sm); [lia|]. reflexivity. }
      rewrite (UM _ HM). split.
      + intros H'. left. destruct (Z_le_gt_dec x mu).
        * exists (mu, sl, None). split; [destruct HM as [->| ->]; cbn; auto|cbn; lia].
        * exists (sm, lv, None). split; [destruct HM as [->| ->]; cbn; auto|cbn; lia].
      + intros [(r & K & K')|(r & [] & _)]. destruct HM as [HM|HM]; rewrite HM in K; cbn in K; repeat destruct K as [<-|K]; try contradiction; cbn in K'; lia.
  Qed.
End Ranges.
