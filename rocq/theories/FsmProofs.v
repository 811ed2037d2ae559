(** FsmProofs.v *)
From Verif Require Import Base ScopeModel DfModel DfSpec TransModel BindSpec BindProofs SubsetProofs2 FsmModel FsmSpec.
Local Open Scope Z_scope.

(** ** dictionaries *)
Lemma zget_zset {V} (d : list (Z * V)) k v k' : zget (zset d k v) k' = if k =? k' then Some v else zget d k'.
Proof.
  induction d as [|[k0 v0] d IH]; simpl; [reflexivity|].
  destruct (k0 =? k) eqn:E; simpl.
  - apply Z.eqb_eq in E; subst. destruct (k =? k'); reflexivity.
  - rewrite IH. destruct (k0 =? k') eqn:E'; auto. destruct (k =? k') eqn:E2; auto.
    apply Z.eqb_eq in E', E2; subst. rewrite Z.eqb_refl in E. discriminate.
Qed.
Lemma zget_in {V} (d : list (Z * V)) k v : zget d k = Some v -> In (k, v) d.
Proof.
  induction d as [|[k0 v0] d IH]; simpl; [discriminate|]. destruct (Z.eqb_spec k0 k) as [->|].
  - intros H; injection H as ->; auto.
  - auto.
Qed.
Lemma zget_none {V} (d : list (Z * V)) k : zget d k = None -> ~ In k (map fst d).
Proof.
  induction d as [|[k0 v0] d IH]; simpl; [auto|]. destruct (Z.eqb_spec k0 k) as [->|]; [discriminate|].
  intros H [H'|H']; auto. now apply IH in H.
Qed.
Lemma in_zget {V} (d : list (Z * V)) k v : NoDup (map fst d) -> In (k, v) d -> zget d k = Some v.
Proof.
  induction d as [|[k0 v0] d IH]; simpl; [intros _ []|]. intros Hn [E|Hin].
  - injection E as -> ->. now rewrite Z.eqb_refl.
  - inv Hn. destruct (Z.eqb_spec k0 k) as [->|]; auto. exfalso. apply H1, in_map_iff. exists (k, v). auto.
Qed.
Lemma zset_keys {V} (d : list (Z * V)) k v : NoDup (map fst d) -> NoDup (map fst (zset d k v)) /\
  (forall x, In x (map fst (zset d k v)) <-> x = k \/ In x (map fst d)).
Proof.
  induction d as [|[k0 v0] d IH]; simpl; intros Hn.
  - split; [repeat constructor; auto|]. intros x. intuition.
  - inv Hn. destruct (Z.eqb_spec k0 k) as [->|Hne]; simpl.
    + split; [constructor; auto|]. intros x. intuition.
    + destruct (IH H2) as [I1 I2]. split.
      * constructor; auto. intros H. apply I2 in H as [->|H]; auto.
      * intros x. rewrite I2. intuition.
Qed.

(** ** loops *)
Section Loops.
  Variable m : list (Z * cdict).
  Lemma values_edge a dd b : zget m a = Some dd -> (In b (values dd) <-> edge m a b).
  Proof.
    intros E. unfold values, edge. rewrite in_map_iff. split.
    - intros ((c & d) & <- & H). eauto.
    - intros (dd' & c & E' & H). rewrite E in E'. injection E' as <-. exists (c, b). auto.
  Qed.
  Lemma zminus_in x l vis : In x (zminus l vis) <-> In x l /\ ~ In x vis.
  Proof.
    unfold zminus. rewrite filter_In, negb_true_iff. split; intros [H1 H2]; split; auto.
    - intros Hv. assert (existsb (Z.eqb x) vis = true); [|congruence]. apply existsb_exists. exists x. rewrite Z.eqb_refl. auto.
    - destruct (existsb (Z.eqb x) vis) eqn:E; auto. apply existsb_exists in E as (y & Hy & E). apply Z.eqb_eq in E; subst. contradiction.
  Qed.
  Lemma last_cons (x : Z) l d : l <> [] -> last (x :: l) d = last l d.
  Proof. destruct l; [congruence|reflexivity]. Qed.

  (** Paths found: p starts with node, ends with src, and is a stuttered simple path. [fresh]: the
      node itself is already among the visited (true for the first call and after one
      repetition). *)
  Lemma looppath_sound k : forall src node vis p, In p (looppath m k src node vis) ->
    exists c, stutter m (node :: c) p /\ NoDup (node :: c) /\ last (node :: c) 0 = src /\ last p 0 = src /\ walk m node c /\
      (forall y, In y c -> ~ In y vis) /\ hd 0 p = node /\ p <> [] /\
      (In node vis -> stutter m c (tl p)).
  Proof.
    induction k as [|k IH]; simpl; intros src node vis p Hp; [destruct Hp|].
    destruct (Z.eqb_spec src node) as [->|Hne].
    - destruct Hp as [<-|[]]. exists [].
      split; [repeat constructor|]. split; [constructor; [intros []|constructor]|]. split; [reflexivity|]. split; [reflexivity|].
      split; [constructor|]. split; [intros y []|]. split; [reflexivity|]. split; [discriminate|]. intros _. constructor.
    - destruct (zget m node) as [dd|] eqn:Ed; [|destruct Hp].
      apply in_flat_map in Hp as (n & Hn & Hp). apply in_map_iff in Hp as (q & <- & Hq).
      apply zminus_in in Hn as [Hn Hv]. unfold zset_of in Hn. apply nodup_In in Hn.
      apply (values_edge _ _ _ Ed) in Hn.
      destruct (IH src n (node :: vis) q Hq) as (c & H1 & H2 & H3 & H4 & H5 & H6 & H7 & H8 & H9).
      destruct (Z.eq_dec n node) as [->|Hnn].
      + (* the node repeats itself *)
        exists c. simpl in H9. specialize (H9 (or_introl eq_refl)).
        destruct q as [|q0 q]; [congruence|]. simpl in H7, H9. subst q0.
        split; [apply st_twice; auto|]. split; auto. split; auto. split.
        { exact H4. }
        split; auto. split.
        { intros y Hy. specialize (H6 y Hy). simpl in H6. tauto. }
        split; [reflexivity|]. split; [discriminate|]. intros Hin. contradiction.
      + exists (n :: c). split; [apply st_once; exact H1|]. split.
        { constructor; auto. intros [->|H]; [congruence|]. apply (H6 node H). simpl; auto. }
        split; [exact H3|]. split; [destruct q; [congruence|exact H4]|].
        split; [constructor; auto|]. split.
        { intros y [<-|Hy]; auto. specialize (H6 y Hy). simpl in H6. tauto. }
        split; [reflexivity|]. split; [discriminate|]. intros _. exact H1.
  Qed.

  Lemma get_looppath_sound src p : In p (get_looppath m src) ->
    exists c, stutter m c p /\ cycle m c /\ last c 0 = src /\ last p 0 = src /\ p <> [].
  Proof.
    unfold get_looppath. destruct (zget m src) as [dd|] eqn:Ed; [|intros []].
    intros Hp. apply in_flat_map in Hp as (n & Hn & Hp). unfold zset_of in Hn. apply nodup_In in Hn.
    apply (values_edge _ _ _ Ed) in Hn.
    destruct (looppath_sound _ _ _ _ _ Hp) as (c & H1 & H2 & H3 & H4 & H5 & H6 & H7 & H8 & H9).
    exists (n :: c). split; auto. split; [|auto]. split; auto. split; [discriminate|]. rewrite H3. constructor; auto.
  Qed.

  Lemma looppath_complete k : forall src node vis r, (length (node :: r) <= k)%nat -> NoDup (node :: r) ->
    last (node :: r) 0 = src -> walk m node r -> (forall y, In y r -> ~ In y vis) ->
    In (node :: r) (looppath m k src node vis).
  Proof.
    induction k as [|k IH]; intros src node vis r Hl Hn Hlast Hw Hv; simpl in Hl; [lia|]. cbn [looppath].
    destruct r as [|n r].
    - simpl in Hlast. subst. rewrite Z.eqb_refl. simpl; auto.
    - inversion Hw as [|? ? ? He Hw']; subst. destruct He as (dd & c & Ed & Hc).
      assert (last (node :: n :: r) 0 <> node) as Hne.
      { rewrite last_cons by discriminate. intros E. apply NoDup_cons_iff in Hn as [Hn _]. apply Hn. rewrite <- E.
        rewrite (app_removelast_last (l := n :: r) 0) at 2 by discriminate. apply in_app_iff. right; simpl; auto. }
      destruct (Z.eqb_spec (last (node :: n :: r) 0) node) as [E|_]; [contradiction|].
      rewrite Ed. apply in_flat_map. exists n. split.
      + apply zminus_in. split; [|apply Hv; simpl; auto]. unfold zset_of. apply nodup_In, in_map_iff. exists (c, n). auto.
      + apply in_map. apply IH; auto.
        * simpl in *; lia.
        * now inv Hn.
        * intros y Hy [<-|Hy']; [|now apply (Hv y); simpl; auto]. inv Hn. apply H1. simpl; auto.
  Qed.
  Lemma get_looppath_complete src p : (length p <= 51)%nat -> cycle m p -> last p 0 = src -> In p (get_looppath m src).
  Proof.
    intros Hl [[Hne Hw] Hn] <-. destruct p as [|n r]; [congruence|]. inversion Hw as [|? ? ? He Hw']; subst. destruct He as (dd & c & Ed & Hc).
    unfold get_looppath. rewrite Ed. apply in_flat_map. exists n. split.
    - unfold zset_of. apply nodup_In, in_map_iff. exists (c, n). auto.
    - apply looppath_complete; auto. intros y Hy [<-|[]]. inv Hn. auto.
  Qed.

  (** ** rotation *)
  Lemma fold_min_le l : forall x, fold_left Z.min l x <= x /\ (forall y, In y l -> fold_left Z.min l x <= y) /\
    (fold_left Z.min l x = x \/ In (fold_left Z.min l x) l).
  Proof.
    induction l as [|y l IH]; intros x; simpl; [split; [lia|split; [intros _ []|auto]]|].
    destruct (IH (Z.min x y)) as (H1 & H2 & H3). split; [lia|]. split.
    - intros z [<-|Hz]; [lia|auto].
    - destruct H3 as [H3|H3]; auto. rewrite H3. destruct (Z.min_spec x y) as [[_ ->]|[_ ->]]; auto.
  Qed.
  Lemma zmin_spec l : l <> [] -> In (zmin l) l /\ forall y, In y l -> zmin l <= y.
  Proof.
    destruct l as [|x l]; [congruence|]. intros _. simpl. destruct (fold_min_le l x) as (H1 & H2 & H3). split.
    - destruct H3 as [->|H]; auto.
    - intros y [<-|Hy]; auto.
  Qed.
  Lemma split_at_spec v l : In v l -> exists a b, split_at v l = (a, v :: b) /\ l = a ++ v :: b /\ ~ In v a.
  Proof.
    induction l as [|x l IH]; [intros []|]. intros Hin. simpl. destruct (Z.eqb_spec x v) as [->|Hne].
    - exists [], l. auto.
    - destruct Hin as [->|Hin]; [congruence|]. destruct (IH Hin) as (a & b & -> & -> & Ha). exists (x :: a), b.
      split; auto. split; auto. intros [H|H]; auto.
  Qed.
  Lemma rotate_spec p : p <> [] -> exists a x b, p = a ++ x :: b /\ ~ In x a /\ rotate p = x :: b ++ a /\ least_first (rotate p).
  Proof.
    intros Hp. destruct (zmin_spec p Hp) as [Hin Hle]. destruct (split_at_spec _ _ Hin) as (a & b & Es & Ep & Ha).
    exists a, (zmin p), b. split; auto. split; auto. unfold rotate. rewrite Es. split; auto. simpl. apply Forall_forall.
    intros y Hy. apply Hle. rewrite Ep. rewrite in_app_iff in *. simpl. tauto.
  Qed.
  Lemma rotate_of a x b : (forall y, In y a -> x < y) -> Forall (fun y => x <= y) b -> rotate (a ++ x :: b) = x :: b ++ a.
  Proof.
    intros Ha Hb. set (p := a ++ x :: b). assert (In x p) as Hx by (apply in_app_iff; simpl; auto).
    assert (p <> []) as Hp by (intros E; rewrite E in Hx; destruct Hx).
    destruct (zmin_spec p Hp) as [Hin Hle]. assert (zmin p = x) as E.
    { pose proof (Hle x Hx). rewrite Forall_forall in Hb. apply in_app_iff in Hin as [Hin|[Hin|Hin]]; auto.
      - specialize (Ha _ Hin). lia.
      - specialize (Hb _ Hin). lia. }
    destruct (split_at_spec _ _ Hin) as (a' & b' & Es & Ep & Ha'). unfold rotate. rewrite Es. rewrite E in *.
    assert (a' = a /\ b' = b) as [-> ->]; [|reflexivity].
    clear -Ha Ha' Ep. unfold p in Ep. revert a' Ha' Ep. induction a as [|y a IH]; intros [|z a'] Ha' Ep; simpl in Ep.
    - injection Ep as <-; auto.
    - injection Ep as -> _. exfalso; apply Ha'; simpl; auto.
    - injection Ep as -> _. specialize (Ha x (or_introl eq_refl)). lia.
    - injection Ep as <- Ep. destruct (IH ltac:(intros; apply Ha; simpl; auto) a' ltac:(intros H; apply Ha'; simpl; auto) Ep) as [-> ->]. auto.
  Qed.

  Lemma walk_app a l1 l2 : walk m a (l1 ++ l2) <-> walk m a l1 /\ walk m (last (a :: l1) 0) l2.
  Proof.
    revert a. induction l1 as [|x l1 IH]; intros a; simpl app.
    - split; [intros H; split; [constructor|exact H]|intros [_ H]; exact H].
    - split.
      + intros H. inv H. apply IH in H4 as [H4 H5]. split; [constructor; auto|exact H5].
      + intros [H H']. inv H. constructor; auto. apply IH. split; [auto|exact H'].
  Qed.
  Lemma last_app (l1 l2 : list Z) d : l2 <> [] -> last (l1 ++ l2) d = last l2 d.
  Proof. intros H. induction l1 as [|x l1 IH]; auto. simpl app. rewrite last_cons; [exact IH|]. destruct l1; [exact H|discriminate]. Qed.
  Lemma closed_rot a b : closed_walk m (a ++ b) -> closed_walk m (b ++ a).
  Proof.
    intros [Hne Hw]. destruct a as [|x a]; [rewrite app_nil_r; split; auto|]. destruct b as [|y b]; [rewrite app_nil_r in *; split; auto|].
    split; [discriminate|]. rewrite last_app in * by discriminate.
    apply walk_app in Hw as [H1 H2]. apply walk_app.
    split; [exact H2|exact H1].
  Qed.
  Lemma cycle_rot a b : cycle m (a ++ b) -> cycle m (b ++ a).
  Proof.
    intros [H1 H2]. split; [now apply closed_rot|]. eapply Permutation.Permutation_NoDup; [apply Permutation.Permutation_app_comm|exact H2].
  Qed.
  Lemma stutter_in c l : stutter m c l -> forall x, In x c <-> In x l.
  Proof. induction 1 as [|x c l H IH|x c l He H IH]; intros y; simpl; [tauto| |]; rewrite IH; tauto. Qed.
  Lemma stutter_split a x b : ~ In x a -> forall c, stutter m c (a ++ x :: b) ->
    exists ca cb, c = ca ++ x :: cb /\ stutter m ca a /\ stutter m (x :: cb) (x :: b).
  Proof.
    remember (length a) as n eqn:En. revert a En. induction n as [n IH] using lt_wf_ind. intros a En Ha c H. subst n.
    destruct a as [|y a]; simpl in H.
    - inversion H as [|x' c' l' H'|x' c' l' He H']; subst; (exists [], c'; split; [reflexivity|]; split; [constructor|]).
      + now apply st_once.
      + now apply st_twice.
    - remember (y :: a ++ x :: b) as L eqn:EL. destruct H as [|x' c' l' H'|x' c' l' He H']; [discriminate| |].
      + injection EL as -> ->. destruct (IH (length a) ltac:(simpl; lia) a eq_refl ltac:(intros K; apply Ha; simpl; auto) c' H') as (ca & cb & -> & H1 & H2).
        exists (y :: ca), cb. split; auto. split; auto. now apply st_once.
      + destruct a as [|z a]; simpl in EL; injection EL as F1 F2 F3; [subst; exfalso; apply Ha; simpl; auto|]. subst.
        destruct (IH (length a) ltac:(simpl; lia) a eq_refl ltac:(intros K; apply Ha; simpl; auto) c' H') as (ca & cb & -> & H1 & H2).
        exists (z :: ca), cb. split; auto. split; auto. now apply st_twice.
  Qed.
  Lemma stutter_app c1 l1 c2 l2 : stutter m c1 l1 -> stutter m c2 l2 -> stutter m (c1 ++ c2) (l1 ++ l2).
  Proof. induction 1; simpl; intros; auto; [apply st_once|apply st_twice]; auto. Qed.
  Lemma rotate_sound c p : stutter m c p -> cycle m c ->
    least_first (rotate p) /\ exists c', stutter m c' (rotate p) /\ cycle m c' /\ least_first c'.
  Proof.
    intros Hs Hc. assert (p <> []) as Hp.
    { intros ->. inv Hs. now destruct Hc as [[H _] _]. }
    destruct (rotate_spec p Hp) as (a & x & b & -> & Ha & Er & Hlf). rewrite Er in *. split; auto.
    destruct (stutter_split a x b Ha c Hs) as (ca & cb & -> & H1 & H2).
    exists ((x :: cb) ++ ca). split; [|split].
    - change (x :: b ++ a) with ((x :: b) ++ a). now apply stutter_app.
    - now apply cycle_rot.
    - simpl. simpl in Hlf. rewrite Forall_forall in *. intros y Hy.
      assert (In y (x :: b ++ a)) as Hin.
      { change (x :: b ++ a) with ((x :: b) ++ a). rewrite in_app_iff in *. rewrite <- (stutter_in _ _ H1 y), <- (stutter_in _ _ H2 y). simpl. tauto. }
      destruct Hin as [<-|Hin]; [lia|auto].
  Qed.
  Lemma closed_stutter_gen c l : stutter m c l -> forall a, walk m a c -> walk m a l.
  Proof.
    induction 1 as [|x c l H IH|x c l He H IH]; intros a Hw; auto.
    - inv Hw. constructor; auto.
    - inv Hw. constructor; auto. constructor; auto.
  Qed.
  Lemma stutter_last c l : stutter m c l -> last c 0 = last l 0.
  Proof.
    induction 1 as [|x c l H IH|x c l He H IH]; auto.
    - inv H; simpl in *; auto.
    - inv H; simpl in *; auto.
  Qed.
  Lemma stutter_closed c l : stutter m c l -> closed_walk m c -> closed_walk m l.
  Proof.
    intros H [Hne Hw]. split; [intros ->; inv H; congruence|]. rewrite <- (stutter_last _ _ H). eapply closed_stutter_gen; eauto.
  Qed.
  Lemma stutter_noself c l : (forall x, In x l -> ~ edge m x x) -> stutter m c l -> c = l.
  Proof.
    intros Hn H. induction H as [|x c l H IH|x c l He H IH]; auto.
    - rewrite IH; auto. intros y Hy. apply Hn. simpl; auto.
    - exfalso. apply (Hn x); simpl; auto.
  Qed.

  (** ** the main loop *)
  Lemma path_mem_in p l : path_mem p l = true <-> In p l.
  Proof.
    unfold path_mem. rewrite existsb_exists. split.
    - intros (q & Hq & E). destruct (list_eq_dec Z.eq_dec q p); [subst; auto|discriminate].
    - intros H. exists p. split; auto. destruct (list_eq_dec Z.eq_dec p p); congruence.
  Qed.
  Definition inv_cnt (st : list (list Z) * list (Z * Z)) : Prop := forall s, lookup_cnt (snd st) s = occurrences s (fst st).
  Lemma count_up_spec p : forall cnt s, lookup_cnt (count_up cnt p) s = lookup_cnt cnt s + Z.of_nat (count_occ Z.eq_dec p s).
  Proof.
    unfold count_up. induction p as [|x p IH]; intros cnt s; simpl; [lia|]. rewrite IH. unfold lookup_cnt at 1. rewrite zget_zset.
    destruct (Z.eq_dec x s) as [->|Hne].
    - rewrite Z.eqb_refl. lia.
    - rewrite (proj2 (Z.eqb_neq x s) Hne). fold (lookup_cnt cnt s). lia.
  Qed.
  Lemma occ_app s l1 l2 : occurrences s (l1 ++ l2) = occurrences s l1 + occurrences s l2.
  Proof. unfold occurrences. rewrite concat_app, count_occ_app. lia. Qed.
  Lemma add_path_inv st p : inv_cnt st -> inv_cnt (add_path st p).
  Proof.
    intros H s. unfold add_path. destruct (path_mem (rotate p) (fst st)); [apply H|]. simpl.
    rewrite count_up_spec, occ_app, H. unfold occurrences at 3. simpl. rewrite app_nil_r. reflexivity.
  Qed.
  Lemma add_path_in st p : In (rotate p) (fst (add_path st p)).
  Proof.
    unfold add_path. destruct (path_mem (rotate p) (fst st)) eqn:E; [now apply path_mem_in|]. simpl. apply in_app_iff; simpl; auto.
  Qed.
  Definition extends (a b : list (list Z)) : Prop := exists x, b = a ++ x.
  Lemma add_path_ext st p : extends (fst st) (fst (add_path st p)).
  Proof.
    unfold add_path. destruct (path_mem _ _); [exists []; now rewrite app_nil_r|]. simpl. eexists; reflexivity.
  Qed.
  Lemma extends_trans a b c : extends a b -> extends b c -> extends a c.
  Proof. intros (x & ->) (y & ->). exists (x ++ y). now rewrite app_assoc. Qed.
  Lemma extends_refl a : extends a a.
  Proof. exists []. now rewrite app_nil_r. Qed.
  Lemma extends_in a b p : extends a b -> In p a -> In p b.
  Proof. intros (x & ->) H. apply in_app_iff; auto. Qed.
  Lemma paths_fold ps : forall st, inv_cnt st -> (forall P : list Z -> Prop, Forall P (fst st) -> (forall p, In p ps -> P (rotate p)) ->
      Forall P (fst (fold_left add_path ps st))) /\
    inv_cnt (fold_left add_path ps st) /\ extends (fst st) (fst (fold_left add_path ps st)) /\
    (forall p, In p ps -> In (rotate p) (fst (fold_left add_path ps st))).
  Proof.
    induction ps as [|p ps IH]; intros st Hi; simpl.
    - split; [auto|]. split; auto. split; [apply extends_refl|]. intros _ [].
    - destruct (IH (add_path st p) (add_path_inv _ _ Hi)) as (I1 & I2 & I3 & I4). split; [|split; [auto|split]].
      + intros P HP Hps. apply I1; [|intros; apply Hps; auto].
        unfold add_path. destruct (path_mem _ _); auto. simpl. apply Forall_app. split; auto.
      + eapply extends_trans; [apply add_path_ext|exact I3].
      + intros q [<-|Hq]; auto. eapply extends_in; [exact I3|apply add_path_in].
  Qed.
  Lemma steps_fold ks : forall st, inv_cnt st ->
    let st' := fold_left (loop_step m) ks st in
    inv_cnt st' /\ extends (fst st) (fst st') /\
    (forall P : list Z -> Prop, Forall P (fst st) -> (forall k p, In p (get_looppath m k) -> P (rotate p)) -> Forall P (fst st')) /\
    (forall k dd, In k ks -> zget m k = Some dd ->
       Z.of_nat (length dd) <= occurrences k (fst st') \/ (forall p, In p (get_looppath m k) -> In (rotate p) (fst st'))).
  Proof.
    induction ks as [|k ks IH]; intros st Hi; simpl.
    - split; auto. split; [apply extends_refl|]. split; auto. intros k dd [].
    - assert (inv_cnt (loop_step m st k) /\ extends (fst st) (fst (loop_step m st k)) /\
              (forall P : list Z -> Prop, Forall P (fst st) -> (forall k p, In p (get_looppath m k) -> P (rotate p)) -> Forall P (fst (loop_step m st k))) /\
              (forall dd, zget m k = Some dd -> Z.of_nat (length dd) <= occurrences k (fst (loop_step m st k)) \/
                 (forall p, In p (get_looppath m k) -> In (rotate p) (fst (loop_step m st k))))) as (S1 & S2 & S3 & S4).
      { unfold loop_step. destruct (zget m k) as [dd|] eqn:Ed.
        - destruct (Z.leb_spec (Z.of_nat (length (values dd))) (lookup_cnt (snd st) k)) as [Hle|Hgt].
          + split; auto. split; [apply extends_refl|]. split; auto. intros dd' E; injection E as <-. left.
            unfold values in Hle. rewrite map_length in Hle. rewrite Hi in Hle. exact Hle.
          + destruct (paths_fold (get_looppath m k) st Hi) as (I1 & I2 & I3 & I4). split; auto. split; auto. split; [|auto].
            intros P HP Hps. apply I1; auto. intros p Hp. eapply Hps; eauto.
        - split; auto. split; [apply extends_refl|]. split; auto. discriminate. }
      destruct (IH (loop_step m st k) S1) as (I1 & I2 & I3 & I4). split; auto. split; [eapply extends_trans; eauto|].
      split; [intros P HP Hps; apply I3; auto; apply S3; auto|].
      intros k' dd [<-|Hk] Ed; [|eauto]. destruct (S4 dd Ed) as [H|H].
      + left. destruct I2 as (x & ->). rewrite occ_app. unfold occurrences at 2. lia.
      + right. intros p Hp. eapply extends_in; [exact I2|auto].
  Qed.
  Lemma get_loop_sound l : In l (get_loop m) -> least_first l /\ exists c, stutter m c l /\ cycle m c /\ least_first c.
  Proof.
    unfold get_loop. destruct (steps_fold (sort_by Z.leb (map fst m)) ([], [])) as (_ & _ & H & _); [intros s; reflexivity|].
    specialize (H (fun l => least_first l /\ exists c, stutter m c l /\ cycle m c /\ least_first c)).
    intros Hl.
    refine (proj1 (Forall_forall _ _) (H _ _) l Hl); [constructor|]. intros k p Hp. apply get_looppath_sound in Hp as (c & H1 & H2 & _).
    eapply rotate_sound; eauto.
  Qed.
  Lemma get_loop_complete c : cycle m c -> least_first c -> (length c <= 51)%nat -> In c (get_loop m) \/
    forall s dd, In s c -> zget m s = Some dd -> Z.of_nat (length dd) <= occurrences s (get_loop m).
  Proof.
    intros Hc Hlf Hl. destruct (in_dec (list_eq_dec Z.eq_dec) c (get_loop m)) as [H|Hno]; auto. right. intros s dd Hs Ed.
    unfold get_loop. destruct (steps_fold (sort_by Z.leb (map fst m)) ([], [])) as (_ & _ & _ & H); [intros ?; reflexivity|].
    destruct (H s dd) as [H'|H']; auto.
    { apply sort_by_in. apply in_map_iff. exists (s, dd). split; auto. now apply zget_in. }
    exfalso. apply Hno. unfold get_loop. apply in_split in Hs as (l1 & l2 & ->).
    replace (l1 ++ s :: l2) with ((l1 ++ [s]) ++ l2) in * by (rewrite <- app_assoc; reflexivity).
    assert (rotate (l2 ++ l1 ++ [s]) = (l1 ++ [s]) ++ l2) as Er.
    { destruct Hc as [_ Hnd]. destruct l1 as [|x l1]; simpl in *.
      - apply (rotate_of l2 s []); [|constructor]. intros y Hy. rewrite Forall_forall in Hlf. specialize (Hlf y Hy).
        inv Hnd. assert (s <> y) by (intros ->; contradiction). lia.
      - rewrite rotate_of; [now rewrite <- app_assoc| |].
        + intros y Hy. rewrite Forall_forall in Hlf. assert (In y ((l1 ++ [s]) ++ l2)) as Hin by (apply in_app_iff; auto).
          specialize (Hlf y Hin). inv Hnd. assert (x <> y) by (intros ->; contradiction). lia.
        + apply Forall_forall. intros y Hy. rewrite Forall_forall in Hlf. apply Hlf. apply in_app_iff. auto. }
    rewrite <- Er. apply H'. apply get_looppath_complete.
    - rewrite !app_length in *. lia.
    - now apply cycle_rot.
    - rewrite app_assoc, last_app by discriminate. reflexivity.
  Qed.
End Loops.
