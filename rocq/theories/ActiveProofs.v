(** ActiveProofs.v *)
From Verif Require Import Base ScopeModel DfModel DfSpec BindModel TransModel TransSpec TransProofs TransProps ActiveModel ActiveSpec.
Local Open Scope Z_scope.

(** ** Ranges *)
Lemma in_some2 l x : in_ranges (map some2 l) x <-> inr l x.
Proof.
  split.
  - intros (r & H & K). apply in_map_iff in H. destruct H as ([a b] & <- & H). exists a, b. split; [exact H|]. unfold in_range, some2 in K. cbn [fst snd] in K. lia.
  - intros (a & b & H & K). exists (some2 (a, b)). split; [now apply in_map|]. unfold in_range, some2. cbn [fst snd]. lia.
Qed.
Lemma both_map A : forall a, mapM both A = Ok a -> A = map some2 a.
Proof.
  induction A as [|[[x|] [y|]] A IH]; cbn [mapM both]; intros a E; try discriminate; [injection E as <-; reflexivity|].
  destruct (mapM both A) as [a'|e] eqn:EA; cbn in E; [|discriminate]. injection E as <-. cbn. rewrite <- (IH a' eq_refl). reflexivity.
Qed.
Definition mins (l : list rng) : Prop := Forall (fun r => fst r <> None) l.
Lemma mins_some2 l : mins (map some2 l).
Proof. apply Forall_forall. intros r H. apply in_map_iff in H. destruct H as ([a b] & <- & _). discriminate. Qed.
Lemma and_ranges_spec A B r : and_ranges A B = Ok r -> mins r /\ forall x, in_ranges r x <-> in_ranges A x /\ in_ranges B x.
Proof.
  assert (forall x, ~ in_ranges [] x) as N by (intros x (r0 & [] & _)).
  unfold and_ranges. destruct A as [|p A]; [intros E; injection E as <-; split; [constructor|]; intros x; pose proof (N x); tauto|].
  destruct B as [|q B]; [intros E; injection E as <-; split; [constructor|]; intros x; pose proof (N x); tauto|].
  destruct (mapM both (p :: A)) as [a|e] eqn:EA; cbn [bind]; [|discriminate]. destruct (mapM both (q :: B)) as [b|e] eqn:EB; cbn [bind]; [|discriminate].
  apply both_map in EA, EB. intros E.
  destruct (C22_any_ranges_exact a b) as (l & El & Hl); [intros ->; discriminate|intros ->; discriminate|]. rewrite El in E. cbn [bind] in E. injection E as <-. split; [apply mins_some2|].
  intros x. rewrite EA, EB, !in_some2. apply Hl.
Qed.
Lemma min_of_list mx : forall l, mins l -> exists l', mapM (fun r => min_of r mx) l = Ok l' /\ forall x, x <= mx -> (inr l' x <-> in_ranges l x).
Proof.
  induction 1 as [|[[a|] b] l Ha Hl IH]; [exists []; split; [reflexivity|]; intros x _; split; [intros K; now apply inr_nil in K|intros (r & [] & _)]| |exfalso; apply Ha; reflexivity].
  destruct IH as (l' & E & H). exists ((a, match b with Some b => b | None => mx end) :: l'). split; [cbn [mapM min_of]; destruct b; cbn [bind]; rewrite E; reflexivity|].
  intros x Hx. rewrite inr_cons, H by exact Hx. cbn [fst snd]. split.
  - intros [K|(r & K & K')]; [exists (Some a, b); split; [left; reflexivity|]; unfold in_range; cbn [fst snd]; destruct b; lia|exists r; split; [right|]; assumption].
  - intros (r & [<-|K] & K'); [left; unfold in_range in K'; cbn [fst snd] in K'; destruct b; lia|right; exists r; auto].
Qed.
Lemma inv_ranges_spec l mx : mins l -> exists r, inv_ranges l 0 mx = Ok r /\ mins r /\ forall x, 0 <= x <= mx -> (in_ranges r x <-> ~ in_ranges l x).
Proof.
  intros Hl. destruct (min_of_list mx l Hl) as (l' & E & H). unfold inv_ranges. rewrite E. cbn [bind]. eexists. split; [reflexivity|]. split; [apply mins_some2|].
  intros x Hx. rewrite in_some2, not_ranges_spec by exact Hx. rewrite H by lia. tauto.
Qed.

(** ** Heaps *)
Lemma upd_len {A} (l : list A) i x : length (upd l i x) = length l.
Proof. revert i. induction l; destruct i; cbn; auto. Qed.
Lemma nth_upd_same {A} (l : list A) : forall i x y, nth_error l i = Some y -> nth_error (upd l i x) i = Some x.
Proof. induction l; destruct i; cbn; intros; try discriminate; eauto. Qed.
Lemma nth_upd_other {A} (l : list A) : forall i j x, i <> j -> nth_error (upd l i x) j = nth_error l j.
Proof. induction l; destruct i, j; cbn; intros; try congruence; auto. Qed.
Lemma nth_len {A} (l : list A) i x : nth_error l i = Some x -> (i < length l)%nat.
Proof. intros E. apply nth_error_Some. congruence. Qed.
Lemma nth_app_l {A} (l m : list A) i x : nth_error l i = Some x -> nth_error (l ++ m) i = Some x.
Proof. intros E. rewrite nth_error_app1; [exact E|eapply nth_len; eauto]. Qed.
Lemma nth_snoc_new {A} (l : list A) x : nth_error (l ++ [x]) (length l) = Some x.
Proof. rewrite nth_error_app2, Nat.sub_diag by lia. reflexivity. Qed.
Lemma bnd_ok {A B} (a : M A) (f : A -> M B) h h' y : bnd a f h = Ok (h', y) -> exists h1 x, a h = Ok (h1, x) /\ f x h1 = Ok (h', y).
Proof. unfold bnd. destruct (a h) as [[h1 x]|e]; [eauto|discriminate]. Qed.
Lemma lift_ok {A} (r : res A) h h' x : lift r h = Ok (h', x) -> r = Ok x /\ h' = h.
Proof. unfold lift. destruct r; [|discriminate]. intros E. injection E as <- <-. auto. Qed.
Lemma ret_ok {A} (y : A) h h' x : ret y h = Ok (h', x) -> x = y /\ h' = h.
Proof. intros E. injection E as <- <-. auto. Qed.
Lemma get_term_ok i h h' t : get_term i h = Ok (h', t) -> nth_error (terms h) i = Some t /\ h' = h.
Proof. unfold get_term. destruct (nth_error (terms h) i); [|discriminate]. intros E. injection E as <- <-. auto. Qed.
Lemma get_cond_ok i h h' d : get_cond i h = Ok (h', d) -> nth_error (conds h) i = Some d /\ h' = h.
Proof. unfold get_cond. destruct (nth_error (conds h) i); [|discriminate]. intros E. injection E as <- <-. auto. Qed.
Definition setr (h : heap) (i : nat) (t : aterm) (l : list rng) : heap := Heap (upd (terms h) i (ATerm_ (a_name t) l (a_min t) (a_max t))) (conds h).
Lemma set_ranges_ok i l h h' u : set_ranges i l h = Ok (h', u) -> exists t, nth_error (terms h) i = Some t /\ h' = setr h i t l.
Proof. unfold set_ranges. destruct (nth_error (terms h) i) as [t|]; [|discriminate]. intros E. injection E as <- <-. eauto. Qed.

(** Nothing below n and m changes. *)
Record keep (n m : nat) (h h' : heap) : Prop := {
  k_t : forall i, (i < n)%nat -> nth_error (terms h') i = nth_error (terms h) i;
  k_c : forall i, (i < m)%nat -> nth_error (conds h') i = nth_error (conds h) i;
  k_lt : (length (terms h) <= length (terms h'))%nat;
  k_lc : (length (conds h) <= length (conds h'))%nat }.
Lemma keep_refl n m h : keep n m h h.
Proof. constructor; auto. Qed.
Lemma keep_trans n m a b c : keep n m a b -> keep n m b c -> keep n m a c.
Proof. intros [A1 A2 A3 A4] [B1 B2 B3 B4]. constructor; intros; [rewrite B1, A1 by assumption; reflexivity|rewrite B2, A2 by assumption; reflexivity|lia|lia]. Qed.
Lemma keep_less n m n' m' a b : (n' <= n)%nat -> (m' <= m)%nat -> keep n m a b -> keep n' m' a b.
Proof. intros Hn Hm [A1 A2 A3 A4]. constructor; intros; auto; [apply A1; lia|apply A2; lia]. Qed.

Section Act.
  Variable width : chain -> res Z.
  (** A term that is not true of all values. *)
  Record tpre (h : heap) (i : nat) (k : chain) (t : aterm) (w : Z) : Prop := {
    t_at : nth_error (terms h) i = Some t;
    t_nm : a_name t = k;
    t_w : width k = Ok w;
    t_mn : a_min t = 0;
    t_mx : a_max t = maxValue w;
    t_mins : mins (a_ranges t);
    t_nf : exists x, 0 <= x <= maxValue w /\ ~ in_ranges (a_ranges t) x }.
  Definition tok (h : heap) (i : nat) (k : chain) : Prop := exists t w, tpre h i k t w.
  Definition tgood (h : heap) (i : nat) (k : chain) : Prop := exists t w, tpre h i k t w /\ exists x, 0 <= x <= maxValue w /\ in_ranges (a_ranges t) x.
  Lemma tgood_ok h i k : tgood h i k -> tok h i k.
  Proof. intros (t & w & H & _). exists t, w. exact H. Qed.
  Definition val_ok (val : chain -> Z) : Prop := (forall n m, chain_eq n m = true -> val n = val m) /\ forall n w, width n = Ok w -> 0 <= val n <= maxValue w.
  Lemma tok_holds h i k val t w : tpre h i k t w -> (term_holds h i val <-> in_ranges (a_ranges t) (val k)).
  Proof. intros H. split; [intros (t' & E & K); rewrite (t_at _ _ _ _ _ H) in E; injection E as <-; rewrite (t_nm _ _ _ _ _ H) in K; exact K|]. intros K. exists t. split; [apply H|]. rewrite (t_nm _ _ _ _ _ H). exact K. Qed.
  Lemma tok_keep h h' i k : nth_error (terms h') i = nth_error (terms h) i -> tok h i k -> tok h' i k.
  Proof. intros E (t & w & H). exists t, w. destruct H. constructor; auto. congruence. Qed.
  Lemma tgood_keep h h' i k : nth_error (terms h') i = nth_error (terms h) i -> tgood h i k -> tgood h' i k.
  Proof. intros E (t & w & H & X). exists t, w. split; [|exact X]. destruct H. constructor; auto. congruence. Qed.
  Lemma holds_keep h h' i val : nth_error (terms h') i = nth_error (terms h) i -> (term_holds h' i val <-> term_holds h i val).
  Proof. intros E. unfold term_holds. rewrite E. tauto. Qed.

  (** opNot *)
  Lemma term_not_spec h h' i k u : tgood h i k -> term_not i h = Ok (h', u) ->
    (forall j, j <> i -> nth_error (terms h') j = nth_error (terms h) j) /\ length (terms h') = length (terms h) /\ conds h' = conds h /\ tgood h' i k /\
    forall val, val_ok val -> (term_holds h' i val <-> ~ term_holds h i val).
  Proof.
    intros (t & w & H & x & Hx & Kx) E. unfold term_not in E. apply bnd_ok in E. destruct E as (h1 & t1 & E1 & E). apply get_term_ok in E1. destruct E1 as [E1 ->].
    rewrite (t_at _ _ _ _ _ H) in E1. injection E1 as <-. destruct (a_ranges t) as [|r0 l] eqn:ER; [destruct Kx as (r & [] & _)|]. rewrite <- ER in *. 
    apply bnd_ok in E. destruct E as (h1 & l' & E1 & E). apply lift_ok in E1. destruct E1 as [E1 ->]. apply set_ranges_ok in E. destruct E as (t1 & E2 & ->).
    rewrite (t_at _ _ _ _ _ H) in E2. injection E2 as <-. rewrite (t_mn _ _ _ _ _ H), (t_mx _ _ _ _ _ H) in E1.
    destruct (inv_ranges_spec (a_ranges t) (maxValue w) (t_mins _ _ _ _ _ H)) as (l2 & E3 & M2 & S2). rewrite E3 in E1. injection E1 as <-.
    assert (tpre (setr h i t l2) i k (ATerm_ (a_name t) l2 (a_min t) (a_max t)) w) as HP.
    { destruct H. constructor; cbn [a_name a_ranges a_min a_max]; auto; [eapply nth_upd_same; eassumption|]. exists x. split; [exact Hx|]. rewrite S2 by exact Hx. tauto. }
    split; [intros j Hj; cbn; apply nth_upd_other; auto|]. split; [cbn; apply upd_len|]. split; [reflexivity|]. split.
    - exists (ATerm_ (a_name t) l2 (a_min t) (a_max t)), w. split; [exact HP|]. destruct (t_nf _ _ _ _ _ H) as (y & Hy & Ny). exists y. split; [exact Hy|]. cbn. apply S2; assumption.
    - intros val [_ V]. rewrite (tok_holds _ _ _ _ _ _ HP), (tok_holds _ _ _ _ _ _ H). cbn. apply S2. apply V. apply H.
  Qed.

  (** ** Dictionaries *)
  Definition keys_apart (d : ndict nat) : Prop := ForallOrdPairs (fun p q : chain * nat => chain_eq (fst p) (fst q) = false) d.
  Lemma dget_some (d : ndict nat) n i : dget d n = Some i -> exists k, In (k, i) d /\ chain_eq k n = true.
  Proof. induction d as [|[k j] d IH]; cbn [dget]; [discriminate|]. destruct (chain_eq k n) eqn:E; [intros K; injection K as ->; exists k; cbn; auto|]. intros K. destruct (IH K) as (k' & H1 & H2). exists k'. cbn. auto. Qed.
  Lemma dget_none (d : ndict nat) n : dget d n = None <-> forall k i, In (k, i) d -> chain_eq k n = false.
  Proof.
    induction d as [|[k j] d IH]; cbn [dget]; [split; [intros _ k i []|auto]|]. destruct (chain_eq k n) eqn:E.
    - split; [discriminate|]. intros H. rewrite (H k j (or_introl eq_refl)) in E. discriminate.
    - rewrite IH. split; [intros H k' i [K|K]; [injection K as -> ->; exact E|eauto]|intros H k' i K; apply (H k' i); right; exact K].
  Qed.
  Lemma dset_new (d : ndict nat) n i : dget d n = None -> dset d n i = d ++ [(n, i)].
  Proof. induction d as [|[k j] d IH]; cbn [dget dset app]; [reflexivity|]. destruct (chain_eq k n); [discriminate|]. intros H. rewrite IH by exact H. reflexivity. Qed.
  Lemma apart_snoc d n i : keys_apart d -> dget d n = None -> keys_apart (d ++ [(n, i)]).
  Proof.
    intros H. induction H as [|p d Hp Hd IH]; cbn [app]; intros N; [repeat constructor|]. constructor.
    - apply Forall_app. split; [exact Hp|]. repeat constructor. destruct p as [k j]. apply (proj1 (dget_none _ _) N k j). left. reflexivity.
    - apply IH. apply dget_none. intros k j K. apply (proj1 (dget_none _ _) N k j). right. exact K.
  Qed.
  (** What a condition with dictionary d says. *)
  Definition says (h : heap) (d : ndict nat) (val : chain -> Z) : Prop := forall k i, In (k, i) d -> term_holds h i val.
  Lemma cond_says h c d val : nth_error (conds h) c = Some d -> (cond_holds h c val <-> says h d val).
  Proof. intros E. split; [intros (d' & E' & K); rewrite E in E'; injection E' as <-; exact K|intros K; exists d; auto]. Qed.
  Record dok (h : heap) (d : ndict nat) : Prop := { d_apart : keys_apart d; d_nodup : NoDup (map snd d); d_terms : forall k i, In (k, i) d -> tok h i k }.

  (** One set. *)
  Lemma cond_set_spec h h' c d k i u : nth_error (conds h) c = Some d -> dok h d -> tok h i k -> ~ In i (map snd d) -> cond_set c k i h = Ok (h', u) ->
    exists d', nth_error (conds h') c = Some d' /\ dok h' d' /\ incl d' (d ++ [(k, i)]) /\ d' <> [] /\
    (forall j, j <> c -> nth_error (conds h') j = nth_error (conds h) j) /\ length (conds h') = length (conds h) /\
    (forall j, ~ In j (map snd d) -> nth_error (terms h') j = nth_error (terms h) j) /\ length (terms h') = length (terms h) /\
    (forall val, val_ok val -> (says h' d' val <-> says h d val /\ term_holds h i val)).
  Proof.
    intros EC HD HT HN E. unfold cond_set in E. apply bnd_ok in E. destruct E as (h1 & d1 & E1 & E). apply get_cond_ok in E1. destruct E1 as [E1 ->]. rewrite EC in E1. injection E1 as <-.
    destruct (dget d k) as [cur|] eqn:ED.
    - apply bnd_ok in E. destruct E as (h1 & tc & E1 & E). apply get_term_ok in E1. destruct E1 as [E1 ->].
      apply bnd_ok in E. destruct E as (h1 & tn & E2 & E). apply get_term_ok in E2. destruct E2 as [E2 ->].
      apply bnd_ok in E. destruct E as (h1 & l & E3 & E). apply lift_ok in E3. destruct E3 as [E3 ->]. apply set_ranges_ok in E. destruct E as (t1 & E4 & ->). rewrite E1 in E4. injection E4 as <-.
      apply and_ranges_spec in E3. destruct E3 as [M3 S3]. destruct (dget_some _ _ _ ED) as (kc & Kc & Ec). destruct (d_terms _ _ HD _ _ Kc) as (tc' & wc & HC). pose proof (t_at _ _ _ _ _ HC) as Ac. rewrite E1 in Ac. injection Ac as <-.
      destruct HT as (tn' & wn & HTn). pose proof (t_at _ _ _ _ _ HTn) as An. rewrite E2 in An. injection An as <-.
      assert (cur <> i) as Nci. { intros ->. apply HN. apply (in_map snd) in Kc. exact Kc. }
      assert (tpre (setr h cur tc l) cur kc (ATerm_ (a_name tc) l (a_min tc) (a_max tc)) wc) as HP.
      { destruct HC. constructor; cbn [a_name a_ranges a_min a_max]; auto; [eapply nth_upd_same; eassumption|]. destruct t_nf0 as (x & Hx & Nx). exists x. split; [exact Hx|]. rewrite S3. tauto. }
      assert (forall j, j <> cur -> nth_error (terms (setr h cur tc l)) j = nth_error (terms h) j) as OT by (intros j Hj; cbn; apply nth_upd_other; auto).
      exists d. split; [exact EC|]. split; [|split; [intros p Hp; apply in_or_app; auto|split; [intros ->; destruct Kc|]]].
      + destruct HD as [D1 D2 D3]. constructor; auto. intros k' i' Hi. destruct (Nat.eq_dec i' cur) as [->|Nc]; [|eapply tok_keep; [apply OT; exact Nc|apply D3; exact Hi]].
        assert (k' = kc) as ->; [|exists (ATerm_ (a_name tc) l (a_min tc) (a_max tc)), wc; exact HP].
        destruct (D3 _ _ Hi) as (t2 & w2 & H2). pose proof (t_at _ _ _ _ _ H2) as A2. rewrite E1 in A2. injection A2 as <-. rewrite <- (t_nm _ _ _ _ _ H2), <- (t_nm _ _ _ _ _ HC). reflexivity.
      + split; [reflexivity|]. split; [reflexivity|]. split; [intros j Hj; apply OT; intros ->; apply Hj; apply (in_map snd) in Kc; exact Kc|]. split; [cbn; apply upd_len|].
        intros val [V1 V2]. assert (term_holds (setr h cur tc l) cur val <-> term_holds h cur val /\ term_holds h i val) as HH.
        { rewrite (tok_holds _ _ _ _ _ _ HP), (tok_holds _ _ _ _ _ _ HC), (tok_holds _ _ _ _ _ _ HTn). cbn [a_ranges]. rewrite (V1 kc k Ec). apply S3. }
        split.
        * intros K. pose proof (proj1 HH (K _ _ Kc)) as [Kcur Ki]. split; [|exact Ki]. intros k' i' Hi. destruct (Nat.eq_dec i' cur) as [->|Nc]; [exact Kcur|]. apply (holds_keep h (setr h cur tc l) i' val (OT _ Nc)). eapply K; eauto.
        * intros [K Ki] k' i' Hi. destruct (Nat.eq_dec i' cur) as [->|Nc]; [apply HH; split; [eapply K; eauto|exact Ki]|]. apply (holds_keep h (setr h cur tc l) i' val (OT _ Nc)). eapply K; eauto.
    - unfold put_cond in E. injection E as <- _. rewrite (dset_new _ _ _ ED). exists (d ++ [(k, i)]). cbn [conds terms]. split; [eapply nth_upd_same; eassumption|]. split; [|split; [apply incl_refl|split; [intros K; apply app_eq_nil in K; destruct K; discriminate|]]].
      + destruct HD as [D1 D2 D3]. constructor; [apply apart_snoc; assumption| |].
        * rewrite map_app. cbn [map]. apply NoDup_rev in D2. rewrite <- (rev_involutive (map snd d ++ [snd (k, i)])). apply NoDup_rev. rewrite rev_app_distr. cbn [rev app snd]. constructor; [rewrite <- in_rev; exact HN|exact D2].
        * intros k' i' Hi. apply in_app_or in Hi. destruct Hi as [Hi|[Hi|[]]]; [eapply tok_keep; [|exact (D3 _ _ Hi)]; reflexivity|]. injection Hi as <- <-. eapply tok_keep; [|exact HT]; reflexivity.
      + split; [intros j Hj; apply nth_upd_other; auto|]. split; [apply upd_len|]. split; [reflexivity|]. split; [reflexivity|].
        intros val _. unfold says. split.
        * intros K. split; [intros k' i' Hi; apply (K k' i'); apply in_or_app; auto|apply (K k i); apply in_or_app; right; left; reflexivity].
        * intros [K Ki] k' i' Hi. apply in_app_or in Hi. destruct Hi as [Hi|[Hi|[]]]; [exact (K k' i' Hi)|]. injection Hi as <- <-. exact Ki.
  Qed.

  Lemma says_keep h h' d val : (forall k i, In (k, i) d -> nth_error (terms h') i = nth_error (terms h) i) -> (says h' d val <-> says h d val).
  Proof. intros K. unfold says. split; intros H k i Hi; [rewrite <- (holds_keep h h' i val (K k i Hi)); eauto|rewrite (holds_keep h h' i val (K k i Hi)); eauto]. Qed.
  (** All sets of a dictionary. *)
  Lemma each_set : forall ds h h' n d u, nth_error (conds h) n = Some d -> dok h d -> (forall k i, In (k, i) ds -> tok h i k) -> NoDup (map snd (d ++ ds)) -> each (set_item n) ds h = Ok (h', u) ->
    exists d', nth_error (conds h') n = Some d' /\ dok h' d' /\ incl d' (d ++ ds) /\ (d' = [] -> d = [] /\ ds = []) /\
    (forall j, j <> n -> nth_error (conds h') j = nth_error (conds h) j) /\ length (conds h') = length (conds h) /\
    (forall j, ~ In j (map snd (d ++ ds)) -> nth_error (terms h') j = nth_error (terms h) j) /\ length (terms h') = length (terms h) /\
    (forall val, val_ok val -> (says h' d' val <-> says h d val /\ says h ds val)).
  Proof.
    induction ds as [|[k i] ds IH]; intros h h' n d u EC HD HT ND E; cbn [each] in E.
    - apply ret_ok in E. destruct E as [_ ->]. exists d. rewrite app_nil_r. split; [exact EC|]. split; [exact HD|]. split; [apply incl_refl|]. split; [auto|]. split; [auto|]. split; [auto|]. split; [auto|]. split; [auto|]. intros val _. split; [intros K; split; [exact K|intros k i []]|tauto].
    - apply bnd_ok in E. destruct E as (h1 & u1 & E1 & E). unfold set_item in E1. cbn [fst snd] in E1.
      assert (~ In i (map snd d)) as Ni. { rewrite map_app in ND. cbn [map snd] in ND. apply NoDup_remove_2 in ND. intros K. apply ND. apply in_or_app. auto. }
      assert (NoDup (map snd d ++ map snd ds)) as ND1. { rewrite map_app in ND. cbn [map snd] in ND. apply NoDup_remove_1 in ND. exact ND. }
      destruct (cond_set_spec h h1 n d k i u1 EC HD (HT k i (or_introl eq_refl)) Ni E1) as (d1 & C1 & D1 & I1 & N1 & OC1 & LC1 & OT1 & LT1 & S1).
      assert (NoDup (map snd (d1 ++ ds))) as ND2.
      { rewrite map_app in *. cbn [map snd] in ND. assert (~ In i (map snd ds)) as Ni2. { apply NoDup_remove_2 in ND. intros K. apply ND. apply in_or_app. auto. }
        pose proof (d_nodup _ _ D1) as Nd1. assert (forall j, In j (map snd d1) -> ~ In j (map snd ds)) as Dj.
        { intros j Hj Kj. apply in_map_iff in Hj. destruct Hj as ([k2 i2] & E2 & Hj). cbn in E2. subst i2. apply I1 in Hj. apply in_app_or in Hj. destruct Hj as [Hj|[Hj|[]]]; [|injection Hj as <- <-; auto].
          apply (in_map snd) in Hj. cbn in Hj. clear -ND1 Hj Kj. induction (map snd d); [destruct Hj|]. cbn in ND1. apply NoDup_cons_iff in ND1. destruct ND1 as [N1 N2]. destruct Hj as [->|Hj]; [apply N1; apply in_or_app; auto|auto]. }
        assert (NoDup (map snd ds)) as Nds. { clear -ND1. induction (map snd d); [exact ND1|]. cbn in ND1. apply NoDup_cons_iff in ND1. tauto. }
        clear -Nd1 Dj Nds. induction (map snd d1) as [|j l IHl]; [exact Nds|]. cbn. apply NoDup_cons_iff in Nd1. destruct Nd1 as [N1 N2]. constructor; [intros K; apply in_app_or in K; destruct K as [K|K]; [auto|apply (Dj j); [left; reflexivity|exact K]]|]. apply IHl; [exact N2|]. intros x Hx. apply Dj. right. exact Hx. }
      assert (forall k2 i2, In (k2, i2) ds -> nth_error (terms h1) i2 = nth_error (terms h) i2) as OD.
      { intros k2 i2 H2. apply OT1. intros K. apply (in_map snd) in H2. cbn in H2. clear -ND1 H2 K. induction (map snd d); [destruct K|]. cbn in ND1. apply NoDup_cons_iff in ND1. destruct ND1 as [N1 N2]. destruct K as [->|K]; [apply N1; apply in_or_app; auto|auto]. }
      destruct (IH h1 h' n d1 u C1 D1 (fun k2 i2 H2 => tok_keep _ _ _ _ (OD k2 i2 H2) (HT k2 i2 (or_intror H2))) ND2 E) as (d' & C' & D' & I' & N' & OC' & LC' & OT' & LT' & S').
      exists d'. split; [exact C'|]. split; [exact D'|]. split; [|split; [|split; [|split; [lia|split; [|split; [lia|]]]]]].
      + intros p Hp. apply I' in Hp. apply in_app_or in Hp. destruct Hp as [Hp|Hp]; [apply I1 in Hp; apply in_app_or in Hp; destruct Hp as [Hp|[<-|[]]]; apply in_or_app; cbn; auto|apply in_or_app; cbn; auto].
      + intros ->. destruct (N' eq_refl) as [-> _]. exfalso. apply N1. reflexivity.
      + intros j Hj. rewrite OC', OC1 by exact Hj. reflexivity.
      + intros j Hj. rewrite OT', OT1; [reflexivity| |].
        * intros K. apply Hj. rewrite map_app. apply in_or_app. auto.
        * intros K. apply Hj. rewrite map_app in *. apply in_app_or in K. apply in_or_app. cbn [map snd]. destruct K as [K|K]; [|right; right; exact K]. apply in_map_iff in K. destruct K as (p & <- & K). apply I1 in K. apply in_app_or in K. destruct K as [K|[<-|[]]]; [left; now apply in_map|right; left; reflexivity].
      + intros val V. rewrite (S' val V), (S1 val V). rewrite (says_keep h h1 ds val OD). unfold says. split.
        * intros [[K1 K2] K3]. split; [exact K1|]. intros k2 i2 [H2|H2]; [injection H2 as <- <-; exact K2|eauto].
        * intros [K1 K2]. split; [split; [exact K1|apply (K2 k i); left; reflexivity]|intros k2 i2 H2; apply (K2 k2 i2); right; exact H2].
  Qed.
  (** Without common names nothing is intersected. *)
  Lemma upd_upd {A} (l : list A) : forall i x y, upd (upd l i x) i y = upd l i y.
  Proof. induction l; destruct i; cbn; intros; congruence. Qed.
  Lemma upd_nth {A} (l : list A) : forall i x, nth_error l i = Some x -> upd l i x = l.
  Proof. induction l; destruct i; cbn; intros x E; try discriminate; [congruence|]. f_equal. auto. Qed.
  Lemma apart_app d e : keys_apart (d ++ e) -> forall p q, In p d -> In q e -> chain_eq (fst p) (fst q) = false.
  Proof. induction d as [|a d IH]; cbn; intros H p q Hp Hq; [destruct Hp|]. inversion H as [|? ? H1 H2]; subst. destruct Hp as [->|Hp]; [|eauto]. rewrite Forall_forall in H1. apply H1. apply in_or_app. auto. Qed.
  Lemma each_set_apart : forall ds h n d, nth_error (conds h) n = Some d -> keys_apart (d ++ ds) -> each (set_item n) ds h = Ok (Heap (terms h) (upd (conds h) n (d ++ ds)), tt).
  Proof.
    induction ds as [|[k i] ds IH]; intros h n d EC HA; cbn [each].
    - rewrite app_nil_r. rewrite upd_nth by exact EC. destruct h; reflexivity.
    - unfold bnd at 1. unfold set_item at 1. cbn [fst snd]. unfold cond_set, bnd at 1, get_cond. rewrite EC.
      assert (dget d k = None) as ED. { apply dget_none. intros k' i' H'. apply (apart_app _ _ HA (k', i') (k, i) H'). left. reflexivity. }
      rewrite ED. unfold put_cond. rewrite (dset_new _ _ _ ED). rewrite (IH _ n (d ++ [(k, i)])); cbn [terms conds]; [rewrite upd_upd, <- app_assoc; reflexivity|eapply nth_upd_same; eassumption|rewrite <- app_assoc; exact HA].
  Qed.
End Act.
