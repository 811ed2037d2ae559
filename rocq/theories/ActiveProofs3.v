(** ActiveProofs3.v *)
From Verif Require Import Base ScopeModel DfModel DfSpec BindModel TransModel TransSpec TransProofs TransProps ActiveModel ActiveSpec ActiveProofs ActiveProofs2.
Local Open Scope Z_scope.

Section Act.
  Variable width : chain -> res Z.
  Notation tgood := (tgood width).
  Notation val_ok := (val_ok width).
  Notation dgood := (dgood width).
  Notation cgood := (cgood width).
  Notation vgood := (vgood width).
  Definition no_common (S T : names) : Prop := forall k l, S k -> T l -> chain_eq k l = false /\ chain_eq l k = false.

  Lemma apart_join n0 n1 n2 S T h d e : dgood n0 n1 S h d -> dgood n1 n2 T h e -> no_common S T -> dgood n0 n2 (either S T) h (d ++ e) /\ dgood n0 n2 (either S T) h (e ++ d).
  Proof.
    intros [D1 D2 D3 D4] [E1 E2 E3 E4] N.
    assert (forall k i l j, In (k, i) d -> In (l, j) e -> chain_eq k l = false /\ chain_eq l k = false /\ i <> j) as K.
    { intros k i l j Hi Hj. destruct (D4 k i Hi) as (R & _ & Sk), (E4 l j Hj) as (R' & _ & Tl). destruct (N k l Sk Tl). repeat split; auto; lia. }
    assert (forall d e : ndict nat, keys_apart d -> keys_apart e -> (forall k i l j, In (k, i) d -> In (l, j) e -> chain_eq k l = false) -> keys_apart (d ++ e)) as AP.
    { intros d0 e0 H0 He. induction H0 as [|[k i] d0 Hp Hd IH]; cbn [app]; intros K0; [exact He|]. constructor; [apply Forall_app; split; [exact Hp|]; apply Forall_forall; intros [l j] Hj; apply (K0 k i l j); [left; reflexivity|exact Hj]|]. apply IH. intros k' i' l j Hi Hj. apply (K0 k' i' l j); [right; exact Hi|exact Hj]. }
    assert (forall k i, In (k, i) (d ++ e) \/ In (k, i) (e ++ d) -> (n0 <= i < n2)%nat /\ tgood h i k /\ either S T k) as TT.
    { assert (n1 <= n2)%nat by (destruct e as [|[l j] e]; [congruence|destruct (E4 l j (or_introl eq_refl)); lia]). assert (n0 <= n1)%nat by (destruct d as [|[l j] d]; [congruence|destruct (D4 l j (or_introl eq_refl)); lia]).
      intros k i Hi. assert (In (k, i) d \/ In (k, i) e) as [Hi'|Hi'] by (destruct Hi as [Hi|Hi]; apply in_app_or in Hi; tauto); [destruct (D4 k i Hi') as (R & G & Sk)|destruct (E4 k i Hi') as (R & G & Sk)]; (split; [lia|split; [exact G|unfold either; auto]]). }
    split; constructor.
    - intros X. apply app_eq_nil in X. tauto.
    - apply AP; auto. intros k i l j Hi Hj. apply (K k i l j Hi Hj).
    - rewrite map_app. apply nodup_app; auto. intros i Hi Ki. apply in_map_iff in Hi, Ki. destruct Hi as ([k j] & <- & Hi), Ki as ([k2 j2] & X & Ki). cbn in X. subst j2. destruct (K _ _ _ _ Hi Ki) as (_ & _ & X). auto.
    - intros k i Hi. apply TT. auto.
    - intros X. apply app_eq_nil in X. tauto.
    - apply AP; auto. intros l j k i Hj Hi. apply (K k i l j Hi Hj).
    - rewrite map_app. apply nodup_app; auto. intros i Hi Ki. apply in_map_iff in Hi, Ki. destruct Hi as ([k j] & <- & Hi), Ki as ([k2 j2] & X & Ki). cbn in X. subst j2. destruct (K _ _ _ _ Ki Hi) as (_ & _ & X). auto.
    - intros k i Hi. apply TT. auto.
  Qed.
  Lemma says_app h d e val : says h (d ++ e) val <-> says h d val /\ says h e val.
  Proof. unfold says. split; [intros K; split; intros k i Hi; apply (K k i); apply in_or_app; auto|]. intros [K1 K2] k i Hi. apply in_app_or in Hi. destruct Hi; eauto. Qed.

  (** and_conds without common names *)
  Lemma and_conds_apart h l r dl dr : nth_error (conds h) l = Some dl -> nth_error (conds h) r = Some dr -> keys_apart (dl ++ dr) -> and_conds l r h = Ok (Heap (terms h) (conds h ++ [dl ++ dr]), length (conds h)).
  Proof.
    intros El Er A. pose proof (nth_len _ _ _ El) as Ll. pose proof (nth_len _ _ _ Er) as Lr. unfold and_conds. unfold bnd at 1. unfold new_cond. unfold bnd at 1. unfold get_cond at 1. cbn [conds].
    rewrite (nth_app_l _ _ _ _ El). unfold bnd at 1. assert (keys_apart ([] ++ dl)) as Al. { cbn [app]. clear -A. induction dl as [|p dl IH]; [constructor|]. cbn in A. inversion A as [|? ? A1 A2]; subst. constructor; [apply Forall_app in A1; tauto|apply IH; exact A2]. }
    rewrite (each_set_apart dl _ (length (conds h)) []); [|cbn [conds]; apply nth_snoc_new|exact Al]. cbn [app terms conds].
    assert (forall (l : list (ndict nat)) x y, upd (l ++ [x]) (length l) y = l ++ [y]) as U by (intros l0 x y; induction l0; cbn; congruence). rewrite U.
    unfold bnd at 1. unfold get_cond. cbn [conds]. rewrite (nth_app_l _ _ _ _ Er). unfold bnd at 1. rewrite (each_set_apart dr _ (length (conds h)) dl); [|cbn [conds]; apply nth_snoc_new|exact A]. cbn [terms conds]. rewrite U. reflexivity.
  Qed.
  Lemma maps_and : forall (ps : list (nat * nat)) h, (forall l r, In (l, r) ps -> exists dl dr, nth_error (conds h) l = Some dl /\ nth_error (conds h) r = Some dr /\ keys_apart (dl ++ dr)) ->
    exists h' cs, maps (fun p => and_conds (fst p) (snd p)) ps h = Ok (h', cs) /\ terms h' = terms h /\ (length (conds h) <= length (conds h'))%nat /\ (forall i, (i < length (conds h))%nat -> nth_error (conds h') i = nth_error (conds h) i) /\
    NoDup cs /\ (forall c, In c cs -> (length (conds h) <= c < length (conds h'))%nat) /\
    (forall c, In c cs -> exists l r dl dr, In (l, r) ps /\ nth_error (conds h) l = Some dl /\ nth_error (conds h) r = Some dr /\ nth_error (conds h') c = Some (dl ++ dr)) /\
    (forall l r dl dr, In (l, r) ps -> nth_error (conds h) l = Some dl -> nth_error (conds h) r = Some dr -> exists c, In c cs /\ nth_error (conds h') c = Some (dl ++ dr)).
  Proof.
    induction ps as [|[l r] ps IH]; intros h H.
    - exists h, []. cbn [maps]. split; [reflexivity|]. split; [reflexivity|]. split; [lia|]. split; [auto|]. split; [constructor|]. split; [intros c []|]. split; [intros c []|]. intros l r dl dr [].
    - destruct (H l r (or_introl eq_refl)) as (dl & dr & El & Er & A). cbn [maps]. unfold bnd at 1. cbn [fst snd]. rewrite (and_conds_apart h l r dl dr El Er A). set (h1 := Heap (terms h) (conds h ++ [dl ++ dr])).
      assert (length (conds h1) = S (length (conds h))) as L1 by (cbn; rewrite app_length; cbn; lia).
      destruct (IH h1) as (h' & cs & E & T' & L' & O' & ND & B & P1 & P2).
      { intros l' r' Hp. destruct (H l' r' (or_intror Hp)) as (dl' & dr' & El' & Er' & A'). exists dl', dr'. cbn. split; [apply nth_app_l; exact El'|]. split; [apply nth_app_l; exact Er'|exact A']. }
      unfold bnd at 1. rewrite E. exists h', (length (conds h) :: cs). split; [reflexivity|]. split; [exact T'|]. split; [lia|]. split.
      { intros i Hi. rewrite O' by lia. cbn. rewrite nth_error_app1 by exact Hi. reflexivity. }
      split; [constructor; [intros K; apply B in K; lia|exact ND]|]. split; [intros c [<-|Hc]; [lia|apply B in Hc; lia]|]. split.
      + intros c [<-|Hc].
        * exists l, r, dl, dr. split; [left; reflexivity|]. split; [exact El|]. split; [exact Er|]. rewrite O' by lia. apply nth_snoc_new.
        * destruct (P1 c Hc) as (l' & r' & dl' & dr' & Hp & E1 & E2 & E3). destruct (H l' r' (or_intror Hp)) as (dl2 & dr2 & El' & Er' & _). cbn in E1, E2. rewrite (nth_app_l _ _ _ _ El') in E1. rewrite (nth_app_l _ _ _ _ Er') in E2. injection E1 as <-. injection E2 as <-. exists l', r', dl2, dr2. split; [right; exact Hp|]. auto.
      + intros l' r' dl' dr' [Ep|Hp] E1 E2.
        * injection Ep as <- <-. rewrite El in E1. rewrite Er in E2. injection E1 as <-. injection E2 as <-. exists (length (conds h)). split; [left; reflexivity|]. rewrite O' by lia. apply nth_snoc_new.
        * destruct (P2 l' r' dl' dr' Hp) as (c & Hc & Ec); [cbn; apply nth_app_l; exact E1|cbn; apply nth_app_l; exact E2|]. exists c. split; [right; exact Hc|exact Ec].
  Qed.
  (** A term joins all conditions of a list. *)
  Lemma each_join : forall cs h t x, nth_error (terms h) t = Some x -> NoDup cs -> (forall c, In c cs -> exists d, nth_error (conds h) c = Some d /\ dget d (a_name x) = None) ->
    exists h', each (fun c => set_name c t) cs h = Ok (h', tt) /\ terms h' = terms h /\ length (conds h') = length (conds h) /\ (forall c, ~ In c cs -> nth_error (conds h') c = nth_error (conds h) c) /\
    (forall c d, In c cs -> nth_error (conds h) c = Some d -> nth_error (conds h') c = Some (d ++ [(a_name x, t)])).
  Proof.
    induction cs as [|c cs IH]; intros h t x Ex ND H; cbn [each].
    - exists h. repeat split; auto. intros c d [].
    - apply NoDup_cons_iff in ND. destruct ND as [Nc ND]. destruct (H c (or_introl eq_refl)) as (d & Ec & Ed). unfold bnd at 1. rewrite (set_name_eq c t x h Ex). unfold set_item. cbn [fst snd]. unfold cond_set, bnd at 1, get_cond. rewrite Ec, Ed. unfold put_cond. rewrite (dset_new _ _ _ Ed).
      destruct (IH (Heap (terms h) (upd (conds h) c (d ++ [(a_name x, t)]))) t x Ex ND) as (h' & E & T' & L' & O' & P').
      { intros c' Hc'. destruct (H c' (or_intror Hc')) as (d' & Ec' & Ed'). exists d'. split; [cbn; rewrite nth_upd_other by (intros ->; auto); exact Ec'|exact Ed']. }
      exists h'. split; [exact E|]. split; [exact T'|]. split; [rewrite L'; cbn; apply upd_len|]. split.
      + intros c' Hc'. rewrite O' by (intros K; apply Hc'; right; exact K). cbn. apply nth_upd_other. intros ->. apply Hc'. left. reflexivity.
      + intros c' d' [<-|Hc'] Ed'.
        * rewrite Ec in Ed'. injection Ed' as <-. rewrite O' by exact Nc. cbn. eapply nth_upd_same. exact Ec.
        * apply P'; [exact Hc'|]. cbn. rewrite nth_upd_other by (intros ->; auto). exact Ed'.
  Qed.
  Lemma cgood_at n0 n1 S h c : cgood n0 n1 S h c -> exists d, nth_error (conds h) c = Some d /\ dgood n0 n1 S h d /\ forall val, cond_holds h c val <-> says h d val.
  Proof. intros (d & E & D). exists d. split; [exact E|]. split; [exact D|]. intros val. apply cond_says. exact E. Qed.
  Lemma dgood_heap n0 n1 S h h' d : terms h' = terms h -> dgood n0 n1 S h d -> dgood n0 n1 S h' d.
  Proof. intros E. apply dgood_more; auto. intros i _. rewrite E. reflexivity. Qed.
  Lemma says_heap h h' d val : terms h' = terms h -> (says h' d val <-> says h d val).
  Proof. intros E. apply says_keep. intros. rewrite E. reflexivity. Qed.
  (** Conjunction of pairs of conditions. *)
  Lemma and_pairs n0 n1 n2 m0 m1 m2 S T h ps : (n0 <= n1 <= n2)%nat -> (m0 <= m1 <= m2)%nat -> m2 = length (conds h) -> n2 = length (terms h) -> no_common S T ->
    (forall l r, In (l, r) ps -> cgood n0 n1 S h l /\ cgood n1 n2 T h r) ->
    exists h' cs, maps (fun p => and_conds (fst p) (snd p)) ps h = Ok (h', cs) /\ keep n2 m2 h h' /\ vgood n0 (length (terms h')) m0 (length (conds h')) (either S T) h' (AList cs) /\
    forall val, some_holds h' cs val <-> exists l r, In (l, r) ps /\ cond_holds h l val /\ cond_holds h r val.
  Proof.
    intros Ln Lm Em En N H. destruct (maps_and ps h) as (h' & cs & E & T' & L' & O' & ND & B & P1 & P2).
    { intros l r Hp. destruct (H l r Hp) as [Gl Gr]. destruct Gl as (dl & El & Dl), Gr as (dr & Er & Dr). exists dl, dr. split; [exact El|]. split; [exact Er|]. apply (apart_join _ _ _ _ _ _ _ _ Dl Dr N). }
    exists h', cs. split; [exact E|]. split; [constructor; [intros; rewrite T'; reflexivity|intros i Hi; apply O'; lia|rewrite T'; lia|lia]|]. split.
    - cbn [ActiveProofs2.vgood]. split; [exact ND|]. intros c Hc. split; [apply B in Hc; lia|]. destruct (P1 c Hc) as (l & r & dl & dr & Hp & E1 & E2 & E3). exists (dl ++ dr). split; [exact E3|].
      destruct (H l r Hp) as [(dl' & El & Dl) (dr' & Er & Dr)]. rewrite El in E1. rewrite Er in E2. injection E1 as <-. injection E2 as <-. apply (dgood_heap _ _ _ _ _ _ T'). rewrite T', <- En. apply (apart_join _ _ _ _ _ _ _ _ Dl Dr N).
    - intros val. split.
      + intros (c & Hc & K). destruct (P1 c Hc) as (l & r & dl & dr & Hp & E1 & E2 & E3). exists l, r. split; [exact Hp|]. rewrite (cond_says h l dl val E1), (cond_says h r dr val E2). rewrite (cond_says h' c _ val E3) in K. rewrite (says_heap _ _ _ _ T'), says_app in K. exact K.
      + intros (l & r & Hp & K1 & K2). destruct (H l r Hp) as [(dl & El & Dl) (dr & Er & Dr)]. destruct (P2 l r dl dr Hp El Er) as (c & Hc & Ec). exists c. split; [exact Hc|]. rewrite (cond_says h' c _ val Ec), (says_heap _ _ _ _ T'), says_app. rewrite (cond_says h l dl val El) in K1. rewrite (cond_says h r dr val Er) in K2. auto.
  Qed.
  (** Conjunction with a list. *)
  Lemma and_list n0 n1 n2 m0 m1 m2 S T h h' a b v : (n0 <= n1 <= n2)%nat -> (m0 <= m1 <= m2)%nat -> m2 = length (conds h) -> n2 = length (terms h) -> vgood n0 n1 m0 m1 S h a -> vgood n1 n2 m1 m2 T h b -> is_kind KList a \/ is_kind KList b -> no_common S T -> op_and a b h = Ok (h', v) ->
    keep n0 m0 h h' /\ vgood n0 (length (terms h')) m0 (length (conds h')) (either S T) h' v /\ is_kind KList v /\ forall val, val_ok val -> (holds h' v val <-> holds h a val /\ holds h b val).
  Proof.
    intros Ln Lm Em En VA VB KK N E.
    assert (forall ps, (forall l r, In (l, r) ps -> cgood n0 n1 S h l /\ cgood n1 n2 T h r) -> maps (fun p => and_conds (fst p) (snd p)) ps h = match v with AList cs => Ok (h', cs) | _ => Err Unmodelled end ->
      (forall val, (exists l r, In (l, r) ps /\ cond_holds h l val /\ cond_holds h r val) <-> holds h a val /\ holds h b val) ->
      keep n0 m0 h h' /\ vgood n0 (length (terms h')) m0 (length (conds h')) (either S T) h' v /\ is_kind KList v /\ forall val, val_ok val -> (holds h' v val <-> holds h a val /\ holds h b val)) as PAIRS.
    { intros ps HP EP HH. destruct (and_pairs n0 n1 n2 m0 m1 m2 S T h ps Ln Lm Em En N HP) as (h2 & cs & E2 & K2 & V2 & S2). rewrite E2 in EP. destruct v as [|t|c|cs']; try discriminate. injection EP as -> ->. split; [eapply keep_less; [| |exact K2]; lia|]. split; [exact V2|]. split; [exact I|]. intros val _. cbn [holds]. rewrite S2. apply HH. }
    assert (forall t x cs (S0 T0 : names) p0 p1 q0 q1, nth_error (terms h) t = Some x -> NoDup cs -> (n0 <= p0)%nat -> (p1 <= n2)%nat -> (m0 <= q0)%nat -> (q1 <= m2)%nat -> (n0 <= t < n2)%nat -> tgood h t (a_name x) -> S0 (a_name x) -> (forall c, In c cs -> (q0 <= c < q1)%nat /\ cgood p0 p1 T0 h c) -> ~ (p0 <= t < p1)%nat -> no_common T0 S0 ->
      (forall k, S0 k -> either S T k) -> (forall k, T0 k -> either S T k) -> each (fun c => set_name c t) cs h = Ok (h', tt) -> v = AList cs ->
      keep n0 m0 h h' /\ vgood n0 (length (terms h')) m0 (length (conds h')) (either S T) h' v /\ is_kind KList v /\ forall val, (holds h' v val <-> term_holds h t val /\ some_holds h cs val)) as JOIN.
    { intros t x cs S0 T0 p0 p1 q0 q1 Ex ND L1 L2 L3 L4 L5 GT ST HC NT NC HS HT EJ ->. destruct (each_join cs h t x Ex ND) as (h2 & E2 & T2 & LC2 & O2 & P2).
      { intros c Hc. destruct (HC c Hc) as [_ (d & Ed & D)]. exists d. split; [exact Ed|]. apply dget_none. intros k i Hi. apply (NC k (a_name x)); [apply (dg_terms _ _ _ _ _ _ D k i Hi)|exact ST]. }
      rewrite E2 in EJ. injection EJ as ->.
      assert (forall c, In c cs -> exists d, nth_error (conds h) c = Some d /\ nth_error (conds h') c = Some (d ++ [(a_name x, t)]) /\ dgood n0 n2 (either S T) h' (d ++ [(a_name x, t)])) as DD.
      { intros c Hc. destruct (HC c Hc) as [_ (d & Ed & D)]. exists d. split; [exact Ed|]. split; [apply P2; assumption|]. destruct D as [D1 D2 D3 D4].
        apply (dgood_heap _ _ _ h h' _ T2). constructor.
        - intros X. apply app_eq_nil in X. tauto.
        - apply apart_snoc; [exact D2|]. apply dget_none. intros k i Hi. apply (NC k (a_name x)); [apply (D4 k i Hi)|exact ST].
        - rewrite map_app. apply nodup_app; [exact D3|repeat constructor; intros []|]. intros i Hi [<-|[]]. apply in_map_iff in Hi. destruct Hi as ([k j] & X & Hi). cbn in X. subst j. apply NT. apply (D4 k t Hi).
        - intros k i Hi. apply in_app_or in Hi. destruct Hi as [Hi|[Hi|[]]]; [destruct (D4 k i Hi) as (R & G & Tk); split; [lia|split; [exact G|auto]]|]. injection Hi as <- <-. split; [lia|]. split; [exact GT|auto]. }
      split; [constructor|split; [|split; [exact I|]]].
      - intros i _. rewrite T2. reflexivity.
      - intros i Hi. apply O2. intros K. destruct (HC i K) as [R _]. lia.
      - rewrite T2. lia.
      - lia.
      - cbn [ActiveProofs2.vgood]. split; [exact ND|]. intros c Hc. destruct (HC c Hc) as [R _]. split; [lia|]. destruct (DD c Hc) as (d & _ & Ed & D). exists (d ++ [(a_name x, t)]). split; [exact Ed|]. rewrite T2, <- En. exact D.
      - intros val. cbn [holds]. unfold some_holds. split.
        + intros (c & Hc & K). destruct (DD c Hc) as (d & Ed & Ed' & _). rewrite (cond_says h' c _ val Ed'), (says_heap _ _ _ _ T2), says_app in K. destruct K as [K1 K2]. split; [apply (K2 (a_name x) t); left; reflexivity|]. exists c. split; [exact Hc|]. rewrite (cond_says h c d val Ed). exact K1.
        + intros [K1 (c & Hc & K2)]. exists c. split; [exact Hc|]. destruct (DD c Hc) as (d & Ed & Ed' & _). rewrite (cond_says h' c _ val Ed'), (says_heap _ _ _ _ T2), says_app. rewrite (cond_says h c d val Ed) in K2. split; [exact K2|]. intros k i [X|[]]. injection X as <- <-. exact K1. }
    destruct a as [|t|c|cs]; [contradiction| | |]; (destruct b as [|t'|c'|cs']; [contradiction| | |]); unfold op_and in E; cbn [is_kind] in KK; try (exfalso; tauto).
    - apply bnd_ok in E. destruct E as (h1 & u & E1 & E). apply ret_ok in E. destruct E as [-> ->]. destruct u. destruct VA as (k & D). destruct (dg_terms _ _ _ _ _ _ D k t (or_introl eq_refl)) as (R & G & Sk). destruct G as (x & w & H & X). assert (a_name x = k) as Ek by apply H. subst k. destruct VB as [ND VB].
      destruct (JOIN t x cs' S T n1 n2 m1 m2) as (J1 & J2 & J3 & J4); auto; try lia; [apply H|exists x, w; auto|intros k l Hk Hl; destruct (N l k Hl Hk); auto|intros; left; auto|intros; right; auto|]. split; [exact J1|]. split; [exact J2|]. split; [exact J3|]. intros val V. apply J4.
    - apply bnd_ok in E. destruct E as (h1 & l & E1 & E). apply ret_ok in E. destruct E as [-> ->]. destruct VA as [R GA], VB as [ND VB]. apply (PAIRS (map (pair c) cs')).
      + intros l0 r0 Hp. apply in_map_iff in Hp. destruct Hp as (e & X & He). injection X as <- <-. split; [exact GA|apply VB; exact He].
      + rewrite maps_map. exact E1.
      + intros val. cbn [holds]. unfold some_holds. split; [intros (l0 & r0 & Hp & K1 & K2); apply in_map_iff in Hp; destruct Hp as (e & X & He); injection X as <- <-; eauto|]. intros [K1 (e & He & K2)]. exists c, e. split; [now apply in_map|auto].
    - apply bnd_ok in E. destruct E as (h1 & u & E1 & E). apply ret_ok in E. destruct E as [-> ->]. destruct u. destruct VB as (k & D). destruct (dg_terms _ _ _ _ _ _ D k t' (or_introl eq_refl)) as (R & G & Sk). destruct G as (x & w & H & X). assert (a_name x = k) as Ek by apply H. subst k. destruct VA as [ND VA].
      destruct (JOIN t' x cs T S n0 n1 m0 m1) as (J1 & J2 & J3 & J4); auto; try lia; [apply H|exists x, w; auto|intros; right; auto|intros; left; auto|]. split; [exact J1|]. split; [exact J2|]. split; [exact J3|]. intros val V. rewrite J4. cbn [holds]. tauto.
    - apply bnd_ok in E. destruct E as (h1 & l & E1 & E). apply ret_ok in E. destruct E as [-> ->]. destruct VA as [ND VA], VB as [R GB]. apply (PAIRS (map (fun c => (c, c')) cs)).
      + intros l0 r0 Hp. apply in_map_iff in Hp. destruct Hp as (e & X & He). injection X as <- <-. split; [apply VA; exact He|exact GB].
      + rewrite maps_map. exact E1.
      + intros val. cbn [holds]. unfold some_holds. split; [intros (l0 & r0 & Hp & K1 & K2); apply in_map_iff in Hp; destruct Hp as (e & X & He); injection X as <- <-; eauto|]. intros [(e & He & K2) K1]. exists e, c'. split; [apply (in_map (fun c => (c, c'))); exact He|auto].
    - apply bnd_ok in E. destruct E as (h1 & l & E1 & E). apply ret_ok in E. destruct E as [-> ->]. destruct VA as [ND VA], VB as [ND' VB]. apply (PAIRS (flat_map (fun e => map (fun c => (c, e)) cs) cs')).
      + intros l0 r0 Hp. apply in_flat_map in Hp. destruct Hp as (e & He & Hp). apply in_map_iff in Hp. destruct Hp as (c & X & Hc). injection X as <- <-. split; [apply VA; exact Hc|apply VB; exact He].
      + exact E1.
      + intros val. cbn [holds]. unfold some_holds. split.
        * intros (l0 & r0 & Hp & K1 & K2). apply in_flat_map in Hp. destruct Hp as (e & He & Hp). apply in_map_iff in Hp. destruct Hp as (c & X & Hc). injection X as <- <-. split; [exists c|exists e]; auto.
        * intros [(c & Hc & K1) (e & He & K2)]. exists c, e. split; [|auto]. apply in_flat_map. exists e. split; [exact He|]. apply (in_map (fun c => (c, e))). exact Hc.
  Qed.
End Act.
