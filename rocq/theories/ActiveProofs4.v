(** ActiveProofs4.v *)
From Verif Require Import Base ScopeModel DfModel DfSpec BindModel TransModel TransSpec TransProofs TransProps ActiveModel ActiveSpec ActiveProofs ActiveProofs2 ActiveProofs3.
Local Open Scope Z_scope.

Section Act.
  Variable width : chain -> res Z.
  Notation tgood := (tgood width).
  Notation val_ok := (val_ok width).
  Notation dgood := (dgood width).
  Notation cgood := (cgood width).
  Notation vgood := (vgood width).
  Lemma cgood_more n0 n1 p0 p1 (S T : names) h h' c : (p0 <= n0)%nat -> (n1 <= p1)%nat -> (forall k, S k -> T k) -> (forall i, (n0 <= i < n1)%nat -> nth_error (terms h') i = nth_error (terms h) i) -> nth_error (conds h') c = nth_error (conds h) c -> cgood n0 n1 S h c -> cgood p0 p1 T h' c.
  Proof. intros H1 H2 HS HT HC (d & E & D). exists d. split; [congruence|]. eapply dgood_more; eauto. Qed.
  (** Disjunction. *)
  Lemma as_conds_spec n0 n1 m0 m1 S h h' v l : (m1 <= length (conds h))%nat -> vgood n0 n1 m0 m1 S h v -> as_conds v h = Ok (h', l) ->
    terms h' = terms h /\ (length (conds h) <= length (conds h'))%nat /\ (forall i, (i < length (conds h))%nat -> nth_error (conds h') i = nth_error (conds h) i) /\ NoDup l /\
    (forall c, In c l -> ((m0 <= c < m1)%nat \/ (length (conds h) <= c < length (conds h'))%nat) /\ cgood n0 n1 S h' c) /\ forall val, some_holds h' l val <-> holds h v val.
  Proof.
    intros L V E. destruct v as [|t|c|cs]; cbn [as_conds] in E; [contradiction| | |].
    - destruct V as (k & D). destruct (dg_terms _ _ _ _ _ _ D k t (or_introl eq_refl)) as (R & (x & w & H & X) & Sk). assert (a_name x = k) as Ek by apply H. subst k.
      apply bnd_ok in E. destruct E as (h0 & n & E0 & E). injection E0 as <- <-. apply bnd_ok in E. destruct E as (h1 & u & E1 & E). apply ret_ok in E. destruct E as [-> ->].
      rewrite (set_name_eq _ t x) in E1 by (cbn; apply H). assert (each (set_item (length (conds h))) [(a_name x, t)] (blank h) = Ok (h1, tt)) as E2 by (rewrite each_one; unfold blank; rewrite E1; reflexivity).
      rewrite (each_set_apart [(a_name x, t)] (blank h) (length (conds h)) []) in E2; [|apply nth_snoc_new|repeat constructor]. injection E2 as <-. cbn [blank terms conds app].
      assert (forall (l : list (ndict nat)) x y, upd (l ++ [x]) (length l) y = l ++ [y]) as U by (intros l0 x0 y0; induction l0; cbn; congruence). rewrite U. rewrite app_length. cbn [length].
      split; [reflexivity|]. split; [lia|]. split; [intros i Hi; apply nth_error_app1; exact Hi|]. split; [repeat constructor; intros []|]. split.
      + intros c [<-|[]]. split; [right; lia|]. exists [(a_name x, t)]. cbn [conds]. split; [apply nth_snoc_new|]. eapply dgood_heap; [|exact D]. reflexivity.
      + intros val. cbn [holds]. split.
        * intros (c & [<-|[]] & K). rewrite (cond_says _ _ [(a_name x, t)] val) in K by (cbn; apply nth_snoc_new). exact (K (a_name x) t (or_introl eq_refl)).
        * intros K. exists (length (conds h)). split; [left; reflexivity|]. rewrite (cond_says _ _ [(a_name x, t)] val) by (cbn; apply nth_snoc_new). intros k i [Y|[]]. injection Y as <- <-. exact K.
    - apply ret_ok in E. destruct E as [-> ->]. destruct V as [R G]. split; [reflexivity|]. split; [lia|]. split; [auto|]. split; [repeat constructor; intros []|]. split; [intros c' [<-|[]]; auto|]. intros val. cbn [holds]. split; [intros (c' & [<-|[]] & K); exact K|intros K; exists c; cbn; auto].
    - apply ret_ok in E. destruct E as [-> ->]. destruct V as [ND G]. split; [reflexivity|]. split; [lia|]. split; [auto|]. split; [exact ND|]. split; [intros c' Hc; destruct (G c' Hc); auto|]. intros val. cbn [holds]. tauto.
  Qed.
  Lemma or_spec n0 n1 n2 m0 m1 m2 S T h h' a b v : (n0 <= n1 <= n2)%nat -> (m0 <= m1 <= m2)%nat -> m2 = length (conds h) -> n2 = length (terms h) -> vgood n0 n1 m0 m1 S h a -> vgood n1 n2 m1 m2 T h b -> op_or a b h = Ok (h', v) ->
    keep n0 m0 h h' /\ vgood n0 (length (terms h')) m0 (length (conds h')) (either S T) h' v /\ is_kind KList v /\ forall val, holds h' v val <-> holds h a val \/ holds h b val.
  Proof.
    intros Ln Lm Em En VA VB E. assert ((x <<- as_conds a; y <<- as_conds b; ret (AList (x ++ y))) h = Ok (h', v)) as E' by (destruct a; [contradiction|..]; (destruct b; [contradiction|..]); exact E). clear E. rename E' into E.
    apply bnd_ok in E. destruct E as (h1 & la & E1 & E). apply bnd_ok in E. destruct E as (h2 & lb & E2 & E). apply ret_ok in E. destruct E as [-> ->].
    assert (m1 <= length (conds h))%nat as LL by lia. destruct (as_conds_spec _ _ _ _ _ _ _ _ _ LL VA E1) as (T1 & L1 & O1 & N1 & G1 & H1).
    assert (vgood n1 n2 m1 m2 T h1 b) as VB1. { eapply vgood_more; [..|exact VB]; auto; [intros i _; rewrite T1; reflexivity|intros i Hi; apply O1; lia]. }
    assert (forall val, holds h1 b val <-> holds h b val) as HB1. { intros val. eapply holds_more; [| |exact VB]; [intros i _; rewrite T1; reflexivity|intros i Hi; apply O1; lia]. }
    assert (m2 <= length (conds h1))%nat as LL2 by lia. destruct (as_conds_spec _ _ _ _ _ _ _ _ _ LL2 VB1 E2) as (T2 & L2 & O2 & N2 & G2 & H2).
    assert (forall c, In c la -> (c < length (conds h1))%nat) as B1 by (intros c Hc; destruct (G1 c Hc) as [R _]; lia).
    split; [constructor|split; [|split; [exact I|]]].
    - intros i _. rewrite T2, T1. reflexivity.
    - intros i Hi. rewrite O2, O1 by lia. reflexivity.
    - rewrite T2, T1. lia.
    - lia.
    - cbn [ActiveProofs2.vgood]. split.
      + apply nodup_app; auto. intros c Hc Kc. destruct (G1 c Hc) as [R _], (G2 c Kc) as [R' _]. specialize (B1 c Hc). lia.
      + intros c Hc. apply in_app_or in Hc. destruct Hc as [Hc|Hc].
        * destruct (G1 c Hc) as [R G]. split; [specialize (B1 c Hc); lia|]. eapply cgood_more; [| | | | |exact G]; [lia|rewrite T2, T1; lia|intros; left; auto|intros i _; rewrite T2; reflexivity|apply O2; auto].
        * destruct (G2 c Hc) as [R G]. split; [lia|]. eapply cgood_more; [| | | | |exact G]; [lia|rewrite T2, T1; lia|intros; right; auto|reflexivity|reflexivity].
    - intros val. cbn [holds]. rewrite <- (HB1 val), <- (H1 val), <- (H2 val). unfold some_holds. assert (forall c, In c la -> (cond_holds h2 c val <-> cond_holds h1 c val)) as Q.
      { intros c Hc. unfold cond_holds. rewrite (O2 c (B1 c Hc)). unfold term_holds. rewrite T2. tauto. }
      split.
      + intros (c & Hc & K). apply in_app_or in Hc. destruct Hc as [Hc|Hc]; [left; exists c; split; [exact Hc|apply Q; auto]|right; exists c; auto].
      + intros [(c & Hc & K)|(c & Hc & K)]; exists c; (split; [apply in_or_app; auto|]); [apply Q; auto|exact K].
  Qed.
  (** Negation. *)
  Lemma maps_not : forall d h h' l, NoDup (map snd d) -> (forall k i, In (k, i) d -> tgood h i k) -> maps (fun p => term_not (snd p);;; n <<- new_cond; set_item n p;;; ret n) d h = Ok (h', l) ->
    length (terms h') = length (terms h) /\ (length (conds h) <= length (conds h'))%nat /\ (forall j, ~ In j (map snd d) -> nth_error (terms h') j = nth_error (terms h) j) /\ (forall c, (c < length (conds h))%nat -> nth_error (conds h') c = nth_error (conds h) c) /\
    (forall k i, In (k, i) d -> tgood h' i k /\ forall val, val_ok val -> (term_holds h' i val <-> ~ term_holds h i val)) /\
    NoDup l /\ (forall c, In c l -> (length (conds h) <= c < length (conds h'))%nat) /\ (forall c, In c l -> exists p, In p d /\ nth_error (conds h') c = Some [p]) /\ (forall p, In p d -> exists c, In c l /\ nth_error (conds h') c = Some [p]).
  Proof.
    induction d as [|[k i] d IH]; intros h h' l ND G E; cbn [maps] in E.
    - apply ret_ok in E. destruct E as [-> ->]. repeat split; auto; try lia; try (intros; contradiction).
    - apply bnd_ok in E. destruct E as (h3 & c & E1 & E). apply bnd_ok in E. destruct E as (h4 & l' & E4 & E). apply ret_ok in E. destruct E as [-> ->].
      apply bnd_ok in E1. destruct E1 as (h1 & u & E1 & E2). cbn [snd] in E1. destruct (term_not_spec width h h1 i k u (G k i (or_introl eq_refl)) E1) as (OT & LT & CT & GT & HT).
      apply bnd_ok in E2. destruct E2 as (h2 & n & E0 & E2). injection E0 as <- <-. apply bnd_ok in E2. destruct E2 as (h2 & u2 & E3 & E2). apply ret_ok in E2. destruct E2 as [-> ->].
      assert (each (set_item (length (conds h1))) [(k, i)] (blank h1) = Ok (h2, tt)) as E5 by (rewrite each_one; unfold blank; rewrite E3; reflexivity).
      rewrite (each_set_apart [(k, i)] (blank h1) (length (conds h1)) []) in E5; [|apply nth_snoc_new|repeat constructor]. injection E5 as <-. cbn [blank terms conds app] in E4.
      assert (forall (l : list (ndict nat)) x y, upd (l ++ [x]) (length l) y = l ++ [y]) as U by (intros l0 x0 y0; induction l0; cbn; congruence). rewrite U in E4.
      cbn [map snd] in ND. apply NoDup_cons_iff in ND. destruct ND as [Ni ND]. set (h2 := Heap (terms h1) (conds h1 ++ [[(k, i)]])) in *.
      assert (forall k' i', In (k', i') d -> i' <> i) as Nd by (intros k' i' H' ->; apply Ni; apply (in_map snd) in H'; exact H').
      destruct (IH h2 h4 l' ND) as (L1 & L2 & O1 & O2 & P & Nl & B & Q1 & Q2); [intros k' i' H'; eapply tgood_keep; [|apply G; right; exact H']; cbn; apply OT; eapply Nd; eauto|exact E4|]. cbn [h2 terms conds] in *. rewrite app_length in *. cbn [length] in *. rewrite CT in *.
      split; [lia|]. split; [lia|]. split; [|split; [|split; [|split; [|split; [|split]]]]].
      + intros j Hj. cbn [map snd] in Hj. rewrite O1 by (intros K; apply Hj; right; exact K). apply OT. intros ->. apply Hj. left. reflexivity.
      + intros c Hc. rewrite O2 by lia. apply nth_error_app1. exact Hc.
      + intros k' i' [X|H'].
        * injection X as <- <-. split; [eapply tgood_keep; [|exact GT]; apply O1; exact Ni|]. intros val V. rewrite <- (HT val V). apply holds_keep. apply O1. exact Ni.
        * destruct (P k' i' H') as [G' H'']. split; [exact G'|]. intros val V. rewrite (H'' val V). assert (term_holds h2 i' val <-> term_holds h i' val) as X; [|tauto]. apply holds_keep. cbn. apply OT. eapply Nd; eauto.
      + constructor; [intros K; apply B in K; lia|exact Nl].
      + intros c [<-|Hc]; [lia|apply B in Hc; lia].
      + intros c [<-|Hc]; [exists (k, i); split; [left; reflexivity|]; rewrite O2 by lia; apply nth_snoc_new|]. destruct (Q1 c Hc) as (p & Hp & Ep). exists p. split; [right; exact Hp|exact Ep].
      + intros p [<-|Hp]; [exists (length (conds h)); split; [left; reflexivity|]; rewrite O2 by lia; apply nth_snoc_new|]. destruct (Q2 p Hp) as (c & Hc & Ec). exists c. split; [right; exact Hc|exact Ec].
  Qed.
  Lemma term_dec h i k val : tgood h i k -> term_holds h i val \/ ~ term_holds h i val.
  Proof. intros (t & w & H & _). rewrite (tok_holds _ _ _ _ _ _ _ H). apply in_ranges_dec. Qed.
  Lemma not_all h d val : (forall k i, In (k, i) d -> tgood h i k) -> (~ says h d val <-> exists k i, In (k, i) d /\ ~ term_holds h i val).
  Proof.
    intros G. split; [|intros (k & i & Hi & K) S; apply K; eapply S; eauto]. induction d as [|[k i] d IH]; intros N; [exfalso; apply N; intros k i []|].
    destruct (term_dec h i k val (G k i (or_introl eq_refl))) as [K|K]; [|exists k, i; cbn; auto]. destruct IH as (k' & i' & Hi & K'); [intros; apply G; right; assumption| |exists k', i'; cbn; auto].
    intros S. apply N. intros k' i' [X|X]; [injection X as <- <-; exact K|eauto].
  Qed.
  Lemma not_spec n0 n1 m0 m1 S h h' a v k : (n1 <= length (terms h))%nat -> (m0 <= m1 <= length (conds h))%nat -> vgood n0 n1 m0 m1 S h a -> is_kind k a -> k <> KList -> op_not a h = Ok (h', v) ->
    keep n0 m0 h h' /\ vgood n0 (length (terms h')) m0 (length (conds h')) S h' v /\ is_kind (kind_not k) v /\ forall val, val_ok val -> (holds h' v val <-> ~ holds h a val).
  Proof.
    intros Ln Lm VA KA NK E. destruct a as [|t|c|cs]; [contradiction| | |destruct k; [contradiction|contradiction|congruence]]; cbn [op_not] in E.
    - apply bnd_ok in E. destruct E as (h1 & u & E1 & E). apply ret_ok in E. destruct E as [-> ->]. destruct VA as (x & D). destruct (dg_terms _ _ _ _ _ _ D x t (or_introl eq_refl)) as (R & G & Sk).
      destruct (term_not_spec width h h1 t x u G E1) as (OT & LT & CT & GT & HT). destruct k; try contradiction. split; [constructor; [intros i Hi; apply OT; lia|intros; rewrite CT; reflexivity|lia|rewrite CT; lia]|]. split; [|split; [exact I|exact HT]].
      exists x. apply dgood_one; auto. lia.
    - destruct k; try contradiction. apply bnd_ok in E. destruct E as (h1 & d1 & E1 & E). apply get_cond_ok in E1. destruct E1 as [E1 ->]. apply bnd_ok in E. destruct E as (h1 & l & E2 & E). apply ret_ok in E. destruct E as [-> ->].
      destruct VA as [RA (d & Ed & D)]. rewrite Ed in E1. injection E1 as <-. destruct (maps_not d h h1 l (dg_nodup _ _ _ _ _ _ D)) as (L1 & L2 & O1 & O2 & P & Nl & B & Q1 & Q2); [intros k i Hi; apply (dg_terms _ _ _ _ _ _ D k i Hi)|exact E2|].
      split; [constructor; [|intros i Hi; apply O2; lia|lia|lia]|split; [|split; [exact I|]]].
      + intros i Hi. apply O1. intros K. apply in_map_iff in K. destruct K as ([k j] & <- & K). destruct (dg_terms _ _ _ _ _ _ D k j K) as (R & _). cbn in Hi. lia.
      + cbn [ActiveProofs2.vgood]. split; [exact Nl|]. intros c' Hc. split; [apply B in Hc; lia|]. destruct (Q1 c' Hc) as ([k i] & Hp & Ep). exists [(k, i)]. split; [exact Ep|]. destruct (dg_terms _ _ _ _ _ _ D k i Hp) as (R & G & Sk). apply dgood_one; [lia|apply (P k i Hp)|exact Sk].
      + intros val V. cbn [holds]. rewrite (cond_says h c d val Ed). rewrite (not_all h d val (fun k i Hi => proj1 (proj2 (dg_terms _ _ _ _ _ _ D k i Hi)))). split.
        * intros (c' & Hc & K). destruct (Q1 c' Hc) as ([k i] & Hp & Ep). exists k, i. split; [exact Hp|]. apply (proj2 (P k i Hp) val V). rewrite (cond_says h1 c' _ val Ep) in K. apply (K k i). left. reflexivity.
        * intros (k & i & Hi & K). destruct (Q2 (k, i) Hi) as (c' & Hc & Ec). exists c'. split; [exact Hc|]. rewrite (cond_says h1 c' _ val Ec). intros k' i' [X|[]]. injection X as <- <-. apply (proj2 (P k i Hi) val V). exact K.
  Qed.

  (** ** Worlds *)
  Lemma world_ok I val : world width I val -> val_ok val.
  Proof. intros [W1 W2 W3]. split; [exact W2|]. intros n w E. apply W3 in E. unfold maxValue. lia. Qed.
  Lemma leaf_spec o n e h h' v (c : df) : cmp_ok o e = true -> not_neq o -> (forall I val, world width I val -> bitwise_logical I c -> forall z, int_const e = Some z -> truth I c = compares o (val n) z) -> can_be width true c -> can_be width false c -> leaf width o n e h = Ok (h', v) ->
    keep (length (terms h)) (length (conds h)) h h' /\ vgood (length (terms h)) (length (terms h')) (length (conds h)) (length (conds h')) (eq n) h' v /\ is_kind KTerm v /\ forall I val, world width I val -> bitwise_logical I c -> (holds h' v val <-> truth I c = true).
  Proof.
    intros OK NN HT C1 C0 E. unfold leaf in E. apply bnd_ok in E. destruct E as (h1 & iv & E1 & E). apply lift_ok in E1. destruct E1 as [E1 ->]. apply bnd_ok in E. destruct E as (h1 & w & E2 & E). apply lift_ok in E2. destruct E2 as [E2 ->]. apply bnd_ok in E. destruct E as (h1 & t & E3 & E). apply ret_ok in E. destruct E as [-> ->]. injection E3 as <- <-.
    assert (exists z w0 f g, e = DEval (PInt z) w0 f g) as (z & w0 & f & g & ->). { unfold cmp_ok in OK. destruct (int_const e) eqn:EI; [|destruct o; discriminate]. destruct e as [| | | | | | | | | | p w0 f g | | | | ]; try discriminate. destruct p; try discriminate. eauto. }
    destruct (infer_exact o z w0 f g OK) as (iv' & E1' & Hi). rewrite E1' in E1. injection E1 as <-. rename iv' into iv.
    assert (iv_inv iv = false /\ iv_min iv <> None) as [NI NM]. { unfold cmp_ok, infer in OK, E1'. cbn [int_const] in OK. destruct NN as [N1 N2]. destruct o; try discriminate; try congruence; try (injection E1' as <-; split; [reflexivity|discriminate]). destruct (z - 1 <? 0) eqn:Z1; [apply Z.ltb_lt in Z1; apply Z.ltb_lt in OK; lia|]. injection E1' as <-. split; [reflexivity|discriminate]. }
    assert (forall x, 0 <= x <= maxValue w -> (in_ranges [(iv_min iv, iv_max iv)] x <-> compares o x z = true)) as HI.
    { intros x Hx. rewrite <- (Hi (maxValue w) x Hx). unfold inferred_holds. rewrite NI. split.
      - intros (r & [<-|[]] & K). unfold in_range in K. cbn [fst snd] in K. destruct (iv_min iv), (iv_max iv); lia.
      - intros K. exists (iv_min iv, iv_max iv). split; [left; reflexivity|]. unfold in_range. cbn [fst snd]. destruct (iv_min iv), (iv_max iv); lia. }
    set (T := ATerm_ n [(iv_min iv, iv_max iv)] 0 (maxValue w)). set (h' := Heap (terms h ++ [T]) (conds h)).
    assert (forall b, can_be width b c -> exists x, 0 <= x <= maxValue w /\ (compares o x z = b)) as HC. { intros b (I & val & W & BL & Tb). exists (val n). split; [apply (proj2 (world_ok I val W) n w E2)|]. rewrite <- Tb. symmetry. apply (HT I val W BL z). reflexivity. }
    assert (tpre width h' (length (terms h)) n T w) as HP. { constructor; try reflexivity; [apply nth_snoc_new|exact E2|repeat constructor; exact NM|]. destruct (HC false C0) as (x & Hx & Cx). exists x. split; [exact Hx|]. cbn [T a_ranges]. rewrite (HI x Hx). congruence. }
    split; [constructor; cbn; [intros i Hi'; apply nth_error_app1; exact Hi'|reflexivity|rewrite app_length; lia|lia]|]. split; [|split; [exact Logic.I|]].
    - exists n. apply dgood_one; [cbn; rewrite app_length; cbn; lia| |reflexivity]. exists T, w. split; [exact HP|]. destruct (HC true C1) as (x & Hx & Cx). exists x. split; [exact Hx|]. cbn [T a_ranges]. apply HI; assumption.
    - intros I val W BL. cbn [holds]. rewrite (tok_holds _ _ _ _ _ _ _ HP). cbn [T a_ranges]. rewrite (HI (val n)) by apply (proj2 (world_ok I val W) n w E2). rewrite <- (HT I val W BL z eq_refl). tauto.
  Qed.
End Act.
