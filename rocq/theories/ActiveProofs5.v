(** ActiveProofs5.v *)
From Verif Require Import Base ScopeModel ScopeProofs DfModel DfSpec BindModel TransModel TransSpec TransProofs TransProps ActiveModel ActiveSpec ActiveProofs ActiveProofs2 ActiveProofs3 ActiveProofs4.
Local Open Scope Z_scope.

Section Act.
  Variable width : chain -> res Z.
  Notation val_ok := (val_ok width).
  Notation cgood := (cgood width).
  Notation vgood := (vgood width).
  Notation exact := (ActiveSpec.exact width).
  Notation world := (world width).
  Notation walk := (walk width).
  Definition good_walk (c : df) (h h' : heap) (v : aval) : Prop :=
    keep (length (terms h)) (length (conds h)) h h' /\ vgood (length (terms h)) (length (terms h')) (length (conds h)) (length (conds h')) (fun k => In k (signals c)) h' v /\ is_kind (kind_of c) v /\
    forall I val, world I val -> bitwise_logical I c -> (holds h' v val <-> truth I c = true).
  Lemma vgood_names n0 n1 m0 m1 (S T : names) h v : (forall k, S k -> T k) -> vgood n0 n1 m0 m1 S h v -> vgood n0 n1 m0 m1 T h v.
  Proof. intros H. apply vgood_more; auto. Qed.
  Lemma vgood_some n0 n1 m0 m1 S h v : vgood n0 n1 m0 m1 S h v -> v <> ANone.
  Proof. intros H ->. exact H. Qed.
  Lemma cmp_eval o e : cmp_ok o e = true -> exists z w f g, e = DEval (PInt z) w f g.
  Proof. unfold cmp_ok. destruct (int_const e) eqn:E; [|destruct o; discriminate]. intros _. destruct e as [| | | | | | | | | | p w0 f g | | | | ]; try discriminate. destruct p; try discriminate. eauto. Qed.
  Lemma compare_not o : isCompare o = true -> isOr o = false /\ isAnd o = false /\ isNot o = false.
  Proof. destruct o; cbn; intros; try discriminate; auto. Qed.
  Lemma is_kind_list k v : is_kind k v -> (is_kind KList v <-> k = KList).
  Proof. destruct k, v; cbn; intros; split; intros; try contradiction; try discriminate; auto. Qed.

  Lemma walk_exact c : exact c -> forall h h' v, walk c h = Ok (h', v) -> good_walk c h h' v.
  Proof.
    induction 1 as [n C1 C0|n e o HC NN OK C1 C0|n e o HS HC NN OK C1 C0|x o HN Hx IHx NL|x y o HA Hx IHx Hy IHy C1 AP|x y o HO Hx IHx Hy IHy]; intros h h' v E.
    - cbn [ActiveModel.walk] in E. destruct (leaf_spec width GreaterThan n (DEval (PInt 0) (Some 32) false false) h h' v (DTerm n) eq_refl ltac:(split; discriminate)) as (K & V & KI & HH); auto.
      { intros I val [W1 W2 W3] BL z Ez. injection Ez as <-. unfold truth. cbn [eval]. rewrite (rs_sig _ _ _ (W1 n) n). apply (rs_left _ _ _ (W1 n)); [apply chain_eq_refl|reflexivity]. }
      split; [exact K|]. split; [eapply vgood_names; [|exact V]; intros k ->; left; reflexivity|]. split; [exact KI|exact HH].
    - destruct (compare_not o HC) as (N1 & N2 & N3). cbn [ActiveModel.walk] in E. rewrite N1, N2 in E.
      destruct (leaf_spec width o n e h h' v (DOp [DTerm n; e] o) OK NN) as (K & V & KI & HH); auto.
      { intros I val [W1 W2 W3] BL z Ez. destruct (cmp_eval o e OK) as (z' & w & f & g & ->). injection Ez as <-. apply (rs_left _ _ _ (W1 n)); [apply chain_eq_refl|exact HC]. }
      split; [exact K|]. split; [eapply vgood_names; [|exact V]; intros k ->; left; reflexivity|]. split; [|exact HH]. cbn [kind_of]. rewrite N1, N2. exact KI.
    - destruct (compare_not o HC) as (N1 & N2 & N3). destruct (cmp_eval _ e OK) as (z' & w & f & g & ->). cbn [ActiveModel.walk] in E. rewrite N1, N2 in E.
      destruct (leaf_spec width (swap_op o) n (DEval (PInt z') w f g) h h' v (DOp [DEval (PInt z') w f g; DTerm n] o) OK) as (K & V & KI & HH); auto.
      { destruct NN. destruct o; split; cbn; congruence. }
      { intros I val [W1 W2 W3] BL z Ez. injection Ez as <-. apply (rs_right _ _ _ (W1 n)); [apply chain_eq_refl|exact HC]. }
      split; [exact K|]. split; [eapply vgood_names; [|exact V]; intros k ->; left; reflexivity|]. split; [|exact HH]. cbn [kind_of]. rewrite N1, N2. exact KI.
    - cbn [ActiveModel.walk] in E. apply bnd_ok in E. destruct E as (h1 & a & E1 & E). rewrite HN in E. destruct (IHx h h1 a E1) as (K & V & KI & HH).
      destruct (not_spec width _ _ _ _ _ _ _ _ _ _ (le_n _) (conj (k_lc _ _ _ _ K) (le_n _)) V KI NL E) as (K2 & V2 & KI2 & H2). split; [eapply keep_trans; eauto|]. split; [eapply vgood_names; [|exact V2]; intros k Hk; cbn [signals flat_map]; rewrite app_nil_r; exact Hk|]. split; [exact KI2|].
      intros I val W BL. rewrite (H2 val (world_ok width I val W)). cbn [bitwise_logical] in BL. destruct BL as [BL BN]. rewrite (HH I val W BL). assert (truth I (DOp [x] o) = negb (truth I x)) as ->. { unfold truth. destruct o; try discriminate; [cbn [eval map]; apply (rs_not _ _ _ (w_reads _ _ _ W []))|apply BN; reflexivity]. }
      destruct (truth I x); cbn; split; intros; try congruence; tauto.
    - cbn [ActiveModel.walk] in E. assert (isOr o = false) as NO by (destruct o; try discriminate; reflexivity). rewrite NO, HA in E. apply bnd_ok in E. destruct E as (h1 & a & E1 & E). apply bnd_ok in E. destruct E as (h2 & b & E2 & E).
      destruct (IHx h h1 a E1) as (Ka & Va & KIa & Ha). destruct (IHy h1 h2 b E2) as (Kb & Vb & KIb & Hb).
      assert (op_and a b h2 = Ok (h', v)) as E'. { pose proof (vgood_some _ _ _ _ _ _ _ Va). pose proof (vgood_some _ _ _ _ _ _ _ Vb). destruct a; [congruence|..]; (destruct b; [congruence|..]); exact E. } clear E. rename E' into E.
      assert (vgood (length (terms h)) (length (terms h1)) (length (conds h)) (length (conds h1)) (fun k => In k (signals x)) h2 a) as Va2. { eapply vgood_more; [..|exact Va]; auto; intros i Hi; [apply (k_t _ _ _ _ Kb); lia|apply (k_c _ _ _ _ Kb); lia]. }
      assert (forall val, holds h2 a val <-> holds h1 a val) as Ha2. { intros val. eapply holds_more; [| |exact Va]; intros i Hi; [apply (k_t _ _ _ _ Kb); lia|apply (k_c _ _ _ _ Kb); lia]. }
      assert (forall I val, world I val -> bitwise_logical I (DOp [x; y] o) -> truth I (DOp [x; y] o) = truth I x && truth I y /\ bitwise_logical I x /\ bitwise_logical I y) as TR.
      { intros I val W BL. cbn [bitwise_logical] in BL. destruct BL as (B1 & B2 & B3). split; [|auto]. unfold truth. destruct o; try discriminate; [apply B3; reflexivity|]. cbn [eval map]. apply (rs_land _ _ _ (w_reads _ _ _ W [])). }
      pose proof (k_lt _ _ _ _ Ka) as L1. pose proof (k_lt _ _ _ _ Kb) as L2. pose proof (k_lc _ _ _ _ Ka) as L3. pose proof (k_lc _ _ _ _ Kb) as L4.
      assert (keep (length (terms h)) (length (conds h)) h2 h' /\ vgood (length (terms h)) (length (terms h')) (length (conds h)) (length (conds h')) (either (fun k => In k (signals x)) (fun k => In k (signals y))) h' v /\ is_kind (kind_of (DOp [x; y] o)) v /\ forall val, val_ok val -> (holds h' v val <-> holds h2 a val /\ holds h2 b val)) as (K & V & KI & HH).
      { cbn [kind_of]. rewrite NO, HA. destruct (kind_and (kind_of x) (kind_of y)) eqn:EK.
        - destruct (kind_of x), (kind_of y); discriminate.
        - assert (kind_of x <> KList /\ kind_of y <> KList) as [Nx Ny] by (destruct (kind_of x), (kind_of y); try discriminate; split; discriminate).
          apply (and_plain width _ (length (terms h1)) (length (terms h2)) _ (length (conds h1)) (length (conds h2)) _ _ h2 h' a b v); auto.
          + rewrite (is_kind_list _ _ KIa). exact Nx.
          + rewrite (is_kind_list _ _ KIb). exact Ny.
          + destruct C1 as (I & val & W & BL & T). destruct (TR I val W BL) as (T2 & B1 & B2). rewrite T in T2. symmetry in T2. apply andb_true_iff in T2. destruct T2 as [Tx Ty]. exists val. split; [apply (world_ok width I val W)|]. split; [apply Ha2; apply (Ha I val W B1); exact Tx|apply (Hb I val W B2); exact Ty].
        - apply (and_list width _ (length (terms h1)) (length (terms h2)) _ (length (conds h1)) (length (conds h2)) _ _ h2 h' a b v); auto.
          + assert (kind_of x = KList \/ kind_of y = KList) as [Z|Z] by (destruct (kind_of x), (kind_of y); try discriminate; auto); [left; apply (is_kind_list _ _ KIa); exact Z|right; apply (is_kind_list _ _ KIb); exact Z].
          + intros k l Hk Hl. pose proof (AP eq_refl k l Hk Hl) as Z. split; [exact Z|rewrite chain_eq_sym; exact Z]. }
      split; [eapply keep_trans; [exact Ka|eapply keep_trans; [eapply keep_less; [| |exact Kb]; lia|exact K]]|]. split; [eapply vgood_names; [|exact V]; intros k [Hk|Hk]; cbn [signals flat_map]; rewrite app_nil_r; apply in_or_app; auto|]. split; [exact KI|].
      intros I val W BL. destruct (TR I val W BL) as (-> & B1 & B2). rewrite (HH val (world_ok width I val W)), Ha2, (Ha I val W B1), (Hb I val W B2). symmetry. apply andb_true_iff.
    - cbn [ActiveModel.walk] in E. rewrite HO in E. apply bnd_ok in E. destruct E as (h1 & a & E1 & E). apply bnd_ok in E. destruct E as (h2 & b & E2 & E).
      destruct (IHx h h1 a E1) as (Ka & Va & KIa & Ha). destruct (IHy h1 h2 b E2) as (Kb & Vb & KIb & Hb).
      assert (op_or a b h2 = Ok (h', v)) as E'. { pose proof (vgood_some _ _ _ _ _ _ _ Va). pose proof (vgood_some _ _ _ _ _ _ _ Vb). destruct a; [congruence|..]; (destruct b; [congruence|..]); exact E. } clear E. rename E' into E.
      assert (vgood (length (terms h)) (length (terms h1)) (length (conds h)) (length (conds h1)) (fun k => In k (signals x)) h2 a) as Va2. { eapply vgood_more; [..|exact Va]; auto; intros i Hi; [apply (k_t _ _ _ _ Kb); lia|apply (k_c _ _ _ _ Kb); lia]. }
      assert (forall val, holds h2 a val <-> holds h1 a val) as Ha2. { intros val. eapply holds_more; [| |exact Va]; intros i Hi; [apply (k_t _ _ _ _ Kb); lia|apply (k_c _ _ _ _ Kb); lia]. }
      pose proof (k_lt _ _ _ _ Ka) as L1. pose proof (k_lt _ _ _ _ Kb) as L2. pose proof (k_lc _ _ _ _ Ka) as L3. pose proof (k_lc _ _ _ _ Kb) as L4.
      destruct (or_spec width (length (terms h)) (length (terms h1)) (length (terms h2)) (length (conds h)) (length (conds h1)) (length (conds h2)) _ _ h2 h' a b v (conj L1 L2) (conj L3 L4) eq_refl eq_refl Va2 Vb E) as (K & V & KI & HH).
      split; [eapply keep_trans; [exact Ka|eapply keep_trans; [eapply keep_less; [| |exact Kb]; lia|exact K]]|]. split; [eapply vgood_names; [|exact V]; intros k [Hk|Hk]; cbn [signals flat_map]; rewrite app_nil_r; apply in_or_app; auto|]. split; [cbn [kind_of]; rewrite HO; exact KI|].
      intros I val W BL. cbn [bitwise_logical] in BL. destruct BL as (B1 & B2 & B3). rewrite HH, Ha2, (Ha I val W B1), (Hb I val W B2). assert (truth I (DOp [x; y] o) = truth I x || truth I y) as ->; [|symmetry; apply orb_true_iff].
      unfold truth. destruct o; try discriminate; cbn [eval map]; [apply (rs_or _ _ _ (w_reads _ _ _ W []))|apply (rs_lor _ _ _ (w_reads _ _ _ W []))].
  Qed.
End Act.
