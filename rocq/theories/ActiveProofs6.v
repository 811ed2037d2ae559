(** ActiveProofs6.v - lists of conditions. *)
From Verif Require Import Base ScopeModel ScopeProofs DfModel DfSpec BindModel TransModel TransSpec TransProofs TransProps ActiveModel ActiveSpec ActiveProofs ActiveProofs2 ActiveProofs3 ActiveProofs4 ActiveProofs5.
Local Open Scope Z_scope.

Section Act.
  Variable width : chain -> res Z.
  Notation val_ok := (val_ok width).
  Notation cgood := (cgood width).
  Notation vgood := (vgood width).
  Notation exact := (ActiveSpec.exact width).
  Notation world := (world width).
  Notation walk := (walk width).
  (** ** Lists of conditions *)
  Lemma infer_from_app l d : forall v h, infer_from width v (l ++ [d]) h = bnd (infer_from width v l) (fun v' => bnd (walk d) (fun a => match v' with ANone => ret a | _ => op_and v' a end)) h.
  Proof.
    induction l as [|c l IH]; intros v h; cbn [app infer_from].
    - unfold bnd. change (ret v h) with (Ok (h, v) : res (heap * aval)). cbn match. destruct (walk d h) as [[h1 a]|e]; [|reflexivity]. destruct ((match v with ANone => ret a | _ => op_and v a end) h1) as [[h2 b]|e]; reflexivity.
    - unfold bnd. destruct (walk c h) as [[h1 a]|e]; [|reflexivity]. destruct ((match v with ANone => ret a | _ => op_and v a end) h1) as [[h2 b]|e]; [|reflexivity]. specialize (IH b h2). unfold bnd in IH. exact IH.
  Qed.
  Lemma infer_walk c cs : exact (all_of c cs) -> forall h h' v, infer_condition width (c :: cs) h = Ok (h', v) -> walk (all_of c cs) h = Ok (h', v).
  Proof.
    induction cs as [|d cs IH] using rev_ind; intros X h h' v E.
    - unfold infer_condition in E. cbn [infer_from] in E. cbn [all_of fold_left]. apply bnd_ok in E. destruct E as (h1 & a & E1 & E). apply bnd_ok in E. destruct E as (h2 & b & E2 & E). apply ret_ok in E2. apply ret_ok in E. destruct E2 as [-> ->], E as [-> ->]. exact E1.
    - unfold all_of in *. rewrite fold_left_app in *. cbn [fold_left] in *. fold (all_of c cs) in *. assert (exact (all_of c cs)) as X1 by (inversion X; subst; try discriminate; assumption).
      unfold infer_condition in E. rewrite app_comm_cons, infer_from_app in E. apply bnd_ok in E. destruct E as (h1 & a & E1 & E). apply IH in E1; [|exact X1]. destruct (walk_exact width _ X1 _ _ _ E1) as (_ & V & _).
      cbn [ActiveModel.walk]. cbn [isOr isAnd]. unfold bnd at 1. rewrite E1. apply bnd_ok in E. destruct E as (h2 & b & E2 & E). unfold bnd. rewrite E2. assert (exact d) as X2 by (inversion X; subst; try discriminate; assumption). destruct (walk_exact width _ X2 _ _ _ E2) as (_ & V2 & _).
      pose proof (vgood_some width _ _ _ _ _ _ _ V). pose proof (vgood_some width _ _ _ _ _ _ _ V2). destruct a; [congruence|..]; (destruct b; [congruence|..]); exact E.
  Qed.
  Lemma all_of_truth I val c cs : world I val -> (truth I (all_of c cs) = true <-> all_true I (c :: cs)).
  Proof.
    intros W. induction cs as [|d cs IH] using rev_ind; [cbn; unfold all_true, truth; split; [intros; repeat constructor; assumption|intros H; inversion H; assumption]|]. unfold all_of. rewrite fold_left_app. cbn [fold_left]. fold (all_of c cs).
    assert (truth I (DOp [all_of c cs; d] Land) = truth I (all_of c cs) && truth I d) as -> by (unfold truth; cbn [eval map]; apply (rs_land _ _ _ (w_reads _ _ _ W []))). rewrite andb_true_iff, IH. unfold all_true. rewrite app_comm_cons, Forall_app. split; intros [H1 H2]; (split; [exact H1|]); [repeat constructor; exact H2|inversion H2; assumption].
  Qed.
  Lemma all_of_bitwise I c cs : Forall (bitwise_logical I) (c :: cs) -> bitwise_logical I (all_of c cs).
  Proof. induction cs as [|d cs IH] using rev_ind; intros H; [inversion H; assumption|]. unfold all_of. rewrite fold_left_app. cbn [fold_left]. fold (all_of c cs). rewrite app_comm_cons, Forall_app in H. destruct H as [H1 H2]. cbn [bitwise_logical]. split; [auto|]. split; [inversion H2; assumption|discriminate]. Qed.

  (** ** The whole result *)
  Lemma kept_all n0 n1 S h d : dgood width n0 n1 S h d -> kept d h = Ok (h, d).
  Proof.
    intros [_ _ _ D]. induction d as [|[k i] d IH]; [reflexivity|]. cbn [kept]. destruct (D k i (or_introl eq_refl)) as (_ & (t & w & H & x & _ & X) & _). unfold bnd at 1, get_term. rewrite (t_at _ _ _ _ _ _ H). unfold bnd at 1. rewrite IH by (intros; apply D; right; assumption). unfold ret, empty_term. destruct (a_ranges t); [destruct X as (r & [] & _)|reflexivity].
  Qed.
  Lemma resolve_same n0 n1 S h c : cgood n0 n1 S h c -> resolve c h = Ok (h, tt).
  Proof. intros (d & E & D). unfold resolve, bnd at 1, get_cond. rewrite E. unfold bnd. rewrite (kept_all _ _ _ _ _ D). unfold put_cond. rewrite (upd_nth _ _ _ E). destruct h; reflexivity. Qed.
  Lemma each_resolve n0 n1 S h cs : (forall c, In c cs -> cgood n0 n1 S h c) -> each resolve cs h = Ok (h, tt).
  Proof. induction cs as [|c cs IH]; intros H; cbn [each]; [reflexivity|]. unfold bnd. rewrite (resolve_same _ _ _ _ _ (H c (or_introl eq_refl))). apply IH. intros; apply H; right; assumption. Qed.
  Lemma add1_in c acc x : In x (add1 c acc) <-> In x acc \/ x = c.
  Proof. unfold add1. destruct (existsb (Nat.eqb c) acc) eqn:E; [|rewrite in_app_iff; cbn; intuition]. apply existsb_exists in E. destruct E as (y & Hy & Ey). apply Nat.eqb_eq in Ey. subst y. split; [auto|intros [H| ->]; assumption]. Qed.
  Lemma fold_add cs : forall acc x, In x (fold_left (fun a c => add1 c a) cs acc) <-> In x acc \/ In x cs.
  Proof. induction cs as [|c cs IH]; intros acc x; cbn [fold_left]; [cbn; tauto|]. rewrite IH, add1_in. cbn. intuition. Qed.
  Definition accgood (h : heap) (acc : list nat) : Prop := forall c, In c acc -> (c < length (conds h))%nat /\ cgood 0 (length (terms h)) (fun _ => True) h c.
  Lemma acc_keep h h' acc : keep (length (terms h)) (length (conds h)) h h' -> accgood h acc -> accgood h' acc /\ forall val, some_holds h' acc val <-> some_holds h acc val.
  Proof.
    intros K A. pose proof (k_lt _ _ _ _ K). pose proof (k_lc _ _ _ _ K). split.
    - intros c Hc. destruct (A c Hc) as [L G]. split; [lia|]. eapply cgood_more; [| | | | |exact G]; auto; [intros i Hi; apply (k_t _ _ _ _ K); lia|apply (k_c _ _ _ _ K); exact L].
    - intros val. unfold some_holds. split; intros (c & Hc & C); exists c; (split; [exact Hc|]); destruct (A c Hc) as [L (d & Ed & D)]; (rewrite (cond_says h c d val Ed) in * || idtac); (rewrite (cond_says h' c d val) in * by (rewrite (k_c _ _ _ _ K) by exact L; exact Ed)).
      + rewrite <- (says_keep h h' d val); [exact C|]. intros k i Hi. apply (k_t _ _ _ _ K). apply (dg_terms _ _ _ _ _ _ D k i Hi).
      + rewrite (says_keep h h' d val); [exact C|]. intros k i Hi. apply (k_t _ _ _ _ K). apply (dg_terms _ _ _ _ _ _ D k i Hi).
  Qed.
  Lemma infer_conditions_spec : forall ls, (forall l, In l ls -> exists c cs, l = c :: cs /\ exact (all_of c cs)) -> forall acc h h' r, accgood h acc -> infer_conditions width ls acc h = Ok (h', r) ->
    accgood h' r /\ forall I val, world I val -> Forall (Forall (bitwise_logical I)) ls -> (some_holds h' r val <-> some_holds h acc val \/ exists l, In l ls /\ all_true I l).
  Proof.
    induction ls as [|l ls IH]; intros HL acc h h' r A E; cbn [infer_conditions] in E.
    - apply ret_ok in E. destruct E as [-> ->]. split; [exact A|]. intros I val W _. split; [auto|intros [H|(l & [] & _)]; exact H].
    - apply bnd_ok in E. destruct E as (h1 & v & E1 & E). apply bnd_ok in E. destruct E as (h2 & acc' & E2 & E). destruct (HL l (or_introl eq_refl)) as (c & cs & -> & X).
      apply (infer_walk c cs X) in E1. destruct (walk_exact width _ X _ _ _ E1) as (K & V & KI & HH). destruct (acc_keep _ _ _ K A) as [A1 S1].
      assert (accgood h2 acc' /\ forall val, some_holds h2 acc' val <-> some_holds h1 acc val \/ holds h1 v val) as [A2 S2].
      { destruct v as [|t|e|es]; [contradiction| | |].
        - assert (exists n, as_conds (ATerm t) h1 = Ok (h2, [n]) /\ acc' = add1 n acc) as (n & E3 & ->). { cbn [as_conds]. apply bnd_ok in E2. destruct E2 as (h3 & n & E3 & E2). apply bnd_ok in E2. destruct E2 as (h4 & u & E4 & E2). apply ret_ok in E2. destruct E2 as [-> ->]. exists n. split; [|reflexivity]. unfold bnd. rewrite E3, E4. reflexivity. }
          destruct (as_conds_spec width _ _ _ _ _ _ _ _ _ (le_n _) V E3) as (T3 & L3 & O3 & N3 & G3 & H3). assert (keep (length (terms h1)) (length (conds h1)) h1 h2) as K3 by (constructor; [intros; rewrite T3; reflexivity|exact O3|rewrite T3; lia|exact L3]).
          destruct (acc_keep _ _ _ K3 A1) as [A3 S3]. split.
          + intros c' Hc. apply add1_in in Hc. destruct Hc as [Hc| ->]; [auto|]. destruct (G3 n (or_introl eq_refl)) as [R G]. split; [pose proof (k_lc _ _ _ _ K); lia|]. eapply cgood_more; [| | | | |exact G]; auto; [lia|rewrite T3; lia].
          + intros val. rewrite <- (H3 val), <- (S3 val). unfold some_holds. split; [intros (c' & Hc & C); apply add1_in in Hc; destruct Hc as [Hc| ->]; [left; eauto|right; exists n; cbn; auto]|]. intros [(c' & Hc & C)|(c' & [<-|[]] & C)]; [exists c'|exists n]; (split; [apply add1_in; auto|exact C]).
        - destruct V as [R G]. apply bnd_ok in E2. destruct E2 as (h3 & u & E3 & E2). rewrite (resolve_same _ _ _ _ _ G) in E3. injection E3 as <- <-. apply bnd_ok in E2. destruct E2 as (h3 & d & E3 & E2). apply get_cond_ok in E3. destruct E3 as [E3 ->]. apply ret_ok in E2. destruct E2 as [-> ->]. pose proof G as G0. destruct G as (d' & Ed & D). rewrite Ed in E3. injection E3 as <-. destruct d' as [|p d']; [destruct (dg_ne _ _ _ _ _ _ D eq_refl)|]. split.
          + intros c' Hc. apply add1_in in Hc. destruct Hc as [Hc| ->]; [auto|]. split; [lia|]. eapply cgood_more; [| | | | |exact G0]; auto; lia.
          + intros val. cbn [holds]. unfold some_holds. split; [intros (c' & Hc & C); apply add1_in in Hc; destruct Hc as [Hc| ->]; [left; eauto|right; exact C]|]. intros [(c' & Hc & C)|C]; [exists c'|exists e]; (split; [apply add1_in; auto|exact C]).
        - destruct V as [ND V]. apply bnd_ok in E2. destruct E2 as (h3 & u & E3 & E2). rewrite (each_resolve _ _ _ _ _ (fun c' Hc => proj2 (V c' Hc))) in E3. injection E3 as <- <-. apply ret_ok in E2. destruct E2 as [-> ->]. split.
          + intros c' Hc. apply fold_add in Hc. destruct Hc as [Hc|Hc]; [auto|]. destruct (V c' Hc) as [R G]. split; [lia|]. eapply cgood_more; [| | | | |exact G]; auto; lia.
          + intros val. cbn [holds]. unfold some_holds. split; [intros (c' & Hc & C); apply fold_add in Hc; destruct Hc as [Hc|Hc]; [left|right]; eauto|]. intros [(c' & Hc & C)|(c' & Hc & C)]; exists c'; (split; [apply fold_add; auto|exact C]). }
      destruct (IH (fun l Hl => HL l (or_intror Hl)) acc' h2 h' r A2 E) as [A3 S3]. split; [exact A3|]. intros I val W BL. inversion BL as [|? ? B1 B2]; subst. rewrite (S3 I val W B2), S2, S1, (HH I val W (all_of_bitwise I c cs B1)), (all_of_truth I val c cs W). split.
      + intros [[H|H]|(l & Hl & H)]; [auto|right; exists (c :: cs); cbn; auto|right; exists l; cbn; auto].
      + intros [H|(l & [<-|Hl] & H)]; [auto|auto|right; exists l; auto].
  Qed.
End Act.
