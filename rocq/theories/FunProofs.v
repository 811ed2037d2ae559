(** FunProofs.v - the meaning of expressions and statements: what it depends on. *)
From Verif Require Import Base ScopeModel ScopeSpec DfModel DfSpec BindModel AsgSpec ExprModel MkProps BlkModel BlkSpec FunModel FunSpec.

Lemma fstmt_ind' (P : fstmt -> Prop) :
  (forall s e, P (FAsg s e)) -> (forall l, Forall P l -> P (FBlock l)) ->
  (forall c t e, (forall y, t = Some y -> P y) -> (forall y, e = Some y -> P y) -> P (FIf c t e)) ->
  (forall comp l, Forall (fun gy => forall y, snd gy = Some y -> P y) l -> P (FCase comp l)) -> forall x, P x.
Proof.
  intros H1 H2 H3 H4. fix rec 1. intros [s e|l|c t e|comp l].
  - apply H1.
  - apply H2. induction l; constructor; auto.
  - apply H3; intros y E; [destruct t as [z|]|destruct e as [z|]]; try discriminate; injection E as <-; apply rec.
  - apply H4. induction l as [|[g y] l IH]; constructor; [|exact IH]. cbn [snd]. intros z E. destruct y as [y|]; [injection E as <-; apply rec|discriminate E].
Qed.
Lemma mem_in s l : mem s l = true <-> In s l.
Proof.
  unfold mem. rewrite existsb_exists. split; [intros (r & H & E); apply String.eqb_eq in E; now subst|]. intros H. exists s. split; [exact H|apply String.eqb_refl].
Qed.
Lemma mem_app s l m : mem s (l ++ m) = mem s l || mem s m.
Proof. apply existsb_app. Qed.
Lemma none_of_in l m s : none_of l m = true -> In s l -> mem s m = false.
Proof. unfold none_of. rewrite forallb_forall. intros H Hs. apply H in Hs. now apply negb_true_iff in Hs. Qed.

Section Sem.
  Variable I : interp.
  Variable count : expr -> Z.
  Notation D := (dom I).
  Notation state := (state I).
  Notation agrees := (agrees I).
  Fixpoint each (f : expr -> D -> Prop) (l : list expr) (xs : list D) : Prop :=
    match l, xs with [], [] => True | a :: l', y :: ys => f a y /\ each f l' ys | _, _ => False end.
  Lemma each_F2 f l : forall xs, each f l xs <-> Forall2 f l xs.
  Proof.
    induction l as [|a l IH]; intros [|y ys]; cbn [each]; split; intros H; try (now destruct H); try constructor; try (inversion H; fail).
    - apply H. - apply IH, H. - now inversion H. - apply IH. now inversion H.
  Qed.
  Lemma means_concat a r v l x : means I count a r v (XConcat l) x <-> exists ys, each (means I count a r v) l ys /\ x = i_concat I ys.
  Proof.
    cbn [means]. assert (forall ys, (fix each (l : list expr) (xs : list D) {struct l} : Prop := match l, xs with [], [] => True | a0 :: l', y :: ys => means I count a r v a0 y /\ each l' ys | _, _ => False end) l ys <-> each (means I count a r v) l ys) as H.
    { induction l as [|e l IH]; intros [|y ys]; cbn [each]; try reflexivity. now rewrite IH. }
    split; intros (ys & K & E); exists ys; (split; [apply H, K|exact E]).
  Qed.
  Lemma means_call a r v f l x : means I count a r v (XCall f l) x <-> exists ys, each (means I count a r v) l ys /\ r f ys x.
  Proof.
    cbn [means]. assert (forall ys, (fix each (l : list expr) (xs : list D) {struct l} : Prop := match l, xs with [], [] => True | a0 :: l', y :: ys => means I count a r v a0 y /\ each l' ys | _, _ => False end) l ys <-> each (means I count a r v) l ys) as H.
    { induction l as [|e l IH]; intros [|y ys]; cbn [each]; try reflexivity. now rewrite IH. }
    split; intros (ys & K & E); exists ys; (split; [apply H, K|exact E]).
  Qed.

  (** Meaning depends on the signals read, and grows with the functions' results. *)
  Lemma means_sub a (r r' : string -> list D -> D -> Prop) v w : (forall f ys x, r f ys x -> r' f ys x) ->
    forall e x, (forall s, In s (ids e) -> v s = w s) -> means I count a r v e x -> means I count a r' w e x.
  Proof.
    intros Hr.
    assert (HL : forall l, Forall (fun e => forall x, (forall s, In s (ids e) -> v s = w s) -> means I count a r v e x -> means I count a r' w e x) l ->
      forall ys, (forall s, In s (flat_map ids l) -> v s = w s) -> each (means I count a r v) l ys -> each (means I count a r' w) l ys).
    { induction 1 as [|e l He _ IH]; intros [|y ys] Hs H; cbn [each flat_map] in *; auto. destruct H as [H1 H2]. split; [apply He|apply IH]; auto; intros s K; apply Hs, in_or_app; auto. }
    induction e as [s|s|o e1 IH1|o e1 e2 IH1 IH2|c t f IHc IHt IHf|l IH|e1 n IH1|e1 m l IH1 IHm IHl|e1 p IH1 IHp|f l IH|f l IH] using expr_ind'; intros x Hs H.
    - cbn [means ids] in *. rewrite H. apply Hs. now left.
    - exact H.
    - cbn [means ids] in *. destruct H as (y & H & ->). eauto.
    - cbn [means ids] in *. destruct H as (y & z & H1 & H2 & ->). exists y, z. split; [apply IH1|split; [apply IH2|reflexivity]]; auto; intros; apply Hs; rewrite !in_app_iff; auto.
    - cbn [means ids] in *. destruct H as (y & H1 & H2). exists y. split; [apply IHc; auto; intros; apply Hs; rewrite !in_app_iff; auto|]. destruct (i_truth I y); [apply IHt|apply IHf]; auto; intros; apply Hs; rewrite !in_app_iff; auto.
    - apply means_concat in H as (ys & H & ->). apply means_concat. exists ys. split; [|reflexivity]. exact (HL l IH ys Hs H).
    - cbn [means ids] in *. destruct H as (y & H & ->). eauto.
    - cbn [means ids] in *. destruct H as (y & z & u & H1 & H2 & H3 & ->). exists y, z, u. split; [apply IH1|split; [apply IHm|split; [apply IHl|reflexivity]]]; auto; intros; apply Hs; rewrite !in_app_iff; auto.
    - cbn [means ids] in *. destruct H as (y & z & H1 & H2 & ->). exists y, z. split; [apply IH1|split; [apply IHp|reflexivity]]; auto; intros; apply Hs; rewrite !in_app_iff; auto.
    - apply means_call in H as (ys & H & Hf). apply means_call. exists ys. split; [exact (HL l IH ys Hs H)|now apply Hr].
    - cbn [means ids] in *. destruct l as [|b [|? ?]]; auto. inversion IH as [|? ? Hb _]; subst. destruct H as [H1 H2]. split; [exact H1|]. apply Hb; auto. intros; apply Hs; cbn [flat_map]; rewrite !in_app_iff; auto.
  Qed.
  Lemma means_total a r v c e : pure c e = true -> exists x, means I count a r v e x.
  Proof.
    assert (HL : forall l, Forall (fun e => pure c e = true -> exists x, means I count a r v e x) l -> forallb (pure c) l = true -> exists ys, each (means I count a r v) l ys).
    { induction 1 as [|e0 l He _ IH]; cbn [forallb]; intros H; [now exists []|]. apply andb_true_iff in H as [H1 H2]. destruct (He H1) as (y & Hy). destruct (IH H2) as (ys & Hys). exists (y :: ys). split; assumption. }
    induction e as [s|s|o e1 IH1|o e1 e2 IH1 IH2|c0 t f IHc IHt IHf|l IH|e1 n IH1|e1 m l IH1 IHm IHl|e1 p IH1 IHp|f l IH|f l IH] using expr_ind'; intros H.
    - eexists. reflexivity.
    - eexists. reflexivity.
    - destruct (IH1 H) as (y & Hy). eexists. exists y. eauto.
    - cbn [pure] in H. apply andb_true_iff in H as [A B]. destruct (IH1 A) as (y & Hy). destruct (IH2 B) as (z & Hz). eexists. exists y, z. eauto.
    - cbn [pure] in H. apply andb_true_iff in H as [H C]. apply andb_true_iff in H as [H B]. apply andb_true_iff in H as [_ A]. destruct (IHc A) as (y & Hy). destruct (IHt B) as (z & Hz). destruct (IHf C) as (w & Hw).
      exists (if i_truth I y then z else w). exists y. split; [exact Hy|]. destruct (i_truth I y); assumption.
    - destruct (HL l IH H) as (ys & Hys). exists (i_concat I ys). apply means_concat. eauto.
    - destruct (IH1 H) as (y & Hy). eexists. exists y. eauto.
    - cbn [pure] in H. apply andb_true_iff in H as [H C]. apply andb_true_iff in H as [A B]. destruct (IH1 A) as (y & Hy). destruct (IHm B) as (z & Hz). destruct (IHl C) as (w & Hw). eexists. exists y, z, w. eauto.
    - cbn [pure] in H. apply andb_true_iff in H as [A B]. destruct (IH1 A) as (y & Hy). destruct (IHp B) as (z & Hz). eexists. exists y, z. eauto.
    - discriminate H.
    - cbn [pure] in H. destruct l as [|b [|? ?]]; try discriminate H. apply andb_true_iff in H as [A B]. inversion IH as [|? ? Hb _]; subst. destruct (Hb B) as (y & Hy). exists y. cbn [means]. split; [|exact Hy].
      apply orb_true_iff in A as [A|A]; apply String.eqb_eq in A; auto.
  Qed.
  Lemma means_fun a r v c e : pure c e = true -> forall x x', means I count a r v e x -> means I count a r v e x' -> x = x'.
  Proof.
    assert (HL : forall l, Forall (fun e => pure c e = true -> forall x x', means I count a r v e x -> means I count a r v e x' -> x = x') l -> forallb (pure c) l = true ->
      forall ys ys', each (means I count a r v) l ys -> each (means I count a r v) l ys' -> ys = ys').
    { induction 1 as [|e0 l He _ IH]; cbn [forallb]; intros H [|y ys] [|y' ys'] K K'; cbn [each] in *; try contradiction; auto. apply andb_true_iff in H as [H1 H2]. f_equal; [eapply He|eapply IH]; intuition eauto. }
    induction e as [s|s|o e1 IH1|o e1 e2 IH1 IH2|c0 t f IHc IHt IHf|l IH|e1 n IH1|e1 m l IH1 IHm IHl|e1 p IH1 IHp|f l IH|f l IH] using expr_ind'; intros H x x' K K'.
    - cbn [means] in *. congruence.
    - cbn [means] in *. congruence.
    - destruct K as (y & K & ->), K' as (y' & K' & ->). now rewrite (IH1 H _ _ K K').
    - cbn [pure] in H. apply andb_true_iff in H as [A B]. destruct K as (y & z & K1 & K2 & ->), K' as (y' & z' & K1' & K2' & ->). now rewrite (IH1 A _ _ K1 K1'), (IH2 B _ _ K2 K2').
    - cbn [pure] in H. apply andb_true_iff in H as [H C]. apply andb_true_iff in H as [H B]. apply andb_true_iff in H as [_ A]. destruct K as (y & K1 & K2), K' as (y' & K1' & K2'). rewrite (IHc A _ _ K1 K1') in *.
      destruct (i_truth I y'); eauto.
    - apply means_concat in K as (ys & K & ->). apply means_concat in K' as (ys' & K' & ->). now rewrite (HL l IH H _ _ K K').
    - destruct K as (y & K & ->), K' as (y' & K' & ->). now rewrite (IH1 H _ _ K K').
    - cbn [pure] in H. apply andb_true_iff in H as [H C]. apply andb_true_iff in H as [A B]. destruct K as (y & z & w & K1 & K2 & K3 & ->), K' as (y' & z' & w' & K1' & K2' & K3' & ->). now rewrite (IH1 A _ _ K1 K1'), (IHm B _ _ K2 K2'), (IHl C _ _ K3 K3').
    - cbn [pure] in H. apply andb_true_iff in H as [A B]. destruct K as (y & z & K1 & K2 & ->), K' as (y' & z' & K1' & K2' & ->). now rewrite (IH1 A _ _ K1 K1'), (IHp B _ _ K2 K2').
    - discriminate H.
    - cbn [pure means] in *. destruct l as [|b [|? ?]]; try discriminate H. apply andb_true_iff in H as [A B]. inversion IH as [|? ? Hb _]; subst. eapply Hb; intuition eauto.
  Qed.

  (** ** statements *)
  Section Named.
    Variable ev : state -> expr -> D -> Prop.
    Fixpoint runs_block (l : list fstmt) (v v' : state) : Prop :=
      match l with [] => agrees v' v | y :: r => exists u, runs I ev y v u /\ runs_block r u v' end.
    Definition runs_opt (z : option fstmt) (v v' : state) : Prop := match z with Some z => runs I ev z v v' | None => agrees v' v end.
    Fixpoint runs_items (y : D) (l : list (option (list expr) * option fstmt)) (v v' : state) : Prop :=
      match l with
      | [] => agrees v' v
      | (g, z) :: r => exists b, matches I ev v y g b /\ if b then runs_opt z v v' else runs_items y r v v'
      end.
    Lemma run_block l : forall v v', runs I ev (FBlock l) v v' <-> runs_block l v v'.
    Proof.
      intros v v'. cbn [runs]. revert v. induction l as [|y l IH]; intros v; cbn [runs_block]; [reflexivity|].
      split; intros (u & H1 & H2); exists u; (split; [exact H1|apply IH, H2]).
    Qed.
    Lemma run_case comp l v v' : runs I ev (FCase comp l) v v' <-> exists y, ev v comp y /\ runs_items y l v v'.
    Proof.
      cbn [runs]. split; intros (y & H1 & H2); exists y; (split; [exact H1|]); clear H1; revert H2; (induction l as [|[g z] l IH]; cbn [runs_items]; [auto|]); intros (b & H1 & H2); exists b; (split; [exact H1|]); (destruct b; [exact H2|exact (IH H2)]).
    Qed.
  End Named.
  Lemma agrees_refl v : agrees v v.
  Proof. intros s. reflexivity. Qed.
  Lemma agrees_sym v w : agrees v w -> agrees w v.
  Proof. intros H s. symmetry. apply H. Qed.
  Lemma agrees_trans u v w : agrees u v -> agrees v w -> agrees u w.
  Proof. intros H1 H2 s. now rewrite H1. Qed.

  (** Final states matter up to pointwise equality. *)
  Lemma runs_end ev x : forall v v' w', agrees w' v' -> runs I ev x v v' -> runs I ev x v w'.
  Proof.
    induction x as [s e|l IH|c t e IHt IHe|comp l IH] using fstmt_ind'; intros v v' w' E H.
    - destruct H as (y & H & K). exists y. split; [exact H|]. exact (agrees_trans _ _ _ E K).
    - apply run_block. apply run_block in H. revert v H. induction IH as [|y l Hy _ IHl]; intros v H; cbn [runs_block] in *; [exact (agrees_trans _ _ _ E H)|].
      destruct H as (u & H1 & H2). exists u. split; [exact H1|auto].
    - destruct H as (y & H & K). exists y. split; [exact H|]. destruct (i_truth I y); [destruct t as [z|]|destruct e as [z|]]; try (exact (agrees_trans _ _ _ E K)); eauto.
    - apply run_case. apply run_case in H as (y & H & K). exists y. split; [exact H|]. clear H. induction IH as [|[g z] l Hz _ IHl]; cbn [runs_items] in *; [exact (agrees_trans _ _ _ E K)|].
      destruct K as (b & H1 & H2). exists b. split; [exact H1|]. destruct b; [|auto]. cbn [snd] in Hz. destruct z as [z|]; cbn [runs_opt] in *; [eauto|exact (agrees_trans _ _ _ E H2)].
  Qed.
  (** What is not assigned keeps its value. *)
  Lemma runs_keep ev x : forall v v' s, mem s (assigned x) = false -> runs I ev x v v' -> v' s = v s.
  Proof.
    induction x as [r e|l IH|c t e IHt IHe|comp l IH] using fstmt_ind'; intros v v' s Hs H.
    - destruct H as (y & _ & K). rewrite K. unfold assign_to. cbn [assigned mem existsb] in Hs. now apply orb_false_iff in Hs as [-> _].
    - apply run_block in H. cbn [assigned] in Hs. revert v H. induction IH as [|y l Hy _ IHl]; intros v H; cbn [runs_block flat_map] in *; [apply H|].
      rewrite mem_app in Hs. apply orb_false_iff in Hs as [S1 S2]. destruct H as (u & H1 & H2). rewrite (IHl S2 u H2). exact (Hy _ _ _ S1 H1).
    - cbn [assigned] in Hs. rewrite mem_app in Hs. apply orb_false_iff in Hs as [S1 S2]. destruct H as (y & _ & K). destruct (i_truth I y); [destruct t as [z|]|destruct e as [z|]]; cbn [opt] in *; try apply K; eauto.
    - apply run_case in H as (y & _ & K). cbn [assigned] in Hs. induction IH as [|[g z] l Hz _ IHl]; cbn [runs_items flat_map snd] in *; [apply K|].
      rewrite mem_app in Hs. apply orb_false_iff in Hs as [S1 S2]. destruct K as (b & _ & K). destruct b; [|auto]. destruct z as [z|]; cbn [runs_opt opt] in *; [eauto|apply K].
  Qed.
  (** Larger meanings of expressions. *)
  Lemma runs_sub (ev ev' : state -> expr -> D -> Prop) : (forall v e y, ev v e y -> ev' v e y) -> forall x v v', runs I ev x v v' -> runs I ev' x v v'.
  Proof.
    intros Hev. induction x as [r e|l IH|c t e IHt IHe|comp l IH] using fstmt_ind'; intros v v' H.
    - destruct H as (y & H & K). exists y. auto.
    - apply run_block. apply run_block in H. revert v H. induction IH as [|y l Hy _ IHl]; intros v H; cbn [runs_block] in *; [exact H|]. destruct H as (u & H1 & H2). exists u. auto.
    - destruct H as (y & H & K). exists y. split; [auto|]. destruct (i_truth I y); [destruct t as [z|]|destruct e as [z|]]; eauto.
    - apply run_case. apply run_case in H as (y & H & K). exists y. split; [auto|]. clear H. induction IH as [|[g z] l Hz _ IHl]; cbn [runs_items] in *; [exact K|].
      destruct K as (b & H1 & H2). exists b. split.
      + destruct g as [ws|]; cbn [matches] in *; [|exact H1]. destruct H1 as (zs & H1 & E). exists zs. split; [|exact E]. clear -H1 Hev. induction H1; constructor; auto.
      + destruct b; [|auto]. cbn [snd] in Hz. destruct z as [z|]; cbn [runs_opt] in *; [eauto|exact H2].
  Qed.
  Lemma returns_more funcs arr g n : forall m f ys x, (n <= m)%nat -> returns I count funcs arr n g f ys x -> returns I count funcs arr m g f ys x.
  Proof.
    induction n as [|n IH]; intros m f ys x Hm H; [contradiction|]. destruct m as [|m]; [lia|]. cbn [returns] in *. destruct H as (fn & v & v' & H1 & H2 & H3 & H4 & H5).
    exists fn, v, v'. split; [exact H1|]. split; [exact H2|]. split; [exact H3|]. split; [|exact H5]. revert H4. apply runs_sub. intros u e y. apply means_sub; [|reflexivity].
    intros f0 ys0 x0. apply IH. lia.
  Qed.

  (** Reading final values is reading current values, if nothing is assigned after it was read. *)
  Lemma final_runs a r (G : state) x : forall later v v', final_reads later x = true -> (forall s, mem s later = false -> v' s = G s) ->
    runs I (fun _ => means I count a r G) x v v' -> runs I (means I count a r) x v v'.
  Proof.
    assert (HE : forall e v (l : list string) y, none_of (ids e) l = true -> (forall s, mem s l = false -> v s = G s) -> means I count a r G e y -> means I count a r v e y).
    { intros e v l y H K. apply means_sub; [auto|]. intros s Hs. symmetry. apply K. exact (none_of_in _ _ _ H Hs). }
    induction x as [s e|l IH|c t e IHt IHe|comp l IH] using fstmt_ind'; intros later v v' HF HG H.
    - cbn [final_reads] in HF. destruct H as (y & H & K). exists y. split; [|exact K]. apply (HE e v _ y HF); [|exact H]. intros i Hi. cbn [mem existsb] in Hi. apply orb_false_iff in Hi as [E Hi].
      rewrite <- (HG i Hi), K. unfold assign_to. now rewrite E.
    - apply run_block. apply run_block in H. cbn [final_reads] in HF. revert v H. induction IH as [|y l Hy _ IHl]; intros v H; cbn [runs_block] in *; [exact H|].
      apply andb_true_iff in HF as [F1 F2]. destruct H as (u & H1 & H2). exists u. split; [|exact (IHl F2 u H2)]. apply (Hy (flat_map assigned l ++ later)); auto.
      intros s Hs. rewrite mem_app in Hs. apply orb_false_iff in Hs as [S1 S2]. rewrite <- (HG s S2). symmetry. apply (runs_keep (fun _ => means I count a r G) (FBlock l)); [exact S1|]. apply run_block. exact H2.
    - pose proof H as H0. destruct H as (y & H & K). cbn [final_reads] in HF. apply andb_true_iff in HF as [HF F3]. apply andb_true_iff in HF as [F1 F2]. exists y. split.
      + apply (HE c v _ y F1); [|exact H]. intros s Hs. rewrite mem_app in Hs. apply orb_false_iff in Hs as [S1 S2]. rewrite <- (HG s S2). symmetry. exact (runs_keep _ _ _ _ _ S1 H0).
      + destruct (i_truth I y); [destruct t as [z|]|destruct e as [z|]]; cbn [opt] in *; eauto.
    - pose proof H as H0. apply run_case. apply run_case in H as (y & H & K). cbn [final_reads] in HF. apply andb_true_iff in HF as [F1 F2]. 
      assert (forall s, mem s (assigned (FCase comp l) ++ later) = false -> v s = G s) as HV.
      { intros s Hs. rewrite mem_app in Hs. apply orb_false_iff in Hs as [S1 S2]. rewrite <- (HG s S2). symmetry. exact (runs_keep _ _ _ _ _ S1 H0). }
      revert F1 F2 HV. generalize (assigned (FCase comp l) ++ later). intros A F1 F2 HV. clear H0. exists y. split; [exact (HE comp v A y F1 HV H)|]. clear H F1.
      induction IH as [|[g z] l Hz _ IHl]; cbn [runs_items forallb fst snd] in *; [exact K|]. apply andb_true_iff in F2 as [F2 F4]. apply andb_true_iff in F2 as [F2 F3].
      destruct K as (b & K1 & K2). exists b. split.
      + destruct g as [ws|]; cbn [matches lids] in *; [|exact K1]. destruct K1 as (zs & K1 & ->). exists zs. split; [|reflexivity]. clear -K1 F2 HE HV. induction K1 as [|w z ws zs Hw _ IHw]; constructor.
        * apply (HE w v A); auto. unfold none_of in *. rewrite forallb_forall in *. intros i Hi. apply F2. cbn [flat_map]. apply in_or_app. auto.
        * apply IHw. unfold none_of in *. rewrite forallb_forall in *. intros i Hi. apply F2. cbn [flat_map]. apply in_or_app. auto.
      + destruct b; [|auto]. destruct z as [z|]; cbn [runs_opt opt] in *; eauto.
  Qed.
End Sem.
