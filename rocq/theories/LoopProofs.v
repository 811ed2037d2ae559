(** LoopProofs.v - visiting a statement with loops is visiting one of its unrollings. *)
From Verif Require Import Base ScopeModel ScopeSpec ScopeProofs DfModel DfSpec ReorderModel BindModel BindSpec BindProofs AsgModel AsgSpec BlkModel BlkSpec BlkProofs4 OptModel OptSpec HierModel LoopModel LoopSpec.

(** Induction over statements. *)
Section LInd.
  Variable P : lstmt -> Prop.
  Hypothesis HA : forall n e, P (LAsg n e).
  Hypothesis HB : forall l, Forall P l -> P (LBlock l).
  Hypothesis HF : forall c t e, (forall y, t = Some y -> P y) -> (forall y, e = Some y -> P y) -> P (LIf c t e).
  Hypothesis HC : forall comp items, Forall (fun gy => forall y, snd gy = Some y -> P y) items -> P (LCase comp items).
  Hypothesis HR : forall i a c j b body, P body -> P (LFor i a c j b body).
  Hypothesis HW : forall c body, P body -> P (LWhile c body).
  Fixpoint lstmt_ind' (x : lstmt) : P x :=
    let opt (o : option lstmt) : forall y, o = Some y -> P y :=
      match o with
      | None => fun y E => match E in _ = z return match z with Some _ => P y | None => True end with eq_refl => Logic.I end
      | Some z => fun y E => match E in _ = z' return match z' with Some y' => P y' | None => True end with eq_refl => lstmt_ind' z end
      end in
    match x with
    | LAsg n e => HA n e
    | LBlock l => HB l ((fix go l : Forall P l := match l with [] => Forall_nil _ | y :: r => Forall_cons _ (lstmt_ind' y) (go r) end) l)
    | LIf c t e => HF c t e (opt t) (opt e)
    | LCase comp items => HC comp items
        ((fix go l : Forall (fun gy => forall y, snd gy = Some y -> P y) l :=
            match l with [] => Forall_nil _ | gy :: r => Forall_cons _ (opt (snd gy)) (go r) end) items)
    | LFor i a c j b body => HR i a c j b body (lstmt_ind' body)
    | LWhile c body => HW c body (lstmt_ind' body)
    end.
End LInd.

Section Seq.
  Variable k : nat.
  Variable array : chain -> bool.
  Notation bvisit := (bvisit k array).
  (** Statements one after the other in the same frame. *)
  Fixpoint seqv (s : bst) (c : option (df * bool)) (t : btable) (r : list bframe) (l : list bstmt) : res (bst * btable) :=
    match l with [] => Ok (s, t) | y :: l' => do q <- bvisit s c t r y; seqv (fst q) c (snd q) r l' end.
  Lemma seqv_app l1 l2 s c t r : seqv s c t r (l1 ++ l2) = do q <- seqv s c t r l1; seqv (fst q) c (snd q) r l2.
  Proof. revert s t. induction l1 as [|y l1 IH]; intros s t; [reflexivity|]. cbn [app seqv]. destruct (bvisit s c t r y) as [q|e]; [|reflexivity]. cbn [bind]. apply IH. Qed.
  Lemma seqv_visits l s u r : bvisits k array s u r l = seqv s None u r l.
  Proof. revert s u. induction l as [|y l IH]; intros s u; [reflexivity|]. cbn [bvisits seqv]. destruct (bvisit s None u r y) as [q|e]; [|reflexivity]. cbn [bind]. apply IH. Qed.

  (** ** frames that show the same *)
  Definition alike (fs fs' : list bframe) : Prop := (forall n, find_entry fs n = find_entry fs' n) /\ forall s, condpath k array s fs = condpath k array s fs'.
  Lemma resolve_ext (rd rd' : chain -> res df) : (forall n, rd n = rd' n) -> forall e, resolve k array rd e = resolve k array rd' e.
  Proof.
    intros H. assert (HM : forall l, Forall (fun e => resolve k array rd e = resolve k array rd' e) l -> mapM (resolve k array rd) l = mapM (resolve k array rd') l).
    { induction 1 as [|a l Ha _ IH]; [reflexivity|]. cbn [mapM]. rewrite Ha, IH. reflexivity. }
    induction e as [ |n|s|s|s|l o IH|x m l IHx IHm IHl|x p IHx IHp|l IH|c x y IHc IHx IHy|x w f s|w|w|x IH|s l IH] using df_ind'; cbn [resolve]; auto.
    - rewrite (HM l IH). reflexivity.
    - rewrite IHm, IHl, IHx. reflexivity.
    - rewrite IHp, IHx. reflexivity.
    - rewrite (HM l IH). reflexivity.
    - rewrite IHx, IHy, IHc. reflexivity.
  Qed.
  Lemma read_alike fs fs' s p n : alike fs fs' -> read_at s fs p n = read_at s fs' p n.
  Proof. intros [H _]. unfold read_at. now rewrite H. Qed.
  Lemma alike_cons f fs fs' : alike fs fs' -> alike (f :: fs) (f :: fs').
  Proof.
    intros H. pose proof H as [H1 H2]. split.
    - intros n. cbn [find_entry]. now rewrite H1.
    - intros s. cbn [condpath]. rewrite H2. destruct (condpath k array s fs') as [p|e]; [|reflexivity]. cbn [bind]. destruct (bf_cond f) as [[c b]|]; [|reflexivity].
      rewrite (resolve_ext _ (read_at s fs' p)); [reflexivity|]. intros n. now apply read_alike.
  Qed.
  Lemma assign_alike s c c' t r r' n e : alike (BFrame c t :: r) (BFrame c' t :: r') -> assign k array s (BFrame c t) r n e = assign k array s (BFrame c' t) r' n e.
  Proof.
    intros H. pose proof H as [H1 H2]. unfold assign. rewrite H2. destruct (condpath k array s (BFrame c' t :: r')) as [p|er]; [|reflexivity]. cbn [bind]. unfold getTree.
    rewrite (resolve_ext _ (read_at s (BFrame c' t :: r') p)); [reflexivity|]. intros m. now apply read_alike.
  Qed.
  Definition alikes (c : option (df * bool)) (r : list bframe) (c' : option (df * bool)) (r' : list bframe) : Prop := forall t, alike (BFrame c t :: r) (BFrame c' t :: r').
  Lemma ivisit_alike comp items : Forall (fun gy => forall y, snd gy = Some y -> forall s c t r c' r', alikes c r c' r' -> bvisit s c t r y = bvisit s c' t r' y) items ->
    forall s fs fs', alike fs fs' -> ivisit k array comp s fs items = ivisit k array comp s fs' items.
  Proof.
    induction 1 as [|[g y] l Hy _ IH]; intros s fs fs' H; [reflexivity|]. cbn [ivisit]. destruct (item_cond comp g) as [cnd|er]; [|reflexivity]. cbn [bind].
    assert (ovisit k array s (Some (cnd, true)) fs y = ovisit k array s (Some (cnd, true)) fs' y) as ->.
    { destruct y as [y|]; [|reflexivity]. cbn [ovisit]. apply (Hy y eq_refl). intros t. apply alike_cons, H. }
    destruct (ovisit k array s (Some (cnd, true)) fs' y) as [q1|er]; [|reflexivity]. cbn [bind]. destruct l as [|gy l]; [reflexivity|]. rewrite (IH (fst q1) (BFrame (Some (cnd, false)) [] :: fs) (BFrame (Some (cnd, false)) [] :: fs')); [reflexivity|]. apply alike_cons, H.
  Qed.
  Lemma visit_alike x : forall s c t r c' r', alikes c r c' r' -> bvisit s c t r x = bvisit s c' t r' x.
  Proof.
    induction x as [m e|l IH|cnd th el IHt IHe|comp items IH] using bstmt_ind'; intros s c t r c' r' H.
    - cbn [BlkModel.bvisit]. apply assign_alike, H.
    - rewrite !visit_block, !seqv_visits. assert (seqv s None [] (BFrame c t :: r) l = seqv s None [] (BFrame c' t :: r') l) as ->; [|reflexivity].
      generalize (@nil (chain * entry)) as u. intros u. assert (alikes None (BFrame c t :: r) None (BFrame c' t :: r')) as H' by (intros t0; apply alike_cons, H). revert s u. induction IH as [|y l Hy _ IHl]; intros s u; [reflexivity|]. cbn [seqv].
      rewrite (Hy s None u _ None _ H'). destruct (bvisit s None u (BFrame c' t :: r') y) as [q|er]; [|reflexivity]. cbn [bind]. apply IHl.
    - cbn [BlkModel.bvisit]. assert (forall cb y s0, (th = Some y \/ el = Some y) -> bvisit s0 (Some cb) [] (BFrame c t :: r) y = bvisit s0 (Some cb) [] (BFrame c' t :: r') y) as K.
      { intros cb y s0 [E|E]; [apply (IHt y E)|apply (IHe y E)]; intros t0; apply alike_cons, H. }
      destruct th as [y|].
      + rewrite (K (cnd, true) y s) by auto. destruct (bvisit s (Some (cnd, true)) [] (BFrame c' t :: r') y) as [q1|er]; [|reflexivity]. cbn [bind]. destruct el as [z|]; [|reflexivity]. rewrite (K (cnd, false) z (fst q1)) by auto. reflexivity.
      + destruct el; reflexivity.
    - rewrite !visit_case. rewrite (ivisit_alike comp items IH s _ _ (H t)). reflexivity.
  Qed.
  Lemma seqv_alike l : forall s c t r c' r', alikes c r c' r' -> seqv s c t r l = seqv s c' t r' l.
  Proof. induction l as [|y l IH]; intros s c t r c' r' H; [reflexivity|]. cbn [seqv]. rewrite (visit_alike y s c t r c' r' H). destruct (bvisit s c' t r' y) as [q|e]; [|reflexivity]. cbn [bind]. now apply IH. Qed.
  Lemma inner_alike c r : alikes c r None (BFrame c [] :: r).
  Proof.
    intros t. split; [reflexivity|]. intros s. cbn [condpath bf_cond]. destruct (condpath k array s r) as [p|e]; [|reflexivity]. cbn [bind]. destruct c as [[c b]|]; [|reflexivity]. destruct (resolve _ _ _ _); reflexivity.
  Qed.

  (** ** the keys of a table *)
  Definition fresh {V} (t : ndict V) : Prop := ForallOrdPairs (fun a b => chain_eq a b = false) (map fst t).
  Lemma dget_none {V} (t : ndict V) n : dget t n = None <-> Forall (fun a => chain_eq a n = false) (map fst t).
  Proof.
    induction t as [|[a v] t IH]; cbn [dget map fst]; [split; [constructor|reflexivity]|]. destruct (chain_eq a n) eqn:E.
    - split; [discriminate|]. intros H. inversion H. congruence.
    - rewrite IH. split; [intros H; constructor; assumption|intros H; inversion H; assumption].
  Qed.
  Lemma dset_new {V} (t : ndict V) n v : dget t n = None -> dset t n v = t ++ [(n, v)].
  Proof. induction t as [|[a u] t IH]; cbn [dget dset app]; [reflexivity|]. destruct (chain_eq a n); [discriminate|]. intros H. now rewrite IH. Qed.
  Lemma dset_old {V} (t : ndict V) n v : dget t n <> None -> map fst (dset t n v) = map fst t.
  Proof. induction t as [|[a u] t IH]; cbn [dget dset]; [congruence|]. destruct (chain_eq a n); [reflexivity|]. intros H. cbn [map fst]. now rewrite IH. Qed.
  Lemma fop_app {A} (R : A -> A -> Prop) l1 l2 : ForallOrdPairs R (l1 ++ l2) <-> ForallOrdPairs R l1 /\ ForallOrdPairs R l2 /\ Forall (fun a => Forall (R a) l2) l1.
  Proof.
    induction l1 as [|a l1 IH]; cbn [app].
    - split; [intros H; split; [constructor|split; [exact H|constructor]]|intros (_ & H & _); exact H].
    - split.
      + intros H. inversion H as [|a0 l0 Ha Hl]; subst. apply Forall_app in Ha as [H1 H2]. apply IH in Hl as (K1 & K2 & K3). split; [constructor; assumption|]. split; [exact K2|]. constructor; assumption.
      + intros (H1 & H2 & H3). inversion H1; subst. inversion H3; subst. constructor; [apply Forall_app; auto|]. apply IH. auto.
  Qed.
  Lemma fresh_put s t n e : fresh t -> fresh (snd (put_entry s t n e)).
  Proof.
    intros H. unfold put_entry, fresh in *. destruct (dget t n) as [[|u]|] eqn:E; cbn [snd].
    - exact H.
    - rewrite dset_old by congruence. exact H.
    - rewrite dset_new, map_app by exact E. cbn [map fst]. apply fop_app. split; [exact H|]. split; [repeat constructor|]. apply dget_none in E. eapply Forall_impl; [|exact E]. intros a Ha. constructor; [exact Ha|constructor].
  Qed.
  Lemma fresh_copy f : forall s t, fresh t -> fresh (snd (copy_table s t f)).
  Proof. induction f as [|[n e] f IH]; intros s t H; [exact H|]. cbn [copy_table]. apply IH, fresh_put, H. Qed.
  Lemma fresh_copies l : forall s t, fresh t -> fresh (snd (copy_tables s t l)).
  Proof. induction l as [|f l IH]; intros s t H; [exact H|]. cbn [copy_tables]. apply IH, fresh_copy, H. Qed.
  Lemma fresh_visit x s c t r s' t' : fresh t -> bvisit s c t r x = Ok (s', t') -> fresh t'.
  Proof.
    intros H E. destruct x as [m e|l|cnd th el|comp items].
    - cbn [BlkModel.bvisit] in E. unfold assign in E. repeat match type of E with (do _ <- _; _) = _ => apply bind_ok in E as (? & _ & E) end. cbn [bf_tab] in E.
      match type of E with Ok (put_entry ?a ?b ?c ?d) = _ => pose proof (fresh_put a b c d H) as K; destruct (put_entry a b c d) end. injection E as _ <-. exact K.
    - rewrite visit_block in E. apply bind_ok in E as (q & _ & E). pose proof (fresh_copy (snd q) (fst q) t H) as K. destruct (copy_table (fst q) t (snd q)). injection E as _ <-. exact K.
    - cbn [BlkModel.bvisit] in E. apply bind_ok in E as (q1 & _ & E). apply bind_ok in E as (q2 & _ & E). pose proof (fresh_copies [snd q1; snd q2] (fst q2) t H) as K. destruct (copy_tables (fst q2) t [snd q1; snd q2]). injection E as _ <-. exact K.
    - rewrite visit_case in E. apply bind_ok in E as (q & _ & E). pose proof (fresh_copies (snd q) (fst q) t H) as K. destruct (copy_tables (fst q) t (snd q)). injection E as _ <-. exact K.
  Qed.
  Lemma fresh_seqv l : forall s c t r s' t', fresh t -> seqv s c t r l = Ok (s', t') -> fresh t'.
  Proof.
    induction l as [|y l IH]; intros s c t r s' t' H E; cbn [seqv] in E; [injection E as _ <-; exact H|]. apply bind_ok in E as ([s1 t1] & E1 & E). exact (IH _ _ _ _ _ _ (fresh_visit y _ _ _ _ _ _ H E1) E).
  Qed.
  Lemma copy_fresh s u : forall t, fresh (t ++ u) -> copy_table s t u = (s, t ++ u).
  Proof.
    induction u as [|[n e] u IH]; intros t H; cbn [copy_table]; [now rewrite app_nil_r|].
    assert (dget t n = None) as E.
    { apply dget_none. unfold fresh in H. rewrite map_app in H. apply fop_app in H as (_ & _ & H). eapply Forall_impl; [|exact H]. intros a Ha. inversion Ha. assumption. }
    unfold put_entry. rewrite E. cbn [fst snd]. rewrite (dset_new t n e E), IH; rewrite <- app_assoc; [reflexivity|exact H].
  Qed.
  (** In a new frame it makes no difference whether statements are in a begin-end block. *)
  Lemma one_visit ys s c r q : seqv s c [] r ys = Ok q -> bvisit s c [] r (one ys) = Ok q.
  Proof.
    assert (seqv s c [] r ys = Ok q -> bvisit s c [] r (BBlock ys) = Ok q) as K.
    { intros E. rewrite visit_block, seqv_visits, <- (seqv_alike ys s c [] r None (BFrame c [] :: r) (inner_alike c r)), E. cbn [bind]. destruct q as [s' u]. cbn [fst snd]. rewrite copy_fresh; [reflexivity|]. cbn [app]. refine (fresh_seqv ys s c [] r s' u _ E). constructor. }
    intros E. destruct ys as [|y [|z ys]]; [exact (K E)| |exact (K E)]. cbn [one]. cbn [seqv] in E. destruct (bvisit s c [] r y) as [[s1 t1]|er]; [|discriminate]. exact E.
  Qed.
End Seq.
