(** RenProofs.v - replacing identifiers in an unshared tree. *)
From Coq Require Import Permutation.
From Verif Require Import Base VisitModel VisitProofs AstTable AstModel AstSpec AstProofs RenModel RenSpec.

Scheme tree_mut := Induction for tree Sort Prop with trees_mut := Induction for trees Sort Prop.

Definition ext (P : nat -> Prop) (h h' : heap) : nat -> Prop := fun b => P b \/ (length h <= b < length h')%nat.
Definition frame (P : nat -> Prop) (h h' : heap) : Prop := (length h <= length h')%nat /\ forall b, (b < length h)%nat -> ~ P b -> nth_error h' b = nth_error h b.

Lemma tree_move h h' : (length h <= length h')%nat -> forall x v P, tree h x v P -> (forall b, P b -> (b < length h)%nat -> nth_error h' b = nth_error h b) -> tree h' x v P.
Proof.
  intros HL. apply (tree_mut h (fun x v P _ => (forall b, P b -> (b < length h)%nat -> nth_error h' b = nth_error h b) -> tree h' x v P)
    (fun l vs P _ => (forall b, P b -> (b < length h)%nat -> nth_error h' b = nth_error h b) -> trees h' l vs P)); try (intros; constructor; fail).
  - intros t l vs P _ IH HP. constructor. auto.
  - intros a c fs vs foot P Ea Pa EK ND _ IH HD HB HP. eapply t_node with (foot := foot); eauto.
    + rewrite HP; auto. apply nth_error_Some. congruence.
    + intros f x v Ef Ev. apply (IH f x v Ef Ev). intros b Hb Lb. apply HP; auto. apply (HB f b Hb).
    + intros f b Hb. destruct (HB f b Hb) as (B1 & B2 & B3). split; [exact B1|]. split; [exact B2|lia].
  - intros x v l vs P Q R _ IH1 _ IH2 HD HB HR. eapply ts_cons with (P := P) (Q := Q); eauto.
    + apply IH1. intros b Hb Lb. apply HR; auto. apply HB. auto.
    + apply IH2. intros b Hb Lb. apply HR; auto. apply HB. auto.
    + intros b Hb. destruct (HB b Hb). split; [assumption|lia].
Qed.
Lemma trees_move h h' : (length h <= length h')%nat -> forall l vs P, trees h l vs P -> (forall b, P b -> (b < length h)%nat -> nth_error h' b = nth_error h b) -> trees h' l vs P.
Proof.
  intros HL l vs P H. induction H as [P|x v l vs P Q R H1 H2 IH HD HB]; intros HR; [constructor|]. eapply ts_cons with (P := P) (Q := Q); auto.
  - eapply tree_move; eauto. intros b Hb Lb. apply HR; auto. apply HB. auto.
  - apply IH. intros b Hb Lb. apply HR; auto. apply HB. auto.
  - intros b Hb. destruct (HB b Hb). split; [assumption|lia].
Qed.
Lemma tree_wide h : forall x v P, tree h x v P -> forall Q : nat -> Prop, (forall b, P b -> Q b) -> tree h x v Q.
Proof.
  intros x v P H. destruct H as [| | | |t l vs P H|a c fs vs foot P Ea Pa EK ND HF HD HB]; intros Q HQ; try constructor.
  - destruct H as [|x v l vs P1 P2 R H1 H2 HD HB]; [constructor|]. eapply ts_cons with (P := P1) (Q := P2); eauto. intros b Hb. destruct (HB b Hb). auto.
  - eapply t_node with (foot := foot); eauto. intros f b Hb. destruct (HB f b Hb) as (B1 & B2 & B3). auto.
Qed.
Lemma trees_wide h l vs P : trees h l vs P -> forall Q : nat -> Prop, (forall b, P b -> Q b) -> trees h l vs Q.
Proof. intros H Q HQ. destruct H as [|x v l vs P1 P2 R H1 H2 HD HB]; [constructor|]. eapply ts_cons with (P := P1) (Q := P2); eauto. intros b Hb. destruct (HB b Hb). auto. Qed.

Lemma put_length h a o : length (put h a o) = length h.
Proof. revert a. induction h as [|x h IH]; intros [|a]; cbn; auto. Qed.
Lemma put_same h a o : (a < length h)%nat -> nth_error (put h a o) a = Some o.
Proof. revert a. induction h as [|x h IH]; intros [|a] H; cbn in *; try lia; [reflexivity|]. apply IH. lia. Qed.
Lemma put_other h a b o : a <> b -> nth_error (put h a o) b = nth_error h b.
Proof. revert a b. induction h as [|x h IH]; intros [|a] [|b] H; cbn; auto; congruence. Qed.

Lemma insert_perm x l : Permutation (insert_name x l) (x :: l).
Proof. induction l as [|y l IH]; cbn; [reflexivity|]. destruct (String.leb (fst x) (fst y)); [reflexivity|]. rewrite IH. apply perm_swap. Qed.
Lemma sort_names_perm l : Permutation (sort_names l) l.
Proof. induction l as [|x l IH]; cbn; [reflexivity|]. rewrite insert_perm. now rewrite IH. Qed.
Lemma keys_in {A} (d : list (string * A)) f : In f (map fst d) <-> exists v, sget d f = Some v.
Proof.
  induction d as [|[k v] r IH]; cbn; [split; [intros []|intros [v K]; discriminate]|]. destruct (String.eqb_spec k f) as [->|N]; [split; [eauto|left; reflexivity]|]. rewrite <- IH. split; [intros [K|K]; [contradiction|exact K]|auto].
Qed.
Lemma sset_keys {A} (d : list (string * A)) f v : In f (map fst d) -> map fst (sset d f v) = map fst d.
Proof. induction d as [|[k w] r IH]; [intros []|]. cbn. destruct (String.eqb_spec k f) as [->|N]; [reflexivity|]. intros [K|K]; [contradiction|]. cbn. now rewrite IH. Qed.
Lemma in_sget {A} (d : list (string * A)) f v : NoDup (map fst d) -> In (f, v) d -> sget d f = Some v.
Proof.
  induction d as [|[k w] r IH]; intros ND Hin; [destruct Hin|]. cbn in *. inversion ND as [|? ? N1 N2]; subst. destruct Hin as [E|Hin]; [injection E as -> ->; now rewrite String.eqb_refl|]. destruct (String.eqb_spec k f) as [->|N]; [|auto]. exfalso. apply N1. now apply (in_map fst) in Hin.
Qed.
Lemma children_items_in c fs f x : NoDup (map fst fs) -> (In (f, x) (children_items (c, fs)) <-> sget fs f = Some x /\ ischild c f = true).
Proof.
  intros ND. unfold children_items. cbn [fst snd]. split.
  - intros H. apply (Permutation_in _ (sort_names_perm _)) in H. apply filter_In in H. destruct H as [H1 H2]. split; [apply in_sget; auto|exact H2].
  - intros [H1 H2]. apply (Permutation_in _ (Permutation_sym (sort_names_perm _))). apply filter_In. split; [apply sget_pair; exact H1|exact H2].
Qed.
Lemma nodup_filter_keys (p : string * hval -> bool) (l : list (string * hval)) : NoDup (map fst l) -> NoDup (map fst (filter p l)).
Proof.
  induction l as [|x l IH]; intros ND; cbn; [constructor|]. cbn in ND. inversion ND as [|? ? N1 N2]; subst. destruct (p x); [|auto]. cbn. constructor; [|auto]. intros Hin. apply N1. apply in_map_iff in Hin. destruct Hin as (y & E & Hy). apply filter_In in Hy. apply in_map_iff. exists y. tauto.
Qed.
Lemma children_items_nodup c fs : NoDup (map fst fs) -> NoDup (map fst (children_items (c, fs))).
Proof. intros ND. unfold children_items. cbn [fst snd]. eapply Permutation_NoDup; [apply Permutation_map, Permutation_sym, sort_names_perm|]. apply nodup_filter_keys. exact ND. Qed.

Section Ren.
  Variable ids : list (string * string).
  Definition new_ident (s : string) : list (string * val) := [("lineno", VInt 0); ("name", VStr s); ("scope", VNone)]%string.
  (** What one visit does to a tree. *)
  Inductive ren : val -> val -> Prop :=
  | ren_same v : (forall c fs, v <> VNode c fs) -> ren v v
  | ren_hit fs s new : sget fs "name"%string = Some (VStr s) -> sget ids s = Some new -> ren (VNode "Identifier" fs) (VNode "Identifier" (new_ident new))
  | ren_miss fs x : sget fs "name"%string = Some x -> (forall s, x = VStr s -> sget ids s = None) -> ren (VNode "Identifier" fs) (VNode "Identifier" fs)
  | ren_node c fs fs' : c <> "Identifier"%string -> map fst fs = map fst fs' ->
      (forall f v v', sget fs f = Some v -> sget fs' f = Some v' -> ischild c f = false -> v' = v) ->
      (forall f v v', sget fs f = Some v -> sget fs' f = Some v' -> ischild c f = true -> fren v v') -> ren (VNode c fs) (VNode c fs')
  with fren : val -> val -> Prop :=
  | fren_seq t l l' : rens l l' -> fren (VSeq t l) (VSeq true l')
  | fren_other v v' : (forall t l, v <> VSeq t l) -> ren v v' -> fren v v'
  with rens : list val -> list val -> Prop :=
  | rens_nil : rens [] []
  | rens_cons x y l l' : ren x y -> rens l l' -> rens (x :: l) (y :: l').

  Definition visit_spec (n : nat) : Prop := forall h x v (P : nat -> Prop), (vsize v < n)%nat -> made v -> tree h x v P -> (forall b, P b -> (b < length h)%nat) ->
    exists h' x' v', visit ids n h x = Ok (h', x') /\ ren v v' /\ tree h' x' v' (ext P h h') /\ frame P h h'.

  Lemma frame_refl P h : frame P h h.
  Proof. split; auto. Qed.
  Lemma ext_bound (P : nat -> Prop) (h h' : heap) : (length h <= length h')%nat -> (forall b, P b -> (b < length h)%nat) -> forall b, ext P h h' b -> (b < length h')%nat.
  Proof. intros HL HP b [Hb|Hb]; [apply HP in Hb|]; lia. Qed.

  Lemma visit_all_ok n : visit_spec n -> forall l h vs (P : nat -> Prop), Forall (fun v => (vsize v < n)%nat) vs -> Forall made vs -> trees h l vs P -> (forall b, P b -> (b < length h)%nat) ->
    exists h' l' vs', visit_all (visit ids n) h l = Ok (h', l') /\ rens vs vs' /\ trees h' l' vs' (ext P h h') /\ frame P h h'.
  Proof.
    intros HV. induction l as [|x l IH]; intros h vs P HS HM HT HB; inversion HT as [|x0 v l0 vs0 P1 P2 R T1 T2 TD TB]; subst.
    - exists h, [], []. split; [reflexivity|]. split; [constructor|]. split; [constructor|apply frame_refl].
    - inversion HS as [|? ? S1 S2]; subst. inversion HM as [|? ? M1 M2]; subst. cbn [visit_all].
      destruct (HV h x v P1 S1 M1 T1) as (h1 & x1 & v1 & E1 & R1 & T1' & F1); [intros b Hb; apply TB; auto|].
      destruct F1 as [L1 F1]. assert (trees h1 l vs0 P2) as T2'. { apply (trees_move h h1 L1 _ _ _ T2). intros b Hb Lb. apply F1; [exact Lb|]. intros Hb1. apply (TD b Hb1 Hb). }
      destruct (IH h1 vs0 P2 S2 M2 T2') as (h2 & l2 & vs2 & E2 & R2 & T3 & L2 & F2). { intros b Hb. assert (b < length h)%nat by (apply TB; auto). lia. }
      exists h2, (x1 :: l2), (v1 :: vs2). rewrite E1. cbn [bind fst snd]. rewrite E2. cbn [bind fst snd]. split; [reflexivity|]. split; [constructor; auto|]. split.
      + eapply ts_cons with (P := ext P1 h h1) (Q := ext P2 h1 h2).
        * eapply tree_move; [exact L2|exact T1'|]. intros b Hb Lb. apply F2; [exact Lb|]. intros Hb2. assert (b < length h)%nat by (apply TB; auto). destruct Hb as [Hb|Hb]; [apply (TD b Hb Hb2)|lia].
        * exact T3.
        * intros b [H1|H1] [H2|H2]; [apply (TD b H1 H2)| | |lia]. { assert (b < length h)%nat by (apply TB; auto). lia. } { assert (b < length h)%nat by (apply TB; auto). lia. }
        * intros b Hb. assert (P1 b \/ P2 b -> P b /\ (b < length h)%nat) as K by (apply TB). unfold ext in *. destruct Hb as [[H1|H1]|[H1|H1]].
          -- destruct (K (or_introl H1)). split; [auto|lia].
          -- split; [right; lia|lia].
          -- destruct (K (or_intror H1)). split; [auto|lia].
          -- split; [right; lia|lia].
      + split; [lia|]. intros b Lb Nb. rewrite F2; [apply F1; [exact Lb|]|lia|]; intros Hb; apply Nb; apply TB; auto.
  Qed.

  (** The object a of class c with fields fc (in the heap), its tree vc. *)
  Record shape (h : heap) (a : nat) (c : string) (fc : list (string * hval)) (vc : list (string * val)) (foot : string -> nat -> Prop) (P : nat -> Prop) : Prop := {
    s_at : nth_error h a = Some (c, fc); s_keys : map fst fc = map fst vc; s_nodup : NoDup (map fst fc);
    s_tree : forall f x v, sget fc f = Some x -> sget vc f = Some v -> tree h x v (foot f);
    s_disj : forall f g b, foot f b -> foot g b -> f = g;
    s_foot : forall f b, foot f b -> P b /\ b <> a /\ (b < length h)%nat }.

  Lemma items_step h a c fc vc foot (P : nat -> Prop) f x v h1 x1 v1 : (forall b, P b -> (b < length h)%nat) -> P a -> shape h a c fc vc foot P -> sget fc f = Some x -> sget vc f = Some v ->
    tree h1 x1 v1 (ext (foot f) h h1) -> frame (foot f) h h1 ->
    let h2 := setattr h1 a f x1 in
    shape h2 a c (sset fc f x1) (sset vc f v1) (fun g b => if String.eqb g f then ext (foot f) h h1 b else foot g b) (ext P h h2) /\ frame P h h2 /\ length h2 = length h1.
  Proof.
    intros HB Pa [SA SK SN ST SD SF] Ef Ev T1 [L1 F1] h2. assert (a < length h)%nat as La by auto.
    assert (nth_error h1 a = Some (c, fc)) as A1. { rewrite F1; auto. intros K. apply SF in K. tauto. }
    assert (h2 = put h1 a (c, sset fc f x1)) as E2 by (unfold h2, setattr; rewrite A1; reflexivity).
    assert (length h2 = length h1) as L2 by (rewrite E2; apply put_length).
    assert (forall b, b <> a -> nth_error h2 b = nth_error h1 b) as O2 by (intros b Hb; rewrite E2; apply put_other; auto).
    assert (In f (map fst fc)) as Kf by (apply keys_in; eauto). assert (In f (map fst vc)) as Kv by (apply keys_in; eauto).
    split; [|split; [|exact L2]].
    - constructor.
      + rewrite E2. apply put_same. lia.
      + rewrite !sset_keys; auto.
      + rewrite sset_keys; auto.
      + intros g y w Ey Ew. rewrite sget_sset in Ey. rewrite sget_sset in Ew. rewrite (String.eqb_sym g f). destruct (String.eqb_spec f g) as [<-|N].
        * injection Ey as <-. injection Ew as <-. eapply tree_move; [|exact T1|]; [lia|]. intros b Hb Lb. apply O2. intros ->. destruct Hb as [Hb|Hb]; [apply SF in Hb; tauto|lia].
        * eapply tree_move; [|apply (ST g y w Ey Ew)|]; [lia|]. intros b Hb Lb. rewrite O2; [apply F1; [exact Lb|]|]; [intros Hf; apply N; apply (SD _ _ _ Hf Hb)|apply SF in Hb; tauto].
      + intros g1 g2 b H1 H2. destruct (String.eqb_spec g1 f) as [->|N1], (String.eqb_spec g2 f) as [->|N2]; auto; [destruct H1 as [H1|H1]|destruct H2 as [H2|H2]|]; try (eapply SD; eauto; fail).
        * apply SF in H2. lia.
        * apply SF in H1. lia.
      + intros g b Hb. unfold ext in *. destruct (String.eqb_spec g f) as [->|N]; [destruct Hb as [Hb|Hb]|].
        * destruct (SF _ _ Hb) as (B1 & B2 & B3). split; [auto|]. split; [exact B2|lia].
        * split; [right; lia|]. split; [lia|lia].
        * destruct (SF _ _ Hb) as (B1 & B2 & B3). split; [auto|]. split; [exact B2|lia].
    - split; [lia|]. intros b Lb Nb. rewrite O2 by (intros ->; contradiction). apply F1; [exact Lb|]. intros K. apply Nb. apply (SF _ _ K).
  Qed.
  Lemma shape_wide h a c fc vc foot (P Q : nat -> Prop) : shape h a c fc vc foot P -> (forall b, P b -> Q b) -> shape h a c fc vc foot Q.
  Proof. intros [SA SK SN ST SD SF] HQ. constructor; auto. intros f b Hb. destruct (SF f b Hb) as (B1 & B2 & B3). auto. Qed.

  Lemma visit_items_ok n : visit_spec n -> forall items h a c fc vc foot (P : nat -> Prop), P a -> (forall b, P b -> (b < length h)%nat) -> shape h a c fc vc foot P ->
    NoDup (map fst items) -> (forall f x, In (f, x) items -> sget fc f = Some x) -> (forall f v, In f (map fst items) -> sget vc f = Some v -> (vsize v < n)%nat /\ made v) ->
    exists h' fc' vc' foot', visit_items (visit ids n) a h items = Ok h' /\ shape h' a c fc' vc' foot' (ext P h h') /\ frame P h h' /\ map fst vc = map fst vc' /\
      forall f v v', sget vc f = Some v -> sget vc' f = Some v' -> (In f (map fst items) -> fren v v') /\ (~ In f (map fst items) -> v' = v).
  Proof.
    intros HV. induction items as [|[f x] r IH]; intros h a c fc vc foot P Pa HB SH ND HI HM; cbn [visit_items].
    - exists h, fc, vc, foot. split; [reflexivity|]. split; [eapply shape_wide; [exact SH|]; intros b Hb; left; exact Hb|]. split; [apply frame_refl|]. split; [reflexivity|]. intros f v v' E1 E2. split; [intros []|congruence].
    - cbn [map fst] in *. inversion ND as [|? ? N1 N2]; subst. pose proof (HI f x (or_introl eq_refl)) as Ef. assert (exists v, sget vc f = Some v) as [v Ev]. { apply keys_in. rewrite <- (s_keys _ _ _ _ _ _ _ SH). apply keys_in. eauto. }
      destruct (HM f v (or_introl eq_refl) Ev) as [Sv Mv]. pose proof (s_tree _ _ _ _ _ _ _ SH f x v Ef Ev) as Tx.
      assert (forall b, foot f b -> (b < length h)%nat) as Bf by (intros b Hb; apply (s_foot _ _ _ _ _ _ _ SH) in Hb; tauto).
      (* a field that is visited *)
      assert (forall h1 x1 v1, tree h1 x1 v1 (ext (foot f) h h1) -> frame (foot f) h h1 -> fren v v1 ->
        exists h' fc' vc' foot', visit_items (visit ids n) a (setattr h1 a f x1) r = Ok h' /\ shape h' a c fc' vc' foot' (ext P h h') /\ frame P h h' /\ map fst vc = map fst vc' /\
        forall g w w', sget vc g = Some w -> sget vc' g = Some w' -> (f = g \/ In g (map fst r) -> fren w w') /\ (~ (f = g \/ In g (map fst r)) -> w' = w)) as STEP.
      { intros h1 x1 v1 T1 F1 R1. destruct (items_step _ _ _ _ _ _ _ _ _ _ _ _ _ HB Pa SH Ef Ev T1 F1) as (SH2 & F2 & L2). set (h2 := setattr h1 a f x1) in *. destruct F2 as [L2' F2].
        destruct (IH h2 a c _ _ _ (ext P h h2) (or_introl Pa) (ext_bound _ _ _ L2' HB) SH2 N2) as (h3 & fc3 & vc3 & foot3 & E3 & SH3 & (L3 & F3) & K3 & R3).
        - intros g y Hg. rewrite sget_sset. destruct (String.eqb_spec f g) as [<-|]; [exfalso; apply N1; apply (in_map fst) in Hg; exact Hg|]. apply HI. right. exact Hg.
        - intros g w Hg Ew. rewrite sget_sset in Ew. destruct (String.eqb_spec f g) as [<-|]; [contradiction|]. apply (HM g w); [right; exact Hg|exact Ew].
        - exists h3, fc3, vc3, foot3. split; [exact E3|]. split; [|split; [|split]].
          + eapply shape_wide; [exact SH3|]. unfold ext. intros b [[Hb|Hb]|Hb]; [auto|right; lia|right; lia].
          + split; [lia|]. intros b Lb Nb. rewrite F3; [apply F2; auto|lia|]. intros [K|K]; [contradiction|lia].
          + rewrite <- K3. symmetry. apply sset_keys. apply keys_in. eauto.
          + intros g w w' Ew Ew'. destruct (String.eqb_spec f g) as [<-|Ng].
            * assert (w = v) by congruence. subst w. assert (sget (sset vc f v1) f = Some v1) as E1 by (rewrite sget_sset, String.eqb_refl; reflexivity). destruct (R3 f v1 w' E1 Ew') as [_ R4]. specialize (R4 N1). subst w'. split; [auto|]. intros K. exfalso. apply K. auto.
            * assert (sget (sset vc f v1) g = Some w) as E1 by (rewrite sget_sset; destruct (String.eqb_spec f g); [congruence|exact Ew]). destruct (R3 g w w' E1 Ew') as [R4 R5]. split; [intros [K|K]; [contradiction|auto]|]. intros K. apply R5. intros K5. apply K. right. exact K5. }
      assert ((forall t l, v <> VSeq t l) -> (forall t l, x <> HSeq t l) -> x <> HNone -> exists h' fc' vc' foot', (do p <- visit ids n h x; visit_items (visit ids n) a (setattr (fst p) a f (snd p)) r) = Ok h' /\ shape h' a c fc' vc' foot' (ext P h h') /\ frame P h h' /\ map fst vc = map fst vc' /\
        forall g w w', sget vc g = Some w -> sget vc' g = Some w' -> (f = g \/ In g (map fst r) -> fren w w') /\ (~ (f = g \/ In g (map fst r)) -> w' = w)) as VISIT.
      { intros Nv Nx _. destruct (HV h x v (foot f) Sv Mv Tx Bf) as (h1 & x1 & v1 & E1 & R1 & T1 & F1). rewrite E1. cbn [bind fst snd]. apply (STEP h1 x1 v1 T1 F1). apply fren_other; auto. }
      destruct Tx as [| | | |t l vs Pt HT|b c1 fs1 vs1 foot1 Pt Hb1 Hb2 Hb3 Hb4 Hb5 Hb6 Hb7]; try (apply VISIT; discriminate).
      + destruct (IH h a c fc vc foot P Pa HB SH N2) as (h3 & fc3 & vc3 & foot3 & E3 & SH3 & F3 & K3 & R3); [intros g y Hg; apply HI; right; exact Hg|intros g w Hg; apply HM; right; exact Hg|].
        exists h3, fc3, vc3, foot3. split; [exact E3|]. split; [exact SH3|]. split; [exact F3|]. split; [exact K3|]. intros g w w' Ew Ew'. destruct (R3 g w w' Ew Ew') as [R4 R5]. split.
        * intros [<-|K]; [|auto]. assert (w = VNone) by congruence. subst w. rewrite (R5 N1). apply fren_other; [discriminate|]. apply ren_same. discriminate.
        * intros K. apply R5. intros K5. apply K. right. exact K5.
      + inversion Mv as [| | | |? ? M1|]; subst. destruct (visit_all_ok n HV l h vs _ ltac:(apply Forall_forall; intros w Hw; apply (size_seq t) in Hw; lia) M1 HT Bf) as (h1 & l1 & vs1 & E1 & R1 & T1 & F1). rewrite E1. cbn [bind fst snd].
        apply (STEP h1 (HSeq true l1) (VSeq true vs1)); [constructor; exact T1|exact F1|]. constructor. exact R1.
  Qed.

  Lemma visit_ok : forall n, visit_spec n.
  Proof.
    induction n as [|n IH]; intros h x v P HS M HT HB; [lia|].
    assert (forall y, visit ids (S n) h x = Ok (h, x) -> ren v y -> y = v -> exists h' x' v', visit ids (S n) h x = Ok (h', x') /\ ren v v' /\ tree h' x' v' (ext P h h') /\ frame P h h') as STAY.
    { intros y E R ->. exists h, x, v. split; [exact E|]. split; [exact R|]. split; [eapply tree_wide; [exact HT|]; intros b Hb; left; exact Hb|apply frame_refl]. }
    pose proof HT as HT0. destruct HT as [| | | |t l vs P HT|a c fs vs foot P Ea Pa EK ND HF HD HBf]; try (eapply STAY; [reflexivity|apply ren_same; discriminate|reflexivity]).
    cbn [visit] in *. rewrite Ea in *. destruct (String.eqb_spec c "Identifier") as [->|Nc].
    - destruct (made_attrs _ _ M) as (at_ & A1 & _). cbv in A1. inversion A1 as [|? nm ? ? A2 A3]; subst. change (has vs "name"%string nm) in A2. unfold has in A2.
      assert (exists y, sget fs "name"%string = Some y) as [y Ey] by (apply keys_in; rewrite EK; apply keys_in; eauto). rewrite Ey in *.
      pose proof (HF _ _ _ Ey A2) as HY. inversion HY as [ | | |s Q|? ? ? ? HY1|? ? ? ? ? ? HY1]; subst; try (eapply STAY; [reflexivity|apply (ren_miss _ _ A2); discriminate|reflexivity]).
      destruct (sget ids s) as [new|] eqn:EI; [|eapply STAY; [reflexivity|apply (ren_miss _ _ A2); intros s0 E0; injection E0 as <-; exact EI|reflexivity]].
      set (o := ("Identifier", [("lineno", HInt 0); ("name", HStr new); ("scope", HNone)])%string). exists (h ++ [o]), (HRef (length h)), (VNode "Identifier" (new_ident new)). split; [reflexivity|]. split; [apply (ren_hit _ _ _ A2 EI)|]. split.
      + eapply t_node with (foot := fun _ _ => False).
        * rewrite nth_error_app2, Nat.sub_diag by lia. reflexivity.
        * right. rewrite app_length. cbn. lia.
        * reflexivity.
        * repeat constructor; cbn; intuition discriminate.
        * intros f y v E1 E2. cbn [sget new_ident] in E1, E2. destruct (String.eqb "lineno" f); [injection E1 as <-; injection E2 as <-; constructor|]. destruct (String.eqb "name" f); [injection E1 as <-; injection E2 as <-; constructor|]. destruct (String.eqb "scope" f); [injection E1 as <-; injection E2 as <-; constructor|discriminate].
        * intros ? ? ? [].
        * intros ? ? [].
      + split; [rewrite app_length; lia|]. intros b Lb _. apply nth_error_app1. exact Lb.
    - assert (shape h a c fs vs foot P) as SH by (constructor; auto).
      destruct (visit_items_ok n IH (children_items (c, fs)) h a c fs vs foot P Pa HB SH (children_items_nodup c fs ND)) as (h' & fc' & vc' & foot' & E & SH' & F & K & R).
      + intros f y Hy. apply (children_items_in c fs f y ND). exact Hy.
      + intros f w Hf Ew. split; [pose proof (size_has c vs f w Ew); lia|]. inversion M as [| | | | |? ? MF]; subst. apply (made_has _ _ _ MF Ew).
      + rewrite E. cbn [bind]. exists h', (HRef a), (VNode c vc'). split; [reflexivity|]. split; [|split; [|exact F]].
        * assert (forall f w, sget vs f = Some w -> (In f (map fst (children_items (c, fs))) <-> ischild c f = true)) as CI.
          { intros f w Ew. assert (exists y, sget fs f = Some y) as [y Ey] by (apply keys_in; rewrite EK; apply keys_in; eauto). split.
            - intros Hin. apply in_map_iff in Hin. destruct Hin as ([f0 y0] & Ef & Hin). cbn in Ef. subst f0. apply (children_items_in c fs f y0 ND) in Hin. tauto.
            - intros Hc. apply in_map_iff. exists (f, y). split; [reflexivity|]. apply children_items_in; auto. }
          apply ren_node; auto; intros f w w' E1 E2 Hc; destruct (R f w w' E1 E2) as [R1 R2]; [apply R2; rewrite (CI f w E1); congruence|apply R1; apply (CI f w E1); exact Hc].
        * destruct SH' as [SA SK SN ST SD SF]. eapply t_node with (foot := foot'); eauto. left. exact Pa.
  Qed.
End Ren.
