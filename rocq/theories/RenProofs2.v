(** RenProofs2.v - listing after renaming. *)
From Verif Require Import Base VisitModel VisitProofs AstTable AstModel AstSpec AstProofs RenModel RenSpec RenProofs.

Lemma find_class_in l c : In (find_class l c) l /\ c_name (find_class l c) = c \/ find_class l c = Class c [] [].
Proof. induction l as [|k l IH]; cbn; [auto|]. destruct (String.eqb_spec (c_name k) c) as [<-|]; [left; auto|]. destruct IH as [[H1 H2]|H]; auto. Qed.
Definition kid_name (k : kid) : string := match k with One f => f | Many f => f end.
Lemma kids_are_children c k : In k (kid_fields c) -> ischild c (kid_name k) = true.
Proof.
  assert (forallb (fun x => forallb (fun k => negb (prefix "__" (kid_name k)) && negb (String.eqb (kid_name k) "coord") && negb (String.eqb (kid_name k) "attr_names") && negb (existsb (String.eqb (kid_name k)) (c_attrs x))) (c_kids x)) classes = true) as H by (vm_compute; reflexivity).
  intros Hk. unfold kid_fields in Hk. unfold ischild, attr_names. destruct (find_class_in classes c) as [[H1 H2]|E]; [|rewrite E in Hk; destruct Hk]. rewrite forallb_forall in H. specialize (H _ H1). cbn beta in H. rewrite forallb_forall in H. apply (H k Hk).
Qed.
Definition is_node (v : val) : Prop := exists c fs, v = VNode c fs.
Lemma list_node n v l : list_to n v = Ok l -> is_node v.
Proof. destruct n; [discriminate|]. destruct v; try discriminate. intros _. eexists. eexists. reflexivity. Qed.

Section Lst.
  Variable ids : list (string * string).
  Notation ren := (ren ids).
  Notation fren := (fren ids).
  Notation rens := (rens ids).
  Lemma ren_node_node v v' : ren v v' -> is_node v -> is_node v'.
  Proof. intros H [c [fs ->]]. inversion H; subst; unfold is_node; eauto. Qed.
  Lemma kid_ren c fs fs' k l : map fst fs = map fst fs' -> ischild c (kid_name k) = true -> (forall f v v', sget fs f = Some v -> sget fs' f = Some v' -> ischild c f = true -> fren v v') ->
    kid_values fs k = Ok l -> Forall is_node l -> exists l', kid_values fs' k = Ok l' /\ rens l l'.
  Proof.
    intros EK HC HF E HN.
    assert (forall v, getattr fs (kid_name k) = Ok v -> exists v', getattr fs' (kid_name k) = Ok v' /\ fren v v') as G.
    { intros v Ev. apply getattr_has in Ev. unfold has in Ev. assert (exists v', sget fs' (kid_name k) = Some v') as [v' Ev'] by (apply keys_in; rewrite <- EK; apply keys_in; eauto). exists v'. split; [apply getattr_has; exact Ev'|]. eapply HF; eauto. }
    destruct k as [f|f]; cbn [kid_values kid_name] in *; apply bind_ok in E; destruct E as (v & Ev & E); destruct (G v Ev) as (v' & -> & R); cbn [bind].
    - injection E as <-. destruct R as [t m m' R|v v' Nv R].
      + destruct R; [exists []; split; [reflexivity|constructor]|]. cbn [truthy] in HN. inversion HN as [|? ? [c0 [f0 K]] _]; discriminate.
      + assert (truthy v = truthy v') as <- by (inversion R; reflexivity). destruct (truthy v); eexists; (split; [reflexivity|]); repeat constructor. exact R.
    - destruct R as [t m m' R|v v' Nv R].
      + destruct R as [|x y m m' R1 R2]; cbn [truthy elements] in *; injection E as <-; eexists; (split; [reflexivity|]); constructor; auto.
      + destruct v as [|b|z|s|t m|c0 f0]; [| | | |exfalso; apply (Nv t m); reflexivity|]; try (inversion R; subst; cbn [truthy] in *).
        * injection E as <-. eexists. split; [reflexivity|constructor].
        * destruct b; [discriminate|]. injection E as <-. eexists. split; [reflexivity|constructor].
        * destruct (negb (z =? 0)%Z); [discriminate|]. injection E as <-. eexists. split; [reflexivity|constructor].
        * destruct (String.eqb_spec s "") as [->|]; cbn [negb] in *; [injection E as <-; eexists; split; [reflexivity|constructor]|]. cbn [elements] in E. injection E as <-. destruct s as [|ch s]; [congruence|]. cbn in HN. inversion HN as [|? ? [c0 [f0 K]] _]; discriminate.
        * discriminate.
        * discriminate.
        * discriminate.
        * discriminate.
  Qed.
  Lemma rens_app a a' b b' : rens a a' -> rens b b' -> rens (a ++ b) (a' ++ b').
  Proof. induction 1; intros H2; cbn; [exact H2|constructor; auto]. Qed.
  Lemma kids_ren c fs fs' ks ls : map fst fs = map fst fs' -> (forall k, In k ks -> ischild c (kid_name k) = true) -> (forall f v v', sget fs f = Some v -> sget fs' f = Some v' -> ischild c f = true -> fren v v') ->
    mapM (kid_values fs) ks = Ok ls -> Forall is_node (concat ls) -> exists ls', mapM (kid_values fs') ks = Ok ls' /\ rens (concat ls) (concat ls').
  Proof.
    intros EK HC HF. revert ls. induction ks as [|k ks IH]; intros ls E HN; cbn [mapM] in E; [injection E as <-; exists []; split; [reflexivity|constructor]|].
    apply bind_ok in E. destruct E as (l & E1 & E). apply bind_ok in E. destruct E as (ls0 & E2 & E). injection E as <-. cbn [concat] in HN. apply Forall_app in HN. destruct HN as [N1 N2].
    destruct (kid_ren c fs fs' k l EK (HC k (or_introl eq_refl)) HF E1 N1) as (l' & F1 & R1). destruct (IH (fun k' Hk => HC k' (or_intror Hk)) ls0 E2 N2) as (ls' & F2 & R2). exists (l' :: ls'). cbn [mapM]. rewrite F1, F2. split; [reflexivity|]. cbn [concat]. apply rens_app; auto.
  Qed.
  Lemma chars_size s x : In x (chars s) -> vsize x = 1%nat.
  Proof. induction s as [|c s IH]; [intros []|]. intros [<-|H]; [reflexivity|auto]. Qed.
  Lemma kid_values_size c fs k l x : kid_values fs k = Ok l -> In x l -> (vsize x < vsize (VNode c fs))%nat.
  Proof.
    destruct k as [f|f]; cbn [kid_values]; intros E; apply bind_ok in E; destruct E as (v & Ev & E); apply getattr_has in Ev; pose proof (size_has c fs f v Ev) as S.
    - injection E as <-. destruct (truthy v); [|intros []]. intros [<-|[]]. exact S.
    - destruct (truthy v); [|injection E as <-; intros []]. destruct v; try discriminate; cbn [elements] in E; injection E as <-; intros Hin; [apply chars_size in Hin; change (vsize (VStr s)) with 1%nat in S; lia|]. apply (size_seq tuple) in Hin. lia.
  Qed.
  Lemma children_size c fs l x : children c fs = Ok l -> In x l -> (vsize x < vsize (VNode c fs))%nat.
  Proof.
    unfold children. intros E. apply bind_ok in E. destruct E as (ls & E & E2). injection E2 as <-. apply mapM_ok_Forall2 in E. intros Hin. induction E as [|k l ks ls E1 E IH]; [destruct Hin|]. cbn [concat] in Hin. apply in_app_or in Hin. destruct Hin as [Hin|Hin]; [eapply kid_values_size; eauto|auto].
  Qed.
  Lemma list_ren : forall n v v' l, ren v v' -> list_to n v = Ok l -> forall m, (vsize v' < m)%nat -> list_to m v' = Ok (map (new_name ids) l).
  Proof.
    induction n as [|n IH]; intros v v' l R E m HM; [discriminate|]. destruct (list_node _ _ _ E) as [c [fs ->]]. destruct m as [|m]; [lia|]. cbn [list_to] in E.
    inversion R as [v0 K|fs0 s new E1 E2|fs0 x E1 E2|c0 fs0 fs' Nc EK HS HF]; subst.
    - exfalso. eapply K. reflexivity.
    - cbn [String.eqb Ascii.eqb Bool.eqb] in E. unfold getattr in E. rewrite E1 in E. cbn [bind] in E. injection E as <-. cbn. unfold new_name. rewrite E2. reflexivity.
    - cbn [String.eqb Ascii.eqb Bool.eqb] in E. cbn [list_to String.eqb Ascii.eqb Bool.eqb]. unfold getattr in *. rewrite E1 in *. cbn [bind] in *. destruct x; try discriminate. injection E as <-. cbn [map]. unfold new_name. rewrite (E2 s eq_refl). reflexivity.
    - cbn [list_to]. destruct (String.eqb_spec c "Identifier") as [|_]; [contradiction|]. apply bind_ok in E. destruct E as (ks & E1 & E). apply bind_ok in E. destruct E as (ls & E2 & E). injection E as <-.
      assert (Forall is_node ks) as HN. { apply mapM_ok_Forall2 in E2. clear - E2. induction E2; constructor; eauto using list_node. }
      unfold children in E1. apply bind_ok in E1. destruct E1 as (kls & E1 & E3). injection E3 as <-.
      destruct (kids_ren c fs fs' (kid_fields c) kls EK (kids_are_children c) HF E1 HN) as (kls' & E4 & RK). assert (children c fs' = Ok (concat kls')) as E5 by (unfold children; rewrite E4; reflexivity). rewrite E5. cbn [bind].
      assert (forall x, In x (concat kls') -> (vsize x < m)%nat) as HSz by (intros x Hx; pose proof (children_size c fs' _ x E5 Hx); lia).
      assert (exists ls', mapM (list_to m) (concat kls') = Ok ls' /\ concat ls' = map (new_name ids) (concat ls)) as (ls' & -> & EC); [|cbn [bind]; now rewrite EC].
      revert E2 RK HSz. generalize (concat kls') as k'. generalize (concat kls) as k. clear - IH. intros k k' E2 RK. revert ls E2. induction RK as [|x y k k' Rx RK IHk]; intros ls E2 HSz; cbn [mapM] in *.
      + injection E2 as <-. exists []. auto.
      + apply bind_ok in E2. destruct E2 as (lx & Ex & E2). apply bind_ok in E2. destruct E2 as (ls0 & Els & E2). injection E2 as <-. destruct (IHk ls0 Els (fun z Hz => HSz z (or_intror Hz))) as (ls' & El & EC). rewrite (IH x y lx Rx Ex m (HSz y (or_introl eq_refl))). cbn [bind]. rewrite El. cbn [bind]. eexists. split; [reflexivity|]. cbn [concat]. rewrite EC, map_app. reflexivity.
  Qed.

  Scheme ren_mut := Induction for RenProofs.ren Sort Prop with fren_mut := Induction for RenProofs.fren Sort Prop with rens_mut := Induction for RenProofs.rens Sort Prop.
  Lemma attr_in c f : existsb (String.eqb f) (attr_names c) = true <-> In f (attr_names c).
  Proof. rewrite existsb_exists. split; [intros (g & Hg & E); apply String.eqb_eq in E as ->; exact Hg|intros H; exists f; split; [exact H|apply String.eqb_refl]]. Qed.
  Lemma ren_renamed v v' : ren v v' -> plain v -> (forall t l, v <> VSeq t l) -> renamed ids v v'.
  Proof.
    apply (ren_mut ids (fun v v' _ => plain v -> (forall t l, v <> VSeq t l) -> renamed ids v v') (fun v v' _ => plain v -> renamed ids v v') (fun l l' _ => Forall plain l -> (forall u m, ~ In (VSeq u m) l) -> Forall2 (renamed ids) l l')).
    - intros w K HP NS. destruct w; [constructor|constructor|constructor|constructor|exfalso; eapply NS; reflexivity|exfalso; eapply K; reflexivity].
    - intros fs s new E1 E2 HP _. inversion HP as [| | | | |? s0 P1 P2|? ? Nc]; subst; [|congruence]. unfold has in *. assert (s0 = s) by congruence. subst s0. eapply n_ident with (s := s) (scope := VNone) (scope' := VNone); auto; [unfold new_name; rewrite E2; reflexivity|reflexivity|constructor].
    - intros fs x E1 E2 HP _. inversion HP as [| | | | |? s0 P1 P2|? ? Nc]; subst; [|congruence]. unfold has in *. rewrite E1 in P1. injection P1 as ->. eapply n_ident with (s := s0) (scope := VNone) (scope' := VNone); auto; [unfold has, new_name; rewrite (E2 s0 eq_refl); exact E1|constructor].
    - intros c fs fs' Nc EK HS HF IH HP _. inversion HP as [| | | | |? s0 P1 P2|? ? Nc0 PF PC PU PA]; subst; [congruence|].
      assert (forall f v, has fs f v -> ischild c f = negb (existsb (String.eqb f) (attr_names c))) as HC.
      { intros f w Hw. assert (In f (map fst fs)) as Kf by (apply keys_in; eauto). unfold ischild. rewrite (PU f Kf). destruct (String.eqb_spec f "coord") as [->|]; [contradiction|]. destruct (String.eqb_spec f "attr_names") as [->|]; [contradiction|]. reflexivity. }
      apply n_node; auto.
      + intros f w w' Hf E1 E2. apply (HS f w w' E1 E2). rewrite (HC f w E1). apply attr_in in Hf. rewrite Hf. reflexivity.
      + intros f w w' Hf E1 E2. assert (ischild c f = true) as Hc. { rewrite (HC f w E1). destruct (existsb (String.eqb f) (attr_names c)) eqn:EE; [|reflexivity]. apply attr_in in EE. contradiction. } apply (IH f w w' E1 E2 Hc). apply (PF f w E1 Hc).
    - intros t l l' _ IH HP. inversion HP as [| | | |? ? P1 P2| |]; subst. constructor. apply IH; auto.
    - intros w w' NS _ IH HP. apply IH; auto.
    - constructor.
    - intros x y l l' _ IH1 _ IH2 HP HN. inversion HP as [|? ? P1 P2]; subst. constructor; [apply IH1; auto; intros t m ->; apply (HN t m); left; reflexivity|apply IH2; auto]. intros u m Hin. apply (HN u m). right. exact Hin.
  Qed.
End Lst.
