(** NameProofs.v - the search for a hierarchical name. *)
From Verif Require Import Base ScopeModel ScopeSpec ScopeProofs DfModel DfSpec BindModel BindSpec BindProofs OptModel VisitModel VisitSpec VisitProofs NameModel NameSpec.

Section Links.
  Context {node : Type}.
  Notation ftable := (ftable node).
  (** Every scope lists its children. *)
  Definition linked (d : ndict (frame node)) : Prop := forall c f, no_any c -> dget d c = Some f ->
    (forall x, In x (f_next _ f) -> no_any x /\ (exists l, x = c ++ [l]) /\ dget d x <> None) /\
    (forall l, no_any (c ++ [l]) -> dget d (c ++ [l]) <> None -> In (c ++ [l]) (f_next _ f)).

  Lemma step_linked h s a s' : inv h s -> linked (ft_dict _ s) -> plain_act a -> step _ s a = Ok s' -> linked (ft_dict _ s').
  Proof.
    intros HI HL HP E. destruct HI as (H1 & H2 & H3 & H4 & H5 & H6).
    assert (forall g : frame node -> frame node, (forall f, f_next _ (g f) = f_next _ f) -> on_current _ s g = Ok s' -> linked (ft_dict _ s')) as OC.
    { intros g Hg E'. unfold on_current in E'. destruct (dget (ft_dict _ s) (ft_current _ s)) as [f|] eqn:EF; [|discriminate]. injection E' as <-. cbn [ft_dict]. rewrite H1 in *.
      assert (forall c, no_any c -> dget (dset (ft_dict _ s) (current_after h) (g f)) c = if chain_dec (current_after h) c then Some (g f) else dget (ft_dict _ s) c) as HD by (intros c Hc; now apply dget_dset).
      assert (forall c, no_any c -> (dget (dset (ft_dict _ s) (current_after h) (g f)) c <> None <-> dget (ft_dict _ s) c <> None)) as HK.
      { intros c Hc. rewrite HD by auto. destruct (chain_dec (current_after h) c) as [<-|N]; [rewrite EF; split; discriminate|tauto]. }
      intros c f' Hc Ec. rewrite HD in Ec by auto.
      assert (exists f0, dget (ft_dict _ s) c = Some f0 /\ f_next _ f' = f_next _ f0) as (f0 & E0 & En).
      { destruct (chain_dec (current_after h) c) as [<-|N]; [injection Ec as <-; exists f; auto|eauto]. }
      destruct (HL c f0 Hc E0) as [L1 L2]. rewrite En. split.
      - intros x Hx. destruct (L1 x Hx) as (X1 & X2 & X3). split; [exact X1|]. split; [exact X2|]. apply HK; auto.
      - intros l Hl Hd. apply L2; [exact Hl|]. apply HK; auto. }
    destruct a as [l fl|c|n v|n v|n]; cbn [step] in E.
    - cbn [plain_act] in HP. unfold addFrame, chain_add_label in E. rewrite H1 in E. set (cur := current_after h) in *. set (sc := cur ++ [l]) in *. assert (no_any sc) as Hsc by now apply no_any_snoc.
      destruct (dmem (ft_dict _ s) sc) eqn:EM; [discriminate|]. unfold dmem in EM. destruct (dget (ft_dict _ s) sc) eqn:EG; [discriminate|]. clear EM.
      apply bind_ok in E as (d & Ed & E). injection E as <-. cbn [ft_dict]. set (nf := Frame _ cur [] fl [] [] []).
      assert (cur <> sc) as NC. { unfold sc. intros K. apply (f_equal (@length label)) in K. rewrite app_length in K. cbn in K. lia. }
      assert (keys_plain d /\ forall c, no_any c -> dget d c = match dget (ft_dict _ s) c with
                                                              | Some f => Some (if chain_dec cur c then frame_setNext _ f sc else f)
                                                              | None => None end) as [D1 D2].
      { destruct cur as [|c0 cr] eqn:EC.
        - injection Ed as <-. split; [exact H3|]. intros c Hc. destruct (dget (ft_dict _ s) c) as [f|] eqn:Ef; [|reflexivity]. destruct (chain_dec [] c) as [<-|N]; [|reflexivity]. destruct (H4 [] f Hc Ef) as ((l0 & K) & _). destruct (f_previous _ f); discriminate K.
        - rewrite <- EC in *. destruct (dget (ft_dict _ s) cur) as [p|] eqn:EP; [|discriminate]. injection Ed as <-. split; [now apply dset_plain|]. intros c Hc. rewrite dget_dset by auto. destruct (chain_dec cur c) as [<-|N]; [rewrite EP; reflexivity|]. destruct (dget (ft_dict _ s) c); reflexivity. }
      assert (forall c, no_any c -> dget (dset d sc nf) c = if chain_dec sc c then Some nf else dget d c) as HD by (intros c Hc; now apply dget_dset).
      intros c f Hc E. rewrite HD in E by auto. destruct (chain_dec sc c) as [<-|N].
      + injection E as <-. cbn [f_next nf]. split; [intros x []|]. intros l' Hl Hd. exfalso. rewrite HD in Hd by auto. destruct (chain_dec sc (sc ++ [l'])) as [K|_].
        { apply (f_equal (@length label)) in K. rewrite app_length in K. cbn in K. lia. }
        rewrite D2 in Hd by auto. destruct (dget (ft_dict _ s) (sc ++ [l'])) as [f'|] eqn:Ef; [|congruence]. destruct (H4 _ f' Hl Ef) as ((l0 & K) & K2 & _). apply app_inj_tail in K as [K _]. rewrite <- K in K2. destruct K2 as [K2|K2]; [|congruence]. unfold sc in K2. destruct cur; discriminate K2.
      + rewrite D2 in E by auto. destruct (dget (ft_dict _ s) c) as [f0|] eqn:E0; [|discriminate]. destruct (HL c f0 Hc E0) as [L1 L2].
        assert (forall x, no_any x -> dget (ft_dict _ s) x <> None -> dget (dset d sc nf) x <> None) as Up.
        { intros x Hx Hd. rewrite HD by auto. destruct (chain_dec sc x); [discriminate|]. rewrite D2 by auto. destruct (dget (ft_dict _ s) x); [discriminate|congruence]. }
        assert (forall x, In x (f_next _ f0) -> no_any x /\ (exists l, x = c ++ [l]) /\ dget (dset d sc nf) x <> None) as L1'.
        { intros x Hx. destruct (L1 x Hx) as (X1 & X2 & X3). auto. }
        assert (forall l', no_any (c ++ [l']) -> dget (dset d sc nf) (c ++ [l']) <> None -> c ++ [l'] = sc \/ In (c ++ [l']) (f_next _ f0)) as L2'.
        { intros l' Hl Hd. rewrite HD in Hd by auto. destruct (chain_dec sc (c ++ [l'])) as [K|_]; [left; congruence|right]. apply L2; [exact Hl|]. rewrite D2 in Hd by auto. destruct (dget (ft_dict _ s) (c ++ [l'])); congruence. }
        injection E as <-. destruct (chain_dec cur c) as [<-|N'].
        * cbn [frame_setNext f_next]. split.
          -- intros x Hx. apply in_app_or in Hx as [Hx|[<-|[]]]; [exact (L1' x Hx)|]. split; [exact Hsc|]. split; [exists l; reflexivity|]. rewrite HD by auto. destruct (chain_dec sc sc); congruence.
          -- intros l' Hl Hd. apply in_or_app. destruct (L2' l' Hl Hd) as [K|K]; [right; left; congruence|left; exact K].
        * split; [exact L1'|]. intros l' Hl Hd. destruct (L2' l' Hl Hd) as [K|K]; [|exact K]. exfalso. unfold sc in K. apply app_inj_tail in K as [K _]. congruence.
    - injection E as <-. exact HL.
    - refine (OC _ _ E). intros f. unfold frame_addSignal. destruct (sget _ _); reflexivity.
    - refine (OC _ _ E). intros f. unfold frame_addConst. destruct (sget _ _); reflexivity.
    - refine (OC _ _ E). intros f. unfold frame_addGenvar. destruct (sget _ _); reflexivity.
  Qed.
  Lemma run_linked : forall h h0 s s', inv h0 s -> linked (ft_dict _ s) -> Forall plain_act h -> run _ h s = Ok s' -> linked (ft_dict _ s').
  Proof.
    induction h as [|a r IH]; intros h0 s s' HI HL HP E; [injection E as <-; exact HL|]. inversion HP as [|? ? P1 P2]; subst. cbn [run] in E. apply bind_ok in E as (s1 & E1 & E2).
    apply (IH (h0 ++ [a]) s1); auto; [eapply step_inv; eauto|eapply step_linked; eauto].
  Qed.

  (** ** The search *)
  Notation visible l := (unprintable (stype l) = false).
  Notation both_for l t := (scopetype_eqb (stype l) STfor && scopetype_eqb (stype t) STfor).
  Inductive tm : list label -> chain -> Prop :=
  | tm_last l t : visible l -> label_eq l t = true -> tm [l] [t]
  | tm_name l t r ts : visible l -> label_eq l t = true -> ts <> [] -> tm r ts -> tm (l :: r) (t :: ts)
  | tm_lastfor l t : unprintable (stype l) = true -> both_for l t = true -> loop_eqb (sloop l) (sloop t) = true -> tm [l] [t]
  | tm_for l t r ts : unprintable (stype l) = true -> both_for l t = true -> loop_eqb (sloop l) (sloop t) = true -> ts <> [] -> tm r ts -> tm (l :: r) (t :: ts)
  | tm_skip l t r ts : unprintable (stype l) = true -> both_for l t = false -> tm r (t :: ts) -> tm (l :: r) (t :: ts).
  Lemma tm_nonempty r ts : tm r ts -> r <> [] /\ ts <> [].
  Proof. intros H. destruct H; split; discriminate. Qed.

  Fixpoint first_of (fuel : nat) (s : ftable) (l : label) (tg : chain) (nexts : list chain) : res (option chain) :=
    match nexts with
    | [] => Ok None
    | x :: nexts' => do r <- matched fuel s x tg; match r with Some c => Ok (Some (l :: c)) | None => first_of fuel s l tg nexts' end
    end.
  Definition among (fuel : nat) (s : ftable) (cur : chain) (l : label) (tg : chain) : res (option chain) :=
    match dget (ft_dict _ s) cur with None => Err KeyError | Some f => first_of fuel s l tg (f_next _ f) end.
  Lemma matched_S fuel s b l t target' : matched (S fuel) s (b ++ [l]) (t :: target') =
    if negb (unprintable (stype l)) then
      if negb (label_eq l t) then Ok None else match target' with [] => Ok (Some [t]) | _ => among fuel s (b ++ [l]) l target' end
    else if both_for l t then
      if negb (loop_eqb (sloop l) (sloop t)) then Ok None else match target' with [] => Ok (Some [t]) | _ => among fuel s (b ++ [l]) l target' end
    else among fuel s (b ++ [l]) l (t :: target').
  Proof.
    cbn [matched]. rewrite rev_app_distr. cbn [rev app].
    assert (forall tg, match dget (ft_dict _ s) (b ++ [l]) with
              | None => Err KeyError
              | Some f => (fix first (nexts : list chain) : res (option chain) :=
                             match nexts with [] => Ok None | x :: nexts' => do r <- matched fuel s x tg; match r with Some c => Ok (Some (l :: c)) | None => first nexts' end end) (f_next _ f)
              end = among fuel s (b ++ [l]) l tg) as A.
    { intros tg. unfold among. destruct (dget (ft_dict _ s) (b ++ [l])) as [f|]; [|reflexivity]. induction (f_next _ f) as [|x n IH]; [reflexivity|]. cbn [first_of]. rewrite <- IH. reflexivity. }
    destruct (negb (unprintable (stype l))); [destruct (negb (label_eq l t)); [reflexivity|]; destruct target'; [reflexivity|apply A]|].
    destruct (both_for l t); [destruct (negb (loop_eqb (sloop l) (sloop t))); [reflexivity|]; destruct target'; [reflexivity|apply A]|apply A].
  Qed.

  Variable s : ftable.
  Hypothesis HL : linked (ft_dict _ s).
  Notation open c := (dget (ft_dict _ s) c <> None).
  (** Every scope lies in a scope. *)
  Hypothesis HC : forall b l l', no_any (b ++ [l; l']) -> open (b ++ [l; l']) -> open (b ++ [l]).
  Lemma open_up b l r : no_any (b ++ l :: r) -> open (b ++ l :: r) -> open (b ++ [l]).
  Proof.
    revert b l. induction r as [|l' r IH]; intros b l Hn Ho; [exact Ho|]. apply (HC b l l').
    - apply Forall_app in Hn as [N1 N2]. inversion N2 as [|? ? N3 N4]; subst. inversion N4; subst. apply Forall_app. split; [exact N1|]. constructor; [assumption|]. constructor; [assumption|constructor].
    - replace (b ++ [l; l']) with ((b ++ [l]) ++ [l']) by (rewrite <- app_assoc; reflexivity). apply IH; rewrite <- app_assoc; [exact Hn|exact Ho].
  Qed.

  Definition result (r : list label) (ts : chain) : chain := removelast r ++ [last ts (Label "" STany None)].
  Lemma result_cons l r t ts : r <> [] -> ts <> [] -> result (l :: r) (t :: ts) = l :: result r ts.
  Proof. intros H H'. unfold result. destruct r; [congruence|]. destruct ts; [congruence|]. reflexivity. Qed.
  Lemma result_skip l r ts : r <> [] -> result (l :: r) ts = l :: result r ts.
  Proof. intros H. unfold result. destruct r; [congruence|]. reflexivity. Qed.

  Lemma matched_ok : forall fuel b l ts x, no_any (b ++ [l]) -> ts <> [] -> matched fuel s (b ++ [l]) ts = Ok x ->
    match x with
    | Some c => exists r, (r = [] \/ open (b ++ l :: r)) /\ no_any (b ++ l :: r) /\ tm (l :: r) ts /\ c = result (l :: r) ts
    | None => forall r, no_any (b ++ l :: r) -> open (b ++ l :: r) -> ~ tm (l :: r) ts
    end.
  Proof.
    induction fuel as [|fuel IH]; intros b l ts x Hn Ht E; [discriminate E|]. destruct ts as [|t ts]; [congruence|]. rewrite matched_S in E.
    assert (forall tg y, tg <> [] -> among fuel s (b ++ [l]) l tg = Ok y ->
              match y with
              | Some c => exists r, r <> [] /\ open (b ++ l :: r) /\ no_any (b ++ l :: r) /\ tm r tg /\ c = l :: result r tg
              | None => forall r, r <> [] -> no_any (b ++ l :: r) -> open (b ++ l :: r) -> ~ tm r tg
              end) as A.
    { intros tg y Htg EA. unfold among in EA. destruct (dget (ft_dict _ s) (b ++ [l])) as [f|] eqn:Ef; [|discriminate EA]. destruct (HL _ f Hn Ef) as [L1 L2].
      assert (forall nexts y, (forall z, In z nexts -> In z (f_next _ f)) -> first_of fuel s l tg nexts = Ok y ->
                match y with
                | Some c => exists r, r <> [] /\ open (b ++ l :: r) /\ no_any (b ++ l :: r) /\ tm r tg /\ c = l :: result r tg
                | None => forall l' r, In ((b ++ [l]) ++ [l']) nexts -> no_any (b ++ l :: l' :: r) -> open (b ++ l :: l' :: r) -> ~ tm (l' :: r) tg
                end) as B.
      { induction nexts as [|z nexts IHn]; intros y0 Hsub EB; cbn [first_of] in EB.
        - injection EB as <-. intros l' r [].
        - apply bind_ok in EB as (r0 & E0 & EB). destruct (L1 z (Hsub z (or_introl eq_refl))) as (Z1 & (l' & ->) & Z3). pose proof (IH (b ++ [l]) l' tg r0 Z1 Htg E0) as M. destruct r0 as [c|].
          + injection EB as <-. destruct M as (r & R1 & R2 & R3 & ->). exists (l' :: r). rewrite <- app_assoc in R1, R2. cbn [app] in R1, R2. split; [discriminate|]. split.
            * destruct R1 as [-> |R1]; [|exact R1]. rewrite <- app_assoc in Z3. exact Z3.
            * auto.
          + specialize (IHn y0 (fun z Hz => Hsub z (or_intror Hz)) EB). destruct y0 as [c|]; [exact IHn|]. intros l2 r Hin N1 N2. destruct Hin as [K|K].
            * apply app_inj_tail in K as [_ K]. subst l2. apply M; rewrite <- app_assoc; [exact N1|exact N2].
            * exact (IHn l2 r K N1 N2). }
      specialize (B (f_next _ f) y (fun z Hz => Hz) EA). destruct y as [c|]; [exact B|]. intros [|l' r] Hr N1 N2; [congruence|]. apply (B l' r); [|exact N1|exact N2]. apply L2.
      - rewrite <- app_assoc. apply Forall_app in N1 as [N1 N1']. inversion N1' as [|? ? N3 N4]; subst. inversion N4; subst. apply Forall_app. split; [exact N1|]. constructor; [assumption|]. constructor; [assumption|constructor].
      - apply (open_up (b ++ [l]) l' r); rewrite <- app_assoc; [exact N1|exact N2]. }
    assert (forall hit : bool, (if negb hit then Ok None else match ts with [] => Ok (Some [t]) | _ => among fuel s (b ++ [l]) l ts end) = Ok x ->
              (hit = true -> (ts = [] -> tm [l] [t]) /\ (forall r, ts <> [] -> tm r ts -> tm (l :: r) (t :: ts))) ->
              (forall r, tm (l :: r) (t :: ts) -> hit = true /\ ((r = [] /\ ts = []) \/ tm r ts)) ->
              match x with
              | Some c => exists r, (r = [] \/ open (b ++ l :: r)) /\ no_any (b ++ l :: r) /\ tm (l :: r) (t :: ts) /\ c = result (l :: r) (t :: ts)
              | None => forall r, no_any (b ++ l :: r) -> open (b ++ l :: r) -> ~ tm (l :: r) (t :: ts)
              end) as Hit.
    { intros hit EH H1 H2. destruct hit; cbn [negb] in EH.
      - destruct (H1 eq_refl) as [H3 H4]. destruct ts as [|t' ts].
        + injection EH as <-. exists []. split; [auto|]. split; [exact Hn|]. split; [auto|reflexivity].
        + assert (t' :: ts <> []) as Nt by discriminate; pose proof (A _ _ Nt EH) as X. destruct x as [c|].
          * destruct X as (r & R0 & R1 & R2 & R3 & ->). exists r. split; [auto|]. split; [exact R2|]. split; [apply H4; [discriminate|exact R3]|]. symmetry. apply result_cons; [exact R0|discriminate].
          * intros r N1 N2 K. destruct (H2 r K) as [_ [[_ K']|K']]; [discriminate K'|]. exact (X r (proj1 (tm_nonempty _ _ K')) N1 N2 K').
      - injection EH as <-. intros r _ _ K. destruct (H2 r K) as [K' _]. discriminate K'. }
    destruct (unprintable (stype l)) eqn:El; cbn [negb] in E.
    - destruct (both_for l t) eqn:Eb.
      + apply (Hit _ E).
        * intros Eh. split; [intros _; apply tm_lastfor; auto|intros r Hr K; apply tm_for; auto].
        * intros r K. inversion K; subst; try congruence; auto.
      + pose proof (A (t :: ts) x ltac:(discriminate) E) as X. destruct x as [c|].
        * destruct X as (r & R0 & R1 & R2 & R3 & ->). exists r. split; [auto|]. split; [exact R2|]. split; [apply tm_skip; auto|]. symmetry. apply result_skip, R0.
        * intros r N1 N2 K. assert (tm r (t :: ts)) as K' by (inversion K; subst; try congruence; assumption). exact (X r (proj1 (tm_nonempty _ _ K')) N1 N2 K').
    - apply (Hit _ E).
      + intros Eh. split; [intros _; apply tm_last; auto|intros r Hr K; apply tm_name; auto].
      + intros r K. inversion K; subst; try congruence; auto.
  Qed.

  (** Enough steps. *)
  Hypothesis HD : forall c, no_any c -> open c -> (length c <= deepest s)%nat.
  Lemma matched_total : forall fuel b l ts, (deepest s < fuel + length b)%nat -> no_any (b ++ [l]) -> open (b ++ [l]) -> ts <> [] -> exists x, matched fuel s (b ++ [l]) ts = Ok x.
  Proof.
    induction fuel as [|fuel IH]; intros b l ts Hf Hn Ho Ht.
    { exfalso. pose proof (HD _ Hn Ho) as K. rewrite app_length in K. cbn in K, Hf. lia. }
    destruct ts as [|t ts]; [congruence|]. rewrite matched_S.
    assert (forall tg, tg <> [] -> exists x, among fuel s (b ++ [l]) l tg = Ok x) as A.
    { intros tg Htg. unfold among. destruct (dget (ft_dict _ s) (b ++ [l])) as [f|] eqn:Ef; [|congruence]. destruct (HL _ f Hn Ef) as [L1 _]. induction (f_next _ f) as [|z n IHn]; cbn [first_of]; [eauto|].
      destruct (L1 z (or_introl eq_refl)) as (Z1 & (l' & ->) & Z3). destruct (IH (b ++ [l]) l' tg) as (x & ->); [rewrite app_length; cbn; lia|exact Z1|exact Z3|exact Htg|]. cbn [bind]. destruct x; [eauto|]. apply IHn. intros z Hz. apply L1. now right. }
    destruct (negb (unprintable (stype l))); [destruct (negb (label_eq l t)); [eauto|]; destruct ts; [eauto|apply A; discriminate]|].
    destruct (both_for l t); [destruct (negb (loop_eqb (sloop l) (sloop t))); [eauto|]; destruct ts; [eauto|apply A; discriminate]|apply A; discriminate].
  Qed.
End Links.
