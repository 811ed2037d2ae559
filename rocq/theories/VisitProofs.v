From Verif Require Import Base ScopeModel ScopeSpec ScopeProofs DfModel BindModel BindSpec BindProofs VisitModel VisitSpec.

(** ** String dictionaries *)
Section SDict.
  Context {V : Type}.
  Lemma sget_sset (d : list (string * V)) k v k' : sget (sset d k v) k' = if String.eqb k k' then Some v else sget d k'.
  Proof.
    induction d as [|[k1 v1] r IH]; cbn [sset sget]; [reflexivity|]. destruct (String.eqb k1 k) eqn:E1; cbn [sget].
    - apply String.eqb_eq in E1. subst k1. destruct (String.eqb k k'); reflexivity.
    - rewrite IH. destruct (String.eqb k1 k') eqn:E2; [|reflexivity]. apply String.eqb_eq in E2. subst k1. apply String.eqb_neq in E1. destruct (String.eqb k k') eqn:E3; [|reflexivity]. apply String.eqb_eq in E3. congruence.
  Qed.
End SDict.

Section Scopes.
  Context {node : Type}.
  Implicit Type h : list (act node).
  Definition tab (t : vtable node) (n : string) : list node := match sget t n with Some l => l | None => [] end.
  Definition full (t : vtable node) : Prop := forall n, sget t n <> Some [].
  Lemma tab_vadd t n v m : tab (vadd _ t n v) m = if String.eqb n m then tab t m ++ [v] else tab t m.
  Proof.
    unfold tab, vadd. destruct (sget t n) as [l|] eqn:E; rewrite sget_sset; destruct (String.eqb n m) eqn:E2; try reflexivity; apply String.eqb_eq in E2; subst m; rewrite E; reflexivity.
  Qed.
  Lemma full_vadd t n v : full t -> full (vadd _ t n v).
  Proof.
    intros H m. unfold vadd. destruct (sget t n) as [l|] eqn:E; rewrite sget_sset; destruct (String.eqb n m); try apply H; [destruct l|]; discriminate.
  Qed.
  Lemma tab_nil t n : full t -> (tab t n = [] <-> sget t n = None).
  Proof. intros H. unfold tab. specialize (H n). destruct (sget t n) as [[|]|]; split; congruence. Qed.

  (** ** Histories *)
  Lemma current_snoc h a : current_after (h ++ [a]) = after (current_after h) a.
  Proof. unfold current_after. rewrite fold_left_app. reflexivity. Qed.
  Lemma done_in_snoc c (a : act node) : forall h cur, done_in cur c (h ++ [a]) = done_in cur c h ++ (if chain_dec (fold_left after h cur) c then [a] else []).
  Proof.
    induction h as [|b r IH]; intros cur; cbn [app done_in fold_left]; [rewrite app_nil_r; reflexivity|]. rewrite IH, app_assoc. reflexivity.
  Qed.
  Lemma constant_snoc (l : list (act node)) a n : constant_decl (l ++ [a]) n = match constant_decl l n with [] => constant_decl [a] n | x => x end.
  Proof. induction l as [|b r IH]; [reflexivity|]. cbn [app constant_decl]. destruct b; try exact IH. destruct (String.eqb name n); [reflexivity|exact IH]. Qed.
  Lemma signal_snoc (l : list (act node)) a n : signal_decls (l ++ [a]) n = signal_decls l n ++ match constant_decl l n with [] => signal_decls [a] n | _ => [] end.
  Proof.
    induction l as [|b r IH]; [reflexivity|]. cbn [app constant_decl signal_decls]. destruct b; try exact IH.
    - destruct (String.eqb name n); [cbn [app]; f_equal; exact IH|exact IH].
    - destruct (String.eqb name n); [reflexivity|exact IH].
  Qed.
  Lemma constants_snoc h a c n : constants_in (h ++ [a]) c n =
    if chain_dec (current_after h) c then match constants_in h c n with [] => constant_decl [a] n | x => x end else constants_in h c n.
  Proof. unfold constants_in. rewrite done_in_snoc. fold (current_after h). destruct (chain_dec _ c); [apply constant_snoc|now rewrite app_nil_r]. Qed.
  Lemma signals_snoc h a c n : signals_in (h ++ [a]) c n =
    if chain_dec (current_after h) c then signals_in h c n ++ match constants_in h c n with [] => signal_decls [a] n | _ => [] end else signals_in h c n.
  Proof. unfold signals_in, constants_in. rewrite done_in_snoc. fold (current_after h). destruct (chain_dec _ c); [apply signal_snoc|now rewrite app_nil_r]. Qed.
  Lemma opened_snoc h a c fl : opened (h ++ [a]) c fl <-> opened h c fl \/ exists l, a = OpenScope _ l fl /\ c = current_after h ++ [l].
  Proof.
    split.
    - intros (h1 & l & h2 & E & Hc). destruct (exists_last (l := OpenScope _ l fl :: h2)) as (h3 & b & E3); [discriminate|]. rewrite E3 in E. rewrite app_assoc in E. apply app_inj_tail in E as [E <-]. destruct h3 as [|b' h3].
      + injection E3 as E3 _. right. exists l. rewrite app_nil_r in E. subst. auto.
      + injection E3 as <- ->. left. exists h1, l, h3. auto.
    - intros [(h1 & l & h2 & -> & Hc)|(l & -> & Hc)]; [exists h1, l, (h2 ++ [a]); rewrite <- app_assoc; auto|exists h, l, []; auto].
  Qed.

  Definition frame_ok h (d : ndict (frame node)) (c : chain) (f : frame node) : Prop :=
    (exists l, c = f_previous _ f ++ [l]) /\ (f_previous _ f = [] \/ dget d (f_previous _ f) <> None) /\ opened h c (f_flags _ f) /\
    full (f_consts _ f) /\ full (f_signals _ f) /\
    (forall n, tab (f_consts _ f) n = constants_in h c n) /\ (forall n, tab (f_signals _ f) n = signals_in h c n).
  Definition inv h (s : ftable node) : Prop :=
    ft_current _ s = current_after h /\ no_any (current_after h) /\ keys_plain (ft_dict _ s) /\
    (forall c f, no_any c -> dget (ft_dict _ s) c = Some f -> frame_ok h (ft_dict _ s) c f) /\
    (forall c, no_any c -> dget (ft_dict _ s) c = None -> forall n, constants_in h c n = [] /\ signals_in h c n = []) /\
    (forall c fl, opened h c fl -> no_any c /\ exists f, dget (ft_dict _ s) c = Some f /\ f_flags _ f = fl).

  Lemma no_any_snoc c l : no_any c -> stype l <> STany -> no_any (c ++ [l]).
  Proof. intros H1 H2. apply Forall_app. auto. Qed.
  Lemma no_any_init (c : chain) l : no_any (c ++ [l]) -> no_any c.
  Proof. intros H. apply Forall_app in H. tauto. Qed.

  (** Events that change tables of the current scope only. *)
  Lemma inv_current h s a g f : inv h s -> after (current_after h) a = current_after h -> (forall l fl, a <> OpenScope _ l fl) ->
    dget (ft_dict _ s) (ft_current _ s) = Some f ->
    f_previous _ (g f) = f_previous _ f -> f_flags _ (g f) = f_flags _ f -> (full (f_consts _ f) -> full (f_consts _ (g f))) -> (full (f_signals _ f) -> full (f_signals _ (g f))) ->
    ((forall n, tab (f_consts _ f) n = constants_in h (current_after h) n) -> full (f_consts _ f) -> forall n, tab (f_consts _ (g f)) n = match constants_in h (current_after h) n with [] => constant_decl [a] n | x => x end) ->
    ((forall n, tab (f_consts _ f) n = constants_in h (current_after h) n) -> full (f_consts _ f) -> forall n, tab (f_signals _ (g f)) n = tab (f_signals _ f) n ++ match constants_in h (current_after h) n with [] => signal_decls [a] n | _ => [] end) ->
    inv (h ++ [a]) (FTable _ (dset (ft_dict _ s) (ft_current _ s) (g f)) (ft_current _ s)).
  Proof.
    intros (H1 & H2 & H3 & H4 & H5 & H6) HA HO Hf G1 G2 G3 G4 G5 G6. unfold inv. cbn [ft_current ft_dict]. rewrite current_snoc, HA. rewrite H1 in *.
    assert (forall c, no_any c -> dget (dset (ft_dict _ s) (current_after h) (g f)) c = if chain_dec (current_after h) c then Some (g f) else dget (ft_dict _ s) c) as HD by (intros c Hc; now apply dget_dset).
    split; [reflexivity|]. split; [exact H2|]. split; [now apply dset_plain|]. split; [|split].
    - intros c f' Hc E. rewrite HD in E by auto. unfold frame_ok.
      assert (forall p l (fr : frame node), no_any c -> c = p ++ [l] -> p = [] \/ dget (ft_dict _ s) p <> None -> f_previous _ fr = p -> f_previous _ fr = [] \/ dget (dset (ft_dict _ s) (current_after h) (g f)) (f_previous _ fr) <> None) as HPv.
      { intros p l fr Hn -> [K|K] ->; [left; exact K|]. right. rewrite HD by (eapply no_any_init; eauto). destruct (chain_dec (current_after h) p); [discriminate|exact K]. }
      destruct (chain_dec (current_after h) c) as [<-|N].
      + injection E as <-. destruct (H4 _ f Hc Hf) as ((l & K1) & K2 & K3 & K4 & K5 & K6 & K7). rewrite G1, G2. split; [eauto|]. split; [rewrite <- G1; eapply HPv; eauto|]. split; [apply opened_snoc; auto|]. split; [auto|]. split; [auto|].
        split; intros n; [rewrite constants_snoc|rewrite signals_snoc]; destruct (chain_dec _ _) as [_|K]; try congruence; [auto|]. rewrite G6 by auto. rewrite K7. reflexivity.
      + destruct (H4 c f' Hc E) as ((l & K1) & K2 & K3 & K4 & K5 & K6 & K7). split; [eauto|]. split; [eapply HPv; eauto|]. split; [apply opened_snoc; auto|]. split; [auto|]. split; [auto|].
        split; intros n; [rewrite constants_snoc|rewrite signals_snoc]; destruct (chain_dec _ _) as [K|_]; try congruence; auto.
    - intros c Hc E n. rewrite HD in E by auto. rewrite constants_snoc, signals_snoc. destruct (chain_dec (current_after h) c) as [<-|N]; [discriminate|]. now apply H5.
    - intros c fl Ho. apply opened_snoc in Ho as [Ho|(l & -> & _)]; [|exfalso; eapply HO; eauto]. destruct (H6 c fl Ho) as (K & f' & E & K2). split; [exact K|]. rewrite HD by auto. destruct (chain_dec (current_after h) c) as [<-|N]; [|eauto]. exists (g f). split; [reflexivity|]. rewrite G2. congruence.
  Qed.

  Lemma step_inv h s a s' : inv h s -> plain_act a -> step _ s a = Ok s' -> inv (h ++ [a]) s'.
  Proof.
    intros HI HPl E. destruct a as [l fl|c|n v|n v|n]; cbn [step] in E.
    - (* OpenScope *)
      destruct HI as (H1 & H2 & H3 & H4 & H5 & H6). cbn [plain_act] in HPl. unfold addFrame, chain_add_label in E. rewrite H1 in E.
      set (cur := current_after h) in *. set (sc := cur ++ [l]) in *. assert (no_any sc) as Hsc by now apply no_any_snoc.
      destruct (dmem (ft_dict _ s) sc) eqn:EM; [discriminate|]. unfold dmem in EM. destruct (dget (ft_dict _ s) sc) eqn:EG; [discriminate|]. clear EM.
      apply bind_ok in E as (d & Ed & E). injection E as <-.
      assert (cur <> sc) as NC. { unfold sc. intros K. apply (f_equal (@length label)) in K. rewrite app_length in K. cbn in K. lia. }
      assert (keys_plain d /\ (cur = [] \/ dget d cur <> None) /\ forall c, no_any c -> match dget (ft_dict _ s) c with None => dget d c = None | Some f => exists f', dget d c = Some f' /\ f_previous _ f' = f_previous _ f /\ f_flags _ f' = f_flags _ f /\ f_consts _ f' = f_consts _ f /\ f_signals _ f' = f_signals _ f end) as (D1 & D2 & D3).
      { destruct cur as [|c0 cr] eqn:EC.
        - injection Ed as <-. split; [exact H3|]. split; [auto|]. intros c Hc. destruct (dget (ft_dict _ s) c); [eauto 10|reflexivity].
        - rewrite <- EC in *. assert (no_any cur) as Hcur by exact H2. destruct (dget (ft_dict _ s) cur) as [p|] eqn:EP; [|discriminate]. injection Ed as <-. split; [now apply dset_plain|]. split; [right; rewrite dget_dset by auto; destruct (chain_dec cur cur); congruence|].
          intros c Hc. rewrite dget_dset by auto. destruct (chain_dec cur c) as [<-|N].
          + rewrite EP. eexists. split; [reflexivity|]. cbn. auto.
          + destruct (dget (ft_dict _ s) c); [eauto 10|reflexivity]. }
      assert (forall c, no_any c -> dget (dset d sc (Frame _ cur [] fl [] [] [])) c = if chain_dec sc c then Some (Frame _ cur [] fl [] [] []) else dget d c) as HD by (intros c Hc; now apply dget_dset).
      unfold inv. cbn [ft_current ft_dict]. rewrite current_snoc. cbn [after]. fold cur. fold sc. split; [reflexivity|]. split; [exact Hsc|]. split; [now apply dset_plain|].
      assert (forall c n, constants_in (h ++ [OpenScope _ l fl]) c n = constants_in h c n /\ signals_in (h ++ [OpenScope _ l fl]) c n = signals_in h c n) as HU.
      { intros c n. rewrite constants_snoc, signals_snoc. destruct (chain_dec _ c); [|auto]. cbn [constant_decl signal_decls]. destruct (constants_in h c n); rewrite app_nil_r; auto. }
      assert (forall p, no_any p -> p = [] \/ dget d p <> None -> p = [] \/ dget (dset d sc (Frame _ cur [] fl [] [] [])) p <> None) as HPv.
      { intros p Hp [K|K]; [auto|right]. rewrite HD by auto. destruct (chain_dec sc p); [discriminate|exact K]. }
      split; [|split].
      + intros c f Hc E. rewrite HD in E by auto. unfold frame_ok. destruct (chain_dec sc c) as [<-|N].
        * injection E as <-. cbn [f_previous f_flags f_consts f_signals]. split; [exists l; reflexivity|]. split; [apply HPv; auto|]. split; [apply opened_snoc; right; exists l; auto|]. split; [discriminate|]. split; [discriminate|].
          split; intros n; cbn; destruct (HU sc n) as [U1 U2]; destruct (H5 sc Hsc EG n); congruence.
        * specialize (D3 c Hc). destruct (dget (ft_dict _ s) c) as [f0|] eqn:E0; [|congruence]. destruct D3 as (f' & E' & P1 & P2 & P3 & P4). rewrite E in E'. injection E' as <-.
          destruct (H4 c f0 Hc E0) as ((l0 & K1) & K2 & K3 & K4 & K5 & K6 & K7). rewrite P1, P2, P3, P4. split; [eauto|]. split.
          { assert (no_any (f_previous _ f0)) as HpN by (rewrite K1 in Hc; eapply no_any_init; eauto). apply HPv; [exact HpN|]. destruct K2 as [K2|K2]; [auto|right]. intros K. destruct (dget (ft_dict _ s) (f_previous _ f0)) eqn:EE; [|congruence].
            assert (exists f', dget d (f_previous _ f0) = Some f') as (f' & Ef').
            { destruct cur as [|c0 cr] eqn:EC; [injection Ed as <-; eauto|]. rewrite <- EC in *. destruct (dget (ft_dict _ s) cur); [|discriminate]. injection Ed as <-. rewrite dget_dset by auto. destruct (chain_dec cur (f_previous _ f0)); eauto. }
            congruence. }
          split; [apply opened_snoc; auto|]. split; [auto|]. split; [auto|]. split; intros n; destruct (HU c n) as [U1 U2]; congruence.
      + intros c Hc E n. rewrite HD in E by auto. destruct (chain_dec sc c); [discriminate|]. destruct (HU c n) as [U1 U2]. rewrite U1, U2. apply H5; auto. specialize (D3 c Hc). destruct (dget (ft_dict _ s) c); [|reflexivity]. destruct D3 as (f' & E' & _). congruence.
      + intros c fl' Ho. apply opened_snoc in Ho as [Ho|(l' & El & ->)].
        * destruct (H6 c fl' Ho) as (Hc & f & Ef & Hfl). split; [exact Hc|]. rewrite HD by auto. destruct (chain_dec sc c) as [<-|N]; [congruence|]. specialize (D3 c Hc). rewrite Ef in D3. destruct D3 as (f' & E' & _ & P2 & _). exists f'. split; [exact E'|congruence].
        * injection El as <- <-. fold cur. fold sc. split; [exact Hsc|]. rewrite HD by auto. destruct (chain_dec sc sc); [|congruence]. eexists. split; reflexivity.
    - (* MoveTo *)
      injection E as <-. destruct HI as (H1 & H2 & H3 & H4 & H5 & H6). cbn [plain_act] in HPl. unfold inv, setCurrent. cbn [ft_current ft_dict]. rewrite current_snoc. cbn [after].
      assert (forall c' n, constants_in (h ++ [MoveTo _ c]) c' n = constants_in h c' n /\ signals_in (h ++ [MoveTo _ c]) c' n = signals_in h c' n) as HU.
      { intros c' n. rewrite constants_snoc, signals_snoc. destruct (chain_dec _ c'); [|auto]. cbn [constant_decl signal_decls]. destruct (constants_in h c' n); rewrite app_nil_r; auto. }
      split; [reflexivity|]. split; [exact HPl|]. split; [exact H3|]. split; [|split].
      + intros c' f Hc E. destruct (H4 c' f Hc E) as (K1 & K2 & K3 & K4 & K5 & K6 & K7). unfold frame_ok. split; [auto|]. split; [auto|]. split; [apply opened_snoc; auto|]. split; [auto|]. split; [auto|]. split; intros n; destruct (HU c' n) as [U1 U2]; congruence.
      + intros c' Hc E n. destruct (HU c' n) as [U1 U2]. rewrite U1, U2. auto.
      + intros c' fl Ho. apply opened_snoc in Ho as [Ho|(l & K & _)]; [auto|discriminate].
    - unfold on_current in E. destruct (dget (ft_dict _ s) (ft_current _ s)) as [f|] eqn:EF; [|discriminate]. injection E as <-.
      apply (inv_current h s (AddSignal _ n v) (fun f => frame_addSignal _ f n v) f HI eq_refl ltac:(discriminate) EF); unfold frame_addSignal; destruct (sget (f_consts _ f) n) eqn:ES; cbn [f_previous f_flags f_consts f_signals constant_decl signal_decls]; auto using full_vadd.
      + intros H _ m. rewrite H. destruct (constants_in h _ m); reflexivity.
      + intros H _ m. rewrite H. destruct (constants_in h _ m); reflexivity.
      + intros H HF m. rewrite <- H. destruct (String.eqb n m) eqn:E.
        * apply String.eqb_eq in E. subst m. destruct (tab (f_consts _ f) n) eqn:ET; [|now rewrite app_nil_r]. apply tab_nil in ET; [congruence|exact HF].
        * destruct (tab (f_consts _ f) m); now rewrite app_nil_r.
      + intros H HF m. rewrite tab_vadd, <- H. destruct (String.eqb n m) eqn:E.
        * apply String.eqb_eq in E. subst m. apply tab_nil in ES; [|exact HF]. rewrite ES. reflexivity.
        * destruct (tab (f_consts _ f) m); now rewrite app_nil_r.
    - unfold on_current in E. destruct (dget (ft_dict _ s) (ft_current _ s)) as [f|] eqn:EF; [|discriminate]. injection E as <-.
      apply (inv_current h s (AddConst _ n v) (fun f => frame_addConst _ f n v) f HI eq_refl ltac:(discriminate) EF); unfold frame_addConst; destruct (sget (f_consts _ f) n) eqn:ES; cbn [f_previous f_flags f_consts f_signals constant_decl signal_decls]; auto using full_vadd.
      + intros H HF m. rewrite <- H. destruct (String.eqb n m) eqn:E.
        * apply String.eqb_eq in E. subst m. destruct (tab (f_consts _ f) n) eqn:ET; [|reflexivity]. apply tab_nil in ET; [congruence|exact HF].
        * destruct (tab (f_consts _ f) m); reflexivity.
      + intros H HF m. rewrite tab_vadd, <- H. destruct (String.eqb n m) eqn:E.
        * apply String.eqb_eq in E. subst m. apply tab_nil in ES; [|exact HF]. rewrite ES. reflexivity.
        * destruct (tab (f_consts _ f) m); reflexivity.
      + intros H HF m. destruct (constants_in h _ m); [destruct (String.eqb n m)|]; now rewrite app_nil_r.
      + intros H HF m. destruct (constants_in h _ m); [destruct (String.eqb n m)|]; now rewrite app_nil_r.
    - unfold on_current in E. destruct (dget (ft_dict _ s) (ft_current _ s)) as [f|] eqn:EF; [|discriminate]. injection E as <-.
      apply (inv_current h s (AddGenvar _ n) (fun f => frame_addGenvar _ f n) f HI eq_refl ltac:(discriminate) EF); unfold frame_addGenvar; destruct (sget (f_consts _ f) n) eqn:ES; cbn [f_previous f_flags f_consts f_signals constant_decl signal_decls]; auto.
      + intros H HF m. rewrite H. destruct (constants_in h _ m); reflexivity.
      + intros H HF m. rewrite H. destruct (constants_in h _ m); reflexivity.
      + intros H HF m. destruct (constants_in h _ m); now rewrite app_nil_r.
      + intros H HF m. destruct (constants_in h _ m); now rewrite app_nil_r.
  Qed.
  Lemma run_inv : forall h h0 s s', inv h0 s -> Forall plain_act h -> run _ h s = Ok s' -> inv (h0 ++ h) s'.
  Proof.
    induction h as [|a r IH]; intros h0 s s' HI HP E; [injection E as <-; now rewrite app_nil_r|]. inversion HP as [|? ? P1 P2]; subst. cbn [run] in E. apply bind_ok in E as (s1 & E1 & E2).
    change (a :: r) with ([a] ++ r). rewrite app_assoc. apply (IH _ s1); auto. eapply step_inv; eauto.
  Qed.
  Lemma init_inv : inv [] (empty_table node).
  Proof.
    unfold inv, empty_table. cbn. split; [reflexivity|]. split; [constructor|]. split; [constructor|]. split; [discriminate|]. split; [auto|]. intros c fl (h1 & l & h2 & E & _). destruct h1; discriminate.
  Qed.

  (** ** The search *)
  Lemma search_ok h s (pick : frame node -> vtable node) (decls : chain -> string -> list node) : inv h s ->
    (forall c f n, no_any c -> dget (ft_dict _ s) c = Some f -> full (pick f) /\ tab (pick f) n = decls c n) ->
    forall n fuel key, no_any key -> (length key < fuel)%nat -> (key <> [] -> dget (ft_dict _ s) key <> None) ->
    match search _ pick fuel s key n with
    | Ok r => finds (fun c => decls c n) h key r
    | Err e => e = KeyError /\ (forall q, inside q key -> q <> [] -> decls q n = [] /\ ~ is_module h q)
    end.
  Proof.
    intros HI HD n fuel key Hk Hf He.
    assert (forall fuel key, no_any key -> (length key < fuel)%nat -> (key <> [] -> dget (ft_dict _ s) key <> None) ->
      forall key', inside key key' -> (forall q, inside key q -> q <> key -> inside q key' -> decls q n = [] /\ ~ is_module h q) ->
      match search _ pick fuel s key n with
      | Ok r => finds (fun c => decls c n) h key' r
      | Err e => e = KeyError /\ (forall q, inside q key' -> q <> [] -> decls q n = [] /\ ~ is_module h q)
      end) as K.
    { clear fuel key Hk Hf He. induction fuel as [|fuel IH]; intros key Hk Hf He key' Hin Hno; [lia|]. cbn [search].
      destruct HI as (H1 & H2 & H3 & H4 & H5 & H6). destruct (dget (ft_dict _ s) key) as [f|] eqn:EG.
      - destruct (HD key f n Hk EG) as [F1 F2]. destruct (sget (pick f) n) as [v|] eqn:ES.
        + cbn. split; [exact Hin|]. assert (v = decls key n) as -> by (rewrite <- F2; unfold tab; now rewrite ES). split; [reflexivity|]. split; [intros K; apply (F1 n); rewrite ES, <- F2 in *; congruence|]. exact Hno.
        + assert (decls key n = []) as Hnone by (rewrite <- F2; now apply tab_nil). destruct (H4 key f Hk EG) as ((l & K1) & K2 & K3 & _). destruct (fl_module (f_flags _ f)) eqn:EM.
          * exists key. split; [exact Hin|]. split; [exact Hnone|]. split; [exists (f_flags _ f); auto|exact Hno].
          * assert (~ is_module h key) as NM. { intros (fl & Ho & Hm). destruct (H6 key fl Ho) as (_ & f' & E' & Hfl). rewrite EG in E'. injection E' as <-. congruence. }
            apply IH; [rewrite K1 in Hk; eapply no_any_init; eauto|rewrite K1, app_length in Hf; cbn in Hf; lia|intros N; destruct K2 as [K2|K2]; [contradiction|exact K2]|destruct Hin as (r & ->); exists (l :: r); rewrite K1 at 1; now rewrite <- app_assoc|].
            intros q Hq1 Hq2 Hq3. destruct (chain_dec q key) as [->|Nq]; [auto|]. apply Hno; auto.
            destruct Hq1 as (r1 & ->), Hq3 as (r2 & E3), Hin as (r3 & ->). rewrite K1 in *. exists (tl r1). destruct r1 as [|x r1]; [rewrite app_nil_r in Hq2; congruence|]. rewrite <- !app_assoc in E3. apply app_inv_head in E3. cbn in E3. injection E3 as <- _. cbn. now rewrite <- app_assoc.
      - destruct key as [|k0 kr]; [|exfalso; apply He; [discriminate|reflexivity]]. split; [reflexivity|]. intros q Hq1 Hq2. apply Hno; auto. exists q. reflexivity. }
    apply K; auto; [exists []; now rewrite app_nil_r|]. intros q (r1 & ->) Hq2 (r2 & E). exfalso. rewrite <- app_assoc in E. rewrite <- (app_nil_r key) in E at 1. apply app_inv_head in E. destruct r1; [rewrite app_nil_r in Hq2; congruence|discriminate].
  Qed.
End Scopes.
