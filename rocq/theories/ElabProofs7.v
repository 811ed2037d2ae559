(** ElabProofs7.v - elaboration, by induction on the specification. *)
From Verif Require Import Base ScopeModel ScopeSpec ScopeProofs DfModel BindModel BindSpec BindProofs LitModel OptModel OptProofs ReorderModel AsgModel ExprModel MkModel HierModel VisitModel VisitProofs ElabModel ElabSpec ElabProofs ElabProofs2 ElabProofs3 ElabProofs4 ElabProofs5 ElabProofs6.

Lemma did_names c ds ds' r s s' l : (forall y, In y ds <-> In y ds') -> Did c ds r s s' l -> Did c ds' r s s' l.
Proof.
  intros E [H1 H2 H3 H4 H5 H6 H7 H8]. constructor; auto.
  - destruct H4 as (f & f' & A & B & C & D & F & G). exists f, f'. split; [exact A|]. split; [exact B|]. split; [exact C|]. split; [|split; [|exact G]]; intros y Hy; [apply D|apply F]; rewrite ?E in *; auto; now rewrite <- E in *.
  - intros y Hy. apply H6. now rewrite E.
Qed.
Lemma np_no_any c p : Forall2 names_place c p -> no_any c.
Proof. intros H. unfold no_any. induction H as [|l q c p H Hs IH]; constructor; auto. destruct H; discriminate. Qed.
Lemma eval_val' log2i tocode k s c r e v u : const r e v -> (forall y v d, lookup r y = Some (Some v) -> value_of s c y = Ok d -> isval d v) -> eval log2i tocode k s c e = Ok u -> isval u v.
Proof. intros HC HF H. unfold eval in H. ub. eapply opt_means; [|exact H]. eapply tree_means; [exact HC| |exact B]. intros. eapply HF; eauto. Qed.
Lemma lookup_cons n o r y : lookup ((n, o) :: r) y = if string_dec n y then Some o else lookup r y.
Proof. cbn. destruct (string_dec n y) as [->|N]; [now rewrite String.eqb_refl|]. apply String.eqb_neq in N. now rewrite N. Qed.

Section Main.
  Variable log2i : Z -> option Z.
  Variable tocode : df -> res string.
  Variable D : list mod_.
  Variable T : mtable.
  Hypothesis HT : forall m, In m D -> sget T (m_name m) = Some (m, mod_info m).
  Hypothesis HL : legal D.
  Notation vis := (visit log2i tocode T).

  Definition Ready (ps : list string) (s : st) (c : chain) (ov : list (string * Z)) (x : item) : Prop :=
    match x with
    | IParam n w e => In n ps /\ (exists f, fr s c = Some f /\ fl_module (f_flags decl f) = true /\ sget (f_consts decl f) n <> None) /\
        match override ov n with
        | Some v => exists u, cs s (sig c n) = Some u /\ isval u v
        | None => forall u, cs s (sig c n) = Some u -> exists find0 k0, (forall z d, find0 z = Ok d -> In z ps /\ cs s (sig c z) = Some d) /\
                    (do t <- tree log2i tocode find0 k0 e; opt log2i tocode k0 t) = Ok u
        end
    | ILocal n _ | IGenvar n => (forall f, fr s c = Some f -> sget (f_consts decl f) n = None) /\ cs s (sig c n) = None
    | _ => True
    end.
  Lemma ready_did ps c ds r s s1 l ov x : Did c ds r s s1 l -> Inv s -> no_any c -> (forall y, In y ps -> lookup r y <> Some None) -> (forall y, In y (declares x) -> ~ In y ds) ->
    Ready ps s c ov x -> Ready ps s1 c ov x.
  Proof.
    intros HD I Hc Hps Hd HR. assert (forall y, In y ps -> ~ idle s c r (sig c y)) as Hi. { intros y Hy (z & key & L & _ & E). apply sig_inj in E as [_ <-]. now apply (Hps y). }
    destruct (d_here _ _ _ _ _ _ HD) as (f & f' & F & F' & Ef & Hs & _ & Hk).
    assert (forall n, ~ In n ds -> (forall f, fr s c = Some f -> sget (f_consts decl f) n = None) /\ cs s (sig c n) = None -> (forall f, fr s1 c = Some f -> sget (f_consts decl f) n = None) /\ cs s1 (sig c n) = None) as Hloc.
    { intros n Hn [H1 H2]. specialize (H1 _ F). split; [intros g G; assert (g = f') as -> by congruence; now rewrite Hs|]. rewrite (d_new _ _ _ _ _ _ HD); auto.
      intros (z & key & L & HF & E). apply sig_inj in E as [<- <-]. apply finds_where in HF as (_ & g & ds' & G & Sg); auto. congruence. }
    destruct x; cbn [Ready declares] in *; try tauto; try (apply Hloc; auto; apply Hd; now left).
    destruct HR as (Hin & (g & G & Hm & Hg) & HV). assert (g = f) as -> by congruence. split; [exact Hin|]. split; [exists f'; split; [exact F'|]; rewrite Ef; auto|].
    destruct (override ov n).
    - destruct HV as (u & Hu & Hv). exists u. split; [|exact Hv]. apply (d_old _ _ _ _ _ _ HD); auto.
    - intros u Hu. rewrite (d_new _ _ _ _ _ _ HD) in Hu; auto; [|apply Hd; now left]. destruct (HV u Hu) as (find0 & k0 & Hf & He). exists find0, k0. split; [|exact He].
      intros z d Hz. destruct (Hf _ _ Hz) as [Hzp Hzc]. split; [exact Hzp|]. apply (d_old _ _ _ _ _ _ HD); auto.
  Qed.
  Lemma ready_fresh s c ov x g : fr s c = Some g -> f_consts decl g = [] -> (forall y, cs s (sig c y) = None) -> inner_ok x -> Ready [] s c ov x.
  Proof.
    intros G Eg Hn Hx. assert (forall n, (forall f, fr s c = Some f -> sget (f_consts decl f) n = None) /\ cs s (sig c n) = None) as H.
    { intros n. split; [|apply Hn]. intros f F. assert (f = g) as -> by congruence. now rewrite Eg. }
    destruct x; cbn in Hx |- *; auto. destruct Hx.
  Qed.

  (** A declaration of a constant. *)
  Lemma constant_did c r s s' n d v f : Inv s -> no_any c -> current s = c -> fr s c = Some f -> constant s n d v = Ok s' ->
    Did c [n] r s s' [] /\ finds s' c n c /\ (forall u, cs s (sig c n) = Some u -> cs s' (sig c n) = Some u) /\
    (cs s (sig c n) = None -> exists s0 u, Did c [n] r s s0 [] /\ finds s0 c n c /\ s_cs s0 = s_cs s /\ v s0 = Ok u /\ cs s' (sig c n) = Some u).
  Proof.
    intros I Hc Hcur F H. unfold constant in H. ub.
    assert (exists ds, sget (f_consts decl (frame_addConst decl f n d)) n = Some ds) as [ds Hds].
    { unfold frame_addConst. destruct (sget (f_consts decl f) n) as [x|] eqn:E; [rewrite E; eauto|]. cbn [f_consts]. unfold vadd. rewrite E. rewrite sget_sset, String.eqb_refl. eauto. }
    destruct (on_here_did c r s r0 f _ [n] I Hc Hcur F B) as (D1 & Ec & F1).
    - unfold frame_addConst. destruct (sget (f_consts decl f) n); reflexivity.
    - unfold frame_addConst. destruct (sget (f_consts decl f) n); reflexivity.
    - intros y Hy. unfold frame_addConst. destruct (sget (f_consts decl f) n) eqn:E; [reflexivity|]. cbn [f_consts]. unfold vadd. rewrite E. rewrite sget_sset.
      destruct (String.eqb n y) eqn:X; [apply String.eqb_eq in X; destruct Hy; now left|reflexivity].
    - intros y [<-|[]]. congruence.
    - pose proof (finds_here _ _ _ _ _ F1 Hds) as HF1. destruct (did_state _ _ _ _ _ _ D1) as (Hc1 & I1 & _). rewrite Hc1 in H. unfold dmem in H. destruct (dget (s_cs r0) (sig c n)) as [u0|] eqn:X.
      + injection H as <-. split; [exact D1|]. split; [exact HF1|]. unfold cs. rewrite Ec in *. split; [auto|congruence].
      + ub. injection H as <-. assert (cs s (sig c n) = None) as Hnone by (unfold cs; now rewrite <- Ec). assert (sget (f_consts decl (frame_addConst decl f n d)) n <> None) as Hne by congruence.
        pose proof (set_did c [] r0 n r1 _ I1 Hc Hc1 F1 Hne X) as D2.
        assert (cs (setConstant r0 (sig c n) r1) (sig c n) = Some r1) as Hset. { rewrite cs_set by auto using sig_any. destruct (chain_dec (sig c n) (sig c n)); congruence. }
        split.
        * apply (did_names c ([n] ++ [n])); [intros y; cbn; tauto|]. change (@nil instance_at) with (@nil instance_at ++ []). eapply did_trans; [exact I|exact Hc|exact D1|exact D2|]. intros m Hm. destruct (no_idle _ _ _ Hm).
        * split; [exact HF1|]. split; [congruence|]. intros _. exists r0, r1. split; [exact D1|]. split; [exact HF1|]. auto.
  Qed.
  Lemma declared_sees c r s s' l n o : Did c [n] r s s' l -> Inv s -> no_any c -> sees s c r -> finds s' c n c -> (forall v, o = Some v -> exists u, cs s' (sig c n) = Some u /\ isval u v) -> sees s' c ((n, o) :: r).
  Proof.
    intros HD I Hc HS HF HV y o' L. rewrite lookup_cons in L. destruct (string_dec n y) as [<-|N]; [injection L as <-; eauto|].
    eapply did_sees; eauto. intros [->|[]]. now apply N.
  Qed.
  (** The value of a name while another one is declared. *)
  Lemma value_declared c r s s0 n : Did c [n] r s s0 [] -> finds s0 c n c -> Inv s -> no_any c -> sees s c r -> s_cs s0 = s_cs s -> cs s (sig c n) = None ->
    forall y v d, lookup r y = Some (Some v) -> value_of s0 c y = Ok d -> isval d v.
  Proof.
    intros HD HF I Hc HS Ec Hn y v d L H. destruct (string_dec n y) as [<-|N].
    - unfold value_of in H. ub. apply (search_const_finds _ _ _ _ _ HF) in B. subst. unfold getConstant in H. unfold cs in Hn. rewrite Ec, Hn in H. discriminate.
    - destruct (did_sees _ _ _ _ _ _ y _ HD I Hc HS L) as (key & HFk & HV); [intros [->|[]]; now apply N|]. unfold value_of in H. ub. apply (search_const_finds _ _ _ _ _ HFk) in B. subst.
      destruct (HV v eq_refl) as (u & Hu & Hi). unfold getConstant in H. unfold cs in Hu. rewrite Hu in H. congruence.
  Qed.

  (** ** The claims *)
  Definition P_item (p : list place) (ov : list (string * Z)) (g : bool) (r : names) (x : item) (r' : names) (l : list instance_at) : Prop :=
    forall k s s' c ps, vis k s x = Ok s' -> current s = c -> Inv s -> Forall2 names_place c p -> sees s c r -> at_ s c g false -> item_ok x -> Ready ps s c ov x ->
    (forall y, In y ps -> lookup r y <> Some None) -> Did c (declares x) r s s' l /\ sees s' c r'.
  Definition P_list (p : list place) (ov : list (string * Z)) (g : bool) (r : names) (xs : list item) (r' : names) (l : list instance_at) : Prop :=
    forall k s s' c ps, each (vis k) s xs = Ok s' -> current s = c -> Inv s -> Forall2 names_place c p -> sees s c r -> at_ s c g false -> Forall item_ok xs ->
    NoDup (flat_map declares xs) -> Forall (Ready ps s c ov) xs -> (forall y, In y ps -> lookup r y <> Some None) -> (forall y, In (IGenvar y) xs -> ~ In y ps) ->
    exists ds, Did c ds r s s' l.
  Definition P_placed (p : list place) (r : names) (m n : string) (args : list (option string * expr)) (l : list instance_at) : Prop :=
    forall k s s' c g, instance log2i tocode T (vis k) k s m n args = Ok s' -> current s = c -> Inv s -> Forall2 names_place c p -> sees s c r -> at_ s c g false -> Did c [] r s s' l.
  Definition P_row (p : list place) (r : names) (m n : string) (args : list (option string * expr)) (i : Z) (j : nat) (l : list instance_at) : Prop :=
    forall k s s' c g, instances log2i tocode T (vis k) k s m n args (map (fun a => (i + Z.of_nat a)%Z) (seq 0 j)) = Ok s' -> current s = c -> Inv s -> Forall2 names_place c p -> sees s c r -> at_ s c g false -> Did c [] r s s' l.
  Definition P_loop (p : list place) (r : names) (x : string) (v : Z) (cond post : expr) (b : item) (l : list instance_at) : Prop :=
    forall k j s s' c lb, for_loop log2i tocode (vis k) k j s lb v cond x post b = Ok s' -> current s = c -> Inv s -> Forall2 names_place c p -> sees s c ((x, Some v) :: r) -> at_ s c true false ->
    lookup r x = Some None -> inner_ok b -> Did c [] r s s' l.

  Lemma inner_item x : inner_ok x -> item_ok x. Proof. destruct x; try exact (fun H => H). intros _. exact Logic.I. Qed.
  (** Items in a new scope. *)
  Lemma in_scope c l p q r r1 r' s s' f xs li k : Inv s -> Forall2 names_place c p -> current s = c -> fr s c = Some f -> stype l <> STmodule -> names_place l q ->
    inside_of s l (plain_flags true false false) (fun s => each (vis k) s xs) = Ok s' -> sees s c r -> sees s c r1 -> (forall y, lookup r1 y = Some None -> lookup r y = Some None) ->
    P_list (p ++ [q]) [] true r1 xs r' li -> NoDup (flat_map declares xs) -> Forall inner_ok xs -> Did c [] r s s' li.
  Proof.
    intros I Hp Hc F Hm Hq H HS HS1 Hr HP HN Hx. pose proof (np_no_any _ _ Hp) as Hn. assert (ordinary l) as Hl by (split; destruct Hq; discriminate).
    destruct (inside c l (plain_flags true false false) s s' _ r f I Hn Hc F Hl Hm eq_refl H) as (s1 & g1 & s2 & O & G & Eg & Efl & Ec & Hnone & Hb & HD).
    destruct (HP k s1 s2 (c ++ [l]) [] Hb (o_cur _ _ _ _ _ O) (o_inv _ _ _ _ _ O)) as [ds HDi].
    - apply Forall2_app; auto.
    - eapply sees_opened; eauto.
    - exact (opened_at _ _ _ _ _ _ O).
    - eapply Forall_impl; [|exact Hx]. apply inner_item.
    - exact HN.
    - eapply Forall_impl; [|exact Hx]. intros x. eapply ready_fresh; eauto.
    - intros y [].
    - intros y _ [].
    - eapply HD; [exact HS|exact Hr|exact HDi].
  Qed.
  Lemma in_scope1 c l p q r r1 r' s s' f x li k : Inv s -> Forall2 names_place c p -> current s = c -> fr s c = Some f -> stype l <> STmodule -> names_place l q ->
    inside_of s l (plain_flags true false false) (fun s => vis k s x) = Ok s' -> sees s c r -> sees s c r1 -> (forall y, lookup r1 y = Some None -> lookup r y = Some None) ->
    P_item (p ++ [q]) [] true r1 x r' li -> inner_ok x -> Did c [] r s s' li.
  Proof.
    intros I Hp Hc F Hm Hq H HS HS1 Hr HP Hx. pose proof (np_no_any _ _ Hp) as Hn. assert (ordinary l) as Hl by (split; destruct Hq; discriminate).
    destruct (inside c l (plain_flags true false false) s s' _ r f I Hn Hc F Hl Hm eq_refl H) as (s1 & g1 & s2 & O & G & Eg & Efl & Ec & Hnone & Hb & HD).
    destruct (HP k s1 s2 (c ++ [l]) [] Hb (o_cur _ _ _ _ _ O) (o_inv _ _ _ _ _ O)) as [HDi _].
    - apply Forall2_app; auto.
    - eapply sees_opened; eauto.
    - exact (opened_at _ _ _ _ _ _ O).
    - now apply inner_item.
    - eapply ready_fresh; eauto.
    - intros y [].
    - eapply HD; [exact HS|exact Hr|exact HDi].
  Qed.

  Lemma case_list_nil p ov g r : P_list p ov g r [] r [].
  Proof. intros k s s' c ps H Hc I Hp HS (f & F & _) _ _ _ _ _. injection H as <-. exists []. eapply did_refl; eauto. Qed.
  Lemma case_list_cons p ov g r x r1 l1 xs r2 l2 : elab D p ov g r x r1 l1 -> P_item p ov g r x r1 l1 -> P_list p ov g r1 xs r2 l2 -> P_list p ov g r (x :: xs) r2 (l1 ++ l2).
  Proof.
    intros HE HX HXS k s s' c ps H Hc I Hp HS Ha Hok HN HR Hps Hgv. cbn [each] in H. ub. pose proof (np_no_any _ _ Hp) as Hn. inversion Hok as [|? ? Hx Hxs]; subst. inversion HR as [|? ? Rx Rxs]; subst.
    destruct (HX _ _ _ _ ps B eq_refl I Hp HS Ha Hx Rx Hps) as [D1 S1]. destruct (did_state _ _ _ _ _ _ D1) as (Hc1 & I1 & _). cbn [flat_map] in HN.
    assert (forall y, In y (declares x) -> ~ In y (flat_map declares xs)) as Hdis. { intros y Hy Hy'. clear -HN Hy Hy'. induction (declares x) as [|z l IH]; [destruct Hy|]. cbn in HN. inversion HN; subst. destruct Hy as [->|Hy]; [apply H1, in_or_app; auto|auto]. }
    assert (NoDup (flat_map declares xs)) as HN2. { clear -HN. induction (declares x) as [|z l IH]; [exact HN|]. inversion HN; auto. }
    assert (r1 = r /\ declares x = [] \/ exists n o, r1 = (n, o) :: r /\ declares x = [n] /\ (o = None -> x = IGenvar n)) as Hshape.
    { inversion HE; subst; cbn [declares]; auto; right; eexists; eexists; split; try reflexivity; split; try reflexivity; auto; discriminate. }
    assert (forall y, In y ps -> lookup r1 y <> Some None) as Hps1.
    { intros y Hy. destruct Hshape as [[-> _]|(n & o & -> & _ & Ho)]; [auto|]. rewrite lookup_cons. destruct (string_dec n y) as [<-|]; [|auto]. intros E. injection E as ->. rewrite (Ho eq_refl) in Hgv. apply (Hgv n); [now left|exact Hy]. }
    destruct (HXS k _ _ _ ps H Hc1 I1 Hp S1 (at_did _ _ _ _ _ _ _ _ D1 Ha) Hxs HN2) as [ds2 D2]; [| exact Hps1 | intros y Hy; apply Hgv; now right |].
    - rewrite Forall_forall in *. intros z Hz. eapply ready_did; [exact D1|exact I|exact Hn|exact Hps| |auto]. intros y Hy Hy'. apply (Hdis y Hy'). apply in_flat_map. eauto.
    - exists (declares x ++ ds2). eapply did_trans; [exact I|exact Hn|exact D1|exact D2|].
      intros m (y & key & L & HF & ->). destruct (in_dec string_dec y (declares x)) as [Hi|Hi].
      + right. destruct Hshape as [[_ E]|(n & o & -> & Ed & Ho)]; [rewrite E in Hi; destruct Hi|]. rewrite Ed in Hi. destruct Hi as [<-|[]]. rewrite lookup_cons in L. destruct (string_dec n n); [|congruence]. injection L as ->.
        rewrite (Ho eq_refl) in Rx. cbn [Ready] in Rx. exists n. rewrite Ed. split; [now left|]. split; [apply Rx|]. f_equal.
        destruct (d_here _ _ _ _ _ _ D1) as (f & f' & _ & F' & _ & _ & Hdn & _). rewrite Ed in Hdn. destruct (sget (f_consts decl f') n) as [dd|] eqn:Sn; [|destruct (Hdn n); [now left|exact Sn]].
        eapply finds_det; [exact HF|eapply finds_here; eauto].
      + left. assert (lookup r y = Some None) as L'. { destruct Hshape as [[-> _]|(n & o & -> & Ed & _)]; [exact L|]. rewrite lookup_cons in L. destruct (string_dec n y) as [<-|]; [rewrite Ed in Hi; destruct Hi; now left|exact L]. }
        destruct (HS _ _ L') as (key' & HF' & _). assert (key = key') as ->; [|exists y, key'; auto].
        eapply finds_det; [exact HF|]. eapply finds_same; [exact I|exact I1|exact Hn|eapply did_like; eauto|exact HF'].
  Qed.
End Main.
