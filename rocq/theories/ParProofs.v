(** ParProofs.v - constant expressions over names with known values; the constants of a scope. *)
From Verif Require Import Base ScopeModel ScopeSpec ScopeProofs DfModel DfProofs BindModel BindSpec BindProofs LitModel LitSpec LitProofs OptModel OptSpec OptProofs ReorderModel ReorderProofs AsgModel ExprModel MkModel HierModel BlkModel VisitModel ElabModel ElabSpec ElabProofs LoopModel ParModel ParSpec.
From Verif Require ElabProofs2 LitProps RngProofs.
Local Open Scope Z_scope.

Lemma worth_const r e v : worth r e v -> const r e v.
Proof. induction 1; [now constructor|now constructor|econstructor; eassumption|econstructor; eassumption|]. econstructor; [eassumption|]. destruct (z =? 0); assumption. Qed.
Lemma worth_small r e v : worth r e v -> small v.
Proof. intros H. exact (const_small _ _ _ (worth_const _ _ _ H)). Qed.
Lemma worth_fun r r' e : forall v v', (forall n, In n (mentions e) -> lookup r n = lookup r' n) -> worth r e v -> worth r' e v' -> v = v'.
Proof.
  intros v v' HA H. revert v' HA. induction H as [s v Hn Hs|n v Hl Hs|o a x v Fa Ha IHa Hr Hv Hs|o a b x y v Fa Fb Ha IHa Hb IHb Hr Hv Hs|c t f z x y Hc Hz IHz Hx IHx Hy IHy]; intros v' HA K; cbn [mentions] in HA; inversion K; subst.
  - eapply RngProofs.numeral_fun; eassumption.
  - rewrite (HA n (or_introl eq_refl)) in Hl. congruence.
  - match goal with W : worth r' a ?x0 |- _ => rewrite (IHa x0 HA W) in Hv end. congruence.
  - match goal with W : worth r' a ?x0 |- _ => rewrite (IHa x0 (fun n Hn => HA n (in_or_app _ _ _ (or_introl Hn))) W) in Hv end.
    match goal with W : worth r' b ?x0 |- _ => rewrite (IHb x0 (fun n Hn => HA n (in_or_app _ _ _ (or_intror Hn))) W) in Hv end. congruence.
  - match goal with W : worth r' c ?x0 |- _ => rewrite (IHz x0 (fun n Hn => HA n (in_or_app _ _ _ (or_introl Hn))) W) end.
    match goal with W : worth r' t ?x0 |- _ => rewrite (IHx x0 (fun n Hn => HA n (in_or_app _ _ _ (or_intror (in_or_app _ _ _ (or_introl Hn))))) W) end.
    match goal with W : worth r' f ?x0 |- _ => rewrite (IHy x0 (fun n Hn => HA n (in_or_app _ _ _ (or_intror (in_or_app _ _ _ (or_intror Hn))))) W) end. reflexivity.
Qed.

Section Trees.
  Variable K : chain -> Z -> Prop.
  (** Trees without conditionals ([b] = false), or with conditionals on top. *)
  Inductive tm : bool -> df -> Z -> Prop :=
  | tm_int b s v : numeral 10 s v -> small v -> tm b (DInt s) v
  | tm_val b w v : small v -> tm b (DEval (PInt v) (Some w) false false) v
  | tm_name b n v : K n v -> small v -> tm b (DTerm n) v
  | tm_un d o a x v : tm false a x -> arithmetic o [x] -> op_value o [x] 32 = Some v -> small v -> tm d (DOp [a] o) v
  | tm_bin d o a b x y v : tm false a x -> tm false b y -> arithmetic o [x; y] -> op_value o [x; y] 32 = Some v -> small v -> tm d (DOp [a; b] o) v
  | tm_branch c a b z x y : tm false c z -> tm true a x -> tm true b y -> tm true (DBranch c a b) (if z =? 0 then y else x).

  Lemma tm_small b t v : tm b t v -> small v.
  Proof. induction 1; auto. destruct (z =? 0); auto. Qed.
  Lemma tm_some b t v : tm b t v -> is_none t = false.
  Proof. now destruct 1. Qed.
  Lemma tm_flat t v : tm false t v -> isBranch t = false.
  Proof. intros H. inversion H; reflexivity. Qed.
  Lemma tm_up b t v : tm false t v -> tm b t v.
  Proof. intros H. inversion H; subst; econstructor; eassumption. Qed.
  Lemma mk1 b a o v : tm b a v -> mkOp [a] o = Ok (DOp [a] o).
  Proof. intros H. unfold mkOp. cbn [existsb]. now rewrite (tm_some _ _ _ H). Qed.
  Lemma mk2 b a a' o v w : tm b a v -> tm b a' w -> mkOp [a; a'] o = Ok (DOp [a; a'] o).
  Proof. intros H H'. unfold mkOp. cbn [existsb]. now rewrite (tm_some _ _ _ H), (tm_some _ _ _ H'). Qed.

  Lemma make_tm r find array e v : worth r e v ->
    (forall n v, lookup r n = Some (Some v) -> exists c, find n = Ok c /\ K c v) ->
    exists t, tm (negb (choice_free e)) t v /\ forall times k, makeDFTree find array times k e = Ok t.
  Proof.
    intros H HF. induction H as [s v Hn Hs|n v Hl Hs|o a x v Fa Ha IHa Hr Hv Hs|o a b x y v Fa Fb Ha IHa Hb IHb Hr Hv Hs|c t f z x y Fc Hz IHz Hx IHx Hy IHy]; cbn [makeDFTree choice_free negb].
    - eexists. split; [|reflexivity]. now constructor.
    - destruct (HF _ _ Hl) as (c & E & Hk). rewrite E. eexists. split; [|reflexivity]. now constructor.
    - destruct IHa as (ta & Ta & Ea). rewrite Fa in Ta |- *. cbn [negb] in Ta |- *. exists (DOp [ta] o). split; [econstructor; eassumption|]. intros times k. rewrite Ea. cbn [bind]. rewrite (tm_flat _ _ Ta). exact (mk1 _ _ _ _ Ta).
    - destruct IHa as (ta & Ta & Ea). destruct IHb as (tb & Tb & Eb). rewrite Fa in Ta |- *. rewrite Fb in Tb |- *. cbn [negb andb] in Ta, Tb |- *. exists (DOp [ta; tb] o). split; [econstructor; eassumption|].
      intros times k. rewrite Ea, Eb. cbn [bind]. rewrite (tm_flat _ _ Ta), (tm_flat _ _ Tb). cbn [orb]. exact (mk2 _ _ _ _ _ _ Ta Tb).
    - destruct IHz as (tz & Tz & Ez). destruct IHx as (tx & Tx & Ex). destruct IHy as (ty & Ty & Ey). rewrite Fc in Tz. cbn [negb] in Tz |- *. exists (DBranch tz tx ty). split.
      + constructor; [exact Tz| |].
        * destruct (choice_free t); [apply tm_up|]; exact Tx.
        * destruct (choice_free f); [apply tm_up|]; exact Ty.
      + intros times k. rewrite Ez, Ex, Ey. cbn [bind]. rewrite (tm_flat _ _ Tz). reflexivity.
  Qed.
  Lemma stable_tm b t v : tm b t v -> stable b t = true.
  Proof.
    induction 1 as [| | |d o a x v Ha IHa|d o a b x y v Ha IHa Hb IHb|c a b z x y Hc IHc Ha IHa Hb IHb]; cbn [stable forallb existsb]; try reflexivity.
    - now rewrite IHa, (tm_some _ _ _ Ha).
    - now rewrite IHa, IHb, (tm_some _ _ _ Ha), (tm_some _ _ _ Hb).
    - now rewrite IHc, IHa, IHb.
  Qed.
  Lemma reorder_tm b t v : tm b t v -> ev (fun k => reorder k t = Ok t).
  Proof. intros H. apply stable_reorder. apply stable_tm in H. destruct b; [exact H|exact (stable_false_true _ H)]. Qed.
  Lemma resolve_tm array rd b t v : tm b t v -> (forall n v, K n v -> exists t, rd n = Ok t /\ tm false t v) ->
    exists t', tm b t' v /\ forall k, resolve k array rd t = Ok t'.
  Proof.
    intros H HR. induction H as [b s v Hn Hs|b w v Hs|b n v Hk Hs|d o a x v Ha IHa Hr Hv Hs|d o a b x y v Ha IHa Hb IHb Hr Hv Hs|c a b z x y Hc IHc Ha IHa Hb IHb]; cbn [resolve mapM].
    - eexists. split; [|reflexivity]. now constructor.
    - eexists. split; [|reflexivity]. now constructor.
    - destruct (HR _ _ Hk) as (t' & E & T). exists t'. split; [now apply tm_up|]. intros _. exact E.
    - destruct IHa as (a' & Ta & Ea). exists (DOp [a'] o). split; [econstructor; eassumption|]. intros k. rewrite Ea. cbn [bind existsb]. rewrite (tm_flat _ _ Ta). exact (mk1 _ _ _ _ Ta).
    - destruct IHa as (a' & Ta & Ea). destruct IHb as (b' & Tb & Eb). exists (DOp [a'; b'] o). split; [econstructor; eassumption|]. intros k. rewrite Ea, Eb. cbn [bind existsb]. rewrite (tm_flat _ _ Ta), (tm_flat _ _ Tb). exact (mk2 _ _ _ _ _ _ Ta Tb).
    - destruct IHa as (a' & Ta & Ea). destruct IHb as (b' & Tb & Eb). destruct IHc as (c' & Tc & Ec). exists (DBranch c' a' b'). split; [constructor; assumption|]. intros k. rewrite Ea, Eb, Ec. cbn [bind]. now rewrite (tm_flat _ _ Tc).
  Qed.
End Trees.

Lemma eval_op o vs ws v : length vs = length ws -> arithmetic o vs -> Forall small vs -> op_value o vs 32 = Some v ->
  exists w, evalOperator o (map mkv (combine vs ws)) = Ok (DEval (PInt v) (Some w) false false).
Proof.
  intros HL Ha Hs Hv. unfold evalOperator. rewrite op_args_mkv by exact HL. cbn [bind fst snd].
  rewrite (eval_exact o vs _ v).
  - eexists. reflexivity.
  - rewrite fold_max by lia. pose proof (maxw_nonneg ws). lia.
  - now apply arithmetic_exact.
  - now rewrite arithmetic_width.
Qed.
Lemma optC_tm E b t v : tm (knows E) b t v -> exists w, ev (fun k => optC E k t = Ok (DEval (PInt v) (Some w) false false)).
Proof.
  induction 1 as [b s v Hn Hs|b w v Hs|b n v Hk Hs|d o a x v Ha IHa Hr Hv Hs|d o a b x y v Ha IHa Hb IHb Hr Hv Hs|c a b z x y Hc IHc Ha IHa Hb IHb].
  - eexists. exists 1%nat. intros [|k] Hk; [lia|]. cbn [optC]. rewrite (literal_noxz _ _ _ _ (lit_plain _ _ Hn)), (LitProps.C04_literal_value _ _ _ _ (lit_plain _ _ Hn)). cbn [bind].
    rewrite (int_width_literal _ _ _ (lit_plain _ _ Hn)). cbn [bind]. reflexivity.
  - exists w, 1%nat. intros [|k] Hk; [lia|]. reflexivity.
  - destruct Hk as [_ [[w Ew] (t & Et & Em & El)]]. exists 32, 2%nat. intros [|[|k]] Hk; [lia|lia|]. cbn [optC]. rewrite Ew, Et, Em, El. cbn [is_none orb]. vm_compute. reflexivity.
  - destruct IHa as [w IHa]. destruct (eval_op o [x] [w] v eq_refl Hr) as [w' EO]; [constructor; [exact (tm_small _ _ _ _ Ha)|constructor]|exact Hv|]. exists w'.
    revert IHa. apply ev_S. intros k E1. cbn [optC mapM]. rewrite E1. exact EO.
  - destruct IHa as [w IHa]. destruct IHb as [w1 IHb]. destruct (eval_op o [x; y] [w; w1] v eq_refl Hr) as [w' EO]; [constructor; [exact (tm_small _ _ _ _ Ha)|constructor; [exact (tm_small _ _ _ _ Hb)|constructor]]|exact Hv|]. exists w'.
    generalize (ev_and _ _ IHa IHb). apply ev_S. intros k [E1 E2]. cbn [optC mapM]. rewrite E1, E2. exact EO.
  - destruct IHc as [w IHc]. destruct IHa as [w1 IHa]. destruct IHb as [w2 IHb]. exists (if z =? 0 then w2 else w1). generalize (ev_and _ _ IHc (ev_and _ _ IHa IHb)). apply ev_S. intros k (E1 & E2 & E3). cbn [optC]. rewrite E1, E2, E3. cbn [bind val_true].
    destruct (z =? 0); cbn [negb]; reflexivity.
Qed.
Lemma optimize_tm E log2i tocode b t v : tm (knows E) b t v -> exists w, ev (fun k => optimize E log2i tocode k t = Ok (DEval (PInt v) (Some w) false false)).
Proof.
  intros H. destruct (optC_tm _ _ _ _ H) as [w [k0 H0]]. exists w, (S k0). intros [|k] Hk; [lia|]. unfold optimize. rewrite (H0 (S k)) by lia. cbn [bind optH optC]. reflexivity.
Qed.

Lemma values_keep o r ds r' n : values o r ds r' -> ~ In n (map fst ds) -> lookup r' n = lookup r n.
Proof.
  induction 1 as [r|r m l r' H IH|r m e v l r' Ho H IH|r m e v l r' Ho Hw H IH]; intros Hn; [reflexivity|..]; cbn [map fst In] in Hn; rewrite IH by tauto; cbn [lookup]; destruct (String.eqb_spec m n); tauto.
Qed.
Section Par.
Variable log2i : Z -> option Z.
Variable tocode : df -> res string.
Variables has genvar array ismodule : chain -> bool.
Local Notation value := (value log2i tocode has genvar array ismodule).
Local Notation find := (find has ismodule).
Local Notation copyFrame := (copyFrame log2i tocode has genvar array ismodule).
Local Notation const_pass := (const_pass log2i tocode has genvar array ismodule).
Local Notation const_passes := (const_passes log2i tocode has genvar array ismodule).
Local Notation copy_terms := (copy_terms log2i tocode has genvar array ismodule).
Local Notation overrides := (overrides log2i tocode has genvar array ismodule).
Local Notation enter := (enter log2i tocode has genvar array ismodule).

Local Notation sees := (sees has ismodule).

Lemma value_ok E scope r e v : worth r e v -> sees E scope r ->
  exists w, ev (fun k => value k E scope e = Ok (DEval (PInt v) (Some w) false false)).
Proof.
  intros H HS. destruct (make_tm (knows E) r (find scope) array e v H HS) as (t & T & Et).
  destruct (resolve_tm (knows E) array (rd genvar E) _ t v T) as (t' & T' & Et').
  { intros n z (Hz & [w Ew] & HT). unfold rd. rewrite Ew. destruct (genvar n); eexists; (split; [reflexivity|]).
    - now constructor.
    - constructor; [|exact Hz]. split; [exact Hz|]. split; [now exists w|exact HT]. }
  destruct (reorder_tm _ _ _ _ T') as [k1 R1]. destruct (optimize_tm E log2i tocode _ _ _ T') as [w [k2 R2]]. exists w, (S (k1 + k2)). intros k Hk.
  unfold ParModel.value. destruct k as [|k]; [lia|]. cbn [value_at]. rewrite Et. cbn [bind]. rewrite Et'. cbn [bind]. rewrite R1 by lia. apply R2. lia.
Qed.

(** *** The constants of a scope *)
Definition plain (E : optenv) : Prop := keys_plain (o_const E) /\ keys_plain (o_terms E).
Definition default_term (t : term) : Prop := t_msb t = DInt "31" /\ t_lsb t = DInt "0".
Definition termed (E : optenv) (n : chain) : Prop := exists t, dget (o_terms E) n = Some t /\ default_term t.
Lemma set_term_const E n t : o_const (set_term E n t) = o_const E. Proof. reflexivity. Qed.
Lemma set_const_terms E n t : o_terms (set_const E n t) = o_terms E. Proof. reflexivity. Qed.
Lemma set_term_plain E n t : plain E -> no_any n -> plain (set_term E n t).
Proof. intros [H1 H2] Hn. split; [exact H1|]. now apply dset_plain. Qed.
Lemma set_const_plain E n t : plain E -> no_any n -> plain (set_const E n t).
Proof. intros [H1 H2] Hn. split; [|exact H2]. now apply dset_plain. Qed.
Lemma termed_set E n t m : plain E -> no_any n -> no_any m -> default_term t -> termed E m -> termed (set_term E n t) m.
Proof.
  intros [H1 H2] Hn Hm Ht (u & Eu & Du). unfold termed, set_term. cbn [o_terms]. rewrite dget_dset by assumption. destruct (chain_dec n m); [now exists t|]. now exists u.
Qed.

(** Terms. *)
Lemma copy_terms_ok k c l ds : holds_decls l ds -> no_any c -> forall E, plain E ->
  exists E', copy_terms k E c l = Ok E' /\ plain E' /\ o_const E' = o_const E /\
    (forall n, In n (map fst ds) -> termed E' (sig c n)) /\
    (forall m, no_any m -> termed E m -> termed E' m).
Proof.
  intros H Hc. induction H as [|[n p] [n' q] l ds [Hn Hd] _ IH]; intros E HP; cbn [ParModel.copy_terms].
  - exists E. repeat split; auto; try apply HP. intros n [].
  - cbn [fst snd] in *. subst n'. set (T := Term (sig c n) [fst (kind_of (hd NSignal p))] (DInt "31") (DInt "0") None).
    assert (exists d, p = [d] /\ snd (kind_of d) = None) as (d & -> & Kd).
    { destruct p as [|[| [w|] e|e| ] [|]]; try contradiction; eexists; split; reflexivity. }
    rewrite Kd. cbn [const_term bind hd] in *. pose proof (ElabProofs2.sig_any c n Hc) as Hs.
    destruct (IH (set_term E (sig c n) T) (set_term_plain E _ T HP Hs)) as (E' & EE & P' & C' & D' & K'). exists E'. split; [exact EE|]. split; [exact P'|]. split; [exact C'|]. split.
    + cbn [map fst]. intros m [<-|Hm]; [|now apply D']. apply K'; [exact Hs|]. exists T. cbn [set_term o_terms]. destruct HP as [_ HP]. rewrite dget_dset by assumption. destruct (chain_dec (sig c n) (sig c n)) as [X|X]; [|now destruct X]. split; [reflexivity|split; reflexivity].
    + intros m Hm HT. apply K'; [exact Hm|]. apply termed_set; auto. split; reflexivity.
Qed.
Lemma single_ok l ds : holds_decls l ds -> single l = Ok tt.
Proof.
  induction 1 as [|[n p] [n' q] l ds [Hn Hd] _ IH]; [reflexivity|]. cbn [fst snd] in *. cbn [single]. destruct p as [|d [|d' p]]; [exact IH|exact IH|]. destruct d as [|[w|] e|e|]; contradiction.
Qed.

(** The values r' of the constants ds are in E'. *)
Definition stored (E : optenv) (c : chain) (n : string) (v : option Z) : Prop :=
  match v with
  | Some v => small v /\ exists w, dget (o_const E) (sig c n) = Some (DEval (PInt v) (Some w) false false)
  | None => dget (o_const E) (sig c n) = None
  end.

Lemma find_here c n : c <> [] -> has (sig c n) = true -> find c n = Ok (sig c n).
Proof.
  intros Hc H. unfold ParModel.find. destruct (rev c) as [|l r] eqn:E.
  - exfalso. apply Hc. rewrite <- (rev_involutive c), E. reflexivity.
  - cbn [search]. rewrite <- E, rev_involutive, H. reflexivity.
Qed.

Lemma search_any rs n d : no_any (rev rs) -> search has ismodule rs n = Some d -> no_any d.
Proof.
  induction rs as [|l rs IH]; intros H E; [discriminate|]. cbn [search] in E. destruct (has _); [injection E as <-; now apply ElabProofs2.sig_any|]. destruct (ismodule _); [discriminate|].
  apply IH; [|exact E]. cbn [rev] in H. unfold no_any in *. apply Forall_app in H. tauto.
Qed.
Lemma find_any c n d : no_any c -> find c n = Ok d -> no_any d.
Proof. intros H E. unfold ParModel.find in E. destruct (search _ _ _ _) eqn:ES; [|discriminate]. injection E as <-. eapply search_any; [|exact ES]. now rewrite rev_involutive. Qed.

(** Setting a constant whose name has no value yet keeps the names seen. *)
Lemma knows_keep E n v m z : plain E -> no_any n -> no_any m -> m <> n -> knows E m z -> knows (set_const E n v) m z.
Proof.
  intros [H1 H2] Hn Hm Hd (Hz & [w Ew] & HT). split; [exact Hz|]. split; [|exact HT]. exists w. cbn [set_const o_const]. rewrite dget_dset by assumption. destruct (chain_dec n m); [congruence|exact Ew].
Qed.
Lemma fresh_ne E n m z : dget (o_const E) n = None -> knows E m z -> m <> n.
Proof. intros H (_ & [w Ew] & _) ->. congruence. Qed.
Lemma sees_set E c r n v w : plain E -> no_any c -> c <> [] -> has (sig c n) = true -> dget (o_const E) (sig c n) = None -> termed E (sig c n) -> small v ->
  sees E c r -> sees (set_const E (sig c n) (DEval (PInt v) (Some w) false false)) c ((n, Some v) :: r).
Proof.
  intros HP Hc Hne Hh HF HT Hv HS m z L. pose proof (ElabProofs2.sig_any c n Hc) as Ha. cbn [lookup] in L. destruct (String.eqb_spec n m) as [<-|N].
  - injection L as <-. exists (sig c n). split; [now apply find_here|]. split; [exact Hv|]. split; [|destruct HT as (t & ? & ? & ?); now exists t].
    exists w. cbn [set_const o_const]. destruct HP as [HP _]. rewrite dget_dset by assumption. destruct (chain_dec _ _); congruence.
  - destruct (HS _ _ L) as (d & Ed & Kd). exists d. split; [exact Ed|]. apply knows_keep; auto; [exact (find_any _ _ _ Hc Ed)|exact (fresh_ne _ _ _ _ HF Kd)].
Qed.

(** One pass over fresh constants. *)
Lemma pass_ok c l ds r r' : holds_decls l ds -> no_any c -> c <> [] -> values [] r ds r' ->
  NoDup (map fst ds) -> (forall n, In n (map fst ds) -> has (sig c n) = true) ->
  forall E, plain E -> sees E c r -> (forall n, In n (map fst ds) -> dget (o_const E) (sig c n) = None /\ termed E (sig c n)) ->
  exists E', ev (fun k => const_pass k E c l true = Ok (true, E')) /\ plain E' /\ o_terms E' = o_terms E /\
    (forall n, In n (map fst ds) -> exists v, lookup r' n = Some v /\ stored E' c n v) /\
    (forall m, no_any m -> (forall n, In n (map fst ds) -> m <> sig c n) -> dget (o_const E') m = dget (o_const E) m).
Proof.
  intros H Hc Hne HV. revert l H. induction HV as [r|r n ds r' HV IH|r n e v ds r' Ho HV IH|r n e v ds r' Ho Hw HV IH]; intros l H ND Hh E HP HS HF.
  - inversion H; subst. exists E. split; [exists 0%nat; intros k _; reflexivity|]. repeat split; auto; try apply HP. intros n [].
  - inversion H as [|[n' p] q l' ds' [Hn Hd] HL]; subst. cbn [fst snd] in Hn, Hd. subst n'. cbn [map fst] in *. inversion ND as [|? ? N1 N2]; subst.
    assert (p = [NGenvar]) as -> by (destruct p as [|[| [w|] e|e| ] [|]]; try contradiction; reflexivity).
    destruct (HF n (or_introl eq_refl)) as [F0 _].
    destruct (IH l' HL N2 (fun m Hm => Hh m (or_intror Hm)) E HP) as (E' & [k0 E1] & P' & T' & V' & K').
    { intros m z L. cbn [lookup] in L. destruct (String.eqb_spec n m); [discriminate|]. exact (HS _ _ L). }
    { intros m Hm. apply HF. now right. }
    exists E'. split; [exists k0; intros k Hk; cbn [ParModel.const_pass]; unfold dmem; rewrite F0; exact (E1 k Hk)|]. split; [exact P'|]. split; [exact T'|]. split.
    + intros m [<-|Hm]; [|now apply V']. exists None. split; [rewrite (values_keep _ _ _ _ _ HV N1); cbn [lookup]; now rewrite String.eqb_refl|]. cbn [stored]. rewrite K'; [exact F0|now apply ElabProofs2.sig_any|].
      intros m Hm X. apply ElabProofs2.sig_inj in X as [_ <-]. contradiction.
    + intros m Hm Hd0. apply K'; [exact Hm|]. intros x Hx. apply Hd0. now right.
  - discriminate Ho.
  - inversion H as [|[n' p] q l' ds' [Hn Hd] HL]; subst. cbn [fst snd] in Hn, Hd. subst n'. cbn [map fst] in *. inversion ND as [|? ? N1 N2]; subst.
    destruct (HF n (or_introl eq_refl)) as [F0 F1]. pose proof (ElabProofs2.sig_any c n Hc) as Ha.
    destruct (value_ok E c r e v Hw HS) as [w [k0 R0]]. set (D := DEval (PInt v) (Some w) false false) in *.
    destruct (IH l' HL N2 (fun m Hm => Hh m (or_intror Hm)) (set_const E (sig c n) D)) as (E' & [k1 E1] & P' & T' & V' & K').
    { now apply set_const_plain. }
    { apply sees_set; auto; [apply Hh; now left|exact (worth_small _ _ _ Hw)]. }
    { intros m Hm. destruct (HF m (or_intror Hm)) as [G0 G1]. split; [|exact G1]. cbn [set_const o_const]. destruct HP as [HP _]. rewrite dget_dset; [|exact HP|exact Ha|now apply ElabProofs2.sig_any]. destruct (chain_dec _ _) as [X|X]; [|exact G0]. apply ElabProofs2.sig_inj in X as [_ <-]. contradiction. }
    exists E'. split; [exists (k0 + k1)%nat; intros k Hk|split; [exact P'|]; split; [exact T'|]; split].
    + cbn [ParModel.const_pass]. unfold dmem. rewrite F0. specialize (R0 k ltac:(lia)). destruct p as [|[| [w0|] e0|e0| ] [|]]; try contradiction; subst e0; rewrite R0; apply E1; lia.
    + intros m [<-|Hm]; [|now apply V']. exists (Some v). split; [rewrite (values_keep _ _ _ _ _ HV N1); cbn [lookup]; now rewrite String.eqb_refl|]. split; [exact (worth_small _ _ _ Hw)|]. exists w. rewrite K'; [|exact Ha|].
      * cbn [set_const o_const]. destruct HP as [HP _]. rewrite dget_dset by assumption. destruct (chain_dec (sig c n) (sig c n)) as [X|X]; [reflexivity|now destruct X].
      * intros m Hm X. apply ElabProofs2.sig_inj in X as [_ <-]. contradiction.
    + intros m Hm Hd0. rewrite K'; [|exact Hm|intros x Hx; apply Hd0; now right]. cbn [set_const o_const]. destruct HP as [HP _]. rewrite dget_dset by assumption. destruct (chain_dec _ _) as [X|X]; [|reflexivity]. exfalso. apply (Hd0 n (or_introl eq_refl)). now symmetry.
Qed.

(** copyFrameInfo of a scope that has no constants yet. *)
Lemma sees_ext E E' c r : no_any c -> (forall m v, no_any m -> knows E m v -> knows E' m v) -> sees E c r -> sees E' c r.
Proof. intros Hc H HS n v L. destruct (HS _ _ L) as (d & Ed & Kd). exists d. split; [exact Ed|]. apply H; [exact (find_any _ _ _ Hc Ed)|exact Kd]. Qed.
Lemma frame_ok c l ds r r' E : holds_decls l ds -> no_any c -> c <> [] -> values [] r ds r' ->
  NoDup (map fst ds) -> (forall n, In n (map fst ds) -> has (sig c n) = true) ->
  plain E -> sees E c r -> (forall n, In n (map fst ds) -> dget (o_const E) (sig c n) = None) ->
  exists E', ev (fun k => copyFrame k E c l = Ok E') /\ plain E' /\
    (forall n, In n (map fst ds) -> exists v, lookup r' n = Some v /\ stored E' c n v /\ termed E' (sig c n)) /\
    (forall m, no_any m -> (forall n, In n (map fst ds) -> m <> sig c n) -> dget (o_const E') m = dget (o_const E) m) /\
    (forall m, no_any m -> termed E m -> termed E' m).
Proof.
  intros HL Hc Hne HV ND Hh HP HS HF.
  destruct (copy_terms_ok 0 c l ds HL Hc E HP) as (E1 & R1 & P1 & C1 & T1 & K1).
  assert (forall k, copy_terms k E c l = Ok E1) as R1'.
  { intros k. rewrite <- R1. clear -HL. revert E. induction HL as [|[n p] [n' q] l ds [Hn Hd] _ IH]; intros E; [reflexivity|]. cbn [fst snd] in *. cbn [ParModel.copy_terms].
    destruct p as [|[| [w|] e|e| ] [|]]; try contradiction; cbn [kind_of fst snd const_term bind]; apply IH. }
  destruct (pass_ok c l ds r r' HL Hc Hne HV ND Hh E1 P1) as (E' & [k0 E2] & P' & T' & V' & K').
  - apply (sees_ext E); [exact Hc| |exact HS]. intros m v Hm (Hv & Hk & HT). split; [exact Hv|]. rewrite C1. split; [exact Hk|]. exact (K1 m Hm HT).
  - intros n Hn. rewrite C1. split; [now apply HF|now apply T1].
  - exists E'. split.
    + exists (S k0). intros k Hk. unfold ParModel.copyFrame. rewrite (single_ok _ _ HL). cbn [bind]. rewrite R1'. cbn [bind]. destruct k as [|k]; [lia|]. cbn [ParModel.const_passes]. rewrite E2 by lia. reflexivity.
    + split; [exact P'|]. split; [|split].
      * intros n Hn. destruct (V' n Hn) as (v & L & S0). exists v. split; [exact L|]. split; [exact S0|]. unfold termed. rewrite T'. now apply T1.
      * intros m Hm Hd. rewrite K' by assumption. now rewrite C1.
      * intros m Hm HT. unfold termed. rewrite T'. now apply K1.
Qed.
(** ... and of one whose constants are all known. *)
Lemma frame_again c l ds E : holds_decls l ds -> no_any c -> plain E ->
  (forall n e, In (n, Some e) ds -> dmem (o_const E) (sig c n) = true) ->
  exists E', (forall k, (0 < k)%nat -> copyFrame k E c l = Ok E') /\ plain E' /\ o_const E' = o_const E /\
    (forall n, In n (map fst ds) -> termed E' (sig c n)) /\ (forall m, no_any m -> termed E m -> termed E' m).
Proof.
  intros HL Hc HP HM. destruct (copy_terms_ok 0 c l ds HL Hc E HP) as (E1 & R1 & P1 & C1 & T1 & K1).
  assert (forall k, copy_terms k E c l = Ok E1) as R1'.
  { intros k. rewrite <- R1. clear -HL. revert E. induction HL as [|[n p] [n' q] l ds [Hn Hd] _ IH]; intros E; [reflexivity|]. cbn [fst snd] in *. cbn [ParModel.copy_terms].
    destruct p as [|[| [w|] e|e| ] [|]]; try contradiction; cbn [kind_of fst snd const_term bind]; apply IH. }
  exists E1. split; [|repeat split; auto; try apply P1]. intros k Hk. unfold ParModel.copyFrame. rewrite (single_ok _ _ HL). cbn [bind]. rewrite R1'. cbn [bind]. destruct k as [|k]; [lia|]. cbn [ParModel.const_passes].
  assert (const_pass (S k) E1 c l true = Ok (true, E1)) as ->; [|reflexivity].
  clear R1 R1' T1 K1 P1. rewrite <- C1 in HM. clear C1. induction HL as [|[n p] [n' q] l ds [Hn Hd] _ IH]; [reflexivity|]. cbn [fst snd] in *. subst n'. cbn [ParModel.const_pass].
  assert (const_pass (S k) E1 c l true = Ok (true, E1)) as R by (apply IH; intros; eapply HM; right; eassumption).
  destruct p as [|[| [w|] e|e| ] [|]]; try contradiction; cbn [snd] in Hd; destruct q as [q|]; try contradiction; try (rewrite (HM n _ (or_introl eq_refl)); exact R).
  destruct (dmem _ _); exact R.
Qed.
End Par.
