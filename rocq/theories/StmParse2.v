(** StmParse2.v - the tokens of a statement are parsed back: targets, delays and events. *)
From Verif Require Import Base DfModel LexModel LexSpec ExprModel ParseModel ExprSpec ExprText ExprText2 ExprText3 ExprParse ExprSound StmModel StmSpec StmText2 StmText3 StmParse.
Local Open Scope string_scope.
Local Notation "a +++ b" := (@app _ a b) (at level 60, right associativity).

(** ** Targets *)
Definition ends_select (rest : list token) : Prop := match rest with P LBRACKET :: _ => False | _ => True end.
Lemma selects_end v rest : ends_select rest -> ev (fun n => p_selects n v rest) (Ok (v, rest)).
Proof.
  intros H. apply ev_S. eapply ev_ext; [|apply ev_const]. intros n. cbn [p_selects]. destruct rest as [|[p|s|s|s|s|k s] rest]; try reflexivity. destruct p; reflexivity || contradiction.
Qed.
Lemma selects_ptr v p rest x : good p -> ev (fun n => p_selects n (XPtr v p) rest) x -> ev (fun n => p_selects n v (P LBRACKET :: etoks p +++ P RBRACKET :: rest)) x.
Proof.
  intros H K. apply ev_S. cbn [p_selects]. refine (ev_bind _ _ _ _ (p_expr_inner p (P RBRACKET :: rest) H (conj I eq_refl)) _). exact K.
Qed.
Lemma selects_part v m l rest : good m -> good l -> ev (fun n => p_selects n v (P LBRACKET :: etoks m +++ P COLON :: etoks l +++ P RBRACKET :: rest)) (Ok (XPart v m l, rest)).
Proof.
  intros H1 H2. apply ev_S. cbn [p_selects]. refine (ev_bind _ _ _ _ (p_expr_inner m (P COLON :: etoks l +++ P RBRACKET :: rest) H1 (conj I eq_refl)) _). cbn [snd fst].
  refine (ev_bind _ _ _ _ (p_expr_inner l (P RBRACKET :: rest) H2 (conj I eq_refl)) _). apply ev_const.
Qed.
Lemma selects_ok e : good e -> indexable e -> exists s sel, etoks e = ID s :: sel /\ forall rest x, ev (fun n => p_selects n e rest) x -> ev (fun n => p_selects n (XId s) (sel +++ rest)) x.
Proof.
  intros H. apply (good_ind' (fun e => indexable e -> exists s sel, etoks e = ID s :: sel /\ forall rest x, ev (fun n => p_selects n e rest) x -> ev (fun n => p_selects n (XId s) (sel +++ rest)) x)); auto; clear; try (intros; contradiction).
  - intros s H _. exists s, []. split; [cbn [etoks]; now rewrite (id_token_ok _ H)|]. auto.
  - intros v p Hi Hv IH Hp _ _. destruct (IH Hi) as (s & sel & E & K). exists s, (sel +++ P LBRACKET :: etoks p +++ [P RBRACKET]). split; [cbn [etoks]; now rewrite E|].
    intros rest x HX. rewrite <- app_assoc. apply K. cbn [app]. rewrite <- app_assoc. now apply selects_ptr.
Qed.
Definition single_target (e : expr) : Prop := match e with XId _ | XPtr _ _ | XPart _ _ _ => True | _ => False end.
Lemma signal_ok e : good e -> single_target e -> exists s sel, etoks e = ID s :: sel /\ forall rest, ends_select rest -> ev (fun n => p_selects n (XId s) (sel +++ rest)) (Ok (e, rest)).
Proof.
  intros H HS. destruct e as [s| | | | | | |v m l|v p| |]; try contradiction.
  - destruct (selects_ok _ H I) as (s' & sel & E & K). exists s', sel. split; [exact E|]. intros rest HR. apply K. now apply selects_end.
  - inversion H as [| | | | | | |v' m' l' Hi Hv Hm Hl B1 B2| | | |]; subst. destruct (selects_ok _ Hv Hi) as (s' & sel & E & K). exists s', (sel +++ P LBRACKET :: etoks m +++ P COLON :: etoks l +++ [P RBRACKET]). split; [cbn [etoks]; now rewrite E|].
    intros rest HR. rewrite <- app_assoc. apply K. cbn [app]. rewrite <- app_assoc. cbn [app]. rewrite <- app_assoc. now apply selects_part.
  - destruct (selects_ok _ H I) as (s' & sel & E & K). exists s', sel. split; [exact E|]. intros rest HR. apply K. now apply selects_end.
Qed.
Definition lvalue_ok (e : expr) : Prop := forall rest, ends_select rest -> ev (fun n => p_lvalue n (etoks e +++ rest)) (Ok (e, rest)).
Lemma lvalues_ok l : Forall lvalue_ok l -> forall acc rest, exists n0, forall n m, n0 <= n -> n0 <= m ->
  p_lvalues (p_lvalue n) m acc ((match l with [] => [] | _ => P COMMA :: tjoin (map etoks l) end) +++ P RBRACE :: rest) = Ok (XConcat (acc +++ l), rest).
Proof.
  induction 1 as [|x l Hx H IH]; intros acc rest.
  - exists 1. intros n [|m] _ Hm; [lia|]. cbn [p_lvalues app]. now rewrite app_nil_r.
  - assert (tjoin (map etoks (x :: l)) = etoks x +++ match l with [] => [] | _ => P COMMA :: tjoin (map etoks l) end) as E by (destruct l; cbn [map tjoin]; [now rewrite app_nil_r|reflexivity]).
    destruct (Hx ((match l with [] => [] | _ => P COMMA :: tjoin (map etoks l) end) +++ P RBRACE :: rest)) as (n1 & K1); [destruct l; exact I|]. destruct (IH (acc +++ [x]) rest) as (n2 & K2).
    exists (S (Nat.max n1 n2)). intros n [|m] Hn Hm; [lia|]. rewrite E. cbn [app p_lvalues]. rewrite <- app_assoc, K1 by lia. cbn [bind fst snd]. rewrite K2 by lia. now rewrite <- app_assoc.
Qed.
Lemma target_single e : target e -> single_target e \/ exists l, e = XConcat l.
Proof. destruct 1; [left; exact I|left; exact I|left; exact I|right; eauto]. Qed.
Lemma p_lvalue_ok e : good e -> target e -> lvalue_ok e.
Proof.
  intros H. apply (good_ind' (fun e => target e -> lvalue_ok e)); auto; clear; try (intros; match goal with H : target _ |- _ => inversion H; fail end).
  - intros s H _ rest HR. apply ev_S. cbn [etoks app]. rewrite (id_token_ok _ H). cbn [p_lvalue]. now apply selects_end.
  - intros l HN HG IH HT rest HR. inversion HT as [| | |l' HT']; subst. assert (Forall lvalue_ok l) as HL. { clear - IH HT'. induction IH; inversion HT'; subst; constructor; auto. }
    destruct HL as [|x l Hx HL]; [congruence|]. assert (tjoin (map etoks (x :: l)) = etoks x +++ match l with [] => [] | _ => P COMMA :: tjoin (map etoks l) end) as E by (destruct l; cbn [map tjoin]; [now rewrite app_nil_r|reflexivity]).
    apply ev_S. cbn [etoks]. rewrite E. cbn [app p_lvalue]. rewrite <- !app_assoc. refine (ev_bind _ _ _ _ (Hx _ _) _); [destruct l; exact I|]. cbn [fst snd]. destruct (lvalues_ok l HL [x] rest) as (n0 & K). exists n0. intros n Hn. apply (K n n Hn Hn).
  - intros v m l Hi Hv _ Hm _ Hl _ B1 B2 _ rest HR. destruct (signal_ok (XPart v m l)) as (s & sel & E & K); [now constructor|exact I|]. apply ev_S. rewrite E. cbn [app p_lvalue]. now apply K.
  - intros v p Hi Hv _ Hp _ _ rest HR. destruct (signal_ok (XPtr v p)) as (s & sel & E & K); [now constructor|exact I|]. apply ev_S. rewrite E. cbn [app p_lvalue]. now apply K.
Qed.
Lemma target_starts e : good e -> target e -> exists t r, etoks e = t :: r /\ match t with ID _ | P LBRACE => True | _ => False end.
Proof.
  intros H HT. destruct (target_single e HT) as [HS|(l & ->)]; [|cbn [etoks]; eexists _, _; split; [reflexivity|exact I]]. destruct (signal_ok e H HS) as (s & sel & -> & _). eexists _, _; split; [reflexivity|exact I].
Qed.

(** ** Delays and assignments *)
Definition no_delay (rest : list token) : Prop := match rest with P DELAY :: _ => False | _ => True end.
Lemma p_delays_ok d rest : opt good d -> optb delay_printable d = true -> (d = None -> no_delay rest) -> ev (fun n => p_delays n (dtoks d +++ rest)) (Ok (d, rest)).
Proof.
  intros H HP HN. destruct d as [d|]; cbn [dtoks app].
  - cbn [opt optb] in *. unfold delay_printable in HP. apply andb_true_iff in HP as [_ HP]. unfold ftoks, twrap. destruct (wrapped d) eqn:W.
    + eapply ev_ext; [intros n; cbn [p_delays app]; rewrite <- app_assoc; reflexivity|]. refine (ev_bind _ _ _ _ (p_expr_inner d (P RPAREN :: rest) H (conj I eq_refl)) _). apply ev_const.
    + destruct d; try discriminate HP; try discriminate W; inversion H; subst; eapply ev_ext; [|apply ev_const| |apply ev_const]; intros n; cbn [etoks app]; [rewrite (id_token_ok _ ltac:(eassumption))|rewrite (int_tok_ok _ _ ltac:(eassumption))]; reflexivity.
  - specialize (HN eq_refl). eapply ev_ext; [|apply ev_const]. intros n. destruct rest as [|[p|s|s|s|s|k s] rest]; try reflexivity. destruct p; reflexivity || contradiction.
Qed.
(** Both the parts of an assignment can be read back. *)
Definition asg_fine (a : asg) : Prop := asg_good a /\ target (a_left a) /\ optb delay_printable (a_ldelay a) = true /\ optb delay_printable (a_rdelay a) = true.
Lemma asg_is_fine a : asg_written a -> asg_printable a = true -> asg_fine a.
Proof.
  intros W P. split; [now apply asg_is_good|]. destruct W as (_ & W & _). split; [exact W|]. unfold asg_printable in P. apply andb_true_iff in P as [P P4]. apply andb_true_iff in P as [P P3]. auto.
Qed.
Lemma tight_is_fine a : asg_written a -> for_printable a = true -> asg_fine a.
Proof.
  intros W P. pose proof (asg_is_tight a W P) as (G1 & B1 & G2 & B2 & E1 & E2). destruct W as (_ & W & _). unfold asg_fine, asg_good. rewrite E1, E2. cbn. auto.
Qed.
Lemma etoks_no_delay e : good e -> forall rest, no_delay (etoks e +++ rest).
Proof.
  intros H. apply (good_ind' (fun e => forall rest, no_delay (etoks e +++ rest))); auto; clear; cbn [etoks].
  - intros s H rest. rewrite (id_token_ok _ H). exact I.
  - intros k s H rest. rewrite (int_tok_ok _ _ H). exact I.
  - intros o a H1 _ _ _ rest. destruct o; discriminate H1 || exact I.
  - intros o a b _ _ Ha IH _ _ rest. rewrite <- app_assoc. destruct (bare_left o a); [apply IH|]. unfold twrap. destruct (wrapped a); [exact I|apply IH].
  - intros c t f _ _ _ _ _ _ rest. exact I.
  - intros l _ _ _ rest. exact I.
  - intros v m l _ _ IH _ _ _ _ _ _ rest. rewrite <- app_assoc. apply IH.
  - intros v p _ _ IH _ _ rest. rewrite <- app_assoc. apply IH.
  - intros f l H _ _ rest. rewrite (id_token_ok _ H). exact I.
  - intros f l _ _ _ rest. exact I.
Qed.
Lemma p_asg_ok (nb : bool) a rest : asg_fine a -> stops_expr rest ->
  ev (fun n => p_asg n (a_ldelay a) (etoks (a_left a) +++ P (if nb then LE else EQUALS) :: dtoks (a_rdelay a) +++ etoks (a_right a) +++ rest)) (Ok (nb, a, rest)).
Proof.
  intros ((G1 & G2 & G3 & G4) & HT & P3 & P4) HR. unfold p_asg. refine (ev_bind _ _ _ _ (p_lvalue_ok (a_left a) G1 HT _ _) _); [destruct nb; exact I|]. cbn [snd fst].
  assert (ev (fun n => do d <- p_delays n (dtoks (a_rdelay a) +++ etoks (a_right a) +++ rest); do y <- p_expr n (snd d); Ok (nb, Asg (a_left a) (fst y) (a_ldelay a) (fst d), snd y)) (Ok (nb, a, rest))) as K; [|destruct nb; exact K].
  refine (ev_bind _ _ _ _ (p_delays_ok (a_rdelay a) _ G4 P4 _) _); [intros _; now apply etoks_no_delay|]. cbn [snd fst]. refine (ev_bind _ _ _ _ (p_expr_inner (a_right a) rest G2 HR) _). destruct a. apply ev_const.
Qed.
Lemma p_asg_stm_ok (nb : bool) a rest : asg_fine a ->
  ev (fun n => p_asg_stm n (a_ldelay a) (etoks (a_left a) +++ P (if nb then LE else EQUALS) :: dtoks (a_rdelay a) +++ etoks (a_right a) +++ P SEMICOLON :: rest)) (Ok (nb, a, rest)).
Proof. intros H. unfold p_asg_stm. refine (ev_bind _ _ _ _ (p_asg_ok nb a (P SEMICOLON :: rest) H (conj I eq_refl)) _). apply ev_const. Qed.
Lemma atoks_app (nb : bool) a rest : atoks nb a +++ rest = dtoks (a_ldelay a) +++ etoks (a_left a) +++ P (if nb then LE else EQUALS) :: dtoks (a_rdelay a) +++ etoks (a_right a) +++ rest.
Proof. unfold atoks. rewrite <- !app_assoc. cbn [app]. now rewrite <- app_assoc. Qed.

(** ** Events *)
Lemma p_signal_ok k e rest : good e -> single_target e -> (k <> Level -> indexable e) -> ends_select rest -> ev (fun n => p_signal n k (etoks e +++ rest)) (Ok (SSig k e, rest)).
Proof.
  intros H HS HK HR. destruct (signal_ok e H HS) as (s & sel & E & K). rewrite E. cbn [app]. unfold p_signal. refine (ev_bind _ _ _ _ (K rest HR) _). cbn [fst snd].
  destruct k; try apply ev_const; (destruct e; try contradiction; try apply ev_const; exfalso; apply HK; discriminate).
Qed.
Lemma p_sigs_ok (one : nat -> list token -> res (sensitem * list token)) l :
  Forall (fun x => forall rest, ends_select rest -> ev (fun n => one n (sitoks x +++ rest)) (Ok (x, rest))) l -> forall acc rest,
  exists n0, forall n m, n0 <= n -> n0 <= m -> p_sigs (one n) m acc ((match l with [] => [] | _ => KW "or" :: sltoks l end) +++ P RPAREN :: rest) = Ok (acc +++ l, rest).
Proof.
  induction 1 as [|x l Hx H IH]; intros acc rest.
  - exists 1. intros n [|m] _ Hm; [lia|]. cbn [p_sigs app]. now rewrite app_nil_r.
  - assert (sltoks (x :: l) = sitoks x +++ match l with [] => [] | _ => KW "or" :: sltoks l end) as E by (destruct l; cbn [sltoks]; [now rewrite app_nil_r|reflexivity]).
    destruct (Hx ((match l with [] => [] | _ => KW "or" :: sltoks l end) +++ P RPAREN :: rest)) as (n1 & K1); [destruct l; exact I|]. destruct (IH (acc +++ [x]) rest) as (n2 & K2).
    exists (S (Nat.max n1 n2)). intros n [|m] Hn Hm; [lia|]. rewrite E. cbn [app p_sigs]. change (is_kw "or" (KW "or")) with true. cbn iota. rewrite <- app_assoc, K1 by lia. cbn [bind fst snd]. rewrite K2 by lia. now rewrite <- app_assoc.
Qed.
Lemma p_sens_all (one : nat -> list token -> res (sensitem * list token)) l rest : l <> [] ->
  Forall (fun x => forall rest, ends_select rest -> ev (fun n => one n (sitoks x +++ rest)) (Ok (x, rest))) l ->
  ev (fun n => do x <- one n (sltoks l +++ P RPAREN :: rest); p_sigs (one n) n [fst x] (snd x)) (Ok (l, rest)).
Proof.
  intros HN H. destruct H as [|x l Hx H]; [congruence|].
  assert (sltoks (x :: l) = sitoks x +++ match l with [] => [] | _ => KW "or" :: sltoks l end) as E by (destruct l; cbn [sltoks]; [now rewrite app_nil_r|reflexivity]).
  rewrite E, <- app_assoc. refine (ev_bind _ _ _ _ (Hx _ _) _); [destruct l; exact I|]. cbn [fst snd]. destruct (p_sigs_ok one l H [x] rest) as (n0 & K). exists n0. intros n Hn. apply (K n n Hn Hn).
Qed.
Lemma p_edge_ok x rest : edge_written x -> sens_printable x = true -> ends_select rest -> ev (fun n => p_edge n (sitoks x +++ rest)) (Ok (x, rest)).
Proof.
  intros W HP HR. destruct x as [|k e]; [contradiction|]. cbn [sens_printable] in HP.
  assert (forall k, (written e /\ indexable e) -> ev (fun n => p_signal n k (ftoks e +++ rest)) (Ok (SSig k e, rest))) as K.
  { intros k0 [W1 W2]. unfold ftoks, twrap. assert (wrapped e = false) as -> by (destruct e; contradiction || reflexivity). apply p_signal_ok; [now apply written_good|destruct e; contradiction || exact I|auto|exact HR]. }
  destruct k; cbn [edge_written] in W; try contradiction; exact (K _ W).
Qed.
Lemma p_level_ok x rest : level_written x -> sens_printable x = true -> ends_select rest -> ev (fun n => p_signal n Level (sitoks x +++ rest)) (Ok (x, rest)).
Proof.
  intros W HP HR. destruct x as [|[] e]; try contradiction. cbn [sens_printable level_written sitoks] in *. destruct W as [W1 W2]. unfold ftoks, twrap. assert (wrapped e = false) as -> by (destruct e; contradiction || reflexivity).
  apply p_signal_ok; [now apply written_good|exact W2|congruence|exact HR].
Qed.
Lemma forall_both {A} (p q : A -> Prop) (b : A -> bool) l : (forall x, p x -> b x = true -> q x) -> Forall p l -> forallb b l = true -> Forall q l.
Proof. intros H HF. induction HF as [|x l Hx HF IH]; intros HB; constructor; cbn [forallb] in HB; apply andb_true_iff in HB as [B1 B2]; auto. Qed.
Lemma p_senslist_ok l rest : sens_written l -> forallb sens_printable l = true -> ev (fun n => p_senslist n (P AT :: P LPAREN :: sltoks l +++ P RPAREN :: rest)) (Ok (l, rest)).
Proof.
  intros [->|[HN [H|H]]] HP; [exists 0; reflexivity| |].
  - assert (Forall (fun x => forall rest, ends_select rest -> ev (fun n => p_edge n (sitoks x +++ rest)) (Ok (x, rest))) l) as K by (refine (forall_both _ _ _ l _ H HP); intros x H1 H2 rest0; now apply p_edge_ok).
    destruct l as [|x l]; [congruence|]. inversion H as [|u v Hx _]; subst. assert (exists w r, sltoks (x :: l) = KW w :: r) as (w & r & E).
    { destruct x as [|[] e]; cbn [edge_written] in Hx; try contradiction; destruct l; cbn [sltoks sitoks app]; eauto. }
    pose proof (p_sens_all p_edge (x :: l) rest HN K) as KK. rewrite E in *. exact KK.
  - assert (Forall (fun x => forall rest, ends_select rest -> ev (fun n => p_signal n Level (sitoks x +++ rest)) (Ok (x, rest))) l) as K by (refine (forall_both _ _ _ l _ H HP); intros x H1 H2 rest0; now apply p_level_ok).
    destruct l as [|x l]; [congruence|]. inversion H as [|u v Hx _]; subst. assert (exists w r, sltoks (x :: l) = ID w :: r) as (w & r & E).
    { destruct x as [|[] e]; cbn [level_written] in Hx; try contradiction. destruct Hx as [W1 W2]. cbn [forallb sens_printable] in HP. apply andb_true_iff in HP as [P1 _]. destruct (signal_ok e (written_good e W1 P1) W2) as (s & sel & E & _).
      assert (ftoks e = ID s :: sel) as E2 by (unfold ftoks, twrap; assert (wrapped e = false) as -> by (destruct e; contradiction || reflexivity); exact E). destruct l; cbn [sltoks sitoks]; rewrite E2; cbn [app]; eauto. }
    pose proof (p_sens_all (fun n => p_signal n Level) (x :: l) rest HN K) as KK. rewrite E in *. exact KK.
Qed.
