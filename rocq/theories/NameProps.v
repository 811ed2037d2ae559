(** NameProps.v - C66: hierarchical names denote the signals of the scopes they name. *)
From Verif Require Import Base ScopeModel ScopeSpec ScopeProofs DfModel DfSpec BindModel BindSpec BindProofs OptModel LitModel VisitModel VisitSpec VisitProofs NameModel NameSpec NameProofs.

(** ** names and labels *)
Definition tgt (q : list (string * option Z)) : chain :=
  flat_map (fun a => match snd a with Some z => [Label "for" STfor (Some z)] | None => [] end ++ [Label (fst a) STany None]) q.
Lemma target_ok {E} (value : E -> res df) p q : indices value p q -> toScopeChain value p = Ok (tgt q).
Proof.
  induction 1 as [|[n o] [n' o'] p q [H1 H2] _ IH]; [reflexivity|]. cbn [fst snd] in *. subst n'. cbn [toScopeChain]. destruct o as [e|], o' as [z|]; try contradiction.
  - destruct H2 as (w & f & g & ->). cbn [bind as_int]. rewrite IH. reflexivity.
  - cbn [bind]. rewrite IH. reflexivity.
Qed.
Lemma visible_named l : stype l <> STany -> (unprintable (stype l) = false <-> named_scope l).
Proof. unfold named_scope. destruct (stype l); cbn; split; intros; try congruence; intuition congruence. Qed.
Lemma hidden_layer l : unprintable (stype l) = true <-> layer l.
Proof. unfold layer. destruct (stype l); cbn; split; intros; try congruence; intuition congruence. Qed.
Lemma loop_none x : loop_eqb x None = true -> x = None.
Proof. destruct x; [discriminate|reflexivity]. Qed.
Lemma loop_some x z : loop_eqb x (Some z) = true <-> x = Some z.
Proof. destruct x as [y|]; cbn; split; try discriminate; [intros H; apply Z.eqb_eq in H; congruence|intros H; injection H as ->; apply Z.eqb_refl]. Qed.
Lemma any_eq l n : label_eq l (Label n STany None) = true <-> sname l = n /\ sloop l = None.
Proof.
  unfold label_eq. cbn [stype sname sloop scopetype_eqb]. rewrite orb_true_r. rewrite andb_true_iff, String.eqb_eq. split; intros [H1 H2]; split; auto; [apply loop_none; auto|rewrite H2; reflexivity].
Qed.
Lemma not_for l z : stype l <> STany -> unprintable (stype l) = false -> label_eq l (Label "for" STfor (Some z)) = false.
Proof. intros H V. unfold label_eq. cbn [stype sname sloop]. destruct (stype l); cbn in *; try congruence; rewrite andb_false_r; reflexivity. Qed.
Lemma tgt_nonempty q : q <> [] -> tgt q <> [].
Proof. destruct q as [|[n [z|]] q]; [congruence|discriminate|discriminate]. Qed.
Lemma is_for l : scopetype_eqb (stype l) STfor = true <-> stype l = STfor.
Proof. destruct (stype l); cbn; split; congruence. Qed.

Lemma tm_spells : forall r q, Forall (fun l => stype l <> STany) r -> tm r (tgt q) -> spells r q.
Proof.
  induction r as [|l r IH]; intros q Hn H; [exfalso; destruct (tm_nonempty _ _ H) as [A B]; first [apply A; reflexivity|apply B; reflexivity]|]. inversion Hn as [|? ? N1 N2]; subst.
  destruct q as [|[n [z|]] q]; [exfalso; destruct (tm_nonempty _ _ H) as [A B]; first [apply A; reflexivity|apply B; reflexivity]| |]; cbn [tgt flat_map snd fst app] in H; fold (tgt q) in H.
  - inversion H as [ | l0 t r0 ts V E Hts K | l0 t U B E | l0 t r0 ts U B E Hts K | l0 t r0 ts U B K ]; subst.
    + rewrite (not_for l z N1 V) in E. discriminate E.
    + cbn [stype] in B. rewrite andb_true_r in B. apply is_for in B. cbn [sloop] in E. apply loop_some in E. apply sp_index; auto.
    + cbn [stype] in B. apply sp_layer; [apply hidden_layer, U| |apply IH; auto]. intros F. rewrite F in B. discriminate B.
  - inversion H as [ l0 t V E | l0 t r0 ts V E Hts K | l0 t U B E | l0 t r0 ts U B E Hts K | l0 t r0 ts U B K ]; subst.
    + apply any_eq in E as [<- E]. destruct q; [|exfalso; apply (tgt_nonempty (p :: q)); [discriminate|congruence]]. apply sp_last; [apply visible_named; auto|exact E].
    + apply any_eq in E as [<- E]. apply sp_name; [apply visible_named; auto|exact E|apply IH; auto].
    + cbn [stype] in B. rewrite andb_false_r in B. discriminate B.
    + cbn [stype] in B. rewrite andb_false_r in B. discriminate B.
    + apply sp_layer; [apply hidden_layer, U|reflexivity|apply IH; auto].
Qed.
Lemma spells_tm r q : Forall (fun l => stype l <> STany) r -> spells r q -> tm r (tgt q).
Proof.
  intros Hn H. induction H as [l V E|l r p V E H IH|l r n z p F E H IH|l r n o p L F H IH]; inversion Hn as [|? ? N1 N2]; subst; cbn [tgt flat_map snd fst app]; try fold (tgt p).
  - apply tm_last; [apply visible_named; auto|apply any_eq; auto].
  - apply tm_name; [apply visible_named; auto|apply any_eq; auto| |auto]. apply tgt_nonempty. intros ->. inversion H.
  - specialize (IH N2). cbn [tgt flat_map snd fst app] in IH. apply tm_for; [rewrite F; reflexivity|rewrite F; reflexivity|apply loop_some; exact E|discriminate|exact IH].
  - specialize (IH N2). cbn [tgt flat_map snd fst app] in IH. destruct o as [z|]; cbn [app] in *.
    + apply tm_skip; [apply hidden_layer, L| |exact IH]. cbn [stype]. destruct (scopetype_eqb (stype l) STfor) eqn:B; [|reflexivity]. apply is_for in B. discriminate (F B).
    + apply tm_skip; [apply hidden_layer, L| |exact IH]. cbn [stype]. apply andb_false_r.
Qed.
Lemma spells_last r q : spells r q -> exists r' l, r = r' ++ [l] /\ sloop l = None /\ last (tgt q) (Label "" STany None) = Label (sname l) STany None.
Proof.
  assert (forall a p, p <> [] -> last (tgt (a :: p)) (Label "" STany None) = last (tgt p) (Label "" STany None)) as L.
  { intros a p Hp. unfold tgt. cbn [flat_map]. fold (tgt p). pose proof (tgt_nonempty p Hp) as K. destruct a as [n [z|]]; cbn [snd fst app]; destruct (tgt p); try congruence; reflexivity. }
  induction 1 as [l V E|l r p V E H IH|l r n z p F E H IH|l r n o p Y F H IH].
  - exists [], l. auto.
  - destruct IH as (r' & l' & -> & E' & K). exists (l :: r'), l'. split; [reflexivity|]. split; [exact E'|]. rewrite L; [exact K|]. intros ->. inversion H.
  - destruct IH as (r' & l' & -> & E' & K). exists (l :: r'), l'. split; [reflexivity|]. split; [exact E'|]. exact K.
  - destruct IH as (r' & l' & -> & E' & K). exists (l :: r'), l'. split; [reflexivity|]. split; [exact E'|]. exact K.
Qed.

(** ** the instance around a scope *)
Lemma module_found c m : instance_of c m -> getModuleScopeChain c = Ok m.
Proof.
  intros (b & l & r & -> & -> & Hl & Hr). unfold getModuleScopeChain. rewrite rev_app_distr. apply Forall_rev in Hr. induction Hr as [|x r' Hx _ IH]; cbn [app up_to_module].
  - rewrite rev_app_distr. cbn [rev app up_to_module]. rewrite Hl. cbn [scopetype_eqb]. cbn [rev]. rewrite rev_involutive. reflexivity.
  - destruct (scopetype_eqb (stype x) STmodule) eqn:E; [|exact IH]. exfalso. apply Hx. destruct (stype x); try discriminate E. reflexivity.
Qed.

Section Found.
  Context {node E V : Type}.
  Variables (value : E -> res df) (h : list (act node)) (s : ftable node) (terms : ndict V) (p : list (string * option E)) (q : list (string * option Z)) (name : string) (cur m : chain).
  Hypothesis HP : Forall plain_act h.
  Hypothesis HR : run _ h (empty_table node) = Ok s.
  Hypothesis HI : instance_of cur m.
  Hypothesis HO : exists fl, opened h m fl.
  Hypothesis HQ : indices value p q.
  Hypothesis HN : p <> [].
  Notation open c := (dget (ft_dict _ s) c <> None).
  Lemma the_inv : inv h s.
  Proof. exact (run_inv h [] (empty_table node) s init_inv HP HR). Qed.
  Lemma the_links : linked (ft_dict _ s).
  Proof. refine (run_linked h [] (empty_table node) s init_inv _ HP HR). intros c f _ K. discriminate K. Qed.
  Lemma open_opened c : no_any c -> open c -> exists fl, opened h c fl.
  Proof. intros Hc Ho. destruct the_inv as (_ & _ & _ & H4 & _). destruct (dget (ft_dict _ s) c) as [f|] eqn:Ef; [|congruence]. destruct (H4 c f Hc Ef) as (_ & _ & K & _). eauto. Qed.
  Lemma opened_open c fl : opened h c fl -> no_any c /\ open c.
  Proof. intros Ho. destruct the_inv as (_ & _ & _ & _ & _ & H6). destruct (H6 c fl Ho) as (K & f & -> & _). split; [exact K|discriminate]. Qed.
  Lemma closed_up b l l' : no_any (b ++ [l; l']) -> open (b ++ [l; l']) -> open (b ++ [l]).
  Proof.
    intros Hn Ho. destruct the_inv as (_ & _ & _ & H4 & _). destruct (dget (ft_dict _ s) (b ++ [l; l'])) as [f|] eqn:Ef; [|congruence]. destruct (H4 _ f Hn Ef) as ((l0 & K) & K2 & _).
    change [l; l'] with ([l] ++ [l']) in K. rewrite app_assoc in K. apply app_inj_tail in K as [K _]. rewrite <- K in K2. destruct K2 as [K2|K2]; [destruct b; discriminate K2|exact K2].
  Qed.
  Lemma deep c : no_any c -> open c -> (length c <= deepest s)%nat.
  Proof.
    intros Hc Ho. unfold deepest. destruct (dget (ft_dict _ s) c) as [f|] eqn:Ef; [|congruence]. destruct the_inv as (_ & _ & H3 & _). clear - Hc Ef H3. induction H3 as [|[x u] d Hx _ IH]; cbn [dget] in Ef; [discriminate|]. cbn [map fst list_max fold_right]. cbn [fst] in Hx.
    destruct (chain_eq x c) eqn:Ex; [apply chain_eq_no_any in Ex; [|exact Hx|exact Hc]; subst x; apply Nat.le_max_l|]. etransitivity; [exact (IH Ef)|apply Nat.le_max_r].
  Qed.

  (** What the search for the scope says. *)
  Lemma search_scope b l : m = b ++ [l] -> exists x, matched (S (deepest s)) s m (l :: tgt q) = Ok x /\
    match x with
    | Some c => exists r' l', denotes h m q (m ++ r' ++ [l']) /\ c = l :: r' ++ [Label (sname l') STany None] /\ sloop l' = None
    | None => forall c, ~ denotes h m q c
    end.
  Proof.
    intros Em. destruct HO as (flm & Hom). destruct (opened_open m flm Hom) as [Nm Om].
    assert (stype l = STmodule) as Hl. { destruct HI as (b' & l' & r' & E1 & _ & E2 & _). rewrite E1 in Em. apply app_inj_tail in Em as [_ <-]. exact E2. }
    assert (q <> []) as Hq by (intros ->; inversion HQ; congruence).
    assert (label_eq l l = true) as Ll by (unfold label_eq; rewrite Hl; cbn [scopetype_eqb orb]; rewrite String.eqb_refl; destruct (sloop l); cbn; [apply Z.eqb_refl|reflexivity]).
    rewrite Em in Nm, Om. destruct (matched_total s the_links deep (S (deepest s)) b l (l :: tgt q) ltac:(lia) Nm Om ltac:(discriminate)) as (x & Ex). exists x. rewrite Em. split; [exact Ex|].
    pose proof (matched_ok s the_links closed_up (S (deepest s)) b l (l :: tgt q) x Nm ltac:(discriminate) Ex) as M. destruct x as [c|].
    - destruct M as (r & R1 & R2 & R3 & ->). assert (tm r (tgt q)) as T.
      { inversion R3 as [ l0 t X1 X2 X3 | l0 t r0 ts X1 X2 X3 X4 | l0 t X1 | l0 t r0 ts X1 | l0 t r0 ts X1 ]; subst; try (rewrite Hl in X1; discriminate X1); [|exact X4]. exfalso. apply (tgt_nonempty q Hq). congruence. }
      assert (Forall (fun x => stype x <> STany) r) as Nr by (apply Forall_app in R2 as [_ R2]; inversion R2; assumption).
      pose proof (tm_spells r q Nr T) as Sp. destruct (spells_last r q Sp) as (r' & l' & -> & E' & K). exists r', l'. destruct R1 as [R1|R1]; [destruct r'; discriminate R1|]. destruct (open_opened _ R2 R1) as (fl & Ho).
      split; [exists (r' ++ [l']), fl; split; [reflexivity|]; split; [rewrite <- app_assoc; exact Ho|exact Sp]|]. split; [|exact E'].
      unfold result. rewrite app_comm_cons, removelast_last. assert (last (l :: tgt q) (Label "" STany None) = last (tgt q) (Label "" STany None)) as -> by (pose proof (tgt_nonempty q Hq); destruct (tgt q); [congruence|reflexivity]). rewrite K. reflexivity.
    - intros c (r & fl & -> & Ho & Sp). rewrite <- app_assoc in Ho. cbn [app] in Ho. destruct (opened_open _ _ Ho) as [N O]. apply (M r N O). apply tm_name; [rewrite Hl; reflexivity|exact Ll|apply tgt_nonempty, Hq|].
      apply spells_tm; [|exact Sp]. apply Forall_app in N as [_ N]. inversion N; assumption.
  Qed.
  Lemma search_terminal :
    (exists c v, denotes h m q c /\ same_signal v c name /\ searchScopeTerminal value s terms p name cur = if dmem terms v then Ok v else Err DefinitionError) \/
    (searchScopeTerminal value s terms p name cur = Err NameError /\ forall c, ~ denotes h m q c).
  Proof.
    unfold searchScopeTerminal. rewrite (module_found cur m HI), (target_ok value p q HQ). cbn [bind]. assert (exists b l, m = b ++ [l]) as (b & l & Em) by (destruct HI as (b & l & r & K & _); eauto).
    destruct (search_scope b l Em) as (x & Ex & M). assert (rev m = l :: rev b) as -> by (rewrite Em, rev_app_distr; reflexivity). rewrite Ex. cbn [bind]. destruct x as [c|]; [left|right; auto].
    destruct M as (r' & l' & D & -> & E'). exists (m ++ r' ++ [l']), (m ++ r' ++ [Label (sname l') STany None; Label name STsignal None]). split; [exact D|]. split.
    - exists (m ++ r'), l', (Label (sname l') STany None). rewrite <- !app_assoc. cbn [sname sloop stype]. repeat split; auto.
    - rewrite rev_involutive, Em. rewrite <- !app_assoc. cbn [app]. rewrite <- app_assoc. reflexivity.
  Qed.
End Found.

Lemma same_signal_eq v c n : same_signal v c n -> no_any c -> chain_eq (c ++ [Label n STsignal None]) v = true.
Proof.
  intros (b & l & l' & -> & -> & E1 & E2 & E3) Hn. rewrite <- app_assoc. cbn [app]. unfold chain_eq. assert (forall x y z, list_eqb label_eq y z = true -> list_eqb label_eq (x ++ y) (x ++ z) = true) as A.
  { induction x as [|a x IH]; intros y z H; [exact H|]. cbn [app list_eqb]. rewrite (IH _ _ H), andb_true_r. unfold label_eq. rewrite String.eqb_refl. assert (loop_eqb (sloop a) (sloop a) = true) as -> by (destruct (sloop a); cbn; [apply Z.eqb_refl|reflexivity]). assert (scopetype_eqb (stype a) (stype a) = true) as -> by (destruct (stype a); reflexivity). destruct (_ || _); reflexivity. }
  apply A. cbn [list_eqb]. assert (label_eq l l' = true) as ->.
  { unfold label_eq. rewrite E1, E2, String.eqb_refl. assert (loop_eqb (sloop l) (sloop l) = true) as -> by (destruct (sloop l); cbn; [apply Z.eqb_refl|reflexivity]). destruct E3 as [-> | ->]; [|cbn [scopetype_eqb]; rewrite orb_true_r; reflexivity]. assert (scopetype_eqb (stype l) (stype l) = true) as -> by (destruct (stype l); reflexivity). destruct (_ || _); reflexivity. }
  unfold label_eq. cbn. rewrite String.eqb_refl. reflexivity.
Qed.

(** ** Theorems *)
(** The signal found is one of a scope the name denotes, as seen from the instance around. *)
Theorem C66_name_sound : forall node E V (value : E -> res df) (h : list (act node)) s (terms : ndict V) p q name cur m v,
  Forall plain_act h -> run _ h (empty_table node) = Ok s -> instance_of cur m -> (exists fl, opened h m fl) -> indices value p q -> p <> [] ->
  searchScopeTerminal value s terms p name cur = Ok v ->
  exists c, denotes h m q c /\ same_signal v c name /\ dmem terms v = true.
Proof.
  intros node E V value h s terms p q name cur m v HP HR HI HO HQ HN Ev. destruct (search_terminal value h s terms p q name cur m HP HR HI HO HQ HN) as [(c & v' & D & S & X)|[X _]]; [|congruence].
  rewrite X in Ev. destruct (dmem terms v') eqn:Em; [|discriminate]. injection Ev as <-. eauto.
Qed.
Print Assumptions C66_name_sound.

(** If the name denotes one scope and the signal is declared in it, it is found. *)
Theorem C66_name_found : forall node E V (value : E -> res df) (h : list (act node)) s (terms : ndict V) p q name cur m c,
  Forall plain_act h -> run _ h (empty_table node) = Ok s -> instance_of cur m -> (exists fl, opened h m fl) -> indices value p q -> p <> [] ->
  denotes h m q c -> (forall c', denotes h m q c' -> c' = c) -> In (c ++ [Label name STsignal None]) (map fst terms) ->
  exists v, searchScopeTerminal value s terms p name cur = Ok v /\ same_signal v c name.
Proof.
  intros node E V value h s terms p q name cur m c HP HR HI HO HQ HN D U Hin. destruct (search_terminal value h s terms p q name cur m HP HR HI HO HQ HN) as [(c' & v & D' & S & X)|[_ X]]; [|destruct (X c D)].
  rewrite (U c' D') in S. exists v. split; [|exact S]. rewrite X. assert (dmem terms v = true) as ->; [|reflexivity].
  assert (no_any c) as Nc by (destruct D as (r & fl & -> & Ho & _); exact (proj1 (opened_open h s HP HR _ _ Ho))).
  pose proof (same_signal_eq v c name S Nc) as Q. unfold dmem. clear - Hin Q. induction terms as [|[x u] t IH]; [destruct Hin|]. cbn [map fst In] in Hin. cbn [dget]. destruct (chain_eq x v) eqn:Ex; [reflexivity|]. destruct Hin as [-> |Hin]; [congruence|auto].
Qed.
Print Assumptions C66_name_found.

(** If it denotes none, an exception is raised, whatever is declared. *)
Theorem C66_no_such_scope : forall node E V (value : E -> res df) (h : list (act node)) s (terms : ndict V) p q name cur m,
  Forall plain_act h -> run _ h (empty_table node) = Ok s -> instance_of cur m -> (exists fl, opened h m fl) -> indices value p q -> p <> [] ->
  (forall c, ~ denotes h m q c) -> searchScopeTerminal value s terms p name cur = Err NameError.
Proof.
  intros node E V value h s terms p q name cur m HP HR HI HO HQ HN N. destruct (search_terminal value h s terms p q name cur m HP HR HI HO HQ HN) as [(c' & v & D' & _)|[X _]]; [destruct (N c' D')|exact X].
Qed.
Print Assumptions C66_no_such_scope.

(** ** Examples *)
Local Open Scope string_scope.
Local Open Scope list_scope.
Definition md : flags := Flags true false false false false false None (Some "m").
Definition gn : flags := Flags false false false true false false None None.
Definition ml (n : string) : label := Label n STmodule None.
Definition fl_ (n : string) (z : Z) : label := Label n STfor (Some z).
Definition bl (n : string) : label := Label n STblock None.
Definition sl (n : string) : label := Label n STsignal None.
Definition num66 (z : Z) : res df := Ok (DEval (PInt z) (Some 32%Z) false false).
(** module top: for (i = 0; i < 2; i = i + 1) begin: a  sub b(); end   and an array of instances  sub c [0:0] ();  sub has a signal x. *)
Definition story : list (act nat) :=
  [OpenScope _ (ml "top") md; AddSignal _ "t" 0%nat;
   OpenScope _ (Label "md_generate0" STgenerate None) gn;
   OpenScope _ (fl_ "md_gen_for0" 0%Z) gn; OpenScope _ (bl "a") gn; OpenScope _ (ml "b") md; AddSignal _ "x" 1%nat;
   MoveTo _ [ml "top"; Label "md_generate0" STgenerate None];
   OpenScope _ (fl_ "md_gen_for0" 1%Z) gn; OpenScope _ (bl "a") gn; OpenScope _ (ml "b") md; AddSignal _ "x" 2%nat;
   MoveTo _ [ml "top"]; OpenScope _ (ml "c_0") md; AddSignal _ "x" 3%nat; MoveTo _ [ml "top"]].
Definition gen66 : chain := [ml "top"; Label "md_generate0" STgenerate None].
Definition b1 : chain := gen66 ++ [fl_ "md_gen_for0" 1%Z; bl "a"; ml "b"].
Definition story_terms : ndict nat :=
  [([ml "top"; sl "t"], 0%nat); (gen66 ++ [fl_ "md_gen_for0" 0%Z; bl "a"; ml "b"; sl "x"], 1%nat); (b1 ++ [sl "x"], 2%nat); ([ml "top"; ml "c_0"; sl "x"], 3%nat)].
Definition a1b : list (string * option Z) := [("a", Some 1%Z); ("b", None)].

Fixpoint scopes_opened {node} (cur : chain) (h : list (act node)) : list (chain * flags) :=
  match h with [] => [] | a :: r => match a with OpenScope _ l f => [(cur ++ [l], f)] | _ => [] end ++ scopes_opened (after cur a) r end.
Lemma opened_list {node} (h : list (act node)) c fl : opened h c fl -> In (c, fl) (scopes_opened [] h).
Proof.
  intros (h1 & l & h2 & -> & ->). unfold current_after. assert (forall cur, In (fold_left after h1 cur ++ [l], fl) (scopes_opened cur (h1 ++ OpenScope node l fl :: h2))) as H; [|apply H].
  induction h1 as [|a h1 IH]; intros cur; cbn [app fold_left scopes_opened]; [left; reflexivity|]. apply in_or_app. right. apply IH.
Qed.
(** a[1].b denotes the second b, and only that. *)
Lemma story_denotes : denotes story [ml "top"] a1b b1 /\ forall c, denotes story [ml "top"] a1b c -> c = b1.
Proof.
  split.
  - exists [Label "md_generate0" STgenerate None; fl_ "md_gen_for0" 1%Z; bl "a"; ml "b"], md. split; [reflexivity|]. split; [exists (firstn 10 story), (ml "b"), (skipn 11 story); split; reflexivity|].
    apply sp_layer; [cbn; auto|discriminate|]. apply sp_index; [reflexivity|reflexivity|]. apply (sp_name (bl "a")); [right; left; reflexivity|reflexivity|]. apply (sp_last (ml "b")); [left; reflexivity|reflexivity].
  - intros c (r & fl & -> & Ho & Sp). apply opened_list in Ho. cbn in Ho.
    repeat (destruct Ho as [Ho|Ho]; [injection Ho as E _; subst; try (repeat match goal with K : spells _ _ |- _ => inversion K; clear K; subst end; try discriminate; cbn in *; intuition discriminate); try reflexivity|]); destruct Ho.
Qed.
Example C66_hypotheses_met : exists s,
  Forall plain_act story /\ run _ story (empty_table nat) = Ok s /\ instance_of gen66 [ml "top"] /\ (exists fl, opened story [ml "top"] fl) /\ indices num66 a1b a1b /\
  denotes story [ml "top"] a1b b1 /\ (forall c, denotes story [ml "top"] a1b c -> c = b1) /\ In (b1 ++ [Label "x" STsignal None]) (map fst story_terms) /\
  searchScopeTerminal num66 s story_terms a1b "x" gen66 = Ok (gen66 ++ [fl_ "md_gen_for0" 1%Z; bl "a"; Label "b" STany None; sl "x"]) /\
  searchScopeTerminal num66 s story_terms [("a", Some 2%Z); ("b", None)] "x" gen66 = Err NameError.
Proof.
  eexists. split; [repeat constructor; cbn; discriminate|]. split; [vm_compute; reflexivity|]. split; [exists [], (ml "top"), [Label "md_generate0" STgenerate None]; repeat split; repeat constructor; discriminate|].
  split; [exists md, [], (ml "top"), (skipn 1 story); split; reflexivity|]. split; [repeat constructor; eexists _, _, _; reflexivity|]. destruct story_denotes as [A B]. split; [exact A|]. split; [exact B|]. split; [cbn; tauto|]. split; [vm_compute; reflexivity|]. vm_compute. reflexivity.
Qed.

(** ** What is not found *)
(** Names of the language: searched from the scope around outwards, then from the top. *)
Definition from_outside : Prop := forall (h : list (act nat)) s (terms : ndict nat) p name cur around c,
  Forall plain_act h -> run _ h (empty_table nat) = Ok s -> (exists r, cur = around ++ r) -> (exists fl, opened h cur fl) ->
  denotes h around p c -> (forall c', denotes h around p c' -> c' = c) -> In (c ++ [Label name STsignal None]) (map fst terms) ->
  exists v, searchScopeTerminal num66 s terms p name cur = Ok v.
(** The scope an element of an instance array is visited in has another name than the element. *)
Definition array_element : Prop := forall (h : list (act nat)) s (terms : ndict nat) u i m name,
  Forall plain_act h -> run _ h (empty_table nat) = Ok s -> instance_of m m -> (exists fl, opened h (m ++ [ml (u ++ "_" ++ py_str i)%string]) fl) -> In (m ++ [ml (u ++ "_" ++ py_str i)%string; Label name STsignal None]) (map fst terms) ->
  exists v, searchScopeTerminal num66 s terms [(u, Some i)] name m = Ok v.
Theorem C66_names_refuted :
  ~ from_outside /\ ~ array_element /\
  (* the left side of an assignment is never a hierarchical name *)
  (forall (p : list (string * option Z)) name, hierarchical_destination p name = Err TypeError).
Proof.
  destruct C66_hypotheses_met as (s & A & B & _). split; [|split; [|reflexivity]].
  - intros H. assert (forall r, [ml "top"] ++ r = [ml "top"; ml "c_0"] -> r = [ml "c_0"]) as Hr by (intros r E; injection E as ->; reflexivity).
    destruct (H story s story_terms a1b "x" [ml "top"; ml "c_0"] [ml "top"] b1 A B) as (v & E).
    + exists [ml "c_0"]. reflexivity.
    + exists md, (firstn 13 story), (ml "c_0"), (skipn 14 story). split; reflexivity.
    + apply story_denotes.
    + apply story_denotes.
    + cbn; tauto.
    + assert (run _ story (empty_table nat) = Ok s) as B' by exact B. vm_compute in B'. injection B' as B'. rewrite <- B' in E. vm_compute in E. discriminate E.
  - intros H. destruct (H story s story_terms "c" 0%Z [ml "top"] "x" A B) as (v & E).
    + exists [], (ml "top"), []. repeat split; repeat constructor.
    + exists md, (firstn 13 story), (ml "c_0"), (skipn 14 story). split; reflexivity.
    + cbn; tauto.
    + assert (run _ story (empty_table nat) = Ok s) as B' by exact B. vm_compute in B'. injection B' as B'. rewrite <- B' in E. vm_compute in E. discriminate E.
Qed.
Print Assumptions C66_names_refuted.
