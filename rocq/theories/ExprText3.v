(** ExprText3.v - the pieces of an expression are lexed back. *)
From Verif Require Import Base DfModel LexModel LexSpec LexProofs ExprModel ExprSpec ExprLex ExprText ExprText2.
From Verif Require LitProofs.
Require Import Coq.Strings.Ascii.
Local Open Scope string_scope.
Local Notation "a +++ b" := (@app _ a b) (at level 60, right associativity).

Definition ends (ps : list piece) : Prop := forall c s, ends_number c = true -> joins ps (String c s).
Definition ok (ps : list piece) : Prop := lexable ps /\ ends ps.
(** The text starts with a character that cannot be part of a word. *)
Definition sep (ps : list piece) : Prop := exists c r, render ps = String c r /\ ends_number c = true.

Lemma ok_app a b : ok a -> sep b -> ok b -> ok (a +++ b).
Proof.
  intros [H1 H2] (c & r & E & K) [H3 H4]. split; [apply lexable_app; auto; rewrite E; apply H2; auto|]. intros d s Hd. rewrite joins_app; [now apply H4|]. intros ->. discriminate.
Qed.
(** The lookahead of a punctuation mark. *)
Definition free (p : punct) : bool := match p with LPAREN | RPAREN | LBRACE | RBRACE | LBRACKET | RBRACKET | COMMA | COLON | COND | DOLLER => true | _ => false end.
Lemma free_follows p s : free p = true -> follows (P p) s.
Proof. intros H. destruct s as [|c s]; cbn; auto. destruct p; discriminate || reflexivity. Qed.
Lemma ok_free p l : free p = true -> lexable l -> (l <> [] -> ends l) -> ok (PT (P p) :: l).
Proof.
  intros H H1 H2. split; [cbn [lexable pvalid pok valid]; auto using free_follows|]. intros c s Hc. destruct l as [|q l]; [apply (free_follows p _ H)|]. cbn [joins]. apply H2; [discriminate|auto].
Qed.
Lemma ok_end p : free p = true -> ok [PT (P p)].
Proof. intros H. apply ok_free; auto. exact I. congruence. Qed.
Lemma ok_cons p l : free p = true -> ok l -> ok (PT (P p) :: l).
Proof. intros H [H1 H2]. now apply ok_free. Qed.
Lemma ok_sp nb l : ok l -> ok (sp nb +++ l).
Proof. intros [H1 H2]. destruct nb; [split; auto|]. cbn [sp app]. split; [cbn; auto|]. intros c s Hc. destruct l as [|q l]; [cbn; auto|]. cbn [joins]. now apply H2. Qed.
Lemma sep_free p l : ends_number (match punct_text p with String c _ => c | "" => "a"%char end) = true -> sep (PT (P p) :: l).
Proof. intros H. unfold sep. cbn [render ptext text_of]. destruct (punct_text p) as [|c r] eqn:E; [destruct p; discriminate|]. eexists c, _. split; [reflexivity|]. exact H. Qed.
Lemma sep_sp nb l : sep l -> sep (sp nb +++ l).
Proof. destruct nb; auto. intros _. eexists _, _. split; reflexivity. Qed.
Lemma ok_wrap e l : ok l -> ok (wrap e l).
Proof. intros H. unfold wrap. destruct (wrapped e); auto. apply ok_cons; auto. apply ok_app; auto. - now apply sep_free. - now apply ok_end. Qed.
Lemma ok_join nb l : l <> [] -> Forall ok l -> ok (pjoin nb l).
Proof.
  induction l as [|x [|y l] IH]; intros HN H; [congruence|inversion H; auto|]. change (pjoin nb (x :: y :: l)) with (x +++ PT (P COMMA) :: sp nb +++ pjoin nb (y :: l)).
  inversion H; subst. apply ok_app; auto; [now apply sep_free|]. apply ok_cons; auto. apply ok_sp. apply IH; auto. discriminate.
Qed.
Lemma escaped_simple s : simple_id s -> escaped s = false.
Proof. intros (c & r & -> & H & _). destruct c as [[] [] [] [] [] [] [] []]; reflexivity || discriminate H. Qed.
Lemma ok_word nb s : simple_id s \/ escaped_id s -> (nb = true -> escaped s = false) -> ok (word nb s).
Proof.
  intros H HB. unfold word. rewrite (id_token_ok _ H). destruct (escaped s) eqn:E.
  - destruct nb; [specialize (HB eq_refl); discriminate|]. split; [cbn [sp lexable pvalid pok valid render ptext append follows ok_after]; rewrite E; auto|]. intros c r Hc. exact I.
  - split; [cbn; auto|]. intros c r Hc. cbn [joins pok follows ok_after]. rewrite E. unfold ends_number in Hc. apply andb_true_iff in Hc. tauto.
Qed.
Lemma op_space o s : follows (P (binary_punct o)) (String " " s).
Proof. destruct o; reflexivity. Qed.
Lemma op_atom o c s : atom_start c = true -> follows (P (binary_punct o)) (String c s).
Proof. cbn [follows]. revert c. apply LitProofs.char_imp. destruct o; vm_compute; reflexivity. Qed.
Lemma un_atom o c s : atom_start c = true -> follows (P (unary_punct o)) (String c s).
Proof. cbn [follows]. revert c. apply LitProofs.char_imp. destruct o; vm_compute; reflexivity. Qed.
Lemma op_unary o o' c r s : is_unary o' = true -> o' <> Uplus -> punct_text (unary_punct o') = String c r ->
  match o, o' with And, Uand | Or, Uor => False | _, _ => True end -> follows (P (binary_punct o)) (String c s).
Proof. intros H1 H2 E H. destruct o'; try discriminate H1; try congruence; injection E as <- <-; destruct o; first [reflexivity|contradiction]. Qed.
Lemma ok_bin_right nb o e : is_unary o = false -> ok (if bare_right o e then inner nb e else wrap e (inner nb e)) -> good e -> (nb = true -> glues o e = false) ->
  ok (PT (P (binary_punct o)) :: sp nb +++ (if bare_right o e then inner nb e else wrap e (inner nb e))).
Proof.
  intros HU H HG HB. set (r := if bare_right o e then inner nb e else wrap e (inner nb e)) in *.
  assert (follows (P (binary_punct o)) (render (sp nb +++ r))) as HF.
  { destruct nb; [|apply op_space]. cbn [sp app]. specialize (HB eq_refl). unfold glues in HB. subst r. destruct (bare_right o e).
    - destruct (starts_inner e HG true) as (c & s & -> & [K|(o' & s' & K1 & K2 & K3 & K4)]); [now apply op_atom|]. apply (op_unary o o' c s'); auto. rewrite K1 in HB. destruct o, o'; cbn in HB; auto; discriminate.
    - destruct (starts_full e HG true) as (c & s & E & K). unfold full in E. rewrite E. now apply op_atom. }
  apply (ok_sp nb) in H. destruct H as [H1 H2]. split; [cbn [lexable pvalid valid]; auto|].
  assert (sp nb +++ r <> []) as HN.
  { intros N. destruct nb; [|discriminate]. cbn in N. assert (render r <> "") as K; [|rewrite N in K; now apply K]. subst r. destruct (bare_right o e); [destruct (starts_inner e HG true) as (c & s & E & _)|destruct (starts_full e HG true) as (c & s & E & _); unfold full in E]; rewrite E; discriminate. }
  intros c s Hc. destruct (sp nb +++ r) as [|q l] eqn:E; [congruence|]. cbn [joins]. now apply H2.
Qed.
Lemma forall_ok (f : bool -> expr -> list piece) nb l : Forall (fun e => forall nb, (nb = true -> blank_free e = true) -> ok (f nb e)) l -> (nb = true -> forallb blank_free l = true) -> Forall ok (map (f nb) l).
Proof.
  intros H HB. induction H as [|x l H HF IH]; cbn [map]; constructor; [apply H; intros E; specialize (HB E); apply andb_true_iff in HB; tauto|]. apply IH. intros E. specialize (HB E). apply andb_true_iff in HB. tauto.
Qed.
Lemma map_nil {A B} (f : A -> B) l : l <> [] -> map f l <> [].
Proof. destruct l; [congruence|discriminate]. Qed.
Lemma ok_inner e : good e -> forall nb, (nb = true -> blank_free e = true) -> ok (inner nb e).
Proof.
  intros H. apply (good_ind' (fun e => forall nb, (nb = true -> blank_free e = true) -> ok (inner nb e))); auto; clear.
  - intros s H nb HB. apply ok_word; auto. intros E. specialize (HB E). now apply negb_true_iff.
  - intros k s H nb _. cbn [inner]. rewrite (int_tok_ok _ _ H). split; [cbn; auto|]. intros c r Hc. exact Hc.
  - intros o a H1 H2 HG IH nb HB. cbn [inner]. pose proof (ok_wrap a _ (IH nb HB)) as [K1 K2]. destruct (starts_full a HG nb) as (c & r & E & Hc). unfold full in E.
    split; [cbn [lexable pvalid valid pok]; split; auto; split; auto; rewrite E; now apply un_atom|]. intros d s Hd. destruct (wrap a (inner nb a)) as [|q l]; [discriminate|]. cbn [joins]. now apply K2.
  - intros o a b H1 H2 Ha IHa Hb IHb nb HB. cbn [inner]. assert (nb = true -> blank_free a = true /\ blank_free b = true /\ glues o b = false) as HB' by (intros E; specialize (HB E); cbn [blank_free] in HB; apply andb_true_iff in HB as [HB HB3]; apply andb_true_iff in HB; rewrite negb_true_iff in HB3; tauto).
    apply ok_app.
    + destruct (bare_left o a); [|apply ok_wrap]; apply IHa; intros E; apply HB', E.
    + apply sep_sp, sep_free. destruct o; reflexivity || discriminate H1.
    + apply ok_sp. apply ok_bin_right; auto; [|intros E; apply HB', E]. destruct (bare_right o b); [|apply ok_wrap]; apply IHb; intros E; apply HB', E.
  - intros c t f Hc IHc Ht IHt Hf IHf nb HB. cbn [inner]. assert (nb = true -> blank_free c = true /\ blank_free t = true /\ blank_free f = true) as HB' by (intros E; specialize (HB E); cbn [blank_free] in HB; apply andb_true_iff in HB as [HB HB3]; apply andb_true_iff in HB; tauto).
    apply ok_cons; auto. apply ok_app; [apply IHc; intros E; apply HB', E|now apply sep_free|]. apply ok_cons; auto. apply ok_cons; auto. apply ok_sp. apply ok_app; [apply IHt; intros E; apply HB', E|apply sep_sp; now apply sep_free|]. apply ok_sp. apply ok_cons; auto. apply ok_sp.
    assert (ok (inner nb f)) as [K1 K2] by (apply IHf; intros E; apply HB', E). destruct (is_cond f) eqn:EC; [|split; auto]. destruct f; try discriminate EC. split; [cbn [app lexable pvalid pok]; split; auto; split; auto; reflexivity|]. exact K2.
  - intros l Hl HG IH nb HB. cbn [inner]. apply ok_cons; auto. apply ok_sp. apply ok_app; [apply ok_join; [now apply map_nil|now apply forall_ok]|apply sep_sp; now apply sep_free|]. apply ok_sp. now apply ok_end.
  - intros l n Hc IHc _ Hn IHn nb HB. rewrite inner_repeat. assert (nb = true -> blank_free (XConcat l) = true /\ blank_free n = true) as HB' by (intros E; specialize (HB E); apply andb_true_iff in HB; exact HB).
    apply ok_cons; auto. apply ok_sp. apply ok_app; [apply IHn; intros E; apply HB', E|cbn [inner app]; now apply sep_free|]. apply ok_app; [apply IHc; intros E; apply HB', E|apply sep_sp; now apply sep_free|]. apply ok_sp. now apply ok_end.
  - intros v m l Hi Hv IHv Hm IHm Hl IHl B1 B2 nb HB. cbn [inner]. apply ok_app; [apply IHv; intros E; specialize (HB E); cbn [blank_free] in HB; apply andb_true_iff in HB as [HB _]; apply andb_true_iff in HB; tauto|now apply sep_free|].
    apply ok_cons; auto. apply ok_app; [now apply IHm|now apply sep_free|]. apply ok_cons; auto. apply ok_app; [now apply IHl|now apply sep_free|]. now apply ok_end.
  - intros v p Hi Hv IHv Hp IHp nb HB. assert (nb = true -> blank_free v = true /\ blank_free p = true) as HB' by (intros E; specialize (HB E); apply andb_true_iff in HB; exact HB).
    cbn [inner]. apply ok_app; [apply IHv; intros E; apply HB', E|now apply sep_free|]. apply ok_cons; auto. apply ok_app; [apply IHp; intros E; apply HB', E|now apply sep_free|]. now apply ok_end.
  - intros f l Hf HG IH nb HB. assert (nb = true -> escaped f = false /\ forallb blank_free l = true) as HB' by (intros E; specialize (HB E); cbn [blank_free] in HB; apply andb_true_iff in HB as [HB1 HB2]; rewrite negb_true_iff in HB1; auto).
    cbn [inner]. apply ok_app; [apply ok_word; auto; intros E; apply HB', E|now apply sep_free|]. apply ok_cons; auto. destruct l as [|x l]; [now apply ok_end|].
    apply ok_app; [apply ok_join; [discriminate|]; apply (forall_ok (fun nb x => wrap x (inner nb x))); [revert IH; apply Forall_impl; intros y Hy n Hn; apply ok_wrap; auto|intros E; apply HB', E]|now apply sep_free|now apply ok_end].
  - intros f l Hf HG IH nb HB. assert (nb = true -> escaped f = false /\ forallb blank_free l = true) as HB' by (intros E; specialize (HB E); cbn [blank_free] in HB; apply andb_true_iff in HB as [HB1 HB2]; rewrite negb_true_iff in HB1; auto).
    cbn [inner]. apply ok_cons; auto. assert (ok (word nb f)) as HW.
    { destruct Hf as [Hf|[-> _]]; [apply ok_word; auto; intros E; apply HB', E|]. split; [|intros c s Hc; cbn [joins word escaped]; unfold ends_number in Hc; apply andb_true_iff in Hc; exact (proj1 Hc)]. split; [|split; exact I]. apply in_reserved. reflexivity. }
    destruct l as [|x l]; [now rewrite app_nil_r|]. apply ok_app; auto; [now apply sep_free|]. apply ok_cons; auto.
    apply ok_app; [apply ok_join; [discriminate|]; apply (forall_ok (fun nb x => wrap x (inner nb x))); [revert IH; apply Forall_impl; intros y Hy n Hn; apply ok_wrap; auto|intros E; apply HB', E]|now apply sep_free|now apply ok_end].
Qed.

(** ** The tokens of the generated text *)
Definition ftoks (e : expr) : list token := twrap e (etoks e).
Theorem lex_gen e : good e -> exists l, lex 1 (gen e) = Ok l /\ map lt_tok (l_tokens l) = ftoks e.
Proof.
  intros H. rewrite (gen_full e H). destruct (lex_render (full false e)) as (l & E1 & E2); [apply ok_wrap, ok_inner; auto; discriminate|]. exists l. split; auto. rewrite E2. unfold full. rewrite toks_wrap, toks_inner by auto. reflexivity.
Qed.
Theorem lex_gen_rvalue e : good e -> exists l, lex 1 (gen_rvalue e) = Ok l /\ map lt_tok (l_tokens l) = etoks e.
Proof.
  intros H. rewrite (gen_inner e H). destruct (lex_render (inner false e)) as (l & E1 & E2); [apply ok_inner; auto; discriminate|]. exists l. split; auto. rewrite E2. now apply toks_inner.
Qed.
Theorem lex_no_blanks e : good e -> blank_free e = true -> exists l, lex 1 (del_space (gen_rvalue e)) = Ok l /\ map lt_tok (l_tokens l) = etoks e.
Proof.
  intros H HB. rewrite (gen_inner e H), (ds_inner e H). destruct (lex_render (inner true e)) as (l & E1 & E2); [apply ok_inner; auto|]. exists l. split; auto. rewrite E2. now apply toks_inner.
Qed.
