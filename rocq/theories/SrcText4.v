(** SrcText4.v - the tokens of the text of a source file: heads of modules, and the whole. *)
From Verif Require Import Base DfModel LexModel LexSpec LexProofs ExprModel ParseModel ExprSpec ExprLex ExprText ExprText2 ExprText3 ExprSound StmModel StmSpec StmText StmText2 StmText3 SrcModel SrcSpec SrcText SrcText2 SrcText3.
Require Import Coq.Strings.Ascii.
Local Open Scope string_scope.
Local Notation "a +++ b" := (@app _ a b) (at level 60, right associativity).

(** ** Texts without semicolons *)
Definition semi_tok (t : token) : Prop := match t with ID s => has_semi s = false | _ => plain_tok t end.
Ltac semi := repeat first [assumption | exact I | apply Forall_app; split | constructor ].
Lemma semi_join l : Forall (Forall semi_tok) l -> Forall semi_tok (tjoin l).
Proof. induction 1 as [|x l Hx H IH]; [constructor|]. cbn [tjoin]. destruct l; [exact Hx|]. apply Forall_app. split; [exact Hx|]. constructor; [exact I|exact IH]. Qed.
Lemma semi_wrap e l : Forall semi_tok l -> Forall semi_tok (twrap e l).
Proof. intros H. unfold twrap. destruct (wrapped e); [|exact H]. constructor; [exact I|]. apply Forall_app. split; [exact H|]. constructor; [exact I|constructor]. Qed.
Lemma semi_word s : simple_id s \/ escaped_id s -> has_semi s = false -> semi_tok (id_token s).
Proof. intros H HS. rewrite (id_token_ok _ H). exact HS. Qed.
Lemma semi_list (f : expr -> list token) l : Forall (fun e => semi_free e = true -> Forall semi_tok (f e)) l -> forallb semi_free l = true -> Forall semi_tok (tjoin (map f l)).
Proof. intros H HB. apply semi_join. induction H as [|x l Hx H IH]; constructor; cbn in HB; apply andb_true_iff in HB as [B1 B2]; auto. Qed.
Lemma semi_etoks e : good e -> semi_free e = true -> Forall semi_tok (etoks e).
Proof.
  intros H. apply (good_ind' (fun e => semi_free e = true -> Forall semi_tok (etoks e))); [..|exact H]; clear H e; cbn [etoks semi_free].
  - intros s H HB. apply negb_true_iff in HB. constructor; [now apply semi_word|constructor].
  - intros k s H _. rewrite (int_tok_ok _ _ H). constructor; [exact I|constructor].
  - intros o a H1 _ _ IH HB. constructor; [exact (plain_unary o H1)|]. apply semi_wrap. auto.
  - intros o a b _ _ _ IHa _ IHb HB. apply andb_true_iff in HB as [B1 B2]. specialize (IHa B1). specialize (IHb B2).
    apply Forall_app. split; [destruct (bare_left o a); [assumption|now apply semi_wrap]|]. constructor; [exact (plain_binary o)|]. destruct (bare_right o b); [assumption|now apply semi_wrap].
  - intros c t f _ IHc _ IHt _ IHf HB. apply andb_true_iff in HB as [HB B3]. apply andb_true_iff in HB as [B1 B2]. specialize (IHc B1). specialize (IHt B2). specialize (IHf B3). semi.
  - intros l _ _ IH HB. constructor; [exact I|]. apply Forall_app. split; [|semi]. now apply semi_list.
  - intros l n _ IHc _ _ IHn HB. apply andb_true_iff in HB as [B1 B2]. specialize (IHc B1). specialize (IHn B2). constructor; [exact I|]. apply Forall_app. split; [exact IHn|]. apply Forall_app. split; [exact IHc|]. semi.
  - intros v m l _ _ IHv _ IHm _ IHl _ _ HB. apply andb_true_iff in HB as [HB B3]. apply andb_true_iff in HB as [B1 B2]. specialize (IHv B1). specialize (IHm B2). specialize (IHl B3). semi.
  - intros v p _ _ IHv _ IHp HB. apply andb_true_iff in HB as [B1 B2]. specialize (IHv B1). specialize (IHp B2). semi.
  - intros f l Hf _ IH HB. apply andb_true_iff in HB as [B1 B2]. apply negb_true_iff in B1. constructor; [now apply semi_word|]. constructor; [exact I|]. apply Forall_app. split; [|semi]. apply semi_list; [|exact B2]. revert IH. apply Forall_impl. intros x Hx Bx. now apply semi_wrap, Hx.
  - intros f l Hf _ IH HB. apply andb_true_iff in HB as [B1 B2]. apply negb_true_iff in B1. constructor; [exact I|]. constructor; [destruct Hf as [Hf|[-> _]]; [now apply semi_word|reflexivity]|]. destruct l as [|x l]; [constructor|]. constructor; [exact I|]. apply Forall_app. split; [|semi].
    apply (semi_list (fun x => twrap x (etoks x)) (x :: l)); [|exact B2]. revert IH. apply Forall_impl. intros y Hy By. now apply semi_wrap, Hy.
Qed.
Lemma del_semi_none s : has_semi s = false -> del_semicolon s = s.
Proof. induction s as [|c s IH]; [reflexivity|]. cbn [has_semi del_semicolon]. intros H. apply orb_false_iff in H as [H1 H2]. unfold ceqb. rewrite H1, (IH H2). reflexivity. Qed.
Lemma del_semi_escape s : has_semi s = false -> del_semicolon (escape s) = escape s.
Proof.
  intros H. unfold escape. assert (del_semicolon (s ++ " ") = s ++ " ") as K by (rewrite del_semicolon_app, (del_semi_none s H); reflexivity). destruct s as [|c s]; [reflexivity|]. destruct c as [[] [] [] [] [] [] [] []]; first [exact K|exact (del_semi_none _ H)].
Qed.
Lemma semi_text t : valid t -> semi_tok t -> del_semicolon (text_of t) = text_of t.
Proof. intros HV HS. destruct t as [p|s|s|s|s|k s]; try (apply plain_text; assumption). cbn [text_of semi_tok] in *. first [now apply del_semi_none|now apply del_semi_escape]. Qed.
Lemma semi_render ps : Forall pvalid ps -> Forall semi_tok (toks ps) -> del_semicolon (render ps) = render ps.
Proof.
  induction ps as [|p ps IH]; intros HV HP; [reflexivity|]. inversion HV as [|x y Hp Hs]; subst. cbn [render]. rewrite del_semicolon_app.
  destruct p as [t| |]; cbn [ptext toks] in *; [inversion HP as [|x y Ht HP2]; subst; rewrite (semi_text t) by assumption|..]; rewrite IH by assumption; reflexivity.
Qed.
Lemma semi_inner e : good e -> semi_free e = true -> del_semicolon (gen_rvalue e) = gen_rvalue e.
Proof. intros H B. rewrite (gen_inner e H). apply semi_render; [apply lexable_valid; apply ok_inner; auto; discriminate|]. rewrite toks_inner by assumption. now apply semi_etoks. Qed.
Lemma semi_range r : range_good r -> del_semicolon (range_text r) = range_text r.
Proof. intros (G1 & B1 & G2 & B2). unfold range_text, gen_width. rewrite !del_semicolon_app. fold (gen_rvalue (fst r)) (gen_rvalue (snd r)). now rewrite (plain_tight (fst r) G1 B1), (plain_tight (snd r) G2 B2). Qed.
Lemma semi_attr sg w : opt range_good w -> del_semicolon (attr_text sg w) = attr_text sg w.
Proof. intros H. unfold attr_text. rewrite del_semicolon_app. f_equal; [now destruct sg|]. destruct w as [w|]; [|reflexivity]. now rewrite del_semicolon_app, semi_range. Qed.

(** ** Heads of modules *)
Definition param_decl_toks (l : list member) : list token := match l with [MParam _ n v w sg] => KW "parameter" :: param_toks n v w sg | _ => [] end.
Definition port_toks (p : port) : list token :=
  match p with
  | Port n => [ID n]
  | Ioport k1 k2 n w sg dims => KW (kind_text k1) :: match k2 with Some k => [KW (kind_text k)] | None => [] end +++ attr_toks sg w +++ ID n :: dims_toks dims
  | NoPort => []
  end.
Definition module_toks (m : vmodule) : list token :=
  KW "module" :: mod_tok (m_name m) :: match m_params m with [] => [] | l => P DELAY :: P LPAREN :: tjoin (map param_decl_toks l) +++ [P RPAREN] end +++
  P LPAREN :: tjoin (map port_toks (m_ports m)) +++ P RPAREN :: P SEMICOLON :: flat_map jtoks (m_items m) +++ [KW "endmodule"].
Definition def_toks (d : definition) : list token := match d with DModule m => module_toks m | DPragma n v => pragma_toks n v end.
Definition param_good (l : list member) : Prop :=
  match l with [MParam local n v w _] => local = false /\ ident n /\ good v /\ opt range_good w /\ has_semi n = false /\ semi_free v = true | _ => False end.
Lemma param_is_good l : param_written l -> param_printable l = true -> param_good l.
Proof.
  intros [_ W] HP. destruct l as [|m [|m2 l]]; try discriminate HP; [|destruct m; discriminate HP]. destruct m; try discriminate HP. inversion W as [|? ? [W1 W2] _]; subst. destruct local; [contradiction|]. cbn [param_printable member_written param_good] in *.
  destruct W1 as (V1 & V2 & V3). apply andb_true_iff in HP as [HP P4]. apply andb_true_iff in HP as [HP P3]. apply andb_true_iff in HP as [P1 P2]. apply negb_true_iff in P3. repeat split; auto. { now apply written_good. } now apply opt_range_good.
Qed.
Lemma spw_param_decl l : param_good l -> spw (del_semicolon (gen_decl l)) (param_decl_toks l).
Proof.
  destruct l as [|m [|m2 l]]; try contradiction; [|destruct m; contradiction]. destruct m as [| | | | |local n v w sg|]; try contradiction. intros (-> & H1 & H2 & H3 & H4 & H5). unfold gen_decl. cbn [map String.concat gen_member].
  rewrite !del_semicolon_app, (semi_attr sg w H3), (del_semi_escape n H4), (semi_inner v H2 H5). change (del_semicolon ";") with "". rewrite app_nil_s. change (del_semicolon "parameter ") with "parameter ". change (del_semicolon " = ") with " = ".
  apply (sp_appw _ _ [KW "parameter"]); [apply (sp_kw "parameter"); res|]. now apply sp_param.
Qed.
Lemma sep_rows_spw {A} (f : A -> string) (g : A -> list token) l : Forall (fun x => spw (f x) (g x)) l -> spw (sep_rows (map f l)) (tjoin (map g l)).
Proof.
  induction 1 as [|x l Hx H IH]; [exact (sp_spw _ _ sp_nil)|]. destruct l as [|y l]; cbn [map sep_rows tjoin] in *; [exact Hx|].
  intros r tr HR HS. rewrite !app_assoc_s, <- app_assoc. apply Hx; [|right; now apply sep_c]. apply (spells_punct COMMA); [reflexivity|]. apply spells_nl. now apply IH.
Qed.
Definition port_good (p : port) : Prop :=
  match p with Port n => ident n | Ioport _ _ n w _ dims => ident n /\ opt range_good w /\ Forall range_good dims | NoPort => False end.
Lemma spw_port p : port_good p -> spw (gen_port p) (port_toks p).
Proof.
  destruct p as [n|k1 k2 n w sg dims|]; cbn [port_good gen_port port_toks]; [apply spw_ident| |contradiction]. intros (H1 & H2 & H3). rewrite <- app_assoc_s. apply (sp_appw _ _ [KW (kind_text k1)]); [apply sp_kw, kind_reserved|].
  apply sp_appw; [destruct k2; [apply sp_kw, kind_reserved|exact sp_nil]|]. apply sp_appw; [now apply sp_attr|now apply spw_name].
Qed.
Lemma ports_good l : ports_written l -> forallb port_printable l = true -> Forall port_good l.
Proof.
  intros [H|H] HP; induction H as [|p l Hp H IH]; constructor; cbn [forallb] in HP; apply andb_true_iff in HP as [P1 P2]; auto; destruct p as [n|k1 k2 n w sg dims|]; try contradiction; try discriminate; [exact Hp|].
  destruct Hp as (_ & W1 & W2 & W3 & _). cbn [port_printable] in P1. apply andb_true_iff in P1 as [Q1 Q2]. split; [exact W1|]. split; [now apply opt_range_good|now apply ranges_good].
Qed.
Lemma params_good l : Forall param_written l -> forallb param_printable l = true -> Forall param_good l.
Proof. intros H. induction H as [|p l Hp H IH]; intros HP; constructor; cbn [forallb] in HP; apply andb_true_iff in HP as [P1 P2]; auto. now apply param_is_good. Qed.
Lemma module_text m : module_written m -> module_printable m = true -> sp (gen_module m) (module_toks m).
Proof.
  intros (W1 & W2 & W3 & W4) HP. apply andb_true_iff in HP as [HP P3]. apply andb_true_iff in HP as [P1 P2]. pose proof (params_good _ W2 P1) as G1. pose proof (ports_good _ W3 P2) as G2. unfold gen_module, module_toks.
  set (params := indent "  " (sep_rows (map (fun d => del_semicolon (gen_decl d)) (m_params m)))). set (ports := indent "  " (sep_rows (map gen_port (m_ports m)))).
  assert (spw params (tjoin (map param_decl_toks (m_params m)))) as KP. { apply sp_indent, spw_spells. apply (sep_rows_spw (fun d => del_semicolon (gen_decl d))). revert G1. apply Forall_impl. exact spw_param_decl. }
  assert (spw ports (tjoin (map port_toks (m_ports m)))) as KQ. { apply sp_indent, spw_spells. apply (sep_rows_spw gen_port). revert G2. apply Forall_impl. exact spw_port. }
  assert (sp (String.concat "" (map (fun x => indent "  " (gen_sitem x) ++ String NL "") (m_items m))) (flat_map jtoks (m_items m))) as KI.
  { apply (sp_concat (fun x => indent "  " (gen_sitem x) ++ String NL "")). clear - W4 P3. induction W4 as [|x l Hx W4 IH]; constructor; cbn [forallb] in P3; apply andb_true_iff in P3 as [P1 P2]; auto. destruct (sitem_ok x InModule Hx P1) as (K & _).
    rewrite <- (app_nil_r (jtoks x)). apply spw_app; [apply sp_indent; exact (spw_spells _ _ (ends_spw _ _ _ K))|apply sep_newline|exact sp_nl]. }
  apply sp_nl_cons. apply (sp_app "module " _ [KW "module"]); [apply (sp_kw "module"); res|].
  assert (sp (String NL ("(" ++ String NL (ports ++ String NL (");" ++ String NL (String NL (String.concat "" (map (fun x => indent "  " (gen_sitem x) ++ String NL "") (m_items m)) ++ String NL ("endmodule" ++ String NL ""))))))) (P LPAREN :: tjoin (map port_toks (m_ports m)) +++ P RPAREN :: P SEMICOLON :: flat_map jtoks (m_items m) +++ [KW "endmodule"])) as K.
  { apply sp_nl_cons. cbn [append]. apply sp_cons; [exact (sp_punct LPAREN eq_refl)|]. apply sp_nl_cons. apply spw_app; [exact KQ|apply sep_newline|]. apply sp_nl_cons. apply sp_cons; [exact (sp_punct RPAREN eq_refl)|]. apply sp_cons; [exact sp_semi|]. do 2 apply sp_nl_cons. apply sp_app; [exact KI|]. apply sp_nl_cons.
    apply (spw_app "endmodule" _ [KW "endmodule"] []); [apply spw_kw; res|apply sep_newline|exact sp_nl]. }
  apply (spw_app _ _ [mod_tok (m_name m)]); [now apply spw_mod|destruct (String.eqb params ""); [apply sep_newline|apply sep_blank]|]. apply sp_app; [|exact K].
  destruct (m_params m) as [|d l] eqn:E; [exact sp_nil|]. assert (params <> "") as N.
  { apply (spw_nonempty _ _ KP). inversion G1 as [|? ? Hd _]; subst. destruct d as [|x [|y d]]; try contradiction; [|destruct x; contradiction]. destruct x; try contradiction. destruct l; discriminate. }
  destruct (String.eqb_spec params ""); [congruence|]. cbn [append]. apply sp_blank_cons. apply sp_cons; [exact (sp_punct DELAY eq_refl)|]. apply sp_nl_cons. apply sp_cons; [exact (sp_punct LPAREN eq_refl)|]. apply sp_nl_cons. apply spw_app; [exact KP|apply sep_newline|]. apply sp_nl_cons. exact (sp_punct RPAREN eq_refl).
Qed.
Lemma source_text l : Forall definition_written l -> source_printable l = true -> sp (gen_source l) (flat_map def_toks l).
Proof.
  intros H HP. apply (sp_concat (fun d => String NL (gen_definition d ++ String NL ""))). induction H as [|d l Hd H IH]; constructor; cbn [source_printable forallb] in HP; apply andb_true_iff in HP as [P1 P2]; auto.
  apply sp_nl_cons. rewrite <- (app_nil_r (def_toks d)). apply sp_app; [|exact sp_nl]. destruct d as [m|n v]; cbn [gen_definition def_toks]; [now apply module_text|]. destruct Hd as [W1 W2]. apply sp_pragma; [exact W1| |exact P1]. destruct v as [v|]; [|exact I]. apply written_good; [exact W2|]. cbn [optb] in P1. cbn [definition_printable optb] in P1. now destruct v.
Qed.
