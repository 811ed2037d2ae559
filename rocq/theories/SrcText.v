(** SrcText.v - the tokens of the text of a source file. *)
From Verif Require Import Base DfModel LexModel LexSpec LexProofs ExprModel ParseModel ExprSpec ExprLex ExprText ExprText2 ExprText3 ExprSound StmModel StmSpec StmText StmText2 StmText3 SrcModel SrcSpec.
Require Import Coq.Strings.Ascii.
Local Open Scope string_scope.
Local Notation "a +++ b" := (@app _ a b) (at level 60, right associativity).

(** ** Texts after which anything may follow, and texts that end with a word. *)
Definition sp (a : string) (ta : list token) : Prop := forall r tr, spells r tr -> spells (a ++ r) (ta +++ tr).
Definition spw (a : string) (ta : list token) : Prop := forall r tr, spells r tr -> r = "" \/ starts_sep r -> spells (a ++ r) (ta +++ tr).
Lemma sp_spells a ta : sp a ta -> spells a ta.
Proof. intros H. specialize (H "" [] spells_nil). now rewrite app_nil_s, app_nil_r in H. Qed.
Lemma spells_none ts : spells "" ts -> ts = [].
Proof. intros (p & E1 & E2 & H & _). destruct p as [|q p]; [now subst ts|]. exfalso. exact (render_nonempty _ _ H E1). Qed.
Lemma spells_spw a ta : spells a ta -> spw a ta.
Proof. intros H r tr HR [->|HS]; [|now apply spells_app]. rewrite (spells_none _ HR), app_nil_s, app_nil_r. exact H. Qed.
Lemma sp_spw a ta : sp a ta -> spw a ta.
Proof. intros H r tr HR _. now apply H. Qed.
Lemma spw_spells a ta : spw a ta -> spells a ta.
Proof. intros H. specialize (H "" [] spells_nil (or_introl eq_refl)). now rewrite app_nil_s, app_nil_r in H. Qed.
Lemma sp_app a b ta tb : sp a ta -> sp b tb -> sp (a ++ b) (ta +++ tb).
Proof. intros H1 H2 r tr HR. rewrite app_assoc_s, <- app_assoc. apply H1. now apply H2. Qed.
Lemma spw_app a b ta tb : spw a ta -> starts_sep b -> sp b tb -> sp (a ++ b) (ta +++ tb).
Proof. intros H1 HS H2 r tr HR. rewrite app_assoc_s, <- app_assoc. apply H1; [now apply H2|]. right. now apply sep_app. Qed.
Lemma sp_appw a b ta tb : sp a ta -> spw b tb -> spw (a ++ b) (ta +++ tb).
Proof. intros H1 H2 r tr HR HS. rewrite app_assoc_s, <- app_assoc. apply H1. now apply H2. Qed.
Lemma sp_nil : sp "" [].
Proof. intros r tr H. exact H. Qed.
Lemma sp_punct p : loose p = true -> sp (punct_text p) [P p].
Proof. intros H r tr HR. cbn [app]. now apply spells_punct. Qed.
Lemma sp_blank : sp " " [].
Proof. intros r tr H. now apply spells_blank. Qed.
Lemma sp_nl : sp (String NL "") [].
Proof. intros r tr H. now apply spells_nl. Qed.
Lemma sp_kw w : In w reserved -> sp (w ++ " ") [KW w].
Proof. intros H r tr HR. rewrite app_assoc_s. now apply spells_kw_blank. Qed.
Lemma spw_kw w : In w reserved -> spw w [KW w].
Proof. intros H r tr HR HS. cbn [app]. now apply spells_kw. Qed.
Lemma spw_ident n : ident n -> spw (escape n) [ID n].
Proof. intros H. now apply spells_spw, spells_ident. Qed.
Lemma spw_inner e : good e -> spw (gen_rvalue e) (etoks e).
Proof. intros H. now apply spells_spw, spells_inner. Qed.
(** Parts: prove the text piece by piece. *)
Lemma sp_char p c : loose p = true -> punct_text p = String c "" -> sp (String c "") [P p].
Proof. intros H E. rewrite <- E. now apply sp_punct. Qed.
Lemma sp_cons c a t ta : sp (String c "") [t] -> sp a ta -> sp (String c a) (t :: ta).
Proof. intros H1 H2. exact (sp_app (String c "") a [t] ta H1 H2). Qed.
Lemma sp_cons_nil c a ta : sp (String c "") [] -> sp a ta -> sp (String c a) ta.
Proof. intros H1 H2. exact (sp_app (String c "") a [] ta H1 H2). Qed.
Lemma spw_cons c a t ta : sp (String c "") [t] -> spw a ta -> spw (String c a) (t :: ta).
Proof. intros H1 H2. exact (sp_appw (String c "") a [t] ta H1 H2). Qed.
Lemma spw_cons_nil c a ta : sp (String c "") [] -> spw a ta -> spw (String c a) ta.
Proof. intros H1 H2. exact (sp_appw (String c "") a [] ta H1 H2). Qed.
Lemma sp_semi : sp ";" [P SEMICOLON].
Proof. exact (sp_punct SEMICOLON eq_refl). Qed.
Lemma sp_nl_cons a ta : sp a ta -> sp (String NL a) ta.
Proof. apply sp_cons_nil. exact sp_nl. Qed.
Lemma sp_blank_cons a ta : sp a ta -> sp (String " " a) ta.
Proof. apply sp_cons_nil. exact sp_blank. Qed.
Lemma sp_indent a ta : spells a ta -> spw (indent "  " a) ta.
Proof. intros H. apply spells_spw. exact (spells_indent 2 a ta H). Qed.
Lemma sep_c c s : ends_number c = true -> starts_sep (String c s).
Proof. apply sep_char. Qed.

(** ** Tokens *)
Definition range_toks (r : range) : list token := P LBRACKET :: etoks (fst r) +++ P COLON :: etoks (snd r) +++ [P RBRACKET].
Definition dims_toks (l : list range) : list token := flat_map range_toks l.
Definition attr_toks (sg : bool) (w : option range) : list token := (if sg then [KW "signed"] else []) +++ match w with Some w => range_toks w | None => [] end.
Definition assign_toks (a : asg) : list token := KW "assign" :: etoks (a_left a) +++ P EQUALS :: etoks (a_right a) +++ [P SEMICOLON].
Definition param_toks (n : string) (v : expr) (w : option range) (sg : bool) : list token := attr_toks sg w +++ ID n :: P EQUALS :: etoks v.
Definition member_toks (m : member) : list token :=
  match m with
  | MVar k n w sg dims => KW (kind_text k) :: attr_toks sg w +++ ID n :: dims_toks dims +++ [P SEMICOLON]
  | MSupply _ _ _ _ | MReal _ => []
  | MInteger n _ => [KW "integer"; ID n; P SEMICOLON]
  | MGenvar n => [KW "genvar"; ID n; P SEMICOLON]
  | MParam local n v w sg => KW (if local then "localparam" else "parameter") :: param_toks n v w sg +++ [P SEMICOLON]
  | MAssign a => assign_toks a
  end.
Definition named_toks (f : expr -> list token) (n : option string) (e : option expr) : list token :=
  match n with
  | Some n => P DOT :: ID n :: P LPAREN :: match e with Some e => f e | None => [] end +++ [P RPAREN]
  | None => match e with Some e => f e | None => [] end
  end.
Definition arg_toks (x : option string * option expr) : list token := named_toks etoks (fst x) (snd x).
Definition args_toks (l : list (option string * option expr)) : list token := tjoin (map arg_toks l).
Definition inst_toks (i : inst) : list token :=
  (if String.eqb (i_name i) "" then [] else [ID (i_name i)]) +++ match i_array i with Some w => range_toks w | None => [] end +++ P LPAREN :: args_toks (i_ports i) +++ [P RPAREN].
Definition mod_tok (m : string) : token := if String.eqb m "or" then KW "or" else ID m.
Definition params_toks (l : list (option string * expr)) : list token :=
  match l with [] => [] | _ => P DELAY :: P LPAREN :: args_toks (map (fun x => (fst x, Some (snd x))) l) +++ [P RPAREN] end.
Definition pragma_toks (n : string) (v : option expr) : list token :=
  P LPAREN :: P TIMES :: ID n :: match v with Some v => P EQUALS :: etoks v | None => [] end +++ [P TIMES; P RPAREN].
Fixpoint jtoks (x : sitem) : list token :=
  match x with
  | JDecl l => flat_map member_toks l
  | JAssign a => assign_toks a
  | JItem i => itoks i
  | JInst m params l => mod_tok m :: params_toks params +++ tjoin (map inst_toks l) +++ [P SEMICOLON]
  | JFunc n w decls s => KW "function" :: range_toks w +++ ID n :: P SEMICOLON :: flat_map (flat_map member_toks) decls +++ stoks s +++ [KW "endfunction"]
  | JTask n decls s => KW "task" :: ID n :: P SEMICOLON :: flat_map (flat_map member_toks) decls +++ stoks s +++ [KW "endtask"]
  | JPragma n v => pragma_toks n v
  | JGen l => KW "generate" :: flat_map jtoks l +++ [KW "endgenerate"]
  | JIf c t e => KW "if" :: P LPAREN :: etoks c +++ P RPAREN :: jtoks t +++ match e with None => [] | Some e => KW "else" :: jtoks e end
  | JFor pre c post b =>
      KW "for" :: P LPAREN :: match pre with None => [] | Some a => atoks false a +++ [P SEMICOLON] end +++ match c with None => [] | Some c => etoks c end +++
      P SEMICOLON :: match post with None => [] | Some a => atoks false a end +++ P RPAREN :: jtoks b
  | JBlock sc l => KW "begin" :: scope_toks sc +++ flat_map jtoks l +++ [KW "end"]
  end.

(** ** Ranges and declarations *)
Definition range_good (r : range) : Prop := good (fst r) /\ blank_free (fst r) = true /\ good (snd r) /\ blank_free (snd r) = true.
Lemma range_is_good r : range_written r -> range_printable r = true -> range_good r.
Proof.
  intros [W1 W2] H. unfold range_printable in H. apply andb_true_iff in H as [H1 H2]. apply andb_true_iff in H1 as [P1 B1]. apply andb_true_iff in H2 as [P2 B2].
  split; [now apply written_good|]. split; [exact B1|]. split; [now apply written_good|exact B2].
Qed.
Lemma opt_range_good w : opt range_written w -> optb range_printable w = true -> opt range_good w.
Proof. destruct w as [w|]; [apply range_is_good|auto]. Qed.
Lemma ranges_good l : Forall range_written l -> forallb range_printable l = true -> Forall range_good l.
Proof. intros H. induction H as [|r l Hr H IH]; intros HP; constructor; cbn [forallb] in HP; apply andb_true_iff in HP as [P1 P2]; auto. now apply range_is_good. Qed.
Lemma sp_range r : range_good r -> sp (range_text r) (range_toks r).
Proof.
  intros (G1 & B1 & G2 & B2). unfold range_text, gen_width, range_toks. cbn [append]. apply sp_cons; [exact (sp_punct LBRACKET eq_refl)|].
  apply spw_app; [apply spells_spw, (spells_tight (fst r) G1 B1)|now apply sep_c|]. apply sp_cons; [exact (sp_punct COLON eq_refl)|].
  apply spw_app; [apply spells_spw, (spells_tight (snd r) G2 B2)|now apply sep_c|]. exact (sp_punct RBRACKET eq_refl).
Qed.
Lemma concat_cons x l : String.concat "" (x :: l) = x ++ String.concat "" l.
Proof. destruct l; cbn [String.concat append]; [now rewrite app_nil_s|reflexivity]. Qed.
Lemma sp_concat {A} (f : A -> string) (g : A -> list token) l : Forall (fun x => sp (f x) (g x)) l -> sp (String.concat "" (map f l)) (flat_map g l).
Proof. induction 1 as [|x l Hx H IH]; [exact sp_nil|]. cbn [map flat_map]. rewrite concat_cons. now apply sp_app. Qed.
Lemma sp_dims l : Forall range_good l -> sp (dims_text l) (dims_toks l).
Proof. intros H. apply sp_concat. revert H. apply Forall_impl. exact sp_range. Qed.
Lemma sp_attr sg w : opt range_good w -> sp (attr_text sg w) (attr_toks sg w).
Proof.
  intros H. apply sp_app.
  - destruct sg; [|exact sp_nil]. apply (sp_kw "signed"). res.
  - destruct w as [w|]; [|exact sp_nil]. rewrite <- (app_nil_r (range_toks w)). apply sp_app; [now apply sp_range|exact sp_blank].
Qed.
Lemma spw_name n dims : ident n -> Forall range_good dims -> spw (name_text n dims) (ID n :: dims_toks dims).
Proof.
  intros H HD. unfold name_text. destruct dims as [|d dims]; [rewrite app_nil_s; now apply spw_ident|]. apply (sp_spw _ ([ID n] +++ dims_toks (d :: dims))). apply spw_app; [now apply spw_ident|apply sep_blank|]. now apply sp_blank_cons, sp_dims.
Qed.
Lemma kind_reserved k : In (kind_text k) reserved.
Proof. destruct k; cbn [kind_text]; res. Qed.
Lemma spells_eq s ts : spells s ts -> spells (" = " ++ s) (P EQUALS :: ts).
Proof. intros H. cbn [append]. apply (spells_op false s ts). now apply spells_blank. Qed.
Lemma sp_eq : sp " = " [P EQUALS].
Proof. intros r tr H. cbn [app]. now apply spells_eq. Qed.
Definition plain_asg (a : asg) : Prop := good (a_left a) /\ target (a_left a) /\ good (a_right a) /\ undelayed a.
Lemma asg_is_plain a : asg_written a -> assign_printable a = true -> plain_asg a.
Proof.
  intros (W1 & W2 & W3 & _) H. unfold assign_printable in H. apply andb_true_iff in H as [H P4]. apply andb_true_iff in H as [H P3]. apply andb_true_iff in H as [P1 P2].
  split; [now apply written_good|]. split; [exact W2|]. split; [now apply written_good|]. split; [now destruct (a_ldelay a)|now destruct (a_rdelay a)].
Qed.
(** A text that ends with a bracket, a comma or a semicolon: anything may follow. *)
Lemma shut_sp s ts q : spells s (ts +++ [P q]) -> loose q = true -> shut s -> sp s (ts +++ [P q]).
Proof.
  intros (ps & E1 & E2 & H1 & H2) HL (d & HD & HD2) r tr (qs & F1 & F2 & K1 & K2).
  destruct (exists_last (l := ps)) as (init & p & ->); [intros ->; cbn in E2; now destruct ts|].
  assert (p = PT (P q)) as ->.
  { rewrite render_app in E1. rewrite toks_app in E2. destruct p as [t| |]; cbn [render ptext toks] in *.
    - apply app_inj_tail in E2 as [_ ->]. reflexivity.
    - exfalso. rewrite <- E1, last_app in HD by discriminate. cbn in HD. injection HD as <-. discriminate HD2.
    - exfalso. rewrite <- E1, last_app in HD by discriminate. cbn in HD. injection HD as <-. discriminate HD2. }
  assert (forall s, joins (init +++ [PT (P q)]) s) as J.
  { intros x. rewrite joins_app by discriminate. cbn [joins pok]. destruct x as [|c x]; [exact I|]. destruct q; discriminate HL || reflexivity. }
  exists ((init +++ [PT (P q)]) +++ qs). split; [rewrite render_app; congruence|]. split; [rewrite toks_app; congruence|].
  split; [apply lexable_app; auto|]. intros c x Hc. destruct qs as [|y qs]; [rewrite app_nil_r; apply J|]. rewrite joins_app by discriminate. now apply K2.
Qed.
Lemma assign_text a : plain_asg a -> sp (gen_assign a) (assign_toks a).
Proof.
  intros (G1 & _ & G2 & _). unfold gen_assign.
  assert (sp ("assign " ++ gen_rvalue (a_left a) ++ " = " ++ gen_rvalue (a_right a) ++ ";") (assign_toks a)) as K.
  { apply (sp_app "assign " _ [KW "assign"]); [apply (sp_kw "assign"); res|]. apply spw_app; [now apply spw_inner|apply sep_blank|]. apply (sp_app " = " _ [P EQUALS] _ sp_eq). apply spw_app; [now apply spw_inner|now apply sep_c|]. exact sp_semi. }
  unfold assign_toks in *. rewrite app_comm_cons in *. change (P EQUALS :: etoks (a_right a) +++ [P SEMICOLON]) with ((P EQUALS :: etoks (a_right a)) +++ [P SEMICOLON]) in *. rewrite app_assoc in *.
  apply shut_sp; [apply spells_multiline; exact (sp_spells _ _ K)|reflexivity|].
  assert (shut ("assign " ++ gen_rvalue (a_left a) ++ " = " ++ gen_rvalue (a_right a) ++ ";")) as (d & E & D) by (do 4 apply shut_app; eexists; split; reflexivity).
  exists d. split; [now rewrite last_multiline|exact D].
Qed.
Definition member_good (m : member) : Prop :=
  match m with
  | MVar _ n w _ dims => ident n /\ opt range_good w /\ Forall range_good dims
  | MSupply _ _ _ _ | MReal _ => False
  | MInteger n v => ident n /\ v = None
  | MGenvar n => ident n
  | MParam _ n v w _ => ident n /\ good v /\ opt range_good w
  | MAssign a => plain_asg a
  end.
Lemma member_is_good m : member_written m -> member_printable m = true -> member_good m.
Proof.
  destruct m as [k n w sg dims|one n w sg|n v|n|n|local n v w sg|a]; cbn [member_written member_printable member_good]; try discriminate.
  - intros (W1 & W2 & W3) H. apply andb_true_iff in H as [H1 H2]. split; [exact W1|]. split; [now apply opt_range_good|now apply ranges_good].
  - intros (W1 & W2) H. split; [exact W1|now destruct v].
  - auto.
  - intros (W1 & W2 & W3) H. apply andb_true_iff in H as [H1 H2]. split; [exact W1|]. split; [now apply written_good|now apply opt_range_good].
  - intros (W1 & W2) H. now apply asg_is_plain.
Qed.
Lemma sp_param n v w sg : ident n -> good v -> opt range_good w -> spw (attr_text sg w ++ escape n ++ " = " ++ gen_rvalue v) (param_toks n v w sg).
Proof.
  intros H1 H2 H3. apply sp_appw; [now apply sp_attr|]. intros r tr HR HS. rewrite !app_assoc_s. apply (spw_ident n H1 _ (P EQUALS :: etoks v +++ tr)); [|right; apply sep_blank]. apply spells_eq. exact (spw_inner v H2 r tr HR HS).
Qed.
Lemma sp_member m : member_good m -> sp (gen_member m) (member_toks m).
Proof.
  destruct m as [k n w sg dims|one n w sg|n v|n|n|local n v w sg|a]; cbn [member_good gen_member member_toks]; try contradiction.
  - intros (W1 & W2 & W3). change (kind_text k ++ " " ++ ?x) with (kind_text k ++ (" " ++ x)). rewrite <- (app_assoc_s (kind_text k)). apply (sp_app _ _ [KW (kind_text k)]); [apply sp_kw, kind_reserved|]. apply sp_app; [now apply sp_attr|].
    change (ID n :: dims_toks dims +++ [P SEMICOLON]) with ((ID n :: dims_toks dims) +++ [P SEMICOLON]). apply spw_app; [now apply spw_name|now apply sep_c|exact sp_semi].
  - intros (W1 & W2). apply (sp_app "integer " _ [KW "integer"]); [apply (sp_kw "integer"); res|]. apply (spw_app _ _ [ID n]); [now apply spw_ident|now apply sep_c|exact sp_semi].
  - intros W1. apply (sp_app "genvar " _ [KW "genvar"]); [apply (sp_kw "genvar"); res|]. apply (spw_app _ _ [ID n]); [now apply spw_ident|now apply sep_c|exact sp_semi].
  - intros (W1 & W2 & W3). apply (sp_app _ _ [KW (if local then "localparam" else "parameter")]).
    + destruct local; [apply (sp_kw "localparam"); res|apply (sp_kw "parameter"); res].
    + replace (attr_text sg w ++ escape n ++ " = " ++ gen_rvalue v ++ ";") with ((attr_text sg w ++ escape n ++ " = " ++ gen_rvalue v) ++ ";") by now rewrite !app_assoc_s. apply spw_app; [now apply sp_param|now apply sep_c|exact sp_semi].
  - apply assign_text.
Qed.
Lemma sp_decl l : Forall member_good l -> sp (gen_decl l) (flat_map member_toks l).
Proof. intros H. apply sp_concat. revert H. apply Forall_impl. exact sp_member. Qed.
