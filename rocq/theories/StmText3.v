(** StmText3.v - the text of a statement is lexed to its tokens. *)
From Verif Require Import Base DfModel LexModel LexSpec LexProofs ExprModel ExprSpec ExprLex ExprText ExprText2 ExprText3 ExprSound StmModel StmSpec StmText StmText2.
From Verif Require LitProofs.
Require Import Coq.Strings.Ascii.
Local Open Scope string_scope.
Local Notation "a +++ b" := (@app _ a b) (at level 60, right associativity).

(** ** Assignments *)
Lemma spells_delay d s ts : good d -> spells s ts -> spells (gen_delay d ++ " " ++ s) (P DELAY :: ftoks d +++ ts).
Proof.
  intros H HS. unfold gen_delay. rewrite app_assoc_s. apply (spells_punct DELAY); [reflexivity|]. apply spells_app; [now apply spells_full| |apply sep_blank]. now apply spells_blank.
Qed.
Lemma spells_delay_opt d s ts : opt good d -> spells s ts -> spells (gen_delay_opt d ++ s) (dtoks d +++ ts).
Proof. intros H HS. destruct d as [d|]; [|exact HS]. cbn [gen_delay_opt dtoks app]. rewrite app_assoc_s. now apply spells_delay. Qed.
Definition asg_good (a : asg) : Prop := good (a_left a) /\ good (a_right a) /\ opt good (a_ldelay a) /\ opt good (a_rdelay a).
Lemma asg_is_good a : asg_written a -> asg_printable a = true -> asg_good a.
Proof.
  intros (W1 & _ & W2 & W3 & W4) H. unfold asg_printable in H. apply andb_true_iff in H as [H P4]. apply andb_true_iff in H as [H P3]. apply andb_true_iff in H as [P1 P2].
  assert (forall d, opt written d -> optb delay_printable d = true -> opt good d) as K.
  { intros [d|] W P; [|exact I]. cbn in *. apply andb_true_iff in P as [P _]. now apply written_good. }
  split; [now apply written_good|]. split; [now apply written_good|]. auto.
Qed.
Lemma spells_semi : spells ";" [P SEMICOLON].
Proof. apply (spells_punct SEMICOLON "" []); [reflexivity|apply spells_nil]. Qed.
Lemma spells_op (nb : bool) s ts : spells (String " " s) ts -> spells ((if nb then " <=" else " =") ++ String " " s) (P (if nb then LE else EQUALS) :: ts).
Proof.
  intros H. destruct nb; cbn [append]; apply spells_blank.
  - apply (spells_tok (P LE) (String " " s)); [exact I|reflexivity|discriminate|exact H].
  - apply (spells_tok (P EQUALS) (String " " s)); [exact I|reflexivity|discriminate|exact H].
Qed.
Lemma spells_asg nb a : asg_good a -> spells (gen_asg nb a) (atoks nb a +++ [P SEMICOLON]).
Proof.
  intros (G1 & G2 & G3 & G4). unfold gen_asg, atoks. apply spells_multiline. rewrite <- !app_assoc. apply spells_delay_opt; [exact G3|].
  apply spells_app; [now apply spells_inner| |destruct nb; apply sep_blank].
  replace ((if nb then " <= " else " = ") ++ gen_delay_opt (a_rdelay a) ++ gen_rvalue (a_right a) ++ ";") with ((if nb then " <=" else " =") ++ String " " (gen_delay_opt (a_rdelay a) ++ gen_rvalue (a_right a) ++ ";")) by (destruct nb; reflexivity).
  cbn [app]. apply spells_op. apply spells_blank. rewrite <- app_assoc. apply spells_delay_opt; [exact G4|]. apply spells_app; [now apply spells_inner|apply spells_semi|now apply sep_char].
Qed.
Lemma begins_asg nb a : asg_good a -> begins (gen_asg nb a).
Proof.
  intros (G1 & _). apply begins_multiline. destruct (a_ldelay a) as [d|]; [eexists _, _; split; reflexivity|]. cbn [gen_delay_opt append]. apply begins_app. now apply begins_inner.
Qed.
Definition asg_tight (a : asg) : Prop := good (a_left a) /\ blank_free (a_left a) = true /\ good (a_right a) /\ blank_free (a_right a) = true /\ a_ldelay a = None /\ a_rdelay a = None.
Lemma asg_is_tight a : asg_written a -> for_printable a = true -> asg_tight a.
Proof.
  intros (W1 & _ & W2 & W3 & W4) H. unfold for_printable in H. repeat (apply andb_true_iff in H as [H ?]). unfold asg_tight.
  destruct (a_ldelay a), (a_rdelay a); try discriminate. split; [now apply written_good|]. split; [assumption|]. split; [now apply written_good|]. auto.
Qed.
Lemma tight_asg a : asg_tight a -> del_space (gen_asg false a) = del_space (gen_rvalue (a_left a)) ++ "=" ++ del_space (gen_rvalue (a_right a)) ++ ";".
Proof. intros (_ & _ & _ & _ & H1 & H2). unfold gen_asg. rewrite ds_multiline, H1, H2. cbn [gen_delay_opt append]. rewrite del_space_app. f_equal. change (String " " (String "=" (String " " (gen_rvalue (a_right a) ++ ";")))) with (" = " ++ gen_rvalue (a_right a) ++ ";"). now rewrite !del_space_app. Qed.
Lemma spells_tight_eq e s ts : good e -> blank_free e = true -> spells s ts -> s = "" \/ starts_sep s ->
  spells (String "=" (del_space (gen_rvalue e) ++ s)) (P EQUALS :: etoks e +++ ts).
Proof.
  intros H B HS HF. assert (spells (del_space (gen_rvalue e) ++ s) (etoks e +++ ts)) as K.
  { destruct HF as [->|HF]; [|apply spells_app; [now apply spells_tight|exact HS|exact HF]]. destruct HS as (p & E1 & <- & H1 & _). destruct p as [|q p]; [|exfalso; exact (render_nonempty _ _ H1 E1)]. rewrite app_nil_s, app_nil_r. now apply spells_tight. }
  rewrite (gen_inner e H), (ds_inner e H) in *. destruct (starts_inner e H true) as (c & r & E & K2). rewrite E in *. apply (spells_tok (P EQUALS) (String c r ++ s)); [exact I| |discriminate|exact K].
  cbn [append follows]. destruct K2 as [K2|(o & r' & _ & K3 & K4 & K5)].
  - assert (forall c, atom_start c = true -> ok_after (P EQUALS) c = true) as KK by (apply LitProofs.char_imp; vm_compute; reflexivity). now apply KK.
  - destruct o; try discriminate K3; try congruence; injection K5 as <- <-; reflexivity.
Qed.
Lemma spells_tight_asg a : asg_tight a -> spells (del_space (gen_asg false a)) (atoks false a +++ [P SEMICOLON]).
Proof.
  intros H. rewrite (tight_asg a H). destruct H as (G1 & B1 & G2 & B2 & E1 & E2). unfold atoks. rewrite E1, E2. cbn [dtoks app]. rewrite <- app_assoc.
  apply spells_app; [now apply spells_tight| |now apply sep_char]. cbn [append app]. apply spells_tight_eq; auto using spells_semi. right. now apply sep_char.
Qed.
Lemma spells_tight_post a : asg_tight a -> spells (del_space (del_semicolon (gen_asg false a))) (atoks false a).
Proof.
  intros H. rewrite del_swap, (tight_asg a H). destruct H as (G1 & B1 & G2 & B2 & E1 & E2). rewrite !del_semicolon_app, !plain_tight by assumption. change (del_semicolon "=") with "=". change (del_semicolon ";") with "". unfold atoks. rewrite E1, E2. cbn [dtoks app].
  apply spells_app; [now apply spells_tight| |now apply sep_char]. cbn [append]. replace (etoks (a_right a)) with (etoks (a_right a) +++ []) by apply app_nil_r. apply spells_tight_eq; auto using spells_nil.
Qed.

(** ** Events *)
Definition sens_good (x : sensitem) : Prop := match x with SAll => False | SSig _ e => good e /\ wrapped e = false end.
Definition sens_all_good (l : list sensitem) : Prop := l = [SAll] \/ l <> [] /\ Forall sens_good l.
Lemma sens_is_good l : sens_written l -> forallb sens_printable l = true -> sens_all_good l.
Proof.
  assert (forall l, Forall edge_written l -> forallb sens_printable l = true -> Forall sens_good l) as K1.
  { intros l0 H. induction H as [|x l0 Hx H IH]; intros P; constructor; cbn in P; apply andb_true_iff in P as [P1 P2]; auto. destruct x as [|[] e]; cbn in *; try contradiction; destruct Hx as [Hx Hi]; (split; [now apply written_good|]); destruct e; cbn in Hi; contradiction || reflexivity. }
  assert (forall l, Forall level_written l -> forallb sens_printable l = true -> Forall sens_good l) as K2.
  { intros l0 H. induction H as [|x l0 Hx H IH]; intros P; constructor; cbn in P; apply andb_true_iff in P as [P1 P2]; auto. destruct x as [|[] e]; cbn in *; try contradiction. destruct Hx as [Hx Hi]; (split; [now apply written_good|]); destruct e; cbn in Hi; contradiction || reflexivity. }
  intros [->|[HN [H|H]]] P; [now left|right; split; auto|right; split; auto].
Qed.
Lemma spells_kw_blank w s ts : In w reserved -> spells s ts -> spells (w ++ String " " s) (KW w :: ts).
Proof. intros H HS. apply spells_kw; [exact H|right; apply sep_blank|]. now apply spells_blank. Qed.
Ltac res := apply in_reserved; reflexivity.
Lemma spells_sens x : sens_good x -> spells (gen_sens x) (sitoks x).
Proof.
  destruct x as [|[] e]; cbn [sens_good gen_sens sitoks]; intros H; [contradiction|..]; destruct H as [H _].
  - apply (spells_kw_blank "posedge"); [res|now apply spells_full].
  - apply (spells_kw_blank "negedge"); [res|now apply spells_full].
  - now apply spells_full.
Qed.
Lemma spells_senslist l s ts : sens_all_good l -> spells s ts -> spells (gen_senslist l ++ ")" ++ s) (sltoks l +++ P RPAREN :: ts).
Proof.
  intros [->|[HN H]] HS.
  - cbn [gen_senslist gen_sens sltoks sitoks app append]. apply (spells_tok (P TIMES) (String ")" s)); [exact I|reflexivity|discriminate|]. now apply (spells_punct RPAREN).
  - apply spells_app; [|now apply (spells_punct RPAREN)|now apply sep_char]. induction H as [|x l Hx H IH]; [congruence|]. cbn [gen_senslist sltoks]. destruct l as [|y l]; [now apply spells_sens|].
    apply spells_app; [now apply spells_sens| |apply sep_blank]. apply (spells_blank ("or" ++ String " " (gen_senslist (y :: l)))). apply spells_kw_blank; [res|]. apply IH. discriminate.
Qed.
Lemma senslist_open l : sens_all_good l -> del_paren (gen_senslist l) = gen_senslist l.
Proof.
  intros [->|[HN H]]; [reflexivity|]. destruct H as [|x l Hx H]; [congruence|].
  assert (exists c r, gen_sens x = String c r /\ ceqb c "(" = false) as (c & r & E & K).
  { destruct x as [|[] e]; cbn [sens_good gen_sens] in *; [contradiction|eexists _, _; split; reflexivity|eexists _, _; split; reflexivity|]. destruct Hx as [Hg Hw]. rewrite (gen_full e Hg). unfold full, wrap. rewrite Hw. destruct (starts_unwrapped e Hg Hw false) as (c & r & E & _ & K). eauto. }
  cbn [gen_senslist]. destruct l as [|y l]; rewrite E; cbn [append]; now apply del_paren_other.
Qed.

(** ** Statements *)
Lemma spells_ident s : ident s -> spells (escape s) [ID s].
Proof. intros H. pose proof (g_id s H) as G. pose proof (spells_full (XId s) G) as K. unfold ftoks, twrap in K. cbn [gen wrapped etoks] in K. now rewrite (id_token_ok _ H) in K. Qed.
Lemma spells_scope sc s ts : opt ident sc -> starts_sep s -> spells s ts -> spells (scope_text sc ++ s) (scope_toks sc +++ ts).
Proof.
  intros H HF HS. destruct sc as [sc|]; [|exact HS]. cbn [scope_text scope_toks append app]. apply spells_blank. apply (spells_punct COLON); [reflexivity|]. apply spells_blank.
  apply (spells_app (escape sc) s [ID sc] ts); [now apply spells_ident|exact HS|exact HF].
Qed.
Lemma sep_scope sc s : starts_sep s -> starts_sep (scope_text sc ++ s).
Proof. intros H. destruct sc; [now apply sep_char|exact H]. Qed.
Lemma indent_begins s : begins s -> exists r, indent "  " s = String " " r.
Proof.
  intros (c & r & -> & H). unfold indent. cbn [indent_go andb blank_line]. rewrite H, (space_nl _ H). cbn [orb andb negb append]. eauto.
Qed.
Lemma spells_line x s tx ts : begins x -> spells x tx -> starts_sep s -> spells s ts -> spells (String NL (indent "  " x) ++ s) (tx +++ ts).
Proof.
  intros HB HX HF HS. apply spells_app; [|exact HS|exact HF]. destruct (indent_begins x HB) as (r & E). apply spells_newline; [exact (spells_indent 2 x tx HX)|rewrite E; discriminate|rewrite E; reflexivity].
Qed.
Lemma sep_lines l s : starts_sep s -> starts_sep (lines l ++ s).
Proof. intros H. destruct l; [exact H|]. unfold lines. cbn [map String.concat]. destruct (map _ l); apply sep_newline. Qed.
Lemma lines_cons x l : lines (x :: l) = String NL x ++ lines l.
Proof. unfold lines. cbn [map String.concat]. destruct (map _ l); cbn [append String.concat]; [now rewrite app_nil_s|reflexivity]. Qed.
Lemma spells_lines {A} (f : A -> string) (g : A -> list token) l s ts :
  Forall (fun x => begins (f x) /\ spells (f x) (g x)) l -> starts_sep s -> spells s ts -> spells (lines (map (fun x => indent "  " (f x)) l) ++ s) (flat_map g l +++ ts).
Proof.
  intros H HF HS. induction H as [|x l [H1 H2] H IH]; [exact HS|]. cbn [map flat_map]. rewrite lines_cons, app_assoc_s, <- app_assoc. apply spells_line; auto. now apply sep_lines.
Qed.
Lemma spells_close w : In w reserved -> stops (fun c => ceqb c NL) w -> spells (String NL w) [KW w].
Proof.
  intros H HF. assert (spells w [KW w]) as K. { replace w with (w ++ "") at 1 by apply app_nil_s. apply spells_kw; [exact H|now left|apply spells_nil]. }
  apply spells_newline; [exact K|exact (spells_nonempty _ _ _ K)|exact HF].
Qed.
Lemma spells_cond c s ts : good c -> spells s ts -> spells (String "(" (del_paren (gen c) ++ ")" ++ s)) (P LPAREN :: etoks c +++ P RPAREN :: ts).
Proof.
  intros H HS. apply (spells_punct LPAREN); [reflexivity|]. apply spells_app; [now apply spells_inner| |now apply sep_char]. now apply (spells_punct RPAREN).
Qed.
(** The last character. *)
Lemma last_app a b : b <> "" -> last_char (a ++ b) = last_char b.
Proof. intros H. induction a as [|c a IH]; [reflexivity|]. cbn [append last_char]. destruct (a ++ b) eqn:E; [destruct a; [cbn in E; congruence|discriminate]|exact IH]. Qed.
Lemma last_cons c s : s <> "" -> last_char (String c s) = last_char s.
Proof. destruct s; [congruence|reflexivity]. Qed.
Lemma last_indent pre s : forall bol, last_char (indent_go pre bol s) = last_char s.
Proof.
  induction s as [|c s IH]; intros bol; [reflexivity|]. cbn [indent_go]. rewrite last_app by discriminate. destruct s as [|d s]; [reflexivity|]. specialize (IH (ceqb c NL)).
  rewrite (last_cons c (String d s)) by discriminate. rewrite last_cons; [exact IH|]. cbn [indent_go]. destruct (_ && _); [destruct pre; discriminate|discriminate].
Qed.
Lemma last_multiline s : last_char (indent_multiline_assign s) = last_char s.
Proof.
  unfold indent_multiline_assign. pose proof (split_line_eq s) as E. destruct (split_line s) as [a [r|]]; [|reflexivity]. destruct (index_eq s); [|reflexivity]. rewrite E, !last_app by discriminate.
  destruct r as [|c r]; [reflexivity|]. rewrite (last_cons NL (String c r)) by discriminate. unfold indent. rewrite last_cons; [apply last_indent|]. cbn [indent_go]. destruct (_ && _); [destruct (blanks _); discriminate|discriminate].
Qed.
Definition shut (s : string) : Prop := exists c, last_char s = Some c /\ (ceqb c " " || ceqb c NL) = false.
Lemma shut_app a b : shut b -> shut (a ++ b).
Proof. intros (c & H & K). exists c. split; [|exact K]. rewrite last_app; [exact H|]. intros ->. discriminate. Qed.
Lemma shut_end a : shut (a ++ ";").
Proof. apply shut_app. eexists; split; reflexivity. Qed.
Lemma shut_cons c a : shut a -> shut (String c a).
Proof. exact (shut_app (String c "") a). Qed.
Definition stm_ok (s : stm) : Prop := swritten s -> sprintable s = true -> spells (gen_stm s) (stoks s) /\ begins (gen_stm s) /\ (open_if s = false -> shut (gen_stm s)).
Lemma stoks_nonempty s : stoks s <> [].
Proof. destruct s as [nb a|c t e|pre c post b|c b|k c l|s l|s l|l|c b|b|e|f l|s|]; cbn [stoks]; try discriminate; intros H; [apply app_eq_nil in H as [_ H]; discriminate|destruct k; discriminate]. Qed.
Lemma spells_nonempty' s ts : spells s ts -> ts <> [] -> s <> "".
Proof. destruct ts as [|t ts]; [congruence|]. intros H _. exact (spells_nonempty _ _ _ H). Qed.
Lemma begins_nonempty s : begins s -> s <> "".
Proof. intros (c & r & -> & _). discriminate. Qed.
Lemma text_if c t e tc tt te : good c -> tc = del_paren (gen c) -> spells t tt ->
  match e with None => te = [] | Some e => exists te', te = KW "else" :: te' /\ spells e te' /\ e <> "" /\ shut t end ->
  spells (if_text tc t (match e with None => "" | Some e => e end)) (KW "if" :: P LPAREN :: etoks c +++ P RPAREN :: tt +++ te).
Proof.
  intros HG -> HT HE. unfold if_text. change ("if(" ++ del_paren (gen c) ++ ") " ++ ?x) with ("if" ++ String "(" (del_paren (gen c) ++ ")" ++ String " " x)).
  apply spells_kw; [res|right; now apply sep_char|]. apply spells_cond; [exact HG|]. apply spells_blank. destruct e as [e|].
  - destruct HE as (te' & -> & HE & HN & (d & HD & HD2)). rewrite HD, HD2. apply spells_app; [exact HT| |apply sep_blank]. cbn [append]. apply spells_blank. destruct (String.eqb_spec e ""); [congruence|]. cbn [negb]. rewrite andb_true_r.
    assert (spells ("else " ++ e) (KW "else" :: te')) as K by (apply (spells_kw_blank "else"); [res|exact HE]). destruct (Nat.eqb (newlines t) 0); [|exact K]. apply spells_newline; [exact K|discriminate|reflexivity].
  - subst te. change (String.eqb "" "") with true. cbn [negb]. rewrite andb_false_r. cbn [append]. rewrite app_nil_s. destruct (last_char t) as [d|]; [destruct (_ || _)|].
    + rewrite app_nil_s, app_nil_r. exact HT.
    + apply spells_app; [exact HT|apply spells_blank, spells_nil|apply sep_blank].
    + apply spells_app; [exact HT|apply spells_blank, spells_nil|apply sep_blank].
Qed.
Lemma shut_if c t e : e <> "" -> shut e -> shut (if_text c t e).
Proof.
  intros HN H. unfold if_text. destruct (String.eqb_spec e ""); [congruence|]. repeat apply shut_app. exact H.
Qed.
Lemma spells_stm : forall s, stm_ok s.
Proof.
  apply stm_ind'; unfold stm_ok; cbn [swritten sprintable].
  - intros nb a W P. pose proof (asg_is_good a W P) as G. cbn [gen_stm stoks open_if]. split; [now apply spells_asg|]. split; [now apply begins_asg|]. intros _. unfold gen_asg.
    assert (shut (gen_delay_opt (a_ldelay a) ++ gen_rvalue (a_left a) ++ (if nb then " <= " else " = ") ++ gen_delay_opt (a_rdelay a) ++ gen_rvalue (a_right a) ++ ";")) as (x & E & K) by (do 5 apply shut_app; eexists; split; reflexivity).
    exists x. split; [|exact K]. now rewrite last_multiline.
  - intros c t e IHt IHe (W1 & W2 & W3) P. apply andb_true_iff in P as [P P3]. apply andb_true_iff in P as [P1 P2]. destruct (IHt W2 P2) as (S1 & _ & S3). pose proof (written_good c W1 P1) as G. cbn [gen_stm stoks open_if].
    split.
    + pose proof (text_if c (gen_stm t) (match e with None => None | Some e => Some (gen_stm e) end) (del_paren (gen c)) (stoks t) (match e with None => [] | Some e => KW "else" :: stoks e end) G eq_refl S1) as K. destruct e as [e|]; [|exact (K eq_refl)].
      cbn [optP] in IHe. destruct W3 as (W3 & W4 & _). destruct (IHe W4 P3) as (E1 & E2 & _). apply K. exists (stoks e). split; [reflexivity|]. split; [exact E1|]. split; [now apply begins_nonempty|now apply S3].
    + split; [eexists _, _; split; reflexivity|]. destruct e as [e|]; [|discriminate]. destruct W3 as (W3 & W4 & _). destruct (IHe W4 P3) as (E1 & E2 & E3). intros HO. apply shut_if; [now apply begins_nonempty|now apply E3].
  - intros pre c post b IH (W1 & W2 & W3 & W4) P. apply andb_true_iff in P as [P P5]. apply andb_true_iff in P as [P P4]. apply andb_true_iff in P as [P P3]. apply andb_true_iff in P as [P1 P2]. destruct (IH W4 P5) as (S1 & _ & S3). cbn [gen_stm stoks open_if].
    split; [|split; [eexists _, _; split; reflexivity|intros HO; do 7 apply shut_app; now apply S3]].
    destruct pre as [a|]; [|discriminate]. apply (spells_kw "for"); [res|right; now apply sep_char|]. apply (spells_punct LPAREN); [reflexivity|].
    apply spells_app; [apply spells_tight_asg; now apply asg_is_tight| |apply sep_blank]. apply spells_blank.
    assert (spells (";" ++ String " " (match post with None => "" | Some a => del_space (del_semicolon (gen_asg false a)) end ++ ") " ++ gen_stm b)) (P SEMICOLON :: match post with None => [] | Some a => atoks false a end +++ P RPAREN :: stoks b)) as K.
    { apply (spells_punct SEMICOLON); [reflexivity|]. apply spells_blank. assert (spells (") " ++ gen_stm b) (P RPAREN :: stoks b)) as KB by (apply (spells_punct RPAREN); [reflexivity|]; now apply spells_blank).
      destruct post as [y|]; [|exact KB]. apply spells_app; [apply spells_tight_post; now apply asg_is_tight|exact KB|now apply sep_char]. }
    destruct c as [c|]; [|exact K]. cbn [optb] in P3. apply andb_true_iff in P3 as [P3 P6]. apply spells_app; [|exact K|now apply sep_char]. apply spells_tight; [now apply written_good|exact P6].
  - intros c b IH (W1 & W2) P. apply andb_true_iff in P as [P1 P2]. destruct (IH W2 P2) as (S1 & _ & S3). cbn [gen_stm stoks open_if]. split; [|split; [eexists _, _; split; reflexivity|intros HO; do 3 apply shut_app; now apply S3]].
    apply (spells_kw "while"); [res|right; now apply sep_char|]. apply spells_cond; [now apply written_good|]. now apply spells_blank.
  - intros k c l IH (_ & W1 & W2 & W3) P. apply andb_true_iff in P as [P P3]. apply andb_true_iff in P as [P1 P2]. apply swritten_items in W3.
    assert (Forall (fun i => begins (case_text (fst i) (gen_stm (snd i))) /\ spells (case_text (fst i) (gen_stm (snd i))) (ctoks (fst i) +++ P COLON :: stoks (snd i))) l) as K.
    { clear W2. revert IH W3 P3. induction l as [|[cs b] l IHl]; intros IH W3 P3; constructor; cbn [forallb] in P3; apply andb_true_iff in P3 as [P3 P4]; inversion IH as [|x y I1 I2]; inversion W3 as [|x' y' [J1 J2] J3]; subst; auto.
      cbn [fst snd] in *. apply andb_true_iff in P3 as [P5 P6]. destruct (I1 J2 P6) as (S1 & _). unfold case_text, ctoks.
      assert (spells (": " ++ gen_stm b) (P COLON :: stoks b)) as KB by (apply (spells_punct COLON); [reflexivity|]; now apply spells_blank).
      destruct cs as [cs|]; [|split; [eexists _, _; split; reflexivity|]; apply (spells_kw "default"); [res|right; now apply sep_char|exact KB]].
      destruct J1 as [J1 J4]. assert (Forall good cs) as G. { clear - J4 P5. cbn [optb] in P5. induction J4 as [|x l Hx J4 IH]; constructor; cbn in P5; apply andb_true_iff in P5 as [P5 P6]; auto. now apply written_good. }
      split; [apply begins_app; now apply begins_join|]. apply spells_app; [now apply spells_join|exact KB|now apply sep_char]. }
    pose proof (spells_lines (fun i => case_text (fst i) (gen_stm (snd i))) (fun i => ctoks (fst i) +++ P COLON :: stoks (snd i)) l _ _ K (sep_newline "endcase") (spells_close "endcase" ltac:(res) eq_refl)) as KL.
    destruct k; try discriminate P1; cbn [gen_stm stoks open_if app]; (split; [|split; [eexists _, _; split; reflexivity|intros _; do 4 apply shut_app; eexists; split; reflexivity]]).
    + apply (spells_kw "case"); [res|right; now apply sep_char|]. apply spells_cond; [now apply written_good|]. exact KL.
    + apply (spells_kw "casex"); [res|right; now apply sep_char|]. apply spells_cond; [now apply written_good|]. exact KL.
  - intros sc l IH (W1 & W2) P. apply swritten_block in W2. cbn [gen_stm stoks open_if]. split; [|split; [eexists _, _; split; reflexivity|intros _; do 3 apply shut_app; eexists; split; reflexivity]].
    apply (spells_kw "begin"); [res|right; apply sep_scope, sep_lines, sep_newline|]. apply spells_scope; [exact W1|apply sep_lines, sep_newline|]. apply (spells_lines gen_stm stoks); [|apply sep_newline|apply spells_close; [res|reflexivity]].
    clear W1. revert P W2. induction IH as [|x l Hx IH IH2]; intros P W2; constructor; inversion W2; subst; cbn [forallb] in P; apply andb_true_iff in P as [P1 P2]; auto. destruct (Hx ltac:(assumption) P1) as (S1 & S2 & _). auto.
  - intros sc l IH (W1 & W2) P. apply swritten_block in W2. subst sc. cbn [gen_stm stoks open_if]. split; [|split; [eexists _, _; split; reflexivity|intros _; do 3 apply shut_app; eexists; split; reflexivity]].
    apply (spells_kw "fork"); [res|right; apply sep_scope, sep_lines, sep_newline|]. apply spells_scope; [exact I|apply sep_lines, sep_newline|]. apply (spells_lines gen_stm stoks); [|apply sep_newline|apply spells_close; [res|reflexivity]].
    revert P W2. induction IH as [|x l Hx IH IH2]; intros P W2; constructor; inversion W2; subst; cbn [forallb] in P; apply andb_true_iff in P as [P1 P2]; auto. destruct (Hx ltac:(assumption) P1) as (S1 & S2 & _). auto.
  - intros l W HP. pose proof (sens_is_good l W HP) as G. clear HP. cbn [gen_stm stoks open_if]. rewrite (senslist_open l G). split; [|split; [eexists _, _; split; reflexivity|intros _; do 2 apply shut_app; eexists; split; reflexivity]].
    apply (spells_punct AT); [reflexivity|]. apply (spells_punct LPAREN); [reflexivity|]. apply (spells_senslist l ";" [P SEMICOLON] G). apply spells_semi.
  - intros c b IH (W1 & W2) P. apply andb_true_iff in P as [P1 P2]. cbn [gen_stm stoks open_if]. pose proof (written_good c W1 P1) as G. destruct b as [b|]; cbn [optP] in IH.
    + destruct (IH W2 P2) as (S1 & _ & S3). split; [|split; [eexists _, _; split; reflexivity|intros HO; do 4 apply shut_app; now apply S3]]. apply (spells_kw "wait"); [res|right; now apply sep_char|]. apply spells_cond; [exact G|]. now apply spells_blank.
    + split; [|split; [eexists _, _; split; reflexivity|intros _; do 3 apply shut_app; eexists; split; reflexivity]]. apply (spells_kw "wait"); [res|right; now apply sep_char|]. apply spells_cond; [exact G|]. apply spells_semi.
  - intros b IH W P. destruct (IH W P) as (S1 & _ & S3). cbn [gen_stm stoks open_if]. split; [|split; [eexists _, _; split; reflexivity|intros HO; apply shut_app; now apply S3]]. apply (spells_kw_blank "forever"); [res|exact S1].
  - intros e W HP. cbn [gen_stm stoks open_if]. split; [|split; [eexists _, _; split; reflexivity|intros _; apply shut_end]]. unfold gen_delay. rewrite app_assoc_s. apply (spells_punct DELAY); [reflexivity|]. apply spells_app; [apply spells_full; now apply written_good|apply spells_semi|now apply sep_char].
  - intros f l W HP. pose proof (written_good (XSys f l) W HP) as G. split; [|split; [eexists _, _; split; reflexivity|intros _; apply shut_end]]. change (gen_stm (TSys f l)) with (gen (XSys f l) ++ ";"). change (stoks (TSys f l)) with (ftoks (XSys f l) +++ [P SEMICOLON]). apply spells_app; [now apply spells_full|apply spells_semi|now apply sep_char].
  - intros s W P. discriminate P.
  - intros W P. discriminate P.
Qed.
