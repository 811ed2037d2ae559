(** CodeProofs.v - the text of a dataflow tree is parsed back. *)
From Verif Require Import Base ScopeModel DfModel LexModel LexSpec LexProofs ExprModel ParseModel ExprSpec ExprLex ExprText ExprText2 ExprText3 ExprParse ExprSound CodeModel CodeSpec.
Require Import Coq.Strings.Ascii.
Local Open Scope string_scope.
Local Notation "a +++ b" := (@app _ a b) (at level 60, right associativity).

Definition LP := PT (P LPAREN).
Definition RP := PT (P RPAREN).
(** The pieces of the text; everything is in parentheses. *)
Fixpoint dps (e : expr) : list piece :=
  match e with
  | XId s => [PT (ID s)]
  | XInt s => [PT (int_tok s)]
  | XUn o a => LP :: PT (P (unary_punct o)) :: dps a +++ [RP]
  | XBin o a b => LP :: dps a +++ PT (P (binary_punct o)) :: dps b +++ [RP]
  | XCond c t f => LP :: LP :: dps c +++ RP :: PT (P COND) :: PB :: dps t +++ PB :: PT (P COLON) :: PB :: dps f +++ [RP]
  | XConcat l => PT (P LBRACE) :: pjoin true (map dps l) +++ [PT (P RBRACE)]
  | XPart v m l => dps v +++ PT (P LBRACKET) :: dps m +++ PT (P COLON) :: dps l +++ [PT (P RBRACKET)]
  | XPtr v p => dps v +++ PT (P LBRACKET) :: dps p +++ [PT (P RBRACKET)]
  | XSys f l => PT (P DOLLER) :: PT (id_token f) :: LP :: pjoin true (map dps l) +++ [RP]
  | XRepeat _ _ | XCall _ _ => []
  end.
Fixpoint dtoks (e : expr) : list token :=
  match e with
  | XId s => [ID s]
  | XInt s => [int_tok s]
  | XUn o a => P LPAREN :: P (unary_punct o) :: dtoks a +++ [P RPAREN]
  | XBin o a b => P LPAREN :: dtoks a +++ P (binary_punct o) :: dtoks b +++ [P RPAREN]
  | XCond c t f => P LPAREN :: P LPAREN :: dtoks c +++ P RPAREN :: P COND :: dtoks t +++ P COLON :: dtoks f +++ [P RPAREN]
  | XConcat l => P LBRACE :: tjoin (map dtoks l) +++ [P RBRACE]
  | XPart v m l => dtoks v +++ P LBRACKET :: dtoks m +++ P COLON :: dtoks l +++ [P RBRACKET]
  | XPtr v p => dtoks v +++ P LBRACKET :: dtoks p +++ [P RBRACKET]
  | XSys f l => P DOLLER :: id_token f :: P LPAREN :: tjoin (map dtoks l) +++ [P RPAREN]
  | XRepeat _ _ | XCall _ _ => []
  end.

(** Induction on the expressions that can be printed. *)
Section Fine.
  Variable Q : expr -> Prop.
  Hypothesis Hid : forall s, simple_id s -> Q (XId s).
  Hypothesis Hint : forall k s, number k s -> Q (XInt s).
  Hypothesis Hun : forall o a, is_unary o = true -> o <> Uplus -> Q a -> Q (XUn o a).
  Hypothesis Hbin : forall o a b, is_unary o = false -> Q a -> Q b -> Q (XBin o a b).
  Hypothesis Hcond : forall c t f, Q c -> Q t -> Q f -> Q (XCond c t f).
  Hypothesis Hconcat : forall l, l <> [] -> Forall Q l -> Q (XConcat l).
  Hypothesis Hpart : forall v m l, indexable v -> Q v -> Q m -> Q l -> Q (XPart v m l).
  Hypothesis Hptr : forall v p, indexable v -> Q v -> Q p -> Q (XPtr v p).
  Hypothesis Hsys : forall f l, simple_id f \/ f = "signed" -> l <> [] -> Forall Q l -> Q (XSys f l).
  Lemma unescaped_simple s : simple_id s \/ escaped_id s -> unescaped s = true -> simple_id s.
  Proof. intros [H|(c & r & -> & _)] HU; [exact H|discriminate HU]. Qed.
  Lemma fine_ind e : written e -> codable e = true -> Q e.
  Proof.
    assert (forall l, forallb codable l = true -> Forall (fun e => codable e = true -> Q e) l -> Forall Q l) as KL.
    { induction l as [|x l IH]; intros HP HG; constructor; inversion HG; subst; cbn in HP; apply andb_true_iff in HP as [P1 P2]; auto. }
    revert e. fix F 2. assert (forall l, Forall written l -> Forall (fun e => codable e = true -> Q e) l) as FL.
    { fix G 2. intros l HL. destruct HL as [|x l Hx HL]; constructor; [exact (F x Hx)|exact (G l HL)]. }
    intros e H. destruct H as [s H|k s H|o a H1 H2|o a b H1 H2 H3|c t f H1 H2 H3|l H1 H2|l m H1 H2 H3|v m l H1 H2 H3 H4|v p H1 H2 H3|f l H1 H2|f l H1 H2]; cbn [codable]; intros HP; try discriminate HP.
    - apply Hid. now apply unescaped_simple.
    - eapply Hint; eassumption.
    - apply Hun; auto; [intros ->; discriminate|]. apply (F a H2). destruct o; discriminate || exact HP.
    - apply andb_true_iff in HP as [P1 P2]. auto.
    - apply andb_true_iff in HP as [HP P3]. apply andb_true_iff in HP as [P1 P2]. auto.
    - apply Hconcat; auto.
    - apply andb_true_iff in HP as [HP P3]. apply andb_true_iff in HP as [P1 P2]. apply Hpart; auto.
    - apply andb_true_iff in HP as [P1 P2]. apply Hptr; auto.
    - apply andb_true_iff in HP as [HP P3]. apply andb_true_iff in HP as [P1 P2]. apply Hsys; auto; [|destruct l; discriminate]. destruct H1 as [H1| ->]; auto. left. now apply unescaped_simple.
  Qed.
End Fine.
Ltac fine e HW HC Q := apply (fun a b c d e0 f g h i => fine_ind Q a b c d e0 f g h i e HW HC); clear.

Lemma id_tok_simple s : simple_id s -> id_token s = ID s.
Proof. intros H. apply id_token_ok. now left. Qed.

(** ** The pieces are read back *)
Lemma dps_start e : written e -> codable e = true -> exists c r, render (dps e) = String c r /\ atom_start c = true.
Proof.
  intros HW HC. fine e HW HC (fun e => exists c r, render (dps e) = String c r /\ atom_start c = true); cbn [dps].
  - intros s (c & r & -> & H & _). cbn [render ptext text_of append]. rewrite app_nil_s. exists c, r. split; auto. unfold atom_start. now rewrite H.
  - intros k s H. rewrite (int_tok_ok _ _ H). destruct (number_head _ _ H) as (c & r & -> & E). cbn [render ptext text_of append]. eexists c, _. split; [reflexivity|]. now apply atom_digit.
  - intros. eexists _, _. split; reflexivity.
  - intros. eexists _, _. split; reflexivity.
  - intros. eexists _, _. split; reflexivity.
  - intros. eexists _, _. split; reflexivity.
  - intros v m l _ (c & r & E & K) _ _. rewrite render_app, E. eexists c, _. split; [reflexivity|exact K].
  - intros v p _ (c & r & E & K) _. rewrite render_app, E. eexists c, _. split; [reflexivity|exact K].
  - intros. eexists _, _. split; reflexivity.
Qed.
Lemma ok_simple s : simple_id s -> ok [PT (ID s)].
Proof.
  intros H. split; [cbn; auto|]. intros c r Hc. cbn [joins pok follows ok_after]. rewrite (escaped_simple _ H). unfold ends_number in Hc. apply andb_true_iff in Hc. tauto.
Qed.
Lemma ok_then t l : valid t -> follows t (render l) -> ok l -> l <> [] -> ok (PT t :: l).
Proof. intros H1 H2 [H3 H4] HN. split; [cbn [lexable pvalid pok]; auto|]. intros c s Hc. destruct l as [|q l]; [congruence|]. cbn [joins]. now apply H4. Qed.
Lemma ok_blank l : ok l -> ok (PB :: l).
Proof. exact (ok_sp false l). Qed.
Definition dps_good (e : expr) : Prop := ok (dps e) /\ (exists c r, render (dps e) = String c r /\ atom_start c = true).
Lemma not_nil_start l c r : render l = String c r -> l <> [].
Proof. intros H ->. discriminate. Qed.
Lemma app_not_nil (l : list piece) x : l +++ [x] <> [].
Proof. destruct l; discriminate. Qed.
Lemma ok_dps e : written e -> codable e = true -> ok (dps e).
Proof.
  intros HW HC. assert (dps_good e) as [H _]; [|exact H]. fine e HW HC dps_good.
  - intros s H. split; [now apply ok_simple|apply dps_start; [constructor; auto|]]. destruct H as (c & r & -> & H & _). cbn [codable unescaped]. destruct c as [[] [] [] [] [] [] [] []]; discriminate H || reflexivity.
  - intros k s H. split; [|apply dps_start; [econstructor; eassumption|reflexivity]]. cbn [dps]. rewrite (int_tok_ok _ _ H). split; [cbn; auto|]. intros c r Hc. exact Hc.
  - intros o a H1 H2 [IH1 (c & r & E & Hc)]. split; [|eexists _, _; split; reflexivity]. cbn [dps]. apply ok_cons; auto. apply ok_then; [exact I|rewrite render_app, E; now apply un_atom| |apply app_not_nil]. apply ok_app; auto; [now apply sep_free|now apply ok_end].
  - intros o a b H1 [IHa _] [IHb (c & r & E & Hc)]. split; [|eexists _, _; split; reflexivity]. cbn [dps]. apply ok_cons; auto. apply ok_app; auto; [apply sep_free; destruct o; reflexivity || discriminate H1|]. apply ok_then; [exact I|rewrite render_app, E; now apply op_atom| |apply app_not_nil]. apply ok_app; auto; [now apply sep_free|now apply ok_end].
  - intros c t f [IHc _] [IHt _] [IHf _]. split; [|eexists _, _; split; reflexivity]. cbn [dps]. apply ok_cons; auto. apply ok_cons; auto. apply ok_app; auto; [now apply sep_free|]. apply ok_cons; auto. apply ok_cons; auto. apply ok_blank. apply ok_app; auto; [eexists _, _; split; reflexivity|]. apply ok_blank. apply ok_cons; auto. apply ok_blank. apply ok_app; auto; [now apply sep_free|now apply ok_end].
  - intros l Hl IH. split; [|eexists _, _; split; reflexivity]. cbn [dps]. apply ok_cons; auto. apply ok_app; [apply ok_join; [now apply map_nil|]|now apply sep_free|now apply ok_end]. apply Forall_map. revert IH. apply Forall_impl. intros x [Hx _]. exact Hx.
  - intros v m l Hi [IHv (c & r & E & Hc)] [IHm _] [IHl _]. split; [|cbn [dps]; rewrite render_app, E; eexists c, _; split; [reflexivity|exact Hc]]. cbn [dps]. apply ok_app; auto; [now apply sep_free|]. apply ok_cons; auto. apply ok_app; auto; [now apply sep_free|]. apply ok_cons; auto. apply ok_app; auto; [now apply sep_free|now apply ok_end].
  - intros v p Hi [IHv (c & r & E & Hc)] [IHp _]. split; [|cbn [dps]; rewrite render_app, E; eexists c, _; split; [reflexivity|exact Hc]]. cbn [dps]. apply ok_app; auto; [now apply sep_free|]. apply ok_cons; auto. apply ok_app; auto; [now apply sep_free|now apply ok_end].
  - intros f l Hf Hl IH. split; [|eexists _, _; split; reflexivity]. cbn [dps]. apply ok_cons; auto. assert (ok (LP :: pjoin true (map dps l) +++ [RP])) as HL.
    { apply ok_cons; auto. apply ok_app; [apply ok_join; [now apply map_nil|]|now apply sep_free|now apply ok_end]. apply Forall_map. revert IH. apply Forall_impl. intros x [Hx _]. exact Hx. }
    destruct Hf as [Hf| ->].
    + rewrite (id_tok_simple f Hf). apply (ok_app [PT (ID f)]); [now apply ok_simple|now apply sep_free|exact HL].
    + apply ok_then; auto; [apply in_reserved; reflexivity|reflexivity|discriminate].
Qed.
Lemma toks_dps e : written e -> codable e = true -> toks (dps e) = dtoks e.
Proof.
  intros HW HC. fine e HW HC (fun e => toks (dps e) = dtoks e); cbn [dps dtoks]; auto; unfold LP, RP.
  - intros o a _ _ IH. tk. now rewrite IH.
  - intros o a b _ IHa IHb. tk. now rewrite IHa, IHb.
  - intros c t f IHc IHt IHf. tk. now rewrite IHc, IHt, IHf.
  - intros l _ IH. tk. rewrite toks_join, map_map. do 3 f_equal. now apply map_eq.
  - intros v m l _ IHv IHm IHl. tk. now rewrite IHv, IHm, IHl.
  - intros v p _ IHv IHp. tk. now rewrite IHv, IHp.
  - intros f l _ _ IH. tk. rewrite toks_join, map_map. do 5 f_equal. now apply map_eq.
Qed.

(** ** The tokens are parsed back *)
Definition dfull_ok (e : expr) : Prop := forall st rest, ready st -> closer (hd_error rest) -> parses (dtoks e) e st rest.
Definition dselect_ok (e : expr) : Prop := indexable e -> forall st rest, ready st -> exists v, selected v = Some e /\ steps (st, dtoks e +++ rest) (v :: st, rest).
Lemma paren_shift y st : ready st -> action (SE y :: ST (P LPAREN) :: st) (Some (P RPAREN)) = Shift.
Proof. intros HR. cbn [action]. pose proof (ready_call _ HR) as E. destruct st as [|[] st]; cbn in HR; try contradiction; [reflexivity|]. cbn [after_expr]. rewrite E. reflexivity. Qed.
Lemma dmembers (l : list expr) : Forall dfull_ok l -> forall y st rest, In y l -> ready st -> room st 0 -> closer (hd_error rest) -> infix (hd_error rest) = None -> parses (dtoks y) y st rest.
Proof. intros H y st rest Hy H1 H2 H3 H4. rewrite Forall_forall in H. apply H; auto. Qed.
Lemma parse_dtoks_in e : written e -> codable e = true -> dfull_ok e /\ dselect_ok e.
Proof.
  intros HW HC. fine e HW HC (fun e => dfull_ok e /\ dselect_ok e).
  - intros s H. assert (dselect_ok (XId s)) as HS.
    { intros _ st rest HR. exists (SId s). split; auto. cbn [dtoks app]. apply one_shift; [now apply shift_ready|]. eapply one_reduce; [now apply ready_id|apply s_refl]. }
    split; auto. intros st rest HR HC. destruct (HS I st rest HR) as (v & E & K). eapply steps_trans; [exact K|]. eapply one_reduce; [eapply select_expr; eassumption|apply s_refl].
  - intros k s H. split; [|intros []]. intros st rest HR HC. unfold parses. cbn [dtoks app]. rewrite (int_tok_ok _ _ H). apply one_shift; [now apply shift_ready|]. eapply one_reduce; [reflexivity|apply s_refl].
  - intros o a H1 H2 [IH _]. split; [|intros []]. intros st rest HR HC. unfold parses. cbn [dtoks app]. apply one_shift; [now apply shift_ready|]. apply one_shift; [apply shift_ready; [reflexivity|destruct o; discriminate H1 || reflexivity]|].
    rewrite <- app_assoc. cbn [app]. eapply steps_trans; [apply IH; [destruct o; discriminate H1 || reflexivity|exact I]|]. eapply one_reduce; [apply after_unary; auto; reflexivity|]. apply one_shift; [now apply paren_shift|]. eapply one_reduce; [reflexivity|apply s_refl].
  - intros o a b H1 [IHa _] [IHb _]. split; [|intros []]. intros st rest HR HC. unfold parses. cbn [dtoks app]. rewrite <- app_assoc. cbn [app]. rewrite <- app_assoc. cbn [app]. apply one_shift; [now apply shift_ready|].
    eapply steps_trans; [apply IHa; [reflexivity|cbn [hd_error]; now apply closer_binary]|]. apply one_shift; [apply (room_paren st 0 a _ (level o)); [now apply infix_binary|lia]|].
    eapply steps_trans; [apply IHb; [now apply opener_binary|exact I]|]. eapply one_reduce; [cbn [action hd_error]; rewrite after_binary by auto; reflexivity|]. apply one_shift; [now apply paren_shift|]. eapply one_reduce; [reflexivity|apply s_refl].
  - intros c t f [IHc _] [IHt _] [IHf _]. split; [|intros []]. intros st rest HR HC. unfold parses. cbn [dtoks app]. rewrite <- app_assoc. cbn [app]. rewrite <- app_assoc. cbn [app]. rewrite <- app_assoc. cbn [app].
    apply one_shift; [now apply shift_ready|]. apply one_shift; [now apply shift_ready|]. eapply steps_trans; [apply IHc; [reflexivity|exact I]|]. apply one_shift; [now apply paren_shift|]. eapply one_reduce; [reflexivity|].
    apply one_shift; [apply (room_paren st 0 c _ 0); [reflexivity|lia]|]. eapply steps_trans; [apply IHt; [reflexivity|exact I]|]. apply one_shift; [reflexivity|]. eapply steps_trans; [apply IHf; [reflexivity|exact I]|].
    eapply one_reduce; [reflexivity|]. apply one_shift; [now apply paren_shift|]. eapply one_reduce; [reflexivity|apply s_refl].
  - intros l Hl IH. split; [|intros []]. intros st rest HR HC. unfold parses. cbn [dtoks app]. rewrite <- app_assoc. apply one_shift; [now apply shift_ready|]. destruct l as [|x l]; [congruence|].
    eapply steps_trans; [apply (list_first dtoks); [left; eauto|apply dmembers; revert IH; apply Forall_impl; tauto]|]. cbn [app]. apply one_shift; [reflexivity|]. eapply one_reduce; [reflexivity|]. eapply one_reduce; [now apply ready_concat|apply s_refl].
  - intros v m l Hi [_ IHv] [IHm _] [IHl _]. split; [|intros []]. intros st rest HR HC. unfold parses. cbn [dtoks]. rewrite <- app_assoc. destruct (IHv Hi st ((P LBRACKET :: dtoks m +++ P COLON :: dtoks l +++ [P RBRACKET]) +++ rest) HR) as (w & E & K).
    eapply steps_trans; [exact K|]. cbn [app]. apply one_shift; [now apply (select_shift w v)|]. rewrite <- app_assoc. cbn [app]. eapply steps_trans; [apply IHm; [reflexivity|exact I]|].
    apply one_shift; [now apply (bracket_shift m w v)|]. rewrite <- app_assoc. cbn [app]. eapply steps_trans; [apply IHl; [reflexivity|exact I]|]. apply one_shift; [now apply (colon_shift l m w v)|]. eapply one_reduce; [eapply close_part; eassumption|apply s_refl].
  - intros v p Hi [_ IHv] [IHp _]. assert (dselect_ok (XPtr v p)) as HS.
    { intros _ st rest HR. exists (SPtr (XPtr v p)). split; auto. cbn [dtoks]. rewrite <- app_assoc. destruct (IHv Hi st ((P LBRACKET :: dtoks p +++ [P RBRACKET]) +++ rest) HR) as (w & E & K).
      eapply steps_trans; [exact K|]. cbn [app]. apply one_shift; [now apply (select_shift w v)|]. rewrite <- app_assoc. cbn [app]. eapply steps_trans; [apply IHp; [reflexivity|exact I]|].
      apply one_shift; [now apply (bracket_shift p w v)|]. eapply one_reduce; [eapply close_ptr; eassumption|apply s_refl]. }
    split; auto. intros st rest HR HC. destruct (HS I st rest HR) as (w & E & K). eapply steps_trans; [exact K|]. eapply one_reduce; [eapply select_expr; eassumption|apply s_refl].
  - intros f l Hf Hl IH. split; [|intros []]. intros st rest HR HC. unfold parses. cbn [dtoks app]. apply one_shift; [now apply shift_ready|].
    assert (exists t, id_token f = t /\ call_head t = Some f /\ action (ST t :: ST (P DOLLER) :: st) (Some (P LPAREN)) = Shift /\ action (ST (P DOLLER) :: st) (Some t) = Shift) as (t & -> & HT & HA & HA3).
    { destruct Hf as [Hf| ->]; [exists (ID f); split; [now apply id_tok_simple|auto]|exists (KW "signed"); auto]. }
    apply one_shift; auto. rewrite <- app_assoc. apply one_shift; auto. destruct l as [|x l]; [congruence|].
    eapply steps_trans; [apply (list_first dtoks); [right; split; auto; eexists; split; [reflexivity|]; cbn [call_before]; now rewrite HT|apply dmembers; revert IH; apply Forall_impl; tauto]|]. cbn [app]. apply one_shift; [reflexivity|]. eapply one_reduce; [cbn [action close_paren]; now rewrite HT|apply s_refl].
Qed.
Theorem parse_dps e : written e -> codable e = true -> exists n0, forall n, n0 <= n -> parse_text n (render (dps e)) = Ok e.
Proof.
  intros HW HC. destruct (lex_render (dps e)) as (l & E1 & E2); [apply ok_dps; auto|]. unfold parse_text. rewrite E1. cbn [bind]. rewrite E2, toks_dps by auto.
  apply steps_run. destruct (parse_dtoks_in e HW HC) as [K _]. rewrite <- (app_nil_r (dtoks e)). apply K; exact I.
Qed.

(** ** The text of a tree *)
Lemma dl_app a : ScopeModel.drop_last (a ++ ",") = a.
Proof. induction a as [|c a IH]; auto. cbn [append]. change (ScopeModel.drop_last (String c (a ++ ","))) with (match a ++ "," with "" => "" | _ => String c (ScopeModel.drop_last (a ++ ",")) end). rewrite IH. destruct a; reflexivity. Qed.
Lemma concat_comma x l : String.concat "" (map (fun s => s ++ ",") (x :: l)) = String.concat "," (x :: l) ++ ",".
Proof.
  revert x. induction l as [|y l IH]; intros x; [reflexivity|]. change (String.concat "" (map (fun s => s ++ ",") (x :: y :: l))) with ((x ++ ",") ++ "" ++ String.concat "" (map (fun s => s ++ ",") (y :: l))).
  rewrite IH. change (String.concat "," (x :: y :: l)) with (x ++ "," ++ String.concat "," (y :: l)). now rewrite !app_assoc_s.
Qed.
Lemma members_comma open x l : members open (x :: l) = open ++ String.concat "," (x :: l).
Proof. unfold members. rewrite concat_comma, <- app_assoc_s. apply dl_app. Qed.
Lemma pjoin_comma l : render (pjoin true l) = String.concat "," (map render l).
Proof. rewrite render_join. induction (map render l) as [|x [|y r] IH]; auto. change (String.concat "," (x :: y :: r)) with (x ++ "," ++ String.concat "," (y :: r)). now rewrite <- IH. Qed.
Lemma dps_inj a b : written a -> codable a = true -> written b -> codable b = true -> render (dps a) = render (dps b) -> a = b.
Proof.
  intros H1 H2 H3 H4 E. destruct (parse_dps a H1 H2) as (n1 & K1). destruct (parse_dps b H3 H4) as (n2 & K2). specialize (K1 (n1 + n2) ltac:(lia)). specialize (K2 (n1 + n2) ltac:(lia)). rewrite E in K1. congruence.
Qed.
Lemma op_mark o : o <> Uplus -> op2mark o = Some (punct_text (if is_unary o then unary_punct o else binary_punct o)).
Proof. destruct o; congruence || reflexivity. Qed.
Lemma width_literal w s : width_str (Some w) ++ "'d" ++ s = literal w s.
Proof.
  unfold literal, width_str. destruct (Z.eqb_spec w 32) as [->|N]; [reflexivity|]. destruct w as [|p|p]; auto. repeat (destruct p as [p|p|]; auto). congruence.
Qed.
Definition said (dest : string) (t : df) : Prop := forall e, stands dest t e -> written e -> codable e = true -> tocode dest t = Ok (render (dps e)).
Lemma said_list dest l xs : Forall (said dest) l -> Forall2 (stands dest) l xs -> Forall written xs -> forallb codable xs = true -> mapM (tocode dest) l = Ok (map (fun x => render (dps x)) xs).
Proof.
  intros H. revert xs. induction H as [|t l Ht H IH]; intros xs HS HW HC; inversion HS; subst; auto. inversion HW; subst. cbn [forallb] in HC. apply andb_true_iff in HC as [C1 C2]. cbn [mapM map]. rewrite (Ht y) by auto. cbn [bind]. rewrite (IH l') by auto. reflexivity.
Qed.
Lemma said_arm dest t y : said dest t -> arm_stands dest t y -> written y -> codable y = true -> arm dest t (tocode dest t) = Ok (render (dps y)).
Proof.
  intros H HA HW HC. destruct HA as [|t y HS]; [cbn; now rewrite app_nil_s|]. specialize (H _ HS HW HC). destruct t; auto. inversion HS.
Qed.
Lemma text_ok dest t : said dest t.
Proof.
  induction t as [|n|s|s|s|l o IH|v m l IHv IHm IHl|v p IHv IHp|l IH|c t f IHc IHt IHf|v w fl s|w|w|t IH|s l IH] using df_ind'; intros e HS HW HC; inversion HS; subst.
  - cbn. now rewrite app_nil_s.
  - cbn. inversion HW; subst. erewrite int_tok_ok by eassumption. cbn. now rewrite app_nil_s.
  - cbn [codable] in HC. inversion HW; subst. inversion IH as [|? ? I1 _]; subst. assert (codable x = true /\ o <> Uplus) as [C1 C2] by (destruct o; split; discriminate || exact HC). cbn [tocode]. rewrite (op_mark o C2), (I1 x) by auto. cbn [bind]. match goal with H : is_unary o = _ |- _ => rewrite H end. cbn [dps]. rd. reflexivity.
  - cbn [codable] in HC. apply andb_true_iff in HC as [C1 C2]. inversion HW; subst. inversion IH as [|? ? I1 I2]; subst. inversion I2 as [|? ? I3 _]; subst. assert (o <> Uplus) as C3 by (intros ->; discriminate). cbn [tocode]. rewrite (op_mark o C3), (I1 x), (I3 y) by auto. cbn [bind]. match goal with H : is_unary o = _ |- _ => rewrite H end. cbn [dps]. unfold LP, RP. rd. reflexivity.
  - cbn [codable] in HC. apply andb_true_iff in HC as [HC C3]. apply andb_true_iff in HC as [C1 C2]. inversion HW; subst. cbn [tocode]. rewrite (IHv x), (IHm y), (IHl z) by auto. cbn [bind]. destruct (String.eqb_spec (render (dps y)) (render (dps z))) as [E|_]; [apply dps_inj in E; auto; congruence|]. cbn [dps]. rd. reflexivity.
  - cbn [codable] in HC. apply andb_true_iff in HC as [C1 C2]. inversion HW; subst. cbn [tocode]. rewrite (IHv x), (IHm y), (IHl y) by auto. cbn [bind]. rewrite String.eqb_refl. cbn [dps]. rd. reflexivity.
  - cbn [codable] in HC. apply andb_true_iff in HC as [C1 C2]. inversion HW; subst. cbn [tocode]. rewrite (IHv x), (IHp y) by auto. cbn [bind dps]. rd. reflexivity.
  - cbn [codable] in HC. inversion HW; subst. cbn [tocode]. change (mapM (tocode dest) l) with (mapM (tocode dest) l). rewrite (said_list dest l xs) by auto. cbn [bind dps]. destruct xs as [|x xs]; [congruence|]. cbn [map]. rewrite members_comma. rd. rewrite pjoin_comma. cbn [map]. rewrite map_map. reflexivity.
  - cbn [codable] in HC. apply andb_true_iff in HC as [HC C3]. apply andb_true_iff in HC as [C1 C2]. inversion HW; subst. cbn [tocode].
    assert (match c with DNone => Ok "" | _ => do x <- tocode dest c; Ok ("(" ++ x ++ ")") end = Ok ("(" ++ render (dps x) ++ ")")) as -> by (rewrite (IHc x) by auto; destruct c; auto; inversion H2).
    cbn [bind]. rewrite (said_arm dest t y), (said_arm dest f z) by auto. cbn [bind dps]. unfold LP, RP. rd. reflexivity.
  - cbn [tocode eval_repr]. assert ((v0 <? 0)%Z = false) as -> by (apply Z.ltb_ge; auto). rewrite width_literal. inversion HW; subst. cbn [dps]. erewrite int_tok_ok by eassumption. rd. now rewrite app_nil_s.
  - cbn [tocode eval_repr]. assert ((v0 <? 0)%Z = true) as -> by (apply Z.ltb_lt; auto). rewrite Z.abs_neq by lia. inversion HW as [| |? ? ? HW2| | | | | | | |]; subst. inversion HW2; subst. cbn [dps]. erewrite int_tok_ok by eassumption. unfold LP, RP. rd. rewrite <- width_literal. rewrite !app_assoc_s. reflexivity.
  - cbn [tocode]. change "'dx" with ("'d" ++ "x"). rewrite width_literal. inversion HW; subst. cbn [dps]. erewrite int_tok_ok by eassumption. rd. now rewrite app_nil_s.
  - cbn [tocode]. change "'dz" with ("'d" ++ "z"). rewrite width_literal. inversion HW; subst. cbn [dps]. erewrite int_tok_ok by eassumption. rd. now rewrite app_nil_s.
  - cbn [codable] in HC. apply andb_true_iff in HC as [HC C3]. apply andb_true_iff in HC as [C1 C2]. inversion HW; subst. cbn [tocode]. rewrite (said_list dest l xs) by auto. cbn [bind dps]. destruct xs as [|x xs]; [discriminate|]. cbn [map]. rewrite members_comma. unfold LP, RP. rd. rewrite id_token_text, pjoin_comma. cbn [map]. rewrite map_map. reflexivity.
Qed.
