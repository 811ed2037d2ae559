(** StmText.v - the text of a statement is lexed to its tokens. *)
From Verif Require Import Base DfModel LexModel LexSpec LexProofs ExprModel ExprSpec ExprLex ExprText ExprText2 ExprText3 StmModel StmSpec.
From Verif Require LitProofs.
Require Import Coq.Strings.Ascii.
Local Open Scope string_scope.
Local Notation "a +++ b" := (@app _ a b) (at level 60, right associativity).

(** [s] is lexed to [ts], also if a character follows that cannot be part of a word. *)
Definition spells (s : string) (ts : list token) : Prop := exists ps, render ps = s /\ toks ps = ts /\ ok ps.
Lemma spells_lex s ts : spells s ts -> exists l, lex 1 s = Ok l /\ map lt_tok (l_tokens l) = ts.
Proof. intros (ps & <- & <- & H & _). exact (lex_render ps H). Qed.
Lemma spells_nil : spells "" [].
Proof. exists []. split; [reflexivity|]. split; [reflexivity|]. split; [exact I|]. intros c s _. exact I. Qed.
(** First characters. *)
Definition starts_sep (s : string) : Prop := exists c r, s = String c r /\ ends_number c = true.
Lemma spells_app a b ta tb : spells a ta -> spells b tb -> starts_sep b -> spells (a ++ b) (ta +++ tb).
Proof.
  intros (p & <- & <- & Hp) (q & <- & <- & Hq) H. exists (p +++ q). split; [apply render_app|]. split; [apply toks_app|]. now apply ok_app.
Qed.
Lemma spells_blank s ts : spells s ts -> spells (String " " s) ts.
Proof. intros (p & <- & <- & H). exists (PB :: p). split; [reflexivity|]. split; [reflexivity|]. exact (ok_sp false p H). Qed.
Lemma spells_nl s ts : spells s ts -> spells (String NL s) ts.
Proof. intros (p & <- & <- & H). exists (PN :: p). split; [reflexivity|]. split; [reflexivity|]. destruct H as [H1 H2]. split; [cbn [lexable pvalid pok]; auto|]. intros c s Hc. destruct p as [|q p]; [exact I|]. exact (H2 c s Hc). Qed.
Lemma spells_newline s ts : spells s ts -> s <> "" -> stops (fun c => ceqb c NL) s -> spells (String NL s) ts.
Proof. intros H _ _. now apply spells_nl. Qed.
(** A token followed by a text it does not run into. *)
Lemma spells_tok t s ts : valid t -> follows t s -> (s = "" -> forall c, ends_number c = true -> ok_after t c = true) -> spells s ts -> spells (text_of t ++ s) (t :: ts).
Proof.
  intros HV HF HE (p & <- & <- & H1 & H2). exists (PT t :: p). split; [reflexivity|]. split; [reflexivity|]. split; [cbn [lexable pvalid pok]; auto|].
  intros c s Hc. destruct p as [|q p]; [exact (HE eq_refl c Hc)|]. exact (H2 c s Hc).
Qed.
Definition loose (p : punct) : bool :=
  match p with LPAREN | RPAREN | LBRACE | RBRACE | LBRACKET | RBRACKET | COMMA | COLON | COND | DOLLER | SEMICOLON | AT | DELAY => true | _ => false end.
Lemma spells_punct p s ts : loose p = true -> spells s ts -> spells (punct_text p ++ s) (P p :: ts).
Proof. intros H. apply (spells_tok (P p)); [exact I|destruct s; cbn; auto; destruct p; discriminate H || reflexivity|]. intros _ c _. destruct p; discriminate H || reflexivity. Qed.
Lemma ends_id c : ends_number c = true -> id_char c = false.
Proof. unfold ends_number. intros H. apply andb_true_iff in H as [H _]. now apply negb_true_iff in H. Qed.
Lemma kw_plain w : In w reserved -> escaped w = false.
Proof. intros E. assert (Forall (fun s => escaped s = false) reserved) as K by (repeat (constructor; [reflexivity|]); constructor). rewrite Forall_forall in K. exact (K _ E). Qed.
Lemma spells_kw w s ts : In w reserved -> s = "" \/ starts_sep s -> spells s ts -> spells (w ++ s) (KW w :: ts).
Proof.
  intros HW HS H. apply (spells_tok (KW w)); [exact HW| | |exact H].
  - destruct HS as [->|(c & r & -> & K)]; [exact I|]. cbn [follows ok_after]. rewrite (kw_plain _ HW). now rewrite (ends_id _ K).
  - intros _ c Hc. cbn [ok_after]. rewrite (kw_plain _ HW). now rewrite (ends_id _ Hc).
Qed.
Lemma sep_blank s : starts_sep (String " " s).
Proof. eexists _, _. split; reflexivity. Qed.
Lemma sep_newline s : starts_sep (String NL s).
Proof. eexists _, _. split; reflexivity. Qed.
Lemma sep_app a b : starts_sep a -> starts_sep (a ++ b).
Proof. intros (c & r & -> & H). exists c, (r ++ b). auto. Qed.

(** ** Expressions *)
Lemma spells_inner e : good e -> spells (gen_rvalue e) (etoks e).
Proof. intros H. rewrite (gen_inner e H). exists (inner false e). split; [reflexivity|]. split; [now apply toks_inner|]. apply ok_inner; auto. discriminate. Qed.
Lemma spells_full e : good e -> spells (gen e) (ftoks e).
Proof.
  intros H. rewrite (gen_full e H). exists (full false e). split; [reflexivity|]. split; [unfold full; now rewrite toks_wrap, toks_inner|]. apply ok_wrap, ok_inner; auto. discriminate.
Qed.
Lemma spells_tight e : good e -> blank_free e = true -> spells (del_space (gen_rvalue e)) (etoks e).
Proof. intros H B. rewrite (gen_inner e H), (ds_inner e H). exists (inner true e). split; [reflexivity|]. split; [now apply toks_inner|]. apply ok_inner; auto. Qed.
Lemma spells_join l : l <> [] -> Forall good l -> spells (join (map (fun c => del_paren (gen c)) l)) (tjoin (map etoks l)).
Proof.
  intros HN H. induction H as [|x l Hx H IH]; [congruence|]. destruct l as [|y l]; [exact (spells_inner x Hx)|].
  change (spells (gen_rvalue x ++ ", " ++ join (map (fun c => del_paren (gen c)) (y :: l))) (etoks x +++ P COMMA :: tjoin (map etoks (y :: l)))).
  apply spells_app; [now apply spells_inner| |eexists _, _; split; reflexivity]. apply (spells_punct COMMA); [reflexivity|]. apply spells_blank. apply IH. discriminate.
Qed.

(** ** Indentation *)
Fixpoint pblanks (n : nat) : list piece := match n with O => [] | S n => PB :: pblanks n end.
Fixpoint pindent (n : nat) (bol : bool) (ps : list piece) : list piece :=
  match ps with
  | [] => []
  | PN :: r => PN :: pindent n true r
  | p :: r => (if bol && negb (blank_line (render ps)) then pblanks n else []) +++ p :: pindent n false r
  end.
Lemma render_pblanks n : render (pblanks n) = blanks n.
Proof. induction n; cbn; congruence. Qed.
Lemma toks_pblanks n : toks (pblanks n) = [].
Proof. induction n; cbn; congruence. Qed.
(** A text without newlines. *)
Lemma indent_line pre a s bol : all_chars (fun c => negb (ceqb c NL)) a -> a <> "" ->
  indent_go pre bol (a ++ s) = (if bol && negb (blank_line (a ++ s)) then pre else "") ++ a ++ indent_go pre false s.
Proof.
  intros H. revert bol. induction a as [|c a IH]; intros bol HN; [congruence|]. inversion H as [|x y Hc Ha]; subst. cbn [append indent_go].
  apply negb_true_iff in Hc. rewrite Hc. destruct a as [|d a]; [reflexivity|]. rewrite (IH Ha false) by discriminate. cbn [andb append]. reflexivity.
Qed.
Lemma valid_line t : valid t -> all_chars (fun c => negb (ceqb c NL)) (text_of t).
Proof.
  assert (forall c, id_start c = true -> negb (ceqb c NL) = true) as K1 by (apply LitProofs.char_imp; vm_compute; reflexivity).
  assert (forall c, id_char c = true -> negb (ceqb c NL) = true) as K2 by (apply LitProofs.char_imp; vm_compute; reflexivity).
  assert (forall c, negb (is_space c) = true -> negb (ceqb c NL) = true) as K3 by (apply LitProofs.char_imp; vm_compute; reflexivity).
  destruct t as [p|s|s|s|s|k s]; cbn [valid text_of]; intros H; try contradiction.
  - destruct p; repeat (constructor; [reflexivity|]); constructor.
  - destruct H as [(c & r & -> & H1 & H2 & _)|(c & r & -> & H)].
    + constructor; auto. eapply all_imp; eassumption.
    + constructor; [reflexivity|]. change (all_chars (fun c => negb (ceqb c NL)) (String c r)). exact (all_imp _ _ _ K3 H).
  - assert (Forall (fun s => forallb (fun c => negb (ceqb c NL)) (list_ascii_of_string s) = true) reserved) as K by (repeat (constructor; [reflexivity|]); constructor).
    rewrite Forall_forall in K. apply Forall_forall. apply forallb_forall. exact (K _ H).
  - assert (forall (p : ascii -> bool) a, forallb (fun c => implb (p c) (negb (ceqb c NL))) (map ascii_of_nat (seq 0 256)) = true -> all_chars p a -> all_chars (fun c => negb (ceqb c NL)) a) as KP by (intros p a Hp; apply all_imp; apply LitProofs.char_imp; exact Hp).
    assert (forall (p : ascii -> bool) c, forallb (fun c => implb (p c) (negb (ceqb c NL))) (map ascii_of_nat (seq 0 256)) = true -> p c = true -> negb (ceqb c NL) = true) as KC by (intros p c Hp; exact (LitProofs.char_imp p _ Hp c)).
    destruct H; repeat first [apply all_app|constructor]; try (eapply KP; [|eassumption]; vm_compute; reflexivity); try (eapply KC; [|eassumption]; vm_compute; reflexivity); try reflexivity.
Qed.
Lemma render_pindent n ps : forall bol, Forall pvalid ps -> render (pindent n bol ps) = indent_go (blanks n) bol (render ps).
Proof.
  induction ps as [|p ps IH]; intros bol H; [reflexivity|]. inversion H as [|x y Hp Hs]; subst. destruct p as [t| |].
  - cbn [pindent]. rewrite render_app. cbn [render ptext]. rewrite (indent_line (blanks n) (text_of t)); [|exact (valid_line t Hp)|exact (valid_nonempty t Hp)].
    rewrite IH by assumption. destruct (bol && _); [now rewrite render_pblanks|reflexivity].
  - cbn [pindent]. rewrite render_app. cbn [render ptext append]. cbn [indent_go]. change (ceqb " " NL) with false. rewrite IH by assumption. destruct (bol && _); [now rewrite render_pblanks|reflexivity].
  - cbn [pindent render ptext append indent_go]. change (ceqb NL NL) with true. rewrite IH by assumption. change (blank_line (String NL (render ps))) with true. cbn [negb]. rewrite andb_false_r. reflexivity.
Qed.
Lemma toks_pindent n ps : forall bol, toks (pindent n bol ps) = toks ps.
Proof.
  induction ps as [|[t| |] ps IH]; intros bol; cbn [pindent]; [reflexivity|..]; rewrite ?toks_app; cbn [toks]; rewrite ?IH; try reflexivity; destruct (bol && _); rewrite ?toks_pblanks; reflexivity.
Qed.
Lemma lexable_pblanks n ps : lexable ps -> lexable (pblanks n +++ ps).
Proof. intros H. induction n as [|n IH]; cbn [pblanks app lexable pvalid pok]; auto. Qed.
Lemma pok_pindent n ps p : pvalid p -> Forall pvalid ps -> pok p (render ps) -> pok p (render (pindent n (match p with PN => true | _ => false end) ps)).
Proof.
  intros Hp H K. rewrite render_pindent by assumption. destruct (render ps) as [|c s]; [exact K|]. cbn [indent_go].
  destruct (match p with PN => true | _ => false end && negb (blank_line (String c s))) eqn:E; [|destruct p; exact K]. destruct p as [t| |]; try discriminate E.
  destruct n as [|n]; [exact K|reflexivity].
Qed.
Lemma lexable_valid ps : lexable ps -> Forall pvalid ps.
Proof. induction ps as [|p ps IH]; constructor; cbn in H; tauto. Qed.
Lemma lexable_pindent n ps : forall bol, lexable ps -> lexable (pindent n bol ps).
Proof.
  induction ps as [|p ps IH]; intros bol H; [exact I|]. pose proof (lexable_valid _ H) as HV. inversion HV as [|x y Hp Hs]; subst. destruct H as (H1 & H2 & H3).
  destruct p as [t| |]; cbn [pindent].
  - assert (lexable (PT t :: pindent n false ps)) as K by (cbn [lexable]; split; [exact H1|]; split; [exact (pok_pindent n ps (PT t) Hp Hs H2)|exact (IH false H3)]). destruct (bol && _); [now apply lexable_pblanks|exact K].
  - assert (lexable (PB :: pindent n false ps)) as K by (cbn [lexable pvalid pok]; auto). destruct (bol && _); [now apply lexable_pblanks|exact K].
  - cbn [lexable]. split; [exact H1|]. split; [exact (pok_pindent n ps PN Hp Hs H2)|auto].
Qed.
Lemma joins_pblanks n ps s : ps <> [] -> joins (pblanks n +++ ps) s = joins ps s.
Proof. apply joins_app. Qed.
Lemma pindent_nonempty n ps bol : ps <> [] -> pindent n bol ps <> [].
Proof. destruct ps as [|[t| |] ps]; intros H; [congruence|..]; cbn [pindent]; try discriminate; destruct (bol && _); try discriminate; destruct n; discriminate. Qed.
Lemma joins_cons p ps s : ps <> [] -> joins (p :: ps) s = joins ps s.
Proof. destruct ps; [congruence|reflexivity]. Qed.
Lemma joins_pindent n ps s : forall bol, joins (pindent n bol ps) s = joins ps s.
Proof.
  induction ps as [|p ps IH]; intros bol; [reflexivity|].
  assert (forall b, joins (p :: pindent n b ps) s = joins (p :: ps) s) as K.
  { intros b. destruct ps as [|q ps]; [reflexivity|]. rewrite (joins_cons p (q :: ps)) by discriminate. rewrite joins_cons; [apply IH|]. now apply pindent_nonempty. }
  destruct p as [t| |]; cbn [pindent]; [| |apply K]; destruct (bol && _); cbn [app]; rewrite ?joins_pblanks by discriminate; apply K.
Qed.
Lemma ok_pindent n bol ps : ok ps -> ok (pindent n bol ps).
Proof. intros [H1 H2]. split; [now apply lexable_pindent|]. intros c s Hc. rewrite joins_pindent. now apply H2. Qed.
Lemma spells_indent n s ts : spells s ts -> spells (indent (blanks n) s) ts.
Proof.
  intros (p & <- & <- & H). exists (pindent n true p). split; [apply render_pindent, lexable_valid, H|]. split; [apply toks_pindent|]. now apply ok_pindent.
Qed.
(** Assignments over several lines: the lines after the first. *)
Fixpoint pafter (n : nat) (ps : list piece) : list piece := match ps with [] => [] | PN :: r => PN :: pindent n true r | p :: r => p :: pafter n r end.
Fixpoint single (ps : list piece) : bool := match ps with [] => true | PN :: _ => false | _ :: r => single r end.
Lemma split_line_app a s : all_chars (fun c => negb (ceqb c NL)) a -> split_line (a ++ s) = (a ++ fst (split_line s), snd (split_line s)).
Proof.
  induction a as [|c a IH]; intros H; [cbn; now destruct (split_line s)|]. inversion H as [|x y Hc Ha]; subst. cbn [append split_line]. apply negb_true_iff in Hc. rewrite Hc, (IH Ha). reflexivity.
Qed.
Lemma render_pafter n ps : Forall pvalid ps ->
  match split_line (render ps) with (a, None) => pafter n ps = ps | (a, Some r) => render (pafter n ps) = a ++ String NL (indent (blanks n) r) end.
Proof.
  induction ps as [|p ps IH]; intros H; [reflexivity|]. inversion H as [|x y Hp Hs]; subst. specialize (IH Hs). destruct p as [t| |]; cbn [render ptext pafter].
  - rewrite (split_line_app (text_of t)) by exact (valid_line t Hp). destruct (split_line (render ps)) as [a [r|]]; cbn [fst snd]; rewrite IH; [now rewrite app_assoc_s|reflexivity].
  - cbn [append split_line]. change (ceqb " " NL) with false. cbn iota. destruct (split_line (render ps)) as [a [r|]]; cbn [fst snd]; rewrite IH; reflexivity.
  - cbn [append split_line]. change (ceqb NL NL) with true. cbn iota. now rewrite render_pindent.
Qed.
Lemma toks_pafter n ps : toks (pafter n ps) = toks ps.
Proof. induction ps as [|[t| |] ps IH]; cbn [pafter toks]; rewrite ?toks_pindent, ?IH; reflexivity. Qed.
Lemma lexable_pafter n ps : lexable ps -> lexable (pafter n ps).
Proof.
  induction ps as [|p ps IH]; intros H; [exact I|]. pose proof (lexable_valid _ H) as HV. inversion HV as [|x y Hp Hs]; subst. destruct H as (H1 & H2 & H3).
  assert (pok p (render ps) -> p <> PN -> pok p (render (pafter n ps))) as K.
  { intros K HN. destruct ps as [|q ps]; [exact K|]. inversion Hs as [|x y Hq _]; subst. destruct q as [t| |]; cbn [pafter render ptext] in *; [|exact K|exact K].
    pose proof (valid_nonempty t Hq) as E. destruct (text_of t) as [|c s]; [congruence|]. destruct p; exact K. }
  destruct p as [t| |]; cbn [pafter lexable].
  - split; [exact H1|]. split; [apply K; [exact H2|discriminate]|auto].
  - split; [exact H1|]. split; [exact I|auto].
  - split; [exact H1|]. split; [exact (pok_pindent n ps PN Hp Hs H2)|now apply lexable_pindent].
Qed.
Lemma pafter_nonempty n ps : ps <> [] -> pafter n ps <> [].
Proof. destruct ps as [|[t| |] ps]; intros H; [congruence|..]; discriminate. Qed.
Lemma joins_pafter n ps s : joins (pafter n ps) s = joins ps s.
Proof.
  induction ps as [|p ps IH]; [reflexivity|]. destruct ps as [|q ps]; [destruct p; reflexivity|].
  assert (joins (pafter n (p :: q :: ps)) s = joins (match p with PN => pindent n true (q :: ps) | _ => pafter n (q :: ps) end) s) as ->.
  { destruct p as [t| |]; [change (pafter n (PT t :: q :: ps)) with (PT t :: pafter n (q :: ps))|change (pafter n (PB :: q :: ps)) with (PB :: pafter n (q :: ps))|change (pafter n (PN :: q :: ps)) with (PN :: pindent n true (q :: ps))];
    apply joins_cons; first [apply pafter_nonempty; discriminate|apply pindent_nonempty; discriminate]. }
  rewrite (joins_cons p (q :: ps)) by discriminate. destruct p; [exact IH|exact IH|apply joins_pindent].
Qed.
Lemma spells_multiline s ts : spells s ts -> spells (indent_multiline_assign s) ts.
Proof.
  intros H. pose proof H as (p & <- & <- & H1 & H2). unfold indent_multiline_assign. destruct (split_line (render p)) as [a [r|]] eqn:E; [|exact H].
  destruct (index_eq (render p)) as [i|]; [|exact H]. exists (pafter (i + 2) p). pose proof (render_pafter (i + 2) p (lexable_valid _ H1)) as K. rewrite E in K. split; [exact K|]. split; [apply toks_pafter|].
  split; [now apply lexable_pafter|]. intros c s Hc. rewrite joins_pafter. now apply H2.
Qed.
(** Removing blanks again. *)
Lemma ds_blanks n s : del_space (blanks n ++ s) = del_space s.
Proof. induction n; auto. Qed.
Lemma ds_indent n s : forall bol, del_space (indent_go (blanks n) bol s) = del_space s.
Proof.
  induction s as [|c s IH]; intros bol; [reflexivity|]. cbn [indent_go]. assert (del_space (String c (indent_go (blanks n) (ceqb c NL) s)) = del_space (String c s)) as K by (cbn [del_space]; now rewrite IH).
  destruct (bol && _); [rewrite ds_blanks|]; exact K.
Qed.
Lemma split_line_eq s : match split_line s with (a, None) => True | (a, Some r) => s = a ++ String NL r end.
Proof.
  induction s as [|c s IH]; cbn [split_line]; [exact I|]. destruct (ceqb c NL) eqn:E; [apply ceqb_true in E as ->; reflexivity|]. destruct (split_line s) as [a [r|]]; [now rewrite IH|exact I].
Qed.
Lemma ds_multiline s : del_space (indent_multiline_assign s) = del_space s.
Proof.
  unfold indent_multiline_assign. pose proof (split_line_eq s) as E. destruct (split_line s) as [a [r|]]; [|reflexivity]. destruct (index_eq s) as [i|]; [|reflexivity]. rewrite E, !del_space_app. cbn [del_space]. change (ceqb NL " ") with false.
  cbn iota. unfold indent. now rewrite ds_indent.
Qed.
