(** SrcText3.v - the tokens of the text of a source file: items and modules. *)
From Verif Require Import Base DfModel LexModel LexSpec LexProofs ExprModel ParseModel ExprSpec ExprLex ExprText ExprText2 ExprText3 ExprSound StmModel StmSpec StmText StmText2 StmText3 SrcModel SrcSpec SrcText SrcText2.
Require Import Coq.Strings.Ascii.
Local Open Scope string_scope.
Local Notation "a +++ b" := (@app _ a b) (at level 60, right associativity).

(** A text that ends with the word end, or after which anything may follow. *)
Definition ends (a : string) (ta : list token) (w : bool) : Prop := (w = false -> sp a ta) /\ (w = true -> spw a ta /\ last_char a = Some "d"%char).
Lemma ends_spw a ta w : ends a ta w -> spw a ta.
Proof. intros [H1 H2]. destruct w; [now apply H2|now apply sp_spw, H1]. Qed.
Lemma sp_ends a ta : sp a ta -> ends a ta false.
Proof. intros H. split; [auto|discriminate]. Qed.
Lemma ends_app a b ta tb w : sp a ta -> ends b tb w -> b <> "" -> ends (a ++ b) (ta +++ tb) w.
Proof.
  intros H [H1 H2] HN. split; intros E.
  - apply sp_app; auto.
  - destruct (H2 E) as [K1 K2]. split; [now apply sp_appw|]. now rewrite last_app.
Qed.
Lemma ends_if c t e tt te wt we : good c -> ends t tt wt -> t <> "" ->
  match e with None => te = [] /\ we = false | Some e => exists te', te = KW "else" :: te' /\ ends e te' we /\ e <> "" end ->
  ends (if_text (del_paren (gen c)) t (match e with None => "" | Some e => e end)) (KW "if" :: P LPAREN :: etoks c +++ P RPAREN :: tt +++ te) we.
Proof.
  intros HG HT HN HE. unfold if_text. change ("if(" ++ del_paren (gen c) ++ ") " ++ ?x) with ("if" ++ String "(" (del_paren (gen c) ++ ")" ++ String " " x)).
  assert (forall x tx w, x <> "" -> ends x tx w -> ends ("if" ++ String "(" (del_paren (gen c) ++ ")" ++ String " " x)) (KW "if" :: P LPAREN :: etoks c +++ P RPAREN :: tx) w) as K0.
  { intros x tx w HX H.
    assert (sp ("if" ++ String "(" (del_paren (gen c) ++ ") ")) (KW "if" :: P LPAREN :: etoks c +++ [P RPAREN])) as K.
    { apply (spw_app _ _ [KW "if"]); [apply spw_kw; res|now apply sep_c|]. apply sp_cons; [exact (sp_punct LPAREN eq_refl)|]. apply spw_app; [exact (spw_inner c HG)|now apply sep_c|]. apply sp_cons; [exact (sp_punct RPAREN eq_refl)|]. exact sp_blank. }
    replace ("if" ++ String "(" (del_paren (gen c) ++ ")" ++ String " " x)) with (("if" ++ String "(" (del_paren (gen c) ++ ") ")) ++ x) by (cbn [append]; now rewrite app_assoc_s).
    replace (KW "if" :: P LPAREN :: etoks c +++ P RPAREN :: tx) with ((KW "if" :: P LPAREN :: etoks c +++ [P RPAREN]) +++ tx) by (cbn [app]; now rewrite <- app_assoc). now apply ends_app. }
  set (sep := match last_char t with Some d => if ceqb d " " || ceqb d NL then "" else " " | None => " " end).
  assert (forall r tr, spells r tr -> spells (t ++ sep ++ r) (tt +++ tr)) as KT.
  { intros r tr HR. destruct wt.
    - destruct (proj2 HT eq_refl) as [K1 K2]. unfold sep. rewrite K2. cbn [append]. apply K1; [now apply spells_blank|right; apply sep_blank].
    - apply (proj1 HT eq_refl). unfold sep. destruct (last_char t) as [d|]; [destruct (_ || _)|]; [exact HR|now apply spells_blank|now apply spells_blank]. }
  assert (forall x, t ++ x <> "") as KN by (destruct t; [congruence|discriminate]).
  apply K0; [apply KN|]. destruct e as [e|].
  - destruct HE as (te' & -> & HE & HF). destruct (String.eqb_spec e ""); [congruence|]. cbn [negb]. rewrite andb_true_r.
    set (nl := if Nat.eqb (newlines t) 0 then String NL "" else "").
    assert (sp (t ++ sep ++ nl ++ "else ") (tt +++ [KW "else"])) as K.
    { intros r tr HR. rewrite !app_assoc_s, <- app_assoc. apply KT. assert (spells ("else " ++ r) ([KW "else"] +++ tr)) as K by (apply (sp_kw "else"); [res|exact HR]). unfold nl. destruct (Nat.eqb _ _); [now apply spells_nl|exact K]. }
    replace (t ++ sep ++ nl ++ "else " ++ e) with ((t ++ sep ++ nl ++ "else ") ++ e) by now rewrite !app_assoc_s. replace (tt +++ KW "else" :: te') with ((tt +++ [KW "else"]) +++ te') by now rewrite <- app_assoc. now apply ends_app.
  - destruct HE as [-> ->]. change (String.eqb "" "") with true. cbn [negb]. rewrite andb_false_r. cbn [append]. rewrite app_nil_s, app_nil_r. apply sp_ends. intros r tr HR. rewrite app_assoc_s. now apply KT.
Qed.
Lemma item_text i : item_written i -> item_printable i = true -> sp (gen_item i) (itoks i).
Proof.
  destruct i as [k l s|s]; cbn [item_written item_printable].
  - intros (W1 & W2 & W3) HP. destruct k; try discriminate HP. apply andb_true_iff in HP as [P1 P2]. destruct (spells_stm s W2 P2) as (S1 & _). cbn [gen_item itoks]. apply sp_nl_cons.
    apply (sp_app "always " _ [KW "always"]); [apply (sp_kw "always"); res|]. cbn [append]. apply sp_cons; [exact (sp_punct AT eq_refl)|]. apply sp_cons; [exact (sp_punct LPAREN eq_refl)|].
    intros r tr HR. rewrite app_assoc_s, <- app_assoc. apply (spells_senslist l _ (stoks s +++ tr) (sens_is_good l W1 P1)). cbn [append]. apply spells_blank. rewrite app_assoc_s. apply (spells_spw _ _ S1); [now apply spells_nl|right; apply sep_newline].
  - intros W HP. destruct (spells_stm s W HP) as (S1 & _). cbn [gen_item itoks]. apply sp_nl_cons. apply (sp_app "initial " _ [KW "initial"]); [apply (sp_kw "initial"); res|]. rewrite <- (app_nil_r (stoks s)). apply spw_app; [now apply spells_spw|apply sep_newline|exact sp_nl].
Qed.
Lemma sp_nonempty a ta : sp a ta -> ta <> [] -> a <> "".
Proof. intros H HN ->. apply HN. apply spells_none. now apply sp_spells. Qed.
Lemma spw_nonempty a ta : spw a ta -> ta <> [] -> a <> "".
Proof. intros H HN ->. apply HN. apply spells_none. now apply spw_spells. Qed.
Lemma member_toks_nonempty m : member_good m -> member_toks m <> [].
Proof. destruct m; cbn [member_good member_toks]; contradiction || discriminate. Qed.
Lemma itoks_nonempty i : item_printable i = true -> itoks i <> [].
Proof. destruct i as [[] l s|s]; cbn [item_printable itoks]; discriminate. Qed.
Lemma for_text pre c post b tb w : opt asg_written pre -> opt written c -> opt asg_written post -> negb (is_none pre) && optb for_printable pre && optb (fun c => printable c && blank_free c) c && optb for_printable post = true ->
  ends b tb w -> b <> "" ->
  ends ("for(" ++ match pre with None => "" | Some a => del_space (gen_asg false a) end ++ " " ++ match c with None => "" | Some c => del_space (del_paren (gen c)) end ++ "; " ++
        match post with None => "" | Some a => del_space (del_semicolon (gen_asg false a)) end ++ ") " ++ b)
       (KW "for" :: P LPAREN :: match pre with None => [] | Some a => atoks false a +++ [P SEMICOLON] end +++ match c with None => [] | Some c => etoks c end +++
        P SEMICOLON :: match post with None => [] | Some a => atoks false a end +++ P RPAREN :: tb) w.
Proof.
  intros W1 W2 W3 HP HB HN. apply andb_true_iff in HP as [HP P4]. apply andb_true_iff in HP as [HP P3]. apply andb_true_iff in HP as [P1 P2]. destruct pre as [a|]; [|discriminate]. cbn [opt optb] in W1, P2.
  assert (sp ("for(" ++ del_space (gen_asg false a) ++ " " ++ match c with None => "" | Some c => del_space (del_paren (gen c)) end ++ "; " ++ match post with None => "" | Some a => del_space (del_semicolon (gen_asg false a)) end ++ ") ")
    (KW "for" :: P LPAREN :: (atoks false a +++ [P SEMICOLON]) +++ match c with None => [] | Some c => etoks c end +++ P SEMICOLON :: match post with None => [] | Some a => atoks false a end +++ [P RPAREN])) as K.
  { apply (spw_app "for" _ [KW "for"]); [apply spw_kw; res|now apply sep_c|]. apply sp_cons; [exact (sp_punct LPAREN eq_refl)|]. apply spw_app; [apply spells_spw, spells_tight_asg; now apply asg_is_tight|apply sep_blank|]. cbn [append]. apply sp_blank_cons.
    assert (sp (String ";" (String " " (match post with None => "" | Some a => del_space (del_semicolon (gen_asg false a)) end ++ ") "))) (P SEMICOLON :: match post with None => [] | Some a => atoks false a end +++ [P RPAREN])) as K.
    { apply sp_cons; [exact sp_semi|]. apply sp_blank_cons. assert (sp ") " [P RPAREN]) as KB by (apply sp_cons; [exact (sp_punct RPAREN eq_refl)|exact sp_blank]). destruct post as [y|]; [|exact KB]. apply spw_app; [apply spells_spw, spells_tight_post; now apply asg_is_tight|now apply sep_c|exact KB]. }
    destruct c as [c|]; [|exact K]. cbn [optb] in P3. apply andb_true_iff in P3 as [P3 P6]. apply spw_app; [apply spells_spw, (spells_tight c); [now apply written_good|exact P6]|now apply sep_c|exact K]. }
  pose proof (ends_app _ b _ tb w K HB HN) as KK. rewrite !app_assoc_s in KK. cbn [app] in KK. repeat (progress (rewrite <- !app_assoc in KK; cbn [app] in KK)). rewrite <- !app_assoc. cbn [app]. exact KK.
Qed.
Definition item_ok (x : sitem) : Prop := forall p, jwritten p x -> jprintable x = true ->
  ends (gen_sitem x) (jtoks x) (ends_end x) /\ jtoks x <> [] /\ gen_sitem x <> "" /\ (starts_word x = false -> p <> InBranch -> starts_sep (gen_sitem x)).
Lemma items_concat l s ts : Forall (fun x => ends (gen_sitem x) (jtoks x) (ends_end x) /\ (starts_word x = false -> starts_sep (gen_sitem x)) /\ gen_sitem x <> "") l -> apart l = true -> sp s ts -> starts_sep s ->
  sp (String.concat "" (map gen_sitem l) ++ s) (flat_map jtoks l +++ ts).
Proof.
  intros H HA HS HF. induction H as [|x l (H1 & H2 & H3) H IH]; [exact HS|]. cbn [map flat_map]. rewrite concat_cons, app_assoc_s, <- app_assoc. destruct (ends_end x) eqn:E.
  - destruct (proj2 H1 eq_refl) as [K _]. apply spw_app; [exact K| |apply IH; now destruct l; [|apply andb_true_iff in HA as [_ HA]]].
    destruct l as [|y l]; [exact HF|]. cbn [apart] in HA. rewrite E in HA. cbn [andb] in HA. apply andb_true_iff in HA as [HA _]. apply negb_true_iff in HA. inversion H as [|? ? (_ & J & _) _]; subst. cbn [map]. rewrite concat_cons, app_assoc_s. apply sep_app. now apply J.
  - apply sp_app; [now apply (proj1 H1)|]. apply IH. destruct l; [reflexivity|]. now apply andb_true_iff in HA as [_ HA].
Qed.
Lemma Forall_ok p l : Forall item_ok l -> Forall (jwritten p) l -> forallb jprintable l = true -> p <> InBranch ->
  Forall (fun x => ends (gen_sitem x) (jtoks x) (ends_end x) /\ (starts_word x = false -> starts_sep (gen_sitem x)) /\ gen_sitem x <> "") l.
Proof.
  intros H W HP HN. induction H as [|x l Hx H IH]; constructor; inversion W; subst; cbn [forallb] in HP; apply andb_true_iff in HP as [P1 P2]; auto. destruct (Hx p ltac:(assumption) P1) as (K1 & K2 & K3 & K4). auto.
Qed.
Lemma sitem_ok : forall x, item_ok x.
Proof.
  apply sitem_ind'; unfold item_ok; cbn [jwritten jprintable].
  - intros l p W HP. apply andb_true_iff in HP as [P1 P2]. pose proof (members_good l W P2) as G. cbn [ends_end gen_sitem jtoks starts_word]. pose proof (sp_decl l G) as K.
    assert (flat_map member_toks l <> []) as N. { destruct G as [|m l Gm G]; [discriminate P1|]. cbn [flat_map]. pose proof (member_toks_nonempty m Gm). destruct (member_toks m); [congruence|discriminate]. }
    split; [now apply sp_ends|]. split; [exact N|]. split; [exact (sp_nonempty _ _ K N)|discriminate].
  - intros a p W HP. pose proof (assign_text a (asg_is_plain a W HP)) as K. split; [now apply sp_ends|]. split; [discriminate|]. split; [now apply (sp_nonempty _ _ K)|discriminate].
  - intros i p W HP. pose proof (item_text i W HP) as K. pose proof (itoks_nonempty i HP) as N. split; [now apply sp_ends|]. split; [exact N|]. split; [exact (sp_nonempty _ _ K N)|]. intros _ _. cbn [gen_sitem]. destruct i as [[] l s|s]; try discriminate HP; apply sep_newline.
  - intros m params l p (W1 & W2 & W3 & W4) HP. apply andb_true_iff in HP as [P1 P2]. pose proof (sp_insts m params l W1 (args_params params W2 P1) (insts_good params l W4 P2) W3) as K. split; [now apply sp_ends|]. split; [discriminate|]. split; [now apply (sp_nonempty _ _ K)|]. intros _ _. apply sep_newline.
  - intros n w d s p (W1 & W2 & W3 & W4 & W5 & W6) HP. apply andb_true_iff in HP as [HP P4]. apply andb_true_iff in HP as [HP P3]. apply andb_true_iff in HP as [P1 P2]. cbn [gen_sitem jtoks].
    split; [|split; [discriminate|split; [discriminate|intros _ _; apply sep_newline]]]. apply sp_ends. apply sp_nl_cons. apply (sp_app "function " _ [KW "function"]); [apply (sp_kw "function"); res|]. apply sp_app; [apply sp_range; now apply range_is_good|].
    cbn [append]. apply sp_blank_cons. apply (spw_app _ _ [ID n]); [now apply spw_ident|now apply sep_c|]. apply sp_cons; [exact sp_semi|]. refine (sp_body d s "endfunction" _ W5 P4 _); [now apply locals_good|res].
  - intros n d s p (W1 & W4 & W5 & W6) HP. apply andb_true_iff in HP as [P3 P4]. cbn [gen_sitem jtoks].
    split; [|split; [discriminate|split; [discriminate|intros _ _; apply sep_newline]]]. apply sp_ends. apply sp_nl_cons. apply (sp_app "task " _ [KW "task"]); [apply (sp_kw "task"); res|].
    apply (spw_app _ _ [ID n]); [now apply spw_ident|now apply sep_c|]. apply sp_cons; [exact sp_semi|]. refine (sp_body d s "endtask" _ W5 P4 _); [now apply locals_good|res].
  - intros n v p (W1 & W2) HP. assert (opt good v) as G. { destruct v as [v|]; [|exact I]. apply written_good; [exact W2|]. now destruct v. }
    split; [apply sp_ends; exact (sp_pragma n v W1 G HP)|]. split; [discriminate|]. split; [discriminate|]. intros _ _. now apply sep_c.
  - intros l IH p (W1 & W2) HP. apply jwritten_all in W2. apply andb_true_iff in HP as [P1 P2]. cbn [gen_sitem jtoks]. split; [|split; [discriminate|split; [discriminate|intros _ _; apply sep_newline]]]. apply sp_ends. apply sp_nl_cons.
    apply (sp_app "generate " _ [KW "generate"]); [apply (sp_kw "generate"); res|]. apply items_concat; [apply (Forall_ok InGenerate); auto; discriminate|exact P2| |apply sep_newline].
    apply sp_nl_cons. apply (spw_app "endgenerate" _ [KW "endgenerate"] []); [apply spw_kw; res|apply sep_newline|exact sp_nl].
  - intros c t e IHt IHe p (W1 & W2 & W3 & W4) HP. apply andb_true_iff in HP as [HP P3]. apply andb_true_iff in HP as [P1 P2]. apply andb_true_iff in P2 as [_ P2]. destruct (IHt InBranch W3 P2) as (K1 & K2 & K3 & _). cbn [gen_sitem jtoks ends_end].
    split; [|split; [discriminate|split; [discriminate|discriminate]]].
    pose proof (ends_if c (gen_sitem t) (match e with None => None | Some e => Some (gen_sitem e) end) (jtoks t) (match e with None => [] | Some e => KW "else" :: jtoks e end) (ends_end t) (match e with Some e => ends_end e | None => false end) (written_good c W2 P1) K1 K3) as K.
    destruct e as [e|]; [|apply K; auto]. cbn [optP] in IHe. destruct W4 as [_ W4]. apply andb_true_iff in P3 as [_ P3]. destruct (IHe InBranch W4 P3) as (L1 & L2 & L3 & _). apply K. exists (jtoks e). auto.
  - intros pre c post b IH p (W0 & W1 & W2 & W3 & W4) HP. apply andb_true_iff in HP as [HP P5]. apply andb_true_iff in P5 as [_ P5]. destruct (IH InBranch W4 P5) as (K1 & K2 & K3 & _). cbn [gen_sitem jtoks ends_end].
    split; [|split; [discriminate|split; [discriminate|discriminate]]]. now apply for_text.
  - intros sc l IH p (W0 & W1 & W2) HP. apply jwritten_all in W2. cbn [gen_sitem jtoks ends_end]. pose proof (Forall_ok InGenerate l IH W2 HP ltac:(discriminate)) as K. split; [|split; [discriminate|split; [discriminate|intros _ N; now elim N]]].
    split; [discriminate|]. intros _. split; [|do 3 (rewrite last_app; [|repeat (destruct (lines _) || discriminate); destruct (scope_text _); discriminate || (intros E; destruct (lines _) in E; discriminate E)]); reflexivity].
    intros r tr HR HS. rewrite !app_assoc_s. cbn [app]. apply (spells_kw "begin"); [res|right; apply sep_scope, sep_lines, sep_app, sep_newline|]. rewrite <- !app_assoc. apply spells_scope; [exact W1|apply sep_lines, sep_app, sep_newline|].
    assert (spw (String NL "end") [KW "end"]) as KE by (apply spw_cons_nil; [exact sp_nl|apply spw_kw; res]).
    refine (_ (spw_lines gen_sitem jtoks l _ (String NL "end") [KW "end"] KE (sep_newline "end") r tr HR HS)).
    + rewrite app_assoc_s, <- app_assoc. auto.
    + revert K. apply Forall_impl. intros x (K1 & _). exact (spw_spells _ _ (ends_spw _ _ _ K1)).
Qed.
