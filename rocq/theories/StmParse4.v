(** StmParse4.v - the tokens of a statement are parsed back. *)
From Verif Require Import Base DfModel LexModel LexSpec ExprModel ParseModel ExprSpec ExprText ExprText2 ExprText3 ExprParse ExprSound StmModel StmSpec StmText2 StmText3 StmParse StmParse2 StmParse3.
Local Open Scope string_scope.
Local Notation "a +++ b" := (@app _ a b) (at level 60, right associativity).

(** What a statement of each kind is read with. *)
Lemma p_stm_asg n t r : match t with ID _ | P LBRACE => True | _ => False end -> p_stm (S n) (t :: r) = do a <- p_asg_stm n None (t :: r); Ok (TAsg (fst (fst a)) (snd (fst a)), snd a).
Proof. intros H. destruct t as [p|s|s|s|s|k s]; try contradiction; [destruct p; try contradiction|]; reflexivity. Qed.
Lemma stm_asg nb a rest : asg_fine a -> ev (fun n => p_stm n (atoks nb a +++ P SEMICOLON :: rest)) (Ok (TAsg nb a, rest)).
Proof.
  intros H. rewrite atoks_app. pose proof H as ((G1 & G2 & G3 & G4) & HT & P3 & P4). destruct (target_starts _ G1 HT) as (t & r & E & HH). apply ev_S.
  pose proof (p_asg_stm_ok nb a rest H) as KA. destruct (a_ldelay a) as [d|] eqn:ED; cbn [dtoks app].
  - assert (stops_expr (etoks (a_left a) +++ P (if nb then LE else EQUALS) :: dtoks (a_rdelay a) +++ etoks (a_right a) +++ P SEMICOLON :: rest)) as HS.
    { rewrite E. cbn [app]. destruct t as [p|s|s|s|s|k s]; try contradiction; [destruct p; try contradiction|]; split; exact I || reflexivity. }
    destruct (p_expr_full d _ G3 HS) as (n1 & K1). destruct (p_delays_ok (Some d) (etoks (a_left a) +++ P (if nb then LE else EQUALS) :: dtoks (a_rdelay a) +++ etoks (a_right a) +++ P SEMICOLON :: rest) G3 P3 ltac:(discriminate)) as (n2 & K2). destruct KA as (n3 & K3).
    exists (Nat.max n1 (Nat.max n2 n3)). intros n Hn. cbn [p_stm r_stm]. unfold r_assign. rewrite K1 by lia. cbn [bind snd fst]. specialize (K2 n ltac:(lia)). cbn [dtoks app] in K2. specialize (K3 n ltac:(lia)). rewrite E in *. cbn [app expect] in *.
    assert (is_p SEMICOLON t = false) as -> by (destruct t as [p|s|s|s|s|k s]; try contradiction; [destruct p; try contradiction|]; reflexivity). cbn [bind]. rewrite K2. cbn [bind snd fst].
    assert (is_kw "if" t = false) as -> by (destruct t; contradiction || reflexivity). rewrite K3. reflexivity.
  - rewrite E in *. cbn [app] in *. destruct KA as (n3 & K3). exists n3. intros n Hn. rewrite (p_stm_asg n t _ HH), K3 by lia. reflexivity.
Qed.
Lemma need_end_ok {A} s (x : A) : may_end s -> need_end s x = Ok x.
Proof. now destruct s. Qed.
Lemma p_stm_all : forall s, stm_parses s.
Proof.
  apply stm_ind'; unfold stm_parses; cbn [swritten sprintable].
  - intros nb a W HP rest _. cbn [stoks]. rewrite <- app_assoc. apply stm_asg. now apply asg_is_fine.
  - intros c t e IHt IHe (W1 & W2 & W3) HP rest HO. apply andb_true_iff in HP as [HP P3]. apply andb_true_iff in HP as [P1 P2]. cbn [stoks app]. rewrite <- app_assoc. cbn [app]. rewrite <- app_assoc. apply ev_S.
    change (ev (fun n => do c <- p_paren n (P LPAREN :: etoks c +++ P RPAREN :: stoks t +++ (match e with None => [] | Some e => KW "else" :: stoks e end) +++ rest); do t <- p_stm n (snd c);
        match snd t with
        | w :: r => if is_kw "else" w then do e <- p_stm n r; need_end (fst e) (TIf (fst c) (fst t) (Some (fst e)), snd e) else need_end (fst t) (TIf (fst c) (fst t) None, snd t)
        | [] => need_end (fst t) (TIf (fst c) (fst t) None, [])
        end) (Ok (TIf c t e, rest))).
    refine (ev_bind _ _ _ _ (p_paren_ok c _ (written_good c W1 P1)) _). cbn [fst snd]. refine (ev_bind _ _ _ _ (IHt W2 P2 _ _) _).
    + destruct e as [e|]; [destruct W3 as (W3 & _); rewrite W3; discriminate|]. intros _. exact (HO eq_refl).
    + cbn [fst snd]. destruct e as [e|]; cbn [app].
      * change (is_kw "else" (KW "else")) with true. cbn iota. destruct W3 as (W3 & W4 & W5). refine (ev_bind _ _ _ _ (IHe W4 P3 rest HO) _). cbn [fst snd]. rewrite (need_end_ok e _ W5). apply ev_const.
      * specialize (HO eq_refl). rewrite !(need_end_ok t _ W3). destruct rest as [|w r]; [apply ev_const|]. cbn [no_else] in HO. rewrite HO. apply ev_const.
  - intros pre c post b IH (W1 & W2 & W3 & W4) HP rest HO. apply andb_true_iff in HP as [HP P5]. apply andb_true_iff in HP as [HP P4]. apply andb_true_iff in HP as [HP P3]. apply andb_true_iff in HP as [P1 P2]. destruct pre as [a|]; [|discriminate P1]. clear P1. cbn [opt optb open_if] in *.
    cbn [stoks app]. rewrite <- !app_assoc. cbn [app]. rewrite <- !app_assoc. cbn [app]. apply ev_S.
    change (ev (fun n => do x <- p_forpre n (atoks false a +++ P SEMICOLON :: (match c with None => [] | Some c => etoks c end) +++ P SEMICOLON :: (match post with None => [] | Some a => atoks false a end) +++ P RPAREN :: stoks b +++ rest);
        do c <- p_forcond n (snd x); do y <- p_forpost n (snd c); do r <- expect (is_p RPAREN) (snd y); do b <- p_stm n r; Ok (TFor (fst x) (fst c) (fst y) (fst b), snd b)) (Ok (TFor (Some a) c post b, rest))).
    refine (ev_bind _ _ _ _ (p_forpre_ok a _ (tight_is_fine a W1 P2)) _). cbn [fst snd]. refine (ev_bind _ _ _ _ (p_forcond_ok c _ _) _).
    { destruct c as [c|]; [|exact I]. cbn [opt optb] in *. apply andb_true_iff in P3 as [P3 _]. now apply written_good. }
    cbn [fst snd]. refine (ev_bind _ _ _ _ (p_forpost_ok post _ _) _). { destruct post as [y|]; [|exact I]. cbn [opt optb] in *. now apply tight_is_fine. }
    cbn [fst snd expect is_p]. change (ev (fun n => do b0 <- p_stm n (stoks b +++ rest); Ok (TFor (Some a) c post (fst b0), snd b0)) (Ok (TFor (Some a) c post b, rest))). refine (ev_bind _ _ _ _ (IH W4 P5 rest HO) _). apply ev_const.
  - intros c b IH (W1 & W2) HP rest HO. apply andb_true_iff in HP as [P1 P2]. cbn [stoks app open_if] in *. rewrite <- app_assoc. cbn [app]. apply ev_S.
    change (ev (fun n => do c <- p_paren n (P LPAREN :: etoks c +++ P RPAREN :: stoks b +++ rest); do b <- p_stm n (snd c); Ok (TWhile (fst c) (fst b), snd b)) (Ok (TWhile c b, rest))).
    refine (ev_bind _ _ _ _ (p_paren_ok c _ (written_good c W1 P1)) _). cbn [fst snd]. refine (ev_bind _ _ _ _ (IH W2 P2 rest HO) _). apply ev_const.
  - intros k c l IH (_ & W1 & W2 & W3) HP rest _. apply andb_true_iff in HP as [HP P3]. apply andb_true_iff in HP as [P1 P2]. apply swritten_items in W3.
    assert (ev (fun n => do c <- p_paren n (P LPAREN :: etoks c +++ P RPAREN :: flat_map case_toks l +++ KW "endcase" :: rest); do i <- p_items n [] (snd c); Ok (TCase k (fst c) (fst i), snd i)) (Ok (TCase k c l, rest))) as K.
    { refine (ev_bind _ _ _ _ (p_paren_ok c _ (written_good c W1 P2)) _). cbn [fst snd]. refine (ev_bind _ _ _ _ (p_items_ok l IH W3 P3 [] rest W2) _). apply ev_const. }
    change (stoks (TCase k c l)) with ((match k with KCasex => [KW "casex"] | KCasez => [KW "casez"] | KCase => [KW "case"] | KUnique => [KW "unique"; KW "case"] end) +++ P LPAREN :: etoks c +++ P RPAREN :: flat_map case_toks l +++ [KW "endcase"]).
    rewrite <- app_assoc. cbn [app]. rewrite <- app_assoc. cbn [app]. rewrite <- app_assoc. cbn [app]. apply ev_S. destruct k; try discriminate P1; exact K.
  - intros sc l IH (W1 & W2) HP rest _. apply swritten_block in W2. cbn [stoks app]. rewrite <- !app_assoc. cbn [app]. apply ev_S.
    assert (ev (fun n => do b <- p_stms n "end" [] (flat_map stoks l +++ KW "end" :: rest); Ok (TBlock sc (fst b), snd b)) (Ok (TBlock sc l, rest))) as K.
    { refine (ev_bind _ _ _ _ (p_stms_ok "end" l _ _ IH W2 HP [] rest) _); [notin|discriminate|]. apply ev_const. }
    destruct sc as [sc|]; cbn [scope_toks app]; [exact K|].
    assert (no_else (flat_map stoks l +++ KW "end" :: rest) -> True) as _ by auto.
    assert (match flat_map stoks l +++ KW "end" :: rest with P COLON :: _ => False | _ => True end) as N.
    { destruct l as [|x l]; [exact I|]. inversion W2 as [|u v W3 W4]; subst. cbn [forallb] in HP. apply andb_true_iff in HP as [P1 _]. cbn [flat_map].
      assert (match stoks x with P COLON :: _ => False | [] => False | _ => True end) as N; [|destruct (stoks x) as [|t r]; [contradiction|exact N]].
      clear - W3 P1. destruct x as [nb a|c t e|pre c post b|c b|k c l|s l|s l|l|c b|b|e|f l|s|]; cbn [swritten sprintable stoks] in *; try exact I; [|destruct k; exact I].
      destruct (asg_is_fine a W3 P1) as ((G & _) & T & _). unfold atoks. destruct (a_ldelay a); [exact I|]. destruct (target_starts _ G T) as (t & r & E & H). rewrite E. cbn [dtoks app]. destruct t as [p|s|s|s|s|k s]; try contradiction; [destruct p; contradiction || exact I|exact I]. }
    eapply ev_ext; [|exact K]. intros n. cbn [p_stm]. destruct (flat_map stoks l +++ KW "end" :: rest) as [|[p|s|s|s|s|k s] r]; try reflexivity. destruct p; contradiction || reflexivity.
  - intros sc l IH (W1 & W2) HP rest _. apply swritten_block in W2. subst sc. cbn [stoks app scope_toks]. rewrite <- !app_assoc. cbn [app]. apply ev_S.
    change (ev (fun n => do b <- p_stms n "join" [] (flat_map stoks l +++ KW "join" :: rest); Ok (TPar None (fst b), snd b)) (Ok (TPar None l, rest))).
    refine (ev_bind _ _ _ _ (p_stms_ok "join" l _ _ IH W2 HP [] rest) _); [notin|discriminate|]. apply ev_const.
  - intros l W HP rest _. cbn [stoks app]. rewrite <- app_assoc. cbn [app]. apply ev_S.
    change (ev (fun n => do x <- p_senslist n (P AT :: P LPAREN :: sltoks l +++ P RPAREN :: P SEMICOLON :: rest); do r <- expect (is_p SEMICOLON) (snd x); Ok (TEvent (fst x), r)) (Ok (TEvent l, rest))).
    refine (ev_bind _ _ _ _ (p_senslist_ok l _ W HP) _). apply ev_const.
  - intros c b IH (W1 & W2) HP rest HO. apply andb_true_iff in HP as [P1 P2]. cbn [stoks app]. rewrite <- app_assoc. cbn [app]. apply ev_S.
    change (ev (fun n => do c <- p_paren n (P LPAREN :: etoks c +++ P RPAREN :: (match b with Some b => stoks b | None => [P SEMICOLON] end) +++ rest);
            match snd c with P SEMICOLON :: r => Ok (TWait (fst c) None, r) | r => do b <- p_stm n r; Ok (TWait (fst c) (Some (fst b)), snd b) end) (Ok (TWait c b, rest))).
    refine (ev_bind _ _ _ _ (p_paren_ok c _ (written_good c W1 P1)) _). cbn [fst snd]. destruct b as [b|]; [|exists 0; reflexivity]. cbn [optP open_if] in *.
    assert (ev (fun n => do b <- p_stm n (stoks b +++ rest); Ok (TWait c (Some (fst b)), snd b)) (Ok (TWait c (Some b), rest))) as K by (refine (ev_bind _ _ _ _ (IH W2 P2 rest HO) _); apply ev_const).
    assert (match stoks b with P SEMICOLON :: _ => False | [] => False | _ => True end) as N.
    { clear - W2 P2. destruct b as [nb a|c t e|pre c post b|c b|k c l|s l|s l|l|c b|b|e|f l|s|]; cbn [swritten sprintable stoks] in *; try exact I; [|destruct k; exact I].
      destruct (asg_is_fine a W2 P2) as ((G & _) & T & _). unfold atoks. destruct (a_ldelay a); [exact I|]. destruct (target_starts _ G T) as (t & r & E & H). rewrite E. cbn [dtoks app]. destruct t as [p|s|s|s|s|k s]; try contradiction; [destruct p; contradiction || exact I|exact I]. }
    destruct (stoks b) as [|t r]; [contradiction|]. cbn [app] in *. destruct t as [p|s|s|s|s|k s]; try exact K. destruct p; contradiction || exact K.
  - intros b IH W HP rest HO. cbn [stoks app open_if] in *. apply ev_S. change (ev (fun n => do b <- p_stm n (stoks b +++ rest); Ok (TForever (fst b), snd b)) (Ok (TForever b, rest))). refine (ev_bind _ _ _ _ (IH W HP rest HO) _). apply ev_const.
  - intros e W HP rest _. cbn [stoks app]. rewrite <- app_assoc. cbn [app]. apply ev_S. destruct (p_expr_full e (P SEMICOLON :: rest) (written_good e W HP) (conj I eq_refl)) as (n0 & K). exists n0. intros n Hn. cbn [p_stm r_stm]. rewrite (K n Hn). reflexivity.
  - intros f l W HP rest _. change (stoks (TSys f l)) with (etoks (XSys f l) +++ [P SEMICOLON]). rewrite <- app_assoc. apply ev_S.
    change (ev (fun n => do x <- p_expr n (etoks (XSys f l) +++ P SEMICOLON :: rest); do r <- expect (is_p SEMICOLON) (snd x); match fst x with XSys f a => Ok (TSys f a, r) | _ => Err ParseError end) (Ok (TSys f l, rest))).
    refine (ev_bind _ _ _ _ (p_expr_inner (XSys f l) (P SEMICOLON :: rest) (written_good _ W HP) (conj I eq_refl)) _). apply ev_const.
  - intros s W HP. discriminate HP.
  - intros W HP. discriminate HP.
Qed.
Lemma p_item_all i : item_written i -> item_printable i = true -> ev (fun n => p_item n (itoks i)) (Ok (i, [])).
Proof.
  destruct i as [k l s|s]; cbn [item_written item_printable itoks].
  - intros (W1 & W2 & W3) HP. destruct k; try discriminate HP. apply andb_true_iff in HP as [P1 P2].
    change (ev (fun n => do x <- p_senslist n (P AT :: P LPAREN :: sltoks l +++ P RPAREN :: stoks s); do s <- p_stm n (snd x); need_end (fst s) (IAlways KAlways (fst x) (fst s), snd s)) (Ok (IAlways KAlways l s, []))).
    refine (ev_bind _ _ _ _ (p_senslist_ok l _ W1 P1) _). cbn [fst snd]. pose proof (p_stm_all s W2 P2 [] ltac:(exact (fun _ => I))) as K. rewrite app_nil_r in K. refine (ev_bind _ _ _ _ K _). cbn [fst snd]. rewrite (need_end_ok s _ W3). apply ev_const.
  - intros W HP. change (ev (fun n => do s <- p_stm n (stoks s); Ok (IInitial (fst s), snd s)) (Ok (IInitial s, []))). pose proof (p_stm_all s W HP [] ltac:(exact (fun _ => I))) as K. rewrite app_nil_r in K. refine (ev_bind _ _ _ _ K _). apply ev_const.
Qed.
