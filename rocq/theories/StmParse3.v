(** StmParse3.v - the tokens of a statement are parsed back. *)
From Verif Require Import Base DfModel LexModel LexSpec ExprModel ParseModel ExprSpec ExprText ExprText2 ExprText3 ExprParse ExprSound StmModel StmSpec StmText2 StmText3 StmParse StmParse2.
Local Open Scope string_scope.
Local Notation "a +++ b" := (@app _ a b) (at level 60, right associativity).

(** ** First tokens *)
Definition no_else (rest : list token) : Prop := match rest with t :: _ => is_kw "else" t = false | [] => True end.
Definition head_of (t : token) : Prop := match t with KW w => In w ["if"; "for"; "while"; "case"; "casex"; "casez"; "unique"; "begin"; "fork"; "wait"; "forever"; "disable"] | _ => True end.
Lemma head_not w t : head_of t -> ~ In w ["if"; "for"; "while"; "case"; "casex"; "casez"; "unique"; "begin"; "fork"; "wait"; "forever"; "disable"] -> is_kw w t = false.
Proof. destruct t as [p|s|s|s|s|k s]; try reflexivity. cbn [head_of is_kw]. intros H N. destruct (String.eqb_spec s w) as [->|]; [contradiction|reflexivity]. Qed.
Ltac notin := let H := fresh in intros H; cbn [In] in H; repeat (destruct H as [H|H]; [discriminate H|]); exact H.
Lemma stoks_head s : swritten s -> sprintable s = true -> exists t r, stoks s = t :: r /\ head_of t.
Proof.
  destruct s as [nb a|c t e|pre c post b|c b|k c l|s l|s l|l|c b|b|e|f l|s|]; cbn [swritten sprintable stoks]; intros W P.
  - destruct (asg_is_fine a W P) as ((G & _) & T & _). unfold atoks. destruct (a_ldelay a); [eexists _, _; split; [reflexivity|exact I]|]. destruct (target_starts _ G T) as (t & r & E & H). rewrite E. cbn [dtoks app]. eexists _, _. split; [reflexivity|]. destruct t; exact I || contradiction.
  - eexists _, _. split; [reflexivity|]. cbn; tauto.
  - eexists _, _. split; [reflexivity|]. cbn; tauto.
  - eexists _, _. split; [reflexivity|]. cbn; tauto.
  - destruct k; (eexists _, _; split; [reflexivity|]; cbn; tauto).
  - eexists _, _. split; [reflexivity|]. cbn; tauto.
  - eexists _, _. split; [reflexivity|]. cbn; tauto.
  - eexists _, _. split; [reflexivity|]. exact I.
  - eexists _, _. split; [reflexivity|]. cbn; tauto.
  - eexists _, _. split; [reflexivity|]. cbn; tauto.
  - eexists _, _. split; [reflexivity|]. exact I.
  - eexists _, _. split; [reflexivity|]. exact I.
  - discriminate P.
  - discriminate P.
Qed.
Definition no_kw (l : list token) : Prop := match l with KW _ :: _ => False | [] => False | _ => True end.
Lemma etoks_no_kw e : good e -> forall rest, no_kw (etoks e +++ rest).
Proof.
  intros H. apply (good_ind' (fun e => forall rest, no_kw (etoks e +++ rest))); [..|exact H]; clear H e; cbn [etoks].
  - intros s H rest. rewrite (id_token_ok _ H). exact I.
  - intros k s H rest. rewrite (int_tok_ok _ _ H). exact I.
  - intros o a H1 _ _ _ rest. exact I.
  - intros o a b _ _ Ha IH _ _ rest. rewrite <- app_assoc. destruct (bare_left o a); [apply IH|]. unfold twrap. destruct (wrapped a); [exact I|apply IH].
  - intros c t f _ _ _ _ _ _ rest. exact I.
  - intros l _ _ _ rest. exact I.
  - intros l n _ _ _ _ _ rest. exact I.
  - intros v m l _ _ IH _ _ _ _ _ _ rest. rewrite <- app_assoc. apply IH.
  - intros v p _ _ IH _ _ rest. rewrite <- app_assoc. apply IH.
  - intros f l H _ _ rest. rewrite (id_token_ok _ H). exact I.
  - intros f l _ _ _ rest. exact I.
Qed.
Lemma etoks_no_semi e : good e -> forall rest, match etoks e +++ rest with P SEMICOLON :: _ => False | [] => False | _ => True end.
Proof.
  intros H. apply (good_ind' (fun e => forall rest, match etoks e +++ rest with P SEMICOLON :: _ => False | [] => False | _ => True end)); [..|exact H]; clear H e; cbn [etoks].
  - intros s H rest. rewrite (id_token_ok _ H). exact I.
  - intros k s H rest. rewrite (int_tok_ok _ _ H). exact I.
  - intros o a H1 _ _ _ rest. destruct o; discriminate H1 || exact I.
  - intros o a b _ _ Ha IH _ _ rest. rewrite <- app_assoc. destruct (bare_left o a); [apply IH|]. unfold twrap. destruct (wrapped a); [exact I|apply IH].
  - intros c t f _ _ _ _ _ _ rest. exact I.
  - intros l _ _ _ rest. exact I.
  - intros l n _ _ _ _ _ rest. exact I.
  - intros v m l _ _ IH _ _ _ _ _ _ rest. rewrite <- app_assoc. apply IH.
  - intros v p _ _ IH _ _ rest. rewrite <- app_assoc. apply IH.
  - intros f l H _ _ rest. rewrite (id_token_ok _ H). exact I.
  - intros f l _ _ _ rest. exact I.
Qed.

(** ** Parts of statements *)
Lemma p_paren_ok c rest : good c -> ev (fun n => p_paren n (P LPAREN :: etoks c +++ P RPAREN :: rest)) (Ok (c, rest)).
Proof. intros H. unfold p_paren. cbn [expect is_p]. refine (ev_bind _ _ _ _ (p_expr_inner c (P RPAREN :: rest) H (conj I eq_refl)) _). apply ev_const. Qed.
Lemma p_conds_ok l : Forall good l -> forall acc rest, ev (fun n => p_conds n acc ((match l with [] => [] | _ => P COMMA :: tjoin (map etoks l) end) +++ P COLON :: rest)) (Ok (acc +++ l, rest)).
Proof.
  induction 1 as [|x l Hx H IH]; intros acc rest.
  - apply ev_S. eapply ev_ext; [|apply ev_const]. intros n. cbn [p_conds app]. now rewrite app_nil_r.
  - assert (tjoin (map etoks (x :: l)) = etoks x +++ match l with [] => [] | _ => P COMMA :: tjoin (map etoks l) end) as E by (destruct l; cbn [map tjoin]; [now rewrite app_nil_r|reflexivity]).
    apply ev_S. rewrite E. cbn [app p_conds]. rewrite <- app_assoc. refine (ev_bind _ _ _ _ (p_expr_inner x _ Hx _) _); [destruct l; split; exact I || reflexivity|]. cbn [fst snd].
    replace (acc +++ x :: l) with ((acc +++ [x]) +++ l) by (rewrite <- app_assoc; reflexivity). apply IH.
Qed.
Lemma p_case_conds_ok cs rest : cs <> [] -> Forall good cs -> ev (fun n => do x <- p_expr n (tjoin (map etoks cs) +++ P COLON :: rest); p_conds n [fst x] (snd x)) (Ok (cs, rest)).
Proof.
  intros HN H. destruct H as [|x l Hx H]; [congruence|].
  assert (tjoin (map etoks (x :: l)) = etoks x +++ match l with [] => [] | _ => P COMMA :: tjoin (map etoks l) end) as E by (destruct l; cbn [map tjoin]; [now rewrite app_nil_r|reflexivity]).
  rewrite E, <- app_assoc. refine (ev_bind _ _ _ _ (p_expr_inner x _ Hx _) _); [destruct l; split; exact I || reflexivity|]. cbn [fst snd]. apply (p_conds_ok l H [x] rest).
Qed.
Lemma p_forpre_ok a rest : asg_fine a -> ev (fun n => p_forpre n (atoks false a +++ P SEMICOLON :: rest)) (Ok (Some a, rest)).
Proof.
  intros H. rewrite atoks_app. pose proof H as ((G1 & G2 & G3 & G4) & HT & P3 & P4). destruct (target_starts _ G1 HT) as (t & r & E & HH).
  assert (ev (fun n => do d <- p_delays n (dtoks (a_ldelay a) +++ etoks (a_left a) +++ P EQUALS :: dtoks (a_rdelay a) +++ etoks (a_right a) +++ P SEMICOLON :: rest); do a <- p_asg_stm n (fst d) (snd d); match a with ((false, a), r) => Ok (Some a, r) | _ => Err ParseError end) (Ok (Some a, rest))) as K.
  { refine (ev_bind _ _ _ _ (p_delays_ok (a_ldelay a) _ G3 P3 _) _); [intros _; apply etoks_no_delay; exact G1|]. cbn [fst snd]. refine (ev_bind _ _ _ _ (p_asg_stm_ok false a rest H) _). apply ev_const. }
  unfold p_forpre. destruct (a_ldelay a); [exact K|]. cbn [dtoks app] in *. rewrite E in *. cbn [app] in *. destruct t as [p|s|s|s|s|k s]; try contradiction; [destruct p; try contradiction|]; exact K.
Qed.
Lemma p_forcond_ok c rest : opt good c -> ev (fun n => p_forcond n (match c with None => [] | Some c => etoks c end +++ P SEMICOLON :: rest)) (Ok (c, rest)).
Proof.
  intros H. destruct c as [c|]; [|exists 0; reflexivity]. cbn [opt] in H.
  assert (ev (fun n => do x <- p_expr n (etoks c +++ P SEMICOLON :: rest); do r <- expect (is_p SEMICOLON) (snd x); Ok (Some (fst x), r)) (Ok (Some c, rest))) as K.
  { refine (ev_bind _ _ _ _ (p_expr_inner c (P SEMICOLON :: rest) H (conj I eq_refl)) _). apply ev_const. }
  pose proof (etoks_no_semi c H (P SEMICOLON :: rest)) as N. unfold p_forcond. destruct (etoks c +++ P SEMICOLON :: rest) as [|[p|s|s|s|s|k s] r]; try contradiction; try exact K. destruct p; contradiction || exact K.
Qed.
Lemma p_forpost_ok a rest : opt asg_fine a -> ev (fun n => p_forpost n (match a with None => [] | Some a => atoks false a end +++ P RPAREN :: rest)) (Ok (a, P RPAREN :: rest)).
Proof.
  intros H. destruct a as [a|]; [|exists 0; reflexivity]. cbn [opt] in H. rewrite atoks_app. pose proof H as ((G1 & G2 & G3 & G4) & HT & P3 & P4). destruct (target_starts _ G1 HT) as (t & r & E & HH).
  assert (ev (fun n => do d <- p_delays n (dtoks (a_ldelay a) +++ etoks (a_left a) +++ P EQUALS :: dtoks (a_rdelay a) +++ etoks (a_right a) +++ P RPAREN :: rest); do a <- p_asg n (fst d) (snd d); match a with ((false, a), r) => Ok (Some a, r) | _ => Err ParseError end) (Ok (Some a, P RPAREN :: rest))) as K.
  { refine (ev_bind _ _ _ _ (p_delays_ok (a_ldelay a) _ G3 P3 _) _); [intros _; apply etoks_no_delay; exact G1|]. cbn [fst snd]. refine (ev_bind _ _ _ _ (p_asg_ok false a (P RPAREN :: rest) H (conj I eq_refl)) _). apply ev_const. }
  unfold p_forpost. destruct (a_ldelay a); [exact K|]. cbn [dtoks app] in *. rewrite E in *. cbn [app] in *. destruct t as [p|s|s|s|s|k s]; try contradiction; [destruct p; try contradiction|]; exact K.
Qed.

(** ** Statements *)
Definition stm_parses (s : stm) : Prop := swritten s -> sprintable s = true -> forall rest, (open_if s = true -> no_else rest) -> ev (fun n => p_stm n (stoks s +++ rest)) (Ok (s, rest)).
Lemma p_stms_ok close l : ~ In close ["if"; "for"; "while"; "case"; "casex"; "casez"; "unique"; "begin"; "fork"; "wait"; "forever"; "disable"] -> close <> "else" ->
  Forall stm_parses l -> Forall swritten l -> forallb sprintable l = true ->
  forall acc rest, ev (fun n => p_stms n close acc (flat_map stoks l +++ KW close :: rest)) (Ok (acc +++ l, rest)).
Proof.
  intros HC HC2 HF HW HP. induction HF as [|x l Hx HF IH]; intros acc rest.
  - apply ev_S. eapply ev_ext; [|apply ev_const]. intros n. cbn [p_stms flat_map app is_kw]. rewrite String.eqb_refl, app_nil_r. reflexivity.
  - inversion HW as [|u v W1 W2]; subst. cbn [forallb] in HP. apply andb_true_iff in HP as [P1 P2]. destruct (stoks_head x W1 P1) as (t & r & E & HH). apply ev_S. cbn [flat_map]. rewrite <- app_assoc.
    assert (ev (fun n => do s <- p_stm n (stoks x +++ flat_map stoks l +++ KW close :: rest); p_stms n close (acc +++ [fst s]) (snd s)) (Ok (acc +++ x :: l, rest))) as K.
    { refine (ev_bind _ _ _ _ (Hx W1 P1 _ _) _).
      - intros _. destruct l as [|y l]; [cbn [flat_map app no_else is_kw]; now apply String.eqb_neq|]. inversion W2 as [|u v W3 W4]; subst. cbn [forallb] in P2. apply andb_true_iff in P2 as [P2 _]. destruct (stoks_head y W3 P2) as (t' & r' & E' & HH'). cbn [flat_map]. rewrite E'. cbn [app no_else]. apply head_not; [exact HH'|notin].
      - cbn [fst snd]. replace (acc +++ x :: l) with ((acc +++ [x]) +++ l) by (rewrite <- app_assoc; reflexivity). now apply IH. }
    rewrite E in *. cbn [app] in *. eapply ev_ext; [|exact K]. intros n. cbn [p_stms]. now rewrite (head_not close t HH HC).
Qed.
Definition case_toks (i : option (list expr) * stm) : list token := ctoks (fst i) +++ P COLON :: stoks (snd i).
Lemma item_head i rest : item_w i -> optb (forallb printable) (fst i) = true -> no_else (case_toks i +++ rest).
Proof.
  intros [W _] HP. destruct i as [[cs|] b]; [|reflexivity]. cbn [fst opt optb] in *. destruct W as [HN W]. unfold case_toks. cbn [fst ctoks]. destruct W as [|x l Wx W]; [congruence|]. cbn [forallb] in HP. apply andb_true_iff in HP as [P1 _].
  assert (tjoin (map etoks (x :: l)) = etoks x +++ match l with [] => [] | _ => P COMMA :: tjoin (map etoks l) end) as E by (destruct l; cbn [map tjoin]; [now rewrite app_nil_r|reflexivity]).
  rewrite E, <- !app_assoc. match goal with |- no_else ?l => assert (no_kw l) as N by (apply etoks_no_kw; now apply written_good); destruct l as [|[p|s|s|s|s|k s] r]; try contradiction; reflexivity end.
Qed.
Lemma p_items_ok l : Forall (fun i => stm_parses (snd i)) l -> Forall item_w l -> forallb (fun i => optb (forallb printable) (fst i) && sprintable (snd i)) l = true ->
  forall acc rest, acc +++ l <> [] -> ev (fun n => p_items n acc (flat_map case_toks l +++ KW "endcase" :: rest)) (Ok (acc +++ l, rest)).
Proof.
  intros HF HW HP. induction HF as [|[cs b] l Hx HF IH]; intros acc rest HN.
  - apply ev_S. rewrite app_nil_r in *. eapply ev_ext; [|apply ev_const]. intros n. cbn [p_items flat_map app]. change (is_kw "endcase" (KW "endcase")) with true. cbn iota. destruct acc; [congruence|reflexivity].
  - inversion HW as [|u v W1 W2]; subst. cbn [forallb] in HP. apply andb_true_iff in HP as [P1 P2]. apply andb_true_iff in P1 as [P1 P3]. cbn [fst snd] in *. pose proof W1 as [W3 W4]. cbn [fst snd] in *. cbn [flat_map]. rewrite <- app_assoc.
    assert (no_else (flat_map case_toks l +++ KW "endcase" :: rest)) as NE.
    { destruct l as [|i l]; [reflexivity|]. inversion W2 as [|u v W5 W6]; subst. cbn [forallb] in P2. apply andb_true_iff in P2 as [P2 _]. apply andb_true_iff in P2 as [P2 _]. cbn [flat_map]. rewrite <- app_assoc. now apply item_head. }
    assert (forall cs, cs = cs -> ev (fun n => do s <- p_stm n (stoks b +++ flat_map case_toks l +++ KW "endcase" :: rest); p_items n (acc +++ [(cs, fst s)]) (snd s)) (Ok (acc +++ (cs, b) :: l, rest))) as K.
    { intros cs0 _. refine (ev_bind _ _ _ _ (Hx W4 P3 _ (fun _ => NE)) _). cbn [fst snd]. replace (acc +++ (cs0, b) :: l) with ((acc +++ [(cs0, b)]) +++ l) by (rewrite <- app_assoc; reflexivity). apply IH; auto. destruct acc; discriminate. }
    unfold case_toks at 1. cbn [fst snd]. rewrite <- !app_assoc. cbn [app]. apply ev_S. destruct cs as [cs|]; cbn [ctoks].
    + cbn [opt optb] in *. destruct W3 as [HN3 W3]. assert (Forall good cs) as G by (refine (forall_both _ _ _ cs _ W3 P1); intros; now apply written_good).
      assert (ev (fun n => do x <- p_expr n (tjoin (map etoks cs) +++ P COLON :: stoks b +++ flat_map case_toks l +++ KW "endcase" :: rest); do c <- p_conds n [fst x] (snd x); do s <- p_stm n (snd c); p_items n (acc +++ [(Some (fst c), fst s)]) (snd s)) (Ok (acc +++ (Some cs, b) :: l, rest))) as KK.
      { assert (ev (fun n => do c <- (do x <- p_expr n (tjoin (map etoks cs) +++ P COLON :: stoks b +++ flat_map case_toks l +++ KW "endcase" :: rest); p_conds n [fst x] (snd x)); do s <- p_stm n (snd c); p_items n (acc +++ [(Some (fst c), fst s)]) (snd s)) (Ok (acc +++ (Some cs, b) :: l, rest))) as KK.
        { refine (ev_bind _ _ _ _ (p_case_conds_ok cs _ HN3 G) _). cbn [fst snd]. apply (K (Some cs) eq_refl). }
        eapply ev_ext; [|exact KK]. intros n. cbn beta. destruct (p_expr n (tjoin (map etoks cs) +++ P COLON :: stoks b +++ flat_map case_toks l +++ KW "endcase" :: rest)); reflexivity. }
      assert (no_kw (tjoin (map etoks cs) +++ P COLON :: stoks b +++ flat_map case_toks l +++ KW "endcase" :: rest)) as N.
      { destruct G as [|x cs Gx G]; [congruence|]. assert (tjoin (map etoks (x :: cs)) = etoks x +++ match cs with [] => [] | _ => P COMMA :: tjoin (map etoks cs) end) as E by (destruct cs; cbn [map tjoin]; [now rewrite app_nil_r|reflexivity]). rewrite E, <- app_assoc. now apply etoks_no_kw. }
      eapply ev_ext; [|exact KK]. intros n. cbn [p_items]. destruct (tjoin (map etoks cs) +++ _) as [|[p|s|s|s|s|k s] r]; contradiction || reflexivity.
    + exact (K None eq_refl).
Qed.
