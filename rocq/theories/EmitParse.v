(** EmitParse.v - the statements of a binding: their text is lexed and parsed back. *)
From Verif Require Import Base ScopeModel DfModel BindModel LexModel LexSpec LexProofs ExprModel ParseModel ExprSpec ExprLex ExprText ExprText2 ExprText3 ExprParse ExprSound StmModel StmText StmParse StmParse2 CodeModel CodeSpec CodeProofs SrcModel EmitModel EmitSpec EmitProofs.
From Verif Require StmSpec StmParse3 StmParse4 SrcParse.
Require Import Coq.Strings.Ascii.
Local Open Scope string_scope.
Local Notation "a +++ b" := (@app _ a b) (at level 60, right associativity).
Ltac evb H := refine (ev_bind _ _ _ _ H _); cbn [fst snd].
Ltac ev0 := exists 0; intros; reflexivity.

(** ** Lexing: a text in front of another one *)
Definition pre (a : string) (ta : list token) : Prop := nod a = true /\ forall s ts, spells s ts -> spells (a ++ s) (ta +++ ts).
Lemma pre_app a b ta tb : pre a ta -> pre b tb -> pre (a ++ b) (ta +++ tb).
Proof. intros [N1 H1] [N2 H2]. split; [nds|]. intros s ts H. rewrite app_assoc_s, <- app_assoc. apply H1, H2, H. Qed.
Lemma pre_nil : pre "" [].
Proof. split; [reflexivity|]. intros s ts H. exact H. Qed.
Lemma spells_code e s ts : plain e -> starts_sep s -> spells s ts -> spells (code e ++ s) (dtoks e +++ ts).
Proof.
  intros [HW HC] HS H. apply spells_app; [|exact H|exact HS]. exists (dps e). split; [reflexivity|]. split; [now apply toks_dps|now apply ok_dps].
Qed.
Lemma spells_name n s ts : simple_id n -> starts_sep s -> spells s ts -> spells (n ++ s) (ID n :: ts).
Proof. intros HN HS H. pose proof (spells_code (XId n) s ts (simple_plain n HN) HS H) as K. rewrite code_id in K. exact K. Qed.
Lemma sep_char c s : ends_number c = true -> starts_sep (String c s).
Proof. intros H. eexists _, _. split; [reflexivity|exact H]. Qed.
Lemma spells_eq s ts : spells s ts -> spells ("= " ++ s) (P EQUALS :: ts).
Proof. intros H. apply (spells_tok (P EQUALS) (String " " s)); [exact I|reflexivity|discriminate|now apply spells_blank]. Qed.
Lemma spells_le s ts : spells s ts -> spells ("<= " ++ s) (P LE :: ts).
Proof. intros H. apply (spells_tok (P LE) (String " " s)); [exact I|reflexivity|discriminate|now apply spells_blank]. Qed.
Lemma spells_semi s ts : spells s ts -> spells (nl ";" ++ s) (P SEMICOLON :: ts).
Proof. intros H. apply (spells_punct SEMICOLON (String NL s)); [reflexivity|now apply spells_nl]. Qed.
Lemma spells_word w c s ts : In w reserved -> c = " "%char \/ c = NL -> spells s ts -> spells (w ++ String c s) (KW w :: ts).
Proof. intros HW [-> | ->] H; apply spells_kw; auto; [right; apply sep_blank|now apply spells_blank|right; apply sep_newline|now apply spells_nl]. Qed.
Ltac reserved_ := unfold reserved; cbn [In]; repeat (first [left; reflexivity|right]).

(** ** Parsing *)
Lemma p_code e rest : plain e -> stops_expr rest -> ev (fun n => p_expr n (dtoks e +++ rest)) (Ok (e, rest)).
Proof. intros [HW HC] [H1 H2]. apply steps_expr; [|exact H2]. destruct (parse_dtoks_in e HW HC) as [K _]. apply (K [] rest); [exact I|exact H1]. Qed.
Lemma selects_code v p rest x : plain p -> ev (fun n => p_selects n (XPtr v p) rest) x -> ev (fun n => p_selects n v (P LBRACKET :: dtoks p +++ P RBRACKET :: rest)) x.
Proof. intros H K. apply ev_S. cbn [p_selects]. evb (p_code p (P RBRACKET :: rest) H (conj I eq_refl)). exact K. Qed.
Lemma tgt_index e : tgt e -> indexable e -> exists s sel, dtoks e = ID s :: sel /\ forall rest x, ev (fun n => p_selects n e rest) x -> ev (fun n => p_selects n (XId s) (sel +++ rest)) x.
Proof.
  induction 1 as [s H|v p H IH HI HP|v x y H IH HI HX HY]; intros HE; [|destruct (IH HI) as (s & sel & E & K)|contradiction].
  - exists s, []. split; [reflexivity|]. auto.
  - exists s, (sel +++ P LBRACKET :: dtoks p +++ [P RBRACKET]). split; [cbn [dtoks]; rewrite E; reflexivity|]. intros rest x Hx. rewrite <- app_assoc. apply K. cbn [app]. rewrite <- app_assoc. cbn [app]. now apply selects_code.
Qed.
Lemma tgt_selects e : tgt e -> exists s sel, dtoks e = ID s :: sel /\ forall rest, ends_select rest -> ev (fun n => p_selects n (XId s) (sel +++ rest)) (Ok (e, rest)).
Proof.
  intros H. destruct H as [s H|v p H HI HP|v x y H HI HX HY].
  - exists s, []. split; [reflexivity|]. intros rest HR. now apply selects_end.
  - destruct (tgt_index (XPtr v p) (tg_ptr v p H HI HP) I) as (s & sel & E & K). exists s, sel. split; [exact E|]. intros rest HR. apply K. now apply selects_end.
  - destruct (tgt_index v H HI) as (s & sel & E & K). exists s, (sel +++ P LBRACKET :: dtoks x +++ P COLON :: dtoks y +++ [P RBRACKET]). split; [cbn [dtoks]; rewrite E; reflexivity|]. intros rest HR. rewrite <- app_assoc. apply K. cbn [app]. rewrite <- app_assoc. cbn [app]. rewrite <- app_assoc. cbn [app].
    apply ev_S. cbn [p_selects]. evb (p_code x (P COLON :: dtoks y +++ P RBRACKET :: rest) HX (conj I eq_refl)). evb (p_code y (P RBRACKET :: rest) HY (conj I eq_refl)). ev0.
Qed.
Lemma p_lvalue_code e rest : tgt e -> ends_select rest -> ev (fun n => p_lvalue n (dtoks e +++ rest)) (Ok (e, rest)).
Proof. intros H HR. destruct (tgt_selects e H) as (s & sel & E & K). rewrite E. cbn [app]. apply ev_S. cbn [p_lvalue]. now apply K. Qed.
Lemma tgt_head e : tgt e -> exists s sel, dtoks e = ID s :: sel.
Proof. intros H. destruct (tgt_selects e H) as (s & sel & E & _). eauto. Qed.
Lemma dtoks_head_in e : written e -> codable e = true -> forall rest, match dtoks e +++ rest with P DELAY :: _ => False | [] => False | _ => True end.
Proof.
  intros HW HC. fine e HW HC (fun e => forall rest, match dtoks e +++ rest with P DELAY :: _ => False | [] => False | _ => True end); try (intros; exact I).
  - intros k s H rest. cbn [dtoks]. rewrite (int_tok_ok _ _ H). exact I.
  - intros v m l _ Hv _ _ rest. cbn [dtoks]. rewrite <- app_assoc. apply Hv.
  - intros v p _ Hv _ rest. cbn [dtoks]. rewrite <- app_assoc. apply Hv.
Qed.

(** ** Assignments *)
Lemma no_delays e rest : plain e -> forall n, p_delays n (dtoks e +++ rest) = Ok (None, dtoks e +++ rest).
Proof.
  intros [HW HC] n. pose proof (dtoks_head_in e HW HC rest) as K. unfold p_delays. destruct (dtoks e +++ rest) as [|[p|s|s|s|s|k s] r]; try reflexivity. destruct p; contradiction || reflexivity.
Qed.
Lemma p_asg_code (nb : bool) d e rest : tgt d -> plain e ->
  ev (fun n => p_asg_stm n None (dtoks d +++ P (if nb then LE else EQUALS) :: dtoks e +++ P SEMICOLON :: rest)) (Ok (nb, Asg d e None None, rest)).
Proof.
  intros HD HE. unfold p_asg_stm. assert (ev (fun n => p_asg n None (dtoks d +++ P (if nb then LE else EQUALS) :: dtoks e +++ P SEMICOLON :: rest)) (Ok (nb, Asg d e None None, P SEMICOLON :: rest))) as K.
  { unfold p_asg. evb (p_lvalue_code d (P (if nb then LE else EQUALS) :: dtoks e +++ P SEMICOLON :: rest) HD ltac:(destruct nb; exact I)).
    assert (ev (fun n => do x <- p_delays n (dtoks e +++ P SEMICOLON :: rest); do y <- p_expr n (snd x); Ok (nb, Asg d (fst y) None (fst x), snd y)) (Ok (nb, Asg d e None None, P SEMICOLON :: rest))) as K; [|destruct nb; exact K].
    eapply ev_ext; [intros n; rewrite (no_delays e _ HE); reflexivity|]. cbn [bind fst snd]. evb (p_code e (P SEMICOLON :: rest) HE (conj I eq_refl)). ev0. }
  evb K. ev0.
Qed.
Definition asg_text (nb : bool) (d e : expr) : string := code d ++ (if nb then " <= " else " = ") ++ code e ++ nl ";".
Definition asg_toks (nb : bool) (d e : expr) : list token := dtoks d +++ P (if nb then LE else EQUALS) :: dtoks e +++ [P SEMICOLON].
Lemma asg_pre nb d e : plain d -> plain e -> pre (asg_text nb d e) (asg_toks nb d e).
Proof.
  intros HD HE. pose proof (nod_code d HD) as N1. pose proof (nod_code e HE) as N2. split; [unfold asg_text; destruct nb; nds|]. intros s ts H. unfold asg_text, asg_toks. rewrite !app_assoc_s, <- app_assoc. cbn [app]. rewrite <- app_assoc. cbn [app].
  assert (spells (code e ++ nl ";" ++ s) (dtoks e +++ P SEMICOLON :: ts)) as K by (apply spells_code; [exact HE|now apply sep_char|now apply spells_semi]).
  apply spells_code; [exact HD|destruct nb; apply sep_blank|]. destruct nb; apply spells_blank; [exact (spells_le _ _ K)|exact (spells_eq _ _ K)].
Qed.

(** ** Statements *)
Fixpoint stm_toks (s : stm) : list token :=
  match s with
  | TAsg nb a => asg_toks nb (a_left a) (a_right a)
  | TIf c t e => KW "if" :: P LPAREN :: dtoks c +++ P RPAREN :: stm_toks t +++ match e with None => [] | Some e => KW "else" :: stm_toks e end
  | TBlock _ l => KW "begin" :: flat_map stm_toks l +++ [KW "end"]
  | _ => []
  end.
Definition readable (s : stm) : Prop :=
  StmSpec.may_end s /\ (exists t r, stm_toks s = t :: r /\ (is_kw "if" t = true \/ exists x, t = ID x)) /\
  forall rest, StmParse3.no_else rest -> ev (fun n => p_stm n (stm_toks s +++ rest)) (Ok (s, rest)).
Definition short (l : list stm) : Prop := match l with [] => True | [s] => readable s | _ => False end.
Lemma block_ok l rest : short l -> ev (fun n => p_stm n (stm_toks (TBlock None l) +++ rest)) (Ok (TBlock None l, rest)).
Proof.
  intros H. cbn [stm_toks app]. rewrite <- app_assoc. cbn [app]. apply ev_S.
  assert (ev (fun n => do b <- p_stms n "end" [] (flat_map stm_toks l +++ KW "end" :: rest); Ok (TBlock None (fst b), snd b)) (Ok (TBlock None l, rest))) as K.
  { assert (ev (fun n => p_stms n "end" [] (flat_map stm_toks l +++ KW "end" :: rest)) (Ok (l, rest))) as K; [|evb K; ev0].
    destruct l as [|s [|? ?]]; try contradiction; [apply ev_S; ev0|]. destruct H as (_ & (t & r & E & HT) & K). cbn [flat_map]. rewrite app_nil_r. specialize (K (KW "end" :: rest) eq_refl). rewrite E in *. cbn [app] in *. apply ev_S.
    assert (is_kw "end" t = false) as N. { destruct HT as [HT|(x & ->)]; [|reflexivity]. destruct t; try discriminate HT. cbn [is_kw] in *. apply String.eqb_eq in HT as ->. reflexivity. }
    eapply ev_ext; [intros n; cbn [p_stms]; rewrite N; reflexivity|]. evb K. apply ev_S. ev0. }
  assert (match flat_map stm_toks l +++ KW "end" :: rest with P COLON :: _ => False | _ => True end) as N.
  { destruct l as [|s [|? ?]]; try contradiction; [exact I|]. destruct H as (_ & (t & r & E & HT) & _). cbn [flat_map]. rewrite E. cbn [app]. destruct HT as [HT|(x & ->)]; [|exact I]. destruct t as [q| | | | |]; try discriminate HT; exact I. }
  eapply ev_ext; [|exact K]. intros n. cbn [p_stm r_stm]. change (r_word n (p_stm n) (p_stms n) (p_items n) (KW "begin") (flat_map stm_toks l +++ KW "end" :: rest)) with (match flat_map stm_toks l +++ KW "end" :: rest with
    | P COLON :: ID s :: r => do b <- p_stms n "end" [] r; Ok (TBlock (Some s) (fst b), snd b)
    | _ => do b <- p_stms n "end" [] (flat_map stm_toks l +++ KW "end" :: rest); Ok (TBlock None (fst b), snd b) end).
  destruct (flat_map stm_toks l +++ KW "end" :: rest) as [|[q|x|x|x|x|k x] r]; try reflexivity. destruct q; contradiction || reflexivity.
Qed.
Lemma p_paren_code c rest : plain c -> ev (fun n => p_paren n (P LPAREN :: dtoks c +++ P RPAREN :: rest)) (Ok (c, rest)).
Proof. intros H. change (ev (fun n => do x <- p_expr n (dtoks c +++ P RPAREN :: rest); do r <- expect (is_p RPAREN) (snd x); Ok (fst x, r)) (Ok (c, rest))). evb (p_code c (P RPAREN :: rest) H (conj I eq_refl)). ev0. Qed.
Lemma readable_asg nb d e : tgt d -> plain e -> readable (TAsg nb (Asg d e None None)).
Proof.
  intros HD HE. destruct (tgt_head d HD) as (x & sel & E). split; [exact I|]. split; [eexists _, _; cbn [stm_toks a_left a_right]; unfold asg_toks; rewrite E; cbn [app]; split; [reflexivity|right; eauto]|].
  intros rest _. cbn [stm_toks a_left a_right]. unfold asg_toks. rewrite <- app_assoc. cbn [app]. rewrite <- app_assoc. cbn [app]. apply ev_S. pose proof (p_asg_code nb d e rest HD HE) as K. rewrite E in *. cbn [app] in *.
  change (ev (fun n => do a <- p_asg_stm n None (ID x :: sel +++ P (if nb then LE else EQUALS) :: dtoks e +++ P SEMICOLON :: rest); Ok (TAsg (fst (fst a)) (snd (fst a)), snd a)) (Ok (TAsg nb (Asg d e None None), rest))). evb K. ev0.
Qed.
Lemma readable_if c l e : plain c -> short l -> match e with None => True | Some r => readable r end ->
  readable (TIf c (TBlock None l) (match e with None => None | Some r => Some (TBlock None [r]) end)).
Proof.
  intros HC HL HE. split; [exact I|]. split; [eexists _, _; split; [reflexivity|now left]|]. intros rest HR. set (tail := match e with None => [] | Some r => KW "else" :: stm_toks (TBlock None [r]) end).
  assert (stm_toks (TIf c (TBlock None l) (match e with None => None | Some r => Some (TBlock None [r]) end)) +++ rest = KW "if" :: P LPAREN :: dtoks c +++ P RPAREN :: stm_toks (TBlock None l) +++ tail +++ rest) as ->.
  { cbn [stm_toks app]. rewrite <- app_assoc. cbn [app]. do 3 f_equal. f_equal. f_equal. rewrite <- app_assoc. do 2 f_equal. unfold tail. destruct e; reflexivity. }
  apply ev_S. change (ev (fun n => do x <- p_paren n (P LPAREN :: dtoks c +++ P RPAREN :: stm_toks (TBlock None l) +++ tail +++ rest); do t <- p_stm n (snd x);
    match snd t with
    | w :: r => if is_kw "else" w then do e <- p_stm n r; need_end (fst e) (TIf (fst x) (fst t) (Some (fst e)), snd e) else need_end (fst t) (TIf (fst x) (fst t) None, snd t)
    | [] => need_end (fst t) (TIf (fst x) (fst t) None, []) end) (Ok (TIf c (TBlock None l) (match e with None => None | Some r => Some (TBlock None [r]) end), rest))).
  evb (p_paren_code c (stm_toks (TBlock None l) +++ tail +++ rest) HC). evb (block_ok l (tail +++ rest) HL). unfold tail. destruct e as [r|].
  - cbn [app]. change (is_kw "else" (KW "else")) with true. cbn iota. evb (block_ok [r] rest HE). ev0.
  - cbn [app]. destruct rest as [|w r]; [ev0|]. cbn [StmParse3.no_else] in HR. rewrite HR. ev0.
Qed.
Lemma spells_end s ts : spells s ts -> spells (nl "end" ++ s) (KW "end" :: ts).
Proof. intros H. apply (spells_word "end" NL); [reserved_|now right|exact H]. Qed.
Scheme does_min := Minimality for does Sort Prop with does_arm_min := Minimality for does_arm Sort Prop.
Combined Scheme does_both from does_min, does_arm_min.
Lemma arm_not_none nb d t s : does nb d t s -> t <> DNone.
Proof. intros H ->. inversion H as [t e B S|c t x l S A|c t f x l r S A N R]; subst. now apply says_not_none in S. Qed.
Lemma does_ok nb d : tgt d -> (forall t s, does nb d t s -> readable s /\ exists x, assigns nb (code d) t = Ok x /\ pre x (stm_toks s)) /\
  (forall t l, does_arm nb d t l -> short l /\ exists x, (if is_none t then Ok "" else assigns nb (code d) t) = Ok x /\ pre x (flat_map stm_toks l)).
Proof.
  intros HD. pose proof (tgt_plain d HD) as PD.
  apply (does_both nb d (fun t s => readable s /\ exists x, assigns nb (code d) t = Ok x /\ pre x (stm_toks s))
    (fun t l => short l /\ exists x, (if is_none t then Ok "" else assigns nb (code d) t) = Ok x /\ pre x (flat_map stm_toks l))).
  - intros t e B S. split; [exact (readable_asg nb d e HD (says_plain _ _ _ S))|]. exists (asg_text nb d e). split; [|exact (asg_pre nb d e PD (says_plain _ _ _ S))].
    pose proof (says_some _ _ _ S) as E. destruct t; try discriminate B; cbn [assigns]; rewrite E; reflexivity.
  - intros c t x l S _ [HL (y & Ey & Py)]. split; [exact (readable_if x l None (says_plain _ _ _ S) HL I)|]. exists ("if(" ++ code x ++ nl ") begin" ++ y ++ nl "end" ++ ""). split.
    + cbn [assigns]. rewrite (none_false _ (says_not_none _ _ _ S)), (says_some _ _ _ S), Ey. reflexivity.
    + destruct Py as [N1 Py]. pose proof (nod_code x (says_plain _ _ _ S)) as N2. split; [nds|]. intros s ts H. cbn [stm_toks app]. rewrite app_nil_r, !app_assoc_s, <- app_assoc. cbn [app]. rewrite <- app_assoc. cbn [app].
      apply (spells_kw "if"); [reserved_|right; now apply sep_char|]. apply (spells_punct LPAREN); [reflexivity|]. apply spells_code; [exact (says_plain _ _ _ S)|now apply sep_char|]. apply (spells_punct RPAREN (" begin" ++ String NL (y ++ nl "end" ++ "" ++ s))); [reflexivity|]. apply spells_blank.
      apply (spells_word "begin" NL); [reserved_|now right|]. apply Py. now apply spells_end.
  - intros c t f x l r S _ [HL (y & Ey & Py)] N _ [HR (z & Ez & Pz)]. split; [exact (readable_if x l (Some r) (says_plain _ _ _ S) HL HR)|]. exists ("if(" ++ code x ++ nl ") begin" ++ y ++ nl "end" ++ nl "else begin" ++ z ++ nl "end"). split.
    + cbn [assigns]. rewrite (none_false _ (says_not_none _ _ _ S)), (says_some _ _ _ S), Ey, (none_false _ N), Ez. reflexivity.
    + destruct Py as [N1 Py], Pz as [N3 Pz]. pose proof (nod_code x (says_plain _ _ _ S)) as N2. split; [nds|]. intros s ts H. cbn [stm_toks flat_map app]. rewrite app_nil_r, !app_assoc_s, <- app_assoc. cbn [app]. rewrite <- app_assoc. cbn [app]. rewrite <- app_assoc. cbn [app]. rewrite <- app_assoc. cbn [app].
      apply (spells_kw "if"); [reserved_|right; now apply sep_char|]. apply (spells_punct LPAREN); [reflexivity|]. apply spells_code; [exact (says_plain _ _ _ S)|now apply sep_char|]. apply (spells_punct RPAREN (" begin" ++ String NL (y ++ nl "end" ++ nl "else begin" ++ z ++ nl "end" ++ s))); [reflexivity|]. apply spells_blank.
      apply (spells_word "begin" NL); [reserved_|now right|]. apply Py. apply spells_end. apply (spells_word "else" " "%char ("begin" ++ String NL (z ++ nl "end" ++ s))); [reserved_|now left|]. apply (spells_word "begin" NL); [reserved_|now right|]. apply Pz. now apply spells_end.
  - split; [exact I|]. exists "". split; [reflexivity|]. exact pre_nil.
  - intros t s Hs [HR (x & Ex & Px)]. split; [exact HR|]. exists x. rewrite (none_false _ (arm_not_none _ _ _ _ Hs)). split; [exact Ex|]. cbn [flat_map]. now rewrite app_nil_r.
Qed.
