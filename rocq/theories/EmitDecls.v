(** EmitDecls.v - the text of a declaration: lexed and parsed back. *)
From Verif Require Import Base ScopeModel DfModel BindModel LexModel LexSpec LexProofs ExprModel ParseModel ExprSpec ExprLex ExprText ExprText2 ExprText3 ExprParse ExprSound StmModel StmText StmParse StmParse2 CodeModel CodeSpec CodeProofs SrcModel EmitModel EmitSpec EmitProofs EmitParse EmitItems.
From Verif Require StmSpec StmParse3 StmParse4 SrcParse SrcParse3.
Require Import Coq.Strings.Ascii.
Local Open Scope string_scope.
Local Notation "a +++ b" := (@app _ a b) (at level 60, right associativity).

Lemma has_is ty s : is_type ty s = has_type ty s.
Proof.
  unfold is_type, has_type. destruct (in_dec string_dec s ty) as [H|H].
  - apply existsb_exists. exists s. split; [exact H|apply String.eqb_refl].
  - apply not_true_is_false. intros K. apply existsb_exists in K as (x & Hx & E). apply String.eqb_eq in E as ->. contradiction.
Qed.
Lemma has_not ty s : ~ In s ty -> has_type ty s = false.
Proof. intros H. unfold has_type. destruct (in_dec string_dec s ty); [contradiction|reflexivity]. Qed.
Lemma has_in ty s : In s ty -> has_type ty s = true.
Proof. intros H. unfold has_type. destruct (in_dec string_dec s ty); [reflexivity|contradiction]. Qed.
Lemma top_length n : EmitModel.isTopmodule n = Nat.eqb (length n) 2.
Proof.
  unfold EmitModel.isTopmodule, getScope. destruct n as [|a n]; [reflexivity|]. rewrite (app_removelast_last a (l := a :: n)) at 2 by discriminate. rewrite app_length. cbn [length]. rewrite Nat.add_1_r. reflexivity.
Qed.

(** ** Ranges *)
Definition rng (r : range) : list token := P LBRACKET :: dtoks (fst r) +++ P COLON :: dtoks (snd r) +++ [P RBRACKET].
Definition rng_text (r : range) : string := "[" ++ code (fst r) ++ ":" ++ code (snd r) ++ "]".
Definition rplain (r : range) : Prop := plain (fst r) /\ plain (snd r).
Lemma rng_pre r : rplain r -> pre (rng_text r) (rng r).
Proof.
  intros [H1 H2]. pose proof (nod_code _ H1) as N1. pose proof (nod_code _ H2) as N2. unfold rng_text, rng. split; [nds|]. intros s ts H. rewrite !app_assoc_s. cbn [app]. rewrite <- app_assoc. cbn [app]. rewrite <- app_assoc. cbn [app].
  apply (spells_punct LBRACKET); [reflexivity|]. apply spells_code; [exact H1|now apply sep_char|]. apply (spells_punct COLON (code (snd r) ++ "]" ++ s)); [reflexivity|]. apply spells_code; [exact H2|now apply sep_char|]. now apply (spells_punct RBRACKET).
Qed.
Lemma p_rng r rest : rplain r -> ev (fun n => p_range n (rng r +++ rest)) (Ok (r, rest)).
Proof.
  intros [H1 H2]. unfold rng. cbn [app]. rewrite <- app_assoc. cbn [app]. rewrite <- app_assoc. cbn [app].
  change (ev (fun n => do a <- p_expr n (dtoks (fst r) +++ P COLON :: dtoks (snd r) +++ P RBRACKET :: rest); do r <- expect (is_p COLON) (snd a); do b <- p_expr n r; do r <- expect (is_p RBRACKET) (snd b); Ok ((fst a, fst b), r)) (Ok (r, rest))).
  evb (p_code (fst r) (P COLON :: dtoks (snd r) +++ P RBRACKET :: rest) H1 (conj I eq_refl)). change (ev (fun n => do b <- p_expr n (dtoks (snd r) +++ P RBRACKET :: rest); do r' <- expect (is_p RBRACKET) (snd b); Ok ((fst r, fst b), r')) (Ok (r, rest))).
  evb (p_code (snd r) (P RBRACKET :: rest) H2 (conj I eq_refl)). destruct r. ev0.
Qed.
Definition wtoks (w : option range) : list token := match w with Some w => rng w | None => [] end.
Definition wtext (w : option range) : string := match w with Some w => rng_text w ++ " " | None => "" end.
Definition wplain (w : option range) : Prop := match w with Some w => rplain w | None => True end.
Lemma wtext_pre w : wplain w -> pre (wtext w) (wtoks w).
Proof.
  destruct w as [w|]; [|intros _; apply pre_nil]. intros H. destruct (rng_pre w H) as [N K]. cbn [wtext wtoks]. split; [nds|]. intros s ts HS. rewrite app_assoc_s. apply K. now apply spells_blank.
Qed.
Lemma p_wtoks w n rest : wplain w -> ev (fun m => p_range_opt m (wtoks w +++ ID n :: rest)) (Ok (w, ID n :: rest)).
Proof.
  destruct w as [w|]; [|intros _; ev0]. intros H. refine (ev_bind (fun m => p_range m (rng w +++ ID n :: rest)) (fun _ x => Ok (Some (fst x), snd x)) _ _ (p_rng w (ID n :: rest) H) _). ev0.
Qed.
Definition dtext (l : list range) : string := String.concat "" (map rng_text l).
Lemma dtext_pre l : Forall rplain l -> pre (dtext l) (flat_map rng l).
Proof.
  intros H. induction H as [|r l Hr H IH]; [apply pre_nil|]. assert (dtext (r :: l) = rng_text r ++ dtext l) as ->. { unfold dtext. destruct l as [|q l]; [cbn [map String.concat]; now rewrite app_nil_s|reflexivity]. } cbn [flat_map]. apply pre_app; [now apply rng_pre|exact IH].
Qed.
Lemma p_dtext l : Forall rplain l -> forall acc rest, ev (fun n => p_dims n acc (flat_map rng l +++ P SEMICOLON :: rest)) (Ok (acc +++ l, P SEMICOLON :: rest)).
Proof.
  induction 1 as [|r l Hr H IH]; intros acc rest; apply ev_S; [rewrite app_nil_r; ev0|]. cbn [flat_map]. rewrite <- app_assoc.
  change (ev (fun n => do x <- p_range n (rng r +++ flat_map rng l +++ P SEMICOLON :: rest); p_dims n (acc +++ [fst x]) (snd x)) (Ok (acc +++ r :: l, P SEMICOLON :: rest))). evb (p_rng r (flat_map rng l +++ P SEMICOLON :: rest) Hr). replace (acc +++ r :: l) with ((acc +++ [r]) +++ l) by now rewrite <- app_assoc. apply IH.
Qed.

(** ** The words of a declaration *)
Definition wordlist (top : bool) (ty : list string) : list string :=
  (if top then (if has_type ty "Input" then ["input"] else if has_type ty "Inout" then ["inout"] else if has_type ty "Output" then ["output"] else [])
   else (if has_type ty "Input" || has_type ty "Inout" || has_type ty "Output" && negb (has_type ty "Reg") then ["wire"] else [])) +++
  keep (has_type ty "Reg") "reg" +++ keep (has_type ty "Wire") "wire" +++ keep (has_type ty "Function") "wire" +++ keep (has_type ty "Rename") "wire".
Definition wordtext (l : list string) : string := String.concat "" (map (fun s => s ++ " ") l).
Lemma words_text top ty : has_type ty "Integer" = false -> term_words top ty = wordtext (wordlist top ty).
Proof.
  intros H. unfold term_words, wordlist. rewrite !has_is, H. destruct top, (has_type ty "Input"), (has_type ty "Inout"), (has_type ty "Output"), (has_type ty "Reg"), (has_type ty "Wire"), (has_type ty "Function"), (has_type ty "Rename"); reflexivity.
Qed.
Definition sigword (s : string) : Prop := In s ["input"; "inout"; "output"; "wire"; "reg"].
Lemma wordlist_sig top ty : Forall sigword (wordlist top ty).
Proof.
  unfold wordlist, sigword. destruct top, (has_type ty "Input"), (has_type ty "Inout"), (has_type ty "Output"), (has_type ty "Reg"), (has_type ty "Wire"), (has_type ty "Function"), (has_type ty "Rename"); cbn [orb andb negb keep app];
  repeat (constructor; [cbn [In]; tauto|]); constructor.
Qed.
Lemma sigword_kw s : sigword s -> In s reserved /\ nod s = true /\ sigtype (KW s) = Some s /\ SrcParse3.item_word [] (KW s).
Proof. intros H. cbn in H. destruct H as [<-|[<-|[<-|[<-|[<-|[]]]]]]; (split; [reserved_|]); repeat split; reflexivity. Qed.
Lemma wordtext_pre l : Forall sigword l -> pre (wordtext l) (map KW l).
Proof.
  intros H. induction H as [|s l Hs H IH]; [apply pre_nil|]. assert (wordtext (s :: l) = (s ++ " ") ++ wordtext l) as ->. { unfold wordtext. destruct l as [|q l]; [cbn [map String.concat]; now rewrite app_nil_s|reflexivity]. }
  destruct (sigword_kw s Hs) as (R & N & _). apply (pre_app _ _ [KW s]); [|exact IH]. split; [nds|]. intros x ts Hx. rewrite app_assoc_s. apply (spells_word s " "); [exact R|now left|exact Hx].
Qed.
Lemma p_words l rest : Forall sigword l -> SrcParse.no_sig rest -> p_sigtypes (map KW l +++ rest) = (l, rest).
Proof.
  intros H HN. induction H as [|s l Hs H IH]; [now apply SrcParse.sigtypes_end|]. destruct (sigword_kw s Hs) as (_ & _ & E & _). cbn [map app p_sigtypes]. rewrite E, IH. reflexivity.
Qed.
Lemma create_words top ty n w dims : legal top ty = true -> kinds top ty <> [] -> create_decl (wordlist top ty) n w dims = Ok (map (fun k => MVar k n w false dims) (kinds top ty)).
Proof.
  unfold legal, kinds, wordlist. destruct top, (has_type ty "Input"), (has_type ty "Inout"), (has_type ty "Output"), (has_type ty "Reg"), (has_type ty "Wire"), (has_type ty "Function"), (has_type ty "Rename"); cbn [orb andb negb keep app]; intros HL HN; try discriminate HL; try congruence; reflexivity.
Qed.
Lemma words_nonempty top ty : kinds top ty <> [] -> wordlist top ty <> [].
Proof.
  unfold kinds, wordlist. destruct top, (has_type ty "Input"), (has_type ty "Inout"), (has_type ty "Output"), (has_type ty "Reg"), (has_type ty "Wire"), (has_type ty "Function"), (has_type ty "Rename"); cbn [orb andb negb keep app]; congruence.
Qed.

(** ** Declarations *)
Lemma dims_ok t dims : dims_of (t_dims t) dims -> Forall rplain dims /\ match t_dims t with None => Ok "" | Some l => do xs <- mapM dim_text l; Ok (String.concat "" xs) end = Ok (dtext dims).
Proof.
  intros [[-> ->]|(ds & -> & H)]; [split; [constructor|reflexivity]|].
  assert (Forall rplain dims /\ mapM dim_text ds = Ok (map rng_text dims)) as [K1 K2].
  { induction H as [|p r ds dims [H1 H2] H [I1 I2]]; [split; [constructor|reflexivity]|]. split; [constructor; [split; [exact (says_plain _ _ _ H1)|exact (says_plain _ _ _ H2)]|exact I1]|].
    cbn [mapM map]. unfold dim_text at 1. pose proof (says_some _ _ _ H1) as E1. pose proof (says_some _ _ _ H2) as E2. rewrite code_id in E1, E2. rewrite E1, E2. cbn [bind]. rewrite I2. reflexivity. }
  split; [exact K1|]. rewrite K2. reflexivity.
Qed.
Lemma width_ok m l w : width_of m l w -> wplain w /\ (if is_none m || is_none l then Ok "" else do x <- tocode_to None m; do y <- tocode_to None l; Ok ("[" ++ x ++ ":" ++ y ++ "] ")) = Ok (wtext w).
Proof.
  intros [[H ->]|(x & y & Hx & Hy & ->)]; [split; [exact I|]; now rewrite (none_or _ _ H)|]. split; [split; [exact (says_plain _ _ _ Hx)|exact (says_plain _ _ _ Hy)]|].
  rewrite (none_false _ (says_not_none _ _ _ Hx)), (none_false _ (says_not_none _ _ _ Hy)), (says_none _ _ Hx), (says_none _ _ Hy). cbn [bind orb wtext fst snd]. unfold rng_text. cbn [fst snd]. now rewrite !app_assoc_s.
Qed.
Lemma read_term t ms : declares t ms -> exists x, term_tocode t = Ok x /\ reads_as x (JDecl ms).
Proof.
  intros H. destruct H as [n -> HN HI HD|top n w dims HT -> HN HI HL HK HW HD].
  - exists ("integer " ++ toFlatname (t_name t) ++ nl ";"). assert (forall s, s <> "Integer" -> is_type (t_type t) s = false) as K by (intros s Hs; rewrite has_is; apply has_not; intros C; apply Hs, HI, C).
    assert (is_type (t_type t) "Integer" = true) as KI by (rewrite has_is; apply has_in; apply HI; reflexivity). split.
    + unfold term_tocode, term_words. rewrite HD, KI. rewrite !K by discriminate. destruct (EmitModel.isTopmodule (t_name t)); reflexivity.
    + exists (KW "integer" :: ID (toFlatname (t_name t)) :: [P SEMICOLON]). split; [|split].
      * pose proof (nod_id _ HN) as N. split; [nds|]. intros s ts H. rewrite !app_assoc_s. cbn [app]. apply (spells_word "integer" " "); [reserved_|now left|]. apply spells_name; [exact HN|now apply sep_char|]. now apply spells_semi.
      * eexists _, _. split; reflexivity.
      * intros rest. cbn [app]. apply ev_S. ev0.
  - assert (is_type (t_type t) "Integer" = false) as KI by (rewrite has_is; now apply has_not). assert (EmitModel.isTopmodule (t_name t) = top) as ET.
    { rewrite top_length. destruct top; [apply Nat.eqb_eq; now apply HT|]. apply Nat.eqb_neq. intros C. apply HT in C. discriminate. }
    destruct (width_ok _ _ _ HW) as [W1 W2]. destruct (dims_ok _ _ HD) as [D1 D2]. set (n := toFlatname (t_name t)) in *.
    exists (wordtext (wordlist top (t_type t)) ++ wtext w ++ n ++ dtext dims ++ nl ";"). split.
    + unfold term_tocode. rewrite KI. cbn [orb]. rewrite W2, D2. cbn [bind]. rewrite ET, words_text by now rewrite <- has_is. reflexivity.
    + pose proof (wordlist_sig top (t_type t)) as WS. pose proof (words_nonempty _ _ HK) as WN. exists (map KW (wordlist top (t_type t)) +++ wtoks w +++ ID n :: flat_map rng dims +++ [P SEMICOLON]). split; [|split].
      * apply pre_app; [now apply wordtext_pre|]. apply pre_app; [now apply wtext_pre|]. destruct (dtext_pre dims D1) as [N1 K]. pose proof (nod_id n HN) as N2. split; [nds|]. intros s ts H. rewrite !app_assoc_s. cbn [app]. rewrite <- app_assoc. cbn [app].
        apply spells_name; [exact HN| |apply K; now apply spells_semi]. destruct dims as [|d dims]; [now apply sep_char|]. unfold dtext. destruct dims; now apply sep_char.
      * destruct (wordlist top (t_type t)) as [|s l]; [congruence|]. inversion WS as [|? ? Hs _]; subst. eexists _, _. split; [reflexivity|]. apply (sigword_kw s Hs).
      * intros rest. rewrite <- !app_assoc. cbn [app]. rewrite <- app_assoc. cbn [app].
        set (mem := map (fun k => MVar k n w false dims) (kinds top (t_type t))).
        assert (ev (fun m => p_decl true m (map KW (wordlist top (t_type t)) +++ wtoks w +++ ID n :: flat_map rng dims +++ P SEMICOLON :: rest)) (Ok (mem, rest))) as K.
        { unfold p_decl. rewrite p_words by (auto; destruct w; reflexivity). evb (p_wtoks w n (flat_map rng dims +++ P SEMICOLON :: rest) W1).
          assert (ev (fun m => p_declnames m (wordlist top (t_type t)) w [] (ID n :: flat_map rng dims +++ P SEMICOLON :: rest)) (Ok (mem, rest))) as K.
          { apply ev_S. change (ev (fun m => do d <- p_dims m [] (flat_map rng dims +++ P SEMICOLON :: rest); match snd d with
              | P COMMA :: r => do mm <- create_decl (wordlist top (t_type t)) n w (fst d); p_declnames m (wordlist top (t_type t)) w ([] +++ mm) r
              | P SEMICOLON :: r => do mm <- create_decl (wordlist top (t_type t)) n w (fst d); Ok ([] +++ mm, r)
              | _ => Err ParseError end) (Ok (mem, rest))).
            evb (p_dtext dims D1 [] rest). cbn [app]. rewrite (create_words top (t_type t) n w dims HL HK). ev0. }
          destruct dims as [|d dims]; exact K. }
        assert (ev (fun m => decl_of (p_decl true m (map KW (wordlist top (t_type t)) +++ wtoks w +++ ID n :: flat_map rng dims +++ P SEMICOLON :: rest))) (Ok (JDecl mem, rest))) as K2 by (unfold decl_of; evb K; ev0).
        destruct (wordlist top (t_type t)) as [|s l]; [congruence|]. inversion WS as [|? ? Hs _]; subst. cbn in Hs. destruct Hs as [<-|[<-|[<-|[<-|[<-|[]]]]]]; exact K2.
Qed.
