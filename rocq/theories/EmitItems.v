(** EmitItems.v - the text of a binding and of a declaration: lexed and parsed back as an item of a module. *)
From Verif Require Import Base ScopeModel DfModel BindModel LexModel LexSpec LexProofs ExprModel ParseModel ExprSpec ExprLex ExprText ExprText2 ExprText3 ExprParse ExprSound StmModel StmText StmParse StmParse2 CodeModel CodeSpec CodeProofs SrcModel EmitModel EmitSpec EmitProofs EmitParse.
From Verif Require StmSpec StmParse3 StmParse4 SrcParse SrcParse3.
Require Import Coq.Strings.Ascii.
Local Open Scope string_scope.
Local Notation "a +++ b" := (@app _ a b) (at level 60, right associativity).

(** A text that is read as an item, whatever follows. *)
Definition reads_as (x : string) (i : sitem) : Prop :=
  exists ts, pre x ts /\ (exists t r, ts = t :: r /\ SrcParse3.item_word [] t) /\ forall rest, ev (fun n => p_standard n (ts +++ rest)) (Ok (i, rest)).

(** ** Parameters and assignments *)
Lemma statement_pre w d e : In w reserved -> nod w = true -> plain d -> plain e -> pre (w ++ " " ++ code d ++ " = " ++ code e ++ nl ";") (KW w :: dtoks d +++ P EQUALS :: dtoks e +++ [P SEMICOLON]).
Proof.
  intros HW N0 HD HE. pose proof (nod_code d HD) as N1. pose proof (nod_code e HE) as N2. split; [nds|]. intros s ts H. destruct (asg_pre false d e HD HE) as [_ K]. specialize (K s ts H). unfold asg_text, asg_toks in K. rewrite !app_assoc_s in *. cbn [app]. apply (spells_word w " "); [exact HW|now left|]. exact K.
Qed.
Lemma read_param (local : bool) n e : simple_id n -> plain e -> reads_as ((if local then "localparam" else "parameter") ++ " " ++ n ++ " = " ++ code e ++ nl ";") (JDecl [MParam local n e None false]).
Proof.
  intros HN HE. exists (KW (if local then "localparam" else "parameter") :: ID n :: P EQUALS :: dtoks e +++ [P SEMICOLON]). split; [|split].
  - pose proof (statement_pre (if local then "localparam" else "parameter") (XId n) e ltac:(destruct local; reserved_) ltac:(destruct local; reflexivity) (simple_plain n HN) HE) as K. rewrite code_id in K. exact K.
  - eexists _, _. split; [reflexivity|]. destruct local; reflexivity.
  - intros rest. cbn [app]. rewrite <- app_assoc. cbn [app].
    assert (ev (fun m => p_parameters local m (ID n :: P EQUALS :: dtoks e +++ P SEMICOLON :: rest)) (Ok ([MParam local n e None false], P SEMICOLON :: rest))) as K.
    { unfold p_parameters. cbn [p_param_head is_kw p_range_opt bind fst snd]. apply ev_S. cbn [p_substs p_id bind fst snd expect is_p]. evb (p_code e (P SEMICOLON :: rest) HE (conj I eq_refl)). ev0. }
    assert (ev (fun m => decl_of (p_paramdecl local m (ID n :: P EQUALS :: dtoks e +++ P SEMICOLON :: rest))) (Ok (JDecl [MParam local n e None false], rest))) as K2.
    { assert (ev (fun m => p_paramdecl local m (ID n :: P EQUALS :: dtoks e +++ P SEMICOLON :: rest)) (Ok ([MParam local n e None false], rest))) as K3 by (unfold p_paramdecl; evb K; ev0). unfold decl_of. evb K3. ev0. }
    destruct local; exact K2.
Qed.
Lemma read_assign d e : tgt d -> plain e -> reads_as ("assign" ++ " " ++ code d ++ " = " ++ code e ++ nl ";") (JAssign (Asg d e None None)).
Proof.
  intros HD HE. exists (KW "assign" :: dtoks d +++ P EQUALS :: dtoks e +++ [P SEMICOLON]). split; [|split].
  - apply statement_pre; [reserved_|reflexivity|now apply tgt_plain|exact HE].
  - eexists _, _. split; reflexivity.
  - intros rest. cbn [app]. rewrite <- app_assoc. cbn [app]. rewrite <- app_assoc. cbn [app].
    assert (ev (fun n => p_assignment n (dtoks d +++ P EQUALS :: dtoks e +++ P SEMICOLON :: rest)) (Ok (Asg d e None None, rest))) as K.
    { assert (ev (fun n => do x <- p_lvalue n (dtoks d +++ P EQUALS :: dtoks e +++ P SEMICOLON :: rest); do r <- expect (is_p EQUALS) (snd x); do e <- p_expr n r; do r <- expect (is_p SEMICOLON) (snd e); Ok (Asg (fst x) (fst e) None None, r)) (Ok (Asg d e None None, rest))) as K.
      { evb (p_lvalue_code d (P EQUALS :: dtoks e +++ P SEMICOLON :: rest) HD I). cbn [expect is_p bind].
        change (ev (fun n => do e0 <- p_expr n (dtoks e +++ P SEMICOLON :: rest); do r <- expect (is_p SEMICOLON) (snd e0); Ok (Asg d (fst e0) None None, r)) (Ok (Asg d e None None, rest))).
        evb (p_code e (P SEMICOLON :: rest) HE (conj I eq_refl)). ev0. }
      destruct (tgt_head d HD) as (s & sel & E). rewrite E in *. exact K. }
    change (ev (fun n => do a <- p_assignment n (dtoks d +++ P EQUALS :: dtoks e +++ P SEMICOLON :: rest); Ok (JAssign (fst a), snd a)) (Ok (JAssign (Asg d e None None), rest))). evb K. ev0.
Qed.

(** ** Blocks *)
Definition edge_kw (k : edge) : string := match k with Negedge => "negedge" | _ => "posedge" end.
Definition sens_toks (l : list sensitem) : list token :=
  match l with
  | [SSig k (XId c)] => [KW (edge_kw k); ID c]
  | [SSig k (XId c); SSig j (XId r)] => [KW (edge_kw k); ID c; KW "or"; KW (edge_kw j); ID r]
  | _ => []
  end.
Definition edged (k : edge) : Prop := k = Posedge \/ k = Negedge.
Lemma p_edge_name k c rest : edged k -> ends_select rest -> ev (fun n => p_edge n (KW (edge_kw k) :: ID c :: rest)) (Ok (SSig k (XId c), rest)).
Proof.
  intros HK HR. assert (ev (fun n => p_signal n k (ID c :: rest)) (Ok (SSig k (XId c), rest))) as K.
  { unfold p_signal. evb (selects_end (XId c) rest HR). destruct k; ev0. }
  destruct HK as [-> | ->]; exact K.
Qed.
Lemma p_one_edge k c rest : edged k -> ev (fun n => p_senslist n (P AT :: P LPAREN :: KW (edge_kw k) :: ID c :: P RPAREN :: rest)) (Ok ([SSig k (XId c)], rest)).
Proof.
  intros HK. change (ev (fun n => do x <- p_edge n (KW (edge_kw k) :: ID c :: P RPAREN :: rest); p_sigs (p_edge n) n [fst x] (snd x)) (Ok ([SSig k (XId c)], rest))). evb (p_edge_name k c (P RPAREN :: rest) HK I). exists 1. intros [|n] Hn; [lia|]. reflexivity.
Qed.
Lemma p_two_edges k c j r rest : edged k -> edged j ->
  ev (fun n => p_senslist n (P AT :: P LPAREN :: KW (edge_kw k) :: ID c :: KW "or" :: KW (edge_kw j) :: ID r :: P RPAREN :: rest)) (Ok ([SSig k (XId c); SSig j (XId r)], rest)).
Proof.
  intros HK HJ. change (ev (fun n => do x <- p_edge n (KW (edge_kw k) :: ID c :: KW "or" :: KW (edge_kw j) :: ID r :: P RPAREN :: rest); p_sigs (p_edge n) n [fst x] (snd x)) (Ok ([SSig k (XId c); SSig j (XId r)], rest))). evb (p_edge_name k c (KW "or" :: KW (edge_kw j) :: ID r :: P RPAREN :: rest) HK I).
  destruct (p_edge_name j r (P RPAREN :: rest) HJ I) as (n0 & K). exists (S (S n0)). intros [|[|n]] Hn; [lia|lia|].
  change (p_sigs (p_edge (S (S n))) (S (S n)) [SSig k (XId c)] (KW "or" :: KW (edge_kw j) :: ID r :: P RPAREN :: rest)) with (do x <- p_edge (S (S n)) (KW (edge_kw j) :: ID r :: P RPAREN :: rest); p_sigs (p_edge (S (S n))) (S n) ([SSig k (XId c)] +++ [fst x]) (snd x)). rewrite (K (S (S n))) by lia. reflexivity.
Qed.
Lemma read_block_toks x sens ts s head :
  readable s -> pre head (KW "always" :: P AT :: ts) -> pre x (stm_toks s) ->
  (forall rest, ev (fun n => p_senslist n (P AT :: ts +++ rest)) (Ok (sens, rest))) ->
  reads_as (head ++ nl "begin" ++ x ++ nl (nl "end")) (JItem (IAlways KAlways sens (TBlock None [s]))).
Proof.
  intros HR [N1 H1] [N2 H2] HS. exists (KW "always" :: P AT :: ts +++ stm_toks (TBlock None [s])). split; [|split].
  - split; [nds|]. intros y ty H. rewrite !app_assoc_s. cbn [app stm_toks flat_map]. rewrite app_nil_r. rewrite <- app_assoc. cbn [app]. rewrite <- app_assoc. apply H1. apply (spells_word "begin" NL); [reserved_|now right|]. apply H2. refine (spells_word "end" NL (String NL y) ty _ (or_intror eq_refl) _); [reserved_|now apply spells_nl].
  - eexists _, _. split; reflexivity.
  - intros rest. cbn [app]. rewrite <- app_assoc.
    assert (ev (fun n => p_item n (KW "always" :: P AT :: ts +++ stm_toks (TBlock None [s]) +++ rest)) (Ok (IAlways KAlways sens (TBlock None [s]), rest))) as K.
    { change (ev (fun n => do x <- p_senslist n (P AT :: ts +++ stm_toks (TBlock None [s]) +++ rest); do s <- p_stm n (snd x); need_end (fst s) (IAlways KAlways (fst x) (fst s), snd s)) (Ok (IAlways KAlways sens (TBlock None [s]), rest))).
      evb (HS (stm_toks (TBlock None [s]) +++ rest)). evb (block_ok [s] rest HR). ev0. }
    change (ev (fun n => do i <- p_item n (KW "always" :: P AT :: ts +++ stm_toks (TBlock None [s]) +++ rest); Ok (JItem (fst i), snd i)) (Ok (JItem (IAlways KAlways sens (TBlock None [s])), rest))). evb K. ev0.
Qed.
Lemma spells_edge k c s ts : edged k -> simple_id c -> starts_sep s -> spells s ts -> spells (edge_kw k ++ " " ++ c ++ s) (KW (edge_kw k) :: ID c :: ts).
Proof. intros HK HC HS H. apply (spells_word (edge_kw k) " "); [destruct HK as [-> | ->]; reserved_|now left|]. now apply spells_name. Qed.
Lemma nod_edge k : nod (edge_kw k) = true.
Proof. destruct k; reflexivity. Qed.
Lemma clock_pre k c : edged k -> simple_id c -> pre ("always @(" ++ (edge_kw k ++ " " ++ c) ++ ") ") (KW "always" :: P AT :: P LPAREN :: KW (edge_kw k) :: ID c :: [P RPAREN]).
Proof.
  intros HK HC. pose proof (nod_edge k) as N1. pose proof (nod_id c HC) as N2. split; [nds|]. intros s ts H. rewrite !app_assoc_s. cbn [app].
  apply (spells_word "always" " " ("@(" ++ edge_kw k ++ " " ++ c ++ ") " ++ s)); [reserved_|now left|]. apply (spells_punct AT ("(" ++ edge_kw k ++ " " ++ c ++ ") " ++ s)); [reflexivity|]. apply (spells_punct LPAREN (edge_kw k ++ " " ++ c ++ ") " ++ s)); [reflexivity|].
  apply spells_edge; [exact HK|exact HC|now apply sep_char|]. apply (spells_punct RPAREN (String " " s)); [reflexivity|]. now apply spells_blank.
Qed.
Lemma clock_reset_pre k c j r : edged k -> simple_id c -> edged j -> simple_id r -> pre ("always @(" ++ (edge_kw k ++ " " ++ c) ++ (" or " ++ edge_kw j ++ " " ++ r) ++ ") ") (KW "always" :: P AT :: P LPAREN :: KW (edge_kw k) :: ID c :: KW "or" :: KW (edge_kw j) :: ID r :: [P RPAREN]).
Proof.
  intros HK HC HJ HR. pose proof (nod_edge k) as N1. pose proof (nod_id c HC) as N2. pose proof (nod_edge j) as N3. pose proof (nod_id r HR) as N4. split; [nds|]. intros s ts H. rewrite !app_assoc_s. cbn [app].
  apply (spells_word "always" " " ("@(" ++ edge_kw k ++ " " ++ c ++ " or " ++ edge_kw j ++ " " ++ r ++ ") " ++ s)); [reserved_|now left|]. apply (spells_punct AT ("(" ++ edge_kw k ++ " " ++ c ++ " or " ++ edge_kw j ++ " " ++ r ++ ") " ++ s)); [reflexivity|]. apply (spells_punct LPAREN (edge_kw k ++ " " ++ c ++ " or " ++ edge_kw j ++ " " ++ r ++ ") " ++ s)); [reflexivity|].
  apply spells_edge; [exact HK|exact HC|apply sep_blank|]. apply spells_blank. apply (spells_word "or" " " (edge_kw j ++ " " ++ r ++ ") " ++ s)); [reserved_|now left|].
  apply spells_edge; [exact HJ|exact HR|now apply sep_char|]. apply (spells_punct RPAREN (String " " s)); [reflexivity|]. now apply spells_blank.
Qed.
Lemma star_pre : pre "always @* " (KW "always" :: P AT :: [P TIMES]).
Proof.
  split; [reflexivity|]. intros s ts H. cbn [app]. apply (spells_word "always" " " ("@* " ++ s)); [reserved_|now left|]. apply (spells_punct AT ("* " ++ s)); [reflexivity|]. apply (spells_tok (P TIMES) (String " " s)); [exact I|reflexivity|discriminate|now apply spells_blank].
Qed.

(** ** Bindings *)
Lemma edge_word_kw w k : edge_word w k -> w = edge_kw k /\ edged k.
Proof. intros [[-> ->]|[-> ->]]; split; try reflexivity; [now left|now right]. Qed.
Lemma not_param b w : b_param b <> w -> String.eqb (b_param b) w = false.
Proof. apply String.eqb_neq. Qed.
Lemma read_bind b i : item_of b i -> exists x, bind_tocode b = Ok x /\ reads_as x i.
Proof.
  intros H. destruct H as [local n e E U -> HN S|d e N1 N2 EA T S|a n w k c rs d s N1 N2 EA EN EW W SC R T D|a d s N1 N2 EA EN T D].
  - exists ((if local then "localparam" else "parameter") ++ " " ++ toFlatname (b_dest b) ++ " = " ++ code e ++ nl ";"). split; [|now apply read_param; [|exact (says_plain _ _ _ S)]].
    pose proof (says_some _ _ _ S) as E2. rewrite code_id in E2. unfold bind_tocode, statement. rewrite E, (unsliced_dest b U). cbn [bind]. rewrite E2. destruct local; reflexivity.
  - exists ("assign" ++ " " ++ code d ++ " = " ++ code e ++ nl ";"). split; [|apply read_assign; [exact (target_tgt b d T)|exact (says_plain _ _ _ S)]].
    unfold bind_tocode. rewrite (not_param b _ N1), (not_param b _ N2), EA. unfold statement. rewrite (getdest_ok b d T). cbn [bind]. rewrite (says_some _ _ _ S). reflexivity.
  - destruct (edge_word_kw w k W) as [-> HK]. destruct SC as [-> HC]. pose proof (target_tgt b d T) as TD. destruct (proj1 (does_ok true d TD) _ _ D) as (HR & x & Ex & Px).
    assert (bind_tocode b = always_clockedge a b) as ->. { unfold bind_tocode. rewrite (not_param b _ N1), (not_param b _ N2), EA. unfold always_isCombination. rewrite EN. reflexivity. }
    unfold always_clockedge. rewrite (getdest_ok b d T). cbn [bind]. unfold edge_text at 1. rewrite EW, EN. cbn [bind].
    destruct R as [HNo|n2 w2 k2 e2 E1 E2 W2 S2].
    + assert (edge_text (reset_edge a) (reset_name a) = Ok None) as -> by (unfold edge_text; destruct HNo as [HNo | HNo]; rewrite HNo; [reflexivity|]; destruct (reset_edge a); reflexivity). cbn [bind]. rewrite Ex. cbn [bind]. eexists. split; [reflexivity|].
      pose proof (read_block_toks x [SSig k (XId (toFlatname n))] (P LPAREN :: KW (edge_kw k) :: ID (toFlatname n) :: [P RPAREN]) s _ HR (clock_pre k (toFlatname n) HK HC) Px (fun rest => p_one_edge k (toFlatname n) rest HK)) as K. rewrite !app_assoc_s in *. exact K.
    + destruct (edge_word_kw w2 k2 W2) as [-> HJ]. destruct S2 as [-> HC2]. rewrite E1, E2. cbn [edge_text bind]. rewrite Ex. cbn [bind]. eexists. split; [reflexivity|].
      pose proof (read_block_toks x [SSig k (XId (toFlatname n)); SSig k2 (XId (toFlatname n2))] (P LPAREN :: KW (edge_kw k) :: ID (toFlatname n) :: KW "or" :: KW (edge_kw k2) :: ID (toFlatname n2) :: [P RPAREN]) s _ HR (clock_reset_pre k (toFlatname n) k2 (toFlatname n2) HK HC HJ HC2) Px (fun rest => p_two_edges k (toFlatname n) k2 (toFlatname n2) rest HK HJ)) as K. rewrite !app_assoc_s in *. exact K.
  - pose proof (target_tgt b d T) as TD. destruct (proj1 (does_ok false d TD) _ _ D) as (HR & x & Ex & Px).
    assert (bind_tocode b = always_combination b) as ->. { unfold bind_tocode. rewrite (not_param b _ N1), (not_param b _ N2), EA. unfold always_isCombination. rewrite EN. reflexivity. }
    unfold always_combination. rewrite (getdest_ok b d T). cbn [bind]. rewrite Ex. cbn [bind]. eexists. split; [reflexivity|].
    exact (read_block_toks x [SAll] [P TIMES] s _ HR star_pre Px (fun rest => ltac:(exists 0; intros; reflexivity))).
Qed.
