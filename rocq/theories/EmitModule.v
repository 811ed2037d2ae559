(** EmitModule.v - the text of a whole module: lexed and parsed back. *)
From Verif Require Import Base ScopeModel DfModel BindModel LexModel LexSpec LexProofs ExprModel ParseModel ExprSpec ExprLex ExprText ExprText2 ExprText3 ExprParse ExprSound StmModel StmText StmParse StmParse2 CodeModel CodeSpec CodeProofs SrcModel EmitModel EmitSpec EmitProofs EmitParse EmitItems EmitDecls.
From Verif Require StmSpec StmParse3 StmParse4 SrcParse SrcParse3.
Require Import Coq.Strings.Ascii.
Local Open Scope string_scope.
Local Notation "a +++ b" := (@app _ a b) (at level 60, right associativity).

(** ** Items *)
Definition reads_items (x : string) (l : list sitem) : Prop :=
  exists ts, pre x ts /\ forall acc rest y, ev (fun n => p_mitems n (acc +++ l) rest) y -> ev (fun n => p_mitems n acc (ts +++ rest)) y.
Lemma items_nil : reads_items "" [].
Proof. exists []. split; [apply pre_nil|]. intros acc rest y. now rewrite app_nil_r. Qed.
Lemma items_app x y l k : reads_items x l -> reads_items y k -> reads_items (x ++ y) (l +++ k).
Proof.
  intros (tx & P1 & H1) (ty & P2 & H2). exists (tx +++ ty). split; [now apply pre_app|]. intros acc rest z H. rewrite <- app_assoc. apply H1, H2. now rewrite <- app_assoc.
Qed.
Lemma items_one x i : reads_as x i -> reads_items x [i].
Proof.
  intros (ts & P1 & (t & r & -> & HW) & H). exists (t :: r). split; [exact P1|]. intros acc rest y K. refine (SrcParse3.mitems_step acc _ i rest y _ (H rest) K). exists t, (r +++ rest). split; [reflexivity|exact HW].
Qed.
Lemma items_nl x l : reads_items x l -> reads_items (x ++ String NL "") l.
Proof.
  intros (ts & [N P1] & H). exists ts. split; [|exact H]. split; [nds|]. intros s ty K. rewrite app_assoc_s. apply P1. now apply spells_nl.
Qed.
Lemma texts_ok l is : Forall2 item_of l is -> exists x, texts l = Ok x /\ reads_items x is.
Proof.
  intros H. induction H as [|b i l is Hb H (x & Ex & Hx)]; [exists ""; split; [reflexivity|apply items_nil]|]. destruct (read_bind b i Hb) as (y & Ey & Hy). exists (y ++ x). cbn [texts]. rewrite Ey, Ex. split; [reflexivity|]. exact (items_app _ _ [i] is (items_one _ _ Hy) Hx).
Qed.
Lemma texts_app l k x y : texts l = Ok x -> texts k = Ok y -> texts (l +++ k) = Ok (x ++ y).
Proof.
  revert x. induction l as [|b l IH]; intros x E1 E2; cbn [texts app] in *; [injection E1 as <-; exact E2|]. destruct (bind_tocode b) as [u|]; [|discriminate]. cbn [bind] in *. destruct (texts l) as [v|]; [|discriminate]. cbn [bind] in *. rewrite (IH v eq_refl E2). cbn [bind]. injection E1 as <-. now rewrite app_assoc_s.
Qed.
Lemma texts_split l k x : texts (l +++ k) = Ok x -> exists u v, texts l = Ok u /\ texts k = Ok v /\ x = u ++ v.
Proof.
  revert x. induction l as [|b l IH]; intros x E; cbn [texts app] in *; [exists "", x; auto|]. destruct (bind_tocode b) as [u|]; [|discriminate]. cbn [bind] in *. destruct (texts (l +++ k)) as [v|] eqn:EL; [|discriminate]. cbn [bind] in *. destruct (IH v eq_refl) as (a & c & -> & -> & ->). exists (u ++ a), c. cbn [bind]. split; [reflexivity|]. split; [reflexivity|]. injection E as <-. now rewrite app_assoc_s.
Qed.

(** ** Names of signals that are not words *)
Lemma read_port k n : sigword k -> simple_id n -> (k = "input" \/ k = "wire") -> reads_as (k ++ " " ++ n ++ nl ";") (JDecl [MVar (if String.eqb k "input" then KInput else KWire) n None false []]).
Proof.
  intros HK HN HI. destruct (sigword_kw k HK) as (R & N & E & W). exists (KW k :: ID n :: [P SEMICOLON]). split; [|split].
  - pose proof (nod_id n HN) as N2. split; [nds|]. intros s ts H. rewrite !app_assoc_s. cbn [app]. apply (spells_word k " "); [exact R|now left|]. apply spells_name; [exact HN|now apply sep_char|]. now apply spells_semi.
  - eexists _, _. split; [reflexivity|exact W].
  - intros rest. cbn [app]. destruct HI as [-> | ->]; (exists 2; intros [|[|m]] Hm; [lia|lia|]); reflexivity.
Qed.

(** ** The head of the module *)
Lemma drop_last_snoc s c : ScopeModel.drop_last (s ++ String c "") = s.
Proof. induction s as [|d s IH]; [reflexivity|]. cbn [append ScopeModel.drop_last]. rewrite IH. destruct s; reflexivity. Qed.
Lemma cut2_snoc s : cut2 (s ++ ", ") = s.
Proof. unfold cut2. change ", " with (String "," "" ++ String " " ""). rewrite <- app_assoc_s. now rewrite !drop_last_snoc. Qed.
Lemma commas x l : String.concat "" (map (fun s => s ++ ", ") (x :: l)) = (x ++ String.concat "" (map (fun s => ", " ++ s) l)) ++ ", ".
Proof.
  revert x. induction l as [|y l IH]; intros x; [cbn [map String.concat]; now rewrite app_nil_s|].
  change (String.concat "" (map (fun s => s ++ ", ") (x :: y :: l))) with ((x ++ ", ") ++ String.concat "" (map (fun s => s ++ ", ") (y :: l))). rewrite IH.
  assert (String.concat "" (map (fun s => ", " ++ s) (y :: l)) = (", " ++ y) ++ String.concat "" (map (fun s => ", " ++ s) l)) as ->. { destruct l as [|z l]; [cbn [map String.concat]; now rewrite app_nil_s|reflexivity]. } now rewrite !app_assoc_s.
Qed.
Lemma spells_comma s ts : spells s ts -> spells (", " ++ s) (P COMMA :: ts).
Proof. intros H. apply (spells_punct COMMA (String " " s)); [reflexivity|now apply spells_blank]. Qed.
Lemma names_spell l s ts : Forall simple_id l -> starts_sep s -> spells s ts -> spells (String.concat "" (map (fun s => ", " ++ s) l) ++ s) (flat_map (fun n => [P COMMA; ID n]) l +++ ts) /\ starts_sep (String.concat "" (map (fun s => ", " ++ s) l) ++ s).
Proof.
  intros H HS K. induction H as [|n l Hn H [I1 I2]]; [split; [exact K|exact HS]|].
  assert (String.concat "" (map (fun s => ", " ++ s) (n :: l)) = (", " ++ n) ++ String.concat "" (map (fun s => ", " ++ s) l)) as ->. { destruct l as [|z l]; [cbn [map String.concat]; now rewrite app_nil_s|reflexivity]. }
  rewrite !app_assoc_s. split; [|now apply sep_char]. cbn [flat_map app]. apply spells_comma. now apply spells_name.
Qed.
Lemma spells_spaces n s ts : spells s ts -> spells (spaces n ++ s) ts.
Proof. intros H. induction n as [|n IH]; [exact H|]. cbn [spaces append]. now apply spells_blank. Qed.
Lemma nod_spaces n : nod (spaces n) = true.
Proof. induction n as [|n IH]; [reflexivity|exact IH]. Qed.
Lemma nod_names l : Forall simple_id l -> nod (String.concat "" (map (fun s => ", " ++ s) l)) = true.
Proof.
  intros H. induction H as [|n l Hn H IH]; [reflexivity|]. assert (String.concat "" (map (fun s => ", " ++ s) (n :: l)) = (", " ++ n) ++ String.concat "" (map (fun s => ", " ++ s) l)) as ->. { destruct l as [|z l]; [cbn [map String.concat]; now rewrite app_nil_s|reflexivity]. }
  rewrite !nod_app, IH, (nod_id n Hn). reflexivity.
Qed.
Lemma p_ports_names l : forall acc rest, p_ports acc (flat_map (fun n => [P COMMA; ID n]) l +++ P RPAREN :: rest) = Ok (acc +++ map Port l, rest).
Proof. induction l as [|n l IH]; intros acc rest; [cbn; now rewrite app_nil_r|]. cbn [flat_map app p_ports map]. rewrite IH. now rewrite <- app_assoc. Qed.
(** The first line. *)
Lemma lex_nettype s ts : spells s ts -> exists l, lex 1 (nl "`default_nettype none" ++ s) = Ok l /\ map lt_tok (l_tokens l) = ts.
Proof.
  intros (ps & <- & <- & H & _). assert (lex1 (nl "`default_nettype none" ++ render ps) = Some (Directive, (nl "`default_nettype none", render ps))) as E by reflexivity.
  destruct (lex_pieces ps (String.length (nl "`default_nettype none" ++ render ps)) 2 22 H) as (l & E1 & E2); [cbn [nl append String.length]; lia|].
  exists (Lexed (l_tokens l) ((1, nl "`default_nettype none") :: l_directives l) (l_line l)). split; [|exact E2].
  assert (forall f text k a r, text <> "" -> lex1 text = Some (Directive, (a, r)) -> newlines a = 1 -> String.length a = 22 -> lex_go f 2 22 r = Ok k -> lex_go (S f) 1 0 text = Ok (Lexed (l_tokens k) ((1, a) :: l_directives k) (l_line k))) as K.
  { intros f text k a r N E0 E3 E4 E5. cbn [lex_go]. destruct text as [|c t]; [congruence|]. rewrite E0, E3, E4. change (1 + 1) with 2. change (0 + 22) with 22. rewrite E5. reflexivity. }
  assert (nl "`default_nettype none" ++ render ps <> "") as N by discriminate. exact (K _ _ l _ _ N E eq_refl eq_refl E1).
Qed.

Section Module.
  Variable terms : ndict term.
  Variables topmodule modulename clock reset enable : string.
  Variable num_indent : nat.
  Notation sysin := (system_input topmodule clock reset).
  Notation isport := (is_port topmodule clock reset).
  Definition recorded (d : ndict term) : Prop := Forall (fun x => dget terms (fst x) = Some (snd x) /\ t_name (snd x) = fst x) d.

  Lemma system_is x : is_system topmodule clock reset (fst x) (t_type (snd x)) = sysin x.
  Proof. unfold is_system, system_input. now rewrite has_is. Qed.
  Lemma port_names_ok d : recorded d -> port_names terms topmodule clock reset d = Ok (map (fun x => toFlatname (fst x)) (filter isport d)).
  Proof.
    intros H. induction H as [|x d [Hx _] H IH]; [reflexivity|]. destruct x as [n t]. cbn [fst snd] in *. cbn [port_names filter]. rewrite top_length. unfold is_port at 1. cbn [fst snd]. destruct (Nat.eqb (length n) 2); [|exact IH].
    unfold getTermtype. rewrite Hx. cbn [bind andb]. rewrite IH. cbn [bind]. rewrite (system_is (n, t) : is_system _ _ _ n (t_type t) = sysin (n, t)). destruct (sysin (n, t)); [reflexivity|]. cbn [negb andb]. rewrite !has_is. destruct (has_type (t_type t) "Input" || has_type (t_type t) "Inout" || has_type (t_type t) "Output"); reflexivity.
  Qed.
  Lemma declarations_ok d ms : recorded d -> Forall2 declares (signals topmodule clock reset d) ms -> exists x, declarations terms topmodule clock reset d = Ok x /\ reads_items x (map JDecl ms).
  Proof.
    intros H. revert ms. induction H as [|x d [Hx _] H IH]; intros ms HD; unfold signals in *; cbn [filter map] in *; [inversion HD; subst; exists ""; split; [reflexivity|apply items_nil]|].
    destruct x as [n t]. cbn [fst snd] in *. cbn [declarations]. unfold getTermtype. rewrite Hx. cbn [bind]. rewrite (system_is (n, t) : is_system _ _ _ n (t_type t) = sysin (n, t)). destruct (sysin (n, t)); cbn [negb map] in *.
    - destruct (IH ms HD) as (x & Ex & Kx). exists x. cbn [bind]. rewrite Ex. split; [reflexivity|exact Kx].
    - inversion HD as [|? m ? ms' D1 D2]; subst. destruct (IH ms' D2) as (x & Ex & Kx). destruct (read_term _ _ D1) as (y & Ey & Ky). exists (y ++ x). cbn [snd] in Ey. rewrite Ey. cbn [bind]. rewrite Ex. split; [reflexivity|]. exact (items_app _ _ [JDecl m] (map JDecl ms') (items_one _ _ Ky) Kx).
  Qed.

  Hypothesis Hmodule : simple_id modulename.
  Hypothesis Hclock : simple_id clock.
  Hypothesis Hreset : simple_id reset.
  Hypothesis Henable : simple_id enable.
  Notation flatname n := (toFlatname (toTermname_list [topmodule; n])).
  Hypothesis Hfclock : simple_id (flatname clock).
  Hypothesis Hfreset : simple_id (flatname reset).
  Lemma system_io_ok : reads_items (system_io topmodule clock reset enable) (system_items topmodule clock reset enable).
  Proof.
    assert (forall n, simple_id n -> reads_items ("input " ++ n ++ nl ";") [JDecl [MVar KInput n None false []]]) as KI by (intros n Hn; apply items_one; exact (read_port "input" n ltac:(left; reflexivity) Hn (or_introl eq_refl))).
    assert (forall n, simple_id n -> reads_items ("wire " ++ n ++ nl ";") [JDecl [MVar KWire n None false []]]) as KW by (intros n Hn; apply items_one; exact (read_port "wire" n ltac:(do 3 right; left; reflexivity) Hn (or_intror eq_refl))).
    assert (forall n m, simple_id n -> simple_id m -> reads_items ("assign " ++ n ++ " = " ++ m ++ nl ";") [JAssign (Asg (XId n) (XId m) None None)]) as KA.
    { intros n m Hn Hm. apply items_one. pose proof (read_assign (XId n) (XId m) (tg_id n Hn) (simple_plain m Hm)) as K. rewrite !code_id in K. exact K. }
    pose proof (items_app _ _ _ _ (KI clock Hclock) (items_app _ _ _ _ (KI reset Hreset) (items_app _ _ _ _ (KI enable Henable) (items_app _ _ _ _ (KW _ Hfclock) (items_app _ _ _ _ (KW _ Hfreset) (items_app _ _ _ _ (KA _ _ Hfclock Hclock) (items_nl _ _ (KA _ _ Hfreset Hreset)))))))) as K.
    unfold system_io, system_items. rewrite !app_assoc_s in K. exact K.
  Qed.
  Definition opening : string := "module " ++ modulename ++ nl "(" ++ spaces num_indent ++ clock ++ ", " ++ reset ++ ", " ++ enable ++ nl ", " ++ spaces num_indent.
  Definition opening_toks (l : list token) : list token := KW "module" :: ID modulename :: P LPAREN :: ID clock :: P COMMA :: ID reset :: P COMMA :: ID enable :: P COMMA :: l.
  Lemma opening_spells s ts : spells s ts -> spells (opening ++ s) (opening_toks ts).
  Proof.
    intros H. unfold opening, opening_toks. rewrite !app_assoc_s. apply (spells_word "module" " "); [reserved_|now left|]. apply spells_name; [exact Hmodule|now apply sep_char|]. apply (spells_punct LPAREN (String NL (spaces num_indent ++ clock ++ ", " ++ reset ++ ", " ++ enable ++ nl ", " ++ spaces num_indent ++ s))); [reflexivity|]. apply spells_nl, spells_spaces.
    apply spells_name; [exact Hclock|now apply sep_char|]. apply spells_comma. apply spells_name; [exact Hreset|now apply sep_char|]. apply spells_comma. apply spells_name; [exact Henable|now apply sep_char|]. apply (spells_comma (String NL (spaces num_indent ++ s))). now apply spells_nl, spells_spaces.
  Qed.
  Lemma nod_opening : nod opening = true.
  Proof.
    unfold opening. pose proof (nod_id _ Hmodule). pose proof (nod_id _ Hclock). pose proof (nod_id _ Hreset). pose proof (nod_id _ Henable). pose proof (nod_spaces num_indent). nds.
  Qed.
  (** The text of a module with ports. *)
  Lemma head_text d x l : recorded d -> map (fun x => toFlatname (fst x)) (filter isport d) = x :: l ->
    modulehead terms topmodule modulename clock reset enable num_indent d = Ok (nl "`default_nettype none" ++ opening ++ x ++ String.concat "" (map (fun s => ", " ++ s) l) ++ nl (nl ");")).
  Proof.
    intros H E. unfold modulehead. rewrite (port_names_ok d H), E. cbn [bind]. rewrite commas. f_equal. unfold opening. rewrite <- !app_assoc_s, cut2_snoc, !app_assoc_s. reflexivity.
  Qed.
  Lemma module_reads x l items text ti rest : Forall simple_id (x :: l) -> pre text ti ->
    (forall acc rest y, ev (fun n => p_mitems n (acc +++ items) rest) y -> ev (fun n => p_mitems n acc (ti +++ rest)) y) ->
    spells (opening ++ x ++ String.concat "" (map (fun s => ", " ++ s) l) ++ nl (nl ");") ++ text ++ nl (nl "" ++ "endmodule")) (opening_toks (ID x :: flat_map (fun n => [P COMMA; ID n]) l +++ P RPAREN :: P SEMICOLON :: ti +++ [KW "endmodule"])) /\
    ev (fun n => p_definition n (opening_toks (ID x :: flat_map (fun n => [P COMMA; ID n]) l +++ P RPAREN :: P SEMICOLON :: ti +++ KW "endmodule" :: rest)))
      (Ok (DModule (VModule modulename [] (map Port (clock :: reset :: enable :: x :: l)) items), rest)).
  Proof.
    intros HN [_ HT] HI. inversion HN as [|? ? Hx Hl]; subst. split.
    - apply opening_spells. assert (spells (nl (nl ");") ++ text ++ nl (nl "" ++ "endmodule")) (P RPAREN :: P SEMICOLON :: ti +++ [KW "endmodule"])) as K.
      { apply (spells_punct RPAREN (";" ++ String NL (String NL (text ++ nl (nl "" ++ "endmodule"))))); [reflexivity|]. apply (spells_punct SEMICOLON (String NL (String NL (text ++ nl (nl "" ++ "endmodule"))))); [reflexivity|]. apply spells_nl, spells_nl. apply HT. apply spells_nl. refine (spells_word "endmodule" NL "" [] _ (or_intror eq_refl) spells_nil). reserved_. }
      assert (starts_sep (nl (nl ");") ++ text ++ nl (nl "" ++ "endmodule"))) as KS by now apply sep_char. destruct (names_spell l _ _ Hl KS K) as [K1 K2]. now apply spells_name.
    - assert (ev (fun n => p_mitems n [] (ti +++ KW "endmodule" :: rest)) (Ok (items, rest))) as K. { apply HI. apply ev_S. ev0. }
      assert (forall n, p_portlist n (P LPAREN :: ID clock :: P COMMA :: ID reset :: P COMMA :: ID enable :: P COMMA :: ID x :: flat_map (fun n => [P COMMA; ID n]) l +++ P RPAREN :: P SEMICOLON :: ti +++ KW "endmodule" :: rest) = Ok (map Port (clock :: reset :: enable :: x :: l), ti +++ KW "endmodule" :: rest)) as KP.
      { intros n. pose proof (p_ports_names (reset :: enable :: x :: l) [Port clock] (P SEMICOLON :: ti +++ KW "endmodule" :: rest)) as E. cbn [flat_map app] in E. cbn [p_portlist]. rewrite E. reflexivity. }
      assert (ev (fun n => p_module n (tl (opening_toks (ID x :: flat_map (fun n => [P COMMA; ID n]) l +++ P RPAREN :: P SEMICOLON :: ti +++ KW "endmodule" :: rest)))) (Ok (VModule modulename [] (map Port (clock :: reset :: enable :: x :: l)) items, rest))) as KM.
      { eapply ev_ext; [intros n; unfold p_module, opening_toks; cbn [tl bind fst snd p_paramlist]; rewrite KP; cbn [bind fst snd]; reflexivity|]. evb K. ev0. }
      change (ev (fun n => do x <- p_module n (tl (opening_toks (ID x :: flat_map (fun n => [P COMMA; ID n]) l +++ P RPAREN :: P SEMICOLON :: ti +++ KW "endmodule" :: rest))); Ok (DModule (fst x), snd x)) (Ok (DModule (VModule modulename [] (map Port (clock :: reset :: enable :: x :: l)) items), rest))). evb KM. ev0.
  Qed.
  Definition body (p : parts) (order : list bind_ -> list bind_) : list bind_ :=
    map snd (p_parameter p) +++ bind_sets order (p_assign p) +++ bind_sets order (p_clockedge p) +++ bind_sets order (p_combination p).
  Lemma body_text p order ms items : recorded (p_terms p) -> Forall2 declares (signals topmodule clock reset (p_terms p)) ms -> Forall2 item_of (body p order) items ->
    exists t1 t2 t3 t4 t5, declarations terms topmodule clock reset (p_terms p) = Ok t1 /\ texts (map snd (p_parameter p)) = Ok t2 /\ texts (bind_sets order (p_assign p)) = Ok t3 /\ texts (bind_sets order (p_clockedge p)) = Ok t4 /\ texts (bind_sets order (p_combination p)) = Ok t5 /\
      reads_items (system_io topmodule clock reset enable ++ t1 ++ t2 ++ t3 ++ t4 ++ t5) (system_items topmodule clock reset enable +++ map JDecl ms +++ items).
  Proof.
    intros H1 H2 H3. destruct (declarations_ok _ _ H1 H2) as (t1 & E1 & K1). destruct (texts_ok _ _ H3) as (t & E & K). unfold body in E. destruct (texts_split _ _ _ E) as (t2 & u & E2 & E3 & ->). destruct (texts_split _ _ _ E3) as (t3 & v & E4 & E5 & ->). destruct (texts_split _ _ _ E5) as (t4 & t5 & E6 & E7 & ->).
    exists t1, t2, t3, t4, t5. repeat (split; [assumption|]). exact (items_app _ _ _ _ system_io_ok (items_app _ _ _ _ K1 K)).
  Qed.
  Lemma to_code_ok p order flat ms items : recorded (p_terms p) -> Exists (fun x => isport x = true) (p_terms p) -> Forall2 declares (signals topmodule clock reset (p_terms p)) ms -> Forall2 item_of (body p order) items ->
    exists text, toCode terms topmodule modulename clock reset enable num_indent flat order p = Ok text /\
      exists n0, forall n, n0 <= n -> parse_source n text = Ok [DModule (VModule modulename [] (port_list topmodule clock reset enable (p_terms p)) (system_items topmodule clock reset enable +++ map JDecl ms +++ items))].
  Proof.
    intros H1 HE H2 H3. destruct (body_text p order ms items H1 H2 H3) as (t1 & t2 & t3 & t4 & t5 & E1 & E2 & E3 & E4 & E5 & (ti & HP & HI)). set (b := system_io topmodule clock reset enable ++ t1 ++ t2 ++ t3 ++ t4 ++ t5) in *.
    destruct (map (fun x => toFlatname (fst x)) (filter isport (p_terms p))) as [|x l] eqn:EP.
    { exfalso. apply Exists_exists in HE as (y & Hy & Ey). assert (In y (filter isport (p_terms p))) as K by (apply filter_In; auto). destruct (filter isport (p_terms p)); [contradiction|discriminate]. }
    assert (Forall simple_id (x :: l)) as HN.
    { rewrite <- EP. apply Forall_forall. intros s Hs. apply in_map_iff in Hs as (y & <- & Hy). apply filter_In in Hy as [Hy Ey]. unfold recorded in H1. rewrite Forall_forall in H1. destruct (H1 y Hy) as [_ En].
      assert (In (snd y) (signals topmodule clock reset (p_terms p))) as K. { unfold signals. apply in_map. apply filter_In. split; [exact Hy|]. unfold is_port in Ey. apply andb_true_iff in Ey as [Ey _]. now apply andb_true_iff in Ey as [_ Ey]. }
      clear - H2 K En. induction H2 as [|t m ts ms D H2 IH]; [contradiction|]. destruct K as [K|K]; [|exact (IH K)]. rewrite K in D. rewrite <- En. destruct D; subst; assumption. }
    pose proof (head_text (p_terms p) x l H1 EP) as EH. set (ret := (nl "`default_nettype none" ++ opening ++ x ++ String.concat "" (map (fun s => ", " ++ s) l) ++ nl (nl ");")) ++ b ++ nl (nl "" ++ "endmodule")).
    assert (toCode terms topmodule modulename clock reset enable num_indent flat order p = Ok ret) as EC.
    { unfold toCode. rewrite EH, E1, E2, E3, E4, E5. cbn [bind]. f_equal. assert (nod ret = true) as N.
      { destruct HP as [NB _]. unfold ret. inversion HN as [|? ? Hx Hl]; subst. rewrite !nod_app, nod_opening, (nod_id x Hx), (nod_names l Hl), NB. reflexivity. }
      assert (forall s, s = ret -> (if flat then undot s else s) = ret) as K by (intros s ->; destruct flat; [now apply undot_nod|reflexivity]). apply K. unfold ret, b. now rewrite !app_assoc_s. }
    exists ret. split; [exact EC|]. destruct (module_reads x l (system_items topmodule clock reset enable +++ map JDecl ms +++ items) b ti [] HN HP HI) as [KS KD].
    assert (ret = nl "`default_nettype none" ++ opening ++ x ++ String.concat "" (map (fun s => ", " ++ s) l) ++ nl (nl ");") ++ b ++ nl (nl "" ++ "endmodule")) as -> by (unfold ret; now rewrite !app_assoc_s).
    destruct (lex_nettype _ _ KS) as (lx & L1 & L2). unfold parse_source. rewrite L1. cbn [bind]. rewrite L2.
    match goal with |- exists n0, forall n, _ -> p_definitions n [] ?ts = Ok ?r => assert (ev (fun n => p_definitions n [] ts) (Ok r)) as K; [|exact K] end.
    apply ev_S. cbn [p_definitions]. evb KD. unfold port_list. rewrite EP. ev0.
  Qed.
  (** Without ports there is a comma before the closing parenthesis. *)
  Lemma no_ports p order flat ms items : recorded (p_terms p) -> Forall (fun x => isport x = false) (p_terms p) -> Forall2 declares (signals topmodule clock reset (p_terms p)) ms -> Forall2 item_of (body p order) items ->
    exists text, toCode terms topmodule modulename clock reset enable num_indent flat order p = Ok text /\ forall n r, parse_source n text <> Ok r.
  Proof.
    intros H1 HE H2 H3. destruct (body_text p order ms items H1 H2 H3) as (t1 & t2 & t3 & t4 & t5 & E1 & E2 & E3 & E4 & E5 & (ti & HP & HI)). set (b := system_io topmodule clock reset enable ++ t1 ++ t2 ++ t3 ++ t4 ++ t5) in *.
    assert (filter isport (p_terms p) = []) as EP by (clear - HE; induction HE as [|y l Hy HE IH]; [reflexivity|]; cbn [filter]; rewrite Hy; exact IH).
assert (forall a, exists tail, cut2 (a ++ nl ", " ++ spaces num_indent) = a ++ "," ++ tail /\ nod tail = true /\ forall s ts, spells s ts -> spells (tail ++ s) ts) as K.
      { intros a. assert (forall n s, s ++ spaces (S n) = (s ++ spaces n) ++ String " " "") as SP. { induction n as [|n IH]; intros s; [now rewrite app_nil_s|]. rewrite app_assoc_s. cbn [spaces append]. change (String " " (spaces (S n))) with ("" ++ String " " (spaces (S n))). f_equal. f_equal. exact (IH ""). }
        destruct num_indent as [|[|k]].
        - exists "". cbn [spaces]. rewrite app_nil_s. unfold cut2. change (nl ", ") with ("," ++ String " " "" ++ String NL ""). rewrite <- !app_assoc_s, !drop_last_snoc, app_nil_s. auto.
        - exists " ". unfold cut2. change (nl ", " ++ spaces 1) with (", " ++ String NL "" ++ String " " ""). rewrite <- !app_assoc_s, !drop_last_snoc. rewrite app_assoc_s. split; [reflexivity|]. split; [reflexivity|]. intros s ts Hs. now apply spells_blank.
        - exists (String " " (String NL (spaces k))). unfold cut2. rewrite <- app_assoc_s, !SP, !drop_last_snoc, app_assoc_s. split; [reflexivity|]. split; [exact (nod_spaces k)|]. intros s ts Hs. cbn [append]. apply spells_blank, spells_nl. now apply spells_spaces. }
    destruct (K (nl "`default_nettype none" ++ "module " ++ modulename ++ nl "(" ++ spaces num_indent ++ clock ++ ", " ++ reset ++ ", " ++ enable)) as (tail & ET & NT & HT).
    assert (modulehead terms topmodule modulename clock reset enable num_indent (p_terms p) = Ok (nl "`default_nettype none" ++ "module " ++ modulename ++ nl "(" ++ spaces num_indent ++ clock ++ ", " ++ reset ++ ", " ++ enable ++ "," ++ tail ++ nl (nl ");"))) as EH.
    { unfold modulehead. rewrite (port_names_ok _ H1), EP. cbn [bind map String.concat]. f_equal. rewrite app_nil_s. rewrite <- !app_assoc_s in *. rewrite ET. rewrite !app_assoc_s. reflexivity. }
    set (ret := nl "`default_nettype none" ++ "module " ++ modulename ++ nl "(" ++ spaces num_indent ++ clock ++ ", " ++ reset ++ ", " ++ enable ++ "," ++ tail ++ nl (nl ");") ++ b ++ nl (nl "" ++ "endmodule")).
    assert (toCode terms topmodule modulename clock reset enable num_indent flat order p = Ok ret) as EC.
    { unfold toCode. rewrite EH, E1, E2, E3, E4, E5. cbn [bind]. f_equal. assert (nod ret = true) as N.
      { destruct HP as [NB _]. unfold ret. rewrite !nod_app, (nod_id _ Hmodule), (nod_id _ Hclock), (nod_id _ Hreset), (nod_id _ Henable), nod_spaces, NT, NB. reflexivity. }
      assert (forall s, s = ret -> (if flat then undot s else s) = ret) as KF by (intros s ->; destruct flat; [now apply undot_nod|reflexivity]). apply KF. unfold ret, b. now rewrite !app_assoc_s. }
    exists ret. split; [exact EC|]. destruct HP as [_ HP].
    assert (spells (tail ++ nl (nl ");") ++ b ++ nl (nl "" ++ "endmodule")) (P RPAREN :: P SEMICOLON :: ti +++ [KW "endmodule"])) as KT.
    { apply HT. apply (spells_punct RPAREN (";" ++ String NL (String NL (b ++ nl (nl "" ++ "endmodule"))))); [reflexivity|]. apply (spells_punct SEMICOLON (String NL (String NL (b ++ nl (nl "" ++ "endmodule"))))); [reflexivity|]. apply spells_nl, spells_nl. apply HP. apply spells_nl. refine (spells_word "endmodule" NL "" [] _ (or_intror eq_refl) spells_nil). reserved_. }
    assert (spells ("module " ++ modulename ++ nl "(" ++ spaces num_indent ++ clock ++ ", " ++ reset ++ ", " ++ enable ++ "," ++ tail ++ nl (nl ");") ++ b ++ nl (nl "" ++ "endmodule")) (opening_toks (P RPAREN :: P SEMICOLON :: ti +++ [KW "endmodule"]))) as KS.
    { unfold opening_toks. apply (spells_word "module" " "); [reserved_|now left|]. apply spells_name; [exact Hmodule|now apply sep_char|]. match goal with |- spells (nl "(" ++ ?r) _ => apply (spells_punct LPAREN (String NL r)); [reflexivity|] end. apply spells_nl, spells_spaces.
      apply spells_name; [exact Hclock|now apply sep_char|]. apply spells_comma. apply spells_name; [exact Hreset|now apply sep_char|]. apply spells_comma. apply spells_name; [exact Henable|now apply sep_char|]. now apply (spells_punct COMMA). }
    destruct (lex_nettype _ _ KS) as (lx & L1 & L2). intros n r. unfold parse_source, ret. rewrite L1. cbn [bind]. rewrite L2. destruct n as [|n]; discriminate.
  Qed.
End Module.
