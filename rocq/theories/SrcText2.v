(** SrcText2.v - the tokens of the text of a source file: instances, items, modules. *)
From Verif Require Import Base DfModel LexModel LexSpec LexProofs ExprModel ParseModel ExprSpec ExprLex ExprText ExprText2 ExprText3 ExprSound StmModel StmSpec StmText StmText2 StmText3 SrcModel SrcSpec SrcText.
Require Import Coq.Strings.Ascii.
Local Open Scope string_scope.
Local Notation "a +++ b" := (@app _ a b) (at level 60, right associativity).

(** ** Arguments and instances *)
Definition arg_good (x : option string * option expr) : Prop := opt ident (fst x) /\ opt good (snd x) /\ (fst x = None -> snd x <> None).
Lemma spells_dot n s ts : ident n -> spells (escape n ++ s) ts -> spells ("." ++ escape n ++ s) (P DOT :: ts).
Proof.
  intros H HS. apply (spells_tok (P DOT) (escape n ++ s)); [exact I| | |exact HS].
  - assert (forall c, id_start c = true -> negb (is_digit c) = true) as K by (apply LitProofs.char_imp; vm_compute; reflexivity).
    destruct H as [(c & r & -> & H & _)|(c & r & -> & H)]; [|reflexivity]. unfold escape. destruct c as [[] [] [] [] [] [] [] []]; try discriminate H; exact (K _ H).
  - intros E. exfalso. destruct H as [(c & r & -> & H & _)|(c & r & -> & H)]; unfold escape in E; [|discriminate E]. destruct c as [[] [] [] [] [] [] [] []]; discriminate E.
Qed.
Lemma spw_arg (x : option string * option expr) : arg_good x ->
  spw (match fst x with Some n => "." ++ escape n ++ "(" ++ match snd x with Some e => gen_rvalue e | None => "" end ++ ")" | None => match snd x with Some e => gen_rvalue e | None => "" end end) (arg_toks x).
Proof.
  intros (H1 & H2 & H3). unfold arg_toks. destruct x as [[n|] e]; cbn [fst snd opt named_toks] in *.
  - intros r tr HR _. rewrite !app_assoc_s. cbn [app]. apply spells_dot; [exact H1|]. rewrite <- app_assoc. apply (spw_ident n H1 _ (P LPAREN :: match e with Some e => etoks e | None => [] end +++ [P RPAREN] +++ tr)); [|right; now apply sep_c].
    apply (spells_punct LPAREN); [reflexivity|]. assert (spells (")" ++ r) ([P RPAREN] +++ tr)) as K by (apply (sp_punct RPAREN eq_refl); exact HR). destruct e as [e|]; [|exact K]. apply (spw_inner e H2); [exact K|right; now apply sep_c].
  - destruct e as [e|]; [|exfalso; exact (H3 eq_refl eq_refl)]. now apply spw_inner.
Qed.
Lemma rows_spw {A} (f : A -> string) (g : A -> list token) l : Forall (fun x => spw (f x) (g x)) l -> spw (rows (map f l)) (tjoin (map g l)).
Proof.
  induction 1 as [|x l Hx H IH]; [exact (sp_spw _ _ sp_nil)|]. destruct l as [|y l]; cbn [map rows tjoin] in *.
  - apply spw_cons_nil; [exact sp_nl|exact Hx].
  - apply spw_cons_nil; [exact sp_nl|]. intros r tr HR HS. rewrite !app_assoc_s, <- app_assoc. apply Hx; [|right; now apply sep_c]. apply (spells_punct COMMA); [reflexivity|]. now apply IH.
Qed.
Lemma rows_sp {A} (f : A -> string) (g : A -> list token) l : Forall (fun x => sp (f x) (g x)) l -> sp (rows (map f l)) (tjoin (map g l)).
Proof.
  induction 1 as [|x l Hx H IH]; [exact sp_nil|]. destruct l as [|y l]; cbn [map rows tjoin] in *.
  - now apply sp_nl_cons.
  - apply sp_nl_cons. apply sp_app; [exact Hx|]. apply sp_cons; [exact (sp_punct COMMA eq_refl)|exact IH].
Qed.
Definition inst_good (i : inst) : Prop :=
  (ident (i_name i) /\ opt range_good (i_array i) \/ i_name i = "" /\ i_array i = None) /\ Forall arg_good (i_ports i).
Lemma ident_nonempty n : ident n -> String.eqb n "" = false.
Proof. intros [(c & r & -> & _)|(c & r & -> & _)]; reflexivity. Qed.
Lemma sp_inst i : inst_good i -> sp (gen_inst i) (inst_toks i).
Proof.
  intros [H1 H2]. unfold gen_inst, inst_toks.
  assert (sp ((String NL "(") ++ rows (map (fun x => indent "  " (gen_port_arg x)) (i_ports i)) ++ String NL ")") (P LPAREN :: args_toks (i_ports i) +++ [P RPAREN])) as K.
  { cbn [append]. apply sp_nl_cons. apply sp_cons; [exact (sp_punct LPAREN eq_refl)|]. apply spw_app; [|apply sep_newline|apply sp_nl_cons; exact (sp_punct RPAREN eq_refl)].
    apply rows_spw. revert H2. apply Forall_impl. intros x Hx. apply sp_indent, spw_spells. exact (spw_arg x Hx). }
  destruct H1 as [[H1 H3]|[E1 E2]]; [|rewrite E1, E2; exact K]. rewrite (ident_nonempty _ H1). destruct (i_array i) as [w|]; cbn [append app].
  - apply (spw_app _ _ [ID (i_name i)]); [now apply spw_ident|unfold range_text, gen_width; apply sep_app; now apply sep_c|]. apply sp_app; [now apply sp_range|exact K].
  - apply (spw_app _ _ [ID (i_name i)]); [now apply spw_ident|apply sep_newline|exact K].
Qed.
Definition mod_good (m : string) : Prop := ident m \/ m = "or".
Lemma simple_no_kw s : In s reserved -> ~ ident s.
Proof.
  intros H [(c & r & _ & _ & _ & N)|(c & r & -> & _)]; [contradiction|]. assert (Forall (fun s => escaped s = false) reserved) as K by (repeat (constructor; [reflexivity|]); constructor). rewrite Forall_forall in K. discriminate (K _ H).
Qed.
Lemma mod_tok_id m : ident m -> mod_tok m = ID m.
Proof. intros H. unfold mod_tok. destruct (String.eqb_spec m "or") as [->|]; [|reflexivity]. exfalso. apply (simple_no_kw "or"); [res|exact H]. Qed.
Lemma spw_mod m : mod_good m -> spw (escape m) [mod_tok m].
Proof. intros [H|E]; [|subst m]; [rewrite (mod_tok_id m H); now apply spw_ident|]. exact (spw_kw "or" ltac:(res)). Qed.
Lemma sp_insts m params l : mod_good m -> Forall arg_good (map (fun x => (fst x, Some (snd x))) params) -> Forall inst_good l -> l <> [] ->
  sp (gen_insts m params l) (mod_tok m :: params_toks params +++ tjoin (map inst_toks l) +++ [P SEMICOLON]).
Proof.
  intros H1 H2 H3 HN. unfold gen_insts. apply sp_nl_cons.
  assert (sp (rows (map gen_inst l) ++ ";" ++ String NL "") (tjoin (map inst_toks l) +++ [P SEMICOLON])) as K.
  { apply sp_app; [apply rows_sp; revert H3; apply Forall_impl; exact sp_inst|]. apply (sp_app ";" _ [P SEMICOLON] [] sp_semi sp_nl). }
  assert (starts_sep (rows (map gen_inst l) ++ ";" ++ String NL "")) as KS. { destruct l as [|i [|j l]]; [congruence|apply sep_newline|apply sep_newline]. }
  apply (spw_app _ _ [mod_tok m]); [now apply spw_mod| |].
  - destruct params; [exact KS|apply sep_newline].
  - apply sp_app; [|exact K]. destruct params as [|p params]; [exact sp_nil|]. unfold params_toks. cbn [append]. apply sp_nl_cons. apply sp_cons; [exact (sp_punct DELAY eq_refl)|]. apply sp_cons; [exact (sp_punct LPAREN eq_refl)|].
    apply spw_app; [|apply sep_newline|apply sp_nl_cons; exact (sp_punct RPAREN eq_refl)]. unfold args_toks. rewrite map_map. apply rows_spw. rewrite Forall_map in H2. revert H2. apply Forall_impl. intros x Hx. apply sp_indent, spw_spells.
    unfold gen_param_arg. exact (spw_arg (fst x, Some (snd x)) Hx).
Qed.

(** ** Pragmas *)
Lemma sp_pragma n v : ident n -> opt good v -> optb simple_value v = true -> sp (gen_pragma n v) (pragma_toks n v).
Proof.
  intros H1 H2 H3. unfold gen_pragma, pragma_toks. intros r tr HR. rewrite app_assoc_s. cbn [append app]. apply (spells_punct LPAREN); [reflexivity|].
  apply (spells_tok (P TIMES)); [exact I|reflexivity|discriminate|]. apply spells_blank. rewrite app_assoc_s, <- app_assoc.
  assert (spells (" *)" ++ r) ([P TIMES; P RPAREN] +++ tr)) as K. { cbn [append app]. apply spells_blank. apply (spells_tok (P TIMES) (String ")" r)); [exact I|reflexivity|discriminate|]. now apply (spells_punct RPAREN). }
  destruct v as [v|]; [|apply (spw_ident n H1 _ ([P TIMES; P RPAREN] +++ tr)); [exact K|right; apply sep_blank]].
  rewrite app_assoc_s. apply (spw_ident n H1 _ (P EQUALS :: etoks v +++ [P TIMES; P RPAREN] +++ tr)); [|right; apply sep_blank]. cbn [append]. refine (spells_eq _ _ _).
  assert (etoks v = ftoks v) as -> by (destruct v; discriminate H3 || reflexivity). apply spells_app; [now apply spells_full|exact K|apply sep_blank].
Qed.

(** ** Items *)
Lemma sitem_ind' (Q : sitem -> Prop) :
  (forall l, Q (JDecl l)) -> (forall a, Q (JAssign a)) -> (forall i, Q (JItem i)) -> (forall m p l, Q (JInst m p l)) -> (forall n w d s, Q (JFunc n w d s)) -> (forall n d s, Q (JTask n d s)) ->
  (forall n v, Q (JPragma n v)) -> (forall l, Forall Q l -> Q (JGen l)) -> (forall c t e, Q t -> optP Q e -> Q (JIf c t e)) -> (forall pre c post b, Q b -> Q (JFor pre c post b)) ->
  (forall sc l, Forall Q l -> Q (JBlock sc l)) -> forall x, Q x.
Proof.
  intros H1 H2 H3 H4 H5 H6 H7 H8 H9 H10 H11. fix F 1. intros [l|a|i|m p l|n w d s|n d s|n v|l|c t e|pre c post b|sc l]; [apply H1|apply H2|apply H3|apply H4|apply H5|apply H6|apply H7| | |apply H10, F|].
  - apply H8. induction l as [|x l IH]; constructor; [apply F|exact IH].
  - apply H9; [apply F|]. destruct e as [e|]; [apply F|exact I].
  - apply H11. induction l as [|x l IH]; constructor; [apply F|exact IH].
Qed.
Lemma jwritten_all p l : (fix all (l : list sitem) : Prop := match l with [] => True | x :: r => jwritten p x /\ all r end) l <-> Forall (jwritten p) l.
Proof. induction l as [|x l IH]; [split; auto|]. split; [intros [A B]; constructor; [exact A|now apply IH]|intros H; inversion H; subst; split; [assumption|now apply IH]]. Qed.
Lemma sp_lines {A} (f : A -> string) (g : A -> list token) l : Forall (fun x => spells (f x) (g x)) l -> forall s ts, sp s ts -> starts_sep s -> sp (lines (map (fun x => indent "  " (f x)) l) ++ s) (flat_map g l +++ ts).
Proof.
  intros H s ts HS HF. induction H as [|x l Hx H IH]; [exact HS|]. cbn [map flat_map]. rewrite lines_cons, app_assoc_s, <- app_assoc. cbn [append]. apply sp_nl_cons. apply spw_app; [now apply sp_indent|now apply sep_lines|exact IH].
Qed.
Lemma spw_lines {A} (f : A -> string) (g : A -> list token) l : Forall (fun x => spells (f x) (g x)) l -> forall s ts, spw s ts -> starts_sep s -> spw (lines (map (fun x => indent "  " (f x)) l) ++ s) (flat_map g l +++ ts).
Proof.
  intros H s ts HS HF. induction H as [|x l Hx H IH]; [exact HS|]. cbn [map flat_map]. rewrite lines_cons, app_assoc_s, <- app_assoc. cbn [append]. apply spw_cons_nil; [exact sp_nl|]. intros r tr HR HE. rewrite app_assoc_s, <- app_assoc. apply (sp_indent _ _ Hx); [now apply IH|].
  right. apply sep_app. now apply sep_lines.
Qed.
(** Declarations and the statement of functions and tasks. *)
Lemma sp_body decls s w : Forall (Forall member_good) decls -> swritten s -> sprintable s = true -> In w reserved ->
  sp (lines (map (indent "  ") (map gen_decl decls +++ [gen_stm s])) ++ String NL (w ++ String NL "")) (flat_map (flat_map member_toks) decls +++ stoks s +++ [KW w]).
Proof.
  intros H1 H2 H3 HW. destruct (spells_stm s H2 H3) as (S1 & _).
  assert (sp (String NL (w ++ String NL "")) [KW w]) as K. { apply sp_nl_cons. apply (spw_app _ _ [KW w] []); [now apply spw_kw|apply sep_newline|exact sp_nl]. }
  induction H1 as [|d decls Hd H1 IH]; cbn [map flat_map app].
  - apply (sp_lines (fun x : string => x) (fun _ => stoks s) [gen_stm s]) in K; [|constructor; [exact S1|constructor]|apply sep_newline]. cbn [flat_map map app] in K. now rewrite app_nil_r in K.
  - rewrite lines_cons, app_assoc_s, <- app_assoc. cbn [append]. apply sp_nl_cons. apply spw_app; [apply sp_indent, sp_spells; now apply sp_decl|apply sep_lines, sep_newline|exact IH].
Qed.
Lemma locals_good decls : locals_written decls -> forallb (forallb member_printable) decls = true -> Forall (Forall member_good) decls.
Proof.
  intros H. induction H as [|d decls Hd H IH]; intros HP; constructor; cbn [forallb] in HP; apply andb_true_iff in HP as [P1 P2]; auto. clear - Hd P1.
  induction Hd as [|m d [Hm _] H IH]; constructor; cbn [forallb] in P1; apply andb_true_iff in P1 as [P1 P2]; auto. now apply member_is_good.
Qed.
Lemma members_good l : Forall member_written l -> forallb member_printable l = true -> Forall member_good l.
Proof. intros H. induction H as [|m l Hm H IH]; intros HP; constructor; cbn [forallb] in HP; apply andb_true_iff in HP as [P1 P2]; auto. now apply member_is_good. Qed.
Lemma args_good l : args_written l -> forallb (fun x => optb printable (snd x)) l = true -> Forall arg_good l.
Proof.
  assert (forall x, by_name x -> optb printable (snd x) = true -> arg_good x) as K1.
  { intros [[n|] e]; [|contradiction]. intros [H1 H2] HP. split; [exact H1|]. split; [|discriminate]. destruct e as [e|]; [now apply written_good|exact I]. }
  assert (forall x, by_position x -> optb printable (snd x) = true -> arg_good x) as K2.
  { intros [[n|] [e|]]; try contradiction. intros H1 HP. split; [exact I|]. split; [now apply written_good|]. intros _. discriminate. }
  intros [H|H] HP; induction H as [|x l Hx H IH]; constructor; cbn [forallb] in HP; apply andb_true_iff in HP as [P1 P2]; auto.
Qed.
Lemma args_params l : args_written (map (fun x : option string * expr => (fst x, Some (snd x))) l) -> forallb (fun x => printable (snd x)) l = true -> Forall arg_good (map (fun x => (fst x, Some (snd x))) l).
Proof. intros H HP. apply args_good; [exact H|]. clear H. induction l as [|x l IH]; [reflexivity|]. cbn [map forallb] in *. apply andb_true_iff in HP as [P1 P2]. cbn [snd optb]. now rewrite P1, IH. Qed.
Lemma insts_good params l : Forall named_inst l \/ params = @nil (option string * expr) /\ Forall unnamed_inst l -> forallb inst_printable l = true -> Forall inst_good l.
Proof.
  assert (forall i, inst_printable i = true -> optb range_printable (i_array i) = true /\ forallb (fun x => optb printable (snd x)) (i_ports i) = true) as K by (intros i H; now apply andb_true_iff in H).
  intros [H|[_ H]] HP; induction H as [|i l Hi H IH]; constructor; cbn [forallb] in HP; apply andb_true_iff in HP as [P1 P2]; auto; destruct (K i P1) as [K1 K2]; destruct Hi as (I1 & I2 & I3); (split; [|now apply args_good]).
  - left. split; [exact I1|now apply opt_range_good].
  - right. auto.
Qed.
