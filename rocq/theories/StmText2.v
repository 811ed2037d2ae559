(** StmText2.v - the tokens of a statement, and that its text is lexed to them. *)
From Verif Require Import Base DfModel LexModel LexSpec LexProofs ExprModel ExprSpec ExprLex ExprText ExprText2 ExprText3 ExprSound StmModel StmSpec StmText.
From Verif Require LitProofs.
Require Import Coq.Strings.Ascii.
Local Open Scope string_scope.
Local Notation "a +++ b" := (@app _ a b) (at level 60, right associativity).

(** ** Induction *)
Definition optP {A} (Q : A -> Prop) (x : option A) : Prop := match x with Some x => Q x | None => True end.
Section Ind.
  Variable Q : stm -> Prop.
  Hypothesis Hasg : forall nb a, Q (TAsg nb a).
  Hypothesis Hif : forall c t e, Q t -> optP Q e -> Q (TIf c t e).
  Hypothesis Hfor : forall pre c post b, Q b -> Q (TFor pre c post b).
  Hypothesis Hwhile : forall c b, Q b -> Q (TWhile c b).
  Hypothesis Hcase : forall k c l, Forall (fun i => Q (snd i)) l -> Q (TCase k c l).
  Hypothesis Hblock : forall s l, Forall Q l -> Q (TBlock s l).
  Hypothesis Hpar : forall s l, Forall Q l -> Q (TPar s l).
  Hypothesis Hevent : forall l, Q (TEvent l).
  Hypothesis Hwait : forall c b, optP Q b -> Q (TWait c b).
  Hypothesis Hforever : forall b, Q b -> Q (TForever b).
  Hypothesis Hdelay : forall e, Q (TDelay e).
  Hypothesis Hsys : forall f l, Q (TSys f l).
  Hypothesis Hdisable : forall s, Q (TDisable s).
  Hypothesis Hunique : Q TUnique.
  Lemma stm_ind' : forall s, Q s.
  Proof.
    fix F 1. assert (forall l, Forall Q l) as FL by (fix G 1; intros [|x l]; constructor; [apply F|apply G]).
    assert (forall l : list (option (list expr) * stm), Forall (fun i => Q (snd i)) l) as FI by (fix G 1; intros [|[c x] l]; constructor; [apply F|apply G]).
    intros s. destruct s as [nb a|c t e|pre c post b|c b|k c l|s l|s l|l|c b|b|e|f l|s|].
    - apply Hasg. - apply Hif; [apply F|]. destruct e as [e|]; [apply F|exact I]. - apply Hfor, F. - apply Hwhile, F. - apply Hcase, FI. - apply Hblock, FL. - apply Hpar, FL. - apply Hevent.
    - apply Hwait. destruct b as [b|]; [apply F|exact I]. - apply Hforever, F. - apply Hdelay. - apply Hsys. - apply Hdisable. - apply Hunique.
  Qed.
End Ind.
Definition item_w (i : option (list expr) * stm) : Prop := opt (fun c => c <> [] /\ Forall written c) (fst i) /\ swritten (snd i).
Lemma swritten_block l : (fix all (l : list stm) : Prop := match l with [] => True | x :: r => swritten x /\ all r end) l <-> Forall swritten l.
Proof. induction l as [|x l IH]; [split; auto|]. split; [intros [H1 H2]; constructor; [exact H1|now apply IH]|intros H; inversion H; subst; split; [assumption|now apply IH]]. Qed.
Lemma swritten_items (l : list (option (list expr) * stm)) : (fix all (l : list (option (list expr) * stm)) : Prop :=
         match l with [] => True | (c, b) :: r => opt (fun c => c <> [] /\ Forall written c) c /\ swritten b /\ all r end) l <-> Forall item_w l.
Proof.
  induction l as [|[c x] l IH]; [split; auto|]. split; [intros (H1 & H2 & H3); constructor; [split; assumption|now apply IH]|].
  intros H. inversion H as [|u v [H1 H2] H3]; subst. split; [exact H1|]. split; [exact H2|]. now apply IH.
Qed.

(** ** Tokens *)
Definition dtoks (d : option expr) : list token := match d with None => [] | Some d => P DELAY :: ftoks d end.
Definition atoks (nb : bool) (a : asg) : list token :=
  dtoks (a_ldelay a) +++ etoks (a_left a) +++ P (if nb then LE else EQUALS) :: dtoks (a_rdelay a) +++ etoks (a_right a).
Definition sitoks (x : sensitem) : list token :=
  match x with SAll => [P TIMES] | SSig Posedge e => KW "posedge" :: ftoks e | SSig Negedge e => KW "negedge" :: ftoks e | SSig Level e => ftoks e end.
Fixpoint sltoks (l : list sensitem) : list token := match l with [] => [] | [x] => sitoks x | x :: r => sitoks x +++ KW "or" :: sltoks r end.
Definition scope_toks (s : option string) : list token := match s with None => [] | Some s => [P COLON; ID s] end.
Definition ctoks (c : option (list expr)) : list token := match c with None => [KW "default"] | Some l => tjoin (map etoks l) end.
Fixpoint stoks (s : stm) : list token :=
  match s with
  | TAsg nb a => atoks nb a +++ [P SEMICOLON]
  | TIf c t e => KW "if" :: P LPAREN :: etoks c +++ P RPAREN :: stoks t +++ match e with None => [] | Some e => KW "else" :: stoks e end
  | TFor pre c post b =>
      KW "for" :: P LPAREN :: match pre with None => [] | Some a => atoks false a +++ [P SEMICOLON] end +++
      match c with None => [] | Some c => etoks c end +++ P SEMICOLON :: match post with None => [] | Some a => atoks false a end +++ P RPAREN :: stoks b
  | TWhile c b => KW "while" :: P LPAREN :: etoks c +++ P RPAREN :: stoks b
  | TCase k c l =>
      (match k with KCasex => [KW "casex"] | KCasez => [KW "casez"] | KCase => [KW "case"] | KUnique => [KW "unique"; KW "case"] end) +++
      P LPAREN :: etoks c +++ P RPAREN :: flat_map (fun i => ctoks (fst i) +++ P COLON :: stoks (snd i)) l +++ [KW "endcase"]
  | TBlock s l => KW "begin" :: scope_toks s +++ flat_map stoks l +++ [KW "end"]
  | TPar s l => KW "fork" :: scope_toks s +++ flat_map stoks l +++ [KW "join"]
  | TEvent l => P AT :: P LPAREN :: sltoks l +++ [P RPAREN; P SEMICOLON]
  | TWait c b => KW "wait" :: P LPAREN :: etoks c +++ P RPAREN :: match b with Some b => stoks b | None => [P SEMICOLON] end
  | TForever b => KW "forever" :: stoks b
  | TDelay e => P DELAY :: ftoks e +++ [P SEMICOLON]
  | TSys f l => etoks (XSys f l) +++ [P SEMICOLON]
  | TDisable s => [KW "disable"; ID s; P SEMICOLON]
  | TUnique => [KW "unique"]
  end.
Definition itoks (i : item) : list token :=
  match i with
  | IAlways KAlways l s => KW "always" :: P AT :: P LPAREN :: sltoks l +++ P RPAREN :: stoks s
  | IAlways _ l s => sltoks l +++ stoks s
  | IInitial s => KW "initial" :: stoks s
  end.

(** ** Texts *)
Lemma spells_nonempty s t ts : spells s (t :: ts) -> s <> "".
Proof. intros (p & <- & E & H & _). destruct p as [|q p]; [discriminate|]. exact (render_nonempty _ _ H). Qed.
Lemma sep_char c s : ends_number c = true -> starts_sep (String c s).
Proof. intros H. exists c, s. auto. Qed.
Definition begins (s : string) : Prop := exists c r, s = String c r /\ is_space c = false.
Lemma begins_app a b : begins a -> begins (a ++ b).
Proof. intros (c & r & -> & H). exists c, (r ++ b). auto. Qed.
Lemma space_nl c : is_space c = false -> ceqb c NL = false.
Proof.
  assert (forall c, negb (is_space c) = true -> negb (ceqb c NL) = true) as K by (apply LitProofs.char_imp; vm_compute; reflexivity).
  intros H. apply negb_true_iff. apply K. now rewrite H.
Qed.
Lemma atom_begins c : atom_start c = true -> is_space c = false.
Proof. revert c. apply char_neg. vm_compute. reflexivity. Qed.
Lemma begins_inner e : good e -> begins (gen_rvalue e).
Proof.
  intros H. rewrite (gen_inner e H). destruct (starts_inner e H false) as (c & r & E & [K|(o & r' & _ & K1 & K2 & K3)]); exists c, r; (split; [exact E|]); [now apply atom_begins|].
  destruct o; try discriminate K1; try congruence; injection K3 as <- <-; reflexivity.
Qed.
Lemma begins_full e : good e -> begins (gen e).
Proof. intros H. rewrite (gen_full e H). destruct (starts_full e H false) as (c & r & E & K). exists c, r. split; [exact E|now apply atom_begins]. Qed.
Lemma begins_multiline s : begins s -> begins (indent_multiline_assign s).
Proof.
  intros (c & r & -> & H). unfold indent_multiline_assign. pose proof (split_line_eq (String c r)) as K. cbn [split_line] in *. rewrite (space_nl _ H) in *. destruct (split_line r) as [a [q|]]; [|exists c, r; auto].
  destruct (index_eq _); [|exists c, r; auto]. cbn [append]. eexists c, _. split; [reflexivity|exact H].
Qed.
Lemma begins_join l : l <> [] -> Forall good l -> begins (join (map (fun c => del_paren (gen c)) l)).
Proof.
  intros HN H. destruct H as [|x l Hx H]; [congruence|]. cbn [map join]. destruct (map _ l); [exact (begins_inner x Hx)|]. apply begins_app. exact (begins_inner x Hx).
Qed.
(** Expression tokens contain no semicolon. *)
Definition plain_tok (t : token) : Prop := match t with P SEMICOLON => False | ID s | KW s => escaped s = false | STRING _ => False | _ => True end.
Lemma plain_join l : Forall (Forall plain_tok) l -> Forall plain_tok (tjoin l).
Proof. induction 1 as [|x l Hx H IH]; [constructor|]. cbn [tjoin]. destruct l; [exact Hx|]. apply Forall_app. split; [exact Hx|]. constructor; [exact I|exact IH]. Qed.
Lemma plain_wrap e l : Forall plain_tok l -> Forall plain_tok (twrap e l).
Proof. intros H. unfold twrap. destruct (wrapped e); [|exact H]. constructor; [exact I|]. apply Forall_app. split; [exact H|]. constructor; [exact I|constructor]. Qed.
Lemma plain_unary o : is_unary o = true -> plain_tok (P (unary_punct o)).
Proof. destruct o; discriminate || (intros _; exact I). Qed.
Lemma plain_binary o : plain_tok (P (binary_punct o)).
Proof. destruct o; exact I. Qed.
Lemma plain_word s : escaped s = false -> plain_tok (id_token s).
Proof. intros H. unfold id_token. destruct (existsb _ _); exact H. Qed.
Ltac plain := repeat first [assumption | exact I | apply Forall_app; split | apply plain_wrap | apply plain_join | constructor ].
Lemma plain_etoks e : good e -> blank_free e = true -> Forall plain_tok (etoks e).
Proof.
  intros H. apply (good_ind' (fun e => blank_free e = true -> Forall plain_tok (etoks e))); auto; clear; cbn [etoks blank_free].
  - intros s _ HB. apply negb_true_iff in HB. constructor; [now apply plain_word|constructor].
  - intros k s H _. rewrite (int_tok_ok _ _ H). constructor; [exact I|constructor].
  - intros o a H1 _ _ IH HB. constructor; [now apply plain_unary|]. apply plain_wrap. auto.
  - intros o a b _ _ _ IHa _ IHb HB. apply andb_true_iff in HB as [HB _]. apply andb_true_iff in HB as [B1 B2]. specialize (IHa B1). specialize (IHb B2).
    apply Forall_app. split; [destruct (bare_left o a); plain|]. constructor; [apply plain_binary|]. destruct (bare_right o b); plain.
  - intros c t f _ IHc _ IHt _ IHf HB. apply andb_true_iff in HB as [HB B3]. apply andb_true_iff in HB as [B1 B2]. specialize (IHc B1). specialize (IHt B2). specialize (IHf B3). plain.
  - intros l _ _ IH HB. constructor; [exact I|]. apply Forall_app. split; [|plain]. apply plain_join. induction IH as [|x l Hx IH IH2]; constructor; cbn in HB; apply andb_true_iff in HB as [B1 B2]; auto.
  - intros l n _ IHc _ _ IHn HB. apply andb_true_iff in HB as [B1 B2]. specialize (IHc B1). specialize (IHn B2). constructor; [exact I|]. apply Forall_app. split; [exact IHn|]. apply Forall_app. split; [exact IHc|]. plain.
  - intros v m l _ _ IHv _ IHm _ IHl B1 B2 HB. apply andb_true_iff in HB as [HB _]. apply andb_true_iff in HB as [B3 _]. specialize (IHv B3). specialize (IHm B1). specialize (IHl B2). plain.
  - intros v p _ _ IHv _ IHp HB. apply andb_true_iff in HB as [B1 B2]. specialize (IHv B1). specialize (IHp B2). plain.
  - intros f l _ _ IH HB. apply andb_true_iff in HB as [B1 B2]. apply negb_true_iff in B1. constructor; [now apply plain_word|]. constructor; [exact I|]. apply Forall_app. split; [|plain]. apply plain_join.
    induction IH as [|x l Hx IH IH2]; constructor; cbn in B2; apply andb_true_iff in B2 as [B2 B3]; auto. apply plain_wrap. auto.
  - intros f l _ _ IH HB. apply andb_true_iff in HB as [B1 B2]. apply negb_true_iff in B1. constructor; [exact I|]. constructor; [now apply plain_word|]. destruct l as [|x l]; [constructor|]. constructor; [exact I|]. apply Forall_app. split; [|plain]. apply plain_join.
    revert B2. generalize dependent (x :: l). clear x l. intros l IH B2. induction IH as [|x l Hx IH IH2]; constructor; cbn in B2; apply andb_true_iff in B2 as [B2 B3]; auto. apply plain_wrap. auto.
Qed.
Lemma del_semicolon_app a b : del_semicolon (a ++ b) = del_semicolon a ++ del_semicolon b.
Proof. induction a as [|c a IH]; [reflexivity|]. cbn [append del_semicolon]. destruct (ceqb c ";"); cbn [append]; congruence. Qed.
Lemma del_semicolon_none a : all_chars (fun c => negb (ceqb c ";")) a -> del_semicolon a = a.
Proof. intros H. induction a as [|c a IH]; [reflexivity|]. inversion H as [|x y Hc Ha]; subst. apply negb_true_iff in Hc. cbn [del_semicolon]. rewrite Hc. f_equal. now apply IH. Qed.
Lemma del_swap s : del_space (del_semicolon s) = del_semicolon (del_space s).
Proof. induction s as [|c s IH]; [reflexivity|]. cbn [del_semicolon del_space]. destruct (ceqb c ";") eqn:E1, (ceqb c " ") eqn:E2; cbn [del_semicolon del_space]; rewrite ?E1, ?E2; congruence. Qed.
Lemma plain_text t : valid t -> plain_tok t -> del_semicolon (text_of t) = text_of t.
Proof.
  assert (forall c, id_start c = true -> negb (ceqb c ";") = true) as K1 by (apply LitProofs.char_imp; vm_compute; reflexivity).
  assert (forall c, id_char c = true -> negb (ceqb c ";") = true) as K2 by (apply LitProofs.char_imp; vm_compute; reflexivity).
  destruct t as [p|s|s|s|s|k s]; cbn [valid text_of plain_tok]; intros H HP; try contradiction.
  - destruct p; reflexivity || contradiction.
  - destruct H as [(c & r & -> & H1 & H2 & _)|(c & r & -> & H)]; [|discriminate HP]. apply del_semicolon_none. constructor; [auto|]. exact (all_imp _ _ _ K2 H2).
  - apply del_semicolon_none. assert (Forall (fun s => forallb (fun c => negb (ceqb c ";")) (list_ascii_of_string s) = true) reserved) as K by (repeat (constructor; [reflexivity|]); constructor).
    rewrite Forall_forall in K. apply Forall_forall. apply forallb_forall. exact (K _ H).
  - apply del_semicolon_none.
    assert (forall (p : ascii -> bool) a, forallb (fun c => implb (p c) (negb (ceqb c ";"))) (map ascii_of_nat (seq 0 256)) = true -> all_chars p a -> all_chars (fun c => negb (ceqb c ";")) a) as KP by (intros p a Hp; apply all_imp; apply LitProofs.char_imp; exact Hp).
    assert (forall (p : ascii -> bool) c, forallb (fun c => implb (p c) (negb (ceqb c ";"))) (map ascii_of_nat (seq 0 256)) = true -> p c = true -> negb (ceqb c ";") = true) as KC by (intros p c Hp; exact (LitProofs.char_imp p _ Hp c)).
    destruct H; repeat first [apply all_app|constructor]; try (eapply KP; [|eassumption]; vm_compute; reflexivity); try (eapply KC; [|eassumption]; vm_compute; reflexivity); try reflexivity.
Qed.
Lemma plain_render ps : Forall pvalid ps -> Forall plain_tok (toks ps) -> del_semicolon (render ps) = render ps.
Proof.
  induction ps as [|p ps IH]; intros HV HP; [reflexivity|]. inversion HV as [|x y Hp Hs]; subst. cbn [render]. rewrite del_semicolon_app.
  destruct p as [t| |]; cbn [ptext toks] in *; [inversion HP as [|x y Ht HP2]; subst; rewrite (plain_text t) by assumption|..]; rewrite IH by assumption; reflexivity.
Qed.
Lemma plain_tight e : good e -> blank_free e = true -> del_semicolon (del_space (gen_rvalue e)) = del_space (gen_rvalue e).
Proof.
  intros H B. rewrite (gen_inner e H), (ds_inner e H). apply plain_render; [apply lexable_valid; apply ok_inner; auto|]. rewrite toks_inner by assumption. now apply plain_etoks.
Qed.
