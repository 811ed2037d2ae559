(** RngProofs.v - texts of conditions: lexed, parsed, and their meaning. *)
From Verif Require Import Base ScopeModel DfModel BindModel LitModel LitSpec LexModel LexSpec ExprModel ParseModel ExprSpec ExprLex StmText PrecSpec PrecProps ActiveModel ActiveSpec RngModel RngSpec.
From Verif Require LitProofs MachText.
Require Import Coq.Strings.Ascii.
Local Open Scope string_scope.
Local Notation "a +++ b" := (@app _ a b) (at level 60, right associativity).

Lemma assoc_s a b c : (a ++ b) ++ c = a ++ b ++ c.
Proof. induction a as [|x a IH]; cbn [append]; congruence. Qed.
Lemma nil_s a : a ++ "" = a.
Proof. induction a as [|x a IH]; cbn [append]; congruence. Qed.
Lemma length_app_s a b : String.length (a ++ b) = (String.length a + String.length b)%nat.
Proof. induction a as [|x a IH]; cbn [append String.length Nat.add]; congruence. Qed.
Lemma substring_app a b : String.substring 0 (String.length a) (a ++ b) = a.
Proof. induction a as [|x a IH]; cbn [append String.length String.substring]; [destruct b; reflexivity|congruence]. Qed.
Lemma chop_app s c d : chop (s ++ String c (String d "")) = s.
Proof.
  unfold chop. rewrite length_app_s. cbn [String.length]. replace (String.length s + 2 - 2)%nat with (String.length s) by lia. apply substring_app.
Qed.

(** ** texts in front of others *)
Definition starts (a : string) (ta : list token) : Prop := forall s ts, spells s ts -> spells (a ++ s) (ta +++ ts).
Lemma starts_app a b ta tb : starts a ta -> starts b tb -> starts (a ++ b) (ta +++ tb).
Proof. intros H1 H2 s ts H. rewrite assoc_s, <- app_assoc. apply H1, H2, H. Qed.
Lemma digit_char_of c d : LitSpec.is_digit 10 c d -> LexModel.is_digit c = true.
Proof.
  intros [H L]. unfold digits_of in H. cbn [In] in H. repeat (destruct H as [H|H]; [injection H as <- <-; reflexivity || lia|]). contradiction.
Qed.
Lemma reads_digits n s m : LitSpec.reads 10 n s m -> all_chars (or_bar LexModel.is_digit) s.
Proof.
  unfold all_chars in *. induction 1 as [|n c d s m Hd H IH|n s m H IH]; cbn [list_ascii_of_string]; constructor; auto. unfold or_bar. now rewrite (digit_char_of _ _ Hd).
Qed.
Lemma numeral_number s z : numeral 10 s z -> number DEC s.
Proof. intros (c & d & r & -> & Hd & Hr). constructor; [exact (digit_char_of _ _ Hd)|exact (reads_digits _ _ _ Hr)]. Qed.
Lemma py_numeral z : (0 <= z)%Z -> numeral 10 (py_str z) z.
Proof. intros H. unfold py_str. apply Z.ltb_ge in H as E. rewrite E. now apply LitProofs.py_str_nat_numeral. Qed.
Lemma spells_int z s ts : (0 <= z)%Z -> starts_sep s -> spells s ts -> spells (py_str z ++ s) (INT DEC (py_str z) :: ts).
Proof.
  intros Hz (c & r & E & Hc) H. apply (spells_tok (INT DEC (py_str z))); [exact (numeral_number _ _ (py_numeral z Hz))| | |exact H].
  - subst s. exact Hc.
  - subst s. discriminate.
Qed.
Lemma spells_id n s ts : simple_id n -> starts_sep s -> spells s ts -> spells (n ++ s) (ID n :: ts).
Proof.
  intros Hn (c & r & E & Hc) H. assert (escaped n = false) as En.
  { destruct Hn as (c' & r' & -> & K & _). destruct c' as [[] [] [] [] [] [] [] []]; try reflexivity; vm_compute in K; discriminate K. }
  apply (spells_tok (ID n)); [now left| | |exact H].
  - subst s. cbn [follows ok_after]. rewrite En. now rewrite (ends_id _ Hc).
  - subst s. discriminate.
Qed.
Lemma spells_op p s ts : (forall c, ok_after (P p) c = true) -> spells s ts -> spells (punct_text p ++ s) (P p :: ts).
Proof. intros Hp H. apply (spells_tok (P p)); [exact I|destruct s; [exact I|apply Hp]|intros _ c _; apply Hp|exact H]. Qed.
Lemma sep_punct p s : p = RPAREN \/ p = LE \/ p = LAND \/ p = LOR -> starts_sep (punct_text p ++ s).
Proof. intros [H|[H|[H|H]]]; subst p; eexists _, _; split; reflexivity. Qed.

(** ** a range *)
Definition rtoks (n : string) (r : rng) : list token :=
  match fst r with
  | None => []
  | Some a => P LPAREN :: INT DEC (py_str a) :: P LE :: ID n :: match snd r with None => [] | Some b => [P LAND; ID n; P LE; INT DEC (py_str b)] end +++ [P RPAREN]
  end.
Definition rexpr (n : string) (r : rng) : expr :=
  let lo := XBin LessEq (XInt (bound_str (fst r))) (XId n) in
  match snd r with None => lo | Some b => XBin Land lo (XBin LessEq (XId n) (XInt (py_str b))) end.
Definition rtext (n : string) (r : rng) : string :=
  "(" ++ bound_str (fst r) ++ "<=" ++ n ++ match snd r with None => "" | Some b => "&&" ++ n ++ "<=" ++ py_str b end ++ ")".
Definition rok (r : rng) : Prop := exists a, fst r = Some a /\ (0 <= a)%Z /\ forall b, snd r = Some b -> (0 <= b)%Z.
Lemma range_code_eq n r : range_code n r = rtext n r ++ "||".
Proof. unfold range_code, rtext. rewrite !assoc_s. reflexivity. Qed.
Lemma range_starts n r : simple_id n -> rok r -> starts (rtext n r) (rtoks n r).
Proof.
  intros Hn (a & Ea & Ha & Hb) s ts H. destruct r as [x y]. cbn [fst snd] in *. subst x. unfold rtext, rtoks. cbn [fst snd bound_str]. rewrite !assoc_s.
  apply (spells_punct LPAREN); [reflexivity|]. cbn [app].
  assert (spells (")" ++ s) (P RPAREN :: ts)) as K0 by (apply (spells_punct RPAREN); [reflexivity|exact H]).
  refine (spells_int a _ _ Ha (sep_punct LE _ ltac:(auto)) _). apply (spells_op LE); [reflexivity|].
  destruct y as [b|].
  - rewrite !assoc_s. cbn [app]. refine (spells_id n _ _ Hn (sep_punct LAND _ ltac:(auto)) _). apply (spells_op LAND); [reflexivity|].
    refine (spells_id n _ _ Hn (sep_punct LE _ ltac:(auto)) _). apply (spells_op LE); [reflexivity|]. exact (spells_int b _ _ (Hb b eq_refl) (sep_punct RPAREN s ltac:(auto)) K0).
  - cbn [append app]. exact (spells_id n _ _ Hn (sep_punct RPAREN s ltac:(auto)) K0).
Qed.
Lemma up m l e : forall k, PrecSpec.reads (k + m) l e -> PrecSpec.reads m l e.
Proof. induction k as [|k IH]; intros H; [exact H|]. apply IH. apply r_up. exact H. Qed.
Lemma rd_int k m z : (k + m = 13)%nat -> PrecSpec.reads m [INT DEC z] (XInt z).
Proof. intros E. apply (up m _ _ k). rewrite E. apply r_number. Qed.
Lemma rd_id k m s : (k + m = 13)%nat -> PrecSpec.reads m [ID s] (XId s).
Proof. intros E. apply (up m _ _ k). rewrite E. apply r_select. constructor. Qed.
Lemma range_reads n r : rok r -> PrecSpec.reads 13 (rtoks n r) (rexpr n r).
Proof.
  intros (a & Ea & Ha & Hb). destruct r as [x y]. cbn [fst snd] in *. subst x. unfold rtoks, rexpr. cbn [fst snd bound_str].
  assert (PrecSpec.reads 7 ([INT DEC (py_str a)] +++ [P LE] +++ [ID n]) (XBin LessEq (XInt (py_str a)) (XId n))) as K by (apply r_binary with (n := 7); [reflexivity|exact (rd_int 6 7 _ eq_refl)|exact (rd_id 5 8 _ eq_refl)]).
  destruct y as [b|].
  - assert (PrecSpec.reads 7 ([ID n] +++ [P LE] +++ [INT DEC (py_str b)]) (XBin LessEq (XId n) (XInt (py_str b)))) as K2 by (apply r_binary with (n := 7); [reflexivity|exact (rd_id 6 7 _ eq_refl)|exact (rd_int 5 8 _ eq_refl)]).
    refine (r_paren (([INT DEC (py_str a)] +++ [P LE] +++ [ID n]) +++ [P LAND] +++ ([ID n] +++ [P LE] +++ [INT DEC (py_str b)])) _ _). apply (up 0 _ _ 2). apply (r_binary LAND Land 2); [reflexivity|exact (up 2 _ _ 5 K)|exact (up 3 _ _ 4 K2)].
  - refine (r_paren ([INT DEC (py_str a)] +++ [P LE] +++ [ID n]) _ _). exact (up 0 _ _ 7 K).
Qed.
Lemma stands_fun val e x y : stands val e x -> stands val e y -> (forall s z z', numeral 10 s z -> numeral 10 s z' -> z = z') -> x = y.
Proof. intros H K N. inversion H; subst; inversion K; subst; auto. eauto. Qed.
Lemma digit_fun c d d' : LitSpec.is_digit 10 c d -> LitSpec.is_digit 10 c d' -> d = d'.
Proof.
  intros [H L] [H' L']. unfold digits_of in H, H'. cbn [In] in H, H'. repeat (destruct H as [H|H]; [injection H as <- <-|]); try lia; try contradiction;
    repeat (destruct H' as [H'|H']; [first [discriminate H' | injection H' as <-; lia]|]); contradiction.
Qed.
Lemma not_bar d : ~ LitSpec.is_digit 10 "_" d.
Proof. intros [H L]. unfold digits_of in H. cbn [In] in H. repeat (destruct H as [H|H]; [discriminate H|]). contradiction. Qed.
Lemma reads_fun n s m : LitSpec.reads 10 n s m -> forall m', LitSpec.reads 10 n s m' -> m = m'.
Proof.
  induction 1 as [|n c d s m Hd H IH|n s m H IH]; intros m' K; inversion K; subst; auto.
  - apply IH. replace d with d0; [assumption|]. eapply digit_fun; eassumption.
  - exfalso. eapply not_bar; eassumption.
  - exfalso. eapply not_bar; eassumption.
Qed.
Lemma numeral_fun s z z' : numeral 10 s z -> numeral 10 s z' -> z = z'.
Proof.
  intros (c & d & r & -> & Hd & Hr) (c' & d' & r' & E & Hd' & Hr'). injection E as <- <-. pose proof (digit_fun _ _ _ Hd Hd'). subst d'. exact (reads_fun _ _ _ Hr _ Hr').
Qed.
Lemma le_true val a b x y : stands val a x -> stands val b y -> (true_of val (XBin LessEq a b) <-> (x <= y)%Z).
Proof.
  intros Hx Hy. split; [|intros H; econstructor; eassumption]. intros H. inversion H as [a' b' x' y' Kx Ky L| | | |a' x' K]; subst.
  - rewrite (stands_fun val a x x' Hx Kx numeral_fun), (stands_fun val b y y' Hy Ky numeral_fun). exact L.
  - inversion K.
Qed.
Lemma and_true val a b : true_of val (XBin Land a b) <-> true_of val a /\ true_of val b.
Proof. split; [|intros []; now constructor]. intros H. inversion H as [|a' b' Ka Kb| | |a' x' K]; subst; [auto|inversion K]. Qed.
Lemma or_true val a b : true_of val (XBin Lor a b) <-> true_of val a \/ true_of val b.
Proof. split; [|intros [H|H]; [now apply t_left|now apply t_right]]. intros H. inversion H as [| |a' b' K|a' b' K|a' x' K]; subst; [auto|auto|inversion K]. Qed.
Lemma range_true val n r : rok r -> (true_of val (rexpr n r) <-> in_range r (val n)).
Proof.
  intros (a & Ea & Ha & Hb). destruct r as [x y]. cbn [fst snd] in *. subst x. unfold rexpr, in_range. cbn [fst snd bound_str].
  pose proof (le_true val (XInt (py_str a)) (XId n) a (val n) (st_int val _ _ (py_numeral a Ha)) (st_id val n)) as K.
  destruct y as [b|]; [|rewrite K; tauto]. rewrite and_true, K, (le_true val (XId n) (XInt (py_str b)) (val n) b (st_id val n) (st_int val _ _ (py_numeral b (Hb b eq_refl)))). tauto.
Qed.

(** ** lists joined by an operator *)
Section Join.
  Context {A : Type}.
  Variables (text : A -> string) (tk : A -> list token) (ex : A -> expr).
  Variables (p : punct) (o : op) (m : nat).
  Hypothesis Hp : forall c, ok_after (P p) c = true.
  Hypothesis Hb : binary p = Some (o, m).
  Hypothesis Hm : (m <= 12)%nat.
  Definition jtext (x : A) (l : list A) : string := fold_left (fun s y => s ++ punct_text p ++ text y) l (text x).
  Definition jtoks (x : A) (l : list A) : list token := fold_left (fun s y => s +++ [P p] +++ tk y) l (tk x).
  Definition jexpr (x : A) (l : list A) : expr := fold_left (fun e y => XBin o e (ex y)) l (ex x).
  Lemma join_starts l : (forall y, In y l -> starts (text y) (tk y)) -> forall s ts, starts s ts -> starts (fold_left (fun s y => s ++ punct_text p ++ text y) l s) (fold_left (fun s y => s +++ [P p] +++ tk y) l ts).
  Proof.
    induction l as [|y l IH]; intros H s ts K; [exact K|]. cbn [fold_left]. apply IH; [intros z Hz; apply H; now right|]. apply starts_app; [exact K|]. intros r tr Hr. rewrite assoc_s. cbn [app]. apply (spells_op p); [exact Hp|]. apply (H y (or_introl eq_refl)). exact Hr.
  Qed.
  Lemma join_reads l : (forall y, In y l -> PrecSpec.reads 13 (tk y) (ex y)) -> forall ts e, PrecSpec.reads m ts e -> PrecSpec.reads m (fold_left (fun s y => s +++ [P p] +++ tk y) l ts) (fold_left (fun e y => XBin o e (ex y)) l e).
  Proof.
    induction l as [|y l IH]; intros H ts e K; [exact K|]. cbn [fold_left]. apply IH; [intros z Hz; apply H; now right|]. apply r_binary with (n := m); [exact Hb|exact K|]. apply (up (S m) _ _ (12 - m)). replace (12 - m + S m)%nat with 13%nat by lia. apply H. now left.
  Qed.
  Lemma fold_text suffix (Hs : suffix = punct_text p) (l : list A) : forall s, fold_left (fun s y => s ++ text y ++ suffix) l (s ++ suffix) = fold_left (fun s y => s ++ punct_text p ++ text y) l s ++ suffix.
  Proof.
    subst suffix. induction l as [|y l IH]; intros s; [reflexivity|]. cbn [fold_left]. rewrite <- IH. f_equal. now rewrite !assoc_s.
  Qed.
End Join.
Lemma fold_front (l : list string) pre_ : forall s, fold_left append l (pre_ ++ s) = pre_ ++ fold_left append l s.
Proof. induction l as [|y l IH]; intros s; [reflexivity|]. cbn [fold_left]. rewrite assoc_s. apply IH. Qed.
Lemma fold_map {A} (f : A -> string) (l : list A) : forall s, fold_left (fun s y => s ++ f y) l s = fold_left append (map f l) s.
Proof. induction l as [|y l IH]; intros s; [reflexivity|]. apply IH. Qed.

(** ** terms and conditions *)
Definition ttext (n : string) (l : list rng) : string := match l with [] => "" | r :: l' => "(" ++ jtext (rtext n) LOR r l' ++ ")" end.
Definition ttoks (n : string) (l : list rng) : list token := match l with [] => [] | r :: l' => [P LPAREN] +++ jtoks (rtoks n) LOR r l' +++ [P RPAREN] end.
Definition texpr (n : string) (l : list rng) : expr := match l with [] => XInt "" | r :: l' => jexpr (rexpr n) Lor r l' end.
Lemma term_code_eq t : a_ranges t <> [] -> term_code t = ttext (toFlatname (a_name t)) (a_ranges t).
Proof.
  unfold term_code. set (n := toFlatname (a_name t)). destruct (a_ranges t) as [|r l]; [congruence|]. intros _. cbn [fold_left ttext]. rewrite range_code_eq.
  replace (fold_left (fun s r => s ++ range_code n r) l ("(" ++ rtext n r ++ "||")) with (("(" ++ jtext (rtext n) LOR r l) ++ "||"); [rewrite chop_app, assoc_s; reflexivity|].
  assert (forall s, fold_left (fun s r => s ++ range_code n r) l s = fold_left (fun s r => s ++ rtext n r ++ "||") l s) as K by (induction l as [|y l IH]; intros s; [reflexivity|]; cbn [fold_left]; rewrite range_code_eq; apply IH).
  rewrite K, fold_map, fold_front, <- fold_map, (fold_text (rtext n) LOR "||" eq_refl). rewrite assoc_s. reflexivity.
Qed.
Lemma paren_starts a ta : starts a ta -> starts ("(" ++ a ++ ")") ([P LPAREN] +++ ta +++ [P RPAREN]).
Proof. intros H s ts K. rewrite !assoc_s, <- !app_assoc. cbn [app]. apply (spells_punct LPAREN); [reflexivity|]. apply H. cbn [app]. apply (spells_punct RPAREN); [reflexivity|exact K]. Qed.
Lemma term_starts n l : simple_id n -> l <> [] -> Forall rok l -> starts (ttext n l) (ttoks n l).
Proof.
  intros Hn Hl H. destruct H as [|r l Hr H]; [congruence|]. cbn [ttext ttoks]. apply paren_starts. unfold jtext, jtoks. apply join_starts; [reflexivity| |now apply range_starts].
  intros y Hy. rewrite Forall_forall in H. apply range_starts; auto.
Qed.
Lemma term_reads n l : l <> [] -> Forall rok l -> PrecSpec.reads 13 (ttoks n l) (texpr n l).
Proof.
  intros Hl H. destruct H as [|r l Hr H]; [congruence|]. cbn [ttoks texpr]. apply r_paren. apply (up 0 _ _ 1). unfold jtoks, jexpr. apply join_reads with (m := 1%nat); [reflexivity|lia| |exact (up 1 _ _ 12 (range_reads n r Hr))].
  intros y Hy. rewrite Forall_forall in H. apply range_reads; auto.
Qed.
Lemma term_true val n l : l <> [] -> Forall rok l -> (true_of val (texpr n l) <-> in_ranges l (val n)).
Proof.
  intros Hl H. destruct H as [|r l Hr H]; [congruence|]. cbn [texpr]. unfold jexpr. clear Hl.
  assert (forall e (Q : Prop), (true_of val e <-> Q) -> (true_of val (fold_left (fun e y => XBin Lor e (rexpr n y)) l e) <-> Q \/ exists y, In y l /\ in_range y (val n))) as K.
  { induction H as [|y l Hy H IH]; intros e Q E; cbn [fold_left].
    - rewrite E. split; [auto|]. intros [K|(y & [] & _)]. exact K.
    - rewrite (IH (XBin Lor e (rexpr n y)) (Q \/ in_range y (val n))); [|rewrite or_true, E, (range_true val n y Hy); reflexivity]. split.
      + intros [[K|K]|(z & K1 & K2)]; [auto|right; exists y; split; [now left|exact K]|right; exists z; split; [now right|exact K2]].
      + intros [K|(z & [<-|K1] & K2)]; [auto|auto|right; eauto]. }
  rewrite (K _ _ (range_true val n r Hr)). unfold in_ranges. split.
  - intros [H1|(y & H1 & H2)]; [exists r; split; [now left|exact H1]|exists y; split; [now right|exact H2]].
  - intros (y & [<-|H1] & H2); [auto|right; eauto].
Qed.
Definition tname (t : aterm) : string := toFlatname (a_name t).
Definition ctoks (l : list aterm) : list token := match l with [] => [INT DEC "1"] | t :: l' => [P LPAREN] +++ jtoks (fun t => ttoks (tname t) (a_ranges t)) LAND t l' +++ [P RPAREN] end.
Definition cexpr (l : list aterm) : expr := match l with [] => XInt "1" | t :: l' => jexpr (fun t => texpr (tname t) (a_ranges t)) Land t l' end.
Definition tok (t : aterm) : Prop := simple_id (tname t) /\ printable t.
Lemma term_ok_starts t : tok t -> starts (term_code t) (ttoks (tname t) (a_ranges t)).
Proof. intros (H1 & H2 & H3). rewrite (term_code_eq t H2). now apply term_starts. Qed.
Lemma cond_code_eq p d : cond_code (p :: d) = "(" ++ jtext term_code LAND (snd p) (map snd d) ++ ")".
Proof.
  unfold cond_code. cbn [fold_left].
  replace (fold_left (fun s p => s ++ term_code (snd p) ++ "&&") d ("(" ++ term_code (snd p) ++ "&&")) with (("(" ++ jtext term_code LAND (snd p) (map snd d)) ++ "&&"); [rewrite chop_app, assoc_s; reflexivity|].
  rewrite fold_map, fold_front, <- fold_map. rewrite assoc_s. f_equal. unfold jtext. rewrite <- (fold_text term_code LAND "&&" eq_refl). generalize (term_code (snd p) ++ "&&"). induction d as [|y d IH]; intros s; [reflexivity|]. cbn [map fold_left]. apply IH.
Qed.
Lemma cond_spells d : Forall (fun p => tok (snd p)) d -> spells (cond_code d) (ctoks (map snd d)).
Proof.
  intros H. destruct H as [|p d Hp H].
  - cbn [map ctoks]. unfold cond_code. apply (spells_tok (INT DEC "1") ""); [apply (numeral_number "1" 1); exact (py_numeral 1 ltac:(lia))|exact I|intros _ c Hc; exact Hc|apply spells_nil].
  - rewrite cond_code_eq. cbn [map ctoks]. rewrite <- (nil_s ("(" ++ _ ++ ")")), <- (app_nil_r ([P LPAREN] +++ _ +++ [P RPAREN])). apply paren_starts; [|apply spells_nil].
    unfold jtext, jtoks. apply join_starts; [reflexivity| |now apply term_ok_starts]. intros y Hy. apply in_map_iff in Hy as (q & <- & Hq). rewrite Forall_forall in H. apply term_ok_starts. auto.
Qed.
Lemma cond_reads l : Forall tok l -> PrecSpec.reads 0 (ctoks l) (cexpr l).
Proof.
  intros H. destruct H as [|t l (Ht1 & Ht2 & Ht3) H]; cbn [ctoks cexpr]; [exact (rd_int 13 0 _ eq_refl)|]. apply (up 0 _ _ 13). apply r_paren. apply (up 0 _ _ 2). unfold jtoks, jexpr. apply join_reads with (m := 2%nat); [reflexivity|lia| |apply (up 2 _ _ 11); now apply term_reads].
  intros y Hy. rewrite Forall_forall in H. destruct (H y Hy) as (_ & K2 & K3). now apply term_reads.
Qed.
Lemma cond_true val l : Forall tok l -> (true_of val (cexpr l) <-> forall t, In t l -> in_ranges (a_ranges t) (val (tname t))).
Proof.
  intros H. destruct H as [|t l Ht H]; cbn [cexpr].
  - split; [intros _ t []|]. intros _. apply (t_num val _ 1); [constructor; exact (py_numeral 1 ltac:(lia))|lia].
  - unfold jexpr. assert (forall e (Q : Prop), (true_of val e <-> Q) -> (true_of val (fold_left (fun e y => XBin Land e (texpr (tname y) (a_ranges y))) l e) <-> Q /\ forall y, In y l -> in_ranges (a_ranges y) (val (tname y)))) as K.
    { clear Ht. induction H as [|y l (Hy1 & Hy2 & Hy3) H IH]; intros e Q E; cbn [fold_left].
      - rewrite E. split; [intros K; split; [exact K|intros y []]|intros [K _]; exact K].
      - rewrite (IH (XBin Land e (texpr (tname y) (a_ranges y))) (Q /\ in_ranges (a_ranges y) (val (tname y)))); [|rewrite and_true, E, (term_true val (tname y) _ Hy2 Hy3); reflexivity]. split.
        + intros [[K1 K2] K3]. split; [exact K1|]. intros z [<-|Hz]; auto.
        + intros [K1 K2]. split; [split; [exact K1|apply K2; now left]|]. intros z Hz. apply K2. now right. }
    destruct Ht as (Ht1 & Ht2 & Ht3). rewrite (K _ _ (term_true val (tname t) _ Ht2 Ht3)). split.
    + intros [K1 K2] z [<-|Hz]; auto.
    + intros K1. split; [apply K1; now left|]. intros z Hz. apply K1. now right.
Qed.
Lemma spells_parse s ts e : spells s ts -> PrecSpec.reads 0 ts e -> exists n0, forall n, (n0 <= n)%nat -> parse_text n s = Ok e.
Proof.
  intros H R. destruct (spells_lex _ _ H) as (l & E1 & E2). destruct (C58_precedence _ _ R) as (n0 & K). exists n0. intros n Hn. unfold parse_text. rewrite E1. cbn [bind]. rewrite E2. auto.
Qed.

(** ** satisfy *)
Lemma any_range_spec l x : Forall (fun r => fst r <> None /\ snd r <> None) l -> exists b, any_range l x = Ok b /\ (b = true <-> in_ranges l x).
Proof.
  induction 1 as [|[a b] l [H1 H2] H (c & IH1 & IH2)]; cbn [any_range].
  - exists false. split; [reflexivity|]. split; [discriminate|]. intros (r & [] & _).
  - destruct a as [a|]; [|cbn [fst] in H1; congruence]. destruct b as [b|]; [|cbn [snd] in H2; congruence]. destruct (Z.leb_spec a x) as [L|L]; [destruct (Z.leb_spec x b) as [L2|L2]|].
    + exists true. split; [reflexivity|]. split; [|reflexivity]. intros _. exists (Some a, Some b). split; [now left|]. split; cbn [fst snd]; lia.
    + exists c. split; [exact IH1|]. rewrite IH2. split; intros (r & Hr & K); [exists r; split; [now right|exact K]|]. destruct Hr as [<-|Hr]; [destruct K; cbn [fst snd] in *; lia|]. exists r. auto.
    + exists c. split; [exact IH1|]. rewrite IH2. split; intros (r & Hr & K); [exists r; split; [now right|exact K]|]. destruct Hr as [<-|Hr]; [destruct K; cbn [fst snd] in *; lia|]. exists r. auto.
Qed.
Lemma term_satisfy_spec t x : bounded t -> exists b, term_satisfy t x = Ok b /\ (b = true <-> in_ranges (a_ranges t) x).
Proof.
  unfold bounded, term_satisfy. intros H. destruct (a_ranges t) as [|r [|r' l]]; [exact (any_range_spec [] x H)|exact (any_range_spec [r] x H)|].
  assert (existsb no_min (r :: r' :: l) = false) as ->.
  { destruct (existsb no_min (r :: r' :: l)) eqn:E; [|reflexivity]. apply existsb_exists in E as (q & Hq & K). rewrite Forall_forall in H. destruct (H q Hq) as [N _]. unfold no_min in K. destruct (fst q); [discriminate|congruence]. }
  destruct (any_range_spec (sort_by min_leb (r :: r' :: l)) x) as (b & E & K).
  { apply Forall_forall. intros q Hq. apply sort_by_in in Hq. rewrite Forall_forall in H. auto. }
  exists b. split; [exact E|]. rewrite K. unfold in_ranges. split; intros (q & Hq & J); exists q; (split; [apply sort_by_in in Hq || apply sort_by_in|]; assumption).
Qed.
