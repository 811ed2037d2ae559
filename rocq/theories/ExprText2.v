(** ExprText2.v - the generated text is the text of the pieces, and these can be read back. *)
From Verif Require Import Base DfModel LexModel LexSpec LexProofs ExprModel ExprSpec ExprLex ExprText.
From Verif Require LitProofs.
Require Import Coq.Strings.Ascii.
Local Open Scope string_scope.
Local Notation "a +++ b" := (@app _ a b) (at level 60, right associativity).

Lemma int_tok_ok k s : number k s -> int_tok s = INT k s.
Proof. intros H. unfold int_tok. pose proof (lex1_int k s "" H I) as E. rewrite app_nil_s in E. now rewrite E. Qed.
Lemma id_token_ok s : simple_id s \/ escaped_id s -> id_token s = ID s.
Proof.
  intros H. unfold id_token. destruct (existsb _ reserved) eqn:E; auto. apply in_reserved in E. destruct H as [(c & r & _ & _ & _ & N)|(c & r & -> & _)]; [contradiction|].
  exfalso. assert (Forall (fun s => escaped s = false) reserved) as K by (repeat (constructor; [reflexivity|]); constructor). rewrite Forall_forall in K. specialize (K _ E). discriminate.
Qed.
Lemma unary_text o : is_unary o = true -> o <> Uplus -> show (op2mark o) = punct_text (unary_punct o).
Proof. destruct o; try discriminate; try congruence; reflexivity. Qed.
Lemma binary_text o : is_unary o = false -> show (op2mark o) = punct_text (binary_punct o).
Proof. destruct o; try discriminate; reflexivity. Qed.
Lemma render_sp nb : render (sp nb) = if nb then "" else " ".
Proof. destruct nb; reflexivity. Qed.
Lemma escape_cases s : escape s = if escaped s then s ++ " " else s.
Proof. destruct s as [|c s]; [reflexivity|]. destruct c as [[] [] [] [] [] [] [] []]; reflexivity. Qed.
Lemma render_word nb s : render (word nb s) = if negb nb && escaped s then s ++ " " else s.
Proof. unfold word. cbn [render ptext]. rewrite id_token_text. destruct nb, (escaped s); cbn; rewrite ?app_nil_s; reflexivity. Qed.
Ltac rd := repeat (rewrite render_app || rewrite render_sp || rewrite app_assoc_s || (progress cbn [render ptext text_of punct_text app append])).
Lemma render_join nb l : render (pjoin nb l) = (fix go l := match l with [] => "" | [x] => x | x :: r => x ++ "," ++ (if nb then "" else " ") ++ go r end) (map render l).
Proof.
  induction l as [|x [|y l] IH]; auto. change (pjoin nb (x :: y :: l)) with (x +++ PT (P COMMA) :: sp nb +++ pjoin nb (y :: l)). rd. rewrite IH. reflexivity.
Qed.
Lemma join_render l : render (pjoin false l) = join (map render l).
Proof. rewrite render_join. induction (map render l) as [|x [|y r] IH]; auto. Qed.
Lemma render_wrap e l : render (wrap e l) = if wrapped e then "(" ++ render l ++ ")" else render l.
Proof. unfold wrap. destruct (wrapped e); auto. rd. reflexivity. Qed.

(** ** First characters *)
Definition atom_start (c : ascii) : bool := id_start c || one_of "\0123456789'({$" c.
Definition starts (e : expr) (c : ascii) : Prop :=
  atom_start c = true \/ exists o r, first_op e = Some o /\ is_unary o = true /\ o <> Uplus /\ punct_text (unary_punct o) = String c r.
Lemma word_start nb s : simple_id s \/ escaped_id s -> exists c r, render (word nb s) = String c r /\ (id_start c || ceqb c "\") = true.
Proof.
  intros H. destruct (id_head _ H) as (c & r & -> & K). rewrite render_word. destruct (negb nb && _); eexists c, _; split; try reflexivity; exact K.
Qed.
Lemma atom_word c : (id_start c || ceqb c "\") = true -> atom_start c = true.
Proof. revert c. apply LitProofs.char_imp. vm_compute. reflexivity. Qed.
Lemma atom_digit c : one_of "0123456789'" c = true -> atom_start c = true.
Proof. revert c. apply LitProofs.char_imp. vm_compute. reflexivity. Qed.
Lemma indexable_word v : good v -> indexable v -> forall nb, exists c r, render (inner nb v) = String c r /\ (id_start c || ceqb c "\") = true.
Proof.
  intros H. apply (good_ind' (fun v => indexable v -> forall nb, exists c r, render (inner nb v) = String c r /\ (id_start c || ceqb c "\") = true)); auto; clear; try (intros; contradiction).
  - intros s H _ nb. now apply word_start.
  - intros v p Hv _ IH _ _ _ nb. destruct (IH Hv nb) as (c & r & E & K). cbn [inner]. rewrite render_app, E. eexists c, _. split; [reflexivity|exact K].
Qed.
Lemma starts_unwrapped e : good e -> wrapped e = false -> forall nb, exists c r, render (inner nb e) = String c r /\ atom_start c = true /\ ceqb c "(" = false.
Proof.
  assert (forall c, (id_start c || ceqb c "\") = true -> ceqb c "(" = false) as K by (apply char_neg; vm_compute; reflexivity).
  assert (forall c, one_of "0123456789'" c = true -> ceqb c "(" = false) as K2 by (apply char_neg; vm_compute; reflexivity).
  assert (forall e nb l, (exists c r, render (inner nb e) = String c r /\ (id_start c || ceqb c "\") = true) -> exists c r, render (inner nb e +++ l) = String c r /\ atom_start c = true /\ ceqb c "(" = false) as KW.
  { intros e0 nb l (c & r & E & H). rewrite render_app, E. eexists c, _. split; [reflexivity|]. split; auto. now apply atom_word. }
  intros H. destruct H as [s H|k s H|o a H1 H2 H3|o a b H1 H2 H3 H4|c t f H1 H2 H3|l H1 H2|l m H1 H2|v m l H1 H2 H3 H4 H5 H6|v p H1 H2 H3|f l H1 H2|f l H1 H2|l H1 H2]; intros HW nb; try discriminate HW; cbn [inner].
  - destruct (word_start nb s H) as (c & r & -> & E). exists c, r. auto using atom_word.
  - rewrite (int_tok_ok _ _ H). destruct (number_head _ _ H) as (c & r & -> & E). cbn [render ptext text_of]. rewrite app_nil_s. exists c, r. auto using atom_digit.
  - cbn [render ptext text_of punct_text append]. eexists _, _. split; [reflexivity|]. split; reflexivity.
  - cbn [render ptext text_of punct_text append]. eexists _, _. split; [reflexivity|]. split; reflexivity.
  - apply KW. now apply indexable_word.
  - apply KW. now apply indexable_word.
  - destruct (word_start nb f H1) as (c & r & E & K3). rewrite render_app, E. eexists c, _. split; [reflexivity|]. auto using atom_word.
  - cbn [render ptext text_of punct_text append]. eexists _, _. split; [reflexivity|]. split; reflexivity.
  - cbn [render ptext text_of punct_text append]. eexists _, _. split; [reflexivity|]. split; reflexivity.
Qed.
Lemma starts_full e : good e -> forall nb, exists c r, render (full nb e) = String c r /\ atom_start c = true.
Proof.
  intros H nb. unfold full. rewrite render_wrap. destruct (wrapped e) eqn:W; [eexists _, _; split; reflexivity|]. destruct (starts_unwrapped e H W nb) as (c & r & E & K & _). eauto.
Qed.
Lemma starts_inner e : good e -> forall nb, exists c r, render (inner nb e) = String c r /\ starts e c.
Proof.
  intros H. assert (forall e, good e -> wrapped e = false -> forall nb, exists c r, render (inner nb e) = String c r /\ starts e c) as KU.
  { intros x Hx W nb. destruct (starts_unwrapped x Hx W nb) as (c & r & E & K & _). exists c, r. split; auto. now left. }
  induction H as [s H|k s H|o a H1 H2 H3 _|o a b H1 H2 H3 IHa H4 _|c t f H1 _ H2 _ H3 _|l H1 H2|l m H1 _ H2 _|v m l H1 H2 _ H3 _ H4 _ H5 H6|v p H1 H2 _ H3 _|f l H1 H2|f l H1 H2|l H1 H2]; intros nb.
  - apply KU; auto; now constructor. - apply KU; auto; econstructor; eassumption.
  - cbn [inner render ptext text_of]. destruct (punct_text (unary_punct o)) as [|c r] eqn:E; [destruct o; discriminate|]. eexists c, _. split; [reflexivity|]. right. exists o, r. cbn [first_op]. auto.
  - cbn [inner]. destruct (bare_left o a) eqn:B.
    + destruct (IHa nb) as (c & r & E & K). rewrite render_app, E. eexists c, _. split; [reflexivity|]. destruct K as [K|(o' & r' & K1 & K2)]; [now left|right]. exists o', r'. cbn [first_op]. rewrite B. auto.
    + destruct (starts_full a H3 nb) as (c & r & E & K). unfold full in E. rewrite render_app, E. eexists c, _. split; [reflexivity|]. now left.
  - eexists _, _. split; [reflexivity|]. now left.
  - apply KU; auto; now constructor. - apply KU; auto; now constructor. - apply KU; auto; now constructor. - apply KU; auto; now constructor. - apply KU; auto; now constructor. - apply KU; auto; now constructor. - apply KU; auto; now constructor.
Qed.

(** ** The generated text *)
Lemma map_eq {A B} (f g : A -> B) l : Forall (fun x => f x = g x) l -> map f l = map g l.
Proof. induction 1; cbn; congruence. Qed.
Ltac ds := repeat (rewrite del_space_app || (progress cbn [append])).
Lemma ds_punct p : del_space (punct_text p) = punct_text p.
Proof. destruct p; reflexivity. Qed.
Lemma ds_sp (nb : bool) : del_space (if nb then "" else " ") = "".
Proof. destruct nb; reflexivity. Qed.
Lemma ds_wrap nb e l : del_space (render (inner nb e)) = render l -> del_space (render (wrap e (inner nb e))) = render (wrap e l).
Proof. intros H. rewrite !render_wrap. destruct (wrapped e); auto. now rewrite !del_space_app, H. Qed.
Lemma ds_join nb l l' : map (fun x => del_space (render x)) l = map render l' -> del_space (render (pjoin nb l)) = render (pjoin true l').
Proof.
  revert l'. induction l as [|x [|y l] IH]; intros [|x' [|y' l']] H; try discriminate H; auto.
  - cbn [map] in H. injection H as H. exact H.
  - injection H as H1 H2 H3. change (pjoin nb (x :: y :: l)) with (x +++ PT (P COMMA) :: sp nb +++ pjoin nb (y :: l)). change (pjoin true (x' :: y' :: l')) with (x' +++ PT (P COMMA) :: sp true +++ pjoin true (y' :: l')).
    rd. rewrite del_space_app, H1. change (String "," ((if nb then "" else " ") ++ render (pjoin nb (y :: l)))) with ("," ++ (if nb then "" else " ") ++ render (pjoin nb (y :: l))). rewrite !del_space_app, ds_sp. rewrite (IH (y' :: l')); [reflexivity|]. cbn [map]. congruence.
Qed.
Lemma ds_word nb s : simple_id s \/ escaped_id s -> del_space (render (word nb s)) = render (word true s).
Proof. intros H. rewrite !render_word. cbn [negb andb]. destruct (negb nb && escaped s); rewrite ?del_space_app, word_no_space by auto; cbn; now rewrite ?app_nil_s. Qed.
Ltac rs := repeat (rewrite render_app || rewrite render_sp || (progress cbn [render ptext text_of])).
Ltac dr := rs; rewrite ?del_space_app, ?ds_punct, ?ds_sp.
Lemma inner_repeat nb v n : inner nb (XRepeat v n) = PT (P LBRACE) :: sp nb +++ inner nb n +++ inner nb v +++ sp nb +++ [PT (P RBRACE)].
Proof. reflexivity. Qed.
Lemma ds_inner e : good e -> forall nb, del_space (render (inner nb e)) = render (inner true e).
Proof.
  intros H. apply (good_ind' (fun e => forall nb, del_space (render (inner nb e)) = render (inner true e))); auto; clear.
  - intros s H nb. now apply ds_word.
  - intros k s H nb. cbn [inner render ptext]. rewrite (int_tok_ok _ _ H). cbn [text_of]. rewrite app_nil_s. eapply number_no_space; eassumption.
  - intros o a _ _ _ IH nb. cbn [inner]. dr. rewrite (ds_wrap _ _ (inner true a)) by auto. reflexivity.
  - intros o a b _ _ _ IHa _ IHb nb. cbn [inner]. dr. f_equal; [destruct (bare_left o a); [auto|now apply ds_wrap]|]. cbn [append]. do 1 f_equal. destruct (bare_right o b); [auto|now apply ds_wrap].
  - intros c t f _ IHc _ IHt _ IHf nb. cbn [inner]. dr. rewrite IHc, IHt, IHf. destruct (is_cond f); reflexivity.
  - intros l _ _ IH nb. cbn [inner]. dr. rewrite (ds_join nb _ (map (inner true) l)); [reflexivity|]. rewrite !map_map. apply map_eq. revert IH. apply Forall_impl. auto.
  - intros l n _ IHc _ _ IHn nb. rewrite !inner_repeat. dr. rewrite IHn, IHc. reflexivity.
  - intros v m l _ _ IHv _ IHm _ IHl _ _ nb. cbn [inner]. dr. now rewrite IHv, IHm, IHl.
  - intros v p _ _ IHv _ IHp nb. cbn [inner]. dr. now rewrite IHv, IHp.
  - intros f l Hf _ IH nb. cbn [inner]. dr. rewrite ds_word by auto. rewrite (ds_join nb _ (map (fun x => wrap x (inner true x)) l)); [reflexivity|]. rewrite !map_map. apply map_eq. revert IH. apply Forall_impl. intros x Hx. now apply ds_wrap.
  - intros f l Hf _ IH nb. cbn [inner]. dr. assert (del_space (render (word nb f)) = render (word true f)) as -> by (destruct Hf as [Hf|[-> _]]; [now apply ds_word|destruct nb; reflexivity]).
    destruct l as [|x l]; [reflexivity|]. dr. rewrite (ds_join nb _ (map (fun x => wrap x (inner true x)) (x :: l))); [reflexivity|]. rewrite !map_map. apply map_eq. revert IH. apply Forall_impl. intros y Hy. now apply ds_wrap.
Qed.
Lemma from_full e : good e -> gen e = render (full false e) -> del_paren (gen e) = render (inner false e).
Proof.
  intros H ->. unfold full. rewrite render_wrap. destruct (wrapped e) eqn:W; [apply del_paren_wrap|]. destruct (starts_unwrapped e H W false) as (c & r & -> & _ & K). now apply del_paren_other.
Qed.
Lemma gen_full e : good e -> gen e = render (full false e).
Proof.
  assert (forall l, Forall good l -> Forall (fun x => good x -> gen x = render (full false x)) l -> Forall (fun x => gen x = render (full false x) /\ del_paren (gen x) = render (inner false x)) l) as KL.
  { intros l HG. induction HG as [|x l Hx HG IH]; intros HF; constructor; inversion HF; subst; auto. split; auto. apply from_full; auto. }
  intros H. generalize H. apply (good_ind' (fun e => good e -> gen e = render (full false e))); auto; clear H e.
  - intros s H _. unfold full, wrap. cbn [gen wrapped inner]. rewrite render_word, escape_cases. reflexivity.
  - intros k s H _. unfold full, wrap. cbn [gen wrapped inner]. rewrite (int_tok_ok _ _ H). cbn. now rewrite app_nil_s.
  - intros o a H1 H2 Ha IH _. unfold full. cbn [gen inner]. rewrite render_wrap. cbn [wrapped]. cbn [render ptext text_of]. rewrite unary_text, IH by auto. unfold full. now rewrite app_assoc_s.
  - intros o a b H1 H2 Ha IHa Hb IHb _. unfold full. rewrite render_wrap. cbn [wrapped inner]. rd. rewrite <- (binary_text o H1).
    assert ((if bare_left o a then del_paren (gen a) else gen a) = render (if bare_left o a then inner false a else wrap a (inner false a))) as EA by (destruct (bare_left o a); [apply from_full; auto|apply IHa; auto]).
    assert ((if bare_right o b then del_paren (gen b) else gen b) = render (if bare_right o b then inner false b else wrap b (inner false b))) as EB by (destruct (bare_right o b); [apply from_full; auto|apply IHb; auto]).
    rewrite <- EA, <- EB. clear EA EB. destruct o; try congruence; try discriminate H1; cbn [gen append]; rewrite ?app_assoc_s; reflexivity.
  - intros c t f Hc IHc Ht IHt Hf IHf _. unfold full. rewrite render_wrap. cbn [wrapped inner gen]. rd. rewrite (from_full c), (from_full t), (from_full f) by auto. destruct (is_cond f); rd; reflexivity.
  - intros l Hl HG IH _. unfold full, wrap. cbn [gen wrapped inner]. rd. rewrite join_render, map_map. do 3 f_equal. f_equal. apply map_eq. apply KL in IH; auto. revert IH. apply Forall_impl. tauto.
  - intros l n Hc IHc _ Hn IHn _. unfold full, wrap. cbn [wrapped]. rewrite inner_repeat. rd. change (gen (XRepeat (XConcat l) n)) with ("{ " ++ del_paren (gen n) ++ del_paren (gen (XConcat l)) ++ " }"). now rewrite (from_full n), (from_full (XConcat l)) by auto.
  - intros v m l Hi Hv IHv Hm IHm Hl IHl B1 B2 _. unfold full, wrap. cbn [gen wrapped inner]. rewrite IHv, (from_full m), (from_full l), !ds_inner by auto. unfold full, wrap. assert (wrapped v = false) as -> by (destruct v; cbn in Hi; tauto || reflexivity). rd. reflexivity.
  - intros v p Hi Hv IHv Hp IHp _. unfold full, wrap. cbn [gen wrapped inner]. rewrite IHv, (from_full p) by auto. unfold full, wrap. assert (wrapped v = false) as -> by (destruct v; cbn in Hi; tauto || reflexivity). rd. reflexivity.
  - intros f l Hf HG IH _. unfold full, wrap at 1. cbn [gen wrapped inner]. rd. rewrite render_word, escape_cases, join_render, map_map. cbn [negb andb]. f_equal. f_equal. f_equal. f_equal. apply map_eq. apply KL in IH; auto. revert IH. apply Forall_impl. intros x Hx. apply Hx.
  - intros f l Hf HG IH _. unfold full, wrap at 1. cbn [gen wrapped inner]. rd. rewrite render_word, escape_cases. cbn [negb andb]. f_equal. f_equal. destruct l as [|x l]; [reflexivity|]. rd. rewrite join_render, map_map. f_equal. f_equal. f_equal. apply map_eq. apply KL in IH; auto. revert IH. apply Forall_impl. intros y Hy. apply Hy.
Qed.
Lemma gen_inner e : good e -> gen_rvalue e = render (inner false e).
Proof. intros H. apply from_full; auto. now apply gen_full. Qed.
