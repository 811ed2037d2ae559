(** SensProofs2.v - sensitivity lists that the parser delivers. *)
From Verif Require Import Base LexModel LexSpec LitModel LitProofs ExprModel ExprSpec StmModel StmSpec StmSound SensSpec.
Require Import Coq.Strings.Ascii.
Local Open Scope string_scope.

Definition okc (c : ascii) : bool := negb (LitModel.is_space c) && negb (Ascii.eqb c "+") && negb (Ascii.eqb c "-").
Lemma ok_bare s : allc okc s = true -> bare s.
Proof.
  induction s as [|d s IH]; cbn [allc]; intros H c Hc; [destruct Hc|]. apply andb_true_iff in H as [H1 H2]. destruct Hc as [<-|Hc]; [|exact (IH H2 c Hc)].
  unfold okc in H1. apply andb_true_iff in H1 as [H1 H3]. apply andb_true_iff in H1 as [H1 H4]. apply negb_true_iff in H1, H3, H4.
  apply Ascii.eqb_neq in H3, H4. auto.
Qed.
Lemma all_allc p s : (forall c, p c = true -> okc c = true) -> all_chars p s -> allc okc s = true.
Proof.
  intros K. induction s as [|c s IH]; intros H; [reflexivity|]. cbn [allc]. inversion H; subst. rewrite K by assumption. now apply IH.
Qed.
Ltac okc_class := apply char_imp; vm_compute; reflexivity.
Lemma number_bare k s : number k s -> bare s.
Proof.
  intros H. apply ok_bare.
  assert (D : forall c, LexModel.is_digit c = true -> okc c = true) by okc_class.
  assert (D' : forall c, or_bar LexModel.is_digit c = true -> okc c = true) by okc_class.
  assert (B1 : forall c, bin_digit c = true -> okc c = true) by okc_class. assert (B2 : forall c, or_bar bin_digit c = true -> okc c = true) by okc_class.
  assert (O1 : forall c, oct_digit c = true -> okc c = true) by okc_class. assert (O2 : forall c, or_bar oct_digit c = true -> okc c = true) by okc_class.
  assert (H1 : forall c, hex_digit c = true -> okc c = true) by okc_class. assert (H2 : forall c, or_bar hex_digit c = true -> okc c = true) by okc_class.
  assert (D1 : forall c, dec_digit c = true -> okc c = true) by okc_class. assert (D2 : forall c, or_bar dec_digit c = true -> okc c = true) by okc_class.
  assert (L1 : forall c, one_of "bB" c = true -> okc c = true) by okc_class. assert (L2 : forall c, one_of "oO" c = true -> okc c = true) by okc_class.
  assert (L3 : forall c, one_of "hH" c = true -> okc c = true) by okc_class. assert (L4 : forall c, one_of "dD" c = true -> okc c = true) by okc_class.
  assert (L5 : forall c, one_of "sS" c = true -> okc c = true) by okc_class.
  destruct H; try rewrite !allc_app; cbn [allc andb];
    repeat match goal with
    | K : all_chars LexModel.is_digit ?x |- context [allc okc ?x] => rewrite (all_allc _ x D K)
    | K : all_chars (or_bar LexModel.is_digit) ?x |- context [allc okc ?x] => rewrite (all_allc _ x D' K)
    | K : all_chars (or_bar bin_digit) ?x |- context [allc okc ?x] => rewrite (all_allc _ x B2 K)
    | K : all_chars (or_bar oct_digit) ?x |- context [allc okc ?x] => rewrite (all_allc _ x O2 K)
    | K : all_chars (or_bar hex_digit) ?x |- context [allc okc ?x] => rewrite (all_allc _ x H2 K)
    | K : all_chars (or_bar dec_digit) ?x |- context [allc okc ?x] => rewrite (all_allc _ x D2 K)
    | K : ?p ?c = true |- context [okc ?c] => rewrite (D c K) || rewrite (B1 c K) || rewrite (O1 c K) || rewrite (H1 c K) || rewrite (D1 c K)
        || rewrite (L1 c K) || rewrite (L2 c K) || rewrite (L3 c K) || rewrite (L4 c K) || rewrite (L5 c K)
    end; reflexivity.
Qed.
Lemma written_bare v s : written (XPtr v (XInt s)) -> bare s.
Proof.
  intros W. inversion W as [| | | | | | | |? ? _ _ W2| |]; subst. inversion W2 as [|? ? N| | | | | | | | |]; subst. exact (number_bare _ _ N).
Qed.
Lemma sens_bare l : sens_written l -> Forall bare_index l.
Proof.
  intros [->|[_ [H|H]]]; [constructor; [intros k v s E; discriminate|constructor]| |]; (eapply Forall_impl; [|exact H]); intros i Hi k v s ->;
    destruct k; cbn in Hi; try contradiction; destruct Hi as [W _]; exact (written_bare _ _ W).
Qed.
