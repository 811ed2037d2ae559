(** SrcParse.v - the tokens of a source file are read back: declarations, ports, instances. *)
From Verif Require Import Base DfModel LexModel LexSpec ExprModel ParseModel ExprSpec ExprLex ExprText ExprParse ExprSound StmModel StmSpec StmText StmText2 StmText3 StmParse StmParse2 StmParse3 StmParse4 SrcModel SrcSpec SrcText SrcText2 SrcText3 SrcText4.
Local Open Scope string_scope.
Local Notation "a +++ b" := (@app _ a b) (at level 60, right associativity).

Ltac evb H := refine (ev_bind _ _ _ _ H _); cbn [fst snd].
Ltac ev0 := exists 0; intros; reflexivity.
Lemma p_range_ok r rest : range_good r -> ev (fun n => p_range n (range_toks r +++ rest)) (Ok (r, rest)).
Proof.
  intros (G1 & _ & G2 & _). unfold range_toks. cbn [app]. rewrite <- app_assoc. cbn [app]. rewrite <- app_assoc. cbn [app].
  change (ev (fun n => do a <- p_expr n (etoks (fst r) +++ P COLON :: etoks (snd r) +++ P RBRACKET :: rest); do r <- expect (is_p COLON) (snd a); do b <- p_expr n r; do r <- expect (is_p RBRACKET) (snd b); Ok ((fst a, fst b), r)) (Ok (r, rest))).
  evb (p_expr_inner (fst r) (P COLON :: etoks (snd r) +++ P RBRACKET :: rest) G1 (conj I eq_refl)). change (ev (fun n => do b <- p_expr n (etoks (snd r) +++ P RBRACKET :: rest); do r' <- expect (is_p RBRACKET) (snd b); Ok ((fst r, fst b), r')) (Ok (r, rest))).
  evb (p_expr_inner (snd r) (P RBRACKET :: rest) G2 (conj I eq_refl)). destruct r. ev0.
Qed.
Definition no_bracket (l : list token) : Prop := match l with P LBRACKET :: _ => False | _ => True end.
Lemma p_range_opt_ok w rest : opt range_good w -> no_bracket rest -> ev (fun n => p_range_opt n (match w with Some w => range_toks w | None => [] end +++ rest)) (Ok (w, rest)).
Proof.
  intros H HN. destruct w as [w|].
  - refine (ev_bind (fun n => p_range n (range_toks w +++ rest)) (fun _ x => Ok (Some (fst x), snd x)) _ _ (p_range_ok w rest H) _). ev0.
  - cbn [app]. exists 0. intros n _. unfold p_range_opt. destruct rest as [|[p|s|s|s|s|k s] rest]; try reflexivity. destruct p; reflexivity || contradiction.
Qed.
Lemma p_dims_ok l : Forall range_good l -> forall acc rest, no_bracket rest -> ev (fun n => p_dims n acc (dims_toks l +++ rest)) (Ok (acc +++ l, rest)).
Proof.
  induction 1 as [|r l Hr H IH]; intros acc rest HN; apply ev_S.
  - exists 0. intros n _. cbn [p_dims dims_toks flat_map app]. rewrite app_nil_r. destruct rest as [|[p|s|s|s|s|k s] rest]; try reflexivity. destruct p; reflexivity || contradiction.
  - cbn [dims_toks flat_map]. rewrite <- app_assoc.
    change (ev (fun n => do x <- p_range n (range_toks r +++ dims_toks l +++ rest); p_dims n (acc +++ [fst x]) (snd x)) (Ok (acc +++ r :: l, rest))). evb (p_range_ok r (dims_toks l +++ rest) Hr). replace (acc +++ r :: l) with ((acc +++ [r]) +++ l) by now rewrite <- app_assoc. now apply IH.
Qed.

(** ** Declarations *)
Definition no_sig (l : list token) : Prop := match l with t :: _ => sigtype t = None | [] => True end.
Definition signed_words (sg : bool) : list string := if sg then ["signed"] else [].
Lemma sigtypes_end rest : no_sig rest -> p_sigtypes rest = ([], rest).
Proof. destruct rest as [|t rest]; [reflexivity|]. cbn [no_sig p_sigtypes]. intros ->. reflexivity. Qed.
Lemma range_no_sig w rest : no_sig (range_toks w +++ rest).
Proof. reflexivity. Qed.
Lemma p_sigtypes_ok k sg w rest : no_sig rest -> p_sigtypes (KW (kind_text k) :: attr_toks sg w +++ rest) = (kind_text k :: signed_words sg, match w with Some w => range_toks w | None => [] end +++ rest).
Proof.
  intros H. assert (p_sigtypes (match w with Some w => range_toks w | None => [] end +++ rest) = ([], match w with Some w => range_toks w | None => [] end +++ rest)) as K by (apply sigtypes_end; destruct w; [reflexivity|exact H]).
  assert (p_sigtypes (attr_toks sg w +++ rest) = (signed_words sg, match w with Some w => range_toks w | None => [] end +++ rest)) as K2. { unfold attr_toks. destruct sg; cbn [app signed_words]; [|exact K]. cbn [p_sigtypes sigtype existsb String.eqb Ascii.eqb Bool.eqb orb]. now rewrite K. }
  cbn [p_sigtypes]. assert (sigtype (KW (kind_text k)) = Some (kind_text k)) as -> by (destruct k; reflexivity). now rewrite K2.
Qed.
Lemma create_decl_ok k sg n w dims : create_decl (kind_text k :: signed_words sg) n w dims = Ok [MVar k n w sg dims].
Proof. destruct k, sg; destruct dims; reflexivity. Qed.
Lemma p_vardecl_ok assigns k n w sg dims rest : ident n -> opt range_good w -> Forall range_good dims ->
  ev (fun m => p_decl assigns m (member_toks (MVar k n w sg dims) +++ rest)) (Ok ([MVar k n w sg dims], rest)).
Proof.
  intros H1 H2 H3. cbn [member_toks app]. rewrite <- app_assoc. cbn [app]. rewrite <- app_assoc. cbn [app]. unfold p_decl. rewrite (p_sigtypes_ok k sg w (ID n :: dims_toks dims +++ P SEMICOLON :: rest)) by reflexivity.
  evb (p_range_opt_ok w (ID n :: dims_toks dims +++ P SEMICOLON :: rest) H2 I).
  assert (ev (fun m => p_declnames m (kind_text k :: signed_words sg) w [] (ID n :: dims_toks dims +++ P SEMICOLON :: rest)) (Ok ([MVar k n w sg dims], rest))) as K.
  { apply ev_S. change (ev (fun m => do d <- p_dims m [] (dims_toks dims +++ P SEMICOLON :: rest); match snd d with
      | P COMMA :: r => do mm <- create_decl (kind_text k :: signed_words sg) n w (fst d); p_declnames m (kind_text k :: signed_words sg) w ([] ++ mm)%list r
      | P SEMICOLON :: r => do mm <- create_decl (kind_text k :: signed_words sg) n w (fst d); Ok (([] ++ mm)%list, r)
      | _ => Err ParseError end) (Ok ([MVar k n w sg dims], rest))).
    evb (p_dims_ok dims H3 [] (P SEMICOLON :: rest) I). cbn [app]. rewrite create_decl_ok. ev0. }
  destruct dims as [|d dims]; exact K.
Qed.
Lemma param_head_ok sg w n rest : opt range_good w -> ev (fun m => p_param_head m (attr_toks sg w +++ ID n :: rest)) (Ok (sg, w, ID n :: rest)).
Proof.
  intros H. pose proof (p_range_opt_ok w (ID n :: rest) H I) as K. unfold attr_toks. destruct sg; cbn [app].
  - refine (ev_bind (fun m => p_range_opt m (match w with Some w => range_toks w | None => [] end +++ ID n :: rest)) (fun _ w => Ok (true, fst w, snd w)) _ _ K _). ev0.
  - assert (ev (fun m => do w <- p_range_opt m (match w with Some w => range_toks w | None => [] end +++ ID n :: rest); Ok (false, fst w, snd w)) (Ok (false, w, ID n :: rest))) as K2 by (evb K; ev0). destruct w as [w|]; exact K2.
Qed.
Definition ends_params (l : list token) : Prop := match l with P COMMA :: KW _ :: _ => True | P COMMA :: _ => False | _ => stops_expr l end.
Lemma p_parameters_ok local n v w sg rest : good v -> opt range_good w -> ends_params rest ->
  ev (fun m => p_parameters local m (param_toks n v w sg +++ rest)) (Ok ([MParam local n v w sg], rest)).
Proof.
  intros H1 H2 HE. unfold param_toks, p_parameters. rewrite <- app_assoc. cbn [app]. evb (param_head_ok sg w n (P EQUALS :: etoks v +++ rest) H2). apply ev_S.
  assert (stops_expr rest) as HS. { destruct rest as [|[p|s|s|s|s|k s] rest]; try exact HE. destruct p; try exact HE. split; [exact I|reflexivity]. }
  change (ev (fun m => do e <- p_expr m (etoks v +++ rest); match snd e with
    | P COMMA :: KW s :: _ => Ok ([] +++ [MParam local n (fst e) w sg], snd e)
    | P COMMA :: r => p_substs m (fun s e => MParam local s e w sg) ([] +++ [MParam local n (fst e) w sg]) r
    | _ => Ok ([] +++ [MParam local n (fst e) w sg], snd e) end) (Ok ([MParam local n v w sg], rest))).
  evb (p_expr_inner v rest H1 HS). exists 0. intros m _. destruct rest as [|[p|s|s|s|s|k s] rest]; try reflexivity. destruct p; try reflexivity. destruct rest as [|[p|s|s|s|s|k s] rest]; contradiction || reflexivity.
Qed.
Lemma p_assignment_ok a rest : plain_asg a -> ev (fun n => p_assignment n (etoks (a_left a) +++ P EQUALS :: etoks (a_right a) +++ P SEMICOLON :: rest)) (Ok (a, rest)).
Proof.
  intros (G1 & T & G2 & E1 & E2). destruct (target_starts _ G1 T) as (t & r & E & HH).
  assert (ev (fun n => do x <- p_lvalue n (etoks (a_left a) +++ P EQUALS :: etoks (a_right a) +++ P SEMICOLON :: rest); do r <- expect (is_p EQUALS) (snd x); do e <- p_expr n r; do r <- expect (is_p SEMICOLON) (snd e); Ok (Asg (fst x) (fst e) None None, r)) (Ok (a, rest))) as K.
  { evb (p_lvalue_ok (a_left a) G1 T (P EQUALS :: etoks (a_right a) +++ P SEMICOLON :: rest) I). change (ev (fun n => do e <- p_expr n (etoks (a_right a) +++ P SEMICOLON :: rest); do r <- expect (is_p SEMICOLON) (snd e); Ok (Asg (a_left a) (fst e) None None, r)) (Ok (a, rest))).
    evb (p_expr_inner (a_right a) (P SEMICOLON :: rest) G2 (conj I eq_refl)). destruct a; cbn in *. subst. ev0. }
  rewrite E in *. cbn [app] in *. destruct t as [p|s|s|s|s|k s]; try contradiction; [destruct p; contradiction || exact K|exact K].
Qed.

(** ** A member as an item *)
Lemma member_item m rest : member_good m -> ev (fun n => p_standard n (member_toks m +++ rest)) (Ok (single m, rest)).
Proof.
  destruct m as [k n w sg dims|one n w sg|n v|n|n|local n v w sg|a]; cbn [member_good single]; try contradiction.
  - intros (H1 & H2 & H3). pose proof (p_vardecl_ok true k n w sg dims rest H1 H2 H3) as K.
    assert (ev (fun m => decl_of (p_decl true m (member_toks (MVar k n w sg dims) +++ rest))) (Ok (JDecl [MVar k n w sg dims], rest))) as K2 by (unfold decl_of; evb K; ev0). destruct k; exact K2.
  - intros (H1 & ->). cbn [member_toks app]. apply ev_S. ev0.
  - intros H1. ev0.
  - intros (H1 & H2 & H3). cbn [member_toks app]. rewrite <- app_assoc. cbn [app].
    assert (ev (fun m => decl_of (p_paramdecl local m (param_toks n v w sg +++ P SEMICOLON :: rest))) (Ok (JDecl [MParam local n v w sg], rest))) as K.
    { assert (ev (fun m => p_paramdecl local m (param_toks n v w sg +++ P SEMICOLON :: rest)) (Ok ([MParam local n v w sg], rest))) as K.
      { unfold p_paramdecl. evb (p_parameters_ok local n v w sg (P SEMICOLON :: rest) H2 H3 (conj I eq_refl)). ev0. }
      unfold decl_of. evb K. ev0. }
    destruct local; exact K.
  - intros H. cbn [member_toks]. unfold assign_toks. cbn [app]. rewrite <- app_assoc. cbn [app]. rewrite <- app_assoc. cbn [app].
    change (ev (fun n => do a <- p_assignment n (etoks (a_left a) +++ P EQUALS :: etoks (a_right a) +++ P SEMICOLON :: rest); Ok (JAssign (fst a), snd a)) (Ok (JAssign a, rest))). evb (p_assignment_ok a rest H). ev0.
Qed.
