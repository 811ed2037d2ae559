(** SrcParse3.v - the tokens of a source file are read back: items, modules, the file. *)
From Verif Require Import Base DfModel LexModel LexSpec ExprModel ParseModel ExprSpec ExprLex ExprText ExprText2 ExprText3 ExprParse ExprSound StmModel StmSpec StmText StmText2 StmText3 StmParse StmParse2 StmParse3 StmParse4 SrcModel SrcSpec SrcText SrcText2 SrcText3 SrcText4 SrcParse SrcParse2.
Local Open Scope string_scope.
Local Notation "a +++ b" := (@app _ a b) (at level 60, right associativity).

Lemma p_item_rest i rest : item_written i -> item_printable i = true -> (jopen (JItem i) = true -> no_else rest) -> ev (fun n => p_item n (itoks i +++ rest)) (Ok (i, rest)).
Proof.
  destruct i as [k l s|s]; cbn [item_written item_printable itoks jopen].
  - intros (W1 & W2 & W3) HP HO. destruct k; try discriminate HP. apply andb_true_iff in HP as [P1 P2]. cbn [app]. rewrite <- app_assoc. cbn [app].
    change (ev (fun n => do x <- p_senslist n (P AT :: P LPAREN :: sltoks l +++ P RPAREN :: stoks s +++ rest); do s <- p_stm n (snd x); need_end (fst s) (IAlways KAlways (fst x) (fst s), snd s)) (Ok (IAlways KAlways l s, rest))).
    evb (p_senslist_ok l (stoks s +++ rest) W1 P1). evb (p_stm_all s W2 P2 rest HO). rewrite (need_end_ok s _ W3). ev0.
  - intros W HP HO. change (ev (fun n => do s <- p_stm n (stoks s +++ rest); Ok (IInitial (fst s), snd s)) (Ok (IInitial s, rest))). evb (p_stm_all s W HP rest HO). ev0.
Qed.

(** ** First words of items *)
Definition words := ["input"; "output"; "inout"; "wire"; "reg"; "tri"; "integer"; "genvar"; "parameter"; "localparam"; "assign"; "always"; "initial"; "function"; "task"; "or"].
Definition item_word (more : list string) (t : token) : Prop := match t with KW w => existsb (String.eqb w) (more +++ words) = true | P LPAREN | ID _ => True | _ => False end.
Lemma word_not more c t : item_word more t -> existsb (String.eqb c) (more +++ words) = false -> is_kw c t = false.
Proof. destruct t as [p|s|s|s|s|k s]; try reflexivity. cbn [item_word is_kw]. intros H N. destruct (String.eqb_spec s c) as [->|]; [congruence|reflexivity]. Qed.
Definition is_standard (x : sitem) : bool := match x with JGen _ | JIf _ _ _ | JFor _ _ _ _ | JBlock _ _ => false | _ => true end.
Lemma member_word m : member_good m -> exists t r, member_toks m = t :: r /\ item_word [] t.
Proof.
  destruct m as [k n w sg dims|one n w sg|n v|n|n|local n v w sg|a]; cbn [member_good member_toks]; try contradiction; intros _; eexists _, _; (split; [reflexivity|]); [destruct k|..|destruct local|]; reflexivity.
Qed.
Lemma standard_word p x : is_standard x = true -> jwritten p x -> jprintable x = true -> exists t r, jtoks x = t :: r /\ item_word [] t.
Proof.
  destruct x as [l|a|i|m params l|n w d s|n d s|n v|l|c t e|pre c post b|sc l]; cbn [is_standard jwritten jprintable jtoks]; intros HS W HP; try discriminate HS.
  - apply andb_true_iff in HP as [P1 P2]. destruct (members_good l W P2) as [|m l Gm G]; [discriminate P1|]. destruct (member_word m Gm) as (t & r & E & H). cbn [flat_map]. rewrite E. eexists _, _. split; [reflexivity|exact H].
  - eexists _, _. split; [reflexivity|reflexivity].
  - destruct i as [[] l s|s]; try discriminate HP; (eexists _, _; split; [reflexivity|reflexivity]).
  - eexists _, _. split; [reflexivity|]. unfold mod_tok. destruct (String.eqb m "or"); [reflexivity|exact I].
  - eexists _, _. split; [reflexivity|reflexivity].
  - eexists _, _. split; [reflexivity|reflexivity].
  - eexists _, _. split; [reflexivity|exact I].
Qed.
Lemma word_more more t : item_word [] t -> item_word more t.
Proof. destruct t as [p|s|s|s|s|k s]; try exact (fun H => H). cbn [item_word]. intros H. rewrite existsb_app. cbn [app] in H. rewrite H. apply orb_true_r. Qed.
Lemma any_word p x : p <> InBranch -> jwritten p x -> jprintable x = true -> exists t r, jtoks x = t :: r /\ item_word ["if"; "for"; "generate"] t.
Proof.
  intros HB W HP. destruct (is_standard x) eqn:S; [destruct (standard_word p x S W HP) as (t & r & E & H); eexists _, _; split; [exact E|now apply word_more]|].
  destruct x as [l|a|i|m params l|n w d s|n d s|n v|l|c t e|pre c post b|sc l]; try discriminate S; cbn [jtoks]; try (eexists _, _; split; [reflexivity|reflexivity]). exfalso. destruct W as [W _]. now apply HB.
Qed.
Lemma is_kw_same w : is_kw w (KW w) = true.
Proof. apply String.eqb_refl. Qed.
Lemma items_no_else p l w rest : p <> InBranch -> Forall (jwritten p) l -> forallb jprintable l = true -> w <> "else" -> no_else (flat_map jtoks l +++ KW w :: rest).
Proof.
  intros HB W HP HN. destruct W as [|x l Hx W]; cbn [flat_map app].
  - cbn [no_else is_kw]. destruct (String.eqb_spec w "else"); [congruence|reflexivity].
  - cbn [forallb] in HP. apply andb_true_iff in HP as [P1 _]. destruct (any_word p x HB Hx P1) as (t & r & E & H). rewrite E. cbn [app no_else]. now apply (word_not ["if"; "for"; "generate"]).
Qed.

(** ** Standard items but declarations *)
Definition not_decl (x : sitem) : bool := match x with JDecl _ => false | _ => true end.
Definition only (x : sitem) : sitem := hd x (split_item x).
Lemma standard_item p x rest : is_standard x = true -> not_decl x = true -> jwritten p x -> jprintable x = true -> (jopen x = true -> no_else rest) ->
  ev (fun n => p_standard n (jtoks x +++ rest)) (Ok (only x, rest)).
Proof.
  intros HS HD W HP HO. destruct x as [l|a|i|m params l|n w d s|n d s|n v|l|c t e|pre c post b|sc l]; try discriminate HS; try discriminate HD; cbn [jwritten jprintable jtoks only split_item hd] in *.
  - exact (member_item (MAssign a) rest (asg_is_plain a W HP)).
  - pose proof (p_item_rest i rest W HP HO) as K. assert (ev (fun n => do j <- p_item n (itoks i +++ rest); Ok (JItem (fst j), snd j)) (Ok (JItem i, rest))) as K2 by (evb K; ev0). destruct i as [[] l s|s]; try discriminate HP; exact K2.
  - destruct W as (W1 & W2 & W3 & W4). apply andb_true_iff in HP as [P1 P2]. cbn [app]. rewrite <- !app_assoc. cbn [app].
    pose proof (p_instance_ok m params l rest W3 (insts_are_ok params l W4 P2) (args_params params W2 P1) W2) as K. destruct W1 as [W1|W1]; [rewrite (mod_tok_id m W1); exact K|]. subst m. exact K.
  - destruct W as (W1 & W2 & W3 & W4 & W5 & W6). apply andb_true_iff in HP as [HP P4]. apply andb_true_iff in HP as [HP P3]. apply andb_true_iff in HP as [P1 P2]. cbn [app]. rewrite <- app_assoc. cbn [app]. rewrite <- !app_assoc. cbn [app].
    exact (p_function_ok n w d s rest (range_is_good w W2 P1) (locals_good d W4 P3) W4 P2 W5 P4 W6).
  - destruct W as (W1 & W4 & W5 & W6). apply andb_true_iff in HP as [P3 P4]. cbn [app]. rewrite <- !app_assoc. cbn [app].
    exact (p_task_ok n d s rest (locals_good d W4 P3) W4 W5 P4 W6).
  - destruct W as [W1 W2]. assert (opt good v) as G. { destruct v as [v|]; [|exact I]. apply written_good; [exact W2|]. now destruct v. }
    unfold pragma_toks. cbn [app]. rewrite <- app_assoc. pose proof (p_pragma_ok n v rest G HP) as K.
    change (ev (fun m => do x <- p_pragma m (P TIMES :: ID n :: match v with Some v => P EQUALS :: etoks v | None => [] end +++ [P TIMES; P RPAREN] +++ rest); Ok (JPragma (fst (fst x)) (snd (fst x)), snd x)) (Ok (JPragma n v, rest))). evb K. ev0.
Qed.

(** ** Generate *)
Definition closes (c : string) : Prop := c = "end" \/ c = "endgenerate".
Lemma p_gitem_standard t r : item_word [] t -> forall n, p_gitem (S n) (t :: r) = p_standard n (t :: r).
Proof. intros H n. cbn [p_gitem r_gitem]. rewrite (word_not [] "if" t H), (word_not [] "for" t H) by reflexivity. reflexivity. Qed.
Lemma p_gitems_step c acc l y rest x : closes c -> (exists t r, l = t :: r /\ item_word ["if"; "for"; "generate"] t) -> ev (fun n => p_gitem n l) (Ok (y, rest)) -> ev (fun n => p_gitems n c (acc +++ [y]) rest) x -> ev (fun n => p_gitems n c acc l) x.
Proof.
  intros HC (t & r & -> & HW) H1 H2. apply ev_S. cbn [p_gitems]. assert (is_kw c t = false) as -> by (apply (word_not ["if"; "for"; "generate"]); [exact HW|destruct HC as [-> | ->]; reflexivity]). evb H1. exact H2.
Qed.
Definition read_list (x : sitem) : Prop := forall c acc rest y, closes c -> (jopen x = true -> no_else rest) -> ev (fun n => p_gitems n c (acc +++ split_item x) rest) y -> ev (fun n => p_gitems n c acc (jtoks x +++ rest)) y.
Definition content (n : nat) := r_content (p_gitems n "end") (p_gitem n).
Definition read_branch (x : sitem) : Prop := forall rest, (jopen x = true -> no_else rest) -> ev (fun n => content n (jtoks x +++ rest)) (Ok (only x, rest)).
Definition item_read (x : sitem) : Prop := forall p, jwritten p x -> jprintable x = true -> (p = InGenerate -> read_list x) /\ (p = InBranch -> one_member x = true -> read_branch x).
Lemma by_gitem x : (exists t r, jtoks x = t :: r /\ item_word ["if"; "for"; "generate"] t) -> split_item x = [only x] -> (forall rest, (jopen x = true -> no_else rest) -> ev (fun n => p_gitem n (jtoks x +++ rest)) (Ok (only x, rest))) ->
  read_list x /\ read_branch x.
Proof.
  intros (t & r & E & HW) HS K. split.
  - intros c acc rest y HC HO H. rewrite HS in H. apply (p_gitems_step c acc _ (only x) rest y HC); [rewrite E; cbn [app]; eauto|now apply K|exact H].
  - intros rest HO. specialize (K rest HO). rewrite E in *. cbn [app] in *. unfold content, r_content. rewrite (word_not _ "begin" t HW) by reflexivity. exact K.
Qed.
Lemma by_standard p x : is_standard x = true -> not_decl x = true -> jwritten p x -> jprintable x = true -> read_list x /\ read_branch x.
Proof.
  intros HS HD W HP. destruct (standard_word p x HS W HP) as (t & r & E & H). apply by_gitem.
  - exists t, r. split; [exact E|now apply word_more].
  - destruct x; try discriminate HS; try discriminate HD; reflexivity.
  - intros rest HO. apply ev_S. pose proof (standard_item p x rest HS HD W HP HO) as K. rewrite E in *. cbn [app] in *. eapply ev_ext; [|exact K]. intros n. now apply p_gitem_standard.
Qed.
Lemma member_gitem m rest : member_good m -> ev (fun n => p_gitem n (member_toks m +++ rest)) (Ok (single m, rest)).
Proof. intros H. destruct (member_word m H) as (t & r & E & HW). pose proof (member_item m rest H) as K. rewrite E in *. apply ev_S. eapply ev_ext; [|exact K]. intros n. now apply p_gitem_standard. Qed.
Lemma decl_list l : Forall member_good l -> read_list (JDecl l).
Proof.
  intros H c acc rest y HC _. cbn [jtoks split_item]. revert acc. induction H as [|m l Hm H IH]; intros acc K; cbn [flat_map map app] in *; [now rewrite app_nil_r in K|].
  rewrite <- app_assoc. apply (p_gitems_step c acc _ (single m) (flat_map member_toks l +++ rest) y HC).
  - destruct (member_word m Hm) as (t & r & E & HW). rewrite E. cbn [app]. exists t, (r +++ flat_map member_toks l +++ rest). split; [reflexivity|now apply word_more].
  - now apply member_gitem.
  - apply IH. now rewrite <- app_assoc.
Qed.
Lemma gitems_all l : Forall item_read l -> Forall (jwritten InGenerate) l -> forallb jprintable l = true -> forall c acc rest, closes c ->
  ev (fun n => p_gitems n c acc (flat_map jtoks l +++ KW c :: rest)) (Ok (acc +++ flat_map split_item l, rest)).
Proof.
  intros H W HP c. induction H as [|x l Hx H IH]; intros acc rest HC; cbn [flat_map app].
  - rewrite app_nil_r. apply ev_S. exists 0. intros n _. cbn [p_gitems]. now rewrite is_kw_same.
  - inversion W as [|? ? W1 W2]; subst. cbn [forallb] in HP. apply andb_true_iff in HP as [P1 P2]. destruct (Hx InGenerate W1 P1) as [K _]. rewrite <- app_assoc. apply (K eq_refl c); [exact HC| |].
    + intros _. apply (items_no_else InGenerate); auto; [discriminate|]. destruct HC as [-> | ->]; discriminate.
    + rewrite app_assoc. now apply IH.
Qed.
Lemma items_no_colon l c rest : Forall (jwritten InGenerate) l -> forallb jprintable l = true -> match flat_map jtoks l +++ KW c :: rest with P COLON :: _ => False | _ => True end.
Proof.
  intros W HP. destruct W as [|x l Hx W]; [exact I|]. cbn [forallb] in HP. apply andb_true_iff in HP as [P1 _]. destruct (any_word InGenerate x ltac:(discriminate) Hx P1) as (t & r & E & H). cbn [flat_map]. rewrite E. cbn [app]. destruct t as [p|s|s|s|s|k s]; try exact I. destruct p; exact I || contradiction.
Qed.
Lemma item_read_all : forall x, item_read x.
Proof.
  apply sitem_ind'; unfold item_read.
  - intros l p W HP. cbn [jwritten jprintable] in *. apply andb_true_iff in HP as [_ P2]. pose proof (members_good l W P2) as G. split; [intros _; now apply decl_list|]. intros _ HM rest _. destruct l as [|m [|m2 l]]; try discriminate HM. inversion G; subst. cbn [jtoks flat_map app]. rewrite app_nil_r. unfold only. cbn [split_item map hd].
    destruct (member_word m) as (t & r & E & HW); [assumption|]. pose proof (member_gitem m rest ltac:(assumption)) as K. rewrite E in *. cbn [app] in *. unfold content, r_content. rewrite (word_not [] "begin" t HW) by reflexivity. exact K.
  - intros a p W HP. destruct (by_standard p (JAssign a) eq_refl eq_refl W HP). auto.
  - intros i p W HP. destruct (by_standard p (JItem i) eq_refl eq_refl W HP). auto.
  - intros m params l p W HP. destruct (by_standard p (JInst m params l) eq_refl eq_refl W HP). auto.
  - intros n w d s p W HP. destruct (by_standard p (JFunc n w d s) eq_refl eq_refl W HP). auto.
  - intros n d s p W HP. destruct (by_standard p (JTask n d s) eq_refl eq_refl W HP). auto.
  - intros n v p W HP. destruct (by_standard p (JPragma n v) eq_refl eq_refl W HP). auto.
  - intros l _ p [W _] HP. subst p. split; discriminate.
  - intros c t e IHt IHe p (W1 & W2 & W3 & W4) HP. cbn [jprintable] in HP. apply andb_true_iff in HP as [HP P3]. apply andb_true_iff in HP as [P1 P2]. apply andb_true_iff in P2 as [P2 P4]. destruct (IHt InBranch W3 P4) as [_ KT]. specialize (KT eq_refl P2).
    enough (read_list (JIf c t e) /\ read_branch (JIf c t e)) as [A B] by auto. apply by_gitem; [eexists _, _; split; reflexivity|reflexivity|]. intros rest HO. cbn [jtoks]. cbn [app]. rewrite <- app_assoc. cbn [app]. rewrite <- app_assoc. apply ev_S. unfold only. cbn [split_item hd].
    change (ev (fun n => do c <- p_paren n (P LPAREN :: etoks c +++ P RPAREN :: jtoks t +++ (match e with None => [] | Some e => KW "else" :: jtoks e end) +++ rest); do x <- content n (snd c);
        match snd x with
        | w :: r => if is_kw "else" w then do y <- content n r; Ok (JIf (fst c) (fst x) (Some (fst y)), snd y) else Ok (JIf (fst c) (fst x) None, snd x)
        | [] => Ok (JIf (fst c) (fst x) None, [])
        end) (Ok (JIf c (only t) (match e with None => None | Some e => Some (only e) end), rest))).
    evb (p_paren_ok c (jtoks t +++ (match e with None => [] | Some e => KW "else" :: jtoks e end) +++ rest) (written_good c W2 P1)). refine (ev_bind _ _ _ _ (KT _ _) _).
    + destruct e as [e|]; [destruct W4 as (W4 & _); rewrite W4; discriminate|]. intros _. exact (HO eq_refl).
    + cbn [fst snd]. destruct e as [e|]; cbn [app].
      * rewrite is_kw_same. destruct W4 as (_ & W4). apply andb_true_iff in P3 as [P3 P5]. destruct (IHe InBranch W4 P5) as [_ KE]. evb (KE eq_refl P3 rest HO). ev0.
      * specialize (HO eq_refl). destruct rest as [|w r]; [ev0|]. cbn [no_else] in HO. rewrite HO. ev0.
  - intros pre c post b IH p (W0 & W1 & W2 & W3 & W4) HP. cbn [jprintable] in HP. apply andb_true_iff in HP as [HP P5]. apply andb_true_iff in P5 as [P5 P6]. apply andb_true_iff in HP as [HP P4]. apply andb_true_iff in HP as [HP P3]. apply andb_true_iff in HP as [P1 P2].
    destruct pre as [a|]; [|discriminate P1]. clear P1. cbn [opt optb] in *. destruct (IH InBranch W4 P6) as [_ K]. specialize (K eq_refl P5).
    enough (read_list (JFor (Some a) c post b) /\ read_branch (JFor (Some a) c post b)) as [A B] by auto. apply by_gitem; [eexists _, _; split; reflexivity|reflexivity|]. intros rest HO. cbn [jtoks]. cbn [app]. rewrite <- !app_assoc. cbn [app]. rewrite <- !app_assoc. cbn [app]. apply ev_S. unfold only. cbn [split_item hd].
    change (ev (fun n => do x <- p_forpre n (atoks false a +++ P SEMICOLON :: (match c with None => [] | Some c => etoks c end) +++ P SEMICOLON :: (match post with None => [] | Some a => atoks false a end) +++ P RPAREN :: jtoks b +++ rest);
        do c <- p_forcond n (snd x); do y <- p_forpost n (snd c); do r <- expect (is_p RPAREN) (snd y); do b <- content n r; Ok (JFor (fst x) (fst c) (fst y) (fst b), snd b)) (Ok (JFor (Some a) c post (only b), rest))).
    evb (p_forpre_ok a ((match c with None => [] | Some c => etoks c end) +++ P SEMICOLON :: (match post with None => [] | Some a => atoks false a end) +++ P RPAREN :: jtoks b +++ rest) (tight_is_fine a W1 P2)). refine (ev_bind _ _ _ _ (p_forcond_ok c _ _) _).
    { destruct c as [c|]; [|exact I]. cbn [opt optb] in *. apply andb_true_iff in P3 as [P3 _]. now apply written_good. }
    cbn [fst snd]. refine (ev_bind _ _ _ _ (p_forpost_ok post _ _) _). { destruct post as [y|]; [|exact I]. cbn [opt optb] in *. now apply tight_is_fine. }
    cbn [fst snd]. change (ev (fun n => do b0 <- content n (jtoks b +++ rest); Ok (JFor (Some a) c post (fst b0), snd b0)) (Ok (JFor (Some a) c post (only b), rest))). evb (K rest HO). ev0.
  - intros sc l IH p (W0 & W1 & W2) HP. subst p. cbn [jprintable] in HP. apply jwritten_all in W2. split; [discriminate|]. intros _ _ rest _. cbn [jtoks]. cbn [app]. rewrite <- !app_assoc. cbn [app]. unfold only. cbn [split_item hd].
    assert (ev (fun n => do b <- p_gitems n "end" [] (flat_map jtoks l +++ KW "end" :: rest); Ok (JBlock sc (fst b), snd b)) (Ok (JBlock sc (flat_map split_item l), rest))) as K.
    { evb (gitems_all l IH W2 HP "end" [] rest (or_introl eq_refl)). ev0. }
    destruct sc as [sc|]; cbn [scope_toks app]; [exact K|]. pose proof (items_no_colon l "end" rest W2 HP) as N. eapply ev_ext; [|exact K]. intros n. unfold content, r_content. rewrite is_kw_same. destruct (flat_map jtoks l +++ KW "end" :: rest) as [|[q|s|s|s|s|k s] r]; try reflexivity. destruct q; contradiction || reflexivity.
Qed.

(** ** Modules *)
Lemma p_mitems_standard acc t r : item_word [] t -> forall n, p_mitems (S n) acc (t :: r) = do x <- p_standard n (t :: r); p_mitems n (acc +++ [fst x]) (snd x).
Proof. intros H n. cbn [p_mitems]. rewrite (word_not [] "endmodule" t H), (word_not [] "generate" t H) by reflexivity. reflexivity. Qed.
Lemma mitems_step acc l y rest x : (exists t r, l = t :: r /\ item_word [] t) -> ev (fun n => p_standard n l) (Ok (y, rest)) -> ev (fun n => p_mitems n (acc +++ [y]) rest) x -> ev (fun n => p_mitems n acc l) x.
Proof. intros (t & r & E & HW) H1 H2. subst l. apply ev_S. eapply ev_ext; [intros n; now apply p_mitems_standard|]. evb H1. exact H2. Qed.
Lemma mitems_decl l rest y : Forall member_good l -> forall acc, ev (fun n => p_mitems n (acc +++ map single l) rest) y -> ev (fun n => p_mitems n acc (flat_map member_toks l +++ rest)) y.
Proof.
  intros H. induction H as [|m l Hm H IH]; intros acc K; cbn [flat_map map app] in *; [now rewrite app_nil_r in K|]. rewrite <- app_assoc. apply (mitems_step acc _ (single m) (flat_map member_toks l +++ rest)).
  - destruct (member_word m Hm) as (t & r & E & HW). rewrite E. cbn [app]. eauto.
  - now apply member_item.
  - apply IH. now rewrite <- app_assoc.
Qed.
Lemma mitems_all l : Forall (jwritten InModule) l -> forallb jprintable l = true -> forall acc rest, ev (fun n => p_mitems n acc (flat_map jtoks l +++ KW "endmodule" :: rest)) (Ok (acc +++ flat_map split_item l, rest)).
Proof.
  intros W. induction W as [|x l Hx W IH]; intros HP acc rest; cbn [flat_map app].
  - rewrite app_nil_r. apply ev_S. ev0.
  - cbn [forallb] in HP. apply andb_true_iff in HP as [P1 P2]. rewrite <- app_assoc. specialize (IH P2 (acc +++ split_item x) rest). rewrite <- app_assoc in IH.
    assert (no_else (flat_map jtoks l +++ KW "endmodule" :: rest)) as NE by (refine (items_no_else InModule l _ rest _ W P2 _); discriminate).
    destruct (not_decl x) eqn:D.
    + destruct (is_standard x) eqn:S.
      * apply (mitems_step acc _ (only x) (flat_map jtoks l +++ KW "endmodule" :: rest)).
        -- destruct (standard_word InModule x S Hx P1) as (t & r & E & HW). rewrite E. cbn [app]. eauto.
        -- apply (standard_item InModule); auto.
        -- assert (split_item x = [only x]) as E by (destruct x; try discriminate S; try discriminate D; reflexivity). rewrite E in *. exact IH.
      * destruct x as [ | | | | | | |g|c t e|pre c post b|sc g]; try discriminate S; try (exfalso; now apply (proj1 Hx)); [|exfalso; destruct Hx; discriminate]. destruct Hx as [_ Hx]. apply jwritten_all in Hx. cbn [jprintable] in P1. apply andb_true_iff in P1 as [P1 _].
        cbn [jtoks]. cbn [app]. rewrite <- app_assoc. cbn [app]. apply ev_S.
        change (ev (fun n => do x <- p_gitems n "endgenerate" [] (flat_map jtoks g +++ KW "endgenerate" :: flat_map jtoks l +++ KW "endmodule" :: rest); p_mitems n (acc +++ [JGen (fst x)]) (snd x)) (Ok (acc +++ split_item (JGen g) +++ flat_map split_item l, rest))).
        evb (gitems_all g ltac:(apply Forall_forall; intros; apply item_read_all) Hx P1 "endgenerate" [] (flat_map jtoks l +++ KW "endmodule" :: rest) (or_intror eq_refl)). exact IH.
    + destruct x as [d| | | | | | | | | |]; try discriminate D. cbn [jprintable jwritten] in *. apply andb_true_iff in P1 as [_ P1]. apply mitems_decl; [now apply members_good|exact IH].
Qed.
Lemma p_params_ok l : l <> [] -> Forall param_good l -> forall acc rest, ev (fun n => p_params n acc (tjoin (map param_decl_toks l) +++ P RPAREN :: rest)) (Ok (acc +++ l, rest)).
Proof.
  intros HN H. induction H as [|d l Hd H IH]; [congruence|]. intros acc rest. rewrite tjoin_cons, <- app_assoc. apply ev_S. destruct d as [|m [|m2 d]]; try contradiction; [|destruct m; contradiction]. destruct m as [| | | | |local n v w sg|]; try contradiction. destruct Hd as (-> & _ & G & GW & _). cbn [param_decl_toks app].
  set (more := (match l with [] => [] | _ => P COMMA :: tjoin (map param_decl_toks l) end) +++ P RPAREN :: rest).
  change (ev (fun m => do x <- p_parameters false m (param_toks n v w sg +++ more); match snd x with P COMMA :: r => p_params m (acc +++ [fst x]) r | P RPAREN :: r => Ok (acc +++ [fst x], r) | _ => Err ParseError end) (Ok (acc +++ [MParam false n v w sg] :: l, rest))).
  assert (ends_params more) as HE. { unfold more. destruct H as [|d l Hd H]; [exact (conj I eq_refl)|]. destruct d as [|m [|m2 d]]; try contradiction; [|destruct m; contradiction]. destruct m; try contradiction. rewrite tjoin_cons. exact I. }
  evb (p_parameters_ok false n v w sg more G GW HE). unfold more. destruct l as [|d l]; cbn [app]; [ev0|].
  replace (acc +++ [MParam false n v w sg] :: d :: l) with ((acc +++ [[MParam false n v w sg]]) +++ d :: l) by now rewrite <- app_assoc. apply IH. discriminate.
Qed.
Lemma p_paramlist_ok l rest : Forall param_good l -> match rest with P DELAY :: _ => False | _ => True end ->
  ev (fun n => p_paramlist n (match l with [] => [] | l => P DELAY :: P LPAREN :: tjoin (map param_decl_toks l) +++ [P RPAREN] end +++ rest)) (Ok (l, rest)).
Proof.
  intros H HN. destruct l as [|d l].
  - exists 0. intros n _. cbn [app]. destruct rest as [|[q|s|s|s|s|k s] r]; try reflexivity. destruct q; contradiction || reflexivity.
  - cbn [app]. rewrite <- app_assoc. exact (p_params_ok (d :: l) ltac:(discriminate) H [] rest).
Qed.
Definition ends_port (l : list token) : Prop := match l with P COMMA :: _ | P RPAREN :: _ => True | _ => False end.
Definition kinds_ok (k1 : vkind) (k2 : option vkind) : Prop :=
  match k1, k2 with KInput, (None | Some KWire) | KOutput, (None | Some KWire | Some KReg) | KInout, (None | Some KWire | Some KTri) => True | _, _ => False end.
Lemma create_ioport_ok k1 k2 sg n w dims : kinds_ok k1 k2 -> create_ioport (kind_text k1 :: match k2 with Some k => [kind_text k] | None => [] end +++ signed_words sg) n w dims = Ok (Ioport k1 k2 n w sg dims).
Proof. destruct k1, k2 as [[]|], sg; cbn [kinds_ok]; intros H; try contradiction; reflexivity. Qed.
Lemma sigtypes_cons k l : p_sigtypes (KW (kind_text k) :: l) = (kind_text k :: fst (p_sigtypes l), snd (p_sigtypes l)).
Proof. destruct k; reflexivity. Qed.
Lemma ioport_ok p rest : ioport_written p -> port_good p -> ends_port rest -> ev (fun n => p_ioport n (port_toks p +++ rest)) (Ok (p, rest)).
Proof.
  destruct p as [n|k1 k2 n w sg dims|]; cbn [ioport_written port_good port_toks]; try contradiction. intros (HK & _ & _ & _ & HD) (H1 & H2 & H3) HR. cbn [app]. rewrite <- !app_assoc. cbn [app]. unfold p_ioport.
  assert (p_sigtypes (KW (kind_text k1) :: match k2 with Some k => [KW (kind_text k)] | None => [] end +++ attr_toks sg w +++ ID n :: dims_toks dims +++ rest) =
    (kind_text k1 :: match k2 with Some k => [kind_text k] | None => [] end +++ signed_words sg, match w with Some w => range_toks w | None => [] end +++ ID n :: dims_toks dims +++ rest)) as ->.
  { pose proof (p_sigtypes_ok KWire sg w (ID n :: dims_toks dims +++ rest) eq_refl) as K. rewrite sigtypes_cons in K. injection K as K1 K2. rewrite sigtypes_cons. destruct k2 as [k2|]; cbn [app]; [rewrite sigtypes_cons|]; cbn [fst snd]; now rewrite K1, K2. }
  evb (p_range_opt_ok w (ID n :: dims_toks dims +++ rest) H2 I). cbn [p_id bind fst snd]. destruct w as [w|].
  - assert (no_bracket rest) as NB by (destruct rest as [|[q|s|s|s|s|k s] r]; try contradiction; destruct q; exact I || contradiction). evb (p_dims_ok dims H3 [] rest NB). cbn [app]. rewrite (create_ioport_ok k1 k2 sg n (Some w) dims HK). ev0.
  - rewrite (HD eq_refl). cbn [dims_toks flat_map app]. rewrite (create_ioport_ok k1 k2 sg n None [] HK). ev0.
Qed.
Lemma ioport_kw p : ioport_written p -> port_good p -> exists w r, port_toks p = KW w :: r.
Proof. destruct p as [n|k1 k2 n w sg dims|]; cbn [ioport_written port_good port_toks]; try contradiction. eauto. Qed.
Lemma ioports_ok l : Forall ioport_written l -> Forall port_good l -> forall acc rest,
  ev (fun n => p_ioports n acc ((match l with [] => [] | _ => P COMMA :: tjoin (map port_toks l) end) +++ P RPAREN :: rest)) (Ok (acc +++ l, rest)).
Proof.
  intros W. induction W as [|p l Hp W IH]; intros G acc rest; apply ev_S.
  - rewrite app_nil_r. ev0.
  - inversion G as [|? ? G1 G2]; subst. rewrite (tjoin_cons port_toks p l). cbn [app]. rewrite <- app_assoc. set (more := (match l with [] => [] | _ => P COMMA :: tjoin (map port_toks l) end) +++ P RPAREN :: rest). destruct (ioport_kw p Hp G1) as (w & r & E).
    assert (ev (fun n => do q <- p_ioport n (port_toks p +++ more); p_ioports n (acc +++ [fst q]) (snd q)) (Ok (acc +++ p :: l, rest))) as K.
    { evb (ioport_ok p more Hp G1 ltac:(unfold more; destruct l; exact I)). replace (acc +++ p :: l) with ((acc +++ [p]) +++ l) by now rewrite <- app_assoc. now apply IH. }
    rewrite E in *. exact K.
Qed.
Lemma ports_ok l : Forall (fun p => match p with Port n => ident n | _ => False end) l -> forall acc rest, p_ports acc ((match l with [] => [] | _ => P COMMA :: tjoin (map port_toks l) end) +++ P RPAREN :: rest) = Ok (acc +++ l, rest).
Proof.
  intros H. induction H as [|p l Hp H IH]; intros acc rest; [now rewrite app_nil_r|]. destruct p as [n| |]; try contradiction. rewrite (tjoin_cons port_toks (Port n) l). cbn [port_toks app p_ports]. rewrite IH. now rewrite <- app_assoc.
Qed.
Lemma p_portlist_ok l rest : ports_written l -> Forall port_good l -> ev (fun n => p_portlist n (P LPAREN :: tjoin (map port_toks l) +++ P RPAREN :: P SEMICOLON :: rest)) (Ok (l, rest)).
Proof.
  intros [W|W] G; (destruct l as [|p l]; [ev0|]); inversion W as [|? ? W1 W2]; subst; inversion G as [|? ? G1 G2]; subst; rewrite tjoin_cons, <- app_assoc.
  - destruct p as [n| |]; try contradiction. pose proof (ports_ok l W2 [Port n] (P SEMICOLON :: rest)) as K. exists 0. intros m _. cbn [port_toks app p_portlist]. rewrite K. reflexivity.
  - set (more := (match l with [] => [] | _ => P COMMA :: tjoin (map port_toks l) end) +++ P RPAREN :: P SEMICOLON :: rest). destruct (ioport_kw p W1 G1) as (w & r & E).
    assert (ev (fun n => do q <- p_ioport n (port_toks p +++ more); do x <- p_ioports n [fst q] (snd q); do r <- expect (is_p SEMICOLON) (snd x); Ok (fst x, r)) (Ok (p :: l, rest))) as K.
    { evb (ioport_ok p more W1 G1 ltac:(unfold more; destruct l; exact I)). evb (ioports_ok l W2 G2 [p] (P SEMICOLON :: rest)). ev0. }
    rewrite E in *. exact K.
Qed.
Lemma p_module_ok m rest : module_written m -> module_printable m = true -> ev (fun n => p_module n (tl (module_toks m) +++ rest)) (Ok (split_module m, rest)).
Proof.
  intros (W1 & W2 & W3 & W4) HP. apply andb_true_iff in HP as [HP P3]. apply andb_true_iff in HP as [P1 P2]. pose proof (params_good _ W2 P1) as G1. pose proof (ports_good _ W3 P2) as G2. destruct m as [name params ports items]. cbn [m_name m_params m_ports m_items] in *. unfold module_toks, split_module. cbn [m_name m_params m_ports m_items tl]. cbn [app]. rewrite <- app_assoc. cbn [app]. rewrite <- app_assoc. cbn [app]. rewrite <- app_assoc. cbn [app].
  set (body := P LPAREN :: tjoin (map port_toks ports) +++ P RPAREN :: P SEMICOLON :: flat_map jtoks items +++ KW "endmodule" :: rest). set (head := match params with [] => [] | l => P DELAY :: P LPAREN :: tjoin (map param_decl_toks l) +++ [P RPAREN] end).
  assert (ev (fun n => do a <- p_paramlist n (head +++ body); do p <- p_portlist n (snd a); do i <- p_mitems n [] (snd p); Ok (VModule name (fst a) (fst p) (fst i), snd i)) (Ok (VModule name params ports (flat_map split_item items), rest))) as K.
  { evb (p_paramlist_ok params body G1 I). evb (p_portlist_ok ports (flat_map jtoks items +++ KW "endmodule" :: rest) W3 G2). evb (mitems_all items W4 P3 [] rest). ev0. }
  unfold p_module; cbn [bind fst snd]; destruct W1 as [W1|W1]; [rewrite (mod_tok_id name W1)|subst name]; subst head; clear - K; destruct params; exact K.
Qed.
Definition split_definition (d : definition) : definition := match d with DModule m => DModule (split_module m) | DPragma _ _ => d end.
Lemma p_definition_ok d rest : definition_written d -> definition_printable d = true -> ev (fun n => p_definition n (def_toks d +++ rest)) (Ok (split_definition d, rest)).
Proof.
  destruct d as [m|n v]; cbn [definition_written definition_printable def_toks split_definition].
  - intros W HP. pose proof (p_module_ok m rest W HP) as K. change (ev (fun n => do x <- p_module n (tl (module_toks m) +++ rest); Ok (DModule (fst x), snd x)) (Ok (DModule (split_module m), rest))). evb K. ev0.
  - intros [W1 W2] HP. assert (opt good v) as G. { destruct v as [v|]; [|exact I]. apply written_good; [exact W2|]. now destruct v. }
    unfold pragma_toks. cbn [app]. rewrite <- app_assoc. pose proof (p_pragma_ok n v rest G HP) as K.
    change (ev (fun m => do x <- p_pragma m (P TIMES :: ID n :: match v with Some v => P EQUALS :: etoks v | None => [] end +++ [P TIMES; P RPAREN] +++ rest); Ok (DPragma (fst (fst x)) (snd (fst x)), snd x)) (Ok (DPragma n v, rest))). evb K. ev0.
Qed.
Lemma def_nonempty d : exists t r, def_toks d = t :: r.
Proof. destruct d; eexists _, _; reflexivity. Qed.
Lemma p_definitions_ok l : l <> [] -> Forall definition_written l -> source_printable l = true -> forall acc, ev (fun n => p_definitions n acc (flat_map def_toks l)) (Ok (acc +++ split_source l)).
Proof.
  intros HN W. induction W as [|d l Hd W IH]; [congruence|]. intros HP acc. cbn [source_printable forallb] in HP. apply andb_true_iff in HP as [P1 P2]. cbn [flat_map]. apply ev_S. cbn [p_definitions]. evb (p_definition_ok d (flat_map def_toks l) Hd P1).
  change (split_source (d :: l)) with (split_definition d :: split_source l). destruct l as [|e l]; [ev0|]. destruct (def_nonempty e) as (t & r & E).
  assert (ev (fun n => p_definitions n (acc +++ [split_definition d]) (flat_map def_toks (e :: l))) (Ok (acc +++ split_definition d :: split_source (e :: l)))) as K.
  { replace (acc +++ split_definition d :: split_source (e :: l)) with ((acc +++ [split_definition d]) +++ split_source (e :: l)) by now rewrite <- app_assoc. apply IH; [discriminate|exact P2]. }
  cbn [flat_map] in *. rewrite E in *. exact K.
Qed.
