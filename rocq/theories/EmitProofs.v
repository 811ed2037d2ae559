(** EmitProofs.v - the text of expressions, targets and statements, and its tokens. *)
From Verif Require Import Base ScopeModel DfModel BindModel LexModel LexSpec LexProofs ExprModel ParseModel ExprSpec ExprLex ExprText ExprText2 ExprText3 ExprParse ExprSound CodeModel CodeSpec CodeProofs StmModel SrcModel EmitModel EmitSpec.
From Verif Require StmSpec StmText StmParse StmParse2 LitProofs.
Require Import Coq.Strings.Ascii.
Local Open Scope string_scope.
Local Notation "a +++ b" := (@app _ a b) (at level 60, right associativity).

(** ** Expressions *)
Definition code (e : expr) : string := render (dps e).
Definition said_to (d : option expr) (t : df) : Prop := forall e, means d t e -> plain e -> tocode_to (option_map code d) t = Ok (code e).
Lemma said_to_list d l xs : Forall (said_to d) l -> Forall2 (means d) l xs -> Forall written xs -> forallb codable xs = true -> mapM (tocode_to (option_map code d)) l = Ok (map code xs).
Proof.
  intros H. revert xs. induction H as [|t l Ht H IH]; intros xs HS HW HC; inversion HS; subst; auto. inversion HW; subst. cbn [forallb] in HC. apply andb_true_iff in HC as [C1 C2]. cbn [mapM map]. rewrite (Ht y) by (auto; split; auto). cbn [bind]. rewrite (IH l') by auto. reflexivity.
Qed.
Lemma said_to_arm d t y : said_to d t -> arm_means d t y -> plain y -> arm_to (option_map code d) t (tocode_to (option_map code d) t) = Ok (code y).
Proof.
  intros H HA HP. destruct HA as [x E|t y HS]; [cbn [arm_to]; rewrite E; reflexivity|]. specialize (H _ HS HP). destruct t; auto. inversion HS.
Qed.
Lemma text_to d t : said_to d t.
Proof.
  induction t as [|n|s|s|s|l o IH|v m l IHv IHm IHl|v p IHv IHp|l IH|c t f IHc IHt IHf|v w fl s|w|w|t IH|s l IH] using df_ind'; intros e HS [HW HC]; inversion HS; subst.
  - unfold code. cbn. now rewrite app_nil_s.
  - unfold code. cbn. inversion HW; subst. erewrite int_tok_ok by eassumption. cbn. now rewrite app_nil_s.
  - cbn [codable] in HC. inversion HW; subst. inversion IH as [|? ? I1 _]; subst. assert (codable x = true /\ o <> Uplus) as [C1 C2] by (destruct o; split; discriminate || exact HC). cbn [tocode_to]. rewrite (op_mark o C2), (I1 x) by (auto; split; auto). unfold code. cbn [bind]. match goal with H : is_unary o = _ |- _ => rewrite H end. cbn [dps]. rd. reflexivity.
  - cbn [codable] in HC. apply andb_true_iff in HC as [C1 C2]. inversion HW; subst. inversion IH as [|? ? I1 I2]; subst. inversion I2 as [|? ? I3 _]; subst. assert (o <> Uplus) as C3 by (intros ->; discriminate). cbn [tocode_to]. rewrite (op_mark o C3), (I1 x), (I3 y) by (auto; split; auto). unfold code. cbn [bind]. match goal with H : is_unary o = _ |- _ => rewrite H end. cbn [dps]. unfold LP, RP. rd. reflexivity.
  - cbn [codable] in HC. apply andb_true_iff in HC as [HC C3]. apply andb_true_iff in HC as [C1 C2]. inversion HW; subst. cbn [tocode_to]. rewrite (IHv x), (IHm y), (IHl z) by (auto; split; auto). unfold code. cbn [bind]. destruct (String.eqb_spec (render (dps y)) (render (dps z))) as [E|_]; [apply dps_inj in E; auto; congruence|]. cbn [dps]. rd. reflexivity.
  - cbn [codable] in HC. apply andb_true_iff in HC as [C1 C2]. inversion HW; subst. cbn [tocode_to]. rewrite (IHv x), (IHm y), (IHl y) by (auto; split; auto). unfold code. cbn [bind]. rewrite String.eqb_refl. cbn [dps]. rd. reflexivity.
  - cbn [codable] in HC. apply andb_true_iff in HC as [C1 C2]. inversion HW; subst. cbn [tocode_to]. rewrite (IHv x), (IHp y) by (auto; split; auto). unfold code. cbn [bind dps]. rd. reflexivity.
  - cbn [codable] in HC. inversion HW; subst. cbn [tocode_to]. rewrite (said_to_list d l xs) by auto. unfold code. cbn [bind dps]. destruct xs as [|x xs]; [congruence|]. cbn [map]. rewrite members_comma. rd. rewrite pjoin_comma. cbn [map]. rewrite map_map. reflexivity.
  - cbn [codable] in HC. apply andb_true_iff in HC as [HC C3]. apply andb_true_iff in HC as [C1 C2]. inversion HW; subst. cbn [tocode_to].
    assert (match c with DNone => Ok "" | _ => do x <- tocode_to (option_map code d) c; Ok ("(" ++ x ++ ")") end = Ok ("(" ++ code x ++ ")")) as -> by (rewrite (IHc x) by (auto; split; auto); destruct c; auto; match goal with H : means _ DNone _ |- _ => inversion H end).
    cbn [bind]. rewrite (said_to_arm d t y), (said_to_arm d f z) by (auto; split; auto). unfold code. cbn [bind dps]. unfold LP, RP. rd. reflexivity.
  - unfold code. cbn [tocode_to eval_repr]. assert ((v0 <? 0)%Z = false) as -> by (apply Z.ltb_ge; auto). rewrite width_literal. inversion HW; subst. cbn [dps]. erewrite int_tok_ok by eassumption. rd. now rewrite app_nil_s.
  - unfold code. cbn [tocode_to eval_repr]. assert ((v0 <? 0)%Z = true) as -> by (apply Z.ltb_lt; auto). rewrite Z.abs_neq by lia. inversion HW as [| |? ? ? HW2| | | | | | | |]; subst. inversion HW2; subst. cbn [dps]. erewrite int_tok_ok by eassumption. unfold LP, RP. rd. rewrite <- width_literal. rewrite !app_assoc_s. reflexivity.
  - unfold code. cbn [tocode_to]. change "'dx" with ("'d" ++ "x"). rewrite width_literal. inversion HW; subst. cbn [dps]. erewrite int_tok_ok by eassumption. rd. now rewrite app_nil_s.
  - unfold code. cbn [tocode_to]. change "'dz" with ("'d" ++ "z"). rewrite width_literal. inversion HW; subst. cbn [dps]. erewrite int_tok_ok by eassumption. rd. now rewrite app_nil_s.
  - cbn [codable] in HC. apply andb_true_iff in HC as [HC C3]. apply andb_true_iff in HC as [C1 C2]. inversion HW; subst. cbn [tocode_to]. rewrite (said_to_list d l xs) by auto. unfold code. cbn [bind dps]. destruct xs as [|x xs]; [discriminate|]. cbn [map]. rewrite members_comma. unfold LP, RP. rd. rewrite id_token_text, pjoin_comma. cbn [map]. rewrite map_map. reflexivity.
Qed.
Lemma says_text d t e : says d t e -> tocode_to (option_map code d) t = Ok (code e).
Proof. intros [H K]. now apply text_to. Qed.
Lemma says_some d t e : says (Some d) t e -> tocode_to (Some (code d)) t = Ok (code e).
Proof. exact (says_text (Some d) t e). Qed.
Lemma says_none t e : says None t e -> tocode_to None t = Ok (code e).
Proof. exact (says_text None t e). Qed.
Lemma says_not_none d t e : says d t e -> t <> DNone.
Proof. intros [H _] ->. inversion H. Qed.
Lemma says_plain d t e : says d t e -> plain e.
Proof. now intros [_ H]. Qed.
Lemma simple_plain s : simple_id s -> plain (XId s).
Proof. intros H. split; [apply w_id; now left|]. cbn [codable]. destruct H as (c & r & -> & H & _). destruct (ascii_dec c "\") as [->|N]; [discriminate|]. unfold unescaped. destruct c as [[] [] [] [] [] [] [] []]; try reflexivity. congruence. Qed.
Lemma code_id s : code (XId s) = s.
Proof. unfold code. cbn. now rewrite app_nil_s. Qed.
Lemma code_ptr v x : code (XPtr v x) = code v ++ "[" ++ code x ++ "]".
Proof. unfold code. cbn [dps]. rd. reflexivity. Qed.
Lemma code_part v x y : code (XPart v x y) = code v ++ "[" ++ code x ++ ":" ++ code y ++ "]".
Proof. unfold code. cbn [dps]. rd. reflexivity. Qed.

(** ** Targets *)
Inductive tgt : expr -> Prop :=
| tg_id s : simple_id s -> tgt (XId s)
| tg_ptr v x : tgt v -> indexable v -> plain x -> tgt (XPtr v x)
| tg_part v x y : tgt v -> indexable v -> plain x -> plain y -> tgt (XPart v x y).
Lemma tgt_plain e : tgt e -> plain e.
Proof.
  induction 1 as [s H|v x H [I1 I2] HI [K1 K2]|v x y H [I1 I2] HI [K1 K2] [K3 K4]]; [now apply simple_plain|..]; (split; [constructor; auto|]); cbn [codable]; rewrite ?I2, ?K2, ?K4; reflexivity.
Qed.
Lemma target_tgt b e : target_of b e -> tgt e.
Proof.
  intros (HS & v & HP & HL). assert (tgt v /\ indexable v) as [T1 T2].
  { destruct HP as [[_ ->]|(x & Hx & ->)]; [split; [now constructor|exact I]|]. split; [|exact I]. constructor; [now constructor|exact I|exact (says_plain _ _ _ Hx)]. }
  destruct HL as [[_ ->]|(x & y & Hx & Hy & [[_ ->]|[_ ->]])]; [exact T1|..]; constructor; auto; exact (says_plain _ _ _ Hx) || exact (says_plain _ _ _ Hy).
Qed.
Lemma none_true t : t = DNone -> is_none t = true.
Proof. intros ->. reflexivity. Qed.
Lemma none_false t : t <> DNone -> is_none t = false.
Proof. destruct t; congruence || reflexivity. Qed.
Lemma none_or m l : m = DNone \/ l = DNone -> is_none m || is_none l = true.
Proof. intros [-> | ->]; [reflexivity|]. apply orb_true_r. Qed.
Lemma getdest_ok b e : target_of b e -> getdest b = Ok (code e).
Proof.
  intros (HS & v & HP & HL). unfold getdest.
  assert (exists p, (if is_none (b_ptr b) then Ok "" else do x <- tocode_to None (b_ptr b); Ok ("[" ++ x ++ "]")) = Ok p /\ code v = toFlatname (b_dest b) ++ p) as (p & -> & E1).
  { destruct HP as [[-> ->]|(x & Hx & ->)]; [exists ""; rewrite code_id, app_nil_s; auto|]. exists ("[" ++ code x ++ "]"). rewrite code_ptr, code_id. split; auto. rewrite (none_false _ (says_not_none _ _ _ Hx)), (says_none _ _ Hx). reflexivity. }
  cbn [bind].
  assert (exists q, (if is_none (b_msb b) || is_none (b_lsb b) then Ok "" else do x <- tocode_to None (b_msb b); do y <- tocode_to None (b_lsb b); Ok (if String.eqb x y then "[" ++ x ++ "]" else "[" ++ x ++ ":" ++ y ++ "]")) = Ok q /\ code e = code v ++ q) as (q & -> & E2).
  { destruct HL as [[H ->]|(x & y & Hx & Hy & H)].
    - exists "". rewrite app_nil_s, (none_or _ _ H). auto.
    - exists (if String.eqb (code x) (code y) then "[" ++ code x ++ "]" else "[" ++ code x ++ ":" ++ code y ++ "]"). split; [rewrite (none_false _ (says_not_none _ _ _ Hx)), (none_false _ (says_not_none _ _ _ Hy)), (says_none _ _ Hx), (says_none _ _ Hy); reflexivity|].
      destruct H as [[<- ->]|[N ->]]; [rewrite String.eqb_refl; apply code_ptr|]. destruct (String.eqb_spec (code x) (code y)) as [E|_]; [|apply code_part]. exfalso. apply N. destruct Hx as [_ [A1 A2]], Hy as [_ [B1 B2]]. now apply dps_inj. }
  cbn [bind]. f_equal. rewrite E2, E1. now rewrite app_assoc_s.
Qed.
Lemma unsliced_dest b : unsliced b -> getdest b = Ok (toFlatname (b_dest b)).
Proof. intros [E H]. unfold getdest. rewrite E, (none_or _ _ H). cbn [is_none bind append]. now rewrite app_nil_s. Qed.

(** ** Texts without dots *)
Fixpoint nod (s : string) : bool := match s with "" => true | String c r => negb (ceqb c ".") && nod r end.
Lemma nod_app a b : nod (a ++ b) = nod a && nod b.
Proof. induction a as [|c a IH]; [reflexivity|]. cbn [append nod]. now rewrite IH, andb_assoc. Qed.
Lemma undot_nod s : nod s = true -> undot s = s.
Proof. induction s as [|c s IH]; [reflexivity|]. cbn [nod undot]. intros H. apply andb_true_iff in H as [H1 H2]. apply negb_true_iff in H1. now rewrite H1, IH. Qed.
Lemma nod_all (p : ascii -> bool) s : forallb (fun c => implb (p c) (negb (ceqb c "."))) (map ascii_of_nat (seq 0 256)) = true -> all_chars p s -> nod s = true.
Proof.
  intros HP H. pose proof (LitProofs.char_imp p (fun c => negb (ceqb c ".")) HP) as K. induction s as [|c s IH]; [reflexivity|]. inversion H as [|x l Hx Hl]; subst. cbn [nod]. rewrite (K c Hx). exact (IH Hl).
Qed.
Lemma nod_char (p : ascii -> bool) c : forallb (fun c => implb (p c) (negb (ceqb c "."))) (map ascii_of_nat (seq 0 256)) = true -> p c = true -> negb (ceqb c ".") = true.
Proof. intros HP. exact (LitProofs.char_imp p (fun c => negb (ceqb c ".")) HP c). Qed.
Lemma nod_id s : simple_id s -> nod s = true.
Proof. intros (c & r & -> & H1 & H2 & _). cbn [nod]. rewrite (nod_char id_start c), (nod_all id_char r) by (vm_compute; reflexivity) || auto. reflexivity. Qed.
Lemma nod_number k s : number k s -> nod s = true.
Proof.
  intros H; destruct H; repeat (rewrite nod_app || cbn [nod append]);
  repeat match goal with
  | H : all_chars ?p ?s |- context [nod ?s] => rewrite (nod_all p s (eq_refl true) H)
  | H : ?p ?c = true |- context [negb (ceqb ?c ".")] => rewrite (nod_char p c (eq_refl true) H)
  end; reflexivity.
Qed.
Lemma nod_concat l : Forall (fun s => nod s = true) l -> nod (String.concat "," l) = true.
Proof.
  intros H. induction H as [|x l Hx H IH]; [reflexivity|]. destruct l as [|y l]; [exact Hx|]. change (String.concat "," (x :: y :: l)) with (x ++ "," ++ String.concat "," (y :: l)). rewrite nod_app, Hx. exact IH.
Qed.
Lemma nod_join l : Forall (fun e => nod (render (dps e)) = true) l -> nod (render (pjoin true (map dps l))) = true.
Proof. intros H. rewrite pjoin_comma. apply nod_concat. rewrite map_map. induction H; constructor; auto. Qed.
Ltac nds := unfold nl; repeat (rewrite nod_app || cbn [nod append]); repeat match goal with H : nod _ = true |- _ => rewrite H end; reflexivity.
Lemma nod_render e : written e -> codable e = true -> nod (render (dps e)) = true.
Proof.
  intros HW HC. fine e HW HC (fun e => nod (render (dps e)) = true).
  - intros s H. cbn [dps render ptext text_of]. rewrite app_nil_s. now apply nod_id.
  - intros k s H. cbn [dps]. rewrite (int_tok_ok _ _ H). cbn [render ptext text_of]. rewrite app_nil_s. now apply (nod_number k).
  - intros o a H1 H2 Ha. cbn [dps]. rd. destruct o; try discriminate H1; try congruence; cbn [unary_punct punct_text]; nds.
  - intros o a b H1 Ha Hb. cbn [dps]. unfold LP, RP. rd. destruct o; try discriminate H1; cbn [binary_punct punct_text]; nds.
  - intros c t f Hc Ht Hf. cbn [dps]. unfold LP, RP. rd. nds.
  - intros l _ H. apply nod_join in H. cbn [dps]. rd. nds.
  - intros v m l _ Hv Hm Hl. cbn [dps]. rd. nds.
  - intros v p _ Hv Hp. cbn [dps]. rd. nds.
  - intros f l HF _ H. apply nod_join in H. assert (nod f = true) as Hf by (destruct HF as [HF | HF]; [now apply nod_id|rewrite HF; reflexivity]). cbn [dps]. unfold LP, RP. rd. rewrite id_token_text. nds.
Qed.
Lemma nod_code e : plain e -> nod (code e) = true.
Proof. intros [HW HC]. now apply nod_render. Qed.
