(** SrcParse2.v - the tokens of a source file are read back: instances, functions, tasks and pragmas. *)
From Verif Require Import Base DfModel LexModel LexSpec ExprModel ParseModel ExprSpec ExprLex ExprText ExprText2 ExprText3 ExprParse ExprSound StmModel StmSpec StmText StmText2 StmText3 StmParse StmParse2 StmParse3 StmParse4 SrcModel SrcSpec SrcText SrcText2 SrcText3 SrcText4 SrcParse.
Local Open Scope string_scope.
Local Notation "a +++ b" := (@app _ a b) (at level 60, right associativity).

(** ** Arguments *)
Definition starts_expr (l : list token) : Prop := match l with P (RPAREN | COMMA | DOT | SEMICOLON | COLON | EQUALS) :: _ | KW _ :: _ | [] => False | _ => True end.
Lemma etoks_start e : good e -> forall rest, starts_expr (etoks e +++ rest).
Proof.
  intros H. apply (good_ind' (fun e => forall rest, starts_expr (etoks e +++ rest))); [..|exact H]; clear H e; cbn [etoks].
  - intros s H rest. rewrite (id_token_ok _ H). exact I.
  - intros k s H rest. rewrite (int_tok_ok _ _ H). exact I.
  - intros o a H1 _ _ _ rest. destruct o; discriminate H1 || exact I.
  - intros o a b _ _ Ha IH _ _ rest. rewrite <- app_assoc. destruct (bare_left o a); [apply IH|]. unfold twrap. destruct (wrapped a); [exact I|apply IH].
  - intros c t f _ _ _ _ _ _ rest. exact I.
  - intros l _ _ _ rest. exact I.
  - intros l n _ _ _ _ _ rest. exact I.
  - intros v m l _ _ IH _ _ _ _ _ _ rest. rewrite <- app_assoc. apply IH.
  - intros v p _ _ IH _ _ rest. rewrite <- app_assoc. apply IH.
  - intros f l H _ _ rest. rewrite (id_token_ok _ H). exact I.
  - intros f l _ _ _ rest. exact I.
Qed.
Local Notation arg := (option string * option expr)%type (only parsing).
Definition ends_arg (l : list token) : Prop := match l with P COMMA :: _ | P RPAREN :: _ => True | _ => False end.
Lemma ends_arg_expr l : ends_arg l -> stops_expr l.
Proof. destruct l as [|[p|s|s|s|s|k s] l]; try contradiction. destruct p; try contradiction; intros _; exact (conj I eq_refl). Qed.
Definition arg_reads (one : nat -> list token -> res (arg * list token)) (x : arg) : Prop := forall rest, ends_arg rest -> ev (fun n => one n (arg_toks x +++ rest)) (Ok (x, rest)).
Definition named (x : arg) : Prop := match fst x with Some _ => True | None => False end.
Definition unnamed (x : arg) : Prop := match fst x with Some _ => False | None => True end.
Lemma named_reads x : arg_good x -> named x -> arg_reads p_named x.
Proof.
  destruct x as [[s|] e]; [|contradiction]. intros (_ & H & _) _ rest _. cbn [arg_toks named_toks fst snd app]. rewrite <- app_assoc. cbn [app].
  destruct e as [e|]; [|ev0]. cbn [snd opt] in H.
  assert (ev (fun n => do x <- p_expr n (etoks e +++ P RPAREN :: rest); do r <- expect (is_p RPAREN) (snd x); Ok ((Some s, Some (fst x)), r)) (Ok ((Some s, Some e), rest))) as K.
  { evb (p_expr_inner e (P RPAREN :: rest) H (conj I eq_refl)). ev0. }
  pose proof (etoks_start e H (P RPAREN :: rest)) as N. eapply ev_ext; [|exact K]. intros n. unfold p_named. cbn [expect is_p p_id bind fst snd]. destruct (etoks e +++ P RPAREN :: rest) as [|[p|s0|s0|s0|s0|k s0] r]; try reflexivity. destruct p; contradiction || reflexivity.
Qed.
Lemma unnamed_reads x : arg_good x -> unnamed x -> arg_reads p_unnamed x.
Proof.
  destruct x as [[s|] e]; [contradiction|]. intros (_ & H & HN) _ rest HR. destruct e as [e|]; [|now elim HN]. cbn [arg_toks named_toks fst snd]. unfold p_unnamed. evb (p_expr_inner e rest H (ends_arg_expr _ HR)). ev0.
Qed.
Lemma param_reads x : arg_good x -> named x -> snd x <> None -> arg_reads p_named_param x.
Proof. intros H1 H2 H3 rest HR. unfold p_named_param. evb (named_reads x H1 H2 rest HR). destruct (snd x) eqn:E; [|congruence]. ev0. Qed.
Lemma tjoin_cons {A} (f : A -> list token) x l : tjoin (map f (x :: l)) = f x +++ match l with [] => [] | _ => P COMMA :: tjoin (map f l) end.
Proof. destruct l; cbn [map tjoin]; [now rewrite app_nil_r|reflexivity]. Qed.
Lemma args_cons x l : args_toks (x :: l) = arg_toks x +++ match l with [] => [] | _ => P COMMA :: args_toks l end.
Proof. exact (tjoin_cons arg_toks x l). Qed.
Lemma p_args_ok one l : Forall (arg_reads one) l -> forall acc rest, exists n0, forall n m, n0 <= n -> n0 <= m ->
  p_args (one n) m acc ((match l with [] => [] | _ => P COMMA :: args_toks l end) +++ P RPAREN :: rest) = Ok (acc +++ l, rest).
Proof.
  induction 1 as [|x l Hx H IH]; intros acc rest.
  - exists 1. intros n [|m] _ Hm; [lia|]. cbn [p_args app]. now rewrite app_nil_r.
  - cbn iota. rewrite args_cons.
    destruct (Hx ((match l with [] => [] | _ => P COMMA :: args_toks l end) +++ P RPAREN :: rest)) as (n1 & K1); [destruct l; exact I|]. destruct (IH (acc +++ [x]) rest) as (n2 & K2).
    exists (S (Nat.max n1 n2)). intros n [|m] Hn Hm; [lia|]. cbn [app p_args]. rewrite <- app_assoc. rewrite K1 by lia. cbn [bind fst snd]. rewrite K2 by lia. now rewrite <- app_assoc.
Qed.
Lemma args_first one x l rest : Forall (arg_reads one) (x :: l) -> ev (fun n => do y <- one n (args_toks (x :: l) +++ P RPAREN :: rest); p_args (one n) n [fst y] (snd y)) (Ok (x :: l, rest)).
Proof.
  intros H. inversion H as [|? ? Hx Hl]; subst. rewrite args_cons, <- app_assoc. evb (Hx ((match l with [] => [] | _ => P COMMA :: args_toks l end) +++ P RPAREN :: rest) ltac:(destruct l; exact I)).
  destruct (p_args_ok one l Hl [x] rest) as (n0 & K). exists n0. intros n Hn. apply (K n n Hn Hn).
Qed.
Lemma forall_reads (q : arg -> Prop) one l : (forall x, arg_good x -> q x -> arg_reads one x) -> Forall arg_good l -> Forall q l -> Forall (arg_reads one) l.
Proof. intros K H. induction H as [|x l Hx H IH]; intros HQ; constructor; inversion HQ; subst; auto. Qed.
Lemma unnamed_start x l rest : arg_good x -> unnamed x -> starts_expr (args_toks (x :: l) +++ rest).
Proof.
  destruct x as [[s|] e]; [contradiction|]. intros (_ & H & HN) _. destruct e as [e|]; [|now elim HN]. rewrite args_cons, <- app_assoc. cbn [arg_toks named_toks fst snd]. now apply etoks_start.
Qed.
Lemma named_start x l rest : named x -> exists r, args_toks (x :: l) +++ rest = P DOT :: r.
Proof. destruct x as [[s|] e]; [|contradiction]. intros _. rewrite args_cons. cbn [arg_toks named_toks fst snd app]. eauto. Qed.
Lemma p_port_args_ok l rest : Forall arg_good l -> Forall named l \/ Forall unnamed l -> ev (fun n => p_port_args n (args_toks l +++ P RPAREN :: rest)) (Ok (l, rest)).
Proof.
  intros H HU. destruct l as [|x l]; [apply ev_S; ev0|]. destruct HU as [HU|HU].
  - pose proof (args_first p_named x l rest (forall_reads _ _ _ named_reads H HU)) as K. inversion HU as [|? ? Hx _]; subst. destruct (named_start x l (P RPAREN :: rest) Hx) as (r & E). eapply ev_ext; [|exact K]. intros n. rewrite E. reflexivity.
  - pose proof (args_first p_unnamed x l rest (forall_reads _ _ _ unnamed_reads H HU)) as K. inversion HU as [|? ? Hx _]; subst. inversion H as [|? ? Gx _]; subst. pose proof (unnamed_start x l (P RPAREN :: rest) Gx Hx) as N.
    eapply ev_ext; [|exact K]. intros n. unfold p_port_args. destruct (args_toks (x :: l) +++ P RPAREN :: rest) as [|[p|s0|s0|s0|s0|k s0] r]; try reflexivity. destruct p; contradiction || reflexivity.
Qed.
Lemma p_param_args_ok l rest : Forall arg_good l -> Forall (fun x => snd x <> None) l -> Forall named l \/ Forall unnamed l -> ev (fun n => p_param_args n (args_toks l +++ P RPAREN :: rest)) (Ok (l, rest)).
Proof.
  intros H HS HU. destruct l as [|x l]; [apply ev_S; ev0|]. destruct HU as [HU|HU].
  - assert (Forall (arg_reads p_named_param) (x :: l)) as F. { generalize (x :: l), H, HS, HU. clear. intros l H. induction H as [|y l Hy H IH]; intros HS HU; constructor; inversion HS; inversion HU; subst; auto. now apply param_reads. }
    pose proof (args_first p_named_param x l rest F) as K. inversion HU as [|? ? Hx _]; subst. destruct (named_start x l (P RPAREN :: rest) Hx) as (r & E). eapply ev_ext; [|exact K]. intros n. rewrite E. reflexivity.
  - pose proof (args_first p_unnamed x l rest (forall_reads _ _ _ unnamed_reads H HU)) as K. inversion HU as [|? ? Hx _]; subst. inversion H as [|? ? Gx _]; subst. pose proof (unnamed_start x l (P RPAREN :: rest) Gx Hx) as N.
    eapply ev_ext; [|exact K]. intros n. unfold p_param_args. destruct (args_toks (x :: l) +++ P RPAREN :: rest) as [|[p|s0|s0|s0|s0|k s0] r]; try reflexivity. destruct p; contradiction || reflexivity.
Qed.
Lemma args_uniform l : args_written l -> Forall named l \/ Forall unnamed l.
Proof. intros [H|H]; [left|right]; revert H; apply Forall_impl; intros [[n|] e]; cbn; intros; exact I || contradiction. Qed.

(** ** Instances *)
Definition inst_ok (nm : bool) (i : inst) : Prop :=
  (if nm then ident (i_name i) /\ opt range_good (i_array i) else i_name i = "" /\ i_array i = None) /\ Forall arg_good (i_ports i) /\ (Forall named (i_ports i) \/ Forall unnamed (i_ports i)).
Lemma p_body_ok (nm : bool) i rest : inst_ok nm i -> ev (fun n => p_body nm n (inst_toks i +++ rest)) (Ok (i, rest)).
Proof.
  intros (H1 & H2 & H3). pose proof (p_port_args_ok (i_ports i) rest H2 H3) as K. unfold inst_toks, p_body. destruct i as [nn w ps]. cbn [i_name i_array i_ports] in *. destruct nm.
  - destruct H1 as [H1 HW]. rewrite (ident_nonempty _ H1). rewrite <- !app_assoc. cbn [app]. rewrite <- app_assoc. cbn [app p_id bind fst snd].
    evb (p_range_opt_ok w (P LPAREN :: args_toks ps +++ P RPAREN :: rest) HW I). cbn [expect is_p bind]. change (ev (fun n => do p <- p_port_args n (args_toks ps +++ P RPAREN :: rest); Ok (Inst nn w (fst p), snd p)) (Ok (Inst nn w ps, rest))). evb K. ev0.
  - destruct H1 as [H1 HW]. subst nn w. cbn [String.eqb app]. rewrite <- app_assoc. cbn [app bind fst snd expect is_p]. change (ev (fun n => do p <- p_port_args n (args_toks ps +++ P RPAREN :: rest); Ok (Inst "" None (fst p), snd p)) (Ok (Inst "" None ps, rest))). evb K. ev0.
Qed.
Lemma p_bodies_ok (nm : bool) l : l <> [] -> Forall (inst_ok nm) l -> forall acc rest, ev (fun n => p_bodies nm n acc (tjoin (map inst_toks l) +++ P SEMICOLON :: rest)) (Ok (acc +++ l, rest)).
Proof.
  intros HN H. induction H as [|i l Hi H IH]; [congruence|]. intros acc rest. rewrite tjoin_cons, <- app_assoc. apply ev_S. cbn [p_bodies].
  evb (p_body_ok nm i ((match l with [] => [] | _ => P COMMA :: tjoin (map inst_toks l) end) +++ P SEMICOLON :: rest) Hi). destruct l as [|j l]; cbn [app]; [ev0|].
  replace (acc +++ i :: j :: l) with ((acc +++ [i]) +++ j :: l) by now rewrite <- app_assoc. apply IH. discriminate.
Qed.
Lemma param_of_id (l : list (option string * expr)) : map param_of (map (fun x => (fst x, Some (snd x))) l) = l.
Proof. induction l as [|[a b] l IH]; cbn [map]; [reflexivity|]. now rewrite IH. Qed.
Definition insts_ok (params : list (option string * expr)) (l : list inst) : Prop := Forall (inst_ok true) l \/ params = [] /\ Forall (inst_ok false) l.
Lemma inst_head nm i l rest : inst_ok nm i -> exists t r, tjoin (map inst_toks (i :: l)) +++ rest = t :: r /\ if nm then exists s, t = ID s else t = P LPAREN.
Proof.
  intros (H & _). rewrite tjoin_cons. unfold inst_toks. destruct nm.
  - destruct H as [H _]. rewrite (ident_nonempty _ H). cbn [app]. eauto.
  - destruct H as [E1 E2]. rewrite E1, E2. cbn [String.eqb app]. eauto.
Qed.
Lemma p_instance_ok m params l rest : l <> [] -> insts_ok params l -> Forall arg_good (map (fun x => (fst x, Some (snd x))) params) -> args_written (map (fun x => (fst x, Some (snd x))) params) ->
  ev (fun n => p_instance m n (params_toks params +++ tjoin (map inst_toks l) +++ P SEMICOLON :: rest)) (Ok (JInst m params l, rest)).
Proof.
  intros HN HI HA HW. destruct params as [|p params].
  - destruct HI as [HI|[_ HI]].
    + pose proof (p_bodies_ok true l HN HI [] rest) as K. destruct l as [|i l]; [congruence|]. inversion HI as [|? ? Hi _]; subst. destruct (inst_head true i l (P SEMICOLON :: rest) Hi) as (t & r & E & s & ->).
      cbn [params_toks app]. assert (ev (fun n => do x <- p_bodies true n [] (tjoin (map inst_toks (i :: l)) +++ P SEMICOLON :: rest); Ok (JInst m [] (fst x), snd x)) (Ok (JInst m [] (i :: l), rest))) as K2 by (evb K; ev0).
      eapply ev_ext; [|exact K2]. intros n. rewrite E. reflexivity.
    + pose proof (p_bodies_ok false l HN HI [] rest) as K. destruct l as [|i l]; [congruence|]. inversion HI as [|? ? Hi _]; subst. destruct (inst_head false i l (P SEMICOLON :: rest) Hi) as (t & r & E & ->).
      cbn [params_toks app]. assert (ev (fun n => do x <- p_bodies false n [] (tjoin (map inst_toks (i :: l)) +++ P SEMICOLON :: rest); Ok (JInst m [] (fst x), snd x)) (Ok (JInst m [] (i :: l), rest))) as K2 by (evb K; ev0).
      eapply ev_ext; [|exact K2]. intros n. rewrite E. reflexivity.
  - destruct HI as [HI|[HI _]]; [|discriminate HI]. set (ps := p :: params) in *. assert (params_toks ps = P DELAY :: P LPAREN :: args_toks (map (fun x => (fst x, Some (snd x))) ps) +++ [P RPAREN]) as -> by reflexivity. cbn [app]. rewrite <- app_assoc. cbn [app].
    change (ev (fun n => do a <- p_param_args n (args_toks (map (fun x => (fst x, Some (snd x))) ps) +++ P RPAREN :: tjoin (map inst_toks l) +++ P SEMICOLON :: rest); do x <- p_bodies true n [] (snd a); Ok (JInst m (map param_of (fst a)) (fst x), snd x)) (Ok (JInst m ps l, rest))).
    evb (p_param_args_ok (map (fun x => (fst x, Some (snd x))) ps) (tjoin (map inst_toks l) +++ P SEMICOLON :: rest) HA ltac:(apply Forall_map, Forall_forall; discriminate) (args_uniform _ HW)). evb (p_bodies_ok true l HN HI [] rest). rewrite param_of_id. ev0.
Qed.
Lemma insts_are_ok params l : Forall named_inst l \/ params = @nil (option string * expr) /\ Forall unnamed_inst l -> forallb inst_printable l = true -> insts_ok params l.
Proof.
  assert (forall i, inst_printable i = true -> optb range_printable (i_array i) = true /\ forallb (fun x => optb printable (snd x)) (i_ports i) = true) as K by (intros i H; now apply andb_true_iff in H).
  intros [H|[E H]] HP; [left|right; split; [exact E|]]; clear params E || idtac; induction H as [|i l Hi H IH]; constructor; cbn [forallb] in HP; apply andb_true_iff in HP as [P1 P2]; auto; destruct (K i P1) as [K1 K2]; destruct Hi as (I1 & I2 & I3); (split; [|split; [now apply args_good|now apply args_uniform]]).
  - split; [exact I1|now apply opt_range_good].
  - auto.
Qed.

(** ** Functions and tasks *)
Lemma funcvar_ok m rest : member_good m -> local_member m -> ev (fun n => p_funcvar n (member_toks m +++ rest)) (Ok ([m], rest)).
Proof.
  destruct m as [k n w sg dims|one n w sg|n v|n|n|local n v w sg|a]; cbn [member_good local_member]; try contradiction.
  - intros (H1 & H2 & H3) HL. pose proof (p_vardecl_ok false k n w sg dims rest H1 H2 H3) as K.
    assert (ev (fun m => do x <- p_decl false m (member_toks (MVar k n w sg dims) +++ rest); if forallb func_member (fst x) then Ok x else Err ParseError) (Ok ([MVar k n w sg dims], rest))) as K2 by (evb K; destruct k; contradiction || ev0). destruct k; contradiction || exact K2.
  - intros (H1 & ->) _. cbn [member_toks app]. apply ev_S. ev0.
Qed.
Lemma local_starts m rest : member_good m -> local_member m -> starts_decl (member_toks m +++ rest) = true.
Proof. destruct m as [k n w sg dims|one n w sg|n v|n|n|local n v w sg|a]; cbn [member_good local_member]; try contradiction; [destruct k; contradiction || reflexivity|reflexivity]. Qed.
Lemma head_no_decl t r : head_of t -> starts_decl (t :: r) = false.
Proof.
  intros H. cbn [starts_decl]. rewrite (head_not "integer" t H) by notin. cbn [orb]. destruct t as [p|s|s|s|s|k s]; try reflexivity. cbn [head_of] in H. cbn [sigtype].
  destruct (existsb (String.eqb s) ["input"; "output"; "inout"; "tri"; "reg"; "logic"; "wire"; "signed"; "supply0"; "supply1"]) eqn:E; [|reflexivity]. exfalso. apply existsb_exists in E as (w & Hw & E). apply String.eqb_eq in E. subst w.
  cbn [In] in Hw. repeat (destruct Hw as [Hw|Hw]; [rewrite <- Hw in H; revert H; notin|]). exact Hw.
Qed.
Lemma funcvars_ok l : Forall member_good l -> Forall local_member l -> forall acc rest, starts_decl rest = false ->
  ev (fun n => p_funcvars n acc (flat_map member_toks l +++ rest)) (Ok (acc +++ map (fun m => [m]) l, rest)).
Proof.
  intros H HL. induction H as [|m l Hm H IH]; intros acc rest HR; apply ev_S; cbn [flat_map app map].
  - rewrite app_nil_r. exists 0. intros n _. cbn [p_funcvars]. now rewrite HR.
  - inversion HL as [|? ? L1 L2]; subst. rewrite <- app_assoc. cbn [p_funcvars]. rewrite (local_starts m _ Hm L1). evb (funcvar_ok m (flat_map member_toks l +++ rest) Hm L1).
    replace (acc +++ [m] :: map (fun m => [m]) l) with ((acc +++ [[m]]) +++ map (fun m => [m]) l) by now rewrite <- app_assoc. now apply IH.
Qed.
Lemma flat_flat decls : flat_map (flat_map member_toks) decls = flat_map member_toks (List.concat decls).
Proof. induction decls as [|d l IH]; [reflexivity|]. cbn [flat_map List.concat]. now rewrite flat_map_app, IH. Qed.
Lemma concat_forall {A} (q : A -> Prop) l : Forall (Forall q) l -> Forall q (List.concat l).
Proof. induction 1; cbn [List.concat]; [constructor|]. now apply Forall_app. Qed.
Lemma locals_ok decls rest acc : Forall (Forall member_good) decls -> locals_written decls -> starts_decl rest = false ->
  ev (fun n => p_funcvars n acc (flat_map (flat_map member_toks) decls +++ rest)) (Ok (acc +++ singles decls, rest)).
Proof.
  intros H HL HR. rewrite flat_flat. apply funcvars_ok; [now apply concat_forall| |exact HR]. apply concat_forall. revert HL. apply Forall_impl. intros d. apply Forall_impl. now intros m [_ L].
Qed.
Lemma timeless_calc s : timeless s -> calc s = true.
Proof. destruct s as [[] a|c t e|pre c post b|c b|[] c l|s l|s l|l|c b|b|e|f l|s|]; reflexivity || contradiction. Qed.
Lemma p_calc_ok s w rest : swritten s -> sprintable s = true -> timeless s -> w <> "else" -> ev (fun n => p_calc n (stoks s +++ KW w :: rest)) (Ok (s, KW w :: rest)).
Proof.
  intros H1 H2 H3 HN. unfold p_calc. refine (ev_bind _ _ _ _ (p_stm_all s H1 H2 (KW w :: rest) _) _).
  - intros _. cbn [no_else is_kw]. destruct (String.eqb_spec w "else"); [congruence|reflexivity].
  - cbn [fst]. rewrite (timeless_calc s H3). ev0.
Qed.
Lemma stoks_no_decl s rest : swritten s -> sprintable s = true -> starts_decl (stoks s +++ rest) = false.
Proof. intros W HP. destruct (stoks_head s W HP) as (t & r & E & H). rewrite E. cbn [app]. now apply head_no_decl. Qed.
Lemma p_function_ok n w decls s rest : range_good w -> Forall (Forall member_good) decls -> locals_written decls -> existsb nonnil decls = true -> swritten s -> sprintable s = true -> timeless s ->
  ev (fun m => p_function m (range_toks w +++ ID n :: P SEMICOLON :: flat_map (flat_map member_toks) decls +++ stoks s +++ KW "endfunction" :: rest)) (Ok (JFunc n w (singles decls) s, rest)).
Proof.
  intros HW HG HL HN H1 H2 H3.
  assert (ev (fun m => do w <- p_range m (range_toks w +++ ID n :: P SEMICOLON :: flat_map (flat_map member_toks) decls +++ stoks s +++ KW "endfunction" :: rest);
    do x <- p_id (snd w); do r <- expect (is_p SEMICOLON) (snd x); do d <- p_funcvars m [] r;
    match fst d with [] => Err ParseError | _ => do s <- p_calc m (snd d); do r <- expect (is_kw "endfunction") (snd s); Ok (JFunc (fst x) (fst w) (fst d) (fst s), r) end) (Ok (JFunc n w (singles decls) s, rest))) as K; [|exact K].
  evb (p_range_ok w (ID n :: P SEMICOLON :: flat_map (flat_map member_toks) decls +++ stoks s +++ KW "endfunction" :: rest) HW). cbn [p_id bind fst snd expect is_p].
  change (ev (fun m => do d <- p_funcvars m [] (flat_map (flat_map member_toks) decls +++ stoks s +++ KW "endfunction" :: rest);
    match fst d with [] => Err ParseError | _ => do s <- p_calc m (snd d); do r <- expect (is_kw "endfunction") (snd s); Ok (JFunc n w (fst d) (fst s), r) end) (Ok (JFunc n w (singles decls) s, rest))).
  evb (locals_ok decls (stoks s +++ KW "endfunction" :: rest) [] HG HL (stoks_no_decl s _ H1 H2)). cbn [app].
  assert (singles decls <> []) as N. { unfold singles. apply existsb_exists in HN as (d & Hd & HN). destruct d as [|m d]; [discriminate HN|]. intros E. apply map_eq_nil in E. assert (In m (List.concat decls)) as K by (apply in_concat; exists (m :: d); cbn; auto). rewrite E in K. exact K. }
  assert (ev (fun m => do s <- p_calc m (stoks s +++ KW "endfunction" :: rest); do r <- expect (is_kw "endfunction") (snd s); Ok (JFunc n w (singles decls) (fst s), r)) (Ok (JFunc n w (singles decls) s, rest))) as K.
  { refine (ev_bind _ _ _ _ (p_calc_ok s "endfunction" rest H1 H2 H3 _) _); [discriminate|]. ev0. }
  destruct (singles decls); [congruence|exact K].
Qed.
Lemma p_task_ok n decls s rest : Forall (Forall member_good) decls -> locals_written decls -> swritten s -> sprintable s = true -> timeless s ->
  ev (fun m => p_task m (ID n :: P SEMICOLON :: flat_map (flat_map member_toks) decls +++ stoks s +++ KW "endtask" :: rest)) (Ok (JTask n (singles decls) s, rest)).
Proof.
  intros HG HL H1 H2 H3.
  change (ev (fun m => do d <- p_funcvars m [] (flat_map (flat_map member_toks) decls +++ stoks s +++ KW "endtask" :: rest);
    do s <- p_calc m (snd d); do r <- expect (is_kw "endtask") (snd s); Ok (JTask n (fst d) (fst s), r)) (Ok (JTask n (singles decls) s, rest))).
  evb (locals_ok decls (stoks s +++ KW "endtask" :: rest) [] HG HL (stoks_no_decl s _ H1 H2)). refine (ev_bind _ _ _ _ (p_calc_ok s "endtask" rest H1 H2 H3 _) _); [discriminate|]. ev0.
Qed.

(** ** Pragmas *)
Lemma p_pragma_ok n v rest : opt good v -> optb simple_value v = true -> ev (fun m => p_pragma m (P TIMES :: ID n :: match v with Some v => P EQUALS :: etoks v | None => [] end +++ [P TIMES; P RPAREN] +++ rest)) (Ok ((n, v), rest)).
Proof.
  destruct v as [v|]; [|intros _ _; ev0]. cbn [opt optb app]. intros G HP.
  assert (ev (fun m => pragma_run m ([], etoks v +++ P TIMES :: P RPAREN :: rest)) (Ok (v, rest))) as K.
  { destruct v as [s|s| | | | | | | | |]; try discriminate HP; inversion G; subst; cbn [etoks]; [rewrite (id_token_ok s) by assumption|match goal with H : _ |- _ => rewrite (int_tok_ok _ _ H) end]; do 6 apply ev_S; ev0. }
  change (ev (fun m => do x <- pragma_run m ([], etoks v +++ P TIMES :: P RPAREN :: rest); Ok ((n, Some (fst x)), snd x)) (Ok ((n, Some v), rest))). evb K. ev0.
Qed.
