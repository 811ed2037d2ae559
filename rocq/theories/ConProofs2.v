(** ConProofs2.v - names in scopes, left sides, and the writes of an assignment. *)
From Verif Require Import Base ScopeModel ScopeSpec ScopeProofs DfModel DfSpec DfProofs ReorderModel ReorderSpec ReorderProofs BindModel BindSpec BindProofs AsgModel AsgProofs ExprModel MkModel MkSpec MkProps LitModel ConModel ConSpec ConProofs.
Local Open Scope list_scope.

Lemma net_inj a x b y : net a x = net b y -> a = b /\ x = y.
Proof. unfold net. intros H. apply app_inj_tail in H as [H1 H2]. injection H2 as H2. auto. Qed.
Lemma no_any_net a x : no_any a -> no_any (net a x).
Proof. intros H. apply Forall_app. split; [exact H|]. constructor; [discriminate|constructor]. Qed.
Lemma no_any_app (a b : chain) : no_any (a ++ b) -> no_any a.
Proof. intros H. now apply Forall_app in H as [H _]. Qed.
Lemma dmem_known s n : dmem (s_terms s) n = true <-> known s n <> None.
Proof. unfold dmem, known. destruct (dget (s_terms s) n); split; congruence. Qed.

Section Names.
  Variable is_module : chain -> bool.
  Notation visible := (visible is_module).

  Lemma search_visible s x : forall scope n, searchTerminal is_module s scope x = Some n <-> visible s scope x n.
  Proof.
    induction scope as [|l scope IH] using rev_ind; intros n.
    - split; [discriminate|]. intros (up & down & E & N & _). symmetry in E. apply app_eq_nil in E as [-> _]. congruence.
    - assert (U : searchTerminal is_module s (scope ++ [l]) x =
        if dmem (s_terms s) (net (scope ++ [l]) x) then Some (net (scope ++ [l]) x) else if is_module (scope ++ [l]) then None else searchTerminal is_module s scope x).
      { unfold searchTerminal. rewrite app_length, Nat.add_comm. cbn [length Nat.add search_up]. rewrite removelast_last. reflexivity. }
      rewrite U. clear U. destruct (dmem (s_terms s) (net (scope ++ [l]) x)) eqn:D.
      + apply dmem_known in D. split.
        * intros E. injection E as <-. exists (scope ++ [l]), []. rewrite app_nil_r. split; [reflexivity|]. split; [now destruct scope|]. split; [reflexivity|]. split; [exact D|].
          intros d r E. symmetry in E. apply app_eq_nil in E as [-> _]. congruence.
        * intros (up & down & E & N & -> & K & F). destruct down as [|q down].
          -- rewrite app_nil_r in E. now rewrite E.
          -- destruct (F (q :: down) [] ltac:(now rewrite app_nil_r) ltac:(discriminate)) as [F1 _]. rewrite <- E in F1. contradiction.
      + assert (known s (net (scope ++ [l]) x) = None) as D' by (unfold dmem, known in *; destruct (dget (s_terms s) (net (scope ++ [l]) x)); congruence).
        destruct (is_module (scope ++ [l])) eqn:M.
        * split; [discriminate|]. intros (up & down & E & N & -> & K & F). destruct down as [|q down].
          -- rewrite app_nil_r in E. subst up. contradiction.
          -- destruct (F (q :: down) [] ltac:(now rewrite app_nil_r) ltac:(discriminate)) as [_ F1]. rewrite <- E in F1. congruence.
        * rewrite IH. split.
          -- intros (up & down & -> & N & -> & K & F). exists up, (down ++ [l]). rewrite app_assoc. split; [reflexivity|]. split; [exact N|]. split; [reflexivity|]. split; [exact K|].
             intros d r E Nd. destruct r as [|q r] using rev_ind.
             ++ rewrite app_nil_r in E. subst d. rewrite <- app_assoc in D', M. auto.
             ++ rewrite app_assoc in E. apply app_inj_tail in E as [E _]. exact (F _ _ E Nd).
          -- intros (up & down & E & N & -> & K & F). destruct down as [|q down _] using rev_ind.
             ++ rewrite app_nil_r in E. subst up. contradiction.
             ++ rewrite app_assoc in E. apply app_inj_tail in E as [-> <-]. exists up, down. split; [reflexivity|]. split; [exact N|]. split; [reflexivity|]. split; [exact K|].
                intros d r -> Nd. apply (F d (r ++ [l])); [now rewrite app_assoc|exact Nd].
  Qed.
  Lemma visible_fun s scope x n m : visible s scope x n -> visible s scope x m -> n = m.
  Proof. intros H1 H2. apply search_visible in H1, H2. congruence. Qed.

  Variables (nettype : string) (s : store) (scope : chain) (es : list expr).
  Hypothesis Hs : no_any scope.
  Notation declared := (declared is_module nettype s scope es).
  Lemma visible_no_any t x n : visible t scope x n -> no_any n.
  Proof. intros (up & down & E & _ & -> & _). apply no_any_net. apply (no_any_app up down). now rewrite <- E. Qed.
  Lemma declared_here : declared s.
  Proof. split; auto. Qed.
  Lemma visible_back cur x n : declared cur -> visible cur scope x n -> visible s scope x n \/ ((forall m, ~ visible s scope x m) /\ n = net scope x).
  Proof.
    intros [D1 D2] V. pose proof (visible_no_any _ _ _ V) as Nn. destruct V as (up & down & E & N & -> & K & F).
    assert (KN : forall m, no_any m -> known cur m = None -> known s m = None). { intros m Hm Hk. destruct (known s m) eqn:Es; [|reflexivity]. rewrite (D1 _ _ Hm Es) in Hk. discriminate. }
    destruct (known s (net up x)) eqn:Ks.
    - left. exists up, down. split; [exact E|]. split; [exact N|]. split; [reflexivity|]. split; [congruence|].
      intros d r Ed Nd. destruct (F d r Ed Nd) as [F1 F2]. split; [|exact F2]. apply KN; [|exact F1]. apply no_any_net. apply (no_any_app (up ++ d) r). rewrite <- app_assoc, <- Ed, <- E. exact Hs.
    - right. destruct (D2 _ Nn Ks) as [C|(y & _ & Y & En & _)]; [contradiction|]. apply net_inj in En as [-> <-]. auto.
  Qed.
  Lemma visible_on cur x n : declared cur -> visible s scope x n -> visible cur scope x n.
  Proof.
    intros [D1 D2] V. pose proof (visible_no_any _ _ _ V) as Nn. pose proof V as V0. destruct V as (up & down & E & N & -> & K & F).
    exists up, down. split; [exact E|]. split; [exact N|]. split; [reflexivity|]. split.
    - destruct (known s (net up x)) eqn:Ks; [|contradiction]. rewrite (D1 _ _ Nn Ks). discriminate.
    - intros d r Ed Nd. destruct (F d r Ed Nd) as [F1 F2]. split; [|exact F2].
      assert (no_any (net (up ++ d) x)) as Nd'. { apply no_any_net. apply (no_any_app (up ++ d) r). rewrite <- app_assoc, <- Ed, <- E. exact Hs. }
      destruct (D2 _ Nd' F1) as [C|(y & _ & Y & En & _)]; [exact C|]. apply net_inj in En as [_ <-]. exfalso. exact (Y _ V0).
  Qed.
  Variable names : string -> chain.
  Hypothesis Hnames : named is_module s scope names.
  Lemma names_plain x : no_any (names x).
  Proof. destruct (Hnames x) as [V|[_ ->]]; [exact (visible_no_any _ _ _ V)|now apply no_any_net]. Qed.
  Lemma search_names cur x n : declared cur -> searchTerminal is_module cur scope x = Some n -> names x = n.
  Proof.
    intros D V. apply search_visible in V. destruct (visible_back _ _ _ D V) as [V'|[V' ->]]; destruct (Hnames x) as [W|[W1 W2]]; auto.
    - exact (visible_fun _ _ _ _ _ W V').
    - exfalso. exact (W1 _ V').
    - exfalso. exact (V' _ W).
  Qed.
  Lemma search_none cur x : declared cur -> searchTerminal is_module cur scope x = None -> (forall n, ~ visible s scope x n) /\ names x = net scope x.
  Proof.
    intros D V. assert (N : forall n, ~ visible s scope x n). { intros n W. apply (visible_on _ _ _ D) in W. apply search_visible in W. congruence. }
    split; [exact N|]. destruct (Hnames x) as [W|[_ W]]; [exfalso; exact (N _ W)|exact W].
  Qed.
  Lemma array_same cur n : declared cur -> no_any n -> is_array cur n = array s n.
  Proof.
    intros [D1 D2] Nn. unfold is_array, array. unfold known in D1, D2. destruct (known s n) eqn:Ks; unfold known in Ks.
    - rewrite (D1 _ _ Nn Ks). now destruct t as [? ? ? ? [|]].
    - destruct (D2 _ Nn Ks) as [-> | (x & _ & _ & _ & ->)]; reflexivity.
  Qed.
End Names.

(** The meaning of an expression depends on which of its signals are arrays. *)
Lemma meaning_array I names a b count e : (forall x, a (names x) = b (names x)) -> meaning I names a count e = meaning I names b count e.
Proof.
  intros H. assert (EL : forall e0, element names a e0 = element names b e0).
  { induction e0 as [s|s|o x IHx|o x y IHx IHy|c t f IHc IHt IHf|l IH|v n IHv|v m l IHv IHm IHl|v p IHv IHp|f l IH|f l IH] using expr_ind'; cbn [element]; auto.
    destruct l as [|x [|? ?]]; auto. inversion IH; auto. }
  assert (ML : forall l, Forall (fun e => meaning I names a count e = meaning I names b count e) l -> map (meaning I names a count) l = map (meaning I names b count) l) by (induction 1; cbn [map]; congruence).
  induction e as [s|s|o x IHx|o x y IHx IHy|c t f IHc IHt IHf|l IH|v n IHv|v m l IHv IHm IHl|v p IHv IHp|f l IH|f l IH] using expr_ind'; cbn [meaning]; rewrite ?EL; repeat match goal with K : Forall _ _ |- _ => apply ML in K end; try congruence. all: first [now rewrite IHc, IHt, IHf|now rewrite IHv|now rewrite IHv, IHp|idtac].
Qed.

Lemma spot_fun s names e n r i n' r' i' : spot s names e n r i -> spot s names e n' r' i' -> n = n' /\ r = r' /\ i = i'.
Proof. intros H1 H2. destruct H1; inversion H2; subst; auto; congruence. Qed.

Fixpoint lval_ind' (P : lval -> Prop) (H1 : forall e, P (LOne e)) (H2 : forall l, Forall P l -> P (LCat l)) (l : lval) : P l :=
  match l with
  | LOne e => H1 e
  | LCat l => H2 l ((fix go (l : list lval) : Forall P l := match l with [] => Forall_nil P | x :: r => Forall_cons x (lval_ind' P H1 H2 x) (go r) end) l)
  end.

Lemma F2_length {A B} (R : A -> B -> Prop) l l' : Forall2 R l l' -> length l = length l'.
Proof. induction 1; cbn [length]; congruence. Qed.

Section Left.
  Variables (k : nat) (opt : df -> res df) (times : expr -> res Z) (is_module : chain -> bool) (nettype : string).
  Variables (I : interp) (num : Z -> dom I) (count : expr -> Z).
  Hypothesis HN : none_strict I.
  Hypothesis HI : by_name I.
  Hypothesis HC : plain_casts I.
  Hypothesis HO : sound I opt.
  Hypothesis HT : forall x c, times x = Ok c -> count x = c.
  Hypothesis HZ : numbers I num.
  Variables (s : store) (scope : chain) (es : list expr) (names : string -> chain).
  Hypothesis Hs : no_any scope.
  Hypothesis Hne : scope <> [].
  Hypothesis Hnames : named is_module s scope names.
  Notation means := (means I count s names).
  Notation declared := (declared is_module nettype s scope es).

  Definition Inv (cur : store) : Prop := declared cur /\ keys_plain (s_terms cur).
  Lemma mk_means cur e t : Inv cur -> no_calls e = true -> mk k times is_module cur scope e = Ok t -> eval I t = means e /\ t <> DNone.
  Proof.
    intros [D _] N E. unfold mk in E.
    assert (F : forall x n, find is_module cur scope x = Ok n -> names x = n).
    { intros x n Hf. unfold find in Hf. destruct (searchTerminal is_module cur scope x) as [n'|] eqn:S; [|discriminate]. injection Hf as <-. exact (search_names _ _ _ _ _ Hs names Hnames _ _ _ D S). }
    destruct (mk_good I (find is_module cur scope) names (is_array cur) times count k F HT HC e t N E) as [E1 E2]. split.
    - rewrite E1. apply meaning_array. intros x. apply (array_same is_module nettype s scope es); [exact D|]. exact (names_plain _ _ _ Hs _ Hnames x).
    - intros ->. discriminate E2.
  Qed.
  Lemma bound_means cur e t : Inv cur -> no_calls e = true -> bound k opt times is_module cur scope e = Ok t -> eval I t = means e /\ t <> DNone.
  Proof.
    intros D N E. unfold bound in E. apply bind_ok in E as (t1 & E1 & E). destruct (mk_means _ _ _ D N E1) as [M1 M2]. destruct (HO _ _ E) as [O1 O2]. split; [congruence|auto].
  Qed.
  Lemma tree_means cur e t : Inv cur -> no_calls e = true -> getTree k times is_module cur scope e = Ok t -> eval I t = means e.
  Proof.
    intros D N E. unfold getTree in E. apply bind_ok in E as (t1 & E1 & E). destruct (mk_means _ _ _ D N E1) as [M1 M2]. apply (reorder_eval I HN) in E. congruence.
  Qed.

  (** A destination of the code is the place the expression denotes. *)
  Definition drel (e : expr) (d : dst) : Prop :=
    let '(n, m, l, p) := d in no_any n /\ exists r i, spot s names e n r i /\ eval I p = index I count s names i /\
      match r with None => m = DNone /\ l = DNone | Some (a, b) => eval I m = means a /\ eval I l = means b /\ m <> DNone end.
  Lemma search_here cur x n : Inv cur -> searchTerminal is_module cur scope x = Some n -> n = names x /\ no_any n.
  Proof. intros [D _] S. pose proof (search_names _ _ _ _ _ Hs names Hnames _ _ _ D S) as <-. split; [reflexivity|exact (names_plain _ _ _ Hs _ Hnames x)]. Qed.
  Lemma array_here cur x : Inv cur -> is_array cur (names x) = array s (names x).
  Proof. intros [D _]. apply (array_same is_module nettype s scope es); [exact D|]. exact (names_plain _ _ _ Hs _ Hnames x). Qed.

  Lemma implicit_inv cur x : Inv cur -> In (XId x) es -> searchTerminal is_module cur scope x = None ->
    Inv (addTerm cur (net scope x) (Term (net scope x) [if String.eqb nettype "reg" then "Reg" else "Wire"]%string (DInt "0") (DInt "0") None)).
  Proof.
    intros [[D1 D2] KP] Hx SN. destruct (search_none is_module nettype s scope es Hs names Hnames cur x (conj D1 D2) SN) as [V En].
    assert (Nx : no_any (net scope x)) by now apply no_any_net.
    assert (KX : dget (s_terms cur) (net scope x) = None).
    { destruct (dget (s_terms cur) (net scope x)) eqn:K; [|reflexivity]. exfalso.
      assert (ConSpec.visible is_module cur scope x (net scope x)) as W. { exists scope, []. rewrite app_nil_r. split; [reflexivity|]. split; [exact Hne|]. split; [reflexivity|]. split; [unfold known; congruence|]. intros d r E. symmetry in E. apply app_eq_nil in E as [-> _]. congruence. }
      apply search_visible in W. congruence. }
    unfold addTerm. rewrite KX. split; [|cbn [s_terms]; now apply dset_plain].
    assert (G : forall n, no_any n -> known (Store (dset (s_terms cur) (net scope x) (Term (net scope x) [if String.eqb nettype "reg" then "Reg" else "Wire"]%string (DInt "0") (DInt "0") None)) (s_binds cur)) n =
      if chain_dec (net scope x) n then Some (Term (net scope x) [if String.eqb nettype "reg" then "Reg" else "Wire"]%string (DInt "0") (DInt "0") None) else known cur n).
    { intros n Hn. unfold known. cbn [s_terms]. now apply dget_dset. }
    split.
    - intros n t Hn Hk. rewrite (G n Hn). destruct (chain_dec (net scope x) n) as [<-|_]; [|exact (D1 _ _ Hn Hk)]. pose proof (D1 _ _ Hn Hk) as C. unfold known in C. congruence.
    - intros n Hn Hk. rewrite (G n Hn). destruct (chain_dec (net scope x) n) as [<-|_]; [|exact (D2 _ Hn Hk)]. right. exists x. auto.
  Qed.

  Lemma ptr_ok : forall v q cur cur' d, Inv cur -> no_calls v = true -> no_calls q = true ->
    getDst k opt times is_module nettype cur scope (XPtr v q) = Ok (cur', d) -> cur' = cur /\ drel (XPtr v q) d.
  Proof.
    induction v as [x|x|o a _|o a b _ _|c t f _ _ _|l _|v n _|v m l _ _ _|v q0 IH _|f l _|f l _] using expr_ind'; intros q cur cur' d HV Nv Nq E; try discriminate E.
    - cbn [getDst] in E. destruct (searchTerminal is_module cur scope x) as [n|] eqn:S; [|discriminate].
      destruct (search_here _ _ _ HV S) as [-> Nn]. apply bind_ok in E as (q' & E1 & E). destruct (bound_means _ _ _ HV Nq E1) as [M1 M2]. rewrite (array_here _ _ HV) in E.
      destruct (array s (names x)) eqn:A; injection E as <- <-; (split; [reflexivity|]); split; auto.
      + exists None, (Some q). split; [now constructor|]. auto.
      + exists (Some (q, q)), None. split; [now constructor|]. auto.
    - change (getDst k opt times is_module nettype cur scope (XPtr (XPtr v q0) q)) with
        (do r <- getDst k opt times is_module nettype cur scope (XPtr v q0); let '(s, (n, a, b, p)) := r in
         if is_none a && is_none b then do m' <- bound k opt times is_module s scope q; Ok (s, (n, m', m', p)) else Err FormatError) in E.
      cbn [no_calls] in Nv. apply andb_true_iff in Nv as [Nv Nq0].
      apply bind_ok in E as ([s2 [[[n2 a2] b2] p2]] & E0 & E). destruct (is_none a2 && is_none b2) eqn:AB; [|discriminate]. apply bind_ok in E as (m2 & E3 & E). injection E as <- <-.
      destruct (IH _ _ _ _ HV Nv Nq0 E0) as [-> (Nn & r & i & SP & EP & R)]. destruct (bound_means _ _ _ HV Nq E3) as [M1 M2]. split; [reflexivity|]. split; [exact Nn|].
      destruct a2; [|discriminate..]. destruct r as [[? ?]|]; [destruct R as (_ & _ & C); congruence|]. inversion SP; subst. exists (Some (q, q)), (Some q0). split; [now constructor|]. auto.
  Qed.
  Lemma getDst_ok : forall e cur cur' d, Inv cur -> (match e with XId _ => In e es | _ => True end) -> no_calls e = true ->
    getDst k opt times is_module nettype cur scope e = Ok (cur', d) -> Inv cur' /\ s_binds cur' = s_binds cur /\ drel e d.
  Proof.
    intros e cur cur' d HV Hes N E. destruct e as [x|x|o a|o a b|c t f|l|v n|v m l|v q|f l|f l]; try discriminate E.
    - cbn [getDst] in E. destruct (searchTerminal is_module cur scope x) as [n|] eqn:S.
      + destruct (search_here _ _ _ HV S) as [-> Nn]. injection E as <- <-. split; [exact HV|]. split; [reflexivity|]. split; [exact Nn|]. exists None, None. split; [constructor|]. auto.
      + destruct (String.eqb nettype "none"); [discriminate|]. cbv zeta in E.
        pose proof (implicit_inv _ _ HV Hes S) as HV'. change (sig scope x) with (net scope x) in E.
        match type of E with (match ?a with _ => _ end) = _ => destruct a as [n|] eqn:S' end; [|discriminate].
        destruct (search_here _ _ _ HV' S') as [-> Nn]. injection E as <- <-. split; [exact HV'|]. split; [unfold addTerm; destruct (dget (s_terms cur) (net scope x)); reflexivity|].
        split; [exact Nn|]. exists None, None. split; [constructor|]. auto.
    - cbn [no_calls] in N. apply andb_true_iff in N as [N N3]. apply andb_true_iff in N as [N1 N2]. destruct v as [x| | | | | | | |v q| | ]; try discriminate E.
      + cbn [getDst] in E. destruct (searchTerminal is_module cur scope x) as [n|] eqn:S; [|discriminate]. destruct (search_here _ _ _ HV S) as [-> Nn].
        apply bind_ok in E as (m' & E1 & E). apply bind_ok in E as (l' & E2 & E). injection E as <- <-. destruct (bound_means _ _ _ HV N2 E1) as [M1 M2]. destruct (bound_means _ _ _ HV N3 E2) as [L1 L2].
        split; [exact HV|]. split; [reflexivity|]. split; [exact Nn|]. exists (Some (m, l)), None. split; [constructor|]. auto.
      + change (getDst k opt times is_module nettype cur scope (XPart (XPtr v q) m l)) with
          (do r <- getDst k opt times is_module nettype cur scope (XPtr v q); let '(s, (n, a, b, p)) := r in
           if is_none a && is_none b then do m' <- bound k opt times is_module s scope m; do l' <- bound k opt times is_module s scope l; Ok (s, (n, m', l', p)) else Err FormatError) in E.
        apply bind_ok in E as ([s1 [[[n a] b] p]] & E0 & E). destruct (is_none a && is_none b) eqn:AB; [|discriminate].
        apply bind_ok in E as (m' & E1 & E). apply bind_ok in E as (l' & E2 & E). injection E as <- <-. cbn [no_calls] in N1. apply andb_true_iff in N1 as [Nv Nq].
        destruct (ptr_ok _ _ _ _ _ HV Nv Nq E0) as [-> (Nn & r & i & SP & EP & R)]. destruct (bound_means _ _ _ HV N2 E1) as [M1 M2]. destruct (bound_means _ _ _ HV N3 E2) as [L1 L2].
        destruct a; [|discriminate..]. destruct r as [[? ?]|]; [destruct R as (_ & _ & C); congruence|].
        inversion SP; subst. split; [exact HV|]. split; [reflexivity|]. split; [exact Nn|]. exists (Some (m, l)), (Some q). split; [now constructor|]. auto.
    - cbn [no_calls] in N. apply andb_true_iff in N as [N1 N2]. destruct (ptr_ok _ _ _ _ _ HV N1 N2 E) as [-> R]. split; [exact HV|]. auto.
  Qed.
  Lemma getDsts_ok : forall l cur cur' ds, Inv cur -> incl (flat l) es -> forallb no_calls (flat l) = true ->
    getDsts k opt times is_module nettype cur scope l = Ok (cur', ds) -> Inv cur' /\ s_binds cur' = s_binds cur /\ Forall2 drel (flat l) ds.
  Proof.
    induction l as [e|l IH] using lval_ind'; intros cur cur' ds HV Hes N E; cbn [flat] in *.
    - cbn [getDsts] in E. apply bind_ok in E as ([s1 d] & E1 & E). injection E as <- <-. cbn [fst snd forallb] in *. rewrite andb_true_r in N.
      destruct (getDst_ok e _ _ _ HV ltac:(destruct e; auto; apply Hes; left; reflexivity) N E1) as (A & B & C). auto.
    - cbn [getDsts] in E. revert cur cur' ds HV Hes N E. induction IH as [|x l Hx _ IHl]; intros cur cur' ds HV Hes N E.
      + injection E as <- <-. split; [exact HV|]. split; [reflexivity|constructor].
      + cbn [flat_map] in *. rewrite forallb_app in N. apply andb_true_iff in N as [N1 N2]. apply incl_app_inv in Hes as [He1 He2].
        apply bind_ok in E as ([s1 d1] & E1 & E). apply bind_ok in E as ([s2 d2] & E2 & E). injection E as <- <-. cbn [fst snd] in *.
        destruct (Hx _ _ _ HV He1 N1 E1) as (A & B & C). destruct (IHl _ _ _ A He2 N2 E2) as (A' & B' & C'). split; [exact A'|]. split; [congruence|]. now apply Forall2_app.
  Qed.

  (** ** the parts of a value *)
  Fixpoint partsO (cur : store) (offset : df) (l : list dst) : res (list dest * df) :=
    match l with
    | [] => Ok ([], offset)
    | (n, m, l', p) :: r =>
        do ml <- (if is_none m && is_none l' then getTermWidth cur n else Ok (m, l'));
        let (m, l') := (ml : df * df) in
        do d <- mkOp [m; l'] Minus; do diff <- reorder k d;
        do a <- mkOp [offset; diff] Plus; do part_msb <- reorder k a;
        do b <- mkOp [part_msb; DInt "1"] Plus; do next <- reorder k b;
        do r' <- partsO cur next r;
        Ok (Dest n m l' p part_msb offset :: fst r', snd r')
    end.
  Lemma parts_partsO cur : forall l off ds, parts k cur off l = Ok ds -> exists o, partsO cur off l = Ok (ds, o).
  Proof.
    induction l as [|[[[n m] l'] p] l IH]; intros off ds E; cbn [parts partsO] in *; [injection E as <-; eauto|].
    apply bind_ok in E as ([m1 l1] & -> & E). cbn [bind]. apply bind_ok in E as (d & -> & E). cbn [bind]. apply bind_ok in E as (diff & -> & E). cbn [bind].
    apply bind_ok in E as (a & -> & E). cbn [bind]. apply bind_ok in E as (pm & -> & E). cbn [bind]. apply bind_ok in E as (b & -> & E). cbn [bind]. apply bind_ok in E as (nx & -> & E). cbn [bind].
    apply bind_ok in E as (r & E1 & E). injection E as <-. destruct (IH _ _ E1) as (o & ->). cbn [bind fst snd]. eauto.
  Qed.
  Lemma partsO_app cur b : forall a off ds o, partsO cur off (a ++ b) = Ok (ds, o) -> exists d1 o1 d2, partsO cur off a = Ok (d1, o1) /\ partsO cur o1 b = Ok (d2, o) /\ ds = d1 ++ d2.
  Proof.
    induction a as [|[[[n m] l'] p] a IH]; intros off ds o E; cbn [app partsO] in *; [exists [], off, ds; auto|].
    apply bind_ok in E as ([m1 l1] & -> & E). cbn [bind]. apply bind_ok in E as (d & -> & E). cbn [bind]. apply bind_ok in E as (diff & -> & E). cbn [bind].
    apply bind_ok in E as (a0 & -> & E). cbn [bind]. apply bind_ok in E as (pm & -> & E). cbn [bind]. apply bind_ok in E as (b0 & -> & E). cbn [bind]. apply bind_ok in E as (nx & -> & E). cbn [bind].
    apply bind_ok in E as ([r o'] & E1 & E). injection E as <- <-. destruct (IH _ _ _ E1) as (d1 & o1 & d2 & -> & E2 & E3). cbn [bind fst snd] in *. subst r. exists (Dest n m1 l1 p pm off :: d1), o1, d2. auto.
  Qed.
  Definition dwrite (v : dom I) (d : dest) : target I * dom I := (dtgt I d, i_part I v (eval I (d_pmsb d)) (eval I (d_plsb d))).
  Lemma parts_split cur v : Inv cur -> forall l ws w, split_among I num count s names v l ws w -> forall dsts, Forall2 drel l dsts ->
    forall off, eval I off = num 0%Z -> forall ds o, partsO cur off (rev dsts) = Ok (ds, o) -> eval I o = num w /\ map (dwrite v) ds = rev ws /\ Forall (fun d => no_any (d_name d)) ds.
  Proof.
    intros HV. destruct HZ as (Z0 & Z1 & ZP & ZM). induction 1 as [|e l hi lo t ws w SA IH SP Hle]; intros dsts F off E0 ds o E.
    - inversion F; subst. cbn [rev partsO] in E. injection E as <- <-. auto.
    - inversion F as [|? d ? dsts' R F']; subst. cbn [rev] in E. apply partsO_app in E as (d1 & o1 & d2 & E1 & E2 & ->). destruct (IH _ F' _ E0 _ _ E1) as (I1 & I2 & I3).
      destruct d as [[[n m] l'] p]. destruct R as (Nn & r & i & SPT & EP & R). cbn [partsO] in E2. apply bind_ok in E2 as ([m1 l1] & EW & E). apply bind_ok in E as (d & M1 & E). apply bind_ok in E as (diff & R1 & E).
      apply bind_ok in E as (a & M2 & E). apply bind_ok in E as (pm & R2 & E). apply bind_ok in E as (b & M3 & E). apply bind_ok in E as (nx & R3 & E). apply bind_ok in E as (r' & E2 & E). injection E2 as <-. cbn [fst snd] in E. injection E as <- <-.
      assert (B : eval I m1 = num hi /\ eval I l1 = num lo /\ t = (n, num hi, num lo, index I count s names i)).
      { destruct SP as [e n0 m0 l0 i0 hi lo SP0 A1 A2|e n0 i0 t hi lo SP0 A1 A2 A3|e n0 i0 SP0 A1]; destruct (spot_fun _ _ _ _ _ _ _ _ _ SPT SP0) as (-> & -> & ->).
        - destruct R as (B1 & B2 & B3). destruct m; [congruence|..]; injection EW as <- <-; (split; [congruence|split; [congruence|reflexivity]]).
        - destruct R as [-> ->]. cbn [is_none andb] in EW. unfold getTermWidth in EW. destruct HV as [[D1 D2] _]. pose proof (D1 _ _ Nn A1) as K. unfold known in K. rewrite K in EW. injection EW as <- <-. auto.
        - destruct R as [-> ->]. cbn [is_none andb] in EW. unfold getTermWidth in EW. destruct HV as [[D1 D2] _]. destruct (D2 _ Nn A1) as [K|(x & _ & _ & _ & K)]; unfold known in K; rewrite K in EW; [discriminate|].
          injection EW as <- <-. cbn [eval]. rewrite Z0. auto. }
      destruct B as (B1 & B2 & ->). apply mkOp_ok in M1 as [-> _]. apply mkOp_ok in M2 as [-> _]. apply mkOp_ok in M3 as [-> _].
      apply (reorder_eval I HN) in R1, R2, R3. cbn [eval map] in R1, R2, R3. rewrite B1, B2, ZM in R1. rewrite I1, R1, ZP in R2. rewrite R2, Z1, ZP in R3.
      split; [rewrite R3; f_equal; lia|]. split.
      + rewrite map_app, I2. cbn [rev map]. f_equal. unfold dwrite, dtgt. cbn [d_name d_msb d_lsb d_ptr d_pmsb d_plsb]. now rewrite B1, B2, EP, R2, I1.
      + apply Forall_app. split; [exact I3|]. constructor; [exact Nn|constructor].
  Qed.

  (** ** the writes *)
  Lemma drel_place e n m l p : drel e (n, m, l, p) -> forall t, place I count s names e t -> t = (n, eval I m, eval I l, eval I p).
  Proof.
    intros (Nn & r & i & SP & EP & R) t T. destruct T as [e n0 i0 T|e n0 m0 l0 i0 T]; destruct (spot_fun _ _ _ _ _ _ _ _ _ SP T) as (-> & -> & ->).
    - destruct R as [-> ->]. now rewrite EP.
    - destruct R as (R1 & R2 & _). now rewrite R1, R2, EP.
  Qed.
  Lemma destinations_ok l cur cur' ds : Inv cur -> incl (flat l) es -> forallb no_calls (flat l) = true -> getDestinations k opt times is_module nettype cur scope l = Ok (cur', ds) ->
    Inv cur' /\ s_binds cur' = s_binds cur /\
    forall raw ws, writes I num count s names (eval I raw) (flat l) ws ->
      Forall (fun d => no_any (d_name d)) ds /\ map (fun d => (dtgt I d, dval I raw (length ds) d)) ds = rev ws.
  Proof.
    intros HV Hes N E. unfold getDestinations in E. apply bind_ok in E as ([s1 dsts] & E1 & E). destruct (getDsts_ok _ _ _ _ HV Hes N E1) as (A & B & F). cbn [fst snd] in E.
    assert (MANY : length dsts <> 1%nat -> (do x <- parts k s1 (DInt "0") (rev dsts); Ok (s1, x)) = Ok (cur', ds) -> Inv cur' /\ s_binds cur' = s_binds cur /\
      forall raw ws, writes I num count s names (eval I raw) (flat l) ws ->
      Forall (fun d => no_any (d_name d)) ds /\ map (fun d => (dtgt I d, dval I raw (length ds) d)) ds = rev ws).
    { intros NL E'. apply bind_ok in E' as (x & E2 & E'). injection E' as <- <-. split; [exact A|]. split; [exact B|]. intros raw ws W. inversion W as [e t P Ee|es' ws' w L SA]; subst.
      - rewrite <- Ee in F. apply F2_length in F. cbn in F. congruence.
      - apply parts_partsO in E2 as (o & E2). destruct (parts_split s1 (eval I raw) A _ _ _ SA _ F (DInt "0") (proj1 HZ) _ _ E2) as (_ & P2 & P3). split; [exact P3|].
        assert (LX : length x = length dsts). { assert (L1 : length x = length ws) by (rewrite <- (map_length (dwrite (eval I raw)) x), P2; apply rev_length). rewrite L1. rewrite <- (F2_length _ _ _ F). clear -SA. induction SA; cbn [length]; congruence. }
        rewrite <- P2. unfold dwrite, dval. rewrite LX. destruct (length dsts) as [|[|n]] eqn:LD; [destruct x; [reflexivity|discriminate]|congruence|reflexivity]. }
    destruct dsts as [|[[[n m] l'] p] [|d dsts]]; [apply MANY; [discriminate|exact E]| |apply MANY; [discriminate|exact E]].
    injection E as <- <-. split; [exact A|]. split; [exact B|]. intros raw ws W. destruct (flat l) as [|e [|? ?]]; inversion F as [|? ? ? ? R F0]; subst; inversion F0; subst. inversion W as [e0 t P Ee'|es' ws' w L SA]; subst; [|cbn in L; congruence].
    split; [constructor; [exact (proj1 R)|constructor]|]. cbn [map rev app length]. rewrite (drel_place _ _ _ _ _ R _ P). reflexivity.
  Qed.
  Lemma places_ok l cur cur' ds : Inv cur -> incl (flat l) es -> forallb no_calls (flat l) = true -> getDestinations k opt times is_module nettype cur scope l = Ok (cur', ds) ->
    Forall (fun e => exists t, place I count s names e t) (flat l).
  Proof.
    intros HV Hes N E. unfold getDestinations in E. apply bind_ok in E as ([s1 dsts] & E1 & _). destruct (getDsts_ok _ _ _ _ HV Hes N E1) as (_ & _ & F). clear -F.
    induction F as [|e [[[n m] l'] p] ? ? (Nn & r & i & SP & _) _ IH]; constructor; auto. destruct r as [[a b]|]; eexists; [eapply place_range|eapply place_whole]; exact SP.
  Qed.
  Lemma dataflow_effect cur ds raw p ty s' ws : holds I p = true -> binds_plain cur -> Forall (fun d => no_any (d_name d)) ds -> map (fun d => (dtgt I d, dval I raw (length ds) d)) ds = rev ws ->
    NoDup (map fst ws) -> addDataflow k cur ds raw p ty = Ok s' -> effect I cur ws s' /\ binds_plain s' /\ s_terms s' = s_terms cur.
  Proof.
    intros H BP NA EW ND E. unfold addDataflow in E.
    assert (MT : map (dtgt I) ds = rev (map fst ws)). { rewrite <- map_rev, <- EW, map_map. reflexivity. }
    destruct (setDataflow_effect I HN HI k raw p (length ds) ty H ds cur s' BP NA) as (A1 & A2 & A3); [rewrite MT; now apply NoDup_rev|exact E|]. split; [|auto].
    rewrite EW in A1. refine (effect_weak I _ _ _ _ A1 _). intros x. symmetry. apply in_rev.
  Qed.
  Lemma inv_terms cur s' : Inv cur -> s_terms s' = s_terms cur -> Inv s'.
  Proof. intros [[D1 D2] K] E. unfold Inv, ConSpec.declared, known in *. rewrite E. auto. Qed.
  Lemma effect_binds cur cur' ws s' : s_binds cur' = s_binds cur -> effect I cur' ws s' -> effect I cur ws s'.
  Proof.
    intros E (A1 & A2 & A3). assert (G : forall t v, stored I cur' t v <-> stored I cur t v) by (intros [[[m x] y] z] v; unfold stored; rewrite E; tauto). split; [exact A1|]. split.
    - intros t v Hn H. rewrite <- G. auto.
    - intros t v Hn H. rewrite <- G. auto.
  Qed.
End Left.
