(** AccProofs5.v - legal parameter declarations, parameters of instances and gates are accepted. *)
From Verif Require Import Base ScopeModel ScopeSpec ScopeProofs DfModel DfSpec DfProofs ReorderModel ReorderSpec ReorderProofs BindModel BindSpec BindProofs AsgModel AsgProofs ExprModel MkModel MkSpec MkProps LitModel ConModel ConSpec ConProofs ConProofs2 ConProofs3 ConProps PbModel PbSpec PbProofs AccSpec AccProofs AccProofs2 AccProofs3 AccProofs4.
Local Open Scope list_scope.

Section Pb.
  Variables (times : expr -> res Z) (im : chain -> bool).
  Notation legal := (legal times im).
  Lemma element_array f g names : (forall x, f (names x) = g (names x)) -> forall e, element names f e = element names g e.
  Proof.
    intros H. induction e as [x|x|o a IHa|o a b IHa IHb|c t0 f0 IHc IHt IHf|l IH|v n0 IHv|v m l IHv IHm IHl|v p IHv IHp|f0 l IH|f0 l IH] using expr_ind'; cbn [element]; auto.
    destruct l as [|a [|? ?]]; auto. now inversion IH.
  Qed.
  Lemma legal_similar a b scope names e : no_any scope -> named im a scope names -> similar a b -> legal a scope names e -> legal b scope names e.
  Proof.
    intros Hs N S (H1 & H2 & H3 & H4). split; [exact H1|]. split; [exact H2|]. split.
    - rewrite <- H3. apply steady_ext. intros e0. apply element_array. intros x. symmetry. apply S. exact (names_plain im a scope Hs names N x).
    - refine (over_weak _ _ _ _ e H4). intros x [n V]. exists n. exact (visible_similar _ _ _ _ _ _ Hs S V).
  Qed.
  Definition good (a : store) : Prop := plain_store a /\ tidy a.
  Lemma tree_here a scope names e : no_any scope -> named im a scope names -> plain_store a -> legal a scope names e ->
    exists t, arrives (fun k => mk k times im a scope e) t /\ fit t.
  Proof. intros Hs N P L. exact (tree_total times im "none"%string a scope names Hs N [] a e (here_inv im "none"%string a scope [] P) L). Qed.
  Lemma getTree_here a scope names e : no_any scope -> named im a scope names -> plain_store a -> legal a scope names e ->
    exists t, arrives (fun k => getTree k times im a scope e) t /\ sorts t.
  Proof. intros Hs N P L. exact (getTree_total times im "none"%string a scope names Hs N [] a e (here_inv im "none"%string a scope [] P) L). Qed.
  Lemma bind_name_total a ls p x rs names e ty : no_any ls -> ls <> [] -> no_any rs -> good a -> named im a rs names -> tidy_path p -> legal a rs names e -> known a (net ls x) <> None ->
    exists a', arrives (fun k => bind_name k times im a ls p x rs e ty) a' /\ good a' /\ similar a a'.
  Proof.
    intros Hl Nl Hr [P T] N TP L K. destruct (getTree_here a rs names e Hr N P L) as (t & At & St).
    destruct (setDataflow_total [Dest (net ls x) DNone DNone DNone DNone DNone] a t p 1 ty T (proj2 P) TP St) as (a' & A & T' & E & K').
    { constructor; [|constructor]. split; [now apply no_any_net|]. split; [left; reflexivity|]. split; [left; reflexivity|]. split; [left; reflexivity|]. discriminate. }
    exists a'. split; [|split; [split; [split; [rewrite E; exact (proj1 P)|exact K']|exact T']|now apply similar_terms]].
    refine (arrives_ext (fun k => do t <- getTree k times im a rs e; addDataflow k a [Dest (net ls x) DNone DNone DNone DNone DNone] t p ty) _ _ _ (arrives_bind _ _ _ _ At A)).
    intros k. unfold bind_name. rewrite (search_self im a ls x Nl K). reflexivity.
  Qed.
  Section Here.
    Variables (scope : chain) (names : string -> chain) (p : path).
    Hypothesis Hs : no_any scope.
    Hypothesis Hne : scope <> [].
    Hypothesis Hp : tidy_path p.
    Notation legal_decl a := (legal_decl times im a scope names).
    Lemma legal_decl_similar a b d : named im a scope names -> similar a b -> legal_decl a d -> legal_decl b d.
    Proof.
      intros N S (K & V & W). split; [|split].
      - intros C. apply K. apply (S (net scope (p_name d)) (no_any_net _ _ Hs)). exact C.
      - exact (legal_similar a b scope names _ Hs N S V).
      - destruct (p_width d) as [[m l]|]; [|exact I]. destruct W as [W1 W2]. split; [exact (legal_similar a b scope names _ Hs N S W1)|exact (legal_similar a b scope names _ Hs N S W2)].
    Qed.
    Lemma add_decl_total a d : good a -> named im a scope names -> legal_decl a d -> exists a', arrives (fun k => add_decl k times im a scope d) a' /\ good a' /\ similar a a'.
    Proof.
      intros [P T] N (K & _ & W).
      assert (forall m l, exists a', a' = addTerm a (net scope (p_name d)) (Term (net scope (p_name d)) [class_name (p_kind d)] m l None) /\ good a' /\ similar a a') as G.
      { intros m l. eexists. split; [reflexivity|]. destruct (add_similar a (net scope (p_name d)) (Term (net scope (p_name d)) [class_name (p_kind d)] m l None) P (no_any_net _ _ Hs) K eq_refl) as (S & P' & B & _).
        split; [|exact S]. split; [exact P'|]. unfold tidy. now rewrite B. }
      unfold add_decl. destruct (p_width d) as [[m l]|].
      - destruct W as [W1 W2]. destruct (tree_here a scope names m Hs N P W1) as (m' & Am & _), (tree_here a scope names l Hs N P W2) as (l' & Al & _). destruct (G m' l') as (a' & -> & R).
        eexists. split; [|exact R]. refine (arrives_bind _ _ _ _ Am _). refine (arrives_bind _ _ _ _ Al _). apply arrives_const.
      - destruct (G (DInt (match p_kind d with KSupply => "0"%string | _ => "31"%string end)) (DInt "0"%string)) as (a' & -> & R). eexists. split; [|exact R]. apply arrives_const.
    Qed.
    Lemma declare_total a d : good a -> named im a scope names -> legal_decl a d -> exists a', arrives (fun k => declare_p k times im a scope p d) a' /\ good a' /\ similar a a'.
    Proof.
      intros G N L. destruct (add_decl_total a d G N L) as (a1 & A1 & G1 & S1). pose proof (legal_decl_similar a a1 d N S1 L) as (K1 & V1 & _). pose proof (named_similar _ _ _ _ _ Hs S1 N) as N1.
      destruct (bind_name_total a1 scope p (p_name d) scope names (p_value d) (bind_type (p_kind d)) Hs Hne Hs G1 N1 Hp V1 K1) as (a2 & A2 & G2 & S2).
      assert (W : exists a', arrives (fun k => let add := bind_name k times im a1 scope p (p_name d) scope (p_value d) (bind_type (p_kind d)) in
         match p_kind d with
         | KParam => match getBindlist (s_binds a1) (sig scope (p_name d)) with [] => add | _ :: _ => Ok a1 end
         | _ => add
         end) a' /\ good a' /\ similar a1 a').
      { cbv zeta. destruct (p_kind d); [|exists a2; auto|exists a2; auto]. destruct (getBindlist (s_binds a1) (sig scope (p_name d))); [exists a2; auto|]. exists a1. split; [apply arrives_const|]. split; [exact G1|apply similar_refl]. }
      destruct W as (a' & A & G' & S'). exists a'. split; [exact (arrives_bind _ _ _ _ A1 A)|]. split; [exact G'|exact (similar_trans _ _ _ S1 S')].
    Qed.
    Lemma declare_all_total : forall ds a, good a -> named im a scope names -> Forall (legal_decl a) ds -> exists a', arrives (fun k => declare_all k times im a scope p ds) a' /\ good a' /\ similar a a'.
    Proof.
      induction ds as [|d ds IH]; intros a G N L; cbn [declare_all]; [exists a; split; [apply arrives_const|]; split; [exact G|apply similar_refl]|]. inversion L as [|? ? L1 L2]; subst.
      destruct (declare_total a d G N L1) as (a1 & A1 & G1 & S1). destruct (IH a1 G1 (named_similar _ _ _ _ _ Hs S1 N)) as (a2 & A2 & G2 & S2).
      { refine (Forall_impl _ _ L2). intros d0. exact (legal_decl_similar a a1 d0 N S1). }
      exists a2. split; [exact (arrives_bind _ _ _ _ A1 A2)|]. split; [exact G2|exact (similar_trans _ _ _ S1 S2)].
    Qed.
  End Here.
  Lemma give_total inst parent names all : no_any inst -> inst <> [] -> no_any parent ->
    forall args ns a, good a -> named im a parent names -> (forall x, In x all -> known a (net inst x) <> None) -> length args <= length ns -> incl ns all ->
    (forall x, In x args -> match fst x with Some y => In y all | None => True end /\ legal a parent names (snd x)) ->
    exists a', arrives (fun k => give k times im a inst parent all ns args) a' /\ good a' /\ similar a a'.
  Proof.
    intros Hi Ni Hp. induction args as [|[x e] args IH]; intros ns a G N K Hl Hns L; cbn [give length] in *; [exists a; split; [apply arrives_const|]; split; [exact G|apply similar_refl]|].
    destruct ns as [|n ns]; cbn [length] in Hl; [lia|]. destruct (L _ (or_introl eq_refl)) as [L1 L2]. cbn [fst snd] in *.
    assert (Hx : In (match x with Some x => x | None => n end) all). { destruct x; [exact L1|]. apply Hns. left. reflexivity. }
    destruct (bind_name_total a inst [] (match x with Some x => x | None => n end) parent names e "parameter" Hi Ni Hp G N (Forall_nil _) L2 (K _ Hx)) as (a1 & A1 & G1 & S1).
    destruct (IH ns a1 G1 (named_similar _ _ _ _ _ Hp S1 N)) as (a2 & A2 & G2 & S2).
    - intros y Hy C. apply (K y Hy). apply (S1 (net inst y) (no_any_net _ _ Hi)). exact C.
    - lia.
    - intros y Hy. apply Hns. right. exact Hy.
    - intros y Hy. destruct (L y (or_intror Hy)) as [M1 M2]. split; [exact M1|exact (legal_similar a a1 parent names _ Hp N S1 M2)].
    - exists a2. split; [|split; [exact G2|exact (similar_trans _ _ _ S1 S2)]]. cbv zeta. replace (existsb (String.eqb match x with Some x => x | None => n end) all) with true; [exact (arrives_bind _ _ _ _ A1 A2)|].
      symmetry. apply existsb_exists. eexists. split; [exact Hx|apply String.eqb_refl].
  Qed.
End Pb.

(** ** Gates *)
Section Gate.
  Variables (opt : df -> res df) (times : expr -> res Z) (is_module : chain -> bool) (nettype : string) (s : store) (scope : chain) (names : string -> chain).
  Notation legal := (legal times is_module s scope names).
  Lemma legal_un o e : legal e -> legal (XUn o e).
  Proof. intros H. exact H. Qed.
  Lemma legal_concat l : Forall legal l -> legal (XConcat l).
  Proof.
    intros H. repeat split; cbn [no_calls simple_conds steady over].
    - apply forallb_forall. intros x Hx. rewrite Forall_forall in H. apply (H x Hx).
    - apply forallb_forall. intros x Hx. rewrite Forall_forall in H. apply (H x Hx).
    - apply forallb_forall. intros x Hx. rewrite Forall_forall in H. apply (H x Hx).
    - induction H as [|x l (_ & _ & _ & H) _ IH]; cbn [fold_right]; auto.
  Qed.
End Gate.
