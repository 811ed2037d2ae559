(** PbProofs.v - lemmas about PbModel. *)
From Verif Require Import Base ScopeModel ScopeSpec ScopeProofs DfModel DfSpec DfProofs ReorderModel ReorderSpec ReorderProofs BindModel BindSpec BindProofs AsgModel AsgProofs ExprModel MkModel MkSpec MkProps LitModel ConModel ConSpec ConProofs ConProofs2 ConProofs3 ConProps PbModel PbSpec.
Local Open Scope list_scope.

Lemma Ok_inj {A} (x y : A) : Ok x = Ok y -> x = y.
Proof. intros H. now injection H. Qed.
(** The same names are declared, the same ones are arrays. *)
Definition similar (a b : store) : Prop := forall n, no_any n -> (known a n = None <-> known b n = None) /\ array a n = array b n.
Lemma similar_refl a : similar a a.
Proof. intros n _. split; [tauto|reflexivity]. Qed.
Lemma similar_trans a b c : similar a b -> similar b c -> similar a c.
Proof. intros H1 H2 n Hn. destruct (H1 n Hn) as [A1 A2], (H2 n Hn) as [B1 B2]. split; [tauto|congruence]. Qed.
Lemma similar_terms a b : s_terms b = s_terms a -> similar a b.
Proof. intros E n _. unfold array, known. rewrite E. split; [tauto|reflexivity]. Qed.
Lemma visible_similar im a b scope x n : no_any scope -> similar a b -> visible im a scope x n -> visible im b scope x n.
Proof.
  intros Hs S (up & down & E & N & -> & K & F). subst scope. pose proof (no_any_app _ _ Hs) as Hu.
  exists up, down. split; [reflexivity|]. split; [exact N|]. split; [reflexivity|]. split.
  - intros C. apply K. apply (proj1 (S _ (no_any_net _ _ Hu))). exact C.
  - intros d r E Nd. destruct (F d r E Nd) as [F1 F2]. split; [|exact F2]. apply (S (net (up ++ d) x)); [|exact F1].
    apply no_any_net. subst down. rewrite app_assoc in Hs. exact (no_any_app _ _ Hs).
Qed.
Lemma similar_sym a b : similar a b -> similar b a.
Proof. intros S n Hn. destruct (S n Hn) as [A B]. split; [tauto|congruence]. Qed.
Lemma named_similar im a b scope names : no_any scope -> similar a b -> named im a scope names -> named im b scope names.
Proof.
  intros Hs S H x. destruct (H x) as [V|[V E]]; [left; exact (visible_similar _ _ _ _ _ _ Hs S V)|].
  right. split; [|exact E]. intros n C. exact (V n (visible_similar _ _ _ _ _ _ Hs (similar_sym _ _ S) C)).
Qed.
Lemma means_similar I count im a b scope names e : no_any scope -> named im a scope names -> similar a b -> means I count b names e = means I count a names e.
Proof. intros Hs Hn S. apply meaning_array. intros x. symmetry. apply S. exact (names_plain im a scope Hs names Hn x). Qed.
Lemma array_is s n : array s n = is_array s n.
Proof. unfold array, is_array, known. destruct (dget (s_terms s) n) as [[? ? ? ? []]|]; reflexivity. Qed.

Lemma add_similar s n t : plain_store s -> no_any n -> known s n <> None -> t_dims t = None ->
  similar s (addTerm s n t) /\ plain_store (addTerm s n t) /\ s_binds (addTerm s n t) = s_binds s /\
  exists o, known s n = Some o /\ forall m, no_any m -> known (addTerm s n t) m = if chain_dec n m then Some (merge_term o t) else known s m.
Proof.
  intros [P1 P2] Hn K D. unfold addTerm. unfold known in K |- * at 3. destruct (dget (s_terms s) n) as [o|] eqn:E; [|congruence].
  assert (G : forall m, no_any m -> known (Store (dset (s_terms s) n (merge_term o t)) (s_binds s)) m = if chain_dec n m then Some (merge_term o t) else known s m).
  { intros m Hm. unfold known. cbn [s_terms]. now apply dget_dset. }
  split; [|split; [split; [now apply dset_plain|exact P2]|split; [reflexivity|exists o; split; [exact E|exact G]]]].
  intros m Hm. unfold array. rewrite (G m Hm). destruct (chain_dec n m) as [<-|N].
  - unfold known. rewrite E. split; [split; discriminate|]. destruct o as [? ? ? ? dm], t as [? ? ? ? dt]. cbn in *. subst dt. now destruct dm.
  - split; [tauto|reflexivity].
Qed.

Lemma bare_stored I s n : getBindlist (s_binds s) n = [] <-> forall a b c v, ~ stored I s (n, a, b, c) v.
Proof.
  split.
  - intros E a b c v (x & H & _). now rewrite E in H.
  - intros H. destruct (getBindlist (s_binds s) n) as [|x l] eqn:E; [reflexivity|]. exfalso. eapply H. exists x. rewrite E. split; [left; reflexivity|]. split; [reflexivity|]. split; [reflexivity|]. split; reflexivity.
Qed.
Lemma effect_bare I s ws s' n : effect I s ws s' -> no_any n -> ~ In n (map (fun w => fst (fst (fst (fst w)))) ws) ->
  (getBindlist (s_binds s') n = [] <-> getBindlist (s_binds s) n = []).
Proof.
  intros (_ & E & _) Hn N. rewrite (bare_stored I s), (bare_stored I s').
  assert (G : forall a b c v, stored I s' (n, a, b, c) v <-> stored I s (n, a, b, c) v).
  { intros a b c v. apply E; [exact Hn|]. intros C. apply N. apply in_map_iff in C as ([t' v'] & Ew & Hw). cbn [fst] in Ew. subst t'. apply in_map_iff. exists (n, a, b, c, v'). split; [reflexivity|exact Hw]. }
  split; intros H a b c v C; apply (H a b c v); now apply G.
Qed.

Section Pb.
  Variables (k : nat) (times : expr -> res Z) (im : chain -> bool) (I : interp) (count : expr -> Z).
  Hypothesis F : fits I count times.
  Let HN : none_strict I := proj1 F.
  Let HI : by_name I := proj1 (proj2 F).
  Let HC : plain_casts I := proj1 (proj2 (proj2 F)).
  Let HT := proj2 (proj2 (proj2 F)).
  Notation means := (means I count).
  Notation whole := (whole I).

  Lemma tree_ok s scope names e t : no_any scope -> plain_store s -> named im s scope names -> no_calls e = true ->
    getTree k times im s scope e = Ok t -> eval I t = means s names e.
  Proof.
    intros Hs P N C E. exact (tree_means k times im "wire" I count HN HC HT s scope [] names Hs N s e t (conj (declared_here im "wire" s scope []) (proj1 P)) C E).
  Qed.
  Lemma make_ok s scope names e t : no_any scope -> plain_store s -> named im s scope names -> no_calls e = true ->
    mk k times im s scope e = Ok t -> eval I t = means s names e /\ t <> DNone.
  Proof.
    intros Hs P N C E. exact (mk_means k times im "wire" I count HC HT s scope [] names Hs N s e t (conj (declared_here im "wire" s scope []) (proj1 P)) C E).
  Qed.
  Lemma search_self s scope x : scope <> [] -> known s (net scope x) <> None -> searchTerminal im s scope x = Some (net scope x).
  Proof.
    intros Hne K. apply search_visible. exists scope, []. rewrite app_nil_r. split; [reflexivity|]. split; [exact Hne|]. split; [reflexivity|]. split; [exact K|].
    intros d r E. symmetry in E. apply app_eq_nil in E as [-> _]. congruence.
  Qed.
  Lemma bind_ok_ s ls p x rs names e ty s' : no_any ls -> ls <> [] -> no_any rs -> plain_store s -> named im s rs names -> taken I p -> no_calls e = true ->
    known s (net ls x) <> None -> bind_name k times im s ls p x rs e ty = Ok s' ->
    effect I s [(whole (net ls x), means s names e)] s' /\ plain_store s' /\ s_terms s' = s_terms s.
  Proof.
    intros Hl Hne Hr P N T C K E. unfold bind_name in E. rewrite (search_self _ _ _ Hne K) in E. apply bind_ok in E as (t & E1 & E).
    pose proof (tree_ok _ _ _ _ _ Hr P N C E1) as M. pose proof (no_any_net ls x Hl) as Hn.
    destruct (dataflow_effect k I HN HI s [Dest (net ls x) DNone DNone DNone DNone DNone] t p ty s' [(whole (net ls x), means s names e)] (taken_holds _ _ T) (proj2 P)) as (A & B & D).
    - constructor; [exact Hn|constructor].
    - cbn [map rev app]. unfold dtgt, dval. cbn. now rewrite M.
    - constructor; [intros []|constructor].
    - exact E.
    - split; [exact A|]. split; [split; [rewrite D; exact (proj1 P)|exact B]|exact D].
  Qed.

  (** ** Declarations *)
  Section Scope.
    Variables (scope : chain) (p : path) (names : string -> chain).
    Hypothesis Hs : no_any scope.
    Hypothesis Hne : scope <> [].
    Hypothesis HP : taken I p.
    Notation tgt d := (whole (net scope (p_name d))).
    (** The term of a declaration, from the one there was. *)
    Definition grown (s : store) (d : pdecl) (o t : term) : Prop :=
      t_name t = t_name o /\ (forall x, In x (t_type t) <-> In x (t_type o) \/ x = class_name (p_kind d)) /\ t_dims t = t_dims o /\
      exists m l, range_of I (means s names) d (eval I m) (eval I l) /\
        t_msb t = (if is_none (t_msb o) then m else t_msb o) /\ t_lsb t = (if is_none (t_lsb o) then l else t_lsb o).
    Lemma union_in a b x : In x (type_union a b) <-> In x a \/ In x b.
    Proof.
      unfold type_union. revert a. induction b as [|y b IH]; intros a; cbn [fold_left]; [cbn; tauto|]. rewrite IH. cbn [In].
      destruct (existsb (String.eqb y) a) eqn:E; [|rewrite in_app_iff; cbn; tauto].
      apply existsb_exists in E as (z & Hz & E). apply String.eqb_eq in E as <-. split; [tauto|]. intros [H|[<-|H]]; auto.
    Qed.

    Lemma add_ok s d s' : plain_store s -> named im s scope names -> known s (net scope (p_name d)) <> None ->
      match p_width d with Some (m, l) => no_calls m = true /\ no_calls l = true | None => True end ->
      add_decl k times im s scope d = Ok s' ->
      similar s s' /\ plain_store s' /\ s_binds s' = s_binds s /\
      exists o t, known s (net scope (p_name d)) = Some o /\ grown s d o t /\ forall m, no_any m -> known s' m = if chain_dec (net scope (p_name d)) m then Some t else known s m.
    Proof.
      intros P N K C E. unfold add_decl in E. apply bind_ok in E as (m & E1 & E). apply bind_ok in E as (l & E2 & E). apply Ok_inj in E. subst s'.
      change (sig scope (p_name d)) with (net scope (p_name d)).
      destruct (add_similar s (net scope (p_name d)) (Term (net scope (p_name d)) [class_name (p_kind d)] m l None) P (no_any_net _ _ Hs) K eq_refl) as (A1 & A2 & A3 & o & A4 & A5).
      split; [exact A1|]. split; [exact A2|]. split; [exact A3|]. exists o, (merge_term o (Term (net scope (p_name d)) [class_name (p_kind d)] m l None)). split; [exact A4|]. split; [|exact A5].
      split; [reflexivity|]. split; [intros x; cbn [t_type merge_term]; rewrite union_in; cbn; intuition congruence|]. split; [cbn; now destruct (t_dims o)|].
      exists m, l. split; [|split; reflexivity]. unfold range_of. destruct (p_width d) as [[a b]|].
      - destruct C as [C1 C2]. exact (conj (proj1 (make_ok _ _ _ _ _ Hs P N C1 E1)) (proj1 (make_ok _ _ _ _ _ Hs P N C2 E2))).
      - apply Ok_inj in E1, E2. subst. split; reflexivity.
    Qed.
    (** What one declaration writes; [held] are the parameters that have a value. *)
    Definition writes_of (s : store) (held : string -> bool) (d : pdecl) : list (target I * dom I) :=
      match p_kind d with
      | KParam => if held (p_name d) then [] else [(tgt d, means s names (p_value d))]
      | _ => [(tgt d, means s names (p_value d))]
      end.
    Lemma declare_ok s held d s' : plain_store s -> named im s scope names -> known s (net scope (p_name d)) <> None ->
      no_calls (p_value d) = true -> match p_width d with Some (m, l) => no_calls m = true /\ no_calls l = true | None => True end ->
      (p_kind d = KParam -> (held (p_name d) = false <-> getBindlist (s_binds s) (net scope (p_name d)) = [])) ->
      declare_p k times im s scope p d = Ok s' ->
      similar s s' /\ plain_store s' /\ effect I s (writes_of s held d) s' /\
      exists o t, known s (net scope (p_name d)) = Some o /\ grown s d o t /\ forall m, no_any m -> known s' m = if chain_dec (net scope (p_name d)) m then Some t else known s m.
    Proof.
      intros P N K C1 C2 Hh E. unfold declare_p in E. apply bind_ok in E as (s1 & E1 & E).
      destruct (add_ok _ _ _ P N K C2 E1) as (A1 & A2 & A3 & o & t & A4 & A5 & A6).
      assert (N1 : named im s1 scope names) by exact (named_similar _ _ _ _ _ Hs A1 N).
      assert (K1 : known s1 (net scope (p_name d)) <> None) by (intros C; apply K; now apply (A1 _ (no_any_net _ _ Hs))).
      assert (DO : bind_name k times im s1 scope p (p_name d) scope (p_value d) (bind_type (p_kind d)) = Ok s' ->
        similar s s' /\ plain_store s' /\ effect I s [(tgt d, means s names (p_value d))] s' /\
        exists o t, known s (net scope (p_name d)) = Some o /\ grown s d o t /\ forall m, no_any m -> known s' m = if chain_dec (net scope (p_name d)) m then Some t else known s m).
      { intros E2. destruct (bind_ok_ _ _ _ _ _ _ _ _ _ Hs Hne Hs A2 N1 HP C1 K1 E2) as (B1 & B2 & B3). split; [exact (similar_trans _ _ _ A1 (similar_terms _ _ B3))|]. split; [exact B2|].
        split; [rewrite <- (means_similar I count im s s1 scope names _ Hs N A1); exact (effect_binds I _ _ _ _ A3 B1)|].
        exists o, t. split; [exact A4|]. split; [exact A5|]. intros m Hm. rewrite <- (A6 m Hm). unfold known. now rewrite B3. }
      unfold writes_of. destruct (p_kind d) eqn:Kd; [|exact (DO E)|exact (DO E)].
      change (sig scope (p_name d)) with (net scope (p_name d)) in E. destruct (held (p_name d)) eqn:Hd.
      - destruct (getBindlist (s_binds s1) (net scope (p_name d))) as [|b bs] eqn:Eb; [rewrite A3 in Eb; apply Hh in Eb; [discriminate|reflexivity]|].
        apply Ok_inj in E. subst s'. split; [exact A1|]. split; [exact A2|]. split; [now apply effect_nil|]. exists o, t. auto.
      - rewrite A3, (proj1 (Hh eq_refl) eq_refl) in E. exact (DO E).
    Qed.
    Definition all_writes (s : store) (held : string -> bool) (ds : list pdecl) : list (target I * dom I) := flat_map (writes_of s held) ds.
    Lemma writes_key s held d w : In w (writes_of s held d) -> w = (tgt d, means s names (p_value d)).
    Proof. unfold writes_of. destruct (p_kind d); [destruct (held (p_name d)); [intros []|]|..]; intros [<-|[]]; reflexivity. Qed.
    Lemma all_writes_similar s s1 held ds : named im s scope names -> similar s s1 -> all_writes s1 held ds = all_writes s held ds.
    Proof.
      intros N S. unfold all_writes, writes_of. induction ds as [|d ds IH]; [reflexivity|]. cbn [flat_map]. now rewrite IH, (means_similar I count im s s1 scope names _ Hs N S).
    Qed.
    Lemma declare_all_ok held : forall ds s s', plain_store s -> named im s scope names -> NoDup (map p_name ds) -> no_calls_in ds ->
      (forall d, In d ds -> known s (net scope (p_name d)) <> None /\ (p_kind d = KParam -> (held (p_name d) = false <-> getBindlist (s_binds s) (net scope (p_name d)) = []))) ->
      declare_all k times im s scope p ds = Ok s' ->
      similar s s' /\ plain_store s' /\ effect I s (all_writes s held ds) s' /\
      (forall d, In d ds -> exists o t, known s (net scope (p_name d)) = Some o /\ grown s d o t /\ known s' (net scope (p_name d)) = Some t) /\
      (forall m, no_any m -> ~ In m (map (fun d => net scope (p_name d)) ds) -> known s' m = known s m).
    Proof.
      induction ds as [|d ds IH]; intros s s' P N ND C H E; cbn [declare_all] in E.
      - apply Ok_inj in E. subst s'. split; [apply similar_refl|]. split; [exact P|]. split; [now apply effect_nil|]. split; [intros ? []|reflexivity].
      - apply bind_ok in E as (s1 & E1 & E). cbn [map] in ND. inversion ND as [|? ? D1 D2]; subst. destruct (H d (or_introl eq_refl)) as [K Hh]. destruct (C d (or_introl eq_refl)) as [C1 C2].
        destruct (declare_ok _ _ _ _ P N K C1 C2 Hh E1) as (A1 & A2 & A3 & o & t & A4 & A5 & A6).
        pose proof (named_similar _ _ _ _ _ Hs A1 N) as N1.
        assert (DN : forall d', In d' ds -> net scope (p_name d) <> net scope (p_name d')).
        { intros d' Hd C'. apply net_inj in C' as [_ C']. apply D1. rewrite C'. now apply in_map. }
        destruct (IH s1 s' A2 N1 D2 (fun d' Hd => C d' (or_intror Hd))) as (B1 & B2 & B3 & B4 & B5); [|exact E|].
        + intros d' Hd. destruct (H d' (or_intror Hd)) as [K' Hh']. split; [intros C'; apply K'; now apply (A1 _ (no_any_net _ _ Hs))|].
          intros Kd. rewrite (Hh' Kd). symmetry. apply (effect_bare I s (writes_of s held d) s1 _ A3 (no_any_net _ _ Hs)).
          intros C'. apply in_map_iff in C' as (w & Ew & Hw). apply writes_key in Hw as ->. exact (DN d' Hd Ew).
        + split; [exact (similar_trans _ _ _ A1 B1)|]. split; [exact B2|]. split; [|split].
          * unfold all_writes. cbn [flat_map]. fold (all_writes s held ds). rewrite <- (all_writes_similar s s1 held ds N A1).
            refine (effect_app I _ _ _ _ _ A3 B3 _ _).
            -- apply Forall_forall. intros w Hw. apply writes_key in Hw as ->. exact (no_any_net _ _ Hs).
            -- intros t' Ht Ht'. apply in_map_iff in Ht as (w & <- & Hw). apply writes_key in Hw as ->. apply in_map_iff in Ht' as (w' & Ew & Hw). apply in_flat_map in Hw as (d' & Hd & Hw). apply writes_key in Hw as ->.
               cbn [fst] in Ew. injection Ew as Ew. exact (DN d' Hd (eq_sym Ew)).
          * intros d' [<-|Hd].
            -- exists o, t. split; [exact A4|]. split; [exact A5|]. rewrite B5; [|exact (no_any_net _ _ Hs)|].
               ++ rewrite A6 by exact (no_any_net _ _ Hs). destruct (chain_dec (net scope (p_name d)) (net scope (p_name d))) as [_|n]; [reflexivity|congruence].
               ++ intros C'. apply in_map_iff in C' as (d' & Ed & Hd). exact (DN d' Hd (eq_sym Ed)).
            -- destruct (B4 d' Hd) as (o' & t' & G1 & G2 & G3). exists o', t'. split; [|split; [|exact G3]].
               ++ rewrite A6 in G1 by exact (no_any_net _ _ Hs). destruct (chain_dec (net scope (p_name d)) (net scope (p_name d'))) as [e|_]; [destruct (DN d' Hd e)|exact G1].
               ++ destruct G2 as (G4 & G5 & G6 & m & l & G7 & G8). split; [exact G4|]. split; [exact G5|]. split; [exact G6|]. exists m, l. split; [|exact G8].
                  unfold range_of in *. destruct (p_width d') as [[a b]|]; [|exact G7]. rewrite !(means_similar I count im s s1 scope names _ Hs N A1) in G7. exact G7.
          * intros m Hm Hn. cbn [map In] in Hn. rewrite B5; [|exact Hm|tauto]. rewrite A6 by exact Hm. destruct (chain_dec (net scope (p_name d)) m) as [e|_]; [tauto|reflexivity].
    Qed.
  End Scope.

  (** ** Given parameters *)
  Section Give.
    Variables (inst parent : chain) (names : string -> chain) (all : list string).
    Hypothesis Hi : no_any inst.
    Hypothesis Hne : inst <> [].
    Hypothesis Hp : no_any parent.
    Definition gwrites (s : store) (gs : list (string * expr)) : list (target I * dom I) := map (fun g => (whole (net inst (fst g)), means s names (snd g))) gs.
    Lemma give_ok : forall args ns s s', plain_store s -> named im s parent names -> (forall x, In x all -> known s (net inst x) <> None) ->
      (forall a, In a args -> no_calls (snd a) = true) -> NoDup (map fst (given ns args)) ->
      give k times im s inst parent all ns args = Ok s' ->
      s_terms s' = s_terms s /\ plain_store s' /\ effect I s (gwrites s (given ns args)) s' /\ incl (map fst (given ns args)) all.
    Proof.
      induction args as [|[x e] args IH]; intros ns s s' P N K C ND E; cbn [give] in E.
      - apply Ok_inj in E. subst s'. split; [reflexivity|]. split; [exact P|]. split; [now apply effect_nil|intros ? []].
      - destruct ns as [|n ns]; [discriminate|]. set (y := match x with Some x => x | None => n end) in *.
        assert (G : given (n :: ns) ((x, e) :: args) = (y, e) :: given ns args) by (destruct x; reflexivity). rewrite G in *. cbn [map fst] in ND. inversion ND as [|? ? D1 D2]; subst.
        destruct (existsb (String.eqb y) all) eqn:Ey; [|apply bind_ok in E as (? & _ & E); discriminate].
        apply existsb_exists in Ey as (y' & Hy & Ey). apply String.eqb_eq in Ey. subst y'. apply bind_ok in E as (s1 & E1 & E).
        destruct (bind_ok_ _ _ _ _ _ _ _ _ _ Hi Hne Hp P N (Forall_nil _) (C _ (or_introl eq_refl)) (K y Hy) E1) as (A1 & A2 & A3).
        pose proof (similar_terms _ _ A3) as S. pose proof (named_similar _ _ _ _ _ Hp S N) as N1.
        destruct (IH ns s1 s' A2 N1) as (B1 & B2 & B3 & B4); [| |exact D2|exact E|].
        + intros z Hz C'. apply (K z Hz). unfold known in *. now rewrite A3 in C'.
        + intros a Ha. exact (C a (or_intror Ha)).
        + split; [congruence|]. split; [exact B2|]. split.
          * cbn [gwrites map fst snd]. assert (EW : gwrites s1 (given ns args) = gwrites s (given ns args)).
            { apply map_ext. intros g. now rewrite (means_similar I count im s s1 parent names _ Hp N S). }
            change (map (fun g => (whole (net inst (fst g)), means s names (snd g))) (given ns args)) with (gwrites s (given ns args)). rewrite <- EW.
            refine (effect_app I s [_] s1 _ s' A1 B3 _ _); [constructor; [exact (no_any_net _ _ Hi)|constructor]|].
            intros t' [<-|[]] Ht'. cbn [fst] in Ht'. apply in_map_iff in Ht' as (w & Ew & Hw). apply in_map_iff in Hw as (g & <- & Hg). cbn [fst] in Ew. injection Ew as Ew. apply net_inj in Ew as [_ Ew]. apply D1. rewrite <- Ew. now apply in_map.
          * intros z [<-|Hz]; [exact Hy|exact (B4 z Hz)].
    Qed.
  End Give.
End Pb.
