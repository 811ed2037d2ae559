(** AccProofs3.v - legal assignments are accepted. *)
From Verif Require Import Base ScopeModel ScopeSpec ScopeProofs DfModel DfSpec DfProofs ReorderModel ReorderSpec ReorderProofs BindModel BindSpec BindProofs AsgModel AsgProofs ExprModel MkModel MkSpec MkProps LitModel ConModel ConSpec ConProofs ConProofs2 PbModel AccSpec AccProofs AccProofs2.
Local Open Scope list_scope.

Section Acc.
  Variables (opt : df -> res df) (times : expr -> res Z) (is_module : chain -> bool) (nettype : string).
  Variables (s : store) (scope : chain) (names : string -> chain).
  Hypothesis Hs : no_any scope.
  Hypothesis Hne : scope <> [].
  Hypothesis Hnames : named is_module s scope names.
  Variable es : list expr.
  Notation Inv := (Inv is_module nettype s scope es).
  Notation seen := (seen is_module s scope).
  Notation legal := (legal times is_module s scope names).
  Notation legal_bound := (legal_bound opt times is_module s scope names).
  Notation legal_left := (legal_left opt times is_module nettype s scope names).

  Lemma seen_search cur x : Inv cur -> seen x -> searchTerminal is_module cur scope x = Some (names x).
  Proof.
    intros [D _] [n V]. pose proof (visible_on is_module nettype s scope es Hs cur x n D V) as W. apply search_visible in W. rewrite W.
    now rewrite (search_names is_module nettype s scope es Hs names Hnames cur x n D W).
  Qed.
  Lemma seen_find cur x : Inv cur -> seen x -> find is_module cur scope x = Ok (names x).
  Proof. intros H V. unfold find. now rewrite (seen_search cur x H V). Qed.
  Lemma inv_start : keys_plain (s_terms s) -> Inv s.
  Proof. intros H. split; [apply declared_here|exact H]. Qed.
  Lemma find_names cur x n : Inv cur -> find is_module cur scope x = Ok n -> names x = n.
  Proof.
    intros [D _] H. unfold find in H. destruct (searchTerminal is_module cur scope x) as [m|] eqn:E; [|discriminate]. injection H as <-.
    exact (search_names is_module nettype s scope es Hs names Hnames cur x m D E).
  Qed.
  Lemma mk_here cur e k : Inv s -> Inv cur -> no_calls e = true -> over seen (fun c => exists z, times c = Ok z) e -> mk k times is_module cur scope e = mk k times is_module s scope e.
  Proof.
    intros Is Ic N O. unfold mk. refine (mk_ext _ _ _ _ times k seen _ _ _ e N O).
    - intros x Hx. now rewrite (seen_find cur x Ic Hx), (seen_find s x Is Hx).
    - intros x n Hx. apply (find_names cur x n Ic) in Hx as <-. rewrite (array_here is_module nettype s scope es names Hs Hnames cur x Ic). symmetry.
      exact (array_here is_module nettype s scope es names Hs Hnames s x Is).
  Qed.
  Lemma steady_ext f g : (forall e, f e = g e) -> forall e, steady f e = steady g e.
  Proof.
    intros H. assert (ML : forall l, Forall (fun e => steady f e = steady g e) l -> forallb (steady f) l = forallb (steady g) l) by (induction 1; cbn [forallb]; congruence).
    induction e as [x|x|o a IHa|o a b IHa IHb|c t0 f0 IHc IHt IHf|l IH|v n0 IHv|v m l IHv IHm IHl|v p IHv IHp|f0 l IH|f0 l IH] using expr_ind'; cbn [steady]; rewrite ?H; try congruence; auto.
  Qed.
  Lemma element_here cur e : Inv cur -> element names (array s) e = element names (is_array cur) e.
  Proof.
    intros Ic. induction e as [x|x|o a IHa|o a b IHa IHb|c t0 f0 IHc IHt IHf|l IH|v n0 IHv|v m l IHv IHm IHl|v p IHv IHp|f0 l IH|f0 l IH] using expr_ind'; cbn [element]; auto.
    - symmetry. exact (array_here is_module nettype s scope es names Hs Hnames cur x Ic).
    - destruct l as [|a [|? ?]]; auto. now inversion IH.
  Qed.
  Lemma tree_total cur e : Inv cur -> legal e -> exists t, arrives (fun k => mk k times is_module cur scope e) t /\ fit t.
  Proof.
    intros Ic (N & SC & ST & O).
    destruct (mk_total (find is_module cur scope) (is_array cur) times e N SC) as (t & [k0 K] & _).
    { apply over_resolved. refine (over_weak seen _ _ _ e O). intros x Hx. exists (names x). exact (seen_find cur x Ic Hx). }
    exists t. split; [exists k0; exact K|]. refine (mk_fit (find is_module cur scope) names (is_array cur) times k0 _ e t N _ (K k0 (le_n _))).
    - intros x n H. exact (find_names cur x n Ic H).
    - rewrite <- ST. apply steady_ext. intros e0. symmetry. exact (element_here cur e0 Ic).
  Qed.
  Lemma getTree_total cur e : Inv cur -> legal e -> exists t, arrives (fun k => getTree k times is_module cur scope e) t /\ sorts t.
  Proof.
    intros Ic L. destruct (tree_total cur e Ic L) as (t & A & R & _). destruct (reorder_arrives t R) as (t' & A'). exists t'. split; [|exact (sorts_result _ _ A')].
    unfold getTree. exact (arrives_bind _ _ _ _ A A').
  Qed.
  Hypothesis Is : Inv s.
  Lemma bound_total cur e : Inv cur -> legal_bound e -> exists t, arrives (fun k => bound k opt times is_module cur scope e) t /\ rigid t.
  Proof.
    intros Ic (L & C & O). destruct (tree_total cur e Ic L) as (t & A & _). destruct (arrives_here _ _ A) as [k0 K]. pose proof L as (N & _ & _ & OV).
    rewrite (mk_here cur e k0 Is Ic N OV) in K. destruct (O k0 t K) as (t' & E & R). exists t'. split; [|exact R]. unfold bound. refine (arrives_bind _ _ _ _ A _). cbn beta. rewrite E. apply arrives_const.
  Qed.

  (** ** left sides *)
  Definition grows (a b : store) : Prop := forall n t, no_any n -> known a n = Some t -> known b n = Some t.
  Definition wide (cur : store) (n : chain) : Prop := exists t, known cur n = Some t /\ rigid (t_msb t) /\ rigid (t_lsb t).
  (** A slice: both bounds or none. *)
  Definition slice_ok (d : dst) : Prop := let '(n, m, l, p) := d in no_any n /\ slot p /\ ((m = DNone /\ l = DNone) \/ (rigid m /\ rigid l)).
  Definition dst_wide (cur : store) (d : dst) : Prop := let '(n, m, l, p) := d in m = DNone -> wide cur n.
  Lemma wide_grows a b n : grows a b -> no_any n -> wide a n -> wide b n.
  Proof. intros G Hn (t & H & R). exists t. split; [exact (G n t Hn H)|exact R]. Qed.
  Lemma known_here cur n t : Inv cur -> no_any n -> known s n = Some t -> known cur n = Some t.
  Proof. intros [[D _] _]. apply D. Qed.
  Lemma names_no_any x : no_any (names x).
  Proof. exact (names_plain is_module s scope Hs names Hnames x). Qed.
  Lemma ranged_wide cur x : Inv cur -> seen x -> ranged is_module s scope x -> wide cur (names x).
  Proof.
    intros Ic V R. pose proof (seen_search s x Is V) as S. apply search_visible in S. destruct (R _ S) as (t & K & Rt). exists t. split; [|exact Rt]. exact (known_here cur _ t Ic (names_no_any x) K).
  Qed.
  Lemma getDst_total cur e : Inv cur -> legal_left e -> In e es ->
    exists cur' d, arrives (fun k => getDst k opt times is_module nettype cur scope e) (cur', d) /\ Inv cur' /\ s_binds cur' = s_binds cur /\ grows cur cur' /\
      slice_ok d /\ (measured is_module s scope e -> dst_wide cur' d).
  Proof.
    intros Ic L He.
    assert (PT : forall x i, seen x -> array s (names x) = true -> legal_bound i -> exists i', rigid i' /\ arrives (fun k => getDst k opt times is_module nettype cur scope (XPtr (XId x) i)) (cur, (names x, DNone, DNone, i'))).
    { intros x i V A LB. destruct (bound_total cur i Ic LB) as (i' & Ai & Ri). exists i'. split; [exact Ri|]. cbn [getDst]. rewrite (seen_search cur x Ic V). refine (arrives_bind _ _ _ _ Ai _). cbn beta.
      rewrite (array_here is_module nettype s scope es names Hs Hnames cur x Ic), A. apply arrives_const. }
    destruct e as [x|x|o a|o a b|c t f|l|v n|v m l|v q|f l|f l]; try (exfalso; exact L).
    - destruct (searchTerminal is_module cur scope x) as [n|] eqn:E.
      + exists cur, (n, DNone, DNone, DNone). pose proof E as E'. apply (search_here is_module nettype s scope es names Hs Hnames cur x n Ic) in E' as [-> Hn].
        split; [cbn [getDst]; rewrite E; apply arrives_const|]. split; [exact Ic|]. split; [reflexivity|]. split; [intros ? ? ? ?; assumption|]. split; [split; [exact Hn|]; split; [left; reflexivity|left; auto]|].
        intros M _. assert (seen x \/ ~ seen x) as [V|V].
        { destruct (searchTerminal is_module s scope x) as [n|] eqn:S; [left; exists n; now apply search_visible|]. right. intros [n V]. apply search_visible in V. congruence. }
        * exact (ranged_wide cur x Ic V M).
        * (* an implicit net, declared by an earlier left side *)
          assert (visible is_module cur scope x (names x)) as W by now apply search_visible. destruct (visible_back is_module nettype s scope es Hs cur x _ (proj1 Ic) W) as [C|[C En]]; [exfalso; apply V; exists (names x); exact C|].
          destruct Ic as [[D1 D2] KP]. assert (known s (names x) = None) as Ks.
          { destruct (known s (names x)) eqn:Ks; [|reflexivity]. exfalso. apply V. exists (names x). rewrite En in *. exists scope, []. rewrite app_nil_r. split; [reflexivity|]. split; [exact Hne|]. split; [reflexivity|]. split; [congruence|].
            intros d r Ed. symmetry in Ed. apply app_eq_nil in Ed as [-> _]. congruence. }
          destruct W as (up & down & Eu & Nu & En' & Kn & _). destruct (D2 _ Hn Ks) as [C'|(y & _ & _ & _ & K)]; [congruence|]. eexists. split; [exact K|]. split; reflexivity.
      + (* an implicit net *)
        assert (NV : ~ seen x). { intros V. rewrite (seen_search cur x Ic V) in E. discriminate. }
        assert (NT : nettype <> "none"%string) by (destruct L as [V|V]; [exfalso; exact (NV V)|exact V]).
        pose proof (implicit_inv is_module nettype s scope es names Hs Hne Hnames cur x Ic He E) as I'.
        set (T := Term (net scope x) [if String.eqb nettype "reg" then "Reg"%string else "Wire"%string] (DInt "0") (DInt "0") None) in *.
        assert (KX : dget (s_terms cur) (net scope x) = None).
        { destruct (dget (s_terms cur) (net scope x)) eqn:K; [|reflexivity]. exfalso.
          assert (visible is_module cur scope x (net scope x)) as W. { exists scope, []. rewrite app_nil_r. split; [reflexivity|]. split; [exact Hne|]. split; [reflexivity|]. split; [unfold known; congruence|]. intros d r Ed. symmetry in Ed. apply app_eq_nil in Ed as [-> _]. congruence. }
          apply search_visible in W. congruence. }
        assert (GK : forall n, no_any n -> known (addTerm cur (net scope x) T) n = if chain_dec (net scope x) n then Some T else known cur n).
        { intros n Hn. unfold addTerm. rewrite KX. unfold known. cbn [s_terms]. apply dget_dset; [exact (proj2 Ic)|now apply no_any_net|exact Hn]. }
        assert (KN : known (addTerm cur (net scope x) T) (net scope x) = Some T). { rewrite GK by now apply no_any_net. destruct (chain_dec (net scope x) (net scope x)); congruence. }
        exists (addTerm cur (net scope x) T), (net scope x, DNone, DNone, DNone). split.
        * cbn [getDst]. rewrite E. apply String.eqb_neq in NT. rewrite NT. change (sig scope x) with (net scope x). fold T.
          assert (searchTerminal is_module (addTerm cur (net scope x) T) scope x = Some (net scope x)) as ->; [|apply arrives_const].
          apply search_visible. exists scope, []. rewrite app_nil_r. split; [reflexivity|]. split; [exact Hne|]. split; [reflexivity|]. split; [rewrite KN; discriminate|]. intros d r Ed. symmetry in Ed. apply app_eq_nil in Ed as [-> _]. congruence.
        * split; [exact I'|]. split; [unfold addTerm; rewrite KX; reflexivity|]. split.
          -- intros n t Hn Hk. rewrite (GK n Hn). destruct (chain_dec (net scope x) n) as [<-|_]; [unfold known in Hk; congruence|exact Hk].
          -- split; [split; [now apply no_any_net|]; split; [left; reflexivity|left; auto]|]. intros _ _. exists T. split; [exact KN|]. split; reflexivity.
    - destruct v as [x| | | | | | | |v q| | ]; try (exfalso; exact L); cbn [legal_left] in L.
      + destruct L as (V & Lm & Ll). destruct (bound_total cur m Ic Lm) as (m' & Am & Rm), (bound_total cur l Ic Ll) as (l' & Al & Rl).
        exists cur, (names x, m', l', DNone). split.
        * cbn [getDst]. rewrite (seen_search cur x Ic) by assumption. refine (arrives_bind _ _ _ _ Am _). refine (arrives_bind _ _ _ _ Al _). apply arrives_const.
        * split; [exact Ic|]. split; [reflexivity|]. split; [intros ? ? ? ?; assumption|]. split; [split; [exact (names_no_any x)|]; split; [left; reflexivity|right; auto]|]. intros _ ->. discriminate Rm.
      + destruct v as [x| | | | | | | | | | ]; try (exfalso; exact L). destruct L as (V & A & Lq & Lm & Ll).
        destruct (PT x q ltac:(assumption) A Lq) as (q' & Rq & Aq). destruct (bound_total cur m Ic Lm) as (m' & Am & Rm), (bound_total cur l Ic Ll) as (l' & Al & Rl).
        exists cur, (names x, m', l', q'). split.
        * refine (arrives_ext (fun k => do r <- getDst k opt times is_module nettype cur scope (XPtr (XId x) q); let '(s, (n, a, b, p)) := r in
            if is_none a && is_none b then do m' <- bound k opt times is_module s scope m; do l' <- bound k opt times is_module s scope l; Ok (s, (n, m', l', p)) else Err FormatError) _ _ (fun _ => eq_refl) _).
          refine (arrives_bind _ _ _ _ Aq _). cbn beta iota. cbn [is_none andb]. refine (arrives_bind _ _ _ _ Am _). refine (arrives_bind _ _ _ _ Al _). apply arrives_const.
        * split; [exact Ic|]. split; [reflexivity|]. split; [intros ? ? ? ?; assumption|]. split; [split; [exact (names_no_any x)|]; split; [right; exact Rq|right; auto]|]. intros _ ->. discriminate Rm.
    - destruct v as [x| | | | | | | |v q0| | ]; try (exfalso; exact L); cbn [legal_left] in L.
      + destruct L as (V & H). destruct (bound_total cur q Ic H) as (q' & Aq & Rq).
        exists cur. destruct (array s (names x)) eqn:A; [exists (names x, DNone, DNone, q')|exists (names x, q', q', DNone)].
        * split; [cbn [getDst]; rewrite (seen_search cur x Ic) by assumption; refine (arrives_bind _ _ _ _ Aq _); cbn beta; rewrite (array_here is_module nettype s scope es names Hs Hnames cur x Ic), A; apply arrives_const|].
          split; [exact Ic|]. split; [reflexivity|]. split; [intros ? ? ? ?; assumption|]. split; [split; [exact (names_no_any x)|]; split; [right; exact Rq|left; auto]|]. intros M _. apply ranged_wide; assumption.
        * split; [cbn [getDst]; rewrite (seen_search cur x Ic) by assumption; refine (arrives_bind _ _ _ _ Aq _); cbn beta; rewrite (array_here is_module nettype s scope es names Hs Hnames cur x Ic), A; apply arrives_const|].
          split; [exact Ic|]. split; [reflexivity|]. split; [intros ? ? ? ?; assumption|]. split; [split; [exact (names_no_any x)|]; split; [left; reflexivity|right; auto]|]. intros _ ->. discriminate Rq.
      + destruct v as [x| | | | | | | | | | ]; try (exfalso; exact L). destruct L as (V & A & Lq & Lm).
        destruct (PT x q0 ltac:(assumption) A Lq) as (q' & Rq & Aq). destruct (bound_total cur q Ic Lm) as (m' & Am & Rm).
        exists cur, (names x, m', m', q'). split.
        * refine (arrives_ext (fun k => do r <- getDst k opt times is_module nettype cur scope (XPtr (XId x) q0); let '(s, (n, a, b, p)) := r in
            if is_none a && is_none b then do m' <- bound k opt times is_module s scope q; Ok (s, (n, m', m', p)) else Err FormatError) _ _ (fun _ => eq_refl) _).
          refine (arrives_bind _ _ _ _ Aq _). cbn beta iota. cbn [is_none andb]. refine (arrives_bind _ _ _ _ Am _). apply arrives_const.
        * split; [exact Ic|]. split; [reflexivity|]. split; [intros ? ? ? ?; assumption|]. split; [split; [exact (names_no_any x)|]; split; [right; exact Rq|right; auto]|]. intros _ ->. discriminate Rm.
  Qed.

  Notation measured := (measured is_module s scope).
  Lemma dst_wide_grows a b d : grows a b -> slice_ok d -> dst_wide a d -> dst_wide b d.
  Proof. destruct d as [[[n m] l] p]. intros G (Hn & _) W E. exact (wide_grows a b n G Hn (W E)). Qed.
  Lemma getDsts_total : forall l cur, Inv cur -> Forall legal_left (flat l) -> incl (flat l) es ->
    exists cur' ds, arrives (fun k => getDsts k opt times is_module nettype cur scope l) (cur', ds) /\ Inv cur' /\ s_binds cur' = s_binds cur /\ grows cur cur' /\
      Forall slice_ok ds /\ length ds = length (flat l) /\ (Forall measured (flat l) -> Forall (dst_wide cur') ds).
  Proof.
    induction l as [e|l IH] using lval_ind'; intros cur Ic L He; cbn [flat] in *.
    - inversion L as [|? ? L1 _]; subst. destruct (getDst_total cur e Ic L1 (He e (or_introl eq_refl))) as (cur' & d & A & I' & B & G & SL & W).
      exists cur', [d]. split; [cbn [getDsts]; refine (arrives_bind _ _ _ _ A _); apply arrives_const|]. split; [exact I'|]. split; [exact B|]. split; [exact G|]. split; [constructor; [exact SL|constructor]|]. split; [reflexivity|].
      intros M. inversion M; subst. constructor; [now apply W|constructor].
    - cbn [getDsts]. revert cur Ic L He. induction IH as [|x l Hx _ IHl]; intros cur Ic L He.
      + exists cur, []. split; [apply arrives_const|]. split; [exact Ic|]. split; [reflexivity|]. split; [intros ? ? ? ?; assumption|]. split; [constructor|]. split; [reflexivity|constructor].
      + cbn [flat_map] in L, He |- *. apply Forall_app in L as [L1 L2]. apply incl_app_inv in He as [He1 He2].
        destruct (Hx cur Ic L1 He1) as (c1 & d1 & A1 & I1 & B1 & G1 & S1 & N1 & W1). destruct (IHl c1 I1 L2 He2) as (c2 & d2 & A2 & I2 & B2 & G2 & S2 & N2 & W2).
        exists c2, (d1 ++ d2). split; [refine (arrives_bind _ _ _ _ A1 _); cbn [fst snd]; refine (arrives_bind _ _ _ _ A2 _); apply arrives_const|].
        split; [exact I2|]. split; [congruence|]. split; [intros n t Hn Hk; exact (G2 n t Hn (G1 n t Hn Hk))|]. split; [now apply Forall_app|]. split; [rewrite !app_length; congruence|].
        intros M. apply Forall_app in M as [M1 M2]. apply Forall_app. split; [|now apply W2].
        specialize (W1 M1). clear -W1 S1 G2. induction W1 as [|d ds W _ IHd]; [constructor|]. inversion S1; subst. constructor; [|now apply IHd]. now apply (dst_wide_grows c1).
  Qed.
  Lemma parts_total cur : forall l off, rigid off -> Forall slice_ok l -> Forall (dst_wide cur) l ->
    exists r, arrives (fun k => parts k cur off l) r /\ Forall (dest_ok true) r /\ length r = length l.
  Proof.
    induction l as [|[[[n m] l'] p] l IH]; intros off R SL W; cbn [parts]; [exists []; split; [apply arrives_const|]; split; [constructor|reflexivity]|].
    inversion SL as [|? ? S1 SL2]; subst. destruct S1 as (Hn & Hp & HM). inversion W as [|? ? W1 W2]; subst. cbn [dst_wide] in W1.
    assert (exists a b, (if is_none m && is_none l' then getTermWidth cur n else Ok (m, l')) = Ok (a, b) /\ rigid a /\ rigid b) as (a & b & Ew & Ra & Rb).
    { destruct HM as [[-> ->]|[Rm Rl]].
      - destruct (W1 eq_refl) as (t & K & R1 & R2). exists (t_msb t), (t_lsb t). cbn [is_none andb]. unfold getTermWidth. unfold known in K. rewrite K. auto.
      - exists m, l'. rewrite (rigid_none m Rm). auto. }
    destruct (rigid_two a b Minus Ra Rb) as [E1 R1]. destruct (rigid_two off (DOp [a; b] Minus) Plus R R1) as [E2 R2]. destruct (rigid_two _ (DInt "1") Plus R2 eq_refl) as [E3 R3].
    destruct (IH _ R3 SL2 W2) as (r & Ar & Dr & Lr). eexists (_ :: r). split; [|split].
    - rewrite Ew. cbn [bind]. rewrite E1. cbn [bind]. refine (arrives_bind _ _ _ _ (rigid_reorder _ R1) _). cbn beta. rewrite E2. cbn [bind]. refine (arrives_bind _ _ _ _ (rigid_reorder _ R2) _). cbn beta. rewrite E3. cbn [bind].
      refine (arrives_bind _ _ _ _ (rigid_reorder _ R3) _). cbn beta. refine (arrives_bind _ _ _ _ Ar _). apply arrives_const.
    - constructor; [|exact Dr]. split; [exact Hn|]. split; [right; exact Ra|]. split; [right; exact Rb|]. split; [exact Hp|]. intros _. split; [exact R2|exact R].
    - cbn [length]. congruence.
  Qed.
  Notation legal_lefts := (legal_lefts opt times is_module nettype s scope names).
  Lemma getDestinations_total cur l : Inv cur -> legal_lefts (flat l) -> incl (flat l) es ->
    exists cur' ds, arrives (fun k => getDestinations k opt times is_module nettype cur scope l) (cur', ds) /\ Inv cur' /\ s_binds cur' = s_binds cur /\ Forall (dest_ok (1 <? length ds)) ds.
  Proof.
    intros Ic [L M] He. destruct (getDsts_total l cur Ic L He) as (cur' & ds & A & I' & B & _ & SL & N & W).
    assert (ONE : length ds <> 1 -> exists r, arrives (fun k => parts k cur' (DInt "0") (rev ds)) r /\ Forall (dest_ok (1 <? length r)) r).
    { intros Nl. rewrite N in Nl. destruct (parts_total cur' (rev ds) (DInt "0") eq_refl) as (r & Ar & Dr & Lr).
      - apply Forall_rev. exact SL.
      - apply Forall_rev. exact (W (M Nl)).
      - exists r. split; [exact Ar|]. destruct r as [|d r]; [constructor|]. rewrite rev_length in Lr. destruct r as [|d' r]; [cbn [length] in Lr; congruence|]. exact Dr. }
    destruct ds as [|d ds]; [|destruct ds as [|d' ds]].
    - destruct ONE as (r & Ar & Dr); [discriminate|]. exists cur', r. split; [|auto]. unfold getDestinations. refine (arrives_bind _ _ _ _ A _). cbn [snd fst]. refine (arrives_bind _ _ _ _ Ar _). apply arrives_const.
    - destruct d as [[[n m] l'] p]. exists cur', [Dest n m l' p DNone DNone]. split; [unfold getDestinations; refine (arrives_bind _ _ _ _ A _); apply arrives_const|]. split; [exact I'|]. split; [exact B|].
      inversion SL as [|? ? S1 _]; subst. destruct S1 as (Hn & Hp & HM). constructor; [|constructor]. split; [exact Hn|]. cbn [d_msb d_lsb d_ptr]. split; [destruct HM as [[-> ->]|[H _]]; [left; reflexivity|right; exact H]|]. split; [destruct HM as [[-> ->]|[_ H]]; [left; reflexivity|right; exact H]|]. split; [exact Hp|]. discriminate.
    - destruct ONE as (r & Ar & Dr); [discriminate|]. exists cur', r. split; [|auto]. unfold getDestinations. refine (arrives_bind _ _ _ _ A _). destruct d as [[[n m] l'] p]. cbn [snd fst]. refine (arrives_bind _ _ _ _ Ar _). apply arrives_const.
  Qed.
  Lemma inv_keep cur cur' : Inv cur -> s_terms cur' = s_terms cur -> Inv cur'.
  Proof. intros H E. exact (inv_terms _ _ _ _ _ _ _ H E). Qed.
  Lemma flow_total cur ds raw p ty : Inv cur -> tidy cur -> keys_plain (s_binds cur) -> tidy_path p -> sorts raw -> Forall (dest_ok (1 <? length ds)) ds ->
    exists s', arrives (fun k => addDataflow k cur ds raw p ty) s' /\ Inv s' /\ tidy s' /\ keys_plain (s_binds s').
  Proof.
    intros Ic T KP P S D. destruct (setDataflow_total ds cur raw p (length ds) ty T KP P S D) as (s' & A & T' & E & K'). exists s'. split; [exact A|]. split; [exact (inv_keep cur s' Ic E)|auto].
  Qed.
  Lemma assign_total cur p l e : Inv cur -> tidy cur -> keys_plain (s_binds cur) -> tidy_path p -> legal_lefts (flat l) -> incl (flat l) es -> legal e ->
    exists s', arrives (fun k => assign k opt times is_module nettype cur scope p l e) s' /\ Inv s' /\ tidy s' /\ keys_plain (s_binds s').
  Proof.
    intros Ic T KP P L He Le. destruct (getDestinations_total cur l Ic L He) as (c1 & ds & A1 & I1 & B1 & D1). destruct (getTree_total c1 e I1 Le) as (t & A2 & S2).
    destruct (flow_total c1 ds t p "assign" I1) as (s' & A3 & R); [unfold tidy; now rewrite B1|now rewrite B1|exact P|exact S2|exact D1|].
    exists s'. split; [|exact R]. unfold assign. refine (arrives_bind _ _ _ _ A1 _). cbn [fst snd]. refine (arrives_bind _ _ _ _ A2 _). exact A3.
  Qed.
End Acc.
