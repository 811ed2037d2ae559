(** GraphProps.v - C44: names in generated graphs. *)
From Verif Require Import Base ScopeModel ScopeProofs DfModel LitModel LitProofs VisitModel VisitSpec VisitProofs VisitProofs2 CodeModel GraphModel GraphSpec.

Lemma ends_app n s : s <> EmptyString -> ends_with_digit (n ++ s) = ends_with_digit s.
Proof. intros N. induction n as [|c n IH]; [reflexivity|]. cbn [append]. destruct (n ++ s)%string eqn:E; [destruct n; [cbn in E; congruence|discriminate]|]. rewrite ends_cons. rewrite <- E in *. exact IH. Qed.
Lemma app_assoc_s a b c : ((a ++ b) ++ c)%string = (a ++ b ++ c)%string.
Proof. induction a; cbn; congruence. Qed.
Lemma rename_inj x y n m : (0 <= n)%Z -> (0 <= m)%Z -> rename x n = rename y m -> n = m.
Proof.
  intros Hn Hm E. unfold rename in E. rewrite <- !app_assoc_s in E. unfold py_str in E. destruct (Z.ltb_spec n 0); [lia|]. destruct (Z.ltb_spec m 0); [lia|].
  apply split_digits in E; [apply py_str_inj; tauto|now rewrite ends_app by discriminate|now rewrite ends_app by discriminate|apply digits_py; auto|apply digits_py; auto].
Qed.

Section Inv.
  Variable T : string -> Prop.
  Variable wc : bool.
  Definition old (c : Z) (nm : string) : Prop := exists x n, (0 <= n < c)%Z /\ nm = rename x n.
  Record good (s : st) : Prop := {
    g_count : (0 <= counter s)%Z;
    g_uses : forall e nm, In e (log s) -> uses e nm -> old (counter s) nm \/ T nm;
    g_own : forall nm l c, In (Node false nm l c) (log s) -> old (counter s) nm;
    g_fresh : forall i nm l c, nth_error (log s) i = Some (Node false nm l c) -> forall j e, (j < i)%nat -> nth_error (log s) j = Some e -> uses e nm -> T nm /\ is_own e = false;
    g_edge : forall i a b c l, nth_error (log s) i = Some (Edge a b c l) -> (exists j sh l' c', (j < i)%nat /\ nth_error (log s) j = Some (Node sh a l' c')) /\ exists k sh l' c', i = S k /\ nth_error (log s) k = Some (Node sh b l' c') }.
  Definition node_in (p : string) (s : st) : Prop := exists sh l c, In (Node sh p l c) (log s).
  Definition ext (s s' : st) : Prop := exists l, log s' = log s ++ l.
  Definition okay (p : string) (a : act) : Prop := forall s, good s -> node_in p s -> good (fst (a s)) /\ ext s (fst (a s)).
  Lemma ext_refl s : ext s s.
  Proof. exists []. now rewrite app_nil_r. Qed.
  Lemma ext_trans a b c : ext a b -> ext b c -> ext a c.
  Proof. intros [l E] [m F]. exists (l ++ m). rewrite F, E, app_assoc. reflexivity. Qed.
  Lemma node_ext p s s' : ext s s' -> node_in p s -> node_in p s'.
  Proof. intros [l E] (sh & lb & c & H). exists sh, lb, c. rewrite E. apply in_or_app. auto. Qed.
  Lemma okay_done p : okay p done.
  Proof. intros s G N. split; [exact G|apply ext_refl]. Qed.
  Lemma okay_then p a b : okay p a -> okay p b -> okay p (then_ a b).
  Proof.
    intros HA HB s G N. unfold then_. destruct (HA s G N) as [G1 E1]. destruct (a s) as [s1 [e|]]; cbn [fst] in *; [auto|]. destruct (HB s1 G1 (node_ext _ _ _ E1 N)) as [G2 E2]. split; [exact G2|]. eapply ext_trans; eauto.
  Qed.
  Lemma okay_each {A} p (f : A -> act) l : Forall (fun x => okay p (f x)) l -> okay p (each f l).
  Proof. induction 1; cbn [each]; [apply okay_done|]. apply okay_then; auto. Qed.
  Lemma old_mono c c' nm : (c <= c')%Z -> old c nm -> old c' nm.
  Proof. intros H (x & n & K & E). exists x, n. split; [lia|exact E]. Qed.
  Lemma not_old x c : (0 <= c)%Z -> ~ old c (rename x c).
  Proof. intros H (y & n & K & E). apply rename_inj in E; lia. Qed.
  Lemma nth_snoc {A} (l : list A) x i y : nth_error (l ++ [x]) i = Some y -> (i < length l)%nat /\ nth_error l i = Some y \/ i = length l /\ y = x.
  Proof.
    intros E. destruct (Nat.lt_ge_cases i (length l)); [left; rewrite nth_error_app1 in E by assumption; auto|]. right. rewrite nth_error_app2 in E by assumption. destruct (i - length l)%nat eqn:D; cbn in E; [split; [lia|congruence]|destruct n; discriminate].
  Qed.
  (** Adding a node of its own. *)
  Lemma good_node s x lb c : good s -> good (St (counter s + 1) (log s ++ [Node false (rename x (counter s)) lb c])).
  Proof.
    intros [G1 G2 G3 G4 G5]. assert (old (counter s + 1) (rename x (counter s))) as HO by (exists x, (counter s); split; [lia|reflexivity]). constructor; cbn [counter log].
    - lia.
    - intros e nm He Hu. apply in_app_or in He. destruct He as [He|[<-|[]]]; [destruct (G2 e nm He Hu); [left; eapply old_mono; [|eassumption]; lia|auto]|]. cbn in Hu. subst nm. auto.
    - intros nm l c' He. apply in_app_or in He. destruct He as [He|[E|[]]]; [eapply old_mono; [|eapply G3; eauto]; lia|]. injection E as <- _ _. exact HO.
    - intros i nm l c' Ei j e Hj Ej Hu. apply nth_snoc in Ei. destruct Ei as [[Li Ei]|[-> Ei]].
      + rewrite nth_error_app1 in Ej by lia. eapply G4; eauto.
      + injection Ei as -> -> ->. rewrite nth_error_app1 in Ej by lia. pose proof (nth_error_In _ _ Ej) as He. split.
        * destruct (G2 e _ He Hu) as [K|K]; [|exact K]. exfalso. eapply not_old; eauto.
        * destruct e as [[] nm' l' c''|]; try reflexivity. exfalso. cbn in Hu. subst nm'. eapply not_old; [exact G1|]. eapply G3; eauto.
    - intros i a b c' l Ei. apply nth_snoc in Ei. destruct Ei as [[Li Ei]|[_ Ei]]; [|discriminate]. destruct (G5 i a b c' l Ei) as [(j & sh & l1 & c1 & Lj & Ej) (k & sh2 & l2 & c2 & Ek & Fk)]. split.
      + exists j, sh, l1, c1. split; [exact Lj|]. rewrite nth_error_app1 by lia. exact Ej.
      + exists k, sh2, l2, c2. split; [exact Ek|]. rewrite nth_error_app1 by lia. exact Fk.
  Qed.
  (** Adding a shared node. *)
  Lemma good_shared s nm c : T nm -> good s -> good (St (counter s) (log s ++ [Node true nm None c])).
  Proof.
    intros HT [G1 G2 G3 G4 G5]. constructor; cbn [counter log].
    - exact G1.
    - intros e nm' He Hu. apply in_app_or in He. destruct He as [He|[<-|[]]]; [exact (G2 e nm' He Hu)|]. cbn in Hu. subst nm'. auto.
    - intros nm' l c' He. apply in_app_or in He. destruct He as [He|[E|[]]]; [eapply G3; eauto|discriminate].
    - intros i nm' l c' Ei j e Hj Ej Hu. apply nth_snoc in Ei. destruct Ei as [[Li Ei]|[-> Ei]]; [|discriminate]. rewrite nth_error_app1 in Ej by lia. eapply G4; eauto.
    - intros i a b c' l Ei. apply nth_snoc in Ei. destruct Ei as [[Li Ei]|[_ Ei]]; [|discriminate]. destruct (G5 i a b c' l Ei) as [(j & sh & l1 & c1 & Lj & Ej) (k & sh2 & l2 & c2 & Ek & Fk)]. split.
      + exists j, sh, l1, c1. split; [exact Lj|]. rewrite nth_error_app1 by lia. exact Ej.
      + exists k, sh2, l2, c2. split; [exact Ek|]. rewrite nth_error_app1 by lia. exact Fk.
  Qed.
  (** Adding an edge to the last node. *)
  Lemma good_edge s0 c sh p nm lb co ec el : good (St c (log s0 ++ [Node sh nm lb co])) -> node_in p s0 -> good (St c ((log s0 ++ [Node sh nm lb co]) ++ [Edge p nm ec el])).
  Proof.
    intros [G1 G2 G3 G4 G5] (shp & lp & cp & Hp). cbn [counter log] in *. constructor; cbn [counter log].
    - exact G1.
    - intros e nm' He Hu. apply in_app_or in He. destruct He as [He|[<-|[]]]; [exact (G2 e nm' He Hu)|]. cbn in Hu. destruct Hu as [<-|<-]; [apply (G2 (Node shp p lp cp)); [apply in_or_app; left; exact Hp|reflexivity]|]. apply (G2 (Node sh nm lb co)); [apply in_or_app; right; left; reflexivity|reflexivity].
    - intros nm' l c' He. apply in_app_or in He. destruct He as [He|[E|[]]]; [eapply G3; eauto|discriminate].
    - intros i nm' l c' Ei j e Hj Ej Hu. apply nth_snoc in Ei. destruct Ei as [[Li Ei]|[-> Ei]]; [|discriminate]. rewrite nth_error_app1 in Ej by lia. eapply G4; eauto.
    - intros i a b c' l Ei. apply nth_snoc in Ei. destruct Ei as [[Li Ei]|[-> Ei]].
      + destruct (G5 i a b c' l Ei) as [(j & sh1 & l1 & c1 & Lj & Ej) (k & sh2 & l2 & c2 & Ek & Fk)]. split.
        * exists j, sh1, l1, c1. split; [exact Lj|]. rewrite nth_error_app1 by lia. exact Ej.
        * exists k, sh2, l2, c2. split; [exact Ek|]. rewrite nth_error_app1 by lia. exact Fk.
      + injection Ei as -> -> -> ->. rewrite app_length. cbn [length]. split.
        * apply In_nth_error in Hp. destruct Hp as [j Ej]. assert (j < length (log s0))%nat by (apply nth_error_Some; congruence). exists j, shp, lp, cp. split; [lia|]. rewrite <- app_assoc, nth_error_app1 by lia. exact Ej.
        * exists (length (log s0)), sh, lb, co. split; [lia|]. rewrite <- app_assoc, nth_error_app2, Nat.sub_diag by lia. reflexivity.
  Qed.
  Lemma two {A} (l : list A) x y : l ++ [x; y] = (l ++ [x]) ++ [y].
  Proof. now rewrite <- app_assoc. Qed.
  Lemma okay_renamed t p color el k : (forall name, okay name (k name)) -> okay p (add_renamed wc t p color el k).
  Proof.
    intros HK s G N. unfold add_renamed. destruct (tolabel t) as [l|e]; cbn [fst]; [|split; [exact G|apply ext_refl]]. cbv zeta. unfold edge. rewrite two.
    pose proof (good_edge s _ _ p _ _ _ (shown wc color) (match el with Some "" => None | _ => el end)%string (good_node s l (Some l) (shown wc color) G) N) as G1.
    destruct (HK (rename l (counter s)) _ G1) as [G2 E2]; [exists false, (Some l), (shown wc color); cbn [log]; apply in_or_app; left; apply in_or_app; right; left; reflexivity|]. split; [exact G2|].
    eapply ext_trans; [|exact E2]. eexists. cbn [log]. rewrite <- app_assoc. reflexivity.
  Qed.
  Lemma okay_df t nm p color el : tolabel t = Ok nm -> T nm -> okay p (add_df wc t p color el).
  Proof.
    intros EL HT s G N. unfold add_df. rewrite EL. cbn [fst]. unfold edge. rewrite two. split; [apply good_edge; [apply good_shared; auto|exact N]|]. eexists. cbn [log]. rewrite <- app_assoc. reflexivity.
  Qed.
  Lemma okay_visit identical t : (identical = false -> forall n, occurs n t -> T (chain_tocode n)) -> forall p color el, okay p (visit wc identical t p color el).
  Proof.
    induction t using df_ind'; intros HT p color el; cbn [visit]; try (apply okay_renamed; intros name; try apply okay_done).
    - apply okay_done.
    - destruct identical; [apply okay_renamed; intros; apply okay_done|]. eapply okay_df; [reflexivity|]. apply HT; [reflexivity|constructor].
    - apply okay_each. rewrite Forall_forall in *. intros x Hx. apply H; auto. intros E m Hm. apply HT; [exact E|]. eapply o_op; eauto.
    - assert (forall x, In x [t1; t2; t3] -> identical = false -> forall n, occurs n x -> T (chain_tocode n)) as K by (intros x Hx E m Hm; apply HT; [exact E|eapply o_part; eauto]).
      apply okay_then; [apply IHt1, K; cbn; tauto|]. apply okay_then; [apply IHt2, K; cbn; tauto|apply IHt3, K; cbn; tauto].
    - assert (forall x, In x [t1; t2] -> identical = false -> forall n, occurs n x -> T (chain_tocode n)) as K by (intros x Hx E m Hm; apply HT; [exact E|eapply o_ptr; eauto]).
      apply okay_then; [apply IHt1, K; cbn; tauto|apply IHt2, K; cbn; tauto].
    - apply okay_each. rewrite Forall_forall in *. intros x Hx. apply H; auto. intros E m Hm. apply HT; [exact E|]. eapply o_concat; eauto.
    - assert (forall x, In x [t1; t2; t3] -> identical = false -> forall n, occurs n x -> T (chain_tocode n)) as K by (intros x Hx E m Hm; apply HT; [exact E|eapply o_branch; eauto]).
      apply okay_then; [apply IHt1, K; cbn; tauto|]. apply okay_then; [apply IHt2, K; cbn; tauto|apply IHt3, K; cbn; tauto].
    - apply IHt. intros E m Hm. apply HT; [exact E|]. constructor. exact Hm.
    - apply okay_each. rewrite Forall_forall in *. intros x Hx. apply H; auto. intros E m Hm. apply HT; [exact E|]. eapply o_sys; eauto.
  Qed.
  Lemma good_history : forall l s, (forall c, In c l -> c_identical c = false -> forall n, occurs n (c_tree c) -> T (chain_tocode n)) -> good s -> good (history wc l s).
  Proof.
    induction l as [|c l IH]; intros s HT G; cbn [history]; [exact G|]. apply IH; [intros c' Hc'; apply HT; right; exact Hc'|]. unfold generate.
    apply okay_visit; [apply HT; left; reflexivity|apply good_node; exact G|]. eexists. eexists. eexists. cbn [log]. apply in_or_app. right. left. reflexivity.
  Qed.
  Lemma good_start : good start.
  Proof. constructor; cbn; try lia; intros; try contradiction; destruct i; discriminate. Qed.
End Inv.

(** Every node of its own gets a name that no earlier node of its own has, for all histories of
    calls on a generator, whatever the labels and whatever calls fail. *)
Theorem C44_own_distinct : forall wc calls i j n n' l l' c c', let g := log (history wc calls start) in
  (j < i)%nat -> nth_error g i = Some (Node false n l c) -> nth_error g j = Some (Node false n' l' c') -> n <> n'.
Proof.
  intros wc calls i j n n' l l' c c' g Hj Ei Ej <-. pose proof (good_history (fun _ => True) wc calls start (fun _ _ _ _ _ => I) (good_start _)) as G. destruct (g_fresh _ _ G i n l c Ei j _ Hj Ej eq_refl) as [_ K]. discriminate.
Qed.
Print Assumptions C44_own_distinct.
(** It also differs from every name used before in any way, shared nodes included, if no signal is
    called like a renamed node. *)
Theorem C44_never_used_partial : forall wc calls i j n l c e, let g := log (history wc calls start) in
  (forall k, In k calls -> clear_of_renamed (c_tree k)) -> (j < i)%nat -> nth_error g i = Some (Node false n l c) -> nth_error g j = Some e -> ~ uses e n.
Proof.
  intros wc calls i j n l c e g HC Hj Ei Ej Hu. pose proof (good_history (fun nm => forall x c, (0 <= c)%Z -> nm <> rename x c) wc calls start) as G.
  assert (good (fun nm => forall x c, (0 <= c)%Z -> nm <> rename x c) (history wc calls start)) as G'. { apply G; [|apply good_start]. intros k Hk _ m Hm x c0 Hc. apply (HC k Hk m Hm x c0 Hc). }
  destruct (g_fresh _ _ G' i n l c Ei j e Hj Ej Hu) as [K _]. destruct (g_own _ _ G' n l c (nth_error_In _ _ Ei)) as (x & m & Hm & E). apply (K x m); [lia|exact E].
Qed.
Print Assumptions C44_never_used_partial.
(** Every edge leads from a node that is there to the node added just before. *)
Theorem C44_edges : forall wc calls i a b c l, let g := log (history wc calls start) in
  nth_error g i = Some (Edge a b c l) -> (exists j sh l' c', (j < i)%nat /\ nth_error g j = Some (Node sh a l' c')) /\ exists k sh l' c', i = S k /\ nth_error g k = Some (Node sh b l' c').
Proof. intros wc calls. exact (g_edge _ _ (good_history (fun _ => True) wc calls start (fun _ _ _ _ _ => I) (good_start _))). Qed.
Print Assumptions C44_edges.
(** A call that does not fail adds one node of its own for each node of the tree, and one for the
    signal. *)
Definition owns (s : st) : nat := length (filter is_own (log s)).
Definition adds (n : nat) (a : act) : Prop := forall s s', a s = (s', None) -> owns s' = (owns s + n)%nat.
Lemma adds_done : adds 0 done.
Proof. intros s s' E. injection E as <-. lia. Qed.
Lemma adds_then n m a b : adds n a -> adds m b -> adds (n + m) (then_ a b).
Proof. intros HA HB s s' E. unfold then_ in E. destruct (a s) as [s1 [e|]] eqn:EA; [discriminate|]. rewrite (HB _ _ E), (HA _ _ EA). lia. Qed.
Lemma adds_each {A} (f : A -> act) (n : A -> nat) l : Forall (fun x => adds (n x) (f x)) l -> adds (list_sum (map n l)) (each f l).
Proof. induction 1 as [|x l Hx H IH]; cbn [each map]; [apply adds_done|]. change (list_sum (n x :: map n l)) with (n x + list_sum (map n l))%nat. apply adds_then; auto. Qed.
Lemma adds_renamed wc t p color el k n : (forall name, adds n (k name)) -> adds (S n) (add_renamed wc t p color el k).
Proof.
  intros HK s s' E. unfold add_renamed in E. destruct (tolabel t) as [l|e]; [|discriminate]. cbv zeta in E. rewrite (HK _ _ _ E). unfold owns. cbn [log]. rewrite filter_app, app_length. cbn. lia.
Qed.
Lemma adds_visit wc identical t : forall p color el, adds (own_nodes identical t) (visit wc identical t p color el).
Proof.
  induction t using df_ind'; intros p color el; cbn [visit own_nodes]; try (apply adds_renamed; intros name; try apply adds_done).
  - apply adds_done.
  - destruct identical; [apply adds_renamed; intros; apply adds_done|]. intros s s' E. unfold add_df in E. cbn [tolabel] in E. injection E as <-. unfold owns. cbn [log]. rewrite filter_app, app_length. cbn. lia.
  - apply adds_each. rewrite Forall_forall in *. auto.
  - rewrite <- Nat.add_assoc. apply adds_then; [auto|]. apply adds_then; auto.
  - apply adds_then; auto.
  - apply adds_each. rewrite Forall_forall in *. auto.
  - rewrite <- Nat.add_assoc. apply adds_then; [auto|]. apply adds_then; auto.
  - auto.
  - apply adds_each. rewrite Forall_forall in *. auto.
Qed.
Theorem C44_one_each : forall wc c s s', generate wc c s = (s', None) -> owns s' = (owns s + 1 + own_nodes (c_identical c) (c_tree c))%nat.
Proof. intros wc c s s' E. unfold generate in E. rewrite (adds_visit _ _ _ _ _ _ _ _ E). unfold owns. cbn [log]. rewrite filter_app, app_length. cbn. lia. Qed.
Print Assumptions C44_one_each.

(** Two calls: q = sel ? a + 1 : a, twice, with and without shared terminals. *)
Definition sig_ (x : string) : df := DTerm [Label "top" STmodule None; Label x STsignal None].
Definition q_tree : df := DBranch (sig_ "sel") (DOp [sig_ "a"; DInt "1"] Plus) (sig_ "a").
Definition two_calls : list call := [Call "top.q" false q_tree; Call "top.q" true q_tree].
Example C44_hypotheses_met : (forall k, In k two_calls -> clear_of_renamed (c_tree k)) /\ length (filter is_own (log (history false two_calls start))) = 11%nat /\
  nth_error (log (history false two_calls start)) 0 = Some (Node false "top.q_graphrename_0" (Some "top.q") "black")%string /\ snd (generate false (Call "top.q" true q_tree) start) = None.
Proof.
  split; [|split; [vm_compute; reflexivity|split; vm_compute; reflexivity]]. assert (clear_of_renamed q_tree) as K; [|intros k [<-|[<-|[]]]; exact K].
  intros n Ho x c Hc E.
  assert (n = [Label "top" STmodule None; Label "sel" STsignal None]%string \/ n = [Label "top" STmodule None; Label "a" STsignal None]%string) as [-> | ->].
  { inversion Ho as [| | | | | |? ? ? t Ht Ho'|]; subst. destruct Ht as [<-|[<-|[<-|[]]]]; [inversion Ho'; auto| |inversion Ho'; auto]. inversion Ho' as [|? ? t Ht Ho2| | | | | |]; subst. destruct Ht as [<-|[<-|[]]]; inversion Ho2; auto. }
  - assert (String.length (chain_tocode [Label "top" STmodule None; Label "sel" STsignal None]%string) = 7%nat) as L by reflexivity. rewrite E in L. assert (forall a b, String.length (a ++ b) = (String.length a + String.length b)%nat) as LA by (clear; induction a; cbn; auto). rewrite !LA in L. cbn in L. lia.
  - assert (String.length (chain_tocode [Label "top" STmodule None; Label "a" STsignal None]%string) = 5%nat) as L by reflexivity. rewrite E in L. assert (forall a b, String.length (a ++ b) = (String.length a + String.length b)%nat) as LA by (clear; induction a; cbn; auto). rewrite !LA in L. cbn in L. lia.
Qed.

(** Full property: the name was never used before. It is false: a signal can have the name. In
    module Branch, the signal graphrename_2 is the node Branch_graphrename_2. *)
Definition never_used : Prop := forall wc calls i j n l c e, let g := log (history wc calls start) in (j < i)%nat -> nth_error g i = Some (Node false n l c) -> nth_error g j = Some e -> ~ uses e n.
Definition clash : df := DOp [DTerm [Label "Branch" STmodule None; Label "graphrename_2" STsignal None]; DBranch (DInt "1") (DInt "2") (DInt "3")]%string Plus.
Theorem C44_refuted : ~ never_used /\
  nth_error (log (history false [Call "Branch.q" false clash] start)) 3 = Some (Node true "Branch_graphrename_2" None "black")%string /\
  nth_error (log (history false [Call "Branch.q" false clash] start)) 5 = Some (Node false "Branch_graphrename_2" (Some "Branch") "black")%string.
Proof.
  assert (nth_error (log (history false [Call "Branch.q" false clash] start)) 3 = Some (Node true "Branch_graphrename_2" None "black")%string) as E3 by (vm_compute; reflexivity).
  assert (nth_error (log (history false [Call "Branch.q" false clash] start)) 5 = Some (Node false "Branch_graphrename_2" (Some "Branch") "black")%string) as E5 by (vm_compute; reflexivity).
  split; [|auto]. intros H. apply (H false _ 5%nat 3%nat _ _ _ _ ltac:(lia) E5 E3). reflexivity.
Qed.
Print Assumptions C44_refuted.
