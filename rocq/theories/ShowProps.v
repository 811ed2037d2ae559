(** ShowProps.v - C70: the listing, the range of states and the drawing of a state machine. *)
From Verif Require Import Base ScopeModel ScopeProofs DfModel DfSpec BindModel BindSpec ExprModel ExprSpec CodeModel CodeSpec CodeProps GraphModel TransModel FsmModel FsmSpec FsmProofs EmitProps ShowModel ShowSpec ShowProofs.
Local Open Scope Z_scope.

(** C70 (label_range): the smallest and the largest of the states of the machine; None for a machine without states. *)
Theorem C70_range : forall m,
  match label_range m with
  | (Some a, Some b) => known m a /\ known m b /\ forall s, known m s -> a <= s <= b
  | (None, None) => forall s, ~ known m s
  | _ => False
  end.
Proof. intros m. exact (range_spans m). Qed.
Print Assumptions C70_range.

Definition x_is (n : string) : df := DTerm [Label "top" STmodule None; Label n STsignal None].
(** The condition go == 1, as the analysis gives it. *)
Definition eq1 (n : string) : df := DOp [x_is n; DEval (PInt 1) (Some 1) false false] Eq.
Definition machine_ex : machine := Machine [(0, [(DNone, 1)]); (1, [(eq1 "go", 3); (x_is "stop", 0)])] [(eq1 "err", 7)].
Example C70_range_met : label_range machine_ex = (Some 0, Some 3) /\ known machine_ex 3 /\ label_range (Machine [] []) = (None, None).
Proof. split; [reflexivity|]. split; [|reflexivity]. right. exists 1, (eq1 "go"). exists [(eq1 "go", 3); (x_is "stop", 0)]. cbn. auto. Qed.

(** C70 is false of label_range: targets of the transitions from any state are not taken into account. *)
Theorem C70_range_refuted : exists m s d c a b, label_range m = (Some a, Some b) /\ leads m s d c /\ b < d.
Proof.
  exists machine_ex, 0, 7, (eq1 "err"), 0, 3. split; [reflexivity|]. split; [|reflexivity]. right. split; [now left|now left].
Qed.
Print Assumptions C70_range_refuted.

(** C70 (view): one line for every transition, with its state, its condition as Verilog text and its target. *)
Definition code (c : df) (x : string) : Prop := match c with DNone => x = "None"%string | _ => tocode "dest" c = Ok x end.
Lemma code_iff c x : code c x <-> cond_code c = Ok x.
Proof. destruct c; cbn [code cond_code]; try tauto. split; [now intros ->|intros E; now injection E]. Qed.
Definition transitions (m : machine) : nat := (length (m_any m) + list_sum (map (fun p => length (snd p)) (m_fsm m)))%nat.
Theorem C70_view : forall m ls, view m = (ls, None) ->
  (forall l, In l ls <-> exists s c d x, has m (s, c, d) /\ code c x /\ l = line s x d) /\
  (forall s c d, has m (s, c, d) -> exists x, code c x) /\ length ls = transitions m.
Proof.
  intros m ls E. rewrite view_lines in E. apply print_all_ok in E. split; [|split].
  - intros l. transitivity (In (Ok l) (map (@Ok string) ls)).
    + rewrite in_map_iff. split; [intros H; now exists l|]. intros (x & H & ?). now injection H as <-.
    + rewrite <- E, in_map_iff. split.
      * intros ([[s c] d] & H & K). apply listed_iff in K. cbn [line_of] in H. destruct (cond_code c) as [x|] eqn:EC; cbn [bind] in H; [|discriminate].
        injection H as <-. exists s, c, d, x. rewrite code_iff. auto.
      * intros (s & c & d & x & H & C & ->). exists (s, c, d). rewrite code_iff in C. cbn [line_of]. rewrite C. cbn [bind]. split; [auto|now apply listed_iff].
  - intros s c d H. apply listed_iff in H. assert (In (line_of (s, c, d)) (map (@Ok string) ls)) as K by (rewrite <- E; now apply in_map).
    apply in_map_iff in K as (l & K & _). cbn [line_of] in K. destruct (cond_code c) as [x|] eqn:EC; cbn [bind] in K; [|discriminate]. exists x. now apply code_iff.
  - apply (f_equal (@length _)) in E. rewrite !map_length in E. rewrite <- E. unfold listed, transitions. rewrite app_length, map_length. f_equal.
    induction (m_fsm m) as [|p f IH]; cbn; [reflexivity|]. now rewrite app_length, map_length, IH.
Qed.
Print Assumptions C70_view.
Theorem C70_view_succeeds : forall m, (forall s c d, has m (s, c, d) -> c = DNone \/ exists x, tocode "dest" c = Ok x) ->
  exists ls, view m = (ls, None).
Proof.
  intros m H. assert (exists ls, map line_of (listed m) = map (@Ok string) ls) as (ls & E).
  { assert (forall t, In t (listed m) -> exists l, line_of t = Ok l) as K.
    { intros [[s c] d] K. apply listed_iff in K. destruct (H s c d K) as [->|(x & E)]; cbn [line_of cond_code bind]; [eauto|].
      destruct c; cbn [cond_code bind]; [eauto|..]; rewrite E; cbn [bind]; eauto. }
    induction (listed m) as [|t r IH]; [now exists []|]. destruct (K t (or_introl eq_refl)) as (l & El).
    destruct IH as (ls & Els); [intros t' Ht; apply K; now right|]. exists (l :: ls). cbn. now rewrite El, Els. }
  exists ls. rewrite view_lines. now apply print_all_ok.
Qed.
Print Assumptions C70_view_succeeds.
(** A line tells where the transition starts, the text of its condition and where it leads. *)
Theorem C70_lines_are_read_uniquely : forall s x d s' x' d', line s x d = line s' x' d' -> s = s' /\ x = x' /\ d = d'.
Proof. exact line_reads. Qed.
Print Assumptions C70_lines_are_read_uniquely.
(** Machines with the same listing, in any order, have the same transitions: same states, and conditions that are the same
    Verilog expression. *)
Theorem C70_view_determines : forall m m' ls ls', view m = (ls, None) -> view m' = (ls', None) -> (forall l, In l ls <-> In l ls') ->
  forall s c d e, has m (s, c, d) -> stands "dest" c e -> written e -> codable e = true ->
  exists c', has m' (s, c', d) /\ forall e', stands "dest" c' e' -> written e' -> codable e' = true -> e = e'.
Proof.
  intros m m' ls ls' V V' S s c d e H Hs Hw Hc. destruct (C70_view m ls V) as (A & B & _). destruct (C70_view m' ls' V') as (A' & _ & _).
  destruct (B s c d H) as (x & X). assert (In (line s x d) ls') as K by (apply S, A; exists s, c, d, x; auto).
  apply A' in K as (s' & c' & d' & x' & H' & X' & E). apply line_reads in E as (<- & <- & <-). exists c'. split; [exact H'|].
  intros e' Hs' Hw' Hc'. apply (C45_text_determines_expression_partial "dest" c c' e e' Hs Hs' Hw Hc Hw' Hc').
  assert (forall t f, stands "dest" t f -> code t x -> tocode "dest" t = Ok x) as K by (intros t f St; destruct St; auto).
  rewrite (K c e Hs X), (K c' e' Hs' X'). reflexivity.
Qed.
Print Assumptions C70_view_determines.
Example C70_view_met :
  view machine_ex = (["any -- (top_err==1'd1)--> 7"; "0 --None--> 1"; "1 --(top_go==1'd1)--> 3"; "1 --top_stop--> 0"]%string, None) /\
  has machine_ex (Some 1, eq1 "go", 3) /\ stands "dest" (eq1 "go") (XBin Eq (XId "top_go") (XInt "1'd1")) /\
  written (XBin Eq (XId "top_go") (XInt "1'd1")) /\ codable (XBin Eq (XId "top_go") (XInt "1'd1")) = true.
Proof.
  split; [vm_compute; reflexivity|]. split; [exists [(eq1 "go", 3); (x_is "stop", 0)]; cbn; auto|].
  split; [constructor; [apply (st_term "dest" [Label "top" STmodule None; Label "go" STsignal None])|apply (st_value "dest" 1 1 false); lia]|].
  split; [|reflexivity]. constructor; [reflexivity|..]; econstructor.
  - left. exact (simple_of "top_go" eq_refl).
  - exact (proj1 (C45_values_are_numbers 1 1 ltac:(lia) ltac:(lia))).
Qed.

(** C70 is false of view: a condition with a unary plus has no text, and the listing ends there with an exception. *)
Theorem C70_view_refuted : exists m, has m (Some 1, DNone, 2) /\ (forall s c d, has m (s, c, d) -> c <> DDelay DNone) /\ view m = (["0 --top_a--> 1"]%string, Some TypeError).
Proof.
  exists (Machine [(0, [(x_is "a", 1); (DOp [DOp [x_is "b"] Uplus; x_is "c"] Eq, 2)]); (1, [(DNone, 2)])] []).
  split; [exists [(DNone, 2)]; cbn; auto|]. split; [|vm_compute; reflexivity].
  intros [s|] c d; cbn; [|tauto]. intros (dd & [E|[E|[]]] & K); injection E as <- <-; cbn in K; destruct K as [K|K]; try destruct K as [K|K]; try (now destruct K); injection K as <- <-; discriminate.
Qed.
Print Assumptions C70_view_refuted.

(** C70 (tograph): the nodes are the states and the targets of transitions from any state (if there is a state), each once
    and named by its number; there is one edge from s to d exactly if a transition leads from s to d; its label is the str()
    of the condition of such a transition, or empty with nolabel. *)
Theorem C70_graph : forall nolabel m g, tograph nolabel m = Ok g ->
  NoDup (map fst (g_nodes g)) /\ NoDup (map fst (g_edges g)) /\
  (forall n, In n (map fst (g_nodes g)) <-> exists s, n = z_str s /\ (known m s \/ (exists q, source m q) /\ exists c, has m (None, c, s))) /\
  (forall n l, In (n, l) (g_nodes g) -> l = n) /\
  (forall a b, In (a, b) (map fst (g_edges g)) <-> exists s d c, a = z_str s /\ b = z_str d /\ leads m s d c) /\
  (forall s d l, In ((z_str s, z_str d), l) (g_edges g) -> if nolabel then l = ""%string else exists c, leads m s d c /\ str_cond c = Ok l).
Proof.
  intros nolabel m g E. destruct (tograph_drawn nolabel m g E) as [A B C D F G].
  split; [exact A|]. split; [exact B|]. split; [|split; [exact D|]; split; [exact F|exact G]].
  intros n. rewrite C. assert (m_fsm m <> [] <-> exists q, source m q) as K.
  { unfold source. destruct (m_fsm m) as [|[q dd] f]; cbn; [|split; [exists q; auto|discriminate]]. split; [congruence|intros (? & [])]. }
  split; intros (s & -> & H); exists s; (split; [reflexivity|]); rewrite K in *; exact H.
Qed.
Print Assumptions C70_graph.
Theorem C70_graph_succeeds : forall nolabel m, (forall s c d, has m (s, c, d) -> nolabel = true \/ exists l, str_cond c = Ok l) ->
  exists g, tograph nolabel m = Ok g.
Proof.
  intros nolabel m H. destruct nolabel eqn:EN.
  - apply tograph_total; [now left|intros p _; now left].
  - apply tograph_total.
    + right. apply Forall_forall. intros [c d] K. destruct (H None c d K) as [?|?]; [discriminate|auto].
    + intros [q dd] Hp. right. apply Forall_forall. intros [c d] K. destruct (H (Some q) c d) as [?|?]; [exists dd; auto|discriminate|auto].
Qed.
Print Assumptions C70_graph_succeeds.

(** After resolve() there is one transition per state and target, so that the edges of a machine without transitions from
    any state carry the label of their only condition. *)
Lemma by_dst_nodup optimize items : forall acc r, NoDup (map fst acc) -> by_dst optimize items acc = Ok r -> NoDup (map fst r).
Proof.
  induction items as [|[c d] items IH]; intros acc r H E; cbn [by_dst] in E; [now injection E as <-|].
  destruct (zget acc d) as [cur|]; [|apply IH in E; [exact E|now apply zset_keys]].
  destruct (is_none cur); [now apply IH in E|]. destruct (is_none c); [apply IH in E; [exact E|now apply zset_keys]|].
  destruct (optimize _) as [o|]; cbn [bind] in E; [|discriminate]. apply IH in E; [exact E|now apply zset_keys].
Qed.
Lemma cput_values d : forall c v r, cput d c v = Ok r -> forall x, In x (map snd r) -> x = v \/ In x (map snd d).
Proof.
  induction d as [|[c' v'] d IH]; intros c v r E x; cbn [cput] in E.
  - injection E as <-. cbn. intuition.
  - destruct (df_eq c' c) as [[|]|]; cbn [bind] in E; [|destruct (cput d c v) as [r'|] eqn:Er; cbn [bind] in E|]; try discriminate; injection E as <-; cbn; [intuition|].
    intros [<-|H]; [auto|]. destruct (IH _ _ _ Er x H); auto.
Qed.
Lemma cput_distinct d : forall c v r, cput d c v = Ok r -> NoDup (map snd d) -> ~ In v (map snd d) -> NoDup (map snd r).
Proof.
  induction d as [|[c' v'] d IH]; intros c v r E H N; cbn [cput] in E.
  - injection E as <-. repeat constructor. auto.
  - cbn in H, N. inversion H as [|? ? H1 H2]; subst.
    destruct (df_eq c' c) as [[|]|]; cbn [bind] in E; [|destruct (cput d c v) as [r'|] eqn:Er; cbn [bind] in E|]; try discriminate; injection E as <-; cbn; constructor.
    + tauto.
    + exact H2.
    + intros K. destruct (cput_values _ _ _ _ Er _ K) as [->|?]; tauto.
    + apply (IH _ _ _ Er H2). tauto.
Qed.
Lemma by_cond_distinct items : forall acc r, by_cond items acc = Ok r -> NoDup (map fst items) -> NoDup (map snd acc) ->
  (forall x, In x (map fst items) -> ~ In x (map snd acc)) -> NoDup (map snd r).
Proof.
  induction items as [|[d c] items IH]; intros acc r E H A N; cbn [by_cond] in E; [now injection E as <-|].
  destruct (always_true c) as [t|]; cbn [bind] in E; [|discriminate].
  destruct (cput acc (if t then DNone else c) d) as [acc'|] eqn:Ea; cbn [bind] in E; [|discriminate].
  cbn in H. inversion H as [|? ? H1 H2]; subst. apply (IH _ _ E H2).
  - apply (cput_distinct _ _ _ _ Ea A). apply N. now left.
  - intros x Hx K. destruct (cput_values _ _ _ _ Ea _ K) as [->|K']; [now apply H1|]. apply (N x); [now right|exact K'].
Qed.
Lemma zset_in {V} (d : list (Z * V)) k v x y : In (x, y) (zset d k v) -> In (x, y) d \/ (x = k /\ y = v).
Proof.
  induction d as [|[k' v'] d IH]; cbn [zset In]; [intros [E|[]]; injection E as <- <-; auto|].
  destruct (Z.eqb_spec k' k) as [->|N]; cbn [In]; intros [E|H]; auto; [injection E as <- <-; auto|]. destruct (IH H); auto.
Qed.
Lemma resolve_all_distinct optimize items : forall acc r, resolve_all optimize items acc = Ok r -> NoDup (map fst acc) ->
  (forall s dd, In (s, dd) acc -> NoDup (map snd dd)) -> NoDup (map fst r) /\ forall s dd, In (s, dd) r -> NoDup (map snd dd).
Proof.
  induction items as [|[s dd] items IH]; intros acc r E H A; cbn [resolve_all] in E; [injection E as <-; auto|].
  destruct (resolve_src optimize dd) as [dd'|] eqn:Ed; cbn [bind] in E; [|discriminate]. apply (IH _ _ E); [now apply zset_keys|].
  intros x y K. apply zset_in in K as [K|[-> ->]]; [now apply (A x)|].
  unfold resolve_src in Ed. destruct (by_dst optimize _ []) as [l|] eqn:El; cbn [bind] in Ed; [|discriminate].
  apply by_dst_nodup in El; [|constructor]. apply (by_cond_distinct _ _ _ Ed El); [constructor|auto].
Qed.
Theorem C70_graph_resolved : forall optimize m m' g, resolve optimize m = Ok m' -> m_any m = [] -> tograph false m' = Ok g ->
  forall s c d, has m' (Some s, c, d) -> exists l, str_cond c = Ok l /\ In ((z_str s, z_str d), l) (g_edges g).
Proof.
  intros optimize m m' g R HA E s c d H. unfold resolve in R. destruct (resolve_all optimize _ []) as [f|] eqn:Ef; cbn [bind] in R; [|discriminate].
  injection R as <-. apply resolve_all_distinct in Ef as [N D]; [|constructor|intros ? ? []].
  destruct (C70_graph _ _ _ E) as (_ & _ & _ & _ & B & L). cbn [m_fsm m_any] in *.
  assert (In (z_str s, z_str d) (map fst (g_edges g))) as K by (apply B; exists s, d, c; split; [auto|]; split; [auto|now left]).
  apply in_map_iff in K as ([p l] & K1 & K2). cbn in K1. subst p. destruct (L s d l K2) as (c' & [H'|[_ H']] & E'); [|cbn in H'; rewrite HA in H'; destruct H'].
  cbn in H, H'. destruct H as (dd & I1 & I2), H' as (dd' & I1' & I2').
  assert (dd = dd') as <-.
  { clear - N I1 I1'. induction f as [|[k v] f IH]; [destruct I1|]. cbn in N. inversion N as [|? ? N1 N2]; subst. cbn in I1, I1'.
    destruct I1 as [I1|I1], I1' as [I1'|I1'].
    - congruence.
    - injection I1 as -> ->. destruct N1. apply in_map_iff. now exists (s, dd').
    - injection I1' as -> ->. destruct N1. apply in_map_iff. now exists (s, dd).
    - auto. }
  assert (c = c') as <-.
  { specialize (D s dd I1). clear - D I2 I2'. induction dd as [|[k v] f IH]; [destruct I2|]. cbn in D. inversion D as [|? ? N1 N2]; subst. cbn in I2, I2'.
    destruct I2 as [I1|I1], I2' as [I1'|I1'].
    - congruence.
    - injection I1 as -> ->. destruct N1. apply in_map_iff. now exists (c', d).
    - injection I1' as -> ->. destruct N1. apply in_map_iff. now exists (c, d).
    - auto. }
  now exists l.
Qed.
Print Assumptions C70_graph_resolved.
Example C70_graph_met :
  tograph false machine_ex = Ok (Graph [("0", "0"); ("1", "1"); ("3", "3"); ("7", "7")]%string
    [(("0", "1"), "None"); (("1", "3"), "Eq"); (("1", "0"), "top.stop"); (("0", "7"), "Eq"); (("1", "7"), "Eq")]%string) /\
  (forall s c d, has machine_ex (s, c, d) -> exists l, str_cond c = Ok l) /\
  exists m', resolve (fun t => Ok t) (Machine (m_fsm machine_ex) []) = Ok m' /\ exists g, tograph false m' = Ok g.
Proof.
  split; [vm_compute; reflexivity|]. split; [|eexists; split; [vm_compute; reflexivity|]; eexists; vm_compute; reflexivity].
  intros [s|] c d; cbn; [|intros [K|[]]; injection K as <- <-; eexists; reflexivity].
  intros (dd & [E|[E|[]]] & K); injection E as <- <-; cbn in K; [destruct K as [K|[]]|destruct K as [K|[K|[]]]]; injection K as <- <-; eexists; reflexivity.
Qed.

(** C70 is false of tograph: a transition from any state replaces the label of the edge of another transition between the
    same states; and labels are the names of the operators: different conditions have the same label. *)
Theorem C70_graph_refuted :
  (exists m g s d c l, tograph false m = Ok g /\ has m (Some s, c, d) /\ str_cond c = Ok l /\ forall l', In ((z_str s, z_str d), l') (g_edges g) -> l' <> l) /\
  (exists m m' g, tograph false m = Ok g /\ tograph false m' = Ok g /\ view m <> view m').
Proof.
  split.
  - exists (Machine [(0, [(x_is "go", 1)])] [(eq1 "err", 1)]), (Graph [("0", "0"); ("1", "1")] [(("0", "1"), "Eq")])%string, 0, 1, (x_is "go"), "top.go"%string.
    split; [vm_compute; reflexivity|]. split; [exists [(x_is "go", 1)]; cbn; auto|]. split; [vm_compute; reflexivity|].
    intros l' [K|[]]. injection K as <-. discriminate.
  - exists (Machine [(0, [(eq1 "go", 1)])] []), (Machine [(0, [(eq1 "err", 1)])] []), (Graph [("0", "0"); ("1", "1")] [(("0", "1"), "Eq")])%string.
    split; [vm_compute; reflexivity|]. split; [vm_compute; reflexivity|]. vm_compute. discriminate.
Qed.
Print Assumptions C70_graph_refuted.
