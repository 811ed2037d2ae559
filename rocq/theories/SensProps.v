(** SensProps.v - C62: what an always block is sensitive to: its clock and its reset.
    Spec: [clock_word], [reset_word], [item_is], [recorded], [mixed] (SensSpec.v), [visible] (ConSpec.v). *)
From Verif Require Import Base ScopeModel DfModel BindModel ExprModel StmModel StmSpec StmSound StmFuel ConModel ConSpec ConProofs2 MachModel MachSpec SensModel SensSpec SensProofs SensProofs2.

Section C62.
  Variable is_module : chain -> bool.
  Variable s : store.
  Variable scope : chain.
  Notation sees := (visible is_module s scope).
  Notation analyse := (createAlwaysinfo is_module s scope).
  Definition triple (o : option event) : option (option chain * edge * Z) := match o with Some (Event c k n) => Some (c, k, n) | None => None end.
  Lemma triple_pick o : triple o = pick3 o.
  Proof. now destruct o as [[]|]. Qed.

  (** Which names are taken for clocks and resets. *)
  Theorem C62_clock_and_reset_names : forall x, (isClock x = true <-> clock_word x) /\ (isReset x = true <-> reset_word x).
  Proof. intros x. split; [apply isClock_word|apply isReset_word]. Qed.
  (** A list is accepted exactly if its signals and bits can be told and it does not mix clocks and resets with others;
      a mixed one is refused with FormatError. *)
  Theorem C62_accepted : forall l, Forall bare_index l -> ((exists a, analyse l = Ok a) <-> Forall clear l /\ ~ mixed l).
  Proof. exact (create_iff is_module s scope). Qed.
  Theorem C62_mixed_refused : forall l, Forall bare_index l -> (analyse l = Err FormatError <-> Forall clear l /\ mixed l).
  Proof. exact (create_format is_module s scope). Qed.
  (** What is recorded: the last clock, the last reset, and the other items in order. *)
  Theorem C62_recorded : forall l a, Forall bare_index l -> analyse l = Ok a ->
    recorded sees is_clock l (triple (se_clock a)) /\ recorded sees is_reset l (triple (se_reset a)) /\ only other_item l (se_others a).
  Proof. intros l a B H. rewrite !triple_pick. exact (create_says is_module s scope l a B H). Qed.

  Lemma last_item P l i k x n : last_with P l i -> item_is i k x n -> Forall bare_index l -> forall i' k' x' n', last_with P l i' -> item_is i' k' x' n' -> k = k' /\ x = x' /\ n = n'.
  Proof.
    intros (a & b & E & Pi & F) I B i' k' x' n' (a' & b' & E' & Pi' & F') I'.
    assert (i = i') as <-.
    { subst l. clear -E' Pi Pi' F F'. revert a' E'. induction a as [|y a IH]; intros [|z a'] E'; cbn in E'; injection E' as E1 E2.
      - exact E1.
      - exfalso. rewrite E2, Forall_forall in F. exact (F i' (in_elt _ _ _) Pi').
      - exfalso. rewrite <- E2, Forall_forall in F'. exact (F' i (in_elt _ _ _) Pi).
      - exact (IH a' E2). }
    destruct (item_is_fun i k x n k' x' n' I I') as (A & C & D). split; [exact A|]. split; [exact C|]. apply D.
    rewrite Forall_forall in B. apply B. rewrite E. apply in_or_app. right. now left.
  Qed.
  Lemma edged_is k : edge_is (Some (edge_name k)) "posedge" || edge_is (Some (edge_name k)) "negedge" = true <-> edged k.
  Proof. destruct k; cbn; unfold edged; split; auto; try discriminate; intros [|]; discriminate. Qed.
  Lemma name_full o : cname_empty (event_name o) = false.
  Proof. destruct o as [[[c|] k n]|]; reflexivity. Qed.

  (** When the block counts as clocked, as combinational, as reset by an edge. *)
  Theorem C62_clocked_when : forall l a, Forall bare_index l -> analyse l = Ok a ->
    (always_isClockEdge (always_of a) = true <-> exists i k x n, last_with is_clock l i /\ item_is i k x n /\ edged k).
  Proof.
    intros l a B H. destruct (C62_recorded l a B H) as (R & _). unfold always_isClockEdge. cbn [always_of clock_name clock_edge]. rewrite name_full. cbn [negb andb].
    destruct (se_clock a) as [[c k n]|]; cbn [triple recorded] in R; cbn [event_edge ev_edge].
    - rewrite edged_is. destruct R as (i & x & L & I & _). split; [intros K; exists i, k, x, n; auto|].
      intros (i' & k' & x' & n' & L' & I' & K). destruct (last_item _ _ _ _ _ _ L I B _ _ _ _ L' I') as (-> & _). exact K.
    - split; [discriminate|]. intros (i & k & x & n & (p & q & -> & Pi & _) & _). rewrite Forall_forall in R. exfalso. exact (R i (in_elt _ _ _) Pi).
  Qed.
  Theorem C62_reset_when : forall l a, Forall bare_index l -> analyse l = Ok a ->
    (always_isResetEdge (always_of a) = true <-> exists i k x n, last_with is_reset l i /\ item_is i k x n /\ edged k).
  Proof.
    intros l a B H. destruct (C62_recorded l a B H) as (_ & R & _). unfold always_isResetEdge. cbn [always_of reset_name reset_edge]. rewrite name_full. cbn [negb andb].
    destruct (se_reset a) as [[c k n]|]; cbn [triple recorded] in R; cbn [event_edge ev_edge].
    - rewrite edged_is. destruct R as (i & x & L & I & _). split; [intros K; exists i, k, x, n; auto|].
      intros (i' & k' & x' & n' & L' & I' & K). destruct (last_item _ _ _ _ _ _ L I B _ _ _ _ L' I') as (-> & _). exact K.
    - split; [discriminate|]. intros (i & k & x & n & (p & q & -> & Pi & _) & _). rewrite Forall_forall in R. exfalso. exact (R i (in_elt _ _ _) Pi).
  Qed.
  Theorem C62_combinational_when : forall l a, Forall bare_index l -> analyse l = Ok a ->
    (always_isCombination (always_of a) = true <->
     Forall (fun i => ~ is_clock i) l \/ exists i k x n, last_with is_clock l i /\ item_is i k x n /\ forall c, ~ sees x c).
  Proof.
    intros l a B H. destruct (C62_recorded l a B H) as (R & _). unfold always_isCombination. cbn [always_of clock_name].
    destruct (se_clock a) as [[c k n]|]; cbn [triple recorded] in R; cbn [event_name].
    - destruct R as (i & x & L & I & Fd). destruct c as [c|]; cbn [found] in Fd.
      + split; [discriminate|]. intros [K|(i' & k' & x' & n' & L' & I' & K)].
        * destruct L as (p & q & -> & Pi & _). rewrite Forall_forall in K. exfalso. exact (K i (in_elt _ _ _) Pi).
        * destruct (last_item _ _ _ _ _ _ L I B _ _ _ _ L' I') as (_ & <- & _). exfalso. exact (K c Fd).
      + split; [|reflexivity]. intros _. right. exists i, k, x, n. auto.
    - split; [|reflexivity]. intros _. now left.
  Qed.

  (** ** Always blocks that the parser delivers *)
  Definition edges (l : list sensitem) : Prop := l <> [] /\ Forall (fun i => exists k e, i = SSig k e /\ edged k) l.
  Definition levels (l : list sensitem) : Prop := l <> [] /\ Forall (fun i => exists e, i = SSig Level e) l.
  Lemma parsed_bare : forall n text k l b, parse_item n text = Ok (IAlways k l b) -> Forall bare_index l /\ (l = [SAll] \/ edges l \/ levels l).
  Proof.
    intros n text k l b H. apply parse_item_sound in H. destruct H as (W & _). split; [exact (sens_bare l W)|].
    destruct W as [->|[N [W|W]]]; [now left|right; left|right; right]; (split; [exact N|]); (eapply Forall_impl; [|exact W]); intros i Hi.
    - destruct i as [|[| |] e]; cbn in Hi; try contradiction; (eexists _, e; split; [reflexivity|]); [now left|now right].
    - destruct i as [|[| |] e]; cbn in Hi; try contradiction. now exists e.
  Qed.
  Theorem C62_parsed_lists : forall n text k l b, parse_item n text = Ok (IAlways k l b) ->
    (l = [SAll] \/ edges l \/ levels l) /\
    ((exists a, analyse l = Ok a) <-> Forall clear l /\ ~ mixed l).
  Proof. intros n text k l b H. destruct (parsed_bare _ _ _ _ _ H) as [B S]. split; [exact S|]. now apply C62_accepted. Qed.

  (** Full statement: a block is clocked exactly if its list consists of edges, by the first edge that is not a reset;
      combinational exactly if it has none. Proved: where clocks and resets have such names. *)
  Theorem C62_clocked_partial : forall n text ak l b, parse_item n text = Ok (IAlways ak l b) -> edges l ->
    Forall (fun i => is_clock i \/ is_reset i) l ->
    forall i k x m c, last_with is_clock l i -> item_is i k x m -> sees x c ->
    exists a, analyse l = Ok a /\ always_isClockEdge (always_of a) = true /\ always_isCombination (always_of a) = false /\
      clock_name (always_of a) = CName c /\ clock_edge (always_of a) = Some (edge_name k) /\ clock_bit (always_of a) = m /\
      (forall j kr y mr cr, last_with is_reset l j -> item_is j kr y mr -> sees y cr ->
         always_isResetEdge (always_of a) = true /\ reset_name (always_of a) = CName cr /\ reset_edge (always_of a) = Some (edge_name kr) /\ reset_bit (always_of a) = mr).
  Proof.
    intros n text ak l b H HE F i k x m c L I V. destruct (parsed_bare _ _ _ _ _ H) as [B _].
    assert (CL : Forall clear l). { eapply Forall_impl; [|exact F]. intros j [(k' & x' & n' & K & _)|(k' & x' & n' & K & _)]; right; exists k', x', n'; exact K. }
    assert (NM : ~ mixed l).
    { intros [K _]. apply Exists_exists in K as (j & Hj & (k' & x' & n' & K1 & K2 & K3)). rewrite Forall_forall in F.
      destruct (F j Hj) as [Q|Q]; apply (class j k' x' n' K1) in Q; tauto. }
    destruct (proj2 (C62_accepted l B) (conj CL NM)) as (a & Ha). exists a. split; [exact Ha|].
    assert (ED : forall j kj y mj, In j l -> item_is j kj y mj -> edged kj).
    { intros j kj y mj Hj (e & -> & _). destruct HE as [_ HE]. rewrite Forall_forall in HE. destruct (HE _ Hj) as (k' & e' & E & K). injection E as -> _. exact K. }
    assert (LI : forall P j, last_with P l j -> In j l). { intros P j (p & q & -> & _). apply in_or_app. right. now left. }
    destruct (C62_recorded l a B Ha) as (R & RR & _).
    split; [apply (C62_clocked_when l a B Ha); exists i, k, x, m; split; [exact L|]; split; [exact I|exact (ED _ _ _ _ (LI _ _ L) I)]|].
    split.
    { destruct (always_isCombination (always_of a)) eqn:E; [|reflexivity]. apply (C62_combinational_when l a B Ha) in E. destruct E as [E|(i' & k' & x' & n' & L' & I' & K)].
      - rewrite Forall_forall in E. exfalso. apply (E i (LI _ _ L)). destruct L as (_ & _ & _ & Pi & _). exact Pi.
      - destruct (last_item _ _ _ _ _ _ L I B _ _ _ _ L' I') as (_ & <- & _). exfalso. exact (K c V). }
    cbn [always_of clock_name clock_edge clock_bit reset_name reset_edge reset_bit]. 
    assert (FS : forall y o d, found sees y o -> sees y d -> o = Some d).
    { intros y [o|] d Fo Vd; cbn [found] in Fo; [f_equal; exact (visible_fun is_module s scope y _ _ Fo Vd)|exfalso; exact (Fo d Vd)]. }
    destruct (se_clock a) as [[c0 k0 n0]|]; cbn [triple recorded] in R.
    2: { exfalso. rewrite Forall_forall in R. apply (R i (LI _ _ L)). destruct L as (_ & _ & _ & Pi & _). exact Pi. }
    destruct R as (i0 & x0 & L0 & I0 & F0). destruct (last_item _ _ _ _ _ _ L I B _ _ _ _ L0 I0) as (<- & <- & <-). rewrite (FS _ _ _ F0 V). cbn [event_name event_edge event_bit ev_edge ev_bit].
    split; [reflexivity|]. split; [reflexivity|]. split; [reflexivity|].
    intros j kr y mr cr Lr Ir Vr. split; [apply (C62_reset_when l a B Ha); exists j, kr, y, mr; split; [exact Lr|]; split; [exact Ir|exact (ED _ _ _ _ (LI _ _ Lr) Ir)]|].
    destruct (se_reset a) as [[c1 k1 n1]|]; cbn [triple recorded] in RR.
    2: { exfalso. rewrite Forall_forall in RR. apply (RR j (LI _ _ Lr)). destruct Lr as (_ & _ & _ & Pi & _). exact Pi. }
    destruct RR as (i1 & x1 & L1 & I1 & F1). destruct (last_item _ _ _ _ _ _ Lr Ir B _ _ _ _ L1 I1) as (<- & <- & <-). rewrite (FS _ _ _ F1 Vr).
    split; [reflexivity|]. split; reflexivity.
  Qed.
  Theorem C62_combinational_partial : forall n text ak l b, parse_item n text = Ok (IAlways ak l b) -> l = [SAll] \/ levels l ->
    Forall clear l -> Forall (fun i => ~ is_clock i /\ ~ is_reset i) l ->
    exists a, analyse l = Ok a /\ always_isClockEdge (always_of a) = false /\ always_isCombination (always_of a) = true /\ always_isResetEdge (always_of a) = false /\
      (levels l -> se_others a = l) /\ (l = [SAll] -> se_others a = []).
  Proof.
    intros n text ak l b H HL CL F. destruct (parsed_bare _ _ _ _ _ H) as [B _].
    assert (NM : ~ mixed l).
    { intros [_ [K|K]]; apply Exists_exists in K as (j & Hj & K); rewrite Forall_forall in F; destruct (F j Hj); tauto. }
    destruct (proj2 (C62_accepted l B) (conj CL NM)) as (a & Ha). exists a. split; [exact Ha|]. destruct (C62_recorded l a B Ha) as (_ & _ & O).
    assert (LI : forall P j, last_with P l j -> In j l /\ P j). { intros P j (p & q & -> & Pj & _). split; [|exact Pj]. apply in_or_app. right. now left. }
    rewrite Forall_forall in F.
    split. { destruct (always_isClockEdge (always_of a)) eqn:E; [|reflexivity]. apply (C62_clocked_when l a B Ha) in E. destruct E as (i & k & x & m & L & _). destruct (LI _ _ L) as [L1 L2]. destruct (F i L1); tauto. }
    split. { apply (C62_combinational_when l a B Ha). left. apply Forall_forall. intros i Hi. exact (proj1 (F i Hi)). }
    split. { destruct (always_isResetEdge (always_of a)) eqn:E; [|reflexivity]. apply (C62_reset_when l a B Ha) in E. destruct E as (i & k & x & m & L & _). destruct (LI _ _ L) as [L1 L2]. destruct (F i L1); tauto. }
    split.
    - intros [_ HL']. clear - O CL F HL'. induction O as [|i l r Pi O IH|i l r Pi O IH]; [reflexivity| |].
      + inversion CL; inversion HL'; subst. f_equal. apply IH; auto. intros j Hj. apply F. now right.
      + exfalso. inversion CL as [|? ? [->|(k & x & n & K)] _]; inversion HL' as [|? ? (e & E) _]; subst; [discriminate|].
        destruct (F _ (or_introl eq_refl)) as [N1 N2]. destruct (class _ k x n K) as (C1 & C2 & C3). apply Pi, C3. split; intros W; [tauto|].
        apply N2, C2. split; [|exact W]. tauto.
    - intros ->. inversion O as [|? ? ? Pi _|? ? ? _ O2]; subst; [exfalso; exact (proj2 (proj2 no_class) Pi)|]. inversion O2. reflexivity.
  Qed.
End C62.

(** ** Examples: module top with clk, rst_n, CLOCK, start, a, burst_en, vec. *)
Local Open Scope string_scope.
Definition top62 : chain := [Label "top" STmodule None].
Definition mod62 (c : chain) : bool := match rev c with Label _ STmodule _ :: _ => true | _ => false end.
Definition gen62 : chain := [Label "top" STmodule None; Label "g" STgenerate None].
Definition T62 (x : string) : chain * term := (net top62 x, Term (net top62 x) ["Input"] (DInt "0") (DInt "0") None).
Definition s62 : store := Store [T62 "clk"; T62 "rst_n"; T62 "CLOCK"; T62 "start"; T62 "a"; T62 "burst_en"; T62 "vec"] [].
(** The always block in scope [gen62]: what the text is analysed as. *)
Definition always62 (text : string) : res alwaysinfo :=
  do i <- parse_item 60 text;
  match i with IAlways _ l _ => do a <- createAlwaysinfo mod62 s62 gen62 l; Ok (always_of a) | IInitial _ => Err Unmodelled end.
Definition clocked62 (r : res alwaysinfo) : option (bool * bool) := match r with Ok a => Some (always_isClockEdge a, always_isCombination a) | Err _ => None end.

Example C62_clocked_met : exists l b, parse_item 60 "always @(posedge clk or negedge rst_n) q <= d;" = Ok (IAlways KAlways l b) /\ edges l /\
  Forall (fun i => is_clock i \/ is_reset i) l /\ last_with is_clock l (SSig Posedge (XId "clk")) /\ item_is (SSig Posedge (XId "clk")) Posedge "clk" 0 /\
  visible mod62 s62 gen62 "clk" (net top62 "clk") /\
  last_with is_reset l (SSig Negedge (XId "rst_n")) /\ item_is (SSig Negedge (XId "rst_n")) Negedge "rst_n" 0 /\ visible mod62 s62 gen62 "rst_n" (net top62 "rst_n") /\
  always62 "always @(posedge clk or negedge rst_n) q <= d;" = Ok (Always (CName (net top62 "clk")) (Some "posedge") 0 (CName (net top62 "rst_n")) (Some "negedge") 0).
Proof.
  assert (I1 : item_is (SSig Posedge (XId "clk")) Posedge "clk" 0) by (exists (XId "clk"); split; [reflexivity|]; split; [constructor|apply ba_whole; discriminate]).
  assert (I2 : item_is (SSig Negedge (XId "rst_n")) Negedge "rst_n" 0) by (exists (XId "rst_n"); split; [reflexivity|]; split; [constructor|apply ba_whole; discriminate]).
  assert (C1 : is_clock (SSig Posedge (XId "clk"))) by (apply (class _ _ _ _ I1), isClock_word; reflexivity).
  assert (C2 : is_reset (SSig Negedge (XId "rst_n"))) by (apply (class _ _ _ _ I2); split; [intros K; apply isClock_word in K; discriminate|apply isReset_word; reflexivity]).
  assert (C3 : ~ is_clock (SSig Negedge (XId "rst_n"))) by (intros K; apply (class _ _ _ _ I2), isClock_word in K; discriminate).
  exists [SSig Posedge (XId "clk"); SSig Negedge (XId "rst_n")]. eexists. split; [vm_compute; reflexivity|].
  split; [split; [discriminate|]; constructor; [eexists _, _; split; [reflexivity|now left]|]; constructor; [eexists _, _; split; [reflexivity|now right]|constructor]|].
  split; [constructor; [now left|]; constructor; [now right|constructor]|].
  split; [exists [], [SSig Negedge (XId "rst_n")]; split; [reflexivity|]; split; [exact C1|constructor; [exact C3|constructor]]|]. split; [exact I1|].
  split; [apply search_visible; vm_compute; reflexivity|].
  split; [exists [SSig Posedge (XId "clk")], []; split; [reflexivity|]; split; [exact C2|constructor]|]. split; [exact I2|].
  split; [apply search_visible; vm_compute; reflexivity|]. vm_compute. reflexivity.
Qed.
Example C62_combinational_met : exists l b, parse_item 60 "always @(a or start[3:0]) q = d;" = Ok (IAlways KAlways l b) /\ levels l /\ Forall clear l /\ Forall (fun i => ~ is_clock i /\ ~ is_reset i) l.
Proof.
  assert (I1 : item_is (SSig Level (XId "a")) Level "a" 0) by (exists (XId "a"); split; [reflexivity|]; split; [constructor|apply ba_whole; discriminate]).
  assert (I2 : item_is (SSig Level (XPart (XId "start") (XInt "3") (XInt "0"))) Level "start" 0) by (eexists; split; [reflexivity|]; split; [repeat constructor|apply ba_whole; discriminate]).
  eexists _, _. split; [vm_compute; reflexivity|].
  split; [split; [discriminate|]; constructor; [eexists; reflexivity|]; constructor; [eexists; reflexivity|constructor]|].
  split; [constructor; [right; exists Level, "a", 0%Z; exact I1|]; constructor; [right; exists Level, "start", 0%Z; exact I2|constructor]|].
  constructor; [|constructor; [|constructor]].
  - split; intros K; [apply (class _ _ _ _ I1), isClock_word in K|apply (class _ _ _ _ I1), proj2, isReset_word in K]; discriminate K.
  - split; intros K; [apply (class _ _ _ _ I2), isClock_word in K|apply (class _ _ _ _ I2), proj2, isReset_word in K]; discriminate K.
Qed.
(** A bit of a vector as a clock. *)
Example C62_clock_bit : always62 "always @(posedge CLOCK[1_0]) q <= d;" = Ok (Always (CName (net top62 "CLOCK")) (Some "posedge") 10 CNone None 0).
Proof. vm_compute. reflexivity. Qed.

(** An edge of a signal that is not named like a clock: the block is not clocked but combinational. *)
Theorem C62_unnamed_clock_refuted : clocked62 (always62 "always @(posedge start) q <= d;") = Some (false, true) /\
  clocked62 (always62 "always @(posedge start or negedge a) q <= d;") = Some (false, true).
Proof. split; [vm_compute; reflexivity|]. vm_compute. reflexivity. Qed.
(** Legal lists that are refused: combinational ones where a name contains "rst" or "clk", and a clock with an asynchronous set. *)
Theorem C62_legal_list_refuted : always62 "always @(burst_en or a) q = d;" = Err FormatError /\ always62 "always @(clk_en or a) q = d;" = Err FormatError /\
  always62 "always @(posedge clk or posedge start) q <= d;" = Err FormatError.
Proof. split; [vm_compute; reflexivity|]. split; [vm_compute; reflexivity|]. vm_compute. reflexivity. Qed.
(** A block that waits for changes of a signal named like a clock is neither clocked nor combinational. *)
Theorem C62_level_clock_refuted : clocked62 (always62 "always @(clk) q = d;") = Some (false, false).
Proof. vm_compute. reflexivity. Qed.
(** With a clock that is not declared, it is both. *)
Theorem C62_undeclared_clock_refuted : clocked62 (always62 "always @(posedge sysclk) q <= d;") = Some (true, true).
Proof. vm_compute. reflexivity. Qed.
(** Of several clocks the last is taken, and a reset whose name contains "clk" or "clock" is taken for the clock. *)
Theorem C62_two_clocks_refuted :
  always62 "always @(posedge clk or posedge CLOCK) q <= d;" = Ok (Always (CName (net top62 "CLOCK")) (Some "posedge") 0 CNone None 0) /\
  always62 "always @(posedge CLOCK or negedge rst_n_clk) q <= d;" = Ok (Always CNone (Some "negedge") 0 CNone None 0).
Proof. split; [vm_compute; reflexivity|]. vm_compute. reflexivity. Qed.
(** Indices that are not plain decimal literals end in other exceptions. *)
Theorem C62_index_refuted : always62 "always @(vec[a]) q = d;" = Err AttributeError /\ always62 "always @(posedge clk[1'b0]) q <= d;" = Err ValueError /\
  always62 "always @(vec[{2{a}}]) q = d;" = Err TypeError.
Proof. split; [vm_compute; reflexivity|]. split; [vm_compute; reflexivity|]. vm_compute. reflexivity. Qed.

Print Assumptions C62_clock_and_reset_names.
Print Assumptions C62_accepted.
Print Assumptions C62_mixed_refused.
Print Assumptions C62_recorded.
Print Assumptions C62_clocked_when.
Print Assumptions C62_reset_when.
Print Assumptions C62_combinational_when.
Print Assumptions C62_parsed_lists.
Print Assumptions C62_clocked_partial.
Print Assumptions C62_combinational_partial.
Print Assumptions C62_unnamed_clock_refuted.
Print Assumptions C62_legal_list_refuted.
Print Assumptions C62_level_clock_refuted.
Print Assumptions C62_undeclared_clock_refuted.
Print Assumptions C62_two_clocks_refuted.
Print Assumptions C62_index_refuted.
