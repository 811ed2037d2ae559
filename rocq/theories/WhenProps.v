(** WhenProps.v - C64: when a signal is active, changes or keeps its value. *)
From Verif Require Import Base ScopeModel ScopeProofs DfModel DfSpec DfProofs BindModel BindSpec BindProofs SplitModel SplitSpec SplitProofs
  TransModel TransSpec TransProofs TransProps FsmModel FsmSpec FsmProofs FsmProofs2 FsmProps MachModel MachSpec MachText MachProofs MachProofs2 MachProofs3 MachProps
  ActiveModel ActiveSpec ActiveProofs ActiveProofs2 ActiveProofs3 ActiveProofs4 ActiveProofs5 ActiveProofs6 ActiveProps
  WhenModel WhenSpec WhenProofs WhenProofs2 WhenProofs3.
Local Open Scope Z_scope.

(** C64 in full: for every state s and all inputs I, the report lists s under a condition that is true
    exactly if - reset aside - the signal comes to an active value. *)
Definition C64_full (r : list (chain * list (Z * df))) (tn sig : chain) (w : Z) (t : df) (active : df -> Prop) : Prop :=
  forall I s, setting sig w t I s -> (lists I r sig s <-> exists leaf, reaches I t active leaf).

(** The conditions, reset aside, on the routes to active values are such as the inference of states handles (C24). *)
Definition readable (t : df) (active : df -> bool) (sig : chain) (w : Z) : Prop :=
  forall k kept dropped leaf, route t k leaf -> active leaf = true -> parted k kept dropped -> analysable sig w kept.

(** C64, soundness: every register in the report is one of the state machines' or the signal itself, with at least
    one entry; and if one of its entries holds of the state and the inputs, then - reset aside - the
    signal comes to an active value. *)
Theorem C64_reports_real_partial : forall known makeTree getWidth optimize (P : interp -> Prop) fsms tn active t r,
  (forall I, P I -> logical I) -> simplifies P optimize ->
  known tn = true -> makeTree tn = Ok t -> proper_tree t -> no_hollow t = true ->
  getActiveConditions known makeTree getWidth optimize fsms tn active = Ok r ->
  forall sig l, In (sig, l) r -> (In sig fsms \/ sig = tn) /\ l <> [] /\ exists w, getWidth sig = Ok w /\
    (0 <= w -> readable t (active tn) sig w ->
     forall I s c, P I -> setting sig w t I s -> In (s, c) l -> c = DNone \/ i_truth I (eval I c) = true ->
     exists leaf, reaches I t (fun x => active tn x = true) leaf).
Proof.
  intros known makeTree getWidth optimize P fsms tn active t r HP Hopt Hk Et Ht Hh E sig l Hin.
  destruct (when_sound known makeTree getWidth optimize P HP Hopt fsms tn active r t Hk Et Ht Hh E sig l Hin) as (A & B & w & Ew & H).
  split; [exact A|]. split; [exact B|]. exists w. split; [exact Ew|]. intros Hw Ha I s c HI HS Hc HT.
  refine (H Hw Ha I s HI HS _). exists c. auto.
Qed.
Print Assumptions C64_reports_real_partial.

(** C64, completeness: if - reset aside - the signal comes to an active value along a route with a condition on
    the state of register sig, then that state is listed under a condition that is true. (The
    signal itself counts as register if no state machine's register is listed.) *)
Theorem C64_reports_complete_partial : forall known makeTree getWidth optimize (P : interp -> Prop) fsms tn active t r,
  (forall I, P I -> logical I) -> simplifies P optimize ->
  known tn = true -> makeTree tn = Ok t -> proper_tree t -> no_hollow t = true -> isBranch t = true ->
  getActiveConditions known makeTree getWidth optimize fsms tn active = Ok r ->
  forall sig w, In sig fsms \/ (sig = tn /\ forall f l, In f fsms -> ~ In (f, l) r) ->
  getWidth sig = Ok w -> 0 <= w -> readable t (active tn) sig w ->
  forall I s k kept dropped leaf, P I -> setting sig w t I s ->
    route t k leaf -> active tn leaf = true -> parted k kept dropped -> all_true I kept ->
    (exists c, In c kept /\ on_state sig c = true) -> lists I r sig s.
Proof.
  intros known makeTree getWidth optimize P fsms tn active t r HP Hopt Hk Et Ht Hh Hb E sig w Hsig Ew Hw Ha I s k kept dropped leaf HI HS R HC Pt HT (c & Hc & Ho).
  assert (In sig fsms \/ (sig = tn /\ forall f, In f fsms -> forall l, ~ In (f, l) r)) as Hsig' by (destruct Hsig as [H|[H1 H2]]; auto).
  destruct (when_complete known makeTree getWidth optimize P HP Hopt fsms tn active r t Hk Et Ht Hh Hb E sig w Hsig' Ew Hw Ha I s k kept dropped leaf HI HS R HC Pt HT) as (l & Hl & c' & Hc' & HT').
  { apply Exists_exists. eauto. }
  exists l, c'. auto.
Qed.
Print Assumptions C64_reports_complete_partial.

(** ** Conditions as ranges of values (active_range.py) *)

(** The kept conditions of every route to a good leaf are inferred exactly (C47). *)
Definition inferable (width : chain -> res Z) (t : df) (good : df -> Prop) : Prop :=
  forall k kept dropped leaf, route t k leaf -> good leaf -> parted k kept dropped ->
    exists c cs, kept = c :: cs /\ exact width (all_of c cs).
(** The inputs give the bitwise operators in the conditions on the routes of t their meaning. *)
Definition fitting (t : df) (I : interp) : Prop := forall k leaf, route t k leaf -> Forall (bitwise_logical I) k.

Lemma ranges_exact width t (good : df -> Prop) ls h r : proper_tree t -> no_hollow t = true -> isBranch t = true -> inferable width t good ->
  (forall l, In l ls <-> exists k f dropped, In (k, f) (paths t) /\ good f /\ parted k l dropped) ->
  infer_conditions width ls [] (Heap [] []) = Ok (h, r) ->
  forall I val, world width I val -> fitting t I -> (some_holds h r val <-> exists leaf, reaches I t good leaf).
Proof.
  intros Ht Hh Hb HL Hls E I val W F.
  assert (forall l, In l ls -> exists k f dropped, route t k f /\ good f /\ parted k l dropped) as Hr.
  { intros l Hl. apply Hls in Hl as (k & f & dr & A & B & C). destruct (paths_leaf t Hh k f A) as [L1 L2]. exists k, f, dr. split; [exact (paths_route t k f A L1 L2)|auto]. }
  rewrite (C47_conditions_exact_partial width ls h r) with (I := I); [|intros l Hl|exact E|exact W|].
  - split.
    + intros (l & Hl & HT). destruct (Hr l Hl) as (k & f & dr & A & B & C). exists f. split; [exact B|]. exists k, l, dr. auto.
    + intros (leaf & HG & k & kept & dr & R & Pt & HT). exists kept. split; [|exact HT]. apply Hls. exists k, leaf, dr. split; [exact (route_paths _ _ _ R Hb)|auto].
  - destruct (Hr l Hl) as (k & f & dr & A & B & C). exact (HL _ _ _ _ A B C).
  - apply Forall_forall. intros l Hl. destruct (Hr l Hl) as (k & f & dr & A & B & C). pose proof (F _ _ A) as Fk. rewrite Forall_forall in *. intros x Hx. apply Fk. apply (parted_in _ _ _ C). now left.
Qed.
Lemma no_routes t good I : isBranch t = true -> paths t = [] -> ~ exists leaf, reaches I t good leaf.
Proof. intros Hb E (leaf & _ & k & kept & dr & R & _). pose proof (route_paths _ _ _ R Hb) as H. rewrite E in H. destruct H. Qed.
Lemma unmodify_signal tn f : active_unmodify tn f = true <-> is_signal tn f.
Proof. unfold active_unmodify, is_signal. destruct f; split; try discriminate; try (intros (n0 & H & _); discriminate); [intros H; eauto|intros (n0 & H & K); congruence]. Qed.
Lemma modify_signal tn f : active_modify tn f = true <-> ~ is_signal tn f.
Proof. unfold active_modify. rewrite <- unmodify_signal. destruct (active_unmodify tn f); cbn; split; congruence. Qed.

(** getActiveConditions: the ranges hold exactly if - reset aside - the signal comes to a constant that compares as
    asked. *)
Theorem C64_active_ranges_exact_partial : forall known makeTree width tn op v t h r,
  known tn = true -> makeTree tn = Ok t -> proper_tree t -> no_hollow t = true -> isBranch t = true ->
  let active := constant_where (fun z => relation op z v) in
  inferable width t active -> activeConditions known makeTree width tn op v = Ok (h, r) ->
  forall I val, world width I val -> fitting t I -> (some_holds h r val <-> exists leaf, reaches I t active leaf).
Proof.
  intros known makeTree width tn op v t h r Hk Et Ht Hh Hb active HL E. unfold activeConditions, routes_of in E. rewrite Hk, Et in E. cbn [negb bind] in E.
  rewrite (split_ok t Ht) in E. cbn [bind] in E. destruct (active_keys op v (paths t)) as [ls|] eqn:El; [|discriminate]. cbn [bind] in E.
  exact (ranges_exact width t active ls h r Ht Hh Hb HL (active_keys_spec op v _ ls El) E).
Qed.
Print Assumptions C64_active_ranges_exact_partial.

(** getChangedConditions, getUnchangedConditions: the ranges hold exactly if - reset aside - the signal is assigned
    something else than itself, or itself. *)
Theorem C64_changed_ranges_exact_partial : forall known makeTree width tn t h r,
  known tn = true -> makeTree tn = Ok t -> proper_tree t -> no_hollow t = true -> isBranch t = true ->
  inferable width t (fun f => ~ is_signal tn f) -> changedConditions known makeTree width tn = Ok (h, r) ->
  forall I val, world width I val -> fitting t I -> (some_holds h r val <-> exists leaf, reaches I t (fun f => ~ is_signal tn f) leaf).
Proof.
  intros known makeTree width tn t h r Hk Et Ht Hh Hb HL E. unfold changedConditions, routes_of in E. rewrite Hk, Et in E. cbn [negb bind] in E.
  rewrite (split_ok t Ht) in E. cbn [bind] in E. destruct (paths t) as [|p q] eqn:Ep.
  - injection E as <- <-. intros I val _ _. split; [intros (c & [] & _)|intros H; destruct (no_routes t _ I Hb Ep H)].
  - rewrite <- Ep in E. destruct (keys_where (active_modify tn) (paths t)) as [ls|] eqn:El; [|discriminate]. cbn [bind] in E.
    refine (ranges_exact width t _ ls h r Ht Hh Hb HL _ E). intros l. rewrite (keys_where_spec _ _ ls El l). split; intros (k & f & dr & A & B & C); exists k, f, dr; (split; [exact A|]); (split; [now apply modify_signal|exact C]).
Qed.
Print Assumptions C64_changed_ranges_exact_partial.
Theorem C64_unchanged_ranges_exact_partial : forall known makeTree width tn t h r,
  known tn = true -> makeTree tn = Ok t -> proper_tree t -> no_hollow t = true -> isBranch t = true ->
  inferable width t (is_signal tn) -> unchangedConditions known makeTree width tn = Ok (h, r) ->
  forall I val, world width I val -> fitting t I -> (some_holds h r val <-> exists leaf, reaches I t (is_signal tn) leaf).
Proof.
  intros known makeTree width tn t h r Hk Et Ht Hh Hb HL E. unfold unchangedConditions, routes_of in E. rewrite Hk, Et in E. cbn [negb bind] in E.
  rewrite (split_ok t Ht) in E. cbn [bind] in E. destruct (paths t) as [|p q] eqn:Ep.
  - injection E as <- <-. intros I val _ _. split; [intros (c & [] & _)|intros H; destruct (no_routes t _ I Hb Ep H)].
  - rewrite <- Ep in E. destruct (keys_where (active_unmodify tn) (paths t)) as [ls|] eqn:El; [|discriminate]. cbn [bind] in E.
    refine (ranges_exact width t _ ls h r Ht Hh Hb HL _ E). intros l. rewrite (keys_where_spec _ _ ls El l). split; intros (k & f & dr & A & B & C); exists k, f, dr; (split; [exact A|]); (split; [now apply unmodify_signal|exact C]).
Qed.
Print Assumptions C64_unchanged_ranges_exact_partial.

(** getChangedConditionsWithAssignments: if the condition of an entry holds, then - reset aside - the signal is
    assigned the value of that entry; and if the signal is assigned something else than itself, the condition of some
    entry holds - of the entry with the value assigned, if there is only one such value. *)
Theorem C64_assignments_exact_partial : forall known makeTree width tn t h r,
  known tn = true -> makeTree tn = Ok t -> proper_tree t -> no_hollow t = true -> isBranch t = true ->
  inferable width t (fun f => ~ is_signal tn f) -> changedWithAssignments known makeTree width tn = Ok (h, r) ->
  forall I val, world width I val -> fitting t I ->
  (forall c f, In (c, f) r -> cond_holds h c val -> reaches I t (fun f => ~ is_signal tn f) f) /\
  (forall leaf, reaches I t (fun f => ~ is_signal tn f) leaf ->
     exists c f, In (c, f) r /\ cond_holds h c val /\
     ((forall leaf', reaches I t (fun f => ~ is_signal tn f) leaf' -> leaf' = leaf) -> f = leaf)).
Proof.
  intros known makeTree width tn t h r Hk Et Ht Hh Hb HL E I val W F. unfold changedWithAssignments, routes_of in E. rewrite Hk, Et in E. cbn [negb bind] in E.
  rewrite (split_ok t Ht) in E. cbn [bind] in E. destruct (paths t) as [|p q] eqn:Ep.
  { injection E as <- <-. split; [intros c f []|]. intros leaf H. destruct (no_routes t _ I Hb Ep (ex_intro _ leaf H)). }
  rewrite <- Ep in E. destruct (changed_dict tn (paths t) []) as [ls|] eqn:El; [|discriminate]. cbn [bind] in E.
  destruct (changed_spec tn (paths t) (paths_plain t (proj1 Ht)) [] ls ltac:(constructor) El) as (C1 & C2 & C3 & C4).
  assert (forall l f, In (l, f) ls -> exists k dropped, route t k f /\ ~ is_signal tn f /\ parted k l dropped) as Hr.
  { intros l f H. destruct (C2 l f H) as [[]|(k & dr & A & B & C)]. destruct (paths_leaf t Hh k f A) as [L1 L2]. exists k, dr. split; [exact (paths_route t k f A L1 L2)|]. split; [now apply modify_signal|exact C]. }
  pose proof (infer_dict_spec width ls) as S. specialize (S ltac:(intros l f H; destruct (Hr l f H) as (k & dr & A & B & C); exact (HL _ _ _ _ A B C)) [] (Heap [] []) h r ltac:(intros c []) E I val W).
  assert (forall l f, In (l, f) ls -> Forall (bitwise_logical I) l) as BL.
  { intros l f H. destruct (Hr l f H) as (k & dr & A & B & C). pose proof (F _ _ A) as Fk. rewrite Forall_forall in *. intros x Hx. apply Fk. apply (parted_in _ _ _ C). now left. }
  specialize (S BL).
  assert (forall c f, In (c, f) r -> cond_holds h c val -> reaches I t (fun f => ~ is_signal tn f) f) as Sound.
  { intros c f Hc H. destruct (proj1 (S f) (ex_intro _ c (conj Hc H))) as [(? & [] & _)|(l & Hl & HT)]. destruct (Hr l f Hl) as (k & dr & A & B & C). split; [exact B|]. exists k, l, dr. auto. }
  split; [exact Sound|]. intros leaf (HG & k & kept & dr & R & Pt & HT).
  destruct (C4 k kept dr leaf (route_paths _ _ _ R Hb) (proj2 (modify_signal _ _) HG) Pt) as (f2 & Hf2).
  destruct (proj2 (S f2)) as (c & Hc & Hh2); [right; exists kept; auto|]. exists c, f2. split; [exact Hc|]. split; [exact Hh2|].
  intros Hu. exact (Hu f2 (Sound _ _ Hc Hh2)).
Qed.
Print Assumptions C64_assignments_exact_partial.

(** ** Witnesses *)

(** always @* if(rst) en = 0; else if(state == 1) en = go; ... : the enable of the register of C60's example
    is 1 in state 1 when go is high and in state 2. *)
Definition en : chain := sg "en"%string.
Definition en_tree : df :=
  DBranch rst (num 0) (DBranch (is_ 1) (DBranch go (num 1) (num 0)) (DBranch (is_ 2) (num 1) (num 0))).
Definition en_trees (n : chain) : res df := if chain_eq n en then Ok en_tree else trees n.
Definition same (t : df) : res df := Ok t.
Lemma same_simplifies : simplifies isPos same.
Proof. intros c r _ Hc E. injection E as <-. auto. Qed.
Lemma en_readable : readable en_tree (active_constant en) st 2.
Proof.
  intros k kept dropped leaf R C Pt. unfold en_tree in R. routes; try (vm_compute in C; discriminate); try parts;
  (split; [repeat constructor|split; [|sat]]);
  repeat (apply Forall_cons || apply Forall_nil); cbn [no_contradiction is_ go rst num]; repeat split; try sat.
Qed.
Lemma en_setting s f : 0 <= s < 4 -> setting st 2 en_tree (posI st s f) s.
Proof. intros H. split; [apply posI_reads; lia|]. split; [lia|]. intros k leaf R. unfold en_tree in R. routes; repeat constructor; discriminate. Qed.
Definition en_report := [(st, [(1, positive_ go); (2, DNone)])].
Example C64_reports_hypotheses_met :
  getActiveConditions (fun _ => true) en_trees width2 same [st] en active_constant = Ok en_report /\
  proper_tree en_tree /\ no_hollow en_tree = true /\ isBranch en_tree = true /\ simplifies isPos same /\
  readable en_tree (active_constant en) st 2 /\ (forall s f, 0 <= s < 4 -> setting st 2 en_tree (posI st s f) s) /\
  let I := posI st 1 (fun _ => 1) in
  exists k kept dropped, route en_tree k (num 1) /\ parted k kept dropped /\ all_true I kept /\
    (exists c, In c kept /\ on_state st c = true) /\ lists I en_report st 1.
Proof.
  split; [vm_compute; reflexivity|]. split; [split; [split|]; vm_compute; reflexivity|]. split; [reflexivity|]. split; [reflexivity|].
  split; [exact same_simplifies|]. split; [exact en_readable|]. split; [exact en_setting|].
  intros I. exists [DOp [rst] Ulnot; is_ 1; go].
  destruct (condlist_parted [DOp [rst] Ulnot; is_ 1; go] [is_ 1; go]) as (dr & Pt); [vm_compute; reflexivity|].
  exists [is_ 1; go], dr. split; [unfold en_tree; apply route_false, route_true, route_true, route_leaf; [reflexivity|discriminate]|].
  split; [exact Pt|]. split; [repeat constructor|]. split; [exists (is_ 1); split; [now left|reflexivity]|].
  exists [(1, positive_ go); (2, DNone)], (positive_ go). split; [now left|]. split; [now left|right; reflexivity].
Qed.

(** always @(posedge clk) if(a == 3) c <= 9; else if(b > 9) c <= 2; - with 4-bit signals. *)
Definition c_tree : df := DBranch (eq_ sa 3) (num 9) (DBranch (gt_ sb 9) (num 2) (DTerm sc)).
Definition c_trees (_ : chain) : res df := Ok c_tree.
Ltac can v := apply v; try lia; [simpl; intuition discriminate|reflexivity].
Lemma c_inferable good : inferable w4 c_tree good.
Proof.
  intros k kept dropped leaf R _ Pt. unfold c_tree in R. routes; try parts;
  (eexists; eexists; (split; [reflexivity|]); cbn [all_of fold_left]).
  - apply ex_left; try reflexivity; try (split; discriminate); [can (vals_can 3 0 0)|can (vals_can 0 0 0)].
  - apply ex_and; [reflexivity|apply ex_not; [reflexivity|apply ex_left|discriminate]|apply ex_left|..]; try reflexivity; try (split; discriminate); try discriminate;
      first [can (vals_can 0 10 0)|can (vals_can 3 0 0)].
  - apply ex_and; [reflexivity|apply ex_not; [reflexivity|apply ex_left|discriminate]|apply ex_not; [reflexivity|apply ex_left|discriminate]|..]; try reflexivity; try (split; discriminate); try discriminate;
      first [can (vals_can 0 0 0)|can (vals_can 3 0 0)|can (vals_can 0 10 0)].
Qed.
Lemma c_fitting a b c : fitting c_tree (zall (at_ a b c)).
Proof. intros k leaf R. unfold c_tree in R. routes; repeat constructor; discriminate. Qed.
Example C64_ranges_hypotheses_met :
  proper_tree c_tree /\ no_hollow c_tree = true /\ isBranch c_tree = true /\ (forall good, inferable w4 c_tree good) /\
  (exists h r, activeConditions (fun _ => true) c_trees w4 sc ">" 2 = Ok (h, r) /\ length r = 1%nat) /\
  (exists h r, changedConditions (fun _ => true) c_trees w4 sc = Ok (h, r) /\ length r = 2%nat) /\
  (exists h r, unchangedConditions (fun _ => true) c_trees w4 sc = Ok (h, r) /\ length r = 1%nat) /\
  (exists h r, changedWithAssignments (fun _ => true) c_trees w4 sc = Ok (h, r) /\ map snd r = [num 9; num 2]) /\
  (forall a b c, 0 <= a < 16 -> 0 <= b < 16 -> 0 <= c < 16 -> world w4 (zall (at_ a b c)) (at_ a b c) /\ fitting c_tree (zall (at_ a b c))).
Proof.
  split; [split; [split|]; vm_compute; reflexivity|]. split; [reflexivity|]. split; [reflexivity|]. split; [exact c_inferable|].
  split; [eexists; eexists; split; [vm_compute; reflexivity|reflexivity]|].
  split; [eexists; eexists; split; [vm_compute; reflexivity|reflexivity]|].
  split; [eexists; eexists; split; [vm_compute; reflexivity|reflexivity]|].
  split; [eexists; eexists; split; [vm_compute; reflexivity|reflexivity]|].
  intros a b c A B C. split; [apply vals_world; assumption|apply c_fitting].
Qed.

(** ** What the reports miss *)

(** A signal that is active whatever the state (outside reset) is not reported: the analysis raises. *)
Definition on_tree : df := DBranch rst (num 0) (num 1).
Theorem C64_always_active_refuted :
  getActiveConditions (fun _ => true) (fun _ => Ok on_tree) width2 same [st] en active_constant = Err TypeError /\
  forall I, reaches I on_tree (fun x => active_constant en x = true) (num 1).
Proof.
  split; [vm_compute; reflexivity|]. intros I. split; [reflexivity|]. exists [DOp [rst] Ulnot], [].
  destruct (condlist_parted [DOp [rst] Ulnot] []) as (dr & Pt); [vm_compute; reflexivity|]. exists dr.
  split; [apply route_false, route_leaf; [reflexivity|discriminate]|]. split; [exact Pt|constructor].
Qed.
Print Assumptions C64_always_active_refuted.
(** Nor is one assigned a constant without any condition. *)
Theorem C64_constant_refuted :
  getActiveConditions (fun _ => true) (fun _ => Ok (num 1)) width2 same [st] en active_constant = Ok [] /\
  forall I, reaches I (num 1) (fun x => active_constant en x = true) (num 1).
Proof.
  split; [vm_compute; reflexivity|]. intros I. split; [reflexivity|]. exists [], [], [].
  split; [apply route_leaf; [reflexivity|discriminate]|]. split; constructor.
Qed.
Print Assumptions C64_constant_refuted.
(** A signal active under a condition on an input only is not reported either: C64 in full is false. *)
Definition go_tree : df := DBranch go (num 1) (DBranch (is_ 2) (num 0) (num 0)).
Theorem C64_full_refuted :
  exists r, getActiveConditions (fun _ => true) (fun _ => Ok go_tree) width2 same [st] en active_constant = Ok r /\
  ~ C64_full r en st 2 go_tree (fun x => active_constant en x = true).
Proof.
  eexists. split; [vm_compute; reflexivity|]. intros F. destruct (F (posI st 1 (fun _ => 1)) 1) as [_ G].
  - split; [apply posI_reads; lia|]. split; [lia|]. intros k leaf R. unfold go_tree in R. routes; repeat constructor; discriminate.
  - destruct (condlist_parted [go] [go]) as (dr & Pt); [vm_compute; reflexivity|].
    destruct G as (l & c & [] & _). exists (num 1). split; [reflexivity|]. exists [go], [go], dr.
    split; [apply route_true, route_leaf; [reflexivity|discriminate]|].
    split; [exact Pt|repeat constructor].
Qed.
Print Assumptions C64_full_refuted.
(** Ranges: a value assigned whatever the conditions (outside reset) is not reported. *)
Theorem C64_no_condition_refuted :
  (exists h, changedConditions (fun _ => true) (fun _ => Ok on_tree) w4 sc = Ok (h, [])) /\
  (exists h, changedWithAssignments (fun _ => true) (fun _ => Ok on_tree) w4 sc = Ok (h, [])) /\
  (exists h, activeConditions (fun _ => true) (fun _ => Ok on_tree) w4 sc "==" 1 = Ok (h, [])) /\
  forall I, reaches I on_tree (fun f => ~ is_signal sc f /\ constant_where (fun z => relation "==" z 1) f) (num 1).
Proof.
  split; [eexists; vm_compute; reflexivity|]. split; [eexists; vm_compute; reflexivity|]. split; [eexists; vm_compute; reflexivity|].
  intros I. split; [split; [intros (n & H & _); discriminate|do 4 eexists; split; reflexivity]|]. exists [DOp [rst] Ulnot], [].
  destruct (condlist_parted [DOp [rst] Ulnot] []) as (dr & Pt); [vm_compute; reflexivity|]. exists dr.
  split; [apply route_false, route_leaf; [reflexivity|discriminate]|]. split; [exact Pt|constructor].
Qed.
Print Assumptions C64_no_condition_refuted.
