(** MachProps.v - C60: extracted state machines. *)
From Verif Require Import Base ScopeModel DfModel DfSpec DfProofs BindSpec BindProofs SplitModel SplitSpec SplitProofs
  TransModel TransSpec TransProofs TransProps FsmModel FsmSpec FsmProofs FsmProofs2 FsmProps MachModel MachSpec MachText MachProofs MachProofs2 MachProofs3.
Local Open Scope Z_scope.

(** C60 in full: for every machine reported for register tn, in every setting (inputs I, state s), if
    the machine has an enabled transition from s to d, the register's tree has the value d; and if
    the tree's value is the constant d, the machine has an enabled transition to d. *)
Definition C60_full (makeTree : chain -> res df) (tn : chain) (w : Z) (t : df) (m : machine) : Prop :=
  forall I s, setting tn w t I s ->
    (forall d, goes I (m_fsm m) s d \/ enabled I (m_any m) d ->
       exists k leaf, route t k leaf /\ is_const d leaf /\ all_true I k) /\
    (forall k leaf d, route t k leaf -> is_const d leaf -> all_true I k ->
       goes I (m_fsm m) s d \/ enabled I (m_any m) d).

(** C60, soundness: every machine reported belongs to a register with a name of an FSM register; its
    transitions are those of the tree of the register that feeds it, n clocks before. An enabled
    transition from s to d comes from a route of that tree to the constant d, whose conditions not
    about reset hold; if the conditions about reset hold too, the tree has that value. *)
Theorem C60_transitions_real_partial :
  forall makeTree is_rename is_clocked getWidth isFsmVar optimize (P : interp -> Prop) fuel names ms,
  (forall x t, makeTree x = Ok t -> proper_tree t) ->
  (forall I, P I -> logical I) -> keeps_truth P plain_tree optimize ->
  getFiniteStateMachines makeTree is_rename is_clocked getWidth isFsmVar optimize fuel names = Ok ms ->
  forall tn m n, In (tn, (m, n)) ms ->
  In tn names /\ isFsmVar tn = true /\
  exists u t w, delayed makeTree tn n u /\ makeTree u = Ok t /\ getWidth tn = Ok w /\
    (0 <= w ->
     (forall k kept dropped leaf c, route t k leaf -> is_const c leaf -> parted k kept dropped -> analysable tn w kept) ->
     forall I s d, P I -> setting tn w t I s -> goes I (m_fsm m) s d \/ enabled I (m_any m) d ->
     exists k kept dropped leaf, route t k leaf /\ is_const d leaf /\ parted k kept dropped /\ all_true I kept /\
       (all_true I dropped -> all_true I k /\ eval I t = eval I leaf)).
Proof.
  intros makeTree is_rename is_clocked getWidth isFsmVar optimize P fuel names ms Hp HP Hopt.
  revert ms. induction names as [|x names IH]; intros ms E tn m n Hin; cbn [getFiniteStateMachines] in E; [injection E as <-; destruct Hin|].
  assert (forall l, getFiniteStateMachines makeTree is_rename is_clocked getWidth isFsmVar optimize fuel names = Ok l -> In (tn, (m, n)) l ->
    In tn (x :: names) /\ isFsmVar tn = true /\
    exists u t w, delayed makeTree tn n u /\ makeTree u = Ok t /\ getWidth tn = Ok w /\
    (0 <= w ->
     (forall k kept dropped leaf c, route t k leaf -> is_const c leaf -> parted k kept dropped -> analysable tn w kept) ->
     forall I s d, P I -> setting tn w t I s -> goes I (m_fsm m) s d \/ enabled I (m_any m) d ->
     exists k kept dropped leaf, route t k leaf /\ is_const d leaf /\ parted k kept dropped /\ all_true I kept /\
       (all_true I dropped -> all_true I k /\ eval I t = eval I leaf))) as Rest.
  { intros l El Hl. destruct (IH l El tn m n Hl) as (A & B & C). split; [now right|]. split; [exact B|exact C]. }
  destruct (isFsmVar x) eqn:Ef; [|exact (Rest _ E Hin)]. cbn [negb] in E.
  destruct (getFuncdict makeTree is_rename is_clocked fuel x 0) as [[d n0]|] eqn:Ed; [|discriminate]. cbn [bind fst snd] in E.
  destruct (getFiniteStateMachine getWidth x d) as [m0|] eqn:Em; [|discriminate]. cbn [bind] in E.
  destruct (0 <? size m0) eqn:Es; [|exact (Rest _ E Hin)].
  destruct (resolve optimize m0) as [m1|] eqn:Er; [|discriminate]. cbn [bind] in E.
  destruct (getFiniteStateMachines makeTree is_rename is_clocked getWidth isFsmVar optimize fuel names) as [l|] eqn:El; [|discriminate].
  cbn [bind] in E. injection E as <-. destruct Hin as [Hin|Hin]; [|exact (Rest _ eq_refl Hin)]. injection Hin as -> -> ->.
  split; [now left|]. split; [exact Ef|].
  destruct (funcdict_spec makeTree is_rename is_clocked Hp fuel tn 0 d n Ed) as [->|(u & t & D & Eu & Edd)].
  { exfalso. cbn in Em. injection Em as <-. vm_compute in Es. discriminate. }
  pose proof (Hp _ _ Eu) as Ht. pose proof (dict_plain t d Ht Edd) as Hpk.
  assert (exists w, getWidth tn = Ok w) as (w & Ew).
  { unfold getFiniteStateMachine in Em. destruct (length d =? 0)%nat; [injection Em as <-; vm_compute in Es; discriminate|].
    destruct (getWidth tn) as [w|]; [eauto|discriminate]. }
  exists u, t, w. rewrite Z.sub_0_r in D. split; [exact D|]. split; [exact Eu|]. split; [exact Ew|].
  intros Hw Ha I s dst HI Hs Hm.
  pose proof (machine_wf getWidth tn d m0 Hpk Em) as [Wf Wa].
  destruct (C27_resolve_keeps_transitions_partial P optimize m0 m HP Hopt Wf Er) as [Eany K].
  assert (moves I m0 s dst) as Hm0.
  { destruct Hm as [Hm|Hm]; [left; exact (proj1 (proj2 (proj2 (K s))) I dst HI Hm)|right; now rewrite <- Eany]. }
  destruct (machine_sound getWidth tn w t d m0 Ht Edd Hw Ew Ha Em I s dst Hs Hm0) as (k & kept & dropped & leaf & R & C & Pt & Hall).
  exists k, kept, dropped, leaf. split; [exact R|]. split; [exact C|]. split; [exact Pt|]. split; [exact Hall|].
  intros Hdr. pose proof (parted_all I _ _ _ Pt Hall Hdr) as Hk. split; [exact Hk|].
  exact (route_value I t k leaf (setting_not _ _ _ _ _ Hs) R Hk).
Qed.
Print Assumptions C60_transitions_real_partial.

(** C60, completeness, for the machine of one register before its conditions are merged by target
    (C27 says what merging keeps): in every setting, if the conditions not about reset of a route to
    the constant d hold, and no route that the removal of reset conditions confuses with it ends
    elsewhere, the machine has an enabled transition to d. *)
Theorem C60_transitions_found_partial : forall getWidth tn w t p d,
  proper_tree t -> isBranch t = true -> no_hollow t = true ->
  split t = Ok p -> remove_reset_condition p = Ok d -> 0 <= w -> getWidth tn = Ok w ->
  (forall k kept dropped leaf c, route t k leaf -> is_const c leaf -> parted k kept dropped -> analysable tn w kept) ->
  (forall k v x y z, route t k (DEval v x y z) -> exists n, v = PInt n) ->
  forall I s, setting tn w t I s ->
  exists m, getFiniteStateMachine getWidth tn d = Ok m /\
  forall k kept dropped leaf dst, route t k leaf -> is_const dst leaf -> parted k kept dropped -> all_true I kept ->
    (kept <> [] \/ forall k' leaf', route t k' leaf' -> Forall about_reset k') ->
    (forall k' kept' dropped' leaf', route t k' leaf' -> parted k' kept' dropped' -> all_true I kept' ->
       (kept' <> [] \/ kept = []) -> is_const dst leaf') ->
    goes I (m_fsm m) s dst \/ enabled I (m_any m) dst.
Proof.
  intros getWidth tn w t p d Ht Hb Hh Es Ed. rewrite (split_ok t Ht) in Es. injection Es as <-.
  exact (machine_complete getWidth tn w t d Ht Hb Hh Ed).
Qed.
Print Assumptions C60_transitions_found_partial.

(** Which conditions count as being about reset: the removal keeps exactly the others. *)
Theorem C60_reset_conditions_removed : forall cs r, remove_reset_condlist cs = Ok r -> exists dropped, parted cs r dropped.
Proof. exact condlist_parted. Qed.
Print Assumptions C60_reset_conditions_removed.

(** ** Witnesses *)
Definition posI (tn : chain) (s : Z) (f : chain -> Z) : interp :=
  Interp Z 0 (fun n => if chain_eq n tn then s else Z.max 0 (f n))
    (fun t => match t with DEval (PInt v) _ _ _ => v | _ => 0 end)
    (fun o l => match o, l with
                | Land, [a; b] => tv ((0 <? a) && (0 <? b))
                | (Lor | Or), [a; b] => tv ((0 <? a) || (0 <? b))
                | Ulnot, [a] => tv (negb (0 <? a))
                | (Uplus | Uminus | Uor), [a] => a
                | o, [a; b] => tv (compares o a b)
                | _, _ => 0 end)
    (fun v _ _ => v) (fun v _ => v) (fun l => 0) (fun x => x) (fun _ _ => 0) (fun z => 0 <? z).
Definition isPos (I : interp) : Prop := exists tn s f, I = posI tn s f.
Lemma tv_pos b : (0 <? tv b) = b.
Proof. now destruct b. Qed.
Lemma posI_reads tn s f : 0 <= s -> reads_state (posI tn s f) tn s.
Proof.
  intros Hs. constructor; simpl; intros; try (rewrite tv_pos; reflexivity).
  - destruct H as [<-|[<-|[<-|[]]]]; reflexivity.
  - rewrite H. destruct o; try discriminate; rewrite tv_pos; reflexivity.
  - rewrite H. destruct o; try discriminate; rewrite tv_pos; simpl; auto; rewrite Z.eqb_sym; reflexivity.
Qed.
Lemma isPos_logical I : isPos I -> logical I.
Proof. intros (tn & s & f & ->). split; simpl; intros; [now rewrite tv_pos|reflexivity]. Qed.
Lemma isPos_keeps : keeps_truth isPos plain_tree (fun t => Ok t).
Proof.
  intros a b r [Ha1 Ha2] [Hb1 Hb2] E. injection E as <-. split; [|split; [discriminate|auto]].
  split; unfold no_delay in *; simpl; [rewrite Ha1, Hb1|rewrite Ha2, Hb2]; reflexivity.
Qed.

(** if(rst) state <= 0; else case(state) 0: if(go) state <= 1; 1: state <= 2; default: state <= 0; *)
Definition rst : df := DTerm [Label "top"%string STmodule None; Label "rst"%string STsignal None].
Definition fsm_tree : df :=
  DBranch rst (num 0) (DBranch (is_ 0) (DBranch go (num 1) (DTerm st)) (DBranch (is_ 1) (num 2) (num 0))).
Definition trees (n : chain) : res df := if chain_eq n st then Ok fsm_tree else Err KeyError.
Definition no_rename (n : chain) : res bool := Ok false.
Definition all_clocked (n : chain) : res bool := Ok true.
Definition width2 (n : chain) : res Z := Ok 2.
Definition positive_ (x : df) : df := DOp [x; num 0] GreaterThan.
Definition fsm_found : machine :=
  Machine [(0, [(positive_ go, 1)]); (1, [(DNone, 2)]); (2, [(DNone, 0)]); (3, [(DNone, 0)])] [].

(** The parts of a concrete list of conditions. *)
Lemma parted_is k kept dropped r : parted k kept dropped -> remove_reset_condlist k = Ok r -> kept = r.
Proof. intros P E. destruct (condlist_parted k r E) as (d & Q). exact (proj1 (parted_fun _ _ _ _ _ P Q)). Qed.
Ltac routes := repeat match goal with H : route _ _ _ |- _ => inversion H; subst; clear H; try discriminate end.
Ltac parts := match goal with H : parted ?k ?l ?r |- _ =>
  let E := fresh in pose proof (parted_is k l r _ H ltac:(vm_compute; reflexivity)) as E; clear H; subst l end.
Lemma pos_sat s e cs : 0 <= s < 2 ^ 2 -> Forall (bitwise_logical (posI st s (fun _ => e))) cs ->
  all_true (posI st s (fun _ => e)) cs -> satisfiable st 2 cs.
Proof. intros H B A. exists (posI st s (fun _ => e)), s. split; [|exact A]. split; [apply posI_reads; lia|]. split; [exact H|exact B]. Qed.
Ltac sat := first
  [ solve [apply (pos_sat 0 1); [lia|repeat constructor; discriminate|repeat constructor]]
  | solve [apply (pos_sat 1 1); [lia|repeat constructor; discriminate|repeat constructor]]
  | solve [apply (pos_sat 2 1); [lia|repeat constructor; discriminate|repeat constructor]] ].

Lemma fsm_tree_proper : proper_tree fsm_tree.
Proof. split; [split|]; vm_compute; reflexivity. Qed.
Lemma fsm_tree_analysable k kept dropped leaf c :
  route fsm_tree k leaf -> is_const c leaf -> parted k kept dropped -> analysable st 2 kept.
Proof.
  intros R (w & f & g & ->) Pt. unfold fsm_tree in R. routes; try parts;
  (split; [repeat constructor|split; [|sat]]);
  repeat (apply Forall_cons || apply Forall_nil); cbn [no_contradiction is_ go rst num]; repeat split; try sat.
Qed.
Lemma fsm_tree_setting s f : 0 <= s < 4 -> setting st 2 fsm_tree (posI st s f) s.
Proof.
  intros H. split; [apply posI_reads; lia|]. split; [lia|]. intros k leaf R. unfold fsm_tree in R. routes; repeat constructor; discriminate.
Qed.

(** The register of the example satisfies the hypotheses of the two theorems; its machine is
    0 -go-> 1 -> 2 -> 0 and 3 -> 0; in state 0 with go high and reset low it goes to 1. *)
Example C60_hypotheses_met :
  (forall x t, trees x = Ok t -> proper_tree t) /\ keeps_truth isPos plain_tree (fun t => Ok t) /\
  getFiniteStateMachines trees no_rename all_clocked width2 (fun n => chain_eq n st) (fun t => Ok t) 2 [st]
    = Ok [(st, (fsm_found, 0))] /\
  (forall k kept dropped leaf c, route fsm_tree k leaf -> is_const c leaf -> parted k kept dropped -> analysable st 2 kept) /\
  (forall s f, 0 <= s < 4 -> setting st 2 fsm_tree (posI st s f) s) /\
  let I := posI st 0 (fun n => if chain_eq n [Label "top" STmodule None; Label "go" STsignal None]%string then 1 else 0) in
  goes I (m_fsm fsm_found) 0 1 /\ eval I fsm_tree = 1.
Proof.
  split; [intros x t E; unfold trees in E; destruct (chain_eq x st); [injection E as <-; exact fsm_tree_proper|discriminate]|].
  split; [exact isPos_keeps|]. split; [vm_compute; reflexivity|]. split; [exact fsm_tree_analysable|]. split; [exact fsm_tree_setting|].
  split; [|reflexivity]. exists [(positive_ go, 1)]. split; [reflexivity|]. exists (positive_ go). split; [now left|right; reflexivity].
Qed.
Example C60_found_hypotheses_met :
  isBranch fsm_tree = true /\ no_hollow fsm_tree = true /\
  (forall k v x y z, route fsm_tree k (DEval v x y z) -> exists n, v = PInt n) /\
  (exists p d m, split fsm_tree = Ok p /\ remove_reset_condition p = Ok d /\ getFiniteStateMachine width2 st d = Ok m /\ m = fsm_found) /\
  let I := posI st 1 (fun _ => 0) in
  exists k kept dropped, route fsm_tree k (num 2) /\ parted k kept dropped /\ all_true I kept /\ kept <> [] /\
    forall k' kept' dropped' leaf', route fsm_tree k' leaf' -> parted k' kept' dropped' -> all_true I kept' ->
       (kept' <> [] \/ kept = []) -> is_const 2 leaf'.
Proof.
  split; [reflexivity|]. split; [reflexivity|].
  split; [intros k v x y z R; unfold fsm_tree in R; routes; eauto|].
  split; [do 3 eexists; split; [vm_compute; reflexivity|]; split; [vm_compute; reflexivity|]; split; vm_compute; reflexivity|].
  intros I. exists [DOp [rst] Ulnot; DOp [is_ 0] Ulnot; is_ 1].
  destruct (condlist_parted [DOp [rst] Ulnot; DOp [is_ 0] Ulnot; is_ 1] [DOp [is_ 0] Ulnot; is_ 1]) as (dr & Pt); [vm_compute; reflexivity|].
  exists [DOp [is_ 0] Ulnot; is_ 1], dr. split; [unfold fsm_tree; apply route_false, route_false, route_true, route_leaf; [reflexivity|discriminate]|].
  split; [exact Pt|]. split; [repeat constructor|]. split; [discriminate|].
  clear Pt dr. intros k' kept' dropped' leaf' R Pt A B. unfold fsm_tree in R. routes; try parts.
  - destruct B as [B|B]; [now elim B|discriminate].
  - inversion A as [|? ? A1 A2]; vm_compute in A1; discriminate.
  - inversion A as [|? ? A1 A2]; vm_compute in A1; discriminate.
  - now exists (Some 32), false, false.
  - inversion A as [|? ? A1 A2]. inversion A2 as [|? ? A3 A4]. vm_compute in A3. discriminate.
Qed.

(** ** What does not hold *)

(** C60 in full is false: a condition on a signal whose name merely contains "rst", such as
    "first", is taken for reset and removed, and the two branches become one entry. With
    case(state) 0: if(first) state <= 1; else state <= 2; default: state <= 0; the machine goes from
    0 to 2 only; in state 0 with first high the register becomes 1. *)
Definition first : df := DTerm [Label "top"%string STmodule None; Label "first"%string STsignal None].
Definition first_tree : df := DBranch (is_ 0) (DBranch first (num 1) (num 2)) (num 0).
Theorem C60_transitions_refuted : exists makeTree ms m,
  makeTree st = Ok first_tree /\ proper_tree first_tree /\
  getFiniteStateMachines makeTree no_rename all_clocked width2 (fun n => chain_eq n st) (fun t => Ok t) 2 [st] = Ok ms /\
  ms = [(st, (m, 0))] /\
  exists I, setting st 2 first_tree I 0 /\ logical I /\
  eval I first_tree = eval I (num 1) /\
  ~ (goes I (m_fsm m) 0 1 \/ enabled I (m_any m) 1) /\ goes I (m_fsm m) 0 2 /\
  (forall d, is_const d (num 1) -> d <> 2) /\ ~ C60_full makeTree st 2 first_tree m.
Proof.
  exists (fun n => Ok first_tree), [(st, (Machine [(0, [(DNone, 2)]); (1, [(DNone, 0)]); (2, [(DNone, 0)]); (3, [(DNone, 0)])] [], 0))],
    (Machine [(0, [(DNone, 2)]); (1, [(DNone, 0)]); (2, [(DNone, 0)]); (3, [(DNone, 0)])] []).
  split; [reflexivity|]. split; [split; [split|]; vm_compute; reflexivity|]. split; [vm_compute; reflexivity|]. split; [reflexivity|].
  exists (posI st 0 (fun _ => 1)).
  assert (setting st 2 first_tree (posI st 0 (fun _ => 1)) 0) as Hs.
  { split; [apply posI_reads; lia|]. split; [lia|]. intros k leaf R. unfold first_tree in R. routes; repeat constructor; discriminate. }
  assert (~ (goes (posI st 0 (fun _ => 1)) [(0, [(DNone, 2)]); (1, [(DNone, 0)]); (2, [(DNone, 0)]); (3, [(DNone, 0)])] 0 1
             \/ enabled (posI st 0 (fun _ => 1)) [] 1)) as Hn.
  { intros [(dd & E & c & H & _)|(c & [] & _)]. injection E as <-. destruct H as [H|[]]. discriminate. }
  split; [exact Hs|]. split; [apply isPos_logical; do 3 eexists; reflexivity|]. split; [reflexivity|]. split; [exact Hn|].
  split; [exists [(DNone, 2)]; split; [reflexivity|]; exists DNone; split; [now left|now left]|].
  split; [intros d (w & f & g & E); injection E as <- _ _; lia|].
  intros F. apply Hn. refine (proj2 (F _ 0 Hs) [is_ 0; first] (num 1) 1 _ _ _).
  - unfold first_tree. apply route_true, route_true, route_leaf; [reflexivity|discriminate].
  - now exists (Some 32), false, false.
  - repeat constructor.
Qed.
Print Assumptions C60_transitions_refuted.

(** The analysis does not always end: for a register that is only assigned in reset
    (if(rst) state <= 0;) it follows the register to itself, whatever the number of steps. *)
Theorem C60_ends_refuted : exists t, proper_tree t /\
  forall fuel n, getFuncdict (fun _ => Ok t) no_rename all_clocked fuel st n = Err OutOfFuel.
Proof.
  exists (DBranch rst (num 0) (DTerm st)). split; [split; [split|]; vm_compute; reflexivity|].
  intros fuel. induction fuel as [|k IH]; intros n; [reflexivity|].
  assert (exists d, split (DBranch rst (num 0) (DTerm st)) = Ok d /\ remove_reset_condition d = Ok [([], DTerm st)]) as (d & E1 & E2).
  { eexists. split; vm_compute; reflexivity. }
  cbn [getFuncdict]. unfold no_rename at 1, all_clocked at 1. cbn [bind negb]. rewrite E1. cbn [bind]. rewrite E2. cbn [bind].
  exact (IH (n + 1)).
Qed.
Print Assumptions C60_ends_refuted.

(** A machine whose transitions do not depend on the state is not reported:
    if(go) state <= 1; else state <= 2; *)
Theorem C60_reported_refuted : exists t m d,
  proper_tree t /\ split t = Ok d /\ getFiniteStateMachine width2 st d = Ok m /\ map snd (m_any m) = [1; 2] /\
  getFiniteStateMachines (fun _ => Ok t) no_rename all_clocked width2 (fun _ => true) (fun x => Ok x) 2 [st] = Ok [].
Proof.
  exists (DBranch go (num 1) (num 2)). do 2 eexists. split; [split; [split|]; vm_compute; reflexivity|].
  split; [vm_compute; reflexivity|]. split; [vm_compute; reflexivity|]. split; vm_compute; reflexivity.
Qed.
Print Assumptions C60_reported_refuted.
