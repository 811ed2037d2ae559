(** AsgProps.v - C51. *)
From Verif Require Import Base ScopeModel ScopeSpec ScopeProofs DfModel DfSpec DfProofs ReorderModel ReorderSpec ReorderProofs BindModel BindSpec BindProofs AsgModel AsgSpec AsgProofs AsgProofs2 AsgProofs3 AsgProofs4.

Lemma tr_has q s : forall t, In t (tr q (getBindlist (s_binds s) (q_name q))) <-> has_tree s q t.
Proof.
  intros t. unfold tr, has_tree. rewrite in_map_iff. split.
  - intros (b & <- & Hb). apply filter_In in Hb as [Hb Q]. apply isq_iff in Q. exists b. auto.
  - intros (b & Hb & Hs & <-). exists b. split; auto. apply filter_In. split; auto. now apply isq_iff.
Qed.

(** C51: for the supported statements the tree of each target means what executing the block
    schedules for it (the mark [i_none] if nothing). *)
Theorem C51_always_tree_exact_partial : forall I q k ai s x s',
  sane I -> no_any (q_name q) -> fresh s q -> wf q x -> supported q x ->
  visit_always k ai s x = Ok s' ->
  (assigns q x = true -> exists t, has_tree s' q t) /\
  (forall t, has_tree s' q t -> eval I t = exec I q x (i_none I)).
Proof.
  intros I q k ai s x s' HI Hq (F1 & F2 & F3) Hw Hsup E. unfold visit_always in E.
  apply bind_ok in E as ([t1 s1] & E & E'). injection E' as <-. cbn [snd].
  assert (TN : Tl q s = []).
  { unfold Tl. destruct (tr q (getBindlist (s_binds s) (q_name q))) as [|t l] eqn:K; auto.
    destruct (F3 t). apply tr_has. rewrite K. now left. }
  assert (TD : T q s = DNone) by (unfold T; rewrite TN; reflexivity).
  assert (Hs : sok q s) by (split; [exact F1|]; split; [exact F2|]; fold (Tl q s); rewrite TN; simpl; lia).
  unfold supported in Hsup. destruct (flow q x Vacant) as [g|] eqn:F; [|congruence].
  destruct (all_good q Hq I HI k ai x Hw Vacant g [] [] s t1 s1) as (A & B & C & D & P & G & H); auto; try apply tok_nil; try (constructor; fail).
  { now rewrite TD. }
  { rewrite TD, (proj2 (tok_nil q)). simpl. auto. }
  split.
  - intros Ha. destruct (Tl q s1) as [|t l] eqn:K; [now destruct (D Ha)|]. exists t. apply tr_has. unfold Tl in K. rewrite K. now left.
  - intros t Ht. apply tr_has in Ht. pose proof (po_in _ _ _ _ _ _ P eq_refl) as PI. rewrite TD in PI. cbn [eval] in PI. rewrite <- PI.
    destruct B as (_ & _ & B). unfold T, Tl. destruct (tr q (getBindlist (s_binds s1) (q_name q))) as [|t0 [|t2 l]]; [destruct Ht| |simpl in B; lia].
    destruct Ht as [->|[]]. reflexivity.
Qed.
Print Assumptions C51_always_tree_exact_partial.

(** Signals, and an interpretation over the integers: -1 is "nothing", signals a, b, c, x have
    the given values. *)
Definition g51 (s : string) : chain := [Label "top" STmodule None; Label s STsignal None].
Definition w51 (s : string) : df := DTerm (g51 s).
Definition d51 (s : string) : dest := Dest (g51 s) DNone DNone DNone DNone DNone.
Definition q51 (s : string) : target := Target (g51 s) DNone DNone DNone.
Definition env51 (a b c x : Z) (n : chain) : Z :=
  match ScopeSpec.path n with
  | [_; (s, _)] => if String.eqb s "a" then a else if String.eqb s "b" then b else if String.eqb s "c" then c else if String.eqb s "x" then x else 0
  | _ => 0
  end%Z.
Definition const51 (t : df) : Z :=
  match t with DInt s => if String.eqb s "1" then 1 else if String.eqb s "2" then 2 else if String.eqb s "3" then 3 else 0 | _ => 0 end%Z.
Definition b2z (b : bool) : Z := if b then 1%Z else 0%Z.
Definition I51 (a b c x : Z) : interp :=
  Interp Z (-1)%Z (env51 a b c x) const51
    (fun o l => match o, l with
                | Eq, [u; v] => b2z (u =? v)%Z
                | Lor, [u; v] => b2z (negb (u =? 0)%Z || negb (v =? 0)%Z)
                | _, _ => 0%Z
                end)
    (fun v m l => if (v =? -1)%Z then (-1)%Z else ((v / 2 ^ l) mod 2 ^ (m - l + 1))%Z) (fun v p => if (v =? -1)%Z then (-1)%Z else 0%Z)
    (fun _ => 0%Z) (fun v => v) (fun _ _ => 0%Z) (fun v => negb (v =? 0)%Z).
Lemma sane51 a b c x : sane (I51 a b c x).
Proof.
  split; [split; intros; reflexivity|]. split.
  - intros n m H. cbn [i_term I51]. unfold env51. now rewrite (agree_path _ _ H).
  - split; [reflexivity|]. intros u v. cbn [i_op I51 i_truth]. destruct (negb (u =? 0)%Z || negb (v =? 0)%Z); reflexivity.
Qed.
Lemma plain51 s : no_any (g51 s) /\ plain_tree (d_msb (d51 s)) /\ plain_tree (d_lsb (d51 s)) /\ plain_tree (d_ptr (d51 s)).
Proof. repeat split; repeat constructor; discriminate. Qed.
Lemma dest51 s q : dest_ok q (d51 s) <-> (g51 s = q_name q -> DNone = q_msb q -> DNone = q_ptr q -> DNone = q_lsb q).
Proof. unfold dest_ok. pose proof (plain51 s). cbn [d51 d_name d_msb d_lsb d_ptr] in *. tauto. Qed.
Lemma fresh51 q : fresh empty_store q.
Proof. repeat split; try constructor. intros t (b & [] & _). Qed.
(** A statement whose tree is not what is executed. *)
Definition wrong (I : interp) (q : target) (x : stmt) : Prop :=
  sane I /\ no_any (q_name q) /\ wf q x /\
  exists s' t, visit_always 30 None empty_store x = Ok s' /\ has_tree s' q t /\ eval I t <> exec I q x (i_none I).
Ltac wf51 := cbn [wf]; repeat split; repeat constructor; try discriminate; auto.
Ltac wrong51 := split; [apply sane51|]; split; [apply plain51|]; split; [wf51|];
  eexists _, _; split; [reflexivity|]; split;
  [eexists; split; [left; reflexivity|]; split; reflexivity | vm_compute; discriminate].

(** q <= 0; if (a) q <= 1; if (b) r <= 1; with a and b true: the tree says 0, the block does 1. *)
Theorem C51_later_if_refuted : exists I q x, wrong I q x.
Proof.
  exists (I51 1 1 0 0), (q51 "q"),
    (SBlock [SNon [d51 "q"] (DInt "0"); SIf (w51 "a") (Some (SNon [d51 "q"] (DInt "1"))) None; SIf (w51 "b") (Some (SNon [d51 "r"] (DInt "1"))) None]).
  wrong51.
Qed.
Print Assumptions C51_later_if_refuted.
(** if (a) q <= 1; if (b) begin if (c) q <= 2; end with a true and b false: nothing instead of 1. *)
Theorem C51_nested_override_refuted : exists I q x, wrong I q x.
Proof.
  exists (I51 1 0 0 0), (q51 "q"),
    (SBlock [SIf (w51 "a") (Some (SNon [d51 "q"] (DInt "1"))) None; SIf (w51 "b") (Some (SBlock [SIf (w51 "c") (Some (SNon [d51 "q"] (DInt "2"))) None])) None]).
  wrong51.
Qed.
Print Assumptions C51_nested_override_refuted.
(** q <= 3; if (a) begin if (b) begin if (c) q <= 1; end end with a true, b false: nothing instead of 3. *)
Theorem C51_nested_default_refuted : exists I q x, wrong I q x.
Proof.
  exists (I51 1 0 0 0), (q51 "q"),
    (SBlock [SNon [d51 "q"] (DInt "3");
             SIf (w51 "a") (Some (SBlock [SIf (w51 "b") (Some (SBlock [SIf (w51 "c") (Some (SNon [d51 "q"] (DInt "1"))) None])) None])) None]).
  wrong51.
Qed.
Print Assumptions C51_nested_default_refuted.
(** if (a) {q, r} <= 3; else {q, r} <= 2; with a true: q is 0 instead of 1. *)
Theorem C51_concatenation_refuted : exists I q x, wrong I q x.
Proof.
  exists (I51 1 0 0 0), (q51 "q"),
    (let ds := [Dest (g51 "q") DNone DNone DNone (DInt "1") (DInt "1"); Dest (g51 "r") DNone DNone DNone (DInt "0") (DInt "0")] in
     SIf (w51 "a") (Some (SNon ds (DInt "3"))) (Some (SNon ds (DInt "2")))).
  wrong51.
Qed.
Print Assumptions C51_concatenation_refuted.

(** A block in the scope of the theorem: reset, default values, nested overriding, a case with
    several labels and a default, and a later assignment to another signal. *)
Definition x51 : stmt :=
  SIf (w51 "rst") (Some (SBlock [SNon [d51 "q"] (DInt "0")]))
    (Some (SBlock [SNon [d51 "q"] (w51 "d");
                   SIf (w51 "a") (Some (SBlock [SIf (w51 "b") (Some (SNon [d51 "q"] (DInt "1"))) (Some (SNon [d51 "r"] (DInt "2")))]))
                     (Some (SCase (w51 "x") [(Some [DInt "1"; DInt "2"], Some (SNon [d51 "q"] (w51 "e"))); (Some [DInt "3"], None);
                                             (None, Some (SBlock [SNon [d51 "q"] (DInt "2")]))]))])).
Definition s51 : store := Eval vm_compute in match visit_always 30 None empty_store x51 with Ok s => s | Err _ => empty_store end.
Example C51_hypotheses_met : sane (I51 1 0 1 3) /\ no_any (q_name (q51 "q")) /\ fresh empty_store (q51 "q") /\
  wf (q51 "q") x51 /\ supported (q51 "q") x51 /\ assigns (q51 "q") x51 = true /\
  visit_always 30 None empty_store x51 = Ok s51 /\ exists t, has_tree s51 (q51 "q") t /\ isBranch t = true.
Proof.
  split; [apply sane51|]. split; [apply plain51|]. split; [apply fresh51|]. split; [wf51|].
  split; [vm_compute; discriminate|]. split; [vm_compute; reflexivity|]. split; [vm_compute; reflexivity|].
  eexists. split; [eexists; split; [left; reflexivity|]; split; reflexivity|reflexivity].
Qed.
