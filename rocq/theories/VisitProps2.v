(** VisitProps2.v - C52: the clock and reset that an assignment is attributed to. *)
From Verif Require Import Base ScopeModel ScopeSpec ScopeProofs DfModel DfSpec BindModel BindSpec LitModel VisitModel VisitSpec VisitProofs VisitProps.
Local Open Scope nat_scope.

(** A scope inside an always block (an if, a loop, a begin-end) that has no clock of its own. *)
Definition inner_scope {node} (h : list (act node)) (q : chain) : Prop :=
  exists fl, opened h q fl /\ fl_always fl = true /\ fl_functioncall fl = false /\ fl_taskcall fl = false /\ fl_alwaysinfo fl = None.
(** The nearest scope around key that is not such an inner scope decides: an always block with its
    clock and reset, or anything else (no clock). *)
Definition decides {node} (h : list (act node)) (key : chain) (r : option alwaysinfo) : Prop :=
  exists p fl, inside p key /\ opened h p fl /\ (forall q, inside p q -> q <> p -> inside q key -> inner_scope h q) /\
  match r with
  | Some a => fl_always fl = true /\ fl_functioncall fl = false /\ fl_taskcall fl = false /\ fl_alwaysinfo fl = Some a
  | None => fl_always fl = false \/ fl_functioncall fl = true \/ fl_taskcall fl = true
  end.
Definition tops_not_always {node} (h : list (act node)) : Prop := forall l fl, opened h [l] fl -> fl_always fl = false.

Theorem C52_clock_of_innermost_always : forall node (h : list (act node)) s fl,
  run node h (empty_table node) = Ok s -> Forall plain_act h -> tops_not_always h -> opened h (current_after h) fl ->
  exists r, getAlwaysStatus node s = Ok r /\ decides h (current_after h) r.
Proof.
  intros node h s fl E HP HT HO. pose proof (run_inv h [] _ s init_inv HP E) as HI. cbn [app] in HI. destruct HI as (H1 & H2 & H3 & H4 & H5 & H6).
  unfold getAlwaysStatus. rewrite H1.
  assert (forall fuel key, no_any key -> (length key < fuel)%nat -> dget (ft_dict _ s) key <> None ->
     forall key', inside key key' -> (forall q, inside key q -> q <> key -> inside q key' -> inner_scope h q) ->
     exists r, alwaysStatus node fuel s key = Ok r /\ decides h key' r) as K.
  { induction fuel as [|fuel IH]; intros key Hk Hf He key' Hin Hno; [lia|]. cbn [alwaysStatus]. destruct (dget (ft_dict _ s) key) as [f|] eqn:EG; [|congruence]. destruct (H4 key f Hk EG) as ((l & K1) & K2 & K3 & _).
    assert (forall r, match r with Some a => fl_always (f_flags _ f) = true /\ fl_functioncall (f_flags _ f) = false /\ fl_taskcall (f_flags _ f) = false /\ fl_alwaysinfo (f_flags _ f) = Some a
      | None => fl_always (f_flags _ f) = false \/ fl_functioncall (f_flags _ f) = true \/ fl_taskcall (f_flags _ f) = true end -> decides h key' r) as D.
    { intros r Hr. exists key, (f_flags _ f). auto. }
    destruct (fl_functioncall (f_flags _ f)) eqn:EF; [exists None; split; auto|]. destruct (fl_taskcall (f_flags _ f)) eqn:ET; [exists None; split; auto|]. destruct (fl_always (f_flags _ f)) eqn:EA; cbn [negb]; [|exists None; split; auto].
    destruct (fl_alwaysinfo (f_flags _ f)) as [a|] eqn:EI; [exists (Some a); split; auto|].
    apply IH; [rewrite K1 in Hk; eapply no_any_init; eauto|rewrite K1, app_length in Hf; cbn in Hf; lia| |destruct Hin as (r & ->); exists (l :: r); rewrite K1 at 1; now rewrite <- app_assoc|].
    - destruct K2 as [K2|K2]; [|exact K2]. exfalso. rewrite K2 in K1. cbn in K1. subst key. specialize (HT _ _ K3). congruence.
    - intros q Hq1 Hq2 Hq3. destruct (chain_dec q key) as [->|Nq]; [exists (f_flags _ f); auto|]. apply Hno; auto.
      destruct Hq1 as (r1 & ->), Hq3 as (r2 & E3), Hin as (r3 & ->). rewrite K1 in *. exists (tl r1). destruct r1 as [|x r1]; [rewrite app_nil_r in Hq2; congruence|]. rewrite <- !app_assoc in E3. apply app_inv_head in E3. cbn in E3. injection E3 as <- _. cbn. now rewrite <- app_assoc. }
  destruct (H6 _ _ HO) as (_ & f & Ef & _). apply K; auto; [congruence|exists []; now rewrite app_nil_r|].
  intros q (r1 & ->) Hq2 (r2 & E'). exfalso. rewrite <- app_assoc in E'. rewrite <- (app_nil_r (current_after h)) in E' at 1. apply app_inv_head in E'. destruct r1; [rewrite app_nil_r in Hq2; congruence|discriminate].
Qed.
Print Assumptions C52_clock_of_innermost_always.
(** That answer is the only one. *)
Theorem C52_answer_unique : forall node (h : list (act node)) s key r r', run node h (empty_table node) = Ok s -> Forall plain_act h -> decides h key r -> decides h key r' -> r = r'.
Proof.
  intros node h s key r r' E HP (p & fl & I1 & O1 & N1 & D1) (p' & fl' & I2 & O2 & N2 & D2). pose proof (run_inv h [] _ s init_inv HP E) as HI. cbn [app] in HI. destruct HI as (_ & _ & _ & _ & _ & H6).
  assert (forall c f f', opened h c f -> opened h c f' -> f = f') as HU. { intros c f f' A B. destruct (H6 _ _ A) as (_ & x & X1 & X2). destruct (H6 _ _ B) as (_ & y & Y1 & Y2). congruence. }
  assert (forall c f r, opened h c f -> inner_scope h c -> match r with Some a => fl_always f = true /\ fl_functioncall f = false /\ fl_taskcall f = false /\ fl_alwaysinfo f = Some a
      | None => fl_always f = false \/ fl_functioncall f = true \/ fl_taskcall f = true end -> False) as HN.
  { intros c f x Oc (g & Og & G1 & G2 & G3 & G4) Hx. rewrite (HU _ _ _ Og Oc) in *. destruct x as [a|]; [destruct Hx as (_ & _ & _ & Hx); congruence|destruct Hx as [?|[?|?]]; congruence]. }
  assert (p = p') as <-.
  { destruct (chain_dec p p') as [|NE]; [assumption|exfalso].
    assert (inside p p' \/ inside p' p) as [I|I].
    { clear - I1 I2. destruct I1 as (a & ->), I2 as (b & Eb). revert p' Eb. induction p as [|x p IH]; intros [|y q] Eb; [left; exists []; reflexivity|left; exists (y :: q); reflexivity|right; exists (x :: p); reflexivity|]. cbn in Eb. injection Eb as <- Eb. destruct (IH q Eb) as [(z & ->)|(z & ->)]; [left|right]; exists z; reflexivity. }
    - eapply (HN p'); eauto.
    - eapply (HN p); eauto. }
  rewrite (HU _ _ _ O1 O2) in D1. destruct r as [a|], r' as [b|]; [|destruct D1 as (A1 & A2 & A3 & A4); destruct D2 as [?|[?|?]]; congruence|destruct D2 as (A1 & A2 & A3 & A4); destruct D1 as [?|[?|?]]; congruence|reflexivity].
  destruct D1 as (_ & _ & _ & D1), D2 as (_ & _ & _ & D2). congruence.
Qed.
Print Assumptions C52_answer_unique.
(** top contains an always block with a clock, which contains an if; another statement in the module has no clock. *)
Definition clk : alwaysinfo := Always (CName [lab "top" STmodule; lab "clk" STsignal]) (Some "posedge"%string) 0%Z CEmpty None 0%Z.
Definition clocked_history : list (act nat) :=
  [OpenScope _ (lab "top" STmodule) module_flags; OpenScope _ (lab "al" STalways) (Flags false false false false true false (Some clk) None); OpenScope _ (lab "if0" STif) always_flags].
Lemma clocked_history_tops : tops_not_always clocked_history.
Proof.
  intros l fl (h1 & l' & h2 & E & Hc). destruct h1 as [|a1 [|a2 [|a3 h1]]]; cbn in E.
  - injection E as _ <-. reflexivity.
  - injection E as <- <- <- _. discriminate Hc.
  - injection E as <- <- <- <- _. discriminate Hc.
  - destruct h1; discriminate.
Qed.
Example C52_hypotheses_met : exists s, run nat clocked_history (empty_table nat) = Ok s /\ Forall plain_act clocked_history /\ tops_not_always clocked_history /\
  opened clocked_history (current_after clocked_history) always_flags /\ getAlwaysStatus nat s = Ok (Some clk) /\ getAlwaysStatus nat (setCurrent nat s [lab "top" STmodule]) = Ok None.
Proof.
  eexists. split; [reflexivity|]. split; [repeat constructor; cbn; discriminate|]. split; [exact clocked_history_tops|]. split; [|split; vm_compute; reflexivity].
  exists [OpenScope nat (lab "top" STmodule) module_flags; OpenScope nat (lab "al" STalways) (Flags false false false false true false (Some clk) None)], (lab "if0" STif), []. split; reflexivity.
Qed.
