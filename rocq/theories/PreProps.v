(** PreProps.v - C41: inputs of the preprocessor and clean-up. *)
From Coq Require Import Permutation.
From Verif Require Import Base VisitModel VisitProofs PreModel PreSpec.

Section Facts.
  Variable mkstemp : files -> io string.
  Variable l0 : list string.
  Hypothesis new : makes_new mkstemp l0.
  Lemma isfile_sset s t x y : t <> y -> isfile (sset s t x) y = isfile s y.
  Proof. intros N. unfold isfile. rewrite sget_sset. destruct (String.eqb_spec t y); [congruence|reflexivity]. Qed.
  Lemma collect_ok : forall l s p s1 r, incl l l0 -> collect mkstemp l s p = (s1, r) ->
    (forall y, In y l0 -> isfile s1 y = isfile s y) /\ (forall q v, sget s q = Some v -> sget s1 q = Some v) /\
    (forall q, sget s1 q <> None -> sget s q <> None \/ exists x, In x (text_sources s l) /\ sget s1 q = Some x) /\
    (forall p', r = Done p' -> exists ts, p_temps p' = p_temps p ++ ts /\ p_files p' = p_files p ++ file_sources s l /\
      Forall2 (fun x t => sget s1 t = Some x /\ sget s t = None) (text_sources s l) ts /\ NoDup ts /\ (forall q, sget s1 q <> None -> sget s q <> None \/ In q ts)).
  Proof.
    induction l as [|x l IH]; intros s p s1 r HI E; cbn [collect] in E.
    - injection E as <- <-. split; [auto|]. split; [auto|]. split; [auto|]. intros p' K. injection K as <-. exists []. rewrite !app_nil_r. repeat split; auto; constructor.
    - assert (incl l l0) as HI' by (intros y Hy; apply HI; right; exact Hy). cbn [file_sources text_sources filter]. destruct (isfile s x) eqn:EX; cbn [negb].
      + destruct (IH s _ s1 r HI' E) as (I1 & I2 & I3 & I4). split; [exact I1|]. split; [exact I2|]. split; [exact I3|]. intros p' K. destruct (I4 p' K) as (ts & J1 & J2 & J3 & J4 & J5). exists ts. cbn [p_files p_temps] in *. split; [exact J1|]. split; [rewrite J2, <- app_assoc; reflexivity|]. auto.
      + destruct (mkstemp s) as [t|] eqn:EM; [|injection E as <- <-; split; [auto|]; split; [auto|]; split; [auto|discriminate]].
        destruct (new s t EM) as [N1 N2]. destruct (IH (sset s t x) _ s1 r HI' E) as (I1 & I2 & I3 & I4).
        assert (forall y, In y l0 -> isfile (sset s t x) y = isfile s y) as HF by (intros y Hy; apply isfile_sset; intros ->; contradiction).
        assert (text_sources (sset s t x) l = text_sources s l) as ET by (unfold text_sources; apply filter_ext_in; intros y Hy; rewrite HF; auto).
        assert (file_sources (sset s t x) l = file_sources s l) as EF by (unfold file_sources; apply filter_ext_in; intros y Hy; rewrite HF; auto).
        assert (sget s1 t = Some x) as Et by (apply I2; rewrite sget_sset, String.eqb_refl; reflexivity).
        assert (forall q v, sget s q = Some v -> sget (sset s t x) q = Some v) as HK by (intros q v Hq; rewrite sget_sset; destruct (String.eqb_spec t q); [congruence|exact Hq]).
        assert (forall q, sget (sset s t x) q <> None -> sget s q <> None \/ q = t) as HK2 by (intros q; rewrite sget_sset; destruct (String.eqb_spec t q); auto).
        rewrite ET in I3. split; [intros y Hy; rewrite I1, HF; auto|]. split; [auto|]. split.
        * intros q Hq. destruct (I3 q Hq) as [K|(y & K1 & K2)]; [|right; exists y; split; [right; exact K1|exact K2]]. destruct (HK2 q K) as [K'| ->]; [auto|]. right. exists x. split; [left; reflexivity|exact Et].
        * intros p' K. destruct (I4 p' K) as (ts & J1 & J2 & J3 & J4 & J5). cbn [p_files p_temps] in *. exists (t :: ts). rewrite EF in J2. rewrite ET in J3. split; [rewrite J1, <- app_assoc; reflexivity|]. split; [exact J2|]. split; [|split].
          -- constructor; [auto|]. clear - J3 HK. revert J3. change (filter (fun x : string => negb (isfile s x)) l) with (text_sources s l). generalize (text_sources s l). intros g J3. induction J3 as [|y u ys us [H1 H2] J3 IHJ]; constructor; auto. split; [exact H1|]. rewrite sget_sset in H2. destruct (String.eqb t u); [discriminate|exact H2].
          -- constructor; [|exact J4]. intros Hin. clear - J3 Hin. revert J3 Hin. generalize (text_sources s l). intros g J3. induction J3 as [|y u ys us [H1 H2] J3 IHJ]; [intros []|]. intros [->|Hin]; [|auto]. rewrite sget_sset, String.eqb_refl in H2. discriminate.
          -- intros q Hq. destruct (J5 q Hq) as [K'|K']; [|right; right; exact K']. destruct (HK2 q K') as [K2| ->]; [auto|right; left; reflexivity].
  Qed.
End Facts.
Lemma sget_remove p s q : sget (remove p s) q = if String.eqb p q then None else sget s q.
Proof.
  unfold remove. induction s as [|[k v] r IH]; cbn; [destruct (String.eqb p q); reflexivity|]. destruct (String.eqb_spec k p) as [->|N]; cbn.
  - rewrite IH. destruct (String.eqb p q); reflexivity.
  - rewrite IH. destruct (String.eqb_spec k q) as [->|]; [|reflexivity]. destruct (String.eqb_spec p q); [congruence|reflexivity].
Qed.
Lemma remove_all_ok : forall l s, NoDup l -> (forall t, In t l -> sget s t <> None) -> exists s', remove_all l s = (s', Done tt) /\ forall q, (In q l -> sget s' q = None) /\ (~ In q l -> sget s' q = sget s q).
Proof.
  induction l as [|t l IH]; intros s ND H; cbn [remove_all]; [exists s; split; [reflexivity|]; intros q; split; [intros []|auto]|]. inversion ND as [|? ? N1 N2]; subst. unfold os_remove. destruct (sget s t) eqn:E; [|exfalso; apply (H t); [left; reflexivity|exact E]].
  destruct (IH (remove t s) N2) as (s' & E' & H').
  - intros u Hu. rewrite sget_remove. destruct (String.eqb_spec t u) as [->|]; [contradiction|]. apply H. right. exact Hu.
  - exists s'. split; [exact E'|]. intros q. destruct (H' q) as [Q1 Q2]. split.
    + intros [->|Hq]; [|auto]. destruct (in_dec string_dec q l) as [K|K]; [auto|]. rewrite Q2 by exact K. rewrite sget_remove, String.eqb_refl. reflexivity.
    + intros Hn. rewrite Q2 by (intros K; apply Hn; right; exact K). rewrite sget_remove. destruct (String.eqb_spec t q) as [->|]; [exfalso; apply Hn; left; reflexivity|reflexivity].
Qed.

(** What the tool is run with: the options, each -I and -D, all the sources that are files in their
    order, then all the texts in their order, each in a file of its own that did not exist. *)
Theorem C41_inputs : forall mkstemp tool env inc def out f s s' cmd temps, makes_new mkstemp (source_list f) ->
  preprocess_run mkstemp tool env inc def out f s = (s', Done (cmd, temps)) ->
  cmd = (match env with Some i => i | None => "iverilog"%string end)
        :: flat_map (fun i => ["-I"%string; i]) (match inc with Some l => l | None => [] end)
        ++ flat_map (fun d => ["-D"%string; d]) (match def with Some l => l | None => [] end)
        ++ ["-E"; "-o"; out]%string ++ file_sources s (source_list f) ++ temps /\
  exists s1 s2, tool cmd s1 = Done s2 /\ NoDup temps /\ (forall q v, sget s q = Some v -> sget s1 q = Some v) /\
    Forall2 (fun x t => sget s1 t = Some x /\ sget s t = None) (text_sources s (source_list f)) temps.
Proof.
  intros mkstemp tool env inc def out f s s' cmd temps HN E. unfold preprocess_run in E. destruct (collect mkstemp (source_list f) s (Pre [] [])) as [s1 [p|]] eqn:EC; [|discriminate].
  destruct (collect_ok mkstemp (source_list f) HN _ _ _ _ _ (incl_refl _) EC) as (C1 & C2 & C3 & C4). destruct (C4 p eq_refl) as (ts & T1 & T2 & T3 & T4 & T5). cbn [p_files p_temps app] in *.
  cbv zeta in E. destruct (tool (command env inc def out (p_files p ++ p_temps p)) s1) as [s2|] eqn:ET; [|discriminate]. destruct (remove_all (p_temps p) s2) as [s3 [u|]] eqn:ER; [|discriminate]. injection E as _ <- <-.
  split; [unfold command, options; rewrite T2; reflexivity|]. exists s1, s2. rewrite T1 in *. auto.
Qed.
Print Assumptions C41_inputs.

(** Clean-up: if the tool runs and leaves the temporary files alone, they are all gone afterwards,
    and nothing else changes but by the tool. *)
Theorem C41_cleanup : forall mkstemp tool env inc def out f s s1 p, makes_new mkstemp (source_list f) ->
  collect mkstemp (source_list f) s (Pre [] []) = (s1, Done p) ->
  forall s2, tool (command env inc def out (p_files p ++ p_temps p)) s1 = Done s2 -> (forall t, In t (p_temps p) -> sget s2 t <> None) ->
  exists s' cmd temps, preprocess_run mkstemp tool env inc def out f s = (s', Done (cmd, temps)) /\
    (forall t, In t temps -> sget s' t = None) /\ (forall q, ~ In q temps -> sget s' q = sget s2 q) /\
    (forall q, sget s1 q <> None -> sget s q <> None \/ In q temps).
Proof.
  intros mkstemp tool env inc def out f s s1 p HN EC s2 ET HK. destruct (collect_ok mkstemp (source_list f) HN _ _ _ _ _ (incl_refl _) EC) as (C1 & C2 & C3 & C4). destruct (C4 p eq_refl) as (ts & T1 & T2 & T3 & T4 & T5). cbn [p_files p_temps app] in *.
  destruct (remove_all_ok (p_temps p) s2) as (s' & ER & HR); [rewrite T1; exact T4|exact HK|].
  exists s', (command env inc def out (p_files p ++ p_temps p)), (p_temps p). unfold preprocess_run. rewrite EC. cbv zeta. rewrite ET, ER. split; [reflexivity|]. split; [intros t Ht; apply HR; exact Ht|]. split; [intros q Hq; apply HR; exact Hq|]. rewrite T1. exact T5.
Qed.
Print Assumptions C41_cleanup.
(** preprocess() returns the output of the tool and deletes it. *)
Theorem C41_output_read : forall mkstemp tool env inc def out f s s' text, preprocess mkstemp tool env inc def out f s = (s', Done text) ->
  exists s1 cmd temps, preprocess_run mkstemp tool env inc def out f s = (s1, Done (cmd, temps)) /\ sget s1 out = Some text /\ sget s' out = None /\ forall q, q <> out -> sget s' q = sget s1 q.
Proof.
  intros mkstemp tool env inc def out f s s' text E. unfold preprocess in E. destruct (preprocess_run mkstemp tool env inc def out f s) as [s1 [[cmd temps]|]]; [|discriminate]. destruct (sget s1 out) as [x|] eqn:EO; [|discriminate]. unfold os_remove in E. rewrite EO in E. injection E as <- <-.
  exists s1, cmd, temps. split; [reflexivity|]. split; [exact EO|]. split; [rewrite sget_remove, String.eqb_refl; reflexivity|]. intros q Hq. rewrite sget_remove. destruct (String.eqb_spec out q); [congruence|reflexivity].
Qed.
Print Assumptions C41_output_read.
(** The inputs are in the order of the sources if all files come before all texts. *)
Theorem C41_order_partial : forall mkstemp tool env inc def out f s s' cmd temps, makes_new mkstemp (source_list f) ->
  (forall l1 x l2, source_list f = l1 ++ x :: l2 -> isfile s x = false -> forall y, In y l2 -> isfile s y = false) ->
  preprocess_run mkstemp tool env inc def out f s = (s', Done (cmd, temps)) ->
  exists s1 s2 inputs pre, tool cmd s1 = Done s2 /\ cmd = pre ++ inputs /\ in_order s s1 (source_list f) inputs /\ inputs = file_sources s (source_list f) ++ temps.
Proof.
  intros mkstemp tool env inc def out f s s' cmd temps HN HO E. destruct (C41_inputs _ _ _ _ _ _ _ _ _ _ _ HN E) as (Ec & s1 & s2 & Et & _ & _ & HT).
  exists s1, s2, (file_sources s (source_list f) ++ temps). eexists. split; [exact Et|]. split; [rewrite Ec; repeat rewrite ?app_comm_cons, ?app_assoc; reflexivity|]. split; [|reflexivity].
  revert HO HT. generalize (source_list f). clear. intros l. revert temps. induction l as [|x l IH]; intros temps HO HT; cbn [file_sources text_sources filter] in *.
  - inversion HT. constructor.
  - destruct (isfile s x) eqn:EX; cbn [negb app] in *.
    + apply io_file; [exact EX|]. apply IH; [|exact HT]. intros l1 y l2 E. apply (HO (x :: l1) y l2). now rewrite E.
    + assert (file_sources s l = []) as E0. { pose proof (HO [] x l eq_refl EX) as H. clear - H. unfold file_sources. induction l as [|y l IH]; [reflexivity|]. cbn. rewrite (H y (or_introl eq_refl)). apply IH. intros z Hz. apply H. right. exact Hz. }
      fold (file_sources s l). rewrite E0. inversion HT as [|? t ? ts [H1 H2] HT']; subst. cbn [app]. apply io_text; [exact EX|exact H1|].
      specialize (IH ts). rewrite E0 in IH. apply IH; [|exact HT']. intros l1 y l2 E. apply (HO (x :: l1) y l2). now rewrite E.
Qed.
Print Assumptions C41_order_partial.

(** An example: new paths are t, tt, ttt, ...; the tool writes out. *)
Fixpoint longer (s : files) : string := match s with [] => "t"%string | (k, _) :: r => (k ++ longer r)%string end.
Definition mk (s : files) : io string := Done (longer s).
Definition run_tool (cmd : list string) (s : files) : io files := Done (sset s "out"%string "text"%string).
Definition here : files := [("a.v", "module a; endmodule"); ("b.v", "module b; endmodule")]%string.
Definition srcs : sources := Several ["a.v"; "b.v"; "module c; endmodule"]%string.
Example C41_run : preprocess mk run_tool None (Some ["inc"; "lib"]%string) (Some ["N=1"]%string) "out"%string srcs here = (here, Done "text"%string) /\
  snd (preprocess_run mk run_tool None (Some ["inc"; "lib"]%string) (Some ["N=1"]%string) "out"%string srcs here) =
    Done (["iverilog"; "-I"; "inc"; "-I"; "lib"; "-D"; "N=1"; "-E"; "-o"; "out"; "a.v"; "b.v"; "a.vb.vt"], ["a.vb.vt"])%string.
Proof. split; vm_compute; reflexivity. Qed.
Lemma length_append' a b : String.length (a ++ b) = (String.length a + String.length b)%nat.
Proof. induction a; cbn; auto. Qed.
Lemma longer_new s : sget s (longer s) = None.
Proof.
  assert (forall s', (forall p, In p s -> In p s') -> forall k v, In (k, v) s -> (String.length k < String.length (longer s))%nat) as K.
  { induction s as [|[k v] r IH]; [intros ? ? ? ? []|]. cbn [longer]. assert (forall r, (0 < String.length (longer r))%nat) as HP by (intros r0; destruct r0 as [|[] ?]; cbn; [lia|]; induction r0 as [|[k0 v0] r0 IH0]; cbn; rewrite ?length_append'; cbn; try lia; rewrite length_append' in IH0; lia).
    intros s' H k' v' [E|Hin]; rewrite length_append'; [injection E as <- <-; specialize (HP r); lia|]. specialize (IH r (fun p Hp => Hp) k' v' Hin). lia. }
  destruct (sget s (longer s)) as [v|] eqn:E; [|reflexivity]. exfalso.
  assert (forall (d : files) k v, sget d k = Some v -> In (k, v) d) as HG. { clear. induction d as [|[k' v'] r IH]; intros k v E; [discriminate|]. cbn in E. destruct (String.eqb_spec k' k) as [->|]; [injection E as ->; left; reflexivity|right; auto]. }
  specialize (K s (fun p Hp => Hp) _ _ (HG _ _ _ E)). lia.
Qed.
Example C41_hypotheses_met : makes_new (fun s => if String.eqb (longer s) "a.v" || String.eqb (longer s) "b.v" || String.eqb (longer s) "module c; endmodule" then OSError else mk s) (source_list srcs) /\
  (forall l1 x l2, source_list srcs = l1 ++ x :: l2 -> isfile here x = false -> forall y, In y l2 -> isfile here y = false).
Proof.
  split.
  - intros s t E. destruct (String.eqb_spec (longer s) "a.v"); [discriminate|]. destruct (String.eqb_spec (longer s) "b.v"); [discriminate|]. destruct (String.eqb_spec (longer s) "module c; endmodule"); [discriminate|]. cbn [orb] in E. injection E as <-. split; [apply longer_new|]. cbn. intuition congruence.
  - intros [|? [|? [|? l1]]] x l2 E HF y Hy; injection E; intros; subst; try (vm_compute in HF; discriminate); [destruct Hy|destruct l1; discriminate].
Qed.

(** Full property: the inputs are in the order of the sources; every temporary file is deleted
    whatever happens. *)
Definition inputs_in_order : Prop := forall mkstemp tool env inc def out f s s' cmd temps, makes_new mkstemp (source_list f) ->
  preprocess_run mkstemp tool env inc def out f s = (s', Done (cmd, temps)) -> exists s1 inputs pre, cmd = pre ++ inputs /\ length inputs = length (source_list f) /\ in_order s s1 (source_list f) inputs.
Definition always_cleaned : Prop := forall mkstemp tool env inc def out f s s' r, makes_new mkstemp (source_list f) -> (forall c s1 s2 q, tool c s1 = Done s2 -> sget s1 q <> None -> sget s2 q <> None) ->
  preprocess_run mkstemp tool env inc def out f s = (s', r) -> r = OSError -> forall q, sget s' q <> None -> sget s q <> None \/ q = out.
Definition new_t (s : files) : io string := if isfile s "t" then OSError else Done "t"%string.
Theorem C41_order_refuted :
  (* a text before a file comes after it *)
  ~ inputs_in_order /\
  snd (preprocess_run new_t run_tool None None None "out" (Several ["`define N 1"; "a.v"]%string) here) = Done (["iverilog"; "-E"; "-o"; "out"; "a.v"; "t"], ["t"])%string /\
  (* if the tool is not installed, temporary files stay *)
  ~ always_cleaned /\
  (* a single file name is taken as many one-character texts *)
  source_list (Single "a.v") = ["a"; "."; "v"]%string.
Proof.
  assert (forall l, ~ In "t"%string l -> makes_new new_t l) as HN. { intros l Hl s t E. unfold new_t in E. destruct (isfile s "t") eqn:EF; [discriminate|]. injection E as <-. split; [|exact Hl]. unfold isfile in EF. destruct (sget s "t"); [discriminate|reflexivity]. }
  split; [|split; [vm_compute; reflexivity|split; [|reflexivity]]].
  - intros H. destruct (H new_t run_tool None None None "out"%string (Several ["`define N 1"; "a.v"]%string) here _ _ _ (HN (source_list (Several ["`define N 1"; "a.v"]%string)) ltac:(cbn; intuition discriminate)) eq_refl) as (s1 & inputs & pre & E & EL & HI).
    cbn [source_list] in *. inversion HI as [|x l r E1 HI1|x t l r E1 E2 HI1]; subst; [discriminate E1|]. inversion HI1 as [|x l' r' F1 HI2|x t' l' r' F1 F2 HI2]; subst; [|discriminate F1]. inversion HI2; subst.
    assert (last (["iverilog"; "-E"; "-o"; "out"; "a.v"; "t"]%string) "" = last (pre ++ [t; "a.v"]%string) "")%string as K by (f_equal; exact E). replace (pre ++ [t; "a.v"%string]) with ((pre ++ [t]) ++ ["a.v"%string]) in K by (rewrite <- app_assoc; reflexivity). rewrite last_last in K. discriminate.
  - intros H. specialize (H new_t (fun _ _ => OSError) None None None "out"%string (Several ["`define N 1"]%string) here _ _ (HN (source_list (Several ["`define N 1"]%string)) ltac:(cbn; intuition discriminate)) ltac:(discriminate) eq_refl eq_refl "t"%string).
    vm_compute in H. destruct H as [H|H]; [discriminate|apply H; reflexivity|discriminate].
Qed.
Print Assumptions C41_order_refuted.
