From Verif Require Import Base ScopeModel ScopeSpec ScopeProofs DfModel BindModel BindSpec BindProofs VisitModel VisitSpec VisitProofs VisitProofs2 LstModel LstSpec LstProofs LstProofs2.

Section Rest.
  Context {node : Type}.
  Variable name_of : node -> string.
  Variable class_of : node -> string.
  Notation visit := (visit node name_of class_of).
  Notation happen := (happen node name_of class_of).
  Implicit Type h : list (ev node).

  (** ** Instances *)
  Definition insts (d : ndict (frame node)) : list (chain * option string) :=
    flat_map (fun p => match rev (fst p) with
                       | l :: _ => match stype l with STmodule => [(fst p, fl_modulename (f_flags node (snd p)))] | _ => [] end
                       | [] => []
                       end) d.
  Lemma insts_dset (d : ndict (frame node)) k f0 f : dget d k = Some f0 -> f_flags node f = f_flags node f0 -> insts (dset d k f) = insts d.
  Proof.
    intros E HF. induction d as [|[k1 f1] r IH]; [discriminate|]. cbn [dget dset] in *. destruct (chain_eq k1 k).
    - injection E as ->. unfold insts. cbn [flat_map fst snd]. now rewrite HF.
    - unfold insts in *. cbn [flat_map]. now rewrite IH.
  Qed.
  Lemma insts_new (d : ndict (frame node)) c lb f : keys_plain d -> no_any (c ++ [lb]) -> dget d (c ++ [lb]) = None ->
    insts (dset d (c ++ [lb]) f) = insts d ++ match stype lb with STmodule => [(c ++ [lb], fl_modulename (f_flags node f))] | _ => [] end.
  Proof.
    intros Hd Hc E. apply dget_in in E; [|exact Hd|exact Hc]. rewrite dset_fresh by assumption. unfold insts. rewrite flat_map_app. cbn [flat_map fst snd]. rewrite rev_app_distr. cbn [rev app]. now rewrite app_nil_r.
  Qed.
  Definition sound (s : ftable node) : Prop := keys_plain (ft_dict node s) /\ no_any (ft_current node s).
  Lemma addFrame_insts s lb fl s' : sound s -> stype lb <> STany -> addFrame node s lb fl = Ok s' ->
    sound s' /\ insts (ft_dict node s') = insts (ft_dict node s) ++ match stype lb with STmodule => [(ft_current node s ++ [lb], fl_modulename fl)] | _ => [] end.
  Proof.
    intros [H1 H2] Hl E. unfold addFrame, chain_add_label in E. assert (no_any (ft_current node s ++ [lb])) as Hsc by now apply no_any_snoc.
    destruct (dmem (ft_dict node s) (ft_current node s ++ [lb])) eqn:EM; [discriminate|]. unfold dmem in EM. destruct (dget (ft_dict node s) (ft_current node s ++ [lb])) eqn:EG; [discriminate|]. apply bind_ok in E as (d & Ed & E). injection E as <-. unfold sound. cbn [ft_dict ft_current].
    assert (keys_plain d /\ insts d = insts (ft_dict node s) /\ map fst d = map fst (ft_dict node s)) as (Kd & Id & Md).
    { destruct (ft_current node s) as [|c0 cr] eqn:EC; [injection Ed as <-; auto|]. rewrite <- EC in *. destruct (dget (ft_dict node s) (ft_current node s)) as [p|] eqn:EP; [|discriminate]. injection Ed as <-. split; [now apply dset_plain|]. split; [apply (insts_dset _ _ p _ EP); reflexivity|]. rewrite dset_keys by assumption. rewrite EP. now rewrite app_nil_r. }
    split; [split; [now apply dset_plain|exact Hsc]|]. rewrite insts_new; [|exact Kd|exact Hsc|].
    - rewrite Id. reflexivity.
    - apply dget_in; [exact Kd|exact Hsc|]. rewrite Md. now apply dget_in.
  Qed.
  Lemma on_current_insts s g s' : sound s -> (forall f, f_flags node (g f) = f_flags node f) -> on_current node s g = Ok s' -> sound s' /\ insts (ft_dict node s') = insts (ft_dict node s) /\ ft_current node s' = ft_current node s.
  Proof.
    intros [H1 H2] Hg E. unfold on_current in E. destruct (dget _ _) as [f|] eqn:EG; [|discriminate]. injection E as <-. unfold sound. cbn [ft_dict ft_current]. split; [split; [now apply dset_plain|exact H2]|]. split; [|reflexivity]. apply (insts_dset _ _ f _ EG (Hg f)).
  Qed.
  Lemma stype_cases lb : stype lb <> STmodule -> forall (A : Type) (x y : A), match stype lb with STmodule => x | _ => y end = y.
  Proof. intros H A x y. destruct (stype lb); try reflexivity. congruence. Qed.
  Lemma happen_insts e s s1 : sound (t_frames node s) -> plain_ev e -> happen s e = Ok s1 ->
    sound (t_frames node s1) /\ ft_current node (t_frames node s1) = moved (ft_current node (t_frames node s)) e /\
    insts (ft_dict node (t_frames node s1)) = insts (ft_dict node (t_frames node s)) ++
      match e with Instance _ i m _ => [(ft_current node (t_frames node s) ++ [Label i STmodule None], Some m)] | _ => [] end.
  Proof.
    intros HS HP E. assert (ft_current node (t_frames node s1) = moved (ft_current node (t_frames node s)) e) as HM by (destruct (happen_runs name_of class_of e [] s s1 E) as (_ & _ & _ & H); exact H).
    enough (sound (t_frames node s1) /\ insts (ft_dict node (t_frames node s1)) = insts (ft_dict node (t_frames node s)) ++
      match e with Instance _ i m _ => [(ft_current node (t_frames node s) ++ [Label i STmodule None], Some m)] | _ => [] end) by tauto. clear HM.
    destruct e as [lb fl|c|d|d|d| |d| |i m ds]; cbn [LstModel.happen plain_ev] in *; rewrite ?app_nil_r.
    - apply bind_ok in E as (f & E & E'). injection E' as <-. cbn [with_frames t_frames]. destruct HP as [P1 P2]. destruct (addFrame_insts _ _ _ _ HS P1 E) as [K1 K2]. split; [exact K1|]. rewrite K2, stype_cases by exact P2. now rewrite app_nil_r.
    - injection E as <-. cbn [with_frames t_frames setCurrent ft_dict]. split; [|reflexivity]. destruct HS as [S1 S2]. split; [exact S1|exact HP].
    - destruct (t_function_def node s && is_input node class_of d).
      + apply bind_ok in E as (x & _ & E). injection E as <-. auto.
      + destruct (t_task_def node s && is_input node class_of d).
        * apply bind_ok in E as (x & _ & E). injection E as <-. auto.
        * apply bind_ok in E as (f & E & E'). injection E' as <-. cbn [with_frames t_frames]. apply on_current_insts in E; [|exact HS|]; [tauto|]. intros f0. unfold frame_addSignal. destruct (sget _ _); reflexivity.
    - apply bind_ok in E as (f & E & E'). injection E' as <-. cbn [with_frames t_frames]. apply on_current_insts in E; [|exact HS|]; [tauto|]. intros f0. unfold frame_addConst. destruct (sget _ _); reflexivity.
    - apply bind_ok in E as (x & _ & E). injection E as <-. auto.
    - injection E as <-. auto.
    - apply bind_ok in E as (x & _ & E). injection E as <-. auto.
    - injection E as <-. auto.
    - apply bind_ok in E as (f & E & E'). injection E' as <-. cbn [with_frames t_frames]. unfold stackInstanceFrame in E. apply bind_ok in E as (s1 & E1 & E). apply bind_ok in E as (s2 & E2 & E3).
      apply addFrame_insts in E1 as [K1 K2]; [|exact HS|discriminate]. apply on_current_insts in E2 as (K3 & K4 & _); [|exact K1|reflexivity]. apply on_current_insts in E3 as (K5 & K6 & _); [|exact K3|reflexivity]. split; [exact K5|]. rewrite K6, K4, K2. reflexivity.
  Qed.
  Lemma sound_init : sound (t_frames node (empty node)).
  Proof. split; constructor. Qed.
  Lemma instances_ok h : forall s s', visit h s = Ok s' -> Forall plain_ev h -> sound (t_frames node s) ->
    getAllInstances node s' = getAllInstances node s ++ instances (ft_current node (t_frames node s)) h.
  Proof.
    induction h as [|e r IH]; intros s s' E HP HS; [injection E as <-; now rewrite app_nil_r|]. inversion HP as [|? ? P1 P2]; subst. cbn [LstModel.visit] in E. apply bind_ok in E as (s1 & E1 & E2).
    destruct (happen_insts e s s1 HS P1 E1) as (K1 & K2 & K3). rewrite (IH s1 s' E2 P2 K1), K2. unfold getAllInstances. fold (insts (ft_dict node (t_frames node s1))). fold (insts (ft_dict node (t_frames node s))). rewrite K3, <- app_assoc. reflexivity.
  Qed.

  (** ** Functions and tasks *)
  Definition defs (b : bool) (s : table node) : ndict (deftable node) := if b then t_tasks node s else t_functions node s.
  Definition entries (b : bool) (s : table node) (c : chain) : list (string * info node) := dt_dict node (deftable_of node (defs b s) c).
  Fixpoint add_last (l : list (string * info node)) (ins : list node) : list (string * info node) :=
    match l with
    | [] => []
    | (n, i) :: r => match r with [] => [(n, Info node (i_def node i) (i_ports node i ++ ins))] | _ => (n, i) :: add_last r ins end
    end.
  Lemma add_last_snoc l n d ps ins : add_last (l ++ [(n, Info node d ps)]) ins = l ++ [(n, Info node d (ps ++ ins))].
  Proof. induction l as [|[n1 i1] r IH]; [reflexivity|]. cbn [app add_last]. rewrite IH. destruct (r ++ [(n, Info node d ps)]) eqn:E; [destruct r; discriminate|reflexivity]. Qed.
  Definition entry (x : chain * node * list node) : string * info node := (name_of (snd (fst x)), Info node (snd (fst x)) (snd x)).
  Definition at_ (c : chain) (l : list (chain * node * list node)) : list (string * info node) :=
    flat_map (fun x => if chain_dec (fst (fst x)) c then [entry x] else []) l.
  Lemma at_app c a b : at_ c (a ++ b) = at_ c a ++ at_ c b.
  Proof. apply flat_map_app. Qed.

  (** The routine being visited is the last one of its table. *)
  Definition open_in (within : option (bool * chain)) (s : table node) : Prop :=
    match within with
    | None => t_function_def node s = false /\ t_task_def node s = false
    | Some (b, c) => t_function_def node s = negb b /\ t_task_def node s = b /\ no_any c /\
        exists l n d ps, entries b s c = l ++ [(n, Info node d ps)] /\ dt_current node (deftable_of node (defs b s) c) = Some n /\ ~ In n (map fst l)
    end.
  Definition after_within (within : option (bool * chain)) (b : bool) (c : chain) (l : list (string * info node)) (ins : list node) : list (string * info node) :=
    match within with Some (b', c') => if Bool.bool_dec b' b then if chain_dec c' c then add_last l ins else l else l | None => l end.
  Definition plain_defs (s : table node) : Prop := keys_plain (t_functions node s) /\ keys_plain (t_tasks node s) /\ forall b c, no_any c -> NoDup (map fst (entries b s c)).

  Lemma addDefinition_spec (t t' : deftable node) d : addDefinition node name_of t d = Ok t' -> ~ In (name_of d) (map fst (dt_dict node t)) /\ dt_dict node t' = dt_dict node t ++ [(name_of d, Info node d [])] /\ dt_current node t' = Some (name_of d).
  Proof.
    unfold addDefinition. destruct (sget _ _) eqn:E; [discriminate|]. intros H. injection H as <-. apply sget_none in E. cbn [dt_dict dt_current]. rewrite sset_fresh by exact E. auto.
  Qed.
  Lemma sget_snoc {V} (l : list (string * V)) n v : ~ In n (map fst l) -> sget (l ++ [(n, v)]) n = Some v.
  Proof. induction l as [|[k w] r IH]; cbn [app sget map fst In]; intros H; [now rewrite String.eqb_refl|]. destruct (String.eqb k n) eqn:E; [apply String.eqb_eq in E; tauto|]. apply IH. tauto. Qed.
  Lemma sset_snoc {V} (l : list (string * V)) n v w : ~ In n (map fst l) -> sset (l ++ [(n, v)]) n w = l ++ [(n, w)].
  Proof. induction l as [|[k u] r IH]; cbn [app sset map fst In]; intros H; [now rewrite String.eqb_refl|]. destruct (String.eqb k n) eqn:E; [apply String.eqb_eq in E; tauto|]. rewrite IH by tauto. reflexivity. Qed.
  Lemma addPort_spec (t t' : deftable node) x l n d ps : dt_dict node t = l ++ [(n, Info node d ps)] -> dt_current node t = Some n -> ~ In n (map fst l) ->
    addPort node t x = Ok t' -> dt_dict node t' = l ++ [(n, Info node d (ps ++ [x]))] /\ dt_current node t' = Some n.
  Proof.
    intros H1 H2 H3 E. unfold addPort in E. rewrite H2, H1, sget_snoc in E by exact H3. injection E as <-. cbn [dt_dict dt_current i_def i_ports]. rewrite sset_snoc by exact H3. auto.
  Qed.

  (** Replacing the table of one scope. *)
  Lemma defs_dset (d : ndict (deftable node)) c t c' : keys_plain d -> no_any c -> no_any c' -> deftable_of node (dset d c t) c' = if chain_dec c c' then t else deftable_of node d c'.
  Proof. intros H1 H2 H3. unfold deftable_of. rewrite dget_dset by assumption. destruct (chain_dec c c'); reflexivity. Qed.
  Lemma on_defs_spec d s g d' : on_defs node d s g = Ok d' -> exists t, g (deftable_of node d (ft_current node (t_frames node s))) = Ok t /\ d' = dset d (ft_current node (t_frames node s)) t.
  Proof. unfold on_defs. destruct (dget _ _); [|discriminate]. intros E. apply bind_ok in E as (t & E1 & E2). injection E2 as <-. eauto. Qed.

  Definition routine_of (e : ev node) : option (bool * node) := match e with Function _ d => Some (false, d) | Task _ d => Some (true, d) | _ => None end.
  Lemma routines_cons b cur e r : routines class_of b cur (e :: r) =
    match routine_of e with Some (b', d) => if Bool.bool_dec b' b then [(cur, d, inputs class_of r)] else [] | None => [] end ++ routines class_of b (moved cur e) r.
  Proof. destruct b, e; reflexivity. Qed.

  (** Events that leave the tables alone. *)
  Lemma same_open within s s1 : t_functions node s1 = t_functions node s -> t_tasks node s1 = t_tasks node s -> t_function_def node s1 = t_function_def node s -> t_task_def node s1 = t_task_def node s ->
    open_in within s -> open_in within s1.
  Proof.
    intros H1 H2 H3 H4. unfold open_in. destruct within as [[b c]|]; rewrite H3, H4; [|auto]. unfold entries, defs. rewrite H1, H2. auto.
  Qed.
  Lemma same_plain s s1 : t_functions node s1 = t_functions node s -> t_tasks node s1 = t_tasks node s -> plain_defs s -> plain_defs s1.
  Proof. intros H1 H2. unfold plain_defs, entries, defs. rewrite H1, H2. auto. Qed.

  Lemma routines_ok h : forall within s s', visit h s = Ok s' -> Forall plain_ev h -> sound (t_frames node s) -> plain_defs s -> open_in within s ->
    proper class_of within (ft_current node (t_frames node s)) h ->
    forall b c, no_any c -> entries b s' c = after_within within b c (entries b s c) (inputs class_of h) ++ at_ c (routines class_of b (ft_current node (t_frames node s)) h) /\ NoDup (map fst (entries b s' c)).
  Proof.
    induction h as [|e r IH]; intros within s s' E HP HS HD HO HW b c Hc.
    - injection E as <-. cbn [inputs routines at_ flat_map]. rewrite app_nil_r. split; [|now apply HD]. unfold after_within. destruct within as [[b' c']|]; [|reflexivity]. destruct (Bool.bool_dec b' b) as [->|]; [|reflexivity]. destruct (chain_dec c' c) as [->|]; [|reflexivity].
      cbn [open_in] in HO. destruct HO as (_ & _ & _ & l & n & d & ps & EL & _). rewrite EL, add_last_snoc. now rewrite app_nil_r.
    - inversion HP as [|? ? P1 P2]; subst. cbn [LstModel.visit] in E. apply bind_ok in E as (s1 & E1 & E2). destruct (happen_insts e s s1 HS P1 E1) as (S1 & M1 & _). cbn [proper] in HW. destruct HW as [W1 W2]. rewrite <- M1 in W2. rewrite routines_cons, <- M1.
      (* nothing happens to the tables *)
      assert (t_functions node s1 = t_functions node s -> t_tasks node s1 = t_tasks node s -> t_function_def node s1 = t_function_def node s -> t_task_def node s1 = t_task_def node s ->
        routine_of e = None -> (match e with Function _ _ => Some (false, ft_current node (t_frames node s)) | Task _ _ => Some (true, ft_current node (t_frames node s)) | EndFunction _ | EndTask _ => None | _ => within end) = within ->
        (within <> None -> inputs class_of (e :: r) = inputs class_of r) ->
        entries b s' c = after_within within b c (entries b s c) (inputs class_of (e :: r)) ++ at_ c (match routine_of e with Some (b', d) => if Bool.bool_dec b' b then [(ft_current node (t_frames node s), d, inputs class_of r)] else [] | None => [] end ++ routines class_of b (ft_current node (t_frames node s1)) r) /\ NoDup (map fst (entries b s' c))) as QUIET.
      { intros F1 F2 F3 F4 F5 F6 F7. rewrite F5. cbn [app]. rewrite F6 in W2. destruct (IH within s1 s' E2 P2 S1 (same_plain s s1 F1 F2 HD) (same_open within s s1 F1 F2 F3 F4 HO) W2 b c Hc) as [K1 K2]. split; [|exact K2]. rewrite K1. f_equal.
        assert (entries b s1 c = entries b s c) as -> by (unfold entries, defs; rewrite F1, F2; reflexivity). destruct within as [x|]; [|reflexivity]. rewrite F7 by discriminate. reflexivity. }
      (* a definition *)
      assert (forall b0 d, routine_of e = Some (b0, d) -> (match e with Function _ _ => Some (false, ft_current node (t_frames node s)) | Task _ _ => Some (true, ft_current node (t_frames node s)) | EndFunction _ | EndTask _ => None | _ => within end) = Some (b0, ft_current node (t_frames node s)) -> within = None ->
        (exists x, on_defs node (defs b0 s) s (fun t => addDefinition node name_of t d) = Ok x /\ defs b0 s1 = x /\ defs (negb b0) s1 = defs (negb b0) s /\ t_function_def node s1 = negb b0 /\ t_task_def node s1 = b0) ->
        entries b s' c = after_within within b c (entries b s c) (inputs class_of (e :: r)) ++ at_ c (match routine_of e with Some (b', d) => if Bool.bool_dec b' b then [(ft_current node (t_frames node s), d, inputs class_of r)] else [] | None => [] end ++ routines class_of b (ft_current node (t_frames node s1)) r) /\ NoDup (map fst (entries b s' c))) as DEFINES.
      { intros b0 d F1 F2 F3 (x & F4 & F5 & F6 & F7 & F8). rewrite F1. subst within. cbn [after_within]. rewrite F2 in W2. apply on_defs_spec in F4 as (t & F4 & ->). apply addDefinition_spec in F4 as (G1 & G2 & G3). destruct HS as [HS1 HS2].
        set (cur := ft_current node (t_frames node s)) in *. destruct HD as (D1 & D2 & D3).
        assert (keys_plain (defs b0 s)) as D0 by (destruct b0; [exact D2|exact D1]).
        assert (forall b1 c1, no_any c1 -> entries b1 s1 c1 = entries b1 s c1 ++ if Bool.bool_dec b0 b1 then if chain_dec cur c1 then [(name_of d, Info node d [])] else [] else []) as HE.
        { intros b1 c1 Hc1. unfold entries. destruct (Bool.bool_dec b0 b1) as [<-|N]; [|assert (b1 = negb b0) as -> by (clear - N; destruct b0, b1; cbn; congruence); rewrite F6; now rewrite app_nil_r]. rewrite F5, defs_dset by assumption. destruct (chain_dec cur c1) as [<-|]; [exact G2|now rewrite app_nil_r]. }
        assert (plain_defs s1) as HD1.
        { split; [|split].
          - destruct b0; [cbn [defs negb] in F6; rewrite F6; exact D1|cbn [defs] in F5; rewrite F5; now apply dset_plain].
          - destruct b0; [cbn [defs] in F5; rewrite F5; now apply dset_plain|cbn [defs negb] in F6; rewrite F6; exact D2].
          - intros b1 c1 Hc1. rewrite HE by exact Hc1. rewrite map_app. destruct (Bool.bool_dec b0 b1) as [<-|]; [|cbn; rewrite app_nil_r; now apply D3]. destruct (chain_dec cur c1) as [<-|]; [|cbn; rewrite app_nil_r; now apply D3]. apply nodup_app; [now apply D3|cbn; constructor; [intros []|constructor]|]. intros y Y1 [<-|[]]. exact (G1 Y1). }
        assert (open_in (Some (b0, cur)) s1) as HO1.
        { cbn [open_in]. split; [exact F7|]. split; [exact F8|]. split; [exact HS2|]. exists (entries b0 s cur), (name_of d), d, []. split; [rewrite HE by exact HS2; destruct (Bool.bool_dec b0 b0); [|congruence]; destruct (chain_dec cur cur); [reflexivity|congruence]|]. split; [|exact G1]. rewrite F5, defs_dset by assumption. destruct (chain_dec cur cur); [exact G3|congruence]. }
        destruct (IH (Some (b0, cur)) s1 s' E2 P2 S1 HD1 HO1 W2 b c Hc) as [K1 K2]. split; [|exact K2]. rewrite K1, HE by exact Hc. cbn [after_within]. rewrite at_app, app_assoc. f_equal. destruct (Bool.bool_dec b0 b) as [<-|N]; [|cbn [at_ flat_map]; now rewrite !app_nil_r].
        cbn [at_ flat_map fst snd]. destruct (chain_dec cur c) as [<-|N]; [|now rewrite !app_nil_r]. rewrite add_last_snoc. reflexivity. }
      (* an input of the routine being visited *)
      assert (forall b0 c0 d, e = Declare node d -> within = Some (b0, c0) -> String.eqb (class_of d) "Input" = true ->
        (exists x, on_defs node (defs b0 s) s (fun t => addPort node t d) = Ok x /\ defs b0 s1 = x /\ defs (negb b0) s1 = defs (negb b0) s /\ t_function_def node s1 = t_function_def node s /\ t_task_def node s1 = t_task_def node s) ->
        entries b s' c = after_within within b c (entries b s c) (inputs class_of (e :: r)) ++ at_ c (match routine_of e with Some (b', d) => if Bool.bool_dec b' b then [(ft_current node (t_frames node s), d, inputs class_of r)] else [] | None => [] end ++ routines class_of b (ft_current node (t_frames node s1)) r) /\ NoDup (map fst (entries b s' c))) as PORT.
      { intros b0 c0 d -> -> HI (x & F4 & F5 & F6 & F7 & F8). cbn [routine_of app] in *. apply on_defs_spec in F4 as (t & F4 & ->). destruct HS as [HS1 HS2]. rewrite (W1 (proj1 (String.eqb_eq _ _) HI)) in *. destruct HO as (O1 & O2 & O3 & l & n & d0 & ps & O4 & O5 & O6). destruct HD as (D1 & D2 & D3).
        assert (keys_plain (defs b0 s)) as D0 by (destruct b0; [exact D2|exact D1]).
        destruct (addPort_spec _ _ _ _ _ _ _ O4 O5 O6 F4) as [G1 G2].
        assert (forall b1 c1, no_any c1 -> entries b1 s1 c1 = if Bool.bool_dec b0 b1 then if chain_dec c0 c1 then l ++ [(n, Info node d0 (ps ++ [d]))] else entries b1 s c1 else entries b1 s c1) as HE.
        { intros b1 c1 Hc1. unfold entries. destruct (Bool.bool_dec b0 b1) as [<-|N]; [|assert (b1 = negb b0) as -> by (clear - N; destruct b0, b1; cbn; congruence); now rewrite F6]. rewrite F5, defs_dset by assumption. destruct (chain_dec c0 c1) as [<-|]; [exact G1|reflexivity]. }
        assert (NoDup (map fst l ++ [n])) as HN by (specialize (D3 b0 c0 O3); rewrite O4, map_app in D3; exact D3).
        assert (plain_defs s1) as HD1.
        { split; [|split].
          - destruct b0; [cbn [defs negb] in F6; rewrite F6; exact D1|cbn [defs] in F5; rewrite F5; now apply dset_plain].
          - destruct b0; [cbn [defs] in F5; rewrite F5; now apply dset_plain|cbn [defs negb] in F6; rewrite F6; exact D2].
          - intros b1 c1 Hc1. rewrite HE by exact Hc1. destruct (Bool.bool_dec b0 b1) as [<-|]; [|now apply D3]. destruct (chain_dec c0 c1) as [<-|]; [|now apply D3]. rewrite map_app. exact HN. }
        assert (open_in (Some (b0, c0)) s1) as HO1.
        { cbn [open_in]. rewrite F7, F8. split; [exact O1|]. split; [exact O2|]. split; [exact O3|]. exists l, n, d0, (ps ++ [d]). split; [rewrite HE by exact O3; destruct (Bool.bool_dec b0 b0); [|congruence]; destruct (chain_dec c0 c0); [reflexivity|congruence]|]. split; [|exact O6]. rewrite F5, defs_dset by assumption. destruct (chain_dec c0 c0); [exact G2|congruence]. }
        destruct (IH (Some (b0, c0)) s1 s' E2 P2 S1 HD1 HO1 W2 b c Hc) as [K1 K2]. split; [|exact K2]. rewrite K1, HE by exact Hc. cbn [after_within]. f_equal. destruct (Bool.bool_dec b0 b) as [<-|N]; [|reflexivity]. destruct (chain_dec c0 c) as [<-|N]; [|reflexivity]. rewrite O4. rewrite !add_last_snoc. cbn [inputs]. rewrite HI. now rewrite <- app_assoc. }
      (* the end of a routine *)
      assert (forall b0 c0, within = Some (b0, c0) -> t_functions node s1 = t_functions node s -> t_tasks node s1 = t_tasks node s -> t_function_def node s1 = false -> t_task_def node s1 = false -> inputs class_of (e :: r) = [] -> routine_of e = None ->
        (match e with Function _ _ => Some (false, ft_current node (t_frames node s)) | Task _ _ => Some (true, ft_current node (t_frames node s)) | EndFunction _ | EndTask _ => None | _ => within end) = None ->
        entries b s' c = after_within within b c (entries b s c) (inputs class_of (e :: r)) ++ at_ c (match routine_of e with Some (b', d) => if Bool.bool_dec b' b then [(ft_current node (t_frames node s), d, inputs class_of r)] else [] | None => [] end ++ routines class_of b (ft_current node (t_frames node s1)) r) /\ NoDup (map fst (entries b s' c))) as ENDS.
      { intros b0 c0 -> F1 F2 F3 F4 F5 F6 F7. rewrite F5, F6. cbn [app]. rewrite F7 in W2. destruct (IH None s1 s' E2 P2 S1 (same_plain s s1 F1 F2 HD) (conj F3 F4) W2 b c Hc) as [K1 K2]. split; [|exact K2]. rewrite K1. f_equal. cbn [after_within].
        assert (entries b s1 c = entries b s c) as -> by (unfold entries, defs; rewrite F1, F2; reflexivity). destruct (Bool.bool_dec b0 b) as [->|]; [|reflexivity]. destruct (chain_dec c0 c) as [->|]; [|reflexivity]. destruct HO as (_ & _ & _ & l & n & d & ps & EL & _). rewrite EL, add_last_snoc. now rewrite app_nil_r. }
      destruct e as [lb fl|c1|d|d|d| |d| |i m ds]; cbn [LstModel.happen] in E1.
      + apply bind_ok in E1 as (f & _ & E1). injection E1 as <-. apply QUIET; reflexivity.
      + injection E1 as <-. apply QUIET; reflexivity.
      + unfold is_input in E1. destruct (String.eqb (class_of d) "Input") eqn:EI.
        * rewrite !andb_true_r in E1. destruct within as [[b0 c0]|].
          -- destruct HO as (O1 & O2 & O3). apply (PORT b0 c0 d eq_refl eq_refl EI). rewrite O1, O2 in E1. destruct b0; cbn [negb] in E1.
             ++ apply bind_ok in E1 as (x & E1 & E1'). injection E1' as <-. exists x. cbn. rewrite O1, O2. auto.
             ++ apply bind_ok in E1 as (x & E1 & E1'). injection E1' as <-. exists x. cbn. rewrite O1, O2. auto.
          -- destruct HO as (O1 & O2). rewrite O1, O2 in E1. apply bind_ok in E1 as (f & _ & E1). injection E1 as <-. apply QUIET; try reflexivity. congruence.
        * rewrite !andb_false_r in E1. apply bind_ok in E1 as (f & _ & E1). injection E1 as <-. apply QUIET; try reflexivity. intros _. cbn [inputs]. rewrite EI. reflexivity.
      + apply bind_ok in E1 as (f & _ & E1). injection E1 as <-. apply QUIET; reflexivity.
      + destruct within as [[b0 c0]|]; [destruct W1|]. destruct HO as (O1 & O2). apply bind_ok in E1 as (x & E1 & E1'). injection E1' as <-. apply (DEFINES false d eq_refl eq_refl eq_refl). exists x. cbn. auto.
      + injection E1 as <-. destruct within as [[b0 c0]|]; [|destruct W1]. subst b0. destruct HO as (O1 & O2 & _). apply (ENDS false c0 eq_refl); try reflexivity. exact O2.
      + destruct within as [[b0 c0]|]; [destruct W1|]. destruct HO as (O1 & O2). apply bind_ok in E1 as (x & E1 & E1'). injection E1' as <-. apply (DEFINES true d eq_refl eq_refl eq_refl). exists x. cbn. auto.
      + injection E1 as <-. destruct within as [[b0 c0]|]; [|destruct W1]. subst b0. destruct HO as (O1 & O2 & _). apply (ENDS true c0 eq_refl); first [reflexivity | exact O1].
      + apply bind_ok in E1 as (f & _ & E1). injection E1 as <-. destruct within as [[b0 c0]|]; [destruct W1|]. apply QUIET; reflexivity.
  Qed.
  Lemma plain_init : plain_defs (empty node).
  Proof. split; [constructor|]. split; [constructor|]. intros [] c _; constructor. Qed.
  Lemma routines_start h s : visit h (empty node) = Ok s -> Forall plain_ev h -> proper class_of None [] h -> forall b c, no_any c ->
    entries b s c = map (fun x => (name_of (fst x), Info node (fst x) (snd x))) (routines_of class_of b h c) /\ NoDup (map fst (entries b s c)).
  Proof.
    intros E HP HW b c Hc. destruct (routines_ok h None _ s E HP sound_init plain_init (conj eq_refl eq_refl) HW b c Hc) as [K1 K2]. split; [|exact K2]. rewrite K1. cbn [after_within]. replace (entries b (empty node) c) with (@nil (string * info node)) by (destruct b; reflexivity). cbn [app]. unfold routines_of, at_. change (ft_current node (t_frames node (empty node))) with (@nil label).
    induction (routines class_of b [] h) as [|x l IH]; [reflexivity|]. cbn [flat_map]. rewrite map_app, IH. destruct (chain_dec (fst (fst x)) c); reflexivity.
  Qed.
  Lemma functions_ok h s : visit h (empty node) = Ok s -> Forall plain_ev h -> proper class_of None [] h ->
    getAllFunctions node s = flat_map (fun c => map (fun x => (c ++ [Label (name_of (fst x)) STfunction None], Info node (fst x) (snd x))) (routines_of class_of false h c)) (scopes (design name_of class_of h)) /\
    getAllTasks node s = flat_map (fun c => map (fun x => (c ++ [Label (name_of (fst x)) STtask None], Info node (fst x) (snd x))) (routines_of class_of true h c)) (scopes (design name_of class_of h)).
  Proof.
    intros E HP HW. destruct (visited name_of class_of h s E HP) as (HI & HO & HN). pose proof HI as (_ & _ & H3 & _). pose proof HO as (O1 & _). pose proof (dict_entries _ _ HI HO HN) as HE. pose proof (routines_start h s E HP HW) as HR.
    unfold getAllFunctions, getAllTasks. rewrite !all_spec; try discriminate; try exact H3; try exact HN; try (intros c f Hp; destruct (HE c f Hp) as (Hc & _)).
    - rewrite <- O1. split; apply flat_map_fst; intros [c f] Hp; cbn [fst snd]; destruct (HE c f Hp) as (Hc & _).
      + change (dt_dict node (deftable_of node (t_functions node s) c)) with (entries false s c). destruct (HR false c Hc) as [-> _]. rewrite map_map. reflexivity.
      + change (dt_dict node (deftable_of node (t_tasks node s) c)) with (entries true s c). destruct (HR true c Hc) as [-> _]. rewrite map_map. reflexivity.
    - apply (HR true c Hc).
    - apply (HR false c Hc).
  Qed.

  (** ** Terms *)
  Definition acts (l : ndict (list node)) : list action := flat_map (fun p => map (fun d => ATerm (fst p) (bare node class_of (fst p) d)) (snd p)) l.
  Lemma run_terms n (ds : list node) : forall st, BindSpec.run st (map (fun d => ATerm n (bare node class_of n d)) ds) = Ok (fold_left (fun s d => addTerm s n (bare node class_of n d)) ds st).
  Proof. induction ds as [|d r IH]; intros st; [reflexivity|]. cbn [map BindSpec.run fold_left]. apply IH. Qed.
  Lemma copy_signals_run l : forall st, BindSpec.run st (acts l) = Ok (copy_signals node class_of st l).
  Proof. induction l as [|[n ds] r IH]; intros st; [reflexivity|]. unfold acts in *. cbn [flat_map fst snd copy_signals]. rewrite BindProofs.run_app, run_terms. cbn [bind]. apply IH. Qed.
  Lemma copy_consts_run l : (forall n ds, In (n, ds) l -> (length ds <= 1)%nat) -> forall st, copy_consts node class_of st l = BindSpec.run st (acts l).
  Proof.
    induction l as [|[n ds] r IH]; intros H st; [reflexivity|]. unfold acts in *. cbn [flat_map fst snd copy_consts]. rewrite BindProofs.run_app, run_terms. cbn [bind]. pose proof (H n ds (or_introl eq_refl)) as L. destruct (1 <? length ds)%nat eqn:EL; [apply Nat.ltb_lt in EL; lia|]. apply IH. intros m e Hm. apply (H m e). now right.
  Qed.
  Lemma constant_decl_short (l : list (act node)) n : (length (constant_decl l n) <= 1)%nat.
  Proof. induction l as [|x r IH]; cbn [constant_decl]; [cbn; lia|]. destruct x; try exact IH. destruct (String.eqb _ _); [cbn; lia|exact IH]. Qed.
  Lemma in_signals a s k ds : inv a s -> ordered a s -> NoDup (map fst (ft_dict node s)) -> (In (k, ds) (flat_map (signals_of a) (scopes a)) <-> exists c n, no_any c /\ k = c ++ [Label n STsignal None] /\ ds = signals_in a c n /\ ds <> []).
  Proof.
    intros HI HO HN. pose proof HI as (_ & _ & H3 & _ & H5 & _). pose proof HO as (O1 & O2 & O3). rewrite in_flat_map. split.
    - intros (c & Hc & Hk). unfold signals_of in Hk. apply in_map_iff in Hk as (n & E & Hn). injection E as <- <-. apply signal_names_in in Hn. exists c, n. rewrite <- O1 in Hc. unfold keys_plain in H3. rewrite Forall_forall in H3. apply in_map_iff in Hc as (p & <- & Hp). split; [now apply H3|]. split; [reflexivity|]. split; [reflexivity|exact Hn].
    - intros (c & n & Hc & -> & -> & Hn). exists c. split; [|unfold signals_of; apply in_map_iff; exists n; split; [reflexivity|now apply signal_names_in]].
      rewrite <- O1. destruct (dget (ft_dict node s) c) eqn:ED; [|exfalso; apply Hn; now apply (H5 c Hc ED n)]. destruct (in_dec chain_dec c (map fst (ft_dict node s))) as [K|K]; [exact K|]. apply dget_in in K; [congruence|exact H3|exact Hc].
  Qed.
  Lemma in_constants a s k ds : inv a s -> ordered a s -> NoDup (map fst (ft_dict node s)) -> (In (k, ds) (flat_map (constants_of a) (scopes a)) <-> exists c n, no_any c /\ k = c ++ [Label n STsignal None] /\ ds = constants_in a c n /\ ds <> []).
  Proof.
    intros HI HO HN. pose proof HI as (_ & _ & H3 & _ & H5 & _). pose proof HO as (O1 & O2 & O3). rewrite in_flat_map. split.
    - intros (c & Hc & Hk). unfold constants_of in Hk. apply in_map_iff in Hk as (n & E & Hn). injection E as <- <-. apply constant_names_in in Hn. exists c, n. rewrite <- O1 in Hc. unfold keys_plain in H3. rewrite Forall_forall in H3. apply in_map_iff in Hc as (p & <- & Hp). split; [now apply H3|]. split; [reflexivity|]. split; [reflexivity|exact Hn].
    - intros (c & n & Hc & -> & -> & Hn). exists c. split; [|unfold constants_of; apply in_map_iff; exists n; split; [reflexivity|now apply constant_names_in]].
      rewrite <- O1. destruct (dget (ft_dict node s) c) eqn:ED; [|exfalso; apply Hn; now apply (H5 c Hc ED n)]. destruct (in_dec chain_dec c (map fst (ft_dict node s))) as [K|K]; [exact K|]. apply dget_in in K; [congruence|exact H3|exact Hc].
  Qed.
  Lemma in_acts l n t : In t (terms_of n (acts l)) <-> exists ds d, In (n, ds) l /\ In d ds /\ t = bare node class_of n d.
  Proof.
    unfold terms_of, acts. rewrite in_flat_map. split.
    - intros (x & Hx & Ht). apply in_flat_map in Hx as ([m ds] & Hm & Hx). apply in_map_iff in Hx as (d & <- & Hd). cbn [fst snd] in *. destruct (chain_dec m n) as [->|]; [|destruct Ht]. destruct Ht as [<-|[]]. eauto.
    - intros (ds & d & H1 & H2 & ->). exists (ATerm n (bare node class_of n d)). split; [apply in_flat_map; exists (n, ds); split; [exact H1|]; apply in_map_iff; exists d; auto|]. destruct (chain_dec n n); [now left|congruence].
  Qed.
  Lemma acts_plain l : (forall n ds, In (n, ds) l -> no_any n) -> Forall plain_action (acts l).
  Proof. intros H. apply Forall_forall. intros x Hx. unfold acts in Hx. apply in_flat_map in Hx as ([n ds] & H1 & H2). apply in_map_iff in H2 as (d & <- & _). cbn. eapply H; eauto. Qed.
  Lemma first_none {A} (f : A -> df) l : (forall t, In t l -> f t = DNone) -> first_present is_none DNone (map f l) = DNone.
  Proof. induction l as [|t r IH]; intros H; [reflexivity|]. cbn [map first_present]. rewrite (H t) by now left. apply IH. intros u Hu. apply H. now right. Qed.
  Lemma terms_ok h s : visit h (empty node) = Ok s -> Forall plain_ev h ->
    exists st, copyAllFrameInfo node class_of s empty_store = Ok st /\ s_binds st = [] /\
      (forall c n, no_any c -> let ds := constants_in (design name_of class_of h) c n ++ signals_in (design name_of class_of h) c n in
        match dget (s_terms st) (c ++ [Label n STsignal None]) with None => ds = [] | Some t => ds <> [] /\ says class_of t ds end) /\
      (forall k, no_any k -> dget (s_terms st) k <> None -> exists c n, k = c ++ [Label n STsignal None]).
  Proof.
    intros E HP. destruct (visited name_of class_of h s E HP) as (HI & HO & HN). set (a := design name_of class_of h) in *.
    pose proof (fun k ds => in_signals a _ k ds HI HO HN) as HSg. pose proof (fun k ds => in_constants a _ k ds HI HO HN) as HCn.
    unfold copyAllFrameInfo. rewrite (signals_ok name_of class_of h s E HP), (constants_ok name_of class_of h s E HP). fold a.
    rewrite copy_consts_run by (intros n ds Hn; apply HCn in Hn as (c & m & _ & _ & -> & _); apply constant_decl_short).
    set (LC := flat_map (constants_of a) (scopes a)) in *. set (LS := flat_map (signals_of a) (scopes a)) in *.
    destruct (BindProofs.run_inv (acts (LC ++ LS))) as (st & Est & HT1 & HT2 & HT3 & HT4).
    { apply acts_plain. intros n ds Hn. apply in_app_iff in Hn as [Hn|Hn]; [apply HCn in Hn|apply HSg in Hn]; destruct Hn as (c & m & Hc & -> & _); apply no_any_label; [exact Hc|discriminate|exact Hc|discriminate]. }
    assert (forall n t, In t (terms_of n (acts (LC ++ LS))) <-> exists ds d, (In (n, ds) LC \/ In (n, ds) LS) /\ In d ds /\ t = bare node class_of n d) as HA.
    { intros n t. rewrite in_acts. split; intros (ds & d & H1 & H2); exists ds, d; [apply in_app_iff in H1|split; [apply in_app_iff|]]; tauto. }
    assert (acts (LC ++ LS) = acts LC ++ acts LS) as EA by apply flat_map_app. rewrite EA, BindProofs.run_app in Est. apply bind_ok in Est as (st1 & E1 & E2). rewrite E1. cbn [bind]. rewrite copy_signals_run in E2. injection E2 as E2. rewrite E2. exists st. split; [reflexivity|].
    assert (forall c n d, no_any c -> (exists ds, (In (c ++ [Label n STsignal None], ds) LC \/ In (c ++ [Label n STsignal None], ds) LS) /\ In d ds) <-> In d (constants_in a c n ++ signals_in a c n)) as HIn.
    { intros c n d Hc. rewrite in_app_iff. split.
      - intros (ds & [H|H] & Hd); [apply HCn in H|apply HSg in H]; destruct H as (c' & n' & _ & EQ & -> & _); apply label_inj in EQ as [<- <-]; auto.
      - intros [H|H]; [exists (constants_in a c n)|exists (signals_in a c n)]; (split; [|exact H]); [left; apply HCn|right; apply HSg]; exists c, n; (split; [exact Hc|]); (split; [reflexivity|]); (split; [reflexivity|]); intros K; rewrite K in H; destruct H. }
    split; [|split].
    - assert (forall n, no_any n -> dget (s_binds st) n = None) as HB.
      { clear - E1 E2. assert (forall l s0, s_binds (copy_signals node class_of s0 l) = s_binds s0) as HS.
        { assert (forall n ds s0, s_binds (fold_left (fun s d => addTerm s n (bare node class_of n d)) ds s0) = s_binds s0) as HF.
          { intros n ds. induction ds as [|d r IH]; intros s0; [reflexivity|]. cbn [fold_left]. rewrite IH. unfold addTerm. destruct (dget _ _); reflexivity. }
          induction l as [|[n ds] r IH]; intros s0; [reflexivity|]. cbn [copy_signals]. rewrite IH. apply HF. }
        rewrite copy_signals_run in E1. injection E1 as E1. intros n _. rewrite <- E2, HS, <- E1, HS. reflexivity. }
      destruct (s_binds st) as [|[k v] r] eqn:EB; [reflexivity|]. exfalso. inversion HT2 as [|? ? K1 _]; subst. cbn [fst] in K1. specialize (HB k K1). cbn [dget] in HB. rewrite chain_eq_refl in HB. discriminate.
    - intros c n Hc. set (ds := constants_in a c n ++ signals_in a c n). assert (no_any (c ++ [Label n STsignal None])) as Hk by (apply no_any_label; [exact Hc|discriminate]). specialize (HT4 _ Hk). destruct (dget (s_terms st) (c ++ [Label n STsignal None])) as [t|] eqn:ET.
      + destruct HT4 as (T1 & T2 & T3 & T4 & T5).
        assert (forall t', In t' (terms_of (c ++ [Label n STsignal None]) (acts (LC ++ LS))) -> exists d, In d ds /\ t' = bare node class_of (c ++ [Label n STsignal None]) d) as HT.
        { intros t' Ht'. apply HA in Ht' as (ds' & d & H1 & H2 & ->). exists d. split; [|reflexivity]. apply HIn; [exact Hc|]. eauto. }
        split.
        * intros K. destruct (terms_of (c ++ [Label n STsignal None]) (acts (LC ++ LS))) as [|t' r'] eqn:EL; [congruence|]. destruct (HT t' (or_introl eq_refl)) as (d & Hd & _). rewrite K in Hd. destruct Hd.
        * split; [|split; [|split]].
          -- intros x. rewrite T2. split.
             ++ intros (t' & Ht' & Hx). destruct (HT t' Ht') as (d & Hd & ->). cbn in Hx. destruct Hx as [<-|[]]. eauto.
             ++ intros (d & Hd & <-). exists (bare node class_of (c ++ [Label n STsignal None]) d). split; [|cbn; now left]. apply HA. apply HIn in Hd; [|exact Hc]. destruct Hd as (ds' & H1 & H2). exists ds', d. auto.
          -- rewrite T3. apply first_none. intros t' Ht'. destruct (HT t' Ht') as (d & _ & ->). reflexivity.
          -- rewrite T4. apply first_none. intros t' Ht'. destruct (HT t' Ht') as (d & _ & ->). reflexivity.
          -- rewrite T5. assert (forall t', In t' (terms_of (c ++ [Label n STsignal None]) (acts (LC ++ LS))) -> t_dims t' = None) as HDm by (intros t' Ht'; destruct (HT t' Ht') as (d & _ & ->); reflexivity). clear - HDm. induction (terms_of _ _) as [|t' r IH]; [reflexivity|]. cbn [map first_present]. rewrite (HDm t') by now left. apply IH. intros u Hu. apply HDm. now right.
      + destruct ds as [|d r] eqn:Eds; [reflexivity|]. exfalso. assert (In d (constants_in a c n ++ signals_in a c n)) as Hd by (change (In d ds); rewrite Eds; now left). apply HIn in Hd; [|exact Hc]. destruct Hd as (ds' & H1 & H2). assert (In (bare node class_of (c ++ [Label n STsignal None]) d) (terms_of (c ++ [Label n STsignal None]) (acts (LC ++ LS)))) as K by (apply HA; exists ds', d; auto). rewrite HT4 in K. destruct K.
    - intros k Hk HD. specialize (HT4 k Hk). destruct (dget (s_terms st) k) as [t|]; [|congruence]. destruct HT4 as (T1 & _). destruct (terms_of k (acts (LC ++ LS))) as [|t' r'] eqn:EL; [congruence|]. assert (In t' (terms_of k (acts (LC ++ LS)))) as K by (rewrite EL; now left). apply HA in K as (ds & d & [H|H] & _); [apply HCn in H|apply HSg in H]; destruct H as (c & n & _ & -> & _); eauto.
  Qed.
End Rest.
