(** ElabProofs5.v - procedural code has no instances; the parameters of a module. *)
From Verif Require Import Base ScopeModel ScopeSpec ScopeProofs DfModel BindModel BindSpec BindProofs LitModel OptModel OptProofs ReorderModel AsgModel ExprModel MkModel HierModel VisitModel VisitProofs ElabModel ElabSpec ElabProofs ElabProofs2 ElabProofs3 ElabProofs4.

Lemma sees_nil s c : sees s c []. Proof. intros y o H. discriminate. Qed.
Lemma did_then c r s s1 s2 l1 l2 : Inv s -> no_any c -> Did c [] r s s1 l1 -> (forall n, idle s1 c r n -> idle s c r n) -> Did c [] r s1 s2 l2 -> Did c [] r s s2 (l1 ++ l2).
Proof. intros I Hc D1 Hi D2. change (@nil string) with (@nil string ++ []). eapply did_trans; eauto. Qed.
Lemma did_then0 c s s1 s2 l1 l2 : Inv s -> no_any c -> Did c [] [] s s1 l1 -> Did c [] [] s1 s2 l2 -> Did c [] [] s s2 (l1 ++ l2).
Proof. intros I Hc D1 D2. eapply did_then; eauto. intros n H. destruct (no_idle _ _ _ H). Qed.
Lemma did_state c ds r s s' l : Did c ds r s s' l -> current s' = c /\ Inv s' /\ exists f, fr s' c = Some f.
Proof. intros D. split; [apply D|]. split; [apply D|]. destruct (d_here _ _ _ _ _ _ D) as (f & f' & _ & F & _). eauto. Qed.
Lemma at_frame s c g a : at_ s c g a -> exists f, fr s c = Some f. Proof. intros (f & F & _). eauto. Qed.
Lemma opened_at c l g a s s1 : Opened c l (plain_flags g a false) s s1 -> at_ s1 (c ++ [l]) g a.
Proof. intros O. destruct (o_here _ _ _ _ _ O) as (f & F & E). exists f. split; [exact F|]. rewrite E. cbn. repeat split. Qed.
(** Going somewhere and coming back. *)
Lemma goto_goto s c d : goto (goto s c) d = goto s d. Proof. reflexivity. Qed.

Section Procedural.
  Variable log2i : Z -> option Z.
  Variable tocode : df -> res string.
  Variable T : mtable.
  Definition quiet (rec : st -> item -> res st) (x : item) : Prop :=
    forall s s' c g, rec s x = Ok s' -> current s = c -> Inv s -> no_any c -> at_ s c g true -> Did c [] [] s s' [].

  Lemma each_quiet rec l : Forall (quiet rec) l -> forall s s' c g, each rec s l = Ok s' -> current s = c -> Inv s -> no_any c -> at_ s c g true -> Did c [] [] s s' [].
  Proof.
    induction 1 as [|x l Hx Hl IH]; intros s s' c g H Hc I Hn Ha; cbn [each] in H.
    - injection H as <-. destruct (at_frame _ _ _ _ Ha) as [f F]. eapply did_refl; eauto.
    - ub. pose proof (Hx _ _ _ _ B Hc I Hn Ha) as D1. destruct (did_state _ _ _ _ _ _ D1) as (Hc1 & I1 & _). change (@nil instance_at) with (@nil instance_at ++ []).
      eapply did_then0; [exact I|exact Hn|exact D1|]. eapply IH; eauto using at_did.
  Qed.
  Lemma inside_quiet s s' c l g b : Inv s -> no_any c -> current s = c -> at_ s c g true -> ordinary l -> stype l <> STmodule ->
    inside_of s l (plain_flags g true false) b = Ok s' ->
    (forall s1 s2, b s1 = Ok s2 -> current s1 = c ++ [l] -> Inv s1 -> no_any (c ++ [l]) -> at_ s1 (c ++ [l]) g true -> Did (c ++ [l]) [] [] s1 s2 []) -> Did c [] [] s s' [].
  Proof.
    intros I Hn Hc Ha Hl Hm H Hb. destruct (at_frame _ _ _ _ Ha) as [f F]. destruct (inside c l (plain_flags g true false) s s' b [] f I Hn Hc F Hl Hm eq_refl H) as (s1 & g1 & s2 & O & G & _ & _ & _ & _ & Hb2 & HD).
    assert (no_any (c ++ [l])) as Hn1 by (apply no_any_snoc; [exact Hn|apply Hl]).
    exact (HD [] [] [] (sees_nil s c) (fun y H => H) (Hb s1 s2 Hb2 (o_cur _ _ _ _ _ O) (o_inv _ _ _ _ _ O) Hn1 (opened_at _ _ _ _ _ _ O))).
  Qed.
  Lemma get_label_state s k p c g a : get_label s k = Ok p -> current s = c -> Inv s -> at_ s c g a -> current (snd p) = c /\ Inv (snd p) /\ at_ (snd p) c g a.
  Proof.
    intros H Hc I Ha. apply get_label_same in H as [E1 E2]. split; [unfold current in *; now rewrite E1|]. split; [eapply inv_labels; eauto|eapply at_labels; eauto].
  Qed.
  Lemma did_get_label s k p c ds r s' l : get_label s k = Ok p -> Did c ds r (snd p) s' l -> Did c ds r s s' l.
  Proof. intros H D. apply get_label_same in H as [E1 E2]. eapply did_labels; eauto. Qed.

  Lemma ord_if n : ordinary (Label n STif None). Proof. split; discriminate. Qed.
  Lemma if_true_quiet rec t s p c g : match t with Some x => quiet rec x | None => True end -> if_true rec s t = Ok p -> current s = c -> Inv s -> no_any c -> at_ s c g true -> Did c [] [] s (snd p) [].
  Proof.
    intros Ht H Hc I Hn Ha. destruct t as [x|]; cbn [if_true] in H.
    - ub. injection H as <-. cbn [snd]. destruct (get_label_state _ _ _ _ _ _ B Hc I Ha) as (Hc1 & I1 & Ha1). apply (did_get_label _ _ _ _ _ _ _ _ B).
      rewrite (same_flags_at _ _ _ _ _ Hc1 Ha1 B0) in B1. eapply inside_quiet; [exact I1|exact Hn|exact Hc1|exact Ha1|apply ord_if| |exact B1|]; [discriminate|]. intros. eapply Ht; eauto.
    - injection H as <-. destruct (at_frame _ _ _ _ Ha) as [f F]. eapply did_refl; eauto.
  Qed.
  Lemma if_false_quiet rec t s lb s' c g : match t with Some x => quiet rec x | None => True end -> if_false rec s t lb = Ok s' -> current s = c -> Inv s -> no_any c -> at_ s c g true -> Did c [] [] s s' [].
  Proof.
    intros Ht H Hc I Hn Ha. destruct t as [x|]; cbn [if_false] in H.
    - destruct lb as [lb|]; [|discriminate]. ub. rewrite (same_flags_at _ _ _ _ _ Hc Ha B) in H.
      eapply inside_quiet; [exact I|exact Hn|exact Hc|exact Ha|apply ord_if| |exact H|]; [discriminate|]. intros. eapply Ht; eauto.
    - injection H as <-. destruct (at_frame _ _ _ _ Ha) as [f F]. eapply did_refl; eauto.
  Qed.
  Lemma case_quiet rec l : Forall (fun o => match o with Some x => quiet rec x | None => True end) l ->
    forall s s' c g, case_items rec s l = Ok s' -> current s = c -> Inv s -> no_any c -> at_ s c g true -> Did c [] [] s (goto s' c) [].
  Proof.
    induction 1 as [|o l Ho Hl IH]; intros s s' c g H Hc I Hn Ha; cbn [case_items] in H.
    - injection H as <-. destruct (at_frame _ _ _ _ Ha) as [f F]. pose proof (did_refl c [] s f I Hc F) as D.
      assert (goto s c = s) as ->; [|exact D]. unfold goto, with_fr, setCurrent, current in *. rewrite <- Hc. now destruct s as [[] ? ?].
    - ub. destruct (get_label_state _ _ _ _ _ _ B Hc I Ha) as (Hc1 & I1 & Ha1). apply (did_get_label _ _ _ _ _ _ _ _ B).
      rewrite (same_flags_at _ _ _ _ _ Hc1 Ha1 B0) in *.
      assert (Did c [] [] (snd r) r1 []) as D1.
      { eapply inside_quiet; [exact I1|exact Hn|exact Hc1|exact Ha1|apply ord_if| |exact B1|]; [discriminate|]. intros s1 s2 E Hc2 I2 Hn2 Ha2. destruct o as [x|]; [eapply Ho; eauto|].
        injection E as <-. destruct (at_frame _ _ _ _ Ha2) as [f F]. eapply did_refl; eauto. }
      destruct (did_state _ _ _ _ _ _ D1) as (Hc2 & I2 & f & F). pose proof (at_did _ _ _ _ _ _ _ _ D1 Ha1) as Ha2. destruct l as [|o' l'].
      + injection H as <-. assert (goto r1 c = r1) as ->; [|exact D1]. unfold goto, with_fr, setCurrent, current in *. rewrite <- Hc2. now destruct r1 as [[] ? ?].
      + change (@nil instance_at) with (@nil instance_at ++ []). eapply did_then0; [exact I1|exact Hn|exact D1|]. ub.
        destruct (frame_in_opened c _ _ r1 _ f I2 Hn Hc2 F (ord_if _) B2) as (O & _).
        assert (no_any (c ++ [Label (fst r ++ "_ELSE") STif None])) as Hn1 by (apply no_any_snoc; [auto|discriminate]).
        pose proof (IH _ _ _ _ H (o_cur _ _ _ _ _ O) (o_inv _ _ _ _ _ O) Hn1 (opened_at _ _ _ _ _ _ O)) as D2.
        change (goto s' c) with (goto (goto s' (c ++ [Label (fst r ++ "_ELSE") STif None])) c).
        change (@nil instance_at) with (@nil instance_at ++ []). eapply close; [exact I2|exact Hn|apply ord_if|exact O|exact D2| |].
        * intros n Hi. destruct (no_idle _ _ _ Hi).
        * unfold insts. cbn [flat_map app fst snd]. rewrite last_last. constructor.
  Qed.

  Lemma all_forall (P : item -> Prop) l : (fix all (l : list item) : Prop := match l with [] => True | x :: r => P x /\ all r end) l -> Forall P l.
  Proof. induction l as [|x l IH]; intros H; constructor; [apply H|apply IH, H]. Qed.
  Lemma allo_forall (P : option item -> Prop) l : (fix allo (l : list (option item)) : Prop := match l with [] => True | x :: r => P x /\ allo r end) l -> Forall P l.
  Proof. induction l as [|x l IH]; intros H; constructor; [apply H|apply IH, H]. Qed.

  Lemma procedural_quiet k : forall x, procedural x -> quiet (visit log2i tocode T k) x.
  Proof.
    induction k as [|k IH]; intros x Hx s s' c g H Hc I Hn Ha; [discriminate|]. cbn [visit] in H. destruct (at_frame _ _ _ _ Ha) as [f F].
    destruct x; cbn [procedural] in Hx; try tauto; cbn [rule] in H.
    - refine (proj1 (on_here_did c [] s s' f _ [] I Hn Hc F H _ _ _ _)); [| |intros y _|intros y []]; unfold frame_addSignal; destruct (sget (f_consts decl f) n); reflexivity.
    - unfold if_statement in H. ub. unfold here in B. unfold fr, frames in F. rewrite Hc, F in B. injection B as <-.
      assert (generate_only (f_flags decl f) = false) as E.
      { destruct Ha as (f' & F' & _ & E & _). unfold fr, frames in F'. assert (f' = f) as -> by congruence. unfold generate_only. rewrite E. cbn. now rewrite andb_false_r. }
      rewrite E in H. ub. destruct Hx as [Ht Hf].
      assert (forall o, match o with Some x => procedural x | None => True end -> match o with Some x => quiet (visit log2i tocode T k) x | None => True end) as Ho by (intros [x|]; auto).
      pose proof (if_true_quiet _ _ _ _ _ _ (Ho _ Ht) B Hc I Hn Ha) as D1. destruct (did_state _ _ _ _ _ _ D1) as (Hc1 & I1 & _). change (@nil instance_at) with (@nil instance_at ++ []).
      eapply did_then0; [exact I|exact Hn|exact D1|]. exact (if_false_quiet _ _ _ _ _ _ _ (Ho _ Hf) H Hc1 I1 Hn (at_did _ _ _ _ _ _ _ _ D1 Ha)).
    - ub. apply all_forall in Hx. assert (s_fr (snd r) = s_fr s /\ s_cs (snd r) = s_cs s) as [E1 E2].
      { destruct n; [injection B as <-; auto|now apply get_label_same in B]. }
      assert (current (snd r) = c) as Hc1 by (unfold current in *; now rewrite E1). assert (Inv (snd r)) as I1 by (eapply inv_labels; eauto). assert (at_ (snd r) c g true) as Ha1 by (eapply at_labels; eauto).
      apply (did_labels _ _ _ _ _ _ _ E1 E2). rewrite (same_flags_at _ _ _ _ _ Hc1 Ha1 B0) in H.
      eapply inside_quiet; [exact I1|exact Hn|exact Hc1|exact Ha1| | |exact H|]; [split; discriminate|discriminate|]. intros s1 s2 Es H1 I2 Hn2 Ha2. refine (each_quiet _ l _ _ _ _ _ Es H1 I2 Hn2 Ha2). eapply Forall_impl; [|exact Hx]. auto.
    - unfold case_statement in H. ub. injection H as <-. rewrite Hc in *. apply (allo_forall (fun o => match o with Some x => procedural x | None => True end)) in Hx. refine (case_quiet _ l _ _ _ _ _ B Hc I Hn Ha). eapply Forall_impl; [|exact Hx]. intros [x|]; auto.
    - injection H as <-. eapply did_refl; eauto.
  Qed.
End Procedural.

(** ** The parameters of a module *)
Definition no_const (i i' : info) : Prop := i_consts i' = i_consts i /\ i_params i' = i_params i.
Lemma fold_no_const {A} (g : info -> A -> info) l : (forall x i, In x l -> no_const i (g i x)) -> forall i, no_const i (fold_left g l i).
Proof.
  induction l as [|x l IH]; intros H i; [split; reflexivity|]. cbn [fold_left]. destruct (IH (fun y j Hy => H y j (or_intror Hy)) (g i x)) as [E1 E2]. destruct (H x i (or_introl eq_refl)) as [E3 E4]. split; congruence.
Qed.
Section ItemInd.
  Variable Q : item -> Prop.
  Hypotheses (H1 : forall p n, Q (ISignal p n)) (H2 : forall n w e, Q (IParam n w e)) (H3 : forall n e, Q (ILocal n e)) (H4 : forall n, Q (IGenvar n))
    (H5 : forall m n a g, Q (IInst m n a g)) (H6 : forall l, Forall Q l -> Q (IGenerate l))
    (H7 : forall c t f, match t with Some x => Q x | None => True end -> match f with Some x => Q x | None => True end -> Q (IIf c t f))
    (H8 : forall x pre c y post b, Q b -> Q (IFor x pre c y post b)) (H9 : forall n l, Forall Q l -> Q (IBlock n l)) (H10 : forall b, Q b -> Q (IAlways b))
    (H11 : forall l, Forall (fun o => match o with Some x => Q x | None => True end) l -> Q (ICase l)) (H12 : Q ISkip).
  Lemma item_ind' : forall x : item, Q x.
  Proof.
    fix F 1. intros [p n|n w e|n e|n|m n a g|l|c t f|x pre c y post b|n l|b|l|].
    - apply H1. - apply H2. - apply H3. - apply H4. - apply H5.
    - apply H6. induction l as [|x l IH]; constructor; auto.
    - apply H7; [destruct t|destruct f]; auto.
    - apply H8, F.
    - apply H9. induction l as [|x l IH]; constructor; auto.
    - apply H10, F.
    - apply H11. induction l as [|[x|] l IH]; constructor; auto.
    - exact H12.
  Qed.
End ItemInd.
Lemma collect_inner x : inner_ok x -> forall i, no_const i (collect i x).
Proof.
  apply (item_ind' (fun x => inner_ok x -> forall i, no_const i (collect i x))); clear x; try (intros; split; reflexivity).
  - intros p n _ i. cbn. destruct p; [|split; reflexivity]. destruct (sget _ n); split; reflexivity.
  - intros n w e [].
  - intros l IH [_ H] i. apply all_forall in H. cbn [collect]. apply fold_no_const. intros x j Hx. rewrite Forall_forall in *. auto.
  - intros c t f Ht Hf [H1 H2] i. cbn [collect].
    assert (forall j, no_const j match f with Some x => collect j x | None => j end) as Hf' by (intros j; destruct f; [auto|split; reflexivity]).
    assert (no_const i match t with Some x => collect i x | None => i end) as [E1 E2] by (destruct t; [auto|split; reflexivity]).
    destruct (Hf' (match t with Some x => collect i x | None => i end)) as [E3 E4]. split; congruence.
  - intros x pre c y post b IH H i. cbn [collect]. auto.
  - intros n l IH [_ H] i. apply all_forall in H. cbn [collect]. apply fold_no_const. intros x j Hx. rewrite Forall_forall in *. auto.
  - intros l IH H i. apply allo_forall in H. cbn [collect]. apply fold_no_const. intros x j Hx. rewrite Forall_forall in *. specialize (IH _ Hx). specialize (H _ Hx). destruct x; [auto|split; reflexivity].
Qed.

Definition params_of (l : list item) : list (string * list decl) := flat_map (fun x => match x with IParam n w e => [(n, [NParam w e])] | _ => [] end) l.
Lemma params_keys l : map fst (params_of l) = parameters l.
Proof. unfold params_of, parameters. induction l as [|x l IH]; [reflexivity|]. cbn [flat_map]. rewrite map_app, IH. f_equal. destruct x; reflexivity. Qed.
Lemma sget_none {V} (d : list (string * V)) n : ~ In n (map fst d) -> sget d n = None.
Proof. induction d as [|[k v] d IH]; intros H; [reflexivity|]. cbn [sget]. destruct (String.eqb k n) eqn:E; [apply String.eqb_eq in E; destruct H; now left|]. apply IH. intros Hi. apply H. now right. Qed.
Lemma sget_some {V} (d : list (string * V)) n v : NoDup (map fst d) -> In (n, v) d -> sget d n = Some v.
Proof.
  induction d as [|[k w] d IH]; intros HN Hi; [destruct Hi|]. cbn [sget]. inversion HN; subst. destruct Hi as [E|Hi]; [injection E as -> ->; now rewrite String.eqb_refl|].
  destruct (String.eqb k n) eqn:E; [|auto]. apply String.eqb_eq in E as ->. destruct H1. change n with (fst (n, v)). now apply in_map.
Qed.
Lemma sset_new {V} (d : list (string * V)) n v : ~ In n (map fst d) -> sset d n v = d ++ [(n, v)].
Proof. induction d as [|[k w] d IH]; intros H; [reflexivity|]. cbn [sset]. destruct (String.eqb k n) eqn:E; [apply String.eqb_eq in E; destruct H; now left|]. rewrite IH; [reflexivity|]. intros Hi. apply H. now right. Qed.
Lemma collect_module l : Forall item_ok l -> forall i, NoDup (map fst (i_consts i) ++ parameters l) ->
  i_consts (fold_left collect l i) = i_consts i ++ params_of l /\ i_params (fold_left collect l i) = i_params i ++ parameters l.
Proof.
  induction 1 as [|x l Hx Hl IH]; intros i Hi; cbn [fold_left]; [cbn [params_of parameters flat_map]; now rewrite !app_nil_r|].
  destruct (match x with IParam _ _ _ => true | _ => false end) eqn:K.
  - destruct x; try discriminate. cbn [collect]. cbn [parameters flat_map app] in Hi. assert (~ In n (map fst (i_consts i))) as Hn. { intros H. apply NoDup_remove_2 in Hi. apply Hi, in_or_app. auto. }
    rewrite (sget_none _ _ Hn). unfold vadd. rewrite (sget_none _ _ Hn), (sset_new _ _ _ Hn). destruct (IH (Info (i_signals i) (i_consts i ++ [(n, [NParam w e])]) (i_params i ++ [n]))) as [-> ->].
    + cbn [i_consts]. rewrite map_app. cbn [map fst]. rewrite <- app_assoc. exact Hi.
    + cbn [i_consts i_params params_of parameters flat_map]. now rewrite <- !app_assoc.
  - assert (no_const i (collect i x)) as [E1 E2] by (apply collect_inner; destruct x; [| discriminate |..]; exact Hx).
    assert (parameters (x :: l) = parameters l) as Ep by (destruct x; [|discriminate|..]; reflexivity). assert (params_of (x :: l) = params_of l) as Eq by (destruct x; [|discriminate|..]; reflexivity).
    rewrite Ep in *. rewrite Eq. destruct (IH (collect i x)) as [-> ->]; [now rewrite E1|]. now rewrite E1, E2.
Qed.
Lemma parameters_nodup l : NoDup (flat_map declares l) -> NoDup (parameters l).
Proof.
  induction l as [|x l IH]; intros H; [constructor|]. cbn [flat_map] in H. destruct x; cbn [declares app parameters flat_map] in *; try (now apply IH); inversion H; subst; auto.
  constructor; [|now apply IH]. intros Hi. apply H2. clear -Hi. unfold parameters in Hi. apply in_flat_map in Hi as (x & Hx & Hy). apply in_flat_map. exists x. split; auto. destruct x; cbn in Hy |- *; tauto.
Qed.
Lemma module_info n l : NoDup (flat_map declares l) -> Forall item_ok l -> i_consts (mod_info (MDef n l)) = params_of l /\ i_params (mod_info (MDef n l)) = parameters l.
Proof.
  intros H1 H2. unfold mod_info. cbn [m_items]. apply (collect_module l H2 (Info [] [] [])). cbn. now apply parameters_nodup.
Qed.
Lemma supdate_self {V} (l : list (string * V)) : NoDup (map fst l) -> supdate [] l = l.
Proof.
  unfold supdate. assert (forall d, NoDup (map fst d ++ map fst l) -> fold_left (fun d p => sset d (fst p) (snd p)) l d = d ++ l) as H.
  { induction l as [|[n v] l IH]; intros d Hd; cbn [fold_left]; [now rewrite app_nil_r|]. cbn [fst snd map] in *. rewrite sset_new by (intros Hi; apply NoDup_remove_2 in Hd; apply Hd, in_or_app; auto).
    rewrite IH; [now rewrite <- app_assoc|]. rewrite map_app. cbn [map fst]. now rewrite <- app_assoc. }
  intros HN. now apply (H []).
Qed.

Lemma modules_get D : forall t T, modules D t = Ok T -> (forall n x, sget t n = Some x -> sget T n = Some x) /\ (forall m, In m D -> sget T (m_name m) = Some (m, mod_info m)).
Proof.
  induction D as [|m D IH]; intros t T H; cbn [modules] in H.
  - injection H as <-. split; [auto|intros m []].
  - destruct (sget t (m_name m)) eqn:E; [discriminate|]. destruct (IH _ _ H) as [H1 H2].
    assert (forall (u : mtable) n x, sget u n = Some x -> forall w, sget (u ++ w) n = Some x) as Ha. { intros u. induction u as [|[a b] u IHu]; intros n x Hx w; [discriminate|]. cbn in *. destruct (String.eqb a n); auto. }
    split; [intros n x Hx; apply H1; now apply Ha|]. intros m' [<-|Hm]; [|now apply H2]. apply H1.
    clear -E. induction t as [|[a b] t IHt]; cbn in *; [now rewrite String.eqb_refl|]. destruct (String.eqb a (m_name m)); [discriminate|auto].
Qed.
