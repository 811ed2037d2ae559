(** FunProofs6.v - continuous assignments of a module. *)
From Verif Require Import Base ScopeModel ScopeSpec ScopeProofs DfModel DfSpec BindModel BindSpec BindProofs AsgModel ExprModel MkModel BlkModel BlkSpec BlkProofs2 FunModel FunSpec FunProofs FunProofs2 FunProofs3 FunProofs4 FunProofs5.

Lemma good_of st : fstate_ok st -> Good st.
Proof.
  intros (A & B & C & D). constructor; auto.
  - unfold plain_st, keys_plain. eapply Forall_impl; [|exact B]. intros p (K & _). exact K.
  - intros n t Hn E. revert B E. generalize (trees st). intros l. induction l as [|[m u] l IH]; intros B E; [discriminate|]. inversion B as [|? ? (K1 & K2) B']; subst. cbn [dget fst] in *.
    destruct (chain_eq m n) eqn:Em; [|now apply IH]. apply (chain_eq_no_any m n K1 Hn) in Em. now subst n.
Qed.
Lemma find_module st M0 m s n : find st (M0 ++ [Label m STmodule None]) s = Ok n -> n = (M0 ++ [Label m STmodule None]) ++ [sig s].
Proof.
  unfold find. rewrite rev_app_distr. cbn [rev app search stype]. rewrite rev_involutive. destruct (smem _ _); [|discriminate]. intros H. now injection H as <-.
Qed.
Lemma assign_ok I funcs array times count k fuel M0 m st y e st' (M := M0 ++ [Label m STmodule None]) (g := fun s => i_term I (M ++ [sig s])) (a := fun s => array (M ++ [sig s])) :
  ops_sane I -> (forall e c, times e = Ok c -> count e = c) -> no_any M -> fstate_ok st -> Forall (func_ok funcs) funcs -> (forall n c, In (frame c) n -> array n = false) ->
  casts e = true -> forallb user (ids e) = true -> visit_Assign funcs array times k fuel M st y e = Ok st' ->
  (exists t, dget (trees st') (M ++ [sig y]) = Some t /\ (consistent I (fs_st st) (fs_st st') -> means I count a (returns I count funcs a fuel g) g e (eval I t))) /\
  (forall n, In n (terms st) -> n <> M ++ [sig y] -> dget (trees st') n = dget (trees st) n) /\ incl (terms st) (terms st').
Proof.
  intros (HN & HT & HL) Ht HM Hst HF Ha Hc Hu E. pose proof (good_of st Hst) as G. unfold visit_Assign in E. apply bind_ok in E as (n & E1 & E). pose proof (find_module _ _ _ _ _ E1) as En. fold M in En.
  destruct (find_term st M y n G HM E1) as [Hn Hany]. assert (forall c, In (frame c) M -> (c < fs_calls st)%Z) as Fr.
  { intros c Hc'. apply (g_frames _ G n c Hn). rewrite En. apply in_or_app. now left. }
  assert (forall P, sees I array st M P g a) as S by (intros P s x _ Ex; apply find_module in Ex; rewrite Ex; split; reflexivity).
  assert (forall s, user s = true -> user s = true) as Hid by auto.
  assert (Ready I array M user (fr funcs) g g a a st) as R by (split; [exact G|]; split; [apply S|]; split; [apply S|exact Fr]).
  destruct (flow_ok I array times count k Ht HN funcs g a (call funcs array times k fuel) M HM user g a Hid (returns I count funcs a fuel g)
    (call_ok I array times count k Ht HN HT HL funcs HF Ha g a fuel M user g a HM Hid) st n e st' R Hn Hany Hc ltac:(rewrite forallb_forall in Hu; exact Hu) E) as (W & S1 & t & st1 & T1 & _ & T3 & T4 & T5 & T6).
  split; [|split].
  - exists t. rewrite <- En. split; [exact T1|]. intros HC. apply T6. apply (cons_left I _ _ _ HC); [rewrite <- T3; apply incl_refl|]. intros x Hx Nx. apply T5; [exact (proj1 (Forall_forall _ _) (g_any _ (e_good _ _ _ T4)) x Hx)|]. intros ->. contradiction.
  - rewrite <- En. exact S1.
  - exact (w_terms _ _ _ W).
Qed.
