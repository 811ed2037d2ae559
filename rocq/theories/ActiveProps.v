(** ActiveProps.v - property C47: conditions as ranges of values. *)
From Verif Require Import Base ScopeModel ScopeProofs DfModel DfSpec BindModel TransModel TransSpec TransProofs TransProps ActiveModel ActiveSpec ActiveProofs ActiveProofs2 ActiveProofs3 ActiveProofs4 ActiveProofs5 ActiveProofs6.
Local Open Scope Z_scope.

(** Conjunction of two terms' ranges: when it does not raise, the result is the intersection. It does
    not raise if all bounds are numbers. *)
Theorem C47_and_is_intersection : forall A B,
  (forall r, and_ranges A B = Ok r -> forall x, in_ranges r x <-> in_ranges A x /\ in_ranges B x) /\
  (Forall (fun p => fst p <> None /\ snd p <> None) (A ++ B) -> exists r, and_ranges A B = Ok r).
Proof.
  intros A B. split; [intros r E; apply (and_ranges_spec A B r E)|]. intros H. apply Forall_app in H. destruct H as [HA HB].
  assert (forall l, Forall (fun p : rng => fst p <> None /\ snd p <> None) l -> exists l', mapM both l = Ok l' /\ length l' = length l) as K.
  { induction l as [|[[a|] [b|]] l IH]; intros F; inversion F as [|? ? F1 F2]; subst; cbn [fst snd] in *; try (destruct F1; congruence); [exists []; split; reflexivity|]. destruct (IH F2) as (l' & E & L). exists ((a, b) :: l'). cbn [mapM both bind]. rewrite E. split; [reflexivity|cbn [length]; rewrite L; reflexivity]. }
  unfold and_ranges. destruct A as [|p A]; [eexists; reflexivity|]. destruct B as [|q B]; [eexists; reflexivity|].
  destruct (K _ HA) as (a & -> & La), (K _ HB) as (b & -> & Lb). cbn [bind].
  destruct (C22_any_ranges_exact a b) as (r & -> & _); [intros ->; discriminate|intros ->; discriminate|]. cbn [bind]. eexists; reflexivity.
Qed.
Print Assumptions C47_and_is_intersection.

(** Negation of a term that has a range (and whose lower bounds are numbers): within the signal's
    values the new ranges are the complement; the term keeps its name and no other term changes. *)
Theorem C47_not_is_complement : forall h i t, nth_error (terms h) i = Some t -> a_ranges t <> [] -> a_min t = 0 -> Forall (fun p => fst p <> None) (a_ranges t) ->
  exists h' t', term_not i h = Ok (h', tt) /\ nth_error (terms h') i = Some t' /\ a_name t' = a_name t /\
    (forall x, 0 <= x <= a_max t -> (in_ranges (a_ranges t') x <-> ~ in_ranges (a_ranges t) x)) /\
    conds h' = conds h /\ forall j, j <> i -> nth_error (terms h') j = nth_error (terms h) j.
Proof.
  intros h i t E NE M F. assert (mins (a_ranges t)) as F' by (eapply Forall_impl; [|exact F]; intros [[a|] b] Hp; cbn in *; congruence || discriminate).
  destruct (inv_ranges_spec (a_ranges t) (a_max t) F') as (r & Er & _ & R).
  exists (Heap (upd (terms h) i (ATerm_ (a_name t) r (a_min t) (a_max t))) (conds h)), (ATerm_ (a_name t) r (a_min t) (a_max t)).
  split; [|split; [|split; [reflexivity|split; [exact R|split; [reflexivity|]]]]].
  - unfold term_not, bnd, get_term. rewrite E. destruct (a_ranges t) as [|p l] eqn:EP; [congruence|]. rewrite M, Er. cbn [lift]. unfold set_ranges. rewrite E, M. reflexivity.
  - cbn [terms]. clear - E. revert i E. induction (terms h) as [|u l IH]; intros [|i] E; cbn in *; try discriminate; [reflexivity|auto].
  - cbn [terms]. intros j Hj. clear - Hj. revert i j Hj. induction (terms h) as [|u l IH]; intros [|i] [|j] Hj; cbn; try reflexivity; [congruence|auto].
Qed.
Print Assumptions C47_not_is_complement.

(** The inferred list of conditions holds exactly when one of the given lists of conditions is all
    true - for conditions of the class [exact]. *)
Theorem C47_conditions_exact_partial : forall width ls h r,
  (forall l, In l ls -> exists c cs, l = c :: cs /\ exact width (all_of c cs)) ->
  infer_conditions width ls [] (Heap [] []) = Ok (h, r) ->
  forall I val, world width I val -> Forall (Forall (bitwise_logical I)) ls -> (some_holds h r val <-> exists l, In l ls /\ all_true I l).
Proof.
  intros width ls h r HL E I val W B. destruct (infer_conditions_spec width ls HL [] (Heap [] []) h r) as [_ H]; [intros c []|exact E|].
  rewrite (H I val W B). split; [intros [(c & [] & _)|X]; exact X|auto].
Qed.
Print Assumptions C47_conditions_exact_partial.

(** ** A world *)
Definition zall (val : chain -> Z) : interp :=
  Interp Z 0 val (fun t => match t with DEval (PInt v) _ _ _ => v | _ => 0 end)
    (fun o l => match o, l with
                | Land, [a; b] => tv (negb (a =? 0) && negb (b =? 0))
                | (Lor | Or), [a; b] => tv (negb (a =? 0) || negb (b =? 0))
                | Ulnot, [a] => tv (a =? 0)
                | (Uplus | Uminus | Uor), [a] => a
                | o, [a; b] => tv (compares o a b)
                | _, _ => 0 end)
    (fun v _ _ => v) (fun v _ => v) (fun l => 0) (fun x => x) (fun _ _ => 0) (fun z => negb (z =? 0)).
Lemma zall_world width (f : list (string * option Z) -> Z) : (forall n, 0 <= f n) -> (forall n w, width n = Ok w -> f (chain_hash n) < 2 ^ w) -> world width (zall (fun n => f (chain_hash n))) (fun n => f (chain_hash n)).
Proof.
  intros P F. assert (forall n m, chain_eq n m = true -> f (chain_hash n) = f (chain_hash m)) as S by (intros n m H; rewrite (chain_eq_hash n m H); reflexivity). constructor; [|exact S|intros n w Hw; split; [apply P|apply F; exact Hw]].
  intros n0. constructor; simpl; intros; try (rewrite tv_truth; reflexivity).
  - rewrite tv_truth. now rewrite negb_involutive.
  - destruct H as [<-|[<-|[<-|[]]]]; reflexivity.
  - rewrite tv_truth. pose proof (P (chain_hash n)). destruct (Z.ltb_spec 0 (f (chain_hash n))), (Z.eqb_spec (f (chain_hash n)) 0); simpl; auto; lia.
  - rewrite (S _ _ H). destruct o; try discriminate; rewrite tv_truth; reflexivity.
  - rewrite (S _ _ H). destruct o; try discriminate; rewrite tv_truth; simpl; auto; rewrite Z.eqb_sym; reflexivity.
Qed.
Definition sg (s : string) : chain := [Label "top"%string STmodule None; Label s STsignal None].
Definition sa := sg "a"%string. Definition sb := sg "b"%string. Definition sc := sg "c"%string.
Definition eq_ (s : chain) (v : Z) : df := DOp [DTerm s; TransProps.num v] Eq.
Definition lt_ (s : chain) (v : Z) : df := DOp [DTerm s; TransProps.num v] LessThan.
Definition gt_ (s : chain) (v : Z) : df := DOp [DTerm s; TransProps.num v] GreaterThan.
Definition w4 : chain -> res Z := fun _ => Ok 4.
Definition vals (a b c : Z) (n : list (string * option Z)) : Z :=
  match n with [_; (s, _)] => if String.eqb s "a" then a else if String.eqb s "b" then b else if String.eqb s "c" then c else 0 | _ => 0 end.
Lemma vals_world a b c : 0 <= a < 16 -> 0 <= b < 16 -> 0 <= c < 16 -> world w4 (zall (fun n => vals a b c (chain_hash n))) (fun n => vals a b c (chain_hash n)).
Proof.
  intros A B C. assert (forall n, 0 <= vals a b c n < 16) as H.
  { intros n. unfold vals. destruct n as [|? [|[s o] [|]]]; try lia. destruct (String.eqb s "a"); [lia|]. destruct (String.eqb s "b"); [lia|]. destruct (String.eqb s "c"); lia. }
  apply zall_world; [intros n; apply H|]. intros n w E. injection E as <-. apply H.
Qed.
Lemma vals_can a b c v x : 0 <= a < 16 -> 0 <= b < 16 -> 0 <= c < 16 -> bitwise_logical (zall (fun n => vals a b c (chain_hash n))) x -> truth (zall (fun n => vals a b c (chain_hash n))) x = v -> can_be w4 v x.
Proof. intros A B C BL T. exists (zall (fun n => vals a b c (chain_hash n))), (fun n => vals a b c (chain_hash n)). split; [apply vals_world; assumption|]. split; assumption. Qed.

(** The hypotheses hold of [b == 3 && a < 5, !(a == 7) || c] and [b > 9], with 4-bit signals; the
    inference succeeds with three conditions. *)
Definition demo : list (list df) :=
  [[DOp [eq_ sb 3; lt_ sa 5] Land; DOp [DOp [eq_ sc 7] Ulnot; gt_ sc 2] Lor]; [gt_ sb 9]].
Example C47_witness :
  (forall l, In l demo -> exists c cs, l = c :: cs /\ exact w4 (all_of c cs)) /\
  (exists h r, infer_conditions w4 demo [] (Heap [] []) = Ok (h, r) /\ length r = 3%nat) /\
  exists I val, world w4 I val /\ Forall (Forall (bitwise_logical I)) demo /\ exists l, In l demo /\ all_true I l.
Proof.
  split; [|split].
  - intros l [<-|[<-|[]]]; [exists (DOp [eq_ sb 3; lt_ sa 5] Land), [DOp [DOp [eq_ sc 7] Ulnot; gt_ sc 2] Lor]|exists (gt_ sb 9), []]; (split; [reflexivity|]); cbn [all_of fold_left].
    + apply ex_and; [reflexivity|apply ex_and; [reflexivity|apply ex_left|apply ex_left|..]|apply ex_or; [reflexivity|apply ex_not; [reflexivity|apply ex_left|]|apply ex_left]|..]; try reflexivity; try (split; discriminate); try discriminate;
      try (apply (vals_can 4 3 1); try lia; [simpl; intuition discriminate|reflexivity]);
      try (apply (vals_can 5 4 7); try lia; [simpl; intuition discriminate|reflexivity]).
      intros _ n m Hn Hm. cbn in Hn, Hm. destruct Hn as [<-|[<-|[]]], Hm as [<-|[<-|[]]]; reflexivity.
    + apply ex_left; try reflexivity; try (split; discriminate); [apply (vals_can 0 10 0)|apply (vals_can 0 9 0)]; try lia; try reflexivity; simpl; intuition discriminate.
  - eexists. eexists. split; [vm_compute; reflexivity|reflexivity].
  - exists (zall (fun n => vals 4 3 1 (chain_hash n))), (fun n => vals 4 3 1 (chain_hash n)). split; [apply vals_world; lia|]. split; [repeat constructor; discriminate|]. eexists. split; [left; reflexivity|]. repeat constructor.
Qed.

(** C47 beyond this class is false. [differs l a b c]: for these values of a, b and c (4-bit signals)
    the inferred conditions of [l] and [l] itself differ. *)
Definition run (l : list df) : res (heap * list nat) := infer_conditions w4 [l] [] (Heap [] []).
Definition at_ (a b c : Z) : chain -> Z := fun n => vals a b c (chain_hash n).
Definition differs (l : list df) (a b c : Z) : Prop :=
  exists h r, run l = Ok (h, r) /\ world w4 (zall (at_ a b c)) (at_ a b c) /\ Forall (bitwise_logical (zall (at_ a b c))) l /\ ~ (some_holds h r (at_ a b c) <-> all_true (zall (at_ a b c)) l).
Ltac holds_now := eexists; split; [reflexivity|]; intros k i Hk; simpl in Hk; repeat (destruct Hk as [Hk|Hk]; [injection Hk as <- <-; eexists; split; [reflexivity|]; eexists; split; [left; reflexivity|split; simpl; unfold at_; simpl; lia]|]); destruct Hk.

(** Dropping a term that has no range left turns a contradiction into no constraint: of 'a == 1',
    'a == 2' and 'b == 1' only 'b == 1' remains. *)
Theorem C47_resolve_refuted : differs [eq_ sa 1; eq_ sa 2; eq_ sb 1] 0 1 0.
Proof.
  eexists. eexists. split; [vm_compute; reflexivity|]. split; [apply vals_world; lia|]. split; [repeat constructor; discriminate|]. intros [H _].
  assert (all_true (zall (at_ 0 1 0)) [eq_ sa 1; eq_ sa 2; eq_ sb 1]) as T; [|inversion T; discriminate]. apply H. exists 1%nat. split; [left; reflexivity|]. holds_now.
Qed.
Print Assumptions C47_resolve_refuted.

(** 'a != 3' is taken for 'a == 3'. *)
Theorem C47_not_equal_refuted : differs [DOp [DTerm sa; TransProps.num 3] NotEq] 3 0 0.
Proof.
  eexists. eexists. split; [vm_compute; reflexivity|]. split; [apply vals_world; lia|]. split; [repeat constructor; discriminate|]. intros [H _].
  assert (all_true (zall (at_ 3 0 0)) [DOp [DTerm sa; TransProps.num 3] NotEq]) as T; [|inversion T; discriminate]. apply H. exists 0%nat. split; [left; reflexivity|]. holds_now.
Qed.
Print Assumptions C47_not_equal_refuted.

(** '!(a == 1 || b == 1)' is lost. *)
Theorem C47_not_or_refuted : differs [DOp [DOp [eq_ sa 1; eq_ sb 1] Lor] Ulnot; eq_ sc 1] 1 0 1.
Proof.
  eexists. eexists. split; [vm_compute; reflexivity|]. split; [apply vals_world; lia|]. split; [repeat constructor; discriminate|]. intros [H _].
  assert (all_true (zall (at_ 1 0 1)) [DOp [DOp [eq_ sa 1; eq_ sb 1] Lor] Ulnot; eq_ sc 1]) as T; [|inversion T; discriminate]. apply H. exists 2%nat. split; [left; reflexivity|]. holds_now.
Qed.
Print Assumptions C47_not_or_refuted.

(** 'a < 9 && b == 1' and 'a < 3 || a == 8' share the object that stands for 'a < 9': it is first
    narrowed to a < 3, then to nothing, and finally dropped - a == 5 remains possible. *)
Theorem C47_shared_term_refuted : differs [DOp [lt_ sa 9; eq_ sb 1] Land; DOp [lt_ sa 3; eq_ sa 8] Lor] 5 1 0.
Proof.
  eexists. eexists. split; [vm_compute; reflexivity|]. split; [apply vals_world; lia|]. split; [repeat constructor; discriminate|]. intros [H _].
  assert (all_true (zall (at_ 5 1 0)) [DOp [lt_ sa 9; eq_ sb 1] Land; DOp [lt_ sa 3; eq_ sa 8] Lor]) as T; [|inversion T as [|? ? ? T2]; inversion T2; discriminate]. apply H. exists 3%nat. split; [left; reflexivity|]. holds_now.
Qed.
Print Assumptions C47_shared_term_refuted.

(** A condition that cannot be expressed forgets those before it: 'a == 1' and 'b == 1' are lost
    when followed by an unknown value. *)
Theorem C47_unknown_forgets_refuted : forall (u : Z), exists h r, run [eq_ sa 1; eq_ sb 1; DUndef u; eq_ sc 1] = Ok (h, r) /\ some_holds h r (at_ 0 0 1).
Proof. intros u. eexists. eexists. split; [vm_compute; reflexivity|]. exists 1%nat. split; [left; reflexivity|]. holds_now. Qed.
Print Assumptions C47_unknown_forgets_refuted.

(** Two conditions compared by == are taken for their conjunction: '(a == 1) == (b == 1)' is true
    for a = b = 0. *)
Theorem C47_equal_conditions_refuted : differs [DOp [eq_ sa 1; eq_ sb 1] Eq] 0 0 0.
Proof.
  eexists. eexists. split; [vm_compute; reflexivity|]. split; [apply vals_world; lia|]. split; [repeat constructor; discriminate|]. intros [_ H].
  destruct H as (c & [<-|[]] & d & E & D); [repeat constructor|]. injection E as <-. destruct (D sa 0%nat (or_introl eq_refl)) as (t & Et & r & Hr & R). injection Et as <-. destruct Hr as [<-|[]]. destruct R as [R _]. revert R. unfold at_. simpl. lia.
Qed.
Print Assumptions C47_equal_conditions_refuted.

(** 'a > 1 && a < 5' raises TypeError (None as the upper bound), '!(a < 0)' too, 'a <= 3' raises
    FormatError. *)
Theorem C47_raises_refuted :
  run [gt_ sa 1; lt_ sa 5] = Err TypeError /\ run [DOp [lt_ sa 0] Ulnot] = Err TypeError /\ run [DOp [DTerm sa; TransProps.num 3] LessEq] = Err FormatError.
Proof. repeat split. Qed.
Print Assumptions C47_raises_refuted.

(** The negation of a term without ranges (never true) has no ranges either. *)
Theorem C47_not_empty_refuted : forall h i t, nth_error (terms h) i = Some t -> a_ranges t = [] -> term_not i h = Ok (h, tt).
Proof. intros h i t E R. unfold term_not, bnd, get_term. rewrite E, R. reflexivity. Qed.
Print Assumptions C47_not_empty_refuted.

(** A term as a tree (toTree): the upper bound of a range is written with >=, so that the tree of
    '1 <= a <= 5' is false for a = 3 and true for a = 7. *)
Theorem C47_tree_refuted : exists t, a_ranges t = [(Some 1, Some 5)] /\ a_name t = sa /\
  truth (zall (at_ 3 0 0)) (term_tree t) = false /\ truth (zall (at_ 7 0 0)) (term_tree t) = true.
Proof. exists (ATerm_ sa [(Some 1, Some 5)] 0 15). repeat split. Qed.
Print Assumptions C47_tree_refuted.
