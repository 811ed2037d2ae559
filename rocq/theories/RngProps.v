(** RngProps.v - property C68: querying, splitting and printing the conditions the range analysis reports. *)
From Verif Require Import Base ScopeModel ScopeSpec ScopeProofs DfModel DfSpec BindModel TransModel TransProps LitModel LitSpec LexModel ExprModel ParseModel ExprSpec ExprProps ActiveModel ActiveSpec ActiveProps RngModel RngSpec RngProofs.
From Verif Require EmitProps CodeProps.
Local Open Scope Z_scope.

(** A reported condition, with its terms looked up. *)
Definition reported (h : heap) (c : nat) (d : cond) : Prop :=
  exists l, nth_error (conds h) c = Some l /\ Forall2 (fun p q => fst p = fst q /\ nth_error (terms h) (snd p) = Some (snd q)) l d.
Lemma reported_meets h c d val : reported h c d -> (cond_holds h c val <-> meets d val).
Proof.
  intros (l & E & F). unfold cond_holds, meets. split.
  - intros (l' & E' & H) k t Hk. rewrite E in E'. injection E' as <-. clear E. induction F as [|[k1 i] [k2 t2] l d [F1 F2] F IH]; [destruct Hk|]. cbn [fst snd] in *. subst k2. destruct Hk as [K|K].
    + injection K as -> ->. destruct (H k i (or_introl eq_refl)) as (t' & Et & Hr). rewrite F2 in Et. injection Et as <-. exact Hr.
    + apply IH; [intros; eapply H; right; eassumption|exact K].
  - intros H. exists l. split; [exact E|]. clear E. induction F as [|[k1 i] [k2 t2] l d [F1 F2] F IH]; intros k j Hk; [destruct Hk|]. cbn [fst snd] in *. subst k2. destruct Hk as [K|K].
    + injection K as -> ->. exists t2. split; [exact F2|]. exact (H _ _ (or_introl eq_refl)).
    + refine (IH _ k j K). intros k' t' Hk'. exact (H k' t' (or_intror Hk')).
Qed.

(** Asking a term: the answer is whether the value is in one of its ranges (if all ranges have both bounds). *)
Theorem C68_term_satisfy_partial : forall t x, bounded t -> exists b, term_satisfy t x = Ok b /\ (b = true <-> in_ranges (a_ranges t) x).
Proof. exact term_satisfy_spec. Qed.
Print Assumptions C68_term_satisfy_partial.

(** Asking a condition: the answer for some signals' values is whether the term of each of these signals (if there is one)
    holds of the value. *)
Lemma dget_in (d : cond) n : no_any n -> (forall k t, In (k, t) d -> no_any k) -> forall t, dget d n = Some t -> In (n, t) d.
Proof.
  intros Hn. induction d as [|[k u] d IH]; intros H t E; cbn [dget] in E; [discriminate|]. destruct (chain_eq k n) eqn:K.
  - injection E as <-. apply chain_eq_no_any in K; [subst k; now left|exact (H k u (or_introl eq_refl))|exact Hn].
  - right. apply IH; [intros k' t' Hk; exact (H k' t' (or_intror Hk))|exact E].
Qed.
Lemma in_dget (d : cond) n t : no_any n -> (forall k t, In (k, t) d -> no_any k) -> NoDup (map fst d) -> In (n, t) d -> dget d n = Some t.
Proof.
  intros Hn. induction d as [|[k u] d IH]; intros H N Hi; [destruct Hi|]. cbn [dget]. cbn [map fst] in N. inversion N as [|? ? N1 N2]; subst. destruct Hi as [Hi|Hi].
  - injection Hi as -> ->. now rewrite chain_eq_refl.
  - destruct (chain_eq k n) eqn:K.
    + apply chain_eq_no_any in K; [|exact (H k u (or_introl eq_refl))|exact Hn]. subst k. exfalso. apply N1. apply in_map_iff. exists (n, t). auto.
    + apply IH; [intros k' t' Hk; exact (H k' t' (or_intror Hk))|exact N2|exact Hi].
Qed.
Theorem C68_satisfy_partial : forall (d : cond) values,
  (forall k t, In (k, t) d -> no_any k /\ bounded t) -> NoDup (map fst d) -> (forall n x, In (n, x) values -> no_any n) ->
  exists b, cond_satisfy d values = Ok b /\ (b = true <-> forall n x t, In (n, x) values -> In (n, t) d -> in_ranges (a_ranges t) x).
Proof.
  intros d values Hd N. assert (forall k t, In (k, t) d -> no_any k) as Hk by (intros k t H; exact (proj1 (Hd k t H))).
  induction values as [|[n x] values IH]; intros Hv.
  - exists true. split; [reflexivity|]. split; [intros _ n x t []|reflexivity].
  - destruct IH as (b & E & K); [intros m y H; exact (Hv m y (or_intror H))|]. pose proof (Hv n x (or_introl eq_refl)) as Hn. cbn [cond_satisfy]. destruct (dget d n) as [t|] eqn:D.
    + pose proof (dget_in d n Hn Hk t D) as Hi. destruct (term_satisfy_spec t x (proj2 (Hd n t Hi))) as (c & -> & Hc). cbn [bind].
      assert (forall u, In (n, u) d -> u = t) as U by (intros u Hu; rewrite (in_dget d n u Hn Hk N Hu) in D; injection D as ->; reflexivity). destruct c.
      * exists b. split; [exact E|]. rewrite K. split.
        -- intros H m y u [Hm|Hm] Hu; [injection Hm as <- <-; rewrite (U u Hu); now apply Hc|exact (H m y u Hm Hu)].
        -- intros H m y u Hm Hu. exact (H m y u (or_intror Hm) Hu).
      * exists false. split; [reflexivity|]. split; [discriminate|]. intros H. exact (proj2 Hc (H n x t (or_introl eq_refl) Hi)).
    + exists b. split; [exact E|]. rewrite K. split.
      * intros H m y u [Hm|Hm] Hu; [injection Hm as <- <-; rewrite (in_dget d n u Hn Hk N Hu) in D; discriminate|exact (H m y u Hm Hu)].
      * intros H m y u Hm Hu. exact (H m y u (or_intror Hm) Hu).
Qed.
Print Assumptions C68_satisfy_partial.
(** If values are given for all its signals, the answer is whether the condition holds. *)
Theorem C68_satisfy_all_partial : forall h c d values val,
  reported h c d -> (forall k t, In (k, t) d -> k = a_name t /\ no_any k /\ bounded t) -> NoDup (map fst d) ->
  (forall n x, In (n, x) values -> no_any n /\ x = val n) -> (forall k t, In (k, t) d -> In (k, val k) values) ->
  exists b, cond_satisfy d values = Ok b /\ (b = true <-> cond_holds h c val).
Proof.
  intros h c d values val R Hd N Hv Hc. destruct (C68_satisfy_partial d values) as (b & E & K); [intros k t H; destruct (Hd k t H) as (_ & H1 & H2); auto|exact N|intros n x H; exact (proj1 (Hv n x H))|].
  exists b. split; [exact E|]. rewrite K, (reported_meets h c d val R). unfold meets. split.
  - intros H k t Hk. destruct (Hd k t Hk) as (<- & _). exact (H k (val k) t (Hc k t Hk) Hk).
  - intros H n x t Hn Ht. destruct (Hv n x Hn) as [_ ->]. destruct (Hd n t Ht) as (Ek & _). rewrite Ek. exact (H n t Ht).
Qed.
Print Assumptions C68_satisfy_all_partial.

(** Splitting by a signal: the first part are exactly the terms of that signal, the second exactly the others, in order;
    together they say what the condition says. include tells whether the first part is not empty. *)
Theorem C68_split : forall (d : cond) n with_n others, cond_split d n = (with_n, others) ->
  (forall k t, In (k, t) with_n <-> In (k, t) d /\ chain_eq n (a_name t) = true) /\
  (forall k t, In (k, t) others <-> In (k, t) d /\ chain_eq n (a_name t) = false) /\
  (forall val, meets d val <-> meets with_n val /\ meets others val) /\
  (length d = length with_n + length others)%nat /\
  (cond_include d n = true <-> exists k t, In (k, t) d /\ chain_eq n (a_name t) = true).
Proof.
  intros d n w o E. unfold cond_split in E. injection E as <- <-. unfold term_include.
  assert (forall k t, In (k, t) (filter (fun p => chain_eq n (a_name (snd p))) d) <-> In (k, t) d /\ chain_eq n (a_name t) = true) as H1 by (intros k t; rewrite filter_In; reflexivity).
  assert (forall k t, In (k, t) (filter (fun p => negb (chain_eq n (a_name (snd p)))) d) <-> In (k, t) d /\ chain_eq n (a_name t) = false) as H2 by (intros k t; rewrite filter_In; cbn [snd]; rewrite negb_true_iff; reflexivity).
  split; [exact H1|]. split; [exact H2|]. split; [|split].
  - intros val. unfold meets. split.
    + intros H. split; intros k t Hk; [apply H1 in Hk|apply H2 in Hk]; exact (H k t (proj1 Hk)).
    + intros [A B] k t Hk. destruct (chain_eq n (a_name t)) eqn:K; [exact (A k t (proj2 (H1 k t) (conj Hk K)))|exact (B k t (proj2 (H2 k t) (conj Hk K)))].
  - clear. induction d as [|p d IH]; [reflexivity|]. cbn [filter length]. destruct (chain_eq n (a_name (snd p))); cbn [negb length]; lia.
  - unfold cond_include. rewrite existsb_exists. split; [intros ([k t] & Hp & Ht); exists k, t; auto|intros (k & t & Hp & Ht); exists (k, t); auto].
Qed.
Print Assumptions C68_split.
Theorem C68_list_include : forall l n, list_include l n = true <-> exists d k t, In d l /\ In (k, t) d /\ chain_eq n (a_name t) = true.
Proof.
  intros l n. unfold list_include, cond_include. rewrite existsb_exists. split.
  - intros (d & Hd & H). apply existsb_exists in H as ([k t] & Hp & Ht). exists d, k, t. auto.
  - intros (d & k & t & Hd & Hp & Ht). exists d. split; [exact Hd|]. apply existsb_exists. exists (k, t). auto.
Qed.
Print Assumptions C68_list_include.

(** The text of a condition is an expression that is true exactly when the condition holds, of values given by flat name. *)
Theorem C68_code_partial : forall d : cond,
  (forall k t, In (k, t) d -> simple_id (toFlatname (a_name t)) /\ printable t) ->
  exists e n0, (forall n, (n0 <= n)%nat -> parse_text n (cond_code d) = Ok e) /\
    forall val, true_of val e <-> meets d (fun n => val (toFlatname n)).
Proof.
  intros d H. assert (Forall (fun p => tok (snd p)) d) as F by (apply Forall_forall; intros [k t] Hp; exact (H k t Hp)).
  assert (Forall tok (map snd d)) as F' by (apply Forall_forall; intros t Ht; apply in_map_iff in Ht as ([k u] & <- & Hp); exact (H k u Hp)).
  destruct (spells_parse _ _ _ (cond_spells d F) (cond_reads _ F')) as (n0 & E). exists (cexpr (map snd d)), n0. split; [exact E|].
  intros val. rewrite (cond_true val _ F'). unfold meets. split.
  - intros K k t Hk. apply K. apply in_map_iff. exists (k, t). auto.
  - intros K t Ht. apply in_map_iff in Ht as ([k u] & <- & Hp). exact (K k u Hp).
Qed.
Print Assumptions C68_code_partial.
(** So if no two of its signals have the same flat name, it is true of the values of the signals exactly when the reported
    condition holds. *)
Theorem C68_reported_code_partial : forall h c d val flat,
  reported h c d -> (forall k t, In (k, t) d -> simple_id (toFlatname (a_name t)) /\ printable t /\ flat (toFlatname (a_name t)) = val (a_name t)) ->
  exists e n0, (forall n, (n0 <= n)%nat -> parse_text n (cond_code d) = Ok e) /\ (true_of flat e <-> cond_holds h c val).
Proof.
  intros h c d val flat R H. destruct (C68_code_partial d) as (e & n0 & E & K); [intros k t Hk; destruct (H k t Hk) as (H1 & H2 & _); auto|].
  exists e, n0. split; [exact E|]. rewrite K, (reported_meets h c d val R). unfold meets. split; intros J k t Hk; specialize (J k t Hk); cbv beta in *; destruct (H k t Hk) as (_ & _ & Ef); congruence.
Qed.
Print Assumptions C68_reported_code_partial.

(** ** Beyond these conditions *)
(** A plain signal as a condition is reported as '1 or more', without an upper bound: asking about any value that satisfies
    it raises TypeError. *)
Definition asks (l : list df) (t : aterm) : Prop := exists h c k i, run l = Ok (h, [c]) /\ nth_error (conds h) c = Some [(k, i)] /\ nth_error (terms h) i = Some t.
Theorem C68_open_range_refuted : exists t, asks [DTerm sa] t /\ a_name t = sa /\ (forall x, in_ranges (a_ranges t) x -> term_satisfy t x = Err TypeError) /\ in_ranges (a_ranges t) 1.
Proof.
  exists (ATerm_ sa [(Some 1, None)] 0 15). split; [eexists _, _, _, _; split; [vm_compute; reflexivity|]; split; reflexivity|]. split; [reflexivity|]. split.
  - intros x (r & [<-|[]] & H & _). cbn [fst] in H. unfold term_satisfy. cbn [a_ranges any_range]. apply Z.leb_le in H. rewrite H. reflexivity.
  - exists (Some 1, None). split; [now left|]. split; [cbn; lia|exact Logic.I].
Qed.
Print Assumptions C68_open_range_refuted.
(** The range of 'a < 0' has no bounds at all, so that any value is in it; asking raises TypeError, and the text of the
    condition compares with a signal named None. *)
Local Open Scope string_scope.
Theorem C68_no_bounds_refuted : exists t, asks [lt_ sa 0] t /\ (forall x, in_ranges (a_ranges t) x) /\ (forall x, term_satisfy t x = Err TypeError) /\
  cond_code [(sa, t)] = "(((None<=top_a)))" /\ exists n e, parse_text n (cond_code [(sa, t)]) = Ok e /\ e = XBin LessEq (XId "None") (XId "top_a").
Proof.
  exists (ATerm_ sa [(None, None)] 0 15). split; [eexists _, _, _, _; split; [vm_compute; reflexivity|]; split; reflexivity|]. split; [|split; [reflexivity|split; [vm_compute; reflexivity|]]].
  - intros x. exists (None, None). split; [now left|]. split; exact Logic.I.
  - exists 60%nat. eexists. split; vm_compute; reflexivity.
Qed.
Print Assumptions C68_no_bounds_refuted.
(** '!(a >= 0)' is reported with no range, and its text is "())", which is no expression. *)
Theorem C68_empty_text_refuted : exists t, asks [DOp [DOp [DTerm sa; TransProps.num 0] GreaterEq] Ulnot] t /\ cond_code [(sa, t)] = "())" /\ forall n e, parse_text n (cond_code [(sa, t)]) <> Ok e.
Proof.
  exists (ATerm_ sa [] 0 15). split; [eexists _, _, _, _; split; [vm_compute; reflexivity|]; split; reflexivity|]. split; [vm_compute; reflexivity|].
  intros n e E. assert (parse_text (n + 60) (cond_code [(sa, ATerm_ sa [] 0 15)]) = Ok e) as K by (eapply C01_result_stable; [exact E|lia]).
  rewrite Nat.add_comm in K. vm_compute in K. discriminate K.
Qed.
Print Assumptions C68_empty_text_refuted.
(** Two signals with the same flat name: 'top.a.b is 1 and top.a_b is 2' can hold, its text cannot. *)
Definition ab : chain := [Label "top" STmodule None; Label "a" STmodule None; Label "b" STsignal None].
Definition a_b : chain := [Label "top" STmodule None; Label "a_b" STsignal None].
Theorem C68_flat_names_refuted : exists d : cond,
  (forall k t, In (k, t) d -> k = a_name t /\ simple_id (toFlatname (a_name t)) /\ printable t /\ bounded t) /\ NoDup (map fst d) /\ (exists val, meets d val) /\
  exists e n0, (forall n, (n0 <= n)%nat -> parse_text n (cond_code d) = Ok e) /\ forall val, ~ true_of val e.
Proof.
  set (d := [(ab, ATerm_ ab [(Some 1, Some 1)] 0 15); (a_b, ATerm_ a_b [(Some 2, Some 2)] 0 15)]%Z). exists d.
  assert (forall k t, In (k, t) d -> k = a_name t /\ simple_id (toFlatname (a_name t)) /\ printable t /\ bounded t) as H.
  { intros k t [K|[K|[]]]; injection K as <- <-; (split; [reflexivity|]); (split; [apply EmitProps.simple_of; vm_compute; reflexivity|]); (split; [split; [discriminate|constructor; [|constructor]]|constructor; [split; discriminate|constructor]]); eexists; (split; [reflexivity|]); (split; [lia|]); intros b [= <-]; lia. }
  split; [exact H|]. split; [constructor; [intros [K|[]]; discriminate K|constructor; [intros []|constructor]]|]. split.
  - exists (fun n => match n with [_; _] => 2%Z | _ => 1%Z end). intros k t [K|[K|[]]]; injection K as <- <-; (eexists; split; [now left|split; cbn; lia]).
  - destruct (C68_code_partial d) as (e & n0 & E & K); [intros k t Hk; destruct (H k t Hk) as (_ & H1 & H2 & _); auto|]. exists e, n0. split; [exact E|]. intros val T. apply K in T.
    destruct (T _ _ (or_introl eq_refl)) as (r & [<-|[]] & [R1 R2]). destruct (T _ _ (or_intror (or_introl eq_refl))) as (r & [<-|[]] & [Q1 Q2]). cbn [fst snd] in *.
    replace (toFlatname (a_name (ATerm_ a_b [(Some 2%Z, Some 2%Z)] 0 15))) with "top_a_b" in * by reflexivity. replace (toFlatname (a_name (ATerm_ ab [(Some 1%Z, Some 1%Z)] 0 15))) with "top_a_b" in * by reflexivity. lia.
Qed.
Print Assumptions C68_flat_names_refuted.

(** The hypotheses hold of the reported condition of 'a < 5 and (b == 3)': the terms are bounded and printable, and the text
    is the one expected. *)
Example C68_hypotheses_met : exists h c d, run [lt_ sa 5; eq_ sb 3] = Ok (h, [c]) /\ reported h c d /\
  (forall k t, In (k, t) d -> k = a_name t /\ no_any k /\ bounded t /\ simple_id (toFlatname (a_name t)) /\ printable t) /\ NoDup (map fst d) /\
  cond_code d = "(((0<=top_a&&top_a<=4))&&((3<=top_b&&top_b<=3)))" /\ cond_satisfy d [(sa, 4); (sb, 3); (sc, 9)]%Z = Ok true /\ cond_satisfy d [(sa, 5)]%Z = Ok false.
Proof.
  eexists _, _, [(sa, ATerm_ sa [(Some 0, Some 4)]%Z 0 15); (sb, ATerm_ sb [(Some 3, Some 3)]%Z 0 15)]. split; [vm_compute; reflexivity|]. split; [eexists; split; [reflexivity|]; repeat constructor|].
  split; [|split; [constructor; [intros [K|[]]; discriminate K|constructor; [intros []|constructor]]|split; [vm_compute; reflexivity|split; vm_compute; reflexivity]]].
  intros k t [K|[K|[]]]; injection K as <- <-; (split; [reflexivity|]); (split; [repeat constructor; discriminate|]); (split; [constructor; [split; discriminate|constructor]|]); (split; [apply EmitProps.simple_of; vm_compute; reflexivity|]); (split; [discriminate|constructor; [|constructor]]); eexists; (split; [reflexivity|]); (split; [lia|]); intros b [= <-]; lia.
Qed.
