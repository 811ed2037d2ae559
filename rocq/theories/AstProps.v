(** AstProps.v - C42: equality and hash of AST nodes (vparser/ast.py). *)
From Verif Require Import Base VisitModel AstTable AstModel AstSpec AstProofs AstProofs2.

(** Every node equals itself. *)
Theorem C42_reflexive : forall x, made x -> node_eq x x = Ok true.
Proof. intros x M. apply node_eq_within; auto. apply (within_refl (S (vsize x))); auto. Qed.
Print Assumptions C42_reflexive.
(** What == decides: same classes and attributes throughout, and the children of the left side are
    those that the right side begins with. *)
Theorem C42_meaning : forall x y, made x -> made y -> (node_eq x y = Ok true <-> within x y).
Proof. exact node_eq_within. Qed.
Print Assumptions C42_meaning.
(** == is transitive. *)
Theorem C42_transitive : forall x y z, made x -> made y -> made z -> node_eq x y = Ok true -> node_eq y z = Ok true -> node_eq x z = Ok true.
Proof. intros x y z MX MY MZ H1 H2. apply node_eq_within in H1, H2; auto. apply node_eq_within; auto. eapply within_trans; eauto. Qed.
Print Assumptions C42_transitive.
(** Nodes that are equal both ways are the same tree, and the other way round. *)
Theorem C42_both_ways : forall x y, made x -> made y -> (node_eq x y = Ok true /\ node_eq y x = Ok true) <-> same x y.
Proof.
  intros x y MX MY. rewrite !node_eq_within by auto. split; [intros [H1 H2]; apply within_antisym; auto|]. intros H. split; apply same_within; [|apply same_sym]; exact H.
Qed.
Print Assumptions C42_both_ways.
(** Equality of equally large trees is symmetric, and then they are the same tree. *)
Theorem C42_symmetric_partial : forall x y n, made x -> made y -> count x n -> count y n -> node_eq x y = Ok true -> node_eq y x = Ok true /\ same x y.
Proof.
  intros x y n MX MY CX CY H. apply node_eq_within in H; auto. destruct (within_count _ _ H _ _ CX CY) as [_ E]. specialize (E eq_refl). split; [|exact E]. apply node_eq_within; auto. apply same_within, same_sym. exact E.
Qed.
Print Assumptions C42_symmetric_partial.
(** The same trees have the same hash, whatever the hash of strings, numbers and tuples is. *)
Theorem C42_hash_partial : forall (H : Type) (hash_atom : atom -> H) (hash_tuple : list H -> H) x y, made x -> made y ->
  node_eq x y = Ok true -> node_eq y x = Ok true -> node_hash hash_atom hash_tuple x = node_hash hash_atom hash_tuple y.
Proof. intros H ha ht x y MX MY H1 H2. apply same_hash; [|apply Nat.lt_succ_diag_r|apply Nat.lt_succ_diag_r]. apply C42_both_ways; auto. Qed.
Print Assumptions C42_hash_partial.
(** Equal nodes have the same class, equal attributes, and every child of the left one equals the
    child of the right one at its position. *)
Theorem C42_children_partial : forall c fs c' fs', made (VNode c fs) -> made (VNode c' fs') -> node_eq (VNode c fs) (VNode c' fs') = Ok true ->
  c = c' /\ (forall f v v', In f (attr_names c) -> has fs f v -> has fs' f v' -> node_eq v v' = Ok true) /\
  exists k k', kids_of fs (kid_fields c) k /\ kids_of fs' (kid_fields c') k' /\ (length k <= length k')%nat /\
    forall i v, nth_error k i = Some v -> exists v', nth_error k' i = Some v' /\ node_eq v v' = Ok true.
Proof.
  intros c fs c' fs' MX MY E. apply node_eq_within in E; auto. destruct (made_attrs _ _ MX) as (a0 & A1 & A2). destruct (made_attrs _ _ MY) as (a0' & A1' & A2'). destruct (made_kids _ _ MX) as (k0 & K1 & K2). destruct (made_kids _ _ MY) as (k0' & K1' & K2').
  inversion E as [|? ? z E1 E2| | |? ? ? a a' k k' more G1 G2 G3 G4 G5 G6 G7]; subst; [discriminate|]. split; [reflexivity|].
  rewrite (attrs_det _ _ _ _ A1 G1) in A2. rewrite (attrs_det _ _ _ _ A1' G2) in A2'. rewrite (kids_det _ _ _ _ K1 G4) in K2. rewrite (kids_det _ _ _ _ K1' G5) in K2'. split.
  - clear - A2 A2' G1 G2 G3. intros f v v' Hin Hv Hv'. revert a' A2' G2 G3. induction G1 as [|g w l a Hg G1 IH]; intros a' A2' G2 G3; [destruct Hin|]. inversion G2 as [|? w' ? a2 Hg' G2']; subst. inversion G3 as [|? ? ? ? R1 R2]; subst. inversion A2 as [|? ? M1 M2]; subst. inversion A2' as [|? ? M1' M2']; subst. destruct Hin as [->|Hin].
    + unfold has in *. assert (v = w) by congruence. assert (v' = w') by congruence. subst. apply node_eq_within; auto.
    + eapply IH; eauto.
  - exists k, (k' ++ more). split; [exact G4|]. split; [exact G5|]. split; [rewrite app_length, (F2_len _ _ _ G7); lia|]. apply Forall_app in K2'. destruct K2' as [K2' _].
    clear - K2 K2' G7. induction G7 as [|u u' k k' R G7 IH]; intros [|i] v Ei; cbn in Ei; try discriminate; inversion K2 as [|? ? M1 M2]; subst; inversion K2' as [|? ? M1' M2']; subst; cbn [app nth_error].
    + injection Ei as ->. exists u'. split; [reflexivity|]. apply node_eq_within; auto.
    + apply IH; auto.
Qed.
Print Assumptions C42_children_partial.

(** Examples. *)
Definition ident (s : string) (scope : val) : val := VNode "Identifier" [("name", VStr s); ("scope", scope); ("lineno", VInt 0)]%string.
Definition label (s : string) : val := VNode "IdentifierScopeLabel" [("name", VStr s); ("loop", VNone); ("lineno", VInt 3)]%string.
Definition in_top (s : string) : val := ident s (VNode "IdentifierScope" [("labellist", VSeq true [label "top"]); ("lineno", VInt 3)]%string).
Definition cat (l : list val) : val := VNode "Concat" [("list", VSeq true l); ("lineno", VInt 7)]%string.
Definition if_ (c t e : val) : val := VNode "IfStatement" [("cond", c); ("true_statement", t); ("false_statement", e); ("lineno", VInt 1)]%string.
Definition assign_ (l r dl dr : val) : val := VNode "Assign" [("left", l); ("right", r); ("ldelay", dl); ("rdelay", dr); ("lineno", VInt 1)]%string.
Definition delay : val := VNode "DelayStatement" [("delay", VNode "IntConst" [("value", VStr "5"); ("lineno", VInt 1)]); ("lineno", VInt 1)]%string.
Fixpoint madeb (v : val) : bool :=
  match v with
  | VSeq _ l => forallb madeb l
  | VNode c fs => forallb (fun kv => madeb (snd kv)) fs && forallb (fun f => match sget fs f with Some _ => true | None => false end) (attr_names c) &&
      forallb (fun k => match k with One f => match sget fs f with Some _ => true | None => false end | Many f => match sget fs f with Some VNone => true | Some (VSeq _ _) => true | _ => false end end) (kid_fields c)
  | _ => true
  end.
Lemma madeb_made : forall n v, (vsize v < n)%nat -> madeb v = true -> made v.
Proof.
  induction n as [|n IH]; intros v HS E; [lia|]. destruct v as [|b|z|s|t l|c fs]; try constructor.
  - cbn [madeb] in E. rewrite forallb_forall in E. apply Forall_forall. intros x Hx. apply IH; [apply (size_seq t) in Hx; lia|auto].
  - cbn [madeb] in E. apply andb_prop in E. destruct E as [E _]. apply andb_prop in E. destruct E as [E _]. rewrite forallb_forall in E. apply Forall_forall. intros x Hx. apply IH; [apply (sum_in (fun kv => vsize (snd kv))) in Hx; cbn [vsize] in HS; lia|auto].
  - cbn [madeb] in E. apply andb_prop in E. destruct E as [E _]. apply andb_prop in E. destruct E as [_ E]. rewrite forallb_forall in E. intros f Hf. specialize (E f Hf). unfold has. destruct (sget fs f); [eauto|discriminate].
  - cbn [madeb] in E. apply andb_prop in E. destruct E as [_ E]. rewrite forallb_forall in E. intros f Hf. specialize (E _ Hf). cbn in E. unfold has. destruct (sget fs f); [eauto|discriminate].
  - cbn [madeb] in E. apply andb_prop in E. destruct E as [_ E]. rewrite forallb_forall in E. intros f Hf. specialize (E _ Hf). cbn in E. unfold has. destruct (sget fs f) as [[]|]; try discriminate; eauto.
Qed.
Lemma made_by v : madeb v = true -> made v.
Proof. apply (madeb_made (S (vsize v))). lia. Qed.

(** A statement with an if, an assignment and scoped names meets the hypotheses. *)
Definition stmt (line : Z) : val := if_ (cat [ident "a" VNone; in_top "b"]) (VNode "Block" [("statements", VSeq true [assign_ (ident "q" VNone) (in_top "d") VNone delay]); ("scope", VStr "blk"); ("lineno", VInt line)]%string) VNone.
Example C42_hypotheses_met : made (stmt 1) /\ made (stmt 2) /\ stmt 1 <> stmt 2 /\ node_eq (stmt 1) (stmt 2) = Ok true /\ node_eq (stmt 2) (stmt 1) = Ok true /\ exists n, count (stmt 1) n /\ count (stmt 2) n.
Proof.
  assert (made (stmt 1)) as M1 by (apply made_by; reflexivity). assert (made (stmt 2)) as M2 by (apply made_by; reflexivity).
  split; [exact M1|]. split; [exact M2|]. split; [discriminate|]. split; [vm_compute; reflexivity|]. split; [vm_compute; reflexivity|].
  destruct (count_ex _ _ (Nat.lt_succ_diag_r _) M1) as [n N]. destruct (count_ex _ _ (Nat.lt_succ_diag_r _) M2) as [m M]. exists n. split; [exact N|].
  assert (within (stmt 1) (stmt 2)) as W1 by (apply node_eq_within; auto). assert (within (stmt 2) (stmt 1)) as W2 by (apply node_eq_within; auto). destruct (within_count _ _ W1 _ _ N M) as [L1 _]. destruct (within_count _ _ W2 _ _ M N) as [L2 _]. replace n with m by lia. exact M.
Qed.

(** Full property: == is symmetric, equal nodes have the same hash and the same number of children.
    It is false: == only looks at as many children as the left side has. *)
Definition symmetric : Prop := forall x y, made x -> made y -> node_eq x y = node_eq y x.
Definition hash_compatible : Prop := forall (H : Type) (hash_atom : atom -> H) (hash_tuple : list H -> H) x y, made x -> made y -> node_eq x y = Ok true -> node_hash hash_atom hash_tuple x = node_hash hash_atom hash_tuple y.
Definition equal_children : Prop := forall c fs c' fs' k k', made (VNode c fs) -> made (VNode c' fs') -> node_eq (VNode c fs) (VNode c' fs') = Ok true ->
  kids_of fs (kid_fields c) k -> kids_of fs' (kid_fields c') k' -> length k = length k'.
(** The same fields, lineno apart. *)
Definition equal_fields : Prop := forall c fs fs' f v v', made (VNode c fs) -> made (VNode c fs') -> node_eq (VNode c fs) (VNode c fs') = Ok true -> node_eq (VNode c fs') (VNode c fs) = Ok true ->
  In (One f) (kid_fields c) -> has fs f v -> has fs' f v' -> node_eq v v' = Ok true.
Inductive term := Leaf (a : atom) | Tup (l : list term).
Theorem C42_refuted : ~ symmetric /\ ~ hash_compatible /\ ~ equal_children /\ ~ equal_fields /\
  (* a == top.a, but top.a == a raises *)
  node_eq (ident "a" VNone) (in_top "a") = Ok true /\ node_eq (in_top "a") (ident "a" VNone) = Err IndexError /\
  (* {a} == {a, b} *)
  node_eq (cat [ident "a" VNone]) (cat [ident "a" VNone; ident "b" VNone]) = Ok true /\
  (* an if without else equals one with else *)
  node_eq (if_ (ident "c" VNone) (cat []) VNone) (if_ (ident "c" VNone) (cat []) (ident "x" VNone)) = Ok true /\
  (* assign #5 q = d equals assign q = #5 d *)
  node_eq (assign_ (ident "q" VNone) (ident "d" VNone) delay VNone) (assign_ (ident "q" VNone) (ident "d" VNone) VNone delay) = Ok true.
Proof.
  split; [|split; [|split; [|split]]].
  - intros S. specialize (S (ident "a" VNone) (in_top "a") (made_by (ident "a" VNone) eq_refl) (made_by (in_top "a") eq_refl)). vm_compute in S. discriminate.
  - intros S. specialize (S term Leaf Tup (ident "a" VNone) (in_top "a") (made_by (ident "a" VNone) eq_refl) (made_by (in_top "a") eq_refl) eq_refl). vm_compute in S. discriminate.
  - intros S. assert (1 = 2)%nat as K; [|discriminate]. refine (S "Concat"%string _ "Concat"%string _ [ident "a" VNone] [ident "a" VNone; ident "b" VNone] (made_by (cat [ident "a" VNone]) eq_refl) (made_by (cat [ident "a" VNone; ident "b" VNone]) eq_refl) eq_refl _ _).
    + apply (ks_many _ "list"%string true [ident "a" VNone] [] []); [reflexivity|constructor].
    + apply (ks_many _ "list"%string true [ident "a" VNone; ident "b" VNone] [] []); [reflexivity|constructor].
  - intros S. assert (node_eq delay VNone = Ok true) as K; [|vm_compute in K; discriminate]. refine (S "Assign"%string _ _ "ldelay"%string delay VNone (made_by (assign_ (ident "q" VNone) (ident "d" VNone) delay VNone) eq_refl) (made_by (assign_ (ident "q" VNone) (ident "d" VNone) VNone delay) eq_refl) eq_refl eq_refl _ eq_refl eq_refl). cbn. auto.
  - repeat split; vm_compute; reflexivity.
Qed.
Print Assumptions C42_refuted.
