(** EmitEntire.v - which declarations and assignments go into the generated module. *)
From Verif Require Import Base ScopeModel ScopeSpec DfModel BindModel SubsetModel EmitModel EmitSpec.
From Verif Require ScopeProofs BindProofs.
Require Import Coq.Sorting.Permutation.
Local Open Scope string_scope.
Local Notation "a +++ b" := (@app _ a b) (at level 60, right associativity).

(** ** Dictionaries *)
Lemma dget_none {V} (d : ndict V) k : Forall (fun x => no_any (fst x)) d -> no_any k -> ~ In k (map fst d) -> dget d k = None.
Proof.
  intros H Hk. induction H as [|[k1 v] d H1 H IH]; [reflexivity|]. cbn [map fst dget]. intros N. destruct (chain_eq k1 k) eqn:E; [|apply IH; intros C; apply N; now right].
  apply (ScopeProofs.chain_eq_no_any k1 k H1 Hk) in E. exfalso. apply N. now left.
Qed.
Lemma dget_some {V} (d : ndict V) k v : Forall (fun x => no_any (fst x)) d -> NoDup (map fst d) -> In (k, v) d -> dget d k = Some v.
Proof.
  intros H. induction H as [|[k1 v1] d H1 H IH]; [intros _ []|]. intros N [E|Hin]; cbn [map fst] in N; inversion N as [|? ? N1 N2]; subst; cbn [dget].
  - injection E as -> ->. now rewrite ScopeProofs.chain_eq_refl.
  - destruct (chain_eq k1 k) eqn:E; [|now apply IH]. exfalso. assert (no_any k) as Hk. { rewrite Forall_forall in H. exact (H _ Hin). } apply (ScopeProofs.chain_eq_no_any k1 k H1 Hk) in E. subst k1. apply N1. change k with (fst (k, v)). now apply in_map.
Qed.
Lemma dset_new {V} (d : ndict V) k v : dget d k = None -> dset d k v = d +++ [(k, v)].
Proof. induction d as [|[k1 v1] d IH]; [reflexivity|]. cbn [dget dset app]. destruct (chain_eq k1 k); [discriminate|]. intros H. now rewrite IH. Qed.
Lemma dget_app {V} (a b : ndict V) k : dget a k = None -> dget (a +++ b) k = dget b k.
Proof. induction a as [|[k1 v1] a IH]; [reflexivity|]. cbn [dget app]. destruct (chain_eq k1 k); [discriminate|exact IH]. Qed.
Lemma dset_last {V} (a : ndict V) k u v : dget a k = None -> dset (a +++ [(k, u)]) k v = a +++ [(k, v)].
Proof. induction a as [|[k1 v1] a IH]; cbn [dget dset app]; [now rewrite ScopeProofs.chain_eq_refl|]. destruct (chain_eq k1 k); [discriminate|]. intros H. now rewrite IH. Qed.
Lemma plain_app {V} (a b : ndict V) : Forall (fun x => no_any (fst x)) (a +++ b) -> Forall (fun x => no_any (fst x)) a /\ Forall (fun x => no_any (fst x)) b.
Proof. apply Forall_app. Qed.
Lemma nodup_mid {A} (a : list A) x b : NoDup (a +++ x :: b) -> ~ In x a /\ NoDup (a +++ b).
Proof. intros H. split; [|exact (NoDup_remove_1 _ _ _ H)]. intros C. apply (NoDup_remove_2 _ _ _ H). apply in_or_app. now left. Qed.

(** ** Declarations *)
Lemma sources_ok terms l : forall acc, Forall (fun x => no_any (fst x)) (acc +++ l) -> NoDup (map fst (acc +++ l)) -> (forall x, In x l -> dget terms (fst x) = Some (snd x)) ->
  sources_loop terms (map fst l) acc = Ok (acc +++ filter (fun x => negb (constant x)) l).
Proof.
  induction l as [|[n t] l IH]; intros acc HP HN HT; cbn [map fst sources_loop filter]; [now rewrite app_nil_r|]. rewrite (HT (n, t) (or_introl eq_refl) : dget terms n = Some t).
  assert (is_type (t_type t) "Parameter" || is_type (t_type t) "Localparam" = constant (n, t)) as ->. { unfold constant. cbn [snd]. assert (forall ty s, is_type ty s = has_type ty s) as K. { intros ty s. unfold is_type, has_type. destruct (in_dec string_dec s ty) as [H|H]; [apply existsb_exists; exists s; split; [exact H|apply String.eqb_refl]|]. apply not_true_is_false. intros C. apply existsb_exists in C as (x & Hx & E). apply String.eqb_eq in E. congruence. } now rewrite !K. }
  destruct (plain_app _ _ HP) as [P1 P2]. inversion P2 as [|? ? P3 P4]; subst. cbn [fst] in P3. rewrite map_app in HN. cbn [map fst] in HN. destruct (nodup_mid _ _ _ HN) as [N1 N2].
  assert (forall x, In x l -> dget terms (fst x) = Some (snd x)) as HT2 by (intros x Hx; apply HT; now right). destruct (constant (n, t)) eqn:C; cbn [negb].
  - apply IH; [now apply Forall_app|now rewrite map_app|exact HT2].
  - rewrite dset_new by now apply dget_none. rewrite IH; [now rewrite <- app_assoc| | |exact HT2]; rewrite <- app_assoc; [exact HP|]. rewrite map_app. exact HN.
Qed.

(** ** Assignments *)
Lemma lmem_apart b l : (forall a, In a l -> bind_eq a b = Ok false) -> lmem bind_eq b l = Ok false.
Proof. induction l as [|a l IH]; [reflexivity|]. intros H. cbn [lmem]. rewrite (H a (or_introl eq_refl)). cbn [bind]. apply IH. intros x Hx. apply H. now right. Qed.
Lemma apart_split l b r : apart (l +++ b :: r) -> forall a, In a l -> bind_eq a b = Ok false.
Proof.
  induction l as [|c l IH]; [intros _ a []|]. intros H a [<-|Ha]; cbn [app] in H; inversion H as [|? ? H1 H2]; subst; [|now apply IH]. rewrite Forall_forall in H1. apply H1. apply in_or_app. right. now left.
Qed.
Section Loop.
  Variable terms : ndict term.
  Definition wire (n : chain) : Prop := exists t, dget terms n = Some t /\ In "Wire" (t_type t).
  Lemma wire_assign n b : wire n -> getAssignType terms n b = Ok TAssign.
  Proof. intros (t & E & H). unfold getAssignType, getTermtype. rewrite E. cbn [bind]. assert (is_type (t_type t) "Wire" = true) as ->; [|reflexivity]. apply existsb_exists. exists "Wire". split; [exact H|reflexivity]. Qed.
  Lemma rights_more n d bs : forall l a, wire n -> dget d n <> None -> dget a n = None -> apart (l +++ bs) ->
    rights_loop terms n bs (Parts d [] (a +++ [(n, l)]) [] []) = Ok (Parts d [] (a +++ [(n, l +++ bs)]) [] []).
  Proof.
    induction bs as [|b bs IH]; intros l a HW HD HA HB; cbn [rights_loop]; [now rewrite app_nil_r|]. unfold one_bind. rewrite (wire_assign n b HW). cbn [bind p_assign p_terms p_parameter p_clockedge p_combination]. unfold set_add. rewrite (dget_app a [(n, l)] n HA). cbn [dget]. rewrite ScopeProofs.chain_eq_refl, (lmem_apart b l (apart_split l b bs HB)). cbn [bind]. rewrite (dset_last a n l _ HA).
    destruct (dget d n) as [t|]; [|congruence]. cbn [bind]. rewrite (IH (l +++ [b]) a); auto; now rewrite <- app_assoc.
  Qed.
  Definition bound (x : chain * list bind_) : bool := match snd x with [] => false | _ => true end.
  Lemma binds_ok d l : forall a, Forall (fun x => no_any (fst x)) (a +++ l) -> NoDup (map fst (a +++ l)) -> (forall x, In x l -> bound x = true -> wire (fst x) /\ dget d (fst x) <> None) -> (forall x, In x l -> apart (snd x)) ->
    binds_loop terms l (Parts d [] a [] []) = Ok (Parts d [] (a +++ filter bound l) [] []).
  Proof.
    induction l as [|[n bs] l IH]; intros a HP HN HW HA; cbn [binds_loop filter]; [now rewrite app_nil_r|]. destruct (plain_app _ _ HP) as [P1 P2]. inversion P2 as [|? ? P3 P4]; subst. cbn [fst] in P3. rewrite map_app in HN. cbn [map fst] in HN. destruct (nodup_mid _ _ _ HN) as [N1 N2].
    destruct bs as [|b bs]; cbn [bound snd].
    - cbn [rights_loop bind]. apply IH; [now apply Forall_app|now rewrite map_app|intros x Hx; apply HW; now right|intros x Hx; apply HA; now right].
    - destruct (HW (n, b :: bs) (or_introl eq_refl) eq_refl) as [W1 W2]. cbn [fst] in W1, W2. pose proof (dget_none a n P1 P3 N1) as EA. pose proof (HA (n, b :: bs) (or_introl eq_refl)) as HB. cbn [snd] in HB.
      assert (rights_loop terms n (b :: bs) (Parts d [] a [] []) = Ok (Parts d [] (a +++ [(n, b :: bs)]) [] [])) as ->.
      { cbn [rights_loop]. unfold one_bind. rewrite (wire_assign n b W1). cbn [bind p_assign p_terms p_parameter p_clockedge p_combination]. unfold set_add. rewrite EA. cbn [bind]. rewrite (dset_new a n _ EA). destruct (dget d n) as [t|] eqn:ED; [|congruence]. cbn [bind].
        refine (rights_more n d bs [b] a W1 _ EA HB). rewrite ED. discriminate. }
      cbn [bind]. rewrite IH; [now rewrite <- app_assoc| | |intros x Hx; apply HW; now right|intros x Hx; apply HA; now right]; rewrite <- app_assoc; [exact HP|]. rewrite map_app. exact HN.
  Qed.
  (** Whatever is not a wire stops the generation. *)
  Lemma rights_wires n l : forall p q, rights_loop terms n l p = Ok q -> l <> [] -> wire n.
  Proof.
    intros p q E HN. destruct l as [|b l]; [congruence|]. cbn [rights_loop] in E. destruct (one_bind terms n b p) as [r|] eqn:E1; [|discriminate]. unfold one_bind in E1. destruct (getAssignType terms n b) as [k|] eqn:E2; [|discriminate]. unfold getAssignType, getTermtype in E2. destruct (dget terms n) as [t|] eqn:ET; [|discriminate]. cbn [bind] in E2. destruct (is_type (t_type t) "Wire") eqn:EW; [|discriminate].
    exists t. split; [exact ET|]. apply existsb_exists in EW as (x & Hx & Ex). apply String.eqb_eq in Ex. rewrite Ex in Hx. exact Hx.
  Qed.
  Lemma binds_wires l : forall p q, binds_loop terms l p = Ok q -> forall n bs, In (n, bs) l -> bs <> [] -> wire n.
  Proof.
    induction l as [|[n bs] l IH]; intros p q E m cs H HN; [contradiction|]. cbn [binds_loop] in E. destruct (rights_loop terms n bs p) as [r|] eqn:E1; [|discriminate]. destruct H as [H|H]; [|exact (IH r q E m cs H HN)]. injection H as -> ->. exact (rights_wires _ _ _ _ E1 HN).
  Qed.
End Loop.
Lemma entire_ok terms resolved : distinct terms -> distinct resolved ->
  wires_only terms resolved -> (forall n bs, In (n, bs) resolved -> apart bs) ->
  getEntire terms resolved = Ok (Parts (filter (fun x => negb (constant x)) terms) [] (filter bound resolved) [] []).
Proof.
  intros [T1 T2] [R1 R2] HW HA. unfold getEntire, discretion. rewrite (sources_ok terms terms []); [cbn [bind app]|exact T1|exact T2|intros [n t] H; now apply dget_some].
  rewrite (binds_ok terms _ resolved []); [reflexivity|exact R1|exact R2| |].
  - intros [n bs] Hx B. assert (bs <> []) as HN by (destruct bs; discriminate). destruct (HW n bs Hx HN) as (t & Ht & HI & HC). cbn [fst]. split; [exists t; split; [now apply dget_some|exact HI]|].
    assert (In (n, t) (filter (fun x => negb (constant x)) terms)) as K by (apply filter_In; rewrite HC; auto). intros C. clear - K C. induction (filter (fun x => negb (constant x)) terms) as [|[k v] l IH]; [contradiction|]. cbn [dget] in C. destruct (chain_eq k n) eqn:E; [discriminate|]. destruct K as [K|K]; [|exact (IH K C)]. injection K as -> _. rewrite ScopeProofs.chain_eq_refl in E. discriminate.
  - intros [n bs] Hx. exact (HA n bs Hx).
Qed.
Lemma sets_permute order (l : ndict (list bind_)) : (forall x, Permutation (order x) x) -> Permutation (flat_map snd l) (bind_sets order (filter bound l)).
Proof.
  intros H. unfold bind_sets. induction l as [|[n bs] l IH]; [reflexivity|]. cbn [flat_map filter bound snd]. destruct bs as [|b bs]; [exact IH|]. cbn [flat_map snd]. apply Permutation_app; [symmetry; apply H|exact IH].
Qed.
