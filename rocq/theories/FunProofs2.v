(** FunProofs2.v - how the state grows, and the trees of expressions with calls. *)
From Verif Require Import Base ScopeModel ScopeSpec ScopeProofs DfModel DfSpec DfProofs ReorderModel ReorderSpec ReorderProofs BindModel BindSpec BindProofs AsgModel AsgSpec AsgProofs ExprModel MkModel MkProps BlkModel BlkSpec BlkProofs BlkProofs2 FunModel FunSpec FunProofs.

(** ** arms stay present *)
Lemma ap_un o : forall b t, insertUnaryOp b o = Ok t -> arms_present t = true.
Proof.
  induction b as [| | | | | | | | |c IHc x IHx y IHy| | | | | ]; intros t H; try (apply mkOp_ok in H as [-> _]; reflexivity).
  cbn [insertUnaryOp] in H. apply bind_ok in H as (u & H1 & H). apply bind_ok in H as (v & H2 & H). injection H as <-. cbn [arms_present]. now rewrite (IHx _ H1), (IHy _ H2).
Qed.
Lemma ap_op_r o a : forall b t, insertOp_r a b o = Ok t -> arms_present t = true.
Proof.
  induction b as [| | | | | | | | |c IHc x IHx y IHy| | | | | ]; intros t H; try (apply mkOp_ok in H as [-> _]; reflexivity).
  cbn [insertOp_r] in H. apply bind_ok in H as (u & H1 & H). apply bind_ok in H as (v & H2 & H). injection H as <-. cbn [arms_present]. now rewrite (IHx _ H1), (IHy _ H2).
Qed.
Lemma ap_op o b : forall a t, insertOp a b o = Ok t -> arms_present t = true.
Proof.
  induction a as [| | | | | | | | |c IHc x IHx y IHy| | | | | ]; intros t H; try (exact (ap_op_r o _ b t H)).
  cbn [insertOp] in H. apply bind_ok in H as (u & H1 & H). apply bind_ok in H as (v & H2 & H). injection H as <-. cbn [arms_present]. now rewrite (IHx _ H1), (IHy _ H2).
Qed.
Lemma ap_opl n : forall l o t, insertOpList n l o = Ok t -> arms_present t = true.
Proof.
  induction n as [|n IH]; intros l o t H; [discriminate|]. cbn [insertOpList] in H. destruct (split_branch l) as [[[d [[c a] b]] r]|].
  - apply bind_ok in H as (u & H1 & H). apply bind_ok in H as (v & H2 & H). injection H as <-. cbn [arms_present]. now rewrite (IH _ _ _ H1), (IH _ _ _ H2).
  - apply mkOp_ok in H as [-> _]. reflexivity.
Qed.
Lemma ap_cat n : forall l t, insertConcat n l = Ok t -> arms_present t = true.
Proof.
  induction n as [|n IH]; intros l t H; [discriminate|]. cbn [insertConcat] in H. destruct (split_branch l) as [[[d [[c a] b]] r]|].
  - apply bind_ok in H as (u & H1 & H). apply bind_ok in H as (v & H2 & H). injection H as <-. cbn [arms_present]. now rewrite (IH _ _ H1), (IH _ _ H2).
  - injection H as <-. reflexivity.
Qed.
Lemma ap_part m l : forall v, arms_present v = true -> arms_present (insertPartselect v m l) = true.
Proof.
  induction v as [| | | | | | | | |c IHc x IHx y IHy| | | | | ]; intros H; try discriminate H;
    try solve [cbn [insertPartselect]; cbn [arms_present] in *; rewrite ?H; now rewrite ?orb_true_r].
  cbn [insertPartselect arms_present] in *. apply andb_true_iff in H as [A B]. now rewrite IHx, IHy.
Qed.
Lemma ap_ptr p : forall v, arms_present v = true -> arms_present (insertPointer v p) = true.
Proof.
  induction v as [| | | | | | | | |c IHc x IHx y IHy| | | | | ]; intros H; try discriminate H;
    try solve [cbn [insertPointer]; cbn [arms_present] in *; rewrite ?H; now rewrite ?orb_true_r].
  cbn [insertPointer arms_present] in *. apply andb_true_iff in H as [A B]. now rewrite IHx, IHy.
Qed.
Lemma ap_branch x y : arms_present x = true -> arms_present y = true -> forall b, arms_present (insertBranch b x y) = true.
Proof.
  intros Hx Hy. induction b as [| | | | | | | | |c IHc u IHu v IHv| | | | | ]; try (cbn [insertBranch arms_present]; now rewrite Hx, Hy). cbn [insertBranch arms_present]. now rewrite IHu, IHv.
Qed.
Definition is_term (t : df) : bool := match t with DTerm _ => true | _ => false end.
Lemma nt_un o b t : insertUnaryOp b o = Ok t -> is_term t = false.
Proof. destruct b; intros H; try (apply mkOp_ok in H as [-> _]; reflexivity). cbn [insertUnaryOp] in H. apply bind_ok in H as (u & _ & H). apply bind_ok in H as (v & _ & H). injection H as <-. reflexivity. Qed.
Lemma nt_op o a b t : insertOp a b o = Ok t -> is_term t = false.
Proof.
  intros H. assert (insertOp_r a b o = Ok t -> is_term t = false) as K.
  { clear H. destruct b; intros H; try (apply mkOp_ok in H as [-> _]; reflexivity). cbn [insertOp_r] in H. apply bind_ok in H as (u & _ & H). apply bind_ok in H as (v & _ & H). injection H as <-. reflexivity. }
  destruct a; try (exact (K H)). cbn [insertOp] in H. apply bind_ok in H as (u & _ & H). apply bind_ok in H as (v & _ & H). injection H as <-. reflexivity.
Qed.
Lemma nt_cat k l t : insertConcat k l = Ok t -> is_term t = false.
Proof.
  destruct k; intros H; [discriminate|]. cbn [insertConcat] in H. destruct (split_branch l) as [[[? [[? ?] ?]] ?]|]; [|injection H as <-; reflexivity].
  apply bind_ok in H as (u & _ & H). apply bind_ok in H as (v & _ & H). injection H as <-. reflexivity.
Qed.
Lemma term_elem (array : chain -> bool) t : is_term t = false -> match t with DTerm n => array n | _ => false end = false.
Proof. destruct t; try reflexivity. discriminate. Qed.

Section Keep.
  Variable k : nat.
  Variable array : chain -> bool.
  Notation keep := (keep_signals array k).
  Lemma keep_arms : forall t t', arms_present t = true -> keep t = Ok t' -> arms_present t' = true.
  Proof.
    unfold keep_signals.
    induction t as [ |n|s|s|s|l o|v IHv m IHm l IHl|v IHv p IHp|l|c IHc x IHx y IHy|v w f s|w|w|t IHt|s l]; intros t' H E; cbn [resolve] in E; try discriminate; try (injection E as <-; reflexivity).
    - apply bind_ok in E as (l' & _ & E). destruct (existsb isBranch l'); [exact (ap_opl _ _ _ _ E)|]. apply mkOp_ok in E as [-> _]. reflexivity.
    - apply bind_ok in E as (m' & _ & E). apply bind_ok in E as (l' & _ & E). apply bind_ok in E as (v' & E1 & E). injection E as <-. cbn [arms_present] in H. apply orb_true_iff in H as [H|H].
      + destruct v; try discriminate H. injection E1 as <-. reflexivity.
      + pose proof (IHv _ H E1) as K. destruct (isBranch v'); [now apply ap_part|]. cbn [arms_present]. rewrite K. apply orb_true_r.
    - apply bind_ok in E as (p' & _ & E). cbn [arms_present] in H.
      destruct (match v with DTerm n => array n | _ => false end).
      + injection E as <-. exact H.
      + apply bind_ok in E as (v' & E1 & E). injection E as <-. apply orb_true_iff in H as [H|H].
        * destruct v; try discriminate H. injection E1 as <-. reflexivity.
        * pose proof (IHv _ H E1) as K. destruct (isBranch v'); [now apply ap_ptr|]. cbn [arms_present]. rewrite K. apply orb_true_r.
    - apply bind_ok in E as (l' & _ & E). destruct (existsb isBranch l'); [exact (ap_cat _ _ _ E)|]. injection E as <-. reflexivity.
    - cbn [arms_present] in H. apply andb_true_iff in H as [A B]. apply bind_ok in E as (x' & E1 & E). apply bind_ok in E as (y' & E2 & E). apply bind_ok in E as (c' & _ & E). injection E as <-.
      destruct (isBranch c'); [apply ap_branch; eauto|]. cbn [arms_present]. now rewrite (IHx _ A E1), (IHy _ B E2).
  Qed.
  Lemma keep_value I : none_strict I -> forall t t', keep t = Ok t' -> eval I t' = eval I t.
  Proof.
    intros HN t t' E. rewrite (resolve_value I k array HN (fun n => Ok (DTerm n)) (i_term I) t t').
    - destruct I; reflexivity.
    - intros n u _ J. injection J as <-. reflexivity.
    - reflexivity.
    - exact E.
  Qed.
  Lemma keep_fine t : fine t -> exists t', keep t = Ok t' /\ fine t'.
  Proof.
    intros F. apply (resolve_leaf k array (fun n => Ok (DTerm n)) t); [|exact F]. intros n Hn. exists n. split; [reflexivity|]. destruct F as [_ F]. revert F Hn. clear.
    assert (HL : forall l, Forall (fun t => occurs odd2 t = false -> In n (names t) -> wild n = false) l -> existsb (occurs odd2) l = false -> In n (flat_map names l) -> wild n = false).
    { induction 1 as [|a l Ha _ IH]; cbn [existsb flat_map]; intros H K; [destruct K|]. apply orb_false_iff in H as [A B]. apply in_app_or in K as [K|K]; auto. }
    induction t as [ |m|s|s|s|l o IH|v m l IHv IHm IHl|v p IHv IHp|l IH|c t f IHc IHt IHf|v w f s|w|w|t IH|s l IH] using df_ind'; cbn [occurs odd2 names orb]; intros H K; try discriminate; try (destruct K; fail); auto;
      repeat match goal with J : _ || _ = false |- _ => apply orb_false_iff in J as [? ?] end; repeat (apply in_app_or in K as [K|K]; auto).
    all: try (exact (HL _ IH H K)).
    all: destruct K as [<-|[]]; first [assumption | now rewrite orb_false_r in H].
  Qed.
End Keep.
Lemma tv_eval I old t : leaves_present t = true -> tree_value I old t = eval I t.
Proof.
  induction t as [ |n|s|s|s|l o|v IHv m IHm l IHl|v IHv p IHp|l|c IHc x IHx y IHy|v w f s|w|w|t IHt|s l]; intros H; try reflexivity; [discriminate|].
  cbn [leaves_present] in H. apply andb_true_iff in H as [A B]. cbn [tree_value eval]. rewrite (IHx A), (IHy B). reflexivity.
Qed.

(** ** how the state grows *)
Definition rn (n : chain) : Prop := exists i l, n = i ++ [l] /\ String.prefix "_rn" (sname l) = true.
Definition added (sc : chain) (c : Z) (n : chain) : Prop := rn n \/ exists c' r, (c <= c')%Z /\ r <> [] /\ n = sc ++ frame c' :: r.
Notation terms st := (bs_terms (fs_st st)).
Notation trees st := (bs_trees (fs_st st)).
Record Good (st : fstate) : Prop := {
  g_any : Forall no_any (terms st);
  g_plain : plain_st (fs_st st);
  g_in : forall n t, no_any n -> dget (trees st) n = Some t -> In n (terms st);
  g_pos : (0 <= fs_calls st)%Z;
  g_frames : forall n c, In n (terms st) -> In (frame c) n -> (c < fs_calls st)%Z }.
Record Grow (sc : chain) (st st' : fstate) : Prop := {
  w_good : Good st';
  w_terms : incl (terms st) (terms st');
  w_new : forall n, In n (terms st') -> ~ In n (terms st) -> added sc (fs_calls st) n;
  w_calls : (fs_calls st <= fs_calls st')%Z }.
Record Ext (sc : chain) (st st' : fstate) : Prop := {
  e_grow : Grow sc st st';
  e_same : forall n, In n (terms st) -> dget (trees st') n = dget (trees st) n }.
Definition e_good sc st st' (X : Ext sc st st') : Good st' := w_good _ _ _ (e_grow _ _ _ X).
Definition e_terms sc st st' (X : Ext sc st st') : incl (terms st) (terms st') := w_terms _ _ _ (e_grow _ _ _ X).
Definition e_calls sc st st' (X : Ext sc st st') : (fs_calls st <= fs_calls st')%Z := w_calls _ _ _ (e_grow _ _ _ X).
Lemma grow_refl sc st : Good st -> Grow sc st st.
Proof. intros H. constructor; auto; [apply incl_refl|contradiction|lia]. Qed.
Lemma ext_refl sc st : Good st -> Ext sc st st.
Proof. intros H. constructor; auto. now apply grow_refl. Qed.
Lemma added_less sc c c' n : (c <= c')%Z -> added sc c' n -> added sc c n.
Proof. intros H [K|(d & r & A & B & C)]; [now left|]. right. exists d, r. split; [lia|auto]. Qed.
Lemma grow_trans sc st st1 st2 : Grow sc st st1 -> Grow sc st1 st2 -> Grow sc st st2.
Proof.
  intros [A1 A2 A3 A5] [B1 B2 B3 B5]. constructor; auto.
  - intros n Hn. auto.
  - intros n Hn N. destruct (in_dec chain_dec n (terms st1)) as [Hi|Hi]; [exact (A3 n Hi N)|]. apply (added_less sc _ _ n A5). auto.
  - lia.
Qed.
Lemma ext_trans sc st st1 st2 : Ext sc st st1 -> Ext sc st1 st2 -> Ext sc st st2.
Proof.
  intros [A1 A2] [B1 B2]. constructor; [exact (grow_trans _ _ _ _ A1 B1)|]. intros n Hn. rewrite (B2 n (w_terms _ _ _ A1 n Hn)). auto.
Qed.
Lemma cons_left I s s' s'' : consistent I s s'' -> incl (bs_terms s') (bs_terms s'') -> (forall n, In n (bs_terms s') -> ~ In n (bs_terms s) -> dget (bs_trees s'') n = dget (bs_trees s') n) -> consistent I s s'.
Proof. intros H K E n t Hn N Et. apply H; [now apply K|exact N|]. now rewrite E. Qed.
Lemma cons_right I s s' s'' : incl (bs_terms s) (bs_terms s') -> consistent I s s'' -> consistent I s' s''.
Proof. intros H K n t Hn N Et. apply K; auto. Qed.
Lemma cons_split I sc st st1 st2 : Ext sc st st1 -> Ext sc st1 st2 -> consistent I (fs_st st) (fs_st st2) -> consistent I (fs_st st) (fs_st st1) /\ consistent I (fs_st st1) (fs_st st2).
Proof.
  intros A B H. split.
  - apply (cons_left I _ _ _ H (e_terms _ _ _ B)). intros n Hn _. exact (e_same _ _ _ B n Hn).
  - exact (cons_right I _ _ _ (e_terms _ _ _ A) H).
Qed.
Lemma smem_in l n : Forall no_any l -> no_any n -> (smem l n = true <-> In n l).
Proof.
  intros H Hn. unfold smem. rewrite existsb_exists. split.
  - intros (m & Hm & E). apply chain_eq_no_any in E; [now subst|exact (proj1 (Forall_forall _ _) H m Hm)|exact Hn].
  - intros Hi. exists n. split; [exact Hi|apply chain_eq_refl].
Qed.
Lemma sig_any s : no_any [sig s].
Proof. constructor; [discriminate|constructor]. Qed.
Lemma no_any_app a b : no_any (a ++ b) <-> no_any a /\ no_any b.
Proof. unfold no_any. apply Forall_app. Qed.
Lemma last_inj {A} (a b : list A) x y : a ++ [x] = b ++ [y] -> a = b /\ x = y.
Proof. apply app_inj_tail. Qed.
Lemma not_added sc c q s r : user s = true -> sc = q ++ r -> ~ added sc c (q ++ [sig s]).
Proof.
  intros Hu -> [(i & l & E & P)|(c' & t & _ & N & E)].
  - apply last_inj in E as [_ <-]. unfold user in Hu. cbn [sname sig] in P. rewrite P in Hu. discriminate Hu.
  - apply (f_equal (@length label)) in E. rewrite !app_length in E. cbn [length] in E. destruct t; [congruence|]. cbn [length] in E. lia.
Qed.
Lemma search_ext sc st st' s : Grow sc st st' -> Good st -> no_any sc -> user s = true -> forall rs r, sc = rev rs ++ r -> search (terms st') rs s = search (terms st) rs s.
Proof.
  intros X G Ha Hu. induction rs as [|l rs IH]; intros r E; [reflexivity|]. cbn [search].
  assert (no_any (rev (l :: rs) ++ [sig s])) as Hn by (apply no_any_app; split; [|apply sig_any]; rewrite E in Ha; now apply no_any_app in Ha).
  assert (smem (terms st') (rev (l :: rs) ++ [sig s]) = smem (terms st) (rev (l :: rs) ++ [sig s])) as ->.
  { apply eq_true_iff_eq. rewrite (smem_in _ _ (g_any _ (w_good _ _ _ X)) Hn), (smem_in _ _ (g_any _ G) Hn). split; [|apply (w_terms _ _ _ X)].
    intros Hi. destruct (in_dec chain_dec (rev (l :: rs) ++ [sig s]) (terms st)) as [Hj|Hj]; [exact Hj|]. exfalso. exact (not_added sc _ _ s r Hu E (w_new _ _ _ X _ Hi Hj)). }
  destruct (smem _ _); [reflexivity|]. destruct (stype l); auto; apply (IH ([l] ++ r)); rewrite E; cbn [rev]; now rewrite <- app_assoc.
Qed.
Lemma find_ext sc st st' s : Grow sc st st' -> Good st -> no_any sc -> user s = true -> find st' sc s = find st sc s.
Proof. intros X G Ha Hu. unfold find. rewrite (search_ext sc st st' s X G Ha Hu (rev sc) []); [reflexivity|]. now rewrite rev_involutive, app_nil_r. Qed.
Lemma search_in l s : forall rs n, search l rs s = Some n -> smem l n = true /\ exists q r, rs = r ++ q /\ n = rev q ++ [sig s].
Proof.
  induction rs as [|x rs IH]; intros n H; [discriminate|]. cbn [search] in H. destruct (smem l (rev (x :: rs) ++ [sig s])) eqn:E.
  - injection H as <-. split; [exact E|]. exists (x :: rs), []. auto.
  - assert (search l rs s = Some n) as K by (destruct (stype x); auto; discriminate). destruct (IH n K) as (A & q & r & -> & ->). split; [exact A|]. exists q, (x :: r). auto.
Qed.
Lemma find_term st sc s n : Good st -> no_any sc -> find st sc s = Ok n -> In n (terms st) /\ no_any n.
Proof.
  intros G Ha H. unfold find in H. destruct (search (terms st) (rev sc) s) as [m|] eqn:E; [|discriminate]. injection H as <-. destruct (search_in _ _ _ _ E) as (A & q & r & E1 & ->).
  assert (no_any (rev q ++ [sig s])) as Hn.
  { apply no_any_app. split; [|apply sig_any]. assert (sc = rev q ++ rev r) as E2 by (rewrite <- rev_app_distr, <- E1; now rewrite rev_involutive). rewrite E2 in Ha. now apply no_any_app in Ha. }
  split; [|exact Hn]. now apply (smem_in _ _ (g_any _ G) Hn).
Qed.

(** ** expressions *)
Section Mk.
  Variable I : interp.
  Variable array : chain -> bool.
  Variable times : expr -> res Z.
  Variable count : expr -> Z.
  Variable k : nat.
  Hypothesis Ht : forall e c, times e = Ok c -> count e = c.
  Definition sees (st : fstate) (sc : chain) (vis : string -> bool) (g : string -> dom I) (a : string -> bool) : Prop :=
    forall s n, vis s = true -> find st sc s = Ok n -> g s = i_term I n /\ a s = array n.
  Lemma sees_ext sc st st' vis g a : Grow sc st st' -> Good st -> no_any sc -> (forall s, vis s = true -> user s = true) -> sees st sc vis g a -> sees st' sc vis g a.
  Proof. intros X G Ha Hv H s n Hs E. rewrite (find_ext sc st st' s X G Ha (Hv s Hs)) in E. exact (H s n Hs E). Qed.

  Variable call : fstate -> chain -> string -> list expr -> res (fstate * chain).
  Variable sc : chain.
  Hypothesis Hsc : no_any sc.
  Variables (vis fr : string -> bool) (g g0 : string -> dom I) (a arr : string -> bool).
  Hypothesis Hvis : forall s, vis s = true -> user s = true.
  Hypothesis Hfr : forall s, fr s = true -> user s = true.
  Variable ret : string -> list (dom I) -> dom I -> Prop.
  Hypothesis Hcall : forall st f args st' n, Good st -> sees st sc vis g a -> sees st sc fr g0 arr -> (forall c, In (frame c) sc -> (c < fs_calls st)%Z) -> forallb casts args = true -> (forall s, In s (flat_map ids args) -> vis s = true) ->
    call st sc f args = Ok (st', n) -> Ext sc st st' /\ array n = false /\
      (consistent I (fs_st st) (fs_st st') -> exists ys, each I (means I count a ret g) args ys /\ ret f ys (i_term I n)).
  Notation mk := (mkS array times k call sc).
  Definition Ready (st : fstate) : Prop := Good st /\ sees st sc vis g a /\ sees st sc fr g0 arr /\ forall c, In (frame c) sc -> (c < fs_calls st)%Z.
  Lemma ready_grow st st' : Ready st -> Grow sc st st' -> Ready st'.
  Proof.
    intros (A & B & C & E) X. split; [exact (w_good _ _ _ X)|]. split; [exact (sees_ext sc st st' vis g a X A Hsc Hvis B)|]. split; [exact (sees_ext sc st st' fr g0 arr X A Hsc Hfr C)|].
    intros c Hc. pose proof (w_calls _ _ _ X). specialize (E c Hc). lia.
  Qed.
  Lemma ready_ext st st' : Ready st -> Ext sc st st' -> Ready st'.
  Proof. intros R X. exact (ready_grow _ _ R (e_grow _ _ _ X)). Qed.
  Definition MkOk (e : expr) : Prop := forall st st' t, Ready st -> casts e = true -> (forall s, In s (ids e) -> vis s = true) -> mk st e = Ok (st', t) ->
    Ext sc st st' /\ arms_present t = true /\ elem a e = match t with DTerm n => array n | _ => false end /\
    (consistent I (fs_st st) (fs_st st') -> means I count a ret g e (eval I t)).
  Lemma mk_each l : Forall MkOk l -> forall st st' ts, Ready st -> forallb casts l = true -> (forall s, In s (flat_map ids l) -> vis s = true) -> eachM mk st l = Ok (st', ts) ->
    Ext sc st st' /\ (consistent I (fs_st st) (fs_st st') -> each I (means I count a ret g) l (map (eval I) ts)).
  Proof.
    induction 1 as [|e l He _ IH]; intros st st' ts R C V E; cbn [eachM] in E.
    - injection E as <- <-. split; [apply ext_refl, R|]. intros _. exact Logic.I.
    - apply bind_ok in E as ([st1 t] & E1 & E). apply bind_ok in E as ([st2 ts'] & E2 & E). cbn [fst snd] in *. injection E as <- <-. cbn [forallb flat_map] in *. apply andb_true_iff in C as [C1 C2].
      destruct (He st st1 t R C1 (fun s H => V s (in_or_app _ _ _ (or_introl H))) E1) as (X1 & _ & _ & M1).
      destruct (IH st1 st2 ts' (ready_ext _ _ R X1) C2 (fun s H => V s (in_or_app _ _ _ (or_intror H))) E2) as (X2 & M2).
      split; [exact (ext_trans _ _ _ _ X1 X2)|]. intros HC. destruct (cons_split I sc _ _ _ X1 X2 HC) as [HC1 HC2]. cbn [map each]. auto.
  Qed.
  Lemma mk_ok e : MkOk e.
  Proof.
    induction e as [s|s|o e1 IH1|o e1 e2 IH1 IH2|c t0 f IHc IHt IHf|l IH|e1 n IH1|e1 m l IH1 IHm IHl|e1 p IH1 IHp|f l IH|f l IH] using expr_ind'; intros st st' t R C V E; cbn [mkS casts ids] in *.
    - apply bind_ok in E as (n & E1 & E). injection E as <- <-. destruct R as (R1 & R2 & _). destruct (R2 s n (V s (or_introl eq_refl)) E1) as [G1 G2].
      split; [now apply ext_refl|]. split; [reflexivity|]. split; [exact G2|]. intros _. cbn [means eval]. now rewrite G1.
    - injection E as <- <-. split; [apply ext_refl, R|]. split; [reflexivity|]. split; [reflexivity|]. intros _. reflexivity.
    - apply bind_ok in E as ([st1 u] & E1 & E). apply bind_ok in E as (u' & E2 & E). cbn [fst snd] in *. injection E as <- <-. destruct (IH1 _ _ _ R C V E1) as (X & A & _ & M).
      assert (eval I u' = i_op I o [eval I u] /\ arms_present u' = true /\ is_term u' = false) as (K1 & K2 & K3).
      { destruct (isBranch u); [split; [exact (proj1 (un_ok I o _ _ E2))|split; [exact (ap_un _ _ _ E2)|exact (nt_un _ _ _ E2)]]|]. apply mkOp_ok in E2 as [-> _]. auto. }
      split; [exact X|]. split; [exact K2|]. split; [now rewrite (term_elem array u' K3)|]. intros HC. exists (eval I u). auto.
    - apply andb_true_iff in C as [C1 C2]. apply bind_ok in E as ([st1 u] & E1 & E). apply bind_ok in E as ([st2 w] & E2 & E). apply bind_ok in E as (u' & E3 & E). cbn [fst snd] in *. injection E as <- <-.
      destruct (IH1 _ _ _ R C1 (fun s H => V s (in_or_app _ _ _ (or_introl H))) E1) as (X1 & A1 & _ & M1).
      destruct (IH2 _ _ _ (ready_ext _ _ R X1) C2 (fun s H => V s (in_or_app _ _ _ (or_intror H))) E2) as (X2 & A2 & _ & M2).
      assert (eval I u' = i_op I o [eval I u; eval I w] /\ arms_present u' = true /\ is_term u' = false) as (K1 & K2 & K3).
      { destruct (isBranch u || isBranch w); [split; [exact (proj1 (op_ok I o _ _ _ E3))|split; [exact (ap_op _ _ _ _ E3)|exact (nt_op _ _ _ _ E3)]]|]. apply mkOp_ok in E3 as [-> _]. auto. }
      split; [exact (ext_trans _ _ _ _ X1 X2)|]. split; [exact K2|]. split; [now rewrite (term_elem array u' K3)|]. intros HC. destruct (cons_split I sc _ _ _ X1 X2 HC) as [HC1 HC2]. exists (eval I u), (eval I w). auto.
    - apply andb_true_iff in C as [C C3]. apply andb_true_iff in C as [C1 C2]. apply bind_ok in E as ([st1 u] & E1 & E). apply bind_ok in E as ([st2 w] & E2 & E). apply bind_ok in E as ([st3 z] & E3 & E). cbn [fst snd] in *.
      destruct (isBranch z); [discriminate|]. injection E as <- <-.
      destruct (IHt _ _ _ R C2 (fun s H => V s ltac:(rewrite !in_app_iff; auto)) E1) as (X1 & A1 & _ & M1). pose proof (ready_ext _ _ R X1) as R1.
      destruct (IHf _ _ _ R1 C3 (fun s H => V s ltac:(rewrite !in_app_iff; auto)) E2) as (X2 & A2 & _ & M2). pose proof (ready_ext _ _ R1 X2) as R2.
      destruct (IHc _ _ _ R2 C1 (fun s H => V s ltac:(rewrite !in_app_iff; auto)) E3) as (X3 & A3 & _ & M3).
      pose proof (ext_trans _ _ _ _ X1 X2) as X12. split; [exact (ext_trans _ _ _ _ X12 X3)|]. split; [cbn [arms_present]; now rewrite A1, A2|]. split; [reflexivity|].
      intros HC. destruct (cons_split I sc _ _ _ X12 X3 HC) as [HC1 HC3]. destruct (cons_split I sc _ _ _ X1 X2 HC1) as [HC1' HC2]. exists (eval I z). split; [auto|]. cbn [eval]. destruct (i_truth I (eval I z)); auto.
    - apply bind_ok in E as ([st1 ts] & E1 & E). apply bind_ok in E as (u & E2 & E). cbn [fst snd] in *. injection E as <- <-. destruct (mk_each l IH _ _ _ R C V E1) as (X & M).
      assert (eval I u = i_concat I (map (eval I) ts) /\ arms_present u = true /\ is_term u = false) as (K1 & K2 & K3).
      { destruct (existsb isBranch ts); [split; [exact (eval_insertConcat I k _ _ E2)|split; [exact (ap_cat _ _ _ E2)|exact (nt_cat _ _ _ E2)]]|]. injection E2 as <-. auto. }
      split; [exact X|]. split; [exact K2|]. split; [now rewrite (term_elem array u K3)|]. intros HC. apply means_concat. exists (map (eval I) ts). auto.
    - apply bind_ok in E as (c & E1 & E). apply bind_ok in E as ([st1 u] & E2 & E). cbn [fst snd] in *. injection E as <- <-. destruct (IH1 _ _ _ R C V E2) as (X & A & _ & M).
      split; [exact X|]. split; [reflexivity|]. split; [reflexivity|]. intros HC. exists (eval I u). split; [auto|]. rewrite (Ht _ _ E1). cbn [eval]. f_equal. generalize (Z.to_nat c). intros j. induction j; cbn [repeat map]; congruence.
    - apply andb_true_iff in C as [C C3]. apply andb_true_iff in C as [C1 C2]. apply bind_ok in E as ([st1 u] & E1 & E). apply bind_ok in E as ([st2 w] & E2 & E). apply bind_ok in E as ([st3 z] & E3 & E). cbn [fst snd] in *. injection E as <- <-.
      destruct (IH1 _ _ _ R C1 (fun s H => V s ltac:(rewrite !in_app_iff; auto)) E1) as (X1 & A1 & _ & M1). pose proof (ready_ext _ _ R X1) as R1.
      destruct (IHm _ _ _ R1 C2 (fun s H => V s ltac:(rewrite !in_app_iff; auto)) E2) as (X2 & A2 & _ & M2). pose proof (ready_ext _ _ R1 X2) as R2.
      destruct (IHl _ _ _ R2 C3 (fun s H => V s ltac:(rewrite !in_app_iff; auto)) E3) as (X3 & A3 & _ & M3).
      pose proof (ext_trans _ _ _ _ X1 X2) as X12. set (u' := if isBranch u then insertPartselect u w z else DPart u w z).
      assert (eval I u' = i_part I (eval I u) (eval I w) (eval I z) /\ arms_present u' = true /\ is_term u' = false) as (K1 & K2 & K3).
      { subst u'. destruct (isBranch u) eqn:B.
        - split; [|split; [now apply ap_part|destruct u; try discriminate B; reflexivity]]. apply part_ok. clear -A1. induction u; try reflexivity; cbn [arms_present leaves_present] in *; try discriminate A1. apply andb_true_iff in A1 as [A B]. now rewrite IHu2, IHu3.
        - split; [reflexivity|]. split; [|reflexivity]. cbn [arms_present]. rewrite A1. apply orb_true_r. }
      split; [exact (ext_trans _ _ _ _ X12 X3)|]. split; [exact K2|]. split; [now rewrite (term_elem array u' K3)|].
      intros HC. destruct (cons_split I sc _ _ _ X12 X3 HC) as [HC1 HC3]. destruct (cons_split I sc _ _ _ X1 X2 HC1) as [HC1' HC2]. exists (eval I u), (eval I w), (eval I z). auto.
    - apply andb_true_iff in C as [C1 C2]. apply bind_ok in E as ([st1 u] & E1 & E). apply bind_ok in E as ([st2 w] & E2 & E). cbn [fst snd] in *. injection E as <- <-.
      destruct (IH1 _ _ _ R C1 (fun s H => V s (in_or_app _ _ _ (or_introl H))) E1) as (X1 & A1 & L1 & M1).
      destruct (IHp _ _ _ (ready_ext _ _ R X1) C2 (fun s H => V s (in_or_app _ _ _ (or_intror H))) E2) as (X2 & A2 & _ & M2).
      set (u' := match u with DTerm n => if array n then DPtr u w else DPart u w w | _ => DPart u w w end).
      assert (eval I u' = (if elem a e1 then i_ptr I (eval I u) (eval I w) else i_part I (eval I u) (eval I w) (eval I w)) /\ arms_present u' = true /\ is_term u' = false) as (K1 & K2 & K3).
      { rewrite L1. subst u'. destruct u; try (split; [reflexivity|]; split; [|reflexivity]; cbn [arms_present]; cbn [arms_present] in A1; rewrite ?A1; now rewrite ?orb_true_r). match goal with |- context [array ?x] => destruct (array x) end; auto. }
      split; [exact (ext_trans _ _ _ _ X1 X2)|]. split; [exact K2|]. split; [now rewrite (term_elem array u' K3)|]. intros HC. destruct (cons_split I sc _ _ _ X1 X2 HC) as [HC1 HC2]. exists (eval I u), (eval I w). auto.
    - apply bind_ok in E as ([st1 n] & E1 & E). cbn [fst snd] in *. injection E as <- <-. pose proof R as (R1 & R2 & R3 & R4). destruct (Hcall st f l st1 n R1 R2 R3 R4 C V E1) as (X & N & M).
      split; [exact X|]. split; [reflexivity|]. split; [cbn [elem]; now rewrite N|]. intros HC. apply means_call. exact (M HC).
    - destruct l as [|b [|? ?]]; try discriminate C. apply andb_true_iff in C as [C1 C2]. rewrite orb_comm, C1 in E. inversion IH as [|? ? Hb _]; subst.
      destruct (Hb st st' t R C2 (fun s H => V s ltac:(cbn [flat_map]; rewrite app_nil_r; exact H)) E) as (X & A & L & M). split; [exact X|]. split; [exact A|]. split; [exact L|]. intros HC. cbn [means]. split; [|auto].
      apply orb_true_iff in C1 as [C1|C1]; apply String.eqb_eq in C1; auto.
  Qed.
  (** Without calls. *)
  Lemma mk_pure c e : pure c e = true -> forall st, mk st e = do t <- makeDFTree (find st sc) array times k e; Ok (st, t).
  Proof.
    induction e as [s|s|o e1 IH1|o e1 e2 IH1 IH2|c0 t0 f IHc IHt IHf|l IH|e1 n IH1|e1 m l IH1 IHm IHl|e1 p IH1 IHp|f l IH|f l IH] using expr_ind'; intros C st; cbn [mkS makeDFTree pure] in *; try reflexivity.
    - destruct (find st sc s); reflexivity.
    - rewrite (IH1 C). destruct (makeDFTree (find st sc) array times k e1); cbn [bind fst snd]; [|reflexivity]. reflexivity.
    - apply andb_true_iff in C as [C1 C2]. rewrite (IH1 C1). destruct (makeDFTree (find st sc) array times k e1); cbn [bind fst snd]; [|reflexivity]. rewrite (IH2 C2). destruct (makeDFTree (find st sc) array times k e2); reflexivity.
    - apply andb_true_iff in C as [C C3]. apply andb_true_iff in C as [C C2]. apply andb_true_iff in C as [_ C1].
      rewrite (IHt C2). destruct (makeDFTree (find st sc) array times k t0); cbn [bind fst snd]; [|reflexivity]. rewrite (IHf C3). destruct (makeDFTree (find st sc) array times k f); cbn [bind fst snd]; [|reflexivity].
      rewrite (IHc C1). destruct (makeDFTree (find st sc) array times k c0) as [z|]; cbn [bind fst snd]; [|reflexivity]. destruct (isBranch z); reflexivity.
    - assert (eachM mk st l = do ts <- mapM (makeDFTree (find st sc) array times k) l; Ok (st, ts)) as ->.
      { induction IH as [|e l He _ IHl]; [reflexivity|]. cbn [forallb] in C. apply andb_true_iff in C as [C1 C2]. cbn [eachM mapM]. rewrite (He C1). destruct (makeDFTree (find st sc) array times k e); cbn [bind fst snd]; [|reflexivity]. rewrite (IHl C2). destruct (mapM _ l); reflexivity. }
      destruct (mapM _ l); cbn [bind fst snd]; reflexivity.
    - destruct (times n); cbn [bind]; [|reflexivity]. rewrite (IH1 C). destruct (makeDFTree (find st sc) array times k e1); reflexivity.
    - apply andb_true_iff in C as [C C3]. apply andb_true_iff in C as [C1 C2]. rewrite (IH1 C1). destruct (makeDFTree (find st sc) array times k e1); cbn [bind fst snd]; [|reflexivity]. rewrite (IHm C2). destruct (makeDFTree (find st sc) array times k m); cbn [bind fst snd]; [|reflexivity].
      rewrite (IHl C3). destruct (makeDFTree (find st sc) array times k l); reflexivity.
    - apply andb_true_iff in C as [C1 C2]. rewrite (IH1 C1). destruct (makeDFTree (find st sc) array times k e1); cbn [bind fst snd]; [|reflexivity]. rewrite (IHp C2). destruct (makeDFTree (find st sc) array times k p); reflexivity.
    - discriminate C.
    - destruct l as [|b [|? ?]]; try discriminate C. apply andb_true_iff in C as [C1 C2]. rewrite orb_comm, C1. inversion IH as [|? ? Hb _]; subst. apply (Hb C2).
  Qed.
  Lemma pure_casts c e : pure c e = true -> casts e = true.
  Proof.
    induction e as [s|s|o e1 IH1|o e1 e2 IH1 IH2|c0 t0 f IHc IHt IHf|l IH|e1 n IH1|e1 m l IH1 IHm IHl|e1 p IH1 IHp|f l IH|f l IH] using expr_ind'; cbn [pure casts]; intros H; auto;
      repeat match goal with J : _ && _ = true |- _ => apply andb_true_iff in J as [? ?] end; rewrite ?IH1, ?IH2, ?IHc, ?IHt, ?IHf, ?IHm, ?IHl, ?IHp by auto; auto.
    - induction IH as [|e l He _ IHl]; [reflexivity|]. cbn [forallb] in *. apply andb_true_iff in H as [A B]. rewrite He, IHl; auto.
    - discriminate H.
    - destruct l as [|b [|? ?]]; try discriminate H. apply andb_true_iff in H as [A B]. inversion IH as [|? ? Hb _]; subst. now rewrite A, (Hb B).
  Qed.
  Lemma mk_fine e : pure true e = true -> forall st t, Good st -> makeDFTree (find st sc) array times k e = Ok t -> fine t.
  Proof.
    assert (F1 : forall o l, Forall fine l -> fine (DOp l o)) by (intros o l H; destruct (fine_list _ H) as (B1 & B2 & B3 & B4); split; assumption).
    assert (F2 : forall l, Forall fine l -> fine (DConcat l)) by (intros l H; destruct (fine_list _ H) as (B1 & B2 & B3 & B4); split; assumption).
    assert (F3 : forall x y z, fine x -> fine y -> fine z -> fine (DPart x y z)) by (intros x y z [A1 A2] [B1 B2] [C1 C2]; split; cbn [occurs isBranch odd2 orb]; [rewrite A1, B1, C1|rewrite A2, B2, C2]; reflexivity).
    induction e as [s|s|o e1 IH1|o e1 e2 IH1 IH2|c0 t0 f IHc IHt IHf|l IH|e1 n IH1|e1 m l IH1 IHm IHl|e1 p IH1 IHp|f l IH|f l IH] using expr_ind'; intros C st t G E; cbn [makeDFTree pure] in *.
    - apply bind_ok in E as (n & E1 & E). injection E as <-. split; [reflexivity|]. cbn [occurs odd2]. rewrite orb_false_r. apply wild_plain. exact (proj2 (find_term _ _ _ _ G Hsc E1)).
    - injection E as <-. split; reflexivity.
    - apply bind_ok in E as (u & E1 & E). pose proof (IH1 C _ _ G E1) as U. rewrite (fine_branch _ U) in E. apply mkOp_ok in E as [-> _]. auto.
    - apply andb_true_iff in C as [C1 C2]. apply bind_ok in E as (u & E1 & E). apply bind_ok in E as (w & E2 & E). pose proof (IH1 C1 _ _ G E1) as U. pose proof (IH2 C2 _ _ G E2) as W. rewrite (fine_branch _ U), (fine_branch _ W) in E. apply mkOp_ok in E as [-> _]. auto.
    - discriminate C.
    - apply bind_ok in E as (ts & E1 & E). assert (Forall fine ts) as K.
      { clear E. revert ts E1. induction IH as [|e l He _ IHl]; intros ts E1; cbn [mapM forallb] in *; [injection E1 as <-; constructor|]. apply andb_true_iff in C as [C1 C2]. apply bind_ok in E1 as (u & E1 & E2). apply bind_ok in E2 as (us & E2 & E3). injection E3 as <-. constructor; [exact (He C1 _ _ G E1)|auto]. }
      rewrite (proj1 (fine_list _ K)) in E. injection E as <-. auto.
    - apply bind_ok in E as (c & E1 & E). apply bind_ok in E as (u & E2 & E). injection E as <-. apply F2. pose proof (IH1 C _ _ G E2) as U. generalize (Z.to_nat c). intros j. induction j; constructor; auto.
    - apply andb_true_iff in C as [C C3]. apply andb_true_iff in C as [C1 C2]. apply bind_ok in E as (u & E1 & E). apply bind_ok in E as (w & E2 & E). apply bind_ok in E as (z & E3 & E). injection E as <-.
      pose proof (IH1 C1 _ _ G E1) as U. rewrite (fine_branch _ U). apply F3; eauto.
    - apply andb_true_iff in C as [C1 C2]. apply bind_ok in E as (u & E1 & E). apply bind_ok in E as (w & E2 & E). injection E as <-. pose proof (IH1 C1 _ _ G E1) as U. pose proof (IHp C2 _ _ G E2) as W.
      destruct u; try (apply F3; assumption). match goal with |- context [array ?x] => destruct (array x) end; [|apply F3; assumption]. destruct U as [U1 U2], W as [W1 W2]. split; cbn [occurs isBranch odd2 orb] in *; [rewrite W1|rewrite U2, W2]; reflexivity.
    - discriminate C.
    - destruct l as [|b [|? ?]]; try discriminate C. apply andb_true_iff in C as [C1 C2]. rewrite orb_comm, C1 in E. inversion IH as [|? ? Hb _]; subst. exact (Hb C2 _ _ G E).
  Qed.
End Mk.
