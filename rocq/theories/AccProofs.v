(** AccProofs.v - the analysis of legal items succeeds: trees, slices and the records of assignments. *)
From Verif Require Import Base ScopeModel ScopeSpec ScopeProofs DfModel DfSpec DfProofs ReorderModel ReorderSpec ReorderProofs BindModel BindSpec BindProofs AsgModel AsgProofs ExprModel MkModel MkSpec MkProps LitModel ConModel ConSpec ConProofs ConProofs2 PbModel AccSpec.
Local Open Scope list_scope.

Ltac ands := repeat match goal with H : _ && _ = true |- _ => apply andb_true_iff in H as [? ?] end.
Lemma arrives_const {A} (x : A) : arrives (fun _ => Ok x) x.
Proof. exists 0. reflexivity. Qed.
Lemma arrives_bind {A B} (f : nat -> res A) (g : nat -> A -> res B) x y : arrives f x -> arrives (fun k => g k x) y -> arrives (fun k => bind (f k) (g k)) y.
Proof. intros [a Ha] [b Hb]. exists (Nat.max a b). intros k Hk. rewrite (Ha k ltac:(lia)). cbn [bind]. apply Hb. lia. Qed.
Lemma arrives_ext {A} (f g : nat -> res A) x : (forall k, f k = g k) -> arrives f x -> arrives g x.
Proof. intros E [a Ha]. exists a. intros k Hk. rewrite <- E. auto. Qed.
Lemma arrives_here {A} (f : nat -> res A) x : arrives f x -> exists k, f k = Ok x.
Proof. intros [a Ha]. exists a. apply Ha. lia. Qed.

(** ** rigid trees *)
Lemma occ_false (f : df -> bool) l : existsb f l = false -> Forall (fun x => f x = false) l.
Proof. induction l as [|x l IH]; cbn [existsb]; intros H; constructor; apply orb_false_iff in H as [? ?]; auto. Qed.
Lemma occ_true (f : df -> bool) l : Forall (fun x => f x = false) l -> existsb f l = false.
Proof. induction 1; cbn [existsb]; [reflexivity|]. now rewrite H. Qed.
Local Notation bad := (fun u => isBranch u || isDelay u || isSys u || is_none u).
Record stiff (t : df) : Prop := Stiff { st_rigid : rigid t; st_reo : reorderable t = true; st_arms : arms_present t = true; st_free : occurs isBranch t = false; st_delay : no_delay t }.
Lemma rigid_stiff t : rigid t -> stiff t.
Proof.
  intros R. pose proof R as R0. revert R. unfold rigid, no_delay.
  assert (G : occurs bad t = false -> reorderable t = true /\ arms_present t = true /\ occurs isBranch t = false /\ occurs isDelay t = false).
  { clear R0. assert (HL : forall l, Forall (fun t => occurs bad t = false -> reorderable t = true /\ arms_present t = true /\ occurs isBranch t = false /\ occurs isDelay t = false) l ->
      existsb (occurs bad) l = false -> forallb reorderable l = true /\ forallb arms_present l = true /\ existsb (occurs isBranch) l = false /\ existsb (occurs isDelay) l = false).
    { induction 1 as [|x l Hx H IH]; cbn [existsb forallb]; intros K; [auto|]. apply orb_false_iff in K as [K1 K2]. destruct (Hx K1) as (A & B & C & D), (IH K2) as (A' & B' & C' & D'). now rewrite A, B, C, D, A', B', C', D'. }
    induction t as [ |n|s|s|s|l o IH|v m l IHv IHm IHl|v p IHv IHp|l IH|c t f IHc IHt IHf|v w f s|w|w|t IH|s l IH] using df_ind'; cbn [occurs isBranch isDelay isSys is_none orb reorderable arms_present]; intros H; try discriminate; auto.
    - destruct (HL l IH H) as (A & B & C & D). now rewrite A, B, C, D.
    - apply orb_false_iff in H as [H H3]. apply orb_false_iff in H as [H1 H2]. destruct (IHv H1) as (A & B & C & D), (IHm H2) as (A' & B' & C' & D'), (IHl H3) as (A2 & B2 & C2 & D2).
      rewrite A, A', A2, C, C', C2, D, D', D2, B, orb_true_r. auto.
    - apply orb_false_iff in H as [H1 H2]. destruct (IHv H1) as (A & B & C & D), (IHp H2) as (A' & B' & C' & D'). rewrite A, A', C, C', D, D', B, orb_true_r. auto.
    - destruct (HL l IH H) as (A & B & C & D). now rewrite A, C, D. }
  intros R. destruct (G R) as (A & B & C & D). constructor; auto.
Qed.
Lemma rigid_none t : rigid t -> is_none t = false.
Proof. destruct t; [discriminate|reflexivity..]. Qed.
Lemma rigid_op l o : Forall rigid l -> rigid (DOp l o).
Proof. intros H. unfold rigid. cbn. apply occ_true. exact H. Qed.
Lemma rigid_reorder t : rigid t -> arrives (fun k => reorder k t) t.
Proof.
  intros R. destruct (rigid_stiff t R) as [_ A _ F _]. destruct (reorder_total t A) as (t' & n0 & H). assert (t' = t) as -> by exact (branch_free_id n0 t t' F (H n0 (le_n _))). exists n0. exact H.
Qed.
Lemma rigid_two a b o : rigid a -> rigid b -> mkOp [a; b] o = Ok (DOp [a; b] o) /\ rigid (DOp [a; b] o).
Proof. intros A B. split; [|apply rigid_op; auto]. unfold mkOp. cbn [existsb]. now rewrite (rigid_none a A), (rigid_none b B). Qed.
Lemma reorder_arrives t : reorderable t = true -> exists t', arrives (fun k => reorder k t) t'.
Proof. intros H. destruct (reorder_total t H) as (t' & n0 & K). exists t', n0. exact K. Qed.

(** ** trees that can be reordered *)
Lemma sorts_reorderable t : reorderable t = true -> sorts t.
Proof. intros H. exact (reorder_arrives t H). Qed.
Lemma sorts_rigid t : rigid t -> sorts t.
Proof. intros H. exists t. now apply rigid_reorder. Qed.
Lemma sorts_result t t' : arrives (fun k => reorder k t) t' -> sorts t'.
Proof. intros H. apply arrives_here in H as [k H]. destruct (reorder_idem k t t' H) as (n0 & K). exists t', n0. exact K. Qed.
Lemma shift {A} (f : nat -> res A) x : arrives (fun k => f (S k)) x -> arrives f x.
Proof. intros [a H]. exists (S a). intros [|k] Hk; [lia|]. apply H. lia. Qed.
Lemma sorts_none : sorts DNone.
Proof. exists DNone. apply shift. exact (arrives_const DNone). Qed.
Lemma sorts_branch c x y : sorts c -> sorts x -> sorts y -> sorts (DBranch c x y).
Proof.
  intros [c' C] [x' X] [y' Y]. exists (match c' with DBranch _ _ _ => insertBranch c' x' y' | _ => DBranch c' x' y' end). apply shift. cbn [reorder].
  refine (arrives_bind _ _ _ _ X _). refine (arrives_bind _ _ _ _ Y _). refine (arrives_bind _ _ _ _ C _). destruct c'; exact (arrives_const _).
Qed.
Lemma sorts_part v m l : sorts v -> rigid m -> rigid l -> sorts (DPart v m l).
Proof.
  intros [v' V] M L. exists (match v' with DBranch _ _ _ => insertPartselect v' m l | _ => DPart v' m l end). apply shift. cbn [reorder].
  refine (arrives_bind _ _ _ _ (rigid_reorder m M) _). refine (arrives_bind _ _ _ _ (rigid_reorder l L) _). refine (arrives_bind _ _ _ _ V _).
  destruct (rigid_stiff m M) as [_ _ _ FM _], (rigid_stiff l L) as [_ _ _ FL _]. rewrite (occurs_isBranch _ FM), (occurs_isBranch _ FL). cbn [orb]. destruct v'; exact (arrives_const _).
Qed.

(** ** one assignment *)
Lemma sorts_make p V : tidy_path p -> sorts V -> sorts (makeBranchTree p V).
Proof. induction 1 as [|[c b] p [_ Hc] _ IH]; intros HV; cbn [makeBranchTree]; [exact HV|]. destruct b; apply sorts_branch; auto using sorts_none. Qed.
Lemma append_make T V : sorts T -> sorts V -> forall p, tidy_path p -> p <> [] -> exists t, appendBranchTree (makeBranchTree p V) (flip_last (map snd p)) T = Ok t /\ sorts t.
Proof.
  intros HT HV. induction p as [|[c b] p IH]; intros Hp Hn; [congruence|]. inversion Hp as [|? ? [H0 H1] H2]; subst. cbn [fst] in *.
  destruct p as [|cb p].
  - destruct b; cbn; eexists; (split; [reflexivity|]); apply sorts_branch; auto.
  - destruct (IH H2 ltac:(discriminate)) as (t & E & St).
    assert (F : flip_last (map snd ((c, b) :: cb :: p)) = b :: flip_last (map snd (cb :: p))) by reflexivity. rewrite F. cbn [makeBranchTree]. fold (makeBranchTree (cb :: p) V).
    destruct b; cbn [appendBranchTree]; change (match cb with (c0, true) => DBranch c0 (makeBranchTree p V) DNone | (c0, false) => DBranch c0 DNone (makeBranchTree p V) end) with (makeBranchTree (cb :: p) V); rewrite E; cbn [bind]; eexists; (split; [reflexivity|]); apply sorts_branch; auto using sorts_none.
Qed.
Lemma sorts_branch_inv c x y : sorts (DBranch c x y) -> sorts c /\ sorts x /\ sorts y.
Proof.
  intros [t H]. apply arrives_here in H as [[|k] H]; [discriminate|]. cbn [reorder] in H.
  apply bind_ok in H as (x' & X & H). apply bind_ok in H as (y' & Y & H). apply bind_ok in H as (c' & C & _).
  assert (G : forall u u', reorder k u = Ok u' -> sorts u). { intros u u' E. exists u', k. intros m Hm. exact (reorder_mono k u _ E ltac:(discriminate) m Hm). }
  split; [exact (G _ _ C)|]. split; [exact (G _ _ X)|exact (G _ _ Y)].
Qed.
Lemma stop_total T p V : tidy_path p -> sorts T -> sorts V -> exists t, stop T p V = Ok t /\ sorts t.
Proof.
  intros Hp HT HV. destruct p as [|cb p]; [exists V; auto|]. cbn [stop]. destruct (is_none T).
  - eexists. split; [reflexivity|]. now apply sorts_make.
  - apply append_make; auto. discriminate.
Qed.
Lemma ins_total : forall p T V, tidy_path p -> sorts T -> sorts V -> exists t, ins T p V = Ok t /\ sorts t.
Proof.
  induction p as [|[c b] p IH]; intros T V Hp HT HV; [exists V; rewrite ins_nil; auto|]. inversion Hp as [|? ? [H0 H1] H2]; subst.
  assert (D : forall T', sorts T' -> exists t, stop T' ((c, b) :: p) V = Ok t /\ sorts t) by (intros T' H; now apply stop_total).
  destruct T as [ |n|s|s|s|l o|v m0 l|v q|l|c' x y|v w f s|w|w|t|s l]; cbn [ins]; try exact (D _ HT).
  destruct (eqc c c'); [|exact (D _ HT)]. destruct (sorts_branch_inv _ _ _ HT) as (A & B & C).
  destruct b; [destruct (IH x V H2 B HV) as (t & E & St)|destruct (IH y V H2 C HV) as (t & E & St)]; rewrite E; cbn [bind]; eexists; (split; [reflexivity|]); apply sorts_branch; auto.
Qed.
Lemma insert_total p T V : tidy_path p -> sorts T -> sorts V -> exists t, insert T p V = Ok t /\ sorts t.
Proof.
  intros Hp HT HV. assert (E : insert T p V = ins T p V).
  { unfold insert. assert (DA : forall p, tidy_path p -> forall T m, exists rest rp m', diffBranchTree T p m = Ok (rest, rp, m ++ m') /\ forall V, ins T p V = do a <- stop rest rp V; appendBranchTree T m' a).
    { clear. assert (B : forall V T p, ins T p V = stop T p V -> ins T p V = do a <- stop T p V; appendBranchTree T [] a).
      { intros V T p ->. destruct (stop T p V); cbn [bind]; rewrite ?append_nil; reflexivity. }
      induction 1 as [|[c b] p [Hc _] Hp IH]; intros T m.
      - exists T, [], []. rewrite app_nil_r. split; [destruct T; reflexivity|]. intros V. cbn [stop bind]. rewrite append_nil. destruct T; reflexivity.
      - simpl in Hc. destruct T as [ |n|s|s|s|l o|v m0 l|v q|l|c' x y|v w f s|w|w|t|s l];
          try (eexists _, _, []; cbn [diffBranchTree]; rewrite app_nil_r; split; [reflexivity|]; intros V; apply B; reflexivity).
        cbn [diffBranchTree ins]. rewrite (eqc_ok c c' Hc). cbn [bind]. destruct (eqc c c') eqn:E.
        + destruct (IH (if b then x else y) (m ++ [b])) as (rest & rp & m' & -> & H). exists rest, rp, (b :: m'). rewrite <- app_assoc. split; [reflexivity|]. intros V.
          destruct b; rewrite H; destruct (stop rest rp V) as [a|e]; cbn [bind appendBranchTree]; auto.
        + exists (DBranch c' x y), ((c, b) :: p), []. rewrite app_nil_r. split; [reflexivity|]. intros V.
          destruct (stop (DBranch c' x y) ((c, b) :: p) V); cbn [bind]; rewrite ?append_nil; reflexivity. }
    destruct (DA p Hp T []) as (rest & rp & m' & -> & H). rewrite H. cbn [bind app]. destruct rp; reflexivity. }
  rewrite E. now apply ins_total.
Qed.

Definition neat (b : bind_) : Prop := sorts (b_tree b) /\ no_delay (b_msb b) /\ no_delay (b_lsb b) /\ no_delay (b_ptr b).
Lemma same_slice_total c b : neat c -> exists e, same_slice c b = Ok e.
Proof.
  intros (_ & H1 & H2 & H3). unfold same_slice. destruct (df_eq_ok _ H1 (b_msb b)) as (r1 & -> & _). cbn [bind]. destruct r1; [|eexists; reflexivity].
  destruct (df_eq_ok _ H2 (b_lsb b)) as (r2 & -> & _). cbn [bind]. destruct r2; [|eexists; reflexivity]. destruct (df_eq_ok _ H3 (b_ptr b)) as (r3 & -> & _). eexists; reflexivity.
Qed.
Lemma current_total l b : Forall neat l -> exists t, current_tree l b = Ok t /\ sorts t.
Proof.
  induction 1 as [|c l Hc Hl IH]; cbn [current_tree]; [exists DNone; split; [reflexivity|exact sorts_none]|].
  destruct (same_slice_total c b Hc) as (e & ->). cbn [bind]. destruct e; [|exact IH]. exists (b_tree c). split; [reflexivity|exact (proj1 Hc)].
Qed.
Lemma put_total l b : Forall neat l -> neat b -> exists l', put_bind l b = Ok l' /\ Forall neat l'.
Proof.
  intros Hl Hb. induction Hl as [|c l Hc Hl (l' & E & IH)]; cbn [put_bind]; [eexists; split; [reflexivity|auto]|].
  destruct (same_slice_total c b Hc) as (e & ->). cbn [bind]. destruct e.
  - eexists. split; [reflexivity|]. constructor; [|exact Hl]. destruct Hc as (_ & H1 & H2 & H3), Hb as (H0 & _). unfold neat. cbn. auto.
  - rewrite E. cbn [bind]. eexists. split; [reflexivity|]. auto.
Qed.
Lemma tidy_get s n : tidy s -> Forall neat (getBindlist (s_binds s) n).
Proof.
  unfold tidy, getBindlist. intros H. induction H as [|[k l] d Hx H IH]; cbn [dget]; [constructor|]. destruct (chain_eq k n); [exact Hx|exact IH].
Qed.
Lemma tidy_set (d : ndict (list bind_)) n l : Forall (fun e => Forall neat (snd e)) d -> Forall neat l -> Forall (fun e => Forall neat (snd e)) (dset d n l).
Proof.
  intros Hd Hl. induction Hd as [|[k v] d Hx Hd IH]; cbn [dset]; [constructor; [exact Hl|constructor]|]. destruct (chain_eq k n); constructor; auto.
Qed.
Lemma addBind_total s n b : tidy s -> neat b -> keys_plain (s_binds s) -> no_any n -> exists s', addBind s n b = Ok s' /\ tidy s' /\ s_terms s' = s_terms s /\ keys_plain (s_binds s').
Proof.
  intros Ht Hb HK Hn. unfold addBind. pose proof (tidy_get s n Ht) as G. unfold getBindlist in G. destruct (dget (s_binds s) n) as [l|].
  - destruct (put_total l b G Hb) as (l' & -> & Hl'). cbn [bind]. eexists. split; [reflexivity|]. split; [|split; [reflexivity|now apply dset_plain]]. exact (tidy_set _ n l' Ht Hl').
  - eexists. split; [reflexivity|]. split; [|split; [reflexivity|now apply dset_plain]]. exact (tidy_set _ n [b] Ht (Forall_cons _ Hb (Forall_nil _))).
Qed.

(** A destination that can be assigned. *)
Definition slot (t : df) : Prop := t = DNone \/ rigid t.
Lemma slot_delay t : slot t -> no_delay t.
Proof. intros [-> |R]; [reflexivity|exact (st_delay t (rigid_stiff t R))]. Qed.
Definition dest_ok (many : bool) (d : dest) : Prop := no_any (d_name d) /\ slot (d_msb d) /\ slot (d_lsb d) /\ slot (d_ptr d) /\ (many = true -> rigid (d_pmsb d) /\ rigid (d_plsb d)).
Lemma makeBind_total s d raw p nd ty : tidy s -> tidy_path p -> sorts raw -> dest_ok (1 <? nd) d -> exists b, arrives (fun k => makeBind k None s d raw p nd ty) b /\ neat b.
Proof.
  intros Ht Hp Hr (Hn & H1 & H2 & H3 & H4). unfold makeBind. destruct (current_total (getBindlist (s_binds s) (d_name d)) (Bind DNone (d_name d) (d_msb d) (d_lsb d) (d_ptr d) None ty) (tidy_get s _ Ht)) as (cur & -> & Hc). cbn [bind].
  destruct (insert_total p cur raw Hp Hc Hr) as (t & -> & St). cbn [bind]. destruct St as [t1 A1]. pose proof (sorts_result _ _ A1) as S1.
  assert (exists t2, arrives (fun k => if 1 <? nd then reorder k (DPart t1 (d_pmsb d) (d_plsb d)) else Ok t1) t2 /\ sorts t2) as (t2 & A2 & S2).
  { destruct (1 <? nd); [|exists t1; split; [apply arrives_const|exact S1]]. destruct (H4 eq_refl) as [R1 R2]. destruct (sorts_part t1 _ _ S1 R1 R2) as [t2 A2]. exists t2. split; [exact A2|exact (sorts_result _ _ A2)]. }
  eexists. split.
  - refine (arrives_bind _ _ _ _ A1 _). refine (arrives_bind _ _ _ _ A2 _). apply arrives_const.
  - split; [exact S2|]. cbn. auto using slot_delay.
Qed.
Lemma setDataflow_total ds : forall s raw p nd ty, tidy s -> keys_plain (s_binds s) -> tidy_path p -> sorts raw -> Forall (dest_ok (1 <? nd)) ds ->
  exists s', arrives (fun k => setDataflow k s ds raw p nd ty) s' /\ tidy s' /\ s_terms s' = s_terms s /\ keys_plain (s_binds s').
Proof.
  induction ds as [|d ds IH]; intros s raw p nd ty Ht HK Hp Hr Hd; cbn [setDataflow]; [exists s; split; [apply arrives_const|auto]|]. inversion Hd as [|? ? D1 D2]; subst.
  destruct (makeBind_total s d raw p nd ty Ht Hp Hr D1) as (b & Ab & Hb). destruct (addBind_total s (d_name d) b Ht Hb HK (proj1 D1)) as (s1 & E1 & T1 & K1 & P1). destruct (IH s1 raw p nd ty T1 P1 Hp Hr D2) as (s2 & A2 & T2 & K2 & P2).
  exists s2. split; [|split; [exact T2|split; [congruence|exact P2]]]. refine (arrives_bind _ _ _ _ Ab _). cbn beta. rewrite E1. cbn [bind]. exact A2.
Qed.
