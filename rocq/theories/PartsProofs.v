(** PartsProofs.v - reading a signal that was assigned in parts. *)
From Verif Require Import Base ScopeModel DfModel ReorderModel BindModel AsgModel PartsModel PartsSpec.
From Coq Require Import Permutation.
Local Open Scope list_scope.
Local Open Scope Z_scope.

Definition apart (u w : write) : Prop := w_msb u < w_lsb w \/ w_msb w < w_lsb u.
Definition same (u w : write) : bool := (w_msb u =? w_msb w) && (w_lsb u =? w_lsb w).
Lemma covers_iff w i : covers w i = true <-> w_lsb w <= i <= w_msb w.
Proof. unfold covers. rewrite andb_true_iff, !Z.leb_le. reflexivity. Qed.
Lemma num_eq a b : df_eq (num a) (num b) = Ok (a =? b).
Proof. cbn. now rewrite !andb_true_r. Qed.

(** ** the entries of the frame *)
Fixpoint upd (E : list write) (w : write) : list write :=
  match E with
  | [] => [w]
  | u :: r => if w_msb u =? w_msb w then Write (w_msb u) (w_lsb u) (w_held w) :: r else u :: upd r w
  end.
Lemma target_eq x ai u w : same_target (write_bind x ai u) (write_bind x ai w) = Ok (w_msb u =? w_msb w).
Proof.
  unfold same_target. change (b_msb (write_bind x ai u)) with (num (w_msb u)). change (b_msb (write_bind x ai w)) with (num (w_msb w)). rewrite num_eq. cbn [bind]. destruct (w_msb u =? w_msb w); reflexivity.
Qed.
Lemma note_upd x ai E w : note (map (write_bind x ai) E) (write_bind x ai w) = Ok (map (write_bind x ai) (upd E w)).
Proof.
  induction E as [|u E IH]; [reflexivity|]. cbn [map note upd]. rewrite target_eq. cbn [bind]. destruct (w_msb u =? w_msb w); [reflexivity|]. rewrite IH. reflexivity.
Qed.
Definition upds (E ws : list write) : list write := fold_left upd ws E.
Lemma notes_upds x ai : forall ws E, notes (map (write_bind x ai) E) (map (write_bind x ai) ws) = Ok (map (write_bind x ai) (upds E ws)).
Proof. induction ws as [|w ws IH]; intros E; cbn [notes map upds fold_left]; [reflexivity|]. rewrite note_upd. cbn [bind]. apply IH. Qed.

Section Inv.
  Variable W : Z.
  (** Entries lie inside and are pairwise apart. *)
  Definition tidy_entries (E : list write) : Prop := Forall (inside W) E /\ ForallOrdPairs apart E.
  Lemma upd_slices E w : forall v, In v (upd E w) -> v = w \/ (exists u, In u E /\ w_msb v = w_msb u /\ w_lsb v = w_lsb u).
  Proof.
    induction E as [|u E IH]; cbn [upd]; intros v H; [destruct H as [<-|[]]; auto|]. destruct (w_msb u =? w_msb w).
    - destruct H as [<-|H]; right; [exists u; cbn; auto|exists v; cbn; auto].
    - destruct H as [<-|H]; [right; exists u; cbn; auto|]. destruct (IH v H) as [->|(u' & A & B)]; [auto|right; exists u'; cbn; auto].
  Qed.
  Lemma upd_tidy E w : tidy_entries E -> inside W w -> (forall u, In u E -> same_or_apart u w) -> tidy_entries (upd E w).
  Proof.
    intros [H1 H2] Hw. induction H2 as [|u E Hu HE IH]; intros S; [split; cbn [upd]; [constructor; [exact Hw|constructor]|constructor; constructor]|]. cbn [upd]. pose proof (Forall_inv H1) as Iu; pose proof (Forall_inv_tail H1) as I1. destruct (w_msb u =? w_msb w) eqn:Q.
    - split; constructor; auto.
    - destruct (IH I1 (fun v H => S v (or_intror H))) as [K1 K2]. split; constructor; auto. apply Forall_forall. intros v Hv. rewrite Forall_forall in Hu. apply Z.eqb_neq in Q.
      destruct (upd_slices E w v Hv) as [->|(u' & A & B & C)].
      + destruct (S u (or_introl eq_refl)) as [[A _]|[A|A]]; [congruence|left; exact A|right; exact A].
      + specialize (Hu u' A). unfold apart in *. rewrite B, C. exact Hu.
  Qed.
  (** What the entries say about a bit. *)
  Fixpoint held (value : df -> list bool) (E : list write) (x : Z -> bool) (i : Z) : bool :=
    match E with [] => x i | u :: r => if covers u i then nth (Z.to_nat (i - w_lsb u)) (value (DTerm (w_held u))) false else held value r x i end.
  Lemma upd_held value x i : forall E w, Forall (inside W) E -> (forall u, In u E -> same_or_apart u w) -> inside W w -> ForallOrdPairs apart E ->
    held value (upd E w) x i = if covers w i then nth (Z.to_nat (i - w_lsb w)) (value (DTerm (w_held w))) false else held value E x i.
  Proof.
    induction E as [|u E IH]; cbn [upd held]; intros w HI S Hw HP; [reflexivity|]. pose proof (Forall_inv HI) as Iu; pose proof (Forall_inv_tail HI) as I1. inversion HP as [|? ? Pu P1]; subst. destruct (w_msb u =? w_msb w) eqn:Q.
    - apply Z.eqb_eq in Q. assert (w_lsb u = w_lsb w) as L by (destruct (S u (or_introl eq_refl)) as [[_ A]|A]; [exact A|unfold inside in *; lia]).
      cbn [held]. unfold covers. cbn [w_msb w_lsb w_held]. rewrite Q, L. destruct ((w_lsb w <=? i) && (i <=? w_msb w)); reflexivity.
    - apply Z.eqb_neq in Q. cbn [held]. rewrite (IH w I1 (fun v H => S v (or_intror H)) Hw P1). destruct (covers u i) eqn:Cu; [|reflexivity]. destruct (covers w i) eqn:Cw; [|reflexivity].
      apply covers_iff in Cu, Cw. destruct (S u (or_introl eq_refl)) as [[A _]|A]; lia.
  Qed.
  Lemma held_ext value E x y i : x i = y i -> held value E x i = held value E y i.
  Proof. intros H. induction E as [|u E IH]; cbn [held]; [exact H|]. destruct (covers u i); auto. Qed.
  Lemma upds_ok : forall ws E, tidy_entries E -> Forall (inside W) ws -> (forall u w, In u E -> In w ws -> same_or_apart u w) -> (forall u w, In u ws -> In w ws -> same_or_apart u w) ->
    tidy_entries (upds E ws) /\ (forall v, In v (upds E ws) -> exists u, (In u E \/ In u ws) /\ w_msb v = w_msb u /\ w_lsb v = w_lsb u) /\
    (forall v, In v E \/ In v ws -> exists u, In u (upds E ws) /\ w_msb u = w_msb v /\ w_lsb u = w_lsb v) /\
    (forall n, In n (map w_held (upds E ws)) -> In n (map w_held E) \/ In n (map w_held ws)).
  Proof.
    induction ws as [|w ws IH]; intros E HE Hw HA HB; cbn [upds fold_left].
    - split; [exact HE|]. split; [intros v Hv; exists v; auto|]. split; [intros v [Hv|[]]; exists v; auto|auto].
    - inversion Hw as [|? ? Iw Iws]; subst. assert (S : forall u, In u E -> same_or_apart u w) by (intros u Hu; apply HA; cbn; auto).
      destruct (IH (upd E w) (upd_tidy E w HE Iw S) Iws) as (K1 & K2 & K3 & K4).
      + intros u v Hu Hv. destruct (upd_slices E w u Hu) as [->|(u' & A & B & C)]; [apply HB; cbn; auto|]. unfold same_or_apart. rewrite B, C. apply HA; cbn; auto.
      + intros u v Hu Hv. apply HB; cbn; auto.
      + fold (upds (upd E w) ws) in *. split; [exact K1|]. split; [|split].
        * intros v Hv. destruct (K2 v Hv) as (u & [Hu|Hu] & B & C); [|exists u; cbn; auto]. destruct (upd_slices E w u Hu) as [->|(u' & A & B' & C')]; [exists w; cbn; auto|]. exists u'. cbn. split; [auto|]. split; congruence.
        * intros v Hv. assert (exists u, (In u (upd E w) \/ In u ws) /\ w_msb u = w_msb v /\ w_lsb u = w_lsb v) as (u & Hu & B & C).
          { assert (G : forall E, (forall u, In u E -> same_or_apart u w) -> Forall (inside W) E -> In v E \/ v = w -> exists u, In u (upd E w) /\ w_msb u = w_msb v /\ w_lsb u = w_lsb v).
            { clear - Iw. induction E as [|u E IH]; cbn [upd]; intros S HI Hv; [destruct Hv as [[]| ->]; exists w; cbn; auto|]. pose proof (Forall_inv HI) as Iu; pose proof (Forall_inv_tail HI) as I1. destruct (w_msb u =? w_msb w) eqn:Q.
              - apply Z.eqb_eq in Q. destruct Hv as [[<-|Hv]| ->]; [eexists; split; [left; reflexivity|auto]|exists v; cbn; auto|]. eexists. split; [left; reflexivity|]. cbn. split; [exact Q|]. destruct (S u (or_introl eq_refl)) as [[_ A]|A]; [exact A|unfold inside in *; lia].
              - assert (In v E \/ v = w \/ v = u) as [H|[H|H]] by (destruct Hv as [[<-|Hv]|Hv]; auto); try (destruct (IH (fun u H => S u (or_intror H)) I1 ltac:(auto)) as (u' & A & B); exists u'; cbn; auto). subst. exists u; cbn; auto. }
            destruct Hv as [Hv|[<-|Hv]]; [destruct (G E S (proj1 HE) (or_introl Hv)) as (u & A & B); exists u; auto|destruct (G E S (proj1 HE) (or_intror eq_refl)) as (u & A & B); exists u; auto|exists v; auto]. }
          destruct (K3 u Hu) as (z & A & B' & C'). exists z. split; [exact A|]. split; congruence.
        * intros n Hn. destruct (K4 n Hn) as [H|H]; [|cbn; auto]. apply in_map_iff in H as (v & <- & Hv).
          assert (G : forall E v, In v (upd E w) -> In (w_held v) (map w_held E) \/ w_held v = w_held w).
          { clear. induction E as [|u E IH]; cbn [upd map]; intros v H; [destruct H as [<-|[]]; auto|]. destruct (w_msb u =? w_msb w); destruct H as [<-|H]; cbn; auto; [left; right; now apply in_map|]. destruct (IH v H); auto. }
          destruct (G E v Hv) as [A|A]; [auto|right; cbn; auto].
  Qed.
  Lemma upds_held value i : forall ws E x, tidy_entries E -> Forall (inside W) ws -> (forall u w, In u E -> In w ws -> same_or_apart u w) -> (forall u w, In u ws -> In w ws -> same_or_apart u w) ->
    held value (upds E ws) x i = written value ws (held value E x) i.
  Proof.
    induction ws as [|w ws IH]; intros E x HE Hw HA HB; cbn [upds fold_left written]; [reflexivity|].
    inversion Hw as [|? ? Iw Iws]; subst. assert (S : forall u, In u E -> same_or_apart u w) by (intros u Hu; apply HA; cbn; auto).
    fold (upds (upd E w) ws). rewrite (IH (upd E w) x (upd_tidy E w HE Iw S) Iws).
    - assert (X : forall f g, (forall j, f j = g j) -> written value ws f i = written value ws g i).
      { clear. induction ws as [|v ws IH]; cbn [written]; intros f g H; [apply H|]. apply IH. intros j. destruct (covers v j); auto. }
      apply X. intros j. exact (upd_held value x j E w (proj1 HE) S Iw (proj2 HE)).
    - intros u v Hu Hv. destruct (upd_slices E w u Hu) as [->|(u' & A & B & C)]; [apply HB; cbn; auto|]. unfold same_or_apart. rewrite B, C. apply HA; cbn; auto.
    - intros u v Hu Hv. apply HB; cbn; auto.
  Qed.
End Inv.

(** ** sorting *)
Fixpoint ins (w : write) (l : list write) : list write := match l with [] => [w] | u :: r => if w_lsb w <=? w_lsb u then w :: l else u :: ins w r end.
Definition sortw (l : list write) : list write := fold_right ins [] l.
Lemma ins_perm w l : Permutation (ins w l) (w :: l).
Proof. induction l as [|u l IH]; cbn [ins]; [reflexivity|]. destruct (w_lsb w <=? w_lsb u); [reflexivity|]. rewrite IH. apply perm_swap. Qed.
Lemma sort_perm l : Permutation (sortw l) l.
Proof. induction l as [|w l IH]; cbn [sortw fold_right]; [reflexivity|]. rewrite ins_perm. now constructor. Qed.
Definition below (w u : write) : Prop := w_lsb w <= w_lsb u.
Lemma ins_sorted w l : ForallOrdPairs below l -> ForallOrdPairs below (ins w l).
Proof.
  induction 1 as [|u l Hu HP IH]; cbn [ins]; [repeat constructor|]. destruct (w_lsb w <=? w_lsb u) eqn:Q.
  - apply Z.leb_le in Q. constructor; [constructor; [exact Q|]|constructor; auto]. eapply Forall_impl; [|exact Hu]. unfold below. intros; lia.
  - apply Z.leb_gt in Q. constructor; [|exact IH]. apply (Permutation_Forall (Permutation_sym (ins_perm w l))). constructor; [unfold below; lia|exact Hu].
Qed.
Lemma sort_sorted l : ForallOrdPairs below (sortw l).
Proof. induction l as [|w l IH]; cbn [sortw fold_right]; [constructor|]. now apply ins_sorted. Qed.
Lemma by_key_sort x ai l : map snd (by_key (map (fun w => (w_lsb w, write_bind x ai w)) l)) = map (write_bind x ai) (sortw l).
Proof.
  assert (G : by_key (map (fun w => (w_lsb w, write_bind x ai w)) l) = map (fun w => (w_lsb w, write_bind x ai w)) (sortw l)).
  { induction l as [|w l IH]; [reflexivity|]. cbn [map by_key fold_right sortw]. fold (by_key (map (fun w => (w_lsb w, write_bind x ai w)) l)). rewrite IH. fold (sortw l). clear IH. induction (sortw l) as [|u r IHr]; [reflexivity|]. cbn [map put_sorted ins fst].
    destruct (w_lsb w <=? w_lsb u); [reflexivity|]. cbn [map]. f_equal. exact IHr. }
  rewrite G, map_map. reflexivity.
Qed.

(** ** a row of parts without gaps *)
Fixpoint row (s W : Z) (l : list write) : Prop := match l with [] => s = W | w :: r => w_lsb w = s /\ s <= w_msb w /\ row (w_msb w + 1) W r end.
Lemma pairs_in (R : write -> write -> Prop) l : (forall u w, R u w -> R w u) -> ForallOrdPairs R l -> forall l', Permutation l l' -> ForallOrdPairs R l'.
Proof.
  intros S H l' P. revert H. induction P as [|a l l' P IH|a b l|l l1 l2 P1 IH1 P2 IH2]; intros H; auto.
  - inversion H as [|? ? A B]; subst. constructor; [exact (Permutation_Forall P A)|auto].
  - inversion H as [|? ? A B]; subst. inversion B as [|? ? C D]; subst. inversion A as [|? ? A1 A2]; subst. constructor; [constructor; auto|constructor; auto].
Qed.
Lemma row_of W : forall l s, s <= W -> ForallOrdPairs below l -> ForallOrdPairs apart l -> Forall (fun w => s <= w_lsb w /\ w_lsb w <= w_msb w /\ w_msb w < W) l ->
  (forall i, s <= i < W -> exists w, In w l /\ covers w i = true) -> row s W l.
Proof.
  induction l as [|w l IH]; intros s Hs HB HA HI HC; cbn [row].
  - destruct (Z.eq_dec s W); [assumption|]. destruct (HC s ltac:(lia)) as (? & [] & _).
  - inversion HB as [|? ? B1 B2]; subst. inversion HA as [|? ? A1 A2]; subst. inversion HI as [|? ? I1 I2]; subst. rewrite Forall_forall in B1, A1, I2.
    assert (w_lsb w = s) as L. { destruct (HC s ltac:(lia)) as (u & [<-|Hu] & Cu); apply covers_iff in Cu; [lia|]. specialize (B1 u Hu). unfold below in B1. lia. }
    split; [exact L|]. split; [lia|]. apply IH; auto; [lia| |].
    + apply Forall_forall. intros u Hu. specialize (A1 u Hu). specialize (B1 u Hu). specialize (I2 u Hu). unfold apart, below in *. lia.
    + intros i Hi. destruct (HC i ltac:(lia)) as (u & [<-|Hu] & Cu); [apply covers_iff in Cu; lia|eauto].
Qed.
Lemma gather_step x ai a w r : gather a (-1) (write_bind x ai w :: r) =
  do rest <- gather (w_msb w) (-1) r; Ok ((if a + 1 <? w_lsb w then [DUndef (a - w_lsb w - 1)] else []) ++ DTerm (w_held w) :: rest).
Proof. reflexivity. Qed.
Lemma gather_row x ai W : forall l s, row s W l -> gather (s - 1) (-1) (map (write_bind x ai) l) = Ok (map (fun w => DTerm (w_held w)) l).
Proof.
  induction l as [|w l IH]; intros s H; [reflexivity|]. destruct H as (L & M & R). cbn [map]. rewrite gather_step. pose proof (IH _ R) as K. replace (w_msb w + 1 - 1) with (w_msb w) in K by lia. rewrite K. cbn [bind].
  replace (s - 1 + 1 <? w_lsb w) with false by (symmetry; apply Z.ltb_ge; lia). reflexivity.
Qed.
Lemma row_bits value W x : forall l s, row s W l -> 0 <= s -> Forall (holds_width value) l -> 
  Z.of_nat (length (concat (map (fun w => value (DTerm (w_held w))) l))) = W - s /\
  forall i, s <= i < W -> nth (Z.to_nat (i - s)) (concat (map (fun w => value (DTerm (w_held w))) l)) false = held value l x i.
Proof.
  induction l as [|w l IH]; intros s H Hs HW; cbn [row map concat held] in *; [split; [cbn; lia|intros; lia]|]. destruct H as (L & M & R). inversion HW as [|? ? W1 W2]; subst. destruct (IH _ R ltac:(lia) W2) as [K1 K2]. unfold holds_width in W1.
  rewrite app_length. split; [lia|]. intros i Hi. destruct (covers w i) eqn:C.
  - apply covers_iff in C. rewrite app_nth1 by lia. reflexivity.
  - assert (w_msb w < i) by (destruct (Z.ltb_spec (w_msb w) i); [assumption|exfalso; assert (covers w i = true) by (apply covers_iff; lia); congruence]). rewrite app_nth2 by lia.
    rewrite <- K2 by lia. f_equal. lia.
Qed.
Lemma held_perm value x i l l' : Permutation l l' -> ForallOrdPairs apart l -> held value l x i = held value l' x i.
Proof.
  intros P. induction P as [|a l l' P IH|a b l|l l1 l2 P1 IH1 P2 IH2]; intros H; auto.
  - inversion H as [|? ? A B]; subst. cbn [held]. now rewrite IH.
  - inversion H as [|? ? A B]; subst. inversion A as [|? ? A1 A2]; subst. cbn [held]. destruct (covers a i) eqn:Ca, (covers b i) eqn:Cb; auto. apply covers_iff in Ca, Cb. unfold apart in A1. lia.
  - rewrite IH1 by assumption. apply IH2. apply (pairs_in apart l); auto. unfold apart. intros; lia.
Qed.

(** ** reading *)
Lemma tile_sorted W E : tidy_entries W E -> (forall i, 0 <= i < W -> exists w, In w E /\ covers w i = true) -> 0 <= W -> row 0 W (sortw E).
Proof.
  intros [H1 H2] HC HW. pose proof (Permutation_sym (sort_perm E)) as P. apply row_of; auto using sort_sorted.
  - apply (pairs_in apart E); auto. unfold apart. intros; lia.
  - apply (Permutation_Forall P). exact H1.
  - intros i Hi. destruct (HC i Hi) as (w & A & B). exists w. split; [exact (Permutation_in _ P A)|exact B].
Qed.
Lemma fop_in (R : write -> write -> Prop) l : ForallOrdPairs R l -> forall u w, In u l -> In w l -> u = w \/ R u w \/ R w u.
Proof.
  induction 1 as [|a l Ha Hl IH]; intros u w Hu Hw; [destruct Hu|]. rewrite Forall_forall in Ha. destruct Hu as [<-|Hu], Hw as [<-|Hw]; auto.
Qed.
Section Read.
  Variables (opt : df -> res df) (tm tl : df) (W : Z) (x : chain) (ai : option alwaysinfo).
  Hypothesis Hopt : forall z, opt (num z) = Ok (num z).
  Hypothesis Hm : opt tm = Ok (num (W - 1)).
  Hypothesis Hl : opt tl = Ok (num 0).
  Hypothesis HW : 0 < W.
  Lemma key_of w : bindkey opt tm tl (write_bind x ai w) = Ok (w_lsb w).
  Proof. unfold bindkey. cbn [write_bind b_lsb b_ptr value_or value_of num ptr_or bind]. rewrite Hm. cbn [bind value_of num]. rewrite Hl. cbn [bind value_of num]. reflexivity. Qed.
  Lemma keys_of E : mapM (fun b => do key <- bindkey opt tm tl b; Ok (key, b)) (map (write_bind x ai) E) = Ok (map (fun w => (w_lsb w, write_bind x ai w)) E).
  Proof. induction E as [|w E IH]; [reflexivity|]. cbn [map mapM]. rewrite key_of. cbn [bind]. rewrite IH. reflexivity. Qed.
  Lemma merged E : row 0 W (sortw E) -> getMergedTree opt tm tl (map (write_bind x ai) E) = Ok (DConcat (rev (map (fun w => DTerm (w_held w)) (sortw E)))).
  Proof. intros R. unfold getMergedTree. rewrite keys_of. cbn [bind]. rewrite by_key_sort. change (-1) with (0 - 1) at 1. rewrite (gather_row x ai W _ 0 R). reflexivity. Qed.
  Lemma fits_step all w r : fits opt tm tl (num (W - 1)) (num 0) all (write_bind x ai w :: r) =
    if (w_msb w =? W - 1) && (w_lsb w =? 0) then Ok (DTerm (w_held w)) else fits opt tm tl (num (W - 1)) (num 0) all r.
  Proof.
    cbn [fits]. change (is_none (b_msb (write_bind x ai w)) && is_none (b_lsb (write_bind x ai w))) with false. cbn iota.
    change (b_msb (write_bind x ai w)) with (num (w_msb w)). change (b_lsb (write_bind x ai w)) with (num (w_lsb w)). rewrite !Hopt. cbn [bind]. rewrite num_eq. cbn [bind]. destruct (w_msb w =? W - 1); cbn [bind andb]; [|reflexivity].
    rewrite num_eq. cbn [bind]. destruct (w_lsb w =? 0); reflexivity.
  Qed.
  Lemma fits_cases all : forall E, (exists w, In w E /\ w_msb w = W - 1 /\ w_lsb w = 0 /\ fits opt tm tl (num (W - 1)) (num 0) all (map (write_bind x ai) E) = Ok (DTerm (w_held w))) \/
    fits opt tm tl (num (W - 1)) (num 0) all (map (write_bind x ai) E) = getMergedTree opt tm tl all.
  Proof.
    induction E as [|w E IH]; [right; reflexivity|]. cbn [map]. rewrite fits_step. destruct ((w_msb w =? W - 1) && (w_lsb w =? 0)) eqn:Q.
    - apply andb_true_iff in Q as [Q1 Q2]. apply Z.eqb_eq in Q1, Q2. left. exists w. cbn. auto.
    - destruct IH as [(u & A & B & C & D)|D]; [left; exists u; cbn; auto|right; exact D].
  Qed.
  Lemma replace_terms n l : replaceUndefined (DConcat (map DTerm l)) n = Ok (DConcat (map DTerm l)).
  Proof. cbn [replaceUndefined]. assert (E : mapM (fun t => replaceUndefined t n) (map DTerm l) = Ok (map DTerm l)) by (induction l as [|a l IH]; [reflexivity|]; cbn [map mapM replaceUndefined bind]; now rewrite IH). now rewrite E. Qed.
  Lemma read_bits n ws : tiling W ws -> exists t, read_after opt tm tl n (map (write_bind x ai) ws) = Ok t /\
    forall value f, concatenates value -> (forall w, In w ws -> holds_width value w) ->
      Z.of_nat (length (value t)) = W /\ forall i, 0 <= i < W -> nth (Z.to_nat i) (value t) false = written value ws f i.
  Proof.
    intros (T1 & T2 & T3). unfold read_after. change (@nil bind_) with (map (write_bind x ai) []). rewrite notes_upds. cbn [bind]. 
    destruct (upds_ok W ws [] (conj (Forall_nil _) (FOP_nil _)) T1 ltac:(intros u w []) T2) as (K1 & K2 & K3 & K4). set (E := upds [] ws) in *.
    assert (HC : forall i, 0 <= i < W -> exists w, In w E /\ covers w i = true).
    { intros i Hi. destruct (T3 i Hi) as (w & A & B). destruct (K3 w (or_intror A)) as (u & U1 & U2 & U3). exists u. split; [exact U1|]. unfold covers in *. now rewrite U2, U3. }
    assert (HR : row 0 W (sortw E)) by (apply tile_sorted; auto; lia).
    assert (NE : E <> []) by (intros ->; destruct (HC 0 ltac:(lia)) as (? & [] & _)).
    assert (HV : forall value f, forall i, held value E f i = written value ws f i) by (intros value f i; exact (upds_held W value i ws [] f (conj (Forall_nil _) (FOP_nil _)) T1 ltac:(intros u w []) T2)).
    assert (HK : forall u, In u E -> In u ws).
    { assert (G : forall ws E, (forall u w, In u E -> In w ws -> same_or_apart u w) -> (forall u w, In u ws -> In w ws -> same_or_apart u w) -> Forall (inside W) E -> Forall (inside W) ws -> forall u, In u (upds E ws) -> In u E \/ In u ws).
      { clear. induction ws as [|w ws IH]; intros E HA HB HE HI u Hu; cbn [upds fold_left] in Hu; [auto|]. pose proof (Forall_inv HI) as Iw. pose proof (Forall_inv_tail HI) as Iws.
        assert (U : forall v, In v (upd E w) -> v = w \/ In v E).
        { assert (S : forall u, In u E -> same_or_apart u w) by (intros v Hv; apply HA; cbn; auto). clear - S HE Iw. induction E as [|a E IH]; cbn [upd]; intros v Hv; [destruct Hv as [<-|[]]; auto|]. pose proof (Forall_inv HE) as Ia. destruct (w_msb a =? w_msb w) eqn:Q.
          - destruct Hv as [<-|Hv]; [|cbn; auto]. left. apply Z.eqb_eq in Q. destruct (S a (or_introl eq_refl)) as [[A B]|A]; [rewrite A, B; destruct w; reflexivity|unfold inside in *; lia].
          - destruct Hv as [<-|Hv]; [cbn; auto|]. destruct (IH (Forall_inv_tail HE) (fun u H => S u (or_intror H)) v Hv); cbn; auto. }
        fold (upds (upd E w) ws) in Hu. destruct (IH (upd E w)) with (u := u) as [H|H]; auto.
        - intros v y Hv Hy. destruct (U v Hv) as [->|H]; [apply HB; cbn; auto|apply HA; cbn; auto].
        - intros v y Hv Hy. apply HB; cbn; auto.
        - apply Forall_forall. intros v Hv. rewrite Forall_forall in HE. destruct (U v Hv) as [->|H]; auto.
        - destruct (U u H) as [->|H']; cbn; auto.
        - cbn; auto. }
      intros u Hu. destruct (G ws [] ltac:(intros ? ? []) T2 (Forall_nil _) T1 u Hu) as [[]|H]; exact H. }
    assert (RB : forall value f, (forall w, In w ws -> holds_width value w) -> Z.of_nat (length (concat (map (fun w => value (DTerm (w_held w))) (sortw E)))) = W /\
       forall i, 0 <= i < W -> nth (Z.to_nat i) (concat (map (fun w => value (DTerm (w_held w))) (sortw E))) false = written value ws f i).
    { intros value f Hwd. destruct (row_bits value W f (sortw E) 0 HR ltac:(lia)) as [L N].
      - apply (Permutation_Forall (Permutation_sym (sort_perm E))). apply Forall_forall. auto.
      - split; [lia|]. intros i Hi. specialize (N i Hi). rewrite Z.sub_0_r in N. rewrite N, <- HV. symmetry. apply held_perm; [exact (Permutation_sym (sort_perm E))|exact (proj2 K1)]. }
    destruct (map (write_bind x ai) E) as [|b0 bs] eqn:EB; [destruct E; [congruence|discriminate]|]. rewrite <- EB. unfold removeOverwrapped, getFitTree. rewrite Hm. cbn [bind]. rewrite Hl. cbn [bind].
    destruct (fits_cases (map (write_bind x ai) E) E) as [(w & A & B & C & ->)| ->].
    - exists (DTerm (w_held w)). split; [reflexivity|]. intros value f Hc Hwd. specialize (RB value f Hwd).
      assert (sortw E = [w]) as SE.
      { assert (forall u, In u (sortw E) -> u = w) as U.
        { intros u Hu. pose proof (Permutation_in _ (sort_perm E) Hu) as Hu'. destruct (fop_in apart E (proj2 K1) u w Hu' A) as [H|H]; [exact H|]. pose proof (proj1 K1) as I1. rewrite Forall_forall in I1. specialize (I1 u Hu'). unfold inside, apart in *. lia. }
        destruct (sortw E) as [|a [|b r]] eqn:S; [destruct HR; lia| |].
        - now rewrite (U a (or_introl eq_refl)).
        - pose proof (U a (or_introl eq_refl)) as ->. pose proof (U b (or_intror (or_introl eq_refl))) as ->. destruct HR as (R1 & R2 & R3 & R4 & _). lia. }
      rewrite SE in RB. cbn [map concat] in RB. rewrite app_nil_r in RB. exact RB.
    - rewrite (merged E HR). cbn [bind diffBranchTree fst]. rewrite <- (map_map w_held DTerm), <- map_rev. exists (DConcat (map DTerm (rev (map w_held (sortw E))))). split; [apply replace_terms|]. intros value f Hc Hwd.
      rewrite Hc, <- map_rev, rev_involutive, !map_map. exact (RB value f Hwd).
  Qed.
End Read.
