(** WordProofs.v - reading words of memories. *)
From Verif Require Import Base ScopeModel DfModel DfSpec DfProofs ReorderModel BindModel BindSpec BindProofs AsgModel AsgSpec PartsModel WordModel WordSpec.
Local Open Scope list_scope.

Fixpoint wupd (E : list word_write) (w : word_write) : list word_write :=
  match E with [] => [w] | u :: r => if df_dec (k_index u) (k_index w) then WordWrite (k_index u) (k_held w) :: r else u :: wupd r w end.
Lemma wtarget m ai u w : index_ok (k_index u) -> index_ok (k_index w) -> same_target (word_bind m ai u) (word_bind m ai w) = Ok (if df_dec (k_index u) (k_index w) then true else false).
Proof.
  intros [_ Hu] [_ Hw]. unfold same_target. cbn [word_bind b_msb b_ptr df_eq bind]. destruct (df_dec (k_index u) (k_index w)) as [E|N]; [exact (proj2 (df_eq_plain_iff _ _ Hu Hw) E)|].
  destruct (df_eq_plain _ _ Hu Hw) as [E|E]; [exfalso; apply N; exact (proj1 (df_eq_plain_iff _ _ Hu Hw) E)|exact E].
Qed.
Definition ok_writes (E : list word_write) : Prop := Forall (fun w => index_ok (k_index w)) E.
Lemma wnote m ai E w : ok_writes E -> index_ok (k_index w) -> note (map (word_bind m ai) E) (word_bind m ai w) = Ok (map (word_bind m ai) (wupd E w)) /\ ok_writes (wupd E w).
Proof.
  intros HE Hw. induction HE as [|u E Hu HE [IH1 IH2]]; cbn [map note wupd]; [split; [reflexivity|constructor; [exact Hw|constructor]]|].
  rewrite (wtarget m ai u w Hu Hw). cbn [bind]. destruct (df_dec (k_index u) (k_index w)); cbn [map].
  - split; [reflexivity|]. constructor; [exact Hu|exact HE].
  - rewrite IH1. cbn [bind]. split; [reflexivity|]. constructor; [exact Hu|exact IH2].
Qed.
Definition wupds (E ws : list word_write) : list word_write := fold_left wupd ws E.
Lemma wnotes m ai : forall ws E, ok_writes E -> ok_writes ws -> notes (map (word_bind m ai) E) (map (word_bind m ai) ws) = Ok (map (word_bind m ai) (wupds E ws)) /\ ok_writes (wupds E ws).
Proof.
  induction ws as [|w ws IH]; intros E HE Hws; cbn [notes map wupds fold_left]; [auto|]. destruct (wnote m ai E w HE (Forall_inv Hws)) as [-> K]. cbn [bind]. exact (IH _ K (Forall_inv_tail Hws)).
Qed.
Lemma over_ok m ai p : p <> DNone -> forall E t, ok_writes E -> exists t', over_binds t (map (word_bind m ai) E) p = Ok t' /\ forall I, eval I t' = word_value I E p (eval I t).
Proof.
  intros Hp. assert (Np : is_none p = false) by (destruct p; [congruence|reflexivity..]). induction E as [|w E IH]; intros t HE; cbn [map over_binds]; [exists t; auto|].
  destruct (Forall_inv HE) as [Hn _]. assert (Nw : is_none (k_index w) = false) by (destruct (k_index w); [congruence|reflexivity..]).
  unfold mkOp. cbn [existsb word_bind b_ptr b_tree]. rewrite Nw, Np. cbn [orb bind]. destruct (IH (DBranch (DOp [k_index w; p] Eq) (DTerm (k_held w)) t) (Forall_inv_tail HE)) as (t' & E1 & E2). exists t'. split; [exact E1|]. intros I. rewrite E2. reflexivity.
Qed.

(** ** the entries say what the assignments say *)
Section Value.
  Variables (I : interp) (p : df).
  Lemma value_miss E v : (forall w, In w E -> hits I (k_index w) p = false) -> word_value I E p v = v.
  Proof. revert v. induction E as [|w E IH]; cbn [word_value]; intros v H; [reflexivity|]. rewrite (H w (or_introl eq_refl)). apply IH. intros u Hu. apply H. now right. Qed.
  Lemma value_snoc E w v : word_value I (E ++ [w]) p v = if hits I (k_index w) p then i_term I (k_held w) else word_value I E p v.
  Proof. revert v. induction E as [|u E IH]; cbn [app word_value]; intros v; [reflexivity|]. apply IH. Qed.
  Lemma wupd_new E w : ~ In (k_index w) (map k_index E) -> wupd E w = E ++ [w].
  Proof. induction E as [|u E IH]; cbn [wupd map app]; intros H; [reflexivity|]. destruct (df_dec (k_index u) (k_index w)) as [Q|Q]; [exfalso; apply H; left; exact Q|]. rewrite IH; [reflexivity|]. intros K. apply H. now right. Qed.
  Lemma wupd_old E w v : NoDup (map k_index E) -> In (k_index w) (map k_index E) -> (hits I (k_index w) p = true -> forall u, In u E -> k_index u <> k_index w -> hits I (k_index u) p = false) ->
    word_value I (wupd E w) p v = if hits I (k_index w) p then i_term I (k_held w) else word_value I E p v.
  Proof.
    revert v. induction E as [|u E IH]; cbn [wupd map word_value]; intros v HD Hin HC; [destruct Hin|]. inversion HD as [|? ? D1 D2]; subst. destruct (df_dec (k_index u) (k_index w)) as [Q|Q]; cbn [word_value k_index k_held].
    - destruct (hits I (k_index w) p) eqn:H; rewrite Q, H; [|reflexivity]. apply value_miss. intros z Hz. apply (HC eq_refl z (or_intror Hz)). intros K. apply D1. rewrite Q, <- K. now apply in_map.
    - destruct Hin as [K|Hin]; [congruence|]. rewrite IH; auto.
      intros H z Hz. apply (HC H). now right.
  Qed.
  Lemma wupd_keys E w : NoDup (map k_index E) -> NoDup (map k_index (wupd E w)) /\ forall i, In i (map k_index (wupd E w)) <-> i = k_index w \/ In i (map k_index E).
  Proof.
    induction E as [|u E IH]; cbn [wupd map]; intros HD; [split; [repeat constructor; intros []|intros i; cbn; intuition]|]. inversion HD as [|? ? D1 D2]; subst. destruct (IH D2) as [K1 K2]. destruct (df_dec (k_index u) (k_index w)) as [Q|Q]; cbn [map k_index].
    - split; [exact HD|]. intros i. cbn. rewrite Q. intuition.
    - split; [constructor; [|exact K1]|]; [intros K; apply K2 in K as [K|K]; [congruence|contradiction]|]. intros i. cbn. rewrite K2. intuition.
  Qed.
  Lemma wupds_value : forall ws pre E v, NoDup (map k_index E) -> (forall i, In i (map k_index E) <-> In i (map k_index pre)) -> undisturbed I (pre ++ ws) p ->
    word_value I E p v = word_value I pre p v -> word_value I (wupds E ws) p v = word_value I (pre ++ ws) p v.
  Proof.
    induction ws as [|w ws IH]; intros pre E v HD HK HU HV; cbn [wupds fold_left]; [now rewrite app_nil_r|]. fold (wupds (wupd E w) ws). destruct (wupd_keys E w HD) as [K1 K2].
    replace (pre ++ w :: ws) with ((pre ++ [w]) ++ ws) in * by (rewrite <- app_assoc; reflexivity). apply IH; auto.
    - intros i. rewrite K2, map_app, in_app_iff, HK. cbn. intuition.
    - rewrite value_snoc, <- HV. destruct (in_dec df_dec (k_index w) (map k_index E)) as [Y|N].
      + apply wupd_old; auto. intros H u Hu Ne. apply (in_map k_index) in Hu. apply HK in Hu. apply in_map_iff in Hu as (u' & Q & Hu'). rewrite <- Q. apply (HU (k_index w) u'); auto.
        * exists pre, w, ws. split; [rewrite <- app_assoc; reflexivity|]. split; [reflexivity|]. now apply HK.
        * rewrite !in_app_iff. auto.
        * congruence.
      + rewrite (wupd_new E w N). apply value_snoc.
  Qed.
End Value.
