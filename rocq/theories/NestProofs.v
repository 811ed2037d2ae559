(** NestProofs.v - reads in nested blocks. *)
From Verif Require Import Base ScopeModel DfModel DfSpec DfProofs ReorderModel BindModel BindSpec BindProofs AsgModel AsgSpec PartsModel WordModel WordSpec WordProofs NestModel NestSpec.
Local Open Scope list_scope.

Definition binds (m : chain) (ai : option alwaysinfo) (s : list (list word_write)) : list (list bind_) := map (map (word_bind m ai)) s.
Definition before (s : list (list word_write)) : list word_write := concat (rev s).
Definition busy (c : list word_write) : bool := match c with [] => false | _ => true end.
Lemma nearest_map m ai s : exists c, nearest (binds m ai s) = map (word_bind m ai) c /\ (c = [] \/ In c s).
Proof. induction s as [|[|w c] s (c' & E & H)]; cbn; [exists []; auto|exists c'; split; [exact E|]; intuition|exists (w :: c); auto]. Qed.
Lemma idle_before s : length (filter (fun b => b) (map busy s)) = 0%nat -> before s = [].
Proof. unfold before. induction s as [|[|w c] s IH]; cbn; intros H; [reflexivity| |discriminate]. rewrite concat_app, IH; auto. Qed.
Lemma nearest_sole m ai s : (length (filter (fun b => b) (map busy s)) <= 1)%nat -> nearest (binds m ai s) = map (word_bind m ai) (before s).
Proof.
  induction s as [|[|w c] s IH]; cbn [binds map nearest busy filter length]; intros H; [reflexivity| |].
  - unfold before. cbn [rev]. rewrite concat_app. cbn. rewrite app_nil_r. exact (IH H).
  - unfold before. cbn [rev]. rewrite concat_app. fold (before s). rewrite (idle_before s) by lia. cbn. rewrite app_nil_r. reflexivity.
Qed.
Lemma wupds_new : forall ws E, NoDup (map k_index (E ++ ws)) -> wupds E ws = E ++ ws.
Proof.
  induction ws as [|w ws IH]; intros E H; cbn [wupds fold_left]; [now rewrite app_nil_r|]. fold (wupds (wupd E w) ws). rewrite wupd_new.
  - rewrite IH; rewrite <- app_assoc; [reflexivity|exact H].
  - rewrite map_app in H. apply NoDup_remove_2 in H. intros K. apply H. rewrite in_app_iff. now left.
Qed.
Lemma before_cons c s : before (c :: s) = before s ++ c.
Proof. unfold before. cbn [rev]. rewrite concat_app. cbn. now rewrite app_nil_r. Qed.
Definition all_ok (s : list (list word_write)) : Prop := Forall ok_writes s.
Lemma ok_before s : all_ok s -> ok_writes (before s).
Proof. induction 1 as [|c s Hc Hs IH]; [constructor|]. rewrite before_cons. apply Forall_app; auto. Qed.
Lemma nodup_app_r {A} (l r : list A) : NoDup (l ++ r) -> NoDup r.
Proof. induction l as [|a l IH]; cbn; intros H; [exact H|]. inversion H; auto. Qed.

(** ** index expressions that are used again *)
Lemma same_write u w : k_index u = k_index w -> WordWrite (k_index u) (k_held w) = w.
Proof. destruct w as [i h]. cbn. now intros ->. Qed.
Lemma in_wupd E w i : In i (map k_index (wupd E w)) <-> i = k_index w \/ In i (map k_index E).
Proof. induction E as [|u E IH]; cbn [wupd map]; [cbn; intuition|]. destruct (df_dec (k_index u) (k_index w)) as [Q|Q]; cbn [map k_index]; cbn; [rewrite Q; intuition|rewrite IH; intuition]. Qed.
Lemma wupd_twice E u w : k_index u = k_index w -> wupd (wupd E u) w = wupd E w.
Proof.
  intros Q. induction E as [|x E IH]; cbn [wupd].
  - destruct (df_dec (k_index u) (k_index w)); [|contradiction]. now rewrite same_write.
  - destruct (df_dec (k_index x) (k_index u)) as [A|A], (df_dec (k_index x) (k_index w)) as [B|B]; try congruence; cbn [wupd k_index k_held].
    + destruct (df_dec (k_index x) (k_index w)); [reflexivity|contradiction].
    + destruct (df_dec (k_index x) (k_index w)); [contradiction|]. now rewrite IH.
Qed.
Lemma wupd_swap E x w : k_index x <> k_index w -> In (k_index w) (map k_index E) -> wupd (wupd E x) w = wupd (wupd E w) x.
Proof.
  intros N. induction E as [|u E IH]; cbn [wupd map]; intros H; [destruct H|].
  destruct (df_dec (k_index u) (k_index x)) as [A|A], (df_dec (k_index u) (k_index w)) as [B|B]; try congruence; cbn [wupd k_index k_held].
  - destruct (df_dec (k_index u) (k_index w)); [congruence|]. destruct (df_dec (k_index u) (k_index x)); [reflexivity|contradiction].
  - destruct (df_dec (k_index u) (k_index w)); [|contradiction]. destruct (df_dec (k_index u) (k_index x)); [contradiction|reflexivity].
  - destruct (df_dec (k_index u) (k_index w)); [contradiction|]. destruct (df_dec (k_index u) (k_index x)); [contradiction|]. rewrite IH; [reflexivity|]. destruct H; [contradiction|assumption].
Qed.
Lemma wupd_over : forall r E w, ~ In (k_index w) (map k_index r) -> In (k_index w) (map k_index E) -> wupd (wupds E r) w = wupds (wupd E w) r.
Proof.
  induction r as [|x r IH]; intros E w N H; [reflexivity|]. cbn [wupds fold_left]. fold (wupds (wupd E x) r). fold (wupds (wupd (wupd E w) x) r). cbn [map] in N. rewrite IH.
  - rewrite wupd_swap; [reflexivity| |exact H]. intros K. apply N. now left.
  - intros K. apply N. now right.
  - apply in_wupd. now right.
Qed.
Lemma wupds_wupd : forall F E w, NoDup (map k_index F) -> wupds E (wupd F w) = wupd (wupds E F) w.
Proof.
  induction F as [|u F IH]; intros E w HD; [reflexivity|]. cbn [wupd]. cbn [map] in HD. inversion HD as [|? ? D1 D2]; subst. destruct (df_dec (k_index u) (k_index w)) as [Q|Q].
  - rewrite same_write by exact Q. cbn [wupds fold_left]. fold (wupds (wupd E w) F). fold (wupds (wupd E u) F). rewrite wupd_over.
    + now rewrite wupd_twice.
    + now rewrite <- Q.
    + apply in_wupd. now left.
  - cbn [wupds fold_left]. fold (wupds (wupd E u) (wupd F w)). fold (wupds (wupd E u) F). now apply IH.
Qed.
Lemma wupds_app E ws xs : wupds E (ws ++ xs) = wupds (wupds E ws) xs.
Proof. apply fold_left_app. Qed.
Lemma wupds_nodup : forall ws E, NoDup (map k_index E) -> NoDup (map k_index (wupds E ws)).
Proof. induction ws as [|w ws IH]; intros E H; [exact H|]. cbn [wupds fold_left]. apply IH. now apply (wupd_keys E w). Qed.
Lemma wupds_short E ws : wupds E (wupds [] ws) = wupds E ws.
Proof.
  induction ws as [|w ws IH] using rev_ind; [reflexivity|]. rewrite !wupds_app. change (wupds (wupds [] ws) [w]) with (wupd (wupds [] ws) w). change (wupds (wupds E ws) [w]) with (wupd (wupds E ws) w).
  rewrite wupds_wupd by (apply wupds_nodup; constructor). now rewrite IH.
Qed.
(** The entries of frames with these assignments. *)
Definition entries (s : list (list word_write)) : list (list word_write) := map (wupds []) s.
Lemma busy_entries s : map busy (entries s) = map busy s.
Proof.
  unfold entries. rewrite map_map. apply map_ext. intros [|w c]; [reflexivity|]. cbn [wupds fold_left wupd busy]. change (busy (wupds [w] c) = true).
  assert (H : In (k_index w) (map k_index (wupds [w] c))). { clear. assert (K : In (k_index w) (map k_index [w])) by (now left). revert K. generalize [w]. induction c as [|u c IH]; intros E K; [exact K|]. cbn [wupds fold_left]. apply IH. apply in_wupd. now right. }
  destruct (wupds [w] c); [destruct H|reflexivity].
Qed.
Lemma entries_ok s : all_ok s -> all_ok (entries s).
Proof.
  intros H. unfold all_ok, entries. rewrite Forall_map. unfold all_ok in H. rewrite Forall_forall in *. intros c Hc. specialize (H c Hc). apply (wnotes [] None c []); [constructor|exact H].
Qed.
Lemma before_entries s : (length (filter (fun b => b) (map busy s)) <= 1)%nat -> before (entries s) = wupds [] (before s).
Proof.
  induction s as [|c s IH]; intros H; [reflexivity|]. cbn [entries map]. fold (entries s). rewrite !before_cons. destruct c as [|w c]; cbn [map busy filter] in H.
  - cbn [wupds fold_left]. rewrite !app_nil_r. now apply IH.
  - cbn [length] in H. rewrite (idle_before s) by lia. rewrite (idle_before (entries s)); [reflexivity|]. rewrite busy_entries. lia.
Qed.
Lemma undisturbed_prefix I ws xs p : undisturbed I (ws ++ xs) p -> undisturbed I ws p.
Proof. intros H i w (pre & u & post & -> & <- & Hi) Hw. apply H; [|now rewrite in_app_iff; left]. exists pre, u, (post ++ xs). split; [now rewrite <- app_assoc|auto]. Qed.

Lemma run_right m ai : forall l s, all_ok s -> ok_writes (puts l) -> s <> [] -> balanced (pred (length s)) l -> sole (map busy s) l ->
  exists ts, run m (binds m ai (entries s)) (map (to_bind m ai) l) = Ok ts /\
    forall I, (forall p, In (ELook p) l -> undisturbed I (before s ++ puts l) p) -> map (eval I) ts = answers I m (before s) l.
Proof.
  induction l as [|[| |w|p] l IH]; intros s HO HP Hs HB HS; cbn [map to_bind run puts balanced sole answers] in *.
  - exists []. auto.
  - destruct (IH ([] :: s)) as (ts & E1 & E2); auto.
    + constructor; [constructor|exact HO].
    + discriminate.
    + cbn. destruct s; [congruence|exact HB].
    + exists ts. split; [exact E1|]. intros I HU. rewrite before_cons, app_nil_r in E2. apply E2. intros p Hp. apply HU. now right.
  - destruct s as [|c [|d s]]; cbn [length pred map] in *; [congruence|destruct HB|]. cbn [binds entries map]. fold (entries s). fold (binds m ai (entries s)).
    pose proof (entries_ok _ HO) as HE. cbn [entries map] in HE.
    destruct (wnotes m ai (wupds [] c) (wupds [] d) (Forall_inv (Forall_inv_tail HE)) (Forall_inv HE)) as [E1 K]. rewrite E1. cbn [bind]. rewrite wupds_short, <- wupds_app.
    destruct (IH ((d ++ c) :: s)) as (ts & E2 & E3); auto.
    + constructor; [apply Forall_app; split; [exact (Forall_inv (Forall_inv_tail HO))|exact (Forall_inv HO)]|exact (Forall_inv_tail (Forall_inv_tail HO))].
    + discriminate.
    + cbn [map]. replace (busy (d ++ c)) with (busy c || busy d)%bool; [exact HS|]. destruct d, c; reflexivity.
    + exists ts. split; [exact E2|]. intros I HU. rewrite !before_cons in *. rewrite app_assoc in E3. apply E3. intros p Hp. apply HU. now right.
  - destruct s as [|c s]; [congruence|]. cbn [binds entries map]. fold (entries s). fold (binds m ai (entries s)). pose proof (entries_ok _ HO) as HE. cbn [entries map] in HE.
    destruct (wnote m ai (wupds [] c) w (Forall_inv HE) (Forall_inv HP)) as [E1 K]. rewrite E1. cbn [bind]. change (wupd (wupds [] c) w) with (wupds (wupds [] c) [w]). rewrite <- wupds_app.
    destruct (IH ((c ++ [w]) :: s)) as (ts & E2 & E3); auto.
    + constructor; [apply Forall_app; split; [exact (Forall_inv HO)|constructor; [exact (Forall_inv HP)|constructor]]|exact (Forall_inv_tail HO)].
    + exact (Forall_inv_tail HP).
    + discriminate.
    + cbn [map]. replace (busy (c ++ [w])) with true; [exact HS|]. destruct c; reflexivity.
    + exists ts. split; [exact E2|]. intros I HU. rewrite !before_cons in *. rewrite app_assoc in E3. apply E3. intros p Hp. rewrite <- app_assoc. cbn [app]. apply HU. now right.
  - destruct HB as [Hp HB], HS as [H1 HS]. rewrite (nearest_sole m ai (entries s)) by (rewrite busy_entries; exact H1). rewrite before_entries by exact H1.
    assert (K : ok_writes (wupds [] (before s))). { apply (wnotes [] None (before s) []); [constructor|exact (ok_before s HO)]. }
    destruct (over_ok m ai p Hp _ (DPtr (DTerm m) p) K) as (t & E1 & E2).
    unfold read_word. rewrite E1. cbn [bind]. destruct (IH s HO HP Hs HB HS) as (ts & E3 & E4). rewrite E3. cbn [bind]. exists (t :: ts). split; [reflexivity|].
    intros I HU. cbn [map]. rewrite E2, E4.
    + f_equal. apply (wupds_value I p (before s) [] []); [constructor|reflexivity| |reflexivity]. apply (undisturbed_prefix I _ (puts l)). apply HU. now left.
    + intros q Hq. apply HU. now right.
Qed.
(** Every read of every balanced block gets a tree. *)
Lemma run_total m ai : forall l s, all_ok s -> ok_writes (puts l) -> s <> [] -> balanced (pred (length s)) l ->
  exists ts, run m (binds m ai s) (map (to_bind m ai) l) = Ok ts /\ length ts = length (filter (fun e => match e with ELook _ => true | _ => false end) l).
Proof.
  induction l as [|[| |w|p] l IH]; intros s HO HP Hs HB; cbn [map to_bind run puts balanced filter] in *.
  - exists []. auto.
  - apply (IH ([] :: s)); auto; [constructor; [constructor|exact HO]|discriminate|cbn; destruct s; [congruence|exact HB]].
  - destruct s as [|c [|d s]]; cbn [length pred map] in *; [congruence|destruct HB|]. cbn [binds map] in *. fold (binds m ai s).
    destruct (wnotes m ai c d (Forall_inv (Forall_inv_tail HO)) (Forall_inv HO)) as [E1 K]. rewrite E1. cbn [bind].
    apply (IH (wupds d c :: s)); auto; [constructor; [exact K|exact (Forall_inv_tail (Forall_inv_tail HO))]|discriminate].
  - destruct s as [|c s]; [congruence|]. cbn [binds map] in *. fold (binds m ai s). destruct (wnote m ai c w (Forall_inv HO) (Forall_inv HP)) as [E1 K]. rewrite E1. cbn [bind].
    apply (IH (wupd c w :: s)); auto; [constructor; [exact K|exact (Forall_inv_tail HO)]|exact (Forall_inv_tail HP)|discriminate].
  - destruct HB as [Hp HB]. destruct (nearest_map m ai s) as (c & Ec & Hc). rewrite Ec.
    assert (Kc : ok_writes c). { destruct Hc as [->|Hc]; [constructor|]. unfold all_ok in HO. rewrite Forall_forall in HO. now apply HO. }
    destruct (over_ok m ai p Hp c (DPtr (DTerm m) p) Kc) as (t & E1 & _). unfold read_word. rewrite E1. cbn [bind]. destruct (IH s HO HP Hs HB) as (ts & E3 & E4). rewrite E3. cbn [bind]. exists (t :: ts). cbn. auto.
Qed.
