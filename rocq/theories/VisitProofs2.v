From Verif Require Import Base ScopeModel ScopeSpec ScopeProofs DfModel DfSpec DfProofs BindModel BindSpec BindProofs LitModel LitSpec LitProofs VisitModel VisitSpec VisitProofs.

(** ** Labels *)
Fixpoint all_digits (s : string) : bool := match s with EmptyString => true | String c r => VisitSpec.is_digit c && all_digits r end.
Lemma digits_py fuel : forall n acc, (0 <= n)%Z -> all_digits acc = true -> all_digits (dec_digits fuel n acc) = true.
Proof.
  induction fuel as [|k IH]; intros n acc Hn Ha; [exact Ha|]. cbn [dec_digits].
  assert (all_digits (String (LitModel.digit_char (n mod 10)) acc) = true) as K.
  { cbn [all_digits]. rewrite Ha, andb_true_r. pose proof (Z.mod_pos_bound n 10 ltac:(lia)) as H. revert H. generalize (n mod 10)%Z. intros d H.
    assert (d = 0 \/ d = 1 \/ d = 2 \/ d = 3 \/ d = 4 \/ d = 5 \/ d = 6 \/ d = 7 \/ d = 8 \/ d = 9)%Z as Hd by lia.
    repeat (destruct Hd as [->|Hd]; [reflexivity|]). now subst. }
  destruct (n <? 10)%Z; [exact K|]. apply IH; [apply Z.div_pos; lia|exact K].
Qed.
Lemma digits_end s s' : s <> EmptyString -> all_digits (s ++ s') = true -> ends_with_digit s = true.
Proof.
  induction s as [|c r IH]; [congruence|]. intros _ H. cbn [append all_digits] in H. apply andb_true_iff in H as [H1 H2]. cbn [ends_with_digit]. destruct r as [|c' r]; [exact H1|]. apply IH; [discriminate|exact H2].
Qed.
Lemma ends_cons c d r : ends_with_digit (String c (String d r)) = ends_with_digit (String d r).
Proof. reflexivity. Qed.
Lemma split_digits : forall n n' s s', ends_with_digit n = false -> ends_with_digit n' = false -> all_digits s = true -> all_digits s' = true ->
  (n ++ s)%string = (n' ++ s')%string -> n = n' /\ s = s'.
Proof.
  induction n as [|c r IH]; intros [|c' r'] s s' H1 H2 H3 H4 E; cbn [append] in E.
  - auto.
  - exfalso. assert (ends_with_digit (String c' r') = true) as K; [|congruence]. apply (digits_end _ s'); [discriminate|]. cbn [append]. now rewrite <- E.
  - exfalso. assert (ends_with_digit (String c r) = true) as K; [|congruence]. apply (digits_end _ s); [discriminate|]. cbn [append]. now rewrite E.
  - injection E as -> E. destruct (IH r' s s') as [-> ->]; auto.
    + destruct r; [reflexivity|exact H1].
    + destruct r'; [reflexivity|exact H2].
Qed.
Lemma py_str_inj n m : (0 <= n)%Z -> (0 <= m)%Z -> py_str_nat n = py_str_nat m -> n = m.
Proof.
  intros Hn Hm E. pose proof (int_eval_literal _ _ _ _ (lit_plain _ _ (py_str_nat_numeral n Hn))) as H1. pose proof (int_eval_literal _ _ _ _ (lit_plain _ _ (py_str_nat_numeral m Hm))) as H2. rewrite E in H1. congruence.
Qed.
Definition cnt (st : labels) (n : string) : Z := match sget st n with Some c => c | None => 0%Z end.
Definition counters_ok (st : labels) : Prop := forall n, (0 <= cnt st n)%Z.
Lemma cnt_get st n m : cnt (snd (labels_get st n)) m = if String.eqb n m then (cnt st n + 1)%Z else cnt st m.
Proof. unfold labels_get, cnt at 1. cbn [snd]. rewrite sget_sset. destruct (String.eqb n m); reflexivity. Qed.
Lemma counters_get st n : counters_ok st -> counters_ok (snd (labels_get st n)).
Proof. intros H m. rewrite cnt_get. destruct (String.eqb n m); [specialize (H n); lia|apply H]. Qed.
Lemma given_shape : forall names st x, counters_ok st -> In x (given st names) -> exists n c, In n names /\ (cnt st n <= c)%Z /\ (0 <= c)%Z /\ x = (n ++ py_str_nat c)%string.
Proof.
  induction names as [|n r IH]; intros st x HC; [intros []|]. cbn [given]. intros [<-|Hx].
  - exists n, (cnt st n). split; [left; reflexivity|]. split; [lia|]. split; [apply HC|reflexivity].
  - destruct (IH _ x (counters_get st n HC) Hx) as (m & c & H1 & H2 & H3 & H4). exists m, c. split; [right; exact H1|]. split; [|auto]. rewrite cnt_get in H2. destruct (String.eqb n m) eqn:E; [|exact H2]. apply String.eqb_eq in E. subst m. lia.
Qed.
Lemma given_fresh : forall names st, counters_ok st -> Forall (fun n => ends_with_digit n = false) names -> NoDup (given st names).
Proof.
  induction names as [|n r IH]; intros st HC HF; cbn [given]; [constructor|]. inversion HF as [|? ? Hn Hr]; subst. constructor; [|apply IH; auto using counters_get].
  intros Hin. destruct (given_shape r _ _ (counters_get st n HC) Hin) as (m & c & H1 & H2 & H3 & H4). cbn [labels_get fst] in H4.
  rewrite Forall_forall in Hr. apply split_digits in H4; auto; try (apply digits_py; [apply HC || auto|reflexivity]). destruct H4 as [<- E]. rewrite cnt_get, String.eqb_refl in H2. apply py_str_inj in E; [|apply HC|auto]. unfold cnt in *. lia.
Qed.

(** ** Assignments *)
Fixpoint put (l : list bind_) (b : bind_) : res (list bind_) :=
  match l with
  | [] => Ok [b]
  | c :: r => do e <- same_target c b; if e then Ok (set_tree c (b_tree b) :: r) else do r' <- put r b; Ok (c :: r')
  end.
Definition norm (b : bind_) : Prop := ordinary (b_msb b) /\ ordinary (b_ptr b).
Lemma df_eq_ordinary a b : ordinary a -> ordinary b -> exists e, df_eq a b = Ok e /\ (e = true <-> a = b).
Proof.
  intros [A1 A2] [B1 B2]. destruct (df_eq_ok a A1 b) as (e & E & _). exists e. split; [exact E|]. split; [intros ->; now apply df_eq_identity|]. intros ->. rewrite df_eq_refl in E by exact A1. congruence.
Qed.
Lemma same_target_ok c b : norm c -> norm b -> exists e, same_target c b = Ok e /\ (e = true <-> b_msb c = b_msb b /\ b_ptr c = b_ptr b).
Proof.
  intros [C1 C2] [B1 B2]. unfold same_target. destruct (df_eq_ordinary _ _ C1 B1) as (e & -> & HE). cbn [bind]. destruct e; cbn [bind].
  - destruct (df_eq_ordinary _ _ C2 B2) as (e' & -> & HE'). exists e'. split; [reflexivity|]. rewrite HE'. intuition.
  - exists false. split; [reflexivity|]. split; [discriminate|]. intros [K _]. apply HE in K. discriminate.
Qed.
Lemma put_ok l b : Forall norm l -> norm b -> exists l', put l b = Ok l' /\ Forall norm l'.
Proof.
  intros HL HB. induction HL as [|c r HC HR IH]; cbn [put]; [eauto|]. destruct (same_target_ok c b HC HB) as (e & -> & _). cbn [bind]. destruct e; [eexists; split; [reflexivity|]; constructor; auto|]. destruct IH as (l' & -> & HL'). cbn [bind]. eexists. split; [reflexivity|]. constructor; auto.
Qed.
(** What a sequence of [put]s records. *)
Fixpoint puts (l : list bind_) (bs : list bind_) : res (list bind_) := match bs with [] => Ok l | b :: r => do l' <- put l b; puts l' r end.
Lemma put_slices l b l' : Forall norm l -> norm b -> (forall a, In a l -> b_msb a = b_msb b -> b_ptr a = b_ptr b -> b_lsb a = b_lsb b) -> put l b = Ok l' ->
  (NoDup (map slice l) -> NoDup (map slice l')) /\ (forall x, In x (map slice l') <-> x = slice b \/ In x (map slice l)) /\
  (exists r, In r l' /\ slice r = slice b /\ b_tree r = b_tree b) /\
  (forall r, In r l -> slice r <> slice b -> In r l').
Proof.
  intros HL HB HN. revert l' HN. induction HL as [|c r HC HR IH]; intros l' HN E; cbn [put] in E.
  - injection E as <-. split; [intros _; repeat constructor; intros []|]. split; [intros x; cbn; intuition|]. split; [exists b; cbn; auto|intros r []].
  - destruct (same_target_ok c b HC HB) as (e & E1 & HE). rewrite E1 in E. cbn [bind] in E. destruct e.
    + injection E as <-. assert (b_msb c = b_msb b /\ b_ptr c = b_ptr b) as [K1 K2] by now apply HE. assert (slice c = slice b) as KS. { unfold slice. rewrite K1, K2, (HN c (or_introl eq_refl) K1 K2). reflexivity. }
      cbn [map]. change (slice (set_tree c (b_tree b))) with (slice c). split; [auto|]. split; [intros x; cbn; rewrite KS; intuition|]. split; [exists (set_tree c (b_tree b)); cbn; auto|]. intros x [<-|Hx] Hs; [contradiction|right; exact Hx].
    + apply bind_ok in E as (r' & E2 & E). injection E as <-. destruct (IH r' (fun a Ha => HN a (or_intror Ha)) E2) as (I1 & I2 & (x & I3 & I4) & I5).
      assert (slice c <> slice b) as NS. { intros K. unfold slice in K. injection K as K1 _ K3. assert (false = true) by (apply HE; auto). discriminate. }
      cbn [map]. split.
      * intros ND. inversion ND as [|? ? N1 N2]; subst. constructor; [|auto]. rewrite I2. intros [K|K]; auto.
      * split; [intros y; cbn; rewrite I2; intuition|]. split; [exists x; cbn; auto|]. intros y [<-|Hy] Hs; [left; reflexivity|right; auto].
Qed.
Lemma puts_last bs : forall l hist, Forall norm hist -> Forall norm l -> Forall norm bs -> nested_free (hist ++ bs) -> (forall r, In r l -> exists a, In a hist /\ slice a = slice r) -> last_assignments hist l ->
  exists l', puts l bs = Ok l' /\ last_assignments (hist ++ bs) l'.
Proof.
  induction bs as [|b r IH]; intros l hist HH HL HB HN HS HA; cbn [puts]; [rewrite app_nil_r; eauto|]. inversion HB as [|? ? B1 B2]; subst.
  destruct (put_ok l b HL B1) as (l1 & E1 & HL1). rewrite E1. cbn [bind].
  destruct (put_slices l b l1 HL B1) as (P1 & P2 & P3 & P4); [|exact E1|].
  { intros a Ha K1 K2. destruct (HS a Ha) as (a' & Ha' & Es). unfold slice in Es. injection Es as S1 S2 S3. rewrite <- S2. apply (HN a' b); [apply in_or_app; auto|apply in_or_app; right; left; reflexivity|congruence|congruence]. }
  replace (hist ++ b :: r) with ((hist ++ [b]) ++ r) in * by (rewrite <- app_assoc; reflexivity).
  apply IH; auto.
  - apply Forall_app. auto.
  - intros x Hx. assert (In (slice x) (map slice l1)) as Hx' by now apply in_map. apply P2 in Hx' as [Hx'|Hx']; [exists b; split; [apply in_or_app; right; left; reflexivity|auto]|]. apply in_map_iff in Hx' as (y & Ey & Hy). destruct (HS y Hy) as (a & Ha & Ea). exists a. split; [apply in_or_app; auto|congruence].
  - destruct HA as (A1 & A2 & A3). split; [auto|]. split.
    + intros x Hx. assert (In (slice x) (map slice l1)) as Hx' by now apply in_map. rewrite map_app, in_app_iff. apply P2 in Hx' as [Hx'|Hx']; [right; left; auto|left]. apply in_map_iff in Hx' as (y & Ey & Hy). rewrite <- Ey. auto.
    + intros h1 x h2 E Hl. destruct (exists_last (l := x :: h2)) as (h3 & z & E3); [discriminate|]. rewrite E3, app_assoc in E. apply app_inj_tail in E as [E <-]. destruct h3 as [|x' h3].
      * injection E3 as <- _. exact P3.
      * injection E3 as <- ->. rewrite map_app, in_app_iff in Hl. destruct (A3 h1 x h3 E) as (y & Y1 & Y2 & Y3); [tauto|]. exists y. split; [|auto]. apply P4; [exact Y1|]. rewrite Y2. intros K. apply Hl. right. left. auto.
Qed.

(** ** The heap *)
Lemma get_update h r x r' : (r < length h)%nat -> get (update h r x) r' = if Nat.eqb r r' then x else get h r'.
Proof.
  unfold get. revert r r'. induction h as [|y h IH]; intros [|r] [|r'] H; cbn in *; try lia; auto. apply IH. lia.
Qed.
Lemma update_length {A} (l : list A) r x : length (update l r x) = length l.
Proof. revert r. induction l as [|y l IH]; intros [|r]; cbn; auto. Qed.
Lemma get_app h k r : (r < length h)%nat -> get (h ++ k) r = get h r.
Proof. intros H. unfold get. now apply app_nth1. Qed.
Lemma get_new h b : get (h ++ [b]) (length h) = b.
Proof. unfold get. rewrite app_nth2, Nat.sub_diag by lia. reflexivity. Qed.
Lemma find_put h b : forall cur, NoDup cur -> Forall (fun r => r < length h)%nat cur ->
  match find_target h cur b with
  | Err e => put (map (get h) cur) b = Err e
  | Ok (Some e) => In e cur /\ put (map (get h) cur) b = Ok (map (get (update h e (set_tree (get h e) (b_tree b)))) cur)
  | Ok None => put (map (get h) cur) b = Ok (map (get h) cur ++ [b])
  end.
Proof.
  induction cur as [|r cur IH]; intros ND HV; cbn [find_target map put]; [reflexivity|]. inversion ND as [|? ? N1 N2]; subst. inversion HV as [|? ? V1 V2]; subst.
  destruct (same_target (get h r) b) as [[|]|e]; cbn [bind]; [|specialize (IH N2 V2)|reflexivity].
  - split; [left; reflexivity|]. do 2 f_equal; [rewrite get_update, Nat.eqb_refl by auto; reflexivity|]. apply map_ext_in. intros r' Hr'. rewrite get_update by auto. destruct (Nat.eqb_spec r r') as [->|]; [contradiction|reflexivity].
  - destruct (find_target h cur b) as [[e|]|e]; cbn [bind].
    + destruct IH as [I1 ->]. cbn [bind]. split; [right; exact I1|]. do 2 f_equal. rewrite Forall_forall in V2. rewrite get_update by auto. destruct (Nat.eqb_spec e r) as [->|]; [contradiction|reflexivity].
    + rewrite IH. reflexivity.
    + rewrite IH. reflexivity.
Qed.
Definition refs (w : world) (k : bool) (c d : chain) : list nat :=
  match dget (if k then as_nonblocking (scope_assigns w c) else as_blocking (scope_assigns w c)) d with Some l => l | None => [] end.
Definition vals (w : world) (k : bool) (c d : chain) : list bind_ := map (get (w_heap w)) (refs w k c d).
Definition plain_world (w : world) : Prop := keys_plain (w_scopes w) /\ forall c, no_any c -> keys_plain (as_blocking (scope_assigns w c)) /\ keys_plain (as_nonblocking (scope_assigns w c)).
(** Each object is recorded at most once; [both]: this holds for blocking assignments as well. *)
Definition owned (both : bool) (w : world) : Prop :=
  plain_world w /\ (forall k c d, no_any c -> no_any d -> Forall (fun r => r < length (w_heap w))%nat (refs w k c d) /\ (both || k = true -> NoDup (refs w k c d))) /\
  (forall k c d k' c' d' r, no_any c -> no_any d -> no_any c' -> no_any d' -> both || k = true -> In r (refs w k c d) -> In r (refs w k' c' d') -> k = k' /\ c = c' /\ d = d').
Lemma owned_alloc both w b : owned both w -> owned both (fst (alloc w b)) /\ (forall k c d, no_any c -> no_any d -> vals (fst (alloc w b)) k c d = vals w k c d).
Proof.
  intros (H1 & H2 & H3). assert (forall k c d, refs (fst (alloc w b)) k c d = refs w k c d) as HR by reflexivity. split.
  - split; [exact H1|]. split; [|exact H3]. intros k c d Hc Hd. destruct (H2 k c d Hc Hd) as [K1 K2]. split; [|exact K2]. rewrite HR. eapply Forall_impl; [|exact K1]. cbn. intros r Hr. rewrite app_length. lia.
  - intros k c d Hc Hd. unfold vals. rewrite HR. apply map_ext_in. intros r Hr. destruct (H2 k c d Hc Hd) as [K1 _]. rewrite Forall_forall in K1. apply get_app. auto.
Qed.
Definition with_table (w : world) (k : bool) (c : chain) (h : list bind_) (t : ndict (list nat)) : world :=
  World h (dset (w_scopes w) c (if k then Assigns (as_blocking (scope_assigns w c)) t else Assigns t (as_nonblocking (scope_assigns w c)))).
Lemma scope_with w k c h t c' : keys_plain (w_scopes w) -> no_any c -> no_any c' ->
  scope_assigns (with_table w k c h t) c' = if chain_dec c c' then (if k then Assigns (as_blocking (scope_assigns w c)) t else Assigns t (as_nonblocking (scope_assigns w c))) else scope_assigns w c'.
Proof. intros HK Hc Hc'. unfold scope_assigns at 1, with_table. cbn [w_scopes]. rewrite dget_dset by auto. destruct (chain_dec c c'); reflexivity. Qed.
Lemma refs_with w k c h d l k' c' d' : plain_world w -> no_any c -> no_any d -> no_any c' -> no_any d' ->
  refs (with_table w k c h (dset (if k then as_nonblocking (scope_assigns w c) else as_blocking (scope_assigns w c)) d l)) k' c' d' =
  if Bool.bool_dec k k' then if chain_dec c c' then if chain_dec d d' then l else refs w k' c' d' else refs w k' c' d' else refs w k' c' d'.
Proof.
  intros [P1 P2] Hc Hd Hc' Hd'. unfold refs. rewrite scope_with by auto. destruct (P2 c Hc) as [Q1 Q2]. destruct (chain_dec c c') as [<-|]; [|destruct (Bool.bool_dec k k'); reflexivity].
  destruct k, k'; cbn [as_blocking as_nonblocking]; try (rewrite dget_dset by auto); destruct (Bool.bool_dec _ _); try congruence; try reflexivity; destruct (chain_dec d d'); reflexivity.
Qed.
Lemma plain_with w k c h d l : plain_world w -> no_any c -> no_any d -> plain_world (with_table w k c h (dset (if k then as_nonblocking (scope_assigns w c) else as_blocking (scope_assigns w c)) d l)).
Proof.
  intros [P1 P2] Hc Hd. split; [now apply dset_plain|]. intros c' Hc'. rewrite scope_with by auto. destruct (P2 c Hc) as [Q1 Q2]. destruct (chain_dec c c') as [<-|]; [|auto]. destruct k; cbn; split; auto; now apply dset_plain.
Qed.
(** Recording a reference that is in no table yet. *)
Lemma owned_append both w k c d h r : owned both w -> no_any c -> no_any d -> (length (w_heap w) <= length h)%nat -> (forall r, (r < length (w_heap w))%nat -> get h r = get (w_heap w) r) ->
  (r < length h)%nat -> (both || k = true -> forall k' c' d', no_any c' -> no_any d' -> ~ In r (refs w k' c' d')) -> (forall c' d', no_any c' -> no_any d' -> ~ In r (refs w true c' d')) ->
  let w' := with_table w k c h (dset (if k then as_nonblocking (scope_assigns w c) else as_blocking (scope_assigns w c)) d (refs w k c d ++ [r])) in
  owned both w' /\ (forall k' c' d', no_any c' -> no_any d' -> vals w' k' c' d' = if Bool.bool_dec k k' then if chain_dec c c' then if chain_dec d d' then vals w k c d ++ [get h r] else vals w k' c' d' else vals w k' c' d' else vals w k' c' d').
Proof.
  intros (H1 & H2 & H3) Hc Hd HL HG Hr HF HF' w'.
  assert (forall k' c' d', no_any c' -> no_any d' -> refs w' k' c' d' = if Bool.bool_dec k k' then if chain_dec c c' then if chain_dec d d' then refs w k c d ++ [r] else refs w k' c' d' else refs w k' c' d' else refs w k' c' d') as HR by (intros; now apply refs_with).
  assert (forall k' c' d', no_any c' -> no_any d' -> forall x, In x (refs w' k' c' d') -> In x (refs w k' c' d') \/ (x = r /\ k = k' /\ c = c' /\ d = d')) as HI.
  { intros k' c' d' Hc' Hd' x. rewrite HR by auto. destruct (Bool.bool_dec k k') as [<-|]; [|auto]. destruct (chain_dec c c') as [<-|]; [|auto]. destruct (chain_dec d d') as [<-|]; [|auto]. rewrite in_app_iff. intros [K|[K|[]]]; auto. }
  split; [split; [now apply plain_with|split]|].
  - intros k' c' d' Hc' Hd'. split.
    + apply Forall_forall. intros x Hx. change (w_heap w') with h. destruct (HI k' c' d' Hc' Hd' x Hx) as [K|(-> & _)]; [|exact Hr]. destruct (H2 k' c' d' Hc' Hd') as [V _]. rewrite Forall_forall in V. specialize (V x K). lia.
    + intros HB. rewrite HR by auto. destruct (H2 k' c' d' Hc' Hd') as [_ N]. destruct (Bool.bool_dec k k') as [<-|]; [|auto]. destruct (chain_dec c c') as [<-|]; [|auto]. destruct (chain_dec d d') as [<-|]; [|auto].
      specialize (N HB). clear - N HF HB Hc Hd. specialize (HF HB k c d Hc Hd). revert N HF. generalize (refs w k c d). intros l. induction l as [|x l IH]; cbn; intros N HF; [repeat constructor; intros []|]. inversion N as [|? ? N1 N2]; subst. constructor; [|apply IH; auto]. rewrite in_app_iff. cbn. intros [K|[K|[]]]; auto.
  - intros k1 c1 d1 k2 c2 d2 x Q1 Q2 Q3 Q4 HB I1 I2. destruct (HI k1 c1 d1 Q1 Q2 x I1) as [J1|(E1 & <- & <- & <-)], (HI k2 c2 d2 Q3 Q4 x I2) as [J2|(E2 & <- & <- & <-)].
    + apply (H3 k1 c1 d1 k2 c2 d2 x); auto.
    + subst x. exfalso. destruct k1; [exact (HF' c1 d1 Q1 Q2 J1)|]. destruct both; [|discriminate]. exact (HF eq_refl false c1 d1 Q1 Q2 J1).
    + subst x. exfalso. exact (HF HB k2 c2 d2 Q3 Q4 J2).
    + auto.
  - intros k' c' d' Hc' Hd'. unfold vals at 1. rewrite HR by auto. change (w_heap w') with h.
    assert (forall k' c' d', no_any c' -> no_any d' -> map (get h) (refs w k' c' d') = vals w k' c' d') as HM. { intros k1 c1 d1 Q1 Q2. apply map_ext_in. intros x Hx. apply HG. destruct (H2 k1 c1 d1 Q1 Q2) as [V _]. rewrite Forall_forall in V. auto. }
    destruct (Bool.bool_dec k k') as [<-|]; [|auto]. destruct (chain_dec c c') as [<-|]; [|auto]. destruct (chain_dec d d') as [<-|]; [|auto]. rewrite map_app. cbn [map]. rewrite HM by auto. reflexivity.
Qed.
(** Changing a recorded object. *)
Lemma owned_update both w k c d h e x : owned both w -> no_any c -> no_any d -> (forall r, (r < length (w_heap w))%nat -> get h r = get (w_heap w) r) -> (length (w_heap w) <= length h)%nat ->
  In e (refs w k c d) ->
  let w' := with_table w k c (update h e x) (if k then as_nonblocking (scope_assigns w c) else as_blocking (scope_assigns w c)) in
  owned both w' /\ (forall k' c' d', no_any c' -> no_any d' -> refs w' k' c' d' = refs w k' c' d') /\
  (forall k' c' d', no_any c' -> no_any d' -> both || k || k' = true -> (k', c', d') <> (k, c, d) -> vals w' k' c' d' = vals w k' c' d').
Proof.
  intros (H1 & H2 & H3) Hc Hd HG HL He w'.
  assert (forall k' c' d', no_any c' -> no_any d' -> refs w' k' c' d' = refs w k' c' d') as HR.
  { intros k' c' d' Hc' Hd'. unfold refs, w'. rewrite scope_with by (auto; apply H1). destruct (chain_dec c c') as [<-|]; [|reflexivity]. destruct k, k'; reflexivity. }
  assert (e < length h)%nat as Hel. { destruct (H2 k c d Hc Hd) as [V _]. rewrite Forall_forall in V. specialize (V e He). lia. }
  split; [split; [|split]|split; [exact HR|]].
  - destruct H1 as [P1 P2]. split; [now apply dset_plain|]. intros c' Hc'. unfold w'. rewrite scope_with by auto. destruct (P2 c Hc) as [Q1 Q2]. destruct (chain_dec c c') as [<-|]; [|auto]. destruct k; auto.
  - intros k' c' d' Hc' Hd'. rewrite HR by auto. destruct (H2 k' c' d' Hc' Hd') as [V N]. split; [|exact N]. eapply Forall_impl; [|exact V]. intros r Hr. change (w_heap w') with (update h e x). rewrite update_length. cbn in Hr. lia.
  - intros k1 c1 d1 k2 c2 d2 y Q1 Q2 Q3 Q4 HB. rewrite !HR by auto. now apply H3.
  - intros k' c' d' Hc' Hd' HB HN. unfold vals. rewrite HR by auto. apply map_ext_in. intros r Hr. change (w_heap w') with (update h e x). rewrite get_update by exact Hel. destruct (Nat.eqb_spec e r) as [->|].
    + exfalso. apply HN. destruct both; [|destruct k; [|destruct k'; [|discriminate]]].
      * destruct (H3 k c d k' c' d' r) as (-> & -> & ->); auto.
      * destruct (H3 true c d k' c' d' r) as (<- & -> & ->); auto.
      * destruct (H3 true c' d' false c d r) as (K & _); auto. discriminate.
    + apply HG. destruct (H2 k' c' d' Hc' Hd') as [V _]. rewrite Forall_forall in V. auto.
Qed.

Definition record (k : bool) (w : world) (c d : chain) (b : bind_) : res world := happens w (if k then Nonblocking c d b else Blocking c d b).
Lemma refs_get w (k : bool) c d : dget (if k then as_nonblocking (scope_assigns w c) else as_blocking (scope_assigns w c)) d = None -> refs w k c d = [].
Proof. intros H. unfold refs. now rewrite H. Qed.
Lemma record_step both k w c d b : owned both w -> no_any c -> no_any d -> both || k = true ->
  match put (vals w k c d) b with
  | Err e => record k w c d b = Err e
  | Ok l => exists w', record k w c d b = Ok w' /\ owned both w' /\ vals w' k c d = l /\
      forall k' c' d', no_any c' -> no_any d' -> (k', c', d') <> (k, c, d) -> vals w' k' c' d' = vals w k' c' d'
  end.
Proof.
  intros HO Hc Hd HB. destruct (owned_alloc both w b HO) as [HO1 HV1]. unfold record. set (w1 := fst (alloc w b)) in *. set (h1 := w_heap w1).
  assert (h1 = w_heap w ++ [b]) as Eh by reflexivity.
  assert (get h1 (length (w_heap w)) = b) as EG by (rewrite Eh; apply get_new).
  assert (length h1 = S (length (w_heap w))) as EL by (rewrite Eh, app_length; cbn; lia).
  assert (forall k' c' d', no_any c' -> no_any d' -> ~ In (length (w_heap w)) (refs w1 k' c' d')) as HFr.
  { intros k' c' d' Hc' Hd' Hin. destruct HO as (_ & H2 & _). destruct (H2 k' c' d' Hc' Hd') as [V _]. rewrite Forall_forall in V. specialize (V _ Hin). lia. }
  rewrite <- (HV1 k c d Hc Hd). pose proof HO1 as (H1 & H2 & H3). destruct (H2 k c d Hc Hd) as [V N]. specialize (N HB).
  pose proof (find_put h1 b (refs w1 k c d) N V) as HFP. change (map (get h1) (refs w1 k c d)) with (vals w1 k c d) in HFP.
  assert (forall cur, dget (if k then as_nonblocking (scope_assigns w1 c) else as_blocking (scope_assigns w1 c)) d = Some cur -> refs w1 k c d = cur) as HRc by (intros cur E; unfold refs; now rewrite E).
  destruct (find_target h1 (refs w1 k c d) b) as [[e|]|e] eqn:EF.
  - (* an entry is changed *)
    destruct HFP as [He ->]. assert (dget (if k then as_nonblocking (scope_assigns w1 c) else as_blocking (scope_assigns w1 c)) d = Some (refs w1 k c d)) as ED.
    { destruct (dget (if k then as_nonblocking (scope_assigns w1 c) else as_blocking (scope_assigns w1 c)) d) eqn:ED; [f_equal; symmetry; auto|]. apply refs_get in ED. rewrite ED in He. contradiction. }
    destruct (owned_update both w1 k c d h1 e (set_tree (get h1 e) (b_tree b)) HO1 Hc Hd ltac:(auto) ltac:(auto) He) as (U1 & U2 & U3).
    set (w' := with_table w1 k c (update h1 e (set_tree (get h1 e) (b_tree b))) (if k then as_nonblocking (scope_assigns w1 c) else as_blocking (scope_assigns w1 c))) in *.
    exists w'. split.
    + destruct k; cbn [happens]; change (alloc w b) with (w1, length (w_heap w)); cbv iota beta; unfold setBlockingAssign, addNonblockingAssign, setBlocking, addNonblocking; rewrite ED; fold h1; rewrite EG, EF; cbn [bind fst snd]; reflexivity.
    + split; [exact U1|]. split; [unfold vals; rewrite U2 by auto; reflexivity|]. intros k' c' d' Hc' Hd' HN. rewrite U3 by (auto; rewrite HB; reflexivity). auto.
  - (* a new entry *)
    rewrite HFP. set (h2 := if k then h1 ++ [b] else h1). set (r := if k then length h1 else length (w_heap w)).
    assert (length (w_heap w) <= r)%nat as Hr0 by (unfold r; destruct k; lia).
    assert (forall k' c' d', no_any c' -> no_any d' -> ~ In r (refs w1 k' c' d')) as HFr2.
    { intros k' c' d' Hc' Hd' Hin. destruct HO as (_ & H2' & _). destruct (H2' k' c' d' Hc' Hd') as [V' _]. rewrite Forall_forall in V'. specialize (V' _ Hin). lia. }
    assert (get h2 r = b) as EG2 by (unfold h2, r; destruct k; [apply get_new|exact EG]).
    destruct (owned_append both w1 k c d h2 r HO1 Hc Hd) as [A1 A2]; auto.
    { unfold h2. fold h1. destruct k; [rewrite app_length; lia|lia]. }
    { intros x Hx. unfold h2. fold h1 in Hx |- *. destruct k; [now apply get_app|reflexivity]. }
    { unfold h2, r. destruct k; [rewrite app_length; cbn; lia|lia]. }
    set (w' := with_table w1 k c h2 (dset (if k then as_nonblocking (scope_assigns w1 c) else as_blocking (scope_assigns w1 c)) d (refs w1 k c d ++ [r]))) in *.
    exists w'. split.
    + destruct (dget (if k then as_nonblocking (scope_assigns w1 c) else as_blocking (scope_assigns w1 c)) d) as [cur|] eqn:ED.
      * rewrite (HRc cur eq_refl) in EF. destruct k; cbn [happens]; change (alloc w b) with (w1, length (w_heap w)); cbv iota beta; unfold setBlockingAssign, addNonblockingAssign, setBlocking, addNonblocking; rewrite ED; fold h1; rewrite EG, EF; cbn [bind fst snd]; unfold w'; rewrite (HRc cur eq_refl); reflexivity.
      * unfold w'. rewrite (refs_get _ _ _ _ ED). destruct k; cbn [happens]; change (alloc w b) with (w1, length (w_heap w)); cbv iota beta; unfold setBlockingAssign, addNonblockingAssign, setBlocking, addNonblocking; rewrite ED; fold h1; rewrite ?EG; cbn [bind fst snd]; reflexivity.
    + split; [exact A1|]. split.
      * rewrite A2 by auto. destruct (Bool.bool_dec k k); [|congruence]. destruct (chain_dec c c); [|congruence]. destruct (chain_dec d d); [|congruence]. now rewrite EG2.
      * intros k' c' d' Hc' Hd' HN. rewrite A2 by auto. rewrite <- HV1 by auto. destruct (Bool.bool_dec k k') as [<-|]; [|reflexivity]. destruct (chain_dec c c') as [<-|]; [|reflexivity]. destruct (chain_dec d d') as [<-|]; [congruence|reflexivity].
  - rewrite HFP. destruct (dget (if k then as_nonblocking (scope_assigns w1 c) else as_blocking (scope_assigns w1 c)) d) as [cur|] eqn:ED.
    + rewrite (HRc cur eq_refl) in EF. destruct k; cbn [happens]; change (alloc w b) with (w1, length (w_heap w)); cbv iota beta; unfold setBlockingAssign, addNonblockingAssign, setBlocking, addNonblocking; rewrite ED; fold h1; rewrite EG, EF; reflexivity.
    + apply refs_get in ED. rewrite ED in EF. discriminate.
Qed.
Lemma owned_init both : owned both no_assigns.
Proof.
  split; [split; [constructor|intros c Hc; split; constructor]|]. assert (forall k c d, refs no_assigns k c d = []) as HR by (intros [] c d; reflexivity).
  split; [intros k c d _ _; rewrite HR; split; constructor|]. intros k c d k' c' d' r _ _ _ _ _ H. rewrite HR in H. contradiction.
Qed.
Lemma puts_app l a b : puts l (a ++ b) = do l' <- puts l a; puts l' b.
Proof. revert l. induction a as [|x a IH]; intros l; cbn [app puts]; [reflexivity|]. destruct (put l x); cbn [bind]; auto. Qed.

(** ** Histories without block ends *)
Lemma all_happen_both h : forall w hb, owned true w -> Forall ordinary_event h -> Forall no_end h ->
  (forall k c d, no_any c -> no_any d -> Forall norm (vals w k c d)) ->
  (forall k c d, no_any c -> no_any d -> puts [] ((if k : bool then nonblocking_to else blocking_to) c d hb) = Ok (vals w k c d)) ->
  exists w', all_happen w h = Ok w' /\ forall k c d, no_any c -> no_any d -> puts [] ((if k : bool then nonblocking_to else blocking_to) c d (hb ++ h)) = Ok (vals w' k c d).
Proof.
  induction h as [|e r IH]; intros w hb HO HE HN HNm HP; [exists w; rewrite app_nil_r; auto|]. inversion HE as [|? ? E1 E2]; subst. inversion HN as [|? ? N1 N2]; subst.
  assert (exists (k : bool) c d b, e = (if k then Nonblocking c d b else Blocking c d b) /\ no_any c /\ no_any d /\ norm b) as (k & c & d & b & -> & Hc & Hd & Hb).
  { destruct e as [c d b|c d b|i o]; [|..|contradiction]; destruct E1 as (K1 & K2 & K3 & K4); [exists false, c, d, b|exists true, c, d, b]; repeat split; auto; try apply K3; apply K4. }
  destruct (put_ok (vals w k c d) b (HNm k c d Hc Hd) Hb) as (l & El & Hl).
  pose proof (record_step true k w c d b HO Hc Hd eq_refl) as HS. rewrite El in HS. destruct HS as (w1 & S1 & S2 & S3 & S4).
  assert (forall k' c' d', {(k', c', d') = (k, c, d)} + {(k', c', d') <> (k, c, d)}) as DEC. { intros. destruct (Bool.bool_dec k' k), (chain_dec c' c), (chain_dec d' d); subst; [left; reflexivity|right; congruence..]. }
  set (e := if k then Nonblocking c d b else Blocking c d b) in *.
  assert (forall k' c' d', (if k' : bool then nonblocking_to else blocking_to) c' d' [e] = if DEC k' c' d' then [b] else []) as HEv.
  { intros k' c' d'. unfold e. destruct (DEC k' c' d') as [E|E].
    - injection E as -> -> ->. destruct k; cbn; destruct (chain_dec c c); try congruence; destruct (chain_dec d d); try congruence; reflexivity.
    - destruct k, k'; cbn; try reflexivity; destruct (chain_dec c c') as [<-|]; try reflexivity; destruct (chain_dec d d') as [<-|]; try reflexivity; congruence. }
  destruct (IH w1 (hb ++ [e]) S2 E2 N2) as (w2 & W1 & W2).
  - intros k' c' d' Hc' Hd'. destruct (DEC k' c' d') as [E|E]; [injection E as -> -> ->; now rewrite S3|rewrite S4; auto].
  - intros k' c' d' Hc' Hd'.
    assert ((if k' then nonblocking_to else blocking_to) c' d' (hb ++ [e]) = (if k' then nonblocking_to else blocking_to) c' d' hb ++ (if k' then nonblocking_to else blocking_to) c' d' [e]) as -> by (destruct k'; unfold nonblocking_to, blocking_to; apply flat_map_app).
    rewrite HEv, puts_app, HP by auto. cbn [bind]. destruct (DEC k' c' d') as [E|E]; cbn [puts].
    + injection E as -> -> ->. rewrite El. cbn [bind]. now rewrite S3.
    + now rewrite S4.
  - exists w2. cbn [all_happen]. unfold record in S1. fold e in S1. rewrite S1. cbn [bind]. split; [exact W1|]. rewrite <- app_assoc in W2. exact W2.
Qed.

(** ** Histories with block ends: nonblocking assignments *)
Definition uniq (w : world) : Prop := forall c, no_any c -> NoDup (map fst (as_blocking (scope_assigns w c))).
Lemma find_target_in h b : forall cur e, find_target h cur b = Ok (Some e) -> In e cur.
Proof.
  induction cur as [|r cur IH]; intros e E; cbn [find_target] in E; [discriminate|]. apply bind_ok in E as ([|] & _ & E); [injection E as <-; left; reflexivity|right; auto].
Qed.
Lemma dset_in {V} (d : ndict V) k v : forall x, In x (map fst (dset d k v)) -> x = k \/ In x (map fst d).
Proof.
  intros x. induction d as [|[k' v'] r IH]; cbn [dset map fst]; [intros [<-|[]]; auto|]. destruct (chain_eq k' k); cbn; [auto|]. intros [K|K]; [auto|]. destruct (IH K); auto.
Qed.
Lemma dset_nodup {V} (d : ndict V) k v : keys_plain d -> no_any k -> NoDup (map fst d) -> NoDup (map fst (dset d k v)).
Proof.
  intros HK Hk. induction HK as [|[k' v'] r H1 H2 IH]; cbn [dset map fst]; intros N; [repeat constructor; intros []|]. inversion N as [|? ? N1 N2]; subst. destruct (chain_eq k' k) eqn:E; cbn [map fst]; constructor; auto.
  intros Hin. apply dset_in in Hin as [->|Hin]; [|auto]. rewrite chain_eq_refl in E. discriminate.
Qed.
Lemma dget_of_in {V} (d : ndict V) k v : keys_plain d -> NoDup (map fst d) -> In (k, v) d -> dget d k = Some v.
Proof.
  intros HK. induction HK as [|[k' v'] r H1 H2 IH]; [intros _ []|]. intros N [E|Hin]; cbn [map fst] in N; inversion N as [|? ? N1 N2]; subst; cbn [dget].
  - injection E as -> ->. now rewrite chain_eq_refl.
  - assert (In k (map fst r)) as Hk by (apply in_map_iff; exists (k, v); auto). destruct (chain_eq k' k) eqn:E; [|auto]. exfalso. apply chain_eq_no_any in E; [subst; auto|exact H1|]. apply in_map_iff in Hk as ([k2 v2] & E2 & Hk). cbn in E2. subst. unfold keys_plain in H2. rewrite Forall_forall in H2. exact (H2 _ Hk).
Qed.
Definition keeps (w w' : world) : Prop :=
  (length (w_heap w) <= length (w_heap w'))%nat /\
  forall c d, no_any c -> no_any d -> refs w' true c d = refs w true c d /\ vals w' true c d = vals w true c d.
Lemma keeps_refl w : keeps w w.
Proof. split; auto. Qed.
Lemma keeps_trans a b c : keeps a b -> keeps b c -> keeps a c.
Proof. intros [A1 A2] [B1 B2]. split; [lia|]. intros x y Hx Hy. destruct (A2 x y Hx Hy), (B2 x y Hx Hy). split; congruence. Qed.
Definition ready (w : world) : Prop := owned false w /\ uniq w.
Lemma blocking_keeps w c d r w' : ready w -> no_any c -> no_any d -> (r < length (w_heap w))%nat -> (forall c' d', no_any c' -> no_any d' -> ~ In r (refs w true c' d')) ->
  setBlockingAssign w c d r = Ok w' -> ready w' /\ keeps w w'.
Proof.
  intros [HO HU] Hc Hd Hr HF E. unfold setBlockingAssign, setBlocking in E. apply bind_ok in E as ([h t] & E1 & E). injection E as <-. cbn [fst snd].
  destruct (dget (as_blocking (scope_assigns w c)) d) as [cur|] eqn:ED.
  - apply bind_ok in E1 as ([e|] & EF & E1); injection E1 as <- <-.
    + assert (In e (refs w false c d)) as He by (unfold refs; rewrite ED; eapply find_target_in; eauto).
      destruct (owned_update false w false c d (w_heap w) e (set_tree (get (w_heap w) e) (b_tree (get (w_heap w) r))) HO Hc Hd ltac:(auto) ltac:(auto) He) as (U1 & U2 & U3).
      cbn iota in U1, U2, U3. unfold with_table in U1, U2, U3. split; [split; [exact U1|]|].
      * intros c' Hc'. unfold scope_assigns. cbn [w_scopes]. rewrite dget_dset by (auto; apply HO). destruct (chain_dec c c') as [<-|]; [apply HU; exact Hc|apply HU; exact Hc'].
      * split; [cbn [w_heap]; now rewrite update_length|]. intros c' d' Hc' Hd'. split; [apply U2; auto|apply U3; auto; discriminate].
    + destruct (owned_append false w false c d (w_heap w) r HO Hc Hd) as [A1 A2]; auto; [discriminate|].
      assert (refs w false c d = cur) as ER by (unfold refs; now rewrite ED). cbn iota in A1, A2. rewrite ER in A1, A2. unfold with_table in A1, A2. split; [split; [exact A1|]|].
      * intros c' Hc'. unfold scope_assigns. cbn [w_scopes]. rewrite dget_dset by (auto; apply HO). destruct (chain_dec c c') as [<-|]; [cbn; apply dset_nodup; [apply HO; exact Hc|exact Hd|apply HU; exact Hc]|apply HU; exact Hc'].
      * split; [cbn [w_heap]; lia|]. intros c' d' Hc' Hd'. split; [|exact (A2 true c' d' Hc' Hd')].
        exact (refs_with w false c (w_heap w) d (cur ++ [r]) true c' d' (proj1 HO) Hc Hd Hc' Hd').
  - injection E1 as <- <-. destruct (owned_append false w false c d (w_heap w) r HO Hc Hd) as [A1 A2]; auto; [discriminate|].
    assert (refs w false c d = []) as ER by (unfold refs; now rewrite ED). cbn iota in A1, A2. rewrite ER in A1, A2. unfold with_table in A1, A2. cbn [app] in A1, A2. split; [split; [exact A1|]|].
    + intros c' Hc'. unfold scope_assigns. cbn [w_scopes]. rewrite dget_dset by (auto; apply HO). destruct (chain_dec c c') as [<-|]; [cbn; apply dset_nodup; [apply HO; exact Hc|exact Hd|apply HU; exact Hc]|apply HU; exact Hc'].
    + split; [cbn [w_heap]; lia|]. intros c' d' Hc' Hd'. split; [|exact (A2 true c' d' Hc' Hd')].
      exact (refs_with w false c (w_heap w) d [r] true c' d' (proj1 HO) Hc Hd Hc' Hd').
Qed.
Lemma copy_refs_keeps to d : no_any to -> no_any d -> forall l w w', ready w -> (forall r, In r l -> (r < length (w_heap w))%nat /\ forall c' d', no_any c' -> no_any d' -> ~ In r (refs w true c' d')) ->
  copy_refs w to d l = Ok w' -> ready w' /\ keeps w w'.
Proof.
  intros Ht Hd. induction l as [|r l IH]; intros w w' HR HL E; cbn [copy_refs] in E; [injection E as <-; split; [exact HR|apply keeps_refl]|].
  apply bind_ok in E as (w1 & E1 & E2). destruct (HL r (or_introl eq_refl)) as [L1 L2]. destruct (blocking_keeps w to d r w1 HR Ht Hd L1 L2 E1) as [R1 K1].
  destruct (IH w1 w' R1) as [R2 K2]; [|exact E2|split; [exact R2|eapply keeps_trans; eauto]]. destruct K1 as [K1 K1']. intros x Hx. destruct (HL x (or_intror Hx)) as [X1 X2]. split; [lia|]. intros c' d' Hc' Hd'. destruct (K1' c' d' Hc' Hd') as [-> _]. auto.
Qed.
Lemma copy_entries_keeps to : no_any to -> forall l w w', ready w -> (forall n rs, In (n, rs) l -> no_any n /\ forall r, In r rs -> (r < length (w_heap w))%nat /\ forall c' d', no_any c' -> no_any d' -> ~ In r (refs w true c' d')) ->
  copy_entries w to l = Ok w' -> ready w' /\ keeps w w'.
Proof.
  intros Ht. induction l as [|[n rs] l IH]; intros w w' HR HL E; cbn [copy_entries] in E; [injection E as <-; split; [exact HR|apply keeps_refl]|].
  apply bind_ok in E as (w1 & E1 & E2). destruct (HL n rs (or_introl eq_refl)) as [L1 L2]. destruct (copy_refs_keeps to n Ht L1 rs w w1 HR L2 E1) as [R1 K1].
  destruct (IH w1 w' R1) as [R2 K2]; [|exact E2|split; [exact R2|eapply keeps_trans; eauto]]. destruct K1 as [K1 K1']. intros m ms Hm. destruct (HL m ms (or_intror Hm)) as [M1 M2]. split; [exact M1|]. intros x Hx. destruct (M2 x Hx) as [X1 X2]. split; [lia|]. intros c' d' Hc' Hd'. destruct (K1' c' d' Hc' Hd') as [-> _]. auto.
Qed.
Lemma end_keeps w i o w' : ready w -> no_any i -> no_any o -> copyBlockingAssigns w i o = Ok w' -> ready w' /\ keeps w w'.
Proof.
  intros HR Hi Ho E. apply (copy_entries_keeps o Ho (as_blocking (scope_assigns w i)) w w' HR); [|exact E]. destruct HR as [(P & H2 & H3) HU].
  destruct P as [P1 P2]. destruct (P2 i Hi) as [Q _]. intros n rs Hin. assert (no_any n) as Hn. { unfold keys_plain in Q. rewrite Forall_forall in Q. exact (Q _ Hin). }
  split; [exact Hn|]. assert (refs w false i n = rs) as ER by (unfold refs; rewrite (dget_of_in _ n rs Q (HU i Hi) Hin); reflexivity).
  intros r Hr. rewrite <- ER in Hr. split; [destruct (H2 false i n Hi Hn) as [V _]; rewrite Forall_forall in V; auto|].
  intros c' d' Hc' Hd' K. destruct (H3 true c' d' false i n r Hc' Hd' Hi Hn eq_refl K Hr) as [F _]. discriminate.
Qed.
Lemma nonblocking_ready w c d b w' : ready w -> no_any c -> no_any d -> record true w c d b = Ok w' -> ready w'.
Proof.
  intros [HO HU] Hc Hd E. pose proof (record_step false true w c d b HO Hc Hd eq_refl) as HS. destruct (put (vals w true c d) b) as [l|e]; [|congruence]. destruct HS as (w1 & E1 & O1 & _). rewrite E in E1. injection E1 as <-. split; [exact O1|].
  unfold record in E. cbn [happens] in E. unfold addNonblockingAssign in E. apply bind_ok in E as (hd & _ & E). injection E as <-. intros c' Hc'. unfold scope_assigns at 1. cbn [w_scopes]. cbn [alloc fst w_scopes]. rewrite dget_dset by (auto; apply HO). destruct (chain_dec c c') as [<-|]; [apply HU; exact Hc|apply HU; exact Hc'].
Qed.
Lemma all_happen_nonblocking h : forall w hb w', ready w -> Forall ordinary_event h -> all_happen w h = Ok w' ->
  (forall c d, no_any c -> no_any d -> puts [] (nonblocking_to c d hb) = Ok (vals w true c d)) ->
  forall c d, no_any c -> no_any d -> puts [] (nonblocking_to c d (hb ++ h)) = Ok (vals w' true c d).
Proof.
  induction h as [|e r IH]; intros w hb w' HR HE E HP; [injection E as <-; rewrite app_nil_r; auto|]. inversion HE as [|? ? E1 E2]; subst. cbn [all_happen] in E. apply bind_ok in E as (w1 & Ew & E).
  assert (ready w1 /\ forall c d, no_any c -> no_any d -> puts [] (nonblocking_to c d (hb ++ [e])) = Ok (vals w1 true c d)) as [R1 P1].
  { assert (forall c d, nonblocking_to c d (hb ++ [e]) = nonblocking_to c d hb ++ nonblocking_to c d [e]) as HA by (intros; apply flat_map_app).
    destruct e as [c d b|c d b|i o].
    - destruct E1 as (Hc & Hd & _ & _). cbn [happens] in Ew. destruct (owned_alloc false w b (proj1 HR)) as [O1 V1]. set (wa := fst (alloc w b)) in *. change (alloc w b) with (wa, length (w_heap w)) in Ew. cbv iota beta in Ew.
      destruct (blocking_keeps wa c d (length (w_heap w)) w1) as [R1 [K0 K1]]; auto.
      + split; [exact O1|exact (proj2 HR)].
      + cbn. rewrite app_length. cbn. lia.
      + intros c' d' Hc' Hd' Hin. destruct HR as [(_ & H2 & _) _]. destruct (H2 true c' d' Hc' Hd') as [V _]. rewrite Forall_forall in V. specialize (V _ Hin). lia.
      + split; [exact R1|]. intros c' d' Hc' Hd'. rewrite HA. cbn [nonblocking_to flat_map]. rewrite app_nil_r, HP by auto. destruct (K1 c' d' Hc' Hd') as [_ ->]. now rewrite V1.
    - destruct E1 as (Hc & Hd & _ & _). split; [exact (nonblocking_ready w c d b w1 HR Hc Hd Ew)|]. pose proof (record_step false true w c d b (proj1 HR) Hc Hd eq_refl) as HS. unfold record in HS. rewrite Ew in HS.
      destruct (put (vals w true c d) b) as [l|x] eqn:EPut; [|congruence]. destruct HS as (w2 & EW & _ & S3 & S4). injection EW as <-.
      intros c' d' Hc' Hd'. rewrite HA, puts_app, HP by auto. cbn [nonblocking_to flat_map bind]. rewrite app_nil_r. destruct (chain_dec c c') as [<-|N]; [destruct (chain_dec d d') as [<-|N]|]; cbn [puts].
      + rewrite EPut. cbn [bind]. now rewrite S3.
      + rewrite S4; auto. congruence.
      + rewrite S4; auto. congruence.
    - destruct E1 as (Hi & Ho). destruct (end_keeps w i o w1 HR Hi Ho Ew) as [R1 [_ K1]]. split; [exact R1|]. intros c' d' Hc' Hd'. rewrite HA. cbn [nonblocking_to flat_map]. rewrite app_nil_r, HP by auto. destruct (K1 c' d' Hc' Hd') as [_ ->]. reflexivity. }
  intros c d Hc Hd. replace (hb ++ e :: r) with ((hb ++ [e]) ++ r) by (rewrite <- app_assoc; reflexivity). eapply IH; eauto.
Qed.
Lemma puts_from_nothing bs l : Forall norm bs -> nested_free bs -> puts [] bs = Ok l -> last_assignments bs l.
Proof.
  intros HB HN E. assert (last_assignments [] []) as H0 by (split; [apply NoDup_nil|split; [intros r []|intros [|? ?] x h2 K; discriminate]]).
  destruct (puts_last bs [] [] (Forall_nil _) (Forall_nil _) HB HN) as (l' & E' & H); [intros r []|exact H0|].
  rewrite E in E'. injection E' as <-. exact H.
Qed.
Lemma events_norm (sel : chain -> chain -> list event -> list bind_) h c d : (sel = blocking_to \/ sel = nonblocking_to) -> Forall ordinary_event h -> Forall norm (sel c d h).
Proof.
  intros HS HE. apply Forall_forall. intros b Hb. destruct HS as [->| ->]; apply in_flat_map in Hb as (e & He & Hb); rewrite Forall_forall in HE; specialize (HE e He); destruct e as [c' d' b'|c' d' b'|]; try contradiction;
    (destruct (chain_dec c' c); [|contradiction]); (destruct (chain_dec d' d); [|contradiction]); destruct Hb as [<-|[]]; destruct HE as (_ & _ & K); exact K.
Qed.
