(** SensProofs.v - sensitivity lists. *)
From Verif Require Import Base ScopeModel DfModel LitModel LitSpec LitProofs BindModel ExprModel StmModel ConModel ConSpec ConProofs2 MachModel MachSpec MachText SensModel SensSpec.
Local Open Scope string_scope.

(** ** Names *)
Lemma lower_same_all : forall d, In d ["r"; "e"; "s"; "t"; "c"; "l"; "k"; "o"]%char -> forall c, lower_char c = d <-> same_letter c d.
Proof.
  intros d Hi c. unfold same_letter, lower_char. pose proof (nat_ascii_bounded c) as Bc.
  destruct ((65 <=? nat_of_ascii c) && (nat_of_ascii c <=? 90))%nat eqn:E.
  - apply andb_true_iff in E as [E1 E2]. apply Nat.leb_le in E1, E2. split.
    + intros <-. right. left. split; [lia|]. apply nat_ascii_embedding. lia.
    + intros [->|[[_ H]|[H _]]].
      * exfalso. destruct Hi as [<-|[<-|[<-|[<-|[<-|[<-|[<-|[<-|[]]]]]]]]]; vm_compute in E2; lia.
      * rewrite <- H. apply ascii_nat_embedding.
      * exfalso. destruct Hi as [<-|[<-|[<-|[<-|[<-|[<-|[<-|[<-|[]]]]]]]]]; vm_compute in H; lia.
  - apply andb_false_iff in E. rewrite !Nat.leb_gt in E. split; [auto|].
    intros [->|[[H1 H2]|[H _]]]; [reflexivity|lia|].
    exfalso. destruct Hi as [<-|[<-|[<-|[<-|[<-|[<-|[<-|[<-|[]]]]]]]]]; vm_compute in H; lia.
Qed.
Lemma lower_word w p : Forall (fun d => In d ["r"; "e"; "s"; "t"; "c"; "l"; "k"; "o"]%char) (list_ascii_of_string p) ->
  (lower w = p <-> Forall2 same_letter (list_ascii_of_string w) (list_ascii_of_string p)).
Proof.
  revert w. induction p as [|d p IH]; intros w H; destruct w as [|c w]; cbn in *.
  - split; [constructor|reflexivity].
  - split; [discriminate|intros K; inversion K].
  - split; [discriminate|intros K; inversion K].
  - inversion H as [|? ? H1 H2]; subst. split.
    + intros E. injection E as E1 E2. constructor; [now apply lower_same_all|now apply IH].
    + intros E. inversion E as [|? ? ? ? E1 E2]; subst. f_equal; [now apply lower_same_all|now apply IH].
Qed.
Lemma search_says ps s : Forall (fun p => Forall (fun d => In d ["r"; "e"; "s"; "t"; "c"; "l"; "k"; "o"]%char) (list_ascii_of_string p)) ps ->
  (existsb (fun p => search p (lower s)) ps = true <-> says ps s).
Proof.
  intros F. unfold says. rewrite existsb_exists. rewrite Forall_forall in F. split.
  - intros (p & Hp & H). apply search_within in H as (a & b & E). destruct (lower_split _ _ _ _ E) as (x & w & y & -> & Ew).
    exists w, p. split; [exists x, y; reflexivity|]. split; [exact Hp|]. apply lower_word; [exact (F p Hp)|exact Ew].
  - intros (w & p & (x & y & ->) & Hp & H). exists p. split; [exact Hp|]. apply search_within.
    apply lower_word in H; [|exact (F p Hp)].
    rewrite !lower_app, H. exists (lower x), (lower y). reflexivity.
Qed.
Lemma isClock_word s : isClock s = true <-> clock_word s.
Proof. apply search_says. repeat (constructor; [repeat (constructor; [cbn; tauto|]); constructor|]). constructor. Qed.
Lemma isReset_word s : isReset s = true <-> reset_word s.
Proof. apply search_says. repeat (constructor; [repeat (constructor; [cbn; tauto|]); constructor|]). constructor. Qed.

(** ** Signals and bits *)
Lemma name_signal e x : get_signal_name e = Some x <-> signal_of e x.
Proof.
  split.
  - induction e; cbn; intros H; try discriminate; [injection H as <-; constructor|constructor; auto|constructor; auto].
  - induction 1; cbn; auto.
Qed.
Lemma single_within b s : single_underscores b s = true ->
  (forall r, s = String "_" r -> b = true) /\ ~ within "__" s /\ forall t, s <> t ++ "_".
Proof.
  revert b. induction s as [|c s IH]; intros b H.
  - split; [discriminate|]. split; [intros (a & t & E); destruct a; discriminate|]. intros [|]; discriminate.
  - cbn [single_underscores] in H. destruct (Ascii.eqb c "_") eqn:E.
    + apply Ascii.eqb_eq in E. subst c. apply andb_true_iff in H as [-> H]. split; [reflexivity|].
      destruct s as [|d s]; [discriminate|]. destruct (IH _ H) as (A & B & C). split.
      * intros (a & t & K). destruct a as [|y a].
        -- injection K as K1 K2. subst. specialize (A _ eq_refl). discriminate.
        -- injection K as _ K. apply B. exists a, t. exact K.
      * intros [|y t] K; [discriminate|]. injection K as _ K. exact (C _ K).
    + apply Ascii.eqb_neq in E. destruct (IH _ H) as (A & B & C). split; [intros r K; congruence|]. split.
      * intros (a & t & K). destruct a as [|y a]; [injection K as K1 _; congruence|]. injection K as _ K. apply B. exists a, t. exact K.
      * intros [|y t] K; [injection K as K1 _; congruence|]. injection K as _ K. exact (C _ K).
Qed.
Lemma within_single b s : (forall r, s = String "_" r -> b = true) -> ~ within "__" s -> (forall t, s <> t ++ "_") -> (s = "" -> b = true) -> single_underscores b s = true.
Proof.
  revert b. induction s as [|c s IH]; intros b A B C D; [now apply D|]. cbn [single_underscores].
  assert (W : ~ within "__" s) by (intros (x & y & K); apply B; exists (String c x), y; now rewrite K).
  assert (T : forall t, s <> t ++ "_") by (intros t K; apply (C (String c t)); now rewrite K).
  destruct (Ascii.eqb c "_") eqn:E.
  - apply Ascii.eqb_eq in E. subst c. rewrite (A _ eq_refl). destruct s as [|d s]; [exfalso; exact (C "" eq_refl)|]. cbn [andb].
    apply IH; auto; [|discriminate]. intros r K. exfalso. apply B. exists "", r. now rewrite K.
  - apply IH; auto.
Qed.
Lemma parse_reads s : forall a n, parse_digits 10 (drop_underscores s) a = Ok n -> reads 10 a s n.
Proof.
  induction s as [|c s IH]; intros a n H; [cbn in H; injection H as <-; constructor|]. cbn [drop_underscores] in H.
  destruct (Ascii.eqb c "_") eqn:E; [apply Ascii.eqb_eq in E; subst c; apply reads_underscore; exact (IH _ _ H)|].
  cbn [parse_digits] in H. destruct (digit_val c) as [d|] eqn:Ed; [|discriminate]. destruct (d <? 10)%Z eqn:El; [|discriminate].
  apply (reads_digit 10 a c d); [|exact (IH _ _ H)]. split; [|lia].
  assert (K : forall c, match digit_val c with Some d => implb (d <? 10)%Z (existsb (fun p => Ascii.eqb (fst p) c && Z.eqb (snd p) d) digits_of) | None => true end = true).
  { apply ascii_all. vm_compute. reflexivity. }
  specialize (K c). rewrite Ed, El in K. cbn [implb] in K. apply existsb_exists in K as ([c' d'] & Hin & Heq). cbn in Heq. apply andb_true_iff in Heq as [H1 H2].
  apply Ascii.eqb_eq in H1. apply Z.eqb_eq in H2. now subst.
Qed.
Lemma allc_bare s : bare s -> allc (fun c => negb (is_space c)) (drop_underscores s) = true.
Proof.
  induction s as [|c s IH]; intros B; [reflexivity|]. cbn [drop_underscores]. assert (B' : bare s) by (intros d Hd; apply B; now right).
  destruct (Ascii.eqb c "_"); [exact (IH B')|]. cbn [allc]. rewrite (IH B'). destruct (B c (or_introl eq_refl)) as [-> _]. reflexivity.
Qed.
Lemma drop_in c s : In c (list_ascii_of_string (drop_underscores s)) -> In c (list_ascii_of_string s).
Proof. induction s as [|d s IH]; [auto|]. cbn [drop_underscores]. destruct (Ascii.eqb d "_"); cbn; tauto. Qed.
Lemma int_of_decimal s n : bare s -> (int_of s = Ok n <-> decimal s n).
Proof.
  intros B. unfold int_of, decimal. split.
  - destruct (single_underscores false s) eqn:E; [|discriminate]. intros H. destruct (single_within _ _ E) as (A & W & T).
    split; [|split; assumption].
    unfold py_int in H. rewrite (lstrip_id _ (allc_bare s B)), (rstrip_id _ (allc_bare s B)) in H.
    destruct s as [|c s]; [discriminate|]. cbn [drop_underscores] in H. destruct (Ascii.eqb c "_") eqn:Ec.
    { apply Ascii.eqb_eq in Ec. subst c. specialize (A _ eq_refl). discriminate. }
    destruct (B c (or_introl eq_refl)) as (_ & N1 & N2). apply Ascii.eqb_neq in N1, N2. rewrite N1, N2 in H.
    unfold py_int_digits in H. assert (SP : forall t, strip_prefix 10 t = t).
    { intros t. unfold strip_prefix. destruct t as [|c0 [|c1 r]]; auto. destruct (Ascii.eqb c0 "0"); reflexivity. }
    rewrite SP in H. cbn [nonempty] in H. assert (R : parse_digits 10 (drop_underscores (String c s)) 0 = Ok n) by (cbn [drop_underscores]; rewrite Ec; exact H).
    pose proof (parse_reads _ _ _ R) as Q. inversion Q as [|? ? d ? ? Hd Hr|]; subst; [|discriminate Ec].
    exists c, d, s. split; [reflexivity|]. split; [exact Hd|]. replace d with (0 * 10 + d)%Z by lia. exact Hr.
  - intros (N & W & T). assert (E : single_underscores false s = true).
    { apply within_single; auto; [|intros ->; destruct N as (c & d & r & K & _); discriminate].
      intros r K. destruct N as (c & d & r' & K' & Hd & _). rewrite K in K'. injection K' as <- _. destruct (is_digit_val _ _ _ Hd) as (_ & _ & F). discriminate F. }
    rewrite E. apply numeral_parse in N as (N1 & N2 & N3). rewrite py_int_digit_string; [exact N2|cbn; tauto|exact N1|exact N3].
Qed.
Lemma bit_of_at k e n : bare_index (SSig k e) -> (bit_of e = Ok n <-> bit_at e n).
Proof.
  intros B. split.
  - intros H. destruct e as [| | | | | | | |v i| |]; try (injection H as <-; apply ba_whole; discriminate).
    destruct i; try discriminate H. constructor. apply int_of_decimal; [exact (B _ _ _ eq_refl)|exact H].
  - intros H. destruct H as [v s n H|e H]; [apply int_of_decimal; [exact (B _ _ _ eq_refl)|exact H]|].
    destruct e; try reflexivity. exfalso. exact (H _ _ eq_refl).
Qed.

(** ** The loop *)
Section Loop.
  Variable is_module : chain -> bool.
  Variable s : store.
  Variable scope : chain.
  Notation loop := (sens_loop is_module s scope).
  Notation sees := (visible is_module s scope).
  Notation search x := (searchTerminal is_module s scope x).
  Definition pick3 (o : option event) : option (option chain * edge * Z) := match o with Some v => Some (ev_name v, ev_edge v, ev_bit v) | None => None end.

  Lemma loop_app a b st : loop (a ++ b)%list st = do x <- loop a st; loop b x.
  Proof.
    revert st. induction a as [|[|k e] a IH]; intros st; cbn [app sens_loop]; [reflexivity|apply IH|].
    destruct (bit_of e); [|reflexivity]. cbn [bind]. destruct (get_signal_name e); [|reflexivity]. apply IH.
  Qed.
  Lemma found_search x : found sees x (search x).
  Proof.
    unfold found. destruct (search x) as [c|] eqn:E; [now apply search_visible|]. intros c V. apply search_visible in V. congruence.
  Qed.
  Lemma item_is_fun i k x n k' x' n' : item_is i k x n -> item_is i k' x' n' -> k = k' /\ x = x' /\ (bare_index i -> n = n').
  Proof.
    intros (e & -> & S & N) (e' & E & S' & N'). injection E as -> <-. apply name_signal in S, S'. split; [reflexivity|]. split; [congruence|].
    intros B. apply (bit_of_at k' _ _ B) in N, N'. congruence.
  Qed.
  Lemma recorded_snoc (P : sensitem -> Prop) l i : ~ P i -> forall o, recorded sees P l o -> recorded sees P (l ++ [i])%list o.
  Proof.
    intros N [[[c k] n]|] H; cbn [recorded] in *.
    - destruct H as (j & x & (a & b & -> & Pj & F) & H). exists j, x. split; [|exact H]. exists a, (b ++ [i])%list.
      split; [now rewrite <- app_assoc|]. split; [exact Pj|]. apply Forall_app. split; [exact F|]. constructor; [exact N|constructor].
    - apply Forall_app. split; [exact H|]. constructor; [exact N|constructor].
  Qed.
  Lemma only_snoc_take (P : sensitem -> Prop) l r i : P i -> only P l r -> only P (l ++ [i])%list (r ++ [i])%list.
  Proof. intros Pi. induction 1; cbn; [apply only_take; [exact Pi|constructor]|now apply only_take|now apply only_drop]. Qed.
  Lemma only_snoc_drop (P : sensitem -> Prop) l r i : ~ P i -> only P l r -> only P (l ++ [i])%list r.
  Proof. intros Pi. induction 1; cbn; [apply only_drop; [exact Pi|constructor]|now apply only_take|now apply only_drop]. Qed.
  Lemma recorded_last (P : sensitem -> Prop) l i k x n : P i -> item_is i k x n -> recorded sees P (l ++ [i])%list (Some (search x, k, n)).
  Proof. intros Pi H. exists i, x. split; [|split; [exact H|apply found_search]]. exists l, []. split; [reflexivity|]. split; [exact Pi|constructor]. Qed.
  Lemma class i k x n : item_is i k x n ->
    (is_clock i <-> clock_word x) /\ (is_reset i <-> ~ clock_word x /\ reset_word x) /\ (other_item i <-> ~ clock_word x /\ ~ reset_word x).
  Proof.
    intros H. split; [|split].
    - split; [intros (k' & x' & n' & H' & W); destruct (item_is_fun _ _ _ _ _ _ _ H H') as (_ & -> & _); exact W|]. intros W. exists k, x, n. split; assumption.
    - split; [intros (k' & x' & n' & H' & W); destruct (item_is_fun _ _ _ _ _ _ _ H H') as (_ & -> & _); exact W|]. intros W. exists k, x, n. split; assumption.
    - split; [intros (k' & x' & n' & H' & W); destruct (item_is_fun _ _ _ _ _ _ _ H H') as (_ & -> & _); exact W|]. intros W. exists k, x, n. split; assumption.
  Qed.
  Lemma not_item : forall k x n, ~ item_is SAll k x n.
  Proof. intros k x n (e & E & _). discriminate. Qed.
  Lemma no_class : ~ is_clock SAll /\ ~ is_reset SAll /\ ~ other_item SAll.
  Proof. split; [|split]; intros (k & x & n & H & _); exact (not_item _ _ _ H). Qed.

  Lemma loop_total l : Forall bare_index l -> Forall clear l -> forall st, exists a, loop l st = Ok a.
  Proof.
    induction l as [|i l IH]; intros B C st; [exists st; reflexivity|]. inversion B as [|? ? B1 B2]; inversion C as [|? ? C1 C2]; subst.
    destruct C1 as [->|(k & x & n & e & -> & S & N)]; [exact (IH B2 C2 st)|]. cbn [sens_loop].
    apply (bit_of_at k _ _ B1) in N. rewrite N. cbn [bind]. apply name_signal in S. rewrite S. apply (IH B2 C2).
  Qed.
  Lemma loop_says l : Forall bare_index l -> forall a, loop l (Sens None None []) = Ok a ->
    Forall clear l /\ recorded sees is_clock l (pick3 (se_clock a)) /\ recorded sees is_reset l (pick3 (se_reset a)) /\ only other_item l (se_others a).
  Proof.
    induction l as [|i l IH] using rev_ind; intros B a H.
    - cbn in H. injection H as <-. cbn. split; [constructor|]. split; [constructor|]. split; constructor.
    - rewrite loop_app in H. destruct (loop l (Sens None None [])) as [b|] eqn:E; [|discriminate]. cbn [bind] in H.
      apply Forall_app in B as [B1 B2]. inversion B2 as [|? ? B3 _]; subst. destruct (IH B1 b eq_refl) as (C & RC & RR & RO). clear IH B2.
      destruct i as [|k e]; cbn [sens_loop] in H.
      + injection H as <-. destruct no_class as (N1 & N2 & N3). split; [apply Forall_app; split; [exact C|constructor; [now left|constructor]]|].
        split; [now apply recorded_snoc|]. split; [now apply recorded_snoc|now apply only_snoc_drop].
      + destruct (bit_of e) as [n|] eqn:En; [|discriminate]. cbn [bind] in H. destruct (get_signal_name e) as [x|] eqn:Ex; [|discriminate].
        assert (I : item_is (SSig k e) k x n). { exists e. split; [reflexivity|]. split; [now apply name_signal|now apply (bit_of_at k)]. }
        destruct (class _ _ _ _ I) as (K1 & K2 & K3).
        split; [apply Forall_app; split; [exact C|constructor; [right; exists k, x, n; exact I|constructor]]|].
        destruct (isClock x) eqn:Ec; [|destruct (isReset x) eqn:Er]; injection H as <-; cbn [se_clock se_reset se_others].
        * apply isClock_word in Ec. split; [apply recorded_last; [now apply K1|exact I]|].
          split; [apply recorded_snoc; [intros K; apply K2 in K; tauto|exact RR]|]. apply only_snoc_drop; [intros K; apply K3 in K; tauto|exact RO].
        * assert (Ec' : ~ clock_word x) by (intros W; apply isClock_word in W; congruence). apply isReset_word in Er.
          split; [apply recorded_snoc; [intros K; apply K1 in K; tauto|exact RC]|].
          split; [apply recorded_last; [now apply K2|exact I]|]. apply only_snoc_drop; [intros K; apply K3 in K; tauto|exact RO].
        * assert (Ec' : ~ clock_word x) by (intros W; apply isClock_word in W; congruence).
          assert (Er' : ~ reset_word x) by (intros W; apply isReset_word in W; congruence).
          split; [apply recorded_snoc; [intros K; apply K1 in K; tauto|exact RC]|].
          split; [apply recorded_snoc; [intros K; apply K2 in K; tauto|exact RR]|]. apply only_snoc_take; [now apply K3|exact RO].
  Qed.
  Lemma only_none P l r : only P l r -> (r = [] <-> ~ Exists P l).
  Proof.
    induction 1 as [|i l r Pi H IH|i l r Pi H IH].
    - split; [intros _ K; inversion K|reflexivity].
    - split; [discriminate|]. intros K. exfalso. apply K. now constructor.
    - rewrite IH. split; intros K L; apply K; [inversion L; [contradiction|assumption]|now constructor 2].
  Qed.
  Lemma recorded_some P l o : recorded sees P l o -> (o = None <-> ~ Exists P l).
  Proof.
    destruct o as [[[c k] n]|]; cbn [recorded]; intros H.
    - split; [discriminate|]. intros K. exfalso. apply K. destruct H as (i & x & (a & b & -> & Pi & _) & _). apply Exists_exists. exists i. split; [|exact Pi]. apply in_or_app. right. now left.
    - split; [|reflexivity]. intros _ K. apply Exists_exists in K as (i & Hi & Pi). rewrite Forall_forall in H. exact (H i Hi Pi).
  Qed.
  Lemma recorded_exists P l o : recorded sees P l o -> (o <> None <-> Exists P l).
  Proof.
    destruct o as [[[c k] n]|]; cbn [recorded]; intros H.
    - split; [intros _|discriminate]. destruct H as (i & x & (a & b & -> & Pi & _) & _). apply Exists_exists. exists i. split; [|exact Pi]. apply in_or_app. right. now left.
    - split; [congruence|]. intros K. apply Exists_exists in K as (i & Hi & Pi). rewrite Forall_forall in H. exfalso. exact (H i Hi Pi).
  Qed.
  Lemma only_exists P l r : only P l r -> (r <> [] <-> Exists P l).
  Proof.
    induction 1 as [|i l r Pi H IH|i l r Pi H IH].
    - split; [congruence|intros K; inversion K].
    - split; [intros _; now constructor|discriminate].
    - rewrite IH. split; intros K; [now constructor 2|inversion K; [contradiction|assumption]].
  Qed.
  Lemma is_some_pick o : is_some o = true <-> pick3 o <> None.
  Proof. destruct o; cbn; split; congruence. Qed.
  Lemma length_nil {A} (l : list A) : negb (Nat.eqb (length l) 0) = true <-> l <> [].
  Proof. destruct l; cbn; split; congruence. Qed.

  Definition mix (a : sens) : bool := is_some (se_clock a) && negb (Nat.eqb (length (se_others a)) 0) || is_some (se_reset a) && negb (Nat.eqb (length (se_others a)) 0).
  Lemma create_mix l : createAlwaysinfo is_module s scope l = do a <- loop l (Sens None None []); if mix a then Err FormatError else Ok a.
  Proof.
    unfold createAlwaysinfo, mix. destruct (loop l (Sens None None [])); [|reflexivity]. cbn [bind].
    destruct (is_some (se_clock a) && negb (Nat.eqb (length (se_others a)) 0)); reflexivity.
  Qed.
  Lemma mix_mixed l a : Forall bare_index l -> loop l (Sens None None []) = Ok a -> (mix a = true <-> mixed l).
  Proof.
    intros B H. destruct (loop_says l B a H) as (_ & RC & RR & RO). unfold mix, mixed. rewrite orb_true_iff, !andb_true_iff, !is_some_pick, !length_nil.
    rewrite (recorded_exists _ _ _ RC), (recorded_exists _ _ _ RR), (only_exists _ _ _ RO). tauto.
  Qed.
  Theorem create_iff l : Forall bare_index l -> ((exists a, createAlwaysinfo is_module s scope l = Ok a) <-> Forall clear l /\ ~ mixed l).
  Proof.
    intros B. split.
    - intros (a & H). rewrite create_mix in H. destruct (loop l (Sens None None [])) as [b|] eqn:E; [|discriminate]. cbn [bind] in H.
      destruct (mix b) eqn:M; [discriminate|]. destruct (loop_says l B b E) as (C & _). split; [exact C|]. intros K. apply (mix_mixed l b B E) in K. congruence.
    - intros [C M]. destruct (loop_total l B C (Sens None None [])) as (a & H). exists a. rewrite create_mix, H. cbn [bind].
      destruct (mix a) eqn:E; [|reflexivity]. exfalso. apply M. now apply (mix_mixed l a B H).
  Qed.
  Theorem create_says l a : Forall bare_index l -> createAlwaysinfo is_module s scope l = Ok a ->
    recorded sees is_clock l (pick3 (se_clock a)) /\ recorded sees is_reset l (pick3 (se_reset a)) /\ only other_item l (se_others a).
  Proof.
    intros B H. rewrite create_mix in H. destruct (loop l (Sens None None [])) as [b|] eqn:E; [|discriminate]. cbn [bind] in H.
    destruct (mix b); [discriminate|]. injection H as <-. apply (loop_says l B b E).
  Qed.
  Lemma loop_errors l : forall st e, loop l st = Err e -> In e [AttributeError; TypeError; ValueError].
  Proof.
    induction l as [|[|k e] l IH]; intros st x H; [discriminate|exact (IH _ _ H)|]. cbn [sens_loop] in H.
    destruct (bit_of e) as [n|y] eqn:E.
    - cbn [bind] in H. destruct (get_signal_name e); [exact (IH _ _ H)|injection H as <-; cbn; tauto].
    - injection H as <-. destruct e as [| | | | | | | |v i| |]; try discriminate E. destruct i as [| i | | | | | | | | |]; try (injection E as <-; cbn; tauto).
      cbn [bit_of] in E. unfold int_of in E. destruct (single_underscores false i); [|injection E as <-; cbn; tauto].
      assert (PD : forall b t a z, parse_digits b t a = Err z -> z = ValueError).
      { intros b t. induction t as [|c t IHt]; intros a z K; [discriminate|]. cbn [parse_digits] in K. destruct (digit_val c); [|congruence]. destruct (_ <? _)%Z; [exact (IHt _ _ K)|congruence]. }
      assert (PI : forall b t z, py_int_digits b t = Err z -> z = ValueError).
      { intros b t z K. unfold py_int_digits in K. destruct (nonempty _); [exact (PD _ _ _ _ K)|congruence]. }
      right. right. left. symmetry. unfold py_int in E. destruct (rstrip _) as [|c r]; [congruence|]. destruct (Ascii.eqb c "-").
      + destruct (py_int_digits 10 r) eqn:K; [discriminate|]. cbn in E. injection E as <-. exact (PI _ _ _ K).
      + destruct (Ascii.eqb c "+"); exact (PI _ _ _ E).
  Qed.
  Theorem create_format l : Forall bare_index l -> (createAlwaysinfo is_module s scope l = Err FormatError <-> Forall clear l /\ mixed l).
  Proof.
    intros B. split.
    - intros H. rewrite create_mix in H. destruct (loop l (Sens None None [])) as [b|e] eqn:E; cbn [bind] in H.
      + destruct (mix b) eqn:M; [|discriminate]. destruct (loop_says l B b E) as (C & _). split; [exact C|]. now apply (mix_mixed l b B E).
      + injection H as ->. apply loop_errors in E. cbn in E. intuition discriminate.
    - intros [C M]. destruct (loop_total l B C (Sens None None [])) as (a & H). rewrite create_mix, H. cbn [bind]. apply (mix_mixed l a B H) in M. now rewrite M.
  Qed.
End Loop.
