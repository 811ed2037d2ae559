(** ShowProofs.v - lemmas on the listing and the drawing of state machines. *)
From Verif Require Import Base ScopeModel ScopeSpec ScopeProofs ScopeFlat DfModel CodeModel CodeSpec GraphModel FsmModel FsmSpec ShowModel ShowSpec.
Local Open Scope Z_scope.

(** ** label_range *)
Definition spans (b : bounds) (P : Z -> Prop) : Prop :=
  match b with
  | (None, None) => forall s, ~ P s
  | (Some a, Some c) => P a /\ P c /\ forall s, P s -> a <= s <= c
  | _ => False
  end.
Lemma spans_ext b P Q : (forall s, P s <-> Q s) -> spans b P -> spans b Q.
Proof.
  intros H. destruct b as [[a|] [c|]]; cbn; auto.
  - intros (A & B & C). split; [now apply H|]. split; [now apply H|]. intros s Hs. now apply C, H.
  - intros A s Hs. now apply (A s), H.
Qed.
Lemma spans_widen b P x : spans b P -> spans (widen b x) (fun s => P s \/ s = x).
Proof.
  destruct b as [[a|] [c|]]; cbn [spans widen fst snd]; try contradiction.
  - intros (A & B & C). assert (a <= c) as D by (apply C in B; lia).
    destruct (x <? a) eqn:E1, (c <? x) eqn:E2; try apply Z.ltb_lt in E1; try apply Z.ltb_lt in E2; try apply Z.ltb_ge in E1; try apply Z.ltb_ge in E2.
    + lia.
    + split; [auto|]. split; [auto|]. intros s [H| ->]; [apply C in H|]; lia.
    + split; [auto|]. split; [auto|]. intros s [H| ->]; [apply C in H|]; lia.
    + split; [auto|]. split; [auto|]. intros s [H| ->]; [apply C in H|]; lia.
  - intros A. split; [auto|]. split; [auto|]. intros s [H| ->]; [now apply A in H|lia].
Qed.
Lemma spans_fold l : forall b P, spans b P -> spans (fold_left widen l b) (fun s => P s \/ In s l).
Proof.
  induction l as [|x l IH]; intros b P H; cbn [fold_left].
  - revert H. apply spans_ext. cbn. tauto.
  - specialize (IH _ _ (spans_widen _ _ x H)). revert IH. apply spans_ext. intros s. cbn. intuition.
Qed.
Lemma spans_states f : forall b P, spans b P ->
  spans (fold_left (fun b p => fold_left widen (map (@snd df Z) (snd p)) (widen b (fst p))) f b)
        (fun s => P s \/ exists q dd, In (q, dd) f /\ (s = q \/ In s (map (@snd df Z) dd))).
Proof.
  induction f as [|[q dd] f IH]; intros b P H; cbn [fold_left fst snd].
  - revert H. apply spans_ext. intros s. split; [auto|]. intros [?|(? & ? & [] & _)]; auto.
  - specialize (IH _ _ (spans_fold (map (@snd df Z) dd) _ _ (spans_widen _ _ q H))). revert IH. apply spans_ext. intros s. split.
    + intros [[[?| ->]|?]|(q' & dd' & ? & ?)]; [auto|right; exists q, dd; cbn; auto|right; exists q, dd; cbn; auto|right; exists q', dd'; cbn; auto].
    + intros [?|(q' & dd' & [E|?] & K)]; [auto| |right; exists q', dd'; auto].
      injection E as -> ->. destruct K as [-> |?]; auto.
Qed.
Lemma known_iff m s : known m s <-> exists q dd, In (q, dd) (m_fsm m) /\ (s = q \/ In s (map (@snd df Z) dd)).
Proof.
  unfold known, source, has. split.
  - intros [H|(q & c & dd & A & B)].
    + apply in_map_iff in H as ([q dd] & <- & H). exists q, dd. auto.
    + exists q, dd. split; [auto|]. right. apply in_map_iff. exists (c, s). auto.
  - intros (q & dd & A & [-> |B]); [left; apply in_map_iff; now exists (q, dd)|].
    apply in_map_iff in B as ([c d] & <- & B). right. exists q, c, dd. auto.
Qed.
Lemma range_spans m : spans (label_range m) (known m).
Proof.
  pose proof (spans_states (m_fsm m) (None, None) (fun _ => False)) as H. cbn in H. specialize (H (fun _ H => H)).
  unfold label_range. revert H. apply spans_ext. intros s. rewrite known_iff. tauto.
Qed.

(** ** view *)
Definition listed (m : machine) : list transition :=
  map (fun t => (None, fst t, snd t)) (m_any m) ++ flat_map (fun p => map (fun t => (Some (fst p), fst t, snd t)) (snd p)) (m_fsm m).
Lemma listed_iff m t : In t (listed m) <-> has m t.
Proof.
  unfold listed. rewrite in_app_iff, in_map_iff, in_flat_map. destruct t as [[[s|] c] d]; cbn.
  - split.
    + intros [([c' d'] & E & _)|([q dd] & A & B)]; [discriminate|]. cbn in B. apply in_map_iff in B as ([c' d'] & E & B).
      injection E as <- <- <-. exists dd. auto.
    + intros (dd & A & B). right. exists (s, dd). split; [auto|]. apply in_map_iff. exists (c, d). auto.
  - split.
    + intros [([c' d'] & E & H)|([q dd] & A & B)]; [injection E as <- <-; auto|]. cbn in B. apply in_map_iff in B as ([c' d'] & E & B). discriminate.
    + intros H. left. exists (c, d). auto.
Qed.
Definition line_of (t : transition) : res string :=
  match t with (s, c, d) => do x <- cond_code c; Ok (line s x d) end.
Lemma app_assoc_s a b c : ((a ++ b) ++ c)%string = (a ++ b ++ c)%string.
Proof. induction a; cbn; congruence. Qed.
Lemma view_lines m : view m = print_all (map line_of (listed m)).
Proof.
  unfold view, listed. rewrite map_app, map_map. f_equal. f_equal.
  - induction (m_fsm m) as [|[q dd] f IH]; cbn [flat_map map]; [reflexivity|]. rewrite map_app, map_map. f_equal; [|exact IH].
    apply map_ext. intros [c d]. cbn. unfold state_line, line, who. cbn [fst snd]. destruct (cond_code c); cbn [bind]; [|reflexivity].
    now rewrite app_assoc_s.
Qed.
Lemma print_all_ok ls out : print_all ls = (out, None) <-> ls = map (@Ok string) out.
Proof.
  revert out. induction ls as [|[l|e] ls IH]; intros out; cbn.
  - destruct out; split; try discriminate; reflexivity.
  - destruct (print_all ls) as [a e] eqn:E. split.
    + intros H. injection H as <- ->. cbn. f_equal. now apply IH.
    + destruct out as [|o out]; [discriminate|]. cbn. intros H. injection H as -> H. apply IH in H. injection H as -> ->. reflexivity.
  - split; [discriminate|]. destruct out; discriminate.
Qed.

(** ** Reading a line *)
Lemma char_z_str c s : (forall d, (0 <= d < 10)%Z -> Ascii.eqb c (digit_char d) = false) -> Ascii.eqb c "-" = false -> has_char c (z_str s) = false.
Proof.
  intros H H'. assert (forall n, has_char c (nat_str n) = false) as K by (intros; apply pos_digits_chars; [exact H|reflexivity]).
  unfold z_str. destruct (s <? 0); [|apply K]. cbn [has_char append]. now rewrite H', K.
Qed.
Ltac each_digit := let d := fresh "d" in let H := fresh "H" in let D := fresh "D" in
  intros d H; assert (d = 0 \/ d = 1 \/ d = 2 \/ d = 3 \/ d = 4 \/ d = 5 \/ d = 6 \/ d = 7 \/ d = 8 \/ d = 9) as D by lia;
  repeat (destruct D as [-> |D]; [reflexivity|]); rewrite D; reflexivity.
Lemma spaceless s : has_char " " (z_str s) = false.
Proof. apply char_z_str; [each_digit|reflexivity]. Qed.
Lemma not_any s : z_str s <> "any"%string.
Proof.
  intros E. assert (has_char "a" (z_str s) = false) as H by (apply char_z_str; [each_digit|reflexivity]).
  rewrite E in H. discriminate.
Qed.
Lemma cut_first c : forall a a' b b', has_char c a = false -> has_char c a' = false ->
  (a ++ String c b)%string = (a' ++ String c b')%string -> a = a' /\ b = b'.
Proof.
  induction a as [|x a IH]; intros [|y a'] b b' Ha Ha' E; cbn in E; cbn [has_char] in Ha, Ha'.
  - injection E as ->. auto.
  - injection E as -> ->. rewrite Ascii.eqb_refl in Ha'. discriminate.
  - injection E as -> <-. rewrite Ascii.eqb_refl in Ha. discriminate.
  - injection E as -> E. apply orb_false_iff in Ha as [_ Ha]. apply orb_false_iff in Ha' as [_ Ha'].
    destruct (IH a' b b' Ha Ha' E) as [-> ->]. auto.
Qed.
Lemma has_app c a b : has_char c (a ++ b) = has_char c a || has_char c b.
Proof. induction a as [|x a IH]; cbn; [reflexivity|]. now rewrite IH, orb_assoc. Qed.
Lemma cut_last c : forall a a' b b', has_char c b = false -> has_char c b' = false ->
  (a ++ String c b)%string = (a' ++ String c b')%string -> a = a' /\ b = b'.
Proof.
  induction a as [|x a IH]; intros [|y a'] b b' Hb Hb' E; cbn in E.
  - injection E as ->. auto.
  - injection E as -> ->. rewrite has_app in Hb. cbn [has_char] in Hb. rewrite Ascii.eqb_refl in Hb. rewrite orb_true_r in Hb. discriminate.
  - injection E as -> <-. rewrite has_app in Hb'. cbn [has_char] in Hb'. rewrite Ascii.eqb_refl in Hb'. rewrite orb_true_r in Hb'. discriminate.
  - injection E as -> E. destruct (IH a' b b' Hb Hb' E) as [-> ->]. auto.
Qed.
Lemma append_length a b : String.length (a ++ b) = (String.length a + String.length b)%nat.
Proof. induction a; cbn; congruence. Qed.
Lemma line_reads s x d s' x' d' : line s x d = line s' x' d' -> s = s' /\ x = x' /\ d = d'.
Proof.
  unfold line. intros E.
  assert (forall a y e, (a ++ y ++ "--> " ++ z_str e)%string = ((a ++ y ++ "-->") ++ String " " (z_str e))%string) as K.
  { intros a y e. rewrite !app_assoc_s. reflexivity. }
  rewrite !K in E. apply cut_last in E; [|apply spaceless|apply spaceless]. destruct E as [E Ed]. apply z_str_inj in Ed. subst d'.
  assert (forall a b y, (a ++ y)%string = (b ++ y)%string -> a = b) as C.
  { clear. intros a b y. revert b. induction a as [|c a IH]; intros [|e b] E; cbn in E; auto.
    - exfalso. apply (f_equal String.length) in E. cbn in E. rewrite append_length in E. lia.
    - exfalso. apply (f_equal String.length) in E. cbn in E. rewrite append_length in E. lia.
    - injection E as -> E. f_equal. auto. }
  rewrite <- !app_assoc_s in E. apply C in E. clear K C.
  destruct s as [s|], s' as [s'|]; cbn [who] in E; rewrite ?app_assoc_s in E.
  - apply (cut_first " ") in E as [A B]; [|apply spaceless|apply spaceless]. apply z_str_inj in A. injection B as ->. subst s'. auto.
  - apply (cut_first " " (z_str s) "any" (String "-" (String "-" x)) (String "-" (String "-" (String " " x')))) in E as [A B]; [|apply spaceless|reflexivity]. destruct (not_any s A).
  - symmetry in E. apply (cut_first " " (z_str s') "any" (String "-" (String "-" x')) (String "-" (String "-" (String " " x)))) in E as [A B]; [|apply spaceless|reflexivity]. destruct (not_any s' A).
  - injection E as ->. auto.
Qed.

(** ** tograph *)
Section Draw.
  Variable nolabel : bool.
  (** What is drawn so far: these states, these transitions. *)
  Record drawn (N : Z -> Prop) (E : Z -> Z -> df -> Prop) (g : graph) : Prop := {
    dr_nodes : NoDup (map fst (g_nodes g));
    dr_edges : NoDup (map fst (g_edges g));
    dr_node : forall n, In n (map fst (g_nodes g)) <-> exists s, n = z_str s /\ N s;
    dr_name : forall n l, In (n, l) (g_nodes g) -> l = n;
    dr_edge : forall a b, In (a, b) (map fst (g_edges g)) <-> exists s d c, a = z_str s /\ b = z_str d /\ E s d c;
    dr_label : forall s d l, In ((z_str s, z_str d), l) (g_edges g) ->
      if nolabel then l = EmptyString else exists c, E s d c /\ str_cond c = Ok l }.
  Lemma drawn_ext N E g N' E' : (forall s, N s <-> N' s) -> (forall s d c, E s d c <-> E' s d c) -> drawn N E g -> drawn N' E' g.
  Proof.
    intros HN HE [A B C D F G]. split; auto.
    - intros n. rewrite C. split; intros (s & ? & ?); exists s; (split; [auto|now apply HN]).
    - intros a b. rewrite F. split; intros (s & d & c & ? & ? & ?); exists s, d, c; (split; [auto|]; split; [auto|now apply HE]).
    - intros s d l H. specialize (G s d l H). destruct nolabel; [auto|]. destruct G as (c & ? & ?). exists c. split; [now apply HE|auto].
  Qed.
  Lemma sset_keys {V} (d : list (string * V)) k v x : In x (map fst (sset d k v)) <-> In x (map fst d) \/ x = k.
  Proof.
    induction d as [|[k' v'] d IH]; cbn; [intuition|]. destruct (String.eqb_spec k' k) as [->|N]; cbn; [intuition|]. rewrite IH. intuition.
  Qed.
  Lemma sset_nodup {V} (d : list (string * V)) k v : NoDup (map fst d) -> NoDup (map fst (sset d k v)).
  Proof.
    induction d as [|[k' v'] d IH]; cbn; intros H; [repeat constructor; auto|]. inversion H as [|? ? H1 H2]; subst.
    destruct (String.eqb_spec k' k) as [->|N]; cbn; constructor; auto. rewrite sset_keys. intros [?| ->]; auto.
  Qed.
  Lemma sset_in {V} (d : list (string * V)) k v x y : In (x, y) (sset d k v) -> In (x, y) d \/ (x = k /\ y = v).
  Proof.
    induction d as [|[k' v'] d IH]; cbn; [intros [E|[]]; injection E as <- <-; auto|].
    destruct (String.eqb_spec k' k) as [->|N]; cbn; intros [E|H]; auto; [injection E as <- <-; auto|]. destruct (IH H); auto.
  Qed.
  Lemma pair_eqb (p q : string * string) : reflect (p = q) (String.eqb (fst p) (fst q) && String.eqb (snd p) (snd q)).
  Proof.
    destruct p as [a b], q as [c d]; cbn [fst snd]. destruct (String.eqb_spec a c) as [->|N]; destruct (String.eqb_spec b d) as [->|M]; cbn; constructor; congruence.
  Qed.
  Lemma eset_keys {V} (d : list ((string * string) * V)) k v x : In x (map fst (eset d k v)) <-> In x (map fst d) \/ x = k.
  Proof.
    induction d as [|[k' v'] d IH]; cbn [eset map fst In]; [intuition|]. destruct (pair_eqb k' k) as [->|N]; cbn [map fst In]; [intuition|]. rewrite IH. intuition.
  Qed.
  Lemma eset_nodup {V} (d : list ((string * string) * V)) k v : NoDup (map fst d) -> NoDup (map fst (eset d k v)).
  Proof.
    induction d as [|[k' v'] d IH]; cbn [eset map fst]; intros H; [repeat constructor; auto|]. inversion H as [|? ? H1 H2]; subst.
    destruct (pair_eqb k' k) as [->|N]; cbn [map fst]; constructor; auto. rewrite eset_keys. intros [?| ->]; auto.
  Qed.
  Lemma eset_in {V} (d : list ((string * string) * V)) k v x y : NoDup (map fst d) -> In (x, y) (eset d k v) -> (x <> k /\ In (x, y) d) \/ (x = k /\ y = v).
  Proof.
    induction d as [|[k' v'] d IH]; cbn [eset map fst In]; [intros _ [E|[]]; injection E as <- <-; auto|]. intros H. inversion H as [|? ? H1 H2]; subst.
    destruct (pair_eqb k' k) as [->|N]; cbn [map fst In]; intros [E|K].
    - injection E as <- <-. auto.
    - left. split; [|auto]. intros ->. apply H1, in_map_iff. now exists (k, y).
    - injection E as <- <-. auto.
    - destruct (IH H2 K) as [[? ?]|?]; auto.
  Qed.

  Lemma drawn_node N E g s : drawn N E g -> drawn (fun x => N x \/ x = s) E (add_node g (z_str s) (z_str s)).
  Proof.
    intros [A B C D F G]. split; cbn [add_node g_nodes g_edges]; auto.
    - now apply sset_nodup.
    - intros n. rewrite sset_keys, C. split.
      + intros [(x & ? & ?)| ->]; [exists x; auto|exists s; auto].
      + intros (x & -> & [?| ->]); [left; exists x; auto|auto].
    - intros n l H. apply sset_in in H as [H|[-> ->]]; auto.
  Qed.
  Lemma drawn_edge N E g s c d l : drawn N E g -> (if nolabel then l = EmptyString else str_cond c = Ok l) ->
    drawn N (fun x y z => E x y z \/ (x = s /\ y = d /\ z = c)) (add_edge g (z_str s) (z_str d) l).
  Proof.
    intros [A B C D F G] L. split; cbn [add_edge g_nodes g_edges]; auto.
    - now apply eset_nodup.
    - intros a b. rewrite eset_keys, F. split.
      + intros [(x & y & z & -> & -> & ?)|K]; [exists x, y, z; auto|]. injection K as -> ->. exists s, d, c. auto 6.
      + intros (x & y & z & -> & -> & [?|(-> & -> & ->)]); [left; exists x, y, z; auto|auto].
    - intros x y k H. apply eset_in in H as [[H1 H2]|[H1 ->]]; auto.
      + specialize (G x y k H2). destruct nolabel; [auto|]. destruct G as (z & ? & ?). exists z. auto.
      + injection H1 as H1 H3. apply z_str_inj in H1, H3. subst. destruct nolabel; [auto|]. exists c. auto.
  Qed.
  Lemma draw_edge_ok N E s c d g g' : drawn N E g -> draw_edge nolabel s g (c, d) = Ok g' ->
    drawn (fun x => N x \/ x = d) (fun x y z => E x y z \/ (x = s /\ y = d /\ z = c)) g'.
  Proof.
    intros H K. unfold draw_edge in K. cbn [fst snd] in K. apply (drawn_node _ _ _ d) in H.
    assert (exists l, (if nolabel then l = EmptyString else str_cond c = Ok l) /\ add_edge (add_node g (z_str d) (z_str d)) (z_str s) (z_str d) l = g') as (l & L & <-).
    { destruct nolabel; [injection K as <-; eauto|]. destruct (str_cond c) as [l|]; cbn [bind] in K; [|discriminate]. injection K as <-. eauto. }
    now apply drawn_edge.
  Qed.
  Lemma draw_edges_ok s ts : forall N E g g', drawn N E g -> draw_edges nolabel s ts g = Ok g' ->
    drawn (fun x => N x \/ In x (map (@snd df Z) ts)) (fun x y z => E x y z \/ (x = s /\ In (z, y) ts)) g'.
  Proof.
    induction ts as [|[c d] ts IH]; intros N E g g' H K; cbn [draw_edges] in K.
    - injection K as <-. revert H. apply drawn_ext; intros; cbn; tauto.
    - destruct (draw_edge nolabel s g (c, d)) as [g1|] eqn:E1; cbn [bind] in K; [|discriminate].
      specialize (IH _ _ _ _ (draw_edge_ok _ _ _ _ _ _ _ H E1) K). revert IH. apply drawn_ext.
      + intros x. cbn. intuition.
      + intros x y z. cbn. split; [intros [[?|(-> & -> & ->)]|[-> ?]]; auto|].
        intros [?|[-> [E'|?]]]; auto. injection E' as -> ->. auto.
  Qed.
  Lemma draw_states_ok f : forall N E g g', drawn N E g -> draw_states nolabel f g = Ok g' ->
    drawn (fun x => N x \/ exists q dd, In (q, dd) f /\ (x = q \/ In x (map (@snd df Z) dd)))
          (fun x y z => E x y z \/ exists dd, In (x, dd) f /\ In (z, y) dd) g'.
  Proof.
    induction f as [|[q dd] f IH]; intros N E g g' H K; cbn [draw_states] in K.
    - injection K as <-. revert H. apply drawn_ext; intros; (split; [auto|]); [intros [?|(? & ? & [] & _)]|intros [?|(? & [] & _)]]; auto.
    - destruct (draw_edges nolabel q dd (add_node g (z_str q) (z_str q))) as [g1|] eqn:E1; cbn [bind] in K; [|discriminate].
      specialize (IH _ _ _ _ (draw_edges_ok _ _ _ _ _ _ (drawn_node _ _ _ q H) E1) K). revert IH. apply drawn_ext.
      + intros x. split.
        * intros [[[?| ->]|?]|(q' & dd' & ? & ?)]; [auto|right; exists q, dd; cbn; auto|right; exists q, dd; cbn; auto|right; exists q', dd'; cbn; auto].
        * intros [?|(q' & dd' & [E'|?] & M)]; [auto| |right; exists q', dd'; auto]. injection E' as -> ->. destruct M as [-> |?]; auto.
      + intros x y z. split.
        * intros [[?|[-> ?]]|(dd' & ? & ?)]; [auto|right; exists dd; cbn; auto|right; exists dd'; cbn; auto].
        * intros [?|(dd' & [E'|?] & M)]; [auto| |right; exists dd'; auto]. injection E' as -> ->. auto.
  Qed.
  Lemma draw_any_ok any srcs : forall N E g g', drawn N E g -> draw_any nolabel srcs any g = Ok g' ->
    drawn (fun x => N x \/ (srcs <> [] /\ In x (map (@snd df Z) any))) (fun x y z => E x y z \/ (In x srcs /\ In (z, y) any)) g'.
  Proof.
    induction srcs as [|s srcs IH]; intros N E g g' H K; cbn [draw_any] in K.
    - injection K as <-. revert H. apply drawn_ext; intros; cbn; tauto.
    - destruct (draw_edges nolabel s any g) as [g1|] eqn:E1; cbn [bind] in K; [|discriminate].
      specialize (IH _ _ _ _ (draw_edges_ok _ _ _ _ _ _ H E1) K). revert IH. apply drawn_ext.
      + intros x. split; [intros [[?|?]|[? ?]]; auto; right; (split; [discriminate|auto])|intros [?|[_ ?]]; auto].
      + intros x y z. cbn. split; [intros [[?|[-> ?]]|[? ?]]; auto|intros [?|[[-> |?] ?]]; auto].
  Qed.
  Lemma tograph_drawn m g : tograph nolabel m = Ok g ->
    drawn (fun x => known m x \/ (m_fsm m <> [] /\ exists c, has m (None, c, x))) (leads m) g.
  Proof.
    unfold tograph. intros K. destruct (draw_states nolabel (m_fsm m) (Graph [] [])) as [g1|] eqn:E1; cbn [bind] in K; [|discriminate].
    assert (drawn (fun _ => False) (fun _ _ _ => False) (Graph [] [])) as H.
    { split; cbn; try constructor; try tauto; try (intros (? & _ & []));  try (intros (? & ? & ? & _ & _ & [])). }
    apply (draw_states_ok _ _ _ _ _ H) in E1. apply (draw_any_ok _ _ _ _ _ _ E1) in K. revert K. apply drawn_ext.
    - intros x. rewrite known_iff. split.
      + intros [[[]|?]|[A B]]; [auto|]. right. split; [intros H0; rewrite H0 in A; now apply A|]. apply in_map_iff in B as ([c d] & <- & B). exists c. exact B.
      + intros [?|[A (c & B)]]; [auto|]. right. split; [intros H0; apply A; now apply map_eq_nil in H0|]. apply in_map_iff. exists (c, x). auto.
    - intros x y z. unfold leads, has, source. split; [intros [[[]|?]|?]; auto|intros [?|?]; auto].
  Qed.
  (** Drawing succeeds when all conditions have a text. *)
  Definition labelled (ts : cdict) : Prop := nolabel = true \/ Forall (fun t => exists l, str_cond (fst t) = Ok l) ts.
  Lemma draw_edges_total s ts : labelled ts -> forall g, exists g', draw_edges nolabel s ts g = Ok g'.
  Proof.
    intros H. induction ts as [|[c d] ts IH]; intros g; cbn [draw_edges]; [eauto|].
    assert (labelled ts) as H' by (destruct H as [H|H]; [now left|right; now inversion H]). specialize (IH H').
    unfold draw_edge. cbn [fst snd]. destruct H as [-> |H]; cbn [bind]; [auto|].
    destruct nolabel; cbn [bind]; [auto|]. inversion H as [|? ? (l & El) _]; subst. cbn in El. rewrite El. cbn [bind]. auto.
  Qed.
  Lemma tograph_total m : labelled (m_any m) -> (forall p, In p (m_fsm m) -> labelled (snd p)) -> exists g, tograph nolabel m = Ok g.
  Proof.
    intros HA HF. unfold tograph.
    assert (forall f g, (forall p, In p f -> labelled (snd p)) -> exists g', draw_states nolabel f g = Ok g') as K1.
    { induction f as [|[q dd] f IH]; intros g H; cbn [draw_states]; [eauto|].
      destruct (draw_edges_total q dd (H (q, dd) (or_introl eq_refl)) (add_node g (z_str q) (z_str q))) as (g1 & ->). cbn [bind]. apply IH. intros p Hp. apply H. now right. }
    assert (forall srcs g, exists g', draw_any nolabel srcs (m_any m) g = Ok g') as K2.
    { induction srcs as [|q srcs IH]; intros g; cbn [draw_any]; [eauto|]. destruct (draw_edges_total q (m_any m) HA g) as (g1 & ->). cbn [bind]. auto. }
    destruct (K1 (m_fsm m) (Graph [] []) HF) as (g1 & ->). cbn [bind]. apply K2.
  Qed.
End Draw.
