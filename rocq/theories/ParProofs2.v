(** ParProofs2.v - the parameters given by an instance. *)
From Verif Require Import Base ScopeModel ScopeSpec ScopeProofs DfModel BindModel BindSpec BindProofs LitModel LitSpec OptModel OptSpec ReorderModel ReorderProofs AsgModel ExprModel MkModel HierModel BlkModel VisitModel ElabModel ElabSpec LoopModel ParModel ParSpec ParProofs.
From Verif Require ElabProofs2.
Local Open Scope Z_scope.

Section Par.
Variable log2i : Z -> option Z.
Variable tocode : df -> res string.
Variables has genvar array ismodule : chain -> bool.
Local Notation value := (value log2i tocode has genvar array ismodule).
Local Notation find := (find has ismodule).
Local Notation copyFrame := (copyFrame log2i tocode has genvar array ismodule).
Local Notation overrides := (overrides log2i tocode has genvar array ismodule).
Local Notation enter := (enter log2i tocode has genvar array ismodule).
Local Notation sees := (sees has ismodule).

Lemma gives_in r ps i args o : gives r ps i args o -> forall n v, override o n = Some v -> In n ps /\ small v.
Proof.
  induction 1 as [i|i n e v l o Hi Hn Hw H IH|i n e v l o Hn Hw H IH]; intros m z E; cbn [override] in E; [discriminate|..]; destruct (String.eqb_spec n m) as [<-|N]; try (now apply IH); injection E as <-.
  - split; [exact Hn|exact (worth_small _ _ _ Hw)].
  - split; [exact (nth_error_In _ _ Hn)|exact (worth_small _ _ _ Hw)].
Qed.
Lemma override_in o n : override o n = None <-> ~ In n (map fst o).
Proof.
  induction o as [|[m v] o IH]; cbn [override map fst In]; [tauto|]. destruct (String.eqb_spec m n) as [<-|N]; [split; [discriminate|intros H; exfalso; apply H; now left]|]. rewrite IH. tauto.
Qed.

Lemma overrides_ok (outer inner : chain) (ps : list string) (r : names) : no_any outer -> no_any inner ->
  forall i args o, gives r ps i args o -> NoDup (map fst o) ->
  forall E, plain E -> (forall n v, lookup r n = Some (Some v) -> exists c, find outer n = Ok c /\ knows E c v /\ forall x, In x ps -> c <> sig inner x) ->
  exists E', ev (fun k => overrides k E outer inner ps i args = Ok E') /\ plain E' /\
    (forall n v, override o n = Some v -> knows E' (sig inner n) v) /\
    (forall m, no_any m -> (forall n v, override o n = Some v -> m <> sig inner n) -> dget (o_const E') m = dget (o_const E) m) /\
    (forall m, no_any m -> termed E m -> termed E' m).
Proof.
  intros Ho Hi i args o H. 
  assert (forall i n e l o E v, In n ps -> worth r e v -> NoDup (map fst ((n, v) :: o)) -> plain E -> (forall n v, lookup r n = Some (Some v) -> exists c, find outer n = Ok c /\ knows E c v /\ forall x, In x ps -> c <> sig inner x) ->
    (forall E, NoDup (map fst o) -> plain E -> (forall n v, lookup r n = Some (Some v) -> exists c, find outer n = Ok c /\ knows E c v /\ forall x, In x ps -> c <> sig inner x) ->
       exists E', ev (fun k => overrides k E outer inner ps (S i) l = Ok E') /\ plain E' /\
         (forall n v, override o n = Some v -> knows E' (sig inner n) v) /\
         (forall m, no_any m -> (forall n v, override o n = Some v -> m <> sig inner n) -> dget (o_const E') m = dget (o_const E) m) /\
         (forall m, no_any m -> termed E m -> termed E' m)) ->
    exists E', ev (fun k => (do v <- value k E outer e;
        if negb (existsb (String.eqb n) ps) then Err FormatError
        else
          let E1 := set_const E (sig inner n) v in
          do _ <- value_attr v;
          do t <- const_term log2i tocode has genvar array ismodule k E1 (sig inner n) "Parameter" None outer;
          overrides k (set_term E1 (sig inner n) t) outer inner ps (S i) l) = Ok E') /\ plain E' /\
      (forall m z, override ((n, v) :: o) m = Some z -> knows E' (sig inner m) z) /\
      (forall m, no_any m -> (forall x z, override ((n, v) :: o) x = Some z -> m <> sig inner x) -> dget (o_const E') m = dget (o_const E) m) /\
      (forall m, no_any m -> termed E m -> termed E' m)) as Step.
  { clear H i args o. intros i n e l o E v Hn Hw ND HP HS IH.
    destruct (value_ok log2i tocode has genvar array ismodule E outer r e v Hw) as [w [k0 R0]].
    { intros m z L. destruct (HS _ _ L) as (c & ? & ? & _). now exists c. }
    set (D := DEval (PInt v) (Some w) false false) in *. set (T := Term (sig inner n) ["Parameter"%string] (DInt "31") (DInt "0") None).
    set (E1 := set_term (set_const E (sig inner n) D) (sig inner n) T). cbn [map fst] in ND. inversion ND as [|? ? N1 N2]; subst. pose proof (ElabProofs2.sig_any inner n Hi) as Ha.
    assert (plain E1) as P1 by (apply set_term_plain; [apply set_const_plain|]; assumption).
    assert (forall m, no_any m -> termed E m -> termed E1 m) as T1.
    { intros m Hm HT. apply termed_set; auto; [apply set_const_plain; assumption|split; reflexivity]. }
    destruct (IH E1 N2 P1) as (E' & [k1 R'] & P' & V' & C' & T').
    { intros m z L. destruct (HS _ _ L) as (c & Ec & Kc & Nc). exists c. split; [exact Ec|]. split; [|exact Nc]. pose proof (find_any has genvar array ismodule _ _ _ Ho Ec) as Hc0. pose proof (Nc n Hn) as Hd.
      destruct (knows_keep E (sig inner n) D c z HP Ha Hc0 Hd Kc) as (K1 & K2 & K3). split; [exact K1|]. split; [exact K2|]. exact (T1 c Hc0 K3). }
    exists E'. split; [|split; [exact P'|]; split; [|split]].
    - exists (S (k0 + k1))%nat. intros k Hk. rewrite (R0 k ltac:(lia)). cbn [bind]. assert (existsb (String.eqb n) ps = true) as -> by (apply existsb_exists; exists n; split; [exact Hn|apply String.eqb_refl]). apply R'. lia.
    - intros m z Em. cbn [override] in Em. destruct (String.eqb_spec n m) as [<-|N]; [|now apply V']. injection Em as <-.
      assert (forall x y, override o x = Some y -> sig inner n <> sig inner x) as Hd.
      { intros x y Ex X. apply ElabProofs2.sig_inj in X as [_ <-]. apply override_in in N1. congruence. }
      split; [exact (worth_small _ _ _ Hw)|]. split.
      + exists w. rewrite (C' _ Ha Hd). unfold E1. cbn [set_term set_const o_const]. destruct HP as [HP _]. rewrite dget_dset by assumption. destruct (chain_dec (sig inner n) (sig inner n)) as [X|X]; [reflexivity|now destruct X].
      + apply T'; [exact Ha|]. exists T. unfold E1. cbn [set_term set_const o_terms]. destruct HP as [_ HP]. rewrite dget_dset by assumption. destruct (chain_dec (sig inner n) (sig inner n)) as [X|X]; [|now destruct X]. split; [reflexivity|]. split; reflexivity.
    - intros m Hm Hd. rewrite C'; [|exact Hm|].
      + unfold E1. cbn [set_term set_const o_const]. destruct HP as [HP _]. rewrite dget_dset by assumption. destruct (chain_dec _ _) as [X|X]; [|reflexivity]. exfalso. apply (Hd n v); [cbn [override]; now rewrite String.eqb_refl|now symmetry].
      + intros x z Ex. apply (Hd x z). cbn [override]. destruct (String.eqb_spec n x) as [<-|N]; [|exact Ex]. apply override_in in N1. congruence.
    - intros m Hm HT. apply T'; [exact Hm|]. now apply T1. }
  induction H as [i|i n e v l o Hl Hn Hw H IH|i n e v l o Hn Hw H IH]; intros ND E HP HS; cbn [ParModel.overrides].
  - exists E. split; [exists 0%nat; reflexivity|]. split; [exact HP|]. split; [discriminate|]. split; auto.
  - destruct (nth_error ps i) as [q|] eqn:En; [|apply nth_error_None in En; lia]. cbn [bind]. apply (Step i n e l o E v); auto.
  - rewrite Hn. cbn [bind]. apply (Step i n e l o E v); auto. exact (nth_error_In _ _ Hn).
Qed.

Lemma enter_ok outer inner ps l ds rd r args o E :
  no_any outer -> no_any inner -> inner <> [] ->
  holds_decls l ds -> NoDup (map fst ds) -> values [] [] ds rd ->
  (forall n, In n ps -> exists e, In (n, Some e) ds) ->
  gives r ps 0 args o -> NoDup (map fst o) ->
  (forall n, In n (map fst ds) -> has (sig inner n) = true) ->
  plain E -> (forall n, In n (map fst ds) -> dget (o_const E) (sig inner n) = None) ->
  sees E outer r ->
  exists E', ev (fun k => enter k E outer inner ps l args = Ok E') /\ plain E' /\
    (forall n v, override o n = Some v -> knows E' (sig inner n) v) /\
    (forall n v, override o n = None -> lookup rd n = Some (Some v) -> knows E' (sig inner n) v) /\
    (forall n, In (n, None) ds -> dget (o_const E') (sig inner n) = None) /\
    (forall m, no_any m -> (forall n, In n (map fst ds) -> m <> sig inner n) -> dget (o_const E') m = dget (o_const E) m).
Proof.
  intros Ho Hi Hne HL ND HV Hps HG NO Hh HP HF HS.
  destruct (frame_ok log2i tocode has genvar array ismodule inner l ds [] rd E HL Hi Hne HV ND Hh HP) as (E1 & [k1 R1] & P1 & V1 & C1 & T1); [discriminate|exact HF|].
  assert (forall n v, override o n = Some v -> In n ps) as Hin by (intros n v Hn; exact (proj1 (gives_in _ _ _ _ _ HG _ _ Hn))).
  assert (forall n, In n ps -> In n (map fst ds)) as Hds by (intros n Hn; destruct (Hps n Hn) as [e He]; exact (in_map fst _ _ He)).
  destruct (overrides_ok outer inner ps r Ho Hi 0%nat args o HG NO E1 P1) as (E2 & [k2 R2] & P2 & V2 & C2 & T2).
  { intros n v L. destruct (HS _ _ L) as (c & Ec & Kc). exists c. split; [exact Ec|]. pose proof (find_any has genvar array ismodule _ _ _ Ho Ec) as Hc.
    assert (forall x, In x (map fst ds) -> c <> sig inner x) as Hd by (intros x Hx; exact (fresh_ne _ _ _ _ (HF x Hx) Kc)).
    split; [|intros x Hx; apply Hd; now apply Hds]. destruct Kc as (K1 & (w & K2) & K3). split; [exact K1|]. split; [exists w; rewrite C1; assumption|exact (T1 c Hc K3)]. }
  assert (forall n v, override o n = None -> lookup rd n = Some (Some v) -> In n (map fst ds)) as Hrd.
  { intros n v _ L. destruct (in_dec String.string_dec n (map fst ds)) as [|N]; [assumption|]. rewrite (values_keep _ _ _ _ _ HV N) in L. discriminate. }
  assert (forall n v, override o n = None -> lookup rd n = Some (Some v) -> knows E2 (sig inner n) v) as V3.
  { intros n v On L. pose proof (Hrd n v On L) as Hn. destruct (V1 n Hn) as (z & Lz & Sz & Tz). assert (z = Some v) as -> by congruence. destruct Sz as [K1 [w K2]]. pose proof (ElabProofs2.sig_any inner n Hi) as Ha.
    split; [exact K1|]. split; [|exact (T2 _ Ha Tz)]. exists w. rewrite C2; [exact K2|exact Ha|]. intros x y Ox X. apply ElabProofs2.sig_inj in X as [_ <-]. congruence. }
  assert (forall n e, In (n, Some e) ds -> dmem (o_const E2) (sig inner n) = true) as HM.
  { intros n e Hn. unfold dmem. destruct (override o n) as [v|] eqn:On; [destruct (V2 _ _ On) as (_ & (w & ->) & _); reflexivity|].
    assert (exists v, lookup rd n = Some (Some v)) as [v L].
    { clear -HV Hn ND. revert Hn ND. induction HV as [r|r m ds r' H IH|r m e' v ds r' Ho H IH|r m e' v ds r' Ho Hw H IH]; intros Hn ND; [destruct Hn|..]; cbn [map fst] in ND; inversion ND as [|? ? N1 N2]; (destruct Hn as [Hn|Hn]; [|now apply IH]); try discriminate Hn; try discriminate Ho; injection Hn as -> ->.
      exists v. rewrite (values_keep _ _ _ _ _ H N1). cbn [lookup]. now rewrite String.eqb_refl. }
    destruct (V3 n v On L) as (_ & (w & ->) & _). reflexivity. }
  destruct (frame_again log2i tocode has genvar array ismodule inner l ds E2 HL Hi P2 HM) as (E3 & R3 & P3 & C3 & _ & T3).
  assert (forall n v, knows E2 (sig inner n) v -> knows E3 (sig inner n) v) as K3.
  { intros n v (A & B & C). split; [exact A|]. rewrite C3. split; [exact B|]. apply T3; [now apply ElabProofs2.sig_any|exact C]. }
  exists E3. split; [|split; [exact P3|split; [|split; [|split]]]].
  - exists (S (k1 + k2)). intros k Hk. unfold ParModel.enter. rewrite R1 by lia. cbn [bind]. rewrite R2 by lia. cbn [bind]. apply R3. lia.
  - intros n v On. apply K3. now apply V2.
  - intros n v On L. apply K3. now apply V3.
  - intros n Hn. rewrite C3. destruct (V1 n (in_map fst _ _ Hn)) as (z & Lz & Sz & _).
    assert (lookup rd n = Some None) as L.
    { clear -HV Hn ND. revert Hn ND. induction HV as [r|r m ds r' H IH|r m e' v ds r' Ho H IH|r m e' v ds r' Ho Hw H IH]; intros Hn ND; [destruct Hn|..]; cbn [map fst] in ND; inversion ND as [|? ? N1 N2]; (destruct Hn as [Hn|Hn]; [|now apply IH]); try discriminate Hn; injection Hn as ->.
      rewrite (values_keep _ _ _ _ _ H N1). cbn [lookup]. now rewrite String.eqb_refl. }
    assert (z = None) as -> by congruence. cbn [stored] in Sz. rewrite C2; [exact Sz|now apply ElabProofs2.sig_any|]. intros x y Ox X. apply ElabProofs2.sig_inj in X as [_ <-]. destruct (Hps n (Hin _ _ Ox)) as [e He].
    clear -ND Hn He. induction ds as [|[m q] ds IH]; [destruct Hn|]. cbn [map fst] in ND. inversion ND as [|? ? N1 N2]; subst. destruct Hn as [Hn|Hn], He as [He|He]; [congruence|injection Hn as -> ->; apply N1; exact (in_map fst _ _ He)|injection He as -> ->; apply N1; exact (in_map fst _ _ Hn)|auto].
  - intros m Hm Hd. rewrite C3, C2, C1; [reflexivity|exact Hm|exact Hd|exact Hm|]. intros n v On. apply Hd. exact (Hds _ (Hin _ _ On)).
Qed.
End Par.
