(** ParProps.v - claim C69: the constants of a module in the pass over the design that makes the dataflow. *)
From Verif Require Import Base ScopeModel ScopeSpec ScopeProofs DfModel BindModel BindSpec BindProofs LitModel LitSpec OptModel OptSpec ReorderModel ReorderProofs AsgModel ExprModel MkModel HierModel BlkModel VisitModel ElabModel ElabSpec LoopModel ParModel ParSpec ParProofs ParProofs2.
From Verif Require ElabProofs2 ElabProps.
Local Open Scope Z_scope.

Section Par.
Variable log2i : Z -> option Z.
Variable tocode : df -> res string.
Variables has genvar array ismodule : chain -> bool.
Local Notation value := (value log2i tocode has genvar array ismodule).
Local Notation copyFrame := (copyFrame log2i tocode has genvar array ismodule).
Local Notation enter := (enter log2i tocode has genvar array ismodule).
Local Notation decides := (decides log2i tocode has genvar array ismodule).
Local Notation sees := (sees has ismodule).

(** A scope with a constant that has several definitions is rejected. *)
Theorem C69_defined_twice k E scope l n d d' ds : In (n, d :: d' :: ds) l -> copyFrame k E scope l = Err FormatError.
Proof.
  intros H. unfold ParModel.copyFrame. assert (single l = Err FormatError) as ->; [|reflexivity].
  induction l as [|[m p] l IH]; [destruct H|]. cbn [single]. destruct H as [H|H]; [injection H as -> ->; reflexivity|]. rewrite (IH H). now destruct p as [|? [|? ?]].
Qed.
Example C69_defined_twice_met k E : copyFrame k E [] [("P"%string, [NGenvar; NGenvar])] = Err FormatError.
Proof. apply (C69_defined_twice k E [] _ "P"%string NGenvar NGenvar []). left. reflexivity. Qed.
(** A constant expression of names with known values has its value. *)
Theorem C69_expression_value E scope r e v : worth r e v -> sees E scope r ->
  exists w k0, forall k, (k0 <= k)%nat -> value k E scope e = Ok (DEval (PInt v) (Some w) false false).
Proof. exact (value_ok log2i tocode has genvar array ismodule E scope r e v). Qed.

(** The condition of a generate-if is decided by its value. *)
Theorem C69_condition_decided E scope r e v : worth r e v -> sees E scope r ->
  exists k0, forall k, (k0 <= k)%nat -> decides k E scope e = Ok (0 <? v).
Proof.
  intros H HS. destruct (value_ok log2i tocode has genvar array ismodule E scope r e v H HS) as [w [k0 R]]. exists k0. intros k Hk. unfold ParModel.decides. rewrite (R k Hk). reflexivity.
Qed.

(** The constants of a scope entered for the first time - a module without given parameters, a block or a round
    of a generate loop - get their values: in their expressions the names r around and the constants before
    them can be used. Nothing else changes. *)
Theorem C69_scope_constants (scope : chain) l ds r r' E :
  holds_decls l ds -> no_any scope -> scope <> [] -> values [] r ds r' ->
  NoDup (map fst ds) -> (forall n, In n (map fst ds) -> has (sig scope n) = true) ->
  tables_ok E -> sees E scope r -> (forall n, In n (map fst ds) -> dget (o_const E) (sig scope n) = None) ->
  exists E' k0, (forall k, (k0 <= k)%nat -> copyFrame k E scope l = Ok E') /\ tables_ok E' /\
    (forall n e, In (n, Some e) ds -> exists v, lookup r' n = Some (Some v) /\ knows E' (sig scope n) v) /\
    (forall m, no_any m -> (forall n, In n (map fst ds) -> m <> sig scope n) -> dget (o_const E') m = dget (o_const E) m).
Proof.
  intros HL Hc Hne HV ND Hh HP HS HF. destruct (frame_ok log2i tocode has genvar array ismodule scope l ds r r' E HL Hc Hne HV ND Hh HP HS HF) as (E' & [k0 R] & P' & V' & C' & T').
  exists E', k0. split; [exact R|]. split; [exact P'|]. split; [|exact C']. intros n e Hn. destruct (V' n (in_map fst _ _ Hn)) as (z & Lz & Sz & Tz).
  assert (exists v, lookup r' n = Some (Some v)) as [v L].
  { clear -HV Hn ND. revert Hn ND. induction HV as [r|r m ds r' H IH|r m e' v ds r' Ho H IH|r m e' v ds r' Ho Hw H IH]; intros Hn ND; [destruct Hn|..]; cbn [map fst] in ND; inversion ND as [|? ? N1 N2]; (destruct Hn as [Hn|Hn]; [|now apply IH]); try discriminate Hn; try discriminate Ho; injection Hn as -> ->.
    exists v. rewrite (values_keep _ _ _ _ _ H N1). cbn [lookup]. now rewrite String.eqb_refl. }
  exists v. split; [exact L|]. assert (z = Some v) as -> by congruence. destruct Sz as [S1 S2]. split; [exact S1|]. split; [exact S2|exact Tz].
Qed.

(** The constants of an instance: given parameters have the given values, by name or by position; all other
    constants have the values that follow from the DEFAULT values of the parameters. Constants of other scopes
    do not change. *)
Theorem C69_constants_used (outer inner : chain) ps l ds rd r args o E :
  no_any outer -> no_any inner -> inner <> [] ->
  holds_decls l ds -> NoDup (map fst ds) -> values [] [] ds rd ->
  (forall n, In n ps -> exists e, In (n, Some e) ds) ->
  gives r ps 0 args o -> NoDup (map fst o) ->
  (forall n, In n (map fst ds) -> has (sig inner n) = true) ->
  tables_ok E -> (forall n, In n (map fst ds) -> dget (o_const E) (sig inner n) = None) ->
  sees E outer r ->
  exists E' k0, (forall k, (k0 <= k)%nat -> enter k E outer inner ps l args = Ok E') /\ tables_ok E' /\
    (forall n v, override o n = Some v -> knows E' (sig inner n) v) /\
    (forall n v, override o n = None -> lookup rd n = Some (Some v) -> knows E' (sig inner n) v) /\
    (forall n, In (n, None) ds -> dget (o_const E') (sig inner n) = None) /\
    (forall m, no_any m -> (forall n, In n (map fst ds) -> m <> sig inner n) -> dget (o_const E') m = dget (o_const E) m).
Proof.
  intros Ho Hi Hne HL ND HV Hps HG NO Hh HP HF HS.
  destruct (enter_ok log2i tocode has genvar array ismodule outer inner ps l ds rd r args o E Ho Hi Hne HL ND HV Hps HG NO Hh HP HF HS) as (E' & [k0 R] & K). exists E', k0. split; [exact R|exact K].
Qed.

Lemma values_agree o ds : forall r1 r1' r2 r2', values o r1 ds r1' -> values [] r2 ds r2' ->
  (forall n e, In (n, Some e) ds -> override o n = None -> forall m, In m (mentions e) -> override o m = None) ->
  (forall n, override o n = None -> lookup r1 n = lookup r2 n) ->
  forall n, override o n = None -> lookup r1' n = lookup r2' n.
Proof.
  induction ds as [|[m q] ds IH]; intros r1 r1' r2 r2' H1 H2 HI HA n Hn; inversion H1; subst; inversion H2; subst; try discriminate; try (now apply HA).
  - match goal with W1 : values o _ ds _, W2 : values [] _ ds _ |- _ => refine (IH _ _ _ _ W1 W2 (fun a b Hab => HI a b (or_intror Hab)) _ n Hn) end. intros x Hx. cbn [lookup]. destruct (String.eqb m x); [reflexivity|now apply HA].
  - match goal with W1 : values o _ ds _, W2 : values [] _ ds _ |- _ => refine (IH _ _ _ _ W1 W2 (fun a b Hab => HI a b (or_intror Hab)) _ n Hn) end. intros x Hx. cbn [lookup]. destruct (String.eqb_spec m x) as [->|N]; [congruence|now apply HA].
  - match goal with W1 : worth r1 ?e ?v1, W2 : worth r2 ?e ?v2 |- _ => assert (v1 = v2) as -> by (refine (worth_fun r1 r2 e _ _ _ W1 W2); intros x Hx; apply HA; refine (HI m e (or_introl eq_refl) _ x Hx); assumption) end.
    match goal with W1 : values o _ ds _, W2 : values [] _ ds _ |- _ => refine (IH _ _ _ _ W1 W2 (fun a b Hab => HI a b (or_intror Hab)) _ n Hn) end. intros x Hx. cbn [lookup]. destruct (String.eqb m x); [reflexivity|now apply HA].
Qed.
Lemma values_given_one o ds : forall r r', values o r ds r' -> NoDup (map fst ds) -> forall n e v, In (n, Some e) ds -> override o n = Some v -> lookup r' n = Some (Some v).
Proof.
  intros r r' H. induction H as [r|r m ds r' H IH|r m e' v0 ds r' Ho H IH|r m e' v0 ds r' Ho Hw H IH]; intros ND n e v Hn On; [destruct Hn|..]; cbn [map fst] in ND; inversion ND as [|? ? N1 N2]; (destruct Hn as [Hn|Hn]; [|now apply (IH N2 n e v)]); try discriminate Hn; injection Hn as -> ->.
  - rewrite (values_keep _ _ _ _ _ H N1). cbn [lookup]. rewrite String.eqb_refl. congruence.
  - congruence.
Qed.

(** All constants of the instance have the values of the design, and conditions are decided by them, if the
    constants that are not given do not depend on the ones that are. *)
Theorem C69_constants_partial (outer inner : chain) ps l ds rd r' r args o E :
  no_any outer -> no_any inner -> inner <> [] ->
  holds_decls l ds -> NoDup (map fst ds) -> values [] [] ds rd -> values o [] ds r' ->
  (forall n e, In (n, Some e) ds -> override o n = None -> forall m, In m (mentions e) -> override o m = None) ->
  (forall n, In n ps -> exists e, In (n, Some e) ds) ->
  gives r ps 0 args o -> NoDup (map fst o) ->
  (forall n, In n (map fst ds) -> has (sig inner n) = true) ->
  tables_ok E -> (forall n, In n (map fst ds) -> dget (o_const E) (sig inner n) = None) ->
  sees E outer r ->
  exists E' k0, (forall k, (k0 <= k)%nat -> enter k E outer inner ps l args = Ok E') /\
    (forall n v, lookup r' n = Some (Some v) -> knows E' (sig inner n) v) /\
    (forall c v, worth r' c v -> exists k1, forall k, (k1 <= k)%nat -> decides k E' inner c = Ok (0 <? v)).
Proof.
  intros Ho Hi Hne HL ND HV HV' HI Hps HG NO Hh HP HF HS.
  destruct (C69_constants_used outer inner ps l ds rd r args o E Ho Hi Hne HL ND HV Hps HG NO Hh HP HF HS) as (E' & k0 & R & P' & V1 & V2 & V3 & _).
  assert (forall n v, lookup r' n = Some (Some v) -> knows E' (sig inner n) v) as KN.
  { intros n v L. destruct (override o n) as [z|] eqn:On.
    - destruct (Hps n (proj1 (gives_in _ _ _ _ _ HG _ _ On))) as [e He]. rewrite (values_given_one _ _ _ _ HV' ND _ _ _ He On) in L. injection L as <-. now apply V1.
    - apply V2; [exact On|]. rewrite <- (values_agree o ds [] r' [] rd HV' HV HI); auto. }
  exists E', k0. split; [exact R|]. split; [exact KN|]. intros c v Hc. apply (C69_condition_decided E' inner r' c v Hc).
  intros n z L. exists (sig inner n). split; [|now apply KN]. apply find_here; [exact Hne|]. apply Hh. destruct (in_dec String.string_dec n (map fst ds)) as [|N]; [assumption|]. rewrite (values_keep _ _ _ _ _ HV' N) in L. discriminate.
Qed.
End Par.

(** ** Where the code does otherwise *)
Local Open Scope string_scope.
Local Open Scope list_scope.
Definition top_ : chain := [Label "top" STmodule None].
Definition u_ : chain := [Label "top" STmodule None; Label "u" STmodule None].
Definition decls_ : constants := [("P", Some (XInt "1")); ("Q", Some (XBin Plus (XId "P") (XInt "1")))].
Definition frame_ : list (string * list decl) := [("P", [NParam None (XInt "1")]); ("Q", [NLocal (XBin Plus (XId "P") (XInt "1"))])].
Definition names_ : list chain := [sig top_ "W"; sig u_ "P"; sig u_ "Q"].
Definition has_ (c : chain) : bool := existsb (fun d => chain_eq d c) names_.
Definition tables_ : optenv := OptEnv [(sig top_ "W", Term (sig top_ "W") ["Parameter"] (DInt "31") (DInt "0") None)] [(sig top_ "W", DEval (PInt 4) (Some 32%Z) false false)].
Definition none_ (c : chain) : bool := false.
Definition module_ (c : chain) : bool := true.

Ltac lit := apply worth_int; [eexists _, _, ""; split; [reflexivity|]; split; [split; [cbn; tauto|lia]|]; constructor|unfold small; lia].
Lemma default_values_ : values [] [] decls_ [("Q", Some 2%Z); ("P", Some 1%Z)].
Proof.
  eapply values_own; [reflexivity|lit|]. eapply values_own; [reflexivity| |constructor]. eapply worth_binary; [reflexivity|reflexivity|apply worth_name; [reflexivity|unfold small; lia]|lit|exact I|reflexivity|unfold small; lia].
Qed.
Lemma given_values_ : values [("P", 5%Z)] [] decls_ [("Q", Some 6%Z); ("P", Some 5%Z)].
Proof.
  eapply values_given; [reflexivity|]. eapply values_own; [reflexivity| |constructor]. eapply worth_binary; [reflexivity|reflexivity|apply worth_name; [reflexivity|unfold small; lia]|lit|exact I|reflexivity|unfold small; lia].
Qed.
(** W + 1, seen from top. *)
Lemma gives_ : gives [("W", Some 4%Z)] ["P"] 0 [(Some "P", XBin Plus (XId "W") (XInt "1"))] [("P", 5%Z)].
Proof.
  apply gives_name; [cbn; lia|now left| |constructor]. eapply worth_binary; [reflexivity|reflexivity|apply worth_name; [reflexivity|unfold small; lia]|lit|exact I|reflexivity|unfold small; lia].
Qed.
Ltac plain_ := unfold no_any; repeat constructor; discriminate.
Lemma sees_ : sees has_ module_ tables_ top_ [("W", Some 4%Z)].
Proof.
  intros n v L. cbn [lookup] in L. destruct (String.eqb_spec "W" n) as [<-|N]; [|discriminate]. injection L as <-. exists (sig top_ "W"). split; [reflexivity|]. split; [unfold small; lia|]. split; [exists 32%Z; reflexivity|]. eexists. split; [reflexivity|]. split; reflexivity.
Qed.

(** A constant that depends on a given parameter keeps the value for the default of the parameter: for
    parameter P = 1; localparam Q = P + 1; and an instance with P given as 5, Q is 2, so the branch of
    [if (Q == 6)] is not taken. The first pass over the design, which lists instances and signals, takes it. *)
Theorem C69_derived_constant_refuted log2i tocode array :
  exists E' k0, (forall k, (k0 <= k)%nat -> enter log2i tocode has_ none_ array module_ k tables_ top_ u_ ["P"] frame_ [(Some "P", XBin Plus (XId "W") (XInt "1"))] = Ok E') /\
    knows E' (sig u_ "P") 5 /\ knows E' (sig u_ "Q") 2 /\
    values [("P", 5%Z)] [] decls_ [("Q", Some 6%Z); ("P", Some 5%Z)] /\
    worth [("Q", Some 6%Z); ("P", Some 5%Z)] (XBin Eq (XId "Q") (XInt "6")) 1 /\
    (exists k1, forall k, (k1 <= k)%nat -> decides log2i tocode has_ none_ array module_ k E' u_ (XBin Eq (XId "Q") (XInt "6")) = Ok false).
Proof.
  destruct (C69_constants_used log2i tocode has_ none_ array module_ top_ u_ ["P"] frame_ decls_ [("Q", Some 2%Z); ("P", Some 1%Z)] [("W", Some 4%Z)] [(Some "P", XBin Plus (XId "W") (XInt "1"))] [("P", 5%Z)] tables_)
    as (E' & k0 & R & _ & V1 & V2 & _).
  - plain_.
  - plain_.
  - discriminate.
  - repeat constructor.
  - cbn. repeat constructor; cbn; intuition discriminate.
  - exact default_values_.
  - intros n [<-|[]]. exists (XInt "1"). now left.
  - exact gives_.
  - repeat constructor. intros [].
  - intros n [<-|[<-|[]]]; reflexivity.
  - split; constructor; try constructor; plain_.
  - intros n [<-|[<-|[]]]; reflexivity.
  - exact sees_.
  - assert (knows E' (sig u_ "P") 5) as KP by (apply V1; reflexivity). assert (knows E' (sig u_ "Q") 2) as KQ by (apply V2; reflexivity).
    exists E', k0. split; [exact R|]. split; [exact KP|]. split; [exact KQ|]. split; [exact given_values_|]. split.
    + eapply worth_binary; [reflexivity|reflexivity|apply worth_name; [reflexivity|unfold small; lia]|lit|exact I|reflexivity|unfold small; lia].
    + apply (C69_condition_decided log2i tocode has_ none_ array module_ E' u_ [("Q", Some 2%Z)] _ 0).
      * eapply worth_binary; [reflexivity|reflexivity|apply worth_name; [reflexivity|unfold small; lia]|lit|exact I|reflexivity|unfold small; lia].
      * intros n v L. cbn [lookup] in L. destruct (String.eqb_spec "Q" n) as [<-|N]; [|discriminate]. injection L as <-. exists (sig u_ "Q"). split; [reflexivity|exact KQ].
Qed.
Example C69_first_pass log2i tocode :
  let m := MDef "m" [IParam "P" None (XInt "1"); ILocal "Q" (XBin Plus (XId "P") (XInt "1")); IGenerate [IIf (XBin Eq (XId "Q") (XInt "6")) (Some (IInst "leaf" "x" None [])) None]] in
  let top := MDef "top" [IParam "W" None (XInt "4"); IInst "m" "u" None [(Some "P", XBin Plus (XId "W") (XInt "1"))]] in
  ElabProps.listed (elaborate log2i tocode 40 [MDef "leaf" []; m; top] "top") = Some [["top"]; ["top"; "u"]; ["top"; "u"; "md_generate0"; "ge_if0"; "x"]].
Proof. vm_compute. reflexivity. Qed.

(** A default that is not a number makes the visitor go on for ever, though the instance gives another value. *)
Theorem C69_unknown_default_refuted log2i tocode array k : let args := [(Some "P", XInt "5")] in
  gives [] ["P"] 0 args [("P", 5%Z)] /\
  values [("P", 5%Z)] [] [("P", Some (XInt "4'bx"))] [("P", Some 5%Z)] /\
  enter log2i tocode has_ none_ array module_ k (OptEnv [] []) top_ u_ ["P"] [("P", [NParam None (XInt "4'bx")])] args = Err OutOfFuel.
Proof.
  cbn zeta. split; [apply gives_name; [cbn; lia|now left|lit|constructor]|]. split; [eapply values_given; [reflexivity|constructor]|].
  unfold enter, copyFrame. cbn [single copy_terms kind_of fst snd const_term bind].
  match goal with |- context [const_passes log2i tocode has_ none_ array module_ k k ?E ?c ?l] => assert (forall j, const_passes log2i tocode has_ none_ array module_ k j E c l = Err OutOfFuel) as ->; [|reflexivity] end.
  set (E0 := set_term _ _ _). assert (ParModel.value log2i tocode has_ none_ array module_ k E0 u_ (XInt "4'bx") = Err OutOfFuel \/ ParModel.value log2i tocode has_ none_ array module_ k E0 u_ (XInt "4'bx") = Ok (DUndef 4)) as H.
  { unfold ParModel.value. destruct k as [|k]; [left; reflexivity|right]. cbn [value_at makeDFTree bind resolve reorder]. unfold optimize.
    assert (optC E0 (S k) (DInt "4'bx") = Ok (DUndef 4)) as -> by (cbn [optC]; vm_compute; reflexivity). reflexivity. }
  assert (dmem (o_const E0) (sig u_ "P") = false) as M by reflexivity. clearbody E0.
  induction j as [|j IH]; [reflexivity|]. cbn [const_passes ParModel.const_pass]. rewrite M. destruct H as [-> | ->]; [reflexivity|]. cbn [bind isEval fst snd]. exact IH.
Qed.
(** A value for a parameter that does not exist is an IndexError, not the FormatError for unknown names, if
    there are more values than parameters. *)
Theorem C69_index_error_refuted log2i tocode array E outer inner e k n m w v :
  ParModel.value log2i tocode has_ none_ array module_ k E outer e = Ok (DEval (PInt v) w false false) -> n <> m ->
  overrides log2i tocode has_ none_ array module_ k E outer inner [] 0 [(Some n, e)] = Err IndexError /\
  overrides log2i tocode has_ none_ array module_ k E outer inner [m] 0 [(Some n, e)] = Err FormatError.
Proof.
  intros H N. split; [reflexivity|]. cbn [overrides nth_error bind]. rewrite H. cbn [bind existsb]. destruct (String.eqb_spec n m); [congruence|reflexivity].
Qed.

(** The hypotheses of the theorems can be met: the value of a second parameter given by position, a genvar, and
    a localparam that does not depend on the given ones. *)
Example C69_hypotheses_met log2i tocode array :
  exists E' k0, (forall k, (k0 <= k)%nat -> enter log2i tocode (fun _ => true) none_ array module_ k (OptEnv [] []) top_ u_ ["P"; "R"]
      [("P", [NParam None (XInt "1")]); ("R", [NParam None (XInt "3")]); ("i", [NGenvar]); ("Q", [NLocal (XBin Plus (XId "P") (XInt "1"))])] [(Some "R", XInt "7")] = Ok E') /\
    (forall n v, lookup [("Q", Some 2%Z); ("i", None); ("R", Some 7%Z); ("P", Some 1%Z)] n = Some (Some v) -> knows E' (sig u_ n) v) /\
    (forall c v, worth [("Q", Some 2%Z); ("i", None); ("R", Some 7%Z); ("P", Some 1%Z)] c v -> exists k1, forall k, (k1 <= k)%nat -> decides log2i tocode (fun _ => true) none_ array module_ k E' u_ c = Ok (0 <? v)%Z).
Proof.
  apply (C69_constants_partial log2i tocode (fun _ => true) none_ array module_ top_ u_ ["P"; "R"] _ [("P", Some (XInt "1")); ("R", Some (XInt "3")); ("i", None); ("Q", Some (XBin Plus (XId "P") (XInt "1")))]
    [("Q", Some 2%Z); ("i", None); ("R", Some 3%Z); ("P", Some 1%Z)] _ [] _ [("R", 7%Z)]).
  - plain_.
  - plain_.
  - discriminate.
  - repeat constructor.
  - cbn. repeat constructor; cbn; intuition discriminate.
  - eapply values_own; [reflexivity|lit|]. eapply values_own; [reflexivity|lit|]. apply values_genvar. eapply values_own; [reflexivity| |constructor]. eapply worth_binary; [reflexivity|reflexivity|apply worth_name; [reflexivity|unfold small; lia]|lit|exact I|reflexivity|unfold small; lia].
  - eapply values_own; [reflexivity|lit|]. eapply values_given; [reflexivity|]. apply values_genvar. eapply values_own; [reflexivity| |constructor]. eapply worth_binary; [reflexivity|reflexivity|apply worth_name; [reflexivity|unfold small; lia]|lit|exact I|reflexivity|unfold small; lia].
  - intros n e [Hn|[Hn|[Hn|[Hn|[]]]]] _ m Hm; try discriminate Hn; injection Hn as <- <-; cbn in Hm; try contradiction; destruct Hm as [<-|[]]; reflexivity.
  - intros n [<-|[<-|[]]]; eexists; [left|right; left]; reflexivity.
  - apply gives_name; [cbn; lia|right; now left|lit|constructor].
  - repeat constructor. intros [].
  - reflexivity.
  - split; constructor.
  - reflexivity.
  - intros n v L. discriminate L.
Qed.

Print Assumptions C69_expression_value.
Print Assumptions C69_condition_decided.
Print Assumptions C69_scope_constants.
Print Assumptions C69_constants_used.
Print Assumptions C69_constants_partial.
Print Assumptions C69_derived_constant_refuted.
Print Assumptions C69_unknown_default_refuted.
Print Assumptions C69_index_error_refuted.
Print Assumptions C69_defined_twice.
