(** HierProps2.v - C16: slices and single bits of concatenations, in the simplifier. *)
From Verif Require Import Base ScopeModel DfModel BindModel LitModel LitSpec OptModel OptSpec OptArith OptProofs HierModel HierSpec HierProofs HierPart HierProps.
Local Open Scope Z_scope.

(** Where both bounds of takePart's partial correctness hold: both ends between parts, or from bit 0, or inside the
    last part. *)
Definition sliceable (rho : venv) (nodes : list df) (m l : Z) : Prop :=
  (exists hi mid lo, nodes = hi ++ mid ++ lo /\ width rho (DConcat lo) = Some l /\ width rho (DConcat mid) = Some (m - l + 1)) \/
  l = 0 \/ (exists hi n w, nodes = hi ++ [n] /\ width rho n = Some w /\ m < w).
(** Simplifying c[m:l], where c and the bounds simplify to a concatenation and constants. *)
Theorem C16_simplified_slice_partial : forall E rho log2i tocode k c a b nodes m l wm fm gm wl fl gl t v,
  agrees E rho -> Forall (part_ok E rho k) nodes -> 0 <= l <= m -> (exists w, width rho (DConcat nodes) = Some w /\ m < w) ->
  sliceable rho nodes m l ->
  optH E log2i tocode k c = Ok (DConcat nodes) -> optH E log2i tocode k a = Ok (DEval (PInt m) wm fm gm) -> optH E log2i tocode k b = Ok (DEval (PInt l) wl fl gl) ->
  optH E log2i tocode k (DPart c a b) = Ok t ->
  value rho (DPart (DConcat nodes) (pint m) (pint l)) = Some v -> value rho t = Some v.
Proof.
  intros E rho log2i tocode k c a b nodes m l wm fm gm wl fl gl t v HA HF Hl Hw HS Hc Ha Hb H Hv. cbn [optH] in H. rewrite Ha, Hb, Hc in H. cbn [bind as_int] in H.
  eapply C16_slice_of_concatenation_partial; eauto.
Qed.
Print Assumptions C16_simplified_slice_partial.
(** The same for a single bit c[i]. *)
Theorem C16_simplified_bit_partial : forall E rho log2i tocode k c p nodes i wi fi gi t v,
  agrees E rho -> Forall (part_ok E rho k) nodes -> 0 <= i -> (exists w, width rho (DConcat nodes) = Some w /\ i < w) ->
  sliceable rho nodes i i ->
  optH E log2i tocode k c = Ok (DConcat nodes) -> optH E log2i tocode k p = Ok (DEval (PInt i) wi fi gi) ->
  optH E log2i tocode k (DPtr c p) = Ok t ->
  value rho (DPtr (DConcat nodes) (pint i)) = Some v -> value rho t = Some v.
Proof.
  intros E rho log2i tocode k c p nodes i wi fi gi t v HA HF Hi Hw HS Hc Hp H Hv. cbn [optH] in H. rewrite Hp, Hc in H. cbn [bind as_int] in H.
  assert (value rho (DPart (DConcat nodes) (pint i) (pint i)) = Some v) as Hv'.
  { change (fst (ev rho (DPart (DConcat nodes) (pint i) (pint i))) = Some v). change (fst (ev rho (DPtr (DConcat nodes) (pint i))) = Some v) in Hv. remember (DConcat nodes) as C eqn:EC.
    assert (ev rho (DPtr C (pint i)) = (obind (fst (ev rho C)) (fun x => obind (fst (ev rho (pint i))) (fun i => if i <? 0 then None else Some (low (x / 2 ^ i) 1))), Some 1)) as EQ by (subst C; reflexivity).
    rewrite EQ in Hv. cbn [ev pint fst]. cbn [ev pint fst obind] in Hv. destruct (Z.leb_spec 0 i); [|lia]. rewrite Z.leb_refl. cbn [andb fst]. destruct (fst (ev rho C)) as [x|]; [|discriminate]. cbn [obind] in *.
    destruct (Z.ltb_spec i 0); [lia|]. replace (i - i + 1) with 1 by lia. exact Hv. }
  eapply (C16_slice_of_concatenation_partial E rho k nodes i i); eauto; [lia].
Qed.
Print Assumptions C16_simplified_bit_partial.
(** {a, b}[0] and {a, b}[7:0] *)
Example C16_simplified_hypotheses_met : forall f,
  let c := DConcat [T "a"; T "b"] in
  optH abc log2z key 9 c = Ok c /\ sliceable (abc_rho f) [T "a"; T "b"] 0 0 /\ sliceable (abc_rho f) [T "a"; T "b"] 7 0 /\
  agrees abc (abc_rho f) /\ Forall (part_ok abc (abc_rho f) 9) [T "a"; T "b"] /\
  optH abc log2z key 9 (DPtr c (pint 0)) = Ok (DPart (T "b") (pint 0) (pint 0)) /\ optH abc log2z key 9 (DPart c (pint 7) (pint 0)) = Ok (T "b").
Proof.
  intros f c. split; [vm_compute; reflexivity|]. split; [right; left; reflexivity|]. split; [right; left; reflexivity|]. split; [apply abc_agrees|]. split; [repeat (apply Forall_cons; [apply signal_ok; cbn; tauto|]); apply Forall_nil|]. split; vm_compute; reflexivity.
Qed.
