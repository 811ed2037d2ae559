(** LoopProps2.v - claim C65: loops whose number of rounds cannot be decided. *)
From Verif Require Import Base ScopeModel DfModel ReorderModel BindModel AsgModel BlkModel BlkProps LitModel OptModel HierModel LoopModel LoopProps.
Local Open Scope Z_scope.

Section Unknown.
Variables (k : nat) (array : chain -> bool) (range : chain -> df * df) (log2i : Z -> option Z) (tocode : df -> res string) (fuel : nat).
(** A loop whose condition is not known to be a number is rejected: a while loop ... *)
Theorem C65_unknown_while_rejected st c t r cnd body v : (0 < fuel)%nat ->
  header k array log2i tocode st (BFrame c t) r cnd = Ok v -> isEval v = false ->
  lvisit k array range log2i tocode fuel st c t r (LWhile cnd body) = Err FormatError.
Proof.
  intros Hf H Hv. destruct fuel as [|f]; [lia|]. cbn [lvisit]. unfold goes_on. rewrite H. cbn [bind]. destruct v; try discriminate Hv; reflexivity.
Qed.
(** ... a for loop, after its first assignment ... *)
Theorem C65_unknown_for_rejected st c t r i a cnd j b body q lv v : (0 < fuel)%nat ->
  loop_value k array log2i tocode st (BFrame c t) r a = Ok lv ->
  lassign k array range log2i tocode st (BFrame c t) r i a = Ok q ->
  header k array log2i tocode (fst q) (BFrame c (snd q)) r cnd = Ok v -> isEval v = false ->
  lvisit k array range log2i tocode fuel st c t r (LFor i a cnd j b body) = Err FormatError.
Proof.
  intros Hf Hl Ha H Hv. destruct fuel as [|f]; [lia|]. cbn [lvisit]. rewrite Hl. cbn [bind]. rewrite Ha. cbn [bind]. unfold goes_on. rewrite H. cbn [bind]. destruct v; try discriminate Hv; reflexivity.
Qed.
(** ... and one whose first value is not known. *)
Theorem C65_unknown_start_rejected st c t r i a cnd j b body n :
  header k array log2i tocode st (BFrame c t) r a = Ok (DTerm n) ->
  lvisit k array range log2i tocode fuel st c t r (LFor i a cnd j b body) = Err AttributeError.
Proof. intros H. cbn [lvisit]. unfold loop_value. rewrite H. reflexivity. Qed.
End Unknown.
Print Assumptions C65_unknown_while_rejected.
Print Assumptions C65_unknown_for_rejected.
Print Assumptions C65_unknown_start_rejected.

Local Open Scope string_scope.
(** while (x < 5) x = x + 1 and for (i = 0; i < x; i = i + 1) y = i, for an input x. *)
Example C65_unknown_hypotheses_met log2i tocode :
  let E := start65 ["x"; "i"; "y"] [] in
  let go x := lvisit_always 40 (fun _ => false) range65 log2i tocode 20 E x in
  go (LWhile (DOp [w55 "x"; DInt "5"] LessThan) (LAsg (g55 "x") (DOp [w55 "x"; DInt "1"] Plus))) = Err FormatError /\
  go (LFor (g55 "i") (DInt "0") (DOp [w55 "i"; w55 "x"] LessThan) (g55 "i") (DOp [w55 "i"; DInt "1"] Plus) (LAsg (g55 "y") (w55 "i"))) = Err FormatError /\
  go (LFor (g55 "i") (w55 "x") (DOp [w55 "i"; DInt "9"] LessThan) (g55 "i") (DOp [w55 "i"; DInt "1"] Plus) (LAsg (g55 "y") (w55 "i"))) = Err AttributeError.
Proof. cbn zeta. split; [|split]; vm_compute; reflexivity. Qed.
