(** ElabProps.v - C57: the instances of a design.
    Spec: [design_instances] (ElabSpec.v): elaboration of modules, parameters and generate constructs; [legal] (each scope
    declares a name once). *)
From Verif Require Import Base ScopeModel DfModel LitModel LitSpec OptModel OptSpec ExprModel VisitModel ElabModel ElabSpec ElabProofs ElabProofs9.
Local Open Scope Z_scope.

(** ** C57 *)
(** The instances listed for a design are the instances it has, in order, each with its module, and no two of the same name. *)
Theorem C57_instances_partial log2i tocode k D top s l : legal D -> design_instances D top l -> elaborate log2i tocode k D top = Ok s ->
  Forall2 names_instance (getInstances s) l /\ NoDup (map fst (getInstances s)).
Proof. intros HL HD H. exact (elaborate_sound log2i tocode k D top s l HL HD H). Qed.

(** The same without the scopes: modules and their number. *)
Theorem C57_modules_partial log2i tocode k D top s l : legal D -> design_instances D top l -> elaborate log2i tocode k D top = Ok s ->
  map snd (getInstances s) = map (fun i => Some (snd i)) l.
Proof.
  intros HL HD H. destruct (elaborate_sound log2i tocode k D top s l HL HD H) as [HF _]. clear -HF. induction HF as [|i j a b [_ H] HF IH]; [reflexivity|]. cbn [map]. now rewrite H, IH.
Qed.
(** Constant expressions are evaluated, whatever the order of evaluation and the depth. *)
Theorem C57_constants_partial log2i tocode k s r c e v u : (forall n d v, lookup r n = Some (Some v) -> value_of s c n = Ok d -> isval d v) ->
  const r e v -> eval log2i tocode k s c e = Ok u -> exists w, u = DEval (PInt v) (Some w) false false.
Proof. intros HF HC H. unfold eval in H. ub. eapply opt_means; [|exact H]. eapply tree_means; [exact HC|exact HF|exact B]. Qed.

(** *** A design that meets the hypotheses *)
Local Open Scope string_scope.
Definition cell_ := MDef "cell" [ISignal true "q"; IAlways (IBlock None [IIf (XId "q") (Some ISkip) (Some (IIf (XId "q") (Some ISkip) None))])].
Definition leaf_ := MDef "leaf" [IParam "W" None (XInt "4"); IParam "V" None (XBin Plus (XId "W") (XInt "1")); ISignal true "d";
  IGenerate [IIf (XBin GreaterThan (XId "V") (XInt "4")) (Some (IBlock (Some "big") [IInst "cell" "c" None []])) (Some (IBlock None [IInst "cell" "e" None []; IInst "cell" "f" None []]))]].
Definition top_ := MDef "top" [IParam "N" None (XInt "2"); ILocal "M" (XBin Plus (XId "N") (XInt "1")); IGenvar "i"; ISignal true "clk"; IInst "and" "" None [];
  IGenerate [IFor "i" (XInt "0") (XBin LessThan (XId "i") (XId "N")) "i" (XBin Plus (XId "i") (XInt "1")) (IBlock (Some "g") [IInst "leaf" "u" None [(None, XBin Plus (XId "M") (XId "i"))]])];
  IInst "leaf" "v" (Some (XBin Minus (XId "N") (XInt "1"), XInt "0")) [(Some "W", XCond (XId "N") (XInt "1") (XInt "7"))]].
Definition design_ := [cell_; leaf_; top_].
Definition instances_ : list instance_at :=
  [([PInst "top"], "top");
   ([PInst "top"; PGenerate; PLoop 0; PBlock "g"; PInst "u"], "leaf"); ([PInst "top"; PGenerate; PLoop 0; PBlock "g"; PInst "u"; PGenerate; PElse; PAnon; PInst "e"], "cell");
   ([PInst "top"; PGenerate; PLoop 0; PBlock "g"; PInst "u"; PGenerate; PElse; PAnon; PInst "f"], "cell");
   ([PInst "top"; PGenerate; PLoop 1; PBlock "g"; PInst "u"], "leaf"); ([PInst "top"; PGenerate; PLoop 1; PBlock "g"; PInst "u"; PGenerate; PThen; PBlock "big"; PInst "c"], "cell");
   ([PInst "top"; PInst "v_0"], "leaf"); ([PInst "top"; PInst "v_0"; PGenerate; PElse; PAnon; PInst "e"], "cell"); ([PInst "top"; PInst "v_0"; PGenerate; PElse; PAnon; PInst "f"], "cell");
   ([PInst "top"; PInst "v_1"], "leaf"); ([PInst "top"; PInst "v_1"; PGenerate; PElse; PAnon; PInst "e"], "cell"); ([PInst "top"; PInst "v_1"; PGenerate; PElse; PAnon; PInst "f"], "cell")].
Definition path_text (c : chain) : list string := map sname c.

Lemma num0 : numeral 10 "0" 0. Proof. exists "0"%char, 0%Z, "". split; [reflexivity|]. split; [split; [cbn; tauto|lia]|constructor]. Qed.
Lemma num1 : numeral 10 "1" 1. Proof. exists "1"%char, 1%Z, "". split; [reflexivity|]. split; [split; [cbn; tauto|lia]|constructor]. Qed.
Lemma num2 : numeral 10 "2" 2. Proof. exists "2"%char, 2%Z, "". split; [reflexivity|]. split; [split; [cbn; tauto|lia]|constructor]. Qed.
Lemma num3 : numeral 10 "3" 3. Proof. exists "3"%char, 3%Z, "". split; [reflexivity|]. split; [split; [cbn; tauto|lia]|constructor]. Qed.
Lemma num4 : numeral 10 "4" 4. Proof. exists "4"%char, 4%Z, "". split; [reflexivity|]. split; [split; [cbn; tauto|lia]|constructor]. Qed.
Ltac sm := vm_compute; split; [discriminate|reflexivity].
Ltac num := first [exact num0|exact num1|exact num2|exact num3|exact num4].
Ltac ov := lazymatch goal with |- op_value ?o ?l ?w = Some _ => let v := eval vm_compute in (op_value o l w) in exact (eq_refl : op_value o l w = v) end.
Ltac cst := lazymatch goal with
  | |- const _ (XInt _) _ => eapply const_int; [num|sm]
  | |- const _ (XId _) _ => eapply const_name; [reflexivity|sm]
  | |- const _ (XUn _ _) _ => eapply const_unary; [cst|exact Logic.I|ov|sm]
  | |- const _ (XBin _ _ _) _ => eapply const_binary; [cst|cst|exact Logic.I|ov|sm]
  | |- const _ (XCond _ _ _) _ => eapply const_choice; [cst|cbn; cst]
  end.
Ltac giv := repeat (first [eapply given_nil|eapply given_name; [cbn; auto|cst|]|eapply given_pos; [reflexivity|cst|]]).
Ltac el := lazymatch goal with
  | |- elab _ _ _ _ _ (ISignal _ _) _ _ => apply elab_signal
  | |- elab _ _ _ _ _ ISkip _ _ => apply elab_skip
  | |- elab _ _ _ _ _ (IAlways _) _ _ => apply elab_always; cbn; tauto
  | |- elab _ _ _ _ _ (IParam _ _ _) _ _ => first [eapply elab_given; reflexivity|eapply elab_default; [reflexivity|cst]]
  | |- elab _ _ _ _ _ (ILocal _ _) _ _ => eapply elab_local; cst
  | |- elab _ _ _ _ _ (IGenvar _) _ _ => eapply elab_genvar
  | |- elab _ _ _ _ _ (IInst _ _ None _) _ _ => first [eapply elab_gate; reflexivity|eapply elab_inst; el]
  | |- elab _ _ _ _ _ (IInst _ _ (Some _) _) _ _ => eapply elab_array; [cst|cst|vm_compute; discriminate|lazymatch goal with |- row _ _ _ _ _ _ _ ?k _ => let k' := eval vm_compute in k in change k with k' end; el]
  | |- elab _ _ _ _ _ (IGenerate _) _ _ => eapply elab_generate; cbn [app]; el
  | |- elab _ _ _ _ _ (IBlock (Some _) _) _ _ => eapply elab_block; cbn [app]; el
  | |- elab _ _ _ _ _ (IBlock None _) _ _ => eapply elab_anon; cbn [app]; el
  | |- elab _ _ _ _ _ (IIf _ _ _) _ _ => first [eapply elab_then; [cst|vm_compute; reflexivity|cbn [app]; el]|eapply elab_else; [cst|cbn [app]; el]|eapply elab_none; cst]
  | |- elab _ _ _ _ _ (IFor _ _ _ _ _ _) _ _ => eapply elab_for; [reflexivity|cst|el]
  | |- elabs _ _ _ _ _ [] _ _ => eapply elabs_nil
  | |- elabs _ _ _ _ _ (_ :: _) _ _ => eapply elabs_cons; [el|el]
  | |- placed _ _ _ _ _ _ _ => eapply placed_one; [reflexivity|first [left; reflexivity|right; left; reflexivity|right; right; left; reflexivity]|giv|cbn; repeat constructor; cbn; intros []|cbn [app]; el]
  | |- row _ _ _ _ _ _ _ O _ => eapply row_nil
  | |- row _ _ _ _ _ _ _ (S _) _ => eapply row_cons; [cbn; el|cbn; el]
  | |- loop _ _ _ _ _ _ _ _ _ => first [eapply loop_stop; cst|eapply loop_again; [cst|vm_compute; reflexivity|cbn [app]; el|cst|el]]
  end.
Example C57_design_instances : design_instances design_ "top" instances_.
Proof.
  assert (exists l, design_instances design_ "top" l /\ l = instances_) as (l & H & <-); [|exact H].
  eexists. split.
  - eapply design_one; [right; right; left; reflexivity|]. el.
  - reflexivity.
Qed.
Example C57_design_legal : legal design_.
Proof.
  split; [repeat constructor; cbn; intuition discriminate|]. repeat constructor; cbn; intuition discriminate.
Qed.
Example C57_design_elaborated log2i tocode : exists s, elaborate log2i tocode 40 design_ "top" = Ok s /\
  map (fun i => (path_text (fst i), snd i)) (getInstances s) =
  [(["top"], Some "top");
   (["top"; "md_generate0"; "ge_for0"; "g"; "u"], Some "leaf"); (["top"; "md_generate0"; "ge_for0"; "g"; "u"; "md_generate1"; "ge_if0_ELSE"; "ge_block0"; "e"], Some "cell");
   (["top"; "md_generate0"; "ge_for0"; "g"; "u"; "md_generate1"; "ge_if0_ELSE"; "ge_block0"; "f"], Some "cell");
   (["top"; "md_generate0"; "ge_for0"; "g"; "u"], Some "leaf"); (["top"; "md_generate0"; "ge_for0"; "g"; "u"; "md_generate2"; "ge_if1"; "big"; "c"], Some "cell");
   (["top"; "v_0"], Some "leaf"); (["top"; "v_0"; "md_generate3"; "ge_if2_ELSE"; "ge_block1"; "e"], Some "cell"); (["top"; "v_0"; "md_generate3"; "ge_if2_ELSE"; "ge_block1"; "f"], Some "cell");
   (["top"; "v_1"], Some "leaf"); (["top"; "v_1"; "md_generate4"; "ge_if3_ELSE"; "ge_block2"; "e"], Some "cell"); (["top"; "v_1"; "md_generate4"; "ge_if3_ELSE"; "ge_block2"; "f"], Some "cell")].
Proof.
  destruct (elaborate log2i tocode 40 design_ "top") as [s|] eqn:E.
  - exists s. split; [reflexivity|]. vm_compute in E. injection E as <-. vm_compute. reflexivity.
  - vm_compute in E. discriminate.
Qed.

(** *** Where the code does otherwise *)
Definition leafs (b : list item) (t : list item) : list mod_ := [MDef "leaf" b; MDef "top" t].
Definition listed (r : res st) : option (list (list string)) := match r with Ok s => Some (map (fun i => path_text (fst i)) (getInstances s)) | Err _ => None end.
(** An array with an ascending range has no instances. *)
Theorem C57_ascending_array_refuted log2i tocode : let D a b := leafs [] [IInst "leaf" "u" (Some (XInt a, XInt b)) []] in
  listed (elaborate log2i tocode 40 (D "1" "0") "top") = Some [["top"]; ["top"; "u_0"]; ["top"; "u_1"]] /\
  listed (elaborate log2i tocode 40 (D "0" "1") "top") = Some [["top"]].
Proof. cbn zeta. split; vm_compute; reflexivity. Qed.
(** A parameter with a range cannot be used in a submodule, only in the top module. *)
Theorem C57_ranged_parameter_refuted log2i tocode : let P := IParam "P" (Some (XInt "7", XInt "0")) (XInt "3") in
  (forall k, (2 <= k)%nat -> elaborate log2i tocode k (leafs [P] [IInst "leaf" "u" None []]) "top" = Err FormatError) /\
  listed (elaborate log2i tocode 40 (leafs [P] []) "leaf") = Some [["leaf"]].
Proof.
  cbn zeta. split; [|vm_compute; reflexivity]. intros k Hk. destruct k as [|[|k]]; [lia|lia|]. vm_compute. reflexivity.
Qed.
(** A parameter whose default uses a localparam is known in the top module, but not in a submodule. *)
Theorem C57_localparam_default_refuted log2i tocode : let b := [ILocal "L" (XInt "2"); IParam "P" None (XId "L")] in
  listed (elaborate log2i tocode 40 (leafs b []) "leaf") = Some [["leaf"]] /\
  elaborate log2i tocode 40 (leafs b [IInst "leaf" "u" None []]) "top" = Err DefinitionError.
Proof. cbn zeta. split; vm_compute; reflexivity. Qed.
(** A parameter that is not a known number makes the elaboration of an instance go on for ever. *)
Theorem C57_unknown_parameter_refuted log2i tocode k : elaborate log2i tocode k (leafs [IParam "P" None (XInt "4'bx")] [IInst "leaf" "u" None []]) "top" = Err OutOfFuel.
Proof.
  destruct k as [|k]; [vm_compute; reflexivity|]. unfold elaborate. set (T := modules _ _). vm_compute in T. subst T. cbn [bind].
  set (s0 := stackInstanceFrame _ _ _ _). vm_compute in s0. subst s0. cbn [bind]. set (d := getInfo _ _). vm_compute in d. subst d. cbn [bind fst m_items each].
  match goal with |- context [visit log2i tocode ?T _ ?s ?x] => assert (visit log2i tocode T (S k) s x = Err OutOfFuel) as ->; [|reflexivity] end.
  cbn [visit rule]. unfold instance. set (p := primitive _). vm_compute in p. subst p. cbn [String.eqb]. set (s0 := stackInstanceFrame _ _ _ _). vm_compute in s0. subst s0. cbn [bind].
  match goal with |- context [consts_at ?s ?c] => set (cs0 := consts_at s c) end. vm_compute in cs0. subst cs0. cbn [bind simple_terms]. set (d := getInfo _ _). vm_compute in d. subst d. cbn [bind fst snd i_params overrides].
  match goal with |- context [const_passes log2i tocode k k ?s ?c] => assert (forall j, const_passes log2i tocode j k s c = Err OutOfFuel) as H end.
  { intros j. destruct k as [|k]; [destruct j; vm_compute; reflexivity|]. induction j as [|j IH]; [reflexivity|]. cbn [const_passes].
    match goal with |- context [consts_at ?s ?c] => set (cs0 := consts_at s c) end. vm_compute in cs0. subst cs0. cbn [bind].
    match goal with |- context [const_pass log2i tocode (S k) ?s ?c ?l true] => assert (const_pass log2i tocode (S k) s c l true = Ok (false, s)) as -> by (vm_compute; reflexivity) end.
    exact IH. }
  rewrite H. reflexivity.
Qed.
(** A condition of a generate construct that is negative counts as false. *)
Theorem C57_negative_condition_refuted log2i tocode :
  const [] (XUn Uminus (XInt "1")) (-1) /\
  listed (elaborate log2i tocode 40 (leafs [] [IGenerate [IIf (XUn Uminus (XInt "1")) (Some (IInst "leaf" "u" None [])) (Some (IInst "leaf" "v" None []))]]) "top")
  = Some [["top"]; ["top"; "md_generate0"; "ge_if0_ELSE"; "v"]].
Proof. split; [cst|vm_compute; reflexivity]. Qed.
(** The variable of a loop in a procedural block overwrites a parameter of the same name outside. *)
Theorem C57_loop_variable_refuted log2i tocode :
  let always := IAlways (IBlock (Some "b") [ISignal false "i"; IFor "i" (XInt "0") (XBin LessThan (XId "i") (XInt "3")) "i" (XBin Plus (XId "i") (XInt "1")) ISkip]) in
  let generate := IGenerate [IIf (XBin Eq (XId "i") (XInt "2")) (Some (IInst "leaf" "u" None [])) None] in
  listed (elaborate log2i tocode 40 (leafs [] [IParam "i" None (XInt "2"); generate]) "top") = Some [["top"]; ["top"; "md_generate0"; "ge_if0"; "u"]] /\
  listed (elaborate log2i tocode 40 (leafs [] [IParam "i" None (XInt "2"); always; generate]) "top") = Some [["top"]].
Proof. cbn zeta. split; vm_compute; reflexivity. Qed.

Print Assumptions C57_instances_partial.
Print Assumptions C57_modules_partial.
Print Assumptions C57_constants_partial.
Print Assumptions C57_ascending_array_refuted.
Print Assumptions C57_ranged_parameter_refuted.
Print Assumptions C57_localparam_default_refuted.
Print Assumptions C57_unknown_parameter_refuted.
Print Assumptions C57_negative_condition_refuted.
Print Assumptions C57_loop_variable_refuted.
