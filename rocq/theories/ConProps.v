(** ConProps.v - C59: assignments, connections and gates assign what they say. *)
From Verif Require Import Base ScopeModel ScopeSpec ScopeProofs DfModel DfSpec ReorderModel BindModel BindSpec BindProofs AsgModel AsgProofs ExprModel MkModel MkSpec MkProps LitModel ConModel ConSpec ConProofs ConProofs2 ConProofs3.
Local Open Scope list_scope.

Lemma taken_holds I p : taken I p -> holds I p = true.
Proof. unfold taken, holds. induction 1 as [|[c b] p H _ IH]; [reflexivity|]. cbn [forallb fst snd] in *. rewrite H, IH. now destruct b. Qed.
Lemma here_inv is_module nettype s scope es : plain_store s -> Inv is_module nettype s scope es s.
Proof. intros [H _]. split; [split; auto|exact H]. Qed.

(** A continuous assignment to a signal, a slice, a word of a memory, or a concatenation of such: the left
    sides take the value of the right side, or their part of it; nothing else changes. *)
Theorem C59_assign_partial : forall k opt times is_module nettype I num count s scope names p l e s',
  fair I num count opt times -> plain_store s -> no_any scope -> scope <> [] -> named is_module s scope names -> taken I p ->
  forallb no_calls (e :: flat l) = true ->
  assign k opt times is_module nettype s scope p l e = Ok s' ->
  declared is_module nettype s scope (flat l) s' /\ Forall (fun x => exists t, place I count s names x t) (flat l) /\
  forall ws, writes I num count s names (means I count s names e) (flat l) ws -> NoDup (map fst ws) -> effect I s ws s' /\ plain_store s'.
Proof.
  intros k opt times is_module nettype I num count s scope names p l e s' (HN & HI & HC & HO & HT & HZ) PS Hs Hne Hnames HP N E.
  cbn [forallb] in N. apply andb_true_iff in N as [N2 N1].
  destruct (assign_ok k opt times is_module nettype I num count HN HI HC HO HT HZ s scope names Hs Hne Hnames (flat l) s p l e s' (here_inv _ _ _ _ _ PS) (proj2 PS) (taken_holds _ _ HP) (incl_refl _) N1 N2 E) as (A & B & C).
  split; [exact (proj1 A)|]. split; [exact B|]. intros ws W ND. destruct (C ws W ND) as [C1 C2]. split; [exact C1|]. split; [exact (proj2 A)|exact C2].
Qed.
Print Assumptions C59_assign_partial.

(** The connections of an instance: an input port takes the value of its argument, the argument of an output
    port takes the value of the port, by name or by position; nothing else changes. *)
Theorem C59_connections_partial : forall k opt times is_module nettype I num count s scope names inst pr all ports cs i s' ws,
  fair I num count opt times -> plain_store s -> no_any scope -> scope <> [] -> named is_module s scope names -> taken I pr ->
  no_any inst -> is_module inst = true -> forallb no_calls (arguments i cs) = true ->
  connect k opt times is_module nettype s inst scope pr all ports cs i = Ok s' ->
  connections I count s inst names i ports cs ws -> NoDup (map fst ws) ->
  effect I s ws s' /\ declared is_module nettype s scope (arguments i cs) s' /\ plain_store s'.
Proof.
  intros k opt times is_module nettype I num count s scope names inst pr all ports cs i s' ws (HN & HI & HC & HO & HT & HZ) PS Hs Hne Hnames HP Hi Hm N E W ND.
  destruct (connect_ok k opt times is_module nettype I num count HN HI HC HO HT HZ s scope names Hs Hne Hnames inst pr i (arguments i cs) Hi Hm (taken_holds _ _ HP) all cs ports s s' ws (here_inv _ _ _ _ _ PS) (proj2 PS)) as (A & B & C); auto.
  - intros c e Hc He. rewrite forallb_forall in N. assert (K : In (pick i e) (arguments i cs)). { apply in_flat_map. exists c. split; [exact Hc|]. rewrite He. left. reflexivity. }
    split; [exact K|]. specialize (N _ K). destruct i; cbn [pick no_calls] in N; [now apply andb_true_iff in N as [N _]|exact N].
  - split; [exact C|]. split; [exact (proj1 A)|]. split; [exact (proj2 A)|exact B].
Qed.
Print Assumptions C59_connections_partial.

(** A gate: its first argument takes the reduction of the others, one bit of each. *)
Theorem C59_gates_partial : forall k opt times is_module nettype I num count s scope names p name g cs i s' o ins t v,
  fair I num count opt times -> plain_store s -> no_any scope -> scope <> [] -> named is_module s scope names -> taken I p ->
  In (name, g) primitives -> map c_arg cs = map Some (o :: ins) -> forallb no_calls (o :: ins) = true ->
  primitive k opt times is_module nettype s scope p g cs i = Ok s' ->
  place I count s names (pick i o) t -> gate_value I name (map (fun e => means I count s names (bit i e)) ins) = Some v ->
  effect I s [(t, v)] s'.
Proof.
  intros k opt times is_module nettype I num count s scope names p name g cs i s' o ins t v F PS Hs Hne Hnames HP Hg Hcs N E PL GV.
  destruct cs as [|c cs]; [discriminate|]. cbn [map] in Hcs. injection Hcs as Hc Hcs. cbn [forallb] in N. apply andb_true_iff in N as [No Ni].
  unfold primitive in E. assert (FA : forall c e, c_arg c = Some e -> first_arg c = Ok e) by (intros c0 e0 H0; unfold first_arg; now rewrite H0). rewrite (FA _ _ Hc) in E. cbn [bind] in E. cbv zeta in E.
  assert (ND : NoDup (map fst [(t, v)])) by (cbn [map]; constructor; [intros []|constructor]).
  assert (DO : forall right_, no_calls right_ = true -> means I count s names right_ = v -> assign k opt times is_module nettype s scope p (LOne (indexed i o)) right_ = Ok s' -> effect I s [(t, v)] s').
  { intros r Nr Er EA. destruct (C59_assign_partial k opt times is_module nettype I num count s scope names p (LOne (indexed i o)) r s' F PS Hs Hne Hnames HP) as (_ & _ & K); [|exact EA|].
    - cbn [forallb flat]. rewrite Nr. change (indexed i o) with (pick i o). destruct i; cbn [pick no_calls]; now rewrite No.
    - apply (K [(t, v)]); [|exact ND]. rewrite Er. cbn [flat]. constructor. exact PL. }
  assert (NB : forall e, In e ins -> no_calls (bit i e) = true) by (intros e He; cbn [bit no_calls]; rewrite (proj1 (forallb_forall _ _) Ni _ He); reflexivity).
  assert (ONE : forall d r, cs = d :: r -> exists e r', ins = e :: r' /\ first_arg d = Ok e).
  { intros d r ->. destruct ins as [|e r']; [discriminate|]. cbn [map] in Hcs. injection Hcs as Hd _. exists e, r'. split; [reflexivity|now apply FA]. }
  assert (ALL : forall l, mapM first_arg cs = Ok l -> l = ins).
  { clear -Hcs FA. revert ins Hcs. induction cs as [|d cs IH]; intros [|e ins] Hcs l E; try discriminate; cbn [mapM] in E; [injection E as <-; reflexivity|].
    cbn [map] in Hcs. injection Hcs as Hd Hcs. rewrite (FA _ _ Hd) in E. cbn [bind] in E. apply bind_ok in E as (l' & E1 & E). injection E as <-. f_equal. now apply IH. }
  assert (RED : forall op_, g = Reduction op_ -> gate_value I name (map (fun e => means I count s names (bit i e)) ins) = Some (i_op I op_ [i_concat I (map (fun e => means I count s names (bit i e)) ins)]) -> effect I s [(t, v)] s').
  { intros op_ -> GV'. apply bind_ok in E as (r & E1 & E). apply bind_ok in E1 as (l & E1 & E2). injection E2 as <-. apply ALL in E1 as ->.
    apply (DO _) in E; [exact E| |].
    - cbn [no_calls]. apply forallb_forall. intros x Hx. apply in_map_iff in Hx as (e & <- & He). exact (NB e He).
    - rewrite GV in GV'. injection GV' as ->. unfold means. cbn [meaning]. rewrite map_map. reflexivity. }
  cbn [primitives In] in Hg.
  repeat (destruct Hg as [Hg|Hg]; [injection Hg as <- <-; try (apply (RED _ eq_refl); reflexivity)|]); [..|destruct Hg].
  - apply bind_ok in E as (r & E1 & E). destruct cs as [|d cs]; [discriminate|]. destruct (ONE d cs eq_refl) as (e & r' & -> & Fd). rewrite Fd in E1. cbn [bind] in E1. injection E1 as <-.
    cbn in GV. destruct r'; [|discriminate]. injection GV as <-. apply (DO _) in E; [exact E| |reflexivity]. cbn [no_calls]. exact (NB e (or_introl eq_refl)).
  - apply bind_ok in E as (r & E1 & E). destruct cs as [|d cs]; [discriminate|]. destruct (ONE d cs eq_refl) as (e & r' & -> & Fd). rewrite Fd in E1. cbn [bind] in E1. injection E1 as <-.
    cbn in GV. destruct r'; [|discriminate]. injection GV as <-. apply (DO _) in E; [exact E| |reflexivity]. exact (NB e (or_introl eq_refl)).
Qed.
Print Assumptions C59_gates_partial.

(** Every scope has such a naming. *)
Lemma names_exist is_module s scope : exists names, named is_module s scope names.
Proof.
  exists (fun x => match searchTerminal is_module s scope x with Some n => n | None => net scope x end). intros x.
  destruct (searchTerminal is_module s scope x) as [n|] eqn:E; [left; now apply search_visible|]. right. split; [|reflexivity]. intros n H. apply search_visible in H. congruence.
Qed.

(** ** Examples: module top with a[3:0], a memory m of bytes, c and d[1:0]; an instance u of a module with
    input x, output y. *)
Local Open Scope string_scope.
Definition L59 (x : string) (ty : scopetype) : label := Label x ty None.
Definition top59 : chain := [L59 "top" STmodule].
Definition u59 : chain := [L59 "top" STmodule; L59 "u" STmodule].
Definition mod59 (c : chain) : bool := match rev c with Label _ STmodule _ :: _ => true | _ => false end.
Definition sc59 : chain := [L59 "top" STmodule; L59 "g" STgenerate].
Definition T59 (sc : chain) (x : string) (ty : string) (hi : string) (dims : option (list (df * df))) : chain * term := (net sc x, Term (net sc x) [ty; "Reg"] (DInt hi) (DInt "0") dims).
Definition s59 : store := Store [T59 top59 "a" "Wire" "3" None; T59 top59 "m" "Reg" "7" (Some [(DInt "0", DInt "3")]); T59 top59 "c" "Wire" "7" None; T59 top59 "d" "Wire" "1" None;
  T59 u59 "x" "Input" "3" None; T59 u59 "y" "Output" "3" None] [].
Definition opt59 (t : df) : res df := match t with DOp _ _ => Err Unmodelled | _ => Ok t end.
Definition times59 (e : expr) : res Z := Err AttributeError.
Definition zint (s : string) : Z := if String.eqb s "0" then 0 else if String.eqb s "1" then 1 else if String.eqb s "2" then 2 else if String.eqb s "3" then 3 else 7.
Definition I59 : interp := Interp (option Z) None (fun n => Some (Z.of_nat (String.length (sname (last n (L59 "" STmodule))))))
  (fun t => match t with DInt s => Some (zint s) | _ => None end)
  (fun o l => match o, l with Plus, [Some a; Some b] => Some (a + b)%Z | Minus, [Some a; Some b] => Some (a - b)%Z | _, _ => None end)
  (fun v m l => match v, m, l with Some v, Some m, Some l => Some (Z.land (Z.shiftr v l) (Z.ones (m - l + 1))) | _, _, _ => None end)
  (fun v p => match v, p with Some v, Some p => Some (v + p)%Z | _, _ => None end) (fun l => hd None l) (fun v => v) (fun _ l => hd None l)
  (fun v => match v with Some z => negb (Z.eqb z 0) | None => false end).
Lemma fair59 : fair I59 Some (fun _ => 0%Z) opt59 times59.
Proof.
  split; [split; reflexivity|]. split; [|split; [|split; [|split]]].
  - intros n m H. cbn [i_term I59]. do 3 f_equal. clear -H. unfold agree in H. induction H as [|a b n m (H1 & _) HF IH]; [reflexivity|].
    destruct HF; [exact H1|]. exact IH.
  - intros f x _. reflexivity.
  - intros t t' H. unfold opt59 in H. destruct t; try discriminate; injection H as <-; split; auto.
  - discriminate.
  - split; [reflexivity|]. split; [reflexivity|]. split; reflexivity.
Qed.
Lemma plain59 : plain_store s59.
Proof. split; [|constructor]. repeat (constructor; [repeat (constructor; [discriminate|]); constructor|]). constructor. Qed.
Definition names59 (x : string) : chain := match searchTerminal mod59 s59 sc59 x with Some n => n | None => net sc59 x end.
Lemma named59 : named mod59 s59 sc59 names59.
Proof.
  intros x. unfold names59. destruct (searchTerminal mod59 s59 sc59 x) as [n|] eqn:E; [left; now apply search_visible|]. right. split; [|reflexivity]. intros n H. apply search_visible in H. congruence.
Qed.
(** assign {a, {m[2][1:0], w}} = c + 1, in a generate block g; w is not declared. *)
Definition left59 : lval := LCat [LOne (XId "a"); LCat [LOne (XPart (XPtr (XId "m") (XInt "2")) (XInt "1") (XInt "0")); LOne (XId "w")]].
Definition right59 : expr := XBin Plus (XId "c") (XInt "1").
Definition v59 : option Z := means I59 (fun _ => 0%Z) s59 names59 right59.
Definition ws59 : list (target I59 * option Z) :=
  [((net top59 "a", Some 3, Some 0, None), i_part I59 v59 (Some 6) (Some 3)); ((net top59 "m", Some 1, Some 0, Some 2), i_part I59 v59 (Some 2) (Some 1));
   ((net sc59 "w", Some 0, Some 0, None), i_part I59 v59 (Some 0) (Some 0))]%Z.
Example C59_assign_hypotheses_met : (exists s', assign 9 opt59 times59 mod59 "wire" s59 sc59 [] left59 right59 = Ok s') /\
  forallb no_calls (right59 :: flat left59) = true /\ writes I59 Some (fun _ => 0%Z) s59 names59 v59 (flat left59) ws59 /\ NoDup (map fst ws59).
Proof.
  split; [|split; [reflexivity|split]].
  - eexists. vm_compute. reflexivity.
  - apply (writes_many _ _ _ _ _ _ _ _ 7); [discriminate|]. unfold ws59, left59. cbn [flat flat_map app].
    refine (split_cons I59 Some (fun _ => 0%Z) s59 names59 v59 _ _ 3 0 _ _ 3 _ _ _); [|exact (spans_declared I59 Some (fun _ => 0%Z) s59 names59 (XId "a") (net top59 "a") None (snd (T59 top59 "a" "Wire" "3" None)) 3 0 (spot_whole _ _ "a") eq_refl eq_refl eq_refl)|lia].
    refine (split_cons I59 Some (fun _ => 0%Z) s59 names59 v59 _ _ 1 0 _ _ 1 _ _ _); [|exact (spans_range I59 Some (fun _ => 0%Z) s59 names59 _ (net top59 "m") (XInt "1") (XInt "0") (Some (XInt "2")) 1 0 (spot_word_range s59 names59 "m" _ _ _ eq_refl) eq_refl eq_refl)|lia].
    refine (split_cons I59 Some (fun _ => 0%Z) s59 names59 v59 _ _ 0 0 _ _ 0 _ _ _); [constructor|exact (spans_implicit I59 Some (fun _ => 0%Z) s59 names59 (XId "w") (net sc59 "w") None (spot_whole _ _ "w") eq_refl)|lia].
  - cbn [map fst ws59]. repeat (constructor; [cbn; intros C; repeat (destruct C as [C|C]; [discriminate C|]); exact C|]). constructor.
Qed.
(** u (.y(d), .x(c)): a connection by name. *)
Definition namesT (x : string) : chain := match searchTerminal mod59 s59 top59 x with Some n => n | None => net top59 x end.
Definition conns59 : list conn := [Conn (Some "y") (Some (XId "d")); Conn (Some "x") (Some (XId "c"))].
Example C59_connections_hypotheses_met : (exists s', connect 9 opt59 times59 mod59 "wire" s59 u59 top59 [] ["x"; "y"] ["x"; "y"] conns59 None = Ok s') /\
  mod59 u59 = true /\ named mod59 s59 top59 namesT /\
  connections I59 (fun _ => 0%Z) s59 u59 namesT None ["x"; "y"] conns59 [((net top59 "d", None, None, None), i_term I59 (net u59 "y")); ((net u59 "x", None, None, None), i_term I59 (net top59 "c"))].
Proof.
  split; [eexists; vm_compute; reflexivity|]. split; [reflexivity|]. split.
  - intros x. unfold namesT. destruct (searchTerminal mod59 s59 top59 x) as [n|] eqn:E; [left; now apply search_visible|]. right. split; [|reflexivity]. intros n H. apply search_visible in H. congruence.
  - refine (more_connections I59 _ s59 u59 namesT None "x" ["y"] _ _ [_] [_] _ (more_connections I59 _ s59 u59 namesT None "y" [] _ _ [_] [] _ (no_connections _ _ _ _ _ _ _))).
    + exact (output I59 _ s59 u59 namesT None (Conn (Some "y") (Some (XId "d"))) "y" (XId "d") (snd (T59 u59 "y" "Output" "3" None)) _ eq_refl eq_refl eq_refl (place_whole _ _ _ _ (XId "d") _ None (spot_whole _ _ "d"))).
    + exact (input I59 _ s59 u59 namesT None (Conn (Some "x") (Some (XId "c"))) "x" (XId "c") (snd (T59 u59 "x" "Input" "3" None)) eq_refl eq_refl eq_refl).
Qed.
(** nand (d[1], c, w) has a value; d[1] takes it. *)
Example C59_gates_hypotheses_met : (exists s', primitive 9 opt59 times59 mod59 "wire" s59 top59 [] (Reduction Unand) [Conn None (Some (XPtr (XId "d") (XInt "1"))); Conn None (Some (XId "c")); Conn None (Some (XId "a"))] None = Ok s') /\
  In ("nand", Reduction Unand) primitives /\ place I59 (fun _ => 0%Z) s59 namesT (XPtr (XId "d") (XInt "1")) (net top59 "d", Some 1%Z, Some 1%Z, None).
Proof.
  split; [eexists; vm_compute; reflexivity|]. split; [cbn; tauto|]. exact (place_range I59 _ s59 namesT _ (net top59 "d") (XInt "1") (XInt "1") None (spot_bit s59 namesT "d" _ eq_refl)).
Qed.

(** ** Where the full property fails: every legal connection or assignment does what Verilog says. *)
Definition bind59 (r : res store) (n : chain) : option (list (df * df * df * df)) :=
  match r with Ok s => Some (map (fun b => (b_msb b, b_lsb b, b_ptr b, b_tree b)) (getBindlist (s_binds s) n)) | Err _ => None end.
Theorem C59_connections_refuted :
  (* .y({a, d}): an output port connected to a concatenation is rejected *)
  (forall k, connect k opt59 times59 mod59 "wire" s59 u59 top59 [] ["x"; "y"] ["x"; "y"] [Conn (Some "y") (Some (XConcat [XId "a"; XId "d"]))] None = Err FormatError) /\
  (* .x(w) with w not declared is rejected, though .y(w) declares it *)
  (connect 9 opt59 times59 mod59 "wire" s59 u59 top59 [] ["x"; "y"] ["x"; "y"] [Conn (Some "x") (Some (XId "w")); Conn (Some "y") (Some (XId "w"))] None = Err DefinitionError /\
   exists s', connect 9 opt59 times59 mod59 "wire" s59 u59 top59 [] ["x"; "y"] ["x"; "y"] [Conn (Some "y") (Some (XId "w")); Conn (Some "x") (Some (XId "w"))] None = Ok s') /\
  (* a wrong port name is a FormatError only if the argument is an identifier *)
  (connect 9 opt59 times59 mod59 "wire" s59 u59 top59 [] ["x"; "y"] ["x"; "y"] [Conn (Some "z") (Some (XId "c"))] None = Err FormatError /\
   connect 9 opt59 times59 mod59 "wire" s59 u59 top59 [] ["x"; "y"] ["x"; "y"] [Conn (Some "z") (Some (XInt "1"))] None = Err AttributeError) /\
  (* element 1 of an array of instances with four-bit ports takes one bit of its argument, not four, and bit 1 of a one-bit argument *)
  bind59 (connect 9 opt59 times59 mod59 "wire" s59 u59 top59 [] ["x"; "y"] ["x"; "y"] [Conn (Some "x") (Some (XId "c"))] (Some 1%Z)) (net u59 "x") =
    Some [(DNone, DNone, DNone, DPart (DTerm (net top59 "c")) (DInt "1") (DInt "1"))].
Proof.
  split; [reflexivity|]. split; [split; [reflexivity|eexists; vm_compute; reflexivity]|]. split; [split; reflexivity|]. vm_compute. reflexivity.
Qed.
Print Assumptions C59_connections_refuted.
(** buf (d, a, c) has two outputs, d and a, in Verilog: the code lets d take bit 0 of a, and a and c are not connected. *)
Theorem C59_gates_refuted : let r := primitive 9 opt59 times59 mod59 "wire" s59 top59 [] Buffer [Conn None (Some (XId "d")); Conn None (Some (XId "a")); Conn None (Some (XId "c"))] None in
  bind59 r (net top59 "d") = Some [(DNone, DNone, DNone, DPart (DTerm (net top59 "a")) (DInt "0") (DInt "0"))] /\ bind59 r (net top59 "a") = Some [].
Proof. split; vm_compute; reflexivity. Qed.
Print Assumptions C59_gates_refuted.
(** With e[0:3], {e, d} = c: the part of e has the bounds 2 + (0 - 3) = -1 and 2. *)
Definition s59b : store := Store ((net top59 "e", Term (net top59 "e") ["Wire"] (DInt "0") (DInt "3") None) :: s_terms s59) [].
Theorem C59_ascending_range_refuted :
  match bind59 (assign 9 opt59 times59 mod59 "wire" s59b top59 [] (LCat [LOne (XId "e"); LOne (XId "d")]) (XId "c")) (net top59 "e") with
  | Some [(_, _, _, DPart (DTerm n) hi lo)] => n = net top59 "c" /\ eval I59 hi = Some (-1)%Z /\ eval I59 lo = Some 2%Z
  | _ => False
  end.
Proof. vm_compute. auto. Qed.
Print Assumptions C59_ascending_range_refuted.
