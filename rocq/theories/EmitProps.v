(** EmitProps.v - C63: the Verilog text of declarations, bindings and generated modules is read back as what they mean.
    Spec: [item_of] (the item a binding stands for), [declares] (the declarations a signal stands for), [port_list],
    [system_items], [signals], [wires_only], [reads_source] in EmitSpec.v. *)
From Verif Require Import Base ScopeModel ScopeSpec DfModel BindModel SubsetModel LexModel LexSpec LexProofs ExprModel ParseModel ExprSpec ExprSound StmModel StmText StmParse CodeSpec SrcModel EmitModel EmitSpec EmitProofs EmitParse EmitItems EmitDecls EmitModule EmitEntire.
From Verif Require SrcFuel CodeProps.
Require Import Coq.Sorting.Permutation.
Local Open Scope string_scope.
Local Notation "a +++ b" := (@app _ a b) (at level 60, right associativity).

Lemma module_around m x l : simple_id m -> reads_items x l -> reads_source (in_module m x) [DModule (VModule m [] [] l)].
Proof.
  intros HM (ts & [_ HP] & HI).
  assert (spells (in_module m x) (KW "module" :: ID m :: P LPAREN :: P RPAREN :: P SEMICOLON :: ts +++ [KW "endmodule"])) as KS.
  { unfold in_module. apply (spells_word "module" " "); [reserved_|now left|]. apply spells_name; [exact HM|now apply sep_char|].
    match goal with |- spells ("();" ++ ?r) _ => apply (spells_punct LPAREN (");" ++ r)); [reflexivity|]; apply (spells_punct RPAREN (";" ++ r)); [reflexivity|]; apply (spells_punct SEMICOLON r); [reflexivity|] end.
    apply spells_nl, HP. refine (spells_word "endmodule" NL "" [] _ (or_intror eq_refl) spells_nil). reserved_. }
  destruct (spells_lex _ _ KS) as (lx & L1 & L2).
  assert (ev (fun n => p_mitems n [] (ts +++ [KW "endmodule"])) (Ok (l, []))) as K. { apply HI. apply ev_S. ev0. }
  assert (ev (fun n => p_module n (ID m :: P LPAREN :: P RPAREN :: P SEMICOLON :: ts +++ [KW "endmodule"])) (Ok (VModule m [] [] l, []))) as KM.
  { unfold p_module. cbn [bind fst snd p_paramlist p_portlist]. evb K. ev0. }
  assert (ev (fun n => p_definitions n [] (KW "module" :: ID m :: P LPAREN :: P RPAREN :: P SEMICOLON :: ts +++ [KW "endmodule"])) (Ok [DModule (VModule m [] [] l)])) as KD.
  { apply ev_S. cbn [p_definitions].
    assert (ev (fun n => p_definition n (KW "module" :: ID m :: P LPAREN :: P RPAREN :: P SEMICOLON :: ts +++ [KW "endmodule"])) (Ok (DModule (VModule m [] [] l), []))) as KE.
    { change (ev (fun n => do x <- p_module n (ID m :: P LPAREN :: P RPAREN :: P SEMICOLON :: ts +++ [KW "endmodule"]); Ok (DModule (fst x), snd x)) (Ok (DModule (VModule m [] [] l), []))). evb KM. ev0. }
    evb KE. ev0. }
  destruct KD as (n0 & KD). exists n0. intros n Hn. unfold parse_source. rewrite L1. cbn [bind]. rewrite L2. exact (KD n Hn).
Qed.
Lemma reads_unique t d e : reads_source t d -> reads_source t e -> d = e.
Proof. intros [n H] [m K]. specialize (H (Nat.max n m) ltac:(lia)). specialize (K (Nat.max n m) ltac:(lia)). congruence. Qed.
Lemma never t : parse_source 60 t = Err ParseError -> unreadable t.
Proof.
  intros H n d K. destruct (Nat.le_ge_cases n 60) as [L|L].
  - pose proof (SrcFuel.parse_source_more n 60 t _ L K ltac:(discriminate)). congruence.
  - pose proof (SrcFuel.parse_source_more 60 n t _ L H ltac:(discriminate)). congruence.
Qed.

(** ** C63 *)
(** The text of a binding is read as the item it stands for: a parameter, an assignment, a clocked or a combinational block. *)
Theorem C63_bind_text_partial : forall b i m, item_of b i -> simple_id m ->
  exists text, bind_tocode b = Ok text /\ reads_source (in_module m text) [DModule (VModule m [] [] [i])].
Proof. intros b i m H HM. destruct (read_bind b i H) as (x & E & K). exists x. split; [exact E|]. apply module_around; [exact HM|now apply items_one]. Qed.
Print Assumptions C63_bind_text_partial.
(** So does the text of a declaration. *)
Theorem C63_declaration_text_partial : forall t ms m, declares t ms -> simple_id m ->
  exists text, term_tocode t = Ok text /\ reads_source (in_module m text) [DModule (VModule m [] [] [JDecl ms])].
Proof. intros t ms m H HM. destruct (read_term t ms H) as (x & E & K). exists x. split; [exact E|]. apply module_around; [exact HM|now apply items_one]. Qed.
Print Assumptions C63_declaration_text_partial.
(** Many bindings one after the other. *)
Theorem C63_texts_partial : forall l is m, Forall2 item_of l is -> simple_id m ->
  exists text, texts l = Ok text /\ reads_source (in_module m text) [DModule (VModule m [] [] is)].
Proof. intros l is m H HM. destruct (texts_ok l is H) as (x & E & K). exists x. split; [exact E|now apply module_around]. Qed.
Print Assumptions C63_texts_partial.
(** Bindings that mean different things have different texts, and a binding means one thing. *)
Fixpoint id_chars (s : string) : bool := match s with "" => true | String c r => id_char c && id_chars r end.
Definition simple_b (s : string) : bool := match s with "" => false | String c r => id_start c && id_chars r && negb (existsb (String.eqb s) reserved) end.
Lemma id_chars_ok s : id_chars s = true -> all_chars id_char s.
Proof. induction s as [|c s IH]; [constructor|]. cbn [id_chars]. intros H. apply andb_true_iff in H as [H1 H2]. constructor; [exact H1|exact (IH H2)]. Qed.
Lemma simple_of s : simple_b s = true -> simple_id s.
Proof.
  destruct s as [|c r]; [discriminate|]. unfold simple_b. intros H. apply andb_true_iff in H as [H H3]. apply andb_true_iff in H as [H1 H2]. exists c, r. split; [reflexivity|]. split; [exact H1|]. split; [now apply id_chars_ok|].
  intros C. apply negb_true_iff in H3. assert (existsb (String.eqb (String c r)) reserved = true) as K; [|congruence]. apply existsb_exists. exists (String c r). split; [exact C|apply String.eqb_refl].
Qed.
Lemma simple_m : simple_id "m".
Proof. exact (simple_of "m" eq_refl). Qed.
Theorem C63_text_determines_item_partial : forall b c i j, item_of b i -> item_of c j -> bind_tocode b = bind_tocode c -> i = j.
Proof.
  intros b c i j H K E. destruct (C63_bind_text_partial b i "m" H simple_m) as (x & E1 & R1). destruct (C63_bind_text_partial c j "m" K simple_m) as (y & E2 & R2).
  assert (x = y) by congruence. subst y. pose proof (reads_unique _ _ _ R1 R2) as U. now injection U.
Qed.
Print Assumptions C63_text_determines_item_partial.
Theorem C63_text_determines_declaration_partial : forall t u ms ns, declares t ms -> declares u ns -> term_tocode t = term_tocode u -> ms = ns.
Proof.
  intros t u ms ns H K E. destruct (C63_declaration_text_partial t ms "m" H simple_m) as (x & E1 & R1). destruct (C63_declaration_text_partial u ns "m" K simple_m) as (y & E2 & R2).
  assert (x = y) by congruence. subst y. pose proof (reads_unique _ _ _ R1 R2) as U. now injection U.
Qed.
Print Assumptions C63_text_determines_declaration_partial.

(** ** The whole design *)
Definition system_names (top modulename clock reset enable : string) : Prop :=
  simple_id modulename /\ simple_id clock /\ simple_id reset /\ simple_id enable /\
  simple_id (toFlatname (toTermname_list [top; clock])) /\ simple_id (toFlatname (toTermname_list [top; reset])).
Definition shown (terms : ndict term) : ndict term := filter (fun x => negb (constant x)) terms.
Lemma recorded_all terms : distinct terms -> named terms -> recorded terms (shown terms).
Proof.
  intros [D1 D2] N. apply Forall_forall. intros [n t] H. apply filter_In in H as [H _]. split; [now apply dget_some|]. unfold named in N. rewrite Forall_forall in N. exact (N _ H).
Qed.
(** Where only wires are bound, the text of the whole design is one module: the clock, reset and enable inputs, the ports of
    the top module, a declaration for each signal, and one item for each binding. *)
Theorem C63_entire_partial : forall terms resolved top modulename clock reset enable num_indent flat order ms items,
  system_names top modulename clock reset enable -> distinct terms -> named terms -> distinct resolved ->
  wires_only terms resolved -> (forall n bs, In (n, bs) resolved -> apart bs) -> (forall l, Permutation (order l) l) ->
  Exists (fun x => is_port top clock reset x = true) (shown terms) ->
  Forall2 declares (signals top clock reset (shown terms)) ms -> Forall2 item_of (flat_map snd resolved) items ->
  exists text items', generateEntireCode terms top modulename clock reset enable num_indent flat order resolved = Ok text /\
    Permutation items items' /\
    reads_source text [DModule (VModule modulename [] (port_list top clock reset enable (shown terms)) (system_items top clock reset enable +++ map JDecl ms +++ items'))].
Proof.
  intros terms resolved top modulename clock reset enable num_indent flat order ms items (S1 & S2 & S3 & S4 & S5 & S6) DT NT DR HW HA HO HE HD HI.
  destruct (Permutation_Forall2 (sets_permute order resolved HO) HI) as (items' & P1 & P2).
  set (p := Parts (shown terms) [] (filter bound resolved) [] []).
  assert (Forall2 item_of (body p order) items') as HB. { unfold body, p. cbn [p_parameter p_assign p_clockedge p_combination map app bind_sets flat_map]. rewrite app_nil_r. exact P2. }
  destruct (to_code_ok terms top modulename clock reset enable num_indent S1 S2 S3 S4 S5 S6 p order flat ms items' (recorded_all terms DT NT) HE HD HB) as (text & ET & n0 & K).
  exists text, items'. split; [unfold generateEntireCode; rewrite (entire_ok terms resolved DT DR HW HA); exact ET|]. split; [exact P1|]. exists n0. exact K.
Qed.
Print Assumptions C63_entire_partial.
(** Whatever is generated, every bound signal is a wire. *)
Definition wire_in (terms : ndict term) (n : chain) : Prop := exists t, dget terms n = Some t /\ In "Wire" (t_type t).
Theorem C63_only_wires : forall terms top modulename clock reset enable num_indent flat order text,
  (forall resolved, generateEntireCode terms top modulename clock reset enable num_indent flat order resolved = Ok text -> forall n bs, In (n, bs) resolved -> bs <> [] -> wire_in terms n) /\
  (forall binds names fuel targets, generateSubsetCode terms top modulename clock reset enable num_indent flat order binds names fuel targets = Ok text ->
     exists s, getBindSourceSubset terms binds top clock names fuel targets = Ok s /\ forall n bs, In (n, bs) (fst s) -> bs <> [] -> wire_in terms n).
Proof.
  intros terms top modulename clock reset enable num_indent flat order text. split.
  - intros resolved E. unfold generateEntireCode, getEntire, discretion in E. destruct (sources_loop terms (map fst terms) []) as [d|]; [|discriminate]. cbn [bind] in E. destruct (binds_loop terms resolved (Parts d [] [] [] [])) as [q|] eqn:EB; [|discriminate]. exact (binds_wires terms _ _ _ EB).
  - intros binds names fuel targets E. unfold generateSubsetCode, discretion in E. destruct (getBindSourceSubset terms binds top clock names fuel targets) as [s|]; [|discriminate]. exists s. split; [reflexivity|]. cbn [bind] in E. destruct (sources_loop terms (names (snd s)) []) as [d|]; [|discriminate]. cbn [bind] in E. destruct (binds_loop terms (fst s) (Parts d [] [] [] [])) as [q|] eqn:EB; [|discriminate]. exact (binds_wires terms _ _ _ EB).
Qed.
Print Assumptions C63_only_wires.

(** *** What goes wrong *)
Definition ch (s : string) : chain := [Label "top" STmodule None; Label s STsignal None].
Definition n32 (v : Z) : df := DEval (PInt v) (Some 32%Z) false false.
Definition wire_bind (n : string) (t : df) : bind_ := Bind t (ch n) DNone DNone DNone None "".
Definition clk_info (e : string) (bit : Z) : alwaysinfo := Always (CName (ch "CLK")) (Some e) bit CNone None 0%Z.
Definition reg_bind (a : alwaysinfo) (t : df) : bind_ := Bind t (ch "q") DNone DNone DNone (Some a) "".
(** merge.py calls a function that does not exist for every signal that is not a wire: no code for any design in which a
    register, an output or a parameter is bound. *)
Theorem C63_registers_refuted :
  (forall terms resolved n t bs top modulename clock reset enable num_indent flat order text,
     distinct terms -> In (n, t) terms -> ~ In "Wire" (t_type t) -> In (n, bs) resolved -> bs <> [] ->
     generateEntireCode terms top modulename clock reset enable num_indent flat order resolved <> Ok text) /\
  (let terms := [(ch "CLK", Term (ch "CLK") ["Input"] DNone DNone None); (ch "d", Term (ch "d") ["Input"] DNone DNone None); (ch "q", Term (ch "q") ["Output"; "Reg"] DNone DNone None)] in
   let binds := [(ch "q", [reg_bind (clk_info "posedge" 0) (DTerm (ch "d"))])] in
   generateEntireCode terms "top" "out" "CLK" "RST" "EN" 2 false (fun l => l) binds = Err AttributeError /\
   generateSubsetCode terms "top" "out" "CLK" "RST" "EN" 2 false (fun l => l) binds (fun l => l) 30 ["top.q"] = Err AttributeError).
Proof.
  split; [|split; vm_compute; reflexivity]. intros terms resolved n t bs top modulename clock reset enable num_indent flat order text [D1 D2] H1 H2 H3 H4 E.
  destruct (C63_only_wires terms top modulename clock reset enable num_indent flat order text) as [K _]. destruct (K resolved E n bs H3 H4) as (u & EU & HU). rewrite (dget_some terms n t D1 D2 H1) in EU. congruence.
Qed.
Print Assumptions C63_registers_refuted.
(** A design without ports besides the clock and the reset: the port list ends with a comma. *)
Theorem C63_no_ports_refuted : forall terms resolved top modulename clock reset enable num_indent flat order ms items,
  system_names top modulename clock reset enable -> distinct terms -> named terms -> distinct resolved ->
  wires_only terms resolved -> (forall n bs, In (n, bs) resolved -> apart bs) -> (forall l, Permutation (order l) l) ->
  Forall (fun x => is_port top clock reset x = false) (shown terms) ->
  Forall2 declares (signals top clock reset (shown terms)) ms -> Forall2 item_of (flat_map snd resolved) items ->
  exists text, generateEntireCode terms top modulename clock reset enable num_indent flat order resolved = Ok text /\ unreadable text.
Proof.
  intros terms resolved top modulename clock reset enable num_indent flat order ms items (S1 & S2 & S3 & S4 & S5 & S6) DT NT DR HW HA HO HE HD HI.
  destruct (Permutation_Forall2 (sets_permute order resolved HO) HI) as (items' & P1 & P2).
  set (p := Parts (shown terms) [] (filter bound resolved) [] []).
  assert (Forall2 item_of (body p order) items') as HB. { unfold body, p. cbn [p_parameter p_assign p_clockedge p_combination map app bind_sets flat_map]. rewrite app_nil_r. exact P2. }
  destruct (no_ports terms top modulename clock reset enable num_indent S1 S2 S3 S4 S5 S6 p order flat ms items' (recorded_all terms DT NT) HE HD HB) as (text & ET & K).
  exists text. split; [unfold generateEntireCode; rewrite (entire_ok terms resolved DT DR HW HA); exact ET|exact K].
Qed.
Print Assumptions C63_no_ports_refuted.
(** The bit of the clock and of the reset are not printed: always @(posedge clk[0]) and always @(posedge clk[1]) become the same. *)
Theorem C63_event_bits_refuted : forall tree dest msb lsb ptr par cn ce rn re c r c' r',
  bind_tocode (Bind tree dest msb lsb ptr (Some (Always cn ce c rn re r)) par) = bind_tocode (Bind tree dest msb lsb ptr (Some (Always cn ce c' rn re r')) par).
Proof. reflexivity. Qed.
Print Assumptions C63_event_bits_refuted.
(** A clock without an edge is printed with a word that is none. *)
Theorem C63_level_refuted : exists text, bind_tocode (reg_bind (clk_info "level" 0) (DTerm (ch "d"))) = Ok text /\ unreadable (in_module "m" text).
Proof. eexists. split; [vm_compute; reflexivity|]. apply never. vm_compute. reflexivity. Qed.
Print Assumptions C63_level_refuted.
(** A block with an edge on a signal whose name is not that of a clock (C62) is printed as a combinational one, with blocking
    assignments. *)
Theorem C63_unnamed_clock_refuted : forall e bit re rbit n m, exists text,
  bind_tocode (reg_bind (Always CNone e bit (CName n) re rbit) (DTerm m)) = Ok text /\
  bind_tocode (reg_bind (Always CNone None 0 CNone None 0) (DTerm m)) = Ok text.
Proof. intros. eexists. split; reflexivity. Qed.
Print Assumptions C63_unnamed_clock_refuted.
(** A branch without a condition, which the code provides for (dataflow.py:440-441), gets an empty one. *)
Theorem C63_condition_refuted : exists text, bind_tocode (reg_bind (clk_info "posedge" 0) (DBranch DNone (DTerm (ch "d")) DNone)) = Ok text /\ unreadable (in_module "m" text).
Proof. eexists. split; [vm_compute; reflexivity|]. apply never. vm_compute. reflexivity. Qed.
Print Assumptions C63_condition_refuted.
(** A signal whose only type is none of those that are printed (a genvar) is declared without any word. *)
Theorem C63_genvar_refuted : exists text, term_tocode (Term (ch "i") ["Genvar"] DNone DNone None) = Ok text /\ unreadable (in_module "m" text).
Proof. eexists. split; [vm_compute; reflexivity|]. apply never. vm_compute. reflexivity. Qed.
Print Assumptions C63_genvar_refuted.
(** Two signals with the same flat name are declared, and driven, as one. *)
Theorem C63_names_refuted : exists n m t, chain_eq n m = false /\ bind_tocode (Bind t n DNone DNone DNone None "") = bind_tocode (Bind t m DNone DNone DNone None "") /\
  (forall ty a b d, is_type ty "Wire" = true -> term_tocode (Term n ty a b d) = term_tocode (Term m ty a b d)).
Proof.
  exists [Label "top" STmodule None; Label "a_b" STmodule None; Label "c" STsignal None], [Label "top" STmodule None; Label "a" STmodule None; Label "b_c" STsignal None], (DInt "0").
  split; [reflexivity|]. split; reflexivity.
Qed.
Print Assumptions C63_names_refuted.
(** The declaration of an array of integers (integer x[0:3]) is one that the parser of the same project refuses. *)
Theorem C63_integer_array_refuted : exists text, term_tocode (Term (ch "x") ["Integer"] DNone DNone (Some [(n32 0, n32 3)])) = Ok text /\ unreadable (in_module "m" text).
Proof. eexists. split; [vm_compute; reflexivity|]. apply never. vm_compute. reflexivity. Qed.
Print Assumptions C63_integer_array_refuted.

(** ** Concrete cases *)
Ltac means1 := solve [exact (mn_term _ _)|exact (mn_value _ _ _ _ ltac:(lia))|exact (mn_int _ _)|exact (mn_undef _ _)].
Ltac plain1 text := split; [apply (parse_sound 200 text); vm_compute; reflexivity|vm_compute; reflexivity].
Lemma say_id d s : simple_b (chain_tocode (ch s)) = true -> says d (DTerm (ch s)) (XId (chain_tocode (ch s))).
Proof. intros H. split; [apply mn_term|]. apply simple_plain. now apply simple_of. Qed.
Lemma say_num d v : (0 <= v)%Z -> says d (n32 v) (XInt (literal 32 (z_str v))).
Proof. intros H. split; [now apply mn_value|]. split; [|reflexivity]. refine (w_int DEC _ _). destruct (CodeProps.C45_values_are_numbers 32 v ltac:(lia) H) as (K & _). exact K. Qed.
(** Bindings of the four kinds: a parameter, an assignment to a range, a clocked block with a reset and a block @*. *)
Definition param63 : bind_ := Bind (n32 8) (ch "W") DNone DNone DNone None "parameter".
Definition wire63 : bind_ := Bind (DBranch (DTerm (ch "sel")) (DTerm (ch "a")) DNone) (ch "w") (n32 3) (n32 2) DNone None "".
Definition both63 : alwaysinfo := Always (CName (ch "CLK")) (Some "posedge") 0 (CName (ch "RST")) (Some "negedge") 0.
Definition reg63 : bind_ :=
  Bind (DBranch (DTerm (ch "RST")) (n32 0) (DBranch (DTerm (ch "en")) (DOp [DTerm (ch "q"); n32 1] Plus) DNone)) (ch "q") DNone DNone DNone
    (Some both63) "".
Definition comb63 : bind_ := Bind (DBranch (DTerm (ch "en")) (DTerm (ch "a")) (DTerm (ch "q"))) (ch "y") DNone DNone DNone (Some (Always CNone None 0 CNone None 0)) "".
Definition items63 : list sitem :=
  [JDecl [MParam false "top_W" (XInt "'d8") None false];
   JAssign (Asg (XPart (XId "top_w") (XInt "'d3") (XInt "'d2")) (XCond (XId "top_sel") (XId "top_a") (XPart (XId "top_w") (XInt "'d3") (XInt "'d2"))) None None);
   JItem (IAlways KAlways [SSig Posedge (XId "top_CLK"); SSig Negedge (XId "top_RST")] (TBlock None
     [TIf (XId "top_RST") (TBlock None [TAsg true (Asg (XId "top_q") (XInt "'d0") None None)])
       (Some (TBlock None [TIf (XId "top_en") (TBlock None [TAsg true (Asg (XId "top_q") (XBin Plus (XId "top_q") (XInt "'d1")) None None)]) None]))]));
   JItem (IAlways KAlways [SAll] (TBlock None
     [TIf (XId "top_en") (TBlock None [TAsg false (Asg (XId "top_y") (XId "top_a") None None)]) (Some (TBlock None [TAsg false (Asg (XId "top_y") (XId "top_q") None None)]))]))].
Lemma target_plain b : simple_b (toFlatname (b_dest b)) = true -> unsliced b -> target_of b (XId (toFlatname (b_dest b))).
Proof. intros H [U1 U2]. split; [now apply simple_of|]. exists (XId (toFlatname (b_dest b))). split; left; auto. Qed.
Example C63_bindings_met : Forall2 item_of [param63; wire63; reg63; comb63] items63.
Proof.
  apply Forall2_cons; [|apply Forall2_cons; [|apply Forall2_cons; [|apply Forall2_cons; [|constructor]]]].
  - apply (it_param param63 false "top_W"); [reflexivity|split; [reflexivity|left; reflexivity]|reflexivity|exact (simple_of "top_W" eq_refl)|exact (say_num _ 8 ltac:(lia))].
  - apply it_assign; [discriminate|discriminate|reflexivity| |].
    + split; [exact (simple_of "top_w" eq_refl)|]. exists (XId "top_w"). split; [left; split; reflexivity|]. right. exists (XInt "'d3"), (XInt "'d2"). split; [exact (say_num _ 3 ltac:(lia))|]. split; [exact (say_num _ 2 ltac:(lia))|]. right. split; [discriminate|reflexivity].
    + split; [|plain1 "((top_sel)? top_a : top_w['d3:'d2])"]. apply mn_branch; [exact (mn_term _ _)|apply mn_arm; exact (mn_term _ _)|now apply mn_keep].
  - refine (it_clocked reg63 both63 (ch "CLK") "posedge" Posedge (XId "top_CLK") _ (XId "top_q") _ _ _ eq_refl eq_refl eq_refl _ _ _ _ _); [discriminate|discriminate|left; split; reflexivity|split; [reflexivity|exact (simple_of "top_CLK" eq_refl)]| | |].
    + refine (rs_some both63 (ch "RST") "negedge" Negedge (XId "top_RST") eq_refl eq_refl _ _); [right; split; reflexivity|split; [reflexivity|exact (simple_of "top_RST" eq_refl)]].
    + exact (target_plain reg63 eq_refl (conj eq_refl (or_introl eq_refl))).
    + apply do_else; [exact (say_id _ "RST" eq_refl)|apply do_one, do_assign; [reflexivity|exact (say_num _ 0 ltac:(lia))]|discriminate|].
      apply do_if; [exact (say_id _ "en" eq_refl)|]. apply do_one, do_assign; [reflexivity|]. split; [|plain1 "(top_q+'d1)"]. apply mn_bin; [exact (mn_term _ _)|]. exact (mn_value _ 1 32 false ltac:(lia)).
  - refine (it_combinational comb63 _ (XId "top_y") _ _ _ eq_refl eq_refl _ _); [discriminate|discriminate|exact (target_plain comb63 eq_refl (conj eq_refl (or_introl eq_refl)))|].
    apply do_else; [exact (say_id _ "en" eq_refl)|apply do_one, do_assign; [reflexivity|exact (say_id _ "a" eq_refl)]|discriminate|]. apply do_assign; [reflexivity|exact (say_id _ "q" eq_refl)].
Qed.
(** A design with a clock, a reset, two ports, a wire in two parts, a memory and an instance below. *)
Definition sub63 (s : string) : chain := [Label "top" STmodule None; Label "u" STmodule None; Label s STsignal None].
Definition terms63 : ndict term :=
  [(ch "CLK", Term (ch "CLK") ["Input"] DNone DNone None); (ch "RST", Term (ch "RST") ["Input"] DNone DNone None);
   (ch "W", Term (ch "W") ["Parameter"] DNone DNone None);
   (ch "a", Term (ch "a") ["Input"] (n32 1) (n32 0) None); (ch "led", Term (ch "led") ["Output"; "Wire"] (n32 3) (n32 0) None);
   (ch "mem", Term (ch "mem") ["Reg"] (n32 7) (n32 0) (Some [(n32 0, n32 15)])); (sub63 "o", Term (sub63 "o") ["Output"] DNone DNone None)].
Definition led63 (m l : Z) (t : df) : bind_ := Bind t (ch "led") (n32 m) (n32 l) DNone None "".
Definition binds63 : ndict (list bind_) := [(ch "led", [led63 3 2 (DTerm (ch "a")); led63 1 1 (n32 0)]); (ch "a", [])].
Definition decls63 : list (list member) :=
  let w v := Some (XInt (literal 32 (z_str v)), XInt "'d0") in
  [[MVar KInput "top_a" (w 1%Z) false []]; [MVar KOutput "top_led" (w 3%Z) false []; MVar KWire "top_led" (w 3%Z) false []];
   [MVar KReg "top_mem" (w 7%Z) false [(XInt "'d0", XInt "'d15")]]; [MVar KWire "top_u_o" None false []]].
Definition led_items63 : list sitem :=
  [JAssign (Asg (XPart (XId "top_led") (XInt "'d3") (XInt "'d2")) (XId "top_a") None None); JAssign (Asg (XPtr (XId "top_led") (XInt "'d1")) (XInt "'d0") None None)].
Example C63_hypotheses_met :
  system_names "top" "out" "CLK" "RST" "EN" /\ distinct terms63 /\ named terms63 /\ distinct binds63 /\ wires_only terms63 binds63 /\ (forall n bs, In (n, bs) binds63 -> apart bs) /\ (forall l : list bind_, Permutation (List.rev l) l) /\ Exists (fun x => is_port "top" "CLK" "RST" x = true) (shown terms63) /\ Forall2 declares (signals "top" "CLK" "RST" (shown terms63)) decls63 /\ Forall2 item_of (flat_map snd binds63) led_items63.
Proof.
  split; [unfold system_names; repeat (split; [apply simple_of; reflexivity|]); apply simple_of; reflexivity|].
  assert (forall l : list chain, NoDup (map toFlatname l) -> NoDup l) as ND. { intros l. exact (NoDup_map_inv toFlatname l). }
  split; [split; [repeat constructor; discriminate|apply ND; vm_compute; repeat constructor; cbn [In]; intuition discriminate]|].
  split; [repeat constructor|].
  split; [split; [repeat constructor; discriminate|apply ND; vm_compute; repeat constructor; cbn [In]; intuition discriminate]|].
  split.
  { intros n bs [E|[E|[]]] HN; injection E as <- <-; [|congruence]. eexists. split; [do 4 right; left; reflexivity|]. split; [right; left; reflexivity|reflexivity]. }
  split; [intros n bs [E|[E|[]]]; injection E as <- <-; repeat constructor|].
  split; [intros l; symmetry; apply Permutation_rev|].
  split; [apply Exists_exists; exists (ch "a", Term (ch "a") ["Input"] (n32 1) (n32 0) None); split; [do 2 right; left; reflexivity|reflexivity]|].
  split.
  - assert (forall d v, (0 <= v)%Z -> says d (n32 v) (XInt (literal 32 (z_str v)))) as SN by (intros; now apply say_num).
    apply Forall2_cons; [|apply Forall2_cons; [|apply Forall2_cons; [|apply Forall2_cons; [|constructor]]]].
    + refine (dc_signal (Term (ch "a") ["Input"] (n32 1) (n32 0) None) true "top_a" (Some (XInt "'d1", XInt "'d0")) [] _ eq_refl _ _ eq_refl _ _ _); [split; reflexivity|now apply simple_of|cbn; intuition discriminate|discriminate| |left; split; reflexivity].
      right. exists (XInt "'d1"), (XInt "'d0"). split; [exact (SN _ 1%Z ltac:(lia))|]. split; [exact (SN _ 0%Z ltac:(lia))|reflexivity].
    + refine (dc_signal (Term (ch "led") ["Output"; "Wire"] (n32 3) (n32 0) None) true "top_led" (Some (XInt "'d3", XInt "'d0")) [] _ eq_refl _ _ eq_refl _ _ _); [split; reflexivity|now apply simple_of|cbn; intuition discriminate|discriminate| |left; split; reflexivity].
      right. exists (XInt "'d3"), (XInt "'d0"). split; [exact (SN _ 3%Z ltac:(lia))|]. split; [exact (SN _ 0%Z ltac:(lia))|reflexivity].
    + refine (dc_signal (Term (ch "mem") ["Reg"] (n32 7) (n32 0) (Some [(n32 0, n32 15)])) true "top_mem" (Some (XInt "'d7", XInt "'d0")) [(XInt "'d0", XInt "'d15")] _ eq_refl _ _ eq_refl _ _ _); [split; reflexivity|now apply simple_of|cbn; intuition discriminate|discriminate| |].
      * right. exists (XInt "'d7"), (XInt "'d0"). split; [exact (SN _ 7%Z ltac:(lia))|]. split; [exact (SN _ 0%Z ltac:(lia))|reflexivity].
      * right. eexists. split; [reflexivity|]. constructor; [|constructor]. split; [exact (SN _ 0%Z ltac:(lia))|exact (SN _ 15%Z ltac:(lia))].
    + refine (dc_signal (Term (sub63 "o") ["Output"] DNone DNone None) false "top_u_o" None [] _ eq_refl _ _ eq_refl _ _ _); [split; intros H; discriminate H|now apply simple_of|cbn; intuition discriminate|discriminate|left; split; [left|]; reflexivity|left; split; reflexivity].
  - apply Forall2_cons; [|apply Forall2_cons; [|constructor]].
    + apply it_assign; [discriminate|discriminate|reflexivity| |exact (say_id _ "a" eq_refl)].
      split; [exact (simple_of "top_led" eq_refl)|]. exists (XId "top_led"). split; [left; split; reflexivity|]. right. exists (XInt "'d3"), (XInt "'d2"). split; [exact (say_num _ 3 ltac:(lia))|]. split; [exact (say_num _ 2 ltac:(lia))|]. right. split; [discriminate|reflexivity].
    + apply it_assign; [discriminate|discriminate|reflexivity| |exact (say_num _ 0 ltac:(lia))].
      split; [exact (simple_of "top_led" eq_refl)|]. exists (XId "top_led"). split; [left; split; reflexivity|]. right. exists (XInt "'d1"), (XInt "'d1"). split; [exact (say_num _ 1 ltac:(lia))|]. split; [exact (say_num _ 1 ltac:(lia))|]. left. split; reflexivity.
Qed.
