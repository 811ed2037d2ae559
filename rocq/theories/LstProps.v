(** LstProps.v - C73: the signals, constants, functions, tasks and instances that are listed are those that the
    design declares. *)
From Verif Require Import Base ScopeModel ScopeSpec ScopeProofs DfModel BindModel BindSpec BindProofs VisitModel VisitSpec VisitProofs VisitProofs2 LstModel LstSpec LstProofs LstProofs2 LstProofs3.

Section C73.
  Variable node : Type.
  Variable name_of class_of : node -> string.
  Notation visit := (visit node name_of class_of).
  Notation design := (design name_of class_of).
  Implicit Types (h : list (ev node)) (s : table node) (c k : chain) (n : string) (ds : list node).

  Lemma entries_distinct (l : list chain) (g : chain -> list string) (dec : chain -> string -> list node) : NoDup l -> (forall c, NoDup (g c)) ->
    NoDup (map fst (flat_map (fun c => map (fun n => (c ++ [Label n STsignal None], dec c n)) (g c)) l)).
  Proof.
    intros H HG. induction H as [|c r H1 H2 IH]; [constructor|]. cbn [flat_map]. rewrite map_app. apply nodup_app; [|exact IH|].
    - rewrite map_map. cbn [fst]. specialize (HG c). clear - HG. induction HG as [|n r H1 H2 IH]; cbn [map]; constructor; [|exact IH]. intros K. apply in_map_iff in K as (m & E & Hm). apply label_inj in E as [_ <-]. contradiction.
    - intros x X1 X2. rewrite map_map in X1. apply in_map_iff in X1 as (n & <- & _). cbn [fst] in X2. apply in_map_iff in X2 as (p & E & Hp). apply in_flat_map in Hp as (c' & Hc' & Hp). apply in_map_iff in Hp as (m & <- & _). cbn [fst] in E. apply label_inj in E as [<- _]. contradiction.
  Qed.

  (** The signals: the scopes in the order they are opened in, the names of each in the order they are declared in,
      every name with all its declarations. *)
  Theorem C73_signals_partial : forall h s, visit h (empty node) = Ok s -> Forall plain_ev h ->
    getAllSignals node s = flat_map (signals_of (design h)) (scopes (design h)) /\
    NoDup (map fst (getAllSignals node s)) /\
    (forall k ds, In (k, ds) (getAllSignals node s) <-> exists c n, no_any c /\ k = c ++ [Label n STsignal None] /\ ds = signals_in (design h) c n /\ ds <> []).
  Proof.
    intros h s E HP. pose proof (visited name_of class_of h s E HP) as (HI & HO & HN). pose proof (signals_ok name_of class_of h s E HP) as K. split; [exact K|]. split.
    - rewrite K. destruct HO as (O1 & _). rewrite <- O1. apply (entries_distinct (map fst (ft_dict node (t_frames node s))) (fun c => signal_names (done_in [] c (design h))) (signals_in (design h)) HN). intros c. apply signal_names_nodup.
    - intros k ds. rewrite K. apply (in_signals (design h) (t_frames node s) k ds HI HO HN).
  Qed.
  Theorem C73_constants_partial : forall h s, visit h (empty node) = Ok s -> Forall plain_ev h ->
    getAllConsts node s = flat_map (constants_of (design h)) (scopes (design h)) /\
    NoDup (map fst (getAllConsts node s)) /\
    (forall k ds, In (k, ds) (getAllConsts node s) <-> exists c n, no_any c /\ k = c ++ [Label n STsignal None] /\ ds = constants_in (design h) c n /\ ds <> []) /\
    (forall k ds, In (k, ds) (getAllConsts node s) -> exists d, ds = [d]).
  Proof.
    intros h s E HP. pose proof (visited name_of class_of h s E HP) as (HI & HO & HN). pose proof (constants_ok name_of class_of h s E HP) as K. split; [exact K|].
    pose proof (fun k ds => in_constants (design h) (t_frames node s) k ds HI HO HN) as KI. split; [|split].
    - rewrite K. destruct HO as (O1 & _). rewrite <- O1. apply (entries_distinct (map fst (ft_dict node (t_frames node s))) (fun c => constant_names (done_in [] c (design h))) (constants_in (design h)) HN). intros c. apply constant_names_nodup.
    - intros k ds. rewrite K. apply KI.
    - intros k ds H. rewrite K in H. apply KI in H as (c & n & _ & _ & -> & H). unfold constants_in in *. pose proof (constant_decl_short (done_in [] c (design h)) n) as L. destruct (constant_decl (done_in [] c (design h)) n) as [|d [|d' r]]; [congruence|eauto|cbn in L; lia].
  Qed.
  (** The listings of one scope; other scopes are errors. *)
  Theorem C73_scope_partial : forall h s c, visit h (empty node) = Ok s -> Forall plain_ev h -> no_any c ->
    (In c (scopes (design h)) -> getSignals node s c = Ok (signals_of (design h) c) /\ getConsts node s c = Ok (constants_of (design h) c)) /\
    (~ In c (scopes (design h)) -> getSignals node s c = Err KeyError /\ getConsts node s c = Err KeyError).
  Proof. intros h s c E HP Hc. exact (scope_listed name_of class_of h s c E HP Hc). Qed.
  (** The instances, with their modules. *)
  Theorem C73_instances : forall h s, visit h (empty node) = Ok s -> Forall plain_ev h ->
    getAllInstances node s = instances [] h.
  Proof. intros h s E HP. exact (instances_ok name_of class_of h (empty node) s E HP sound_init). Qed.
  (** The functions and the tasks, with the inputs declared in each. *)
  Theorem C73_routines : forall h s, visit h (empty node) = Ok s -> Forall plain_ev h -> proper class_of None [] h ->
    getAllFunctions node s = flat_map (fun c => map (fun x => (c ++ [Label (name_of (fst x)) STfunction None], Info node (fst x) (snd x))) (routines_of class_of false h c)) (scopes (design h)) /\
    getAllTasks node s = flat_map (fun c => map (fun x => (c ++ [Label (name_of (fst x)) STtask None], Info node (fst x) (snd x))) (routines_of class_of true h c)) (scopes (design h)).
  Proof. intros h s E HP HW. exact (functions_ok name_of class_of h s E HP HW). Qed.
  (** The dataflow starts with one term for each name that is declared, whose types are the classes of its
      declarations; there are no multiple definitions of constants. *)
  Theorem C73_terms_partial : forall h s, visit h (empty node) = Ok s -> Forall plain_ev h ->
    exists st, copyAllFrameInfo node class_of s empty_store = Ok st /\ s_binds st = [] /\
      (forall c n, no_any c -> let ds := constants_in (design h) c n ++ signals_in (design h) c n in
        match dget (s_terms st) (c ++ [Label n STsignal None]) with None => ds = [] | Some t => ds <> [] /\ says class_of t ds end) /\
      (forall k, no_any k -> dget (s_terms st) k <> None -> exists c n, k = c ++ [Label n STsignal None]).
  Proof. intros h s E HP. exact (terms_ok name_of class_of h s E HP). Qed.
End C73.
Print Assumptions C73_signals_partial.
Print Assumptions C73_constants_partial.
Print Assumptions C73_scope_partial.
Print Assumptions C73_instances.
Print Assumptions C73_routines.
Print Assumptions C73_terms_partial.

(** ** What is wrong with the listings *)
Local Open Scope string_scope. Local Open Scope list_scope.
(** Declarations for the examples: a class and a name. *)
Definition dcl := (string * string)%type.
Definition dcl_class (d : dcl) : string := fst d.
Definition dcl_name (d : dcl) : string := snd d.
(** A declaration in the body of a module, as ModuleVisitor and as SignalVisitor see it. *)
Definition seen_first (d : dcl) : list (mdecl dcl) :=
  if existsb (String.eqb (dcl_class d)) ["Input"; "Output"; "Inout"] then [MPort dcl d] else if String.eqb (dcl_class d) "Parameter" then [MParam dcl d] else [].
Definition seen_then (d : dcl) : ev dcl :=
  if existsb (String.eqb (dcl_class d)) ["Parameter"; "Localparam"; "Genvar"] then Constant dcl d else Declare dcl d.
(** dataflow/signalvisitor.py:24-39 - the visit of a top module with these declarations and no more. *)
Definition top_module (ds : list dcl) : list (ev dcl) := Instance dcl "top" "top" (flat_map seen_first ds) :: map seen_then ds.

(** A signal is listed with the declarations it has in the module. *)
Definition declarations_once : Prop :=
  forall ds s d, visit dcl dcl_name dcl_class (top_module ds) (empty dcl) = Ok s -> In d ds -> NoDup (map dcl_name ds) ->
  existsb (String.eqb (dcl_class d)) ["Parameter"; "Localparam"; "Genvar"] = false ->
  In ([Label "top" STmodule None; Label (dcl_name d) STsignal None], [d]) (getAllSignals dcl s).
(** Ports are declared once when the instance is entered, and again when its module is visited. *)
Theorem C73_declarations_once_refuted : ~ declarations_once.
Proof.
  intros H. assert (exists s, visit dcl dcl_name dcl_class (top_module [("Input", "a")]) (empty dcl) = Ok s /\ getAllSignals dcl s = [([Label "top" STmodule None; Label "a" STsignal None], [("Input", "a"); ("Input", "a")])]) as (s & E & Es).
  { eexists. split; [vm_compute; reflexivity|]. vm_compute. reflexivity. }
  specialize (H [("Input", "a")] s ("Input", "a") E (or_introl eq_refl) ltac:(constructor; [intros []|constructor]) eq_refl). rewrite Es in H. destruct H as [H|[]]. discriminate.
Qed.
Print Assumptions C73_declarations_once_refuted.
(** What is declared in a function is no signal of the module. *)
Definition locals_hidden : Prop :=
  forall f ds s d, visit dcl dcl_name dcl_class (Instance dcl "top" "top" [] :: Function dcl f :: map (Declare dcl) ds ++ [EndFunction dcl]) (empty dcl) = Ok s -> In d ds ->
  ~ In [Label "top" STmodule None; Label (dcl_name d) STsignal None] (map fst (getAllSignals dcl s)).
Theorem C73_locals_hidden_refuted : ~ locals_hidden.
Proof.
  intros H. assert (exists s, visit dcl dcl_name dcl_class (Instance dcl "top" "top" [] :: Function dcl ("Function", "f") :: map (Declare dcl) [("Input", "x"); ("Reg", "t")] ++ [EndFunction dcl]) (empty dcl) = Ok s /\ map fst (getAllSignals dcl s) = [[Label "top" STmodule None; Label "t" STsignal None]]) as (s & E & Es).
  { eexists. split; [vm_compute; reflexivity|]. vm_compute. reflexivity. }
  apply (H _ _ s ("Reg", "t") E); [right; now left|]. rewrite Es. now left.
Qed.
Print Assumptions C73_locals_hidden_refuted.

(** ** A design with an instance, a function and a generate block *)
Definition top73 : chain := [Label "top" STmodule None].
Definition gen73 : flags := Flags false false false true false false None None.
Definition h73 : list (ev dcl) :=
  [Instance dcl "top" "top" [MPort dcl ("Input", "clk"); MParam dcl ("Parameter", "W"); MPort dcl ("Output", "q")];
   Declare dcl ("Input", "clk"); Constant dcl ("Parameter", "W"); Declare dcl ("Output", "q"); Declare dcl ("Reg", "q"); Declare dcl ("Wire", "W");
   Function dcl ("Function", "inc"); Declare dcl ("Input", "x"); Declare dcl ("Integer", "i"); EndFunction dcl;
   Task dcl ("Task", "show"); Declare dcl ("Input", "y"); EndTask dcl;
   Open dcl (Label "md_generate0" STgenerate None) gen73; Constant dcl ("Genvar", "g"); Declare dcl ("Wire", "w"); Move dcl top73;
   Instance dcl "u0" "sub" [MPort dcl ("Input", "a")]; Declare dcl ("Input", "a"); Constant dcl ("Localparam", "N"); Move dcl top73; Declare dcl ("Wire", "z")].
Example h73_plain : Forall plain_ev h73.
Proof. repeat constructor; cbn; try discriminate. Qed.
Example h73_proper : proper dcl_class None [] h73.
Proof. vm_compute. intuition congruence. Qed.
Definition sg (c : chain) (n : string) : chain := c ++ [Label n STsignal None].
Definition g73 : chain := top73 ++ [Label "md_generate0" STgenerate None].
Definition u73 : chain := top73 ++ [Label "u0" STmodule None].
Example h73_listed : exists s, visit dcl dcl_name dcl_class h73 (empty dcl) = Ok s /\
  getAllSignals dcl s = [(sg top73 "clk", [("Input", "clk"); ("Input", "clk")]); (sg top73 "q", [("Output", "q"); ("Output", "q"); ("Reg", "q")]); (sg top73 "i", [("Integer", "i")]); (sg top73 "z", [("Wire", "z")]);
                         (sg g73 "w", [("Wire", "w")]); (sg u73 "a", [("Input", "a"); ("Input", "a")])] /\
  getAllConsts dcl s = [(sg top73 "W", [("Parameter", "W")]); (sg g73 "g", [("Genvar", "g")]); (sg u73 "N", [("Localparam", "N")])] /\
  getAllFunctions dcl s = [(top73 ++ [Label "inc" STfunction None], Info dcl ("Function", "inc") [("Input", "x")])] /\
  getAllTasks dcl s = [(top73 ++ [Label "show" STtask None], Info dcl ("Task", "show") [("Input", "y")])] /\
  getAllInstances dcl s = [(top73, Some "top"); (u73, Some "sub")].
Proof. eexists. split; [vm_compute; reflexivity|]. repeat split; vm_compute; reflexivity. Qed.
(** The specification says the same. *)
Example h73_specified : flat_map (signals_of (design dcl_name dcl_class h73)) (scopes (design dcl_name dcl_class h73)) =
  [(sg top73 "clk", [("Input", "clk"); ("Input", "clk")]); (sg top73 "q", [("Output", "q"); ("Output", "q"); ("Reg", "q")]); (sg top73 "i", [("Integer", "i")]); (sg top73 "z", [("Wire", "z")]);
   (sg g73 "w", [("Wire", "w")]); (sg u73 "a", [("Input", "a"); ("Input", "a")])].
Proof. vm_compute. reflexivity. Qed.
