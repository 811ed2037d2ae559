(** EmitSpec.v - the Verilog declarations, assignments and blocks that the signals and bindings of a dataflow graph
    stand for. *)
From Verif Require Import Base ScopeModel ScopeSpec DfModel BindModel SubsetModel LexModel LexSpec ExprModel ExprSpec StmModel SrcModel CodeSpec.
Local Open Scope string_scope.

(** ** Expressions. [d] is the assigned target, for which a missing arm stands. *)
Inductive means (d : option expr) : df -> expr -> Prop :=
| mn_term n : means d (DTerm n) (XId (chain_tocode n))
| mn_int s : means d (DInt s) (XInt s)
| mn_un o a x : means d a x -> means d (DOp [a] o) (XUn o x)
| mn_bin o a b x y : means d a x -> means d b y -> means d (DOp [a; b] o) (XBin o x y)
| mn_part v m l x y z : means d v x -> means d m y -> means d l z -> y <> z -> means d (DPart v m l) (XPart x y z)
| mn_bit v m l x y : means d v x -> means d m y -> means d l y -> means d (DPart v m l) (XPtr x y)
| mn_ptr v p x y : means d v x -> means d p y -> means d (DPtr v p) (XPtr x y)
| mn_concat l xs : Forall2 (means d) l xs -> means d (DConcat l) (XConcat xs)
| mn_branch c t f x y z : means d c x -> arm_means d t y -> arm_means d f z -> means d (DBranch c t f) (XCond x y z)
| mn_value v w fl : (0 <= v)%Z -> means d (DEval (PInt v) (Some w) fl false) (XInt (literal w (z_str v)))
| mn_negative v w fl : (v < 0)%Z -> means d (DEval (PInt v) (Some w) fl false) (XUn Uminus (XInt (literal w (z_str (- v)))))
| mn_undef w : means d (DUndef w) (XInt (literal w "x"))
| mn_hiz w : means d (DHiz w) (XInt (literal w "z"))
| mn_sys f l xs : Forall2 (means d) l xs -> means d (DSys f l) (XSys f xs)
with arm_means (d : option expr) : df -> expr -> Prop :=
| mn_keep x : d = Some x -> arm_means d DNone x
| mn_arm t x : means d t x -> arm_means d t x.
(** An expression that can be written down, by this printer. *)
Definition plain (e : expr) : Prop := written e /\ codable e = true.
Definition says (d : option expr) (t : df) (e : expr) : Prop := means d t e /\ plain e.

(** ** Targets: a signal, an element of it, a bit or a range of bits. Bounds that stand for the same expression are a bit. *)
Definition pointed (p : df) (v e : expr) : Prop := p = DNone /\ e = v \/ exists x, says None p x /\ e = XPtr v x.
Definition sliced (m l : df) (v e : expr) : Prop :=
  (m = DNone \/ l = DNone) /\ e = v \/ exists x y, says None m x /\ says None l y /\ (x = y /\ e = XPtr v x \/ x <> y /\ e = XPart v x y).
Definition target_of (b : bind_) (e : expr) : Prop :=
  simple_id (toFlatname (b_dest b)) /\ exists v, pointed (b_ptr b) (XId (toFlatname (b_dest b))) v /\ sliced (b_msb b) (b_lsb b) v e.

(** ** Statements: a branch is an if, a missing arm does nothing. *)
Definition is_branch (t : df) : bool := match t with DBranch _ _ _ => true | _ => false end.
Inductive does (nonblocking : bool) (d : expr) : df -> stm -> Prop :=
| do_assign t e : is_branch t = false -> says (Some d) t e -> does nonblocking d t (TAsg nonblocking (Asg d e None None))
| do_if c t x s : says (Some d) c x -> does_arm nonblocking d t s -> does nonblocking d (DBranch c t DNone) (TIf x (TBlock None s) None)
| do_else c t f x s r : says (Some d) c x -> does_arm nonblocking d t s -> f <> DNone -> does nonblocking d f r ->
    does nonblocking d (DBranch c t f) (TIf x (TBlock None s) (Some (TBlock None [r])))
with does_arm (nonblocking : bool) (d : expr) : df -> list stm -> Prop :=
| do_nothing : does_arm nonblocking d DNone []
| do_one t s : does nonblocking d t s -> does_arm nonblocking d t [s].

(** ** Bindings *)
Definition edge_word (s : string) (k : edge) : Prop := s = "posedge" /\ k = Posedge \/ s = "negedge" /\ k = Negedge.
Definition signal_is (n : chain) (e : expr) : Prop := e = XId (toFlatname n) /\ simple_id (toFlatname n).
(** The events of a clocked block: the clock, and the reset if there is one. *)
Inductive resets (a : alwaysinfo) : list sensitem -> Prop :=
| rs_none : reset_edge a = None \/ reset_name a = CNone -> resets a []
| rs_some n w k e : reset_edge a = Some w -> reset_name a = CName n -> edge_word w k -> signal_is n e -> resets a [SSig k e].
Definition unsliced (b : bind_) : Prop := b_ptr b = DNone /\ (b_msb b = DNone \/ b_lsb b = DNone).
Inductive item_of (b : bind_) : sitem -> Prop :=
| it_param local n e :
    b_param b = (if local : bool then "localparam" else "parameter") -> unsliced b -> n = toFlatname (b_dest b) -> simple_id n -> says (Some (XId n)) (b_tree b) e ->
    item_of b (JDecl [MParam local n e None false])
| it_assign d e :
    b_param b <> "parameter" -> b_param b <> "localparam" -> b_always b = None -> target_of b d -> says (Some d) (b_tree b) e ->
    item_of b (JAssign (Asg d e None None))
| it_clocked a n w k c rs d s :
    b_param b <> "parameter" -> b_param b <> "localparam" -> b_always b = Some a -> clock_name a = CName n -> clock_edge a = Some w ->
    edge_word w k -> signal_is n c -> resets a rs -> target_of b d -> does true d (b_tree b) s ->
    item_of b (JItem (IAlways KAlways (SSig k c :: rs) (TBlock None [s])))
| it_combinational a d s :
    b_param b <> "parameter" -> b_param b <> "localparam" -> b_always b = Some a -> clock_name a = CNone -> target_of b d -> does false d (b_tree b) s ->
    item_of b (JItem (IAlways KAlways [SAll] (TBlock None [s]))).

(** ** Declarations. Ports are ports in the top module only; below it they are wires (an output register stays one). *)
Definition has_type (ty : list string) (s : string) : bool := if in_dec string_dec s ty then true else false.
Definition in_top (n : chain) : Prop := length n = 2.
Definition keep {A} (b : bool) (x : A) : list A := if b then [x] else [].
Definition kinds (top : bool) (ty : list string) : list vkind :=
  let port := has_type ty "Input" || has_type ty "Inout" || has_type ty "Output" && negb (has_type ty "Reg") in
  (keep (top && has_type ty "Input") KInput ++ keep (top && has_type ty "Output") KOutput ++ keep (top && has_type ty "Inout") KInout ++
   keep (has_type ty "Wire" || has_type ty "Function" || has_type ty "Rename" || negb top && port) KWire ++ keep (has_type ty "Reg") KReg)%list.
(** One direction, and no register that is driven from outside. *)
Definition legal (top : bool) (ty : list string) : bool :=
  negb (top && (has_type ty "Input" && has_type ty "Output" || has_type ty "Input" && has_type ty "Inout" || has_type ty "Output" && has_type ty "Inout" ||
        has_type ty "Reg" && (has_type ty "Input" || has_type ty "Inout"))).
Definition width_of (m l : df) (w : option range) : Prop :=
  (m = DNone \/ l = DNone) /\ w = None \/ exists x y, says None m x /\ says None l y /\ w = Some (x, y).
Definition dims_of (d : option (list (df * df))) (l : list range) : Prop :=
  d = None /\ l = [] \/ exists ds, d = Some ds /\ Forall2 (fun p r => says (Some (XId "dest")) (fst p) (fst r) /\ says (Some (XId "dest")) (snd p) (snd r)) ds l.
Inductive declares (t : term) : list member -> Prop :=
| dc_integer n : n = toFlatname (t_name t) -> simple_id n -> (forall s, In s (t_type t) <-> s = "Integer") -> t_dims t = None -> declares t [MInteger n None]
| dc_signal top n w dims :
    (in_top (t_name t) <-> top = true) -> n = toFlatname (t_name t) -> simple_id n -> ~ In "Integer" (t_type t) -> legal top (t_type t) = true -> kinds top (t_type t) <> [] ->
    width_of (t_msb t) (t_lsb t) w -> dims_of (t_dims t) dims -> declares t (map (fun k => MVar k n w false dims) (kinds top (t_type t))).

(** ** The module *)
(** The clock and reset inputs of the top module: they are replaced by the inputs of the generated module. *)
Definition system_input (top clock reset : string) (x : chain * term) : bool :=
  has_type (t_type (snd x)) "Input" && (chain_eq (fst x) (toTermname_list [top; reset]) || chain_eq (fst x) (toTermname_list [top; clock])).
Definition is_port (top clock reset : string) (x : chain * term) : bool :=
  Nat.eqb (length (fst x)) 2 && negb (system_input top clock reset x) &&
  (has_type (t_type (snd x)) "Input" || has_type (t_type (snd x)) "Inout" || has_type (t_type (snd x)) "Output").
Definition port_list (top clock reset enable : string) (terms : list (chain * term)) : list port :=
  map Port (clock :: reset :: enable :: map (fun x => toFlatname (fst x)) (filter (is_port top clock reset) terms))%list.
Definition system_items (top clock reset enable : string) : list sitem :=
  let flat n := toFlatname (toTermname_list [top; n]) in
  let decl k n := JDecl [MVar k n None false []] in
  [decl KInput clock; decl KInput reset; decl KInput enable; decl KWire (flat clock); decl KWire (flat reset);
   JAssign (Asg (XId (flat clock)) (XId clock) None None); JAssign (Asg (XId (flat reset)) (XId reset) None None)].
Definition signals (top clock reset : string) (terms : list (chain * term)) : list term :=
  map snd (filter (fun x => negb (system_input top clock reset x)) terms).

(** ** The design: each name once; one set of bindings for each name. *)
Definition distinct {V} (d : ndict V) : Prop := Forall (fun x => no_any (fst x)) d /\ NoDup (map fst d).
Definition named (d : ndict term) : Prop := Forall (fun x => t_name (snd x) = fst x) d.
Definition apart (l : list bind_) : Prop := ForallOrdPairs (fun a b => bind_eq a b = Ok false) l.
Definition constant (x : chain * term) : bool := has_type (t_type (snd x)) "Parameter" || has_type (t_type (snd x)) "Localparam".
(** Only wires are bound. *)
Definition wires_only (terms : ndict term) (binds : ndict (list bind_)) : Prop :=
  forall n bs, In (n, bs) binds -> bs <> [] -> exists t, In (n, t) terms /\ In "Wire" (t_type t) /\ constant (n, t) = false.
(** A text that is read, by the parser of C61, as these definitions. *)
Definition reads_source (text : string) (d : list definition) : Prop := exists n0, forall n, n0 <= n -> parse_source n text = Ok d.
Definition unreadable (text : string) : Prop := forall n d, parse_source n text <> Ok d.
Definition in_module (m text : string) : string := "module " ++ m ++ "();" ++ String NL (text ++ "endmodule" ++ String NL "").
