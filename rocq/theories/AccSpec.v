(** AccSpec.v - what makes an expression, a left side, a connection or a declaration legal for the dataflow
    analyzer, so that it is accepted. *)
From Verif Require Import Base ScopeModel ScopeSpec DfModel DfSpec ReorderModel BindModel ExprModel MkSpec ConModel ConSpec PbModel PbSpec.

(** With enough recursion depth the result is x. *)
Definition arrives {A} (f : nat -> res A) (x : A) : Prop := exists k0, forall k, k0 <= k -> f k = Ok x.

(** No conditional operator anywhere. *)
Fixpoint choiceless (e : expr) : bool :=
  match e with
  | XId _ | XInt _ => true
  | XUn _ a | XRepeat a _ => choiceless a
  | XBin _ a b | XPtr a b => choiceless a && choiceless b
  | XCond _ _ _ => false
  | XConcat l | XCall _ l | XSys _ l => forallb choiceless l
  | XPart v m l => choiceless v && choiceless m && choiceless l
  end.
(** Every identifier satisfies [see], every repetition count [count]. *)
Fixpoint over (see : string -> Prop) (count : expr -> Prop) (e : expr) : Prop :=
  match e with
  | XId s => see s
  | XInt _ => True
  | XUn _ a => over see count a
  | XBin _ a b => over see count a /\ over see count b
  | XCond c t f => over see count c /\ over see count t /\ over see count f
  | XConcat l | XSys _ l | XCall _ l => fold_right (fun x P => over see count x /\ P) True l
  | XRepeat v n => over see count v /\ count n
  | XPart v m l => over see count v /\ over see count m /\ over see count l
  | XPtr v p => over see count v /\ over see count p
  end.
(** The bounds of part selects and the index of bit selects have no conditional operators; indices of memories
    may have them. *)
Fixpoint steady (word : expr -> bool) (e : expr) : bool :=
  match e with
  | XId _ | XInt _ => true
  | XUn _ a | XRepeat a _ => steady word a
  | XBin _ a b => steady word a && steady word b
  | XCond c t f => steady word c && steady word t && steady word f
  | XConcat l | XCall _ l | XSys _ l => forallb (steady word) l
  | XPart v m l => steady word v && steady word m && steady word l && choiceless m && choiceless l
  | XPtr v p => steady word v && steady word p && (word v || choiceless p)
  end.
(** A tree of names, constants, operators, concatenations and selections. *)
Definition rigid (t : df) : Prop := occurs (fun u => isBranch u || isDelay u || isSys u || is_none u) t = false.

Section Legal.
  Variables (opt : df -> res df) (times : expr -> res Z) (is_module : chain -> bool) (nettype : string) (s : store).
  Section Scope.
    Variables (scope : chain) (names : string -> chain).
    Definition seen (x : string) : Prop := exists n, visible is_module s scope x n.
    (** A right side. *)
    Definition legal (e : expr) : Prop :=
      no_calls e = true /\ simple_conds e = true /\ steady (element names (array s)) e = true /\ over seen (fun c => exists z, times c = Ok z) e.
    (** A bound or index on a left side: the optimizer accepts its tree. *)
    Definition legal_bound (e : expr) : Prop :=
      legal e /\ choiceless e = true /\ forall k t, mk k times is_module s scope e = Ok t -> exists t', opt t = Ok t' /\ rigid t'.
    (** One left side. *)
    Definition legal_left (e : expr) : Prop :=
      match e with
      | XId x => seen x \/ nettype <> "none"%string
      | XPart (XId x) m l => seen x /\ legal_bound m /\ legal_bound l
      | XPtr (XId x) i => seen x /\ legal_bound i
      | XPart (XPtr (XId x) i) m l => seen x /\ array s (names x) = true /\ legal_bound i /\ legal_bound m /\ legal_bound l
      | XPtr (XPtr (XId x) i) j => seen x /\ array s (names x) = true /\ legal_bound i /\ legal_bound j
      | _ => False
      end.
    (** The declared range of a signal without a range of its own is known. *)
    Definition ranged (x : string) : Prop := forall n, visible is_module s scope x n -> exists t, known s n = Some t /\ rigid (t_msb t) /\ rigid (t_lsb t).
    Definition measured (e : expr) : Prop := match e with XId x | XPtr (XId x) _ => ranged x | _ => True end.
    Definition legal_lefts (es : list expr) : Prop := Forall legal_left es /\ (length es <> 1 -> Forall measured es).
    (** A connection of the instance inst to a port it names, or to the port q in its position; the port's types
        say whether the argument is read or assigned; [all] are the ports of the module. *)
    Definition port_of (q : string) (c : conn) : string := match c_port c with Some p => p | None => q end.
    Definition legal_conn (inst : chain) (i : option Z) (all : list string) (q : string) (c : conn) : Prop :=
      match c_port c with Some p => In p all | None => True end /\
      exists t, known s (net inst (port_of q c)) = Some t /\
        forall e ty, c_arg c = Some e -> In ty (t_type t) ->
          ((ty = "Input" \/ ty = "Inout")%string -> legal (pick i e)) /\ ((ty = "Output" \/ ty = "Inout")%string -> legal_left (pick i e)).
    Definition legal_conns (inst : chain) (i : option Z) (all ports : list string) (cs : list conn) : Prop :=
      length cs <= length ports /\ Forall2 (legal_conn inst i all) (firstn (length cs) ports) cs.
    (** A declaration of a parameter, localparam or supply net. *)
    Definition legal_decl (d : pdecl) : Prop :=
      known s (net scope (p_name d)) <> None /\ legal (p_value d) /\
      match p_width d with Some (m, l) => legal m /\ legal l | None => True end.
    (** Parameters given by an instance: by the name of a parameter of the module, or by position. *)
    Definition legal_args (all : list string) (args : list (option string * expr)) : Prop :=
      length args <= length all /\ forall x e, In (x, e) args -> match x with Some y => In y all | None => True end /\ legal e.
  End Scope.
  (** Continuous assignments one after the other. *)
  Fixpoint assigns (k : nat) (c : store) (scope : chain) (p : list (df * bool)) (l : list (lval * expr)) : res store :=
    match l with [] => Ok c | (x, e) :: r => do c' <- assign k opt times is_module nettype c scope p x e; assigns k c' scope p r end.
End Legal.

(** What is stored can be looked up and reordered. *)
Definition sorts (t : df) : Prop := exists t', arrives (fun k => reorder k t) t'.
Definition tidy (s : store) : Prop :=
  Forall (fun e => Forall (fun b => sorts (b_tree b) /\ no_delay (b_msb b) /\ no_delay (b_lsb b) /\ no_delay (b_ptr b)) (snd e)) (s_binds s).
(** The conditions of the enclosing generate blocks. *)
Definition tidy_path (p : list (df * bool)) : Prop := Forall (fun cb => no_delay (fst cb) /\ sorts (fst cb)) p.
