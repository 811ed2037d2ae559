(** ParSpec.v - the values of the constants of a module and of an instance of it. *)
From Verif Require Import Base ScopeModel ScopeSpec DfModel BindModel ExprModel OptModel OptSpec LitSpec ElabModel ElabSpec ParModel.
Local Open Scope Z_scope.

(** The value of a constant expression of which all parts have values (both choices of a conditional as well).
    Conditionals are neither operands nor conditions: an operator is applied to both choices of an operand,
    so that it can fail for the one that is not taken. [names], [lookup], [small], [arithmetic]: ElabSpec; [op_value]: OptSpec. *)
Fixpoint choice_free (e : expr) : bool :=
  match e with
  | XUn _ a => choice_free a
  | XBin _ a b => choice_free a && choice_free b
  | XCond _ _ _ => false
  | _ => true
  end.
Inductive worth (r : names) : expr -> Z -> Prop :=
| worth_int s v : numeral 10 s v -> small v -> worth r (XInt s) v
| worth_name n v : lookup r n = Some (Some v) -> small v -> worth r (XId n) v
| worth_unary o a x v : choice_free a = true -> worth r a x -> arithmetic o [x] -> op_value o [x] 32 = Some v -> small v -> worth r (XUn o a) v
| worth_binary o a b x y v : choice_free a = true -> choice_free b = true -> worth r a x -> worth r b y -> arithmetic o [x; y] -> op_value o [x; y] 32 = Some v -> small v ->
    worth r (XBin o a b) v
| worth_choice c t f z x y : choice_free c = true -> worth r c z -> worth r t x -> worth r f y ->
    worth r (XCond c t f) (if z =? 0 then y else x).

(** The names in an expression. *)
Fixpoint mentions (e : expr) : list string :=
  match e with
  | XId n => [n]
  | XUn _ a => mentions a
  | XBin _ a b => mentions a ++ mentions b
  | XCond c t f => mentions c ++ mentions t ++ mentions f
  | _ => []
  end.

(** The constants a scope declares, in order: parameters and localparams with their expressions, genvars without. *)
Definition constants := list (string * option expr).
(** Their values, if o is given to parameters: the given value, else that of the expression, in which the
    constants before it can be used. *)
Inductive values (o : list (string * Z)) : names -> constants -> names -> Prop :=
| values_nil r : values o r [] r
| values_genvar r n l r' : values o ((n, None) :: r) l r' -> values o r ((n, None) :: l) r'
| values_given r n e v l r' : override o n = Some v -> values o ((n, Some v) :: r) l r' -> values o r ((n, Some e) :: l) r'
| values_own r n e v l r' : override o n = None -> worth r e v -> values o ((n, Some v) :: r) l r' ->
    values o r ((n, Some e) :: l) r'.

(** The values an instance gives to the parameters ps, by name or by position; not more than there are. *)
Inductive gives (r : names) (ps : list string) : nat -> list (option string * expr) -> list (string * Z) -> Prop :=
| gives_nil i : gives r ps i [] []
| gives_name i n e v l o : (i < length ps)%nat -> In n ps -> worth r e v -> gives r ps (S i) l o -> gives r ps i ((Some n, e) :: l) ((n, v) :: o)
| gives_pos i n e v l o : nth_error ps i = Some n -> worth r e v -> gives r ps (S i) l o -> gives r ps i ((None, e) :: l) ((n, v) :: o).

(** The table of constants of a scope holds these declarations. *)
Definition holds_decl (p : string * list decl) (q : string * option expr) : Prop :=
  fst p = fst q /\
  match snd p, snd q with
  | [NParam None e], Some e' => e = e'
  | [NLocal e], Some e' => e = e'
  | [NGenvar], None => True
  | _, _ => False
  end.
Definition holds_decls : list (string * list decl) -> constants -> Prop := Forall2 holds_decl.

(** A name has a known value in the visitor's tables, and the default range. *)
Definition knows (E : optenv) (n : chain) (v : Z) : Prop :=
  small v /\
  (exists w, dget (o_const E) n = Some (DEval (PInt v) (Some w) false false)) /\
  exists t, dget (o_terms E) n = Some t /\ t_msb t = DInt "31" /\ t_lsb t = DInt "0".
(** The names r, looked up from a scope, have their values there. *)
Definition sees (has ismodule : chain -> bool) (E : optenv) (scope : chain) (r : names) : Prop :=
  forall n v, lookup r n = Some (Some v) -> exists c, find has ismodule scope n = Ok c /\ knows E c v.
(** Names in the tables are names (the wildcard label is not used in them). *)
Definition tables_ok (E : optenv) : Prop :=
  Forall (fun p => no_any (fst p)) (o_const E) /\ Forall (fun p => no_any (fst p)) (o_terms E).
