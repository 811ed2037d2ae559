(** ElabSpec.v - which instances a design has: elaboration of modules, parameters and generate constructs,
    as a relation between a design and its instances. *)
From Verif Require Import Base ScopeModel DfModel LitModel LitSpec OptSpec ExprModel ElabModel.
Local Open Scope Z_scope.

(** ** Constant expressions *)
(** The names that can be seen, innermost first; a genvar has a value only in its loop. *)
Definition names := list (string * option Z).
Fixpoint lookup (r : names) (n : string) : option (option Z) :=
  match r with [] => None | (m, v) :: r' => if String.eqb m n then Some v else lookup r' n end.
(** Integers are 32 bits wide; expressions that overflow are left out. *)
Definition small (v : Z) : Prop := - 2 ^ 31 <= v < 2 ^ 31.
(** Operators whose value depends on the values of the operands only. Remainders and logical shifts of
    negative numbers are left out. *)
Definition arithmetic (o : op) (vs : list Z) : Prop :=
  match o, vs with
  | Uminus, [_] | Ulnot, [_] => True
  | Power, [_; _] | Times, [_; _] | Divide, [_; _] | Plus, [_; _] | Minus, [_; _] | Sll, [_; _]
  | LessThan, [_; _] | GreaterThan, [_; _] | LessEq, [_; _] | GreaterEq, [_; _]
  | Eq, [_; _] | NotEq, [_; _] | Eql, [_; _] | NotEql, [_; _]
  | And, [_; _] | Or, [_; _] | Xor, [_; _] | Land, [_; _] | Lor, [_; _] => True
  | Mod, [a; b] => 0 <= a /\ 0 < b
  | Srl, [a; _] => 0 <= a
  | _, _ => False
  end.
Inductive const (r : names) : expr -> Z -> Prop :=
| const_int s v : numeral 10 s v -> small v -> const r (XInt s) v
| const_name n v : lookup r n = Some (Some v) -> small v -> const r (XId n) v
| const_unary o a x v : const r a x -> arithmetic o [x] -> op_value o [x] 32 = Some v -> small v -> const r (XUn o a) v
| const_binary o a b x y v : const r a x -> const r b y -> arithmetic o [x; y] -> op_value o [x; y] 32 = Some v -> small v ->
    const r (XBin o a b) v
| const_choice c t f z v : const r c z -> const r (if z =? 0 then f else t) v -> const r (XCond c t f) v.

(** ** Elaboration *)
(** A step of a path: an instance, a named or anonymous block, a branch of a generate-if, a generate region,
    an iteration of a generate loop. *)
Inductive place := PInst (n : string) | PBlock (n : string) | PAnon | PThen | PElse | PGenerate | PLoop (z : Z).
Definition instance_at : Type := list place * string.     (* where, of which module *)

Definition parameters (l : list item) : list string := flat_map (fun x => match x with IParam n _ _ => [n] | _ => [] end) l.
(** The values an instance gives to parameters, by name or by position. *)
Inductive given (r : names) (ps : list string) : nat -> list (option string * expr) -> list (string * Z) -> Prop :=
| given_nil i : given r ps i [] []
| given_name i n e v l o : In n ps -> const r e v -> given r ps (S i) l o -> given r ps i ((Some n, e) :: l) ((n, v) :: o)
| given_pos i n e v l o : nth_error ps i = Some n -> const r e v -> given r ps (S i) l o -> given r ps i ((None, e) :: l) ((n, v) :: o).
Fixpoint override (o : list (string * Z)) (n : string) : option Z :=
  match o with [] => None | (m, v) :: o' => if String.eqb m n then Some v else override o' n end.

(** Procedural code: no declarations of constants, no instances, no loops. *)
Fixpoint procedural (x : item) : Prop :=
  let all := fix all (l : list item) : Prop := match l with [] => True | x :: r => procedural x /\ all r end in
  let opt o := match o with Some x => procedural x | None => True end in
  match x with
  | ISkip | ISignal _ _ => True
  | IIf _ t f => opt t /\ opt f
  | IBlock _ l => all l
  | ICase l => (fix allo (l : list (option item)) : Prop := match l with [] => True | o :: r => opt o /\ allo r end) l
  | _ => False
  end.

Section Elaboration.
  Variable D : list mod_.

  (** [elab p ov g r x r' l]: at the path p, with values ov given to parameters, the item x has the instances l,
      and r' are the names seen by the items after it. g: in a generate region. *)
  Inductive elab : list place -> list (string * Z) -> bool -> names -> item -> names -> list instance_at -> Prop :=
  | elab_signal p ov g r b n : elab p ov g r (ISignal b n) r []
  | elab_skip p ov g r : elab p ov g r ISkip r []
  | elab_always p ov g r x : procedural x -> elab p ov g r (IAlways x) r []
  | elab_given p ov g r n e v : override ov n = Some v -> elab p ov g r (IParam n None e) ((n, Some v) :: r) []
  | elab_default p ov g r n e v : override ov n = None -> const r e v -> elab p ov g r (IParam n None e) ((n, Some v) :: r) []
  | elab_local p ov g r n e v : const r e v -> elab p ov g r (ILocal n e) ((n, Some v) :: r) []
  | elab_genvar p ov g r n : elab p ov g r (IGenvar n) ((n, None) :: r) []
  | elab_gate p ov g r m n args : primitive m = true -> elab p ov g r (IInst m n None args) r []
  | elab_inst p ov g r m n args l : placed p r m n args l -> elab p ov g r (IInst m n None args) r l
  | elab_array p ov g r m n hi lo h w args l : const r hi h -> const r lo w -> w <= h -> row p r m n args w (Z.to_nat (h - w + 1)) l ->
      elab p ov g r (IInst m n (Some (hi, lo)) args) r l
  | elab_generate p ov g r b r' l : elabs (p ++ [PGenerate]) [] true r b r' l -> elab p ov g r (IGenerate b) r l
  | elab_block p ov r n b r' l : elabs (p ++ [PBlock n]) [] true r b r' l -> elab p ov true r (IBlock (Some n) b) r l
  | elab_anon p ov r b r' l : elabs (p ++ [PAnon]) [] true r b r' l -> elab p ov true r (IBlock None b) r l
  | elab_then p ov r c t f z r' l : const r c z -> 0 < z -> elab (p ++ [PThen]) [] true r t r' l -> elab p ov true r (IIf c (Some t) f) r l
  | elab_else p ov r c t f r' l : const r c 0 -> elab (p ++ [PElse]) [] true r f r' l -> elab p ov true r (IIf c t (Some f)) r l
  | elab_none p ov r c t : const r c 0 -> elab p ov true r (IIf c t None) r []
  | elab_for p ov r x pre c post b v l : lookup r x = Some None -> const r pre v -> loop p r x v c post b l ->
      elab p ov true r (IFor x pre c x post b) r l
  with elabs : list place -> list (string * Z) -> bool -> names -> list item -> names -> list instance_at -> Prop :=
  | elabs_nil p ov g r : elabs p ov g r [] r []
  | elabs_cons p ov g r x r1 l1 xs r2 l2 : elab p ov g r x r1 l1 -> elabs p ov g r1 xs r2 l2 -> elabs p ov g r (x :: xs) r2 (l1 ++ l2)
  (** The instance n of module m: its module sees the given parameters, and nothing of the names around. *)
  with placed : list place -> names -> string -> string -> list (option string * expr) -> list instance_at -> Prop :=
  | placed_one p r m n args b o r' l : primitive m = false -> In (MDef m b) D -> given r (parameters b) 0 args o -> NoDup (map fst o) ->
      elabs (p ++ [PInst n]) o false [] b r' l -> placed p r m n args ((p ++ [PInst n], m) :: l)
  (** An array: the instances n_i, n_(i+1), ... *)
  with row : list place -> names -> string -> string -> list (option string * expr) -> Z -> nat -> list instance_at -> Prop :=
  | row_nil p r m n args i : row p r m n args i O []
  | row_gate p r m n args i k : primitive m = true -> row p r m n args i k []
  | row_cons p r m n args i k l l' : placed p r m (n ++ "_" ++ py_str i)%string args l -> row p r m n args (i + 1) k l' ->
      row p r m n args i (S k) (l ++ l')
  (** The loop for (x = ...; c; x = post) b from the value v. *)
  with loop : list place -> names -> string -> Z -> expr -> expr -> item -> list instance_at -> Prop :=
  | loop_stop p r x v c post b : const ((x, Some v) :: r) c 0 -> loop p r x v c post b []
  | loop_again p r x v c post b z r' l v' l' : const ((x, Some v) :: r) c z -> 0 < z ->
      elab (p ++ [PLoop v]) [] true ((x, Some v) :: r) b r' l ->
      const ((x, Some v) :: r) post v' -> loop p r x v' c post b l' -> loop p r x v c post b (l ++ l').

  (** The instances of the design under the module top, itself the first one. *)
  Inductive design_instances (top : string) : list instance_at -> Prop :=
  | design_one b r' l : In (MDef top b) D -> elabs [PInst top] [] false [] b r' l -> design_instances top (([PInst top], top) :: l).
End Elaboration.

(** ** Designs *)
(** The constants a list of items declares. *)
Definition declares (x : item) : list string :=
  match x with IParam n _ _ | ILocal n _ | IGenvar n => [n] | _ => [] end.
(** A scope declares a name once; parameters are declared by the module's own items. *)
Fixpoint inner_ok (x : item) : Prop :=
  let all := fix all (l : list item) : Prop := match l with [] => True | x :: r => inner_ok x /\ all r end in
  let opt o := match o with Some x => inner_ok x | None => True end in
  match x with
  | IParam _ _ _ => False
  | IGenerate l | IBlock _ l => NoDup (flat_map declares l) /\ all l
  | IIf _ t f => opt t /\ opt f
  | IFor _ _ _ _ _ b | IAlways b => inner_ok b
  | ICase l => (fix allo (l : list (option item)) : Prop := match l with [] => True | o :: r => opt o /\ allo r end) l
  | _ => True
  end.
Definition item_ok (x : item) : Prop := match x with IParam _ _ _ => True | _ => inner_ok x end.
Definition legal (D : list mod_) : Prop :=
  NoDup (map m_name D) /\ Forall (fun m => NoDup (flat_map declares (m_items m)) /\ Forall item_ok (m_items m)) D.

(** ** Names of scopes *)
(** The labels of anonymous scopes are not specified. *)
Inductive names_place : label -> place -> Prop :=
| np_inst n : names_place (Label n STmodule None) (PInst n)
| np_block n : names_place (Label n STblock None) (PBlock n)
| np_anon n : names_place (Label n STblock None) PAnon
| np_then n : names_place (Label n STif None) PThen
| np_else n : names_place (Label n STif None) PElse
| np_generate n : names_place (Label n STgenerate None) PGenerate
| np_loop n z : names_place (Label n STfor (Some z)) (PLoop z).
Definition names_instance (i : chain * option string) (j : instance_at) : Prop :=
  Forall2 names_place (fst i) (fst j) /\ snd i = Some (snd j).
