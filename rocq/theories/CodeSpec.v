(** CodeSpec.v - the Verilog expression a dataflow tree stands for. *)
From Verif Require Import Base ScopeModel DfModel ExprModel.
Local Open Scope string_scope.

(** [dest] is the name used for a missing arm: the signal keeps its value. A part-select with
    equal bounds is a bit-select. Floats, strings, delays and operators with more than two
    operands stand for nothing. *)
Definition literal (w : Z) (digits : string) : string := (if Z.eqb w 32 then "" else z_str w) ++ "'d" ++ digits.
Inductive stands (dest : string) : df -> expr -> Prop :=
| st_term n : stands dest (DTerm n) (XId (chain_tocode n))
| st_int s : stands dest (DInt s) (XInt s)
| st_un o a x : stands dest a x -> stands dest (DOp [a] o) (XUn o x)
| st_bin o a b x y : stands dest a x -> stands dest b y -> stands dest (DOp [a; b] o) (XBin o x y)
| st_part v m l x y z : stands dest v x -> stands dest m y -> stands dest l z -> y <> z -> stands dest (DPart v m l) (XPart x y z)
| st_bit v m l x y : stands dest v x -> stands dest m y -> stands dest l y -> stands dest (DPart v m l) (XPtr x y)
| st_ptr v p x y : stands dest v x -> stands dest p y -> stands dest (DPtr v p) (XPtr x y)
| st_concat l xs : Forall2 (stands dest) l xs -> stands dest (DConcat l) (XConcat xs)
| st_branch c t f x y z : stands dest c x -> arm_stands dest t y -> arm_stands dest f z -> stands dest (DBranch c t f) (XCond x y z)
| st_value v w fl : (0 <= v)%Z -> stands dest (DEval (PInt v) (Some w) fl false) (XInt (literal w (z_str v)))
| st_negative v w fl : (v < 0)%Z -> stands dest (DEval (PInt v) (Some w) fl false) (XUn Uminus (XInt (literal w (z_str (- v)))))
| st_undef w : stands dest (DUndef w) (XInt (literal w "x"))
| st_hiz w : stands dest (DHiz w) (XInt (literal w "z"))
| st_sys f l xs : Forall2 (stands dest) l xs -> stands dest (DSys f l) (XSys f xs)
with arm_stands (dest : string) : df -> expr -> Prop :=
| st_none : arm_stands dest DNone (XId dest)
| st_some t x : stands dest t x -> arm_stands dest t x.

(** What the printer cannot write: escaped identifiers, unary plus, calls without arguments. *)
Definition unescaped (s : string) : bool := match s with String "\" _ => false | _ => true end.
Fixpoint codable (e : expr) : bool :=
  match e with
  | XId s => unescaped s
  | XInt _ => true
  | XUn o a => match o with Uplus => false | _ => codable a end
  | XBin _ a b => codable a && codable b
  | XCond c t f => codable c && codable t && codable f
  | XConcat l => forallb codable l
  | XPart v m l => codable v && codable m && codable l
  | XPtr v p => codable v && codable p
  | XSys f l => unescaped f && match l with [] => false | _ => true end && forallb codable l
  | XRepeat _ _ | XCall _ _ => false
  end.
