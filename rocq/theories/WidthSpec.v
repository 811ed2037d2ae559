(** WidthSpec.v - trees whose width the optimizer computes (C53). *)
From Verif Require Import Base ScopeModel DfModel BindModel OptModel OptSpec.
Local Open Scope Z_scope.

(** [sized E rho t]: the signals of t are declared, bounds of part selects are constant
    expressions, and operators are those as wide as their widest operand, or comparisons other
    than <= and logical connectives, whose operands may be anything; conditionals have both arms.
    The widths of the parts of a concatenation are not negative. *)
Fixpoint sized (E : optenv) (rho : venv) (t : df) : Prop :=
  match t with
  | DTerm n => dget (o_terms E) n <> None
  | DInt _ => width rho t <> None
  | DEval _ w _ _ => w <> None
  | DUndef _ | DHiz _ => True
  | DOp l o =>
      match o with
      | LessThan | GreaterThan | GreaterEq | Eq | NotEq | Eql | NotEql | Land | Lor => True
      | _ => bool_op o = false /\ left_op o = false /\ fold_right (fun x P => sized E rho x /\ P) True l
      end
  | DConcat l => fold_right (fun x P => sized E rho x /\ (forall w, width rho x = Some w -> 0 <= w) /\ P) True l
  | DPart _ m l => exists mv wm lv wl, folds E m mv wm /\ folds E l lv wl /\ value rho m = Some mv /\ value rho l = Some lv /\ 0 <= lv <= mv
  | DPtr (DTerm n) _ => dget (o_terms E) n <> None
  | DPtr _ _ => True
  | DBranch _ a b => sized E rho a /\ sized E rho b
  | _ => False
  end.
