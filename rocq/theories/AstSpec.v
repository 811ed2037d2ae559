(** AstSpec.v - what equality of trees should be, without fuel and without order of evaluation. *)
From Verif Require Import Base VisitModel AstTable AstModel.

(** Field f of a node: the first of that name in its instance dictionary. *)
Definition has (fs : list (string * val)) (f : string) (v : val) : Prop := sget fs f = Some v.
(** Nodes that the constructors make: all fields there, and a sequence or None in a field of several
    nodes. *)
Inductive made : val -> Prop :=
| m_none : made VNone
| m_bool b : made (VBool b)
| m_int z : made (VInt z)
| m_str s : made (VStr s)
| m_seq t l : Forall made l -> made (VSeq t l)
| m_node c fs : Forall (fun kv => made (snd kv)) fs ->
    (forall f, In f (attr_names c) -> exists v, has fs f v) ->
    (forall f, In (One f) (kid_fields c) -> exists v, has fs f v) ->
    (forall f, In (Many f) (kid_fields c) -> has fs f VNone \/ exists t l, has fs f (VSeq t l)) ->
    made (VNode c fs).

(** The children of a node: the values of its fields that are not false, in order. *)
Inductive kids_of (fs : list (string * val)) : list kid -> list val -> Prop :=
| ks_nil : kids_of fs [] []
| ks_one f v r l : has fs f v -> truthy v = true -> kids_of fs r l -> kids_of fs (One f :: r) (v :: l)
| ks_one_false f v r l : has fs f v -> truthy v = false -> kids_of fs r l -> kids_of fs (One f :: r) l
| ks_many f t l0 r l : has fs f (VSeq t l0) -> kids_of fs r l -> kids_of fs (Many f :: r) (l0 ++ l)
| ks_many_none f r l : has fs f VNone -> kids_of fs r l -> kids_of fs (Many f :: r) l.

Definition number (v : val) : option Z := match v with VBool b => Some (if b then 1 else 0)%Z | VInt z => Some z | _ => None end.
(** Two trees are the same: same classes, equal attributes and the same children throughout.
    Parts that are no attribute and no child (lineno, say) do not count. [below] allows the second
    tree to have further children after those of the first. *)
Inductive rel (below : bool) : val -> val -> Prop :=
| r_none : rel below VNone VNone
| r_num x y z : number x = Some z -> number y = Some z -> rel below x y
| r_str s : rel below (VStr s) (VStr s)
| r_seq t l l' : Forall2 (rel below) l l' -> rel below (VSeq t l) (VSeq t l')
| r_node c fs fs' a a' k k' more :
    Forall2 (has fs) (attr_names c) a -> Forall2 (has fs') (attr_names c) a' -> Forall2 (rel below) a a' ->
    kids_of fs (kid_fields c) k -> kids_of fs' (kid_fields c) (k' ++ more) -> (below = false -> more = []) -> Forall2 (rel below) k k' ->
    rel below (VNode c fs) (VNode c fs').
Definition same := rel false.
Definition within := rel true.

(** The number of values of a tree, counting attributes and children only. *)
Inductive count : val -> nat -> Prop :=
| c_none : count VNone 1
| c_num x z : number x = Some z -> count x 1
| c_str s : count (VStr s) 1
| c_seq t l ns : Forall2 count l ns -> count (VSeq t l) (S (list_sum ns))
| c_node c fs a k ns ms : Forall2 (has fs) (attr_names c) a -> kids_of fs (kid_fields c) k -> Forall2 count a ns -> Forall2 count k ms ->
    count (VNode c fs) (S (list_sum ns + list_sum ms)).
