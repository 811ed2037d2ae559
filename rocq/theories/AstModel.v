(** AstModel.v - model of pyverilog/vparser/ast.py: nodes, children(), == and hash(). *)
From Verif Require Import Base VisitModel AstTable.

(** Python values in the fields of AST nodes. Simplification: floats and dictionaries are not modelled
    (no field of a parsed tree holds one). A node is its class and its fields by name (the instance
    dictionary, lineno included). *)
Inductive val :=
| VNone | VBool (b : bool) | VInt (z : Z) | VStr (s : string)
| VSeq (tuple : bool) (l : list val)
| VNode (c : string) (fs : list (string * val)).

Fixpoint find_class (l : list class) (c : string) : class :=
  match l with [] => Class c [] [] | k :: r => if String.eqb (c_name k) c then k else find_class r c end.
Definition attr_names (c : string) : list string := c_attrs (find_class classes c).
Definition kid_fields (c : string) : list kid := c_kids (find_class classes c).

(** getattr(self, f) *)
Definition getattr (fs : list (string * val)) (f : string) : res val := match sget fs f with Some v => Ok v | None => Err AttributeError end.
(** bool(v): Node has neither __bool__ nor __len__, so a node is true. *)
Definition truthy (v : val) : bool :=
  match v with VNone => false | VBool b => b | VInt z => negb (Z.eqb z 0) | VStr s => negb (String.eqb s "") | VSeq _ l => match l with [] => false | _ => true end | VNode _ _ => true end.
Fixpoint chars (s : string) : list val := match s with EmptyString => [] | String c r => VStr (String c EmptyString) :: chars r end.
(** Iterating over v. *)
Definition elements (v : val) : res (list val) := match v with VSeq _ l => Ok l | VStr s => Ok (chars s) | _ => Err TypeError end.
(** One statement of children(). *)
Definition kid_values (fs : list (string * val)) (k : kid) : res (list val) :=
  match k with
  | One f => do v <- getattr fs f; Ok (if truthy v then [v] else [])
  | Many f => do v <- getattr fs f; if truthy v then elements v else Ok []
  end.
(** children() of a node of class c with fields fs: ast.py, the children method of each class. *)
Definition children (c : string) (fs : list (string * val)) : res (list val) := do ls <- mapM (kid_values fs) (kid_fields c); Ok (concat ls).
(** [getattr(self, a) for a in self.attr_names] *)
Definition attributes (c : string) (fs : list (string * val)) : res (list val) := mapM (getattr fs) (attr_names c).

Section Loops.
  Variable eq : val -> val -> res bool.
  (** == of tuples: the first unequal pair decides, then the lengths. *)
  Fixpoint tuple_eq (l l' : list val) : res bool :=
    match l, l' with
    | [], [] => Ok true
    | x :: r, y :: r' => do b <- eq x y; if b then tuple_eq r r' else Ok false
    | _, _ => Ok false
    end.
  (** ast.py:67-69 - for i, c in enumerate(self.children()): if c != other_children[i]: return False *)
  Fixpoint kids_eq (l l' : list val) : res bool :=
    match l with
    | [] => Ok true
    | x :: r => match l' with [] => Err IndexError | y :: r' => do b <- eq x y; if b then kids_eq r r' else Ok false end
    end.
End Loops.

(** x == y. For nodes: ast.py:55-71, Node.__eq__ (and __ne__, ast.py:73-74, its negation). The first
    argument bounds the recursion. *)
Fixpoint eq_to (n : nat) (x y : val) {struct n} : res bool :=
  match n with
  | O => Err OutOfFuel
  | S n => match x, y with
           | VNone, VNone => Ok true
           | VBool b, VBool b' => Ok (Bool.eqb b b')
           | VInt z, VInt z' => Ok (Z.eqb z z')
           | VBool b, VInt z => Ok (Z.eqb (if b then 1 else 0) z)
           | VInt z, VBool b => Ok (Z.eqb z (if b then 1 else 0))
           | VStr s, VStr s' => Ok (String.eqb s s')
           | VSeq true l, VSeq true l' => tuple_eq (eq_to n) l l'
           | VSeq false l, VSeq false l' => if Nat.eqb (length l) (length l') then tuple_eq (eq_to n) l l' else Ok false
           | VNode c fs, VNode c' fs' =>
               if String.eqb c c' then
                 do a <- attributes c fs; do a' <- attributes c' fs';
                 do b <- tuple_eq (eq_to n) a a';
                 if b then do k' <- children c' fs'; do k <- children c fs; kids_eq (eq_to n) k k' else Ok false
               else Ok false
           | _, _ => Ok false
           end
  end.
Fixpoint vsize (v : val) : nat :=
  match v with
  | VSeq _ l => S (list_sum (map vsize l))
  | VNode _ fs => S (list_sum (map (fun kv => vsize (snd kv)) fs))
  | _ => 1
  end.
Definition node_eq (x y : val) : res bool := eq_to (S (vsize x)) x y.

(** hash(v). H is the type of hash values; hash_atom and hash_tuple stand for Python's hashes of
    None, booleans, integers and strings, and of tuples. Lists raise TypeError. *)
Inductive atom := ANone | AInt (z : Z) | AStr (s : string).
Section Hash.
  Context {H : Type} (hash_atom : atom -> H) (hash_tuple : list H -> H).
  (** For nodes: ast.py:76-79, Node.__hash__. True and 1, and False and 0, have the same hash. *)
  Fixpoint hash_to (n : nat) (v : val) {struct n} : res H :=
    match n with
    | O => Err OutOfFuel
    | S n => match v with
             | VNone => Ok (hash_atom ANone)
             | VBool b => Ok (hash_atom (AInt (if b then 1 else 0)))
             | VInt z => Ok (hash_atom (AInt z))
             | VStr s => Ok (hash_atom (AStr s))
             | VSeq true l => do hs <- mapM (hash_to n) l; Ok (hash_tuple hs)
             | VSeq false _ => Err TypeError
             | VNode c fs =>
                 do a <- attributes c fs; do ha <- mapM (hash_to n) a;
                 do k <- children c fs; do hk <- mapM (hash_to n) k;
                 Ok (hash_tuple [hash_tuple ha; hash_tuple hk])
             end
    end.
  Definition node_hash (v : val) : res H := hash_to (S (vsize v)) v.
End Hash.
