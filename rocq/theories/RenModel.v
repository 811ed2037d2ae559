(** RenModel.v - model of pyverilog/utils/identifierreplace.py and identifiervisitor.py. Replacing
    writes into the nodes, so nodes are objects in a heap here and may be shared. *)
From Verif Require Import Base VisitModel AstTable AstModel.

(** Values with references to objects; the heap has the class and the instance dictionary of every
    object. *)
Inductive hval := HNone | HBool (b : bool) | HInt (z : Z) | HStr (s : string) | HSeq (tuple : bool) (l : list hval) | HRef (a : nat).
Definition obj := (string * list (string * hval))%type.
Definition heap := list obj.
Fixpoint put (h : heap) (a : nat) (o : obj) : heap :=
  match h, a with [], _ => [] | _ :: r, O => o :: r | x :: r, S a => x :: put r a o end.
(** setattr(node, f, v) *)
Definition setattr (h : heap) (a : nat) (f : string) (v : hval) : heap :=
  match nth_error h a with Some (c, fs) => put h a (c, sset fs f v) | None => h end.

(** identifierreplace.py:22-35 - ischild: instance attributes whose name is not in attr_names, is not
    coord or attr_names and does not start with two underscores. The methods and class attributes
    that dir() also gives are callable, attr_names or start with underscores. *)
Definition ischild (c f : string) : bool :=
  negb (prefix "__" f) && negb (String.eqb f "coord") && negb (String.eqb f "attr_names") && negb (existsb (String.eqb f) (attr_names c)).
(** dir() sorts the names. *)
Fixpoint insert_name (x : string * hval) (l : list (string * hval)) : list (string * hval) :=
  match l with [] => [x] | y :: r => if String.leb (fst x) (fst y) then x :: l else y :: insert_name x r end.
Fixpoint sort_names (l : list (string * hval)) : list (string * hval) := match l with [] => [] | x :: r => insert_name x (sort_names r) end.
(** identifierreplace.py:38-43 - children_items: names and values, read before anything is visited. *)
Definition children_items (o : obj) : list (string * hval) := sort_names (filter (fun fv => ischild (fst o) (fst fv)) (snd o)).

Section Replace.
  Variable ids : list (string * string).
  (** for c in child: r.append(self.visit(c)) *)
  Fixpoint visit_all (visit : heap -> hval -> res (heap * hval)) (h : heap) (l : list hval) : res (heap * list hval) :=
    match l with
    | [] => Ok (h, [])
    | x :: r => do p <- visit h x; do q <- visit_all visit (fst p) r; Ok (fst q, snd p :: snd q)
    end.
  (** identifierreplace.py:59-70 - the body of the loop of generic_visit. *)
  Fixpoint visit_items (visit : heap -> hval -> res (heap * hval)) (a : nat) (h : heap) (l : list (string * hval)) : res heap :=
    match l with
    | [] => Ok h
    | (f, x) :: r =>
        match x with
        | HNone => visit_items visit a h r
        | HSeq _ xs => do p <- visit_all visit h xs; visit_items visit a (setattr (fst p) a f (HSeq true (snd p))) r
        | _ => do p <- visit h x; visit_items visit a (setattr (fst p) a f (snd p)) r
        end
    end.
  (** identifierreplace.py:50-76 - IdentifierReplace.visit, generic_visit and visit_Identifier. A value
      that is no node has no child and is given back. vast.Identifier(new) is a new object with
      scope=None and lineno=0 (ast.py:217-220). The first argument bounds the recursion. *)
  Fixpoint visit (n : nat) (h : heap) (v : hval) {struct n} : res (heap * hval) :=
    match n with
    | O => Err OutOfFuel
    | S n =>
        match v with
        | HRef a =>
            match nth_error h a with
            | None => Err Unmodelled
            | Some (c, fs) =>
                if String.eqb c "Identifier" then
                  match sget fs "name"%string with
                  | None => Err AttributeError
                  | Some (HStr s) => match sget ids s with
                                     | Some new => Ok (h ++ [("Identifier", [("lineno", HInt 0); ("name", HStr new); ("scope", HNone)])]%string, HRef (length h))
                                     | None => Ok (h, v)
                                     end
                  | Some _ => Ok (h, v)
                  end
                else do h' <- visit_items (visit n) a h (children_items (c, fs)); Ok (h', v)
            end
        | _ => Ok (h, v)
        end
    end.
End Replace.

(** identifiervisitor.py:17-38 with NodeVisitor (dataflow/visit.py:44-52): the names of the
    identifiers in the order of children(); below an identifier nothing is visited. Nothing is
    written, so this is on trees. A value that is no node has no children(). *)
Fixpoint list_to (n : nat) (v : val) {struct n} : res (list string) :=
  match n with
  | O => Err OutOfFuel
  | S n =>
      match v with
      | VNode c fs =>
          if String.eqb c "Identifier" then
            do nm <- getattr fs "name"; match nm with VStr s => Ok [s] | _ => Err Unmodelled end
          else do ks <- children c fs; do ls <- mapM (list_to n) ks; Ok (concat ls)
      | _ => Err AttributeError
      end
  end.
Definition getIdentifiers (v : val) : res (list string) := list_to (S (vsize v)) v.
