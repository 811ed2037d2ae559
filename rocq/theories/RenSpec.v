(** RenSpec.v - trees in the heap, and what renaming should do. *)
From Verif Require Import Base VisitModel AstTable AstModel AstSpec RenModel.

(** [tree h x v P]: x is the root of the tree v in the heap h, no object of it has two parents, and
    its objects are among P. *)
Inductive tree (h : heap) : hval -> val -> (nat -> Prop) -> Prop :=
| t_none P : tree h HNone VNone P
| t_bool b P : tree h (HBool b) (VBool b) P
| t_int z P : tree h (HInt z) (VInt z) P
| t_str s P : tree h (HStr s) (VStr s) P
| t_seq t l vs P : trees h l vs P -> tree h (HSeq t l) (VSeq t vs) P
| t_node a c fs vs foot (P : nat -> Prop) : nth_error h a = Some (c, fs) -> P a -> map fst fs = map fst vs -> NoDup (map fst fs) ->
    (forall f x v, sget fs f = Some x -> sget vs f = Some v -> tree h x v (foot f)) ->
    (forall f g b, foot f b -> foot g b -> f = g) -> (forall f b, foot f b -> P b /\ b <> a /\ (b < length h)%nat) ->
    tree h (HRef a) (VNode c vs) P
with trees (h : heap) : list hval -> list val -> (nat -> Prop) -> Prop :=
| ts_nil P : trees h [] [] P
| ts_cons x v l vs (P Q R : nat -> Prop) : tree h x v P -> trees h l vs Q -> (forall b, P b -> Q b -> False) ->
    (forall b, P b \/ Q b -> R b /\ (b < length h)%nat) -> trees h (x :: l) (v :: vs) R.

(** The new name of s. *)
Definition new_name (ids : list (string * string)) (s : string) : string := match sget ids s with Some t => t | None => s end.

(** The tree v with identifiers renamed and nothing else changed, but for the line numbers of
    identifiers, and lists that become tuples. *)
Inductive renamed (ids : list (string * string)) : val -> val -> Prop :=
| n_none : renamed ids VNone VNone
| n_bool b : renamed ids (VBool b) (VBool b)
| n_int z : renamed ids (VInt z) (VInt z)
| n_str s : renamed ids (VStr s) (VStr s)
| n_seq t t' l l' : Forall2 (renamed ids) l l' -> renamed ids (VSeq t l) (VSeq t' l')
| n_ident fs fs' s scope scope' : has fs "name" (VStr s) -> has fs' "name" (VStr (new_name ids s)) ->
    has fs "scope" scope -> has fs' "scope" scope' -> renamed ids scope scope' ->
    renamed ids (VNode "Identifier" fs) (VNode "Identifier" fs')
| n_node c fs fs' : c <> "Identifier"%string -> map fst fs = map fst fs' ->
    (forall f v v', In f (attr_names c) -> has fs f v -> has fs' f v' -> v' = v) ->
    (forall f v v', ~ In f (attr_names c) -> has fs f v -> has fs' f v' -> renamed ids v v') ->
    renamed ids (VNode c fs) (VNode c fs').

(** All identifiers that occur in fields (other than attributes) have no scope; identifiers have a
    string as name; sequences hold no sequences. *)
Inductive plain : val -> Prop :=
| p_none : plain VNone
| p_bool b : plain (VBool b)
| p_int z : plain (VInt z)
| p_str s : plain (VStr s)
| p_seq t l : Forall plain l -> (forall u m, ~ In (VSeq u m) l) -> plain (VSeq t l)
| p_ident fs s : has fs "name" (VStr s) -> has fs "scope" VNone -> plain (VNode "Identifier" fs)
| p_node c fs : c <> "Identifier"%string -> (forall f v, has fs f v -> ischild c f = true -> plain v) -> ~ In "coord"%string (map fst fs) ->
    (forall f, In f (map fst fs) -> prefix "__" f = false) -> ~ In "attr_names"%string (map fst fs) -> plain (VNode c fs).

(** The tree that is read from x, whether or not objects are shared. *)
Inductive reads (h : heap) : hval -> val -> Prop :=
| rd_none : reads h HNone VNone
| rd_bool b : reads h (HBool b) (VBool b)
| rd_int z : reads h (HInt z) (VInt z)
| rd_str s : reads h (HStr s) (VStr s)
| rd_seq t l vs : Forall2 (reads h) l vs -> reads h (HSeq t l) (VSeq t vs)
| rd_node a c fs vs : nth_error h a = Some (c, fs) -> Forall2 (fun p q => fst p = fst q /\ reads h (snd p) (snd q)) fs vs -> reads h (HRef a) (VNode c vs).
