(** LstSpec.v - the signals, constants, functions, tasks and instances of a design, from the history of its visit. *)
From Verif Require Import Base ScopeModel ScopeSpec DfModel BindModel BindSpec VisitModel VisitSpec LstModel.

(** The distinct elements of a list, in order of first appearance. *)
Fixpoint firsts (l : list string) : list string :=
  match l with [] => [] | x :: r => x :: remove string_dec x (firsts r) end.

Section Spec.
  Context {node : Type}.
  Variable name_of : node -> string.
  Variable class_of : node -> string.
  Implicit Type h : list (ev node).
  Implicit Type l a : list (act node).

  (** ** Declarations *)
  (** The scopes that are opened and the declarations made in them (VisitSpec.v): an instance opens a scope and
      declares the ports and parameters of its module; inputs of functions (f) and tasks (t) are left out. *)
  Fixpoint declared (f t : bool) h : list (act node) :=
    match h with
    | [] => []
    | Open _ lb fl :: r => OpenScope node lb fl :: declared f t r
    | Move _ c :: r => MoveTo node c :: declared f t r
    | Declare _ d :: r => (if (f || t) && String.eqb (class_of d) "Input" then [] else [AddSignal node (name_of d) d]) ++ declared f t r
    | Constant _ d :: r => AddConst node (name_of d) d :: declared f t r
    | Function _ _ :: r => declared true t r
    | EndFunction _ :: r => declared false t r
    | Task _ _ :: r => declared f true r
    | EndTask _ :: r => declared f false r
    | Instance _ i m ds :: r =>
        OpenScope node (Label i STmodule None) (Flags true false false false false false None (Some m)) ::
        map (fun d => match d with MPort _ d => AddSignal node (name_of d) d | MParam _ d => AddConst node (name_of d) d end) ds ++
        declared f t r
    end.
  Definition design h : list (act node) := declared false false h.
  (** The scopes, in the order they are opened in. *)
  Fixpoint scopes_from (cur : chain) l : list chain :=
    match l with
    | [] => []
    | x :: r => match x with OpenScope _ lb _ => [cur ++ [lb]] | _ => [] end ++ scopes_from (after cur x) r
    end.
  Definition scopes a : list chain := scopes_from [] a.
  (** The names of a scope, in the order they are declared in. Signals that are declared only after a constant of
      the same name do not count. *)
  Definition signal_names l : list string :=
    filter (fun n => match signal_decls l n with [] => false | _ => true end)
           (firsts (flat_map (fun x => match x with AddSignal _ n _ => [n] | _ => [] end) l)).
  Definition constant_names l : list string :=
    firsts (flat_map (fun x => match x with AddConst _ n _ => [n] | _ => [] end) l).

  (** ** Listings *)
  Definition signals_of a (c : chain) : list (chain * list node) :=
    map (fun n => (c ++ [Label n STsignal None], signals_in a c n)) (signal_names (done_in [] c a)).
  Definition constants_of a (c : chain) : list (chain * list node) :=
    map (fun n => (c ++ [Label n STsignal None], constants_in a c n)) (constant_names (done_in [] c a)).
  (** The current scope after an event. *)
  Definition moved (cur : chain) (e : ev node) : chain :=
    match e with Open _ lb _ => cur ++ [lb] | Move _ c => c | Instance _ i _ _ => cur ++ [Label i STmodule None] | _ => cur end.
  Fixpoint instances (cur : chain) h : list (chain * option string) :=
    match h with
    | [] => []
    | e :: r => match e with Instance _ i m _ => [(cur ++ [Label i STmodule None], Some m)] | _ => [] end ++ instances (moved cur e) r
    end.
  (** Functions and tasks, with the scopes they are defined in and the inputs declared in them. *)
  Fixpoint inputs h : list node :=
    match h with
    | [] | EndFunction _ :: _ | EndTask _ :: _ => []
    | Declare _ d :: r => (if String.eqb (class_of d) "Input" then [d] else []) ++ inputs r
    | _ :: r => inputs r
    end.
  Fixpoint routines (tasks : bool) (cur : chain) h : list (chain * node * list node) :=
    match h with
    | [] => []
    | e :: r => match tasks, e with false, Function _ d | true, Task _ d => [(cur, d, inputs r)] | _, _ => [] end ++ routines tasks (moved cur e) r
    end.
  Definition routines_of (tasks : bool) h (c : chain) : list (node * list node) :=
    flat_map (fun x => if chain_dec (fst (fst x)) c then [(snd (fst x), snd x)] else []) (routines tasks [] h).

  (** ** Visits *)
  (** Names without wildcards; Instance is how scopes of modules are opened. *)
  Definition plain_ev (e : ev node) : Prop :=
    match e with Open _ lb _ => stype lb <> STany /\ stype lb <> STmodule | Move _ c => no_any c | _ => True end.
  (** Functions and tasks end where they began and are not nested; their inputs are declared in the scope they are
      declared in. [within] is the routine being visited (is it a task, and its scope). *)
  Fixpoint proper (within : option (bool * chain)) (cur : chain) h : Prop :=
    match h with
    | [] => True
    | e :: r =>
        match within with
        | None => match e with EndFunction _ | EndTask _ => False | _ => True end
        | Some (task, c) =>
            match e with
            | Function _ _ | Task _ _ | Instance _ _ _ _ => False
            | EndFunction _ => task = false
            | EndTask _ => task = true
            | Declare _ d => class_of d = "Input"%string -> cur = c
            | _ => True
            end
        end /\
        proper (match e with Function _ _ => Some (false, cur) | Task _ _ => Some (true, cur) | EndFunction _ | EndTask _ => None | _ => within end)
               (moved cur e) r
    end.
  (** What a term of the dataflow says about the declarations of its name: the classes, and nothing else. *)
  Definition says (t : term) (ds : list node) : Prop :=
    (forall x, In x (t_type t) <-> exists d, In d ds /\ class_of d = x) /\ t_msb t = DNone /\ t_lsb t = DNone /\ t_dims t = None.
End Spec.
