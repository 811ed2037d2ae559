(** WhenModel.v - model of pyverilog/controlflow/active_analyzer.py:27-76 and of the entry points of
    pyverilog/controlflow/active_range.py:28-112, 134-154: when a signal is active, changes or keeps its value. *)
From Verif Require Import Base ScopeModel DfModel SplitModel TransModel MachModel ActiveModel.
Local Open Scope Z_scope.

(** range(rs, re + 1) *)
Fixpoint upto (lo : Z) (n : nat) : list Z := match n with O => [] | S k => lo :: upto (lo + 1) k end.
Definition py_range (lo hi : Z) : list Z := upto lo (Z.to_nat (hi - lo)).

Section When.
  (** resolved_binddict membership, makeTree and getWidth (controlflow_analyzer.py:101-116), and the optimizer; they are
      modelled elsewhere. *)
  Variable known : chain -> bool.
  Variable makeTree : chain -> res df.
  Variable getWidth : chain -> res Z.
  Variable optimize : df -> res df.

  (** optimizer.py:57-66, 376-378: optimizing None gives None. *)
  Definition opt_cond (c : df) : res df := if is_none c then Ok DNone else optimize c.
  (** active_analyzer.py:71-75 - the body of the innermost loop. A float payload is not modelled. *)
  Definition one_state (n : snode) (state : Z) : res (list (Z * df)) :=
    do c <- opt_cond (transcond n);
    match c with
    | DEval (PInt 0) _ _ _ => Ok []
    | DEval (PFloat _) _ _ _ => Err Unmodelled
    | _ => Ok [(state, c)]
    end.
  Fixpoint all_states (n : snode) (l : list Z) : res (list (Z * df)) :=
    match l with [] => Ok [] | s :: r => do a <- one_state n s; do b <- all_states n r; Ok (a ++ b) end.
  (** active_analyzer.py:69-70 - the ranges of a node; 67 - the nodes. *)
  Fixpoint all_ranges (n : snode) (l : list (Z * Z)) : res (list (Z * df)) :=
    match l with [] => Ok [] | (rs, re) :: r => do a <- all_states n (py_range rs (re + 1)); do b <- all_ranges n r; Ok (a ++ b) end.
  Fixpoint all_nodes (l : list snode) : res (list (Z * df)) :=
    match l with [] => Ok [] | n :: r => do a <- all_ranges n (range_pairs n); do b <- all_nodes r; Ok (a ++ b) end.
  (** active_analyzer.py:58-65 *)
  Fixpoint all_entries (sig : chain) (w : Z) (d : funcdict) : res (list (Z * df)) :=
    match d with
    | [] => Ok []
    | (condlist, _) :: r =>
        do node <- walkCondlist condlist sig w;
        do a <- all_nodes (nodes_of node);
        do b <- all_entries sig w r; Ok (a ++ b)
    end.
  (** active_analyzer.py:54-76 - getActiveConditions_fsm. *)
  Definition getActiveConditions_fsm (sig : chain) (d : funcdict) : res (list (Z * df)) :=
    do w <- getWidth sig; all_entries sig w (sort_by len_leb d).
  (** active_analyzer.py:42-46 - the loop over the registers of the extracted machines (distinct keys of a dict). *)
  Fixpoint each_fsm (fsms : list chain) (d : funcdict) : res (list (chain * list (Z * df))) :=
    match fsms with
    | [] => Ok []
    | f :: r =>
        do l <- getActiveConditions_fsm f d;
        do ls <- each_fsm r d;
        Ok (if (0 <? length l)%nat then (f, l) :: ls else ls)
    end.
  (** active_analyzer.py:27-52 - getActiveConditions. In Python 3 funcdict.values() cannot be indexed (37): TypeError. *)
  Definition getActiveConditions (fsms : list chain) (tn : chain) (condition : chain -> df -> bool) : res (list (chain * list (Z * df))) :=
    if negb (known tn) then Ok []
    else
      do tree <- makeTree tn;
      do d0 <- split tree;
      do d <- remove_reset_condition (filter_funcs d0 tn condition);
      match d with
      | [([], _)] => Err TypeError                                                (* 36-38 *)
      | _ =>
          do a <- each_fsm fsms d;
          match a with
          | [] => do l <- getActiveConditions_fsm tn d;                           (* 48-51 *)
                  Ok (if (0 <? length l)%nat then [(tn, l)] else [])
          | _ => Ok a
          end
      end.

  (** ** active_range.py *)

  (** active_range.py:86 - eval('func.value' + op + str(conditionvalue)) for the six comparisons of
      integers. *)
  Definition py_compare (op : string) (a b : Z) : res bool :=
    if String.eqb op ">" then Ok (b <? a) else if String.eqb op ">=" then Ok (b <=? a)
    else if String.eqb op "<" then Ok (a <? b) else if String.eqb op "<=" then Ok (a <=? b)
    else if String.eqb op "==" then Ok (a =? b) else if String.eqb op "!=" then Ok (negb (a =? b))
    else Err Unmodelled.
  (** active_range.py:81-89 - getActiveFuncdictKeys. Payloads other than int are not modelled. *)
  Fixpoint active_keys (op : string) (value : Z) (d : funcdict) : res (list (list df)) :=
    match d with
    | [] => Ok []
    | (k, f) :: r =>
        do c <- remove_reset_condlist k;
        do e <- match f with DEval (PInt z) _ _ _ => py_compare op z value | DEval _ _ _ _ => Err Unmodelled | _ => Ok false end;
        do l <- active_keys op value r;
        Ok (if e then c :: l else l)
    end.
  (** active_range.py:91-97 - getChangedFuncdictKeys; 99-105 - getUnchangedFuncdictKeys. *)
  Fixpoint keys_where (keep : df -> bool) (d : funcdict) : res (list (list df)) :=
    match d with
    | [] => Ok []
    | (k, f) :: r =>
        do c <- remove_reset_condlist k;
        do l <- keys_where keep r;
        Ok (if keep f then c :: l else l)
    end.
  (** active_range.py:107-112 - getChangedFuncdict. *)
  Fixpoint changed_dict (tn : chain) (d acc : funcdict) : res funcdict :=
    match d with
    | [] => Ok acc
    | (k, f) :: r =>
        do c <- remove_reset_condlist k;
        do acc' <- (if active_modify tn f then dict_set acc c f else Ok acc);
        changed_dict tn r acc'
    end.
  (** active_range.py:135-154 - inferActiveConditionDict. ActiveCondition has no __eq__ and no
      __hash__: keys are compared by identity, and a condition already there keeps its value. *)
  Definition put1 (c : nat) (f : df) (acc : list (nat * df)) : list (nat * df) :=
    if existsb (fun p => Nat.eqb c (fst p)) acc then acc else acc ++ [(c, f)].
  Fixpoint infer_dict (ls : funcdict) (acc : list (nat * df)) : M (list (nat * df)) :=
    match ls with
    | [] => ret acc
    | (l, f) :: r =>
        v <<- infer_condition getWidth l;
        acc' <<- match v with
                 | ANone => ret acc
                 | ATerm t => x <<- get_term t;
                              match a_ranges x with
                              | [] => ret acc                                      (* 139-140 *)
                              | _ => n <<- new_cond; set_name n t;;; ret (put1 n f acc)
                              end
                 | ACond c => resolve c;;; d <<- get_cond c; ret (match d with [] => acc | _ => put1 c f acc end)
                 | AList cs => each resolve cs;;; ret (fold_left (fun a c => put1 c f a) cs acc)
                 end;
        infer_dict r acc'
    end.

  (** The tree of a signal, cut into routes; an unknown signal has none. *)
  Definition routes_of (tn : chain) : res (option funcdict) :=
    if negb (known tn) then Ok None else do tree <- makeTree tn; do d <- split tree; Ok (Some d).
  (** active_range.py:28-35, 77-79 - getActiveConditions, makeConditionalTree. *)
  Definition activeConditions (tn : chain) (op : string) (value : Z) : res (heap * list nat) :=
    do o <- routes_of tn;
    match o with
    | None => Ok (Heap [] [], [])
    | Some d => do ls <- active_keys op value d; infer_conditions getWidth ls [] (Heap [] [])
    end.
  (** active_range.py:37-48 - getChangedConditions. getTermtype (41) only looks the signal up. *)
  Definition changedConditions (tn : chain) : res (heap * list nat) :=
    do o <- routes_of tn;
    match o with
    | None | Some [] => Ok (Heap [] [], [])
    | Some d => do ls <- keys_where (active_modify tn) d; infer_conditions getWidth ls [] (Heap [] [])
    end.
  (** active_range.py:63-74 - getUnchangedConditions. *)
  Definition unchangedConditions (tn : chain) : res (heap * list nat) :=
    do o <- routes_of tn;
    match o with
    | None | Some [] => Ok (Heap [] [], [])
    | Some d => do ls <- keys_where (active_unmodify tn) d; infer_conditions getWidth ls [] (Heap [] [])
    end.
  (** active_range.py:50-61 - getChangedConditionsWithAssignments. *)
  Definition changedWithAssignments (tn : chain) : res (heap * list (nat * df)) :=
    do o <- routes_of tn;
    match o with
    | None | Some [] => Ok (Heap [] [], [])
    | Some d => do ls <- changed_dict tn d []; infer_dict ls [] (Heap [] [])
    end.
End When.
