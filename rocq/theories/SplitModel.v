(** SplitModel.v - model of pyverilog/controlflow/splitter.py. *)
From Verif Require Import Base ScopeModel DfModel.

(** A Python dict keyed by condition tuples, in insertion order. *)
Definition funcdict := list (list df * df).

(** Tuple equality of keys, by the nodes' __eq__. *)
Fixpoint conds_eq (a b : list df) : res bool :=
  match a, b with
  | x :: a', y :: b' => do e <- df_eq x y; if e then conds_eq a' b' else Ok false
  | [], [] => Ok true
  | _, _ => Ok false
  end.

(** d[k] = v : hashing the key, then replacing the value of an equal key or appending.
    Simplification: the key is compared with every key in order, not only with keys of
    equal hash. *)
Fixpoint dict_put (d : funcdict) (k : list df) (v : df) : res funcdict :=
  match d with
  | [] => Ok [(k, v)]
  | (k', v') :: r => do e <- conds_eq k' k;
                     if e then Ok ((k', v) :: r) else do r' <- dict_put r k v; Ok ((k', v') :: r')
  end.
Definition dict_set (d : funcdict) (k : list df) (v : df) : res funcdict :=
  do _ <- mapM df_hash k; dict_put d k v.

Fixpoint dict_set_all (d : funcdict) (l : funcdict) : res funcdict :=
  match l with
  | [] => Ok d
  | (k, v) :: r => do d' <- dict_set d k v; dict_set_all d' r
  end.

(** controlflow/splitter.py:18-37 - split. *)
Fixpoint split (tree : df) : res funcdict :=
  match tree with
  | DBranch c t f =>
      do truefuncs <- split t;                                                   (* 21 *)
      do d1 <- (if 0 <? length truefuncs                                         (* 23-28 *)
                then dict_set_all [] (map (fun p => (c :: fst p, snd p)) truefuncs)
                else if is_none t then Ok [] else dict_set [] [c] t);
      do falsefuncs <- split f;                                                  (* 29 *)
      do falsecond <- mkOp [c] Ulnot;                                            (* 30 *)
      if 0 <? length falsefuncs                                                  (* 31-36 *)
      then dict_set_all d1 (map (fun p => (falsecond :: fst p, snd p)) falsefuncs)
      else if is_none f then Ok d1 else dict_set d1 [falsecond] f
  | _ => Ok []
  end.

(** controlflow/splitter.py:66-71 - active_constant with the default op '>' and value 0,
    on integer payloads (the code evaluates the text of the comparison; None, float and
    string payloads are not modelled). *)
Definition active_constant (termname : chain) (node : df) : bool :=
  match node with DEval (PInt z) _ _ _ => (0 <? z)%Z | _ => false end.
(** controlflow/splitter.py:74-83 - active_modify, active_unmodify. *)
Definition active_unmodify (termname : chain) (node : df) : bool :=
  match node with DTerm n => chain_eq n termname | _ => false end.
Definition active_modify (termname : chain) (node : df) : bool := negb (active_unmodify termname node).

(** controlflow/splitter.py:86-92 - filter (the keys are already distinct keys of a dict). *)
Definition filter_funcs (d : funcdict) (termname : chain) (condition : chain -> df -> bool) : funcdict :=
  List.filter (fun p => condition termname (snd p)) d.
