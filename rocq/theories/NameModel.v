(** NameModel.v - model of hierarchical names: pyverilog/dataflow/visit.py searchMatchedScopeChain and
    pyverilog/dataflow/bindvisitor.py searchScopeTerminal, toScopeChain, getModuleScopeChain. *)
From Verif Require Import Base ScopeModel DfModel BindModel OptModel VisitModel.

(** dataflow/bindvisitor.py:726-733 - getModuleScopeChain: up to the last module, on the reversed chain. *)
Fixpoint up_to_module (r : chain) : res chain :=
  match r with
  | [] => Err DefinitionError
  | l :: r' => if scopetype_eqb (stype l) STmodule then Ok (rev r) else up_to_module r'
  end.
Definition getModuleScopeChain (c : chain) : res chain := up_to_module (rev c).

Section Names.
  Context {node E : Type}.
  Variable value : E -> res df.             (* optimize(getTree(index, current)) *)

  (** dataflow/bindvisitor.py:715-724 - toScopeChain: for each label of the name a label for its index, if any, and one
      for the name. The label of an index is always named "for". Indices that are evaluated to something else than
      an integer are not modelled. *)
  Fixpoint toScopeChain (p : list (string * option E)) : res chain :=
    match p with
    | [] => Ok []
    | (n, o) :: p' =>
        do i <- match o with
                | None => Ok []
                | Some e => do v <- value e;
                            match v with DEval x _ _ _ => do z <- as_int x; Ok [Label "for" STfor (Some z)] | _ => Err FormatError end
                end;
        do r <- toScopeChain p'; Ok (i ++ Label n STany None :: r)
    end.

  (** dataflow/visit.py:836-868 - searchMatchedScopeChain. isPrintable: utils/scope.py:58-59. *)
  Fixpoint matched (fuel : nat) (s : ftable node) (cur target : chain) : res (option chain) :=
    match fuel with
    | O => Err OutOfFuel
    | S fuel =>
        match rev cur, target with
        | [], _ => Err IndexError
        | _, [] => Err IndexError
        | l :: _, t :: target' =>
            let among (tg : chain) : res (option chain) :=
              match dget (ft_dict _ s) cur with
              | None => Err KeyError
              | Some f =>
                  (fix first (nexts : list chain) : res (option chain) :=
                     match nexts with
                     | [] => Ok None
                     | x :: nexts' => do r <- matched fuel s x tg; match r with Some c => Ok (Some (l :: c)) | None => first nexts' end
                     end) (f_next _ f)
              end in
            if negb (unprintable (stype l)) then
              if negb (label_eq l t) then Ok None
              else match target' with [] => Ok (Some [t]) | _ => among target' end
            else if scopetype_eqb (stype l) STfor && scopetype_eqb (stype t) STfor then
              if negb (loop_eqb (sloop l) (sloop t)) then Ok None
              else match target' with [] => Ok (Some [t]) | _ => among target' end
            else among target
        end
    end.
  (** The recursion goes to scopes one label longer: no deeper than the longest one. *)
  Definition deepest (s : ftable node) : nat := list_max (map (fun p => length (fst p)) (ft_dict _ s)).

  (** dataflow/bindvisitor.py:735-742 - searchScopeTerminal. If nothing matches, None is added to a chain: utils/scope.py:68-76
      raises verror.DefinitionError there, but verror is not imported (NameError). *)
  Definition searchScopeTerminal {V} (s : ftable node) (terms : ndict V) (p : list (string * option E)) (name : string) (current : chain) : res chain :=
    do m <- getModuleScopeChain current;
    do loc <- toScopeChain p;
    match rev m with
    | [] => Err IndexError
    | l :: r =>
        do x <- matched (S (deepest s)) s m (l :: loc);
        match x with
        | None => Err NameError
        | Some c => let v := rev r ++ c ++ [Label name STsignal None] in if dmem terms v then Ok v else Err DefinitionError
        end
    end.

  (** dataflow/bindvisitor.py:1353-1355, 1368-1370, 1384-1386 - getDst with a hierarchical name on the left: a syntax tree and a
      label are added. *)
  Definition hierarchical_destination (p : list (string * option E)) (name : string) : res chain := Err TypeError.
End Names.
