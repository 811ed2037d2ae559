(** CodeModel.v - model of the tocode methods of the dataflow trees (dataflow/dataflow.py). *)
From Verif Require Import Base ScopeModel DfModel LexModel ExprModel.
Local Open Scope string_scope.

(** dataflow.py:493-505 - DFEvalValue.__repr__. A float is kept as its text. value < 0 with None
    or a string is a TypeError. *)
Definition width_str (w : option Z) : string := match w with Some 32%Z => "" | Some w => z_str w | None => "None" end.
Definition eval_repr (v : pyval) (w : option Z) (isstring : bool) : res string :=
  if isstring then match v with PStr s => Ok s | _ => Err TypeError end
  else
    match v with
    | PInt z => if (z <? 0)%Z then Ok ("(-" ++ width_str w ++ "'d" ++ z_str (Z.abs z) ++ ")") else Ok (width_str w ++ "'d" ++ z_str z)
    | PFloat s => match s with String "-" r => Ok ("(-" ++ width_str w ++ "'d" ++ r ++ ")") | _ => Ok (width_str w ++ "'d" ++ s) end
    | PStr _ | PNone => Err TypeError
    end.
(** ret += n.tocode(dest) + ','  for each n, then ret[:-1]: with the opening text. *)
Definition members (open : string) (l : list string) : string := ScopeModel.drop_last (open ++ String.concat "" (map (fun s => s ++ ",") l)).

(** dataflow.py:55 (default: __repr__), 98, 240-249, 285-294, 332-335, 371-377, 416-435 (always = ''),
    519, 545-555, 580-590, 627, 664-670 - tocode(dest). None has no tocode; the None of op2mark for
    Uplus cannot be added to a string. *)
Definition arm (dest : string) (t : df) (code : res string) : res string := match t with DNone => Ok dest | _ => code end.
Fixpoint tocode (dest : string) (t : df) : res string :=
  match t with
  | DNone => Err AttributeError
  | DTerm n => Ok (chain_tocode n)
  | DInt s | DFloat s | DStr s => Ok s
  | DOp l o =>
      match l with
      | a :: b :: _ =>
          do x <- tocode dest a;
          match op2mark o with
          | Some m => do y <- tocode dest b; Ok ("(" ++ x ++ m ++ y ++ ")")
          | None => Err TypeError
          end
      | [a] => match op2mark o with Some m => do x <- tocode dest a; Ok ("(" ++ m ++ x ++ ")") | None => Err TypeError end
      | [] => match op2mark o with Some _ => Err IndexError | None => Err TypeError end
      end
  | DPart v m l =>
      do x <- tocode dest v; do y <- tocode dest m; do z <- tocode dest l;
      Ok (if String.eqb y z then x ++ "[" ++ y ++ "]" else x ++ "[" ++ y ++ ":" ++ z ++ "]")
  | DPtr v p => do x <- tocode dest v; do y <- tocode dest p; Ok (x ++ "[" ++ y ++ "]")
  | DConcat l => do xs <- mapM (tocode dest) l; Ok (members "{" xs ++ "}")
  | DBranch c t f =>
      do x <- match c with DNone => Ok "" | _ => do x <- tocode dest c; Ok ("(" ++ x ++ ")") end;
      do y <- arm dest t (tocode dest t);
      do z <- arm dest f (tocode dest f);
      Ok ("(" ++ x ++ "? " ++ y ++ " : " ++ z ++ ")")
  | DEval v w _ s => eval_repr v w s
  | DUndef w => Ok (width_str (Some w) ++ "'dx")
  | DHiz w => Ok (width_str (Some w) ++ "'dz")
  | DDelay _ => Err DefinitionError
  | DSys f l => do xs <- mapM (tocode dest) l; Ok (members ("$" ++ f ++ "(") xs ++ ")")
  end.
