(** RngModel.v - model of pyverilog/controlflow/active_range.py: what can be done with the conditions the analyzer
    reports: asking whether values satisfy them, splitting them by a signal, and printing them. *)
From Verif Require Import Base ScopeModel BindModel LitModel ActiveModel.
Local Open Scope string_scope.

(** active_range.py:534-536 - ActiveCondition: termdict. (Nothing here changes a term, so terms are kept by value.) *)
Definition cond := ndict aterm.

(** active_range.py:527-531 - ActiveTerm.satisfy. Comparing with None raises TypeError: when it is reached, or when ranges are
    sorted by a None. *)
Fixpoint any_range (l : list rng) (x : Z) : res bool :=
  match l with
  | [] => Ok false
  | (None, _) :: _ => Err TypeError
  | (Some a, b) :: r =>
      if (a <=? x)%Z then match b with
                          | None => Err TypeError
                          | Some b => if (x <=? b)%Z then Ok true else any_range r x
                          end
      else any_range r x
  end.
Definition no_min (r : rng) : bool := match fst r with None => true | Some _ => false end.
Definition min_leb (p q : rng) : bool := match fst p, fst q with Some a, Some b => (a <=? b)%Z | _, _ => true end.
Definition term_satisfy (t : aterm) (x : Z) : res bool :=
  match a_ranges t with
  | _ :: _ :: _ => if existsb no_min (a_ranges t) then Err TypeError else any_range (sort_by min_leb (a_ranges t)) x
  | l => any_range l x
  end.
(** active_range.py:651-657 - ActiveCondition.satisfy: the values given. *)
Fixpoint cond_satisfy (d : cond) (values : list (chain * Z)) : res bool :=
  match values with
  | [] => Ok true
  | (n, x) :: r =>
      match dget d n with
      | None => cond_satisfy d r
      | Some t => do b <- term_satisfy t x; if b then cond_satisfy d r else Ok false
      end
  end.

(** active_range.py:522-525, 631-635 - include. *)
Definition term_include (t : aterm) (n : chain) : bool := chain_eq n (a_name t).
Definition cond_include (d : cond) (n : chain) : bool := existsb (fun p => term_include (snd p) n) d.
(** active_range.py:681-685 - ActiveConditionList.include. *)
Definition list_include (l : list cond) (n : chain) : bool := existsb (fun d => cond_include d n) l.
(** active_range.py:637-649 - split: the terms of the signal, and the others. *)
Definition cond_split (d : cond) (n : chain) : cond * cond :=
  (filter (fun p => term_include (snd p) n) d, filter (fun p => negb (term_include (snd p) n)) d).

(** Python's s[:-2]. *)
Definition chop (s : string) : string := String.substring 0 (String.length s - 2) s.
Definition bound_str (b : option Z) : string := match b with None => "None" | Some z => py_str z end.
(** active_range.py:492-502 - ActiveTerm.tocode. *)
Definition range_code (n : string) (r : rng) : string :=
  "(" ++ bound_str (fst r) ++ "<=" ++ n ++ match snd r with None => "" | Some b => "&&" ++ n ++ "<=" ++ py_str b end ++ ")" ++ "||".
Definition term_code (t : aterm) : string :=
  chop (fold_left (fun s r => s ++ range_code (toFlatname (a_name t)) r) (a_ranges t) "(") ++ ")".
(** active_range.py:558-565 - ActiveCondition.tocode. *)
Definition cond_code (d : cond) : string :=
  match d with
  | [] => "1"
  | _ => chop (fold_left (fun s p => s ++ term_code (snd p) ++ "&&") d "(") ++ ")"
  end.
