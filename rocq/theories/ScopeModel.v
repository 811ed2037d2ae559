(** ScopeModel.v - model of pyverilog/utils/scope.py and the name helpers of
    pyverilog/utils/util.py. *)
From Verif Require Import Base.
Local Open Scope string_scope.

(** utils/scope.py:15-18 - scopetype_list. Scope kinds are strings in the code, checked
    against this list by the constructor (lines 24-25), hence an enumeration. *)
Inductive scopetype :=
| STgenerate | STalways | STfunction | STtask | STtaskcall | STinitial | STfor | STwhile | STif
| STmodule | STblock | STsignal | STfunctioncall
| STany.

Definition scopetype_eqb (a b : scopetype) : bool :=
  match a, b with
  | STgenerate, STgenerate | STalways, STalways | STfunction, STfunction | STtask, STtask
  | STtaskcall, STtaskcall | STinitial, STinitial | STfor, STfor | STwhile, STwhile
  | STif, STif | STmodule, STmodule | STblock, STblock | STsignal, STsignal
  | STfunctioncall, STfunctioncall | STany, STany => true
  | _, _ => false
  end.

(** utils/scope.py:15-16 - scopetype_list_unprint. *)
Definition unprintable (t : scopetype) : bool :=
  match t with
  | STgenerate | STalways | STfunction | STtask | STtaskcall | STinitial | STfor | STwhile
  | STif => true
  | _ => false
  end.

(** utils/scope.py:21-27 - class ScopeLabel. [scopeloop] is None or a loop index. *)
Record label := Label { sname : string; stype : scopetype; sloop : option Z }.

(** utils/scope.py:62-66 - ScopeChain: a list of labels. *)
Definition chain := list label.

Definition loop_eqb : option Z -> option Z -> bool := opt_eqb Z.eqb.

(** utils/scope.py:43-49 - ScopeLabel.__eq__. *)
Definition label_eq (a b : label) : bool :=
  if scopetype_eqb (stype a) STany || scopetype_eqb (stype b) STany
  then String.eqb (sname a) (sname b) && loop_eqb (sloop a) (sloop b)
  else String.eqb (sname a) (sname b) && scopetype_eqb (stype a) (stype b)
       && loop_eqb (sloop a) (sloop b).

(** utils/scope.py:54-56 - ScopeLabel.__hash__ : a function of (scopename, scopeloop).
    The model gives the tuple that is hashed; Python's [hash] is a function of it. *)
Definition label_hash (a : label) : string * option Z := (sname a, sloop a).

(** utils/scope.py:120-123 - ScopeChain.__eq__ : list equality, element-wise __eq__. *)
Definition chain_eq (a b : chain) : bool := list_eqb label_eq a b.

(** utils/scope.py:128-129 - ScopeChain.__hash__ : hash of the tuple of labels. *)
Definition chain_hash (a : chain) : list (string * option Z) := map label_hash a.

(** Decimal printing, Python's [str(int)]. *)
Definition digit_char (d : Z) : ascii := ascii_of_nat (48 + Z.to_nat d).
Fixpoint pos_digits (fuel : nat) (z : Z) (acc : string) : string :=
  match fuel with
  | O => acc
  | S f => let acc' := String (digit_char (z mod 10)) acc in
           if (z / 10 =? 0)%Z then acc' else pos_digits f (z / 10) acc'
  end.
Definition nat_str (z : Z) : string :=   (* z >= 0 *)
  pos_digits (S (Z.to_nat (Z.log2 z))) z "".
Definition z_str (z : Z) : string :=
  if (z <? 0)%Z then "-" ++ nat_str (- z) else nat_str z.

(** utils/scope.py:29-36 - ScopeLabel.__repr__. *)
Definition label_repr (l : label) : string :=
  sname l ++ match sloop l with None => "" | Some i => "[" ++ z_str i ++ "]" end.

(** Python's s[:-1]: all but the last character (the empty string stays empty). *)
Fixpoint drop_last (s : string) : string :=
  match s with
  | EmptyString => EmptyString
  | String c EmptyString => EmptyString
  | String c r => String c (drop_last r)
  end.

(** utils/scope.py:109-115 - ScopeChain.__repr__ : labels, each followed by '.', last
    character dropped. *)
Definition chain_repr (c : chain) : string :=
  drop_last (fold_left (fun acc l => acc ++ label_repr l ++ ".") c "").

(** utils/scope.py:38-41 - ScopeLabel.tocode. *)
Definition label_tocode (l : label) : string :=
  if unprintable (stype l) then "" else sname l.

(** utils/scope.py:84-104 - ScopeChain.tocode. The loop over the labels builds a list of
    strings [ret] and carries the pending loop index [it]; [removelast] is ret[:-1]. *)
Definition nonempty (s : string) : bool := match s with EmptyString => false | _ => true end.
Fixpoint tocode_items (c : chain) (it : option string) : list string :=
  match c with
  | [] => []
  | s :: rest =>
      let l := label_tocode s in
      (if nonempty l then [l] else []) ++
      (match it with Some i => [i] | None => [] end) ++
      (if nonempty l then ["_"] else []) ++
      tocode_items rest
        (match stype s, sloop s with
         | STfor, Some i => Some ("_" ++ z_str i ++ "_")%string
         | _, _ => None
         end)
  end%list.
Definition chain_tocode (c : chain) : string :=
  String.concat "" (removelast (tocode_items c None)).

(** utils/util.py:49-54 - toFlatname. *)
Definition toFlatname (c : chain) : string := chain_tocode c.

(** Python's s.split('.'). *)
Fixpoint split_dot (s : string) (cur : string) : list string :=
  match s with
  | EmptyString => [cur]
  | String c r => if Ascii.eqb c "."%char then cur :: split_dot r "" else split_dot r (cur ++ String c "")
  end.

(** utils/util.py:28-42 - toTermname_str, toTermname_list : every component gets scope kind 'any'. *)
Definition toTermname_list (l : list string) : chain := map (fun n => Label n STany None) l.
Definition toTermname_str (s : string) : chain := toTermname_list (split_dot s "").

(** utils/util.py:45-46 - getScope : termname[:-1]. *)
Definition getScope (c : chain) : chain := removelast c.
(** utils/util.py:67-70 - isTopmodule. *)
Definition isTopmodule (c : chain) : bool := (length c =? 1)%nat.

(** utils/scope.py:106-107 - get_module_list. *)
Definition get_module_list (c : chain) : list label :=
  filter (fun l => scopetype_eqb (stype l) STmodule) c.

(** utils/scope.py:68-76 - ScopeChain.__add__ : a new chain, the operand unchanged. *)
Definition chain_add_label (c : chain) (l : label) : chain := (c ++ [l])%list.
Definition chain_add (c d : chain) : chain := (c ++ d)%list.
