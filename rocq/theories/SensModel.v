(** SensModel.v - model of pyverilog/dataflow/bindvisitor.py:218-280: what an always block is sensitive to.
    (AlwaysFF, AlwaysComb and AlwaysLatch have no visit method: for them none of this is called.) *)
From Verif Require Import Base ScopeModel DfModel LitModel BindModel ExprModel StmModel ConModel MachModel.
Local Open Scope string_scope.

(** bindvisitor.py:233-240 - _get_signal_name. *)
Fixpoint get_signal_name (e : expr) : option string :=
  match e with XId x => Some x | XPtr v _ => get_signal_name v | XPart v _ _ => get_signal_name v | _ => None end.

(** Python's int(text) where underscores may stand between digits, one at a time. *)
Fixpoint single_underscores (after_digit : bool) (s : string) : bool :=
  match s with
  | EmptyString => after_digit
  | String c r => if Ascii.eqb c "_" then after_digit && match r with EmptyString => false | _ => single_underscores false r end
                  else single_underscores true r
  end.
Definition int_of (s : string) : res Z := if single_underscores false s then py_int 10 (drop_underscores s) else Err ValueError.
(** bindvisitor.py:258-263 - int(l.sig.ptr.value). A Repeat has a value that is a node; other expressions have
    no value. *)
Definition bit_of (e : expr) : res Z :=
  match e with
  | XPtr _ (XInt s) => int_of s
  | XPtr _ (XRepeat _ _) => Err TypeError
  | XPtr _ _ => Err AttributeError
  | _ => Ok 0%Z
  end.
(** Sens.type. *)
Definition edge_name (k : edge) : string := match k with Posedge => "posedge" | Negedge => "negedge" | Level => "level" end.

(** The clock (or reset) found so far: name (None if it is not declared), edge and bit. *)
Record event := Event { ev_name : option chain; ev_edge : edge; ev_bit : Z }.
Record sens := Sens { se_clock : option event; se_reset : option event; se_others : list sensitem }.

Section Sens.
  Variable is_module : chain -> bool.
  Variable s : store.
  (** bindvisitor.py:253-273 - the loop. *)
  Fixpoint sens_loop (scope : chain) (l : list sensitem) (a : sens) : res sens :=
    match l with
    | [] => Ok a
    | SAll :: r => sens_loop scope r a
    | SSig k e :: r =>
        do bit <- bit_of e;
        match get_signal_name e with
        | None => Err AttributeError
        | Some x =>
            sens_loop scope r
              (if isClock x then Sens (Some (Event (searchTerminal is_module s scope x) k bit)) (se_reset a) (se_others a)
               else if isReset x then Sens (se_clock a) (Some (Event (searchTerminal is_module s scope x) k bit)) (se_others a)
               else Sens (se_clock a) (se_reset a) (se_others a ++ [SSig k e])%list)
        end
    end.
  Definition is_some {A} (o : option A) : bool := match o with Some _ => true | None => false end.
  (** bindvisitor.py:242-280 - _createAlwaysinfo. *)
  Definition createAlwaysinfo (scope : chain) (l : list sensitem) : res sens :=
    do a <- sens_loop scope l (Sens None None []);
    if is_some (se_clock a) && negb (Nat.eqb (length (se_others a)) 0) then Err FormatError
    else if is_some (se_reset a) && negb (Nat.eqb (length (se_others a)) 0) then Err FormatError
    else Ok a.
End Sens.

(** visit.py:430-433 - setAlwaysInfo. (The bit of a clock or reset that is not there is None; here 0.) *)
Definition event_name (o : option event) : cname := match o with Some (Event (Some n) _ _) => CName n | _ => CNone end.
Definition event_edge (o : option event) : option string := match o with Some v => Some (edge_name (ev_edge v)) | None => None end.
Definition event_bit (o : option event) : Z := match o with Some v => ev_bit v | None => 0%Z end.
Definition always_of (a : sens) : alwaysinfo :=
  Always (event_name (se_clock a)) (event_edge (se_clock a)) (event_bit (se_clock a))
         (event_name (se_reset a)) (event_edge (se_reset a)) (event_bit (se_reset a)).
(** visit.py:97-102 - AlwaysInfo.isResetEdge. *)
Definition always_isResetEdge (a : alwaysinfo) : bool :=
  (negb (cname_empty (reset_name a)) && edge_is (reset_edge a) "posedge")
  || (negb (cname_empty (reset_name a)) && edge_is (reset_edge a) "negedge").
