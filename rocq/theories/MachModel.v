(** MachModel.v - model of pyverilog/controlflow/controlflow_analyzer.py:39-117 (extraction of
    finite state machines), controlflow/splitter.py:40-63 (removal of reset conditions),
    utils/signaltype.py:66-84 and the tostr methods of dataflow/dataflow.py. *)
From Verif Require Import Base ScopeModel DfModel LitModel SplitModel TransModel FsmModel.
Local Open Scope Z_scope.

(** ** tostr *)

(** The class names stored in DFOperator.operator (vparser/ast.py). *)
Definition op_name (o : op) : string :=
  match o with
  | Uplus => "Uplus" | Uminus => "Uminus" | Ulnot => "Ulnot" | Unot => "Unot" | Uand => "Uand"
  | Unand => "Unand" | Uor => "Uor" | Unor => "Unor" | Uxor => "Uxor" | Uxnor => "Uxnor"
  | Power => "Power" | Times => "Times" | Divide => "Divide" | Mod => "Mod" | Plus => "Plus"
  | Minus => "Minus" | Sll => "Sll" | Srl => "Srl" | Sla => "Sla" | Sra => "Sra"
  | LessThan => "LessThan" | GreaterThan => "GreaterThan" | LessEq => "LessEq"
  | GreaterEq => "GreaterEq" | Eq => "Eq" | NotEq => "NotEq" | Eql => "Eql" | NotEql => "NotEql"
  | And => "And" | Xor => "Xor" | Xnor => "Xnor" | Or => "Or" | Land => "Land" | Lor => "Lor"
  end%string.

(** for n in xs: ret += n + sep *)
Fixpoint each (sep : string) (xs : list string) : string :=
  match xs with [] => EmptyString | x :: r => (x ++ sep ++ each sep r)%string end.

(** dataflow.py:511-512, 557-558, 592-593: the width is written unless it is 32. *)
Definition width_str (w : option Z) : string :=
  match w with None => "None" | Some z => if (z =? 32)%Z then "" else py_str z end%string.

(** dataflow.py:87-91, 125-127, 149-151, 194-196, 206-208, 232-238, 277-283, 325-330, 363-369,
    405-414, 505-517, 555-561, 590-596, 620-625, 654-662 - tostr. None has no tostr. A float
    payload is not modelled; comparing None or a string with 0 is a TypeError. *)
Fixpoint tostr (t : df) : res string :=
  match t with
  | DNone => Err AttributeError
  | DTerm n => Ok (drop_last ("(Terminal " ++ each "." (map label_repr n)) ++ ")")%string
  | DInt s => Ok ("(IntConst " ++ s ++ ")")%string
  | DFloat s => Ok ("(FloatConst " ++ s ++ ")")%string
  | DStr s => Ok ("(StringConst " ++ s ++ ")")%string
  | DOp l o => do xs <- mapM tostr l;
               Ok (drop_last ("(Operator " ++ op_name o ++ " Next:" ++ each "," xs) ++ ")")%string
  | DPart v m l => do a <- tostr v; do b <- tostr m; do c <- tostr l;
                   Ok ("(Partselect Var:" ++ a ++ " MSB:" ++ b ++ " LSB:" ++ c ++ ")")%string
  | DPtr v p => do a <- tostr v; do b <- tostr p;
                Ok ("(Pointer Var:" ++ a ++ " PTR:" ++ b ++ ")")%string
  | DConcat l => do xs <- mapM tostr l; Ok (drop_last ("(Concat Next:" ++ each "," xs) ++ ")")%string
  | DBranch c a b =>
      do x <- (if is_none c then Ok "" else do s <- tostr c; Ok (" Cond:" ++ s))%string;
      do y <- (if is_none a then Ok "" else do s <- tostr a; Ok (" True:" ++ s))%string;
      do z <- (if is_none b then Ok "" else do s <- tostr b; Ok (" False:" ++ s))%string;
      Ok ("(Branch" ++ x ++ y ++ z ++ ")")%string
  | DEval (PStr s) _ _ true => Ok s
  | DEval (PInt v) w _ false =>
      Ok ((if (v <? 0)%Z then "(-" else "") ++ width_str w ++ "'d" ++ py_str (Z.abs v) ++
          (if (v <? 0)%Z then ")" else ""))%string
  | DEval (PFloat _) _ _ _ => Err Unmodelled
  | DEval (PInt _) _ _ true => Err Unmodelled                 (* the payload is not a str *)
  | DEval _ _ _ _ => Err TypeError
  | DUndef w => Ok (width_str (Some w) ++ "'dx")%string
  | DHiz w => Ok (width_str (Some w) ++ "'dz")%string
  | DDelay x => if is_none x then Ok "(Delay )"%string else do s <- tostr x; Ok ("(Delay " ++ s ++ ")")%string
  | DSys f l => do xs <- mapM tostr l;
                Ok (drop_last ("(Syscall " ++ f ++ " Next:" ++ each "," xs) ++ ")")%string
  end.

(** ** signaltype.py:66-84 - isClock, isReset. *)

(** str.lower (of the letters A-Z; characters above 127 cannot be part of a match). *)
Definition lower_char (c : ascii) : ascii :=
  let n := nat_of_ascii c in if ((65 <=? n) && (n <=? 90))%nat then ascii_of_nat (n + 32) else c.
Fixpoint lower (s : string) : string :=
  match s with EmptyString => EmptyString | String c r => String (lower_char c) (lower r) end.
(** re.search of a pattern without special characters. *)
Fixpoint search (p s : string) : bool :=
  prefix p s || match s with EmptyString => false | String _ r => search p r end.
Definition isClock (s : string) : bool := existsb (fun p => search p (lower s)) ["clk"; "clock"]%string.
Definition isReset (s : string) : bool := existsb (fun p => search p (lower s)) ["reset"; "rst"]%string.

(** ** splitter.py:50-63 - remove_reset_condlist, _remove_reset_cond. A node is always true in a
    Python condition (`if r`). *)
Definition remove_reset_cond (c : df) : res (option df) :=
  do s <- tostr c; Ok (if isReset s then None else Some c).
Fixpoint remove_reset_condlist (cs : list df) : res (list df) :=
  match cs with
  | [] => Ok []
  | c :: r => do o <- remove_reset_cond c; do l <- remove_reset_condlist r;
              Ok (match o with Some x => x :: l | None => l end)
  end.
(** splitter.py:40-47 - remove_reset_condition. *)
Fixpoint strip_all (d acc : funcdict) : res funcdict :=
  match d with
  | [] => Ok acc
  | (k, f) :: r => do k' <- remove_reset_condlist k; do acc' <- dict_set acc k' f; strip_all r acc'
  end.
Definition remove_reset_condition (d : funcdict) : res funcdict :=
  do n <- strip_all d [];
  Ok (if existsb (fun p => (length (fst p) =? 0)%nat) n && (1 <? length n)%nat
      then List.filter (fun p => negb (length (fst p) =? 0)%nat) n else n).

(** ** controlflow_analyzer.py *)
Section Analyzer.
  (** The tree of a register (makeTree, controlflow_analyzer.py:110-116: getTree, walkTree,
      reorder, optimize and replaceUndefined are modelled elsewhere), whether it is renamed, whether
      it is clocked (getTermtype/isRename, isClockEdge), its width (getWidth, 101-108), whether its
      name is one of an FSM register (isFsmVar, 95-99: a regular expression), and the optimizer. *)
  Variable makeTree : chain -> res df.
  Variable is_rename is_clocked : chain -> res bool.
  Variable getWidth : chain -> res Z.
  Variable isFsmVar : chain -> bool.
  Variable optimize : df -> res df.

  (** controlflow_analyzer.py:80-93 - getFuncdict. Recursion by fuel. *)
  Fixpoint getFuncdict (fuel : nat) (tn : chain) (delaycnt : Z) : res (funcdict * Z) :=
    match fuel with
    | O => Err OutOfFuel
    | S k =>
        do rn <- is_rename tn;
        do ce <- is_clocked tn;
        if negb ce then Ok ([], 0)                                              (* 82-83 *)
        else if rn then Ok ([], 0)                                              (* 84-85 *)
        else
          do tree <- makeTree tn;
          do d <- split tree;
          do d' <- remove_reset_condition d;
          match d' with
          | [([], DTerm next)] => getFuncdict k next (delaycnt + 1)             (* 89-92 *)
          | _ => Ok (d', delaycnt)
          end
    end.

  (** controlflow_analyzer.py:64-78 - the loop of getFiniteStateMachine. The value of a function is
      an int; other payloads are not modelled. *)
  Definition nodes_of (r : sres) : list snode :=
    match r with SNone => [] | SOne n => [n] | SList l => l end.
  Fixpoint construct_all (m : machine) (dst : Z) (l : list snode) : res machine :=
    match l with
    | [] => Ok m
    | n :: r => do m' <- construct m dst n; construct_all m' dst r
    end.
  Fixpoint machine_loop (d : funcdict) (tn : chain) (w : Z) (m : machine) : res machine :=
    match d with
    | [] => Ok m
    | (cs, DEval v _ _ _) :: r =>
        do node <- walkCondlist cs tn w;
        do m' <- match nodes_of node, v with
                 | [], _ => Ok m
                 | l, PInt z => construct_all m z l
                 | _, _ => Err Unmodelled
                 end;
        machine_loop r tn w m'
    | _ :: r => machine_loop r tn w m                                           (* 69-70 *)
    end.
  Definition len_leb (a b : list df * df) : bool := (length (fst a) <=? length (fst b))%nat.
  (** controlflow_analyzer.py:62-78 - getFiniteStateMachine. *)
  Definition getFiniteStateMachine (tn : chain) (d : funcdict) : res machine :=
    if (length d =? 0)%nat then Ok (Machine [] [])
    else do w <- getWidth tn; machine_loop (sort_by len_leb d) tn w (Machine [] []).

  (** controlflow_analyzer.py:131-137 - size. *)
  Definition size (m : machine) : Z :=
    fold_left (fun n p => n + Z.of_nat (length (snd p))) (m_fsm m) 0
    + Z.of_nat (length (m_fsm m)) * Z.of_nat (length (m_any m)).

  (** controlflow_analyzer.py:48-60 - getFiniteStateMachines; [names] are the keys of
      resolved_binddict (distinct, so the result gets one entry per name). *)
  Fixpoint getFiniteStateMachines (fuel : nat) (names : list chain) : res (list (chain * (machine * Z))) :=
    match names with
    | [] => Ok []
    | tn :: r =>
        if negb (isFsmVar tn) then getFiniteStateMachines fuel r
        else
          do fd <- getFuncdict fuel tn 0;
          do m <- getFiniteStateMachine tn (fst fd);
          if 0 <? size m
          then do m' <- resolve optimize m;
               do l <- getFiniteStateMachines fuel r; Ok ((tn, (m', snd fd)) :: l)
          else getFiniteStateMachines fuel r
    end.
End Analyzer.
