(** StmSpec.v - which statements can be written down in Verilog, and which the generator prints right. *)
From Verif Require Import Base DfModel LexModel ExprModel ExprSpec StmModel.
Local Open Scope string_scope.

Definition ident (s : string) : Prop := simple_id s \/ escaped_id s.
Definition opt {A} (p : A -> Prop) (x : option A) : Prop := match x with Some x => p x | None => True end.
Definition optb {A} (p : A -> bool) (x : option A) : bool := match x with Some x => p x | None => true end.

(** ** What can be written *)
(** What can be assigned: an identifier, an element, a part, or a concatenation of such. *)
Inductive target : expr -> Prop :=
| t_id s : target (XId s)
| t_ptr v p : target (XPtr v p)
| t_part v m l : target (XPart v m l)
| t_concat l : Forall target l -> target (XConcat l).
Definition asg_written (a : asg) : Prop :=
  written (a_left a) /\ target (a_left a) /\ written (a_right a) /\ opt written (a_ldelay a) /\ opt written (a_rdelay a).
(** Events: edges of identifiers or elements, or changes of identifiers, elements or parts, or any change. *)
Definition edge_written (x : sensitem) : Prop := match x with SSig (Posedge | Negedge) e => written e /\ indexable e | _ => False end.
Definition level_written (x : sensitem) : Prop :=
  match x with SSig Level e => written e /\ match e with XId _ | XPtr _ _ | XPart _ _ _ => True | _ => False end | _ => False end.
Definition sens_written (l : list sensitem) : Prop :=
  l = [SAll] \/ l <> [] /\ (Forall edge_written l \/ Forall level_written l).
(** The statement ends with an if without else: an else that follows would be its. *)
Fixpoint open_if (s : stm) : bool :=
  match s with
  | TIf _ _ None => true
  | TIf _ _ (Some e) => open_if e
  | TFor _ _ _ b | TWhile _ b | TForever b | TWait _ (Some b) => open_if b
  | _ => false
  end.
(** The last statement of an if, and that of an always, must not be a for, while, event, wait, forever or fork: the
    parser fails on those (Verilog does not). *)
Definition may_end (s : stm) : Prop := match s with TFor _ _ _ _ | TWhile _ _ | TEvent _ | TWait _ _ | TForever _ | TPar _ _ => False | _ => True end.
Fixpoint swritten (s : stm) : Prop :=
  match s with
  | TAsg _ a => asg_written a
  | TIf c t e => written c /\ swritten t /\ match e with None => may_end t | Some e => open_if t = false /\ swritten e /\ may_end e end
  | TFor pre c post b => opt asg_written pre /\ opt written c /\ opt asg_written post /\ swritten b
  | TWhile c b => written c /\ swritten b
  | TCase k comp items =>
      k <> KUnique /\ written comp /\ items <> [] /\
      (fix all (l : list (option (list expr) * stm)) : Prop :=
         match l with [] => True | (c, b) :: r => opt (fun c => c <> [] /\ Forall written c) c /\ swritten b /\ all r end) items
  | TBlock scope l => opt ident scope /\ (fix all (l : list stm) : Prop := match l with [] => True | x :: r => swritten x /\ all r end) l
  | TPar scope l => scope = None /\ (fix all (l : list stm) : Prop := match l with [] => True | x :: r => swritten x /\ all r end) l
  | TEvent l => sens_written l
  | TWait c b => written c /\ match b with Some b => swritten b | None => True end
  | TForever b => swritten b
  | TDelay e => written e
  | TSys f l => written (XSys f l)
  | TDisable s => ident s
  | TUnique => True
  end.
Definition item_written (i : item) : Prop := match i with IAlways _ l s => sens_written l /\ swritten s /\ may_end s | IInitial s => swritten s end.

(** ** What the generator prints right. Not: casez, unique case (which the parser does not deliver whole) and disable; a for without initialisation; a for in
    whose head blanks matter; a delay of an assignment other than a name, a number or something that gets parentheses;
    unprintable expressions. *)
Definition delay_printable (d : expr) : bool := printable d && match d with XId _ | XInt _ | XUn _ _ | XBin _ _ _ | XCond _ _ _ => true | _ => false end.
Definition asg_printable (a : asg) : bool :=
  printable (a_left a) && printable (a_right a) && optb delay_printable (a_ldelay a) && optb delay_printable (a_rdelay a).
Definition is_none {A} (x : option A) : bool := match x with None => true | Some _ => false end.
Definition for_printable (a : asg) : bool :=
  printable (a_left a) && blank_free (a_left a) && printable (a_right a) && blank_free (a_right a) && is_none (a_ldelay a) && is_none (a_rdelay a).
Definition sens_printable (x : sensitem) : bool := match x with SAll => true | SSig _ e => printable e end.
Fixpoint sprintable (s : stm) : bool :=
  match s with
  | TAsg _ a => asg_printable a
  | TIf c t e => printable c && sprintable t && match e with None => true | Some e => sprintable e end
  | TFor pre c post b => negb (is_none pre) && optb for_printable pre && optb (fun c => printable c && blank_free c) c && optb for_printable post && sprintable b
  | TWhile c b => printable c && sprintable b
  | TCase k comp items =>
      match k with KCase | KCasex => true | _ => false end && printable comp && forallb (fun i => optb (forallb printable) (fst i) && sprintable (snd i)) items
  | TBlock _ l | TPar _ l => forallb sprintable l
  | TEvent l => forallb sens_printable l
  | TWait c b => printable c && match b with Some b => sprintable b | None => true end
  | TForever b => sprintable b
  | TDelay e => printable e
  | TSys f l => printable (XSys f l)
  | TDisable _ | TUnique => false
  end.
Definition item_printable (i : item) : bool :=
  match i with IAlways KAlways l s => forallb sens_printable l && sprintable s | IAlways _ _ _ => false | IInitial s => sprintable s end.
