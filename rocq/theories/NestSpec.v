(** NestSpec.v - begin-end blocks do not matter to what a word holds. *)
From Verif Require Import Base ScopeModel DfModel DfSpec BindModel BindSpec WordSpec NestModel.
Local Open Scope list_scope.

(** The values of the reads, one after the other: a read gets what the assignments before it have left. *)
Fixpoint answers (I : interp) (m : chain) (before : list word_write) (l : list (event word_write)) : list (dom I) :=
  match l with
  | [] => []
  | EPut w :: r => answers I m (before ++ [w]) r
  | ELook p :: r => word_value I before p (eval I (DPtr (DTerm m) p)) :: answers I m before r
  | _ :: r => answers I m before r
  end.
(** The assignments. *)
Fixpoint puts (l : list (event word_write)) : list word_write := match l with [] => [] | EPut w :: r => w :: puts r | _ :: r => puts r end.
Definition to_bind (m : chain) (ai : option alwaysinfo) (e : event word_write) : event bind_ :=
  match e with EOpen => EOpen | EClose => EClose | EPut w => EPut (word_bind m ai w) | ELook p => ELook p end.
(** begin and end match, at depth d. *)
Fixpoint balanced (d : nat) (l : list (event word_write)) : Prop :=
  match l with
  | [] => True
  | EOpen :: r => balanced (S d) r
  | EClose :: r => match d with S d' => balanced d' r | O => False end
  | EPut _ :: r => balanced d r
  | ELook p :: r => p <> DNone /\ balanced d r
  end.
(** Which of the open blocks have assignments in them (innermost first); where a word is read, at most one has. *)
Fixpoint sole (s : list bool) (l : list (event word_write)) : Prop :=
  match l with
  | [] => True
  | EOpen :: r => sole (false :: s) r
  | EClose :: r => match s with c :: d :: s' => sole ((c || d)%bool :: s') r | _ => False end
  | EPut _ :: r => match s with _ :: s' => sole (true :: s') r | [] => False end
  | ELook _ :: r => (length (filter (fun b => b) s) <= 1)%nat /\ sole s r
  end.
