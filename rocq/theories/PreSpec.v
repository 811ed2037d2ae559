(** PreSpec.v - what the external preprocessor is given. *)
From Verif Require Import Base VisitModel PreModel.

(** mkstemp makes paths that no file has and that are no source. *)
Definition makes_new (mkstemp : files -> io string) (srcs : list string) : Prop :=
  forall s t, mkstemp s = Done t -> sget s t = None /\ ~ In t srcs.
(** The sources that are names of files, and the texts. *)
Definition file_sources (s : files) (l : list string) : list string := filter (isfile s) l.
Definition text_sources (s : files) (l : list string) : list string := filter (fun x => negb (isfile s x)) l.
(** The inputs in the order of the sources: names of files as they are, texts as their temporary
    file. *)
Inductive in_order (s s1 : files) : list string -> list string -> Prop :=
| io_nil : in_order s s1 [] []
| io_file x l r : isfile s x = true -> in_order s s1 l r -> in_order s s1 (x :: l) (x :: r)
| io_text x t l r : isfile s x = false -> sget s1 t = Some x -> in_order s s1 l r -> in_order s s1 (x :: l) (t :: r).
