(** PreModel.v - model of pyverilog/vparser/preprocessor.py: the inputs, the command and the files
    of the external preprocessor. *)
From Verif Require Import Base VisitModel.

(** Results of operations that raise OSError (FileNotFoundError, PermissionError, ...). *)
Inductive io (A : Type) := Done (a : A) | OSError.
Arguments Done {A} a.
Arguments OSError {A}.

(** Files by path. Simplification: directories, permissions and open descriptors are not modelled. *)
Definition files := list (string * string).
Definition remove (p : string) (s : files) : files := filter (fun x => negb (String.eqb (fst x) p)) s.
(** os.remove raises FileNotFoundError if there is no such file. *)
Definition os_remove (p : string) (s : files) : io files := match sget s p with Some _ => Done (remove p s) | None => OSError end.
(** os.path.isfile *)
Definition isfile (s : files) (p : string) : bool := match sget s p with Some _ => true | None => false end.

(** The argument filelist: a tuple or list, or a string. preprocessor.py:34-35: list(filelist) of a
    string is the list of its characters. *)
Inductive sources := Several (l : list string) | Single (s : string).
Fixpoint characters (s : string) : list string := match s with EmptyString => [] | String c r => String c EmptyString :: characters r end.
Definition source_list (f : sources) : list string := match f with Several l => l | Single s => characters s end.

Section Pre.
  Variable mkstemp : files -> io string.            (* tempfile.mkstemp: a new path *)
  Variable tool : list string -> files -> io files. (* subprocess.call: the command and its effect *)

  Record pre := Pre { p_files : list string; p_temps : list string }.
  (** preprocessor.py:46-57 - the loop over the sources. *)
  Fixpoint collect (l : list string) (s : files) (p : pre) : files * io pre :=
    match l with
    | [] => (s, Done p)
    | x :: r =>
        if isfile s x then collect r s (Pre (p_files p ++ [x]) (p_temps p))
        else match mkstemp s with
             | OSError => (s, OSError)
             | Done t => collect r (sset s t x) (Pre (p_files p) (p_temps p ++ [t]))
             end
    end.
  (** preprocessor.py:32-89 - VerilogPreprocessor.__init__: the command self.iv + self.filelist
      (preprocessor.py:92) and the temporary files. *)
  Definition options (flag : string) (l : option (list string)) : list string := flat_map (fun x => [flag; x]) (match l with Some l => l | None => [] end).
  Definition command (env_iverilog : option string) (include define : option (list string)) (output : string) (inputs : list string) : list string :=
    (match env_iverilog with Some i => i | None => "iverilog"%string end) :: options "-I" include ++ options "-D" define ++ ["-E"; "-o"; output]%string ++ inputs.
  Fixpoint remove_all (l : list string) (s : files) : files * io unit :=
    match l with [] => (s, Done tt) | t :: r => match os_remove t s with OSError => (s, OSError) | Done s' => remove_all r s' end end.
  (** What is done, with the files there are when it ends or fails. *)
  Definition outcome := (files * io (list string * list string))%type.
  (** VerilogPreprocessor(...).preprocess() (preprocessor.py:91-97): command and temporary files. *)
  Definition preprocess_run (env_iverilog : option string) (include define : option (list string)) (output : string) (f : sources) (s : files) : outcome :=
    match collect (source_list f) s (Pre [] []) with
    | (s1, OSError) => (s1, OSError)
    | (s1, Done p) =>
        let cmd := command env_iverilog include define output (p_files p ++ p_temps p) in
        match tool cmd s1 with
        | OSError => (s1, OSError)
        | Done s2 => match remove_all (p_temps p) s2 with
                   | (s3, OSError) => (s3, OSError)
                   | (s3, Done _) => (s3, Done (cmd, p_temps p))
                   end
        end
    end.
  (** preprocessor.py:100-110 - preprocess(); also parser.py:2341-2345, VerilogCodeParser.preprocess. *)
  Definition preprocess (env_iverilog : option string) (include define : option (list string)) (output : string) (f : sources) (s : files) : files * io string :=
    match preprocess_run env_iverilog include define output f s with
    | (s1, OSError) => (s1, OSError)
    | (s1, Done _) => match sget s1 output with
                    | None => (s1, OSError)
                    | Some text => match os_remove output s1 with Done s2 => (s2, Done text) | OSError => (s1, OSError) end
                    end
    end.
End Pre.
