(** ResolveModel.v - model of VerilogDataflowOptimizer.resolveConstant
    (pyverilog/dataflow/optimizer.py:992-1032): parameters are resolved to values. *)
From Verif Require Import Base ScopeModel DfModel BindModel OptModel WalkModel.

(** sorted(d.items(), key=lambda x: len(x[0])): by the number of name components; stable. *)
Definition by_depth {V} (d : ndict V) : ndict V := sort_by (fun a b => (length (fst a) <=? length (fst b))%nat) d.

(** optimizer.py:997, 1003 *)
Definition is_parameter (t : term) : bool := isType (t_type t) "Parameter" || isType (t_type t) "Localparam".

Section Resolve.
  Variable k : nat.                                 (* recursion depth of optimizeConstant *)
  Variable terms : ndict term.

  (** optimizer.py:994-999 and 1001-1006 - one pass over the assignments. self.constlist is
      updated while the pass runs. *)
  Fixpoint resolve_pass (l : ndict (list bind_)) (C : ndict df) : res (ndict df) :=
    match l with
    | [] => Ok C
    | (n, bs) :: r =>
        match dget terms n with
        | None => Err KeyError
        | Some t =>
            if is_parameter t then
              match bs with
              | [] => Err IndexError
              | b :: _ => do v <- optC (OptEnv terms C) k (b_tree b); resolve_pass r (if isEval v then dset C n v else C)
              end
            else resolve_pass r C
        end
    end.
  (** optimizer.py:993-1006 *)
  Definition constants (binds : ndict (list bind_)) : res (ndict df) :=
    do C <- resolve_pass (by_depth binds) []; resolve_pass (by_depth binds) C.
  (** optimizer.py:1008-1016 - resolved_binddict. *)
  Definition resolve_bind (C : ndict df) (n : chain) (b : bind_) : bind_ :=
    match dget C n with
    | Some v => Bind v (b_dest b) (b_msb b) (b_lsb b) (b_ptr b) (b_always b) (b_param b)
    | None => b
    end.
  Definition resolved_binds (C : ndict df) (binds : ndict (list bind_)) : ndict (list bind_) :=
    map (fun p => (fst p, map (resolve_bind C (fst p)) (snd p))) binds.
  (** optimizer.py:1018-1032 - resolved_terms. *)
  Definition resolve_term (C : ndict df) (t : term) : res term :=
    do m <- optC (OptEnv terms C) k (t_msb t);
    do l <- optC (OptEnv terms C) k (t_lsb t);
    do d <- match t_dims t with
            | None => Ok None
            | Some ds => do ds' <- mapM (fun lr => do x <- optC (OptEnv terms C) k (fst lr); do y <- optC (OptEnv terms C) k (snd lr); Ok (x, y)) ds; Ok (Some ds')
            end;
    Ok (Term (t_name t) (t_type t) m l d).
  Definition resolved_terms (C : ndict df) : res (ndict term) := mapM (fun p => do t <- resolve_term C (snd p); Ok (fst p, t)) terms.
  (** optimizer.py:992-1032 - resolveConstant: constants, resolved declarations and assignments. *)
  Definition resolveConstant (binds : ndict (list bind_)) : res (ndict df * ndict term * ndict (list bind_)) :=
    do C <- constants binds; do ts <- resolved_terms C; Ok (C, ts, resolved_binds C binds).
End Resolve.
