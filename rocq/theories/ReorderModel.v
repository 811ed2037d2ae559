(** ReorderModel.v - model of pyverilog/dataflow/reorder.py and pyverilog/dataflow/replace.py. *)
From Verif Require Import Base ScopeModel DfModel.

(** dataflow/reorder.py:88-91 - insertBranch. *)
Fixpoint insertBranch (base truenode falsenode : df) : df :=
  match base with
  | DBranch c t f => DBranch c (insertBranch t truenode falsenode) (insertBranch f truenode falsenode)
  | _ => DBranch base truenode falsenode
  end.

(** First element that is a DFBranch, with the elements before and after it - the loops of
    dataflow/reorder.py:109-115 and 120-126 (donenodes, n, restnodes). *)
Fixpoint split_branch (l : list df) : option (list df * (df * df * df) * list df) :=
  match l with
  | [] => None
  | DBranch c t f :: rest => Some ([], (c, t, f), rest)
  | x :: rest => match split_branch rest with
                 | Some (d, b, r) => Some (x :: d, b, r)
                 | None => None
                 end
  end.

(** dataflow/reorder.py:108-116 - insertOpList (fuel: depth of the recursion). *)
Fixpoint insertOpList (fuel : nat) (nextnodes : list df) (o : op) : res df :=
  match fuel with
  | O => Err OutOfFuel
  | S k => match split_branch nextnodes with
           | Some (done, (c, t, f), rest) =>
               do t' <- insertOpList k (done ++ [t] ++ rest) o;
               do f' <- insertOpList k (done ++ [f] ++ rest) o;
               Ok (DBranch c t' f')
           | None => mkOp nextnodes o
           end
  end.

(** dataflow/reorder.py:119-127 - insertConcat. *)
Fixpoint insertConcat (fuel : nat) (nextnodes : list df) : res df :=
  match fuel with
  | O => Err OutOfFuel
  | S k => match split_branch nextnodes with
           | Some (done, (c, t, f), rest) =>
               do t' <- insertConcat k (done ++ [t] ++ rest);
               do f' <- insertConcat k (done ++ [f] ++ rest);
               Ok (DBranch c t' f')
           | None => Ok (DConcat nextnodes)
           end
  end.

(** dataflow/reorder.py:130-135 - insertPartselect. *)
Fixpoint insertPartselect (var msb lsb : df) : df :=
  match var with
  | DBranch c t f => DBranch c (insertPartselect t msb lsb) (insertPartselect f msb lsb)
  | DNone => DNone
  | _ => DPart var msb lsb
  end.

(** dataflow/reorder.py:138-143 - insertPointer. *)
Fixpoint insertPointer (var ptr : df) : df :=
  match var with
  | DBranch c t f => DBranch c (insertPointer t ptr) (insertPointer f ptr)
  | DNone => DNone
  | _ => DPtr var ptr
  end.

(** dataflow/reorder.py:18-83 - reorder (fuel: depth of the recursion). The raise at line 63
    and the final raise at line 83 name exception classes that the module does not import,
    so both surface as NameError. *)
Fixpoint reorder (fuel : nat) (tree : df) : res df :=
  match fuel with
  | O => Err OutOfFuel
  | S k =>
    match tree with
    | DNone => Ok DNone                                                       (* 19 *)
    | DInt _ | DFloat _ | DStr _ => Ok tree                                   (* 21 *)
    | DTerm _ => Ok tree                                                      (* 23 *)
    | DEval _ _ _ _ => Ok tree                                                (* 25 *)
    | DUndef _ => Ok tree                                                     (* 27 *)
    | DHiz _ => Ok tree                                                       (* 29 *)
    | DBranch c t f =>                                                        (* 32-38 *)
        do t' <- reorder k t;
        do f' <- reorder k f;
        do c' <- reorder k c;
        match c' with
        | DBranch _ _ _ => Ok (insertBranch c' t' f')
        | _ => Ok (DBranch c' t' f')
        end
    | DOp l o =>                                                              (* 40-47 *)
        do l' <- mapM (reorder k) l;
        if existsb isBranch l' then insertOpList k l' o else mkOp l' o
    | DConcat l =>                                                            (* 49-56 *)
        do l' <- mapM (reorder k) l;
        if existsb isBranch l' then insertConcat k l' else Ok (DConcat l')
    | DPart v m l =>                                                          (* 58-66 *)
        do m' <- reorder k m;
        do l' <- reorder k l;
        do v' <- reorder k v;
        if isBranch m' || isBranch l' then Err NameError
        else match v' with
             | DBranch _ _ _ => Ok (insertPartselect v' m' l')
             | _ => Ok (DPart v' m' l')
             end
    | DPtr v p =>                                                             (* 68-78 *)
        do p' <- reorder k p;
        do v' <- reorder k v;
        match p' with
        | DBranch c t f =>
            do a <- reorder k (DPtr v' t);
            do b <- reorder k (DPtr v' f);
            Ok (DBranch c a b)
        | _ => match v' with
               | DBranch _ _ _ => Ok (insertPointer v' p')
               | _ => Ok (DPtr v' p')
               end
        end
    | DDelay t => do t' <- reorder k t; Ok (DDelay t')                        (* 80 *)
    | DSys _ _ => Err NameError                                               (* 83 *)
    end
  end.

(** dataflow/replace.py:17-53 - replaceUndefined. The final raise (high impedance, delay,
    system call) names an unimported class: NameError. Rebuilding an operator re-runs the
    DFOperator constructor check. *)
Fixpoint replaceUndefined (tree : df) (termname : chain) : res df :=
  match tree with
  | DNone => Ok (DTerm termname)                                              (* 18 *)
  | DUndef _ => Ok (DTerm termname)                                           (* 20 *)
  | DInt _ | DFloat _ | DStr _ => Ok tree                                     (* 23 *)
  | DEval _ _ _ _ => Ok tree                                                  (* 25 *)
  | DTerm _ => Ok tree                                                        (* 27 *)
  | DBranch c t f =>                                                          (* 29 *)
      do c' <- replaceUndefined c termname;
      do t' <- replaceUndefined t termname;
      do f' <- replaceUndefined f termname;
      Ok (DBranch c' t' f')
  | DOp l o =>                                                                (* 34 *)
      do l' <- mapM (fun n => replaceUndefined n termname) l; mkOp l' o
  | DPart v m l =>                                                            (* 39 *)
      do m' <- replaceUndefined m termname;
      do l' <- replaceUndefined l termname;
      do v' <- replaceUndefined v termname;
      Ok (DPart v' m' l')
  | DPtr v p =>                                                               (* 44 *)
      do p' <- replaceUndefined p termname;
      do v' <- replaceUndefined v termname;
      Ok (DPtr v' p')
  | DConcat l =>                                                              (* 48 *)
      do l' <- mapM (fun n => replaceUndefined n termname) l; Ok (DConcat l')
  | DHiz _ | DDelay _ | DSys _ _ => Err NameError                             (* 53 *)
  end.
