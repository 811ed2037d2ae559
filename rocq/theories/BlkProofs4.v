(** BlkProofs4.v - what a visited statement leaves; sequences, blocks, arms and assignments. *)
From Verif Require Import Base ScopeModel ScopeSpec ScopeProofs DfModel DfSpec DfProofs ReorderModel ReorderSpec ReorderProofs BindModel BindSpec BindProofs AsgModel AsgSpec AsgProofs AsgProofs2 BlkModel BlkSpec BlkProofs BlkProofs2 BlkProofs3.

(** Induction over statements. *)
Section StmtInd.
  Variable P : bstmt -> Prop.
  Hypothesis HA : forall n e, P (BAsg n e).
  Hypothesis HB : forall l, Forall P l -> P (BBlock l).
  Hypothesis HF : forall c t e, (forall y, t = Some y -> P y) -> (forall y, e = Some y -> P y) -> P (BIf c t e).
  Hypothesis HC : forall comp items, Forall (fun gy => forall y, snd gy = Some y -> P y) items -> P (BCase comp items).
  Fixpoint bstmt_ind' (x : bstmt) : P x :=
    let opt (o : option bstmt) : forall y, o = Some y -> P y :=
      match o with
      | None => fun y E => match E in _ = z return match z with Some _ => P y | None => True end with eq_refl => Logic.I end
      | Some z => fun y E => match E in _ = z' return match z' with Some y' => P y' | None => True end with eq_refl => bstmt_ind' z end
      end in
    match x with
    | BAsg n e => HA n e
    | BBlock l => HB l ((fix go l : Forall P l := match l with [] => Forall_nil _ | y :: r => Forall_cons _ (bstmt_ind' y) (go r) end) l)
    | BIf c t e => HF c t e (opt t) (opt e)
    | BCase comp items => HC comp items
        ((fix go l : Forall (fun gy => forall y, snd gy = Some y -> P y) l :=
            match l with [] => Forall_nil _ | gy :: r => Forall_cons _ (opt (snd gy)) (go r) end) items)
    end.
End StmtInd.

(** The parts of the fixpoints, with names. *)
Section Parts.
  Variable I : interp.
  Definition bexecs (l : list bstmt) (v : state I) : state I := fold_left (fun v y => bexec I y v) l v.
  Definition oexec (o : option bstmt) (v : state I) : state I := match o with Some y => bexec I y v | None => v end.
  Fixpoint iexec (comp : df) (l : list (option (list df) * option bstmt)) (v : state I) : state I :=
    match l with [] => v | (g, y) :: r => if label_matches (at_state I v) comp g then oexec y v else iexec comp r v end.
  Lemma exec_block l v : bexec I (BBlock l) v = bexecs l v.
  Proof. cbn [bexec]. revert v. induction l as [|y l IH]; intros v; [reflexivity|]. apply IH. Qed.
  Lemma exec_case comp l v : bexec I (BCase comp l) v = iexec comp l v.
  Proof. cbn [bexec]. induction l as [|[g y] l IH]; [reflexivity|]. cbn [iexec]. rewrite <- IH. reflexivity. Qed.
  Definition iassigns (l : list (option (list df) * option bstmt)) (n : chain) : bool := existsb (fun gy => oassigns (snd gy) n) l.
  (** Signals that are not assigned keep their values. *)
  Lemma exec_keep x n : bassigns x n = false -> forall v, bexec I x v n = v n.
  Proof.
    induction x as [m e|l IH|c t e IHt IHe|comp items IH] using bstmt_ind'; intros H v.
    - cbn [bexec bassigns] in *. unfold update, same_name in *. destruct (chain_dec m n); [discriminate|reflexivity].
    - rewrite exec_block. cbn [bassigns] in H. revert v H. induction IH as [|y l Hy _ IH]; intros v H; [reflexivity|]. cbn [existsb] in H. apply orb_false_iff in H as [H1 H2].
      cbn [bexecs fold_left]. change (bexecs l (bexec I y v) n = v n). rewrite (IH (bexec I y v) H2). now apply Hy.
    - cbn [bexec bassigns] in *. apply orb_false_iff in H as [H1 H2]. destruct (i_truth I _); [destruct t|destruct e]; auto.
    - rewrite exec_case. cbn [bassigns] in H. induction IH as [|[g y] l Hy _ IH]; [reflexivity|]. cbn [existsb snd] in *. apply orb_false_iff in H as [H1 H2]. cbn [iexec].
      destruct (label_matches _ _ _); [|now apply IH]. destruct y; [cbn [oexec]; auto|reflexivity].
  Qed.
  Lemma oexec_keep y n v : oassigns y n = false -> oexec y v n = v n.
  Proof. intros H. destruct y; [now apply exec_keep|reflexivity]. Qed.
  Lemma iexec_keep comp l n v : iassigns l n = false -> iexec comp l v n = v n.
  Proof.
    induction l as [|[g y] l IH]; [reflexivity|]. unfold iassigns in *. cbn [existsb snd iexec]. intros H. apply orb_false_iff in H as [H1 H2].
    destruct (label_matches _ _ _); [now apply oexec_keep|now apply IH].
  Qed.
End Parts.
Section Parts2.
  Variable k : nat.
  Variable array : chain -> bool.
  Notation bvisit := (bvisit k array).
  Fixpoint bvisits (s : bst) (u : btable) (r : list bframe) (l : list bstmt) : res (bst * btable) :=
    match l with [] => Ok (s, u) | y :: l' => do q <- bvisit s None u r y; bvisits (fst q) (snd q) r l' end.
  Definition ovisit (s : bst) (c : option (df * bool)) (r : list bframe) (y : option bstmt) : res (bst * btable) :=
    match y with None => Ok (s, []) | Some y => bvisit s c [] r y end.
  Fixpoint ivisit (comp : df) (s : bst) (r : list bframe) (l : list (option (list df) * option bstmt)) : res (bst * list btable) :=
    match l with
    | [] => Ok (s, [])
    | (g, y) :: l' =>
        do cnd <- item_cond comp g;
        do q1 <- ovisit s (Some (cnd, true)) r y;
        match l' with
        | [] => Ok (fst q1, [snd q1])
        | _ => do q2 <- ivisit comp (fst q1) (BFrame (Some (cnd, false)) [] :: r) l'; Ok (fst q2, snd q1 :: [] :: snd q2)
        end
    end.
  Lemma visit_block s c t r l : bvisit s c t r (BBlock l) = do q <- bvisits s [] (BFrame c t :: r) l; Ok (copy_table (fst q) t (snd q)).
  Proof.
    cbn [BlkModel.bvisit]. f_equal. generalize (@nil (chain * entry)) as u. revert s. induction l as [|y l IH]; intros s u; [reflexivity|]. cbn [bvisits].
    destruct (bvisit s None u (BFrame c t :: r) y) as [q|e]; [|reflexivity]. cbn [bind]. apply IH.
  Qed.
  Lemma visit_case s c t r comp l : bvisit s c t r (BCase comp l) = do q <- ivisit comp s (BFrame c t :: r) l; Ok (copy_tables (fst q) t (snd q)).
  Proof.
    cbn [BlkModel.bvisit]. f_equal. generalize (BFrame c t :: r) as fs. revert s. induction l as [|[g y] l IH]; intros s fs; [reflexivity|]. cbn [ivisit].
    destruct (item_cond comp g) as [cnd|e]; [|reflexivity]. cbn [bind]. unfold ovisit.
    destruct (match y with None => Ok (s, []) | Some y0 => bvisit s (Some (cnd, true)) [] fs y0 end) as [q1|e]; [|reflexivity]. cbn [bind].
    destruct l as [|gy l]; [reflexivity|]. now rewrite (IH (fst q1) (BFrame (Some (cnd, false)) [] :: fs)).
  Qed.
End Parts2.
Fixpoint bflows (l : list bstmt) (w : env) : option env := match l with [] => Some w | y :: r => obind (bflow y w) (bflows r) end.
Definition oflow (y : option bstmt) (w : env) : option env := match y with Some y => bflow y w | None => Some w end.
Fixpoint iflow (l : list (option (list df) * option bstmt)) (w : env) : option env :=
  match l with [] => Some w | (_, y) :: r => obind (match y with Some y => bflow y (enter (fun _ => false) w) | None => Some w end) (fun _ => iflow r (enter (oassigns y) w)) end.
Lemma flow_block l w : bflow (BBlock l) w = bflows l w.
Proof. cbn [bflow]. revert w. induction l as [|y l IH]; intros w; [reflexivity|]. cbn [bflows]. destruct (bflow y w); [apply IH|reflexivity]. Qed.
Lemma flow_case comp l w : bflow (BCase comp l) w =
  if readable w (bassigns (BCase comp l)) comp && forallb (fun gy => match fst gy with Some ws => forallb (readable w (bassigns (BCase comp l))) ws | None => true end) l
  then obind (iflow l w) (fun _ => Some (leave (bassigns (BCase comp l)) w)) else None.
Proof. reflexivity. Qed.
