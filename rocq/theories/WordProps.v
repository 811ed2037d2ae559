(** WordProps.v - C78. *)
From Verif Require Import Base ScopeModel DfModel DfSpec ReorderModel BindModel BindSpec AsgModel PartsModel PartsSpec WordModel WordSpec WordProofs.
Local Open Scope list_scope.

(** C78: after any number of assignments to words of a memory, whose indices are any expressions, the tree that a read of a word gets is the value
    assigned last to that word, or the earlier word: in every interpretation of the signals, operators and memories in which no index expression
    that is used again shares the word that is read with another index expression. *)
Theorem C78_words_read_partial : forall m ai ws p,
  Forall (fun w => index_ok (k_index w)) ws -> p <> DNone ->
  exists t, read_word_after m (map (word_bind m ai) ws) p = Ok t /\
    forall I, undisturbed I ws p -> eval I t = word_value I ws p (eval I (DPtr (DTerm m) p)).
Proof.
  intros m ai ws p Hws Hp. destruct (wnotes m ai ws [] (Forall_nil _) Hws) as [E1 K]. destruct (over_ok m ai p Hp _ (DPtr (DTerm m) p) K) as (t & E2 & E3).
  exists t. split. { unfold read_word_after. cbn [map] in E1. rewrite E1. cbn [bind]. exact E2. }
  intros I HU. rewrite E3. apply (wupds_value I p ws [] []); auto; [constructor|reflexivity].
Qed.
Print Assumptions C78_words_read_partial.

(** With different index expressions, no interpretation is left out. *)
Theorem C78_different_words_read : forall m ai ws p,
  Forall (fun w => index_ok (k_index w)) ws -> NoDup (map k_index ws) -> p <> DNone ->
  exists t, read_word_after m (map (word_bind m ai) ws) p = Ok t /\ forall I, eval I t = word_value I ws p (eval I (DPtr (DTerm m) p)).
Proof.
  intros m ai ws p Hws HD Hp. destruct (C78_words_read_partial m ai ws p Hws Hp) as (t & E & H). exists t. split; [exact E|]. intros I. apply H.
  intros i w (pre & u & post & -> & <- & Hi). exfalso. rewrite map_app in HD. cbn [map] in HD. apply NoDup_remove_2 in HD. apply HD. rewrite in_app_iff. now left.
Qed.
Print Assumptions C78_different_words_read.

(** ** Where the full property fails *)
Local Open Scope string_scope.
Definition g78 (s : string) : chain := [Label "top" STmodule None; Label s STsignal None].
Definition n78 (c : chain) : string := match c with [_; l] => sname l | _ => "" end.
(** Values are strings; a signal s holds [v s]; the memory's word at index x was "old". *)
Definition i78 (v : string -> string) : interp :=
  {| dom := string; i_none := "none"; i_term := fun c => v (n78 c); i_const := fun _ => "const";
     i_op := fun o l => match o, l with Eq, [a; b] => if String.eqb a b then "1" else "0" | _, _ => "other" end;
     i_part := fun v _ _ => v; i_ptr := fun _ _ => "old"; i_concat := fun _ => ""; i_delay := fun x => x; i_sys := fun _ _ => "";
     i_truth := fun s => String.eqb s "1" |}.
(** The indices i, j, k hold 3; every other signal holds its own name. *)
Definition v78 (s : string) : string := if orb (String.eqb s "i") (orb (String.eqb s "j") (String.eqb s "k")) then "3" else s.
Definition wo (i s : string) : word_write := WordWrite (DTerm (g78 i)) (g78 s).
Definition t78 (s : string) : df := DTerm (g78 s).
(** m[i] = a; m[j] = b; m[i] = c; y = m[k]; with i = j = k reads b. *)
Theorem C78_reused_index_refuted : exists t, read_word_after (g78 "m") (map (word_bind (g78 "m") None) [wo "i" "a"; wo "j" "b"; wo "i" "c"]) (t78 "k") = Ok t /\
  word_value (i78 v78) [wo "i" "a"; wo "j" "b"; wo "i" "c"] (t78 "k") "old" = "c" /\ eval (i78 v78) t = "b".
Proof. eexists. split; [reflexivity|]. split; reflexivity. Qed.
Print Assumptions C78_reused_index_refuted.
(** if (c) m[i] = a; y = m[k]; with i = k and c false reads no value, not the earlier word. *)
Theorem C78_conditional_refuted : exists tr t, insert DNone [(t78 "c", true)] (t78 "a") = Ok tr /\
  read_word_after (g78 "m") [Bind tr (g78 "m") DNone DNone (t78 "i") None "blocking"] (t78 "k") = Ok t /\
  i_truth (i78 v78) (eval (i78 v78) (t78 "c")) = false /\ eval (i78 v78) (DPtr (DTerm (g78 "m")) (t78 "k")) = "old" /\ eval (i78 v78) t = "none".
Proof. eexists _, _. split; [reflexivity|]. split; [reflexivity|]. repeat split. Qed.
Print Assumptions C78_conditional_refuted.
(** m[i][3:0] = a; y = m[k]; with i = k reads a alone, as the whole word. *)
Theorem C78_part_of_word_refuted : forall ai, exists t,
  read_word_after (g78 "m") [Bind (t78 "a") (g78 "m") (num 3%Z) (num 0%Z) (t78 "i") ai "blocking"] (t78 "k") = Ok t /\
  eval (i78 v78) t = "a".
Proof. intros ai. eexists. split; reflexivity. Qed.
Print Assumptions C78_part_of_word_refuted.
(** i = r (held by the added signal r); m[i] = a; y = m[i]: the assignment goes to the word of the earlier i, the read is from the word of the new i. With an
    earlier i of 3 and a new one of 4 (the value of r), the earlier word is read. *)
Theorem C78_changed_index_refuted : exists p t,
  index_read (fun t => Ok t) (num 7%Z) (num 0%Z) (g78 "i") [Bind (t78 "r") (g78 "i") DNone DNone DNone None "blocking"] = Ok p /\
  read_word_after (g78 "m") (map (word_bind (g78 "m") None) [WordWrite (index_written (g78 "i")) (g78 "a")]) p = Ok t /\
  p = t78 "r" /\ word_value (i78 v78) [WordWrite (t78 "r") (g78 "a")] p "old" = "a" /\ eval (i78 v78) t = "old".
Proof. eexists _, _. split; [reflexivity|]. split; [reflexivity|]. repeat split. Qed.
Print Assumptions C78_changed_index_refuted.

(** ** Examples *)
(** m[i] = a; m[j+1] = b; m[i] = c; y = m[k]; with i = k = 3, and j + 1 another word, reads c. *)
Definition j1 : df := DOp [t78 "j"; DInt "1"] Plus.
Definition ws78 : list word_write := [wo "i" "a"; WordWrite j1 (g78 "b"); wo "i" "c"].
Example C78_hypotheses_met : Forall (fun w => index_ok (k_index w)) ws78 /\ undisturbed (i78 v78) ws78 (t78 "k") /\ t78 "k" <> DNone /\
  (exists t, read_word_after (g78 "m") (map (word_bind (g78 "m") None) ws78) (t78 "k") = Ok t /\ eval (i78 v78) t = "c") /\
  NoDup (map k_index [wo "i" "a"; WordWrite j1 (g78 "b")]).
Proof.
  split; [|split; [|split; [discriminate|split; [eexists; split; reflexivity|]]]].
  - repeat (constructor; [split; [discriminate|split; reflexivity]|]). constructor.
  - intros i w (pre & u & post & E & <- & Hi) Hw Ne _. destruct pre as [|a [|b [|c pre]]].
    + destruct Hi.
    + injection E as <- <- _. cbn in Hi. destruct Hi as [K|[]]; discriminate.
    + injection E as <- <- <- _. unfold ws78 in Hw. cbn in Hw. destruct Hw as [<-|[<-|[<-|[]]]]; [exfalso; apply Ne; reflexivity|reflexivity|exfalso; apply Ne; reflexivity].
    + injection E as _ _ _ E. destruct pre; discriminate.
  - cbn. constructor; [cbn; intros [K|[]]; discriminate|]. constructor; [intros []|constructor].
Qed.
