(** NestProps.v - C79. *)
From Verif Require Import Base ScopeModel DfModel DfSpec ReorderModel BindModel BindSpec AsgModel PartsModel PartsSpec PartsProps WordModel WordSpec WordProofs WordProps NestModel NestSpec NestProofs.
Local Open Scope list_scope.

(** C79: in any nesting of begin-end blocks, all reads get trees whose values are what the assignments before them have left, if where a word is read
    only one of the blocks that are open has assignments to the memory in it: in every interpretation in which no index expression that is used again
    shares a word that is read with another index expression (C78). Reads outside of all blocks are among them: what has been assigned in blocks that
    have ended is there. *)
Theorem C79_nested_reads_partial : forall m ai l,
  balanced 0 l -> sole [false] l -> Forall (fun w => index_ok (k_index w)) (puts l) ->
  exists ts, run m [[]] (map (to_bind m ai) l) = Ok ts /\
    forall I, (forall p, In (ELook p) l -> undisturbed I (puts l) p) -> map (eval I) ts = answers I m [] l.
Proof. intros m ai l HB HS HP. apply (run_right m ai l [[]]); auto; [repeat constructor|discriminate]. Qed.
Print Assumptions C79_nested_reads_partial.

(** With different index expressions, no interpretation is left out. *)
Theorem C79_different_words_read_partial : forall m ai l,
  balanced 0 l -> sole [false] l -> Forall (fun w => index_ok (k_index w)) (puts l) -> NoDup (map k_index (puts l)) ->
  exists ts, run m [[]] (map (to_bind m ai) l) = Ok ts /\ forall I, map (eval I) ts = answers I m [] l.
Proof.
  intros m ai l HB HS HP HD. destruct (C79_nested_reads_partial m ai l HB HS HP) as (ts & E & H). exists ts. split; [exact E|]. intros I. apply H.
  intros p _ i w (pre & u & post & K & <- & Hi). exfalso. rewrite K, map_app in HD. cbn [map] in HD. apply NoDup_remove_2 in HD. apply HD. rewrite in_app_iff. now left.
Qed.
Print Assumptions C79_different_words_read_partial.

(** In any nesting, with any index expressions, every read gets one tree. *)
Theorem C79_reads_answered : forall m ai l,
  balanced 0 l -> Forall (fun w => index_ok (k_index w)) (puts l) ->
  exists ts, run m [[]] (map (to_bind m ai) l) = Ok ts /\ length ts = length (filter (fun e => match e with ELook _ => true | _ => false end) l).
Proof. intros m ai l HB HP. apply (run_total m ai l [[]]); auto; [repeat constructor|discriminate]. Qed.
Print Assumptions C79_reads_answered.

(** ** Where the full property fails *)
Local Open Scope string_scope.
(** m[i] = a; begin m[j+1] = b; y = m[k]; end with i = k and another word j + 1 reads the earlier word; after the end, m[k] is a. *)
Definition ev79 : list (event word_write) := [EPut (wo "i" "a"); EOpen; EPut (WordWrite j1 (g78 "b")); ELook (t78 "k"); EClose; ELook (t78 "k")].
Theorem C79_outer_words_lost_refuted : balanced 0 ev79 /\ NoDup (map k_index (puts ev79)) /\
  exists ts, run (g78 "m") [[]] (map (to_bind (g78 "m") None) ev79) = Ok ts /\ map (eval (i78 v78)) ts = ["old"; "a"] /\ answers (i78 v78) (g78 "m") [] ev79 = ["a"; "a"].
Proof.
  split; [cbn; repeat split; discriminate|]. split.
  - cbn. constructor; [cbn; intros [K|[]]; discriminate|]. constructor; [intros []|constructor].
  - eexists. split; [reflexivity|]. split; reflexivity.
Qed.
Print Assumptions C79_outer_words_lost_refuted.

(** x[7:4] = a; begin x[3:0] = b; y = x; end of a signal x[7:0]: only the inner part is read, in 4 bits; after the end both are. *)
Theorem C79_outer_parts_lost_refuted :
  let inner := write_bind (g77 "x") None (Write 3 0 (g77 "b")) in let outer := write_bind (g77 "x") None (Write 7 4 (g77 "a")) in
  exists t u l, removeOverwrapped (fun t => Ok t) (num 7) (num 0) (g77 "x") (nearest [[inner]; [outer]]) [] = Ok t /\
    notes [outer] [inner] = Ok l /\ removeOverwrapped (fun t => Ok t) (num 7) (num 0) (g77 "x") (nearest [l]) [] = Ok u /\
    forall value, concatenates value -> holds_width value (Write 3 0 (g77 "b")) -> holds_width value (Write 7 4 (g77 "a")) -> length (value t) = 4%nat /\ length (value u) = 8%nat.
Proof.
  intros inner outer. eexists _, _, _. split; [vm_compute; reflexivity|]. split; [vm_compute; reflexivity|]. split; [vm_compute; reflexivity|].
  intros value HC Hb Ha. unfold holds_width, g77 in Ha, Hb. cbn [w_msb w_lsb w_held] in Ha, Hb. rewrite !HC. cbn [rev map concat app]. rewrite ?app_length. cbn [length]. split; lia.
Qed.
Print Assumptions C79_outer_parts_lost_refuted.

(** ** Examples *)
(** m[i] = a; begin begin y = m[k]; end end begin m[j+1] = b; end y = m[k]; *)
Definition ok79 : list (event word_write) := [EPut (wo "i" "a"); EOpen; EOpen; ELook (t78 "k"); EClose; EClose; EOpen; EPut (WordWrite j1 (g78 "b")); EClose; ELook (t78 "k")].
Example C79_hypotheses_met : balanced 0 ok79 /\ sole [false] ok79 /\ Forall (fun w => index_ok (k_index w)) (puts ok79) /\ NoDup (map k_index (puts ok79)) /\
  answers (i78 v78) (g78 "m") [] ok79 = ["a"; "a"].
Proof.
  split; [cbn; repeat split; discriminate|]. split; [cbn; repeat split; repeat constructor|]. split; [|split; [|reflexivity]].
  - cbn. repeat (constructor; [split; [discriminate|split; reflexivity]|]). constructor.
  - cbn. constructor; [cbn; intros [K|[]]; discriminate|]. constructor; [intros []|constructor].
Qed.
(** begin m[i] = a; end m[j+1] = b; begin m[i] = c; y = m[k]; end needs the first block's entries (sole fails: two frames); with the read after the end it is fine. *)
Definition re79 : list (event word_write) := [EOpen; EPut (wo "i" "a"); EClose; EPut (WordWrite j1 (g78 "b")); EOpen; EPut (wo "i" "c"); EClose; ELook (t78 "k")].
Example C79_reused_hypotheses_met : balanced 0 re79 /\ sole [false] re79 /\ Forall (fun w => index_ok (k_index w)) (puts re79) /\
  (forall p, In (ELook p) re79 -> undisturbed (i78 v78) (puts re79) p) /\ ~ NoDup (map k_index (puts re79)) /\ answers (i78 v78) (g78 "m") [] re79 = ["c"].
Proof.
  destruct C78_hypotheses_met as (H1 & H2 & _).
  split; [cbn; repeat split; discriminate|]. split; [cbn; repeat split; repeat constructor|]. split; [exact H1|]. split; [|split; [|reflexivity]].
  - intros p Hp. cbn in Hp. repeat (destruct Hp as [Hp|Hp]; [try discriminate; injection Hp as <-; exact H2|]). destruct Hp.
  - cbn. intros H. inversion H as [|? ? K _]. apply K. right. now left.
Qed.
