(** SrcProps.v - C61: a whole source file that is printed can be read back.
    Spec: [source_written] (what the grammar can deliver), [source_printable] (what is printed right), [split_source]
    (what is read: one declaration for each name) in SrcSpec.v. *)
From Verif Require Import Base DfModel LexModel LexSpec LexProofs ExprModel ParseModel ExprSpec StmModel StmSpec StmText StmText2 StmParse StmProps SrcModel SrcSpec SrcText SrcText2 SrcText3 SrcText4 SrcParse3 SrcFuel SrcSound.
Local Open Scope string_scope.
Local Notation "a +++ b" := (@app _ a b) (at level 60, right associativity).

Ltac ands := repeat match goal with H : _ && _ = true |- _ => apply andb_true_iff in H as [? ?] end.
Lemma existsb_none {A} (f g : A -> bool) l : Forall (fun x => g x = true -> f x = false) l -> forallb g l = true -> existsb f l = false.
Proof. induction 1 as [|x l Hx H IH]; [reflexivity|]. cbn [forallb existsb]. intros E. ands. now rewrite Hx, IH. Qed.
Lemma no_fail : forall x, jprintable x = true -> fails x = false.
Proof.
  apply (sitem_ind' (fun x => jprintable x = true -> fails x = false)); cbn [jprintable fails]; auto.
  - intros i H. destruct i as [[] l s|s]; try discriminate H; cbn [item_printable] in H; ands; now apply printable_code.
  - intros n w d s H. ands. now apply printable_code.
  - intros n d s H. ands. now apply printable_code.
  - intros l H E. ands. now apply (existsb_none fails jprintable).
  - intros c t e Ht He E. ands. rewrite Ht by assumption. destruct e as [e|]; [|reflexivity]. ands. now apply He.
  - intros pre c post b Hb E. ands. now apply Hb.
  - intros s l H E. now apply (existsb_none fails jprintable).
Qed.
Lemma source_code l : source_printable l = true -> code_source l = Ok (gen_source l).
Proof.
  intros H. unfold code_source. rewrite (existsb_none def_fails definition_printable); [reflexivity| |exact H]. apply Forall_forall. intros d _ E. destruct d as [m|n v]; [|reflexivity]. cbn [definition_printable def_fails] in *. unfold module_printable in E. ands.
  rewrite (existsb_none _ port_printable); [|apply Forall_forall; intros [] _ K; [reflexivity..|discriminate K]|assumption]. rewrite (existsb_none fails jprintable); [reflexivity| |assumption]. apply Forall_forall. intros x _. apply no_fail.
Qed.

(** ** C61 *)
Definition reads_source (text : string) (d : list definition) : Prop := exists n0, forall n, n0 <= n -> parse_source n text = Ok d.
Theorem C61_source_round_trip_partial : forall d, source_written d -> source_printable d = true -> exists text, code_source d = Ok text /\ reads_source text (split_source d).
Proof.
  intros d [HN HW] HP. exists (gen_source d). split; [now apply source_code|]. destruct (spells_lex _ _ (sp_spells _ _ (source_text d HW HP))) as (l & E1 & E2). destruct (p_definitions_ok d HN HW HP []) as (n0 & K).
  exists n0. intros n Hn. unfold parse_source. rewrite E1. cbn [bind]. rewrite E2. exact (K n Hn).
Qed.
Print Assumptions C61_source_round_trip_partial.
(** Different files (up to the splitting of declarations) have different texts. *)
Theorem C61_text_determines_source_partial : forall d e, source_written d -> source_printable d = true -> source_written e -> source_printable e = true -> code_source d = code_source e -> split_source d = split_source e.
Proof.
  intros d e W1 P1 W2 P2 E. destruct (C61_source_round_trip_partial d W1 P1) as (x1 & E1 & n1 & K1). destruct (C61_source_round_trip_partial e W2 P2) as (x2 & E2 & n2 & K2).
  specialize (K1 (Nat.max n1 n2) ltac:(lia)). specialize (K2 (Nat.max n1 n2) ltac:(lia)). congruence.
Qed.
Print Assumptions C61_text_determines_source_partial.
(** What the parser delivers can be written, so for it only what the generator prints wrong is to be excluded. *)
Theorem C61_parsed_source_partial : forall n text d, parse_source n text = Ok d -> source_written d /\ (source_printable d = true -> exists text', code_source d = Ok text' /\ reads_source text' (split_source d)).
Proof. intros n text d H. pose proof (parse_source_sound n text d H) as W. split; [exact W|]. now apply C61_source_round_trip_partial. Qed.
Print Assumptions C61_parsed_source_partial.
(** The answer of the parser does not depend on the fuel once it is enough. *)
Theorem C61_fuel : forall n m t, n <= m -> parse_source n t <> Err OutOfFuel -> parse_source m t = parse_source n t.
Proof. intros n m t H N. exact (parse_source_more n m t _ H eq_refl N). Qed.
Print Assumptions C61_fuel.

(** *** Splitting a second time changes nothing. *)
Lemma split_single m : split_item (single m) = [single m].
Proof. destruct m; reflexivity. Qed.
Lemma singles_twice l : singles (singles l) = singles l.
Proof. unfold singles. f_equal. induction (List.concat l) as [|m r IH]; [reflexivity|]. cbn. now rewrite IH. Qed.
Definition settled (x : sitem) : Prop := Forall (fun y => split_item y = [y]) (split_item x).
Lemma settled_list l : Forall (fun y => split_item y = [y]) l -> flat_map split_item l = l.
Proof. induction 1 as [|y l H1 H2 IH]; [reflexivity|]. cbn [flat_map]. now rewrite H1, IH. Qed.
Lemma settled_flat l : Forall settled l -> Forall (fun y => split_item y = [y]) (flat_map split_item l).
Proof. induction 1 as [|y l H1 H2 IH]; [constructor|]. cbn [flat_map]. apply Forall_app. auto. Qed.
Lemma settled_head x : settled x -> hd (hd x (split_item x)) (split_item (hd x (split_item x))) = hd x (split_item x).
Proof. unfold settled. destruct (split_item x) as [|y l] eqn:E; [intros _; cbn [hd]; now rewrite E|]. intros H. inversion H as [|u v H1 H2]; subst. cbn [hd]. now rewrite H1. Qed.
Lemma all_settled : forall x, settled x.
Proof.
  apply (sitem_ind' settled); unfold settled; cbn [split_item]; try (intros; constructor; [reflexivity|constructor]).
  - intros l. apply Forall_map. apply Forall_forall. intros m _. apply split_single.
  - intros n w d s. constructor; [|constructor]. cbn [split_item]. now rewrite singles_twice.
  - intros n d s. constructor; [|constructor]. cbn [split_item]. now rewrite singles_twice.
  - intros l H. constructor; [|constructor]. cbn [split_item]. now rewrite (settled_list _ (settled_flat l H)).
  - intros c t e Ht He. constructor; [|constructor]. cbn [split_item]. rewrite (settled_head t Ht). destruct e as [e|]; [|reflexivity]. now rewrite (settled_head e He).
  - intros pre c post b Hb. constructor; [|constructor]. cbn [split_item]. now rewrite (settled_head b Hb).
  - intros s l H. constructor; [|constructor]. cbn [split_item]. now rewrite (settled_list _ (settled_flat l H)).
Qed.
Theorem C61_split_once : forall d, split_source (split_source d) = split_source d.
Proof.
  intros d. unfold split_source. rewrite map_map. apply map_ext. intros [m|n v]; [|reflexivity]. unfold split_module. cbn [m_name m_params m_ports m_items]. do 2 f_equal. apply settled_list, settled_flat. apply Forall_forall. intros x _. apply all_settled.
Qed.
Print Assumptions C61_split_once.
(** *** What is read back is printed right. *)
Lemma single_printable m : member_printable m = true -> jprintable (single m) = true.
Proof. intros H. destruct m; cbn [single jprintable nonnil forallb andb] in *; rewrite ?andb_true_r; exact H. Qed.
Lemma singles_printable d : forallb (forallb member_printable) d = true -> forallb (forallb member_printable) (singles d) = true.
Proof.
  unfold singles. intros H. rewrite forallb_forall. intros l Hl. apply in_map_iff in Hl as (m & <- & Hm). apply in_concat in Hm as (k & Hk & Hm). rewrite forallb_forall in H. specialize (H k Hk). rewrite forallb_forall in H. cbn [forallb]. now rewrite (H m Hm).
Qed.
Lemma singles_nonnil d : existsb nonnil d = true -> existsb nonnil (singles d) = true.
Proof. unfold singles. induction d as [|[|m l] d IH]; [discriminate|exact IH|]. reflexivity. Qed.
(** What an item begins and ends with stays, and each part of it is printed right. *)
Definition kept (x : sitem) : Prop := jprintable x = true ->
  exists y l, split_item x = y :: l /\ starts_word y = starts_word x /\ Forall (fun z => jprintable z = true /\ one_member z = true) (y :: l) /\ match l with [] => ends_end y = ends_end x | _ => exists k, x = JDecl k end.
Lemma kept_one x y : split_item x = [y] -> starts_word y = starts_word x -> ends_end y = ends_end x -> one_member y = true -> (jprintable x = true -> jprintable y = true) -> kept x.
Proof. intros E1 E2 E3 E4 E5 H. exists y, []. split; [exact E1|]. split; [exact E2|]. split; [constructor; [auto|constructor]|exact E3]. Qed.
Lemma kept_head x : kept x -> jprintable x = true -> jprintable (hd x (split_item x)) = true /\ one_member (hd x (split_item x)) = true /\ ends_end (hd x (split_item x)) = ends_end x.
Proof.
  intros K H. destruct (K H) as (y & l & E & _ & F & M). rewrite E. cbn [hd]. inversion F as [|u v [F1 F2] _]; subst. split; [exact F1|]. split; [exact F2|]. destruct l; [exact M|]. destruct M as (k & ->). cbn [split_item] in E. destruct k as [|m k]; [discriminate E|]. injection E as <- _. destruct m; reflexivity.
Qed.
Definition leads (b : bool) (l : list sitem) : bool := match l with [] => true | y :: _ => negb (b && starts_word y) end.
Lemma apart_cons x l : apart (x :: l) = leads (ends_end x) l && apart l.
Proof. destruct l; reflexivity. Qed.
Lemma decls_apart k r : apart (map single k +++ r) = true <-> apart r = true.
Proof.
  induction k as [|m k IH]; [reflexivity|]. cbn [map app]. rewrite apart_cons. replace (leads (ends_end (single m)) (map single k +++ r)) with true; [exact IH|]. destruct m; cbn [single ends_end]; destruct (map single k +++ r); reflexivity.
Qed.
Lemma kept_list l : Forall kept l -> forallb jprintable l = true -> forallb jprintable (flat_map split_item l) = true /\ (apart l = true -> apart (flat_map split_item l) = true).
Proof.
  induction 1 as [|x l Hx H IH]; [split; reflexivity|]. cbn [forallb flat_map]. intros E. ands. destruct (IH ltac:(assumption)) as [IH1 IH2]. destruct (Hx ltac:(assumption)) as (y & k & E1 & E2 & F & M). split.
  - rewrite forallb_app, IH1, E1, andb_true_r. apply forallb_forall. intros z Hz. rewrite Forall_forall in F. exact (proj1 (F z Hz)).
  - rewrite apart_cons. intros A. ands. destruct k as [|z k].
    + rewrite E1. cbn [app]. rewrite apart_cons, (IH2 ltac:(assumption)), andb_true_r, M. destruct l as [|w l]; [reflexivity|]. inversion H as [|? ? Hw _]; subst. cbn [forallb] in *. ands. destruct (Hw ltac:(assumption)) as (y' & k' & E1' & E2' & _). cbn [flat_map]. rewrite E1'. cbn [app leads]. now rewrite E2'.
    + destruct M as (d & ->). cbn [split_item]. apply decls_apart. auto.
Qed.
Lemma all_kept : forall x, kept x.
Proof.
  apply (sitem_ind' kept); try (intros; eapply kept_one; reflexivity || auto; fail).
  - intros [|m l] H; [discriminate H|]. exists (single m), (map single l). split; [reflexivity|]. split; [destruct m; reflexivity|]. cbn [jprintable nonnil forallb] in H. ands. split; [|destruct l; [destruct m; reflexivity|eexists; reflexivity]].
    change (Forall (fun z => jprintable z = true /\ one_member z = true) (map single (m :: l))). apply Forall_map. assert (forallb member_printable (m :: l) = true) as K by (cbn [forallb]; auto with bool). rewrite forallb_forall in K. apply Forall_forall. intros z Hz. split; [apply single_printable; auto|destruct z; reflexivity].
  - intros n w d s. eapply kept_one; try reflexivity. cbn [jprintable]. intros H. ands. rewrite singles_printable, singles_nonnil by assumption. now rewrite !andb_true_r, andb_true_iff.
  - intros n d s. eapply kept_one; try reflexivity. cbn [jprintable]. intros H. ands. rewrite singles_printable by assumption. assumption.
  - intros l HL. eapply kept_one; try reflexivity. cbn [jprintable]. intros H. ands. destruct (kept_list l HL ltac:(assumption)) as [A B]. apply andb_true_iff. auto.
  - intros c t e Ht He. destruct e as [e|].
    + intros H. cbn [jprintable] in H. ands. destruct (kept_head t Ht ltac:(assumption)) as (A1 & A2 & A3). destruct (kept_head e He ltac:(assumption)) as (B1 & B2 & B3). exists (JIf c (hd t (split_item t)) (Some (hd e (split_item e)))), []. split; [reflexivity|]. split; [reflexivity|]. split; [|cbn [ends_end]; exact B3]. constructor; [|constructor]. split; [|reflexivity]. cbn [jprintable]. rewrite A1, A2, B1, B2. now rewrite !andb_true_r.
    + intros H. cbn [jprintable] in H. ands. destruct (kept_head t Ht ltac:(assumption)) as (A1 & A2 & A3). exists (JIf c (hd t (split_item t)) None), []. split; [reflexivity|]. split; [reflexivity|]. split; [|reflexivity]. constructor; [|constructor]. split; [|reflexivity]. cbn [jprintable]. rewrite A1, A2. now rewrite !andb_true_r.
  - intros pre c post b Hb H. cbn [jprintable] in H. ands. destruct (kept_head b Hb ltac:(assumption)) as (A1 & A2 & A3). exists (JFor pre c post (hd b (split_item b))), []. split; [reflexivity|]. split; [reflexivity|]. split; [|exact A3]. constructor; [|constructor]. split; [|reflexivity]. cbn [jprintable]. rewrite A1, A2. repeat (apply andb_true_iff; split); auto.
  - intros s l HL. eapply kept_one; try reflexivity. cbn [jprintable]. intros H. exact (proj1 (kept_list l HL H)).
Qed.
Lemma split_printable d : source_printable d = true -> source_printable (split_source d) = true.
Proof.
  unfold source_printable, split_source. intros H. rewrite forallb_forall in *. intros x Hx. apply in_map_iff in Hx as (y & <- & Hy). specialize (H y Hy). destruct y as [m|n v]; [|exact H]. cbn [definition_printable] in *. unfold module_printable, split_module in *. cbn [m_params m_ports m_items]. ands. rewrite (proj1 (kept_list (m_items m) ltac:(apply Forall_forall; intros; apply all_kept) ltac:(assumption))). now rewrite andb_true_r, andb_true_iff.
Qed.
(** After one round everything is settled: what was read back is printed again, and reads back as itself. *)
Theorem C61_second_round_partial : forall d, source_written d -> source_printable d = true -> exists text, code_source (split_source d) = Ok text /\ reads_source text (split_source d).
Proof.
  intros d W P. destruct (C61_source_round_trip_partial d W P) as (t & _ & n0 & K). destruct (C61_source_round_trip_partial (split_source d)) as (u & E & R).
  - exact (parse_source_sound n0 t _ (K n0 (Nat.le_refl _))).
  - now apply split_printable.
  - exists u. split; [exact E|]. now rewrite C61_split_once in R.
Qed.
Print Assumptions C61_second_round_partial.

(** A text, its tree and what is printed for it. *)
Definition text61 : string :=
  "(* top *) module top #(parameter W = 8, parameter signed [3:0] D = 2)(input clk, input [W-1:0] a, b, output reg [7:0] q, inout tri z); " ++
  "wire x, y; wire [3:0] s [0:7]; reg signed r = 1; integer i; genvar g; localparam N = W * 2; assign {x, y} = a[1:0] + b; " ++
  "always @(posedge clk) begin if(a[0]) q <= 0; else q <= q + 1; end initial begin q = 0; end " ++
  "function [7:0] f; input [7:0] u, v; begin f = u ^ v; end endfunction task t; input e; q = e; endtask (* keep = 1 *) " ++
  "sub #(.P(3), .Q(W)) u0(.clk(clk), .o()), u1[3:0](clk, q); and (x, y); " ++
  "generate wire early; for(g=0;g<4;g=g+1) begin : blk if(g == 0) begin wire p, o; end else sub v(g); end endgenerate endmodule module or(a, b); endmodule".
Example C61_hypotheses_met : exists d text text', parse_source 100 text61 = Ok d /\ source_printable d = true /\ code_source d = Ok text /\ parse_source 100 text = Ok (split_source d) /\ code_source (split_source d) = Ok text' /\ parse_source 100 text' = Ok (split_source d).
Proof. eexists _, _, _. do 5 (split; [vm_compute; reflexivity|]). vm_compute. reflexivity. Qed.
(** Here the declarations are split, and the rest stays. *)
Example C61_split_example : exists d e, parse_source 60 "module m; wire a, b; output reg q = 1; assign a = b; endmodule" = Ok d /\ parse_source 60 "module m; wire a; wire b; output q; reg q; assign q = 1; assign a = b; endmodule" = Ok e /\ split_source d = e.
Proof. eexists _, _. do 2 (split; [vm_compute; reflexivity|]). vm_compute. reflexivity. Qed.

(** *** What is printed wrong. *)
(** The text of the tree of [t] cannot be parsed, whatever the fuel. *)
Definition unreadable (t : string) : Prop := exists d u, parse_source 60 t = Ok d /\ code_source d = Ok u /\ forall n, 60 <= n -> parse_source n u = Err ParseError.
(** The text of the tree of [t] is read as if [t'] had been written, which is another file. *)
Definition becomes (t t' : string) : Prop := exists d u e, parse_source 60 t = Ok d /\ code_source d = Ok u /\ (forall n, 60 <= n -> parse_source n u = Ok e) /\ parse_source 60 t' = Ok e /\ e <> split_source d.
Definition within_module (s : string) : string := "module m(); " ++ s ++ " endmodule".
Ltac more := let n := fresh in let Hn := fresh in intros n Hn; refine (parse_source_more 60 n _ _ Hn _ _); [vm_compute; reflexivity|discriminate].
Ltac unread_src := eexists _, _; split; [vm_compute; reflexivity|]; split; [vm_compute; reflexivity|]; more.
Ltac becomes_src := eexists _, _, _; split; [vm_compute; reflexivity|]; split; [vm_compute; reflexivity|]; split; [more|]; split; [vm_compute; reflexivity|]; vm_compute; discriminate.
(** Two parameters after one "parameter" in the head of a module: the comma is lost ("parameter A = 1parameter B = 2"). *)
Theorem C61_parameters_refuted : unreadable "module m #(parameter A = 1, B = 2)(); endmodule".
Proof. unread_src. Qed.
Print Assumptions C61_parameters_refuted.
(** There every semicolon is removed, also that of an escaped name. *)
Theorem C61_parameter_name_refuted : becomes "module m #(parameter \a; = 1)(); endmodule" "module m #(parameter \a = 1)(); endmodule".
Proof. becomes_src. Qed.
Print Assumptions C61_parameter_name_refuted.
(** Two loops in one generate run together ("endfor("). *)
Theorem C61_generate_for_refuted : unreadable (within_module "generate for(i=0;i<2;i=i+1) begin wire a; end for(j=0;j<2;j=j+1) begin wire b; end endgenerate").
Proof. unread_src. Qed.
Print Assumptions C61_generate_for_refuted.
(** Of several declared names only the first is subject to the condition; with none, the next item is. *)
Theorem C61_generate_if_refuted :
  becomes (within_module "generate if(c) wire a, b; endgenerate") (within_module "generate if(c) wire a; wire b; endgenerate") /\
  becomes (within_module "generate if(c) logic a; wire b; endgenerate") (within_module "generate if(c) wire b; endgenerate").
Proof. split; becomes_src. Qed.
Print Assumptions C61_generate_if_refuted.
(** The value of an integer and the delays of an assignment are not printed. *)
Theorem C61_integer_value_refuted : becomes (within_module "integer i = 3;") (within_module "integer i;").
Proof. becomes_src. Qed.
Print Assumptions C61_integer_value_refuted.
Theorem C61_assign_delay_refuted : becomes (within_module "assign #3 a = #(2) b;") (within_module "assign a = b;").
Proof. becomes_src. Qed.
Print Assumptions C61_assign_delay_refuted.
(** Supplies are printed as "0" and "1[3:0]", a real as "real real", bounds without their blanks ("[\a:0]"). *)
Theorem C61_declarations_refuted : unreadable (within_module "supply0 g;") /\ unreadable (within_module "supply1 [3:0] g;") /\ unreadable (within_module "real x;") /\ unreadable (within_module "wire [\a :0] x;").
Proof. split; [unread_src|]. split; [unread_src|]. split; unread_src. Qed.
Print Assumptions C61_declarations_refuted.
(** *** What is read wrong. *)
(** A logic variable is dropped; a function that has only such is unreadable when it is printed. *)
Theorem C61_logic_refuted : (exists d, parse_source 60 (within_module "logic a;") = Ok d /\ parse_source 60 (within_module "logic [7:0] b;") = Ok d) /\ unreadable (within_module "function f; logic a; f = a; endfunction").
Proof. split; [eexists; split; vm_compute; reflexivity|unread_src]. Qed.
Print Assumptions C61_logic_refuted.
(** The name of a real, the type of a parameter, and a blank first argument are dropped. *)
Theorem C61_dropped_refuted : (exists d, parse_source 60 (within_module "real x;") = Ok d /\ parse_source 60 (within_module "real y;") = Ok d) /\
  (exists d, parse_source 60 (within_module "parameter integer A = 1;") = Ok d /\ parse_source 60 (within_module "parameter A = 1;") = Ok d) /\
  (exists d, parse_source 60 (within_module "sub u(, a);") = Ok d /\ parse_source 60 (within_module "sub u(a);") = Ok d).
Proof. split; [|split]; (eexists; split; vm_compute; reflexivity). Qed.
Print Assumptions C61_dropped_refuted.
(** "integer signed" fails. *)
Theorem C61_integer_signed_refuted : forall n, 60 <= n -> parse_source n (within_module "integer signed x;") = Err ValueError.
Proof. more. Qed.
Print Assumptions C61_integer_signed_refuted.
(** A port that is only a name does not take over the sign from the one before it. *)
Theorem C61_port_sign_refuted : exists d, parse_source 60 "module m(input signed [3:0] a, b); endmodule" = Ok d /\ parse_source 60 "module m(input signed [3:0] a, input [3:0] b); endmodule" = Ok d.
Proof. eexists. split; vm_compute; reflexivity. Qed.
Print Assumptions C61_port_sign_refuted.
(** After "output wire" such a port is missing: printing the tree fails, and so does reading one more port. *)
Theorem C61_output_wire_refuted : (exists d, parse_source 60 "module m(output wire a, b); endmodule" = Ok d /\ parse_source 60 "module m(output wire a, c); endmodule" = Ok d /\ code_source d = Err AttributeError) /\
  (forall n, 60 <= n -> parse_source n "module m(output wire a, b, c); endmodule" = Err AttributeError).
Proof. split; [|more]. eexists. split; [vm_compute; reflexivity|]. split; vm_compute; reflexivity. Qed.
Print Assumptions C61_output_wire_refuted.
