(** SrcSound.v - every tree the parser delivers is the tree of a Verilog source file. *)
From Verif Require Import Base DfModel LexModel LexSpec LexProofs ExprModel ParseModel ExprSpec ExprLex ExprSound StmModel StmSpec StmText2 StmParse2 StmParse3 StmSound SrcModel SrcSpec SrcText2 SrcParse3.
Local Open Scope string_scope.
Local Notation "a +++ b" := (@app _ a b) (at level 60, right associativity).

Definition sat {A} (x : res A) (Q : A -> Prop) : Prop := forall a, x = Ok a -> Q a.
Definition gives {A} (x : res (A * list token)) (Q : A -> Prop) : Prop := sat x (fun p => Q (fst p) /\ valids (snd p)).
Lemma sat_err {A} e (Q : A -> Prop) : sat (Err e) Q.
Proof. intros a H. discriminate H. Qed.
Lemma sat_bind {A B} (x : res A) (f : A -> res B) Q R : sat x Q -> (forall a, Q a -> sat (f a) R) -> sat (bind x f) R.
Proof. intros H1 H2 b H. apply bind_ok in H as (a & E & H). exact (H2 a (H1 a E) b H). Qed.
Lemma sat_expect {B} p l (f : list token -> res B) R : valids l -> (forall r, valids r -> sat (f r) R) -> sat (bind (expect p l) f) R.
Proof. intros V H. apply (sat_bind _ _ valids); [|exact H]. intros r E. exact (expect_valid _ _ _ E V). Qed.
Lemma gives_ok {A} (a : A) r (Q : A -> Prop) : Q a -> valids r -> gives (Ok (a, r)) Q.
Proof. intros H V b E. injection E as <-. split; [exact H|exact V]. Qed.
Lemma gives_of {A} (x : res (A * list token)) (Q : A -> Prop) : (forall a r, x = Ok (a, r) -> Q a /\ valids r) -> gives x Q.
Proof. intros H [a r] E. exact (H a r E). Qed.
Lemma gives_bind {A B} (x : res (A * list token)) (f : A * list token -> res (B * list token)) (Q : A -> Prop) (R : B -> Prop) : gives x Q -> (forall a r, Q a -> valids r -> gives (f (a, r)) R) -> gives (bind x f) R.
Proof. intros H1 H2. apply (sat_bind _ _ _ _ H1). intros [a r] [HA HV]. exact (H2 a r HA HV). Qed.
Lemma gives_expect {B} p l (f : list token -> res (B * list token)) (R : B -> Prop) : valids l -> (forall r, valids r -> gives (f r) R) -> gives (bind (expect p l) f) R.
Proof. apply sat_expect. Qed.
Lemma gives_imp {A} (x : res (A * list token)) (Q R : A -> Prop) : gives x Q -> (forall a, Q a -> R a) -> gives x R.
Proof. intros H K a E. destruct (H a E) as [H1 H2]. split; [now apply K|exact H2]. Qed.
Lemma gives_err {A} e (Q : A -> Prop) : gives (Err e) Q.
Proof. apply sat_err. Qed.
Ltac vals := repeat match goal with H : Forall tvalid (_ :: _) |- _ => inversion H; clear H; subst end.
Lemma s_expr n l : valids l -> gives (p_expr n l) written.
Proof. intros V. apply gives_of. intros e r. now apply p_expr_sound. Qed.
Lemma s_delays n l : valids l -> gives (p_delays n l) (opt written).
Proof. intros V. apply gives_of. intros e r. now apply delays_sound. Qed.
Lemma s_lvalue n l : valids l -> gives (p_lvalue n l) (fun e => written e /\ target e).
Proof. intros V. apply gives_of. intros e r E. destruct (lvalue_sound n l e r V E) as (A & B & C). auto. Qed.
Lemma s_paren n l : valids l -> gives (p_paren n l) written.
Proof. intros V. apply gives_of. intros e r. now apply paren_sound. Qed.
Lemma s_forpre n l : valids l -> gives (p_forpre n l) (opt asg_written).
Proof. intros V. apply gives_of. intros e r. now apply forpre_sound. Qed.
Lemma s_forcond n l : valids l -> gives (p_forcond n l) (opt written).
Proof. intros V. apply gives_of. intros e r. now apply forcond_sound. Qed.
Lemma s_forpost n l : valids l -> gives (p_forpost n l) (opt asg_written).
Proof. intros V. apply gives_of. intros e r. now apply forpost_sound. Qed.
Lemma s_id l : valids l -> gives (p_id l) ident.
Proof. intros V. destruct l as [|[p|s|s|s|s|k s] l]; try apply gives_err. vals. now apply gives_ok. Qed.
Ltac gb L := refine (gives_bind _ _ _ _ L _); [auto|intros ? ? ? ?; cbn [fst snd] in *]; vals.
Ltac gx := apply gives_expect; [assumption|intros ? ?].
Lemma s_range n l : valids l -> gives (p_range n l) range_written.
Proof. intros V. unfold p_range. gx. refine (gives_bind _ _ _ _ (s_expr n _ H) _). intros a r1 W1 V1. cbn [fst snd]. gx. refine (gives_bind _ _ _ _ (s_expr n _ H0) _). intros b r2 W2 V2. cbn [fst snd]. gx. apply gives_ok; [split; assumption|assumption]. Qed.
Lemma s_range_opt n l : valids l -> gives (p_range_opt n l) (opt range_written).
Proof.
  intros V. assert (gives (Ok (None, l)) (opt range_written)) as K by (apply gives_ok; [exact I|exact V]). destruct l as [|[p|s|s|s|s|k s] l]; try exact K. destruct p; try exact K.
  unfold p_range_opt. refine (gives_bind _ _ _ _ (s_range n _ V) _). intros w r W1 V1. now apply gives_ok.
Qed.
Lemma Forall_snoc {A} (Q : A -> Prop) l x : Forall Q l -> Q x -> Forall Q (l +++ [x]).
Proof. intros H1 H2. apply Forall_app. split; [exact H1|]. constructor; [exact H2|constructor]. Qed.
Lemma s_dims n : forall acc l, Forall range_written acc -> valids l -> gives (p_dims n acc l) (Forall range_written).
Proof.
  induction n as [|n IH]; intros acc l HA V; [apply gives_err|]. cbn [p_dims]. assert (gives (Ok (acc, l)) (Forall range_written)) as K by now apply gives_ok. destruct l as [|[p|s|s|s|s|k s] l]; try exact K. destruct p; try exact K.
  refine (gives_bind _ _ _ _ (s_range n _ V) _). intros w r W1 V1. cbn [fst snd]. apply IH; [now apply Forall_snoc|exact V1].
Qed.
Notation good_members := (Forall member_written).
Lemma sigtypes_valid l : valids l -> valids (snd (p_sigtypes l)).
Proof. induction l as [|t l IH]; intros V; [exact V|]. cbn [p_sigtypes]. destruct (sigtype t); [|exact V]. cbn [snd]. apply IH. now inversion V. Qed.
Lemma s_create_decl sg n w dims : ident n -> opt range_written w -> Forall range_written dims -> sat (create_decl sg n w dims) good_members.
Proof.
  intros H1 H2 H3. unfold create_decl. destruct (decl_error sg dims); [apply sat_err|]. intros l E. injection E as <-. repeat (apply Forall_app; split); match goal with |- Forall _ (if ?b then _ else _) => destruct b end; constructor; cbn; auto; constructor.
Qed.
Lemma s_create_declassign sg n w e : ident n -> opt range_written w -> written e -> sat (create_declassign sg n w e) good_members.
Proof.
  intros H1 H2 H3. unfold create_declassign. destruct (declassign_error sg); [apply sat_err|]. intros l E. injection E as <-. repeat (apply Forall_app; split); try (match goal with |- Forall _ (if ?b then _ else _) => destruct b end); constructor; try constructor; auto.
  - unfold asg_written; cbn; repeat split; auto; constructor; auto.
  - split; reflexivity.
Qed.
Lemma gives_sat {A B} (x : res A) (f : A -> res (B * list token)) (Q : A -> Prop) (R : B -> Prop) : sat x Q -> (forall a, Q a -> gives (f a) R) -> gives (bind x f) R.
Proof. apply sat_bind. Qed.
Lemma s_declnames n sg w : opt range_written w -> forall acc l, good_members acc -> valids l -> gives (p_declnames n sg w acc l) good_members.
Proof.
  intros HW. induction n as [|n IH]; intros acc l HA V; [apply gives_err|]. cbn [p_declnames]. refine (gives_bind _ _ _ _ (s_id l V) _). intros x r W1 V1. cbn [fst snd]. refine (gives_bind _ _ _ _ (s_dims n [] r ltac:(constructor) V1) _). intros d q W2 V2. cbn [fst snd].
  destruct q as [|[p|s|s|s|s|k s] q]; try apply gives_err. destruct p; try apply gives_err; vals; (refine (gives_sat _ _ _ _ (s_create_decl sg x w d W1 HW W2) _); intros m Hm).
  - apply IH; [now apply Forall_app|assumption].
  - apply gives_ok; [now apply Forall_app|assumption].
Qed.
Lemma s_decl as' n l : valids l -> gives (p_decl as' n l) good_members.
Proof.
  intros V. apply sigtypes_valid in V. unfold p_decl. destruct (p_sigtypes l) as [sg r]. cbn [snd] in V. refine (gives_bind _ _ _ _ (s_range_opt n r V) _). intros w q HW VQ. cbn [fst snd].
  assert (gives (p_declnames n sg w [] q) good_members) as K by (apply s_declnames; [exact HW|constructor|exact VQ]).
  destruct q as [|[p|s|s|s|s|k s] q]; try exact K; [destruct p; try exact K; destruct as'; apply gives_err|]. destruct q as [|[p|s2|s2|s2|s2|k s2] q]; try exact K. destruct p; try exact K. destruct as'; [|apply gives_err]. vals.
  refine (gives_bind _ _ _ _ (s_expr n q ltac:(assumption)) _). intros e r1 W1 V1. cbn [fst snd]. gx. refine (gives_sat _ _ _ _ (s_create_declassign sg s w e ltac:(assumption) HW W1) _). intros m Hm. now apply gives_ok.
Qed.
Lemma s_integers n : forall acc l, good_members acc -> valids l -> gives (p_integers n acc l) good_members.
Proof.
  induction n as [|n IH]; intros acc l HA V; [apply gives_err|]. cbn [p_integers]. refine (gives_bind _ _ _ _ (s_id l V) _). intros x r W1 V1. cbn [fst snd]. refine (gives_bind _ _ (opt written) _ _ _).
  - assert (gives (Ok (None, r)) (opt written)) as K by now apply gives_ok. destruct r as [|[p|s|s|s|s|k s] r]; try exact K. destruct p; try exact K. vals. refine (gives_bind _ _ _ _ (s_expr n _ _) _); [assumption|]. intros. now apply gives_ok.
  - intros v q W2 V2. cbn [fst snd]. destruct q as [|[p|s|s|s|s|k s] q]; try apply gives_err. destruct p; try apply gives_err; vals.
    + apply IH; [|assumption]. apply Forall_snoc; [exact HA|split; assumption].
    + apply gives_ok; [|assumption]. apply Forall_snoc; [exact HA|split; assumption].
Qed.
Lemma s_integerdecl n l : valids l -> gives (p_integerdecl n l) good_members.
Proof.
  intros V. assert (gives (p_integers n [] l) good_members) as K by now apply s_integers. destruct l as [|[p|s|s|s|s|k s] l]; try exact K. unfold p_integerdecl. destruct (String.eqb s "signed"); [|apply gives_err]. vals. refine (gives_bind _ _ good_members _ _ _); [now apply s_integers|]. intros. apply gives_err.
Qed.
Lemma s_names l : forall acc, Forall ident acc -> valids l -> gives (p_names acc l) (Forall ident).
Proof.
  assert (forall k l, length l <= k -> forall acc, Forall ident acc -> valids l -> gives (p_names acc l) (Forall ident)) as K; [|exact (K (length l) l (Nat.le_refl _))]. clear l. induction k as [|k IH]; intros l HL acc HA V; (destruct l as [|[p|s|s|s|s|i s] l]; try apply gives_err); [exfalso; clear - HL; cbn [length] in HL; lia|].
  destruct l as [|[p|s2|s2|s2|s2|i s2] l]; try apply gives_err. vals. destruct p; try apply gives_err.
  - cbn [p_names]. apply IH; [cbn [length] in HL; lia|now apply Forall_snoc|assumption].
  - apply gives_ok; [now apply Forall_snoc|assumption].
Qed.
Lemma s_realdecl l : valids l -> gives (p_realdecl l) good_members.
Proof. intros V. unfold p_realdecl. refine (gives_bind _ _ _ _ (s_names l [] ltac:(constructor) V) _). intros a r H VR. apply gives_ok; [|exact VR]. apply Forall_map. revert H. apply Forall_impl. reflexivity. Qed.
Lemma s_genvardecl l : valids l -> gives (p_genvardecl l) good_members.
Proof. intros V. unfold p_genvardecl. refine (gives_bind _ _ _ _ (s_names l [] ltac:(constructor) V) _). intros a r H VR. apply gives_ok; [|exact VR]. apply Forall_map. exact H. Qed.
Lemma s_param_head n l : valids l -> gives (p_param_head n l) (fun x => opt range_written (snd x)).
Proof.
  intros V. unfold p_param_head. destruct l as [|t l]; [apply gives_err|]. destruct (is_kw "integer" t); [vals; now apply gives_ok|]. destruct (is_kw "signed" t).
  - refine (gives_bind _ _ _ _ (s_range_opt n l _) _); [now inversion V|]. intros. now apply gives_ok.
  - refine (gives_bind _ _ _ _ (s_range_opt n _ V) _). intros. now apply gives_ok.
Qed.
Definition params_of (local : bool) (l : list member) : Prop := l <> [] /\ Forall (fun m => member_written m /\ exists n v w sg, m = MParam local n v w sg) l.
Lemma s_substs local w sg n : opt range_written w -> forall acc l, Forall (fun m => member_written m /\ exists n v w sg, m = MParam local n v w sg) acc -> valids l -> gives (p_substs n (fun s e => MParam local s e w sg) acc l) (params_of local).
Proof.
  intros HW. induction n as [|n IH]; intros acc l HA V; [apply gives_err|]. cbn [p_substs]. refine (gives_bind _ _ _ _ (s_id l V) _). intros x r W1 V1. cbn [fst snd]. gx. refine (gives_bind _ _ _ _ (s_expr n _ H) _). intros e q W2 V2. cbn [fst snd].
  assert (Forall (fun m => member_written m /\ exists n v w sg, m = MParam local n v w sg) (acc +++ [MParam local x e w sg])) as HA2. { apply Forall_snoc; [exact HA|]. split; [cbn; auto|eauto]. }
  assert (gives (Ok (acc +++ [MParam local x e w sg], q)) (params_of local)) as K. { apply gives_ok; [|exact V2]. split; [destruct acc; discriminate|exact HA2]. }
  destruct q as [|[p|s|s|s|s|k s] q]; try exact K. destruct p; try exact K. vals. destruct q as [|[p|s|s|s|s|k s] q]; try exact K; now apply IH.
Qed.
Lemma s_parameters local n l : valids l -> gives (p_parameters local n l) (params_of local).
Proof. intros V. unfold p_parameters. refine (gives_bind _ _ _ _ (s_param_head n l V) _). intros [sg w] r HW VR. cbn [fst snd] in *. apply s_substs; [exact HW|constructor|exact VR]. Qed.
Lemma s_paramdecl local n l : valids l -> gives (p_paramdecl local n l) good_members.
Proof. intros V. unfold p_paramdecl. refine (gives_bind _ _ _ _ (s_parameters local n l V) _). intros a r [_ H] VR. cbn [fst snd]. gx. apply gives_ok; [|assumption]. revert H. apply Forall_impl. now intros m [K _]. Qed.
Lemma s_params n : forall acc l, Forall param_written acc -> valids l -> gives (p_params n acc l) (Forall param_written).
Proof.
  induction n as [|n IH]; intros acc l HA V; [apply gives_err|]. cbn [p_params]. gx. refine (gives_bind _ _ _ _ (s_parameters false n _ H) _). intros a q [HN HP] VQ. cbn [fst snd].
  assert (param_written a) as HW. { split; [exact HN|]. revert HP. apply Forall_impl. intros m (K & x1 & x2 & x3 & x4 & ->). auto. }
  destruct q as [|[p|s|s|s|s|k s] q]; try apply gives_err. destruct p; try apply gives_err; vals; [apply IH|apply gives_ok]; try assumption; now apply Forall_snoc.
Qed.
Lemma s_paramlist n l : valids l -> gives (p_paramlist n l) (Forall param_written).
Proof.
  intros V. assert (gives (Ok ([], l)) (Forall param_written)) as K by now apply gives_ok. destruct l as [|[p|s|s|s|s|k s] l]; try exact K. destruct p; try exact K. unfold p_paramlist. vals. gx. now apply s_params.
Qed.
Lemma s_create_ioport sg n w dims : ident n -> opt range_written w -> Forall range_written dims -> (w = None -> dims = []) -> sat (create_ioport sg n w dims) ioport_written.
Proof.
  intros H1 H2 H3 H4. unfold create_ioport. destruct (ioport_error sg) eqn:E; [apply sat_err|]. intros p K. injection K as <-. cbn [ioport_written]. split; [|auto]. revert E. unfold ioport_error, both.
  destruct (has "input" sg), (has "output" sg), (has "inout" sg), (has "reg" sg), (has "tri" sg), (has "wire" sg); cbn; intros E; try discriminate E; exact I.
Qed.
Lemma s_ioport n l : valids l -> gives (p_ioport n l) ioport_written.
Proof.
  intros V. apply sigtypes_valid in V. unfold p_ioport. destruct (p_sigtypes l) as [sg r]. cbn [snd] in V. refine (gives_bind _ _ _ _ (s_range_opt n r V) _). intros w q HW VQ. cbn [fst snd]. refine (gives_bind _ _ _ _ (s_id q VQ) _). intros x u HX VU. cbn [fst snd]. destruct w as [w|].
  - refine (gives_bind _ _ _ _ (s_dims n [] u ltac:(constructor) VU) _). intros d v HD VV. cbn [fst snd]. refine (gives_sat _ _ _ _ (s_create_ioport sg x (Some w) d HX HW HD _) _); [discriminate|]. intros p HP. now apply gives_ok.
  - refine (gives_sat _ _ _ _ (s_create_ioport sg x None [] HX I ltac:(constructor) _) _); [reflexivity|]. intros p HP. now apply gives_ok.
Qed.
Lemma s_inherit n l : ident n -> Forall ioport_written l -> sat (inherit n l) ioport_written.
Proof.
  intros HI H. induction H as [|p l Hp H IH]; intros q E; [injection E as <-; exact I|].
  destruct p as [m|k1 k2 m w sg dims|]; [contradiction| |discriminate E]. destruct Hp as (K & _ & HW & _).
  destruct k1, k2 as [[]|]; try contradiction; cbn [inherit] in E; try (injection E as <-; cbn [ioport_written]; repeat split; auto); exact (IH q E).
Qed.
Lemma s_ioports n : forall acc l, Forall ioport_written acc -> valids l -> gives (p_ioports n acc l) (Forall ioport_written).
Proof.
  induction n as [|n IH]; intros acc l HA V; [apply gives_err|]. cbn [p_ioports]. destruct l as [|[p|s|s|s|s|k s] l]; try apply gives_err. destruct p; try apply gives_err; vals; [|now apply gives_ok].
  assert (gives (do p <- p_ioport n l; p_ioports n (acc +++ [fst p]) (snd p)) (Forall ioport_written)) as K. { refine (gives_bind _ _ _ _ (s_ioport n l _) _); [assumption|]. intros a r W1 V1. cbn [fst snd]. apply IH; [now apply Forall_snoc|assumption]. }
  destruct l as [|[p|s|s|s|s|k s] l]; try exact K. vals. refine (gives_sat _ _ _ _ (s_inherit s (rev acc) _ _) _); [assumption|now apply Forall_rev|]. intros p HP. apply IH; [now apply Forall_snoc|assumption].
Qed.
Definition name_port (p : port) : Prop := match p with Port n => ident n | _ => False end.
Lemma s_ports l : forall acc, Forall name_port acc -> valids l -> gives (p_ports acc l) (Forall name_port).
Proof.
  assert (forall k l, length l <= k -> forall acc, Forall name_port acc -> valids l -> gives (p_ports acc l) (Forall name_port)) as K; [|exact (K (length l) l (Nat.le_refl _))]. clear l. induction k as [|k IH]; intros l HL acc HA V; (destruct l as [|[p|s|s|s|s|i s] l]; try apply gives_err); [cbn in HL; lia|].
  destruct p; try apply gives_err; vals; [|now apply gives_ok]. destruct l as [|[p|s2|s2|s2|s2|i s2] l]; try apply gives_err. vals. cbn [p_ports]. apply IH; [cbn [length] in HL; lia|now apply Forall_snoc|assumption].
Qed.
Lemma s_portlist n l : valids l -> gives (p_portlist n l) ports_written.
Proof.
  intros V. destruct l as [|[p|s|s|s|s|k s] l]; try apply gives_err. destruct p; try apply gives_err; vals; [apply gives_ok; [left; constructor|assumption]|].
  assert (gives (do p <- p_ioport n l; do x <- p_ioports n [fst p] (snd p); do r <- expect (is_p SEMICOLON) (snd x); Ok (fst x, r)) ports_written) as K.
  { refine (gives_bind _ _ _ _ (s_ioport n l _) _); [assumption|]. intros a r W1 V1. cbn [fst snd]. refine (gives_bind _ _ _ _ (s_ioports n [a] r _ V1) _); [constructor; auto|]. intros b q W2 V2. cbn [fst snd]. gx. apply gives_ok; [right; exact W2|assumption]. }
  destruct l as [|[p|s|s|s|s|k s] l]; try exact K.
  - destruct p; try exact K. cbn [p_portlist]. vals. gx. apply gives_ok; [left; constructor|assumption].
  - cbn [p_portlist]. vals. refine (gives_bind _ _ _ _ (s_ports l [Port s] _ _) _); [constructor; [assumption|constructor]|assumption|]. intros b q W2 V2. cbn [fst snd]. gx. apply gives_ok; [left; exact W2|assumption].
Qed.
Lemma s_assignment n l : valids l -> gives (p_assignment n l) asg_written.
Proof.
  intros V. assert (gives (do x <- p_lvalue n l; do r <- expect (is_p EQUALS) (snd x); do e <- p_expr n r; do r <- expect (is_p SEMICOLON) (snd e); Ok (Asg (fst x) (fst e) None None, r)) asg_written) as K.
  { refine (gives_bind _ _ _ _ (s_lvalue n l V) _). intros x r [W1 W2] V1. cbn [fst snd]. gx. refine (gives_bind _ _ _ _ (s_expr n _ H) _). intros e q W3 V3. cbn [fst snd]. gx. apply gives_ok; [|assumption]. unfold asg_written; cbn; auto. }
  destruct l as [|[p|s|s|s|s|k s] l]; try exact K. destruct p; try exact K. clear K. unfold p_assignment.
  refine (gives_bind _ _ _ _ (s_delays n _ V) _). intros d r0 W0 V0. cbn [fst snd]. refine (gives_bind _ _ _ _ (s_lvalue n r0 V0) _). intros x r [W1 W2] V1. cbn [fst snd]. gx. refine (gives_bind _ _ _ _ (s_delays n _ H) _). intros d2 r2 W4 V4. cbn [fst snd]. refine (gives_bind _ _ _ _ (s_expr n _ V4) _). intros e q W3 V3. cbn [fst snd]. gx. apply gives_ok; [|assumption]. unfold asg_written; cbn; auto.
Qed.

(** ** Instances *)
Lemma s_named n l : valids l -> gives (p_named n l) by_name.
Proof.
  intros V. unfold p_named. gx. refine (gives_bind _ _ _ _ (s_id _ H) _). intros x r0 W1 V1. cbn [fst snd]. apply gives_expect; [assumption|]. intros q VQ.
  assert (gives (do e <- p_expr n q; do r <- expect (is_p RPAREN) (snd e); Ok ((Some x, Some (fst e)), r)) by_name) as K. { refine (gives_bind _ _ _ _ (s_expr n _ VQ) _). intros e q2 W3 V3. cbn [fst snd]. gx. apply gives_ok; [split; assumption|assumption]. }
  destruct q as [|[p|s|s|s|s|k s] q]; try exact K. destruct p; try exact K. vals. apply gives_ok; [split; [assumption|exact I]|assumption].
Qed.
Lemma s_unnamed n l : valids l -> gives (p_unnamed n l) by_position.
Proof. intros V. unfold p_unnamed. refine (gives_bind _ _ _ _ (s_expr n l V) _). intros e q W3 V3. now apply gives_ok. Qed.
Definition named_param (x : option string * option expr) : Prop := by_name x /\ snd x <> None.
Lemma s_named_param n l : valids l -> gives (p_named_param n l) named_param.
Proof. intros V. unfold p_named_param. refine (gives_bind _ _ _ _ (s_named n l V) _). intros x q W3 V3. cbn [fst snd]. destruct (snd x) eqn:E; [|apply gives_err]. apply gives_ok; [|exact V3]. split; [exact W3|congruence]. Qed.
Lemma s_args (Q : option string * option expr -> Prop) one n : (forall l, valids l -> gives (one l) Q) -> forall acc l, Forall Q acc -> valids l -> gives (p_args one n acc l) (Forall Q).
Proof.
  intros HO. induction n as [|n IH]; intros acc l HA V; [apply gives_err|]. cbn [p_args]. destruct l as [|[p|s|s|s|s|k s] l]; try apply gives_err. destruct p; try apply gives_err; vals; [|now apply gives_ok].
  refine (gives_bind _ _ _ _ (HO l _) _); [assumption|]. intros x q W V1. cbn [fst snd]. apply IH; [now apply Forall_snoc|assumption].
Qed.
Lemma s_port_args n l : valids l -> gives (p_port_args n l) args_written.
Proof.
  intros V. assert (forall acc l, Forall by_position acc -> valids l -> gives (p_args (p_unnamed n) n acc l) args_written) as K1. { intros acc l0 HA V0. refine (gives_imp _ _ _ (s_args by_position (p_unnamed n) n (s_unnamed n) acc l0 HA V0) _). intros. now right. }
  assert (gives (do x <- p_unnamed n l; p_args (p_unnamed n) n [fst x] (snd x)) args_written) as K2. { refine (gives_bind _ _ _ _ (s_unnamed n l V) _). intros x q W V1. apply K1; [constructor; [exact W|constructor]|exact V1]. }
  destruct l as [|[p|s|s|s|s|k s] l]; try exact K2. destruct p; try exact K2; clear K2; [apply K1; [constructor|exact V]| |apply K1; [constructor|exact V]].
  unfold p_port_args. refine (gives_bind _ _ _ _ (s_named n _ V) _). intros x q W V1. cbn [fst snd]. refine (gives_imp _ _ _ (s_args by_name (p_named n) n (s_named n) [x] q _ V1) _); [constructor; [exact W|constructor]|]. intros. now left.
Qed.
Definition param_args (l : list (option string * option expr)) : Prop := Forall named_param l \/ Forall by_position l.
Lemma s_param_args n l : valids l -> gives (p_param_args n l) param_args.
Proof.
  intros V. assert (forall acc l, Forall by_position acc -> valids l -> gives (p_args (p_unnamed n) n acc l) param_args) as K1. { intros acc l0 HA V0. refine (gives_imp _ _ _ (s_args by_position (p_unnamed n) n (s_unnamed n) acc l0 HA V0) _). intros. now right. }
  assert (gives (do x <- p_unnamed n l; p_args (p_unnamed n) n [fst x] (snd x)) param_args) as K2. { refine (gives_bind _ _ _ _ (s_unnamed n l V) _). intros x q W V1. apply K1; [constructor; [exact W|constructor]|exact V1]. }
  assert (forall acc l, Forall named_param acc -> valids l -> gives (p_args (p_named_param n) n acc l) param_args) as K3. { intros acc l0 HA V0. refine (gives_imp _ _ _ (s_args named_param (p_named_param n) n (s_named_param n) acc l0 HA V0) _). intros. now left. }
  destruct l as [|[p|s|s|s|s|k s] l]; try exact K2. destruct p; try exact K2; clear K2; [apply K3; [constructor|exact V]| |apply K3; [constructor|exact V]].
  unfold p_param_args. refine (gives_bind _ _ _ _ (s_named_param n _ V) _). intros x q W V1. apply K3; [constructor; [exact W|constructor]|exact V1].
Qed.
Lemma param_of_written l : param_args l -> args_written (map (fun x => (fst x, Some (snd x))) (map param_of l)).
Proof.
  rewrite map_map. intros [H|H]; [left|right]; apply Forall_map; revert H; apply Forall_impl.
  - intros [[n|] [e|]] [W N]; try contradiction. exact W.
  - intros [[n|] [e|]] W; try contradiction. exact W.
Qed.
Definition body_written (nm : bool) : inst -> Prop := if nm then named_inst else unnamed_inst.
Lemma s_body (nm : bool) n l : valids l -> gives (p_body nm n l) (body_written nm).
Proof.
  intros V. unfold p_body. refine (gives_bind _ _ (fun x => if nm then ident x else x = "") _ _ _); [destruct nm; [now apply s_id|now apply gives_ok]|]. intros x r W1 V1. cbn [fst snd]. refine (gives_bind _ _ (fun w => if nm then opt range_written w else w = None) _ _ _); [destruct nm; [now apply s_range_opt|now apply gives_ok]|].
  intros w q W2 V2. cbn [fst snd]. gx. refine (gives_bind _ _ _ _ (s_port_args n _ H) _). intros ps u W3 V3. apply gives_ok; [|exact V3]. destruct nm; (split; [exact W1|split; [exact W2|exact W3]]).
Qed.
Lemma s_bodies (nm : bool) n : forall acc l, Forall (body_written nm) acc -> valids l -> gives (p_bodies nm n acc l) (fun l => l <> [] /\ Forall (body_written nm) l).
Proof.
  induction n as [|n IH]; intros acc l HA V; [apply gives_err|]. cbn [p_bodies]. refine (gives_bind _ _ _ _ (s_body nm n l V) _). intros x r W1 V1. cbn [fst snd]. assert (Forall (body_written nm) (acc +++ [x])) as HA2 by now apply Forall_snoc.
  destruct r as [|[p|s|s|s|s|k s] r]; try apply gives_err. destruct p; try apply gives_err; vals; [now apply IH|]. apply gives_ok; [|assumption]. split; [destruct acc; discriminate|exact HA2].
Qed.
(** Items: what stands in no generate may stand everywhere, and is not open. *)
Definition flat (x : sitem) : Prop := (forall p, jwritten p x) /\ jopen x = false.
Lemma s_instance m n l : mod_good m -> valids l -> gives (p_instance m n l) flat.
Proof.
  intros HM V. assert (forall params q, args_written (map (fun x => (fst x, Some (snd x))) params) -> valids q -> gives (do x <- p_bodies true n [] q; Ok (JInst m params (fst x), snd x)) flat) as K.
  { intros params q HA VQ. refine (gives_bind _ _ _ _ (s_bodies true n [] q ltac:(constructor) VQ) _). intros a r [W1 W2] V1. apply gives_ok; [|exact V1]. split; [|reflexivity]. intros p. cbn [jwritten fst]. split; [exact HM|]. split; [exact HA|]. split; [exact W1|]. left. exact W2. }
  assert (gives (do x <- p_bodies true n [] l; Ok (JInst m [] (fst x), snd x)) flat) as K0 by (apply K; [left; constructor|exact V]).
  destruct l as [|[p|s|s|s|s|k s] l]; try exact K0. destruct p; try exact K0; clear K0; unfold p_instance.
  - refine (gives_bind _ _ _ _ (s_bodies false n [] _ ltac:(constructor) V) _). intros a r [W1 W2] V1. apply gives_ok; [|exact V1]. split; [|reflexivity]. intros p. cbn [jwritten fst]. split; [exact HM|]. split; [left; constructor|]. split; [exact W1|]. right. split; [reflexivity|exact W2].
  - vals. gx. refine (gives_bind _ _ _ _ (s_param_args n _ H) _). intros a q W VQ. cbn [fst snd]. apply K; [now apply param_of_written|exact VQ].
Qed.

(** ** Functions and tasks *)
Notation locals := (Forall (fun m => member_written m /\ local_member m)).
Lemma s_funcvar n l : valids l -> gives (p_funcvar n l) locals.
Proof.
  intros V. unfold p_funcvar. refine (gives_bind _ _ good_members _ _ _).
  - destruct l as [|t l]; [apply gives_err|]. destruct (is_kw "integer" t); [vals; now apply s_integerdecl|now apply s_decl].
  - intros a r W V1. cbn [fst]. destruct (forallb func_member a) eqn:E; [|apply gives_err]. apply gives_ok; [|exact V1]. rewrite forallb_forall in E. rewrite Forall_forall in *. intros m Hm. split; [now apply W|]. specialize (E m Hm). destruct m as [[]| | | | | |]; try discriminate E; exact I.
Qed.
Lemma s_funcvars n : forall acc l, locals_written acc -> valids l -> gives (p_funcvars n acc l) locals_written.
Proof.
  induction n as [|n IH]; intros acc l HA V; [apply gives_err|]. cbn [p_funcvars]. destruct (starts_decl l); [|now apply gives_ok]. refine (gives_bind _ _ _ _ (s_funcvar n l V) _). intros x r W1 V1. cbn [fst snd]. apply IH; [now apply Forall_snoc|exact V1].
Qed.
Lemma s_calc n l : valids l -> gives (p_calc n l) (fun s => swritten s /\ timeless s).
Proof.
  intros V. unfold p_calc. refine (gives_bind _ _ swritten _ _ _).
  - apply gives_of. intros s r E. destruct (proj1 (stm_sound n) _ _ _ V E) as (A & _ & B). auto.
  - intros s r W V1. cbn [fst]. destruct (calc s) eqn:E; [|apply gives_err]. apply gives_ok; [|exact V1]. split; [exact W|]. destruct s as [[] a|c t e|pre c post b|c b|[] c i|s i|s i|i|c b|b|e|f i|s|]; discriminate E || exact I.
Qed.
Lemma s_function n l : valids l -> gives (p_function n l) flat.
Proof.
  intros V. assert (forall s, In s ["0"; "31"] -> written (XInt s)) as KN. { intros s HS. apply (w_int DEC). cbn in HS. destruct HS as [HS|[HS|[]]]; subst s; apply n_plain; vm_compute; auto. }
  unfold p_function. refine (gives_bind _ _ range_written _ _ _).
  - assert (forall t r, valids (t :: r) -> gives (if is_kw "integer" t then Ok ((XInt "31", XInt "0"), r) else Ok ((XInt "0", XInt "0"), t :: r)) range_written) as K. { intros t r V0. destruct (is_kw "integer" t); (apply gives_ok; [split; apply KN; cbn; auto|]); [now inversion V0|exact V0]. }
    destruct l as [|[p|s|s|s|s|k s] l]; [apply gives_err|..]; try exact (K _ _ V). destruct p; try exact (K _ _ V). now apply s_range.
  - intros w r W1 V1. cbn [fst snd]. refine (gives_bind _ _ _ _ (s_id r V1) _). intros x q W2 V2. cbn [fst snd]. gx. refine (gives_bind _ _ _ _ (s_funcvars n [] _ ltac:(constructor) H) _). intros d u W3 V3. cbn [fst snd].
    assert (gives (do s <- p_calc n u; do r <- expect (is_kw "endfunction") (snd s); Ok (JFunc x w d (fst s), r)) (fun j => d <> [] -> flat j)) as K.
    { refine (gives_bind _ _ _ _ (s_calc n u V3) _). intros s v [W4 W5] V4. cbn [fst snd]. gx. apply gives_ok; [|assumption]. intros N. split; [|reflexivity]. intros p. cbn [jwritten]. auto 10. }
    destruct d as [|d ds]; [apply gives_err|]. refine (gives_imp _ _ _ K _). intros a HA. apply HA. discriminate.
Qed.
Lemma s_task n l : valids l -> gives (p_task n l) flat.
Proof.
  intros V. unfold p_task. refine (gives_bind _ _ _ _ (s_id l V) _). intros x q W2 V2. cbn [fst snd]. gx. refine (gives_bind _ _ _ _ (s_funcvars n [] _ ltac:(constructor) H) _). intros d u W3 V3. cbn [fst snd].
  refine (gives_bind _ _ _ _ (s_calc n u V3) _). intros s v [W4 W5] V4. cbn [fst snd]. gx. apply gives_ok; [|assumption]. split; [|reflexivity]. intros p. cbn [jwritten]. auto 10.
Qed.
Lemma s_pragma_run n : forall st input, stack_ok st -> valids input -> gives (pragma_run n (st, input)) written.
Proof.
  induction n as [|n IH]; intros st input HS V; [apply gives_err|]. cbn [pragma_run].
  assert (gives (match step (st, input) with Some c' => pragma_run n c' | None => Err ParseError end) written) as K.
  { cbn [step]. pose proof (action_ok st (hd_error input) HS) as HA. destruct (action st (hd_error input)) as [|st'].
    - destruct input as [|t input]; [apply gives_err|]. inversion V as [|u v V1 V2]; subst. exact (IH (ST t :: st) input (conj V1 (conj I HS)) V2).
    - exact (IH _ _ HA V). }
  destruct st as [|[t|x|s|x|l|l] [|z st]]; try exact K. destruct input as [|[p|s|s|s|s|k s] input]; try exact K. destruct p; try exact K. destruct input as [|[p|s|s|s|s|k s] input]; try exact K. destruct p; try exact K. vals. apply gives_ok; [exact (proj1 HS)|assumption].
Qed.
Lemma s_pragma n l : valids l -> gives (p_pragma n l) (fun x => ident (fst x) /\ opt written (snd x)).
Proof.
  intros V. destruct l as [|[p|s|s|s|s|k s] l]; try apply gives_err. destruct p; try apply gives_err. destruct l as [|[p|s|s|s|s|k s] l]; try apply gives_err. destruct l as [|[p|s2|s2|s2|s2|k s2] l]; try apply gives_err. destruct p; try apply gives_err.
  - destruct l as [|[p|s2|s2|s2|s2|k s2] l]; try apply gives_err. destruct p; try apply gives_err. vals. apply gives_ok; [split; [assumption|exact I]|assumption].
  - vals. cbn [p_pragma]. refine (gives_bind _ _ _ _ (s_pragma_run n [] l I _) _); [assumption|]. intros e r W V1. apply gives_ok; [split; assumption|exact V1].
Qed.

(** ** Items *)
Definition sound_item (p : place) (x : sitem) (rest : list token) : Prop := jwritten p x /\ (jopen x = true -> no_else rest) /\ valids rest.
Definition delivers (x : res (sitem * list token)) (p : place) : Prop := forall j r, x = Ok (j, r) -> sound_item p j r.
Lemma deliver_flat x p : gives x flat -> delivers x p.
Proof. intros H j r E. destruct (H (j, r) E) as [[W O] V]. cbn [fst snd] in *. split; [apply W|]. split; [rewrite O; discriminate|exact V]. Qed.
Lemma deliver_err e p : delivers (Err e) p.
Proof. intros j r E. discriminate E. Qed.
Lemma flat_decl x : gives x good_members -> gives (decl_of x) flat.
Proof. intros H. unfold decl_of. refine (gives_bind _ _ _ _ H _). intros a r W V. apply gives_ok; [|exact V]. split; [intros p; exact W|reflexivity]. Qed.
Lemma item_sound n l i rest : valids l -> p_item n l = Ok (i, rest) -> item_written i /\ (jopen (JItem i) = true -> no_else rest) /\ valids rest.
Proof.
  intros V H. unfold p_item in H. destruct l as [|t r]; [discriminate|]. inversion V as [|u v V1 V2]; subst.
  assert (forall k, (do x <- p_senslist n r; do s <- p_stm n (snd x); need_end (fst s) (IAlways k (fst x) (fst s), snd s)) = Ok (i, rest) -> item_written i /\ (jopen (JItem i) = true -> no_else rest) /\ valids rest) as K.
  { intros k K. ub K. destruct x as [l r1]. destruct (senslist_sound _ _ _ _ V2 B) as [WL VL]. cbn [fst snd] in K. ub K. destruct x as [s r2]. destruct (proj1 (stm_sound n) _ _ _ VL B0) as (WS & OS & VS). apply need_end_sound in K as [K KE]. injection K as <- <-. split; [|split; [exact OS|exact VS]]. split; [exact WL|]. split; [exact WS|exact KE]. }
  destruct (is_kw "always" t); [exact (K _ H)|]. destruct (is_kw "always_ff" t); [exact (K _ H)|]. destruct (is_kw "always_comb" t); [exact (K _ H)|]. destruct (is_kw "always_latch" t); [exact (K _ H)|].
  destruct (is_kw "initial" t); [|discriminate]. ub H. destruct x as [s r2]. destruct (proj1 (stm_sound n) _ _ _ V2 B) as (WS & OS & VS). injection H as <- <-. split; [exact WS|]. split; [exact OS|exact VS].
Qed.
Lemma flat_pragma n l : valids l -> gives (do x <- p_pragma n l; Ok (JPragma (fst (fst x)) (snd (fst x)), snd x)) flat.
Proof. intros V. refine (gives_bind _ _ _ _ (s_pragma n l V) _). intros a r W V1. apply gives_ok; [|exact V1]. split; [intros p; exact W|reflexivity]. Qed.
Lemma s_standard p n l : valids l -> delivers (p_standard n l) p.
Proof.
  intros V. destruct l as [|t r]; [apply deliver_err|]. pose proof V as V0. inversion V0 as [|u v V1 V2]; subst.
  assert (delivers (if is_kw "or" t then p_instance "or" n r
      else match sigtype t with Some _ => decl_of (p_decl true n (t :: r)) | None =>
      if is_kw "integer" t then decl_of (p_integerdecl n r)
      else if is_kw "real" t then decl_of (p_realdecl r)
      else if is_kw "parameter" t then decl_of (p_paramdecl false n r)
      else if is_kw "localparam" t then decl_of (p_paramdecl true n r)
      else if is_kw "genvar" t then decl_of (p_genvardecl r)
      else if is_kw "assign" t then do a <- p_assignment n r; Ok (JAssign (fst a), snd a)
      else if is_kw "function" t then p_function n r
      else if is_kw "task" t then p_task n r
      else do i <- p_item n (t :: r); Ok (JItem (fst i), snd i)
      end) p) as K.
  { destruct (is_kw "or" t); [apply deliver_flat, s_instance; [now right|exact V2]|]. destruct (sigtype t); [now apply deliver_flat, flat_decl, s_decl|].
    destruct (is_kw "integer" t); [now apply deliver_flat, flat_decl, s_integerdecl|]. destruct (is_kw "real" t); [now apply deliver_flat, flat_decl, s_realdecl|].
    destruct (is_kw "parameter" t); [now apply deliver_flat, flat_decl, s_paramdecl|]. destruct (is_kw "localparam" t); [now apply deliver_flat, flat_decl, s_paramdecl|]. destruct (is_kw "genvar" t); [now apply deliver_flat, flat_decl, s_genvardecl|].
    destruct (is_kw "assign" t). { apply deliver_flat. refine (gives_bind _ _ _ _ (s_assignment n r V2) _). intros a q W VQ. apply gives_ok; [|exact VQ]. split; [intros p0; exact W|reflexivity]. }
    destruct (is_kw "function" t); [now apply deliver_flat, s_function|]. destruct (is_kw "task" t); [now apply deliver_flat, s_task|].
    intros j q E. ub E. destruct x as [i q0]. injection E as <- <-. exact (item_sound n _ _ _ V B). }
  destruct t as [q|i|w|x|x|k x]; try exact K; [|apply deliver_flat, s_instance; [now left|exact V2]]. destruct q; try exact K. apply deliver_flat. now apply flat_pragma.
Qed.
Lemma jwritten_block p l : Forall (jwritten p) l -> (fix all (l : list sitem) : Prop := match l with [] => True | x :: r => jwritten p x /\ all r end) l.
Proof. induction 1 as [|x l H1 H2 IH]; [exact I|split; assumption]. Qed.
Lemma gen_sound n :
  (forall p l, p <> InModule -> valids l -> delivers (p_gitem n l) p) /\
  (forall close acc l r rest, Forall (jwritten InGenerate) acc -> valids l -> p_gitems n close acc l = Ok (r, rest) -> Forall (jwritten InGenerate) r /\ valids rest).
Proof.
  induction n as [|n [IHi IHs]]; [split; intros; try discriminate; apply deliver_err|]. split.
  - intros p l HP V.
    assert (forall l, valids l -> delivers (r_content (p_gitems n "end") (p_gitem n) l) InBranch) as KC.
    { clear l V. intros l V. destruct l as [|t r]; [apply deliver_err|]. cbn [r_content]. destruct (is_kw "begin" t); [|apply IHi; [discriminate|exact V]]. inversion V as [|u v V1 V2]; subst.
      assert (forall sc r0, opt ident sc -> valids r0 -> delivers (do b <- p_gitems n "end" [] r0; Ok (JBlock sc (fst b), snd b)) InBranch) as K.
      { intros sc r0 WS V0 j q E. ub E. destruct x as [b q0]. destruct (IHs "end" [] r0 b q0 ltac:(constructor) V0 B) as [WB VB]. injection E as <- <-. split; [|split; [discriminate|exact VB]]. split; [reflexivity|]. split; [exact WS|]. now apply jwritten_block. }
      destruct r as [|[q|i|w|x|x|k x] r]; try exact (K None _ I V2). destruct q; try exact (K None _ I V2). inversion V2 as [|u v V3 V4]; subst. intros j q E. ub E. destruct x as [x q0]. destruct (s_id r V4 (x, q0) B) as [WX VX]. exact (K (Some x) q0 WX VX j q E). }
    change (p_gitem (S n) l) with (r_gitem n (r_content (p_gitems n "end") (p_gitem n)) l). destruct l as [|t r]; [apply deliver_err|]. inversion V as [|u v V1 V2]; subst. cbn [r_gitem]. destruct (is_kw "if" t); [|destruct (is_kw "for" t); [|now apply s_standard]].
    + intros j q E. ub E. destruct x as [c r1]. destruct (paren_sound _ _ _ _ V2 B) as [WC VC]. cbn [fst snd] in E. ub E. destruct x as [y r2]. destruct (KC _ VC _ _ B0) as (WT & OT & VT). cbn [fst snd] in E. destruct r2 as [|w r2].
      * injection E as <- <-. split; [cbn; auto|]. split; [intros _; exact I|exact VT].
      * inversion VT as [|u v V3 V4]; subst. destruct (is_kw "else" w) eqn:EW.
        -- ub E. destruct x as [e r3]. destruct (KC _ V4 _ _ B1) as (WE & OE & VE). injection E as <- <-. split; [|split; [exact OE|exact VE]]. cbn [jwritten fst]. split; [exact HP|]. split; [exact WC|]. split; [exact WT|]. split; [|exact WE]. destruct (jopen y); [|reflexivity]. specialize (OT eq_refl). cbn [no_else] in OT. congruence.
        -- injection E as <- <-. split; [cbn; auto|]. split; [intros _; exact EW|exact VT].
    + intros j q E. ub E. apply expect_valid in B; [|exact V2]. ub E. destruct x0 as [pre r1]. destruct (forpre_sound _ _ _ _ B B0) as [W1 U1]. cbn [fst snd] in E. ub E. destruct x0 as [c r2]. destruct (forcond_sound _ _ _ _ U1 B1) as [W2 U2]. cbn [fst snd] in E.
      ub E. destruct x0 as [post r3]. destruct (forpost_sound _ _ _ _ U2 B2) as [W3 U3]. cbn [fst snd] in E. ub E. apply expect_valid in B3; [|exact U3]. ub E. destruct x1 as [b r4]. destruct (KC _ B3 _ _ B4) as (WB & OB & VB). injection E as <- <-. split; [cbn; auto|]. split; [exact OB|exact VB].
  - intros close acc l r rest HA V H. cbn [p_gitems] in H. destruct l as [|t l]; [discriminate|]. destruct (is_kw close t); [injection H as <- <-; split; [exact HA|now inversion V]|].
    ub H. destruct x as [j q]. destruct (IHi InGenerate _ ltac:(discriminate) V _ _ B) as (WJ & _ & VJ). cbn [fst snd] in H. apply (IHs close (acc +++ [j]) q r rest); [now apply Forall_snoc|exact VJ|exact H].
Qed.
Lemma s_mitems n : forall acc l, Forall (jwritten InModule) acc -> valids l -> gives (p_mitems n acc l) (Forall (jwritten InModule)).
Proof.
  induction n as [|n IH]; intros acc l HA V; [apply gives_err|]. cbn [p_mitems]. destruct l as [|t r]; [apply gives_err|]. pose proof V as V0. inversion V0 as [|u v V1 V2]; subst. destruct (is_kw "endmodule" t); [now apply gives_ok|]. destruct (is_kw "generate" t).
  - apply (gives_bind _ _ (Forall (jwritten InGenerate))). { apply gives_of. intros a q. apply (proj2 (gen_sound n)); [constructor|exact V2]. } intros a q W VQ. cbn [fst snd]. apply IH; [|exact VQ]. apply Forall_snoc; [exact HA|]. split; [reflexivity|now apply jwritten_block].
  - apply (gives_bind _ _ (jwritten InModule)). { apply gives_of. intros a q E. destruct (s_standard InModule n _ V _ _ E) as (A & _ & B). auto. } intros a q W VQ. cbn [fst snd]. apply IH; [now apply Forall_snoc|exact VQ].
Qed.
Lemma s_module n l : valids l -> gives (p_module n l) module_written.
Proof.
  intros V. unfold p_module. apply (gives_bind _ _ (fun x => ident x \/ x = "or")).
  { destruct l as [|t r]; [apply gives_err|]. inversion V as [|u v V1 V2]; subst. assert (gives (if is_kw "or" t then Ok ("or", r) else Err ParseError) (fun x => ident x \/ x = "or")) as K by (destruct (is_kw "or" t); [apply gives_ok; [now right|exact V2]|apply gives_err]).
    destruct t; try exact K. apply gives_ok; [now left|exact V2]. }
  intros x r W V1. cbn [fst snd]. refine (gives_bind _ _ _ _ (s_paramlist n r V1) _). intros a r2 W2 V2. cbn [fst snd]. refine (gives_bind _ _ _ _ (s_portlist n r2 V2) _). intros b r3 W3 V3. cbn [fst snd]. refine (gives_bind _ _ _ _ (s_mitems n [] r3 ltac:(constructor) V3) _). intros c r4 W4 V4.
  apply gives_ok; [|exact V4]. split; [exact W|]. split; [exact W2|]. split; [exact W3|exact W4].
Qed.
Lemma s_definition n l : valids l -> gives (p_definition n l) definition_written.
Proof.
  intros V. destruct l as [|t r]; [apply gives_err|]. inversion V as [|u v V1 V2]; subst. assert (gives (if is_kw "module" t then do x <- p_module n r; Ok (DModule (fst x), snd x) else Err ParseError) definition_written) as K.
  { destruct (is_kw "module" t); [|apply gives_err]. refine (gives_bind _ _ _ _ (s_module n r V2) _). intros a q W VQ. now apply gives_ok. }
  destruct t as [q|i|w|x|x|k x]; try exact K. destruct q; try exact K. cbn [p_definition]. refine (gives_bind _ _ _ _ (s_pragma n r V2) _). intros a q W VQ. now apply gives_ok.
Qed.
Lemma s_definitions n : forall acc l, Forall definition_written acc -> valids l -> sat (p_definitions n acc l) source_written.
Proof.
  induction n as [|n IH]; intros acc l HA V; [apply sat_err|]. cbn [p_definitions]. apply (sat_bind _ _ _ _ (s_definition n l V)). intros [x r] [W V1]. cbn [fst snd] in *. assert (Forall definition_written (acc +++ [x])) as HA2 by now apply Forall_snoc.
  destruct r as [|t r]; [|now apply IH]. intros d E. injection E as <-. split; [destruct acc; discriminate|exact HA2].
Qed.
Theorem parse_source_sound n t d : parse_source n t = Ok d -> source_written d.
Proof. unfold parse_source. intros H. ub H. exact (s_definitions n [] _ ltac:(constructor) (lex_go_sound _ _ _ _ _ B) d H). Qed.
