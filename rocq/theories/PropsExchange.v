(** Property C12, continued: objects and files written on a machine of one byte order and read on one of the other. *)
From Verif Require Import Base Floats Value StructMod Format Ser Exec Pure BaseFacts SerFacts RefPack RefUnpack User Fuel DecFacts Sample
  Canon RoundTrip PropsRoundTrip Portable Wire Hints HintFacts Surface SerShape Programs Accept AcceptProg PropsProgram PropsAccept WireSpec WireFacts Wires
  PropsWire PackSpec PropsPack ReadSpec ReadFacts Reads PropsReads LocalSpec Locals BackSpec Backs PropsBack Locals PropsCopy PropsPrograms PropsStatement StructFacts FormatFacts StructFacts ProgramFacts.
Open Scope string_scope. Open Scope list_scope. Open Scope Z_scope.

(** An object packed on one machine is read back on the other, by all three methods, with anything before it and, unless its class
    reads to the end, anything after it. *)
Theorem C12_exchange : forall hb hb' idf fac prog l sl n c d w pre b rest,
  (forall md, program md idf fac prog l) -> check_prog [] 0 prog = Some sl -> forallb regular_class sl = true -> anywhere_classes sl ->
  (forall md, canonical hb (classes l) Nat.eqb md n (VObj c None d)) -> conforms hb (classes l) Nat.eqb n (VObj c None d) ->
  fin_of l c = false \/ rest = [] -> fst (Structured_pack hb (classes l) n (VObj c None d) w) = Ok b ->
  exists N, forall m w1 w2 w3, (N <= m)%nat -> w_data w3 = pre ++ b ++ rest -> w_pos w3 = blen pre ->
    fst (create_unpack hb' (classes l) m c (b ++ rest) w1) = Ok (VObj c None d) /\
    fst (create_unpack_from hb' (classes l) m c (pre ++ b ++ rest) (blen pre) w2) = Ok (VObj c None d) /\
    fst (create_unpack_read hb' (classes l) m c w3) = Ok (VObj c None d).
Proof.
  intros hb hb' idf fac prog l sl n c d w pre b rest P CK RG AC CN CF FC E.
  pose proof (fun md => C46_program md idf fac prog l sl (P md) CK RG) as R.
  set (w0 := W (fun _ => 0) (fun _ => None) [] (pre ++ b ++ rest) (blen pre)).
  destruct (C42_three_methods hb idf fac prog l n n c d w clean clean w0 pre b rest P CN CF (le_n n) FC E eq_refl eq_refl) as (E1 & E2 & E3).
  destruct (C12_statement_unpack hb hb' _ _ _ _ _ _ _ _ _ _ (R UBuf) AC E1) as [N1 H1].
  destruct (C12_statement_unpack_from hb hb' _ _ _ _ _ _ _ _ _ _ _ (R UFrom) AC E2) as [N2 H2].
  assert (B : 0 <= w_pos w0 <= blen (w_data w0)) by (cbn; rewrite blen_app; pose proof (blen_nonneg pre); pose proof (blen_nonneg (b ++ rest)); lia).
  destruct (C12_statement_unpack_read hb hb' _ _ _ _ _ _ _ _ _ (R URead) AC B E3) as [N3 H3].
  exists (Nat.max N1 (Nat.max N2 N3)). intros m w1 w2 w3 L D Q. split; [apply H1; lia|]. split; [apply H2; lia|]. apply H3; [lia|exact D|exact Q].
Qed.
Print Assumptions C12_exchange.

(** What is read from a stream on one machine, object after object and from whatever bytes, is read from it on the other. *)
Theorem C12_read_all : forall hb hb' idf fac prog l sl, reading idf fac prog l sl URead -> anywhere_classes sl ->
  forall n cs w vs, 0 <= w_pos w <= blen (w_data w) -> fst (read_all hb (classes l) n cs w) = Ok vs ->
  exists N, forall m u, (N <= m)%nat -> w_data u = w_data w -> w_pos u = w_pos w -> fst (read_all hb' (classes l) m cs u) = Ok vs /\
    w_pos (snd (read_all hb' (classes l) m cs u)) = w_pos (snd (read_all hb (classes l) n cs w)).
Proof.
  intros hb hb' idf fac prog l sl R AC n cs. induction cs as [|c cs IH]; intros w vs P E; cbn [read_all] in E |- *.
  - injection E as <-. exists 0%nat. intros m u _ _ Q. split; [reflexivity|exact Q].
  - pose proof (read_once hb _ _ _ _ _ n c w R (proj1 P)) as UD.
    destruct (create_unpack_read hb (classes l) n c w) as [[v|e] w1] eqn:U; [|discriminate]. cbn [snd] in UD.
    assert (U1 : fst (create_unpack_read hb (classes l) n c w) = Ok v) by now rewrite U.
    destruct (C46_create_unpack_read _ _ _ _ _ _ _ _ _ _ R (proj1 P) U1) as (k & K & Q). rewrite U in Q. cbn [snd] in Q. pose proof (parse_pos _ _ _ _ _ _ _ _ K) as KP.
    assert (B : 0 <= w_pos w1 <= blen (w_data w1)).
    { rewrite UD. unfold blen in *. rewrite skipn_length in Q. lia. }
    destruct (C12_statement_unpack_read hb hb' _ _ _ _ _ _ _ _ _ R AC P U1) as [N1 H1].
    destruct (read_all hb (classes l) n cs w1) as [[vs'|e] w2] eqn:A; [|discriminate]. injection E as <-.
    destruct (IH w1 vs' B ltac:(now rewrite A)) as [N2 H2]. rewrite A in H2. exists (Nat.max N1 N2). intros m u L D T.
    destruct (H1 m u ltac:(lia) D T) as [V1 V2]. rewrite U in V2. cbn [snd] in V2.
    pose proof (read_once hb' _ _ _ _ _ m c u R ltac:(rewrite T; exact (proj1 P))) as VD.
    destruct (create_unpack_read hb' (classes l) m c u) as [r u1]. cbn [fst snd] in *. subst r.
    destruct (H2 m u1 ltac:(lia) ltac:(congruence) V2) as [X1 X2]. destruct (read_all hb' (classes l) m cs u1) as [r u2]. cbn [fst snd] in *. subst r. split; [reflexivity|exact X2].
Qed.
Print Assumptions C12_read_all.
(** A file of objects written on one machine is read back on the other. *)
Theorem C12_file : forall hb hb' idf fac prog l sl n vs w w1, program URead idf fac prog l -> check_prog [] 0 prog = Some sl -> forallb regular_class sl = true -> anywhere_classes sl ->
  Forall (canonical hb (classes l) Nat.eqb URead n) vs -> Forall (conforms hb (classes l) Nat.eqb n) vs ->
  Forall (fun v => fin_of l (PropsRoundTrip.class_of v) = false) vs -> 0 <= w_pos w <= blen (w_data w) -> write_all hb (classes l) n vs w = (Ok tt, w1) ->
  exists N, forall m u, (N <= m)%nat -> w_data u = w_data w1 -> w_pos u = w_pos w ->
    fst (read_all hb' (classes l) m (map PropsRoundTrip.class_of vs) u) = Ok vs /\ w_pos (snd (read_all hb' (classes l) m (map PropsRoundTrip.class_of vs) u)) = w_pos w1.
Proof.
  intros hb hb' idf fac prog l sl n vs w w1 P CK RG AC CN CF FV PW E. pose proof (C46_program URead idf fac prog l sl P CK RG) as R.
  set (w2 := W (fun _ => 0) (fun _ => None) [] (w_data w1) (w_pos w)).
  destruct (C07_program hb idf fac prog l n n vs w w1 w2 P CN CF (le_n n) FV PW E eq_refl eq_refl) as [E1 E2].
  assert (B : 0 <= w_pos w2 <= blen (w_data w2)).
  { cbn. set (pre := firstn (Z.to_nat (w_pos w)) (w_data w)). set (rest := skipn (Z.to_nat (w_pos w)) (w_data w)).
    assert (D : w_data w = pre ++ rest) by (symmetry; apply firstn_skipn).
    assert (LP : w_pos w = blen pre) by (unfold pre, blen in *; rewrite firstn_length; lia).
    destruct (write_all_spec hb _ Nat.eqb n vs w w1 pre rest (C42_healthy _ _ _ _ _ P) CF D LP E) as (bs & _ & D1 & _).
    rewrite D1, LP, blen_app. pose proof (blen_nonneg pre). match goal with |- context [blen (?a ++ ?b)] => pose proof (blen_nonneg (a ++ b)) end. lia. }
  destruct (C12_read_all hb hb' idf fac prog l sl R AC n _ w2 vs B E1) as [N HN]. exists N. intros m u L D Q. rewrite E2 in HN. apply HN; [exact L|exact D|exact Q].
Qed.
Print Assumptions C12_file.

(** ** examples *)
(** the two classes of PropsStatement.v, and objects of them *)
Definition order_c0 : cdef := Eval cbv -[latin1] in match classes order_cls 0 with Some cd => cd | None => Point end.
Definition order_c1 : cdef := Eval cbv -[latin1] in match classes order_cls 1 with Some cd => cd | None => Point end.
Lemma order_ct0 : classes order_cls 0 = Some order_c0. Proof. vm_compute. reflexivity. Qed.
Lemma order_ct1 : classes order_cls 1 = Some order_c1. Proof. vm_compute. reflexivity. Qed.
Definition order_small (r : Z) (on : bool) (a b c : byte) : value := VObj 0 None [("r", VInt r); ("on", VBool on); ("name", VBytes [a; b; c])].
Section Order.
Variable ct : nat -> option cdef.
Hypothesis CT0 : ct 0%nat = Some order_c0.
Hypothesis CT1 : ct 1%nat = Some order_c1.
Lemma small_canon : forall allow md n r on a b c, 0 <= r < 256 -> canonical false ct allow md (S n) (order_small r on a b c).
Proof.
  intros. unfold canonical, order_small. c_obj order_c0. c_in. cbn. unfold canon_st. cbn. unfold canon_fmt, expand. cbn. unfold in_range. cbn.
  destruct (0 <=? r) eqn:?, (r <? 256) eqn:?; try lia. 
Qed.
Lemma small_in : forall allow md n id pc uc r on a b c, 0 <= r < 256 -> canon false ct allow md (S (S n)) (SStructd id 0) pc uc [order_small r on a b c].
Proof. intros. cbn [canon canon_step]. eexists. split; [reflexivity|]. now apply (small_canon allow md n). Qed.
Lemma order_leaf_canon : forall md n kids, Forall (fun v => forall id pc uc, canon false ct Nat.eqb md (2 + n) (SStructd id 1) pc uc [v]) kids ->
  canonical false ct Nat.eqb md (4 + n) (order_leaf kids).
Proof.
  intros md n kids K. unfold canonical, order_leaf. c_obj order_c1.
  c_field. { vm_compute. reflexivity. }
  c_field. { c_open. eexists. split; [reflexivity|]. c_in. constructor; [apply (small_in _ _ n); lia|constructor]. }
  c_field. { c_open. eexists. split; [reflexivity|]. vm_compute. reflexivity. }
  c_field. { c_open. do 4 eexists. repeat split; try reflexivity. cbn. eauto. }
  c_field. { c_open. eexists. split; [reflexivity|]. c_in. vm_compute. reflexivity. }
  c_field. { c_open. eexists. split; [reflexivity|]. c_in. eapply Forall_impl; [|exact K]. intros v H. exact (H _ _ _). }
  split; reflexivity.
Qed.
Lemma order_leaf_in : forall md n kids id pc uc, Forall (fun v => forall id pc uc, canon false ct Nat.eqb md (2 + n) (SStructd id 1) pc uc [v]) kids ->
  canon false ct Nat.eqb md (5 + n) (SStructd id 1) pc uc [order_leaf kids].
Proof. intros. cbn [canon Nat.add canon_step]. eexists. split; [reflexivity|]. now apply (order_leaf_canon md n). Qed.
End Order.

(** a file of an object with objects of its own class and of another, of an object of that other class, and one more, written in the middle of a stream *)
Definition order_file : list value := [order_leaf [order_leaf []; order_leaf []]; order_small 200 false x00 xff x2e; order_leaf []].
Definition order_stream : world := W (fun _ => 4) (fun _ => None) [x01] [xaa; xbb; xcc] 2.
Lemma order_tree_canon : forall md, canonical false (classes order_cls) Nat.eqb md 9 (order_leaf [order_leaf []; order_leaf []]).
Proof.
  intros md. apply (order_leaf_canon _ order_ct0 order_ct1 md 5). repeat (apply Forall_cons; [intros id pc uc; apply (order_leaf_in _ order_ct0 order_ct1 md 2), Forall_nil|]). apply Forall_nil.
Qed.
Example C12_file_nontrivial :
  program URead back_idf back_fac order_prog order_cls /\ check_prog [] 0 order_prog = Some order_stmts /\ forallb regular_class order_stmts = true /\ anywhere_classes order_stmts /\
  Forall (canonical false (classes order_cls) Nat.eqb URead 9) order_file /\ Forall (conforms false (classes order_cls) Nat.eqb 9) order_file /\
  Forall (fun v => fin_of order_cls (PropsRoundTrip.class_of v) = false) order_file /\
  (let (r, w1) := write_all false (classes order_cls) 9 order_file order_stream in
   r = Ok tt /\ fst (read_all true (classes order_cls) 9 (map PropsRoundTrip.class_of order_file) (W (fun _ => 0) (fun _ => None) [] (w_data w1) 2)) = Ok order_file).
Proof.
  split; [exact (order_program URead)|]. split; [reflexivity|]. split; [vm_compute; reflexivity|]. split; [exact (proj1 (proj2 (proj2 C12_statement_nontrivial)))|].
  split; [apply Forall_cons; [apply order_tree_canon|]; apply Forall_cons; [apply (small_canon _ order_ct0 _ _ 8); lia|]; apply Forall_cons; [apply (order_leaf_canon _ order_ct0 order_ct1 URead 5), Forall_nil|apply Forall_nil]|].
  split; [repeat (apply Forall_cons; [unfold conforms; vm_compute; discriminate|]); apply Forall_nil|].
  split; [repeat (apply Forall_cons; [vm_compute; reflexivity|]); apply Forall_nil|].
  vm_compute. split; reflexivity.
Qed.
Example C12_exchange_nontrivial : (forall md, program md back_idf back_fac order_prog order_cls) /\ (forall md, canonical false (classes order_cls) Nat.eqb md 9 (order_leaf [order_leaf []; order_leaf []])) /\
  conforms false (classes order_cls) Nat.eqb 9 (order_leaf [order_leaf []; order_leaf []]) /\ fin_of order_cls 1 = false /\
  is_ok (fst (Structured_pack false (classes order_cls) 9 (order_leaf [order_leaf []; order_leaf []]) dirty)) = true.
Proof. split; [exact order_program|]. split; [exact order_tree_canon|]. split; [unfold conforms; vm_compute; discriminate|]. split; vm_compute; reflexivity. Qed.
