(** Property C44: the bytes of an instance, read off the class statements (WireSpec.v). *)
From Verif Require Import Base Floats Value StructMod Format Ser Exec Pure BaseFacts SerFacts RefPack User DecFacts Sample
  Wire Hints HintFacts Surface SerShape Programs Accept AcceptProg PropsProgram PropsAccept WireSpec WireFacts Wires.
Open Scope string_scope. Open Scope list_scope. Open Scope Z_scope.

(** What [pack] returns is the layout of the class statement: fields in the order of the annotations, inherited
    ones first; scalars in the byte order of the class (or of the instance), aligned only in native order and only
    within a run of fixed-size fields; lengths, counts and sizes in front of what they describe; tuples, unions
    and encoded strings in the machine's order; nothing else. *)
Theorem C44_pack : forall hb idf fac prog l sl allow n c ov d w b,
  run idf fac [] 0 prog = Ok l -> check_prog [] 0 prog = Some sl -> forallb regular_class sl = true ->
  healthy (classes l) allow -> conforms hb (classes l) allow n (VObj c ov d) ->
  fst (Structured_pack hb (classes l) n (VObj c ov d) w) = Ok b ->
  wire hb sl (S n) c ov d = Some b.
Proof.
  intros hb idf fac prog l sl allow n c ov d w b R CK RG H CF E.
  pose proof (prog_rel idf fac prog [] [] 0 nothing_defined) as P. rewrite CK in P.
  destruct P as (l' & Q & CR). assert (l' = l) as -> by congruence.
  apply (wire_complete hb allow sl l CR RG).
  destruct (user_pack hb (classes l) allow false n (VObj c ov d) KPack w H) as [X _]; [discriminate|exact CF|exact I|].
  unfold Structured_pack, do_pack in *. congruence.
Qed.
Print Assumptions C44_pack.
(** [pack_into] and [pack_write] put the same bytes into the buffer and the stream. *)
Theorem C44_pack_into : forall hb idf fac prog l sl allow n c ov d w off x,
  run idf fac [] 0 prog = Ok l -> check_prog [] 0 prog = Some sl -> forallb regular_class sl = true ->
  healthy (classes l) allow -> conforms hb (classes l) allow n (VObj c ov d) -> 0 <= off ->
  fst (Structured_pack_into hb (classes l) n (VObj c ov d) off w) = Ok x ->
  exists b, wire hb sl (S n) c ov d = Some b /\
    (off + blen b <= blen (w_buf w) ->
     w_buf (snd (Structured_pack_into hb (classes l) n (VObj c ov d) off w)) = overwrite (w_buf w) off b).
Proof.
  intros hb idf fac prog l sl allow n c ov d w off x R CK RG H CF OFF E.
  pose proof (prog_rel idf fac prog [] [] 0 nothing_defined) as P. rewrite CK in P.
  destruct P as (l' & Q & CR). assert (l' = l) as -> by congruence.
  pose proof (user_pack hb (classes l) allow false n (VObj c ov d) (KInto off) w H) as U.
  specialize (U ltac:(discriminate) CF OFF).
  unfold Structured_pack_into, do_pack in *.
  destruct (io_ok _ _ _ _ _ _ _ U E) as [b Eb]. exists b. split; [exact (wire_complete hb allow sl l CR RG _ _ _ _ _ Eb)|].
  rewrite Eb in U. cbn in U. destruct U as (_ & _ & _ & U & _). intros L. exact (proj2 (U L)).
Qed.
Print Assumptions C44_pack_into.
Theorem C44_pack_write : forall hb idf fac prog l sl allow n c ov d w x,
  run idf fac [] 0 prog = Ok l -> check_prog [] 0 prog = Some sl -> forallb regular_class sl = true ->
  healthy (classes l) allow -> conforms hb (classes l) allow n (VObj c ov d) -> 0 <= w_pos w ->
  fst (Structured_pack_write hb (classes l) n (VObj c ov d) w) = Ok x ->
  exists b, wire hb sl (S n) c ov d = Some b /\
    w_data (snd (Structured_pack_write hb (classes l) n (VObj c ov d) w)) = sput (w_data w) (w_pos w) b.
Proof.
  intros hb idf fac prog l sl allow n c ov d w x R CK RG H CF OFF E.
  pose proof (prog_rel idf fac prog [] [] 0 nothing_defined) as P. rewrite CK in P.
  destruct P as (l' & Q & CR). assert (l' = l) as -> by congruence.
  pose proof (user_pack hb (classes l) allow false n (VObj c ov d) KWrite w H) as U.
  specialize (U ltac:(discriminate) CF OFF).
  unfold Structured_pack_write, do_pack in *.
  destruct (io_ok _ _ _ _ _ _ _ U E) as [b Eb]. exists b. split; [exact (wire_complete hb allow sl l CR RG _ _ _ _ _ Eb)|].
  cbn in U. destruct U as (_ & _ & U). exact (proj1 (U b Eb)).
Qed.
Print Assumptions C44_pack_write.
(** For the programs of C42 nothing is left to assume about the class objects. *)
Theorem C44_program : forall hb md idf fac prog l sl n c ov d w b,
  program md idf fac prog l -> check_prog [] 0 prog = Some sl -> forallb regular_class sl = true ->
  conforms hb (classes l) Nat.eqb n (VObj c ov d) ->
  fst (Structured_pack hb (classes l) n (VObj c ov d) w) = Ok b ->
  wire hb sl (S n) c ov d = Some b.
Proof.
  intros hb md idf fac prog l sl n c ov d w b P CK RG CF E.
  eapply C44_pack; eauto; [exact (pr_run _ _ _ _ _ P)|exact (C42_healthy _ _ _ _ _ P)].
Qed.
Print Assumptions C44_program.

(** ** the layout does not depend on sharing *)
Section Mono.
Variable hb : bool.
Variables r1 r2 : nat -> option border -> list (string * value) -> option bytes.
Hypothesis R12 : forall c ov d b, r1 c ov d = Some b -> r2 c ov d = Some b.
Variable o : pobj.
Definition kept (x : hx) : Prop :=
  forall m v cs, chunks hb r1 o m x v = Some cs -> chunks hb r2 o m x v = Some cs.
Lemma omap_mono : forall (f g : value -> option (list chunk)) l r, (forall a b, f a = Some b -> g a = Some b) ->
  omap f l = Some r -> omap g l = Some r.
Proof.
  intros f g l. induction l as [|a l IH]; intros r H E; cbn in *; [exact E|].
  destruct (f a) as [b|] eqn:F; [|discriminate E]. rewrite (H _ _ F).
  destruct (omap f l) as [bs|]; [|discriminate E]. rewrite (IH bs H eq_refl). exact E.
Qed.
Lemma members_mono : forall m l, Forall kept l -> forall vs cs,
  members (chunks hb r1 o m) l vs = Some cs -> members (chunks hb r2 o m) l vs = Some cs.
Proof.
  intros m l H. induction H as [|x l K F IH]; intros vs cs E; cbn in *; [exact E|].
  destruct (chunks hb r1 o m x _) as [c|] eqn:X; [|discriminate E]. rewrite (K _ _ _ X).
  destruct (members (chunks hb r1 o m) l _) as [c'|] eqn:X'; [|discriminate E]. rewrite (IH _ _ X'). exact E.
Qed.
Lemma pick_mono : forall v d k m, Forall (fun p => kept (snd p)) m -> (forall x, d = Some x -> kept x) -> forall cs,
  pick (fun y => chunks hb r1 o (machine hb) y v) d k m = Some cs ->
  pick (fun y => chunks hb r2 o (machine hb) y v) d k m = Some cs.
Proof.
  intros v d k m H D. induction H as [|[k' x] m K F IH]; intros cs E; cbn in *.
  - destruct d as [y|]; [|discriminate E]. exact (D y eq_refl _ _ _ E).
  - destruct (key_eqb k k'); [exact (K _ _ _ E)|exact (IH _ E)].
Qed.
Lemma all_kept : forall x, kept x.
Proof.
  induction x using hx_ind'; intros mo v cs E; cbn [chunks] in *; try exact E.
  - destruct v as [w|]; [|discriminate E]. destruct (py_iter w) as [items|]; [|discriminate E].
    destruct (omap (fun i => chunks hb r1 o mo x (Some i)) items) as [ls|] eqn:O; [|discriminate E].
    rewrite (omap_mono _ (fun i => chunks hb r2 o mo x (Some i)) _ _ (fun a b => IHx mo (Some a) b) O). exact E.
  - destruct v as [w|]; [|discriminate E]. destruct (py_iter w) as [items|]; [|discriminate E].
    destruct (members (chunks hb r1 o (machine hb)) l items) as [c|] eqn:O; [|discriminate E].
    rewrite (members_mono _ _ H _ _ O). exact E.
  - destruct (f o) as [r|]; [|discriminate E].
    destruct (key_eqb r (VBool true)); [|exact E].
    destruct (chunks hb r1 o mo x v) as [c|] eqn:O; [|discriminate E]. rewrite (IHx _ _ _ O). exact E.
  - exact (IHx _ _ _ E).
  - destruct (f o) as [r|]; [|discriminate E]. destruct (hashable r); [|discriminate E].
    destruct (pick _ d r m) as [c|] eqn:O; [|discriminate E]. rewrite (pick_mono _ _ _ _ H0 H1 _ O). exact E.
  - destruct (f o) as [r|]; [|discriminate E]. destruct (hashable r); [|discriminate E].
    destruct (pick _ d r m) as [c|] eqn:O; [|discriminate E]. rewrite (pick_mono _ _ _ _ H0 H1 _ O). exact E.
  - destruct v as [w|]; [|discriminate E]. destruct w; try discriminate E.
    destruct (r1 _ _ _) as [b|] eqn:O; [|discriminate E]. rewrite (R12 _ _ _ _ O). exact E.
  - destruct v as [w|]; [|discriminate E]. destruct w; try discriminate E.
    destruct (r1 _ _ _) as [b|] eqn:O; [|discriminate E]. rewrite (R12 _ _ _ _ O). exact E.
Qed.
Lemma fields_mono : forall m d l cs, fields (chunks hb r1 o m) l d = Some cs -> fields (chunks hb r2 o m) l d = Some cs.
Proof.
  intros m d l. induction l as [|[a x] l IH]; intros cs E; cbn in *; [exact E|].
  assert (G : forall c, (if takes x then odo v <- assoc a d; chunks hb r1 o m x (Some v) else chunks hb r1 o m x None) = Some c ->
    (if takes x then odo v <- assoc a d; chunks hb r2 o m x (Some v) else chunks hb r2 o m x None) = Some c).
  { intros c Q. destruct (takes x); [destruct (assoc a d) as [v|]; [|discriminate Q]|]; exact (all_kept _ _ _ _ Q). }
  destruct (if takes x then odo v <- assoc a d; chunks hb r1 o m x (Some v) else chunks hb r1 o m x None) as [c|];
    [|discriminate E]. rewrite (G c eq_refl).
  destruct (fields (chunks hb r1 o m) l d) as [c'|]; [|discriminate E]. rewrite (IH c' eq_refl). exact E.
Qed.
End Mono.
Lemma wire_step : forall hb sl n c ov d b, wire hb sl n c ov d = Some b -> wire hb sl (S n) c ov d = Some b.
Proof.
  intros hb sl n. induction n as [|n IH]; intros c ov d b E; [discriminate E|].
  change (wire hb sl (S (S n)) c ov d) with
    (odo sc <- nth_error sl c;
     let m := mode_of hb (match ov with Some bo => bo | None => sc_bo sc end) in
     odo cs <- fields (chunks hb (wire hb sl (S n)) (PO c false d) m) (fields_of (sc_anns sc)) d;
     Some (lay (m_native m) 0 cs)).
  cbn [wire] in E. destruct (nth_error sl c) as [sc|]; [|discriminate E]. cbn zeta in *.
  destruct (fields (chunks hb (wire hb sl n) _ _) _ _) as [cs|] eqn:F; [|discriminate E].
  rewrite (fields_mono hb _ _ IH _ _ _ _ _ F). exact E.
Qed.
Lemma wire_mono : forall hb sl n n' c ov d b, (n <= n')%nat -> wire hb sl n c ov d = Some b -> wire hb sl n' c ov d = Some b.
Proof. intros hb sl n n' c ov d b L. induction L; intros E; [exact E|]. apply wire_step. auto. Qed.
(** The bytes of an instance do not depend on which serializer objects the library shares, nor on what was done
    before, nor on how much stack there is. *)
Theorem C44_sharing : forall hb prog sl idf fac l allow n w b idf' fac' l' allow' n' w' b' c ov d,
  check_prog [] 0 prog = Some sl -> forallb regular_class sl = true ->
  run idf fac [] 0 prog = Ok l -> healthy (classes l) allow -> conforms hb (classes l) allow n (VObj c ov d) ->
  fst (Structured_pack hb (classes l) n (VObj c ov d) w) = Ok b ->
  run idf' fac' [] 0 prog = Ok l' -> healthy (classes l') allow' -> conforms hb (classes l') allow' n' (VObj c ov d) ->
  fst (Structured_pack hb (classes l') n' (VObj c ov d) w') = Ok b' -> b = b'.
Proof.
  intros hb prog sl idf fac l allow n w b idf' fac' l' allow' n' w' b' c ov d CK RG R H CF E R' H' CF' E'.
  pose proof (C44_pack _ _ _ _ _ _ _ _ _ _ _ _ _ R CK RG H CF E) as A.
  pose proof (C44_pack _ _ _ _ _ _ _ _ _ _ _ _ _ R' CK RG H' CF' E') as A'.
  apply (wire_mono _ _ _ (Nat.max (S n) (S n'))) in A; [|lia]. apply (wire_mono _ _ _ (Nat.max (S n) (S n'))) in A'; [|lia].
  congruence.
Qed.
Print Assumptions C44_sharing.

(** ** examples *)
Definition sample_stmts : list sclass := match check_prog [] 0 sample_prog with Some sl => sl | None => [] end.
Definition header_obj : value := VObj 3 (Some BO_NET)
  [("x", VInt 1); ("y", VInt 2); ("z", VInt 3); ("color", VInt 9);
   ("origin", VObj 2 None [("x", VInt 1); ("y", VInt 2); ("z", VInt 3); ("color", VInt 7)]);
   ("body", VObj 1 None
     [("kind", VInt 1); ("name", VStr [65]); ("opt", VInt 6); ("payload", point 3 4);
      ("pts", VList []); ("kids", VList []); ("pair", VTuple [VInt (-1); VInt 2])]); ("rest", VStr [104; 105])].
(** The hypotheses are met by the program of C42, a tree of nodes, and an object with all of inheritance, an
    override, padding, a byte order of its own, a union and text to the end. *)
Example C44_nontrivial :
  program UBuf sample_idf sample_fac sample_prog sample_classes /\
  check_prog [] 0 sample_prog = Some sample_stmts /\ forallb regular_class sample_stmts = true /\
  conforms false (classes sample_classes) Nat.eqb 10 tree /\ conforms false (classes sample_classes) Nat.eqb 10 header_obj /\
  is_ok (fst (Structured_pack false (classes sample_classes) 10 tree dirty)) = true /\
  is_ok (fst (Structured_pack false (classes sample_classes) 10 header_obj dirty)) = true.
Proof.
  split; [exact (sample_program UBuf)|]. split; [vm_compute; reflexivity|]. split; [vm_compute; reflexivity|].
  split; [unfold conforms; vm_compute; congruence|]. split; [unfold conforms; vm_compute; congruence|].
  split; vm_compute; reflexivity.
Qed.
(** what the layout says about them *)
Example C44_layout :
  (match tree with VObj c ov d => wire false sample_stmts 11 c ov d | _ => None end) = Some
  [x01; x03; x48; x69; xff; x63; x00; x00; x00; x03; x00; xfc; xff;
   x02; x00; x08; x00; x01; x00; x02; x00; x05; x00; x06; x00;
   x02; x00; x01; x41; x01; x02; x00; x00; x00; x00; x00; xff; x00; x02; x00;
       x00; x01; x41; x01; x02; x00; x00; x00; x00; x00; xff; x00; x02; x00;
   x07; x00; x08; x00] /\
  (match header_obj with VObj c ov d => wire false sample_stmts 11 c ov d | _ => None end) = Some
  [x00; x00; x00; x01; x00; x02; x00; x03; x00; x00; x09;
   x01; x00; x02; x00; x03; x00; x00; x00; x07;
   x01; x01; x41; x06; x00; x00; x00; x03; x00; x04; x00; x00; x00; x00; x00; x00; xff; x00; x02; x00; x68; x69].
Proof. split; vm_compute; reflexivity. Qed.

(** Without [regular_class] the statement is false: [char[0]] has an attribute, but its serializer is the null
    serializer, which has no value (serializers/structs.py:187-191), so its value goes to the next field.  Here [b] is
    written with the value of [a], and the value of [b] is lost. *)
Definition zero_prog : list stmt :=
  [Stmt [("a", XChar (KInt 0)); ("b", XChar (KUint CB))] None BO_DEFAULT STRICT false].
Definition zero_obj : list (string * value) := [("a", VBytes [x61; x62]); ("b", VBytes [x63])].
Theorem C44_zero_length_refuted : exists l sl b,
  run (fun _ _ => 5%nat) (fun _ _ => 6%nat) [] 0 zero_prog = Ok l /\ check_prog [] 0 zero_prog = Some sl /\
  conforms false (classes l) Nat.eqb 5 (VObj 0 None zero_obj) /\
  fst (Structured_pack false (classes l) 5 (VObj 0 None zero_obj) clean) = Ok b /\
  b = [x02; x61; x62] /\ wire false sl 6 0 None zero_obj = Some [x01; x63].
Proof.
  eexists _, _, _. split; [vm_compute; reflexivity|]. split; [vm_compute; reflexivity|].
  split; [unfold conforms; vm_compute; congruence|]. split; [vm_compute; reflexivity|]. split; vm_compute; reflexivity.
Qed.
Print Assumptions C44_zero_length_refuted.
