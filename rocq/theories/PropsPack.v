(** Property C49: which instances can be packed, read off the class statements (PackSpec.v). *)
From Verif Require Import Base Floats Value StructMod Format Ser Exec Pure BaseFacts SerFacts RefPack User DecFacts Sample Fuel
  Wire Hints HintFacts Surface SerShape Programs Accept AcceptProg PropsProgram PropsAccept WireSpec WireFacts Wires PropsWire
  PackSpec Packable Packing.
Open Scope string_scope. Open Scope list_scope. Open Scope Z_scope.

(** [pack] returns [b] exactly when [b] is the layout of the instance and the instance is one that can be packed
    (unless the stack is exhausted on the way). *)
Theorem C49_pack : forall hb idf fac prog l sl allow n c ov d w b,
  run idf fac [] 0 prog = Ok l -> check_prog [] 0 prog = Some sl -> forallb regular_class sl = true ->
  healthy (classes l) allow -> conforms hb (classes l) allow n (VObj c ov d) ->
  fst (Structured_pack hb (classes l) n (VObj c ov d) w) <> Err RecursionError ->
  (fst (Structured_pack hb (classes l) n (VObj c ov d) w) = Ok b <->
   wire hb sl (S n) c ov d = Some b /\ packable allow sl (S n) c ov d = true).
Proof.
  intros hb idf fac prog l sl allow n c ov d w b R CK RG H CF NR.
  pose proof (prog_rel idf fac prog [] [] 0 nothing_defined) as P. rewrite CK in P.
  destruct P as (l' & Q & CR). assert (l' = l) as -> by congruence.
  destruct (user_pack hb (classes l) allow false n (VObj c ov d) KPack w H) as [X _]; [discriminate|exact CF|exact I|].
  unfold Structured_pack, do_pack in *. rewrite X in *. split.
  - intros E. split; [apply (wire_complete hb allow sl l CR RG); exact E|apply (packed_fits sl l CR RG hb allow n c ov d b E)].
  - intros [W F]. destruct (obj_sent sl l CR RG hb allow _ _ _ _ _ _ W F) as [k E].
    change (enc_obj hb (classes l) allow k (VObj c ov d) = Ok b) in E.
    apply (rle_ok _ _ _ _ (enc_obj_le hb (classes l) allow k (Nat.max k n) (VObj c ov d) ltac:(lia))) in E.
    destruct (enc_obj_le hb (classes l) allow n (Nat.max k n) (VObj c ov d) ltac:(lia)) as [Z|Z]; congruence.
Qed.
Print Assumptions C49_pack.
(** An instance that has a layout and can be packed is packed, by all three methods, given enough stack. *)
Theorem C49_enough : forall hb idf fac prog l sl allow N N' c ov d b,
  run idf fac [] 0 prog = Ok l -> check_prog [] 0 prog = Some sl -> forallb regular_class sl = true ->
  healthy (classes l) allow -> wire hb sl N c ov d = Some b -> packable allow sl N' c ov d = true ->
  exists k, forall n w, (k <= n)%nat ->
    conforms hb (classes l) allow n (VObj c ov d) /\
    fst (Structured_pack hb (classes l) n (VObj c ov d) w) = Ok b /\
    (0 <= w_pos w ->
      fst (Structured_pack_write hb (classes l) n (VObj c ov d) w) = Ok [] /\
      w_data (snd (Structured_pack_write hb (classes l) n (VObj c ov d) w)) = sput (w_data w) (w_pos w) b) /\
    (forall off, 0 <= off -> off + blen b <= blen (w_buf w) ->
      fst (Structured_pack_into hb (classes l) n (VObj c ov d) off w) = Ok [] /\
      w_buf (snd (Structured_pack_into hb (classes l) n (VObj c ov d) off w)) = overwrite (w_buf w) off b).
Proof.
  intros hb idf fac prog l sl allow N N' c ov d b R CK RG H W F.
  pose proof (prog_rel idf fac prog [] [] 0 nothing_defined) as P. rewrite CK in P.
  destruct P as (l' & Q & CR). assert (l' = l) as -> by congruence.
  destruct (obj_sent sl l CR RG hb allow _ _ _ _ _ _ W F) as [k E]. exists k. intros n w L.
  change (enc_obj hb (classes l) allow k (VObj c ov d) = Ok b) in E.
  apply (rle_ok _ _ _ _ (enc_obj_le hb (classes l) allow k n (VObj c ov d) L)) in E.
  assert (CF : conforms hb (classes l) allow n (VObj c ov d)) by (unfold conforms; congruence). split; [exact CF|].
  split; [|split].
  - destruct (user_pack hb (classes l) allow false n (VObj c ov d) KPack w H) as [X _]; [discriminate|exact CF|exact I|].
    unfold Structured_pack, do_pack in *. congruence.
  - intros PO. pose proof (user_pack hb (classes l) allow false n (VObj c ov d) KWrite w H ltac:(discriminate) CF PO) as U.
    rewrite E in U. destruct U as (X & _ & U). unfold Structured_pack_write, do_pack in *. split; [exact X|exact (proj1 (U b eq_refl))].
  - intros off OFF LE. pose proof (user_pack hb (classes l) allow false n (VObj c ov d) (KInto off) w H ltac:(discriminate) CF OFF) as U.
    rewrite E in U. destruct U as (_ & _ & _ & U & _). unfold Structured_pack_into, do_pack in *. exact (U LE).
Qed.
Print Assumptions C49_enough.
(** For every other instance [pack] raises an exception, whatever the stack. *)
Theorem C49_otherwise : forall hb idf fac prog l sl allow c ov d,
  run idf fac [] 0 prog = Ok l -> check_prog [] 0 prog = Some sl -> forallb regular_class sl = true ->
  healthy (classes l) allow ->
  (forall N, wire hb sl N c ov d = None \/ packable allow sl N c ov d = false) ->
  forall n w, conforms hb (classes l) allow n (VObj c ov d) ->
  exists e, fst (Structured_pack hb (classes l) n (VObj c ov d) w) = Err e.
Proof.
  intros hb idf fac prog l sl allow c ov d R CK RG H NO n w CF.
  destruct (fst (Structured_pack hb (classes l) n (VObj c ov d) w)) as [b|e] eqn:E; [|eauto]. exfalso.
  assert (NR : fst (Structured_pack hb (classes l) n (VObj c ov d) w) <> Err RecursionError) by congruence.
  destruct (proj1 (C49_pack hb idf fac prog l sl allow n c ov d w b R CK RG H CF NR) E). destruct (NO (S n)); congruence.
Qed.
Print Assumptions C49_otherwise.
(** For the programs of C42 nothing is left to assume about the class objects. *)
Theorem C49_program : forall hb md idf fac prog l sl n c ov d w b,
  program md idf fac prog l -> check_prog [] 0 prog = Some sl -> forallb regular_class sl = true ->
  conforms hb (classes l) Nat.eqb n (VObj c ov d) ->
  fst (Structured_pack hb (classes l) n (VObj c ov d) w) <> Err RecursionError ->
  (fst (Structured_pack hb (classes l) n (VObj c ov d) w) = Ok b <->
   wire hb sl (S n) c ov d = Some b /\ packable Nat.eqb sl (S n) c ov d = true).
Proof.
  intros hb md idf fac prog l sl n c ov d w b P CK RG CF NR.
  eapply C49_pack; eauto; [exact (pr_run _ _ _ _ _ P)|exact (C42_healthy _ _ _ _ _ P)].
Qed.
Print Assumptions C49_program.

(** ** examples *)
(** The hypotheses are met by the program of C42 with a tree of nodes and with the object of C44; both can be
    packed.   *)
Definition fits_at (v : value) : bool := match v with VObj c ov d => packable Nat.eqb sample_stmts 11 c ov d | _ => false end.
Example C49_nontrivial :
  program UBuf sample_idf sample_fac sample_prog sample_classes /\
  check_prog [] 0 sample_prog = Some sample_stmts /\ forallb regular_class sample_stmts = true /\
  conforms false (classes sample_classes) Nat.eqb 10 tree /\ conforms false (classes sample_classes) Nat.eqb 10 header_obj /\
  fits_at tree = true /\ fits_at header_obj = true.
Proof.
  split; [exact (sample_program UBuf)|]. split; [vm_compute; reflexivity|]. split; [vm_compute; reflexivity|].
  split; [unfold conforms; vm_compute; congruence|]. split; [unfold conforms; vm_compute; congruence|].
  split; vm_compute; reflexivity.
Qed.

(** Having a layout is not enough.  Each class of the following program has one field, and each of the instances
    has a layout that the library does not write:
    - an empty string with a length in front;
    - a string with a length in front, in a class of another byte order than the machine's standard one;
    - an array of paddings;
    - an empty array of items under a condition that cannot be evaluated;
    - a condition that holds, on a field of the class itself;
    - a tuple of fixed-size members with more values than members. *)
Definition u8 : hx := XBasic CB.
Definition odd_prog : list stmt :=
  [Stmt [("s", XChar (KUint CB))] None BO_DEFAULT STRICT false;
   Stmt [("s", XChar (KUint CH))] None BO_BE STRICT false;
   Stmt [("u", XArray (inl 2) None (XPad 2))] None BO_DEFAULT STRICT false;
   Stmt [("l", XArray (inr CB) None (XCond u8 (fun _ => Err AttributeError) [VInt 0]))] None BO_DEFAULT STRICT false;
   Stmt [("more", XBasic Cbool); ("next", XCond XSelf (fld_is "more" 1) [VInt 0])] None BO_DEFAULT STRICT false;
   Stmt [("t", XTuple [u8; u8])] None BO_DEFAULT STRICT false].
Definition odd_idf (k : nat) (p : list nat) : nat := (10 + 10 * k + List.length p)%nat.
Definition odd_fac (k : akind) (a : list pyh) : nat := 7%nat.
Definition odd_objs : list value :=
  [VObj 0 None [("s", VBytes [])];
   VObj 1 None [("s", VBytes [x61])];
   VObj 2 None [("u", VList [VInt 0; VInt 0])];
   VObj 3 None [("l", VList [])];
   VObj 4 None [("more", VBool true); ("next", VObj 4 None [("more", VBool false); ("next", VInt 0)])];
   VObj 5 None [("t", VTuple [VInt 1; VInt 2; VInt 3])]].
Theorem C49_layout_is_enough_refuted : exists l sl,
  run odd_idf odd_fac [] 0 odd_prog = Ok l /\ check_prog [] 0 odd_prog = Some sl /\ forallb regular_class sl = true /\
  Forall (fun v => match v with
    | VObj c ov d => wire false sl 6 c ov d <> None /\ packable Nat.eqb sl 6 c ov d = false /\
        is_ok (fst (Structured_pack false (classes l) 5 v clean)) = false
    | _ => False end) odd_objs.
Proof.
  eexists _, _. split; [vm_compute; reflexivity|]. split; [vm_compute; reflexivity|]. split; [vm_compute; reflexivity|].
  repeat (constructor; [split; [vm_compute; discriminate|split; vm_compute; reflexivity]|]). constructor.
Qed.
Print Assumptions C49_layout_is_enough_refuted.
(** Without those there is a layout and it is written. *)
Definition even_objs : list value :=
  [VObj 0 None [("s", VBytes [x61])];
   VObj 4 None [("more", VBool false); ("next", VInt 0)];
   VObj 5 None [("t", VTuple [VInt 1; VInt 2])]].
Example C49_even : exists l sl, run odd_idf odd_fac [] 0 odd_prog = Ok l /\ check_prog [] 0 odd_prog = Some sl /\
  Forall (fun v => match v with
    | VObj c ov d => packable Nat.eqb sl 6 c ov d = true /\
        exists b, wire false sl 6 c ov d = Some b /\ fst (Structured_pack false (classes l) 5 v clean) = Ok b
    | _ => False end) even_objs.
Proof.
  eexists _, _. split; [vm_compute; reflexivity|]. split; [vm_compute; reflexivity|].
  repeat (constructor; [split; [vm_compute; reflexivity|eexists; split; vm_compute; reflexivity]|]). constructor.
Qed.
