(** Property C46: what arbitrary bytes mean, read off the class statements (ReadSpec.v). *)
From Verif Require Import Base Floats Value StructMod Format Ser Exec Pure BaseFacts SerFacts RefPack RefUnpack User Fuel DecFacts Sample
  Canon RoundTrip PropsRoundTrip Wire Hints HintFacts Surface SerShape Programs Accept AcceptProg PropsProgram PropsAccept WireSpec WireFacts Wires
  PropsWire ReadSpec ReadFacts Reads.
Open Scope string_scope. Open Scope list_scope. Open Scope Z_scope.

Definition reading (idf : nat -> list nat -> nat) (fac : akind -> list pyh -> nat) (prog : list stmt) (l : list cinfo)
  (sl : list sclass) (md : umode) : Prop :=
  run idf fac [] 0 prog = Ok l /\ check_prog [] 0 prog = Some sl /\ forallb regular_class sl = true /\
  (exists allow, healthy (classes l) allow) /\ classes_hu (classes l) md.
Lemma reading_agree : forall hb md idf fac prog l sl, reading idf fac prog l sl md -> forall n, exists B, forall c b,
  agree n B (fun k => opt (dcreate hb (classes l) md k c b)) (parse hb md sl n c b).
Proof.
  intros hb md idf fac prog l sl (R & CK & RG & (allow & TT & CO) & _) n.
  pose proof (prog_rel idf fac prog [] [] 0 nothing_defined) as P. rewrite CK in P.
  destruct P as (l' & Q & CR). assert (l' = l) as -> by congruence.
  apply (parse_agree hb md sl l CR RG TT). intros c cd E. destruct CO as [CO _]. apply (CO c cd E).
Qed.
Lemma reading_create : forall hb md idf fac prog l sl n c s w, reading idf fac prog l sl md -> md_of s = md -> srcok s w ->
  fst (create_step hb (classes l) (unpack hb (classes l) n) c s w) = rmap fst (dcreate hb (classes l) md n c (suffix s w)) /\
  pos_spec s w (snd (create_step hb (classes l) (unpack hb (classes l) n) c s w)) (rmap snd (dcreate hb (classes l) md n c (suffix s w))).
Proof.
  intros hb md idf fac prog l sl n c s w (_ & _ & _ & (allow & H) & HU) M OK.
  destruct (user_create hb (classes l) allow md n c s w H HU M OK) as (A & _ & _ & P & _). auto.
Qed.
Lemma sound : forall hb md idf fac prog l sl n c s w v, reading idf fac prog l sl md -> md_of s = md -> srcok s w ->
  fst (create_step hb (classes l) (unpack hb (classes l) n) c s w) = Ok v ->
  exists k, parse hb md sl (S n) c (suffix s w) = Some (v, k) /\
    w_pos (snd (create_step hb (classes l) (unpack hb (classes l) n) c s w)) = posn s k w.
Proof.
  intros hb md idf fac prog l sl n c s w v R M OK E. destruct (reading_create hb md idf fac prog l sl n c s w R M OK) as [A P]. rewrite A in E.
  destruct (dcreate hb (classes l) md n c (suffix s w)) as [[v' k]|] eqn:D; [|discriminate]. injection E as ->. exists k.
  destruct (reading_agree hb md idf fac prog l sl R (S n)) as [B AG]. destruct (AG c (suffix s w) n (v, k)) as [Q _].
  split; [apply Q; [lia|now rewrite D]|]. cbn in P. apply P.
Qed.
Lemma complete : forall hb md idf fac prog l sl d c b v k, reading idf fac prog l sl md -> parse hb md sl d c b = Some (v, k) ->
  exists N, forall n s w, (N <= n)%nat -> md_of s = md -> srcok s w -> suffix s w = b ->
  fst (create_step hb (classes l) (unpack hb (classes l) n) c s w) = Ok v.
Proof.
  intros hb md idf fac prog l sl d c b v k R E. destruct (reading_agree hb md idf fac prog l sl R d) as [B AG]. exists B. intros n s w LE M OK SX.
  destruct (reading_create hb md idf fac prog l sl n c s w R M OK) as [A _]. rewrite A, SX. destruct (AG c b n (v, k)) as [_ Q]. specialize (Q LE E).
  destruct (dcreate hb (classes l) md n c b) as [r|]; [|discriminate]. cbn in Q. injection Q as ->. reflexivity.
Qed.

(** What [create_unpack] returns is what the class statement says about the bytes: fields in the order of the
    annotations, inherited ones first; scalars in the byte order of the class, aligned only in native order and
    only within a run of fixed-size fields; lengths, counts and sizes in front of what they describe. *)
Theorem C46_create_unpack : forall hb idf fac prog l sl n c b w v,
  reading idf fac prog l sl UBuf ->
  fst (create_unpack hb (classes l) n c b w) = Ok v ->
  exists k, parse hb UBuf sl (S n) c b = Some (v, k).
Proof.
  intros hb idf fac prog l sl n c b w v R E. destruct (sound hb UBuf idf fac prog l sl n c (SBuf b) w v R eq_refl I E) as (k & P & _). eauto.
Qed.
Print Assumptions C46_create_unpack.
Theorem C46_create_unpack_from : forall hb idf fac prog l sl n c b off w v,
  reading idf fac prog l sl UFrom -> 0 <= off <= blen b ->
  fst (create_unpack_from hb (classes l) n c b off w) = Ok v ->
  exists k, parse hb UFrom sl (S n) c (skipn (Z.to_nat off) b) = Some (v, k).
Proof.
  intros hb idf fac prog l sl n c b off w v R OFF E. destruct (sound hb UFrom idf fac prog l sl n c (SFrom b off) w v R eq_refl OFF E) as (k & P & _). eauto.
Qed.
Print Assumptions C46_create_unpack_from.
(** ... and the stream is left after what was read, or at its end. *)
Theorem C46_create_unpack_read : forall hb idf fac prog l sl n c w v,
  reading idf fac prog l sl URead -> 0 <= w_pos w ->
  fst (create_unpack_read hb (classes l) n c w) = Ok v ->
  let rest := skipn (Z.to_nat (w_pos w)) (w_data w) in
  exists k, parse hb URead sl (S n) c rest = Some (v, k) /\
    w_pos (snd (create_unpack_read hb (classes l) n c w)) = w_pos w + Z.min k (blen rest).
Proof.
  intros hb idf fac prog l sl n c w v R POS E. exact (sound hb URead idf fac prog l sl n c SRead w v R eq_refl POS E).
Qed.
Print Assumptions C46_create_unpack_read.
(** Conversely, what the class statements make of the bytes is returned by all calls with enough stack. *)
Theorem C46_complete : forall hb idf fac prog l sl d c b v k,
  reading idf fac prog l sl UBuf -> parse hb UBuf sl d c b = Some (v, k) ->
  exists N, forall n w, (N <= n)%nat -> fst (create_unpack hb (classes l) n c b w) = Ok v.
Proof.
  intros hb idf fac prog l sl d c b v k R E. destruct (complete hb UBuf idf fac prog l sl d c b v k R E) as [N H]. exists N. intros n w L.
  exact (H n (SBuf b) w L eq_refl I eq_refl).
Qed.
Print Assumptions C46_complete.
Theorem C46_complete_from : forall hb idf fac prog l sl d c pre b v k,
  reading idf fac prog l sl UFrom -> parse hb UFrom sl d c b = Some (v, k) ->
  exists N, forall n w, (N <= n)%nat -> fst (create_unpack_from hb (classes l) n c (pre ++ b) (blen pre) w) = Ok v.
Proof.
  intros hb idf fac prog l sl d c pre b v k R E. destruct (complete hb UFrom idf fac prog l sl d c b v k R E) as [N H]. exists N. intros n w L.
  apply (H n (SFrom (pre ++ b) (blen pre)) w L eq_refl).
  - cbn. unfold blen. rewrite app_length. lia.
  - cbn. unfold blen. now rewrite Nat2Z.id, skipn_app, skipn_all, Nat.sub_diag.
Qed.
Print Assumptions C46_complete_from.
Theorem C46_complete_read : forall hb idf fac prog l sl d c pre b v k,
  reading idf fac prog l sl URead -> parse hb URead sl d c b = Some (v, k) ->
  exists N, forall n w, (N <= n)%nat -> w_data w = pre ++ b -> w_pos w = blen pre ->
    fst (create_unpack_read hb (classes l) n c w) = Ok v /\
    w_pos (snd (create_unpack_read hb (classes l) n c w)) = blen pre + Z.min k (blen b).
Proof.
  intros hb idf fac prog l sl d c pre b v k R E. destruct (reading_agree hb URead idf fac prog l sl R d) as [B AG]. exists B. intros n w LE D P.
  assert (SX : suffix SRead w = b) by (cbn; rewrite D, P; unfold blen; now rewrite Nat2Z.id, skipn_app, skipn_all, Nat.sub_diag).
  assert (OK : srcok SRead w) by (cbn; unfold blen in P; lia).
  destruct (reading_create hb URead idf fac prog l sl n c SRead w R eq_refl OK) as [A PS]. rewrite SX in A, PS.
  destruct (AG c b n (v, k)) as [_ Q]. specialize (Q LE E). destruct (dcreate hb (classes l) URead n c b) as [r|]; [|discriminate].
  cbn in Q. injection Q as ->. split; [exact A|]. cbn [rmap snd pos_spec] in PS. destruct PS as (_ & _ & PS). unfold create_unpack_read. rewrite PS. cbn [posn].
  rewrite SX, P. reflexivity.
Qed.
Print Assumptions C46_complete_read.
(** One meaning: what is read does not depend on the depth allowed, on which serializer objects the library
    shares, nor on what was done before. *)
Theorem C46_unique : forall hb md idf fac prog l sl d d' c b r r', reading idf fac prog l sl md ->
  parse hb md sl d c b = Some r -> parse hb md sl d' c b = Some r' -> r = r'.
Proof.
  intros hb md idf fac prog l sl d d' c b r r' R E E'.
  destruct (reading_agree hb md idf fac prog l sl R d) as [B AG]. destruct (reading_agree hb md idf fac prog l sl R d') as [B' AG'].
  destruct (AG c b (Nat.max B B') r) as [_ Q]. destruct (AG' c b (Nat.max B B') r') as [_ Q']. specialize (Q ltac:(lia) E). specialize (Q' ltac:(lia) E'). congruence.
Qed.
Print Assumptions C46_unique.
Theorem C46_sharing : forall hb prog sl idf fac l n w v idf' fac' l' n' w' v' c b,
  reading idf fac prog l sl UBuf -> fst (create_unpack hb (classes l) n c b w) = Ok v ->
  reading idf' fac' prog l' sl UBuf -> fst (create_unpack hb (classes l') n' c b w') = Ok v' -> v = v'.
Proof.
  intros hb prog sl idf fac l n w v idf' fac' l' n' w' v' c b R E R' E'.
  destruct (C46_create_unpack _ _ _ _ _ _ _ _ _ _ _ R E) as [k P]. destruct (C46_create_unpack _ _ _ _ _ _ _ _ _ _ _ R' E') as [k' P'].
  pose proof (C46_unique _ _ _ _ _ _ _ _ _ _ _ _ _ R P P') as Q. congruence.
Qed.
Print Assumptions C46_sharing.
(** For the programs of C42 nothing is left to assume about the class objects. *)
Theorem C46_program : forall md idf fac prog l sl, program md idf fac prog l ->
  check_prog [] 0 prog = Some sl -> forallb regular_class sl = true -> reading idf fac prog l sl md.
Proof.
  intros md idf fac prog l sl P CK RG. split; [exact (pr_run _ _ _ _ _ P)|]. split; [exact CK|]. split; [exact RG|].
  split; [exists Nat.eqb; exact (C42_healthy _ _ _ _ _ P)|]. exact (proj1 (C42_reads_back false _ _ _ _ _ P)).
Qed.
Print Assumptions C46_program.
(** The two descriptions fit together: the meaning of the layout of an instance is the instance. *)
Theorem C46_wire_parse : forall hb idf fac prog l sl n c d w b, program UBuf idf fac prog l ->
  check_prog [] 0 prog = Some sl -> forallb regular_class sl = true ->
  canonical hb (classes l) Nat.eqb UBuf n (VObj c None d) -> conforms hb (classes l) Nat.eqb n (VObj c None d) ->
  fst (Structured_pack hb (classes l) n (VObj c None d) w) = Ok b ->
  exists k, wire hb sl (S n) c None d = Some b /\ parse hb UBuf sl (S n) c b = Some (VObj c None d, k).
Proof.
  intros hb idf fac prog l sl n c d w b P CK RG CN CF E.
  pose proof (C42_round_trip hb idf fac prog l n n c d w w b P CN CF (le_n n) E) as U.
  destruct (C46_create_unpack _ _ _ _ _ _ _ _ _ _ _ (C46_program _ _ _ _ _ _ P CK RG) U) as [k K].
  exists k. split; [exact (C44_program _ _ _ _ _ _ _ _ _ _ _ _ _ P CK RG CF E)|exact K].
Qed.
Print Assumptions C46_wire_parse.

(** ** examples *)
Definition header_bytes : bytes :=
  [x01; x00; x00; x00; x02; x00; x03; x00; x00; x00; x09;
   x01; x00; x02; x00; x03; x00; x00; x00; x07; x00; x05; x06; x00; x68; x69].
Definition header_meaning : value :=
  VObj 3 None [("x", VInt 1); ("y", VInt 2); ("z", VInt 3); ("color", VTuple [VInt 9]);
    ("origin", VObj 2 None [("x", VInt 1); ("y", VInt 2); ("z", VInt 3); ("color", VTuple [VInt 7])]);
    ("body", VObj 0 None [("x", VInt 1280); ("y", VInt 6)]); ("rest", VStr [104; 105])].
(** The hypotheses are met by the program of C42; the bytes were not written by the library. *)
Example C46_nontrivial :
  (forall md, reading sample_idf sample_fac sample_prog sample_classes sample_stmts md) /\
  fst (create_unpack false (classes sample_classes) 4 3 header_bytes dirty) = Ok header_meaning /\
  parse false UBuf sample_stmts 5 3 header_bytes = Some (header_meaning, 26) /\
  parse false UFrom sample_stmts 5 3 header_bytes = Some (header_meaning, 26) /\
  parse false URead sample_stmts 5 3 header_bytes = Some (header_meaning, 26).
Proof.
  split; [intros md; apply C46_program; [exact (sample_program md)|vm_compute; reflexivity|vm_compute; reflexivity]|].
  repeat split; vm_compute; reflexivity.
Qed.
(** a tree of nodes followed by other bytes; cut short it means nothing *)
Example C46_tree :
  let b := match tree with VObj c ov d => wire false sample_stmts 11 c ov d | _ => None end in
  match b with
  | Some b => parse false UBuf sample_stmts 4 1 (b ++ [x00; xff]) = Some (tree, blen b) /\
              parse false UBuf sample_stmts 9 1 (firstn 57 b) = None /\ blen b = 58
  | None => False
  end.
Proof. vm_compute. auto. Qed.
(** alignment in native order, and the padding in front of a field of a run *)
Example C46_native :
  let sl := [SC [("a", XBasic CB); ("b", XBasic CI); ("s", XChar (KUint CB)); ("c", XBasic CH)] BO_NNAT false] in
  parse false UBuf sl 1 0 [x01; xee; xee; xee; x02; x00; x00; x00; x01; x41; x03; x00] =
  Some (VObj 0 None [("a", VInt 1); ("b", VInt 2); ("s", VBytes [x41]); ("c", VInt 3)], 12).
Proof. vm_compute. reflexivity. Qed.
(** Without [regular_class] the statement is false: [char[0]] has an attribute, but its serializer is the null
    serializer, which produces no value (serializers/structs.py:187-191), so the value of [b] goes to [a] and none is
    left for [b]. *)
Theorem C46_zero_length_refuted : exists l sl,
  run (fun _ _ => 5%nat) (fun _ _ => 6%nat) [] 0 zero_prog = Ok l /\ check_prog [] 0 zero_prog = Some sl /\
  parse false UBuf sl 6 0 [x01; x63] = Some (VObj 0 None [("b", VBytes [x63])], 2) /\
  fst (create_unpack false (classes l) 5 0 [x01; x63] clean) = Err ValueError.
Proof.
  eexists _, _. split; [vm_compute; reflexivity|]. split; [vm_compute; reflexivity|]. split; vm_compute; reflexivity.
Qed.
Print Assumptions C46_zero_length_refuted.
