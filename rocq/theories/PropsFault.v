(** Property C56: why reading fails, read off the class statements (FaultSpec.v). *)
From Verif Require Import Base Floats Value StructMod Format Ser Exec Pure BaseFacts SerFacts RefPack RefUnpack User Fuel DecFacts Sample
  Canon RoundTrip PropsRoundTrip Wire Hints HintFacts Surface SerShape Programs Accept AcceptProg PropsProgram PropsAccept WireSpec WireFacts Wires
  PropsWire ReadSpec ReadFacts Reads PropsReads FaultSpec Faults Raising Determined.
Open Scope string_scope. Open Scope list_scope. Open Scope Z_scope.

Lemma create_fault : forall hb md idf fac prog l sl n L c s w e, reading idf fac prog l sl md -> md_of s = md -> srcok s w -> (n < L)%nat ->
  fst (create_step hb (classes l) (unpack hb (classes l) n) c s w) = Err e -> e <> RecursionError ->
  why_unread hb md sl L c (suffix s w) = Some e \/ why_unread hb md sl L c (suffix s w) = Some Unspecified.
Proof.
  intros hb md idf fac prog l sl n L c s w e R M OK LT E NE. destruct (reading_create hb md idf fac prog l sl n c s w R M OK) as [A _]. rewrite A in E.
  destruct R as (R & CK & RG & (allow & TT & CO) & _). pose proof (prog_rel idf fac prog [] [] 0 nothing_defined) as P. rewrite CK in P.
  destruct P as (l' & Q & CR). assert (l' = l) as -> by congruence.
  assert (HC : forall c cd, classes l c = Some cd -> hc (classes l) TT c (c_ser cd) = true) by (intros c' cd E'; destruct CO as [CO _]; apply (CO c' cd E')).
  pose proof (create_le hb md sl l CR RG TT HC L n c (suffix s w) LT) as G.
  destruct (dcreate hb (classes l) md n c (suffix s w)) as [p|e'] eqn:D; [discriminate|]. cbn in E. injection E as ->. cbn in G.
  destruct G as [G|[G|[G|G]]]; [discriminate|congruence|now right|now left].
Qed.
(** [create_unpack] raises the exception that the class statement gives for the bytes, or RecursionError. *)
Theorem C56_create_unpack : forall hb idf fac prog l sl n L c b w e,
  reading idf fac prog l sl UBuf -> (n < L)%nat ->
  fst (create_unpack hb (classes l) n c b w) = Err e -> e <> RecursionError ->
  why_unread hb UBuf sl L c b = Some e \/ why_unread hb UBuf sl L c b = Some Unspecified.
Proof.
  intros hb idf fac prog l sl n L c b w e R LT E NE.
  exact (create_fault hb UBuf idf fac prog l sl n L c (SBuf b) w e R eq_refl I LT E NE).
Qed.
Print Assumptions C56_create_unpack.
Theorem C56_create_unpack_from : forall hb idf fac prog l sl n L c b off w e,
  reading idf fac prog l sl UFrom -> (n < L)%nat -> 0 <= off <= blen b ->
  fst (create_unpack_from hb (classes l) n c b off w) = Err e -> e <> RecursionError ->
  let rest := skipn (Z.to_nat off) b in
  why_unread hb UFrom sl L c rest = Some e \/ why_unread hb UFrom sl L c rest = Some Unspecified.
Proof.
  intros hb idf fac prog l sl n L c b off w e R LT OFF E NE.
  exact (create_fault hb UFrom idf fac prog l sl n L c (SFrom b off) w e R eq_refl OFF LT E NE).
Qed.
Print Assumptions C56_create_unpack_from.
Theorem C56_create_unpack_read : forall hb idf fac prog l sl n L c w e,
  reading idf fac prog l sl URead -> (n < L)%nat -> 0 <= w_pos w ->
  fst (create_unpack_read hb (classes l) n c w) = Err e -> e <> RecursionError ->
  let rest := skipn (Z.to_nat (w_pos w)) (w_data w) in
  why_unread hb URead sl L c rest = Some e \/ why_unread hb URead sl L c rest = Some Unspecified.
Proof.
  intros hb idf fac prog l sl n L c w e R LT POS E NE.
  exact (create_fault hb URead idf fac prog l sl n L c SRead w e R eq_refl POS LT E NE).
Qed.
Print Assumptions C56_create_unpack_read.

Lemma fault_raises : forall hb md idf fac prog l sl n c s w e, reading idf fac prog l sl md -> md_of s = md -> srcok s w ->
  why_unread hb md sl (S n) c (suffix s w) = Some e -> e <> Unspecified ->
  let r := fst (create_step hb (classes l) (unpack hb (classes l) n) c s w) in r = Err e \/ r = Err RecursionError.
Proof.
  intros hb md idf fac prog l sl n c s w e R M OK W NU r.
  destruct r as [v|e'] eqn:E; unfold r in E.
  - destruct (sound hb md idf fac prog l sl n c s w v R M OK E) as (k & P & _).
    assert (N : why_unread hb md sl (S n) c (suffix s w) = None) by (apply parse_exact; congruence). congruence.
  - assert (D : e' = RecursionError \/ e' <> RecursionError) by (destruct e'; ((now left) || (right; discriminate))).
    destruct D as [->|D]; [now right|].
    destruct (create_fault hb md idf fac prog l sl n (S n) c s w e' R M OK (le_n _) E D) as [Q|Q]; [left|]; congruence.
Qed.
(** Conversely bytes for which the class statement gives an exception are not read, and nothing else is raised. *)
Theorem C56_raises : forall hb idf fac prog l sl n c b w e,
  reading idf fac prog l sl UBuf -> why_unread hb UBuf sl (S n) c b = Some e -> e <> Unspecified ->
  let r := fst (create_unpack hb (classes l) n c b w) in r = Err e \/ r = Err RecursionError.
Proof. intros hb idf fac prog l sl n c b w e R W NU. exact (fault_raises hb UBuf idf fac prog l sl n c (SBuf b) w e R eq_refl I W NU). Qed.
Print Assumptions C56_raises.
Theorem C56_raises_from : forall hb idf fac prog l sl n c b off w e,
  reading idf fac prog l sl UFrom -> 0 <= off <= blen b -> why_unread hb UFrom sl (S n) c (skipn (Z.to_nat off) b) = Some e -> e <> Unspecified ->
  let r := fst (create_unpack_from hb (classes l) n c b off w) in r = Err e \/ r = Err RecursionError.
Proof. intros hb idf fac prog l sl n c b off w e R OFF W NU. exact (fault_raises hb UFrom idf fac prog l sl n c (SFrom b off) w e R eq_refl OFF W NU). Qed.
Print Assumptions C56_raises_from.
Theorem C56_raises_read : forall hb idf fac prog l sl n c w e,
  reading idf fac prog l sl URead -> 0 <= w_pos w -> why_unread hb URead sl (S n) c (skipn (Z.to_nat (w_pos w)) (w_data w)) = Some e -> e <> Unspecified ->
  let r := fst (create_unpack_read hb (classes l) n c w) in r = Err e \/ r = Err RecursionError.
Proof. intros hb idf fac prog l sl n c w e R POS W NU. exact (fault_raises hb URead idf fac prog l sl n c SRead w e R eq_refl POS W NU). Qed.
Print Assumptions C56_raises_read.

(** There is an exception exactly when the bytes mean nothing: FaultSpec.v and ReadSpec.v fit together ... *)
Theorem C56_exact : forall hb md sl n c b, why_unread hb md sl n c b = None <-> parse hb md sl n c b <> None.
Proof. exact parse_exact. Qed.
Print Assumptions C56_exact.
(** ... and no exception is given exactly for the bytes that are read by all calls with enough stack. *)
Theorem C56_reads : forall hb idf fac prog l sl c b, reading idf fac prog l sl UBuf ->
  ((exists L, why_unread hb UBuf sl L c b = None) <->
   (exists N v, forall n w, (N <= n)%nat -> fst (create_unpack hb (classes l) n c b w) = Ok v)).
Proof.
  intros hb idf fac prog l sl c b R. split.
  - intros [L W]. apply parse_exact in W. destruct (parse hb UBuf sl L c b) as [[v k]|] eqn:P; [|congruence].
    destruct (C46_complete _ _ _ _ _ _ _ _ _ _ _ R P) as [N H]. eauto.
  - intros (N & v & H). specialize (H N dirty (le_n N)). destruct (C46_create_unpack _ _ _ _ _ _ _ _ _ _ _ R H) as [k P].
    exists (S N). apply parse_exact. congruence.
Qed.
Print Assumptions C56_reads.

Lemma fault_complete : forall hb md idf fac prog l sl L c bytes e, reading idf fac prog l sl md ->
  why_unread hb md sl L c bytes = Some e -> e <> RecursionError -> e <> Unspecified ->
  exists N, forall n s w, (N <= n)%nat -> md_of s = md -> srcok s w -> suffix s w = bytes ->
    fst (create_step hb (classes l) (unpack hb (classes l) n) c s w) = Err e.
Proof.
  intros hb md idf fac prog l sl L c bytes e R W NE NU. pose proof R as (R' & CK & RG & (allow & TT & CO) & _).
  pose proof (prog_rel idf fac prog [] [] 0 nothing_defined) as P. rewrite CK in P.
  destruct P as (l' & Q & CR). assert (l' = l) as -> by congruence.
  assert (HC : forall c cd, classes l c = Some cd -> hc (classes l) TT c (c_ser cd) = true) by (intros c' cd E'; destruct CO as [CO _]; apply (CO c' cd E')).
  destruct (create_ge hb md sl l CR RG TT HC L) as [N G]. exists N. intros n s w LT M OK SU.
  destruct (reading_create hb md idf fac prog l sl n c s w R M OK) as [A _]. rewrite A, SU. specialize (G n c bytes LT). rewrite W in G.
  destruct (dcreate hb (classes l) md n c bytes) as [p|e']; cbn in G |- *; destruct G as [G|[G|[G|G]]]; congruence.
Qed.
(** With enough stack the exception that the class statement gives is the one raised. *)
Theorem C56_complete : forall hb idf fac prog l sl L c b e,
  reading idf fac prog l sl UBuf -> why_unread hb UBuf sl L c b = Some e -> e <> RecursionError -> e <> Unspecified ->
  exists N, forall n w, (N <= n)%nat -> fst (create_unpack hb (classes l) n c b w) = Err e.
Proof.
  intros hb idf fac prog l sl L c b e R W NE NU. destruct (fault_complete hb UBuf idf fac prog l sl L c b e R W NE NU) as [N H].
  exists N. intros n w LT. exact (H n (SBuf b) w LT eq_refl I eq_refl).
Qed.
Print Assumptions C56_complete.
Theorem C56_complete_from : forall hb idf fac prog l sl L c rest e,
  reading idf fac prog l sl UFrom -> why_unread hb UFrom sl L c rest = Some e -> e <> RecursionError -> e <> Unspecified ->
  exists N, forall n b off w, (N <= n)%nat -> 0 <= off <= blen b -> skipn (Z.to_nat off) b = rest ->
    fst (create_unpack_from hb (classes l) n c b off w) = Err e.
Proof.
  intros hb idf fac prog l sl L c rest e R W NE NU. destruct (fault_complete hb UFrom idf fac prog l sl L c rest e R W NE NU) as [N H].
  exists N. intros n b off w LT OFF Q. exact (H n (SFrom b off) w LT eq_refl OFF Q).
Qed.
Print Assumptions C56_complete_from.
Theorem C56_complete_read : forall hb idf fac prog l sl L c rest e,
  reading idf fac prog l sl URead -> why_unread hb URead sl L c rest = Some e -> e <> RecursionError -> e <> Unspecified ->
  exists N, forall n w, (N <= n)%nat -> 0 <= w_pos w -> skipn (Z.to_nat (w_pos w)) (w_data w) = rest ->
    fst (create_unpack_read hb (classes l) n c w) = Err e.
Proof.
  intros hb idf fac prog l sl L c rest e R W NE NU. destruct (fault_complete hb URead idf fac prog l sl L c rest e R W NE NU) as [N H].
  exists N. intros n w LT POS Q. exact (H n SRead w LT eq_refl POS Q).
Qed.
Print Assumptions C56_complete_read.

(** When every field has one value, however it is read, the exception is determined. *)
Theorem C56_determined : forall hb idf fac prog l sl n L c b w e,
  reading idf fac prog l sl UBuf -> determined UBuf sl -> (n < L)%nat ->
  fst (create_unpack hb (classes l) n c b w) = Err e -> e <> RecursionError -> why_unread hb UBuf sl L c b = Some e.
Proof.
  intros hb idf fac prog l sl n L c b w e R D LT E NE.
  destruct (C56_create_unpack hb idf fac prog l sl n L c b w e R LT E NE) as [Q|Q]; [exact Q|]. now apply determined_known in Q.
Qed.
Print Assumptions C56_determined.
Theorem C56_determined_from : forall hb idf fac prog l sl n L c b off w e,
  reading idf fac prog l sl UFrom -> determined UFrom sl -> (n < L)%nat -> 0 <= off <= blen b ->
  fst (create_unpack_from hb (classes l) n c b off w) = Err e -> e <> RecursionError -> why_unread hb UFrom sl L c (skipn (Z.to_nat off) b) = Some e.
Proof.
  intros hb idf fac prog l sl n L c b off w e R D LT OFF E NE.
  destruct (C56_create_unpack_from hb idf fac prog l sl n L c b off w e R LT OFF E NE) as [Q|Q]; [exact Q|]. now apply determined_known in Q.
Qed.
Print Assumptions C56_determined_from.
Theorem C56_determined_read : forall hb idf fac prog l sl n L c w e,
  reading idf fac prog l sl URead -> determined URead sl -> (n < L)%nat -> 0 <= w_pos w ->
  fst (create_unpack_read hb (classes l) n c w) = Err e -> e <> RecursionError -> why_unread hb URead sl L c (skipn (Z.to_nat (w_pos w)) (w_data w)) = Some e.
Proof.
  intros hb idf fac prog l sl n L c w e R D LT POS E NE.
  destruct (C56_create_unpack_read hb idf fac prog l sl n L c w e R LT POS E NE) as [Q|Q]; [exact Q|]. now apply determined_known in Q.
Qed.
Print Assumptions C56_determined_read.
(** So the exceptions given are exactly those that are raised by all calls with enough stack. *)
Theorem C56_exactly : forall hb idf fac prog l sl c b e, reading idf fac prog l sl UBuf -> determined UBuf sl -> e <> RecursionError ->
  ((exists L, why_unread hb UBuf sl L c b = Some e) <->
   (exists N, forall n w, (N <= n)%nat -> fst (create_unpack hb (classes l) n c b w) = Err e)).
Proof.
  intros hb idf fac prog l sl c b e R D NE. split.
  - intros [L W]. apply (C56_complete hb idf fac prog l sl L c b e R W NE). intros ->. now apply determined_known in W.
  - intros [N H]. exists (S N). apply (C56_determined hb idf fac prog l sl N (S N) c b dirty e R D (le_n _) (H N dirty (le_n _)) NE).
Qed.
Print Assumptions C56_exactly.
(** The exception does not depend on the stack, on shared serializer objects, nor on what was done before. *)
Theorem C56_sharing : forall hb prog sl idf fac l n w e idf' fac' l' n' w' e' c b,
  reading idf fac prog l sl UBuf -> fst (create_unpack hb (classes l) n c b w) = Err e -> e <> RecursionError ->
  reading idf' fac' prog l' sl UBuf -> fst (create_unpack hb (classes l') n' c b w') = Err e' -> e' <> RecursionError ->
  determined UBuf sl -> e = e'.
Proof.
  intros hb prog sl idf fac l n w e idf' fac' l' n' w' e' c b R E NE R' E' NE' D.
  pose proof (C56_determined hb idf fac prog l sl n (S (Nat.max n n')) c b w e R D ltac:(lia) E NE).
  pose proof (C56_determined hb idf' fac' prog l' sl n' (S (Nat.max n n')) c b w' e' R' D ltac:(lia) E' NE'). congruence.
Qed.
Print Assumptions C56_sharing.

(** ** examples *)
(** The hypotheses are met by the program of C42. *)
Example C56_nontrivial :
  (forall md, reading sample_idf sample_fac sample_prog sample_classes sample_stmts md) /\ determined UBuf sample_stmts.
Proof.
  split; [exact (proj1 C46_nontrivial)|].
  assert (F : forall a o, fld a o <> Err Unspecified) by (intros a o; unfold fld; destruct (assoc a (p_attrs o)); discriminate).
  assert (G : forall a z o, fld_is a z o <> Err Unspecified).
  { intros a z o. unfold fld_is. specialize (F a o). destruct (fld a o); cbn; congruence. }
  vm_compute. repeat split; try discriminate; [exact (G "kind" 1)|exact (F "kind")].
Qed.
Definition raised {A} (r : res A) : option exn := match r with Ok _ => None | Err e => Some e end.
(** cut short within the first run of fields, and within the object after it *)
Example C56_short :
  raised (fst (create_unpack false (classes sample_classes) 4 3 (firstn 9 header_bytes) dirty)) = Some StructError /\
  why_unread false UBuf sample_stmts 5 3 (firstn 9 header_bytes) = Some StructError /\
  raised (fst (create_unpack_from false (classes sample_classes) 4 3 (firstn 15 header_bytes) 0 dirty)) = Some StructError /\
  why_unread false UFrom sample_stmts 5 3 (firstn 15 header_bytes) = Some StructError.
Proof. split; [|split; [|split]]; vm_compute; reflexivity. Qed.
(** a key that the union does not have; a data size that is not the size of the items *)
Example C56_values :
  let odd := firstn 20 header_bytes ++ [x07; x00; x00; x00] in
  let node := [x00; x00; x00; x00; x01; x05; x00; x01; x00; x02; x00; x00; x01; x02; x03; x00] in
  raised (fst (create_unpack false (classes sample_classes) 4 3 odd dirty)) = Some ValueError /\
  why_unread false UBuf sample_stmts 5 3 odd = Some ValueError /\
  raised (fst (create_unpack false (classes sample_classes) 4 1 node dirty)) = Some ValueError /\
  why_unread false UBuf sample_stmts 5 1 node = Some ValueError.
Proof. split; [|split; [|split]]; vm_compute; reflexivity. Qed.
(** The bytes of a run have to be there before anything of it is converted; fields before the run come first. *)
Example C56_order :
  let failing := XAs (fun _ => Err (UserError 3)) (XBasic CB) in
  let sl := [SC [("a", failing); ("b", XBasic CI)] BO_LE false; SC [("a", failing); ("s", XChar (KUint CB)); ("b", XBasic CI)] BO_LE false] in
  why_unread false UBuf sl 1 0 [x01; x00; x00] = Some StructError /\
  why_unread false UBuf sl 1 0 [x01; x00; x00; x00; x00] = Some (UserError 3) /\
  why_unread false UBuf sl 1 1 [x01; x00; x00] = Some (UserError 3).
Proof. vm_compute. auto. Qed.
