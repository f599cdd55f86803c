(** The refinement theorems at the level of the public methods of [Structured]. *)
From Verif Require Import Base Floats Value StructMod Format Ser Exec Pure BaseFacts StructFacts FormatFacts
  SerFacts RefPack RefUnpack.

(** The class definitions covered: see [hc] in Pure.v for the fragment.  The certificate [T] lists, for
    every class, the serializer objects whose [_partial_object] is assigned while an instance is being
    (un)packed; it exists whenever no array item / tuple overwrites the object stored in itself. *)
Definition healthy (ct : nat -> option cdef) (allow : nat -> nat -> bool) : Prop :=
  exists T, classes_ok ct allow T.

(** every nested instance met while packing [v] is of a class [allow]ed for the field it is found in *)
Definition conforms (hb : bool) (ct : nat -> option cdef) (allow : nat -> nat -> bool) (n : nat) (v : value) : Prop :=
  enc_obj hb ct allow n v <> Err Unspecified.

(** no field of any class reads to the end of the input *)
Definition no_rest := classes_nocons.

(** the three packing methods *)
Definition do_pack (hb : bool) (ct : nat -> option cdef) (n : nat) (v : value) (k : sink) : M bytes :=
  match v with VObj c ov d => obj_pack_step ct (pack hb ct n) c ov d k | _ => raise AttributeError end.

Section User.
Variable hb : bool.
Variable ct : nat -> option cdef.
Variable allow : nat -> nat -> bool.

Lemma user_pack : forall nc n v k w,
  healthy ct allow -> (nc = true -> no_rest ct) -> conforms hb ct allow n v -> kok k w ->
  io_spec nc (enc_obj hb ct allow n v) k w (fst (do_pack hb ct n v k w)) (snd (do_pack hb ct n v k w)).
Proof.
  intros nc n v k w [T COK] NC CF K. unfold conforms, enc_obj in *.
  destruct v; try (apply io_err; reflexivity). cbn [do_pack].
  exact (proj1 (obj_step_spec hb ct allow T nc COK NC _ _ (pack_refines hb ct allow T nc COK NC n) c ov attrs k w K CF)).
Qed.

Lemma user_pack_size : forall n c ov d k w a b,
  healthy ct allow -> conforms hb ct allow n (VObj c ov d) -> kok k w -> csized ct c = true ->
  fst (do_pack hb ct n (VObj c ov d) k w) = Ok a -> enc_obj hb ct allow n (VObj c ov d) = Ok b ->
  obj_size hb ct c ov (snd (do_pack hb ct n (VObj c ov d) k w))
  = (Ok (blen b), snd (do_pack hb ct n (VObj c ov d) k w)).
Proof.
  intros n c ov d k w a b [T COK] CF K CS E1 E2. cbn [do_pack] in *.
  assert (NC : false = true -> classes_nocons ct) by discriminate.
  destruct (obj_step_spec hb ct allow T false COK NC _ _ (pack_refines hb ct allow T false COK NC n) c ov d k w K CF)
    as (_ & _ & H). eapply H; eauto.
Qed.

Lemma user_create : forall md n c s w,
  healthy ct allow -> classes_hu ct md -> md_of s = md -> srcok s w ->
  fst (create_step hb ct (unpack hb ct n) c s w) = rmap fst (dcreate hb ct md n c (suffix s w)) /\
  let w' := snd (create_step hb ct (unpack hb ct n) c s w) in
  w_buf w' = w_buf w /\ w_data w' = w_data w /\
  pos_spec s w w' (rmap snd (dcreate hb ct md n c (suffix s w))) /\
  (forall v k, csized ct c = true -> dcreate hb ct md n c (suffix s w) = Ok (v, k) ->
     obj_size hb ct c None w' = (Ok k, w')).
Proof.
  intros md n c s w [T COK] HU M OK.
  destruct (unpack_refines hb ct allow T COK md HU n) as [R _].
  destruct (create_spec hb ct allow T COK md HU _ _ R c s w M OK) as (A & B & C & _ & P & Z).
  unfold dcreate. split; [exact A|]. cbv zeta. split; [exact B|]. split; [exact C|]. split; [exact P|].
  intros v k CS E. apply Z; [exact CS|]. rewrite E. reflexivity.
Qed.

Lemma user_refill : forall md n c ov d s w,
  healthy ct allow -> classes_hu ct md -> md_of s = md -> srcok s w ->
  fst (fst (Structured_unpack hb ct n c ov d s w))
    = rmap (fun _ => tt) (fst (drefill_step ct (dec hb ct md n) c ov d (suffix s w))) /\
  snd (fst (Structured_unpack hb ct n c ov d s w)) = snd (drefill_step ct (dec hb ct md n) c ov d (suffix s w)) /\
  let w' := snd (Structured_unpack hb ct n c ov d s w) in
  w_buf w' = w_buf w /\ w_data w' = w_data w /\
  pos_spec s w w' (fst (drefill_step ct (dec hb ct md n) c ov d (suffix s w))) /\
  (forall k, csized ct c = true -> fst (drefill_step ct (dec hb ct md n) c ov d (suffix s w)) = Ok k ->
     obj_size hb ct c ov w' = (Ok k, w')).
Proof.
  intros md n c ov d s w [T COK] HU M OK.
  destruct (unpack_refines hb ct allow T COK md HU n) as [R _].
  destruct (refill_spec hb ct allow T COK md HU _ _ R c ov d s w M OK) as (A & A' & B & C & _ & P & Z).
  unfold Structured_unpack. split; [exact A|]. split; [exact A'|]. cbv zeta.
  split; [exact B|]. split; [exact C|]. split; [exact P|]. exact Z.
Qed.
End User.
