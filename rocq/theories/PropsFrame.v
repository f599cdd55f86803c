(** Property C45: what a call can change, also when it fails. *)
From Verif Require Import Base Floats Value StructMod Format Ser Exec Pure BaseFacts StructFacts SerFacts RefPack User Sample
  FormatFacts Hints HintFacts Frame PropsNum.
Open Scope string_scope. Open Scope list_scope. Open Scope Z_scope.

(** The theorems hold for every class table, well formed or not, every instance and every state, whatever the outcome. *)

(** [pack] changes no buffer and no stream. *)
Theorem C45_pack : forall hb ct n v w, let w' := snd (Structured_pack hb ct n v w) in
  w_buf w' = w_buf w /\ w_data w' = w_data w /\ w_pos w' = w_pos w.
Proof.
  intros hb ct n v w. cbn zeta. destruct v; try (repeat split; reflexivity).
  assert (N : false = true -> classes_nocons ct) by discriminate.
  exact (proj1 (fr_do_pack hb ct false N n c ov attrs KPack w I)).
Qed.
Print Assumptions C45_pack.
(** [pack_into] leaves everything before the offset alone; it changes the length of the buffer only by making it
    longer, and that only if some class has a field that reads to the end. *)
Theorem C45_pack_into : forall hb ct n v off w, 0 <= off -> let w' := snd (Structured_pack_into hb ct n v off w) in
  w_data w' = w_data w /\ w_pos w' = w_pos w /\ (List.length (w_buf w) <= List.length (w_buf w'))%nat /\
  (no_rest ct -> List.length (w_buf w') = List.length (w_buf w)) /\
  forall i, Z.of_nat i < off -> (i < List.length (w_buf w))%nat -> nth_error (w_buf w') i = nth_error (w_buf w) i.
Proof.
  intros hb ct n v off w O. cbn zeta. destruct v; try (cbn; auto; fail).
  assert (N : false = true -> classes_nocons ct) by discriminate.
  destruct (proj1 (fr_do_pack hb ct false N n c ov attrs (KInto off) w O)) as (A & B & (C & D) & _).
  do 3 (split; [assumption|]). split; [|assumption]. intros NR.
  assert (N' : true = true -> classes_nocons ct) by (intros _; exact NR).
  destruct (proj1 (fr_do_pack hb ct true N' n c ov attrs (KInto off) w O)) as (_ & _ & _ & E). auto.
Qed.
Print Assumptions C45_pack_into.
(** [pack_write] moves the position forward and changes only what lies between the old and the new position. *)
Theorem C45_pack_write : forall hb ct n v w, 0 <= w_pos w -> let w' := snd (Structured_pack_write hb ct n v w) in
  w_buf w' = w_buf w /\ w_pos w <= w_pos w' /\ (List.length (w_data w) <= List.length (w_data w'))%nat /\
  (forall i, Z.of_nat i < w_pos w -> (i < List.length (w_data w))%nat -> nth_error (w_data w') i = nth_error (w_data w) i) /\
  (forall i, w_pos w' <= Z.of_nat i -> nth_error (w_data w') i = nth_error (w_data w) i).
Proof.
  intros hb ct n v w O. cbn zeta. destruct v; try (cbn; repeat split; auto; lia).
  assert (N : false = true -> classes_nocons ct) by discriminate.
  destruct (proj1 (fr_do_pack hb ct false N n c ov attrs KWrite w O)) as (A & B & (C & D) & E). auto 10.
Qed.
Print Assumptions C45_pack_write.
(** Reading changes no buffer and no contents of a stream; only [create_unpack_read] moves the position. *)
Theorem C45_create : forall hb ct n c s w,
  let w' := snd (match s with SBuf b => create_unpack hb ct n c b | SFrom b off => create_unpack_from hb ct n c b off
                            | SRead => create_unpack_read hb ct n c end w) in
  w_buf w' = w_buf w /\ w_data w' = w_data w /\ (s <> SRead -> w_pos w' = w_pos w) /\ (0 <= w_pos w -> 0 <= w_pos w').
Proof.
  intros hb ct n c s w. cbn zeta.
  pose proof (uf_create hb ct (unpack hb ct n) (uf_unpack hb ct n) c s w) as U. destruct s; exact U.
Qed.
Print Assumptions C45_create.
(** Unpacking into an existing object changes only attributes of the class's fields. *)
Theorem C45_unpack : forall hb ct n c cd ov d s w, ct c = Some cd ->
  let r := Structured_unpack hb ct n c ov d s w in
  (forall a, ~ In a (c_attrs cd) -> assoc a (snd (fst r)) = assoc a d) /\
  w_buf (snd r) = w_buf w /\ w_data (snd r) = w_data w /\ (s <> SRead -> w_pos (snd r) = w_pos w) /\ (0 <= w_pos w -> 0 <= w_pos (snd r)).
Proof.
  intros hb ct n c cd ov d s w C. cbn zeta. destruct (uf_refill hb ct n c ov d s w cd C) as [U K]. split; [exact K|exact U].
Qed.
Print Assumptions C45_unpack.

(** ** all or nothing *)
(** For a class of fixed-size fields only (one StructSerializer), a failing [pack_write] writes nothing ... *)
Theorem C45_write_atomic : forall hb ct n c cd st ov d w e, ct c = Some cd -> c_ser cd = SStruct st ->
  fst (Structured_pack_write hb ct n (VObj c ov d) w) = Err e ->
  let w' := snd (Structured_pack_write hb ct n (VObj c ov d) w) in
  w_buf w' = w_buf w /\ w_data w' = w_data w /\ w_pos w' = w_pos w.
Proof.
  intros hb ct n c cd st ov d w e C S. cbn zeta. unfold Structured_pack_write, obj_pack_step. rewrite C.
  assert (exists st', obj_ser cd ov = SStruct st') as [st' ->].
  { unfold obj_ser. rewrite S. destruct ov; cbn; eauto. }
  cbn [prep]. unfold bind, ret, lift. destruct (get_attrs (c_attrs cd) d) as [vs|x]; [|cbn; auto].
  destruct n as [|n]; cbn; [auto|]. unfold bind, lift. destruct (st_pack _ _ _) as [b|x]; [discriminate|]. cbn. auto.
Qed.
Print Assumptions C45_write_atomic.
(** ... and a failing [unpack] leaves the object as it was. *)
Theorem C45_unpack_atomic : forall hb ct n c cd st ov d s w e, ct c = Some cd -> c_ser cd = SStruct st -> ss_wf st = true ->
  List.length (c_attrs cd) = ss_nvals st ->
  fst (fst (Structured_unpack hb ct n c ov d s w)) = Err e -> snd (fst (Structured_unpack hb ct n c ov d s w)) = d.
Proof.
  intros hb ct n c cd st ov d s w e C S A L. unfold Structured_unpack, refill_step. rewrite C.
  assert (exists st', obj_ser cd ov = SStruct st' /\ ss_wf st' = true /\ ss_nvals st' = ss_nvals st) as (st' & -> & A' & L').
  { unfold obj_ser. rewrite S. destruct ov; cbn; eauto. }
  cbn [prep ret]. unfold fill. destruct n as [|n]; cbn [unpack unpack_step raise]; [auto|].
  destruct (take_struct hb st' s w) as [[vs|x] w'] eqn:T; [|auto].
  pose proof (take_struct_len _ _ _ _ _ _ A' T) as LV.
  assert (G : forall names (vs : list value) d, List.length names = List.length vs -> fst (assign names vs d) = Some []).
  { clear. induction names as [|a names IH]; intros [|v vs] d E; try discriminate E; [reflexivity|]. cbn. apply IH. now injection E. }
  specialize (G (c_attrs cd) vs d ltac:(lia)). destruct (assign (c_attrs cd) vs d) as [o d']. cbn in G. subst o. discriminate.
Qed.
Print Assumptions C45_unpack_atomic.
(** For other classes this is false.  Here the counted string is written before the next field is found out of
    range: the stream is left with half an object. *)
Definition half_ct : nat -> option cdef := fun c => match c with
  | O => Some (CD ["name"; "n"] (SCompound 1 [SDynChar 2 (SS BO_DEFAULT [T None CB] None); SStruct (SS BO_DEFAULT [T None CB] None)]) BO_DEFAULT false)
  | 1%nat => Some (CD ["l"; "n"] (SCompound 3 [SArray 4 (Some (SS BO_DEFAULT [T None CB] None)) (SDynChar 2 (SS BO_DEFAULT [T None CB] None)) (-1);
                                   SStruct (SS BO_DEFAULT [T None CB] None)]) BO_DEFAULT false)
  | _ => None end.
Theorem C45_write_refuted : exists d w, let r := Structured_pack_write false half_ct 5 (VObj 0 None d) w in
  fst r = Err StructError /\ fst (Structured_pack false half_ct 5 (VObj 0 None d) w) = Err StructError /\
  w_data w = [] /\ w_data (snd r) = [x02; x68; x69].
Proof.
  exists [("name", VBytes [x68; x69]); ("n", VInt 256)], clean. vm_compute. auto.
Qed.
Print Assumptions C45_write_refuted.
(** Into a buffer that is too small, the first fields are written although the object does not fit ... *)
Theorem C45_into_refuted : exists d w, let r := Structured_pack_into false half_ct 5 (VObj 0 None d) 0 w in
  fst r = Err StructError /\ w_buf w = [x00; x00; x00] /\ w_buf (snd r) = [x02; x68; x69].
Proof.
  exists [("name", VBytes [x68; x69]); ("n", VInt 6)], (W (fun _ => 0) (fun _ => None) [x00; x00; x00] [] 0). vm_compute. auto.
Qed.
Print Assumptions C45_into_refuted.
(** ... and an object read from truncated data has some new and some old attributes. *)
Theorem C45_unpack_refuted : exists d d' b, let r := Structured_unpack false half_ct 5 0 None d (SBuf b) clean in
  fst (fst r) = Err StructError /\ snd (fst r) = d' /\
  d = [("name", VBytes [x68; x69]); ("n", VInt 6)] /\ d' = [("name", VBytes [x61]); ("n", VInt 6)].
Proof.
  exists [("name", VBytes [x68; x69]); ("n", VInt 6)], [("name", VBytes [x61]); ("n", VInt 6)], [x01; x61]. vm_compute. auto.
Qed.
Print Assumptions C45_unpack_refuted.

(** ** examples *)
(** The classes of the examples above, with calls that fail half way: the general theorems apply and say something. *)
Example C45_nontrivial :
  let w := W (fun _ => 12345) (fun _ => None) [x11; x12; x13; x14; x15] [x21; x22; x23; x24; x25; x26; x27] 2 in
  let bad := VObj 1 None [("l", VList [VBytes [x68; x69]]); ("n", VInt 256)] in
  let r1 := Structured_pack_into false half_ct 6 bad 1 w in
  let r2 := Structured_pack_write false half_ct 6 bad w in
  fst r1 = Err StructError /\ w_buf (snd r1) = [x11; x01; x02; x68; x69] /\
  fst r2 = Err StructError /\ w_data (snd r2) = [x21; x22; x01; x02; x68; x69; x27] /\ w_pos (snd r2) = 6 /\
  no_rest half_ct.
Proof.
  cbn zeta. split; [vm_compute; reflexivity|]. split; [vm_compute; reflexivity|]. split; [vm_compute; reflexivity|].
  split; [vm_compute; reflexivity|]. split; [vm_compute; reflexivity|].
  intros [|[|c]] cd E; try discriminate E; injection E as <-; reflexivity.
Qed.
(** ... and a class of fixed-size fields whose [pack_write] and [unpack] fail *)
Example C45_atomic_met : let st := SS BO_LE [T None CH; T None CB] None in
  let ct := fun c : nat => if Nat.eqb c 0 then Some (CD ["x"; "y"] (SStruct st) BO_LE false) else None in
  ss_wf st = true /\ ss_nvals st = 2%nat /\
  fst (Structured_pack_write false ct 3 (VObj 0 None [("x", VInt 1); ("y", VInt 256)]) dirty) = Err StructError /\
  fst (fst (Structured_unpack false ct 3 0 None [("x", VInt 1); ("y", VInt 2)] SRead dirty)) = Err StructError.
Proof. vm_compute. auto. Qed.
