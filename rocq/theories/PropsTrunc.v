(** Property C26: truncated input is rejected. *)
From Verif Require Import Base Floats Value StructMod Format Ser Exec Pure BaseFacts StructFacts FormatFacts
  SerFacts RefPack RefUnpack User Sample DecFacts Canon Fuel RoundTrip RoundTripMain PropsIO PropsRoundTrip.
Open Scope string_scope. Open Scope list_scope. Open Scope Z_scope.

(** classes whose fields all notice that the input ends too early, for one of the three methods: no
    read-to-end string; for [unpack] no counted string ([SDynChar]) and no NET string, for [unpack_read] no
    NET string ([pS], DecFacts.v): those slice without checking the length *)
Definition notices_end (ct : nat -> option cdef) (md : umode) : Prop :=
  forall c cd, ct c = Some cd -> sall (pD md true) (c_ser cd) = true.

Section Main.
Variables (hb : bool) (ct : nat -> option cdef) (allow : nat -> nat -> bool).

(** if the whole input is read as [k] bytes, a prefix of fewer bytes is not read at all *)
Lemma short_err : forall md n c b rest v k, notices_end ct md ->
  dcreate hb ct md n c (b ++ rest) = Ok (v, k) -> blen b < k ->
  exists e, dcreate hb ct md n c b = Err e.
Proof.
  clear allow. intros md n c b rest v k NE E L. destruct (dcreate hb ct md n c b) as [[v' k']|e] eqn:D; [|now exists e].
  exfalso. destruct (dcreate_wb hb ct md true NE n c b v' k' D) as (_ & A & B). specialize (A eq_refl).
  rewrite (B rest A) in E. injection E as _ <-. lia.
Qed.

Lemma trunc : forall md n m c d w w' b rest NC s, healthy ct allow -> reads_back hb ct md NC -> notices_end ct md ->
  canonical hb ct allow md n (VObj c None d) -> conforms hb ct allow n (VObj c None d) -> (n <= m)%nat ->
  fst (Structured_pack hb ct n (VObj c None d) w) = Ok (b ++ rest) -> rest <> [] ->
  md_of s = md -> srcok s w' -> suffix s w' = b ->
  exists e, fst (create_step hb ct (unpack hb ct m) c s w') = Err e.
Proof.
  intros md n m c d w w' b rest NC s H [HU RD] NE CN CF NM PK NR M OK SF.
  pose proof (pack_enc hb ct allow n _ w _ H CF PK) as E.
  pose proof (rt_object hb ct allow md NC RD n m c d _ [] NM CN (or_introl eq_refl) E) as D. rewrite app_nil_r in D.
  destruct (short_err md m c b rest _ _ NE D) as [e X].
  { rewrite blen_app. destruct rest; [congruence|]. unfold blen. cbn. lia. }
  destruct (user_create hb ct allow md m c s w' H HU M OK) as (A & _). rewrite SF, X in A. exists e. exact A.
Qed.
End Main.

(** ** a proper prefix of the packed bytes *)
Theorem C26_truncated_unpack : forall hb ct allow NC n m c d w w' b rest,
  healthy ct allow -> reads_back hb ct UBuf NC -> notices_end ct UBuf ->
  canonical hb ct allow UBuf n (VObj c None d) -> conforms hb ct allow n (VObj c None d) -> (n <= m)%nat ->
  fst (Structured_pack hb ct n (VObj c None d) w) = Ok (b ++ rest) -> rest <> [] ->
  exists e, fst (create_unpack hb ct m c b w') = Err e.
Proof.
  intros hb ct allow NC n m c d w w' b rest H RB NE CN CF NM PK NR.
  apply (trunc hb ct allow UBuf n m c d w w' b rest NC (SBuf b)); cbn; auto.
Qed.
Print Assumptions C26_truncated_unpack.
Theorem C26_truncated_unpack_from : forall hb ct allow NC n m c d w w' pre b rest,
  healthy ct allow -> reads_back hb ct UFrom NC -> notices_end ct UFrom ->
  canonical hb ct allow UFrom n (VObj c None d) -> conforms hb ct allow n (VObj c None d) -> (n <= m)%nat ->
  fst (Structured_pack hb ct n (VObj c None d) w) = Ok (b ++ rest) -> rest <> [] ->
  exists e, fst (create_unpack_from hb ct m c (pre ++ b) (blen pre) w') = Err e.
Proof.
  intros hb ct allow NC n m c d w w' pre b rest H RB NE CN CF NM PK NR.
  apply (trunc hb ct allow UFrom n m c d w w' b rest NC (SFrom (pre ++ b) (blen pre))); cbn; auto.
  - rewrite blen_app. pose proof (blen_nonneg pre). pose proof (blen_nonneg b). lia.
  - unfold blen. rewrite Nat2Z.id. apply skipn_app_len.
Qed.
Print Assumptions C26_truncated_unpack_from.
Theorem C26_truncated_unpack_read : forall hb ct allow NC n m c d w w' pre b rest,
  healthy ct allow -> reads_back hb ct URead NC -> notices_end ct URead ->
  canonical hb ct allow URead n (VObj c None d) -> conforms hb ct allow n (VObj c None d) -> (n <= m)%nat ->
  fst (Structured_pack hb ct n (VObj c None d) w) = Ok (b ++ rest) -> rest <> [] ->
  w_data w' = pre ++ b -> w_pos w' = blen pre ->
  exists e, fst (create_unpack_read hb ct m c w') = Err e.
Proof.
  intros hb ct allow NC n m c d w w' pre b rest H RB NE CN CF NM PK NR D P.
  apply (trunc hb ct allow URead n m c d w w' b rest NC SRead); cbn; auto.
  - rewrite P. apply blen_nonneg.
  - rewrite D, P. unfold blen. rewrite Nat2Z.id. apply skipn_app_len.
Qed.
Print Assumptions C26_truncated_unpack_read.

(** ** any input whatsoever, not only packed objects: if reading a stream succeeds and leaves it after [k]
    bytes, then the stream cut off before that point is rejected *)
Theorem C26_short_stream : forall hb ct allow n c w w' pre b rest v,
  healthy ct allow -> classes_hu ct URead -> notices_end ct URead ->
  w_data w = pre ++ b ++ rest -> w_pos w = blen pre ->
  fst (create_unpack_read hb ct n c w) = Ok v ->
  blen pre + blen b < w_pos (snd (create_unpack_read hb ct n c w)) ->
  w_data w' = pre ++ b -> w_pos w' = blen pre ->
  exists e, fst (create_unpack_read hb ct n c w') = Err e.
Proof.
  intros hb ct allow n c w w' pre b rest v H HU NE D P E L D' P'.
  assert (NN : forall w0, w_pos w0 = blen pre -> srcok SRead w0) by (intros w0 Q; cbn; rewrite Q; apply blen_nonneg).
  assert (SF : suffix SRead w = b ++ rest) by (cbn; rewrite D, P; unfold blen; rewrite Nat2Z.id; apply skipn_app_len).
  assert (SF' : suffix SRead w' = b) by (cbn; rewrite D', P'; unfold blen; rewrite Nat2Z.id; apply skipn_app_len).
  destruct (user_create hb ct allow URead n c SRead w H HU eq_refl (NN _ P)) as (A & _ & _ & PS & _).
  destruct (user_create hb ct allow URead n c SRead w' H HU eq_refl (NN _ P')) as (A' & _).
  change (create_step hb ct (unpack hb ct n) c SRead) with (create_unpack_read hb ct n c) in *.
  rewrite SF in *. rewrite SF' in A'. cbv zeta in PS.
  destruct (dcreate hb ct URead n c (b ++ rest)) as [[v0 k]|] eqn:DC; [|cbn in A; congruence].
  cbn [Base.rmap snd pos_spec] in PS. destruct PS as (Q1 & Q2 & Q3). unfold posn in Q3. rewrite SF in Q3.
  destruct (short_err hb ct URead n c b rest v0 k NE DC) as [e X].
  - rewrite P in Q3. pose proof (blen_nonneg (b ++ rest)). cbn [snd] in Q3. lia.
  - rewrite X in A'. exists e. exact A'.
Qed.
Print Assumptions C26_short_stream.
(** every read buffer: [size] after [create_unpack] says how much is needed *)
Theorem C26_short_buffer : forall hb ct allow n c w w' b rest v k,
  healthy ct allow -> classes_hu ct UBuf -> notices_end ct UBuf -> csized ct c = true ->
  fst (create_unpack hb ct n c (b ++ rest) w) = Ok v ->
  fst (obj_size hb ct c None (snd (create_unpack hb ct n c (b ++ rest) w))) = Ok k -> blen b < k ->
  exists e, fst (create_unpack hb ct n c b w') = Err e.
Proof.
  intros hb ct allow n c w w' b rest v k H HU NE CS E SZ L.
  destruct (user_create hb ct allow UBuf n c (SBuf (b ++ rest)) w H HU eq_refl I) as (A & _ & _ & _ & Z0).
  destruct (user_create hb ct allow UBuf n c (SBuf b) w' H HU eq_refl I) as (A' & _).
  unfold create_unpack in *. cbv zeta in Z0. cbn [suffix] in *.
  destruct (dcreate hb ct UBuf n c (b ++ rest)) as [[v0 k0]|] eqn:DC; [|cbn in A; congruence].
  rewrite (Z0 _ _ CS eq_refl) in SZ. injection SZ as <-.
  destruct (short_err hb ct UBuf n c b rest v0 k0 NE DC L) as [e X]. rewrite X in A'. exists e. exact A'.
Qed.
Print Assumptions C26_short_buffer.

(** the hypotheses are met: Ping, Point and a message class without strings, all methods; and the classes
    of [table3] (counted strings, NET strings, unions, recursion) for [unpack_from] *)
Definition table_fixed (c : nat) : option cdef :=
  match c with
  | 0 => Some Point
  | 4 => Some Ping
  | 6 => Some (CD ["n"; "pts"] (SCompound 60 [SStruct sU8; SArray 61 (Some sU16) (SStructd 62 0) (-1)]) BO_DEFAULT false)
  | _ => None
  end%nat.
Definition cloud : value := VObj 6 None [("n", VInt 9); ("pts", VList [point 1 2; point (-3) 4])].
Lemma cloud_canon : forall md n, canonical false table_fixed Nat.eqb md (4 + n) cloud.
Proof.
  intros md n. unfold canonical, cloud.
  c_obj (CD ["n"; "pts"] (SCompound 60 [SStruct sU8; SArray 61 (Some sU16) (SStructd 62 0) (-1)]) BO_DEFAULT false).
  c_field. { vm_compute. reflexivity. }
  c_field. { c_open. eexists. split; [reflexivity|]. c_in. repeat constructor; apply (point_in table_fixed eq_refl); lia. }
  split; reflexivity.
Qed.
Example C26_nontrivial :
  healthy table_fixed Nat.eqb /\ (forall md, reads_back false table_fixed md (fun _ => true)) /\
  (forall md, notices_end table_fixed md) /\ (forall md, canonical false table_fixed Nat.eqb md 10 cloud) /\
  conforms false table_fixed Nat.eqb 10 cloud /\
  fst (Structured_pack false table_fixed 10 cloud dirty) = Ok [x09; x02; x00; x01; x00; x02; x00; xfd; xff; x04; x00] /\
  notices_end table3 UFrom /\ csized table_fixed 6 = true.
Proof.
  split.
  { exists (fun c id => Nat.eqb c 6 && Nat.eqb id 61). split.
    - intros c cd E. do 7 (destruct c as [|c]; [first [discriminate E | injection E as <-; split; [reflexivity|];
        intros id E; do 62 (destruct id as [|id]; [vm_compute in E |- *; congruence|]);
        vm_compute in E |- *; congruence] |]). discriminate.
    - intros d c E. apply Nat.eqb_eq in E as ->. auto. }
  split.
  { intros md. split; intros c cd E; do 7 (destruct c as [|c]; [try discriminate E; injection E as <-; destruct md; vm_compute; auto|]); discriminate. }
  split.
  { intros md c cd E; do 7 (destruct c as [|c]; [try discriminate E; injection E as <-; destruct md; vm_compute; auto|]); discriminate. }
  split; [intros md; apply (cloud_canon md 6)|]. split; [unfold conforms; vm_compute; congruence|].
  split; [vm_compute; reflexivity|]. split; [|reflexivity].
  intros c cd E. unfold table3 in E. do 6 (destruct c as [|c]; [try discriminate; injection E as <-; reflexivity|]). discriminate.
Qed.

(** ** where the property fails *)
(** class Rec(Structured): name: char[uint8] / class NetRec(Structured): name: char[NET] *)
Definition table_str (c : nat) : option cdef :=
  match c with
  | 0 => Some (CD ["name"] (SDynChar 70 sU8) BO_DEFAULT false)
  | 1 => Some (CD ["name"] (SNet 71) BO_DEFAULT false)
  | _ => None
  end%nat.
Definition named (c : nat) (b : bytes) : value := VObj c None [("name", VBytes b)].
(** create_unpack of the first two of four bytes returns an object with a shorter name *)
Theorem C26_counted_string_unpack_refuted :
  fst (Structured_pack false table_str 5 (named 0 [x61; x62; x63]) clean) = Ok [x03; x61; x62; x63] /\
  fst (create_unpack false table_str 5 0 [x03; x61] clean) = Ok (named 0 [x61]).
Proof. split; vm_compute; reflexivity. Qed.
Theorem C26_net_string_unpack_refuted :
  fst (Structured_pack false table_str 5 (named 1 [x61; x62; x63]) clean) = Ok [x03; x61; x62; x63] /\
  fst (create_unpack false table_str 5 1 [x03; x61] clean) = Ok (named 1 [x61]) /\
  fst (create_unpack_read false table_str 5 1 (W (fun _ => 0) (fun _ => None) [] [x03; x61] 0)) = Ok (named 1 [x61]).
Proof. repeat split; vm_compute; reflexivity. Qed.
Print Assumptions C26_counted_string_unpack_refuted.
Print Assumptions C26_net_string_unpack_refuted.
