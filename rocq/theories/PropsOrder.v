(** Properties C12 and C13: byte orders. *)
From Verif Require Import Base Floats Value StructMod Format Ser Exec Pure BaseFacts StructFacts FormatFacts
  SerFacts RefPack RefUnpack Leaf Wire Sample User Field Fuel DecFacts RoundTrip RoundTripMain PropsStrings PropsBasic
  PropsArrays PropsIO Adding PropsAdd PropsFinal Portable.

(** ** C13 *)
Lemma ss_bo_twice : forall a b st, ss_with_bo b (ss_with_bo a st) = ss_with_bo b st.
Proof. reflexivity. Qed.
(** the last byte order set wins *)
Theorem C13_last_wins : forall a b s, with_bo b (with_bo a s) = with_bo b s.
Proof.
  intros a b. induction s using ser_ind'; cbn; try reflexivity; try (now f_equal).
  - f_equal; [destruct h; reflexivity|assumption].
  - f_equal. rewrite map_map. apply map_ext_Forall. exact H.
  - f_equal. rewrite map_map. apply map_ext_Forall. exact H.
Qed.
Print Assumptions C13_last_wins.
Theorem C13_idempotent : forall b s, with_bo b (with_bo b s) = with_bo b s.
Proof. intros. apply C13_last_wins. Qed.
Print Assumptions C13_idempotent.
Theorem C13_num_values : forall b s, num_values (with_bo b s) = num_values s.
Proof. intros. apply wb_nvals. Qed.
Print Assumptions C13_num_values.
(** reading to the end, in the sense of the independent [reads_rest] *)
Theorem C13_final : forall (fin : nat -> bool) b s,
  reads_rest (fun c => fin c = true) (with_bo b s) <-> reads_rest (fun c => fin c = true) s.
Proof. intros fin b s. now rewrite !reads_rest_final, wb_final. Qed.
Print Assumptions C13_final.

(** [instance.with_byte_order]: the class [c] is the sum of the fields [l] in byte order [a]; the new instance
    has the same attributes and is packed as the concatenation of the fields in byte order [b] *)
Theorem C13_instance_pack : forall hb ct allow fin id a b l s n c cd ov d v' vs bs w,
  m_native (mode_of hb b) = false ->
  forallb plain_field l = true -> lossless l = true -> ssum fin id l = Ok s ->
  ct c = Some cd -> c_ser cd = with_bo a s -> c_bo cd = a ->
  NoDup (c_attrs cd) -> List.length vs = List.length (c_attrs cd) -> d = zipw (c_attrs cd) vs ->
  Structured_with_byte_order ct b (VObj c ov d) = Ok v' ->
  healthy_fields ct allow (PO c false d) (map (with_bo b) l) ->
  fields_write hb ct allow (S n) (PO c false d) (map (with_bo b) l) vs bs ->
  fst (Structured_pack hb ct (S (S n)) v' w) = Ok bs /\ exists ov', v' = VObj c ov' d.
Proof.
  intros hb ct allow fin id a b l s n c cd ov d v' vs bs w UN PL LL SU C S A ND LN D V H F.
  assert (G : get_attrs (c_attrs cd) d = Ok vs) by (rewrite D; now apply get_attrs_zip).
  assert (P : forall ov', obj_ser cd ov' = with_bo b s -> fst (Structured_pack hb ct (Datatypes.S (Datatypes.S n)) (VObj c ov' d) w) = Ok bs).
  { intros ov' O. eapply (C15_instance_pack hb ct allow fin id b l s n c cd ov' d vs bs w); eassumption. }
  cbn [Structured_with_byte_order] in V. rewrite C in V. destruct (border_eqb b _) eqn:B.
  - injection V as <-. split; [|eauto]. apply P. unfold obj_ser.
    destruct ov as [b'|]; rewrite S.
    + rewrite C13_last_wins. destruct b, b'; (discriminate B || reflexivity).
    + rewrite A in B. destruct b, a; (discriminate B || reflexivity).
  - rewrite G in V. cbn [rbind] in V. injection V as <-. rewrite <- D. split; [|eauto]. apply P. cbn [obj_ser].
    rewrite S. apply C13_last_wins.
Qed.
Print Assumptions C13_instance_pack.

(** Setting a byte order and then the one of the class again gives an instance that is packed as before. *)
Theorem C13_instance_back : forall hb ct n c cd b v1 v2 d k w vs s,
  ct c = Some cd -> c_ser cd = with_bo (c_bo cd) s -> get_attrs (c_attrs cd) d = Ok vs -> d = zipw (c_attrs cd) vs ->
  NoDup (c_attrs cd) -> List.length vs = List.length (c_attrs cd) ->
  Structured_with_byte_order ct b (VObj c None d) = Ok v1 -> Structured_with_byte_order ct (c_bo cd) v1 = Ok v2 ->
  do_pack hb ct n v2 k w = do_pack hb ct n (VObj c None d) k w.
Proof.
  intros hb ct n c cd b v1 v2 d k w vs s C S G D ND LN V1 V2.
  cbn [Structured_with_byte_order] in V1. rewrite C in V1. destruct (border_eqb b _) eqn:B.
  - injection V1 as <-. cbn [Structured_with_byte_order] in V2. rewrite C in V2.
    assert (R : border_eqb (c_bo cd) (c_bo cd) = true) by (destruct (c_bo cd); reflexivity).
    rewrite R in V2. injection V2 as <-. reflexivity.
  - rewrite G in V1. cbn [rbind] in V1. injection V1 as <-. rewrite <- D in V2.
    cbn [Structured_with_byte_order] in V2. rewrite C in V2. destruct (border_eqb (c_bo cd) b) eqn:B2.
    + exfalso. destruct b, (c_bo cd); discriminate.
    + rewrite G in V2. cbn [rbind] in V2. injection V2 as <-. rewrite <- D. cbn [do_pack]. unfold obj_pack_step.
      rewrite C. cbn [obj_ser]. rewrite S, C13_last_wins. reflexivity.
Qed.
Print Assumptions C13_instance_back.

(** the hypotheses are met by the class of PropsAdd.v declared big endian, set to little endian *)
Definition rec_bytes_le : bytes := [x01; x03; x02; x68; x69; x00; x07; x06; x05; x04; xfe].
Example C13_instance_met : exists v', Structured_with_byte_order rec_ct BO_LE (VObj 0 None rec_attrs) = Ok v' /\
  fst (Structured_pack false rec_ct 2 v' dirty) = Ok rec_bytes_le /\
  fst (Structured_pack true rec_ct 2 v' dirty) = Ok rec_bytes_le /\
  (exists v2, Structured_with_byte_order rec_ct BO_BE v' = Ok v2 /\ fst (Structured_pack false rec_ct 2 v2 dirty) = Ok rec_bytes).
Proof.
  assert (P : forall hb v', Structured_with_byte_order rec_ct BO_LE (VObj 0 None rec_attrs) = Ok v' ->
     fst (Structured_pack hb rec_ct 2 v' dirty) = Ok rec_bytes_le).
  { intros hb v' V. destruct rec_sum as (s & SU & RS & PL & LL).
    eapply (C13_instance_pack hb rec_ct Nat.eqb (fun _ => false) 61 BO_BE BO_LE rec_fields s 0 0 rec_cd None rec_attrs v'
           [VInt 1; VInt 515; VBytes [x68; x69]; VInt 67438087; VInt (-2)] rec_bytes_le dirty); auto; try reflexivity.
    - repeat constructor; cbn; intuition discriminate.
    - exists no_sets. split; [apply rec_classes|reflexivity].
    - assert (W : forall x vs b, hc rec_ct no_sets 0 x = true ->
         penc hb rec_ct Nat.eqb 1 x (PO 0 false rec_attrs) vs = Ok b -> List.length vs = num_values x ->
         List.length vs = num_values x /\ conforming hb rec_ct Nat.eqb 1 x (PO 0 false rec_attrs) vs /\
         field_writes hb rec_ct 1 x (PO 0 false rec_attrs) vs b).
      { intros x vs b H E L. split; [exact L|]. split; [unfold conforming; rewrite E; discriminate|].
        eapply penc_writes; [|exact E]. exists no_sets. split; [apply rec_classes|exact H]. }
      change rec_bytes_le with ([x01] ++ [x03; x02] ++ [x68; x69; x00] ++ [] ++ [x07; x06; x05; x04] ++ [xfe] ++ []).
      change [VInt 1; VInt 515; VBytes [x68; x69]; VInt 67438087; VInt (-2)]
        with ([VInt 1] ++ [VInt 515] ++ [VBytes [x68; x69]] ++ [] ++ [VInt 67438087] ++ [VInt (-2)] ++ []).
      unfold rec_fields. cbn [map with_bo].
      do 6 (match goal with |- fields_write _ _ _ _ _ _ (?vs ++ _) (?b ++ _) =>
        apply FW_cons; [eapply (W _ vs b); destruct hb; reflexivity|eapply (W _ vs b); destruct hb; reflexivity
                       |eapply (W _ vs b); destruct hb; reflexivity|] end).
      constructor. }
  eexists. split; [reflexivity|]. split; [now apply P|]. split; [now apply P|].
  eexists. split; [reflexivity|]. rewrite <- C15_instance_pack_met.
  change (fst (do_pack false rec_ct 2 (VObj 0 (Some BO_BE) rec_attrs) KPack dirty) = fst (do_pack false rec_ct 2 (VObj 0 None rec_attrs) KPack dirty)).
  apply (f_equal fst). destruct rec_sum as (s & SU & RS & PL & LL).
  eapply (C13_instance_back false rec_ct 2 0 rec_cd BO_LE _ _ rec_attrs KPack dirty
     [VInt 1; VInt 515; VBytes [x68; x69]; VInt 67438087; VInt (-2)] s); try reflexivity; [exact RS|].
  repeat constructor; cbn; intuition discriminate.
Qed.

(** ** C12 *)
(** the order of the bytes of an explicit byte order *)
Definition big_of (b : border) : bool := match b with BO_BE | BO_NET => true | _ => false end.
(** standard sizes: 1, 2, 4, 4, 8 bytes for b, h, i, l, q *)
Definition std_size (c : code) : nat :=
  match c with
  | Cb | CB => 1 | Ch | CH => 2 | Ci | CI | Cl | CL => 4 | Cq | CQ => 8 | _ => 0
  end%nat.
Lemma explicit_mode : forall hb b, explicit b = true -> mode_of hb b = Mode false (big_of b).
Proof. intros hb [] H; (discriminate H || reflexivity). Qed.
Lemma std_csize : forall c sg, int_code c = Some sg -> csize false c = std_size c.
Proof. intros [] sg H; (discriminate H || reflexivity). Qed.

(** One integer field of a class declared with an explicit byte order: two's complement in that order. *)
Lemma int_est : forall hb b c sg z, explicit b = true -> int_code c = Some sg -> int_range sg (std_size c) z ->
  est hb (SS b [T None c] None) [VInt z] = Ok (uint_bytes (big_of b) (std_size c) (z mod 256 ^ Z.of_nat (std_size c))).
Proof.
  intros hb b c sg z E I R.
  pose proof (C27_int hb no_classes 0 b c sg (VInt z) I) as H. cbn [as_index] in H. cbv zeta in H.
  rewrite (explicit_mode hb b E) in H. cbn [m_native m_big] in H. rewrite (std_csize c sg I) in H.
  destruct H as [H _]. specialize (H R KPack cloud0 Logic.I). cbv zeta in H.
  destruct H as [[H _] _]. exact H.
Qed.
(** A class of integer fields [cs] (int8 ... uint64) declared with an explicit byte order: any number of
    fields, any values in range, on any machine, from any state. *)
Definition int_fields (cs : list code) : list ser := map (fun c => SStruct (SS BO_DEFAULT [T None c] None)) cs.
Fixpoint int_layout (b : border) (cs : list code) (zs : list Z) : bytes :=
  match cs, zs with
  | c :: cs', z :: zs' =>
      uint_bytes (big_of b) (std_size c) (z mod 256 ^ Z.of_nat (std_size c)) ++ int_layout b cs' zs'
  | _, _ => []
  end.
Definition in_int_range (c : code) (z : Z) : Prop :=
  match int_code c with Some sg => int_range sg (std_size c) z | None => False end.
Lemma int_plain : forall cs, forallb plain_field (int_fields cs) = true.
Proof. intros cs. unfold int_fields. rewrite forallb_map. apply forallb_forall. reflexivity. Qed.
Lemma int_lossless : forall cs, lossless (int_fields cs) = true.
Proof.
  intros cs. unfold lossless. generalize (@nil ser). induction cs as [|c cs IH]; intros p; [reflexivity|].
  cbn [int_fields map lossless_from]. rewrite IH, Bool.andb_true_r. unfold fits_after.
  destruct (split_last p) as [[q x]|]; [|reflexivity]. destruct x; reflexivity.
Qed.
Theorem C12_integers : forall hb ct allow fin id b cs s n c cd d zs w,
  explicit b = true -> ssum fin id (int_fields cs) = Ok s -> healthy ct allow ->
  ct c = Some cd -> c_ser cd = with_bo b s -> get_attrs (c_attrs cd) d = Ok (map VInt zs) ->
  Forall2 in_int_range cs zs ->
  fst (Structured_pack hb ct (S (S n)) (VObj c None d) w) = Ok (int_layout b cs zs).
Proof.
  intros hb ct allow fin id b cs s n c cd d zs w E SU [TT COK] C S G R.
  eapply (C15_instance_pack hb ct allow fin id b (int_fields cs) s n c cd None d (map VInt zs)); try eassumption.
  - now rewrite explicit_mode.
  - apply int_plain.
  - apply int_lossless.
  - exists TT. split; [exact COK|]. unfold int_fields. rewrite map_map, forallb_map. apply forallb_forall. reflexivity.
  - clear G SU. induction R as [|k z cs zs H R IH]; [constructor|].
    cbn [int_fields map int_layout with_bo]. unfold in_int_range in H. destruct (int_code k) as [sg|] eqn:K; [|contradiction].
    pose proof (int_est hb b k sg z E K H) as I.
    assert (P : penc hb ct allow (Datatypes.S n) (SStruct (SS b [T None k] None)) (PO c false d) [VInt z]
       = Ok (uint_bytes (big_of b) (std_size k) (z mod 256 ^ Z.of_nat (std_size k)))) by exact I.
    apply (FW_cons hb ct allow _ _ (SStruct (SS b [T None k] None)) _ [VInt z]).
    + destruct k; try discriminate K; reflexivity.
    + unfold conforming. rewrite P. discriminate.
    + eapply penc_writes; [|exact P]. exists TT. split; [exact COK|reflexivity].
    + exact IH.
Qed.
Print Assumptions C12_integers.
(** hypotheses met: class P(Structured, byte_order=BE): a: int8; b: uint16; c: int32; d: uint64 *)
Definition p_cs : list code := [Cb; CH; Ci; CQ].
Definition p_cd : cdef := CD ["a"; "b"; "c"; "d"]%string
  (SStruct (SS BO_BE [T None Cb; T None CH; T None Ci; T None CQ] None)) BO_BE false.
Definition p_ct (c : nat) : option cdef := match c with O => Some p_cd | _ => None end.
Lemma p_healthy : healthy p_ct Nat.eqb.
Proof.
  exists no_sets. split.
  - intros [|c] cd E; [injection E as <-|discriminate]. split; [reflexivity|]. intros i. cbn. discriminate.
  - intros d c E. apply Nat.eqb_eq in E. subst. auto.
Qed.
Example C12_integers_met : forall hb w, fst (Structured_pack hb p_ct 2
    (VObj 0 None [("a", VInt (-2)); ("b", VInt 258); ("c", VInt (-256)); ("d", VInt 1)]%string) w)
  = Ok [xfe; x01; x02; xff; xff; xff; x00; x00; x00; x00; x00; x00; x00; x00; x01].
Proof.
  intros hb w.
  assert (R : Forall2 in_int_range p_cs [-2; 258; -256; 1]) by (repeat constructor; vm_compute; intuition discriminate).
  exact (C12_integers hb p_ct Nat.eqb (fun _ => false) 0 BO_BE p_cs (SStruct (SS BO_DEFAULT [T None Cb; T None CH; T None Ci; T None CQ] None))
           0 0 p_cd [("a", VInt (-2)); ("b", VInt 258); ("c", VInt (-256)); ("d", VInt 1)]%string [-2; 258; -256; 1] w eq_refl eq_refl p_healthy eq_refl eq_refl eq_refl R).
Qed.

(** Array headers: the count and the size of the data are unsigned integers in the byte order of the class,
    the items follow in that byte order, whatever order the header types had. *)
Definition hdr_std (b : border) (h : ahdr) (count dsz : Z) : bytes :=
  match h with
  | HStatic _ => []
  | HStaticSize _ _ d => uint_bytes (big_of b) (std_size d) dsz
  | HDyn _ c => uint_bytes (big_of b) (std_size c) count
  | HDynSize _ c d => uint_bytes (big_of b) (std_size c) count ++ uint_bytes (big_of b) (std_size d) dsz
  end.
Definition std_fits (c : code) (z : Z) : Prop := 0 <= z < 256 ^ Z.of_nat (std_size c).
Definition hdr_fits (h : ahdr) (count dsz : Z) : Prop :=
  match h with
  | HStatic l => count = Z.of_nat l
  | HStaticSize l _ d => count = Z.of_nat l /\ std_fits d dsz
  | HDyn _ c => std_fits c count
  | HDynSize _ c d => std_fits c count /\ std_fits d dsz
  end.
Definition ahdr_bo (b : border) (h : ahdr) : ahdr :=
  match h with
  | HStatic l => HStatic l
  | HStaticSize l _ d => HStaticSize l b d
  | HDyn _ c => HDyn b c
  | HDynSize _ c d => HDynSize b c d
  end.
Lemma ahdr_bo_ser : forall b h oh st, ahdr_ser h = Ok (oh, st) ->
  ahdr_ser (ahdr_bo b h) = Ok (option_map (ss_with_bo b) oh, st).
Proof.
  intros b [l|l bo d|bo c|bo c d] oh st H; cbn [ahdr_ser ahdr_bo] in *; try (injection H as <- <-; reflexivity).
  unfold ss_add in *. cbn [uint_ser s_act s_bo] in *. destruct (border_eqb bo bo); [|discriminate].
  cbn [rbind] in H. injection H as <- <-. assert (border_eqb b b = true) as -> by (destruct b; reflexivity). reflexivity.
Qed.
Theorem C12_array_pack : forall hb ct allow n b id h oh static item o items bs,
  explicit b = true -> ahdr_wf h -> ahdr_ser h = Ok (oh, static) ->
  healthy_field ct allow (p_cls o) (with_bo b (SArray id oh item static)) -> prepares true (with_bo b item) o ->
  Forall2 (fun v x => conforming hb ct allow n (with_bo b item) o [v] /\ field_writes hb ct n (with_bo b item) o [v] x) items bs ->
  hdr_fits h (Z.of_nat (List.length items)) (blen (concat bs)) ->
  field_writes hb ct (S n) (with_bo b (SArray id oh item static)) o [VList items]
    (hdr_std b h (Z.of_nat (List.length items)) (blen (concat bs)) ++ concat bs).
Proof.
  intros hb ct allow n b id h oh static item o items bs E W A H P F FI.
  assert (SZ : forall c, unsigned c -> hsize hb b c = std_size c).
  { intros c U. unfold hsize. rewrite explicit_mode by exact E. cbn [m_native]. eapply std_csize. exact U. }
  assert (BG : hbig hb b = big_of b) by (unfold hbig; now rewrite explicit_mode).
  assert (HB : forall count dsz, hdr_bytes hb (ahdr_bo b h) count dsz = hdr_std b h count dsz).
  { intros count dsz. destruct h as [l|l bo d|bo c|bo c d]; cbn [ahdr_wf ahdr_bo hdr_bytes hdr_std] in *; try reflexivity.
    - now rewrite BG, SZ.
    - now rewrite BG, SZ.
    - destruct W as [W1 W2]. rewrite BG, !SZ by assumption. unfold hdr_pad. rewrite explicit_mode by exact E. cbn [m_native calign].
      rewrite Nat.mod_1_r. reflexivity. }
  rewrite <- HB. cbn [with_bo].
  apply (C22_pack hb ct allow n id (ahdr_bo b h)); try assumption.
  - destruct h; exact W.
  - now apply ahdr_bo_ser.
  - destruct h as [l|l bo d|bo c|bo c d]; cbn in *; try tauto; unfold fits, std_fits in *; rewrite ?SZ by tauto; tauto.
  - destruct h as [l|l bo d|bo c|bo c d]; cbn in *; try tauto; unfold fits, std_fits in *; rewrite ?SZ by tauto; tauto.
Qed.
Print Assumptions C12_array_pack.
(** array[Header[uint16, uint32], item] in a BE class; the items are uint16 *)
Example C12_array_met :
  field_writes false no_classes 2 (with_bo BO_BE (SArray 1 (Some (SS BO_DEFAULT [T None CH; T None CI] None)) (SStruct sU16) (-1)))
    (PO 0 false []) [VList [VInt 258; VInt 3]] [x00; x02; x00; x00; x00; x04; x01; x02; x00; x03].
Proof.
  assert (HF : forall s, leaf s = true -> healthy_field no_classes Nat.eqb 0 s)
    by (intros s L; exists no_sets; split; [apply no_classes_ok|now apply leaf_hc]).
  apply (C12_array_pack false no_classes Nat.eqb 1 BO_BE 1 (HDynSize BO_DEFAULT CH CI) _ (-1) (SStruct sU16) (PO 0 false [])
    [VInt 258; VInt 3] [[x01; x02]; [x00; x03]]); try reflexivity; try (split; reflexivity).
  - exists no_sets. split; [apply no_classes_ok|reflexivity].
  - repeat constructor; try discriminate; apply (penc_writes false no_classes Nat.eqb);
      try (apply HF; reflexivity); reflexivity.
  - split; split; cbn; lia.
Qed.


(** *** the same bytes on every machine *)
(** the fields whose byte order with_byte_order changes; text, tuples and unions must not contain multi-byte
    values of the native order, NET strings are excluded (refuted below) *)
Fixpoint follows (x : ser) : bool :=
  match x with
  | SNet _ => false
  | SUnicode inner _ => sall port1 inner
  | STuple _ inner => sall port1 inner
  | SLookback _ _ _ _ | SLookahead _ _ _ _ _ => sall port1 x
  | SArray _ _ item _ => follows item
  | SCond _ inner _ => follows inner
  | SCompound _ subs | SSpec _ subs _ => forallb follows subs
  | _ => true
  end.
Lemma follows_port : forall b s, explicit b = true -> follows s = true -> sall port1 (with_bo b s) = true.
Proof.
  intros b s B. induction s using ser_ind'; cbn; intros E; try reflexivity; try assumption; auto.
  all: unfold portable2, portable, oportable; cbn; rewrite ?B; cbn; try reflexivity; try discriminate E.
  - destruct h; cbn; unfold portable; cbn; rewrite ?B; cbn; auto.
  - rewrite forallb_map. rewrite forallb_forall in *. rewrite Forall_forall in H. auto.
  - rewrite forallb_map. rewrite forallb_forall in *. rewrite Forall_forall in H. auto.
Qed.
(** every class was declared with an explicit byte order, and its fields follow it *)
Definition explicit_program (ct : nat -> option cdef) : Prop :=
  forall c cd, ct c = Some cd -> exists b s, explicit b = true /\ follows s = true /\ c_ser cd = with_bo b s.
Lemma explicit_port : forall ct, explicit_program ct -> forall c cd, ct c = Some cd -> sall port1 (c_ser cd) = true.
Proof. intros ct H c cd E. destruct (H c cd E) as (b & s & B & F & ->). now apply follows_port. Qed.

Theorem C12_portable_pack : forall ct allow n v w w', explicit_program ct -> healthy ct allow ->
  explicit_obj v = true -> conforms false ct allow n v ->
  fst (Structured_pack true ct n v w) = fst (Structured_pack false ct n v w').
Proof.
  intros ct allow n v w w' EP H EV CF.
  pose proof (enc_obj_same ct allow (explicit_port ct EP) n v EV) as Q.
  assert (CT : conforms true ct allow n v) by (unfold conforms in *; now rewrite Q).
  destruct (user_pack true ct allow false n v KPack w H ltac:(discriminate) CT I) as [A _].
  destruct (user_pack false ct allow false n v KPack w' H ltac:(discriminate) CF I) as [B _].
  change (Structured_pack true ct n v w) with (do_pack true ct n v KPack w).
  change (Structured_pack false ct n v w') with (do_pack false ct n v KPack w').
  now rewrite A, B.
Qed.
Print Assumptions C12_portable_pack.
(** files and buffers get the same contents *)
Theorem C12_portable_write : forall ct allow n v w, explicit_program ct -> healthy ct allow ->
  explicit_obj v = true -> conforms false ct allow n v -> 0 <= w_pos w ->
  fst (do_pack true ct n v KWrite w) = fst (do_pack false ct n v KWrite w) /\
  (is_ok (fst (do_pack false ct n v KWrite w)) = true ->
   w_data (snd (do_pack true ct n v KWrite w)) = w_data (snd (do_pack false ct n v KWrite w)) /\
   w_pos (snd (do_pack true ct n v KWrite w)) = w_pos (snd (do_pack false ct n v KWrite w))).
Proof.
  intros ct allow n v w EP H EV CF K.
  pose proof (enc_obj_same ct allow (explicit_port ct EP) n v EV) as Q.
  assert (CT : conforms true ct allow n v) by (unfold conforms in *; now rewrite Q).
  destruct (user_pack true ct allow false n v KWrite w H ltac:(discriminate) CT K) as (A & _ & A2).
  destruct (user_pack false ct allow false n v KWrite w H ltac:(discriminate) CF K) as (B & _ & B2).
  split; [now rewrite A, B, Q|]. rewrite B, Q in *. destruct (enc_obj false ct allow n v) as [b|]; [|discriminate].
  intros _. destruct (A2 b eq_refl) as [-> ->]. destruct (B2 b eq_refl) as [-> ->]. auto.
Qed.
Print Assumptions C12_portable_write.
Theorem C12_portable_unpack : forall ct allow n c md b, explicit_program ct -> healthy ct allow -> classes_hu ct md ->
  fst (create_step true ct (unpack true ct n) c (fst (src_of md b)) (snd (src_of md b)))
  = fst (create_step false ct (unpack false ct n) c (fst (src_of md b)) (snd (src_of md b))).
Proof.
  intros ct allow n c md b EP H HU. destruct (src_of_ok md b) as (M & K & S).
  destruct (user_create true ct allow md n c _ _ H HU M K) as [-> _].
  destruct (user_create false ct allow md n c _ _ H HU M K) as [-> _].
  now rewrite (dcreate_same ct (explicit_port ct EP) md n c).
Qed.
Print Assumptions C12_portable_unpack.

(** hypotheses met: class Q(Structured, byte_order=LE): x: int16; y: int16;
    class R(Structured, byte_order=BE): n: uint16; u: unicode[uint8]; c: uint32 if n == 1;
    t: tuple[int8, bool8]; qs: array[Header[uint16, uint32], Q]; kids: array[Header[uint8], Self] *)
Definition pq : cdef := CD ["x"; "y"]%string (SStruct (SS BO_LE [T (Some 2%nat) Ch] None)) BO_LE false.
Definition pr_fields : list ser :=
  [ SStruct sU16; SUnicode (SDynChar 11 sU8) latin1; SCond (fld_is "n" 1) (SStruct (st1 BO_DEFAULT CI)) [VNone];
    STuple 12 (SStruct (SS BO_DEFAULT [T None Cb; T None Cbool] None));
    SArray 13 (Some (SS BO_DEFAULT [T None CH; T None CI] None)) (SStructd 14 0) (-1);
    SArray 15 (Some sU8) (SSelf 16) (-1) ].
Definition pr : cdef := CD ["n"; "u"; "c"; "t"; "qs"; "kids"]%string (with_bo BO_BE (SCompound 10 pr_fields)) BO_BE false.
Definition pqr (c : nat) : option cdef := match c with O => Some pq | S O => Some pr | _ => None end.
Definition pqr_T (c id : nat) : bool := match c with 1 => existsb (Nat.eqb id) [12; 13; 15] | _ => false end%nat.
Definition q_obj : value := VObj 0 None [("x", VInt 1); ("y", VInt (-2))]%string.
Definition r_leaf : value := VObj 1 None [("n", VInt 2); ("u", VStr [65]); ("c", VNone); ("t", VTuple [VInt 1; VBool true]);
  ("qs", VList []); ("kids", VList [])]%string.
Definition r_obj : value := VObj 1 None [("n", VInt 1); ("u", VStr [72]); ("c", VInt 515); ("t", VTuple [VInt (-1); VBool true]);
  ("qs", VList [q_obj]); ("kids", VList [r_leaf])]%string.
Lemma pqr_program : explicit_program pqr /\ healthy pqr Nat.eqb /\ classes_hu pqr UBuf.
Proof.
  split; [|split].
  - intros [|[|c]] cd E; [injection E as <-|injection E as <-|discriminate].
    + exists BO_LE, (SStruct (SS BO_LE [T (Some 2%nat) Ch] None)). repeat split.
    + exists BO_BE, (SCompound 10 pr_fields). repeat split.
  - exists pqr_T. split.
    + intros c cd H. do 2 (destruct c as [|c]; [cbn in H; injection H as <-; split; [reflexivity|];
        intros id E; do 17 (destruct id as [|id]; [vm_compute in E |- *; congruence|]);
        vm_compute in E |- *; congruence |]). discriminate.
    + intros d c E. apply Nat.eqb_eq in E. subst. auto.
  - intros [|[|c]] cd E; [injection E as <-|injection E as <-|discriminate]; reflexivity.
Qed.
Example C12_portable_met : exists b, (forall w, fst (Structured_pack true pqr 8 r_obj w) = Ok b) /\
  fst (create_unpack true pqr 8 1 b dirty) = Ok r_obj.
Proof.
  destruct pqr_program as (EP & H & HU).
  assert (CF : conforms false pqr Nat.eqb 8 r_obj) by (vm_compute; discriminate).
  eexists. split.
  - intros w. rewrite (C12_portable_pack pqr Nat.eqb 8 r_obj w cloud0 EP H eq_refl CF). vm_compute. reflexivity.
  - vm_compute. reflexivity.
Qed.

(** *** what does not follow the byte order of the class *)
(** class X(Structured, byte_order=BE): one field of each kind; the value 258 comes out as 02 01, the order of a
    little endian machine *)
Definition be_class (name : string) (x : ser) (c : nat) : option cdef :=
  match c with O => Some (CD [name] (with_bo BO_BE x) BO_BE false) | _ => None end.
Definition be_bytes (hb : bool) (x : ser) (v : value) : res bytes :=
  fst (Structured_pack hb (be_class "a" x) 5 (VObj 0 None [("a"%string, v)]) cloud0).
(** a: tuple[uint16, uint16] *)
Theorem C12_tuple_refuted :
  be_bytes false (STuple 1 (SStruct (SS BO_DEFAULT [T (Some 2%nat) CH] None))) (VTuple [VInt 258; VInt 259])
    = Ok [x02; x01; x03; x01] /\
  be_bytes true (STuple 1 (SStruct (SS BO_DEFAULT [T (Some 2%nat) CH] None))) (VTuple [VInt 258; VInt 259])
    = Ok [x01; x02; x01; x03].
Proof. split; vm_compute; reflexivity. Qed.
Print Assumptions C12_tuple_refuted.
(** a: Union[uint16, ...] with a decider *)
Theorem C12_union_refuted :
  be_bytes false (SLookback 1 (fun _ => Ok (VInt 0)) [(VInt 0, SStruct sU16)] None) (VInt 258) = Ok [x02; x01] /\
  be_bytes true (SLookback 1 (fun _ => Ok (VInt 0)) [(VInt 0, SStruct sU16)] None) (VInt 258) = Ok [x01; x02].
Proof. split; vm_compute; reflexivity. Qed.
Print Assumptions C12_union_refuted.
(** a: unicode[uint16]: the length *)
Theorem C12_unicode_refuted :
  be_bytes false (SUnicode (SDynChar 1 sU16) latin1) (VStr [65]) = Ok [x01; x00; x41] /\
  be_bytes true (SUnicode (SDynChar 1 sU16) latin1) (VStr [65]) = Ok [x00; x01; x41].
Proof. split; vm_compute; reflexivity. Qed.
Print Assumptions C12_unicode_refuted.
(** a: char[NET], 130 bytes: the length *)
Theorem C12_net_refuted :
  rmap (firstn 2) (be_bytes false (SNet 1) (VBytes (repeat x41 130))) = Ok [x82; x01] /\
  rmap (firstn 2) (be_bytes true (SNet 1) (VBytes (repeat x41 130))) = Ok [x01; x82].
Proof. split; vm_compute; reflexivity. Qed.
Print Assumptions C12_net_refuted.
(** a: Inner, where Inner was declared without a byte order *)
Definition be_outer (c : nat) : option cdef :=
  match c with
  | O => Some (CD ["a"]%string (with_bo BO_BE (SStructd 1 1)) BO_BE false)
  | S O => Some (CD ["x"]%string (SStruct sU16) BO_DEFAULT false)
  | _ => None
  end.
Theorem C12_nested_refuted :
  let v := VObj 0 None [("a", VObj 1 None [("x", VInt 258)])]%string in
  fst (Structured_pack false be_outer 5 v cloud0) = Ok [x02; x01] /\
  fst (Structured_pack true be_outer 5 v cloud0) = Ok [x01; x02].
Proof. split; vm_compute; reflexivity. Qed.
Print Assumptions C12_nested_refuted.
