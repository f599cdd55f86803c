(** Property C36: unpacking, then packing what was unpacked, gives the bytes read. *)
From Verif Require Import Base Floats FloatFacts Value StructMod Format Ser Exec Pure BaseFacts StructFacts FormatFacts
  SerFacts RefPack RefUnpack User Sample DecFacts Fuel RoundTrip RoundTripMain PropsIO PropsRoundTrip Exact Sure.
Open Scope string_scope. Open Scope list_scope. Open Scope Z_scope.

(** every class is made of fields in which every bit of the bytes shows up in the value ([pE], Exact.v):
    integers, floats, fixed, counted, terminated and read-to-end byte strings, arrays with any header of
    unsigned integers, tuples, nested classes, Self, and conditions and unions decided by what was read before.
    Not: booleans, paddings, native alignment gaps, NET strings, text, look-ahead unions, user actions
    (counterexamples below) *)
Definition every_bit (hb : bool) (ct : nat -> option cdef) (md : umode) : Prop :=
  forall c cd, ct c = Some cd -> exact_class hb md cd.
(** the packing is known to succeed: no counted strings, no array of basic items with a dynamic length
    beside other fields *)
Definition packs_again (ct : nat -> option cdef) : Prop :=
  forall c cd, ct c = Some cd -> sure_ser (c_ser cd) = true.

Lemma sall_all : forall P, (forall s, P s = true) -> forall s, sall P s = true.
Proof.
  intros P A. induction s using ser_ind'; cbn; rewrite A; cbn; auto;
    repeat (apply andb_true_intro; split); auto;
    try (rewrite forallb_forall; rewrite Forall_forall in *; intros; eauto; fail); destruct d; auto.
Qed.

Section Main.
Variables (hb : bool) (ct : nat -> option cdef) (allow : nat -> nat -> bool).

Lemma again : forall s n m c v w w2 b', healthy ct allow -> classes_hu ct (md_of s) -> every_bit hb ct (md_of s) ->
  srcok s w -> fst (create_step hb ct (unpack hb ct n) c s w) = Ok v -> nanfree v = true ->
  conforms hb ct allow m v -> fst (Structured_pack hb ct m v w2) = Ok b' ->
  let w' := snd (create_step hb ct (unpack hb ct n) c s w) in
  exists k, dcreate hb ct (md_of s) n c (suffix s w) = Ok (v, k) /\ 0 <= k /\ strict s k w /\
    w_pos w' = posn s k w /\ (csized ct c = true -> fst (obj_size hb ct c None w') = Ok k) /\
    (k <= blen (suffix s w) -> b' = firstn (Z.to_nat k) (suffix s w)).
Proof.
  intros s n m c v w w2 b' H HU EB OK U NF CF PK. cbv zeta.
  destruct (user_create hb ct allow (md_of s) n c s w H HU eq_refl OK) as (A & _ & _ & PS & SZ).
  rewrite U in A. destruct (dcreate hb ct (md_of s) n c (suffix s w)) as [[v' k]|] eqn:D; [|discriminate].
  cbn in A. injection A as <-. cbn in PS. destruct PS as (K & STR & PS).
  exists k. split; [reflexivity|]. split; [exact K|]. split; [exact STR|]. split; [exact PS|].
  split; [intros CS; now rewrite (SZ v k CS eq_refl)|].
  intros LE. eapply (ex_object hb (md_of s) ct allow EB); eauto. exact (pack_enc hb ct allow m v w2 b' H CF PK).
Qed.

Lemma again_ok : forall s n c v w, healthy ct allow -> (forall d, allow d d = true) ->
  classes_hu ct (md_of s) -> every_bit hb ct (md_of s) -> packs_again ct ->
  srcok s w -> fst (create_step hb ct (unpack hb ct n) c s w) = Ok v -> nanfree v = true ->
  exists b' rest m0, suffix s w = b' ++ rest /\
    forall m w2, (m0 <= m)%nat -> fst (Structured_pack hb ct m v w2) = Ok b'.
Proof.
  intros s n c v w H RF HU EB PA OK U NF.
  destruct (user_create hb ct allow (md_of s) n c s w H HU eq_refl OK) as (A & _ & _ & _).
  rewrite U in A. destruct (dcreate hb ct (md_of s) n c (suffix s w)) as [[v' k]|] eqn:D; [|discriminate].
  cbn in A. injection A as <-.
  destruct (sr_object hb (md_of s) ct allow EB PA RF n c _ v k D NF) as (m0 & E).
  exists (firstn (Z.to_nat k) (suffix s w)), (skipn (Z.to_nat k) (suffix s w)), m0.
  split; [symmetry; apply firstn_skipn|]. intros m w2 L. specialize (E m L).
  assert (CF : conforms hb ct allow m v) by (unfold conforms; rewrite E; discriminate).
  assert (N : false = true -> no_rest ct) by discriminate.
  pose proof (user_pack hb ct allow false m v KPack w2 H N CF I) as [B _]. rewrite E in B.
  unfold Structured_pack. unfold do_pack in B. exact B.
Qed.
End Main.

(** ** C36 *)
(** [size]: what [v.size] says; it is more than the input only if a counted string was cut short (below) *)
Theorem C36_unpack_pack : forall hb ct allow n m c b w w2 v size b',
  healthy ct allow -> classes_hu ct UBuf -> every_bit hb ct UBuf -> csized ct c = true ->
  fst (create_unpack hb ct n c b w) = Ok v -> nanfree v = true ->
  fst (obj_size hb ct c None (snd (create_unpack hb ct n c b w))) = Ok size -> size <= blen b ->
  conforms hb ct allow m v -> fst (Structured_pack hb ct m v w2) = Ok b' ->
  exists rest, b = b' ++ rest /\ blen b' = size.
Proof.
  intros hb ct allow n m c b w w2 v size b' H HU EB CS U NF SZ LE CF PK.
  destruct (again hb ct allow (SBuf b) n m c v w w2 b' H HU EB I U NF CF PK) as (k & _ & K & _ & _ & KS & E).
  unfold create_unpack in SZ. rewrite (KS CS) in SZ. injection SZ as ->. cbn [suffix] in E. rewrite (E LE).
  exists (skipn (Z.to_nat size) b). split; [symmetry; apply firstn_skipn|]. rewrite blen_firstn. lia.
Qed.
Print Assumptions C36_unpack_pack.

Theorem C36_unpack_from_pack : forall hb ct allow n m c b off w w2 v b',
  healthy ct allow -> classes_hu ct UFrom -> every_bit hb ct UFrom -> 0 <= off <= blen b ->
  fst (create_unpack_from hb ct n c b off w) = Ok v -> nanfree v = true ->
  conforms hb ct allow m v -> fst (Structured_pack hb ct m v w2) = Ok b' ->
  exists pre rest, b = pre ++ b' ++ rest /\ blen pre = off /\
    (csized ct c = true -> fst (obj_size hb ct c None (snd (create_unpack_from hb ct n c b off w))) = Ok (blen b')).
Proof.
  intros hb ct allow n m c b off w w2 v b' H HU EB OF U NF CF PK.
  destruct (again hb ct allow (SFrom b off) n m c v w w2 b' H HU EB OF U NF CF PK) as (k & _ & K & STR & _ & KS & E).
  cbn [strict] in STR. specialize (E STR). cbn [suffix] in *.
  exists (firstn (Z.to_nat off) b), (skipn (Z.to_nat k) (skipn (Z.to_nat off) b)).
  split; [rewrite E, firstn_skipn; symmetry; apply firstn_skipn|].
  split; [rewrite blen_firstn; lia|].
  intros CS. unfold create_unpack_from. rewrite (KS CS), E, blen_firstn. do 2 f_equal. lia.
Qed.
Print Assumptions C36_unpack_from_pack.

Theorem C36_unpack_read_pack : forall hb ct allow n m c w w2 v b',
  healthy ct allow -> classes_hu ct URead -> every_bit hb ct URead -> 0 <= w_pos w <= blen (w_data w) ->
  fst (create_unpack_read hb ct n c w) = Ok v -> nanfree v = true ->
  conforms hb ct allow m v -> fst (Structured_pack hb ct m v w2) = Ok b' ->
  exists pre rest, w_data w = pre ++ b' ++ rest /\ blen pre = w_pos w /\
    w_pos (snd (create_unpack_read hb ct n c w)) = w_pos w + blen b'.
Proof.
  intros hb ct allow n m c w w2 v b' H HU EB P U NF CF PK.
  destruct (again hb ct allow SRead n m c v w w2 b' H HU EB (proj1 P) U NF CF PK) as (k & D & K & _ & PS & _ & E).
  assert (LE : k <= blen (suffix SRead w)).
  { eapply (rm_object hb URead ct allow EB); [|exact D]. intros c0 cd _.
    assert (G : forall x, sall (cut URead) x = true) by (intros x; now apply sall_all).
    destruct (c_ser cd); try apply G. cbn [whole_ser]. apply forallb_forall. intros y _. apply G. }
  specialize (E LE). cbn [suffix posn] in *. unfold create_unpack_read.
  exists (firstn (Z.to_nat (w_pos w)) (w_data w)), (skipn (Z.to_nat k) (skipn (Z.to_nat (w_pos w)) (w_data w))).
  split; [rewrite E, firstn_skipn; symmetry; apply firstn_skipn|].
  split; [rewrite blen_firstn; lia|]. rewrite PS, E, blen_firstn. lia.
Qed.
Print Assumptions C36_unpack_read_pack.

(** the packing succeeds, whatever was read, from every state and with every sufficient recursion limit *)
Theorem C36_packs_again : forall hb ct n c b w v,
  healthy ct Nat.eqb -> classes_hu ct UBuf -> every_bit hb ct UBuf -> packs_again ct ->
  fst (create_unpack hb ct n c b w) = Ok v -> nanfree v = true ->
  exists b' rest m0, b = b' ++ rest /\ forall m w2, (m0 <= m)%nat -> fst (Structured_pack hb ct m v w2) = Ok b'.
Proof.
  intros hb ct n c b w v H HU EB PA U NF.
  exact (again_ok hb ct Nat.eqb (SBuf b) n c v w H Nat.eqb_refl HU EB PA I U NF).
Qed.
Print Assumptions C36_packs_again.
Theorem C36_packs_again_from : forall hb ct n c b off w v,
  healthy ct Nat.eqb -> classes_hu ct UFrom -> every_bit hb ct UFrom -> packs_again ct -> 0 <= off <= blen b ->
  fst (create_unpack_from hb ct n c b off w) = Ok v -> nanfree v = true ->
  exists pre b' rest m0, b = pre ++ b' ++ rest /\ blen pre = off /\
    forall m w2, (m0 <= m)%nat -> fst (Structured_pack hb ct m v w2) = Ok b'.
Proof.
  intros hb ct n c b off w v H HU EB PA OF U NF.
  destruct (again_ok hb ct Nat.eqb (SFrom b off) n c v w H Nat.eqb_refl HU EB PA OF U NF) as (b' & rest & m0 & S & P).
  exists (firstn (Z.to_nat off) b), b', rest, m0. cbn [suffix] in S. rewrite <- S, firstn_skipn.
  split; [reflexivity|]. split; [rewrite blen_firstn; lia|exact P].
Qed.
Print Assumptions C36_packs_again_from.

(** ** the hypotheses are met *)
(** class Pt(Structured, byte_order=LE):                                    # class 1
        x: int16
        y: float32
    class Rec(Structured, byte_order=LE):                                  # class 0
        id: uint32
        tag: char[4]
        vals: array[Header[3], int16]
        pts: array[Header[uint8, uint16], Pt]
        opt: Annotated[uint16, Condition(lambda o: o.id == 1, 7)]
        kids: array[Header[uint8], Self]
        pair: tuple[int8, uint16]
        text: char[b'\0']
    class Bag(Structured):                                                 # class 2
        n: uint8
        s: char[uint8]
        a: array[Header[2], int32]
    class Grp(Structured, byte_order=LE):                                  # class 3
        id: uint8
        pts: array[Header[uint8, uint16], Pt]
        opt: Annotated[uint16, Condition(lambda o: o.id == 1, 7)]
    class Arr(Structured, byte_order=LE):                                  # class 4
        a: array[Header[uint16], int32]                                     *)
Definition XPt : cdef := CD ["x"; "y"] (SStruct (SS BO_LE [T None Ch; T None Cf] None)) BO_LE false.
Definition XRec : cdef := CD ["id"; "tag"; "vals"; "pts"; "opt"; "kids"; "pair"; "text"]
  (SCompound 10
     [ SStruct (SS BO_LE [T None CI; T (Some 4%nat) Cs] None);
       SStaticArr 3 (st1 BO_LE Ch);
       SArray 11 (Some (SS BO_LE [T None CB; T None CH] None)) (SStructd 12 1) (-1);
       SCond (fld_is "id" 1) (SStruct (st1 BO_LE CH)) [VInt 7];
       SArray 13 (Some (st1 BO_LE CB)) (SSelf 14) (-1);
       STuple 15 (SStruct (SS BO_LE [T None Cb; T None CH] None));
       STerm 16 x00 ]) BO_LE false.
Definition XBag : cdef := CD ["n"; "s"; "a"]
  (SCompound 20
     [ SStruct (st1 BO_DEFAULT CB); SDynChar 21 (st1 BO_DEFAULT CB); SStaticArr 2 (st1 BO_DEFAULT Ci) ]) BO_DEFAULT false.
Definition XArr : cdef := CD ["a"] (SDynArr 22 (st1 BO_LE CH) (st1 BO_LE Ci)) BO_LE false.
Definition XGrp : cdef := CD ["id"; "pts"; "opt"]
  (SCompound 17
     [ SStruct (st1 BO_LE CB); SArray 18 (Some (SS BO_LE [T None CB; T None CH] None)) (SStructd 19 1) (-1);
       SCond (fld_is "id" 1) (SStruct (st1 BO_LE CH)) [VInt 7] ]) BO_LE false.
Definition xtab (c : nat) : option cdef :=
  match c with 0 => Some XRec | 1 => Some XPt | 2 => Some XBag | 3 => Some XGrp | 4 => Some XArr | _ => None end%nat.
Definition xtab2 (c : nat) : option cdef :=
  match c with 0 => Some XRec | 1 => Some XPt | 3 => Some XGrp | 4 => Some XArr | _ => None end%nat.
(** no terminated strings (they do not work with unpack_from, strings.py:230) *)
Definition xtabF (c : nat) : option cdef := match c with 1 => Some XPt | 2 => Some XBag | 3 => Some XGrp | 4 => Some XArr | _ => None end%nat.
Definition xtabG (c : nat) : option cdef := match c with 1 => Some XPt | 3 => Some XGrp | 4 => Some XArr | _ => None end%nat.
Definition xtab_T (c id : nat) : bool := match c with 0 => existsb (Nat.eqb id) [11; 13; 15] | 3 => Nat.eqb id 18 | _ => false end%nat.

Lemma steady_fld_is : forall a z, steady (fld_is a z).
Proof.
  intros a z u p r [_ K] E. unfold fld_is, fld in *. destruct (assoc a (p_attrs u)) as [v|] eqn:A; [|discriminate].
  now rewrite (K a v A).
Qed.
Lemma xtab_every_bit : forall md, every_bit false xtab md.
Proof.
  intros md c cd E.
  do 5 (destruct c as [|c]; [injection E as <-; split; [destruct md; vm_compute; reflexivity|];
    split; [cbn; repeat split; apply steady_fld_is|];
    split; [repeat constructor; cbn; intuition discriminate|reflexivity]|]). discriminate.
Qed.
Lemma every_bit_sub : forall hb ct ct' md, (forall c cd, ct' c = Some cd -> ct c = Some cd) ->
  every_bit hb ct md -> every_bit hb ct' md.
Proof. intros hb ct ct' md S E c cd H. apply (E c cd), S, H. Qed.
Ltac subtab := intros c cd E; do 5 (destruct c as [|c]; [exact E || discriminate E|]); discriminate.
Lemma xtab2_sub : forall c cd, xtab2 c = Some cd -> xtab c = Some cd.
Proof. subtab. Qed.
Lemma xtabF_sub : forall c cd, xtabF c = Some cd -> xtab c = Some cd.
Proof. subtab. Qed.
Lemma xtabG_sub : forall c cd, xtabG c = Some cd -> xtab c = Some cd.
Proof. subtab. Qed.
Ltac healthy_tab := exists xtab_T; split;
  [ intros c cd H; do 5 (destruct c as [|c]; [cbn in H; first [discriminate H | injection H as <-; split; [reflexivity|];
      intros id E; do 24 (destruct id as [|id]; [vm_compute in E |- *; congruence|]);
      vm_compute in E |- *; congruence] |]); discriminate
  | intros d c E; apply Nat.eqb_eq in E as ->; auto ].
Lemma xtab_healthy : healthy xtab Nat.eqb.
Proof. healthy_tab. Qed.
Lemma xtab2_healthy : healthy xtab2 Nat.eqb.
Proof. healthy_tab. Qed.
Lemma xtabF_healthy : healthy xtabF Nat.eqb.
Proof. healthy_tab. Qed.
Lemma xtabG_healthy : healthy xtabG Nat.eqb.
Proof. healthy_tab. Qed.
Ltac hu_tab := intros c cd H; do 5 (destruct c as [|c]; [try discriminate H; cbn in H; injection H as <-; reflexivity|]); discriminate.
Lemma xtab_hu : classes_hu xtab UBuf /\ classes_hu xtab URead /\ classes_hu xtab2 UBuf /\ classes_hu xtabF UFrom /\
  classes_hu xtabG UFrom.
Proof. split; [hu_tab|]. split; [hu_tab|]. split; [hu_tab|]. split; hu_tab. Qed.
Ltac sure_tab := intros c cd H; do 5 (destruct c as [|c]; [try discriminate H; cbn in H; injection H as <-; reflexivity|]); discriminate.
Lemma xtab_sure : packs_again xtab2 /\ packs_again xtabG.
Proof. split; sure_tab. Qed.

(** arbitrary bytes, not produced by packing *)
Definition xin : bytes :=
  [x01; x00; x00; x00; xde; xad; x00; xef; xff; xff; x00; x80; x34; x12;
   x02; x0c; x00; x01; x00; x00; x00; xc0; x7f; x02; x00; x01; x00; x00; x80;
   x63; x00;
   x01; x02; x00; x00; x00; x00; x00; x00; x00; x01; x00; x02; x00; x03; x00; x00; x00; x00; x00; xff; x01; x01; x41; x00;
   x80; xff; xff; x68; x69; x00; x77; x77].
(** Pt.y of the first point is a NaN there, so take an infinity *)
Definition xin2 : bytes := firstn 21 xin ++ [x80] ++ skipn 22 xin.
Definition xbag : bytes := [x09; x03; x61; x00; x62; xff; xff; xff; xff; x01; x02; x03; x04; x55].

Ltac meets := eexists; split; [vm_compute; reflexivity|]; split; [vm_compute; reflexivity|];
  split; [unfold conforms; vm_compute; discriminate|vm_compute; reflexivity].
Example C36_nontrivial :
  healthy xtab Nat.eqb /\ classes_hu xtab UBuf /\ every_bit false xtab UBuf /\ csized xtab 0 = true /\
  (exists v, fst (create_unpack false xtab 20 0 xin2 dirty) = Ok v /\ nanfree v = true /\
    conforms false xtab Nat.eqb 20 v /\ fst (Structured_pack false xtab 20 v dirty) = Ok (firstn 61 xin2)) /\
  fst (obj_size false xtab 0 None (snd (create_unpack false xtab 20 0 xin2 dirty))) = Ok 61.
Proof.
  split; [apply xtab_healthy|]. split; [apply xtab_hu|]. split; [apply xtab_every_bit|]. split; [reflexivity|].
  split; [meets|vm_compute; reflexivity].
Qed.
Example C36_from_nontrivial :
  healthy xtabF Nat.eqb /\ classes_hu xtabF UFrom /\ every_bit false xtabF UFrom /\
  exists v, fst (create_unpack_from false xtabF 20 2 (x00 :: xbag) 1 dirty) = Ok v /\ nanfree v = true /\
    conforms false xtabF Nat.eqb 20 v /\ fst (Structured_pack false xtabF 20 v dirty) = Ok (firstn 13 xbag).
Proof.
  split; [apply xtabF_healthy|]. split; [apply xtab_hu|].
  split; [exact (every_bit_sub _ _ _ _ xtabF_sub (xtab_every_bit UFrom))|]. meets.
Qed.
Definition xstream : world := W (fun _ => 5) (fun _ => None) [] (x77 :: x77 :: xin2) 2.
Example C36_read_nontrivial :
  healthy xtab Nat.eqb /\ classes_hu xtab URead /\ every_bit false xtab URead /\
  exists v, fst (create_unpack_read false xtab 20 0 xstream) = Ok v /\ nanfree v = true /\
    conforms false xtab Nat.eqb 20 v /\ fst (Structured_pack false xtab 20 v dirty) = Ok (firstn 61 xin2).
Proof.
  split; [apply xtab_healthy|]. split; [apply xtab_hu|]. split; [apply xtab_every_bit|]. meets.
Qed.
Example C36_packs_again_nontrivial :
  (healthy xtab2 Nat.eqb /\ classes_hu xtab2 UBuf /\ every_bit false xtab2 UBuf /\ packs_again xtab2 /\
   exists v, fst (create_unpack false xtab2 20 0 xin2 dirty) = Ok v /\ nanfree v = true) /\
  (healthy xtabG Nat.eqb /\ classes_hu xtabG UFrom /\ every_bit false xtabG UFrom /\ packs_again xtabG /\
   exists v, fst (create_unpack_from false xtabG 20 3 (x09 :: x01 :: skipn 14 xin2) 1 dirty) = Ok v /\ nanfree v = true).
Proof.
  split.
  - split; [apply xtab2_healthy|]. split; [apply xtab_hu|].
    split; [exact (every_bit_sub _ _ _ _ xtab2_sub (xtab_every_bit UBuf))|]. split; [apply xtab_sure|].
    eexists. split; [vm_compute; reflexivity|vm_compute; reflexivity].
  - split; [apply xtabG_healthy|]. split; [apply xtab_hu|].
    split; [exact (every_bit_sub _ _ _ _ xtabG_sub (xtab_every_bit UFrom))|]. split; [apply xtab_sure|].
    eexists. split; [vm_compute; reflexivity|vm_compute; reflexivity].
Qed.

(** ** the other classes *)
(** one class with one serializer *)
Definition only (names : list string) (s : ser) : nat -> option cdef :=
  fun c => match c with O => Some (CD names s BO_DEFAULT false) | _ => None end.
(** all of [b] is read (that is what the size says), the result is packed again, and the bytes differ *)
Definition differs (ct : nat -> option cdef) (b : bytes) : Prop :=
  exists v b', fst (create_unpack false ct 9 0 b clean) = Ok v /\
    fst (obj_size false ct 0 None (snd (create_unpack false ct 9 0 b clean))) = Ok (blen b) /\
    fst (Structured_pack false ct 9 v clean) = Ok b' /\ b' <> b.
Ltac differ := eexists; eexists; split; [vm_compute; reflexivity|]; split; [vm_compute; reflexivity|];
  split; [vm_compute; reflexivity|discriminate].

(** x: bool8 -- any non-zero byte is True *)
Theorem C36_bool_refuted : differs (only ["x"] (SStruct (SS BO_DEFAULT [T None Cbool] None))) [x02].
Proof. differ. Qed.
Print Assumptions C36_bool_refuted.
(** pad and x: uint8 -- padding comes out as zeros *)
Theorem C36_pad_refuted : differs (only ["x"] (SStruct (SS BO_DEFAULT [T (Some 2%nat) Cx; T None CB] None))) [xff; x01; x02].
Proof. differ. Qed.
Print Assumptions C36_pad_refuted.
(** byte_order=NATIVE_NATIVE, x: uint8, y: uint16 -- so does the alignment gap *)
Theorem C36_alignment_refuted : differs (only ["x"; "y"] (SStruct (SS BO_NNAT [T None CB; T None CH] None))) [x01; xff; x02; x03].
Proof. differ. Qed.
Print Assumptions C36_alignment_refuted.
(** x: char[NET] -- a short length may be stored in the long form *)
Theorem C36_net_refuted : differs (only ["x"] (SNet 1)) [x81; x00; x41].
Proof. differ. Qed.
Print Assumptions C36_net_refuted.
(** x: unicode[uint8, latin1] -- trailing NULs of counted text are dropped *)
Theorem C36_text_refuted : differs (only ["x"] (SUnicode (SDynChar 1 (st1 BO_DEFAULT CB)) latin1)) [x02; x41; x00].
Proof. differ. Qed.
Print Assumptions C36_text_refuted.
(** x: float16 -- the payload of a NaN is lost (a finite value is not) *)
Theorem C36_nan_refuted : differs (only ["x"] (SStruct (st1 BO_DEFAULT Ce))) [x01; x7c].
Proof. differ. Qed.
Print Assumptions C36_nan_refuted.
(** a: array[Header[uint8], char[uint8]] -- with unpack_from, an empty counted string gives no item (strings.py:126-129) *)
Theorem C36_empty_items_refuted :
  let ct := only ["a"] (SArray 1 (Some (st1 BO_DEFAULT CB)) (SDynChar 2 (st1 BO_DEFAULT CB)) (-1)) in
  exists v b', fst (create_unpack_from false ct 9 0 [x02; x00; x01; x41] 0 clean) = Ok v /\
    fst (obj_size false ct 0 None (snd (create_unpack_from false ct 9 0 [x02; x00; x01; x41] 0 clean))) = Ok 4 /\
    fst (Structured_pack false ct 9 v clean) = Ok b' /\ b' = [x01; x01; x41].
Proof. cbv zeta. eexists. eexists. repeat split; vm_compute; reflexivity. Qed.
Print Assumptions C36_empty_items_refuted.
(** x: char[uint8] -- [unpack] of a string cut short succeeds, and says more bytes were read than there are *)
Theorem C36_cut_short_refuted :
  let ct := only ["x"] (SDynChar 2 (st1 BO_DEFAULT CB)) in
  exists v b', fst (create_unpack false ct 9 0 [x05; x41] clean) = Ok v /\
    fst (obj_size false ct 0 None (snd (create_unpack false ct 9 0 [x05; x41] clean))) = Ok 6 /\
    fst (Structured_pack false ct 9 v clean) = Ok b' /\ b' = [x01; x41].
Proof. cbv zeta. eexists. eexists. repeat split; vm_compute; reflexivity. Qed.
Print Assumptions C36_cut_short_refuted.
