(** Properties C03, C04, C06, C08: the packing and unpacking methods as functions of their arguments. *)
From Verif Require Import Base Floats Value StructMod Format Ser Exec Pure BaseFacts StructFacts FormatFacts
  SerFacts RefPack RefUnpack User Sample.

(** ** C08: earlier operations *)
(** one call of a public method on shared serializers, with its own recursion budget *)
Inductive op :=
| OPack (n : nat) (v : value) | OInto (n : nat) (v : value) (off : Z) | OWrite (n : nat) (v : value)
| OCreate (n c : nat) (b : bytes) | OFrom (n c : nat) (b : bytes) (off : Z) | ORead (n c : nat)
| OUnpack (n c : nat) (ov : option border) (d : list (string * value)) (s : src).
Definition do_op (hb : bool) (ct : nat -> option cdef) (o : op) (w : world) : world :=
  match o with
  | OPack n v => snd (Structured_pack hb ct n v w)
  | OInto n v off => snd (Structured_pack_into hb ct n v off w)
  | OWrite n v => snd (Structured_pack_write hb ct n v w)
  | OCreate n c b => snd (create_unpack hb ct n c b w)
  | OFrom n c b off => snd (create_unpack_from hb ct n c b off w)
  | ORead n c => snd (create_unpack_read hb ct n c w)
  | OUnpack n c ov d s => snd (Structured_unpack hb ct n c ov d s w)
  end.
Fixpoint history (hb : bool) (ct : nat -> option cdef) (h : list op) (w : world) : world :=
  match h with [] => w | o :: h' => history hb ct h' (do_op hb ct o w) end.

Theorem C08_pack_any_state : forall hb ct allow n v w w',
  healthy ct allow -> conforms hb ct allow n v ->
  fst (Structured_pack hb ct n v w) = fst (Structured_pack hb ct n v w').
Proof.
  intros hb ct allow n v w w' H CF.
  assert (N : false = true -> no_rest ct) by discriminate.
  pose proof (user_pack hb ct allow false n v KPack w H N CF I) as [A _].
  pose proof (user_pack hb ct allow false n v KPack w' H N CF I) as [B _].
  unfold Structured_pack. unfold do_pack in A, B. congruence.
Qed.
Print Assumptions C08_pack_any_state.

Theorem C08_pack_after_any_history : forall hb ct allow n v h w,
  healthy ct allow -> conforms hb ct allow n v ->
  fst (Structured_pack hb ct n v (history hb ct h w)) = fst (Structured_pack hb ct n v w).
Proof. intros. eapply C08_pack_any_state; eauto. Qed.
Print Assumptions C08_pack_after_any_history.

(** the same for writing: the result and the bytes added to the stream *)
Theorem C08_pack_write_any_state : forall hb ct allow n v w w',
  healthy ct allow -> conforms hb ct allow n v ->
  w_data w = w_data w' -> w_pos w = w_pos w' -> 0 <= w_pos w ->
  let o := Structured_pack_write hb ct n v w in
  let o' := Structured_pack_write hb ct n v w' in
  fst o = fst o' /\
  (is_ok (fst o) = true -> w_data (snd o) = w_data (snd o') /\ w_pos (snd o) = w_pos (snd o')).
Proof.
  intros hb ct allow n v w w' H CF D P PP.
  assert (N : false = true -> no_rest ct) by discriminate.
  assert (PP' : 0 <= w_pos w') by congruence.
  pose proof (user_pack hb ct allow false n v KWrite w H N CF PP) as (A1 & _ & A3).
  pose proof (user_pack hb ct allow false n v KWrite w' H N CF PP') as (B1 & _ & B3).
  unfold Structured_pack_write. unfold do_pack in *. cbv zeta. rewrite A1, B1. split; [reflexivity|].
  destruct (enc_obj hb ct allow n v) as [b|e]; [|discriminate]. intros _.
  destruct (A3 b eq_refl) as [-> ->], (B3 b eq_refl) as [-> ->]. now rewrite D, P.
Qed.
Print Assumptions C08_pack_write_any_state.

(** unpacking from bytes *)
Theorem C08_unpack_any_state : forall hb ct allow n c b w w',
  healthy ct allow -> classes_hu ct UBuf ->
  fst (create_unpack hb ct n c b w) = fst (create_unpack hb ct n c b w').
Proof.
  intros hb ct allow n c b w w' H HU. unfold create_unpack.
  pose proof (user_create hb ct allow UBuf n c (SBuf b) w H HU eq_refl I) as [A _].
  pose proof (user_create hb ct allow UBuf n c (SBuf b) w' H HU eq_refl I) as [B _].
  rewrite A, B. reflexivity.
Qed.
Print Assumptions C08_unpack_any_state.

Theorem C08_unpack_from_any_state : forall hb ct allow n c b off w w',
  healthy ct allow -> classes_hu ct UFrom -> 0 <= off <= blen b ->
  fst (create_unpack_from hb ct n c b off w) = fst (create_unpack_from hb ct n c b off w').
Proof.
  intros hb ct allow n c b off w w' H HU O. unfold create_unpack_from.
  pose proof (user_create hb ct allow UFrom n c (SFrom b off) w H HU eq_refl O) as [A _].
  pose proof (user_create hb ct allow UFrom n c (SFrom b off) w' H HU eq_refl O) as [B _].
  rewrite A, B. reflexivity.
Qed.
Print Assumptions C08_unpack_from_any_state.

Theorem C08_unpack_read_any_state : forall hb ct allow n c w w',
  healthy ct allow -> classes_hu ct URead ->
  w_data w = w_data w' -> w_pos w = w_pos w' -> 0 <= w_pos w ->
  let o := create_unpack_read hb ct n c w in
  let o' := create_unpack_read hb ct n c w' in
  fst o = fst o' /\ w_data (snd o) = w_data w /\ (is_ok (fst o) = true -> w_pos (snd o) = w_pos (snd o')).
Proof.
  intros hb ct allow n c w w' H HU D P PP. cbv zeta.
  assert (PP' : 0 <= w_pos w') by congruence.
  pose proof (user_create hb ct allow URead n c SRead w H HU eq_refl PP) as (A & _ & AD & AP & _).
  pose proof (user_create hb ct allow URead n c SRead w' H HU eq_refl PP') as (B & _ & BD & BP & _).
  assert (E : suffix SRead w = suffix SRead w') by (cbn; congruence).
  unfold create_unpack_read. rewrite A, B. rewrite E in *. split; [reflexivity|]. split; [exact AD|].
  destruct (dcreate hb ct URead n c (suffix SRead w')) as [[v k]|e]; [|discriminate]. intros _.
  cbn in AP, BP. destruct AP as (_ & _ & ->), BP as (_ & _ & ->). cbn in E. congruence.
Qed.
Print Assumptions C08_unpack_read_any_state.

(** unpacking into an existing object: result and resulting attributes *)
Theorem C08_unpack_into_object_any_state : forall hb ct allow n c ov d b w w',
  healthy ct allow -> classes_hu ct UBuf ->
  fst (Structured_unpack hb ct n c ov d (SBuf b) w) = fst (Structured_unpack hb ct n c ov d (SBuf b) w').
Proof.
  intros hb ct allow n c ov d b w w' H HU.
  pose proof (user_refill hb ct allow UBuf n c ov d (SBuf b) w H HU eq_refl I) as (A & A' & _).
  pose proof (user_refill hb ct allow UBuf n c ov d (SBuf b) w' H HU eq_refl I) as (B & B' & _).
  cbn [suffix] in *.
  destruct (fst (Structured_unpack hb ct n c ov d (SBuf b) w)),
           (fst (Structured_unpack hb ct n c ov d (SBuf b) w')). cbn in *. congruence.
Qed.
Print Assumptions C08_unpack_into_object_any_state.

(** the sample classes meet the hypotheses *)
Lemma table_healthy : healthy table Nat.eqb.
Proof.
  exists table_T. split.
  - intros c cd H. do 6 (destruct c as [|c]; [cbn in H; injection H as <-; split; [reflexivity|];
      intros id E; do 48 (destruct id as [|id]; [vm_compute in E |- *; congruence|]);
      vm_compute in E |- *; congruence |]). discriminate.
  - intros d c E. apply Nat.eqb_eq in E as ->. auto.
Qed.
Lemma table_hu : classes_hu table UBuf /\ classes_hu table URead.
Proof.
  split; intros c cd H; do 6 (destruct c as [|c]; [cbn in H; injection H as <-; reflexivity|]); discriminate.
Qed.
Example C08_nontrivial : healthy table Nat.eqb /\ classes_hu table UBuf /\ classes_hu table URead /\
  conforms false table Nat.eqb 20 tree /\ conforms false table Nat.eqb 20 (msg data) /\
  is_ok (fst (Structured_pack false table 20 tree dirty)) = true.
Proof.
  split; [apply table_healthy|]. split; [apply table_hu|]. split; [apply table_hu|].
  unfold conforms. split; [|split]; [vm_compute; congruence..|]. vm_compute. reflexivity.
Qed.

(** ** C03: the packing methods agree *)
Theorem C03_pack_write_agrees : forall hb ct allow n v w,
  healthy ct allow -> conforms hb ct allow n v -> 0 <= w_pos w <= blen (w_data w) ->
  let o := Structured_pack_write hb ct n v w in
  match fst (Structured_pack hb ct n v w) with
  | Err e => fst o = Err e
  | Ok b => fst o = Ok [] /\ w_buf (snd o) = w_buf w /\ w_pos (snd o) = w_pos w + blen b /\
      w_data (snd o) = firstn (Z.to_nat (w_pos w)) (w_data w) ++ b
                       ++ skipn (Z.to_nat (w_pos w) + List.length b) (w_data w)
  end.
Proof.
  intros hb ct allow n v w H CF PP. cbv zeta.
  assert (N : false = true -> no_rest ct) by discriminate.
  pose proof (user_pack hb ct allow false n v KPack w H N CF I) as [A _].
  assert (PP' : 0 <= w_pos w) by lia.
  pose proof (user_pack hb ct allow false n v KWrite w H N CF PP') as (B1 & B2 & B3).
  unfold Structured_pack, Structured_pack_write. unfold do_pack in *. rewrite A.
  destruct (enc_obj hb ct allow n v) as [b|e]; [|exact B1].
  destruct (B3 b eq_refl) as [B4 B5]. split; [exact B1|]. split; [exact B2|]. split; [exact B5|].
  rewrite B4. unfold sput. destruct b as [|x b].
  - cbn. rewrite Nat.add_0_r, firstn_skipn. reflexivity.
  - replace (Z.to_nat (w_pos w - blen (w_data w))) with O by lia. cbn [zeros repeat]. rewrite app_nil_r.
    reflexivity.
Qed.
Print Assumptions C03_pack_write_agrees.

Theorem C03_pack_into_agrees : forall hb ct allow n v off w,
  healthy ct allow -> conforms hb ct allow n v -> 0 <= off ->
  let o := Structured_pack_into hb ct n v off w in
  match fst (Structured_pack hb ct n v w) with
  | Err _ => is_ok (fst o) = false
  | Ok b => off + blen b <= blen (w_buf w) ->
      fst o = Ok [] /\ w_data (snd o) = w_data w /\ w_pos (snd o) = w_pos w /\
      w_buf (snd o) = firstn (Z.to_nat off) (w_buf w) ++ b ++ skipn (Z.to_nat off + List.length b) (w_buf w)
  end.
Proof.
  intros hb ct allow n v off w H CF PP. cbv zeta.
  assert (N : false = true -> no_rest ct) by discriminate.
  pose proof (user_pack hb ct allow false n v KPack w H N CF I) as [A _].
  pose proof (user_pack hb ct allow false n v (KInto off) w H N CF PP) as (B1 & B2 & B3).
  unfold Structured_pack, Structured_pack_into. unfold do_pack in *. rewrite A.
  destruct (enc_obj hb ct allow n v) as [b|e].
  - intros F. destruct B3 as (_ & B3 & _). destruct (B3 F) as [B4 B5].
    split; [exact B4|]. split; [exact B1|]. split; [exact B2|]. exact B5.
  - destruct B3 as [e' ->]. reflexivity.
Qed.
Print Assumptions C03_pack_into_agrees.

(** a buffer that is too small is an error, unless a field reads to the end (next theorem) *)
Theorem C03_pack_into_too_small : forall hb ct allow n v off w b,
  healthy ct allow -> no_rest ct -> conforms hb ct allow n v -> 0 <= off ->
  fst (Structured_pack hb ct n v w) = Ok b -> b <> [] -> blen (w_buf w) < off + blen b ->
  is_ok (fst (Structured_pack_into hb ct n v off w)) = false.
Proof.
  intros hb ct allow n v off w b H NR CF PP E NE L.
  assert (N : true = true -> no_rest ct) by auto.
  pose proof (user_pack hb ct allow true n v KPack w H N CF I) as [A _].
  pose proof (user_pack hb ct allow true n v (KInto off) w H N CF PP) as (_ & _ & B3).
  unfold Structured_pack, Structured_pack_into in *. unfold do_pack in *. rewrite E in A.
  rewrite <- A in B3. destruct B3 as (_ & _ & B3). destruct (B3 eq_refl L) as [[e ->]|[-> _]]; [reflexivity|congruence].
Qed.
Print Assumptions C03_pack_into_too_small.

(** ... char[math.inf]: [pack_into] succeeds and makes the bytearray longer *)
Theorem C03_pack_into_too_small_rest_refuted : ~ (forall hb ct allow n v off w b,
  healthy ct allow -> conforms hb ct allow n v -> 0 <= off ->
  fst (Structured_pack hb ct n v w) = Ok b -> b <> [] -> blen (w_buf w) < off + blen b ->
  is_ok (fst (Structured_pack_into hb ct n v off w)) = false).
Proof.
  intros X.
  specialize (X false (fun c => match c with O => Some (CD ["r"%string] (SConsume 1) BO_DEFAULT true) | _ => None end)
    (fun _ _ => true) 5%nat (VObj 0 None [("r"%string, VBytes [x01; x02])]) 0 clean [x01; x02]).
  assert (is_ok (A := bytes) (Ok []) = false); [|discriminate]. apply X; clear X.
  - exists (fun _ _ => false). split; [|intros d c _ S; split; [|auto]].
    + intros c cd E. destruct c; [|discriminate]. injection E as <-. split; [reflexivity|]. intros id; cbn; auto.
    + unfold csized. now destruct c.
  - unfold conforms. vm_compute. congruence.
  - lia.
  - reflexivity.
  - discriminate.
  - vm_compute. reflexivity.
Qed.
Print Assumptions C03_pack_into_too_small_rest_refuted.

Example C03_nontrivial : exists b,
  fst (Structured_pack false table 20 tree clean) = Ok b /\ 60 > blen b /\ 3 + blen b <= 61 /\
  fst (Structured_pack_into false table 20 tree 3 (W (w_size dirty) (w_obj dirty) (repeat xee 61) [] 0)) = Ok [] /\
  w_buf (snd (Structured_pack_into false table 20 tree 3 (W (w_size dirty) (w_obj dirty) (repeat xee 61) [] 0)))
    = repeat xee 3 ++ b.
Proof. eexists. split; [vm_compute; reflexivity|]. vm_compute. repeat split; congruence. Qed.

(** ** C04: nothing outside the region changes *)
Theorem C04_region : forall hb ct allow n v off w b,
  healthy ct allow -> conforms hb ct allow n v -> 0 <= off ->
  fst (Structured_pack hb ct n v w) = Ok b ->
  off + blen b <= blen (w_buf w) \/ no_rest ct ->
  is_ok (fst (Structured_pack_into hb ct n v off w)) = true ->
  let buf := w_buf w in
  let buf' := w_buf (snd (Structured_pack_into hb ct n v off w)) in
  let o := Z.to_nat off in
  List.length buf' = List.length buf /\
  firstn o buf' = firstn o buf /\ skipn (o + List.length b) buf' = skipn (o + List.length b) buf /\
  firstn (List.length b) (skipn o buf') = b.
Proof.
  intros hb ct allow n v off w b H CF PP E FIT OKK. cbv zeta.
  assert (R : w_buf (snd (Structured_pack_into hb ct n v off w)) = overwrite (w_buf w) off b /\
              (off + blen b <= blen (w_buf w) \/ b = [])).
  { destruct FIT as [FIT|NR].
    - pose proof (C03_pack_into_agrees hb ct allow n v off w H CF PP) as A. cbv zeta in A. rewrite E in A.
      destruct (A FIT) as (_ & _ & _ & ->). auto.
    - assert (N : true = true -> no_rest ct) by auto.
      pose proof (user_pack hb ct allow true n v KPack w H N CF I) as [A _].
      pose proof (user_pack hb ct allow true n v (KInto off) w H N CF PP) as (_ & _ & B3).
      unfold Structured_pack, Structured_pack_into in *. unfold do_pack in *. rewrite E in A.
      rewrite <- A in B3. destruct B3 as (_ & B3 & B4).
      destruct (Z_le_gt_dec (off + blen b) (blen (w_buf w))) as [L|L].
      + destruct (B3 L) as [_ B5]. auto.
      + destruct (B4 eq_refl ltac:(lia)) as [[e X]|(-> & _ & X)].
        * rewrite X in OKK. discriminate.
        * rewrite overwrite_nil. auto. }
  destruct R as [-> [R| ->]].
  - split; [apply overwrite_length; assumption|].
    destruct (overwrite_region (w_buf w) off b PP R) as (A & B & C).
    split; [exact A|]. split; [exact C|exact B].
  - rewrite overwrite_nil. repeat split.
Qed.
Print Assumptions C04_region.

Theorem C04_region_rest_refuted : ~ (forall hb ct allow n v off w,
  healthy ct allow -> conforms hb ct allow n v -> 0 <= off ->
  is_ok (fst (Structured_pack_into hb ct n v off w)) = true ->
  List.length (w_buf (snd (Structured_pack_into hb ct n v off w))) = List.length (w_buf w)).
Proof.
  intros X.
  specialize (X false (fun c => match c with O => Some (CD ["r"%string] (SConsume 1) BO_DEFAULT true) | _ => None end)
    (fun _ _ => true) 5%nat (VObj 0 None [("r"%string, VBytes [x01; x02])]) 0 clean).
  assert (2%nat = O); [|discriminate]. apply X; clear X.
  - exists (fun _ _ => false). split; [|intros d c _ S; split; [|auto]].
    + intros c cd E. destruct c; [|discriminate]. injection E as <-. split; [reflexivity|]. intros id; cbn; auto.
    + unfold csized. now destruct c.
  - unfold conforms. vm_compute. congruence.
  - lia.
  - reflexivity.
Qed.
Print Assumptions C04_region_rest_refuted.

(** ** C06: size *)
Theorem C06_size_after_packing : forall hb ct allow n c ov d k w,
  healthy ct allow -> conforms hb ct allow n (VObj c ov d) -> kok k w -> csized ct c = true ->
  is_ok (fst (do_pack hb ct n (VObj c ov d) k w)) = true ->
  exists b, fst (Structured_pack hb ct n (VObj c ov d) w) = Ok b /\
    fst (obj_size hb ct c ov (snd (do_pack hb ct n (VObj c ov d) k w))) = Ok (blen b).
Proof.
  intros hb ct allow n c ov d k w H CF K CS E.
  assert (N : false = true -> no_rest ct) by discriminate.
  destruct (fst (do_pack hb ct n (VObj c ov d) k w)) as [a|] eqn:F; [|discriminate].
  destruct (io_ok _ _ _ _ _ _ _ (user_pack hb ct allow false n _ k w H N CF K) F) as [b B].
  pose proof (user_pack hb ct allow false n _ KPack w H N CF I) as [A _].
  exists b. split.
  - unfold Structured_pack. unfold do_pack in A. rewrite A. exact B.
  - rewrite (user_pack_size hb ct allow n c ov d k w a b H CF K CS F B). reflexivity.
Qed.
Print Assumptions C06_size_after_packing.

(** after unpacking, the size is the distance between the start of the data and the position where
    reading stopped: for a stream the number of bytes the position advanced (if the data was not cut
    short), for a buffer never more than what is there *)
Theorem C06_size_after_read : forall hb ct allow n c w v,
  healthy ct allow -> classes_hu ct URead -> csized ct c = true -> 0 <= w_pos w <= blen (w_data w) ->
  fst (create_unpack_read hb ct n c w) = Ok v ->
  let w' := snd (create_unpack_read hb ct n c w) in
  exists k, fst (obj_size hb ct c None w') = Ok k /\ 0 <= k /\
    (w_pos w + k <= blen (w_data w) -> w_pos w' = w_pos w + k).
Proof.
  intros hb ct allow n c w v H HU CS P E. cbv zeta.
  assert (OK : srcok SRead w) by (cbn; lia).
  pose proof (user_create hb ct allow URead n c SRead w H HU eq_refl OK) as (A & _ & _ & PS & Z).
  unfold create_unpack_read in *. rewrite E in A.
  destruct (dcreate hb ct URead n c (suffix SRead w)) as [[v' k]|] eqn:D; [|discriminate].
  cbn in PS. destruct PS as (K & _ & PS). exists k.
  rewrite (Z v' k CS eq_refl). split; [reflexivity|]. split; [exact K|].
  intros L. rewrite PS, blen_skipn. lia.
Qed.
Print Assumptions C06_size_after_read.

Theorem C06_size_after_unpack_from : forall hb ct allow n c b off w v,
  healthy ct allow -> classes_hu ct UFrom -> csized ct c = true -> 0 <= off <= blen b ->
  fst (create_unpack_from hb ct n c b off w) = Ok v ->
  exists k, fst (obj_size hb ct c None (snd (create_unpack_from hb ct n c b off w))) = Ok k /\
    0 <= k /\ off + k <= blen b.
Proof.
  intros hb ct allow n c b off w v H HU CS P E.
  pose proof (user_create hb ct allow UFrom n c (SFrom b off) w H HU eq_refl P) as (A & _ & _ & PS & Z).
  unfold create_unpack_from in *. rewrite E in A.
  destruct (dcreate hb ct UFrom n c (suffix (SFrom b off) w)) as [[v' k]|] eqn:D; [|discriminate].
  cbn in PS. destruct PS as (K & ST & _). exists k.
  rewrite (Z v' k CS eq_refl). split; [reflexivity|]. split; [exact K|].
  rewrite blen_skipn in ST. lia.
Qed.
Print Assumptions C06_size_after_unpack_from.

Example C06_nontrivial :
  csized table 1 = true /\ fst (obj_size false table 1 None (snd (Structured_pack false table 20 tree dirty))) = Ok 58.
Proof. split; [reflexivity|]. vm_compute. reflexivity. Qed.

(** a class whose only field is conditional has no size *)
Theorem C06_conditional_class_refuted : ~ (forall hb ct allow n c ov d k w,
  healthy ct allow -> conforms hb ct allow n (VObj c ov d) -> kok k w ->
  is_ok (fst (do_pack hb ct n (VObj c ov d) k w)) = true ->
  is_ok (fst (obj_size hb ct c ov (snd (do_pack hb ct n (VObj c ov d) k w)))) = true).
Proof.
  intros X.
  specialize (X false (fun c => match c with
                                | O => Some (CD ["r"%string] (SCond (fun _ => Ok (VBool true)) (SStruct sU8) [VInt 0])
                                             BO_DEFAULT false)
                                | _ => None end)
    Nat.eqb 5%nat O None [("r"%string, VInt 3)] KPack clean).
  assert (false = true); [|discriminate]. apply X; clear X; [| |exact I|reflexivity].
  - exists (fun _ _ => false). split.
    + intros c cd E. destruct c; [|discriminate]. injection E as <-. split; [reflexivity|]. intros id; cbn; auto.
    + intros d c E. apply Nat.eqb_eq in E as ->. auto.
  - unfold conforms. vm_compute. congruence.
Qed.
Print Assumptions C06_conditional_class_refuted.
