(** Running the serializer of one field: [prepack] with the object, then one of the pack methods, then the
    attribute [size]; the same for unpacking.  This is what a compound serializer does with each of its
    members (api.py:386-398, 400-407). *)
From Verif Require Import Base Floats Value StructMod Format Ser Exec Pure BaseFacts StructFacts FormatFacts
  SerFacts RefPack RefUnpack Leaf Wire Sample User.

Section Field.
Variable hb : bool.
Variable ct : nat -> option cdef.

Definition field_pack (n : nat) (s : ser) (o : pobj) (k : sink) (vs : list value) : M (bytes * Z) :=
  mdo s' <- prep true s o; mdo b <- pack hb ct n s' k vs; mdo z <- get_size hb s'; ret (b, z).
Definition field_unpack (n : nat) (x : ser) (o : pobj) (s : src) : M (list value * Z) :=
  mdo x' <- prep false x o; mdo vs <- unpack hb ct n x' s; mdo z <- get_size hb x'; ret (vs, z).

(** the three packing methods all write the bytes [b] for the values [vs], and report their number *)
Definition field_writes (n : nat) (s : ser) (o : pobj) (vs : list value) (b : bytes) : Prop :=
  forall k w, kok k w ->
    let out := field_pack n s o k vs w in
    match k with
    | KPack => fst out = Ok (b, blen b) /\
        w_buf (snd out) = w_buf w /\ w_data (snd out) = w_data w /\ w_pos (snd out) = w_pos w
    | KWrite => fst out = Ok ([], blen b) /\ w_buf (snd out) = w_buf w /\
        w_data (snd out) = sput (w_data w) (w_pos w) b /\ w_pos (snd out) = w_pos w + blen b
    | KInto off => off + blen b <= blen (w_buf w) ->
        fst out = Ok ([], blen b) /\ w_buf (snd out) = overwrite (w_buf w) off b /\
        w_data (snd out) = w_data w /\ w_pos (snd out) = w_pos w
    end.
(** pack and pack_write raise [e], pack_into raises *)
Definition field_refuses (n : nat) (s : ser) (o : pobj) (vs : list value) (e : exn) : Prop :=
  forall k w, kok k w ->
    match k with
    | KInto _ => exists e', fst (field_pack n s o k vs w) = Err e'
    | _ => fst (field_pack n s o k vs w) = Err e
    end.
(** unpacking from source [src] returns [vs] and consumes [z] bytes *)
Definition field_reads (n : nat) (x : ser) (o : pobj) (s : src) (w : world) (vs : list value) (z : Z) : Prop :=
  let out := field_unpack n x o s w in
  fst out = Ok (vs, z) /\ w_buf (snd out) = w_buf w /\ w_data (snd out) = w_data w /\
  w_pos (snd out) = match s with SRead => w_pos w + Z.min z (blen (suffix s w)) | _ => w_pos w end.
Definition field_rejects (n : nat) (x : ser) (o : pobj) (s : src) (w : world) (e : exn) : Prop :=
  fst (field_unpack n x o s w) = Err e.

(** the classes are healthy and so is a field [s] of class [c] *)
Definition healthy_field (allow : nat -> nat -> bool) (c : nat) (s : ser) : Prop :=
  exists T, classes_ok ct allow T /\ hc ct T c s = true.
(** the same, and the unpack method works for all of them *)
Definition readable_field (allow : nat -> nat -> bool) (c : nat) (md : umode) (s : ser) : Prop :=
  healthy_field allow c s /\ classes_hu ct md /\ hu md s = true.

Section Ref.
Variable allow : nat -> nat -> bool.
Definition penc (n : nat) (s : ser) (o : pobj) (vs : list value) : res bytes :=
  rdo s' <- resolve true s o; enc hb ct allow n s' o vs.
Definition pdec (md : umode) (n : nat) (x : ser) (o : pobj) (b : bytes) : res (list value * Z) :=
  rdo x' <- resolve false x o; dec hb ct md n x' o b.

Lemma field_pack_spec : forall n s o vs k w, healthy_field allow (p_cls o) s ->
  penc n s o vs <> Err Unspecified -> kok k w ->
  exists w1, w_buf w1 = w_buf w /\ w_data w1 = w_data w /\ w_pos w1 = w_pos w /\
  exists x, io_spec false (penc n s o vs) k w x (snd (field_pack n s o k vs w)) /\
    fst (field_pack n s o k vs w)
    = (rdo a <- x; rdo b <- penc n s o vs; Ok (a, blen b)).
Proof.
  intros n s o vs k w (T & COK & HC) U K. unfold field_pack, penc in *.
  destruct (prep_spec ct T true s o w _ HC eq_refl) as (w1 & E & A1 & A2 & A3 & A4 & S1 & Q).
  unfold bind at 1 4. rewrite E.
  exists w1. split; [exact A1|]. split; [exact A2|]. split; [exact A3|].
  destruct (resolve true s o) as [s'|e] eqn:R; cbn [rbind] in *.
  2:{ exists (Err e). split; [|reflexivity]. apply io_err; assumption. }
  destruct (Q s' eq_refl) as (HC' & RD & _ & _ & NCS & _ & _).
  assert (NC : false = true -> classes_nocons ct) by discriminate.
  destruct (pack_refines hb ct allow T false COK NC n (p_cls o) s' k vs w1 o HC' ltac:(discriminate) eq_refl RD
              ltac:(eapply kok_world; eauto) U) as (IO & _ & SZ).
  unfold bind at 1 3.
  destruct (pack hb ct n s' k vs w1) as [[a|e] w2] eqn:P; cbn [fst snd] in *.
  - destruct (io_ok _ _ _ _ _ _ _ IO eq_refl) as [b B]. rewrite B in *.
    unfold bind. rewrite get_size_eq, (SZ _ _ eq_refl eq_refl). cbn. exists (Ok a). split; [|reflexivity].
    eapply io_world; eauto.
  - exists (Err e). split; [|reflexivity]. eapply io_world; eauto.
Qed.

Lemma penc_writes : forall n s o vs b, healthy_field allow (p_cls o) s -> penc n s o vs = Ok b ->
  field_writes n s o vs b.
Proof.
  intros n s o vs b H E k w K.
  destruct (field_pack_spec n s o vs k w H ltac:(rewrite E; discriminate) K) as (w1 & _ & _ & _ & x & IO & F).
  cbv zeta. rewrite E in *. destruct k; cbn [io_spec] in IO.
  - destruct IO as (-> & A & B & C). rewrite F. auto.
  - destruct IO as (A & B & _ & C & _). intros L. destruct (C L) as [-> D]. rewrite F. auto.
  - destruct IO as (-> & A & B). destruct (B b eq_refl). rewrite F. auto.
Qed.
Lemma penc_refuses : forall n s o vs e, healthy_field allow (p_cls o) s -> e <> Unspecified -> penc n s o vs = Err e ->
  field_refuses n s o vs e.
Proof.
  intros n s o vs e H U E k w K.
  destruct (field_pack_spec n s o vs k w H ltac:(rewrite E; congruence) K) as (w1 & _ & _ & _ & x & IO & F).
  rewrite E in *. rewrite F. destruct k; cbn [io_spec] in IO.
  - destruct IO as (-> & _). reflexivity.
  - destruct IO as (_ & _ & e' & ->). exists e'. reflexivity.
  - destruct IO as (-> & _). reflexivity.
Qed.
Lemma writes_penc : forall n s o vs b, healthy_field allow (p_cls o) s -> penc n s o vs <> Err Unspecified ->
  field_writes n s o vs b -> penc n s o vs = Ok b.
Proof.
  intros n s o vs b H U F. specialize (F KPack cloud0 I). cbn in F. destruct F as [F _].
  destruct (field_pack_spec n s o vs KPack cloud0 H U I) as (w1 & _ & _ & _ & x & IO & G).
  destruct IO as [-> _]. rewrite F in G. destruct (penc n s o vs); cbn in G; congruence.
Qed.
Lemma refuses_penc : forall n s o vs e, healthy_field allow (p_cls o) s -> penc n s o vs <> Err Unspecified ->
  field_refuses n s o vs e -> penc n s o vs = Err e.
Proof.
  intros n s o vs b H U F. specialize (F KPack cloud0 I). cbn in F.
  destruct (field_pack_spec n s o vs KPack cloud0 H U I) as (w1 & _ & _ & _ & x & IO & G).
  destruct IO as [-> _]. rewrite F in G. destruct (penc n s o vs); cbn in G; congruence.
Qed.

Lemma field_unpack_spec : forall n x o s w, readable_field allow (p_cls o) (md_of s) x -> srcok s w ->
  let out := field_unpack n x o s w in
  let r := pdec (md_of s) n x o (suffix s w) in
  fst out = r /\ w_buf (snd out) = w_buf w /\ w_data (snd out) = w_data w /\
  pos_spec s w (snd out) (rmap snd r).
Proof.
  intros n x o s w ((T & COK & HC) & HU & U) K. cbv zeta. unfold field_unpack, pdec.
  destruct (prep_spec ct T false x o w _ HC eq_refl) as (w1 & E & A1 & A2 & A3 & A4 & S1 & Q).
  unfold bind at 1 4 7 10. rewrite E.
  destruct (resolve false x o) as [x'|e] eqn:R; cbn [rbind] in *.
  2:{ repeat (split; [assumption || reflexivity|]). exact I. }
  destruct (Q x' eq_refl) as (HC' & RD & _ & _ & _ & HU' & _).
  destruct (unpack_refines hb ct allow T COK (md_of s) HU n) as [RR _].
  assert (K1 : srcok s w1) by (destruct s; cbn in *; rewrite ?A3; assumption).
  assert (SU : suffix s w1 = suffix s w) by (destruct s; cbn; rewrite ?A2, ?A3; reflexivity).
  destruct (RR (p_cls o) x' s w1 o HC' (HU' _ U) eq_refl eq_refl RD K1) as (F & B & C & _ & P & Z).
  rewrite SU in *. unfold bind at 1 3 5 7.
  destruct (unpack hb ct n x' s w1) as [r w2]; cbn [fst snd] in *. subst r.
  destruct (dec hb ct (md_of s) n x' o (suffix s w)) as [[vs z]|e]; cbn [rmap fst snd] in *.
  2:{ repeat (split; [congruence || reflexivity|]). exact I. }
  unfold bind. rewrite get_size_eq, (Z z eq_refl). cbn.
  split; [reflexivity|]. split; [congruence|]. split; [congruence|].
  cbn in P. destruct P as (P1 & P2 & P3). split; [exact P1|]. split.
  - destruct s; cbn in *; auto.
  - rewrite P3. destruct s; cbn in *; congruence.
Qed.
Lemma pdec_reads : forall n x o s w vs z, readable_field allow (p_cls o) (md_of s) x -> srcok s w ->
  pdec (md_of s) n x o (suffix s w) = Ok (vs, z) -> field_reads n x o s w vs z.
Proof.
  intros n x o s w vs z H K E. destruct (field_unpack_spec n x o s w H K) as (A & B & C & D).
  rewrite E in *. unfold field_reads. cbv zeta. cbn in D. destruct D as (_ & _ & D).
  split; [exact A|]. split; [exact B|]. split; [exact C|]. exact D.
Qed.
Lemma pdec_rejects : forall n x o s w e, readable_field allow (p_cls o) (md_of s) x -> srcok s w ->
  pdec (md_of s) n x o (suffix s w) = Err e -> field_rejects n x o s w e.
Proof. intros n x o s w e H K E. destruct (field_unpack_spec n x o s w H K) as (A & _). rewrite E in A. exact A. Qed.
Lemma reads_pdec : forall n x o s w vs z, readable_field allow (p_cls o) (md_of s) x -> srcok s w ->
  fst (field_unpack n x o s w) = Ok (vs, z) -> pdec (md_of s) n x o (suffix s w) = Ok (vs, z).
Proof. intros n x o s w vs z H K E. destruct (field_unpack_spec n x o s w H K) as (A & _). congruence. Qed.
End Ref.
End Field.
