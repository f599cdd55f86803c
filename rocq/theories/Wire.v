(** What it means for the methods of one serializer to write, refuse, read or reject, stated on the
    methods themselves; and the independent description of the wire format of unsigned integers. *)
From Verif Require Import Base Floats Value StructMod Format Ser Exec Pure BaseFacts StructFacts FormatFacts
  SerFacts RefPack RefUnpack Leaf.

(** the low [n] base 256 digits of [z], least significant first / last *)
Definition uint_bytes (big : bool) (n : nat) (z : Z) : bytes :=
  let ds := map (fun i => bz (z / 256 ^ Z.of_nat i)) (seq 0 n) in if big then rev ds else ds.

Lemma le_enc_digits : forall n z, le_enc n z = map (fun i => bz (z / 256 ^ Z.of_nat i)) (seq 0 n).
Proof.
  induction n; intros z; [reflexivity|]. cbn [le_enc seq map]. f_equal.
  - change (Z.of_nat 0) with 0. now rewrite Z.pow_0_r, Z.div_1_r.
  - rewrite IHn, <- seq_shift, map_map. apply map_ext. intros i. f_equal.
    rewrite Nat2Z.inj_succ, Z.pow_succ_r by lia. apply Z.div_div; [lia|]. apply Z.pow_pos_nonneg; lia.
Qed.
Lemma int_enc_bytes : forall big n z, int_enc big n z = uint_bytes big n z.
Proof. intros. unfold int_enc, uint_bytes. now rewrite <- le_enc_digits. Qed.
Lemma uint_bytes_length : forall big n z, List.length (uint_bytes big n z) = n.
Proof. intros. rewrite <- int_enc_bytes. apply int_enc_length. Qed.

(** a fresh process: no stored sizes and objects, empty buffer and stream *)
Definition cloud0 : world := W (fun _ => 0) (fun _ => None) [] [] 0.

Section Wire.
Variable hb : bool.
Variable ct : nat -> option cdef.

(** the methods pack, pack_into, pack_write of [s] all produce the bytes [b] for the values [vs]; the
    attribute [size] is then the number of bytes *)
Definition writes (n : nat) (s : ser) (vs : list value) (b : bytes) : Prop :=
  forall k w, kok k w ->
    let out := pack hb ct n s k vs w in
    match k with
    | KPack => fst out = Ok b /\ w_buf (snd out) = w_buf w /\ w_data (snd out) = w_data w /\ w_pos (snd out) = w_pos w
    | KWrite => fst out = Ok [] /\ w_buf (snd out) = w_buf w /\
        w_data (snd out) = sput (w_data w) (w_pos w) b /\ w_pos (snd out) = w_pos w + blen b
    | KInto off => off + blen b <= blen (w_buf w) ->
        fst out = Ok [] /\ w_buf (snd out) = overwrite (w_buf w) off b /\
        w_data (snd out) = w_data w /\ w_pos (snd out) = w_pos w
    end /\
    (is_ok (fst out) = true -> fst (get_size hb s (snd out)) = Ok (blen b)).

(** pack and pack_write raise [e], pack_into raises *)
Definition refuses (n : nat) (s : ser) (vs : list value) (e : exn) : Prop :=
  forall k w, kok k w ->
    match k with
    | KInto _ => exists e', fst (pack hb ct n s k vs w) = Err e'
    | _ => fst (pack hb ct n s k vs w) = Err e
    end.

(** the unpack method called on source [s] returns [vs] and consumes [z] bytes *)
Definition reads (n : nat) (x : ser) (s : src) (w : world) (vs : list value) (z : Z) : Prop :=
  let out := unpack hb ct n x s w in
  fst out = Ok vs /\ fst (get_size hb x (snd out)) = Ok z /\
  w_buf (snd out) = w_buf w /\ w_data (snd out) = w_data w /\
  w_pos (snd out) = match s with SRead => w_pos w + z | _ => w_pos w end.
Definition rejects (n : nat) (x : ser) (s : src) (w : world) (e : exn) : Prop :=
  fst (unpack hb ct n x s w) = Err e.

Lemma leaf_writes : forall n s vs b, leaf s = true -> lenc hb n s vs = Ok b -> writes n s vs b.
Proof.
  intros n s vs b L E k w K.
  destruct (leaf_pack hb ct n s k vs w L ltac:(rewrite E; discriminate) K) as [IO SZ]. rewrite E in *. cbv zeta.
  destruct k; cbn [io_spec] in IO.
  - destruct IO as (X & A & B & C). split; [auto|]. intros _. exact (SZ _ _ X eq_refl).
  - destruct IO as (A & B & X & Y & _). split.
    + intros F. destruct (Y F) as [X' Z]. auto.
    + intros O. destruct (fst (pack hb ct n s (KInto off) vs w)) eqn:Q; [|discriminate].
      exact (SZ _ _ eq_refl eq_refl).
  - destruct IO as (X & A & Y). destruct (Y b eq_refl) as [Y1 Y2]. cbn [rmap] in X.
    split; [auto|]. intros _. exact (SZ _ _ X eq_refl).
Qed.
Lemma leaf_refuses : forall n s vs e, leaf s = true -> e <> Unspecified -> lenc hb n s vs = Err e -> refuses n s vs e.
Proof.
  intros n s vs e L U E k w K.
  destruct (leaf_pack hb ct n s k vs w L ltac:(rewrite E; congruence) K) as [IO _]. rewrite E in *.
  destruct k; cbn [io_spec] in IO.
  - exact (proj1 IO).
  - exact (proj2 (proj2 IO)).
  - exact (proj1 IO).
Qed.
Lemma leaf_reads : forall n x s w vs z, leaf x = true -> hu (md_of s) x = true -> srcok s w ->
  ldec hb (md_of s) n x (suffix s w) = Ok (vs, z) -> z <= blen (suffix s w) -> reads n x s w vs z.
Proof.
  intros n x s w vs z L U K E Z. destruct (leaf_unpack hb ct n x s w L U K) as (A & B & C & P & S).
  rewrite E in *. cbn [rmap fst snd] in *. unfold reads. cbv zeta.
  split; [exact A|]. split; [exact (S z eq_refl)|]. split; [exact B|]. split; [exact C|].
  cbn [pos_spec] in P. destruct P as (_ & _ & P). rewrite P. unfold posn. destruct s; try reflexivity. lia.
Qed.
Lemma leaf_rejects : forall n x s w e, leaf x = true -> hu (md_of s) x = true -> srcok s w ->
  ldec hb (md_of s) n x (suffix s w) = Err e -> rejects n x s w e.
Proof.
  intros n x s w e L U K E. destruct (leaf_unpack hb ct n x s w L U K) as (A & _).
  rewrite E in A. exact A.
Qed.
End Wire.
