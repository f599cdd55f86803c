(** Properties C16, C17, C18, C20: byte strings. *)
From Verif Require Import Base Floats Value StructMod Format Ser Exec Pure BaseFacts StructFacts FormatFacts
  SerFacts RefPack RefUnpack Leaf Wire RoundTrip.

(** the serializer of uint8 .. uint64 in a given byte order (basic_types.py:27-39) *)
Definition uint_ser (bo : border) (c : code) : sspec := SS bo [T None c] None.
Definition unsigned (c : code) : Prop := int_code c = Some false.
(** size in bytes and byte order of a header with byte order [bo] *)
Definition hsize (hb : bool) (bo : border) (c : code) : nat := csize (m_native (mode_of hb bo)) c.
Definition hbig (hb : bool) (bo : border) : bool := m_big (mode_of hb bo).

Section Lemmas.
Variable hb : bool.

Lemma unsigned_expand : forall c, unsigned c -> expand [T None c] = [UAlign c; UVal c].
Proof. intros c H. unfold expand. cbn [flat_map]. rewrite app_nil_r. destruct c; try discriminate H; reflexivity. Qed.
Lemma padding_0 : forall m c, padding m 0 c = O.
Proof. intros. apply padding_aligned. apply Nat.mod_0_l. pose proof (calign_pos (m_native m) c). lia. Qed.
Lemma uint_size : forall bo c, unsigned c -> ss_size hb (uint_ser bo c) = Z.of_nat (hsize hb bo c).
Proof.
  intros bo c H. unfold ss_size, calcsize. cbn [uint_ser s_fmt]. rewrite unsigned_expand by exact H.
  cbn [size_u usize]. rewrite padding_0. cbn. unfold hsize, ss_mode. cbn [s_bo uint_ser]. lia.
Qed.
Lemma pack_val_uint : forall m c z, unsigned c ->
  pack_val m c (VInt z) = if (0 <=? z) && (z <? 256 ^ Z.of_nat (csize (m_native m) c))
                          then Ok (uint_bytes (m_big m) (csize (m_native m) c) z) else Err StructError.
Proof.
  intros m c z H. unfold pack_val. unfold unsigned in H. rewrite H. cbn [as_index]. unfold in_range.
  rewrite pow256, int_enc_bytes. reflexivity.
Qed.
Lemma uint_est : forall bo c z, unsigned c -> 0 <= z < 256 ^ Z.of_nat (hsize hb bo c) ->
  est hb (uint_ser bo c) [VInt z] = Ok (uint_bytes (hbig hb bo) (hsize hb bo c) z).
Proof.
  intros bo c z H R. unfold est, st_pack. cbn [uint_ser s_fmt].
  assert (nvals [T None c] = 1%nat) as -> by (unfold nvals; rewrite unsigned_expand by exact H; reflexivity).
  cbn [List.length Nat.eqb]. rewrite unsigned_expand by exact H. cbn [pack_u pack_unit usize].
  rewrite padding_0. cbn [zeros repeat List.length Nat.add].
  rewrite pack_val_uint by exact H. change (ss_mode hb (uint_ser bo c)) with (mode_of hb bo).
  fold (hsize hb bo c) (hbig hb bo).
  destruct ((0 <=? z) && (z <? 256 ^ Z.of_nat (hsize hb bo c))) eqn:Q; [|lia].
  cbn. now rewrite app_nil_r.
Qed.
Lemma uint_est_big : forall bo c z, unsigned c -> 256 ^ Z.of_nat (hsize hb bo c) <= z ->
  est hb (uint_ser bo c) [VInt z] = Err StructError.
Proof.
  intros bo c z H R. unfold est, st_pack. cbn [uint_ser s_fmt].
  assert (nvals [T None c] = 1%nat) as -> by (unfold nvals; rewrite unsigned_expand by exact H; reflexivity).
  cbn [List.length Nat.eqb]. rewrite unsigned_expand by exact H. cbn [pack_u pack_unit usize].
  rewrite padding_0. cbn [zeros repeat List.length Nat.add].
  rewrite pack_val_uint by exact H. change (ss_mode hb (uint_ser bo c)) with (mode_of hb bo).
  fold (hsize hb bo c).
  destruct ((0 <=? z) && (z <? 256 ^ Z.of_nat (hsize hb bo c))) eqn:Q; [lia|]. reflexivity.
Qed.
Lemma uint_dst : forall bo c z rest, unsigned c -> 0 <= z < 256 ^ Z.of_nat (hsize hb bo c) ->
  dst hb (uint_ser bo c) (uint_bytes (hbig hb bo) (hsize hb bo c) z ++ rest) = Ok [VInt z].
Proof.
  intros bo c z rest H R. apply (uint1_rt hb (uint_ser bo c)); [|now apply uint_est].
  unfold uint1. cbn. unfold unsigned in H. now rewrite H.
Qed.

(** a header and [n] bytes of string in one struct *)
Lemma counted_st : forall c n, unsigned c -> 1 <= n -> exists tc,
  dynchar_st (uint_ser BO_DEFAULT c) n = Ok (SS BO_DEFAULT [T None c; tc] None) /\
  expand [T None c; tc] = [UAlign c; UVal c; UStr (Z.to_nat n)].
Proof.
  intros c n H N. destruct (matmul_char BO_DEFAULT Cs n N) as (tc & M & X & TC & CN).
  exists tc. split.
  - unfold dynchar_st. change single_char with (SS BO_DEFAULT [T None Cs] None). rewrite M. cbn [rbind].
    unfold ss_add. cbn [uint_ser s_act s_bo s_fmt border_eqb]. do 2 f_equal.
    unfold fold_overlaps. cbn [split_last t_code]. rewrite TC. destruct c; try discriminate H; reflexivity.
  - change [T None c; tc] with ([T None c] ++ [tc]). rewrite expand_app, unsigned_expand, X by exact H. reflexivity.
Qed.
Lemma counted_est : forall st c n mark r, unsigned c -> 1 <= n ->
  s_fmt st = [T None c; T (t_cnt (nth 1 (s_fmt st) (T None c))) (t_code (nth 1 (s_fmt st) (T None c)))] ->
  expand (s_fmt st) = [UAlign c; UVal c; UStr (Z.to_nat n)] -> s_bo st = BO_DEFAULT -> s_act st = None ->
  est hb st [VInt mark; VBytes r]
  = if (0 <=? mark) && (mark <? 256 ^ Z.of_nat (csize true c))
    then Ok (uint_bytes hb (csize true c) mark ++ str_fit (Z.to_nat n) r) else Err StructError.
Proof.
  intros st c n mark r H N _ X B A. unfold est, st_pack.
  assert (nvals (s_fmt st) = 2%nat) as -> by (unfold nvals; rewrite X; reflexivity).
  cbn [List.length Nat.eqb]. rewrite X. cbn [pack_u pack_unit usize]. rewrite padding_0.
  cbn [zeros repeat List.length Nat.add]. rewrite pack_val_uint by exact H.
  unfold ss_mode. rewrite B. cbn [mode_of m_native m_big].
  destruct ((0 <=? mark) && (mark <? 256 ^ Z.of_nat (csize true c))); [|reflexivity].
  cbn. now rewrite app_nil_r.
Qed.
End Lemmas.

(** C16: a non-empty value whose length fits the header *)
Theorem C16_pack : forall hb ct n id c b, unsigned c -> b <> [] -> blen b < 256 ^ Z.of_nat (csize true c) ->
  writes hb ct (S n) (SDynChar id (uint_ser BO_DEFAULT c)) [VBytes b]
    (uint_bytes hb (csize true c) (blen b) ++ b).
Proof.
  intros hb ct n id c b H NE L. pose proof (blen_nonneg b).
  assert (N : 1 <= blen b) by (destruct b; [congruence|]; unfold blen; cbn [List.length]; lia).
  apply leaf_writes; [reflexivity|]. unfold lenc. cbn [enc enc_step nth0 rbind py_len]. fold (blen b).
  destruct (counted_st c (blen b) H N) as (tc & D & X). rewrite D. cbn [rbind].
  rewrite (counted_est hb _ c (blen b)); auto; [|cbn; destruct tc; reflexivity].
  destruct ((0 <=? blen b) && (blen b <? 256 ^ Z.of_nat (csize true c))) eqn:Q; [|lia].
  rewrite str_fit_exact by (unfold blen; lia). reflexivity.
Qed.
Print Assumptions C16_pack.

(** C16: a value too long for the header is refused *)
Theorem C16_too_long : forall hb ct n id c b, unsigned c -> 256 ^ Z.of_nat (csize true c) <= blen b ->
  refuses hb ct (S n) (SDynChar id (uint_ser BO_DEFAULT c)) [VBytes b] StructError.
Proof.
  intros hb ct n id c b H L.
  assert (N : 1 <= blen b) by (pose proof (pow256_pos (csize true c)); lia).
  apply leaf_refuses; [reflexivity|discriminate|]. unfold lenc. cbn [enc enc_step nth0 rbind py_len]. fold (blen b).
  destruct (counted_st c (blen b) H N) as (tc & D & X). rewrite D. cbn [rbind].
  rewrite (counted_est hb _ c (blen b)); auto; [|cbn; destruct tc; reflexivity].
  destruct ((0 <=? blen b) && (blen b <? 256 ^ Z.of_nat (csize true c))) eqn:Q; [lia|]. reflexivity.
Qed.
Print Assumptions C16_too_long.

(** C16: reading a counted string back, in every byte order, followed by anything *)
Theorem C16_unpack : forall hb ct n id bo c b rest s w, unsigned c ->
  blen b < 256 ^ Z.of_nat (hsize hb bo c) -> b <> [] \/ md_of s = UBuf -> srcok s w ->
  suffix s w = uint_bytes (hbig hb bo) (hsize hb bo c) (blen b) ++ b ++ rest ->
  reads hb ct (S n) (SDynChar id (uint_ser bo c)) s w [VBytes b] (Z.of_nat (hsize hb bo c) + blen b).
Proof.
  intros hb ct n id bo c b rest s w H L NE K E. pose proof (blen_nonneg b). pose proof (blen_nonneg rest).
  assert (LH : blen (uint_bytes (hbig hb bo) (hsize hb bo c) (blen b)) = Z.of_nat (hsize hb bo c))
    by (unfold blen; now rewrite uint_bytes_length).
  apply leaf_reads; auto.
  - cbn. unfold uint1. cbn. unfold unsigned in H. now rewrite H.
  - rewrite E. unfold ldec. cbn [dec]. cbv beta iota delta [dec_step]. rewrite uint_dst by (auto || lia).
    cbn [rbind nth0 as_int as_index]. rewrite uint_size by exact H.
    assert (ADV : adv (Z.of_nat (hsize hb bo c)) (uint_bytes (hbig hb bo) (hsize hb bo c) (blen b) ++ b ++ rest) = b ++ rest).
    { unfold adv. rewrite Nat2Z.id.
      rewrite <- (uint_bytes_length (hbig hb bo) (hsize hb bo c) (blen b)) at 1. apply skipn_app_len. }
    rewrite ADV. destruct (md_of s) eqn:MD.
    + do 3 f_equal. unfold blen. rewrite Nat2Z.id. now rewrite firstn_app_len.
    + destruct NE as [NE|]; [|discriminate].
      assert (N : 1 <= blen b) by (destruct b; [congruence|]; unfold blen; cbn [List.length]; lia).
      destruct (matmul_char BO_DEFAULT Cs (blen b) N) as (tc & M & _).
      change (SS BO_DEFAULT [T None Cs] None) with single_char in M. rewrite M. cbn [rbind].
      now rewrite (char_dost hb (blen b) b rest _ N eq_refl M).
    + destruct NE as [NE|]; [|discriminate].
      assert (N : 1 <= blen b) by (destruct b; [congruence|]; unfold blen; cbn [List.length]; lia).
      destruct (matmul_char BO_DEFAULT Cs (blen b) N) as (tc & M & _).
      change (SS BO_DEFAULT [T None Cs] None) with single_char in M. rewrite M. cbn [rbind].
      now rewrite (char_dost hb (blen b) b rest _ N eq_refl M).
  - rewrite E, !blen_app. lia.
Qed.
Print Assumptions C16_unpack.


Example C16_nontrivial :
  unsigned CH /\ blen [x41; x42; x43] < 256 ^ Z.of_nat (csize true CH) /\
  uint_bytes false 2 3 = [x03; x00] /\ uint_bytes true 2 772 = [x03; x04] /\
  suffix (SFrom [xff; x00; x02; x41; x42; x07] 1) cloud0 = uint_bytes true 2 2 ++ [x41; x42] ++ [x07] /\
  srcok (SFrom [xff; x00; x02; x41; x42; x07] 1) cloud0.
Proof. repeat split; cbn; lia || reflexivity. Qed.

(** C16 is false for the empty value: it cannot be packed ... *)
Theorem C16_empty_pack_refuted : forall hb ct n id bo c, unsigned c ->
  refuses hb ct (S n) (SDynChar id (uint_ser bo c)) [VBytes []] StructError.
Proof.
  intros hb ct n id bo c H. apply leaf_refuses; [reflexivity|discriminate|]. unfold lenc.
  cbn [enc enc_step nth0 rbind py_len]. unfold dynchar_st. cbn. unfold est, st_pack. cbn [uint_ser s_fmt].
  assert (nvals [T None c] = 1%nat) as -> by (unfold nvals; rewrite unsigned_expand by exact H; reflexivity).
  reflexivity.
Qed.
Print Assumptions C16_empty_pack_refuted.
(** ... and [unpack_from] / [unpack_read] return no value at all where [unpack] returns [b""]. *)
Theorem C16_empty_unpack_refuted : forall hb ct n id bo c rest s w, unsigned c -> srcok s w ->
  suffix s w = uint_bytes (hbig hb bo) (hsize hb bo c) 0 ++ rest ->
  reads hb ct (S n) (SDynChar id (uint_ser bo c)) s w
    (match s with SBuf _ => [VBytes []] | _ => [] end) (Z.of_nat (hsize hb bo c)).
Proof.
  intros hb ct n id bo c rest s w H K E. pose proof (blen_nonneg rest).
  assert (LH : blen (uint_bytes (hbig hb bo) (hsize hb bo c) 0) = Z.of_nat (hsize hb bo c))
    by (unfold blen; now rewrite uint_bytes_length).
  apply leaf_reads; auto.
  - cbn. unfold uint1. cbn. unfold unsigned in H. now rewrite H.
  - rewrite E. unfold ldec. cbn [dec]. cbv beta iota delta [dec_step].
    rewrite uint_dst by (auto; pose proof (pow256_pos (hsize hb bo c)); lia).
    cbn [rbind nth0 as_int as_index]. rewrite uint_size, Z.add_0_r by exact H. destruct s; reflexivity.
  - rewrite E, !blen_app. lia.
Qed.
Print Assumptions C16_empty_unpack_refuted.

(** C16 is false in a class with an explicit byte order: packing always fails. *)
Theorem C16_byte_order_refuted : forall hb ct n id bo c b, bo <> BO_DEFAULT -> b <> [] ->
  refuses hb ct (S n) (with_bo bo (SDynChar id (uint_ser BO_DEFAULT c))) [VBytes b] ValueError.
Proof.
  intros hb ct n id bo c b BO NE. apply leaf_refuses; [reflexivity|discriminate|]. unfold lenc.
  assert (N : 1 <= blen b) by (destruct b; [congruence|]; unfold blen; cbn [List.length]; lia).
  cbn [with_bo enc enc_step nth0 rbind py_len]. fold (blen b). unfold dynchar_st.
  destruct (matmul_char BO_DEFAULT Cs (blen b) N) as (tc & M & _).
  change (SS BO_DEFAULT [T None Cs] None) with single_char in M. rewrite M. cbn [rbind].
  unfold ss_add. cbn. destruct bo; try reflexivity. congruence.
Qed.
Print Assumptions C16_byte_order_refuted.

(** C17: packing appends the terminator *)
Theorem C17_pack : forall hb ct n id t b,
  writes hb ct (S n) (STerm id t) [VBytes b] (b ++ [t]).
Proof.
  intros hb ct n id t b. apply leaf_writes; [reflexivity|]. unfold lenc. cbn [enc enc_step nth0 rbind as_bytes].
  assert (N : 1 <= blen (b ++ [t])) by (rewrite blen_app; pose proof (blen_nonneg b); cbn; lia).
  destruct (matmul_char BO_DEFAULT Cs _ N) as (tc & M & X & _).
  change (SS BO_DEFAULT [T None Cs] None) with single_char in M. rewrite M. cbn [rbind eost].
  unfold est, st_pack, nvals. cbn [s_fmt]. rewrite X. unfold expand.
  cbn [flat_map expand_tok t_code cnt t_cnt app nvals_u filter takes_value List.length Nat.eqb pack_u pack_unit].
  rewrite str_fit_exact by (unfold blen; lia). cbn. now rewrite app_nil_r.
Qed.
Print Assumptions C17_pack.

Lemma byte_find_first : forall t b rest, ~ In t b -> byte_find t (b ++ t :: rest) = Some (List.length b).
Proof.
  induction b; intros rest H; cbn.
  - now rewrite byte_eqb_refl.
  - destruct (Byte.eqb a t) eqn:E; [apply byte_eqb_true in E; subst; exfalso; apply H; now left|].
    rewrite IHb; [reflexivity|]. intros I. apply H. now right.
Qed.
Lemma byte_find_none : forall t b, ~ In t b -> byte_find t b = None.
Proof.
  induction b; intros H; cbn; [reflexivity|].
  destruct (Byte.eqb a t) eqn:E; [apply byte_eqb_true in E; subst; exfalso; apply H; now left|].
  rewrite IHb; [reflexivity|]. intros I. apply H. now right.
Qed.

(** C17: [unpack] and [unpack_read] return the bytes before the first terminator and consume it *)
Theorem C17_unpack : forall hb ct n id t b rest s w, ~ In t b -> md_of s <> UFrom -> srcok s w ->
  suffix s w = b ++ t :: rest ->
  reads hb ct (S n) (STerm id t) s w [VBytes b] (blen b + 1).
Proof.
  intros hb ct n id t b rest s w H MD K E. apply leaf_reads; auto.
  - cbn. destruct (md_of s); congruence.
  - rewrite E. unfold ldec. cbn [dec dec_step]. rewrite byte_find_first by exact H.
    now rewrite firstn_app_len.
  - rewrite E. unfold blen. rewrite app_length. cbn [List.length]. lia.
Qed.
Print Assumptions C17_unpack.
Theorem C17_unterminated : forall hb ct n id t s w, ~ In t (suffix s w) -> md_of s <> UFrom -> srcok s w ->
  rejects hb ct (S n) (STerm id t) s w ValueError.
Proof.
  intros hb ct n id t s w H MD K. apply leaf_rejects; auto.
  - cbn. destruct (md_of s); congruence.
  - unfold ldec. cbn [dec dec_step]. now rewrite byte_find_none by exact H.
Qed.
Print Assumptions C17_unterminated.

(** C17: [unpack_from] returns the right value, but its [size] is that of an offset-0 read *)
Theorem C17_unpack_from : forall hb ct n id t b rest buf off w, ~ In t b -> 0 <= off ->
  skipn (Z.to_nat off) buf = b ++ t :: rest ->
  let out := unpack hb ct (S n) (STerm id t) (SFrom buf off) w in
  fst out = Ok [VBytes b] /\ fst (get_size hb (STerm id t) (snd out)) = Ok (off + (blen b + 1)).
Proof.
  intros hb ct n id t b rest buf off w H O E. cbv zeta. cbn [unpack unpack_step]. unfold bind, lift.
  rewrite term_scan_spec by (unfold blen; lia). rewrite E, byte_find_first by exact H.
  cbn. unfold upd. rewrite Nat.eqb_refl. split.
  - do 3 f_equal. rewrite py_slice_nn by lia. rewrite E.
    replace (Z.to_nat (off + Z.of_nat (List.length b) - off)) with (List.length b) by lia. apply firstn_app_len.
  - f_equal. unfold blen. lia.
Qed.
Print Assumptions C17_unpack_from.
Theorem C17_unpack_from_unterminated : forall hb ct n id t buf off w, ~ In t (skipn (Z.to_nat off) buf) -> 0 <= off ->
  rejects hb ct (S n) (STerm id t) (SFrom buf off) w ValueError.
Proof.
  intros hb ct n id t buf off w H O. unfold rejects. cbn [unpack unpack_step]. unfold bind, lift.
  rewrite term_scan_spec by (unfold blen; lia). now rewrite byte_find_none by exact H.
Qed.
Print Assumptions C17_unpack_from_unterminated.

Example C17_nontrivial :
  ~ In x00 [x41; x42] /\ suffix (SBuf [x41; x42; x00; x43; x00]) cloud0 = [x41; x42] ++ x00 :: [x43; x00] /\
  skipn (Z.to_nat 2) [x09; x00; x41; x42; x00; x43] = [x41; x42] ++ x00 :: [x43].
Proof. repeat split. cbn. intros [|[|[]]]; discriminate. Qed.

(** C17, 'adding it only if the value does not already end with it', is false: a value already ending in
    the terminator gets a second one, which is then left over when reading. *)
Theorem C17_double_terminator_refuted : forall hb ct n id t b,
  writes hb ct (S n) (STerm id t) [VBytes (b ++ [t])] (b ++ [t; t]).
Proof.
  intros. pose proof (C17_pack hb ct n id t (b ++ [t])) as H. rewrite <- app_assoc in H. exact H.
Qed.
Print Assumptions C17_double_terminator_refuted.
(** C17, 'consumes exactly through the terminator', is false for [unpack_from] at a non-zero offset *)
Theorem C17_unpack_from_size_refuted : ~ (forall hb ct n id t b rest buf off w, ~ In t b -> 0 <= off ->
  skipn (Z.to_nat off) buf = b ++ t :: rest ->
  reads hb ct (S n) (STerm id t) (SFrom buf off) w [VBytes b] (blen b + 1)).
Proof.
  intros H.
  destruct (H false no_classes 0%nat 0%nat x00 [x41] [] [x09; x41; x00] 1 cloud0) as (_ & S & _).
  - cbn. intros [|[]]; discriminate.
  - lia.
  - reflexivity.
  - cbn in S. discriminate.
Qed.
Print Assumptions C17_unpack_from_size_refuted.

(** C18: the length marker of a .NET string: 7 bits per byte, low bits first, high bit = "one more" *)
Definition net_prefix (n : Z) : bytes :=
  if n <? 128 then [bz n] else [bz (n mod 128 + 128); bz (n / 128)].

Lemma net_mark_bytes : forall n, 128 <= n <= 32767 -> uint_bytes false 2 (net_mark n) = net_prefix n.
Proof.
  intros n H. rewrite <- int_enc_bytes. cbn [int_enc le_enc]. rewrite (net_mark_eq n H). unfold net_prefix.
  destruct (n <? 128) eqn:Q; [lia|].
  assert (0 <= n / 128) by (apply Z.div_pos; lia). pose proof (Z.mod_pos_bound n 128 ltac:(lia)).
  f_equal.
  - apply zb_inj. rewrite !zb_bz. rewrite Z.mod_add by lia. f_equal. lia.
  - f_equal. f_equal. rewrite Z.div_add by lia. rewrite (Z.div_small (128 + n mod 128)) by lia. lia.
Qed.

(** C18: packing, on a little endian machine *)
Theorem C18_pack : forall ct n id b, b <> [] -> blen b <= 32767 ->
  writes false ct (S n) (SNet id) [VBytes b] (net_prefix (blen b) ++ b).
Proof.
  intros ct n id b NE L.
  assert (N : 1 <= blen b) by (destruct b; [congruence|]; unfold blen; cbn [List.length]; lia).
  apply leaf_writes; [reflexivity|]. unfold lenc. cbn [enc enc_step nth0 rbind py_len]. fold (blen b).
  unfold net_st. destruct (blen b <? 128) eqn:Q.
  - destruct (counted_st CB (blen b) eq_refl N) as (tc & D & X).
    change (uint_ser BO_DEFAULT CB) with net_short in D. rewrite D. cbn [rbind].
    rewrite (counted_est false _ CB (blen b)); auto; [|reflexivity|cbn; destruct tc; reflexivity].
    change (256 ^ Z.of_nat (csize true CB)) with 256.
    destruct ((0 <=? blen b) && (blen b <? 256)) eqn:R; [|lia].
    rewrite str_fit_exact by (unfold blen; lia). unfold net_prefix. rewrite Q.
    rewrite <- int_enc_bytes. reflexivity.
  - destruct (32767 <? blen b) eqn:Q2; [lia|].
    destruct (counted_st CH (blen b) eq_refl N) as (tc & D & X).
    change (uint_ser BO_DEFAULT CH) with net_long in D. rewrite D. cbn [rbind].
    rewrite (counted_est false _ CH (blen b)); auto; [|reflexivity|cbn; destruct tc; reflexivity].
    destruct (net_mark_ok (blen b) ltac:(lia)) as (_ & R1 & _).
    change (256 ^ Z.of_nat (csize true CH)) with 65536.
    destruct ((0 <=? net_mark (blen b)) && (net_mark (blen b) <? 65536)) eqn:R; [|lia].
    rewrite str_fit_exact by (unfold blen; lia). change (csize true CH) with 2%nat.
    now rewrite net_mark_bytes by lia.
Qed.
Print Assumptions C18_pack.
Theorem C18_too_long : forall hb ct n id b, 32767 < blen b ->
  refuses hb ct (S n) (SNet id) [VBytes b] ValueError.
Proof.
  intros hb ct n id b L. apply leaf_refuses; [reflexivity|discriminate|]. unfold lenc.
  cbn [enc enc_step nth0 rbind py_len]. fold (blen b). unfold net_st.
  destruct (blen b <? 128) eqn:Q; [lia|]. destruct (32767 <? blen b) eqn:Q2; [|lia]. reflexivity.
Qed.
Print Assumptions C18_too_long.

Lemma dec_net_prefix : forall n x, 0 <= n <= 32767 ->
  dec_net false (net_prefix n ++ x) = Ok (blen (net_prefix n), n).
Proof.
  intros n x H. unfold net_prefix. destruct (n <? 128) eqn:Q.
  - unfold dec_net. pose proof (uint_dst false BO_DEFAULT CB n x eq_refl) as D.
    change (uint_ser BO_DEFAULT CB) with net_short in D.
    change (uint_bytes (hbig false BO_DEFAULT) (hsize false BO_DEFAULT CB) n) with (uint_bytes false 1 n) in D.
    rewrite <- int_enc_bytes in D. cbn [int_enc le_enc] in D. rewrite D; [|change (256 ^ Z.of_nat (hsize false BO_DEFAULT CB)) with 256; lia].
    cbn [rbind nth0 as_int as_index]. destruct (128 <=? n) eqn:R; [lia|reflexivity].
  - assert (HN : 128 <= n <= 32767) by lia. pose proof (net_mark_bytes n HN) as MB. unfold net_prefix in MB. rewrite Q in MB.
    destruct (net_mark_ok n HN) as (DC & R1 & R2).
    unfold dec_net.
    assert (D1 : dst false net_short ([bz (n mod 128 + 128); bz (n / 128)] ++ x) = Ok [VInt (n mod 128 + 128)]).
    { pose proof (Z.mod_pos_bound n 128 ltac:(lia)).
      pose proof (uint_dst false BO_DEFAULT CB (n mod 128 + 128) ([bz (n / 128)] ++ x) eq_refl) as D.
      change (uint_ser BO_DEFAULT CB) with net_short in D.
      change (uint_bytes (hbig false BO_DEFAULT) (hsize false BO_DEFAULT CB) (n mod 128 + 128)) with (uint_bytes false 1 (n mod 128 + 128)) in D.
      rewrite <- int_enc_bytes in D. cbn [int_enc le_enc] in D. apply D.
      change (256 ^ Z.of_nat (hsize false BO_DEFAULT CB)) with 256. lia. }
    rewrite D1. cbn [rbind nth0 as_int as_index]. pose proof (Z.mod_pos_bound n 128 ltac:(lia)).
    destruct (128 <=? n mod 128 + 128) eqn:R; [|lia].
    rewrite <- MB.
    pose proof (uint_dst false BO_DEFAULT CH (net_mark n) x eq_refl) as D.
    change (uint_ser BO_DEFAULT CH) with net_long in D. change (hbig false BO_DEFAULT) with false in D.
    change (hsize false BO_DEFAULT CH) with 2%nat in D. rewrite D by (change (256 ^ Z.of_nat 2) with 65536; lia).
    cbn [rbind nth0 as_int as_index]. rewrite DC. cbn [rbind]. unfold blen. rewrite uint_bytes_length. reflexivity.
Qed.

(** C18: decoding, by all three methods, including the empty string *)
Theorem C18_unpack : forall ct n id b rest s w, blen b <= 32767 -> srcok s w ->
  suffix s w = net_prefix (blen b) ++ b ++ rest ->
  reads false ct (S n) (SNet id) s w [VBytes b] (blen (net_prefix (blen b)) + blen b).
Proof.
  intros ct n id b rest s w L K E. pose proof (blen_nonneg b). pose proof (blen_nonneg rest).
  apply leaf_reads; auto.
  - rewrite E. unfold ldec. cbn [dec]. cbv beta iota delta [dec_step]. rewrite dec_net_prefix by lia. cbn [rbind].
    assert (ADV : adv (blen (net_prefix (blen b))) (net_prefix (blen b) ++ b ++ rest) = b ++ rest)
      by (unfold adv, blen; rewrite Nat2Z.id; apply skipn_app_len).
    rewrite ADV. destruct (md_of s).
    + do 3 f_equal. unfold blen. rewrite Nat2Z.id. now rewrite firstn_app_len.
    + now rewrite nstr_dst.
    + do 3 f_equal. unfold blen. rewrite Nat2Z.id. now rewrite firstn_app_len.
  - rewrite E, !blen_app. lia.
Qed.
Print Assumptions C18_unpack.

Example C18_nontrivial :
  net_prefix 5 = [x05] /\ net_prefix 128 = [x80; x01] /\ net_prefix 32767 = [xff; xff] /\
  suffix (SBuf [x02; x41; x42; x07]) cloud0 = net_prefix (blen [x41; x42]) ++ [x41; x42] ++ [x07].
Proof. repeat split. Qed.

(** C18 is false for the empty string: [char[NET]] cannot pack it *)
Theorem C18_empty_refuted : forall hb ct n id, refuses hb ct (S n) (SNet id) [VBytes []] StructError.
Proof. intros. apply leaf_refuses; [reflexivity|discriminate|]. reflexivity. Qed.
Print Assumptions C18_empty_refuted.
(** C18 is false on a big endian machine: the marker is packed with the byte order of the machine, and
    the string is not read back *)
Theorem C18_big_endian_refuted : ~ (forall ct n id b rest s w, b <> [] -> blen b <= 32767 -> srcok s w ->
  forall enc, writes true ct (S n) (SNet id) [VBytes b] enc ->
  suffix s w = enc ++ rest ->
  reads true ct (S n) (SNet id) s w [VBytes b] (blen enc)).
Proof.
  intros H. pose (b := repeat x41 128).
  assert (W : writes true no_classes 1 (SNet 0) [VBytes b] (x01 :: x80 :: b)).
  { apply leaf_writes; reflexivity. }
  destruct (H no_classes 0%nat 0%nat b [] (SBuf (x01 :: x80 :: b)) cloud0 ltac:(discriminate) ltac:(cbn; lia) I _ W ltac:(now rewrite app_nil_r)) as (R & _).
  vm_compute in R. discriminate.
Qed.
Print Assumptions C18_big_endian_refuted.

(** C20: read-to-end strings pack verbatim and read everything that is left *)
Theorem C20_pack : forall hb ct n id b, writes hb ct (S n) (SConsume id) [VBytes b] b.
Proof. intros. apply leaf_writes; reflexivity. Qed.
Print Assumptions C20_pack.
Theorem C20_unpack : forall hb ct n id s w, srcok s w ->
  reads hb ct (S n) (SConsume id) s w [VBytes (suffix s w)] (blen (suffix s w)).
Proof. intros. apply leaf_reads; auto; lia || reflexivity. Qed.
Print Assumptions C20_unpack.
Example C20_nontrivial : srcok (SFrom [x01; x02; x03] 1) cloud0 /\ suffix (SFrom [x01; x02; x03] 1) cloud0 = [x02; x03].
Proof. split; [cbn; lia|reflexivity]. Qed.
