(** Property C43: floats are stored as the nearest number of the format. *)
From Verif Require Import Base Floats Value StructMod Format Ser Exec Pure BaseFacts StructFacts FormatFacts
  SerFacts RefPack RefUnpack Leaf Wire PropsStrings FloatFacts FloatRound.

(** float16 and float32: bits of exponent and of mantissa *)
Definition float_format (c : code) : option (Z * Z) := match c with Ce => Some (5, 10) | Cf => Some (8, 23) | _ => None end.
Definition field (bo : border) (c : code) : ser := SStruct (SS bo [T None c] None).
Definition float_size (c : code) : nat := match c with Ce => 2 | Cf => 4 | _ => 8 end.
(** infinities and NaNs of a format *)
Definition infinity (eb mb : Z) (neg : bool) : Z := (if neg then 2 ^ (eb + mb) else 0) + (2 ^ eb - 1) * 2 ^ mb.
Definition not_a_number (eb mb p : Z) : Prop := 0 <= p < 2 ^ (1 + eb + mb) /\ (2 ^ eb - 1) * 2 ^ mb < p mod 2 ^ (eb + mb).

Lemma field_est : forall hb bo c v, match c with Ce | Cf | Cd => True | _ => False end ->
  est hb (SS bo [T None c] None) [v] = pack_val (mode_of hb bo) c v.
Proof.
  intros hb bo c v C. assert (X : expand [T None c] = [UAlign c; UVal c]) by (destruct c; try contradiction; reflexivity).
  unfold est, st_pack, nvals. cbn [s_fmt]. rewrite X. cbn [nvals_u filter takes_value List.length Nat.eqb].
  cbn [pack_u pack_unit usize]. rewrite padding_0. cbn [zeros repeat List.length Nat.add].
  change (ss_mode hb (SS bo [T None c] None)) with (mode_of hb bo).
  destruct (pack_val (mode_of hb bo) c v); cbn; [|reflexivity]. now rewrite app_nil_r.
Qed.
Lemma field_size : forall hb c, match c with Ce | Cf | Cd => True | _ => False end -> csize hb c = float_size c.
Proof. intros hb c C. destruct c; try contradiction; destruct hb; reflexivity. Qed.
Lemma field_dst : forall hb bo c p rest, match c with Ce | Cf | Cd => True | _ => False end ->
  ldec hb UBuf 1 (field bo c) (uint_bytes (m_big (mode_of hb bo)) (float_size c) p ++ rest)
  = Ok ([unpack_val (mode_of hb bo) c (uint_bytes (m_big (mode_of hb bo)) (float_size c) p)], Z.of_nat (float_size c)).
Proof.
  intros hb bo c p rest C. assert (X : expand [T None c] = [UAlign c; UVal c]) by (destruct c; try contradiction; reflexivity).
  assert (SZ : calcsize (mode_of hb bo) [T None c] = float_size c).
  { unfold calcsize. rewrite X. cbn [size_u usize]. rewrite padding_0, field_size by exact C. lia. }
  unfold ldec, field. cbn [dec dec_step]. unfold dst, ss_size. cbn [s_fmt].
  change (ss_mode hb (SS bo [T None c] None)) with (mode_of hb bo). rewrite SZ, Nat2Z.id.
  rewrite firstn_app, uint_bytes_length, Nat.sub_diag, firstn_O, app_nil_r.
  rewrite firstn_all2 by (rewrite uint_bytes_length; lia).
  unfold st_unpack. rewrite SZ, uint_bytes_length, Nat.eqb_refl, X. cbn [unpack_u usize]. rewrite padding_0. cbn [skipn].
  rewrite firstn_all2 by (rewrite uint_bytes_length, field_size by exact C; lia). reflexivity.
Qed.
Lemma field_reads_val : forall hb ct k bo c p s w rest, match c with Ce | Cf | Cd => True | _ => False end -> srcok s w ->
  suffix s w = uint_bytes (m_big (mode_of hb bo)) (float_size c) p ++ rest ->
  reads hb ct (S k) (field bo c) s w [unpack_val (mode_of hb bo) c (uint_bytes (m_big (mode_of hb bo)) (float_size c) p)]
    (Z.of_nat (float_size c)).
Proof.
  intros hb ct k bo c p s w rest C K X. apply leaf_reads; auto.
  - rewrite X. pose proof (field_dst hb bo c p rest C) as D. unfold ldec, field in *. exact D.
  - rewrite X, blen_app. unfold blen at 1. rewrite uint_bytes_length. pose proof (blen_nonneg rest). lia.
Qed.
Lemma pattern_back : forall big n p, 0 <= p < 2 ^ (8 * Z.of_nat n) -> int_dec big (uint_bytes big n p) = p.
Proof. intros big n p R. rewrite <- int_enc_bytes, int_dec_enc. now apply Z.mod_small. Qed.
Lemma format_facts : forall c eb mb, float_format c = Some (eb, mb) ->
  2 <= eb <= 10 /\ 1 <= mb <= 51 /\ bias eb + mb <= 1022 /\ match c with Ce | Cf | Cd => True | _ => False end /\
  1 + eb + mb = 8 * Z.of_nat (float_size c).
Proof. intros c eb mb F. destruct c; try discriminate F; injection F as <- <-; repeat split; vm_compute; congruence. Qed.

(** A finite float is stored in the bytes of the nearest number of the format (of two equally near ones, the
    one with even mantissa), of the same sign.  If it is too large for that, packing raises OverflowError. *)
Theorem C43_pack : forall hb ct k bo c eb mb b, float_format c = Some (eb, mb) -> finite 11 52 b ->
  (~ too_large eb mb (dbl b) -> exists p, nearest eb mb (dbl b) p /\ negative eb mb p = negative 11 52 b /\
     writes hb ct (S k) (field bo c) [VFloat b] (uint_bytes (m_big (mode_of hb bo)) (float_size c) p)) /\
  (too_large eb mb (dbl b) -> c = Ce \/ m_native (mode_of hb bo) = false ->
     refuses hb ct (S k) (field bo c) [VFloat b] OverflowError).
Proof.
  intros hb ct k bo c eb mb b F FB. destruct (format_facts c eb mb F) as (F1 & F2 & F3 & F4 & F5).
  pose proof (narrow_rounds eb mb F1 F2 F3 b FB) as N. pose proof (field_est hb bo c (VFloat b) F4) as P. split.
  - intros NT. destruct (narrow eb mb b) as [p|] eqn:NR; [|contradiction]. destruct N as (N1 & _ & N2). exists p.
    split; [exact N1|]. split; [exact N2|]. apply leaf_writes; [reflexivity|]. unfold lenc, field. cbn [enc enc_step]. rewrite P.
    rewrite <- int_enc_bytes. destruct c; try discriminate F; injection F as <- <-; cbn [pack_val int_code as_float]; rewrite NR; reflexivity.
  - intros NT CC. destruct (narrow eb mb b) as [p|] eqn:NR; [destruct N as (_ & N & _); contradiction|].
    apply leaf_refuses; [reflexivity|discriminate|]. unfold lenc, field. cbn [enc enc_step]. rewrite P.
    destruct c; try discriminate F; injection F as <- <-; unfold pack_val; cbn [int_code as_float]; rewrite NR; [reflexivity|].
    destruct CC as [CC|CC]; [discriminate CC|]. now rewrite CC.
Qed.
(** Reading gives exactly the number stored. *)
Theorem C43_unpack : forall hb ct k bo c eb mb p s w rest, float_format c = Some (eb, mb) -> finite eb mb p ->
  srcok s w -> suffix s w = uint_bytes (m_big (mode_of hb bo)) (float_size c) p ++ rest ->
  exists d, finite 11 52 d /\ dbl d = number eb mb p /\ negative 11 52 d = negative eb mb p /\
    reads hb ct (S k) (field bo c) s w [VFloat d] (Z.of_nat (float_size c)).
Proof.
  intros hb ct k bo c eb mb p s w rest F FP K X. destruct (format_facts c eb mb F) as (F1 & F2 & F3 & F4 & F5).
  destruct (widen_exact eb mb F1 F2 F3 p FP) as (W1 & W2 & W3). exists (widen eb mb p).
  split; [exact W1|]. split; [exact W2|]. split; [exact W3|].
  pose proof (field_reads_val hb ct k bo c p s w rest F4 K X) as R.
  replace (unpack_val (mode_of hb bo) c (uint_bytes (m_big (mode_of hb bo)) (float_size c) p)) with (VFloat (widen eb mb p)) in R; [exact R|].
  destruct FP as [RP _]. rewrite F5 in RP.
  destruct c; try discriminate F; injection F as <- <-; cbn [unpack_val int_code]; rewrite pattern_back by exact RP; reflexivity.
Qed.
(** So what is read back is the number of the format nearest to what was packed. *)
Theorem C43_back : forall hb ct k bo c eb mb b, float_format c = Some (eb, mb) -> finite 11 52 b -> ~ too_large eb mb (dbl b) ->
  exists bs d, writes hb ct (S k) (field bo c) [VFloat b] bs /\
    (forall s w rest, srcok s w -> suffix s w = bs ++ rest -> reads hb ct (S k) (field bo c) s w [VFloat d] (blen bs)) /\
    finite 11 52 d /\ (exists p, finite eb mb p /\ dbl d = number eb mb p) /\
    (forall q, finite eb mb q -> Z.abs (dbl d - dbl b) <= Z.abs (number eb mb q - dbl b)).
Proof.
  intros hb ct k bo c eb mb b F FB NT. destruct (C43_pack hb ct k bo c eb mb b F FB) as [H _].
  destruct (H NT) as (p & [FP N] & _ & W). destruct (format_facts c eb mb F) as (F1 & F2 & F3 & F4 & F5).
  destruct (widen_exact eb mb F1 F2 F3 p FP) as (W1 & W2 & W3).
  exists (uint_bytes (m_big (mode_of hb bo)) (float_size c) p), (widen eb mb p). split; [exact W|]. split; [|split; [exact W1|split; [eauto|]]].
  - intros s w rest K X. unfold blen. rewrite uint_bytes_length.
    pose proof (field_reads_val hb ct k bo c p s w rest F4 K X) as R.
    replace (unpack_val (mode_of hb bo) c (uint_bytes (m_big (mode_of hb bo)) (float_size c) p)) with (VFloat (widen eb mb p)) in R; [exact R|].
    destruct FP as [RP _]. rewrite F5 in RP.
    destruct c; try discriminate F; injection F as <- <-; cbn [unpack_val int_code]; rewrite pattern_back by exact RP; reflexivity.
  - intros q FQ. rewrite W2. apply N. exact FQ.
Qed.
(** Infinities stay infinities of the same sign, NaNs stay NaNs, both ways. *)
Theorem C43_special : forall hb ct k bo c eb mb, float_format c = Some (eb, mb) ->
  (forall neg, writes hb ct (S k) (field bo c) [VFloat (infinity 11 52 neg)]
                 (uint_bytes (m_big (mode_of hb bo)) (float_size c) (infinity eb mb neg))) /\
  (forall neg s w rest, srcok s w -> suffix s w = uint_bytes (m_big (mode_of hb bo)) (float_size c) (infinity eb mb neg) ++ rest ->
     reads hb ct (S k) (field bo c) s w [VFloat (infinity 11 52 neg)] (Z.of_nat (float_size c))) /\
  (forall b, not_a_number 11 52 b -> exists p, not_a_number eb mb p /\
     writes hb ct (S k) (field bo c) [VFloat b] (uint_bytes (m_big (mode_of hb bo)) (float_size c) p)) /\
  (forall p s w rest, not_a_number eb mb p -> srcok s w ->
     suffix s w = uint_bytes (m_big (mode_of hb bo)) (float_size c) p ++ rest ->
     exists d, not_a_number 11 52 d /\ reads hb ct (S k) (field bo c) s w [VFloat d] (Z.of_nat (float_size c))).
Proof.
  intros hb ct k bo c eb mb F. destruct (format_facts c eb mb F) as (F1 & F2 & F3 & F4 & F5).
  assert (RV : forall p s w rest, 0 <= p < 2 ^ (1 + eb + mb) -> srcok s w ->
    suffix s w = uint_bytes (m_big (mode_of hb bo)) (float_size c) p ++ rest ->
    reads hb ct (S k) (field bo c) s w [VFloat (widen eb mb p)] (Z.of_nat (float_size c))).
  { intros p s w rest RP K X. pose proof (field_reads_val hb ct k bo c p s w rest F4 K X) as R. rewrite F5 in RP.
    replace (unpack_val (mode_of hb bo) c (uint_bytes (m_big (mode_of hb bo)) (float_size c) p)) with (VFloat (widen eb mb p)) in R; [exact R|].
    destruct c; try discriminate F; injection F as <- <-; cbn [unpack_val int_code]; rewrite pattern_back by exact RP; reflexivity. }
  assert (WV : forall b p, narrow eb mb b = Some p ->
    writes hb ct (S k) (field bo c) [VFloat b] (uint_bytes (m_big (mode_of hb bo)) (float_size c) p)).
  { intros b p NR. apply leaf_writes; [reflexivity|]. unfold lenc, field. cbn [enc enc_step]. rewrite (field_est hb bo c (VFloat b) F4).
    rewrite <- int_enc_bytes. destruct c; try discriminate F; injection F as <- <-; cbn [pack_val int_code as_float]; rewrite NR; reflexivity. }
  split; [|split; [|split]].
  - intros neg. apply WV. destruct c; try discriminate F; injection F as <- <-; destruct neg; vm_compute; reflexivity.
  - intros neg s w rest K X. assert (E : infinity 11 52 neg = widen eb mb (infinity eb mb neg)).
    { destruct c; try discriminate F; injection F as <- <-; destruct neg; vm_compute; reflexivity. }
    rewrite E. apply (RV _ s w rest); auto. destruct c; try discriminate F; injection F as <- <-; destruct neg; vm_compute; split; congruence.
  - intros b [RB NB].
    assert (PB : exists s m, (s = 0 \/ s = 1) /\ 0 < m < 2 ^ 52 /\ b = s * 2 ^ 63 + 2047 * 2 ^ 52 + m).
    { exists (b / 2 ^ 63), (b mod 2 ^ 63 - 2047 * 2 ^ 52). change (2 ^ (1 + 11 + 52)) with (2 ^ 64) in RB.
      change ((2 ^ 11 - 1) * 2 ^ 52) with (2047 * 2 ^ 52) in NB. change (2 ^ (11 + 52)) with (2 ^ 63) in NB.
      pose proof (Z.mod_pos_bound b (2 ^ 63) eq_refl). pose proof (Z.div_mod b (2 ^ 63) ltac:(lia)). lia. }
    destruct PB as (s & m & S & M & ->). destruct (fields s 2047 m ltac:(lia) ltac:(lia) ltac:(lia)) as (G1 & G2 & G3). cbv zeta in G1, G2, G3.
    assert (Q : narrow eb mb (s * 2 ^ 63 + 2047 * 2 ^ 52 + m)
      = Some (s * 2 ^ (eb + mb) + (2 ^ eb - 1) * 2 ^ mb + nan_payload mb (m / 2 ^ (52 - mb)))).
    { unfold narrow. rewrite G1, G2, G3. rewrite Z.eqb_refl. rewrite (proj2 (Z.eqb_neq m 0)) by lia. reflexivity. }
    eexists. split; [|exact (WV _ _ Q)].
    assert (PL : 0 <= m / 2 ^ (52 - mb) < 2 ^ mb).
    { assert (0 < 2 ^ (52 - mb)) by (apply Z.pow_pos_nonneg; lia). split; [apply Z.div_pos; lia|]. apply Z.div_lt_upper_bound; [lia|].
      rewrite <- Z.pow_add_r by lia. replace (52 - mb + mb) with 52 by lia. lia. }
    assert (NP : 0 < nan_payload mb (m / 2 ^ (52 - mb)) < 2 ^ mb).
    { unfold nan_payload. set (y := m / 2 ^ (52 - mb)) in *. clearbody y. clear -PL F F2.
      destruct c; try discriminate F; injection F as <- <-; cbn [Z.eqb Pos.eqb].
      - lia.
      - destruct (y <? 2 ^ (23 - 1)) eqn:Q; lia. }
    set (y := nan_payload mb (m / 2 ^ (52 - mb))) in *. clearbody y. clear -S NP F. unfold not_a_number.
    assert (MD : forall A B, 0 <= B < A -> (s * A + B) mod A = B) by (intros A B R; rewrite Z.add_comm, Z.mod_add by lia; apply Z.mod_small; lia).
    destruct c; try discriminate F; injection F as <- <-.
    + rewrite <- Z.add_assoc, MD by lia. lia.
    + rewrite <- Z.add_assoc, MD by lia. lia.
  - intros p s w rest [RP NP] K X. exists (widen eb mb p). split; [|exact (RV p s w rest RP K X)].
    assert (PP : exists z m, (z = 0 \/ z = 1) /\ 0 < m < 2 ^ mb /\ p = z * 2 ^ (eb + mb) + (2 ^ eb - 1) * 2 ^ mb + m).
    { exists (p / 2 ^ (eb + mb)), (p mod 2 ^ (eb + mb) - (2 ^ eb - 1) * 2 ^ mb). clear -F RP NP.
      destruct c; try discriminate F; injection F as <- <-.
      - change (2 ^ (5 + 10)) with 32768 in *. change (2 ^ (1 + 5 + 10)) with 65536 in *. change ((2 ^ 5 - 1) * 2 ^ 10) with 31744 in *. lia.
      - change (2 ^ (8 + 23)) with 2147483648 in *. change (2 ^ (1 + 8 + 23)) with 4294967296 in *. change ((2 ^ 8 - 1) * 2 ^ 23) with 2139095040 in *.
        change (2 ^ 23) with 8388608. pose proof (Z.mod_pos_bound p 2147483648 eq_refl). pose proof (Z.div_mod p 2147483648 ltac:(lia)). lia. }
    destruct PP as (z & m & S & M & ->).
    assert (Q : widen eb mb (z * 2 ^ (eb + mb) + (2 ^ eb - 1) * 2 ^ mb + m) = z * 2 ^ 63 + 2047 * 2 ^ 52 + nan_payload mb m * 2 ^ (52 - mb)).
    { assert (0 < 2 ^ mb) by (apply Z.pow_pos_nonneg; lia).
      assert (PE : 0 < 2 ^ eb) by (apply Z.pow_pos_nonneg; lia).
      assert (P3 : 2 ^ (eb + mb) = 2 ^ eb * 2 ^ mb) by (apply Z.pow_add_r; lia).
      unfold widen. rewrite P3.
      replace ((z * (2 ^ eb * 2 ^ mb) + (2 ^ eb - 1) * 2 ^ mb + m) / (2 ^ eb * 2 ^ mb)) with z by (apply (Z.div_unique_pos _ _ _ ((2 ^ eb - 1) * 2 ^ mb + m)); nia).
      replace ((z * (2 ^ eb * 2 ^ mb) + (2 ^ eb - 1) * 2 ^ mb + m) / 2 ^ mb) with (2 ^ eb - 1 + z * 2 ^ eb) by (apply (Z.div_unique_pos _ _ _ m); lia).
      rewrite Z.mod_add, Z.mod_small, Z.eqb_refl by lia.
      replace ((z * (2 ^ eb * 2 ^ mb) + (2 ^ eb - 1) * 2 ^ mb + m) mod 2 ^ mb) with m by (apply (Z.mod_unique_pos _ _ (z * 2 ^ eb + (2 ^ eb - 1))); lia).
      rewrite (proj2 (Z.eqb_neq m 0)) by lia. reflexivity. }
    rewrite Q. unfold not_a_number. change (2 ^ (1 + 11 + 52)) with (2 ^ 64). change (2 ^ (11 + 52)) with (2 ^ 63). change ((2 ^ 11 - 1) * 2 ^ 52) with (2047 * 2 ^ 52).
    assert (NP' : 0 < nan_payload mb m * 2 ^ (52 - mb) < 2 ^ 52).
    { clear -F M. unfold nan_payload. destruct c; try discriminate F; injection F as <- <-; cbn [Z.eqb Pos.eqb].
      - lia.
      - destruct (m <? 2 ^ (23 - 1)) eqn:Q; lia. }
    rewrite <- Z.add_assoc. rewrite (Z.add_comm (z * 2 ^ 63)), Z.mod_add by lia. rewrite Z.mod_small by lia. lia.
Qed.
(** float64 keeps all bits. *)
Theorem C43_double : forall hb ct k bo b, 0 <= b < 2 ^ 64 ->
  writes hb ct (S k) (field bo Cd) [VFloat b] (uint_bytes (m_big (mode_of hb bo)) 8 b) /\
  forall s w rest, srcok s w -> suffix s w = uint_bytes (m_big (mode_of hb bo)) 8 b ++ rest ->
    reads hb ct (S k) (field bo Cd) s w [VFloat b] 8.
Proof.
  intros hb ct k bo b R. split.
  - apply leaf_writes; [reflexivity|]. unfold lenc, field. cbn [enc enc_step]. rewrite field_est by exact I.
    rewrite <- int_enc_bytes. reflexivity.
  - intros s w rest K X. pose proof (field_reads_val hb ct k bo Cd b s w rest I K X) as RV. cbn [unpack_val int_code float_size] in RV.
    rewrite pattern_back in RV by exact R. exact RV.
Qed.
(** An integer (or bool) given for a float64 is stored as the nearest one, or refused. *)
Theorem C43_int : forall hb ct k bo z,
  (~ too_large 11 52 (z * 2 ^ 1074) -> exists b, nearest 11 52 (z * 2 ^ 1074) b /\
     writes hb ct (S k) (field bo Cd) [VInt z] (uint_bytes (m_big (mode_of hb bo)) 8 b)) /\
  (too_large 11 52 (z * 2 ^ 1074) -> refuses hb ct (S k) (field bo Cd) [VInt z] StructError).
Proof.
  intros hb ct k bo z. pose proof (int_rounds z) as N. split; intros T.
  - destruct (double_of_int z) as [b|] eqn:D; [|contradiction]. exists b. split; [exact (proj1 N)|].
    apply leaf_writes; [reflexivity|]. unfold lenc, field. cbn [enc enc_step]. rewrite field_est by exact I.
    unfold pack_val. cbn [int_code as_float]. rewrite D, <- int_enc_bytes. reflexivity.
  - destruct (double_of_int z) as [b|] eqn:D; [destruct N as [_ N]; contradiction|].
    apply leaf_refuses; [reflexivity|discriminate|]. unfold lenc, field. cbn [enc enc_step]. rewrite field_est by exact I.
    unfold pack_val. cbn [int_code as_float]. rewrite D. reflexivity.
Qed.
Print Assumptions C43_pack.
Print Assumptions C43_unpack.
Print Assumptions C43_back.
Print Assumptions C43_special.
Print Assumptions C43_double.
Print Assumptions C43_int.

(** ** cases *)
(** 1/10, 65519.99..., 2^-25 (a tie, to even: 0) and 3 * 2^-25 (a tie, to even: 2^-23) for float16; 65520 is too
    large.  2^53 + 1 is a tie between doubles. *)
Example C43_nontrivial :
  finite 11 52 4591870180066957722 /\ ~ too_large 5 10 (dbl 4591870180066957722) /\
  narrow 5 10 4591870180066957722 = Some 11878 /\ number 5 10 11878 = 1638 * 2 ^ 1060 /\
  too_large 5 10 (dbl 4679237813814689792) /\ ~ too_large 5 10 (dbl 4679237813814689791) /\
  narrow 5 10 4494592428115755008 = Some 0 /\ narrow 5 10 4501347827556810752 = Some 2 /\
  double_of_int (2 ^ 53 + 1) = double_of_int (2 ^ 53) /\ too_large 11 52 (2 ^ 1024 * 2 ^ 1074) /\
  not_a_number 11 52 9221120237041090560 /\ infinity 8 23 true = 4286578688.
Proof.
  unfold finite, too_large, not_a_number, Z.ge. repeat split; try (vm_compute; congruence); try (intros H; vm_compute in H; congruence).
  all: intros H; apply H; vm_compute; reflexivity.
Qed.
(** ** In native byte order a float32 that is too large is stored as an infinity. *)
Theorem C43_native_refuted : exists b, finite 11 52 b /\ too_large 8 23 (dbl b) /\
  forall ct k, writes false ct (S k) (field BO_DEFAULT Cf) [VFloat b] (uint_bytes false 4 (infinity 8 23 false)).
Proof.
  exists 9218868437227405311. split; [split; [|vm_compute; discriminate]; split; [discriminate|reflexivity]|].
  split; [unfold too_large, Z.ge; vm_compute; discriminate|].
  intros ct k. apply leaf_writes; [reflexivity|]. vm_compute. reflexivity.
Qed.
(** ** An integer given for a float32 is first rounded to a float64: the result need not be the nearest. *)
Theorem C43_twice_refuted : exists z p q, finite 8 23 p /\ finite 8 23 q /\
  (forall hb ct k, writes hb ct (S k) (field BO_LE Cf) [VInt z] (uint_bytes false 4 p)) /\
  Z.abs (number 8 23 q - z * 2 ^ 1074) < Z.abs (number 8 23 p - z * 2 ^ 1074).
Proof.
  exists (2 ^ 54 + 2 ^ 30 + 1), 1518338048, 1518338049. split; [split; [|vm_compute; discriminate]; split; [discriminate|reflexivity]|].
  split; [split; [|vm_compute; discriminate]; split; [discriminate|reflexivity]|]. split; [|vm_compute; reflexivity].
  intros hb ct k. apply leaf_writes; [reflexivity|]. vm_compute. reflexivity.
Qed.
Print Assumptions C43_native_refuted.
Print Assumptions C43_twice_refuted.
