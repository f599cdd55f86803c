(** Facts about bytes, integer encodings and slices. *)
From Verif Require Import Base.
From Coq Require Import ZifyBool ZifyNat.

Lemma zb_range : forall b, 0 <= zb b < 256.
Proof. intros b. unfold zb. pose proof (Byte.to_N_bounded b). lia. Qed.

Lemma of_N_some : forall n, (n <= 255)%N -> exists b, Byte.of_N n = Some b.
Proof.
  intros n H. destruct (Byte.of_N n) eqn:E; eauto.
  apply Byte.of_N_None_iff in E. lia.
Qed.

Lemma zb_bz : forall z, zb (bz z) = z mod 256.
Proof.
  intros z. unfold zb, bz.
  pose proof (Z.mod_pos_bound z 256 ltac:(lia)) as B.
  destruct (of_N_some (Z.to_N (z mod 256))) as [b E]; [lia|].
  rewrite E. apply Byte.to_of_N in E. rewrite E. lia.
Qed.

Lemma bz_zb : forall b, bz (zb b) = b.
Proof.
  intros b. unfold bz, zb.
  pose proof (Byte.to_N_bounded b).
  rewrite Z.mod_small by lia. rewrite N2Z.id, Byte.of_to_N. reflexivity.
Qed.

Lemma zb_inj : forall a b, zb a = zb b -> a = b.
Proof. intros a b H. rewrite <- (bz_zb a), <- (bz_zb b), H. reflexivity. Qed.

Lemma byte_eqb_true : forall a b, Byte.eqb a b = true <-> a = b.
Proof.
  intros a b; split; intros H.
  - now apply Byte.byte_dec_bl.
  - now apply Byte.byte_dec_lb.
Qed.
Lemma byte_eqb_refl : forall a, Byte.eqb a a = true.
Proof. intros; now apply byte_eqb_true. Qed.
Lemma byte_eqb_false : forall a b, Byte.eqb a b = false <-> a <> b.
Proof.
  intros a b. destruct (Byte.eqb a b) eqn:E.
  - apply byte_eqb_true in E. split; congruence.
  - split; [|reflexivity]. intros _ ->. rewrite byte_eqb_refl in E. discriminate.
Qed.

(** ** integers *)
Lemma pow256 : forall n, 2 ^ (8 * Z.of_nat n) = 256 ^ Z.of_nat n.
Proof. intros. rewrite Z.pow_mul_r by lia. reflexivity. Qed.

Lemma pow256_S : forall n, 256 ^ Z.of_nat (S n) = 256 * 256 ^ Z.of_nat n.
Proof. intros. rewrite Nat2Z.inj_succ, Z.pow_succ_r by lia. reflexivity. Qed.

Lemma pow256_pos : forall n, 0 < 256 ^ Z.of_nat n.
Proof. intros. apply Z.pow_pos_nonneg; lia. Qed.

Lemma le_enc_length : forall n z, List.length (le_enc n z) = n.
Proof. induction n; intros; simpl; [reflexivity | now rewrite IHn]. Qed.

Lemma le_dec_enc : forall n z, le_dec (le_enc n z) = z mod 256 ^ Z.of_nat n.
Proof.
  induction n; intros z.
  - simpl. now rewrite Z.mod_1_r.
  - cbn [le_enc le_dec]. rewrite IHn, zb_bz, pow256_S.
    pose proof (pow256_pos n).
    rewrite Z.rem_mul_r by lia. lia.
Qed.

Lemma le_dec_range : forall l, 0 <= le_dec l < 256 ^ Z.of_nat (List.length l).
Proof.
  induction l; [cbn; lia|].
  cbn [le_dec List.length]. rewrite pow256_S.
  pose proof (zb_range a). lia.
Qed.

Lemma le_enc_dec : forall l, le_enc (List.length l) (le_dec l) = l.
Proof.
  induction l; [reflexivity|].
  cbn [le_dec List.length le_enc].
  pose proof (zb_range a).
  f_equal.
  - apply zb_inj. rewrite zb_bz. replace (zb a + 256 * le_dec l) with (zb a + le_dec l * 256) by lia.
    rewrite Z.mod_add by lia. now rewrite Z.mod_small.
  - replace (zb a + 256 * le_dec l) with (zb a + le_dec l * 256) by lia. rewrite Z.div_add by lia. rewrite Z.div_small by lia. now rewrite Z.add_0_l.
Qed.

Lemma le_enc_mod : forall n z w, z mod 256 ^ Z.of_nat n = w mod 256 ^ Z.of_nat n -> le_enc n z = le_enc n w.
Proof.
  intros n z w H.
  rewrite <- (le_enc_dec (le_enc n z)), <- (le_enc_dec (le_enc n w)), !le_dec_enc, !le_enc_length, H.
  reflexivity.
Qed.

Lemma int_enc_length : forall big n z, List.length (int_enc big n z) = n.
Proof. intros [] n z; unfold int_enc; rewrite ?rev_length; apply le_enc_length. Qed.

Lemma int_dec_enc : forall big n z, int_dec big (int_enc big n z) = z mod 2 ^ (8 * Z.of_nat n).
Proof.
  intros [] n z; unfold int_dec, int_enc; rewrite ?rev_involutive, le_dec_enc, pow256; reflexivity.
Qed.

Lemma int_dec_range : forall big l, 0 <= int_dec big l < 2 ^ (8 * Z.of_nat (List.length l)).
Proof.
  intros [] l; unfold int_dec; rewrite pow256; [rewrite <- (rev_length l)|]; apply le_dec_range.
Qed.

Lemma int_enc_dec : forall big l, int_enc big (List.length l) (int_dec big l) = l.
Proof.
  intros [] l; unfold int_dec, int_enc.
  - rewrite <- (rev_length l), le_enc_dec. apply rev_involutive.
  - apply le_enc_dec.
Qed.

Lemma int_enc_mod : forall big n z w,
  z mod 2 ^ (8 * Z.of_nat n) = w mod 2 ^ (8 * Z.of_nat n) -> int_enc big n z = int_enc big n w.
Proof.
  intros big n z w H. rewrite pow256 in H. unfold int_enc.
  rewrite (le_enc_mod n z w H). reflexivity.
Qed.

Lemma to_signed_mod : forall n z, (0 < n)%nat ->
  - 2 ^ (8 * Z.of_nat n - 1) <= z < 2 ^ (8 * Z.of_nat n - 1) ->
  to_signed n (z mod 2 ^ (8 * Z.of_nat n)) = z.
Proof.
  intros n z Hn Hz. unfold to_signed.
  assert (E : 2 ^ (8 * Z.of_nat n) = 2 * 2 ^ (8 * Z.of_nat n - 1)).
  { rewrite <- Z.pow_succ_r by lia. f_equal. lia. }
  rewrite E. set (h := 2 ^ (8 * Z.of_nat n - 1)) in *.
  assert (0 < h) by (apply Z.pow_pos_nonneg; lia).
  destruct (z <? 0) eqn:S.
  - assert (z mod (2 * h) = z + 2 * h).
    { symmetry. apply Z.mod_unique with (q := -1); lia. }
    rewrite H0. destruct (z + 2 * h <? h) eqn:Q; lia.
  - rewrite Z.mod_small by lia. destruct (z <? h) eqn:Q; lia.
Qed.

Lemma to_signed_cong : forall n u, (to_signed n u) mod 2 ^ (8 * Z.of_nat n) = u mod 2 ^ (8 * Z.of_nat n).
Proof.
  intros. unfold to_signed. destruct (_ <? _); [reflexivity|].
  replace (u - 2 ^ (8 * Z.of_nat n)) with (u + (-1) * 2 ^ (8 * Z.of_nat n)) by lia.
  apply Z.mod_add. apply Z.pow_nonzero; lia.
Qed.

Lemma to_signed_range : forall n u, (0 < n)%nat -> 0 <= u < 2 ^ (8 * Z.of_nat n) ->
  - 2 ^ (8 * Z.of_nat n - 1) <= to_signed n u < 2 ^ (8 * Z.of_nat n - 1).
Proof.
  intros n u Hn Hu. unfold to_signed.
  assert (E : 2 ^ (8 * Z.of_nat n) = 2 * 2 ^ (8 * Z.of_nat n - 1)).
  { rewrite <- Z.pow_succ_r by lia. f_equal. lia. }
  destruct (_ <? _) eqn:Q; lia.
Qed.

(** ** slices *)
Lemma blen_nonneg : forall b, 0 <= blen b.
Proof. intros; unfold blen; lia. Qed.
Lemma blen_app : forall a b, blen (a ++ b) = blen a + blen b.
Proof. intros; unfold blen; rewrite app_length; lia. Qed.

Lemma norm_idx_id : forall n i, 0 <= i <= n -> norm_idx n i = i.
Proof. intros n i H. unfold norm_idx. destruct (i <? 0) eqn:E; lia. Qed.

Lemma py_from_skipn : forall {A} (l : list A) a, 0 <= a -> py_from l a = skipn (Z.to_nat a) l.
Proof.
  intros A l a H. unfold py_from, norm_idx. destruct (a <? 0) eqn:E; [lia|].
  destruct (Z.le_gt_cases a (Z.of_nat (List.length l))).
  - now rewrite Z.min_l by lia.
  - rewrite Z.min_r by lia. rewrite Nat2Z.id, skipn_all. symmetry. apply skipn_all2. lia.
Qed.

Lemma py_slice_nn : forall {A} (l : list A) a b, 0 <= a -> a <= b ->
  py_slice l a b = firstn (Z.to_nat (b - a)) (skipn (Z.to_nat a) l).
Proof.
  intros A l a b Ha Hb. unfold py_slice, norm_idx.
  destruct (a <? 0) eqn:E; [lia|]. destruct (b <? 0) eqn:E'; [lia|].
  set (n := Z.of_nat (List.length l)).
  destruct (Z.le_gt_cases b n).
  - rewrite !Z.min_l by lia. reflexivity.
  - rewrite (Z.min_r b n) by lia.
    destruct (Z.le_gt_cases a n).
    + rewrite Z.min_l by lia.
      rewrite firstn_all2, firstn_all2; [reflexivity| |]; rewrite skipn_length; lia.
    + rewrite Z.min_r by lia. rewrite (skipn_all2 l) by lia.
      rewrite (skipn_all2 l) by lia. now rewrite !firstn_nil.
Qed.

Lemma firstn_app_len : forall {A} (a b : list A), firstn (List.length a) (a ++ b) = a.
Proof. intros. rewrite firstn_app, Nat.sub_diag, firstn_all, firstn_O. apply app_nil_r. Qed.
Lemma skipn_app_len : forall {A} (a b : list A), skipn (List.length a) (a ++ b) = b.
Proof. intros. rewrite skipn_app, Nat.sub_diag, skipn_all. reflexivity. Qed.
Lemma skipn_skipn : forall {A} (l : list A) a b, skipn a (skipn b l) = skipn (b + a) l.
Proof.
  intros A l a b. revert l. induction b; intros l; [reflexivity|].
  destruct l; [now rewrite !skipn_nil|]. cbn. apply IHb.
Qed.

Lemma overwrite_length : forall {A} (l : list A) off d, 0 <= off ->
  off + Z.of_nat (List.length d) <= Z.of_nat (List.length l) ->
  List.length (overwrite l off d) = List.length l.
Proof.
  intros. unfold overwrite. rewrite !app_length, firstn_length, skipn_length. lia.
Qed.
Lemma overwrite_nil : forall {A} (l : list A) off, overwrite l off [] = l.
Proof. intros. unfold overwrite. cbn. rewrite Nat.add_0_r. apply firstn_skipn. Qed.

(** two adjacent overwrites are one *)
Lemma overwrite_app : forall {A} (l : list A) off d1 d2, 0 <= off ->
  off + Z.of_nat (List.length d1) <= Z.of_nat (List.length l) ->
  overwrite (overwrite l off d1) (off + Z.of_nat (List.length d1)) d2 = overwrite l off (d1 ++ d2).
Proof.
  intros A l off d1 d2 Ho H. unfold overwrite.
  set (o := Z.to_nat off). replace (Z.to_nat (off + Z.of_nat (List.length d1))) with (o + List.length d1)%nat by lia.
  assert (Hf : List.length (firstn o l) = o) by (rewrite firstn_length; lia).
  rewrite (app_assoc (firstn o l)).
  assert (Hl : List.length (firstn o l ++ d1) = (o + List.length d1)%nat) by (rewrite app_length; lia).
  rewrite <- Hl at 1. rewrite firstn_app_len.
  rewrite <- !app_assoc. do 3 f_equal.
  rewrite app_assoc, skipn_app, Hl.
  rewrite skipn_all2 by lia.
  replace (o + List.length d1 + List.length d2 - (o + List.length d1))%nat with (List.length d2) by lia.
  rewrite skipn_skipn. cbn. f_equal. rewrite app_length. lia.
Qed.

(** the same in the other order *)
Lemma overwrite_app_r : forall {A} (l : list A) off d1 d2, 0 <= off ->
  off + Z.of_nat (List.length (d1 ++ d2)) <= Z.of_nat (List.length l) ->
  overwrite (overwrite l (off + Z.of_nat (List.length d1)) d2) off d1 = overwrite l off (d1 ++ d2).
Proof.
  intros A l off d1 d2 Ho H. rewrite app_length in H.
  unfold overwrite.
  set (o := Z.to_nat off). replace (Z.to_nat (off + Z.of_nat (List.length d1))) with (o + List.length d1)%nat by lia.
  assert (Hf : List.length (firstn (o + List.length d1) l) = (o + List.length d1)%nat) by (rewrite firstn_length; lia).
  rewrite firstn_app, Hf.
  replace (o - (o + List.length d1))%nat with O by lia. rewrite firstn_O, app_nil_r, firstn_firstn.
  rewrite Nat.min_l by lia. f_equal.
  rewrite <- app_assoc. f_equal.
  rewrite <- Hf at 1. rewrite skipn_app_len. f_equal. f_equal. rewrite app_length. lia.
Qed.

Lemma py_splice_overwrite : forall {A} (l : list A) off d, 0 <= off ->
  off + Z.of_nat (List.length d) <= Z.of_nat (List.length l) ->
  py_splice l off (off + Z.of_nat (List.length d)) d = overwrite l off d.
Proof.
  intros A l off d Ho H. unfold py_splice, overwrite.
  rewrite !norm_idx_id by lia. do 3 f_equal. lia.
Qed.

(** what an overwrite does, position by position *)
Lemma overwrite_region : forall {A} (l : list A) off d, 0 <= off ->
  off + Z.of_nat (List.length d) <= Z.of_nat (List.length l) ->
  firstn (Z.to_nat off) (overwrite l off d) = firstn (Z.to_nat off) l /\
  firstn (List.length d) (skipn (Z.to_nat off) (overwrite l off d)) = d /\
  skipn (Z.to_nat off + List.length d) (overwrite l off d) = skipn (Z.to_nat off + List.length d) l.
Proof.
  intros A l off d Ho H. unfold overwrite.
  assert (Hf : List.length (firstn (Z.to_nat off) l) = Z.to_nat off) by (rewrite firstn_length; lia).
  repeat split.
  - rewrite <- Hf at 1. now rewrite firstn_app_len.
  - rewrite <- Hf at 1. rewrite skipn_app_len. apply firstn_app_len.
  - rewrite app_assoc.
    assert (Hl : (Z.to_nat off + List.length d)%nat = List.length (firstn (Z.to_nat off) l ++ d))
      by (rewrite app_length; lia).
    rewrite Hl at 1. apply skipn_app_len.
Qed.
