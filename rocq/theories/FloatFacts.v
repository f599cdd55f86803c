(** Widening a binary16 / binary32 pattern and narrowing it back gives the pattern again, NaNs apart. *)
From Verif Require Import Base Floats.

(** exponent all ones, mantissa not zero *)
Definition nan_in (eb mb b : Z) : bool :=
  ((b / 2 ^ mb) mod 2 ^ eb =? 2 ^ eb - 1) && negb (b mod 2 ^ mb =? 0).

Lemma rne_exact : forall a s, 1 <= s -> rne (a * 2 ^ s) s = a.
Proof.
  intros a s S. unfold rne. rewrite Z.div_mul, Z.mod_mul by (apply Z.pow_nonzero; lia).
  assert (0 < 2 ^ (s - 1)) by (apply Z.pow_pos_nonneg; lia).
  destruct (2 ^ (s - 1) <? 0) eqn:E; [lia|]. destruct (0 =? 2 ^ (s - 1)) eqn:E2; [lia|]. reflexivity.
Qed.

(** the three fields of a binary64 pattern *)
Lemma fields : forall s e m, 0 <= s -> 0 <= e < 2 ^ 11 -> 0 <= m < 2 ^ 52 ->
  let b := s * 2 ^ 63 + e * 2 ^ 52 + m in
  b / 2 ^ 63 = s /\ (b / 2 ^ 52) mod 2 ^ 11 = e /\ b mod 2 ^ 52 = m.
Proof.
  intros s e m S E M b.
  assert (B : b = (s * 2 ^ 11 + e) * 2 ^ 52 + m) by (unfold b; lia).
  repeat split.
  - symmetry. apply (Z.div_unique_pos b (2 ^ 63) s (e * 2 ^ 52 + m)); unfold b; lia.
  - replace (b / 2 ^ 52) with (s * 2 ^ 11 + e).
    + rewrite Z.add_comm, Z.mod_add by lia. apply Z.mod_small. lia.
    + apply (Z.div_unique_pos b (2 ^ 52) _ m); lia.
  - symmetry. apply (Z.mod_unique_pos b (2 ^ 52) (s * 2 ^ 11 + e) m); lia.
Qed.

Section Fmt.
Variables eb mb : Z.
Hypothesis EB : 2 <= eb <= 10.
Hypothesis MB : 1 <= mb <= 51.
Hypothesis LOW : bias eb + mb <= 1022.

Lemma narrow_widen : forall x, 0 <= x < 2 ^ (1 + eb + mb) -> nan_in eb mb x = false ->
  narrow eb mb (widen eb mb x) = Some x.
Proof.
  intros x X NN.
  set (s := x / 2 ^ (eb + mb)). set (e := (x / 2 ^ mb) mod 2 ^ eb). set (m := x mod 2 ^ mb).
  assert (PE : 0 < 2 ^ eb) by (apply Z.pow_pos_nonneg; lia).
  assert (PM : 0 < 2 ^ mb) by (apply Z.pow_pos_nonneg; lia).
  assert (PEM : 2 ^ (eb + mb) = 2 ^ eb * 2 ^ mb) by (apply Z.pow_add_r; lia).
  assert (HM : 0 <= m < 2 ^ mb) by (apply Z.mod_pos_bound; lia).
  assert (HE : 0 <= e < 2 ^ eb) by (apply Z.mod_pos_bound; lia).
  assert (HX : x = s * 2 ^ (eb + mb) + e * 2 ^ mb + m).
  { unfold s, e, m. rewrite PEM. rewrite (Z.mul_comm (2 ^ eb) (2 ^ mb)), <- Z.div_div by lia.
    pose proof (Z.div_mod x (2 ^ mb) ltac:(lia)). pose proof (Z.div_mod (x / 2 ^ mb) (2 ^ eb) ltac:(lia)). nia. }
  assert (HS : 0 <= s) by (apply Z.div_pos; [lia|apply Z.pow_pos_nonneg; lia]).
  assert (HB : 0 < bias eb /\ 2 ^ eb = 2 * bias eb + 2).
  { unfold bias. assert (2 ^ eb = 2 * 2 ^ (eb - 1)) by (rewrite <- Z.pow_succ_r by lia; f_equal; lia).
    assert (2 ^ 1 <= 2 ^ (eb - 1)) by (apply Z.pow_le_mono_r; lia). lia. }
  destruct HB as [HB HB2].
  assert (B9 : bias eb <= 511).
  { unfold bias. assert (2 ^ (eb - 1) <= 2 ^ 9) by (apply Z.pow_le_mono_r; lia). lia. }
  assert (PK : forall k, 0 <= k <= 52 -> 2 ^ 52 = 2 ^ k * 2 ^ (52 - k) /\ 0 < 2 ^ k /\ 0 < 2 ^ (52 - k)).
  { intros k K. rewrite <- Z.pow_add_r by lia. repeat split; try (apply Z.pow_pos_nonneg; lia). f_equal. lia. }
  unfold widen. fold s e m. unfold nan_in in NN. fold e m in NN.
  destruct (e =? 2 ^ eb - 1) eqn:EI.
  - (* infinity *)
    apply Z.eqb_eq in EI. cbn in NN. apply negb_false_iff in NN. rewrite NN. apply Z.eqb_eq in NN.
    unfold narrow. destruct (fields s 2047 0) as (F1 & F2 & F3); try lia. cbv zeta in F1, F2, F3.
    rewrite F1, F2, F3. cbn [Z.eqb Pos.eqb]. f_equal. nia.
  - destruct (e =? 0) eqn:E0.
    + apply Z.eqb_eq in E0. destruct (m =? 0) eqn:M0.
      * (* zero *)
        apply Z.eqb_eq in M0. unfold narrow. destruct (fields s 0 0) as (F1 & F2 & F3); try lia. cbv zeta in F1, F2, F3.
        rewrite !Z.mul_0_l, !Z.add_0_r in F1, F2, F3. rewrite F1, F2. cbn [Z.eqb]. f_equal. nia.
      * (* subnormal *)
        apply Z.eqb_neq in M0. set (k := Z.log2 m).
        pose proof (Z.log2_spec m ltac:(lia)) as LG. fold k in LG. rewrite Z.pow_succ_r in LG by apply Z.log2_nonneg.
        assert (K : 0 <= k < mb) by (split; [apply Z.log2_nonneg|apply Z.log2_lt_pow2; lia]).
        destruct (PK k ltac:(lia)) as (P1 & P2 & P3).
        set (e' := k + 1 - bias eb - mb + 1023).
        assert (HE' : 0 < e' < 2047) by (unfold e'; lia).
        assert (HM' : 0 <= (m - 2 ^ k) * 2 ^ (52 - k) < 2 ^ 52) by nia.
        unfold narrow. destruct (fields s e' ((m - 2 ^ k) * 2 ^ (52 - k))) as (F1 & F2 & F3); try lia.
        cbv zeta in F1, F2, F3. rewrite F1, F2, F3.
        destruct (e' =? 2047) eqn:Q1; [lia|]. destruct (e' =? 0) eqn:Q2; [lia|].
        replace (2 ^ 52 + (m - 2 ^ k) * 2 ^ (52 - k)) with (m * 2 ^ (52 - k)) by nia.
        replace (Z.max (e' - 1075 + 52 - mb) (1 - bias eb - mb) - (e' - 1075)) with (52 - k) by (unfold e'; lia).
        rewrite rne_exact by lia.
        replace (Z.max (e' - 1075 + 52 + bias eb) 1) with 1 by (unfold e'; lia).
        rewrite Z.sub_diag, Z.mul_0_l, Z.add_0_l.
        destruct ((2 ^ eb - 1) * 2 ^ mb <=? m) eqn:Q3; [apply Z.leb_le in Q3; nia|]. f_equal. nia.
    + (* normal *)
      apply Z.eqb_neq in E0, EI. destruct (PK mb ltac:(lia)) as (P1 & P2 & P3).
      set (e' := e - bias eb + 1023).
      assert (HE' : 0 < e' < 2047) by (unfold e'; lia).
      assert (HM' : 0 <= m * 2 ^ (52 - mb) < 2 ^ 52) by nia.
      unfold narrow. destruct (fields s e' (m * 2 ^ (52 - mb))) as (F1 & F2 & F3); try lia.
      cbv zeta in F1, F2, F3. rewrite F1, F2, F3.
      destruct (e' =? 2047) eqn:Q1; [lia|]. destruct (e' =? 0) eqn:Q2; [lia|].
      replace (2 ^ 52 + m * 2 ^ (52 - mb)) with ((2 ^ mb + m) * 2 ^ (52 - mb)) by nia.
      replace (Z.max (e' - 1075 + 52 - mb) (1 - bias eb - mb) - (e' - 1075)) with (52 - mb) by (unfold e'; lia).
      rewrite rne_exact by lia.
      replace (Z.max (e' - 1075 + 52 + bias eb) 1) with e by (unfold e'; lia).
      destruct ((2 ^ eb - 1) * 2 ^ mb <=? (e - 1) * 2 ^ mb + (2 ^ mb + m)) eqn:Q3; [apply Z.leb_le in Q3; nia|].
      f_equal. nia.
Qed.

(** a NaN pattern widens to a NaN, and only a NaN pattern does *)
Lemma widen_nan : forall x, 0 <= x < 2 ^ (1 + eb + mb) -> is_nan (widen eb mb x) = nan_in eb mb x.
Proof.
  intros x X.
  set (s := x / 2 ^ (eb + mb)). set (e := (x / 2 ^ mb) mod 2 ^ eb). set (m := x mod 2 ^ mb).
  assert (PE : 0 < 2 ^ eb) by (apply Z.pow_pos_nonneg; lia).
  assert (PM : 0 < 2 ^ mb) by (apply Z.pow_pos_nonneg; lia).
  assert (HM : 0 <= m < 2 ^ mb) by (apply Z.mod_pos_bound; lia).
  assert (HE : 0 <= e < 2 ^ eb) by (apply Z.mod_pos_bound; lia).
  assert (HS : 0 <= s) by (apply Z.div_pos; [lia|apply Z.pow_pos_nonneg; lia]).
  assert (HB : 0 < bias eb /\ 2 ^ eb = 2 * bias eb + 2).
  { unfold bias. assert (2 ^ eb = 2 * 2 ^ (eb - 1)) by (rewrite <- Z.pow_succ_r by lia; f_equal; lia).
    assert (2 ^ 1 <= 2 ^ (eb - 1)) by (apply Z.pow_le_mono_r; lia). lia. }
  destruct HB as [HB HB2].
  assert (B9 : bias eb <= 511).
  { unfold bias. assert (2 ^ (eb - 1) <= 2 ^ 9) by (apply Z.pow_le_mono_r; lia). lia. }
  assert (PK : forall k, 0 <= k <= 52 -> 2 ^ 52 = 2 ^ k * 2 ^ (52 - k) /\ 0 < 2 ^ k /\ 0 < 2 ^ (52 - k)).
  { intros k K. rewrite <- Z.pow_add_r by lia. repeat split; try (apply Z.pow_pos_nonneg; lia). f_equal. lia. }
  unfold widen, nan_in. fold s e m. unfold is_nan. destruct (PK mb ltac:(lia)) as (P1 & P2 & P3).
  destruct (e =? 2 ^ eb - 1) eqn:EI.
  - destruct (m =? 0) eqn:M0.
    + destruct (fields s 2047 0 HS ltac:(lia) ltac:(lia)) as (F1 & F2 & F3). cbv zeta in F2, F3. rewrite F2, F3. reflexivity.
    + apply Z.eqb_neq in M0.
      assert (NP : 0 < nan_payload mb m < 2 ^ mb).
      { unfold nan_payload. assert (2 ^ mb = 2 * 2 ^ (mb - 1)) by (rewrite <- Z.pow_succ_r by lia; f_equal; lia).
        assert (0 < 2 ^ (mb - 1)) by (apply Z.pow_pos_nonneg; lia).
        destruct (mb =? 10); [lia|]. destruct (m <? 2 ^ (mb - 1)) eqn:Q; lia. }
      assert (0 < nan_payload mb m * 2 ^ (52 - mb) < 2 ^ 52) by nia.
      destruct (fields s 2047 (nan_payload mb m * 2 ^ (52 - mb)) HS ltac:(lia) ltac:(lia)) as (F1 & F2 & F3).
      cbv zeta in F2, F3. rewrite F2, F3.
      destruct (nan_payload mb m * 2 ^ (52 - mb) =? 0) eqn:Q; [lia|]. reflexivity.
  - cbn [andb]. apply Z.eqb_neq in EI. destruct (e =? 0) eqn:E0.
    + destruct (m =? 0) eqn:M0.
      * destruct (fields s 0 0 HS ltac:(lia) ltac:(lia)) as (F1 & F2 & F3). cbv zeta in F2.
        rewrite !Z.mul_0_l, !Z.add_0_r in F2. rewrite F2. reflexivity.
      * apply Z.eqb_neq in M0. set (k := Z.log2 m).
        pose proof (Z.log2_spec m ltac:(lia)) as LG. fold k in LG. rewrite Z.pow_succ_r in LG by apply Z.log2_nonneg.
        assert (K : 0 <= k < mb) by (split; [apply Z.log2_nonneg|apply Z.log2_lt_pow2; lia]).
        destruct (PK k ltac:(lia)) as (Q1 & Q2 & Q3).
        assert (HM' : 0 <= (m - 2 ^ k) * 2 ^ (52 - k) < 2 ^ 52) by nia.
        destruct (fields s (k + 1 - bias eb - mb + 1023) ((m - 2 ^ k) * 2 ^ (52 - k)) HS ltac:(lia) ltac:(lia)) as (F1 & F2 & F3).
        cbv zeta in F2. rewrite F2. destruct (_ =? 2047) eqn:Z1; [lia|reflexivity].
    + apply Z.eqb_neq in E0.
      assert (HM' : 0 <= m * 2 ^ (52 - mb) < 2 ^ 52) by nia.
      destruct (fields s (e - bias eb + 1023) (m * 2 ^ (52 - mb)) HS ltac:(lia) ltac:(lia)) as (F1 & F2 & F3).
      cbv zeta in F2. rewrite F2. destruct (_ =? 2047) eqn:Z1; [lia|reflexivity].
Qed.
End Fmt.

(** binary32 and binary16 *)
Lemma narrow_widen_f : forall x, 0 <= x < 2 ^ 32 -> is_nan (widen 8 23 x) = false -> narrow 8 23 (widen 8 23 x) = Some x.
Proof.
  intros x X N. rewrite (widen_nan 8 23) in N by (try (unfold bias); lia).
  apply (narrow_widen 8 23); try (unfold bias); lia || assumption.
Qed.
Lemma narrow_widen_e : forall x, 0 <= x < 2 ^ 16 -> is_nan (widen 5 10 x) = false -> narrow 5 10 (widen 5 10 x) = Some x.
Proof.
  intros x X N. rewrite (widen_nan 5 10) in N by (try (unfold bias); lia).
  apply (narrow_widen 5 10); try (unfold bias); lia || assumption.
Qed.
