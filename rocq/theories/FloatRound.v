(** What number a binary floating point pattern stands for, and that [narrow], [widen] and [double_of_int] of
    Floats.v round correctly. *)
From Verif Require Import Base Floats FloatFacts.

(** ** the numbers (IEEE 754-2008, 3.4) *)
(** All finite numbers of the formats considered are multiples of 2^-1074: they are given in this unit.
    [eb] bits of exponent, [mb] bits of mantissa, a bit of sign. *)
Definition finite (eb mb p : Z) : Prop := 0 <= p < 2 ^ (1 + eb + mb) /\ (p / 2 ^ mb) mod 2 ^ eb <> 2 ^ eb - 1.
Definition magnitude (eb mb r : Z) : Z :=
  let e := r / 2 ^ mb in
  let m := r mod 2 ^ mb in
  if e =? 0 then m * 2 ^ (1 - bias eb - mb + 1074) else (2 ^ mb + m) * 2 ^ (e - bias eb - mb + 1074).
Definition negative (eb mb p : Z) : bool := 2 ^ (eb + mb) <=? p.
Definition number (eb mb p : Z) : Z :=
  (if negative eb mb p then -1 else 1) * magnitude eb mb (p mod 2 ^ (eb + mb)).
(** [p] is a finite number of the format and no other is nearer to [x]; of two equally near ones it is the one
    with an even mantissa *)
Definition nearest (eb mb x p : Z) : Prop :=
  finite eb mb p /\
  forall q, finite eb mb q ->
    Z.abs (number eb mb p - x) <= Z.abs (number eb mb q - x) /\
    (Z.abs (number eb mb p - x) = Z.abs (number eb mb q - x) -> number eb mb q = number eb mb p \/ Z.even p = true).
(** at least half way from the largest finite number to the power of two that would follow it *)
Definition too_large (eb mb x : Z) : Prop :=
  2 * Z.abs x >= magnitude eb mb ((2 ^ eb - 1) * 2 ^ mb - 1) + 2 ^ (bias eb + 1 + 1074).

(** ** [rne] *)
Lemma rne_near : forall m s k, 0 <= m -> 1 <= s ->
  Z.abs (rne m s * 2 ^ s - m) <= Z.abs (k * 2 ^ s - m) /\
  (Z.abs (rne m s * 2 ^ s - m) = Z.abs (k * 2 ^ s - m) -> k = rne m s \/ Z.even (rne m s) = true).
Proof.
  intros m s k M S. assert (P : 2 ^ s = 2 * 2 ^ (s - 1)) by (rewrite <- Z.pow_succ_r by lia; f_equal; lia).
  assert (H : 0 < 2 ^ (s - 1)) by (apply Z.pow_pos_nonneg; lia).
  unfold rne. pose proof (Z.div_mod m (2 ^ s) ltac:(lia)) as D. pose proof (Z.mod_pos_bound m (2 ^ s) ltac:(lia)) as B.
  set (q := m / 2 ^ s) in *. set (r := m mod 2 ^ s) in *. set (h := 2 ^ (s - 1)) in *. rewrite P in *. clear P.
  assert (C : k = q \/ k = q + 1 \/ k <= q - 1 \/ q + 2 <= k) by lia.
  assert (EV : Z.odd q = true -> Z.even (q + 1) = true) by (rewrite <- Z.negb_even, Z.even_add; now destruct (Z.even q)).
  assert (OD : Z.odd q = false -> Z.even q = true) by (rewrite <- Z.negb_even; now destruct (Z.even q)).
  destruct (h <? r) eqn:L; cbn [orb].
  - apply Z.ltb_lt in L. destruct C as [->|[->|[C|C]]]; (split; [nia|]); try (left; reflexivity); intros Q; exfalso; nia.
  - apply Z.ltb_ge in L. destruct (r =? h) eqn:E; cbn [andb].
    + apply Z.eqb_eq in E. destruct (Z.odd q) eqn:O.
      * destruct C as [->|[->|[C|C]]]; (split; [nia|]); auto.
      * destruct C as [->|[->|[C|C]]]; (split; [nia|]); auto.
    + apply Z.eqb_neq in E. destruct C as [->|[->|[C|C]]]; (split; [nia|]); try (left; reflexivity); intros Q; exfalso; nia.
Qed.
Lemma rne_bounds : forall m s lo hi, 1 <= s -> lo * 2 ^ s <= m -> m <= hi * 2 ^ s -> lo <= rne m s <= hi.
Proof.
  intros m s lo hi S L H. assert (P : 2 ^ s = 2 * 2 ^ (s - 1)) by (rewrite <- Z.pow_succ_r by lia; f_equal; lia).
  assert (H0 : 0 < 2 ^ (s - 1)) by (apply Z.pow_pos_nonneg; lia).
  unfold rne. pose proof (Z.div_mod m (2 ^ s) ltac:(lia)) as D. pose proof (Z.mod_pos_bound m (2 ^ s) ltac:(lia)) as B.
  set (q := m / 2 ^ s) in *. set (r := m mod 2 ^ s) in *. set (h := 2 ^ (s - 1)) in *. rewrite P in *.
  assert (lo <= q) by nia.
  destruct ((h <? r) || (r =? h) && Z.odd q) eqn:C; [|nia].
  assert (0 < r) by (destruct (Z.ltb_spec h r); [lia|]; cbn in C; apply andb_prop in C as [C _]; apply Z.eqb_eq in C; lia).
  nia.
Qed.

(** ** the grid of magnitudes, with exponents without bound *)
Section Grid.
Variables eb mb : Z.
Hypothesis EB : 2 <= eb.
Hypothesis MB : 1 <= mb.
Hypothesis LOW : bias eb + mb <= 1075.
Notation u0 := (1 - bias eb - mb + 1074).
Notation mag := (magnitude eb mb).

Lemma pm : 0 < 2 ^ mb. Proof using MB. apply Z.pow_pos_nonneg; lia. Qed.
Lemma mag_at : forall e m, 0 <= m < 2 ^ mb -> 0 <= e ->
  mag (e * 2 ^ mb + m) = if e =? 0 then m * 2 ^ u0 else (2 ^ mb + m) * 2 ^ (u0 + (e - 1)).
Proof using EB MB LOW.
  intros e m M E. unfold magnitude. pose proof pm.
  replace ((e * 2 ^ mb + m) / 2 ^ mb) with e by (apply (Z.div_unique_pos _ _ e m); lia).
  replace ((e * 2 ^ mb + m) mod 2 ^ mb) with m by (apply (Z.mod_unique_pos _ _ e m); lia).
  destruct (e =? 0); [reflexivity|]. f_equal. f_equal. lia.
Qed.
(** within a binade, and at its upper end *)
Lemma mag_run : forall be R, 1 <= be -> 0 <= R <= 2 ^ (mb + 1) -> (be = 1 \/ 2 ^ mb <= R) ->
  mag ((be - 1) * 2 ^ mb + R) = R * 2 ^ (u0 + (be - 1)).
Proof using EB MB LOW.
  intros be R BE HR B. pose proof pm as PM. assert (P1 : 2 ^ (mb + 1) = 2 * 2 ^ mb) by (rewrite Z.add_1_r, Z.pow_succ_r; lia).
  destruct (Z.lt_ge_cases R (2 ^ mb)) as [C|C].
  - destruct B as [->|B]; [|lia]. rewrite (mag_at (1 - 1) R) by lia. cbn [Z.eqb Z.sub Z.add Z.opp Z.pos_sub]. f_equal. f_equal. lia.
  - destruct (Z.eq_dec R (2 ^ (mb + 1))) as [->|N].
    + replace ((be - 1) * 2 ^ mb + 2 ^ (mb + 1)) with ((be + 1) * 2 ^ mb + 0) by lia. rewrite mag_at by lia.
      rewrite (proj2 (Z.eqb_neq _ _)) by lia. rewrite Z.add_0_r, P1.
      replace (u0 + (be + 1 - 1)) with (Z.succ (u0 + (be - 1))) by lia. rewrite Z.pow_succ_r by lia. ring.
    + replace ((be - 1) * 2 ^ mb + R) with (be * 2 ^ mb + (R - 2 ^ mb)) by lia. rewrite mag_at by lia.
      rewrite (proj2 (Z.eqb_neq _ _)) by lia. f_equal. lia.
Qed.
Lemma mag_pos : forall r, 0 <= r -> 0 <= mag r.
Proof using EB MB LOW.
  intros r R. unfold magnitude. pose proof pm. pose proof (Z.mod_pos_bound r (2 ^ mb) ltac:(lia)).
  destruct (_ =? 0); apply Z.mul_nonneg_nonneg; try lia; apply Z.pow_nonneg; lia.
Qed.
Lemma parts : forall r, 0 <= r -> exists e m, 0 <= e /\ 0 <= m < 2 ^ mb /\ r = e * 2 ^ mb + m.
Proof using MB.
  intros r R. pose proof pm. exists (r / 2 ^ mb), (r mod 2 ^ mb). split; [apply Z.div_pos; lia|].
  split; [apply Z.mod_pos_bound; lia|]. pose proof (Z.div_mod r (2 ^ mb)). lia.
Qed.
Lemma mag_step : forall r, 0 <= r -> mag r < mag (r + 1).
Proof using EB MB LOW.
  intros r R. destruct (parts r R) as (e & m & E & M & ->). pose proof pm.
  assert (P : 0 < 2 ^ (u0 + (Z.max e 1 - 1))) by (apply Z.pow_pos_nonneg; lia).
  pose proof (mag_run (Z.max e 1) (if e =? 0 then m else 2 ^ mb + m)) as A.
  pose proof (mag_run (Z.max e 1) (if e =? 0 then m + 1 else 2 ^ mb + m + 1)) as B.
  assert (P1 : 2 ^ (mb + 1) = 2 * 2 ^ mb) by (rewrite Z.add_1_r, Z.pow_succ_r; lia). rewrite P1 in *.
  destruct (Z.eqb_spec e 0) as [->|N].
  - replace (Z.max 0 1) with 1 in * by lia. replace ((1 - 1) * 2 ^ mb + m) with (0 * 2 ^ mb + m) in A by lia.
    replace ((1 - 1) * 2 ^ mb + (m + 1)) with (0 * 2 ^ mb + m + 1) in B by lia. rewrite A, B by lia. nia.
  - replace (Z.max e 1) with e in * by lia. replace ((e - 1) * 2 ^ mb + (2 ^ mb + m)) with (e * 2 ^ mb + m) in A by lia.
    replace ((e - 1) * 2 ^ mb + (2 ^ mb + m + 1)) with (e * 2 ^ mb + m + 1) in B by lia. rewrite A, B by lia. nia.
Qed.
Lemma mag_mono : forall r r', 0 <= r < r' -> mag r < mag r'.
Proof using EB MB LOW.
  intros r r' [R L]. replace r' with (r + Z.of_nat (S (Z.to_nat (r' - r - 1)))) by lia.
  induction (Z.to_nat (r' - r - 1)) as [|n IH]; [apply mag_step; lia|].
  pose proof (mag_step (r + Z.of_nat (S n)) ltac:(lia)). replace (r + Z.of_nat (S (S n))) with (r + Z.of_nat (S n) + 1) by lia. lia.
Qed.
Lemma mag_inj : forall r r', 0 <= r -> 0 <= r' -> mag r = mag r' -> r = r'.
Proof using EB MB LOW.
  intros r r' R R' Q. destruct (Z.lt_trichotomy r r') as [L|[E|L]]; [|exact E|].
  - pose proof (mag_mono r r' ltac:(lia)). lia.
  - pose proof (mag_mono r' r ltac:(lia)). lia.
Qed.

(** the nearest multiple of the quantum of the binade of [x] is the nearest number *)
Lemma grid_near : forall x be R, 1 <= be -> let Q := u0 + (be - 1) in
  0 <= R <= 2 ^ (mb + 1) -> (be = 1 \/ 2 ^ mb <= R) -> 0 <= x -> (be = 1 \/ 2 ^ (mb + Q) <= x) ->
  (forall k, Z.abs (R * 2 ^ Q - x) <= Z.abs (k * 2 ^ Q - x) /\
             (Z.abs (R * 2 ^ Q - x) = Z.abs (k * 2 ^ Q - x) -> k = R \/ Z.even R = true)) ->
  let r := (be - 1) * 2 ^ mb + R in
  forall r', 0 <= r' -> Z.abs (mag r - x) <= Z.abs (mag r' - x) /\
    (Z.abs (mag r - x) = Z.abs (mag r' - x) -> r' = r \/ Z.even r = true).
Proof using EB MB LOW.
  intros x be R BE Q HR B X BX N r r' R'. pose proof pm as PM. unfold r in *. rewrite (mag_run be R BE HR B). fold Q.
  assert (EVR : Z.even R = true -> Z.even ((be - 1) * 2 ^ mb + R) = true).
  { intros E. rewrite Z.even_add, Z.even_mul, E. replace (Z.even (2 ^ mb)) with true; [now rewrite Bool.orb_true_r|].
    symmetry. rewrite Z.even_pow by lia. reflexivity. }
  assert (PQ : 0 < 2 ^ Q) by (apply Z.pow_pos_nonneg; lia).
  destruct (parts r' R') as (e & m & E & M & RE). rewrite RE.
  assert (C : (exists k, mag (e * 2 ^ mb + m) = k * 2 ^ Q /\ (k = R -> e * 2 ^ mb + m = (be - 1) * 2 ^ mb + R))
              \/ (1 < be /\ mag (e * 2 ^ mb + m) < 2 ^ (mb + Q))).
  { rewrite mag_at by lia. destruct (Z.eqb_spec e 0) as [->|NE].
    - destruct (Z.eq_dec be 1) as [->|NB].
      + left. exists m. unfold Q. replace (u0 + (1 - 1)) with u0 by lia. split; [reflexivity|]. lia.
      + right. split; [lia|]. assert (2 ^ (mb + u0) <= 2 ^ (mb + Q)) by (apply Z.pow_le_mono_r; unfold Q; lia).
        rewrite Z.pow_add_r in H by lia. assert (0 < 2 ^ u0) by (apply Z.pow_pos_nonneg; lia). nia.
    - destruct (Z.lt_ge_cases e be) as [L|L].
      + right. split; [lia|]. assert (P : 2 ^ (mb + 1 + (u0 + (e - 1))) <= 2 ^ (mb + Q)) by (apply Z.pow_le_mono_r; unfold Q; lia).
        rewrite Z.pow_add_r, (Z.pow_add_r 2 mb 1) in P by lia. assert (0 < 2 ^ (u0 + (e - 1))) by (apply Z.pow_pos_nonneg; lia).
        change (2 ^ 1) with 2 in P. nia.
      + left. exists ((2 ^ mb + m) * 2 ^ (e - be)). split.
        * rewrite <- Z.mul_assoc, <- Z.pow_add_r by (unfold Q; lia). f_equal. f_equal. unfold Q. lia.
        * intros K. assert (P1 : 2 ^ (mb + 1) = 2 * 2 ^ mb) by (rewrite Z.add_1_r, Z.pow_succ_r; lia).
          destruct (Z.eq_dec e be) as [->|NB]; [rewrite Z.sub_diag in K; change (2 ^ 0) with 1 in K; lia|].
          assert (2 <= 2 ^ (e - be)) by (change 2 with (2 ^ 1) at 1; apply Z.pow_le_mono_r; lia).
          assert (R = 2 ^ (mb + 1)) by nia.
          assert (2 ^ (e - be) = 2 /\ m = 0) as [F ->] by nia.
          assert (e - be = 1) by (apply (Z.pow_inj_r 2); lia). lia. }
  destruct C as [(k & -> & K)|[LB S]].
  - destruct (N k) as [N1 N2]. split; [exact N1|]. intros T. destruct (N2 T) as [T'|T']; [left; auto|right; auto].
  - destruct BX as [->|BX]; [lia|]. pose proof (mag_pos (e * 2 ^ mb + m) ltac:(lia)) as MP.
    destruct (N (2 ^ mb)) as [N1 _]. rewrite <- Z.pow_add_r in N1 by lia. split; [lia|]. intros T. exfalso. lia.
Qed.

(** ** from magnitudes to numbers *)
Notation top := ((2 ^ eb - 1) * 2 ^ mb).
Lemma pe : 0 < 2 ^ eb /\ 2 ^ eb = 2 * bias eb + 2 /\ 2 ^ (eb + mb) = 2 ^ eb * 2 ^ mb /\ 2 ^ (1 + eb + mb) = 2 * (2 ^ eb * 2 ^ mb) /\ 0 < bias eb.
Proof using EB MB LOW.
  unfold bias. assert (2 ^ eb = 2 * 2 ^ (eb - 1)) by (rewrite <- Z.pow_succ_r by lia; f_equal; lia).
  assert (2 ^ 1 <= 2 ^ (eb - 1)) by (apply Z.pow_le_mono_r; lia). rewrite <- Z.pow_add_r by lia.
  rewrite <- Z.add_assoc, (Z.pow_add_r 2 1) by lia. change (2 ^ 1) with 2 in *. lia.
Qed.
Lemma finite_of : forall s r, (s = 0 \/ s = 1) -> 0 <= r < top -> finite eb mb (s * 2 ^ (eb + mb) + r) /\
  negative eb mb (s * 2 ^ (eb + mb) + r) = (s =? 1) /\ (s * 2 ^ (eb + mb) + r) mod 2 ^ (eb + mb) = r.
Proof using EB MB LOW.
  intros s r S R. destruct pe as (P1 & P2 & P3 & P4 & P5). pose proof pm as PM.
  assert (RL : r < 2 ^ (eb + mb)) by (rewrite P3; nia). split; [split|split].
  - rewrite P4. rewrite P3 in *. destruct S as [-> | ->]; nia.
  - destruct (parts r ltac:(lia)) as (e & m & E & M & ->). rewrite P3.
    replace ((s * (2 ^ eb * 2 ^ mb) + (e * 2 ^ mb + m)) / 2 ^ mb) with (s * 2 ^ eb + e) by (apply (Z.div_unique_pos _ _ _ m); lia).
    assert (e < 2 ^ eb - 1) by nia. rewrite Z.add_comm, Z.mod_add by lia. rewrite Z.mod_small by lia. lia.
  - unfold negative. destruct S as [-> | ->]; cbn [Z.eqb Pos.eqb]; [apply Z.leb_gt; lia|apply Z.leb_le; lia].
  - rewrite Z.add_comm, Z.mod_add by lia. apply Z.mod_small. lia.
Qed.
Lemma finite_inv : forall p, finite eb mb p -> exists s r, (s = 0 \/ s = 1) /\ 0 <= r < top /\ p = s * 2 ^ (eb + mb) + r.
Proof using EB MB LOW.
  intros p [R F]. destruct pe as (P1 & P2 & P3 & P4 & P5). pose proof pm as PM. rewrite P4 in R. rewrite P3.
  destruct (parts p ltac:(lia)) as (e & m & E & M & ->).
  replace ((e * 2 ^ mb + m) / 2 ^ mb) with e in F by (apply (Z.div_unique_pos _ _ _ m); lia).
  destruct (Z.lt_ge_cases e (2 ^ eb)) as [L|L].
  - rewrite Z.mod_small in F by lia. exists 0, (e * 2 ^ mb + m). split; [now left|]. split; [nia|lia].
  - assert (e < 2 * 2 ^ eb) by nia. replace e with ((e - 2 ^ eb) + 1 * 2 ^ eb) in F by lia. rewrite Z.mod_add, Z.mod_small in F by lia.
    exists 1, ((e - 2 ^ eb) * 2 ^ mb + m). split; [now right|]. split; [nia|lia].
Qed.
Lemma number_of : forall s r, (s = 0 \/ s = 1) -> 0 <= r < top -> number eb mb (s * 2 ^ (eb + mb) + r) = (if s =? 1 then -1 else 1) * mag r.
Proof using EB MB LOW. intros s r S R. destruct (finite_of s r S R) as (_ & N & M). unfold number. now rewrite N, M. Qed.

Lemma top_mag : mag top = 2 ^ (bias eb + 1 + 1074).
Proof using EB MB LOW.
  destruct pe as (P1 & P2 & P3 & P4 & P5). pose proof pm. replace top with ((2 ^ eb - 1) * 2 ^ mb + 0) by lia. rewrite mag_at by lia.
  rewrite (proj2 (Z.eqb_neq _ _)) by lia. rewrite Z.add_0_r, <- Z.pow_add_r by lia. f_equal. lia.
Qed.
(** rounding a number of either sign, given the nearest magnitude on the unbounded grid *)
Lemma round_ok : forall s x r, (s = 0 \/ s = 1) -> 0 <= x -> 0 <= r ->
  (forall r', 0 <= r' -> Z.abs (mag r - x) <= Z.abs (mag r' - x) /\ (Z.abs (mag r - x) = Z.abs (mag r' - x) -> r' = r \/ Z.even r = true)) ->
  let X := (if s =? 1 then -1 else 1) * x in
  (top <= r -> too_large eb mb X) /\
  (r < top -> ~ too_large eb mb X /\ nearest eb mb X (s * 2 ^ (eb + mb) + r)).
Proof using EB MB LOW.
  intros s x r S X R N XX. destruct pe as (P1 & P2 & P3 & P4 & P5). pose proof pm as PM.
  assert (AX : Z.abs XX = x) by (unfold XX; destruct (s =? 1); lia).
  assert (TP : 0 < top) by nia.
  assert (TL : too_large eb mb XX <-> 2 * x >= mag (top - 1) + mag top) by (unfold too_large; rewrite AX, top_mag; tauto).
  pose proof (mag_mono (top - 1) top ltac:(lia)) as TM. split.
  - intros T. apply TL. destruct (N (top - 1) ltac:(lia)) as [N1 _].
    assert (mag top <= mag r) by (destruct (Z.eq_dec top r) as [<-|]; [lia|]; pose proof (mag_mono top r ltac:(lia)); lia). lia.
  - intros T. split.
    + rewrite TL. intros G. destruct (N top ltac:(lia)) as [N1 N2].
      assert (L : mag r <= mag (top - 1)) by (destruct (Z.eq_dec r (top - 1)) as [->|]; [lia|]; pose proof (mag_mono r (top - 1) ltac:(lia)); lia).
      assert (Q : mag r = mag (top - 1)) by lia. apply mag_inj in Q; try lia. subst r.
      destruct (N2 ltac:(lia)) as [W|W]; [lia|]. rewrite Z.even_sub, Z.even_mul in W.
      replace (Z.even (2 ^ mb)) with true in W; [now rewrite Bool.orb_true_r in W|]. symmetry. rewrite Z.even_pow by lia. reflexivity.
    + split; [apply finite_of; lia|]. intros q FQ. destruct (finite_inv q FQ) as (s' & r' & S' & R' & ->).
      rewrite !number_of by lia. destruct (N r' ltac:(lia)) as [N1 N2]. destruct (N 0 ltac:(lia)) as [N3 N4].
      assert (M0 : mag 0 = 0) by (pose proof (mag_at 0 0 ltac:(lia) ltac:(lia)) as A; exact A).
      rewrite M0 in *. pose proof (mag_pos r' ltac:(lia)) as MP. pose proof (mag_pos r ltac:(lia)) as MP2.
      assert (EV : Z.even r = true -> Z.even (s * 2 ^ (eb + mb) + r) = true).
      { intros E. rewrite Z.even_add, Z.even_mul, E. replace (Z.even (2 ^ (eb + mb))) with true; [now rewrite Bool.orb_true_r|].
        symmetry. rewrite Z.even_pow by lia. reflexivity. }
      assert (SAME : s = s' \/ s <> s') by lia. destruct SAME as [<-|NS].
      * unfold XX. destruct (s =? 1).
        -- replace (-1 * mag r - -1 * x) with (- (mag r - x)) by lia. replace (-1 * mag r' - -1 * x) with (- (mag r' - x)) by lia.
           rewrite !Z.abs_opp. split; [exact N1|]. intros Q. destruct (N2 Q) as [-> |W]; auto.
        -- rewrite !Z.mul_1_l. split; [exact N1|]. intros Q. destruct (N2 Q) as [-> |W]; auto.
      * unfold XX. destruct S as [-> | ->], S' as [-> | ->]; try lia; cbn [Z.eqb Pos.eqb]; rewrite ?Z.mul_1_l; rewrite ?Z.mul_1_l in EV.
        -- split; [lia|]. intros Q. assert (x = 0 \/ mag r' = 0) by lia.
           destruct H as [-> |H]; [|destruct (N4 ltac:(lia)) as [<-|W]; [left; lia|auto]].
           assert (mag r = 0) by lia. left. lia.
        -- split; [lia|]. intros Q. assert (x = 0 \/ mag r' = 0) by lia.
           destruct H as [-> |H]; [|destruct (N4 ltac:(lia)) as [<-|W]; [left; lia|auto]].
           assert (mag r = 0) by lia. left. lia.
Qed.
End Grid.

(** ** narrowing *)
Definition dbl (b : Z) : Z := number 11 52 b.
Lemma bias11 : bias 11 = 1023. Proof. reflexivity. Qed.
Lemma dbl_parts : forall b, finite 11 52 b -> exists s e m, (s = 0 \/ s = 1) /\ 0 <= e < 2047 /\ 0 <= m < 2 ^ 52 /\
  b = s * 2 ^ 63 + e * 2 ^ 52 + m /\ b / 2 ^ 63 = s /\ (b / 2 ^ 52) mod 2 ^ 11 = e /\ b mod 2 ^ 52 = m /\
  dbl b = (if s =? 1 then -1 else 1) * (if e =? 0 then m else (2 ^ 52 + m) * 2 ^ (e - 1)).
Proof.
  intros b F. destruct (finite_inv 11 52 ltac:(lia) ltac:(lia) ltac:(rewrite bias11; lia) b F) as (s & r & S & R & E).
  destruct (parts 52 ltac:(lia) r ltac:(lia)) as (e & m & EE & M & ->). exists s, e, m.
  assert (e < 2047) by lia. rewrite Z.add_assoc in E. change (2 ^ (11 + 52)) with (2 ^ 63) in E.
  destruct (fields s e m ltac:(lia) ltac:(lia) ltac:(lia)) as (F1 & F2 & F3). rewrite <- E in F1, F2, F3.
  repeat (split; [assumption || lia|]). unfold dbl. rewrite E. rewrite <- Z.add_assoc. change (2 ^ 63) with (2 ^ (11 + 52)).
  rewrite (number_of 11 52) by (rewrite ?bias11; lia). f_equal. rewrite (mag_at 11 52) by (rewrite ?bias11; lia).
  rewrite bias11. replace (1 - 1023 - 52 + 1074) with 0 by lia. rewrite Z.add_0_l, Z.mul_1_r. reflexivity.
Qed.
Section Narrow.
Variables eb mb : Z.
Hypothesis EB : 2 <= eb <= 10.
Hypothesis MB : 1 <= mb <= 51.
Hypothesis LOW : bias eb + mb <= 1022.
Theorem narrow_rounds : forall b, finite 11 52 b ->
  match narrow eb mb b with
  | Some p => nearest eb mb (dbl b) p /\ ~ too_large eb mb (dbl b) /\ negative eb mb p = negative 11 52 b
  | None => too_large eb mb (dbl b)
  end.
Proof.
  intros b F. destruct (dbl_parts b F) as (s & e & m & S & E & M & Q & F1 & F2 & F3 & D).
  assert (NG : negative 11 52 b = (s =? 1)).
  { unfold negative. change (2 ^ (11 + 52)) with (2 ^ 63). destruct S as [-> | ->]; cbn [Z.eqb Pos.eqb]; [apply Z.leb_gt|apply Z.leb_le]; lia. }
  unfold narrow. rewrite F1, F2, F3. rewrite (proj2 (Z.eqb_neq e 2047)) by lia. rewrite D, NG. clear D NG F1 F2 F3 Q F.
  destruct (pe eb mb ltac:(lia) ltac:(lia) ltac:(lia)) as (P1 & P2 & P3 & P4 & P5). pose proof (pm mb ltac:(lia)) as PM.
  set (top := (2 ^ eb - 1) * 2 ^ mb). assert (TP : 0 < top) by (unfold top; nia).
  destruct (Z.eqb_spec e 0) as [->|NE].
  - assert (N : forall r', 0 <= r' -> Z.abs (magnitude eb mb 0 - m) <= Z.abs (magnitude eb mb r' - m) /\
      (Z.abs (magnitude eb mb 0 - m) = Z.abs (magnitude eb mb r' - m) -> r' = 0 \/ Z.even 0 = true)).
    { intros r' R'. split; [|now right]. pose proof (mag_at eb mb ltac:(lia) ltac:(lia) ltac:(lia) 0 0 ltac:(lia) ltac:(lia)) as A.
      change (magnitude eb mb 0 = 0) in A. rewrite A.
      destruct (Z.eq_dec r' 0) as [->|NR]; [lia|].
      pose proof (mag_at eb mb ltac:(lia) ltac:(lia) ltac:(lia) 0 1) as B. rewrite Z.mul_0_l, Z.add_0_l in B. cbn [Z.eqb] in B.
      assert (2 ^ 1 <= 2 ^ mb) by (apply Z.pow_le_mono_r; lia). change (2 ^ 1) with 2 in *. specialize (B ltac:(lia) ltac:(lia)).
      assert (2 ^ 53 <= 2 ^ (1 - bias eb - mb + 1074)) by (apply Z.pow_le_mono_r; lia).
      assert (magnitude eb mb 1 <= magnitude eb mb r').
      { destruct (Z.eq_dec r' 1) as [->|]; [lia|]. pose proof (mag_mono eb mb ltac:(lia) ltac:(lia) ltac:(lia) 1 r' ltac:(lia)). lia. }
      lia. }
    destruct (round_ok eb mb ltac:(lia) ltac:(lia) ltac:(lia) s m 0 S ltac:(lia) ltac:(lia) N) as [_ G].
    destruct (G TP) as [G1 G2]. rewrite Z.add_0_r in G2. split; [exact G2|]. split; [exact G1|].
    pose proof (finite_of eb mb ltac:(lia) ltac:(lia) ltac:(lia) s 0 S ltac:(fold top; lia)) as (_ & H & _). rewrite Z.add_0_r in H. exact H.
  - set (E1 := e - 1075). set (q := Z.max (E1 + 52 - mb) (1 - bias eb - mb)). set (be := Z.max (E1 + 52 + bias eb) 1).
    set (R := rne (2 ^ 52 + m) (q - E1)). set (r := (be - 1) * 2 ^ mb + R).
    assert (QB : q + 1074 = 1 - bias eb - mb + 1074 + (be - 1)) by (unfold q, be; lia).
    assert (SH : 1 <= q - E1) by (unfold q; lia).
    assert (X : (2 ^ 52 + m) * 2 ^ (e - 1) = (2 ^ 52 + m) * 2 ^ (E1 + 1074)) by (unfold E1; do 2 f_equal; lia).
    assert (P53 : 2 ^ 52 + m < 2 ^ 53) by lia.
    assert (HR : 0 <= R <= 2 ^ (mb + 1) /\ (be = 1 \/ 2 ^ mb <= R)).
    { assert (UP : 2 ^ 53 <= 2 ^ (mb + 1) * 2 ^ (q - E1)) by (rewrite <- Z.pow_add_r by lia; apply Z.pow_le_mono_r; unfold q; lia).
      destruct (rne_bounds (2 ^ 52 + m) (q - E1) 0 (2 ^ (mb + 1)) SH ltac:(lia) ltac:(lia)) as [B1 B2]. fold R in B1, B2.
      split; [lia|]. destruct (Z.eq_dec be 1) as [|NB]; [now left|]. right.
      assert (Q1 : q = E1 + 52 - mb) by (unfold q, be in *; lia).
      assert (DN : 2 ^ mb * 2 ^ (q - E1) = 2 ^ 52) by (rewrite <- Z.pow_add_r by lia; f_equal; lia).
      apply (rne_bounds (2 ^ 52 + m) (q - E1) (2 ^ mb) (2 ^ (mb + 1)) SH); lia. }
    destruct HR as [HR HB].
    assert (N : forall r', 0 <= r' -> Z.abs (magnitude eb mb r - (2 ^ 52 + m) * 2 ^ (e - 1)) <= Z.abs (magnitude eb mb r' - (2 ^ 52 + m) * 2 ^ (e - 1)) /\
      (Z.abs (magnitude eb mb r - (2 ^ 52 + m) * 2 ^ (e - 1)) = Z.abs (magnitude eb mb r' - (2 ^ 52 + m) * 2 ^ (e - 1)) -> r' = r \/ Z.even r = true)).
    { assert (PX : 0 < 2 ^ (E1 + 1074)) by (apply Z.pow_pos_nonneg; unfold E1; lia).
      apply (grid_near eb mb ltac:(lia) ltac:(lia) ltac:(lia) _ be R ltac:(unfold be; lia)).
      - exact HR.
      - exact HB.
      - rewrite X. apply Z.mul_nonneg_nonneg; lia.
      - destruct (Z.eq_dec be 1) as [|NB]; [now left|]. right. rewrite <- QB.
        assert (Q1 : q = E1 + 52 - mb) by (unfold q, be in *; lia).
        replace (mb + (q + 1074)) with (52 + (E1 + 1074)) by lia. rewrite Z.pow_add_r by (unfold E1; lia). rewrite X.
        apply Z.mul_le_mono_nonneg_r; lia.
      - intros k. rewrite <- QB, X. replace (q + 1074) with ((q - E1) + (E1 + 1074)) by lia. rewrite Z.pow_add_r by (unfold E1; lia).
        rewrite !Z.mul_assoc, <- !Z.mul_sub_distr_r, !Z.abs_mul.
        destruct (rne_near (2 ^ 52 + m) (q - E1) k ltac:(lia) SH) as [A B]. fold R in A, B. split.
        + apply Z.mul_le_mono_nonneg_r; [lia|exact A].
        + intros T. apply B. apply Z.mul_reg_r in T; lia. }
    assert (R0 : 0 <= r) by (unfold r, be; nia).
    destruct (round_ok eb mb ltac:(lia) ltac:(lia) ltac:(lia) s ((2 ^ 52 + m) * 2 ^ (e - 1)) r S ltac:(apply Z.mul_nonneg_nonneg; [lia|apply Z.pow_nonneg; lia]) R0 N) as [G1 G2].
    fold top in G1, G2. fold top. destruct (Z.leb_spec top r) as [L|L]; [exact (G1 L)|].
    destruct (G2 L) as [G3 G4]. split; [exact G4|]. split; [exact G3|].
    apply (finite_of eb mb ltac:(lia) ltac:(lia) ltac:(lia) s r S). fold top. lia.
Qed.
(** [widen] keeps the number *)
Theorem widen_exact : forall p, finite eb mb p -> finite 11 52 (widen eb mb p) /\ dbl (widen eb mb p) = number eb mb p /\
  negative 11 52 (widen eb mb p) = negative eb mb p.
Proof.
  intros p F. destruct (finite_inv eb mb ltac:(lia) ltac:(lia) ltac:(lia) p F) as (s & r & S & R & E).
  destruct (parts mb ltac:(lia) r ltac:(lia)) as (e & m & EE & M & ->).
  destruct (pe eb mb ltac:(lia) ltac:(lia) ltac:(lia)) as (P1 & P2 & P3 & P4 & P5). pose proof (pm mb ltac:(lia)) as PM.
  assert (EL : e < 2 ^ eb - 1) by nia.
  rewrite E. rewrite (number_of eb mb) by lia. rewrite (mag_at eb mb) by lia.
  destruct (finite_of eb mb ltac:(lia) ltac:(lia) ltac:(lia) s (e * 2 ^ mb + m) S R) as (_ & NG & MM). rewrite NG.
  assert (B9 : bias eb <= 511).
  { unfold bias. assert (2 ^ (eb - 1) <= 2 ^ 9) by (apply Z.pow_le_mono_r; lia). lia. }
  assert (W1 : (s * 2 ^ (eb + mb) + (e * 2 ^ mb + m)) / 2 ^ (eb + mb) = s).
  { symmetry. apply (Z.div_unique_pos _ _ _ (e * 2 ^ mb + m)); nia. }
  assert (W2 : (s * 2 ^ (eb + mb) + (e * 2 ^ mb + m)) / 2 ^ mb mod 2 ^ eb = e).
  { rewrite P3. replace ((s * (2 ^ eb * 2 ^ mb) + (e * 2 ^ mb + m)) / 2 ^ mb) with (s * 2 ^ eb + e) by (apply (Z.div_unique_pos _ _ _ m); lia).
    rewrite Z.add_comm, Z.mod_add by lia. apply Z.mod_small. lia. }
  assert (W3 : (s * 2 ^ (eb + mb) + (e * 2 ^ mb + m)) mod 2 ^ mb = m).
  { rewrite P3. symmetry. apply (Z.mod_unique_pos _ _ (s * 2 ^ eb + e)); lia. }
  unfold widen. rewrite W1, W2, W3. clear W1 W2 W3 MM NG E F.
  (* the double with the given fields *)
  assert (G : forall e' m', 0 <= e' < 2047 -> 0 <= m' < 2 ^ 52 ->
    let b := s * 2 ^ 63 + e' * 2 ^ 52 + m' in
    finite 11 52 b /\ negative 11 52 b = (s =? 1) /\ dbl b = (if s =? 1 then -1 else 1) * (if e' =? 0 then m' else (2 ^ 52 + m') * 2 ^ (e' - 1))).
  { intros e' m' E' M' b. unfold b. rewrite <- Z.add_assoc. change (2 ^ 63) with (2 ^ (11 + 52)).
    destruct (finite_of 11 52 ltac:(lia) ltac:(lia) ltac:(rewrite bias11; lia) s (e' * 2 ^ 52 + m') S ltac:(lia)) as (A1 & A2 & _).
    split; [exact A1|]. split; [exact A2|]. unfold dbl. rewrite (number_of 11 52) by (rewrite ?bias11; lia). f_equal.
    rewrite (mag_at 11 52) by (rewrite ?bias11; lia). rewrite bias11. replace (1 - 1023 - 52 + 1074) with 0 by lia.
    rewrite Z.add_0_l, Z.mul_1_r. reflexivity. }
  rewrite (proj2 (Z.eqb_neq e (2 ^ eb - 1))) by lia. destruct (Z.eqb_spec e 0) as [->|NE].
  - destruct (Z.eqb_spec m 0) as [->|NM].
    + destruct (G 0 0 ltac:(lia) ltac:(lia)) as (A1 & A2 & A3). cbv zeta in A1, A2, A3. rewrite Z.mul_0_l, !Z.add_0_r in A1, A2, A3.
      split; [exact A1|]. split; [|exact A2]. rewrite A3. f_equal.
    + set (k := Z.log2 m). pose proof (Z.log2_spec m ltac:(lia)) as LG. fold k in LG. rewrite Z.pow_succ_r in LG by apply Z.log2_nonneg.
      assert (K : 0 <= k < mb) by (split; [apply Z.log2_nonneg|apply Z.log2_lt_pow2; lia]).
      assert (PK : 2 ^ 52 = 2 ^ k * 2 ^ (52 - k) /\ 0 < 2 ^ k /\ 0 < 2 ^ (52 - k)).
      { rewrite <- Z.pow_add_r by lia. repeat split; try (apply Z.pow_pos_nonneg; lia). f_equal. lia. }
      destruct PK as (Q1 & Q2 & Q3). set (e' := k + 1 - bias eb - mb + 1023).
      destruct (G e' ((m - 2 ^ k) * 2 ^ (52 - k)) ltac:(unfold e'; lia) ltac:(nia)) as (A1 & A2 & A3). cbv zeta in A1, A2, A3.
      split; [exact A1|]. split; [|exact A2]. rewrite A3. f_equal. rewrite (proj2 (Z.eqb_neq e' 0)) by (unfold e'; lia).
      replace (2 ^ 52 + (m - 2 ^ k) * 2 ^ (52 - k)) with (m * 2 ^ (52 - k)) by nia.
      rewrite <- Z.mul_assoc, <- Z.pow_add_r by (unfold e'; lia). f_equal. f_equal. unfold e'. lia.
  - assert (PK : 2 ^ 52 = 2 ^ mb * 2 ^ (52 - mb) /\ 0 < 2 ^ (52 - mb)).
    { rewrite <- Z.pow_add_r by lia. split; [f_equal; lia|apply Z.pow_pos_nonneg; lia]. }
    destruct PK as (Q1 & Q2). set (e' := e - bias eb + 1023).
    destruct (G e' (m * 2 ^ (52 - mb)) ltac:(unfold e'; lia) ltac:(nia)) as (A1 & A2 & A3). cbv zeta in A1, A2, A3.
    split; [exact A1|]. split; [|exact A2]. rewrite A3. f_equal. rewrite (proj2 (Z.eqb_neq e' 0)) by (unfold e'; lia).
    replace (2 ^ 52 + m * 2 ^ (52 - mb)) with ((2 ^ mb + m) * 2 ^ (52 - mb)) by nia.
    rewrite <- Z.mul_assoc, <- Z.pow_add_r by (unfold e'; lia). f_equal. f_equal. unfold e'. lia.
Qed.
End Narrow.
(** integers become the nearest double *)
Theorem int_rounds : forall z,
  match double_of_int z with
  | Some b => nearest 11 52 (z * 2 ^ 1074) b /\ ~ too_large 11 52 (z * 2 ^ 1074)
  | None => too_large 11 52 (z * 2 ^ 1074)
  end.
Proof.
  intros z. set (U := 2 ^ 1074). assert (UP : 0 < U) by (apply Z.pow_pos_nonneg; lia).
  set (s := if z <? 0 then 1 else 0). assert (S : s = 0 \/ s = 1) by (unfold s; destruct (z <? 0); lia).
  assert (X : z * U = (if s =? 1 then -1 else 1) * (Z.abs z * U)) by (unfold s; destruct (Z.ltb_spec z 0); cbn [Z.eqb Pos.eqb]; [rewrite Z.abs_neq|rewrite Z.abs_eq]; lia).
  rewrite X. unfold double_of_int. destruct (Z.eqb_spec z 0) as [->|NZ].
  - assert (N : forall r', 0 <= r' -> Z.abs (magnitude 11 52 0 - Z.abs 0 * U) <= Z.abs (magnitude 11 52 r' - Z.abs 0 * U) /\
      (Z.abs (magnitude 11 52 0 - Z.abs 0 * U) = Z.abs (magnitude 11 52 r' - Z.abs 0 * U) -> r' = 0 \/ Z.even 0 = true)).
    { intros r' R'. split; [|now right]. change (magnitude 11 52 0) with 0. lia. }
    destruct (round_ok 11 52 ltac:(lia) ltac:(lia) ltac:(rewrite bias11; lia) s (Z.abs 0 * U) 0 S ltac:(lia) ltac:(lia) N) as [_ G].
    destruct (G ltac:(lia)) as [G1 G2]. split; [exact G2|exact G1].
  - set (k := Z.log2 (Z.abs z)). pose proof (Z.log2_spec (Z.abs z) ltac:(lia)) as LG. fold k in LG. rewrite Z.pow_succ_r in LG by apply Z.log2_nonneg.
    assert (K : 0 <= k) by apply Z.log2_nonneg.
    set (R := if k <=? 52 then Z.abs z * 2 ^ (52 - k) else rne (Z.abs z) (k - 52)). set (be := k + 1023). set (r := (be - 1) * 2 ^ 52 + R).
    replace ((k + 1023 - 1) * 2 ^ 52 + R) with r by (unfold r, be; lia).
    assert (HR : 2 ^ 52 <= R <= 2 ^ 53).
    { unfold R. destruct (Z.leb_spec k 52) as [L|L].
      - assert (2 ^ k * 2 ^ (52 - k) = 2 ^ 52) by (rewrite <- Z.pow_add_r by lia; f_equal; lia).
        assert (0 < 2 ^ (52 - k)) by (apply Z.pow_pos_nonneg; lia). nia.
      - assert (P : 2 ^ 52 * 2 ^ (k - 52) = 2 ^ k) by (rewrite <- Z.pow_add_r by lia; f_equal; lia).
        apply rne_bounds; lia. }
    assert (QE : 1 - bias 11 - 52 + 1074 + (be - 1) = k - 52 + 1074) by (rewrite bias11; unfold be; lia).
    assert (N : forall r', 0 <= r' -> Z.abs (magnitude 11 52 r - Z.abs z * U) <= Z.abs (magnitude 11 52 r' - Z.abs z * U) /\
      (Z.abs (magnitude 11 52 r - Z.abs z * U) = Z.abs (magnitude 11 52 r' - Z.abs z * U) -> r' = r \/ Z.even r = true)).
    { apply (grid_near 11 52 ltac:(lia) ltac:(lia) ltac:(rewrite bias11; lia) _ be R ltac:(unfold be; lia)).
      - change (2 ^ (52 + 1)) with (2 ^ 53). lia.
      - right. lia.
      - apply Z.mul_nonneg_nonneg; lia.
      - right. rewrite QE. replace (52 + (k - 52 + 1074)) with (k + 1074) by lia. rewrite Z.pow_add_r by lia. fold U.
        apply Z.mul_le_mono_nonneg_r; lia.
      - rewrite QE. intros j. unfold R. destruct (Z.leb_spec k 52) as [L|L].
        + rewrite <- Z.mul_assoc, <- Z.pow_add_r by lia. replace (52 - k + (k - 52 + 1074)) with 1074 by lia. fold U.
          rewrite Z.sub_diag. change (Z.abs 0) with 0. split; [lia|]. intros T. left.
          assert (T0 : j * 2 ^ (k - 52 + 1074) = Z.abs z * U) by lia.
          assert (UU : U = 2 ^ (52 - k) * 2 ^ (k - 52 + 1074)) by (rewrite <- Z.pow_add_r by lia; unfold U; f_equal; lia).
          rewrite UU, Z.mul_assoc in T0. apply Z.mul_reg_r in T0; [exact T0|]. apply Z.pow_nonzero; lia.
        + rewrite Z.pow_add_r by lia. fold U. rewrite !Z.mul_assoc, <- !Z.mul_sub_distr_r, !Z.abs_mul.
          destruct (rne_near (Z.abs z) (k - 52) j ltac:(lia) ltac:(lia)) as [A B]. split.
          * apply Z.mul_le_mono_nonneg_r; [lia|exact A].
          * intros T. apply B. apply Z.mul_reg_r in T; lia. }
    destruct (round_ok 11 52 ltac:(lia) ltac:(lia) ltac:(rewrite bias11; lia) s (Z.abs z * U) r S ltac:(apply Z.mul_nonneg_nonneg; lia) ltac:(unfold r, be; lia) N) as [G1 G2].
    change ((2 ^ 11 - 1) * 2 ^ 52) with (2047 * 2 ^ 52) in G1, G2.
    destruct (Z.leb_spec (2047 * 2 ^ 52) r) as [L|L]; [exact (G1 L)|].
    destruct (G2 L) as [G3 G4]. split; [|exact G3]. change (2 ^ (11 + 52)) with (2 ^ 63) in G4.
    replace ((if z <? 0 then 2 ^ 63 else 0) + r) with (s * 2 ^ 63 + r) by (unfold s; destruct (z <? 0); lia). exact G4.
Qed.
