(** The unpacking methods of Exec.v compute [dec], from every state. *)
From Verif Require Import Base Floats Value StructMod Format Ser Exec Pure BaseFacts StructFacts FormatFacts
  SerFacts RefPack.

Lemma blen_firstn : forall n (b : bytes), blen (firstn n b) = Z.min (Z.of_nat n) (blen b).
Proof. intros. unfold blen. rewrite firstn_length. lia. Qed.
Lemma blen_skipn : forall n (b : bytes), blen (skipn n b) = Z.max 0 (blen b - Z.of_nat n).
Proof. intros. unfold blen. rewrite skipn_length. lia. Qed.
Lemma skipn_min : forall n (b : bytes), skipn (Nat.min n (List.length b)) b = skipn n b.
Proof.
  intros n b. destruct (Nat.le_gt_cases n (List.length b)).
  - now rewrite Nat.min_l.
  - rewrite Nat.min_r, skipn_all by lia. symmetry. apply skipn_all2. lia.
Qed.
Lemma adv_adv : forall a b (l : bytes), 0 <= a -> 0 <= b -> adv b (adv a l) = adv (a + b) l.
Proof. intros a b l A B. unfold adv. rewrite skipn_skipn. f_equal. lia. Qed.
Lemma blen_adv : forall k b, 0 <= k -> blen (adv k b) = Z.max 0 (blen b - k).
Proof. intros. unfold adv. rewrite blen_skipn. lia. Qed.

(** the remaining input of a source *)
Definition suffix (s : src) (w : world) : bytes :=
  match s with
  | SBuf b => b
  | SFrom b off => skipn (Z.to_nat off) b
  | SRead => skipn (Z.to_nat (w_pos w)) (w_data w)
  end.
Definition srcok (s : src) (w : world) : Prop :=
  match s with
  | SBuf _ => True
  | SFrom b off => 0 <= off <= blen b
  | SRead => 0 <= w_pos w
  end.
Definition md_of (s : src) : umode := match s with SBuf _ => UBuf | SFrom _ _ => UFrom | SRead => URead end.

(** the stream position after [k] bytes are consumed *)
Definition posn (s : src) (k : Z) (w : world) : Z :=
  match s with SRead => w_pos w + Z.min k (blen (suffix s w)) | _ => w_pos w end.
Definition strict (s : src) (k : Z) (w : world) : Prop :=
  match s with SFrom _ _ => k <= blen (suffix s w) | _ => True end.

Lemma adv_src : forall s w w' k, srcok s w -> 0 <= k -> w_data w' = w_data w -> w_pos w' = posn s k w ->
  strict s k w -> srcok (ssub s k) w' /\ suffix (ssub s k) w' = adv k (suffix s w).
Proof.
  intros s w w' k OK K D P ST. unfold adv. destruct s; cbn in *.
  - split; [exact I|]. now apply py_from_skipn.
  - rewrite blen_skipn in ST. split; [lia|]. rewrite skipn_skipn. f_equal. lia.
  - rewrite P, D. pose proof (blen_nonneg (skipn (Z.to_nat (w_pos w)) (w_data w))).
    split; [lia|].
    set (B := skipn (Z.to_nat (w_pos w)) (w_data w)) in *.
    rewrite <- (skipn_min (Z.to_nat k) B). unfold B. rewrite skipn_skipn. f_equal. unfold blen. lia.
Qed.
Lemma ssub_ssub : forall s a b, 0 <= a -> 0 <= b -> ssub (ssub s a) b = ssub s (a + b).
Proof.
  intros [] a b' A B; cbn.
  - rewrite !py_from_skipn by lia. rewrite skipn_skipn. do 2 f_equal. lia.
  - now rewrite Z.add_assoc.
  - reflexivity.
Qed.
Lemma md_ssub : forall s k, md_of (ssub s k) = md_of s.
Proof. destruct s; reflexivity. Qed.
Lemma ssub_0 : forall s, ssub s 0 = s.
Proof.
  destruct s; cbn; try reflexivity.
  - now rewrite py_from_skipn by lia.
  - now rewrite Z.add_0_r.
Qed.

Section RefUnpack.
Variable hb : bool.
Variable ct : nat -> option cdef.
Variable allow : nat -> nat -> bool.
Variable T : nat -> nat -> bool.
Hypothesis COK : classes_ok ct allow T.
Variable md : umode.
Hypothesis CHU : classes_hu ct md.

Definition advw (s : src) (k : Z) (w : world) : world :=
  W (w_size w) (w_obj w) (w_buf w) (w_data w) (posn s k w).

Lemma world_eta : forall w, W (w_size w) (w_obj w) (w_buf w) (w_data w) (w_pos w) = w.
Proof. now destruct w. Qed.

Lemma st_unpack_short : forall m f b, (List.length b < calcsize m f)%nat ->
  st_unpack m f (firstn (calcsize m f) b) = Err StructError.
Proof.
  intros m f b H. unfold st_unpack. rewrite firstn_length, Nat.min_r by lia.
  destruct (Nat.eqb _ _) eqn:E; [apply Nat.eqb_eq in E; lia|reflexivity].
Qed.

Lemma take_struct_spec : forall st s w, srcok s w ->
  take_struct hb st s w = (dst hb st (suffix s w), advw s (ss_size hb st) w) /\
  (forall vs, dst hb st (suffix s w) = Ok vs -> ss_size hb st <= blen (suffix s w)).
Proof.
  intros st s w OK. split.
  - unfold take_struct, dst, advw, bind.
    assert (Z0 : 0 <= ss_size hb st) by (unfold ss_size; lia).
    destruct s; cbn [suffix posn].
    + cbn. rewrite world_eta. rewrite py_slice_nn by lia. rewrite Z.sub_0_r. cbn [Z.to_nat skipn].
      unfold lift. destruct (st_unpack _ _ _); reflexivity.
    + cbn in OK. rewrite world_eta.
      assert (E : st_unpack_from (ss_mode hb st) (s_fmt st) b off =
                  st_unpack (ss_mode hb st) (s_fmt st) (firstn (Z.to_nat (ss_size hb st)) (skipn (Z.to_nat off) b))).
      { unfold st_unpack_from, st_offset. destruct (off <? 0) eqn:Q; [lia|].
        unfold ss_size. rewrite Nat2Z.id.
        destruct (blen b - off <? Z.of_nat (calcsize (ss_mode hb st) (s_fmt st))) eqn:Q'.
        - rewrite st_unpack_short; [reflexivity|]. rewrite skipn_length. unfold blen in *. lia.
        - unfold st_unpack. rewrite firstn_length, skipn_length, Nat.min_l by (unfold blen in *; lia).
          now rewrite Nat.eqb_refl. }
      unfold lift. rewrite E. destruct (st_unpack _ _ _); reflexivity.
    + unfold io_read. destruct (ss_size hb st <? 0) eqn:Q; [lia|].
      rewrite blen_firstn, Z2Nat.id by lia. unfold lift.
      destruct (st_unpack _ _ _); reflexivity.
  - intros vs H. unfold dst, ss_size in *. rewrite Nat2Z.id in H.
    destruct (Z.le_gt_cases (Z.of_nat (calcsize (ss_mode hb st) (s_fmt st))) (blen (suffix s w))); [assumption|].
    rewrite st_unpack_short in H; [discriminate|]. unfold blen in *. lia.
Qed.
Lemma take_ostruct_spec : forall o s w, srcok s w ->
  take_ostruct hb o s w = (dost hb o (suffix s w), advw s (osize hb o) w) /\
  (forall vs, dost hb o (suffix s w) = Ok vs -> osize hb o <= blen (suffix s w)).
Proof.
  intros [st|] s w OK; [now apply take_struct_spec|]. cbn. split.
  - unfold ret, advw. f_equal. replace (posn s 0 w) with (w_pos w); [now rewrite world_eta|].
    unfold posn. pose proof (blen_nonneg (suffix s w)). destruct s; lia.
  - intros. apply blen_nonneg.
Qed.
Lemma osize_nonneg : forall o, 0 <= osize hb o.
Proof. destruct o; cbn; unfold ss_size; lia. Qed.

(** ** the specification of a call *)
Definition pos_spec (s : src) (w w' : world) (r : res Z) : Prop :=
  match r with
  | Ok k => 0 <= k /\ strict s k w /\ w_pos w' = posn s k w
  | Err _ => True
  end.
Definition uspec (c : nat) (x : ser) (r : res (list value * Z)) (s : src) (w : world)
  (out : res (list value) * world) : Prop :=
  fst out = rmap fst r /\
  w_buf (snd out) = w_buf w /\ w_data (snd out) = w_data w /\
  same_obj (sets T c x) w (snd out) /\
  pos_spec s w (snd out) (rmap snd r) /\
  (forall k, rmap snd r = Ok k -> szof hb x (snd out) = Ok k).

Definition urec_ok (rec : ser -> src -> M (list value)) (prec : ser -> pobj -> bytes -> res (list value * Z)) : Prop :=
  forall c x s w ctx, hc ct T c x = true -> hu md x = true -> md_of s = md ->
    p_cls ctx = c -> ready w x ctx -> srcok s w ->
    uspec c x (prec x ctx (suffix s w)) s w (rec x s w).

Section Step.
Variable rec : ser -> src -> M (list value).
Variable prec : ser -> pobj -> bytes -> res (list value * Z).
Hypothesis REC : urec_ok rec prec.

Definition useq (S : nat -> bool) (r : res (list value * Z)) (s : src) (size : Z) (w : world)
  (out : res (list value * Z) * world) : Prop :=
  fst out = rmap (fun p => (fst p, size + snd p)) r /\
  w_buf (snd out) = w_buf w /\ w_data (snd out) = w_data w /\
  same_obj S w (snd out) /\ pos_spec (ssub s size) w (snd out) (rmap snd r).

(** one call, then the rest *)
Lemma posn_comp : forall s w w1 w2 k1 k2, srcok s w -> 0 <= k1 -> 0 <= k2 -> w_data w1 = w_data w ->
  w_pos w1 = posn s k1 w -> strict s k1 w ->
  w_pos w2 = posn (ssub s k1) k2 w1 -> strict (ssub s k1) k2 w1 ->
  w_pos w2 = posn s (k1 + k2) w /\ strict s (k1 + k2) w.
Proof.
  intros s w w1 w2 k1 k2 OK K1 K2 D P1 S1 P2 S2.
  destruct (adv_src s w w1 k1 OK K1 D P1 S1) as [_ E].
  assert (LE : blen (suffix (ssub s k1) w1) = Z.max 0 (blen (suffix s w) - k1)).
  { rewrite E. now apply blen_adv. }
  pose proof (blen_nonneg (suffix s w)).
  destruct s; unfold posn, strict, ssub in *; try rewrite LE in *; split; try exact I; try congruence; try lia.
Qed.

Lemma ustep_seq : forall (S : nat -> bool) c x ctx s size w w1 B (rest : list value -> Z -> M (list value * Z))
    (rr : Z -> res (list value * Z)),
  hc ct T c x = true -> hu md x = true -> md_of s = md -> p_cls ctx = c -> ready w1 x ctx ->
  srcok (ssub s size) w -> suffix (ssub s size) w = B -> 0 <= size ->
  w_buf w1 = w_buf w -> w_data w1 = w_data w -> w_pos w1 = w_pos w ->
  same_obj S w w1 -> (forall id, sets T c x id = true -> S id = true) ->
  (forall a k w2, prec x ctx B = Ok (a, k) -> 0 <= k -> srcok (ssub s (size + k)) w2 ->
     suffix (ssub s (size + k)) w2 = adv k B -> same_obj S w w2 -> same_obj (sets T c x) w1 w2 ->
     exists out, rest a (size + k) w2 = (rmap (fun y => (a ++ fst y, snd y)) (fst out), snd out) /\
       useq S (rr k) s (size + k) w2 out) ->
  useq S (rdo (a, k) <- prec x ctx B; rdo (b, k') <- rr k; Ok (a ++ b, k + k')) s size w
    ((mdo a <- rec x (ssub s size); mdo z <- get_size hb x; rest a (size + z)) w1).
Proof.
  intros S c x ctx s size w w1 B rest rr HC HU HM HP HR OK HB HZ A1 A2 A3 SO SS HREST.
  assert (OK1 : srcok (ssub s size) w1) by (destruct s; cbn in *; rewrite ?A3; assumption).
  assert (HB1 : suffix (ssub s size) w1 = B) by (destruct s; cbn in *; rewrite ?A2, ?A3; assumption).
  unfold bind at 1.
  pose proof (REC c x (ssub s size) w1 ctx HC HU ltac:(now rewrite md_ssub) HP HR OK1) as Q.
  rewrite HB1 in Q. destruct Q as (I1 & I2 & I3 & I4 & I5 & I6).
  destruct (rec x (ssub s size) w1) as [x1 w2]. cbn [fst snd] in *. subst x1.
  destruct (prec x ctx B) as [[a k]|e]; cbn [rbind rmap fst snd] in *.
  - unfold bind. rewrite get_size_eq, (I6 k eq_refl).
    destruct I5 as (K0 & ST & PO).
    assert (ST' : strict (ssub s size) k w) by (destruct s; cbn in *; rewrite ?A2, ?A3 in *; assumption).
    assert (PO' : w_pos w2 = posn (ssub s size) k w)
      by (destruct s; cbn in *; rewrite ?A2, ?A3 in *; congruence).
    assert (D2 : w_data w2 = w_data w) by congruence.
    destruct (adv_src (ssub s size) w w2 k OK K0 D2 PO' ST') as [OK2 SU2].
    rewrite ssub_ssub in OK2, SU2 by assumption. rewrite HB in SU2.
    assert (SO2 : same_obj S w w2).
    { eapply same_obj_trans; [exact SO|]. eapply same_obj_weak; [|exact I4]. assumption. }
    destruct (HREST a k w2 eq_refl K0 OK2 SU2 SO2 I4) as ([x2 w3] & E & (J1 & J2 & J3 & J4 & J5)).
    rewrite E. cbn [fst snd] in *. subst x2.
    split; [|split; [|split; [|split]]]; cbn [fst snd].
    + destruct (rr k) as [[b k']|]; cbn; [|reflexivity]. do 2 f_equal. lia.
    + congruence.
    + congruence.
    + eapply same_obj_trans; eauto.
    + destruct (rr k) as [[b k']|]; cbn in *; [|exact I]. destruct J5 as (K1 & ST1 & P1).
      rewrite <- ssub_ssub in P1, ST1 by assumption.
      destruct (posn_comp (ssub s size) w w2 w3 k k' OK K0 K1 D2 PO' ST' P1 ST1) as [X Y].
      split; [lia|]. split; assumption.
  - split; [|split; [|split; [|split]]]; cbn [fst snd]; try congruence.
    + reflexivity.
    + eapply same_obj_trans; [exact SO|]. eapply same_obj_weak; [|exact I4]. assumption.
    + exact I.
Qed.

Lemma unpack_subs_spec : forall subs pre ctx s size w c B,
  forallb (hc ct T c) subs = true -> forallb (hu md) subs = true -> md_of s = md ->
  p_cls (octx pre ctx) = c -> (pre = None -> existsb needs_pre subs = false) ->
  srcok (ssub s size) w -> suffix (ssub s size) w = B -> 0 <= size ->
  useq (any_sets T c subs) (dec_subs prec pre ctx subs B) s size w (unpack_subs hb rec pre subs s size w).
Proof.
  induction subs as [|x subs IH]; intros pre ctx s size w c B HC HU HM HP HPre OK HB HZ.
  - cbn. split; [|split; [|split; [|split]]]; cbn; try reflexivity.
    + now rewrite Z.add_0_r.
    + now apply same_obj_refl.
    + split; [lia|]. pose proof (blen_nonneg (suffix (ssub s size) w)). destruct s; cbn in *; split;
        try exact I; try reflexivity; try assumption; lia.
  - cbn [forallb] in HC, HU. apply andb_prop in HC as [HC1 HC2]. apply andb_prop in HU as [HU1 HU2].
    cbn [dec_subs unpack_subs].
    assert (MAIN : forall x' w1, hc ct T c x' = true -> hu md x' = true -> ready w1 x' (octx pre ctx) ->
      w_buf w1 = w_buf w -> w_data w1 = w_data w -> w_pos w1 = w_pos w ->
      same_obj (owns x) w w1 -> (forall id, sets T c x' id = true -> sets T c x id = true) ->
      useq (any_sets T c (x :: subs))
        (rdo (vs, k) <- prec x' (octx pre ctx) B;
         rdo (rest, k') <- dec_subs prec pre ctx subs (adv k B); Ok (vs ++ rest, k + k')) s size w
        ((mdo vs <- rec x' (ssub s size); mdo z <- get_size hb x';
          mdo (rest, size') <- unpack_subs hb rec pre subs s (size + z); ret (vs ++ rest, size')) w1)).
    { intros x' w1 C1 N1 R1 A1 A2 A3 S1 SS1.
      eapply (ustep_seq (any_sets T c (x :: subs)) c x' (octx pre ctx) s size w w1 B
         (fun vs sz => mdo (rest, size') <- unpack_subs hb rec pre subs s sz; ret (vs ++ rest, size'))
         (fun k => dec_subs prec pre ctx subs (adv k B))); eauto.
      - eapply same_obj_weak; [|exact S1]. intros id E. unfold any_sets. cbn. rewrite E. reflexivity.
      - intros id E. unfold any_sets. cbn. rewrite (SS1 _ E), orb_true_r. reflexivity.
      - intros a k w2 E1 K0 OK2 SU2 SO2 _.
        assert (HPre2 : pre = None -> existsb needs_pre subs = false).
        { intros E. apply HPre in E. cbn in E. now apply orb_false_elim in E. }
        specialize (IH pre ctx s (size + k) w2 c _ HC2 HU2 HM HP HPre2 OK2 SU2 ltac:(lia)).
        exists (unpack_subs hb rec pre subs s (size + k) w2). split.
        + unfold bind. destruct (unpack_subs _ _ _ _ _ _ _) as [[[y z]|e] w3]; reflexivity.
        + destruct IH as (J1 & J2 & J3 & J4 & J5). repeat (split; [assumption|]). split; [|assumption].
          eapply same_obj_weak; [|exact J4]. intros id E. unfold any_sets in *. cbn. rewrite E.
          apply orb_true_r. }
    destruct pre as [o|]; cbn [oresolve].
    + destruct (prep_spec ct T false x o w c HC1 HP) as (w1 & E & A1 & A2 & A3 & A4 & S1 & Q).
      unfold bind at 1. rewrite E.
      destruct (resolve false x o) as [x'|e]; cbn [rbind].
      * destruct (Q x' eq_refl) as (Q1 & Q2 & Q3 & Q4 & Q5 & Q6 & Q7). apply MAIN; auto.
      * split; [|split; [|split; [|split]]]; cbn; try congruence.
        -- eapply same_obj_weak; [|exact S1]. intros id E'. unfold any_sets. cbn. rewrite E'. reflexivity.
        -- exact I.
    + unfold bind at 1, ret at 1. cbn [rbind]. apply MAIN; auto.
      * specialize (HPre eq_refl). cbn in HPre. apply orb_false_elim in HPre as [N _].
        destruct x; cbn in *; try discriminate; exact I.
      * now apply same_obj_refl.
Qed.

Lemma unpack_items_spec : forall n item ctx s size w c B,
  hc ct T c item = true -> hu md item = true -> md_of s = md -> p_cls ctx = c ->
  ready w item ctx -> (forall i, own item = Some i -> sets T c item i = false) ->
  srcok (ssub s size) w -> suffix (ssub s size) w = B -> 0 <= size ->
  useq (sets T c item) (dec_items prec item ctx n B) s size w (unpack_items hb rec item s n size w).
Proof.
  induction n as [|n IH]; intros item ctx s size w c B HC HU HM HP HR HO OK HB HZ.
  - cbn. split; [|split; [|split; [|split]]]; cbn; try reflexivity.
    + now rewrite Z.add_0_r.
    + now apply same_obj_refl.
    + split; [lia|]. pose proof (blen_nonneg (suffix (ssub s size) w)). destruct s; cbn in *; split;
        try exact I; try reflexivity; try assumption; lia.
  - cbn [dec_items unpack_items].
    eapply (ustep_seq (sets T c item) c item ctx s size w w B
         (fun vs sz => mdo (rest, size') <- unpack_items hb rec item s n sz; ret (vs ++ rest, size'))
         (fun k => dec_items prec item ctx n (adv k B))); eauto.
    + now apply same_obj_refl.
    + intros a k w2 E1 K0 OK2 SU2 SO2 SO3.
      assert (R2 : ready w2 item ctx).
      { destruct item; cbn in *; try assumption; rewrite SO3 by (apply HO; reflexivity); assumption. }
      specialize (IH item ctx s (size + k) w2 c _ HC HU HM HP R2 HO OK2 SU2 ltac:(lia)).
      exists (unpack_items hb rec item s n (size + k) w2). split; [|assumption].
      unfold bind. destruct (unpack_items _ _ _ _ _ _ _) as [[[y z]|e] w3]; reflexivity.
Qed.

Definition fseq (S : nat -> bool) (rd : res (list string * Z) * list (string * value)) (s : src) (size : Z) (w : world)
  (out : res (list string * Z) * list (string * value) * world) : Prop :=
  fst (fst out) = rmap (fun p => (fst p, size + snd p)) (fst rd) /\ snd (fst out) = snd rd /\
  w_buf (snd out) = w_buf w /\ w_data (snd out) = w_data w /\
  same_obj S w (snd out) /\ pos_spec (ssub s size) w (snd out) (rmap snd (fst rd)).

Lemma fill_subs_spec : forall subs pre ctx s size w c B names d,
  forallb (hc ct T c) subs = true -> forallb (hu md) subs = true -> md_of s = md ->
  p_cls (octx pre ctx) = c -> (pre = None -> existsb needs_pre subs = false) ->
  srcok (ssub s size) w -> suffix (ssub s size) w = B -> 0 <= size ->
  fseq (any_sets T c subs) (dfill_subs prec pre ctx subs B names d) s size w
       (fill_subs hb rec pre subs s size names d w).
Proof.
  induction subs as [|x subs IH]; intros pre ctx s size w c B names d HC HU HM HP HPre OK HB HZ.
  - unfold fseq. cbn [dfill_subs fill_subs fst snd rmap]. rewrite Z.add_0_r. split; [reflexivity|].
    split; [reflexivity|]. split; [reflexivity|]. split; [reflexivity|].
    split; [now apply same_obj_refl|]. cbn.
    split; [lia|]. pose proof (blen_nonneg (suffix (ssub s size) w)). destruct s; cbn in *; split;
        try exact I; try reflexivity; try assumption; lia.
  - cbn [forallb] in HC, HU. apply andb_prop in HC as [HC1 HC2]. apply andb_prop in HU as [HU1 HU2].
    cbn [dfill_subs fill_subs].
    set (pre' := option_map (fun o => PO (p_cls o) (p_proxy o) d) pre).
    assert (HP' : p_cls (octx pre' ctx) = c) by (destruct pre; cbn in *; assumption).
    (* the call *)
    set (RUN := (mdo x' <- _; mdo vs <- rec x' (ssub s size); ret (x', vs)) w).
    assert (CALL : exists w2,
      fst RUN = (rdo x' <- oresolve false pre' x; rdo (vs, k) <- prec x' (octx pre' ctx) B; Ok (x', vs)) /\
      w2 = snd RUN /\ w_buf w2 = w_buf w /\ w_data w2 = w_data w /\
      same_obj (any_sets T c [x]) w w2 /\
      forall x' vs k, oresolve false pre' x = Ok x' -> prec x' (octx pre' ctx) B = Ok (vs, k) ->
        0 <= k /\ strict (ssub s size) k w /\ w_pos w2 = posn (ssub s size) k w /\ szof hb x' w2 = Ok k).
    { assert (CORE2 : forall x' w1, hc ct T c x' = true -> hu md x' = true -> ready w1 x' (octx pre' ctx) ->
        w_buf w1 = w_buf w -> w_data w1 = w_data w -> w_pos w1 = w_pos w ->
        uspec c x' (prec x' (octx pre' ctx) B) (ssub s size) w1 (rec x' (ssub s size) w1) /\
        (forall k, strict (ssub s size) k w1 -> strict (ssub s size) k w) /\
        (forall k, posn (ssub s size) k w1 = posn (ssub s size) k w)).
      { intros x' w1 C1 U1 R1 A1 A2 A3. split.
        - assert (OK1 : srcok (ssub s size) w1) by (destruct s; cbn in *; rewrite ?A3; assumption).
          assert (HB1 : suffix (ssub s size) w1 = B) by (destruct s; cbn in *; rewrite ?A2, ?A3; assumption).
          pose proof (REC c x' (ssub s size) w1 _ C1 U1 ltac:(now rewrite md_ssub) HP' R1 OK1) as Q.
          rewrite HB1 in Q. exact Q.
        - split; intros k; destruct s; cbn; rewrite ?A2, ?A3; auto. }
      assert (GO : exists w1, (match pre with Some o => prep false x (PO (p_cls o) (p_proxy o) d) | None => ret x end) w
          = (oresolve false pre' x, w1) /\
          w_buf w1 = w_buf w /\ w_data w1 = w_data w /\ w_pos w1 = w_pos w /\ same_obj (owns x) w w1 /\
          forall x', oresolve false pre' x = Ok x' -> hc ct T c x' = true /\ hu md x' = true /\
            ready w1 x' (octx pre' ctx) /\ (forall id, sets T c x' id = true -> sets T c x id = true)).
      { destruct pre as [o|]; cbn in *.
        - destruct (prep_spec ct T false x (PO (p_cls o) (p_proxy o) d) w c HC1 HP) as (w1 & E & A1 & A2 & A3 & A4 & S1 & Q).
          exists w1. repeat (split; [assumption|]). intros x' E'.
          destruct (Q x' E') as (Q1 & Q2 & Q3 & Q4 & Q5 & Q6 & Q7). auto.
        - exists w. repeat (split; [reflexivity|]). split; [now apply same_obj_refl|].
          intros x' E. injection E as <-. repeat (split; [assumption|]). split; [|auto].
          specialize (HPre eq_refl). apply orb_false_elim in HPre as [N _].
          destruct x; cbn in *; try discriminate; exact I. }
      destruct GO as (w1 & E & A1 & A2 & A3 & S1 & Q).
      unfold RUN, bind. rewrite E. exists (snd RUN). unfold RUN, bind. rewrite E.
      destruct (oresolve false pre' x) as [x'|e]; cbn [rbind].
      - destruct (Q x' eq_refl) as (Q1 & Q2 & Q3 & Q4).
        destruct (CORE2 x' w1 Q1 Q2 Q3 A1 A2 A3) as ((I1 & I2 & I3 & I4 & I5 & I6) & I7 & I8).
        destruct (rec x' (ssub s size) w1) as [x1 w2]. cbn [fst snd] in *. subst x1.
        assert (SO : same_obj (any_sets T c [x]) w w2).
        { eapply same_obj_trans.
          - eapply same_obj_weak; [|exact S1]. intros id X. unfold any_sets. cbn. rewrite X. reflexivity.
          - eapply same_obj_weak; [|exact I4]. intros id X. unfold any_sets. cbn. rewrite (Q4 _ X), orb_true_r.
            reflexivity. }
        destruct (prec x' (octx pre' ctx) B) as [[vs k]|e] eqn:PE; cbn [rbind rmap fst snd] in *.
        + cbn [ret snd fst]. split; [reflexivity|]. split; [reflexivity|]. split; [congruence|].
          split; [congruence|]. split; [exact SO|].
          intros x'' vs'' k'' E1 E2. injection E1 as <-. rewrite PE in E2. injection E2 as <- <-.
          destruct I5 as (J1 & J2 & J3). cbn.
          split; [assumption|]. split; [now apply I7|]. split; [now rewrite <- I8|]. apply I6. reflexivity.
        + cbn [ret snd fst]. split; [reflexivity|]. split; [reflexivity|]. split; [congruence|].
          split; [congruence|]. split; [exact SO|].
          intros x'' vs'' k'' E1 E2. injection E1 as <-. congruence.
      - cbn. split; [reflexivity|]. split; [reflexivity|]. split; [congruence|].
        split; [congruence|]. split; [|discriminate].
        eapply same_obj_weak; [|exact S1]. intros id X. unfold any_sets. cbn. rewrite X. reflexivity. }
    destruct CALL as (w2 & C1 & C2 & C3 & C4 & C5 & C6).
    assert (SW : forall w', same_obj (any_sets T c [x]) w w' -> same_obj (any_sets T c (x :: subs)) w w').
    { intros w'. apply same_obj_weak. intros id X. unfold any_sets in *. cbn in *. rewrite orb_false_r in X.
      rewrite X. reflexivity. }
    replace RUN with (fst RUN, w2) by (rewrite C2; now destruct RUN).
    rewrite C1. clear C1 C2.
    destruct (oresolve false pre' x) as [x'|e]; cbn [rbind].
    2:{ unfold fseq. cbn. split; [reflexivity|]. split; [reflexivity|]. split; [congruence|].
        split; [congruence|]. split; [auto|exact I]. }
    destruct (prec x' (octx pre' ctx) B) as [[vs k]|e] eqn:PE; cbn [rbind].
    2:{ unfold fseq. cbn. split; [reflexivity|]. split; [reflexivity|]. split; [congruence|].
        split; [congruence|]. split; [auto|exact I]. }
    destruct (C6 x' vs k eq_refl PE) as (K0 & ST & PO' & SZ).
    destruct (assign names vs d) as [[names'|] d'].
    2:{ unfold fseq. cbn. split; [reflexivity|]. split; [reflexivity|]. split; [congruence|].
        split; [congruence|]. split; [auto|exact I]. }
    rewrite get_size_eq, SZ.
    destruct (adv_src (ssub s size) w w2 k OK K0 C4 PO' ST) as [OK2 SU2].
    rewrite ssub_ssub in OK2, SU2 by assumption. rewrite HB in SU2.
    assert (HPre2 : pre = None -> existsb needs_pre subs = false).
    { intros E. apply HPre in E. cbn in E. now apply orb_false_elim in E. }
    specialize (IH pre ctx s (size + k) w2 c _ names' d' HC2 HU2 HM HP HPre2 OK2 SU2 ltac:(lia)).
    destruct IH as (J1 & J2 & J3 & J4 & J5 & J6).
    destruct (dfill_subs prec pre ctx subs (adv k B) names' d') as [r d''].
    destruct (fill_subs hb rec pre subs s (size + k) names' d' w2) as [[x2 d2] w3].
    cbn [fst snd] in *. subst x2 d2.
    unfold fseq. cbn [fst snd]. split; [|split; [|split; [|split; [|split]]]]; try congruence.
    + destruct r as [[a b]|]; cbn; [|reflexivity]. do 2 f_equal. lia.
    + eapply same_obj_trans; [apply SW; exact C5|]. eapply same_obj_weak; [|exact J5].
      intros id E. unfold any_sets in *. cbn. rewrite E. apply orb_true_r.
    + destruct r as [[a b]|]; cbn in *; [|exact I]. destruct J6 as (K1 & ST1 & P1).
      rewrite <- ssub_ssub in P1, ST1 by assumption.
      destruct (posn_comp (ssub s size) w w2 w3 k b OK K0 K1 C4 PO' ST P1 ST1) as [X Y].
      split; [lia|]. split; assumption.
Qed.

Definition fspec (S : nat -> bool) (x : ser) (rd : res Z * list (string * value)) (s : src) (w : world)
  (out : res unit * list (string * value) * world) : Prop :=
  fst (fst out) = rmap (fun _ => tt) (fst rd) /\ snd (fst out) = snd rd /\
  w_buf (snd out) = w_buf w /\ w_data (snd out) = w_data w /\
  same_obj S w (snd out) /\ pos_spec s w (snd out) (fst rd) /\
  (forall k, fst rd = Ok k -> szof hb x (snd out) = Ok k).

Local Ltac five := split; [reflexivity|split; [reflexivity|split; [assumption|split; [assumption|split; [assumption|]]]]].

Lemma fill_spec : forall x ctx s w c names d,
  hc ct T c x = true -> hu md x = true -> md_of s = md -> p_cls ctx = c -> ready w x ctx -> srcok s w ->
  fspec (sets T c x) x (dfill prec x ctx (suffix s w) names d) s w (fill hb rec x s names d w).
Proof.
  intros x ctx s w c names d HC HU HM HP HR OK.
  assert (COMP : forall id subs pre rd' out',
     rd' = dfill_subs prec pre ctx subs (suffix s w) names d -> out' = fill_subs hb rec pre subs s 0 names d w ->
     fseq (any_sets T c subs) rd' s 0 w out' -> forall y, (forall w0, szof hb y w0 = Ok (w_size w0 id)) ->
     fspec (any_sets T c subs) y
       (match rd' with
        | (Err e, d') => (Err e, d')
        | (Ok (names', k), d') => (match names' with [] => Ok k | _ => Err ValueError end, d')
        end) s w
       (match out' with
        | (Err e, d', w') => (Err e, d', w')
        | (Ok (names', size), d', w') =>
            match names' with
            | [] => (Ok tt, d', snd (set_size id size w'))
            | _ => (Err ValueError, d', snd (set_size id size w'))
            end
        end)).
  { intros id subs pre [r d'] [[x2 d2] w2] _ _ (J1 & J2 & J3 & J4 & J5 & J6) y SZ. cbn [fst snd] in *. subst x2 d2.
    rewrite ssub_0 in J6.
    destruct r as [[names' k]|e]; cbn [rmap fst snd] in *.
    - rewrite Z.add_0_l. destruct names'; unfold fspec; cbn [fst snd rmap];
        five.
      + split.
        * destruct J6 as (K1 & K2 & K3). cbn. auto.
        * intros k' E. injection E as <-. rewrite SZ. cbn. unfold upd. now rewrite Nat.eqb_refl.
      + split; [exact I|discriminate].
    - unfold fspec; cbn [fst snd rmap]. five. split; [exact I|discriminate]. }
  assert (OTHER : 
    fspec (sets T c x) x
      (match prec x ctx (suffix s w) with
       | Err e => (Err e, d)
       | Ok (vs, k) =>
           match assign names vs d with
           | (None, d') => (Err ValueError, d')
           | (Some names', d') => (match names' with [] => Ok k | _ => Err ValueError end, d')
           end
       end) s w
      (match rec x s w with
       | (Err e, w') => (Err e, d, w')
       | (Ok vs, w') =>
           match assign names vs d with
           | (None, d') => (Err ValueError, d', w')
           | (Some names', d') =>
               match names' with [] => (Ok tt, d', w') | _ => (Err ValueError, d', w') end
           end
       end)).
  { destruct (REC c x s w ctx HC HU HM HP HR OK) as (I1 & I2 & I3 & I4 & I5 & I6).
    destruct (rec x s w) as [x1 w2]. cbn [fst snd] in *. subst x1.
    destruct (prec x ctx (suffix s w)) as [[vs k]|e]; cbn [rmap fst snd] in *.
    - destruct (assign names vs d) as [[names'|] d'].
      + destruct names'; unfold fspec; cbn [fst snd rmap]; five.
        * split; [assumption|]. intros k' E. injection E as <-. now apply I6.
        * split; [exact I|discriminate].
      + unfold fspec; cbn [fst snd rmap]; five.
        split; [exact I|discriminate].
    - unfold fspec; cbn [fst snd rmap]; five.
      split; [exact I|discriminate]. }
  destruct x; try exact OTHER; clear OTHER.
  - cbn in HR, HC, HU.
    apply (COMP id subs None _ _ eq_refl eq_refl); [|reflexivity].
    apply (fill_subs_spec subs None ctx s 0 w c (suffix s w) names d HC HU HM HP (fun _ => HR));
      rewrite ?ssub_0; auto. lia.
  - cbn in HR, HC, HU. apply andb_prop in HC as [HCo HC]. apply Nat.eqb_eq in HCo.
    apply (COMP id subs (Some ctx0) _ _ eq_refl eq_refl); [|reflexivity].
    apply (fill_subs_spec subs (Some ctx0) ctx s 0 w c (suffix s w) names d HC HU HM HCo ltac:(discriminate));
      rewrite ?ssub_0; auto. lia.
Qed.

Lemma create_spec : forall c s w, md_of s = md -> srcok s w ->
  let r := dcreate_step ct prec c (suffix s w) in
  let out := create_step hb ct rec c s w in
  fst out = rmap fst r /\ w_buf (snd out) = w_buf w /\ w_data (snd out) = w_data w /\
  same_obj (T c) w (snd out) /\ pos_spec s w (snd out) (rmap snd r) /\
  (forall k, csized ct c = true -> rmap snd r = Ok k -> obj_size hb ct c None (snd out) = (Ok k, snd out)).
Proof.
  intros c s w HM OK. unfold dcreate_step, create_step. cbv zeta.
  destruct (ct c) as [cd|] eqn:CT.
  2:{ cbn. repeat (split; [reflexivity|]). split; [now apply same_obj_refl|]. split; [exact I|discriminate]. }
  destruct (proj1 COK _ _ CT) as [HC HT].
  destruct (prep_spec ct T false (c_ser cd) (PO c true []) w c HC eq_refl) as (w1 & E & A1 & A2 & A3 & A4 & S1 & Q).
  rewrite E.
  assert (S1' : same_obj (T c) w w1).
  { eapply same_obj_weak; [|exact S1]. intros id O. apply HT. rewrite O. reflexivity. }
  destruct (resolve false (c_ser cd) (PO c true [])) as [x|e] eqn:RS; cbn [rbind].
  2:{ cbn. split; [reflexivity|]. split; [assumption|]. split; [assumption|].
      split; [assumption|]. split; [exact I|discriminate]. }
  destruct (Q x eq_refl) as (Q1 & Q2 & Q3 & Q4 & Q5 & Q6 & Q7).
  assert (OK1 : srcok s w1) by (destruct s; cbn in *; rewrite ?A3; assumption).
  assert (HB1 : suffix s w1 = suffix s w) by (destruct s; cbn in *; rewrite ?A2, ?A3; reflexivity).
  pose proof (fill_spec x (PO c true []) s w1 c (c_attrs cd) [] Q1 (Q6 md (CHU _ _ CT)) HM eq_refl Q2 OK1) as F.
  rewrite HB1 in F. destruct F as (J1 & J2 & J3 & J4 & J5 & J6 & J7).
  destruct (dfill prec x (PO c true []) (suffix s w) (c_attrs cd) []) as [r d].
  destruct (fill hb rec x s (c_attrs cd) [] w1) as [[x2 d2] w2]. cbn [fst snd] in *. subst x2 d2.
  assert (SO : same_obj (T c) w w2).
  { eapply same_obj_trans; [exact S1'|]. eapply same_obj_weak; [|exact J5].
    intros id O. apply HT. rewrite (Q3 _ O). apply orb_true_r. }
  destruct r as [k|e]; cbn [rmap].
  - destruct J6 as (K1 & K2 & K3).
    split; [cbn; destruct (get_attrs (c_attrs cd) d); reflexivity|].
    split; [cbn; congruence|]. split; [cbn; congruence|]. split; [exact SO|]. split.
    + destruct (get_attrs (c_attrs cd) d); cbn; [|exact I]. split; [assumption|].
      split; destruct s; cbn in *; rewrite ?A2, ?A3 in *; assumption.
    + intros k' CS X. destruct (get_attrs (c_attrs cd) d) as [vs|]; cbn [rmap snd] in *; [|discriminate].
      injection X as <-. unfold obj_size. rewrite CT. cbn [obj_ser]. rewrite get_size_eq.
      unfold csized in CS. rewrite CT in CS.
      rewrite (resolve_szof hb _ _ _ _ w2 RS CS), (J7 k eq_refl). reflexivity.
  - cbn. split; [reflexivity|]. split; [congruence|]. split; [congruence|]. split; [exact SO|].
    split; [exact I|discriminate].
Qed.

Lemma refill_spec : forall c ov d s w, md_of s = md -> srcok s w ->
  let rd := drefill_step ct prec c ov d (suffix s w) in
  let out := refill_step hb ct rec c ov d s w in
  fst (fst out) = rmap (fun _ => tt) (fst rd) /\ snd (fst out) = snd rd /\
  w_buf (snd out) = w_buf w /\ w_data (snd out) = w_data w /\
  same_obj (T c) w (snd out) /\ pos_spec s w (snd out) (fst rd) /\
  (forall k, csized ct c = true -> fst rd = Ok k -> obj_size hb ct c ov (snd out) = (Ok k, snd out)).
Proof.
  intros c ov d s w HM OK. unfold drefill_step, refill_step. cbv zeta.
  destruct (ct c) as [cd|] eqn:CT.
  2:{ cbn. repeat (split; [reflexivity|]). split; [now apply same_obj_refl|]. split; [exact I|discriminate]. }
  pose proof (obj_ser_hc ct allow T COK c cd ov CT) as HC.
  assert (HT : forall id, owns (obj_ser cd ov) id || sets T c (obj_ser cd ov) id = true -> T c id = true).
  { intros id. eapply obj_ser_T; eauto. }
  assert (HU : hu md (obj_ser cd ov) = true).
  { destruct ov; cbn; [apply wb_hu|]; exact (CHU _ _ CT). }
  destruct (prep_spec ct T false (obj_ser cd ov) (PO c false d) w c HC eq_refl) as (w1 & E & A1 & A2 & A3 & A4 & S1 & Q).
  rewrite E.
  assert (S1' : same_obj (T c) w w1).
  { eapply same_obj_weak; [|exact S1]. intros id O. apply HT. rewrite O. reflexivity. }
  destruct (resolve false (obj_ser cd ov) (PO c false d)) as [x|e] eqn:RS; cbn [rbind].
  2:{ cbn. split; [reflexivity|]. split; [reflexivity|]. split; [assumption|]. split; [assumption|].
      split; [assumption|]. split; [exact I|discriminate]. }
  destruct (Q x eq_refl) as (Q1 & Q2 & Q3 & Q4 & Q5 & Q6 & Q7).
  assert (OK1 : srcok s w1) by (destruct s; cbn in *; rewrite ?A3; assumption).
  assert (HB1 : suffix s w1 = suffix s w) by (destruct s; cbn in *; rewrite ?A2, ?A3; reflexivity).
  pose proof (fill_spec x (PO c false d) s w1 c (c_attrs cd) d Q1 (Q6 md HU) HM eq_refl Q2 OK1) as F.
  rewrite HB1 in F. destruct F as (J1 & J2 & J3 & J4 & J5 & J6 & J7).
  destruct (dfill prec x (PO c false d) (suffix s w) (c_attrs cd) d) as [r d'].
  destruct (fill hb rec x s (c_attrs cd) d w1) as [[x2 d2] w2]. cbn [fst snd] in *. subst x2 d2.
  split; [reflexivity|]. split; [reflexivity|]. split; [congruence|]. split; [congruence|]. split; [|split].
  - eapply same_obj_trans; [exact S1'|]. eapply same_obj_weak; [|exact J5].
    intros id O. apply HT. rewrite (Q3 _ O). apply orb_true_r.
  - destruct r; cbn in *; [|exact I]. destruct J6 as (K1 & K2 & K3). split; [assumption|].
    split; destruct s; cbn in *; rewrite ?A2, ?A3 in *; assumption.
  - intros k CS X. unfold obj_size. rewrite CT, get_size_eq.
    unfold csized in CS. rewrite CT in CS.
    rewrite (resolve_szof hb _ _ _ _ w2 RS), (J7 k X); [reflexivity|].
    destruct ov; cbn; [now rewrite wb_sized|assumption].
Qed.

(** ** leaves *)
Lemma uint1_dst : forall st b cs, uint1 st = true -> dst hb st b = Ok cs ->
  exists z, cs = [VInt z] /\ 0 <= z.
Proof.
  intros [bo f act] b cs U D. unfold uint1 in U. cbn in U.
  destruct f as [|t [|]]; try discriminate. destruct act; try discriminate.
  apply andb_prop in U as [C U]. apply Nat.eqb_eq in C.
  unfold dst in D. cbn [s_fmt] in D. unfold st_unpack in D.
  destruct (Nat.eqb _ _); [|discriminate]. cbn [rbind ss_act s_act] in D. injection D as <-.
  unfold expand. cbn [flat_map]. rewrite app_nil_r. unfold expand_tok.
  destruct t as [n cd]. cbn [t_code t_cnt] in *. rewrite C.
  destruct cd; cbn in U; try discriminate; cbn [repeat unpack_u]; unfold unpack_val; cbn [int_code];
    eexists; (split; [reflexivity|]); apply int_dec_range.
Qed.

Lemma uspec_mk : forall c x r s w sz' p' out,
  out = (rmap fst r, W sz' (w_obj w) (w_buf w) (w_data w) p') ->
  (forall vs k, r = Ok (vs, k) -> 0 <= k /\ strict s k w /\ p' = posn s k w /\
     szof hb x (W sz' (w_obj w) (w_buf w) (w_data w) p') = Ok k) ->
  uspec c x r s w out.
Proof.
  intros c x r s w sz' p' out -> H. unfold uspec. cbn [fst snd w_buf w_data].
  split; [reflexivity|]. split; [reflexivity|]. split; [reflexivity|]. split; [now apply same_obj_refl|].
  destruct r as [[vs k]|e]; cbn.
  - destruct (H vs k eq_refl) as (A & B & C & D). split; [auto|]. intros k' E. now injection E as <-.
  - split; [exact I|discriminate].
Qed.
Lemma uspec_err : forall c x e s w w', w_obj w' = w_obj w -> w_buf w' = w_buf w -> w_data w' = w_data w ->
  uspec c x (Err e) s w (Err e, w').
Proof.
  intros c x e s w [a b c' d p] E1 E2 E3. cbn in *. subst. eapply uspec_mk; [reflexivity|discriminate].
Qed.

Lemma term_scan_spec : forall fuel b t i, 0 <= i -> blen b - i < Z.of_nat fuel ->
  term_scan fuel b t i = match byte_find t (skipn (Z.to_nat i) b) with
                         | Some j => Ok (i + Z.of_nat j) | None => Err ValueError end.
Proof.
  induction fuel as [|f IH]; intros b t i I0 F.
  - cbn. rewrite skipn_all2 by (unfold blen in *; lia). reflexivity.
  - cbn [term_scan]. unfold py_index. destruct (i <? 0) eqn:Q; [lia|]. cbn [orb].
    rewrite Q. cbn [orb]. fold (blen b).
    destruct (blen b <=? i) eqn:Q'.
    + rewrite skipn_all2 by (unfold blen in *; lia). reflexivity.
    + destruct (skipn (Z.to_nat i) b) as [|x r] eqn:SK.
      { exfalso. pose proof (skipn_length (Z.to_nat i) b) as L. rewrite SK in L. cbn in L. unfold blen in *. lia. }
      assert (N : nth_error b (Z.to_nat i) = Some x).
      { rewrite <- (firstn_skipn (Z.to_nat i) b), SK, nth_error_app2; rewrite firstn_length_le; unfold blen in *; try lia.
        now rewrite Nat.sub_diag. }
      rewrite N. cbn [byte_find]. destruct (Byte.eqb x t); [now rewrite Z.add_0_r|].
      rewrite IH by lia.
      assert (SK1 : skipn (Z.to_nat (i + 1)) b = r).
      { replace (Z.to_nat (i + 1)) with (Z.to_nat i + 1)%nat by lia. rewrite <- skipn_skipn, SK. reflexivity. }
      rewrite SK1. destruct (byte_find t r); cbn [option_map]; [f_equal; lia|reflexivity].
Qed.

Lemma byte_find_lt : forall t b i, byte_find t b = Some i -> (i < List.length b)%nat.
Proof.
  induction b as [|x b IH]; cbn; intros i E; [discriminate|].
  destruct (Byte.eqb x t); [injection E as <-; lia|].
  destruct (byte_find t b); [|discriminate]. injection E as <-. specialize (IH _ eq_refl). lia.
Qed.
Lemma byte_find_app : forall t a b, byte_find t (a ++ b) =
  match byte_find t a with Some i => Some i | None => option_map (Nat.add (List.length a)) (byte_find t b) end.
Proof.
  induction a as [|x a IH]; intros b; cbn [byte_find app List.length].
  - destruct (byte_find t b); reflexivity.
  - destruct (Byte.eqb x t); [reflexivity|]. rewrite IH. destruct (byte_find t a); [reflexivity|].
    destruct (byte_find t b); reflexivity.
Qed.

Lemma term_read_spec : forall fuel t start size out w, 0 <= w_pos w ->
  (List.length (suffix SRead w) < fuel)%nat ->
  let B := suffix SRead w in
  exists p', term_read fuel t start size out w =
    (match byte_find t B with
     | Some j => Ok (out ++ firstn j B, size + Z.of_nat j + 1)
     | None => Err ValueError
     end, W (w_size w) (w_obj w) (w_buf w) (w_data w) p') /\
    (forall j, byte_find t B = Some j -> p' = Z.max 0 (start + (size + Z.of_nat j + 1))).
Proof.
  induction fuel as [|f IH]; intros t start size out w P F; [lia|]. cbn zeta.
  cbn [term_read]. unfold bind at 1, io_read. cbn [Z.ltb Z.compare].
  change (skipn (Z.to_nat (w_pos w)) (w_data w)) with (suffix SRead w).
  remember (suffix SRead w) as B eqn:BE. change (Z.to_nat 256) with 256%nat.
  set (w1 := W _ _ _ _ _).
  destruct (firstn 256 B) as [|x r] eqn:CH.
  { assert (E : B = []).
    { destruct B; [reflexivity|discriminate]. }
    rewrite E. cbn. exists (w_pos w1). split; [reflexivity|discriminate]. }
  assert (SPL : B = (x :: r) ++ skipn 256 B) by (rewrite <- CH; now rewrite firstn_skipn).
  assert (LC : List.length (x :: r) = Nat.min 256 (List.length B)) by (rewrite <- CH; apply firstn_length).
  destruct (byte_find t (x :: r)) as [i|] eqn:BF.
  - exists (Z.max 0 (start + (size + Z.of_nat i + 1))).
    assert (BF' : byte_find t B = Some i) by (rewrite SPL, byte_find_app, BF; reflexivity).
    rewrite BF'. split; [|intros j E; now injection E as <-].
    unfold bind, io_seek, ret. cbn. unfold w1. cbn. do 4 f_equal.
    rewrite SPL, firstn_app. pose proof (byte_find_lt _ _ _ BF).
    replace (i - List.length (x :: r))%nat with O by lia. now rewrite app_nil_r.
  - assert (P1 : 0 <= w_pos w1).
    { unfold w1. cbn [w_pos]. pose proof (blen_nonneg (firstn 256 B)). rewrite CH in *. lia. }
    assert (SU1 : suffix SRead w1 = skipn 256 B).
    { unfold suffix, w1. cbn [w_pos w_data]. unfold blen. rewrite LC.
      replace (Z.to_nat (w_pos w + Z.of_nat (Nat.min 256 (List.length B))))
        with (Z.to_nat (w_pos w) + Nat.min 256 (List.length B))%nat by lia.
      rewrite <- skipn_skipn. change (skipn (Z.to_nat (w_pos w)) (w_data w)) with (suffix SRead w).
      rewrite <- BE. apply skipn_min. }
    assert (LB : (0 < List.length B)%nat) by (rewrite SPL; cbn; lia).
    destruct (IH t start (size + 256) (out ++ (x :: r)) w1 P1) as (p' & E & Q).
    { rewrite SU1, skipn_length. lia. }
    rewrite SU1 in *.
    assert (BB : byte_find t B = option_map (Nat.add (List.length (x :: r))) (byte_find t (skipn 256 B))).
    { rewrite SPL at 1. rewrite byte_find_app, BF. reflexivity. }
    assert (L256 : forall j, byte_find t (skipn 256 B) = Some j -> List.length (x :: r) = 256%nat).
    { intros j Ej. apply byte_find_lt in Ej. rewrite skipn_length in Ej. lia. }
    exists p'. change (w_size w1) with (w_size w) in E. change (w_obj w1) with (w_obj w) in E.
    change (w_buf w1) with (w_buf w) in E. change (w_data w1) with (w_data w) in E.
    rewrite E, BB. destruct (byte_find t (skipn 256 B)) as [j|] eqn:Ej; cbn [option_map].
    + specialize (L256 j eq_refl). rewrite L256. split.
      * f_equal. f_equal. f_equal; [|lia]. rewrite <- app_assoc. f_equal.
        rewrite SPL at 2. rewrite firstn_app, L256.
        rewrite (firstn_all2 (x :: r)) by lia. f_equal. f_equal. lia.
      * intros j' X. injection X as <-. rewrite (Q j eq_refl). lia.
    + split; [reflexivity|discriminate].
Qed.

Lemma net_decode_nonneg : forall c n, 0 <= c -> net_decode c = Ok n -> 0 <= n.
Proof.
  intros c n C. unfold net_decode. destruct (32767 <? _); [discriminate|]. intros E. injection E as <-.
  apply Z.lor_nonneg. split; apply Z.land_nonneg; right; lia.
Qed.
Lemma dec_net_nonneg : forall b size count, dec_net hb b = Ok (size, count) -> 0 <= size /\ 0 <= count.
Proof.
  intros b size count. unfold dec_net.
  destruct (dst hb net_short b) as [cs|] eqn:D; [|discriminate].
  destruct (uint1_dst net_short b cs eq_refl D) as (z & -> & Z0). cbn [rbind nth0 as_int as_index].
  destruct (128 <=? z).
  - destruct (dst hb net_long b) as [cs|] eqn:D'; [|discriminate].
    destruct (uint1_dst net_long b cs eq_refl D') as (z' & -> & Z0'). cbn [rbind nth0 as_int as_index].
    destruct (net_decode z') as [n|] eqn:N; [|discriminate]. cbn. intros E. injection E as <- <-.
    split; [unfold ss_size; lia|]. eapply net_decode_nonneg; eauto.
  - intros E. injection E as <- <-. split; [unfold ss_size; lia|assumption].
Qed.
Lemma resolve_compound : forall b s o s' c, hc ct T c s = true -> is_compound s = false ->
  resolve b s o = Ok s' -> is_compound s' = false.
Proof.
  intros b s o s' c H N R. destruct s; cbn in *; try discriminate; try (injection R as <-; reflexivity).
  - destruct (cond o); [|discriminate]. cbn in R. unfold cond_branch in R.
    apply andb_prop in H as [_ H].
    destruct (key_eqb a (VBool true)).
    + injection R as <-. destruct s; cbn in *; try reflexivity; discriminate.
    + destruct (key_eqb a (VBool false)); [injection R as <-; reflexivity|]. destruct (hashable a); discriminate.
  - destruct (self_class b o); [|discriminate]. injection R as <-. reflexivity.
Qed.

(** the second struct of a header / data pair *)
Lemma take_after : forall s w wa K o, srcok s w -> 0 <= K -> K <= blen (suffix s w) ->
  w_data wa = w_data w -> w_pos wa = posn s K w ->
  take_ostruct hb o (ssub s K) wa =
    (dost hb o (adv K (suffix s w)), advw (ssub s K) (osize hb o) wa) /\
  (forall vs, dost hb o (adv K (suffix s w)) = Ok vs ->
     strict s (K + osize hb o) w /\ posn (ssub s K) (osize hb o) wa = posn s (K + osize hb o) w).
Proof.
  intros s w wa K o OK K0 KL D P.
  assert (ST : strict s K w) by (destruct s; cbn in *; auto).
  destruct (adv_src s w wa K OK K0 D P ST) as [OK2 SU2].
  destruct (take_ostruct_spec o (ssub s K) wa OK2) as [E Q]. rewrite SU2 in *. split; [exact E|].
  intros vs DO. specialize (Q _ DO).
  assert (ST2 : strict (ssub s K) (osize hb o) wa).
  { unfold strict. rewrite SU2. destruct s; cbn [ssub]; auto. }
  destruct (posn_comp s w wa (advw (ssub s K) (osize hb o) wa) K (osize hb o) OK K0 (osize_nonneg o) D P ST
      eq_refl ST2) as [X Y]. split; [exact Y|]. exact X.
Qed.

(** [resolve; rec; get_size; set_size] of the unions *)
Lemma uwrap_spec : forall c x id s0 ctx s w, p_cls ctx = c -> md_of s = md ->
  (forall w0, szof hb x w0 = Ok (w_size w0 id)) ->
  hc ct T c s0 = true -> hu md s0 = true ->
  (forall j, owns s0 j || sets T c s0 j = true -> sets T c x j = true) -> srcok s w ->
  uspec c x (rdo s' <- resolve false s0 ctx; prec s' ctx (suffix s w)) s w
    ((mdo s' <- prep false s0 ctx; mdo vs <- rec s' s; mdo z <- get_size hb s'; set_size id z;; ret vs) w).
Proof.
  intros c x id s0 ctx s w HP HM HS HC HU HT OK.
  destruct (prep_spec ct T false s0 ctx w c HC HP) as (w1 & E & A1 & A2 & A3 & A4 & S1 & Q).
  unfold bind at 1. rewrite E.
  assert (S1' : same_obj (sets T c x) w w1).
  { eapply same_obj_weak; [|exact S1]. intros j O. apply HT. rewrite O. reflexivity. }
  destruct (resolve false s0 ctx) as [s'|e]; cbn [rbind].
  2:{ unfold uspec. cbn. split; [reflexivity|]. split; [assumption|]. split; [assumption|].
      split; [assumption|]. split; [exact I|discriminate]. }
  destruct (Q s' eq_refl) as (Q1 & Q2 & Q3 & Q4 & Q5 & Q6 & Q7).
  assert (OK1 : srcok s w1) by (destruct s; cbn in *; rewrite ?A3; assumption).
  assert (HB1 : suffix s w1 = suffix s w) by (destruct s; cbn in *; rewrite ?A2, ?A3; reflexivity).
  pose proof (REC c s' s w1 ctx Q1 (Q6 md HU) HM HP Q2 OK1) as F. rewrite HB1 in F.
  destruct F as (I1 & I2 & I3 & I4 & I5 & I6).
  unfold bind. destruct (rec s' s w1) as [x1 w2]. cbn [fst snd] in *. subst x1.
  assert (SO : same_obj (sets T c x) w w2).
  { eapply same_obj_trans; [exact S1'|]. eapply same_obj_weak; [|exact I4].
    intros j O. apply HT. rewrite (Q3 _ O). apply orb_true_r. }
  destruct (prec s' ctx (suffix s w)) as [[vs k]|e]; cbn [rmap fst snd] in *.
  - rewrite get_size_eq, (I6 k eq_refl). unfold uspec, set_size, ret. cbn [fst snd w_buf w_data rmap].
    split; [reflexivity|]. split; [congruence|]. split; [congruence|]. split; [exact SO|].
    split.
    + destruct I5 as (K1 & K2 & K3). cbn. split; [assumption|].
      split; destruct s; cbn in *; rewrite ?A2, ?A3 in *; assumption.
    + intros k' X. injection X as <-. rewrite HS. cbn. unfold upd. now rewrite Nat.eqb_refl.
  - unfold uspec. cbn [fst snd rmap]. split; [reflexivity|]. split; [congruence|]. split; [congruence|].
    split; [exact SO|]. split; [exact I|discriminate].
Qed.

Definition ra_ok (x : ser) : bool := match x with SNet _ | SUnicode _ _ => false | _ => leaf x end.
Definition ustrict (p : ser -> pobj -> bytes -> res (list value * Z)) : Prop :=
  md = URead -> forall x ctx b vs k, ra_ok x = true -> hu md x = true -> p x ctx b = Ok (vs, k) ->
  0 <= k <= blen b.
Hypothesis STRICT : ustrict prec.

Lemma dst_len : forall st b vs, dst hb st b = Ok vs -> ss_size hb st <= blen b.
Proof.
  intros st b vs H. 
  exact (proj2 (take_struct_spec st (SBuf b) (W (fun _ => 0) (fun _ => None) [] [] 0) I) vs H).
Qed.
Lemma dost_len : forall o b vs, dost hb o b = Ok vs -> osize hb o <= blen b.
Proof. destruct o; cbn; intros; [eapply dst_len; eauto|apply blen_nonneg]. Qed.

Lemma matmul_osize : forall n o, 0 <= n -> ss_matmul single_char n = Ok o -> osize hb o = n.
Proof.
  intros n o N E. destruct (Z.eq_dec n 0) as [->|NZ].
  - injection E as <-. reflexivity.
  - destruct (matmul_single_char_size hb n o E ltac:(lia)) as [st [-> Hs]]. exact Hs.
Qed.

Lemma dec_step_strict : ustrict (dec_step hb ct md prec).
Proof.
  intros M x ctx b vs k R HU D. pose proof (blen_nonneg b) as BN.
  destruct x; cbn in R; try discriminate; cbn [dec_step] in D.
  - injection D as <- <-. lia.
  - destruct (dst hb st b) eqn:E; [|discriminate]. injection D as <- <-. apply dst_len in E.
    unfold ss_size in *. lia.
  - destruct (dst hb st b) as [cs|] eqn:E; [|discriminate].
    destruct (uint1_dst _ _ _ HU E) as (z & -> & Z0). cbn [rbind nth0 as_int as_index] in D.
    rewrite M in D. destruct (ss_matmul single_char z) as [o|] eqn:MM; [|discriminate]. cbn [rbind] in D.
    destruct (dost hb o (adv (ss_size hb st) b)) eqn:DO; [|discriminate]. injection D as <- <-.
    apply dost_len in DO. apply dst_len in E. rewrite (matmul_osize z o Z0 MM) in DO.
    assert (0 <= ss_size hb st) by (unfold ss_size; lia).
    rewrite blen_adv in DO by assumption. lia.
  - injection D as <- <-. lia.
  - destruct (byte_find t b) eqn:E; [|discriminate]. injection D as <- <-. apply byte_find_lt in E.
    unfold blen. lia.
  - destruct (ss_mul item (Z.of_nat count)) as [o|]; [|discriminate]. cbn [rbind] in D.
    destruct (dost hb o b) eqn:E; [|discriminate]. injection D as <- <-. apply dost_len in E.
    pose proof (osize_nonneg o). lia.
  - destruct (dst hb cnt b) as [cs|] eqn:E; [|discriminate]. cbn [rbind] in D.
    destruct (one cs ValueError) as [cv|]; [|discriminate]. cbn [rbind] in D.
    destruct (as_int cv) as [n|]; [|discriminate]. cbn [rbind] in D.
    destruct (ss_mul item n) as [o|]; [|discriminate]. cbn [rbind] in D.
    destruct (dost hb o (adv (ss_size hb cnt) b)) eqn:DO; [|discriminate]. injection D as <- <-.
    apply dost_len in DO. apply dst_len in E. pose proof (osize_nonneg o).
    assert (0 <= ss_size hb cnt) by (unfold ss_size; lia).
    rewrite blen_adv in DO by assumption. lia.
Qed.

Lemma posn_strict_le : forall s w k, srcok s w -> 0 <= k <= blen (suffix s w) -> strict s k w.
Proof. intros s w k _ K. destruct s; cbn in *; lia || exact I. Qed.

Lemma upd_same : forall {A} (f : nat -> A) i a, upd f i a i = a.
Proof. intros. unfold upd. now rewrite Nat.eqb_refl. Qed.

Lemma unpack_step_spec : urec_ok (unpack_step hb ct rec) (dec_step hb ct md prec).
Proof.
  intros c x s w ctx HC HU HM HP HR OK.
  assert (SZ0 : forall st, 0 <= ss_size hb st) by (intros; unfold ss_size; lia).
  assert (BN : 0 <= blen (suffix s w)) by apply blen_nonneg.
  assert (P0 : posn s 0 w = w_pos w) by (unfold posn; destruct s; lia).
  destruct x; cbn [unpack_step dec_step].
  - (* null *) apply (uspec_mk _ _ _ _ _ (w_size w) (w_pos w)); [unfold ret; rewrite world_eta; reflexivity|].
    intros vs k E. injection E as <- <-. split; [lia|]. split; [now apply posn_strict_le|]. split; [easy|reflexivity].
  - (* struct *)
    destruct (take_struct_spec st s w OK) as [E Q].
    apply (uspec_mk _ _ _ _ _ (w_size w) (posn s (ss_size hb st) w)).
    + rewrite E. destruct (dst hb st (suffix s w)); reflexivity.
    + intros vs k X. destruct (dst hb st (suffix s w)); [|discriminate]. injection X as <- <-.
      specialize (Q _ eq_refl). specialize (SZ0 st). split; [assumption|]. split; [now apply posn_strict_le|].
      split; reflexivity.
  - (* skip *) apply (uspec_mk _ _ _ _ _ (w_size w) (w_pos w)); [unfold ret; rewrite world_eta; reflexivity|].
    intros vs k E. injection E as <- <-. split; [lia|]. split; [now apply posn_strict_le|]. split; [easy|reflexivity].
  - (* dynchar *)
    cbn [hu] in HU. destruct (take_struct_spec st s w OK) as [E Q]. specialize (SZ0 st).
    unfold bind at 1. rewrite E.
    destruct (dst hb st (suffix s w)) as [cs|e] eqn:D; cbn [rbind]; [|now apply uspec_err].
    destruct (uint1_dst _ _ _ HU D) as (z & -> & Z0). specialize (Q _ eq_refl).
    unfold bind, lift. cbn [nth0 as_int as_index rbind]. unfold set_size. cbn [advw w_size w_obj w_buf w_data w_pos].
    set (wa := W _ _ _ _ _).
    assert (AFTER : forall o, ss_matmul single_char z = Ok o -> 
       uspec c (SDynChar id st) (rdo vs <- dost hb o (adv (ss_size hb st) (suffix s w)); Ok (vs, ss_size hb st + z)) s w
        (take_ostruct hb o (ssub s (ss_size hb st)) wa)).
    { intros o MM. destruct (take_after s w wa (ss_size hb st) o OK SZ0 Q eq_refl eq_refl) as [T1 T2].
      pose proof (matmul_osize z o Z0 MM) as OZ.
      eapply uspec_mk.
      - rewrite T1. unfold advw, wa. cbn [w_size w_obj w_buf w_data w_pos].
        destruct (dost hb o (adv (ss_size hb st) (suffix s w))); reflexivity.
      - intros vs k X. destruct (dost hb o (adv (ss_size hb st) (suffix s w))); [|discriminate].
        injection X as <- <-. destruct (T2 _ eq_refl) as [T3 T4]. rewrite OZ in *.
        split; [lia|]. split; [assumption|]. split; [exact T4|]. cbn. now rewrite upd_same. }
    destruct s; cbn in HM; rewrite <- HM; cbn [md_of].
    + eapply uspec_mk.
      * unfold ret, wa. cbn [w_size w_obj w_buf w_data w_pos advw posn suffix]. rewrite py_slice_nn by lia.
        replace (ss_size hb st + z - ss_size hb st) with z by lia. reflexivity.
      * intros vs k X. injection X as <- <-. split; [lia|]. split; [exact I|]. split; [reflexivity|].
        cbn. now rewrite upd_same.
    + destruct (ss_matmul single_char z) as [o|e] eqn:MM; cbn [rbind]; [now apply AFTER|].
      now apply uspec_err.
    + destruct (ss_matmul single_char z) as [o|e] eqn:MM; cbn [rbind]; [now apply AFTER|].
      now apply uspec_err.
  - (* consume *)
    apply (uspec_mk _ _ _ _ _ (upd (w_size w) id (blen (suffix s w))) (posn s (blen (suffix s w)) w)).
    + destruct s; cbn in OK |- *.
      * reflexivity.
      * unfold bind, set_size, ret. rewrite py_from_skipn by lia. do 3 f_equal. f_equal.
        rewrite blen_skipn. lia.
      * unfold bind, set_size, ret, io_read_all, io_read. cbn. now rewrite Z.min_id.
    + intros vs k X. injection X as <- <-. split; [assumption|]. split; [apply posn_strict_le; [assumption|lia]|].
      split; [reflexivity|]. cbn. now rewrite upd_same.
  - (* term *)
    cbn [hu] in HU. destruct s; cbn in HM; rewrite <- HM in HU; try discriminate; cbn [suffix].
    + unfold bind, lift. rewrite term_scan_spec by (unfold blen; lia). cbn [Z.to_nat skipn].
      destruct (byte_find t b) as [i|] eqn:BF; [|now apply uspec_err].
      eapply uspec_mk.
      * unfold set_size, ret. rewrite py_slice_nn by lia.
        rewrite Z.add_0_l, Z.sub_0_r, Nat2Z.id. cbn [Z.to_nat skipn]. reflexivity.
      * intros vs k X. injection X as <- <-. split; [lia|]. split; [exact I|]. split; [reflexivity|].
        cbn. now rewrite upd_same.
    + cbn in OK. unfold bind, io_tell.
      destruct (term_read_spec (S (List.length (w_data w))) t (w_pos w) 0 [] w OK) as (p' & E & Q).
      { cbn. rewrite skipn_length. lia. }
      rewrite E. cbn [suffix] in *.
      set (B := skipn (Z.to_nat (w_pos w)) (w_data w)) in *.
      destruct (byte_find t B) as [i|] eqn:BF; [|now apply uspec_err].
      eapply uspec_mk.
      * unfold set_size, ret. cbn [w_size w_obj w_buf w_data w_pos app]. reflexivity.
      * intros vs k X. injection X as <- <-. split; [lia|]. split; [exact I|]. split.
        -- rewrite (Q i eq_refl). cbn. fold B. apply byte_find_lt in BF. unfold blen. lia.
        -- cbn. now rewrite upd_same.
  - (* net *)
    set (HDR := dec_net hb (suffix s w)).
    set (GO := fun size count : Z => 
       (set_size id (size + count);;
          match s with
          | SBuf b => ret [VBytes (py_slice b size (size + count))]
          | SFrom _ _ => take_struct hb (SS BO_DEFAULT [Verif.StructMod.T (Some (Z.to_nat count)) Cs] None) (ssub s size)
          | SRead => mdo b <- io_read count; ret [VBytes b]
          end)).
    assert (HD : exists p1, 
       unpack_step hb ct rec (SNet id) s w =
       match HDR with
       | Ok (size, count) => GO size count (advw s size w)
       | Err e => (Err e, W (w_size w) (w_obj w) (w_buf w) (w_data w) p1)
       end /\ forall size count, HDR = Ok (size, count) -> size <= blen (suffix s w)).
    { unfold HDR, dec_net. cbn [unpack_step].
      destruct (take_struct_spec net_short s w OK) as [E Q].
      destruct (take_struct_spec net_long s w OK) as [E' Q'].
      assert (SAME : forall k, suffix s (advw s k w) = suffix s w \/ s = SRead) by (intros; destruct s; auto).
      assert (TL : s <> SRead -> forall k, take_struct hb net_long s (advw s k w) =
         (dst hb net_long (suffix s w), advw s (ss_size hb net_long) w)).
      { intros NR k. rewrite <- E'. f_equal. destruct s; try congruence;
        unfold advw; cbn [posn]; apply world_eta. }
      assert (TR : s = SRead -> forall k, take_struct hb net_long s (snd (io_seek (w_pos w) (advw s k w))) =
         (dst hb net_long (suffix s w), advw s (ss_size hb net_long) w)).
      { intros -> k. rewrite <- E'. f_equal. unfold io_seek, advw. cbn. cbn in OK. rewrite Z.max_r by lia. apply world_eta. }
      destruct s.
      - unfold bind at 1. rewrite E.
        destruct (dst hb net_short (suffix (SBuf b) w)) as [cs|e] eqn:D; cbn [rbind].
        2:{ exists (posn (SBuf b) (ss_size hb net_short) w). split; [reflexivity|discriminate]. }
        destruct (uint1_dst net_short _ _ eq_refl D) as (z & -> & Z0). specialize (Q _ eq_refl).
        unfold bind at 1 2, lift at 1 2. cbn [nth0 as_int as_index rbind].
        destruct (128 <=? z).
        + unfold bind at 1 2. rewrite TL by discriminate.
          destruct (dst hb net_long (suffix (SBuf b) w)) as [cs|e] eqn:D'; cbn [rbind].
          2:{ exists (posn (SBuf b) (ss_size hb net_long) w). split; [reflexivity|discriminate]. }
          destruct (uint1_dst net_long _ _ eq_refl D') as (z' & -> & Z0'). specialize (Q' _ eq_refl).
          unfold bind at 1 2, lift at 1 2. cbn [nth0 as_int as_index rbind].
          unfold bind at 1, lift at 1. destruct (net_decode z') as [n|e]; cbn [rbind].
          * exists 0. split; [reflexivity|]. intros ? ? X. injection X as <- <-. assumption.
          * exists (posn (SBuf b) (ss_size hb net_long) w). split; [reflexivity|discriminate].
        + exists 0. split; [reflexivity|]. intros ? ? X. injection X as <- <-. assumption.
      - unfold bind at 1. rewrite E.
        destruct (dst hb net_short (suffix (SFrom b off) w)) as [cs|e] eqn:D; cbn [rbind].
        2:{ exists (posn (SFrom b off) (ss_size hb net_short) w). split; [reflexivity|discriminate]. }
        destruct (uint1_dst net_short _ _ eq_refl D) as (z & -> & Z0). specialize (Q _ eq_refl).
        unfold bind at 1 2, lift at 1 2. cbn [nth0 as_int as_index rbind].
        destruct (128 <=? z).
        + unfold bind at 1 2. rewrite TL by discriminate.
          destruct (dst hb net_long (suffix (SFrom b off) w)) as [cs|e] eqn:D'; cbn [rbind].
          2:{ exists (posn (SFrom b off) (ss_size hb net_long) w). split; [reflexivity|discriminate]. }
          destruct (uint1_dst net_long _ _ eq_refl D') as (z' & -> & Z0'). specialize (Q' _ eq_refl).
          unfold bind at 1 2, lift at 1 2. cbn [nth0 as_int as_index rbind].
          unfold bind at 1, lift at 1. destruct (net_decode z') as [n|e]; cbn [rbind].
          * exists 0. split; [reflexivity|]. intros ? ? X. injection X as <- <-. assumption.
          * exists (posn (SFrom b off) (ss_size hb net_long) w). split; [reflexivity|discriminate].
        + exists 0. split; [reflexivity|]. intros ? ? X. injection X as <- <-. assumption.
      - unfold bind at 1, io_tell at 1. unfold bind at 1. rewrite E.
        destruct (dst hb net_short (suffix SRead w)) as [cs|e] eqn:D; cbn [rbind].
        2:{ exists (posn SRead (ss_size hb net_short) w). split; [reflexivity|discriminate]. }
        destruct (uint1_dst net_short _ _ eq_refl D) as (z & -> & Z0). specialize (Q _ eq_refl).
        unfold bind at 1 2, lift at 1 2. cbn [nth0 as_int as_index rbind].
        destruct (128 <=? z).
        + specialize (TR eq_refl (ss_size hb net_short)). unfold io_seek in TR. cbn [snd] in TR.
          unfold bind at 1 2 3, io_seek. rewrite TR.
          destruct (dst hb net_long (suffix SRead w)) as [cs|e] eqn:D'; cbn [rbind].
          2:{ exists (posn SRead (ss_size hb net_long) w). split; [reflexivity|discriminate]. }
          destruct (uint1_dst net_long _ _ eq_refl D') as (z' & -> & Z0'). specialize (Q' _ eq_refl).
          unfold bind at 1 2, lift at 1 2. cbn [nth0 as_int as_index rbind].
          unfold bind at 1, lift at 1. destruct (net_decode z') as [n|e]; cbn [rbind].
          * exists 0. split; [reflexivity|]. intros ? ? X. injection X as <- <-. assumption.
          * exists (posn SRead (ss_size hb net_long) w). split; [reflexivity|discriminate].
        + exists 0. split; [reflexivity|]. intros ? ? X. injection X as <- <-. assumption. }
    destruct HD as (p1 & HD & HL). cbn [unpack_step] in HD. rewrite HD. clear HD.
    destruct HDR as [[size count]|e] eqn:EH; cbn [rbind]; [|now apply uspec_err].
    specialize (HL _ _ eq_refl). destruct (dec_net_nonneg _ _ _ EH) as [S0 C0].
    unfold GO, bind, set_size. cbn [advw w_size w_obj w_buf w_data w_pos].
    set (wa := W _ _ _ _ _).
    assert (ST : strict s size w) by (apply posn_strict_le; auto; lia).
    destruct (adv_src s w wa size OK S0 eq_refl eq_refl ST) as [OK2 SU2].
    destruct s; cbn in HM; rewrite <- HM; cbn [md_of].
    + eapply uspec_mk.
      * unfold ret, wa. cbn [w_size w_obj w_buf w_data w_pos suffix]. rewrite py_slice_nn by lia.
        replace (size + count - size) with count by lia. reflexivity.
      * intros vs k X. injection X as <- <-. split; [lia|]. split; [exact I|]. split; [reflexivity|].
        cbn. now rewrite upd_same.
    + set (st := SS BO_DEFAULT _ None).
      destruct (take_after (SFrom b off) w wa size (Some st) OK S0 HL eq_refl eq_refl) as [T1 T2].
      assert (OZ : osize hb (Some st) = count).
      { unfold st, osize, ss_size, calcsize, expand. cbn. lia. }
      cbn [take_ostruct dost] in T1, T2. rewrite OZ in *.
      eapply uspec_mk.
      * rewrite T1. unfold advw, wa. cbn [w_size w_obj w_buf w_data w_pos].
        destruct (dst hb st (adv size (suffix (SFrom b off) w))); reflexivity.
      * intros vs k X. destruct (dst hb st (adv size (suffix (SFrom b off) w))); [|discriminate].
        injection X as <- <-. destruct (T2 _ eq_refl) as [T3 T4].
        split; [lia|]. split; [assumption|]. split; [exact T4|]. cbn. now rewrite upd_same.
    + eapply uspec_mk.
      * unfold io_read, ret. destruct (count <? 0) eqn:Q; [lia|].
        change (skipn (Z.to_nat (w_pos wa)) (w_data wa)) with (suffix (ssub SRead size) wa). rewrite SU2.
        unfold wa. cbn [w_size w_obj w_buf w_data w_pos]. reflexivity.
      * intros vs k X. injection X as <- <-. split; [lia|]. split; [exact I|]. split.
        -- rewrite blen_firstn, blen_adv by assumption. unfold posn. lia.
        -- cbn. now rewrite upd_same.
  - (* unicode *)
    cbn [hc] in HC. cbn [hu] in HU.
    assert (R : ready w x ctx) by (destruct x; try discriminate; exact I).
    destruct (REC c x s w ctx (leaf_hc _ _ _ _ HC) HU HM HP R OK) as (I1 & I2 & I3 & I4 & I5 & I6).
    unfold bind at 1. destruct (rec x s w) as [x1 w2]. cbn [fst snd] in *. subst x1.
    unfold uspec.
    destruct (prec x ctx (suffix s w)) as [[vs k]|e]; cbn [rmap rbind fst snd] in *.
    2:{ split; [reflexivity|]. split; [assumption|]. split; [assumption|]. split; [exact I4|].
        split; [exact I|discriminate]. }
    unfold bind, lift. destruct (nth0 vs) as [v|]; cbn [rbind fst snd rmap].
    2:{ split; [reflexivity|]. split; [assumption|]. split; [assumption|]. split; [exact I4|].
        split; [exact I|discriminate]. }
    destruct (as_bytes v) as [y|]; cbn [rbind fst snd rmap].
    2:{ split; [reflexivity|]. split; [assumption|]. split; [assumption|]. split; [exact I4|].
        split; [exact I|discriminate]. }
    destruct (cod_dec cd y) as [t|]; cbn [rbind fst snd rmap].
    2:{ split; [reflexivity|]. split; [assumption|]. split; [assumption|]. split; [exact I4|].
        split; [exact I|discriminate]. }
    split; [reflexivity|]. split; [assumption|]. split; [assumption|]. split; [exact I4|].
    split; [exact I5|]. intros k' X. cbn [ret snd]. exact (I6 _ X).
  - (* static array *)
    unfold bind at 1, lift at 1. destruct (ss_mul item (Z.of_nat count)) as [o|e] eqn:EO; cbn [rbind].
    2:{ now apply uspec_err. }
    destruct (take_ostruct_spec o s w OK) as [E Q].
    apply (uspec_mk _ _ _ _ _ (w_size w) (posn s (osize hb o) w)).
    + unfold bind. rewrite E. destruct (dost hb o (suffix s w)); reflexivity.
    + intros vs k X. destruct (dost hb o (suffix s w)); [|discriminate]. injection X as <- <-.
      specialize (Q _ eq_refl). pose proof (osize_nonneg o). split; [assumption|].
      split; [now apply posn_strict_le|]. split; [reflexivity|].
      unfold szof. cbn. unfold lift. rewrite EO. cbn. destruct o; reflexivity.
  - (* dynamic array *)
    destruct (take_struct_spec cnt s w OK) as [E Q]. specialize (SZ0 cnt).
    unfold bind at 1. rewrite E.
    destruct (dst hb cnt (suffix s w)) as [cs|e] eqn:D; cbn [rbind]; [|now apply uspec_err].
    specialize (Q _ eq_refl).
    unfold bind at 1, lift at 1. destruct (one cs ValueError) as [cv|e]; cbn [rbind]; [|now apply uspec_err].
    unfold bind at 1, lift at 1. destruct (as_int cv) as [n|e]; cbn [rbind]; [|now apply uspec_err].
    unfold bind at 1, lift at 1. destruct (ss_mul item n) as [o|e]; cbn [rbind]; [|now apply uspec_err].
    destruct (take_after s w (advw s (ss_size hb cnt) w) (ss_size hb cnt) o OK SZ0 Q eq_refl eq_refl) as [T1 T2].
    unfold bind at 1. rewrite T1.
    destruct (dost hb o (adv (ss_size hb cnt) (suffix s w))); cbn [rbind]; [|now apply uspec_err].
    destruct (T2 _ eq_refl) as [T3 T4].
    eapply uspec_mk.
    + unfold bind, set_size, ret, advw. cbn [w_size w_obj w_buf w_data w_pos]. reflexivity.
    + intros vs k X. injection X as <- <-. pose proof (osize_nonneg o). split; [lia|]. split; [assumption|].
      split; [exact T4|]. cbn. now rewrite upd_same.
  - (* array *)
    cbn [hc] in HC. apply andb_prop in HC as [HC1 HC2]. cbn [hu] in HU. cbn in HR.
    destruct (take_ostruct_spec hdr s w OK) as [E Q]. pose proof (osize_nonneg hdr) as OS0.
    unfold bind at 1. rewrite E.
    destruct (dost hb hdr (suffix s w)) as [hv|e] eqn:D; cbn [rbind]; [|now apply uspec_err].
    specialize (Q _ eq_refl).
    unfold bind at 1, lift at 1.
    destruct (header_unpack_values hdr static hv) as [[count data_size]|e]; cbn [rbind]; [|now apply uspec_err].
    set (wa := advw s (osize hb hdr) w).
    assert (GO : get_obj id wa = (Ok ctx, wa)) by (unfold get_obj, wa, advw; cbn; now rewrite HR).
    unfold bind at 1. rewrite GO.
    destruct (prep_spec ct T false x ctx wa c HC1 HP) as (w1 & E1 & A1 & A2 & A3 & A4 & S1 & QQ).
    unfold bind at 1. rewrite E1.
    assert (S1' : same_obj (sets T c (SArray id hdr x static)) w w1).
    { eapply (same_obj_trans _ w wa); [now apply same_obj_refl|].
      eapply same_obj_weak; [|exact S1]. intros j O. cbn. rewrite O. reflexivity. }
    destruct (resolve false x ctx) as [x'|e]; cbn [rbind].
    2:{ unfold uspec. cbn. split; [reflexivity|]. split; [assumption|]. split; [assumption|].
        split; [assumption|]. split; [exact I|discriminate]. }
    destruct (QQ x' eq_refl) as (Q1 & Q2 & Q3 & Q4 & Q5 & Q6 & Q7).
    assert (ST : strict s (osize hb hdr) w) by (apply posn_strict_le; auto; lia).
    assert (D1 : w_data w1 = w_data w) by (rewrite A2; reflexivity).
    assert (P1 : w_pos w1 = posn s (osize hb hdr) w) by (rewrite A3; reflexivity).
    destruct (adv_src s w w1 (osize hb hdr) OK OS0 D1 P1 ST) as [OK2 SU2].
    assert (HO : forall i, own x' = Some i -> sets T c x' i = false).
    { intros i Hi. rewrite Q7 in Hi. rewrite Hi in HC2.
      destruct (sets T c x' i) eqn:X; [|reflexivity]. rewrite (Q3 _ X) in HC2. discriminate. }
    destruct (unpack_items_spec (Z.to_nat count) x' ctx s (osize hb hdr) w1 c _ Q1 (Q6 md HU) HM HP Q2 HO OK2 SU2 OS0)
      as (I1 & I2 & I3 & I4 & I5).
    unfold bind at 1.
    destruct (unpack_items hb rec x' s (Z.to_nat count) (osize hb hdr) w1) as [x2 w2]. cbn [fst snd] in *. subst x2.
    assert (SO : same_obj (sets T c (SArray id hdr x static)) w w2).
    { eapply same_obj_trans; [exact S1'|]. eapply same_obj_weak; [|exact I4]. intros j O. cbn.
      rewrite (Q3 _ O). apply orb_true_r. }
    assert (B2 : w_buf w2 = w_buf w) by (rewrite I2, A1; reflexivity).
    assert (D2 : w_data w2 = w_data w) by congruence.
    destruct (dec_items prec x' ctx (Z.to_nat count) (adv (osize hb hdr) (suffix s w))) as [[items k]|e];
      cbn [rmap rbind fst snd] in *.
    2:{ unfold uspec. cbn. split; [reflexivity|]. split; [assumption|]. split; [assumption|].
        split; [assumption|]. split; [exact I|discriminate]. }
    destruct I5 as (K0 & ST2 & PP).
    replace (osize hb hdr + k - osize hb hdr) with k by lia.
    unfold bind at 1, lift at 1. destruct (check_data_size data_size k) as [[]|e]; cbn [rbind].
    2:{ unfold uspec. cbn. split; [reflexivity|]. split; [assumption|]. split; [assumption|].
        split; [assumption|]. split; [exact I|discriminate]. }
    destruct (posn_comp s w w1 w2 (osize hb hdr) k OK OS0 K0 D1 P1 ST PP ST2) as [X1 X2].
    unfold uspec, bind, set_size, ret. cbn [fst snd rmap w_buf w_data w_obj].
    split; [reflexivity|]. split; [assumption|]. split; [assumption|]. split; [exact SO|]. split.
    + cbn. split; [lia|]. split; assumption.
    + intros k' X. injection X as <-. cbn. now rewrite upd_same.
  - (* tuple *)
    cbn [hc] in HC. apply andb_prop in HC as [HC1 HC2]. cbn [hu] in HU. apply andb_prop in HU as [HU1 HU2].
    cbn in HR.
    assert (GO : get_obj id w = (Ok ctx, w)) by (unfold get_obj; now rewrite HR).
    unfold bind at 1. rewrite GO.
    destruct (prep_spec ct T false x ctx w c HC1 HP) as (w1 & E1 & A1 & A2 & A3 & A4 & S1 & QQ).
    unfold bind at 1. rewrite E1.
    assert (S1' : same_obj (sets T c (STuple id x)) w w1).
    { eapply same_obj_weak; [|exact S1]. intros j O. cbn. rewrite O. reflexivity. }
    destruct (resolve false x ctx) as [x'|e] eqn:RS; cbn [rbind].
    2:{ unfold uspec. cbn. split; [reflexivity|]. split; [assumption|]. split; [assumption|].
        split; [assumption|]. split; [exact I|discriminate]. }
    destruct (QQ x' eq_refl) as (Q1 & Q2 & Q3 & Q4 & Q5 & Q6 & Q7).
    rewrite (resolve_compound false x ctx x' c HC1 ltac:(now destruct (is_compound x)) RS).
    assert (OK1 : srcok s w1) by (destruct s; cbn in *; rewrite ?A3; assumption).
    assert (HB1 : suffix s w1 = suffix s w) by (destruct s; cbn in *; rewrite ?A2, ?A3; reflexivity).
    pose proof (REC c x' s w1 ctx Q1 (Q6 md HU1) HM HP Q2 OK1) as F. rewrite HB1 in F.
    destruct F as (I1 & I2 & I3 & I4 & I5 & I6).
    unfold bind. destruct (rec x' s w1) as [x1 w2]. cbn [fst snd] in *. subst x1.
    assert (SO : same_obj (sets T c (STuple id x)) w w2).
    { eapply same_obj_trans; [exact S1'|]. eapply same_obj_weak; [|exact I4].
      intros j O. cbn. rewrite (Q3 _ O). apply orb_true_r. }
    unfold uspec.
    destruct (prec x' ctx (suffix s w)) as [[vs k]|e]; cbn [rmap rbind fst snd ret] in *.
    + split; [reflexivity|]. split; [congruence|]. split; [congruence|]. split; [exact SO|]. split.
      * destruct I5 as (K1 & K2 & K3). cbn. split; [assumption|].
        split; destruct s; cbn in *; rewrite ?A2, ?A3 in *; assumption.
      * intros k' X. injection X as <-. change (szof hb (STuple id x)) with (szof hb x).
        rewrite (resolve_szof hb _ _ _ _ w2 RS HC2). now apply I6.
    + split; [reflexivity|]. split; [congruence|]. split; [congruence|]. split; [exact SO|].
      split; [exact I|discriminate].
  - (* conditional *) now apply uspec_err.
  - (* lookback *)
    cbn [hc] in HC. apply andb_prop in HC as [HC1 HC2]. cbn [hu] in HU. apply andb_prop in HU as [HU1 HU2].
    cbn in HR.
    assert (GO : get_obj id w = (Ok ctx, w)) by (unfold get_obj; now rewrite HR).
    unfold bind at 1. rewrite GO. unfold bind at 1, lift at 1.
    destruct (dec ctx) as [r|e]; cbn [rbind]; [|now apply uspec_err].
    unfold bind at 1, lift at 1. destruct (choose rmap dflt r) as [s0|e] eqn:CH; cbn [rbind]; [|now apply uspec_err].
    apply uwrap_spec; auto.
    + exact (choose_in _ _ _ _ _ CH HC1 HC2).
    + exact (choose_in _ _ _ _ _ CH HU1 HU2).
    + intros j X. cbn. exact (choose_sets _ _ _ _ (fun x => owns x j || sets T c x j) CH X).
  - (* lookahead *)
    cbn [hc] in HC. apply andb_prop in HC as [HC0 HC2]. apply andb_prop in HC0 as [HC0 HC1].
    cbn [hu] in HU. apply andb_prop in HU as [HU0 HU2]. apply andb_prop in HU0 as [HU0 HU1].
    apply andb_prop in HU0 as [HUr HUn]. cbn in HR.
    assert (R : ready w x ctx) by (destruct x; try discriminate; exact I).
    destruct (REC c x s w ctx (leaf_hc _ _ _ _ HC0) HUr HM HP R OK) as (I1 & I2 & I3 & I4 & I5 & I6).
    pose proof (fun H => STRICT H x ctx (suffix s w)) as STR.
    unfold bind at 1. destruct (rec x s w) as [x1 w2]. cbn [fst snd] in *. subst x1.
    assert (SO : same_obj (sets T c (SLookahead id x dec rmap dflt)) w w2).
    { eapply same_obj_weak; [|exact I4]. intros j O. rewrite leaf_sets in O by assumption. discriminate. }
    assert (OB : w_obj w2 = w_obj w \/ True) by auto.
    destruct (prec x ctx (suffix s w)) as [[rs kr]|e] eqn:PR; cbn [Base.rmap rbind fst snd] in *.
    2:{ unfold uspec. cbn. split; [reflexivity|]. split; [assumption|]. split; [assumption|].
        split; [assumption|]. split; [exact I|discriminate]. }
    unfold bind at 1, lift at 1. destruct (nth0 rs) as [r|e]; cbn [rbind].
    2:{ unfold uspec. cbn. split; [reflexivity|]. split; [assumption|]. split; [assumption|].
        split; [assumption|]. split; [exact I|discriminate]. }
    (* the stream is put back *)
    assert (BACK : exists w3, (match s with
       | SRead => mdo z <- get_size hb x; mdo p <- io_tell; io_seek (p - z)
       | _ => ret tt end) w2 = (Ok tt, w3) /\ w_obj w3 = w_obj w2 /\ w_buf w3 = w_buf w /\ w_data w3 = w_data w /\
       w_pos w3 = w_pos w).
    { destruct I5 as (K0 & K1 & K2). destruct s.
      - exists w2. cbn in *. auto.
      - exists w2. cbn in *. auto.
      - unfold bind at 1. rewrite get_size_eq, (I6 kr eq_refl). unfold bind, io_tell, io_seek.
        eexists. split; [reflexivity|]. cbn [w_obj w_buf w_data w_pos]. split; [reflexivity|].
        split; [assumption|]. split; [assumption|].
        rewrite K2. cbn [posn].
        cbn in HM. rewrite <- HM in *. cbn [md_of] in *.
        assert (RA : ra_ok x = true).
        { unfold ra_ok. destruct x; try assumption; discriminate. }
        specialize (STR eq_refl rs kr RA HUr eq_refl). cbn in OK. rewrite Z.min_l by lia. lia. }
    destruct BACK as (w3 & EB & B1 & B2 & B3 & B4).
    unfold bind at 1. rewrite EB.
    assert (SO3 : same_obj (sets T c (SLookahead id x dec rmap dflt)) w w3).
    { eapply same_obj_trans; [exact SO|]. now apply same_obj_refl. }
    unfold bind at 1, lift at 1. destruct (choose rmap dflt r) as [s0|e] eqn:CH; cbn [rbind].
    2:{ unfold uspec. cbn. split; [reflexivity|]. split; [assumption|]. split; [assumption|].
        split; [assumption|]. split; [exact I|discriminate]. }
    assert (OBJ : w_obj w3 id = Some ctx).
    { rewrite B1, (I4 id); [assumption|]. now apply leaf_sets. }
    assert (GO : get_obj id w3 = (Ok ctx, w3)) by (unfold get_obj; now rewrite OBJ).
    unfold bind at 1. rewrite GO.
    assert (OK3 : srcok s w3) by (destruct s; cbn in *; rewrite ?B4; assumption).
    assert (SU3 : suffix s w3 = suffix s w) by (destruct s; cbn in *; rewrite ?B3, ?B4; reflexivity).
    assert (W : uspec c (SLookahead id x dec rmap dflt)
       (rdo s' <- resolve false s0 ctx; prec s' ctx (suffix s w3)) s w3
       ((mdo s' <- prep false s0 ctx; mdo vs <- rec s' s; mdo z <- get_size hb s'; set_size id z;; ret vs) w3)).
    { apply uwrap_spec; auto.
      + exact (choose_in _ _ _ _ _ CH HC1 HC2).
      + exact (choose_in _ _ _ _ _ CH HU1 HU2).
      + intros j X. cbn. exact (choose_sets _ _ _ _ (fun x => owns x j || sets T c x j) CH X). }
    rewrite SU3 in W. destruct W as (J1 & J2 & J3 & J4 & J5 & J6).
    unfold uspec. split; [exact J1|]. split; [congruence|]. split; [congruence|].
    split; [eapply same_obj_trans; eauto|]. split; [|exact J6].
    destruct (Base.rmap snd _); [|exact I]. destruct J5 as (K1 & K2 & K3). cbn. split; [assumption|].
    split; destruct s; cbn in *; rewrite ?B3, ?B4 in *; assumption.
  - (* structured *)
    cbn in HC.
    destruct (create_spec cls s w HM OK) as (I1 & I2 & I3 & I4 & I5 & I6).
    unfold bind at 1. destruct (create_step hb ct rec cls s w) as [x1 w2]. cbn [fst snd] in *. subst x1.
    unfold uspec.
    destruct (dcreate_step ct prec cls (suffix s w)) as [[v k]|e]; cbn [Base.rmap rbind fst snd] in *.
    2:{ cbn. split; [reflexivity|]. split; [assumption|]. split; [assumption|].
        split; [assumption|]. split; [exact I|discriminate]. }
    unfold bind. rewrite (I6 k HC eq_refl). unfold set_size, ret. cbn [fst snd w_buf w_data w_obj].
    split; [reflexivity|]. split; [assumption|]. split; [assumption|]. split; [exact I4|]. split; [exact I5|].
    intros k' X. injection X as <-. cbn. now rewrite upd_same.
  - now apply uspec_err.
  - (* compound *)
    cbn [hc] in HC. cbn [hu] in HU. cbn in HR.
    destruct (unpack_subs_spec subs None ctx s 0 w c (suffix s w) HC HU HM HP (fun _ => HR)) as (I1 & I2 & I3 & I4 & I5);
      rewrite ?ssub_0; auto; try lia.
    unfold bind at 1. destruct (unpack_subs hb rec None subs s 0 w) as [x2 w2]. cbn [fst snd] in *. subst x2.
    rewrite ssub_0 in I5.
    unfold uspec.
    destruct (dec_subs prec None ctx subs (suffix s w)) as [[vs k]|e]; cbn [Base.rmap rbind fst snd] in *.
    2:{ cbn. split; [reflexivity|]. split; [assumption|]. split; [assumption|].
        split; [exact I4|]. split; [exact I|discriminate]. }
    unfold bind, set_size, ret. cbn [fst snd w_buf w_data w_obj].
    split; [reflexivity|]. split; [assumption|]. split; [assumption|]. split; [exact I4|]. split; [exact I5|].
    intros k' X. injection X as <-. cbn. now rewrite upd_same.
  - (* specialized compound *)
    cbn [hc] in HC. apply andb_prop in HC as [HCo HC]. apply Nat.eqb_eq in HCo. cbn [hu] in HU.
    destruct (unpack_subs_spec subs (Some ctx0) ctx s 0 w c (suffix s w) HC HU HM HCo ltac:(discriminate))
      as (I1 & I2 & I3 & I4 & I5); rewrite ?ssub_0; auto; try lia.
    unfold bind at 1. destruct (unpack_subs hb rec (Some ctx0) subs s 0 w) as [x2 w2]. cbn [fst snd] in *. subst x2.
    rewrite ssub_0 in I5.
    unfold uspec.
    destruct (dec_subs prec (Some ctx0) ctx subs (suffix s w)) as [[vs k]|e]; cbn [Base.rmap rbind fst snd] in *.
    2:{ cbn. split; [reflexivity|]. split; [assumption|]. split; [assumption|].
        split; [exact I4|]. split; [exact I|discriminate]. }
    unfold bind, set_size, ret. cbn [fst snd w_buf w_data w_obj].
    split; [reflexivity|]. split; [assumption|]. split; [assumption|]. split; [exact I4|]. split; [exact I5|].
    intros k' X. injection X as <-. cbn. now rewrite upd_same.
Qed.
End Step.

Theorem unpack_refines : forall n, urec_ok (unpack hb ct n) (dec hb ct md n) /\ ustrict (dec hb ct md n).
Proof.
  induction n as [|n [IH1 IH2]].
  - split; [|intros _ x ctx b vs k _ _ E; discriminate]. intros c x s w ctx _ _ _ _ _ _. now apply uspec_err.
  - cbn [unpack dec]. split; [now apply unpack_step_spec|]. apply dec_step_strict.
Qed.
End RefUnpack.
