(** What a class that loses nothing (BackSpec.v) has read can be written (PackSpec.v). *)
From Verif Require Import Base Floats Value StructMod Format Ser Exec Pure BaseFacts Wire Hints HintFacts Surface Programs Accept AcceptProg WireSpec PackSpec
  ReadSpec ReadFacts Reads LocalSpec Locals BackSpec Backs.
Open Scope string_scope. Open Scope list_scope. Open Scope Z_scope.

Lemma pick_chosen : forall f d r m q, pick_of f d r m = Some q ->
  exists y, ((exists p, In p m /\ y = snd p) \/ d = Some y) /\ f y = Some q /\ forall g, chosen g d r m = g y.
Proof.
  intros f d r m q. induction m as [|[k y] m IH]; cbn [pick_of chosen]; intros E.
  - destruct d as [y|]; [|discriminate]. exists y. auto.
  - destruct (key_eqb r k).
    + exists y. split; [left; exists (k, y); split; [now left|reflexivity]|auto].
    + destruct (IH E) as (z & [(p & I & Z)|Z] & F & C); exists z; (split; [|auto]); [left; exists p; split; [now right|exact Z]|now right].
Qed.
Lemma bits_something : forall md P al x off off1, bits md P al x off = Some off1 -> nothing x = false.
Proof. intros md P al x off off1 B. destruct x; try reflexivity; try discriminate B. destruct a as [cc|n|t| |]; try reflexivity. cbn in *. destruct (0 <? n) eqn:Q; [lia|discriminate]. Qed.

Section Sum.
Variable f : hx -> list value -> bool.
Lemma each_one : forall l vs, List.length vs = List.length l -> forallb (fun y => Nat.eqb (vals y) 1) l = true ->
  forallb (fun q => f (fst q) [snd q]) (combine l vs) = true -> each f l vs = true /\ list_sum (map vals l) = List.length vs.
Proof.
  induction l as [|x l IH]; intros [|v vs] L O F; try discriminate L; [auto|]. cbn [forallb] in O. cbn [combine forallb fst snd] in F. apply andb_prop in O as [O1 O2]. apply andb_prop in F as [F1 F2].
  apply Nat.eqb_eq in O1. injection L as L. destruct (IH vs L O2 F2) as [E SM]. cbn [each map list_sum fold_right]. rewrite O1. cbn [firstn skipn]. rewrite F1, E. split; [reflexivity|].
  change (1 + list_sum (map vals l) = S (List.length vs))%nat. now rewrite SM.
Qed.
Lemma sum_one : forall l vs, List.length vs = List.length l -> (forall x, In x l -> nothing x = false) -> apart l = true ->
  forallb (fun q => f (fst q) [snd q]) (combine l vs) = true -> sum_fits f l vs = true.
Proof.
  intros l vs L N A F. unfold sum_fits. assert (FL : filter (fun x => negb (nothing x)) l = l).
  { clear -N. induction l as [|x l IH]; [reflexivity|]. cbn [filter]. rewrite (N x (or_introl eq_refl)). cbn [negb]. f_equal. apply IH. intros y I. apply N. now right. }
  rewrite FL. destruct l as [|x [|y l]]; [reflexivity| |].
  - destruct vs as [|v [|]]; try discriminate L. cbn [alone]. rewrite (N x (or_introl eq_refl)). cbn in F. now rewrite Bool.andb_true_r in F.
  - unfold apart in A. cbn [List.length Nat.leb orb] in A. destruct (each_one _ _ L A F) as [E SM]. rewrite E, SM, Nat.eqb_refl. cbn. apply Bool.orb_true_r.
Qed.
End Sum.

Section Main.
Variable hb : bool.
Variable md : umode.
Variable P : nat -> bool.
Variable allow : nat -> nat -> bool.
Variable rec : nat -> bytes -> option (value * Z).
Variable recf : nat -> option border -> list (string * value) -> bool.
Hypothesis AL : forall c, allow c c = true.
Hypothesis RB : forall c b v k, P c = true -> rec c b = Some (v, k) -> exists d, v = VObj c None d /\ recf c None d = true.
Variables (c0 : nat) (d0 d1 : list (string * value)).
Hypothesis PS : P c0 = true.
Hypothesis KN : forall a v, assoc a d0 = Some v -> assoc a d1 = Some v.
Notation o := (PO c0 true d0). Notation p := (PO c0 false d1).
Definition good (bo : border) (x : hx) (vs : list value) : Prop :=
  (List.length vs <= 1)%nat /\ (single md x = true -> List.length vs = 1%nat) /\ forall v, vs = [v] -> fitting allow recf p bo x [v] = true.
Definition fits_back (x : hx) : Prop := forall m bo off b vs off' k off1, bits md P (m_native m) x off = Some off1 -> settled md bo x = true -> answering x ->
  read hb md rec o m x off b = Some (vs, off', k) -> off' = off1 /\ good bo x vs.
Lemma good_one : forall bo x v, fitting allow recf p bo x [v] = true -> good bo x [v].
Proof. intros bo x v F. split; [cbn; lia|]. split; [reflexivity|]. intros w E. injection E as <-. exact F. Qed.
Lemma items_fit : forall x m bo, fits_back x -> here (bits md P (m_native m) x 0) = true -> single md x = true -> settled md bo x = true -> answering x ->
  forall n b vs k, items_of (read hb md rec o m x) false n 0 b = Some (vs, k) -> forallb (fun i => fitting allow recf p bo x [i]) vs = true.
Proof.
  intros x m bo FB B0 SG ST AN. induction n as [|n IH]; intros b vs k E; cbn [items_of] in E; [injection E as <- _; reflexivity|].
  destruct (read hb md rec o m x 0 b) as [[[v1 o1] k1]|] eqn:R; [|discriminate]. cbn in E. destruct (items_of _ false n _ (adv k1 b)) as [[v2 k2]|] eqn:I; [|discriminate]. injection E as <- _.
  destruct (bits md P (m_native m) x 0) as [off1|] eqn:B; [|discriminate]. destruct (FB m bo 0%nat b v1 o1 k1 off1 B ST AN R) as (_ & _ & LN & F). specialize (LN SG).
  destruct v1 as [|v [|]]; try discriminate LN. cbn [app forallb]. rewrite (F v eq_refl). eapply IH; exact I.
Qed.
Lemma packed_fit : forall x al bo off i, packed x = true -> here (bits md P al x off) = true -> fitting allow recf p bo x [i] = true.
Proof.
  intros x al bo off i PK B. destruct x; try discriminate PK; try discriminate B; [reflexivity|]. destruct a as [cc|n|t| |]; try discriminate PK. cbn. apply Bool.orb_true_r.
Qed.
Lemma members_fit : forall l, Forall fits_back l -> (forall x, In x l -> answering x) -> forallb (settled md BO_DEFAULT) l = true -> forall off b vs k, run_bits md P l off = true ->
  members_of (read hb md rec o (machine hb)) l off b = Some (vs, k) ->
  List.length vs = List.length l /\ (forall x, In x l -> nothing x = false) /\ forallb (fun q => fitting allow recf p BO_DEFAULT (fst q) [snd q]) (combine l vs) = true.
Proof.
  intros l FB. induction FB as [|x l FX FB IH]; intros AN ST off b vs k RB' E; cbn [members_of] in E; [injection E as <- _; split; [reflexivity|]; split; [contradiction|reflexivity]|].
  cbn [run_bits] in RB'. apply andb_prop in RB' as [SG RB']. destruct (bits md P true x off) as [off1|] eqn:B; [|discriminate]. cbn [forallb] in ST. apply andb_prop in ST as [S1 S2].
  destruct (read hb md rec o (machine hb) x off b) as [[[v1 o1] k1]|] eqn:R; [|discriminate]. cbn in E.
  destruct (members_of _ l o1 (adv k1 b)) as [[v2 k2]|] eqn:I; [|discriminate]. injection E as <- _.
  destruct (FX (machine hb) BO_DEFAULT off b v1 o1 k1 off1 B S1 (AN x (or_introl eq_refl)) R) as (-> & _ & LN & F). specialize (LN SG). destruct v1 as [|v [|]]; try discriminate LN.
  destruct (IH (fun y J => AN y (or_intror J)) S2 off1 (adv k1 b) v2 k2 RB' I) as (LL & NO & FF). split; [cbn; now rewrite LL|]. split.
  - intros y [<-|J]; [exact (bits_something _ _ _ _ _ _ B)|exact (NO y J)].
  - cbn [app combine forallb fst snd]. now rewrite (F v eq_refl).
Qed.
Lemma answers_late : forall f r, answers f -> f o = Ok r -> f p = Ok r.
Proof. intros f r A E. exact (A _ _ _ _ _ _ KN E). Qed.
Theorem all_fit : forall x, fits_back x.
Proof.
  induction x using hx_ind'; intros m' bo off b vs off' k' off1 B ST AN E; cbn [bits] in B; cbn [read] in E; try discriminate B.
  - assert (BC : flush (m_native m') (wsize c) off = true /\ off1 = (off + wsize c)%nat).
    { destruct (basic_code c && flush (m_native m') (wsize c) off) eqn:Q; [|destruct c; discriminate B]. apply andb_prop in Q as [Q1 Q2]. split; [exact Q2|destruct c; congruence]. }
    destruct BC as (FL & ->). destruct (at_flush _ _ _ _ _ _ _ _ _ FL E) as (-> & -> & -> & L). split; [reflexivity|]. apply good_one. reflexivity.
  - destruct a as [cc|n|t| |]; try discriminate B.
    + destruct (size_code cc) eqn:SC; [|discriminate]. injection B as <-. cbn [string_of] in E. destruct (number_at m' cc 0 b) as [[[z o1] j]|] eqn:N; [|discriminate].
      destruct (number_room _ _ _ _ _ _ _ N) as [Z0 J0]. cbn [settled] in ST. apply andb_prop in ST as [BD MD]. unfold cut in E. destruct (_ || (z <=? _)) eqn:CU; [|discriminate]. cbn [block] in E.
      assert (off' = 0%nat) as -> by congruence. split; [reflexivity|].
      assert (V : vs = if negb (match md with UBuf => true | _ => false end) && (z =? 0) then [] else [VBytes (firstn (Z.to_nat z) (adv j b))]) by congruence. clear E. subst vs.
      split; [destruct (_ && _); cbn; lia|]. split; [unfold single; cbn [surface negb]; destruct md; discriminate|].
      intros v V. cbn [fitting char_fits]. rewrite BD. destruct (negb _ && (z =? 0)) eqn:Q; [discriminate|]. injection V as <-. cbn [andb full].
      destruct md; [discriminate MD| |]; cbn [negb andb orb] in Q, CU; (destruct (firstn (Z.to_nat z) (adv j b)) eqn:FE; [|reflexivity]); exfalso;
        apply (f_equal (@List.length byte)) in FE; rewrite firstn_length in FE; unfold blen in CU; cbn in FE; lia.
    + destruct (0 <? n) eqn:Q; [|discriminate]. injection B as <-. cbn [string_of] in E. destruct (n =? 0) eqn:Q0; [lia|].
      destruct (at_flush _ _ _ _ _ _ _ _ _ (flush_one _ _) E) as (-> & -> & -> & L). split; [reflexivity|]. apply good_one. cbn. apply Bool.orb_true_r.
    + injection B as <-. cbn [string_of] in E. destruct t as [|t []]; try discriminate. destruct (until t b) as [s|] eqn:U; [|discriminate]. cbn [block] in E.
      injection E as <- <- <-. split; [reflexivity|]. apply good_one. reflexivity.
    + injection B as <-. cbn [string_of block] in E. injection E as <- <- <-. split; [reflexivity|]. apply good_one. reflexivity.
  - cbv zeta in B. destruct (_ && here _) eqn:Q in B; [|discriminate]. injection B as <-.
    apply andb_prop in Q as [Q HB]. apply andb_prop in Q as [Q PK]. apply andb_prop in Q as [Q SG]. cbn [answering settled] in AN, ST.
    destruct (packed x) eqn:PX.
    + destruct (match n with inl z => Some (z, 0) | inr c => _ end) as [[cc k0]|] eqn:C; [|discriminate].
      destruct (items_of _ true _ 0 _) as [[l k1]|] eqn:I; [|discriminate]. cbn [block] in E. injection E as <- <- <-. split; [reflexivity|]. apply good_one. cbn [fitting py_iter].
      apply andb_true_intro. split; [destruct x; try reflexivity; discriminate PX|]. apply forallb_forall. intros i _. eapply packed_fit; eauto.
    + destruct (ready o x) eqn:RY; [|discriminate]. cbn [negb] in E.
      destruct (match n with inl z => Some (z, 0%nat, 0) | inr c => _ end) as [[[cc o0] k0]|] eqn:C; [|discriminate].
      destruct (match s with None => Some (None, 0) | Some c => _ end) as [[sz k1]|] eqn:D; [|discriminate].
      destruct (items_of _ false _ 0 _) as [[l k2]|] eqn:I; [|discriminate].
      destruct (match sz with Some z => z =? k2 | None => true end) eqn:SE; [|discriminate]. cbn [block] in E. injection E as <- <- <-. split; [reflexivity|]. apply good_one. cbn [fitting py_iter].
      apply andb_true_intro. split.
      * destruct x as [ | | | | | | |y g dd| | | | | | | ]; try reflexivity. cbn [ready decided] in *. destruct AN as [AF _]. destruct (g o) as [r|] eqn:F; [|discriminate]. now rewrite (answers_late _ _ AF F).
      * eapply items_fit; eauto.
  - assert (Q : run_bits md P l 0 = true) by (change ((if run_bits md P l 0 then Some 0%nat else None) = Some off1) in B; destruct (run_bits md P l 0); [reflexivity|discriminate]).
    assert (off1 = 0%nat) as -> by (change ((if run_bits md P l 0 then Some 0%nat else None) = Some off1) in B; rewrite Q in B; congruence). clear B.
    destruct (members_of _ l 0 b) as [[vs1 k1]|] eqn:M; [|discriminate]. cbn [block] in E. injection E as <- <- <-.
    assert (AA : forall x, In x l -> answering x).
    { cbn [answering] in AN. clear -AN. induction l as [|y l IH]; [contradiction|]. destruct AN as [A1 A2]. intros x [<-|I]; [exact A1|exact (IH A2 x I)]. }
    cbn [settled] in ST. apply andb_prop in ST as [AP ST]. destruct (members_fit l H AA ST 0%nat b vs1 k1 Q M) as (LL & NO & FF). split; [reflexivity|]. apply good_one. cbn [fitting py_iter].
    now apply sum_one.
  - destruct (Nat.eqb _ _ && here _) eqn:Q in B; [|discriminate]. injection B as <-. apply andb_prop in Q as [LD HB]. apply Nat.eqb_eq in LD.
    destruct (bits md P (m_native m') x 0) as [o1|] eqn:BX; [|discriminate]. destruct AN as [AF AX]. cbn [settled] in ST. apply andb_prop in ST as [DI ST].
    destruct (f o) as [r|] eqn:F; [|discriminate]. pose proof (answers_late f r AF F) as FP.
    destruct (key_eqb r (VBool true)) eqn:KT.
    + destruct (read hb md rec o m' x 0 b) as [[[v1 o2] k1]|] eqn:R; [|discriminate]. cbn [body block] in E. injection E as <- <- <-.
      destruct (IHx m' bo 0%nat b v1 o2 k1 o1 BX ST AX R) as (_ & L1 & SG & CH). split; [reflexivity|]. split; [exact L1|]. split; [exact SG|].
      intros v V. cbn [fitting]. rewrite FP, KT, DI. exact (CH v V).
    + destruct (key_eqb r (VBool false)) eqn:KF; [|discriminate]. cbn [block] in E. injection E as <- <- <-. split; [reflexivity|]. split; [lia|]. split; [auto|].
      intros v V. cbn [fitting]. now rewrite FP, KT.
  - destruct (_ && _) eqn:Q in B; [|discriminate]. injection B as <-. apply andb_prop in Q as [Q1 Q2]. rewrite forallb_forall in Q1. destruct AN as (AF & AM & AD).
    cbn [settled] in ST. apply andb_prop in ST as [S1 S2]. rewrite forallb_forall in S1.
    destruct (f o) as [r|] eqn:F; [|discriminate]. pose proof (answers_late f r AF F) as FP. destruct (hashable r) eqn:HR; [|discriminate].
    destruct (pick_of _ d r m) as [[[v1 o2] k1]|] eqn:PK; [|discriminate]. cbn [body block] in E. injection E as <- <- <-.
    assert (AP : forall q, In q m -> answering (snd q)).
    { clear -AM. induction m as [|q m IH]; [contradiction|]. destruct AM as [A1 A2]. intros q' [<-|I]; [exact A1|exact (IH A2 q' I)]. }
    rewrite Forall_forall in *. apply pick_chosen in PK as (y & W & R & G).
    assert (ONE : fits_back y /\ here (bits md P true y 0) = true /\ answering y /\ settled md BO_DEFAULT y = true /\
       (surface y = true -> existsb (fun q => surface (snd q)) m || match d with Some y => surface y | None => false end = true)).
    { destruct W as [(q & I & ->)| ->].
      - split; [match goal with H : forall x, In x m -> fits_back _ |- _ => exact (H q I) end|]. split; [exact (Q1 q I)|]. split; [exact (AP q I)|].
        split; [exact (S1 q I)|]. intros SF. apply Bool.orb_true_iff. left. apply existsb_exists. eauto.
      - split; [match goal with H : forall x, Some y = Some x -> fits_back _ |- _ => exact (H y eq_refl) end|]. split; [exact Q2|]. split; [exact AD|].
        split; [exact S2|]. intros SF. apply Bool.orb_true_iff. now right. }
    destruct ONE as (GY & HY & AY & SY & SF). destruct (bits md P true y 0) as [o1|] eqn:BX; [|discriminate].
    destruct (GY (machine hb) BO_DEFAULT 0%nat b v1 o2 k1 o1 BX SY AY R) as (_ & L1 & SG & CH). split; [reflexivity|]. split; [exact L1|]. split.
    + intros T1. apply SG. unfold single in *. destruct md; try reflexivity; cbn [surface] in T1; destruct (surface y); try reflexivity; rewrite SF in T1 by reflexivity; discriminate T1.
    + intros v V. cbn [fitting]. rewrite FP, G. exact (CH v V).
  - destruct (P c) eqn:PC; [|discriminate]. injection B as <-. destruct (rec c b) as [[v k1]|] eqn:R; [|discriminate]. cbn [block] in E. injection E as <- <- <-.
    destruct (RB c b v k1 PC R) as (d & -> & W). split; [reflexivity|]. apply good_one. cbn [fitting class_fits]. now rewrite AL, W.
  - injection B as <-. cbn [p_cls p_proxy p_attrs] in E. destruct (assoc "cls" d0); [discriminate|].
    destruct (rec c0 b) as [[v k1]|] eqn:R; [|discriminate]. cbn [block] in E. injection E as <- <- <-.
    destruct (RB c0 b v k1 PS R) as (d & -> & W). split; [reflexivity|]. apply good_one. cbn [fitting class_fits p_cls]. now rewrite AL, W.
Qed.
End Main.

Section Classes.
Variables (hb : bool) (md : umode) (P : nat -> bool) (allow : nat -> nat -> bool).
Variables (rec : nat -> bytes -> option (value * Z)) (recf : nat -> option border -> list (string * value) -> bool).
Hypothesis AL : forall c, allow c c = true.
Hypothesis RB : forall c b v k, P c = true -> rec c b = Some (v, k) -> exists d, v = VObj c None d /\ recf c None d = true.
Variables (c : nat) (m : mode) (bo : border) (D : list (string * value)).
Hypothesis PS : P c = true.
Lemma fields_fit : forall l d off b d' k, NoDup (map fst l) -> (forall a, In a (map fst l) -> assoc a d = None) ->
  bits_fields md P (m_native m) l off = true -> Forall (fun q => answering (snd q)) l -> forallb (fun q => settled md bo (snd q)) l = true ->
  fields_read (fun d => read hb md rec (PO c true d) m) l d off b = Some (d', k) ->
  (forall a v, assoc a d' = Some v -> assoc a D = Some v) ->
  exists vs, field_values l D = Some vs /\ List.length vs = List.length l /\ (forall x, In x (map snd l) -> nothing x = false) /\
    forallb (fun q => fitting allow recf (PO c false D) bo (fst q) [snd q]) (combine (map snd l) vs) = true.
Proof.
  intros l. induction l as [|[a x] l IH]; intros d off b d' k NU FR BF AN ST E KN; cbn [fields_read] in E.
  - exists []. split; [reflexivity|]. split; [reflexivity|]. split; [contradiction|reflexivity].
  - cbn [bits_fields snd] in BF. destruct (bits md P (m_native m) x off) as [off1|] eqn:B; [|discriminate]. cbn [map fst] in *. cbn [forallb snd] in ST. apply andb_prop in ST as [S1 S2].
    inversion NU as [|? ? NI NU']; subst. inversion AN as [|? ? AX AN']; subst. cbn [snd] in AX.
    destruct (read hb md rec (PO c true d) m x off b) as [[[vs o1] k1]|] eqn:R; [|discriminate]. cbn in E. rewrite (bits_takes _ _ _ _ _ _ B) in E.
    destruct vs as [|v [|]]; try discriminate. destruct (fields_read _ l _ o1 (adv k1 b)) as [[d2 k2]|] eqn:Q; [|discriminate]. injection E as <- <-.
    assert (AV : assoc a D = Some v) by (apply KN; rewrite (fields_keep _ _ _ _ _ _ _ Q a NI), assoc_set_eq, String.eqb_refl; reflexivity).
    assert (KD : forall a' v', assoc a' d = Some v' -> assoc a' D = Some v').
    { intros a' v' A. apply KN. assert (N : ~ In a' (a :: map fst l)) by (intros I; rewrite (FR a' I) in A; discriminate).
      rewrite (fields_keep _ _ _ _ _ _ _ Q a') by (intros I; apply N; now right). rewrite assoc_set_eq. destruct (String.eqb_spec a' a) as [->|]; [exfalso; apply N; now left|exact A]. }
    destruct (all_fit hb md P allow rec recf AL RB c d D PS KD x m bo off b [v] o1 k1 off1 B S1 AX R) as (-> & _ & _ & F).
    destruct (IH (assoc_set a v d) off1 (adv k1 b) d2 k2 NU') as (vs & FV & LV & NO & FF); auto.
    { intros a' I. rewrite assoc_set_eq. destruct (String.eqb_spec a' a) as [->|]; [contradiction|apply FR; now right]. }
    exists (v :: vs). unfold field_values in *. cbn [filter snd]. rewrite (bits_takes _ _ _ _ _ _ B). cbn [omap fst]. rewrite AV, FV. split; [reflexivity|]. split; [cbn; now rewrite LV|]. split.
    + intros y [<-|J]; [exact (bits_something _ _ _ _ _ _ B)|exact (NO y J)].
    + cbn [map snd combine forallb fst]. now rewrite (F v eq_refl).
Qed.
End Classes.
Theorem parse_fits : forall hb md allow sl P, (forall c, allow c c = true) -> lossless_classes hb md P sl -> settled_classes md P sl ->
  (forall c sc, nth_error sl c = Some sc -> NoDup (map fst (fields_of (sc_anns sc)))) ->
  forall n c b v k, P c = true -> parse hb md sl n c b = Some (v, k) -> exists d, v = VObj c None d /\ packable allow sl n c None d = true.
Proof.
  intros hb md allow sl P AL LC SC NU. induction n as [|n IH]; intros c b v k PC E; [discriminate|]. cbn [parse packable] in *. destruct (nth_error sl c) as [sc|] eqn:NS; [|discriminate]. cbn in E.
  destruct (fields_read _ _ _ _ b) as [[d k1]|] eqn:Q; [|discriminate]. injection E as <- <-. exists d. split; [reflexivity|]. destruct (LC c sc NS PC) as [BF AN]. destruct (SC c sc NS PC) as [AP ST].
  destruct (fields_fit hb md P allow (parse hb md sl n) (packable allow sl n) AL IH c (mode_of hb (sc_bo sc)) (sc_bo sc) d PC _ [] 0%nat b d k1 (NU c sc NS)) as (vs & FV & LV & NO & FF); auto.
  rewrite FV. apply sum_one; auto. now rewrite map_length.
Qed.
(** ... and it notices the end *)
Lemma settled_tight : forall md P x al bo off, here (bits md P al x off) = true -> settled md bo x = true -> tight md P true x = true.
Proof.
  intros md P. induction x using hx_ind'; intros al bo off B ST; cbn [bits tight settled] in *; try reflexivity; try discriminate.
  - destruct a as [cc|n|t| |]; cbn; try reflexivity; [|discriminate]. apply andb_prop in ST as [_ ST]. destruct md; congruence.
  - destruct (_ && here _) eqn:Q in B; [|discriminate]. apply andb_prop in Q as [_ Q]. eauto.
  - rewrite Forall_forall in H. apply andb_prop in ST as [_ ST]. rewrite forallb_forall in ST. apply forallb_forall. intros x I.
    match type of B with here (if ?g l 0%nat then _ else _) = _ => destruct (g l 0%nat) eqn:Q; [|discriminate] end.
    clear B. assert (G : exists o, here (bits md P true x o) = true); [|destruct G as [o G]; eauto]. revert Q. generalize 0%nat. clear H ST.
    induction l as [|y l IH]; [contradiction|]. intros o0 Q. apply andb_prop in Q as [_ Q]. destruct (bits md P true y o0) eqn:BY; [|discriminate].
    destruct I as [->|I]; [exists o0; now rewrite BY|eauto].
  - destruct (_ && here _) eqn:Q in B; [|discriminate]. apply andb_prop in Q as [_ Q]. apply andb_prop in ST as [_ ST]. eauto.
  - destruct (_ && _) eqn:Q in B; [|discriminate]. apply andb_prop in Q as [Q1 Q2]. apply andb_prop in ST as [S1 S2]. rewrite forallb_forall in Q1, S1. rewrite Forall_forall in *. apply andb_true_intro. split.
    + apply forallb_forall. intros q I. match goal with H : forall x, In x m -> _ |- _ => eapply (H q I); [exact (Q1 q I)|exact (S1 q I)] end.
    + destruct d as [y|]; [|reflexivity]. match goal with H : forall x, Some y = Some x -> _ |- _ => eapply (H y eq_refl); eauto end.
  - destruct (P c); [reflexivity|discriminate].
Qed.
Lemma settled_notices : forall hb md P sl, lossless_classes hb md P sl -> settled_classes md P sl -> notices md P sl.
Proof.
  intros hb md P sl LC SC c sc NS PC. destruct (LC c sc NS PC) as [BF _]. destruct (SC c sc NS PC) as [_ ST]. revert BF ST. generalize 0%nat.
  induction (fields_of (sc_anns sc)) as [|q l IH]; intros off BF ST; [reflexivity|].
  cbn [bits_fields forallb] in *. apply andb_prop in ST as [S1 S2]. destruct (bits md P _ (snd q) off) as [o1|] eqn:B; [|discriminate]. rewrite (IH _ BF S2), Bool.andb_true_r.
  eapply settled_tight; [|exact S1]. now rewrite B.
Qed.
