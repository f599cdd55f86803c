(** With enough stack the exception that FaultSpec.v gives is the one that is raised. *)
From Verif Require RoundTripMain.
From Verif Require Import Base Floats Value StructMod Format Ser Exec Pure BaseFacts StructFacts FormatFacts
  SerFacts Leaf Wire Field Fuel DecFacts RoundTrip Adding PropsAdd PropsBasic PropsStrings Hints HintFacts Surface SerShape Programs Accept AcceptProg
  WireSpec WireFacts Wires ReadSpec ReadFacts Reads FaultSpec Faults.

(** ** what is compared *)
(** An exception [q] that is expected, other than for want of stack, is the one raised, unless none is determined. *)
Definition ge (p q : option exn) : Prop := q = None \/ q = Some RecursionError \/ q = Some Unspecified \/ p = q.
Lemma ge_refl : forall p, ge p p.
Proof. unfold ge. auto. Qed.
Lemma ge_none : forall p, ge p None.
Proof. unfold ge. auto. Qed.
Lemma ge_stack : forall p, ge p (Some RecursionError).
Proof. unfold ge. auto. Qed.
Lemma ge_any : forall p, ge p (Some Unspecified).
Proof. unfold ge. auto. Qed.
Lemma ge_eq : forall p q, p = q -> ge p q.
Proof. intros p q ->. apply ge_refl. Qed.
Lemma ge_trans : forall p q r, ge p q -> ge q r -> ge p r.
Proof. unfold ge. intros p q r [A|[A|[A|A]]] [E|[E|[E|E]]]; subst; auto. Qed.
Lemma ge_lost : forall p q, ge None q -> q <> None -> ge p q.
Proof. unfold ge. intros p q [A|[A|[A|A]]] N; subst; auto. Qed.

Section Main.
Variable hb : bool.
Variable ct : nat -> option cdef.
Variable md : umode.
Variable TT : nat -> nat -> bool.
Variable rec : nat -> bytes -> option (value * Z).
Variable why : nat -> bytes -> option exn.
Variables L U : nat.
Hypothesis OB : forall c b, agree L U (fun n => opt (dcreate hb ct md n c b)) (rec c b).
Hypothesis EX : forall c b, why c b = None <-> rec c b <> None.
Hypothesis OG : forall c b n, (U <= n)%nat -> ge (err (dcreate hb ct md n c b)) (why c b).
Variable c : nat.
Variable o : pobj.
Definition raising (x : hx) : Prop := forall bo s off b n, made bo x s -> hc ct TT c s = true -> (U + height x <= n)%nat ->
  ge (serr hb ct md bo n s o off b) (fault hb md rec why o (mode_of hb bo) x off b).
Lemma char_raises : forall a bo s b n, char_made bo a s -> (1 <= n)%nat ->
  ge (err (pdec hb ct md n s o b)) (absent (string_of hb md (mode_of hb bo) a 0 b) (char_exn a)).
Proof.
  intros a bo s b n M N1. unfold pdec. rewrite (leaf_resolve o s (char_leaf _ _ _ M)). cbn [rbind]. destruct n as [|n]; [lia|].
  assert (AG : agree (S (S n)) 1 (fun n => sread hb ct md bo n s o 0 b) (string_of hb md (mode_of hb bo) a 0 b)) by (apply char_read; [exact M|lia]).
  apply agree_pdec in AG; [|apply (made_field (XChar a)); exact M|lia].
  destruct (string_of hb md (mode_of hb bo) a 0 b) as [[[vs o'] k]|]; cbn [absent]; [apply ge_none|].
  destruct (dec hb ct md (S n) s o b) as [r|e] eqn:D.
  - destruct (AG (S n) r) as [P _]. unfold pdec in P. rewrite (leaf_resolve o s (char_leaf _ _ _ M)) in P. cbn [rbind] in P. rewrite D in P.
    specialize (P ltac:(lia) eq_refl). discriminate P.
  - apply ge_eq. cbn [err]. f_equal. cbn [dec] in D. eapply char_plain; eauto.
Qed.
Lemma gets : forall x bo s off b n p, made bo x s -> hc ct TT c s = true -> (U + height x <= n)%nat ->
  read hb md rec o (mode_of hb bo) x off b = Some p -> sread hb ct md bo n s o off b = Some p.
Proof using OB.
  intros x bo s off b n p M H N E. destruct (all_shown hb ct md TT rec L U OB c o x bo s off b M H n p) as [_ P]. auto.
Qed.
Lemma gets_pdec : forall x bo s b n p, made bo x s -> hc ct TT c s = true -> (U + height x <= n)%nat ->
  body (read hb md rec o (mode_of hb bo) x 0 b) = Some p -> pdec hb ct md n s o b = Ok p.
Proof using OB.
  intros x bo s b n p M H N E. pose proof (shown_pdec hb ct md TT rec L U OB c o x bo s b (all_shown hb ct md TT rec L U OB c o x) M H) as AG.
  destruct (AG n p) as [_ P]. specialize (P N E). destruct (pdec hb ct md n s o b); [|discriminate P]. cbn in P. congruence.
Qed.
Lemma raising_pdec : forall x bo s b n, raising x -> made bo x s -> hc ct TT c s = true -> (U + height x <= n)%nat ->
  ge (err (pdec hb ct md n s o b)) (fault hb md rec why o (mode_of hb bo) x 0 b).
Proof.
  intros x bo s b n F M H N. pose proof (height_pos x) as HP. destruct n as [|n]; [lia|].
  rewrite (serr_pdec hb ct md bo n s o b) by (apply (made_field x); exact M). now apply F.
Qed.
Lemma unread : forall x m off b, read hb md rec o m x off b = None -> fault hb md rec why o m x off b <> None.
Proof using EX. intros x m off b R Q. apply (fault_exact hb md rec why EX) in Q. congruence. Qed.
Lemma rnode : forall bo s off b q n, (match s with SNull | SStruct _ => False | _ => True end) -> resolve false s o = Ok s -> (1 <= n)%nat ->
  (forall k, n = S k -> ge (err (dec_step hb ct md (dec hb ct md k) s o b)) q) -> ge (serr hb ct md bo n s o off b) q.
Proof.
  intros bo s off b q n K R N1 H. assert (E : serr hb ct md bo n s o off b = err (dec hb ct md n s o b)).
  { unfold serr, pdec. rewrite R. destruct s; try contradiction; reflexivity. }
  rewrite E. destruct n as [|k]; [lia|]. cbn [dec]. now apply H.
Qed.
Lemma items_ge : forall x bo i i' n, raising x -> made bo x i -> hc ct TT c i = true -> (U + height x <= n)%nat -> resolve false i o = Ok i' -> forall k b,
  ge (err (dec_items (dec hb ct md n) i' o k b)) (items_fault (read hb md rec o (mode_of hb bo) x) (fault hb md rec why o (mode_of hb bo) x) false k 0 b).
Proof using OB EX OG.
  intros x bo i i' n F M H N R k. induction k as [|k IH]; intros b; [apply ge_none|]. cbn [dec_items items_fault].
  pose proof (raising_pdec x bo i b n F M H N) as FP. pose proof (fun p => gets_pdec x bo i b n p M H N) as GP. unfold pdec in FP, GP. rewrite R in FP, GP. cbn [rbind] in FP, GP.
  pose proof (unread x (mode_of hb bo) 0 b) as UR.
  destruct (read hb md rec o (mode_of hb bo) x 0 b) as [[[vs' o'] z']|]; cbn [body] in *.
  - rewrite (GP _ eq_refl). cbn [rbind]. specialize (IH (adv z' b)). destruct (dec_items _ i' o k (adv z' b)) as [[rest z2]|]; exact IH.
  - destruct (dec hb ct md n i' o b) as [[vs z]|e]; cbn [rbind err] in *; [|exact FP]. apply ge_lost; auto.
Qed.
Lemma items_gets : forall x bo i i' n, made bo x i -> hc ct TT c i = true -> (U + height x <= n)%nat -> resolve false i o = Ok i' -> forall k b p,
  items_of (read hb md rec o (mode_of hb bo) x) false k 0 b = Some p -> dec_items (dec hb ct md n) i' o k b = Ok p.
Proof using OB.
  intros x bo i i' n M H N R k b p E.
  pose proof (items_agree hb ct md o (S L) (U + height x) i i' (read hb md rec o (mode_of hb bo) x)) as IA.
  specialize (IA ltac:(intros b'; apply (shown_pdec hb ct md TT rec L U OB c o x bo i b' (all_shown hb ct md TT rec L U OB c o x) M H)) R k b n p).
  destruct IA as [_ P]. specialize (P N E). destruct (dec_items _ _ _ _ _); [|discriminate P]. cbn in P. congruence.
Qed.
Lemma array_raising : forall n sz x, raising x -> raising (XArray n sz x).
Proof using OB EX OG.
  intros n sz x SH bo s off b fu M H N. cbn [made] in M. destruct M as (HO & i & MI & M). cbn [fault]. rewrite packed_eq.
  destruct (structy x && Nat.eqb (vals x) 1) eqn:P.
  - destruct M as (st & -> & M). apply andb_prop in P as [_ P]. apply Nat.eqb_eq in P.
    destruct (single_tok _ _ _ MI P) as (t & F & _ & B). assert (RP : repeatable (s_fmt st) = true) by (rewrite F; reflexivity).
    assert (MU : forall k, exists oo, ss_mul st (Z.of_nat k) = Ok oo /\
      forall b, err (dost hb oo b) = or_else (absent (items_of (read hb md rec o (mode_of hb bo) (bare x)) true k 0 b) StructError)
        (items_fault (read hb md rec o (mode_of hb bo) x) (fault hb md rec why o (mode_of hb bo) x) true k 0 b)).
    { intros k. destruct (mul_ok st k RP) as [oo MO]. exists oo. split; [exact MO|]. intros b'. rewrite (mul_fault hb st k oo b' RP MO).
      unfold ss_mode. rewrite B. now apply rep_fault with (bo := bo). }
    destruct n as [z|d].
    + subst s. destruct (MU (Z.to_nat z)) as (oo & MO & EQ). apply rnode; [exact I|reflexivity|cbn [height] in N; lia|]. intros k _. cbn [dec_step]. rewrite MO. cbn [rbind].
      change (adv 0 b) with b. rewrite <- (EQ b). apply ge_eq. destruct (dost hb oo b); reflexivity.
    + destruct M as [id ->]. pose proof HO as HO'. unfold head_ok in HO'. apply andb_prop in HO' as [SC _].
      apply rnode; [exact I|reflexivity|cbn [height] in N; lia|]. intros k _. cbn [dec_step].
      pose proof (dst_number hb bo d b SC) as D. pose proof (dst_plain hb (SS bo [T None d] None) b) as DP. set (cs := SS bo [T None d] None) in *.
      destruct (number_at (mode_of hb bo) d 0 b) as [[[z o'] j]|] eqn:NA.
      * destruct (dst hb cs b) as [vs|]; [|discriminate D]. cbn [rbind opt] in *. injection D as -> D. rewrite D. cbn [one rbind as_int as_index].
        destruct (number_pos _ _ _ _ _ _ _ NA) as [Z0 _]. destruct (MU (Z.to_nat z)) as (oo & MO & EQ). rewrite Z2Nat.id in MO by lia. rewrite MO. cbn [rbind].
        rewrite <- (EQ (adv j b)). apply ge_eq. destruct (dost hb oo (adv j b)); reflexivity.
      * destruct (dst hb cs b) as [vs|e]; [discriminate D|]. cbn [rbind err]. rewrite (DP e eq_refl eq_refl). apply ge_refl.
  - destruct M as [id ->]. cbn [hc] in H. apply andb_prop in H as [H _].
    apply rnode; [exact I|reflexivity|cbn [height] in N; lia|]. intros k EK. subst fu. cbn [height] in N. cbn [dec_step].
    pose proof (head_read hb bo n sz b HO) as HR. pose proof (fun e => head_fault hb bo n sz b e HO) as HF. cbv zeta in HR, HF.
    set (h := head_made bo n sz) in *. set (static := match n with inl z => z | inr _ => -1 end) in *.
    match type of HR with _ = ?e => set (hd := e) in * end.
    match goal with |- ge _ ?g => assert (E : g = match hd with None => Some StructError | Some (p, k) =>
      or_else (ready_fault o x) (match items_of (read hb md rec o (mode_of hb bo) x) false (Z.to_nat (fst p)) 0 (adv k b) with
        | None => items_fault (read hb md rec o (mode_of hb bo) x) (fault hb md rec why o (mode_of hb bo) x) false (Z.to_nat (fst p)) 0 (adv k b)
        | Some (_, k2) => err (check_data_size (snd p) k2) end) end) end.
    { subst hd. destruct (match n with inl z => Some (z, 0%nat, 0) | inr c => number_at (mode_of hb bo) c 0 b end) as [[[count off1] j]|]; [|reflexivity].
      destruct sz as [d|].
      - destruct (number_at (mode_of hb bo) d off1 (adv j b)) as [[[z o'] k1]|] eqn:NA; [|reflexivity]. cbn [fst snd].
        destruct (number_pos _ _ _ _ _ _ _ NA) as [Z0 _]. f_equal. destruct (items_of _ false _ 0 _) as [[vs k2]|]; [|reflexivity]. unfold check_data_size.
        destruct (0 <=? z) eqn:Q2; [|lia]. cbn [andb]. destruct (z =? k2); reflexivity.
      - cbn [fst snd]. destruct (items_of _ false _ 0 _) as [[vs k2]|]; reflexivity. }
    rewrite E. clear E.
    destruct (dost hb h b) as [hv|e] eqn:DH; cbn [rbind] in HR, HF |- *.
    2:{ cbn [opt] in HR. rewrite <- HR. cbn [err]. rewrite (HF e eq_refl). apply ge_refl. }
    destruct (header_unpack_values h static hv) as [[count ds]|e] eqn:DV; cbn [rbind] in HR, HF |- *.
    2:{ cbn [opt] in HR. rewrite <- HR. cbn [err]. rewrite (HF e eq_refl). apply ge_refl. }
    cbn [opt] in HR. rewrite <- HR. cbn [fst snd]. rewrite <- (ready_err o x bo i MI).
    destruct (resolve false i o) as [i'|e] eqn:RI; cbn [rbind err or_else]; [|apply ge_refl].
    pose proof (items_ge x bo i i' k SH MI H ltac:(lia) RI (Z.to_nat count) (adv (osize hb h) b)) as IL.
    pose proof (items_gets x bo i i' k MI H ltac:(lia) RI (Z.to_nat count) (adv (osize hb h) b)) as IG.
    pose proof (items_exact (read hb md rec o (mode_of hb bo) x) (fault hb md rec why o (mode_of hb bo) x) false (fun off' b' => fault_exact hb md rec why EX o x (mode_of hb bo) off' b') (Z.to_nat count) 0 (adv (osize hb h) b)) as IE.
    destruct (items_of _ false _ 0 _) as [[vs z]|].
    + rewrite (IG _ eq_refl). cbn [rbind]. apply ge_eq. destruct (check_data_size ds z); reflexivity.
    + destruct (dec_items (dec hb ct md k) i' o (Z.to_nat count) (adv (osize hb h) b)) as [[vs z]|e]; cbn [rbind err] in *; [|exact IL].
      apply ge_lost; [exact IL|]. intros Q. now apply IE in Q.
Qed.

(** sums of fields *)
Lemma sum_ge : forall bo St give at_obj, (forall st, give [] st = Some st) ->
  (forall a c st, give (a ++ c) st = odo st' <- give a st; give c st') ->
  forall l n b (st : St), Forall (field_ok bo) l -> Forall atom (runs l) -> (1 <= n)%nat ->
  ge (perr hb ct md St give at_obj n (runs l) b st) (gerr hb ct md bo St give at_obj n l 0 b st).
Proof using.
  intros bo St give at_obj G1 G2 l n b st F A N1. destruct n as [|n]; [now apply Nat.nle_succ_0 in N1|].
  apply gerr_parts with (rl := ge); [exact G1|exact G2|exact ge_refl|exact ge_any|exact ge_trans|exact F|exact A].
Qed.
Lemma members_ge : forall bo xs H, (forall x, In x xs -> (height x <= H)%nat) -> Forall raising xs -> forall l,
  all2 (made bo) xs l -> forallb (hc ct TT c) l = true -> forall n off b acc, (U + H <= n)%nat ->
  ge (gerr hb ct md bo (list value) gather (fun _ => o) n l off b acc)
     (members_fault (read hb md rec o (mode_of hb bo)) (fault hb md rec why o (mode_of hb bo)) xs off b).
Proof using OB EX OG.
  intros bo xs H HL SH. induction SH as [|x xs SX SH IH]; intros [|s l] A HC n off b acc N; try contradiction; [apply ge_none|].
  pose proof (short_cut hb md rec o bo (x :: xs) (s :: l) A off b) as SC. pose proof (HL x (or_introl eq_refl)) as HX.
  destruct A as [A1 A2]. cbn in HC. apply andb_prop in HC as [HC1 HC2]. cbn [gerr members_fault]. rewrite SC.
  destruct (cut_off _ (x :: xs) off b); [apply ge_refl|].
  pose proof (SX bo s off b n A1 HC1 ltac:(lia)) as GE. pose proof (fun p => gets x bo s off b n p A1 HC1 ltac:(lia)) as GO.
  pose proof (unread x (mode_of hb bo) off b) as UR. pose proof (proj2 (sread_serr hb ct md bo n s o off b)) as SS.
  destruct (read hb md rec o (mode_of hb bo) x off b) as [[[vs off'] k]|].
  - rewrite (GO _ eq_refl). unfold gather at 1. apply IH; auto. intros y I. apply HL. now right.
  - destruct (sread hb ct md bo n s o off b) as [p|]; [|exact GE]. rewrite (SS ltac:(discriminate)) in GE. destruct p as [[vs off'] k]. apply ge_lost; auto.
Qed.
Lemma tuple_raising : forall l, Forall raising l -> raising (XTuple l).
Proof using OB EX OG.
  intros l SH bo s off b n M H N. cbn [made] in M. destruct M as (fin & id & id' & sers & i & -> & SM & A). cbn [hc] in H. apply andb_prop in H as [H _].
  pose proof (all2_field _ _ _ A) as F.
  destruct (ssum_rel fin id' sers i) as (FL & R & OK); auto.
  { eapply Forall_impl; [|exact F]. intros s (_ & _ & Q & _). exact Q. }
  { apply forallb_forall. rewrite Forall_forall in F. intros s I. apply (F s I). }
  { eapply fields_lossless; eauto. }
  assert (HC : forallb (hc ct TT c) sers = true).
  { apply runs_back; [reflexivity|reflexivity|]. eapply rel_back; [reflexivity|exact R|]. now apply hc_parts. }
  cbn [fault]. apply rnode; [exact I|reflexivity|cbn [height] in N; lia|]. intros k EK. subst n. cbn [height] in N. cbn [dec_step].
  assert (SUB : forall j, (U + fold_right (fun y n => Nat.max (height y) n) 1 l <= j)%nat -> ge (err (dec_subs (dec hb ct md j) (Some o) o (parts i) b)) (members_fault (read hb md rec o (machine hb)) (fault hb md rec why o (machine hb)) l 0 b)).
  { intros j J. rewrite (rel_dec hb ct md j (Some o) o _ _ b R), <- (perr_subs hb ct md o j (runs sers) b []).
    eapply ge_trans; [apply sum_ge with (bo := BO_DEFAULT)|].
    - intros st. unfold gather. now rewrite app_nil_r.
    - intros a1 a2 st. unfold gather. now rewrite app_assoc.
    - exact F.
    - apply OK.
    - assert (1 <= fold_right (fun y n => Nat.max (height y) n) 1 l)%nat by (clear; induction l; cbn [fold_right]; lia). lia.
    - change (machine hb) with (mode_of hb BO_DEFAULT). apply members_ge with (H := fold_right (fun y n => Nat.max (height y) n) 1%nat l); auto. intros x I. now apply (fold_max height). }
  assert (E : err (rdo i' <- resolve false i o; rdo (vs, k0) <- dec hb ct md k i' o b; Ok ([VTuple vs], k0)) = err (pdec hb ct md k i o b)).
  { unfold pdec. destruct (resolve false i o) as [i'|]; [|reflexivity]. cbn [rbind]. destruct (dec hb ct md k i' o b) as [[vs z]|]; reflexivity. }
  rewrite E. clear E. destruct (match i with SNull | SCompound _ _ => true | _ => false end) eqn:K.
  - destruct i; try discriminate K; unfold pdec; cbn [resolve parts].
    + destruct k; [lia|]. exact (SUB (S k) ltac:(lia)).
    + destruct (existsb needs_pre subs) eqn:E; cbn [rbind]; (destruct k as [|k]; [lia|]); cbn [dec dec_step].
      * apply SUB. lia.
      * rewrite dec_subs_none by exact E. apply SUB. lia.
  - assert (P : parts i = [i]) by (destruct i; try reflexivity; try discriminate K; contradiction). specialize (SUB k ltac:(lia)). rewrite P in SUB.
    cbn [dec_subs oresolve octx] in SUB. unfold pdec. destruct (resolve false i o) as [i'|]; [|exact SUB]. cbn [rbind] in *.
    destruct (dec hb ct md k i' o b) as [[vs z]|]; exact SUB.
Qed.

(** unions *)
Lemma pick_ge : forall m ms d ds b r n H,
  all2 (fun p q => fst p = fst q /\ made BO_DEFAULT (snd p) (snd q)) m ms ->
  match d, ds with None, None => True | Some y, Some t => made BO_DEFAULT y t | _, _ => False end ->
  Forall (fun p => raising (snd p)) m -> (forall x, d = Some x -> raising x) ->
  forallb (fun p => hc ct TT c (snd p)) ms = true -> match ds with Some x => hc ct TT c x | None => true end = true ->
  (forall p, In p m -> (height (snd p) <= H)%nat) -> (forall x, d = Some x -> (height x <= H)%nat) -> (U + H <= n)%nat ->
  ge (err (rdo s0 <- choose ms ds r; rdo x' <- resolve false s0 o; dec hb ct md n x' o b))
    (if hashable r then pick_fault (fun y => fault hb md rec why o (machine hb) y 0 b) d r m else Some TypeError).
Proof.
  intros m ms d ds b r n H A D SM SD HM HD LM LD N. unfold choose. destruct (hashable r); [|apply ge_refl].
  assert (ONE : forall x s, made BO_DEFAULT x s -> raising x -> hc ct TT c s = true -> (height x <= H)%nat ->
    ge (err (rdo x' <- resolve false s o; dec hb ct md n x' o b)) (fault hb md rec why o (machine hb) x 0 b)).
  { intros x s M SX HC HX. exact (raising_pdec x BO_DEFAULT s b n SX M HC ltac:(lia)). }
  revert ms A HM LM. induction SM as [|[k x] m SX SM IH]; intros [|[k' s] ms] A HM LM; try contradiction.
  - cbn [map_find pick_fault]. destruct d as [y|], ds as [t|]; try contradiction; [|apply ge_refl]. cbn [rbind]. apply ONE; auto.
  - destruct A as [[A1 A2] A3]. cbn [fst snd] in *. subst k'. cbn in HM. apply andb_prop in HM as [HM1 HM2]. cbn [map_find pick_fault].
    destruct (key_eqb r k); [|apply IH; auto; intros p I; apply LM; now right]. cbn [rbind]. apply ONE; auto. exact (LM _ (or_introl eq_refl)).
Qed.
Theorem all_raising : forall x, raising x.
Proof using OB EX OG.
  induction x using hx_ind'.
  1-3: intros bo sr off b n' M H N; pose proof (made_kind _ _ _ M) as K; destruct sr; try discriminate K;
    cbn [serr]; [|apply ge_eq; now apply struct_fault with (bo := bo)].
  1-3: apply ge_eq; symmetry; apply (fault_exact hb md rec why EX); rewrite (null_read hb md rec o _ _ (mode_of hb bo) off b M); discriminate.
  6: intros bo sr off b n' M H N; pose proof M as M0; cbn [made] in M; destruct M as (st & st' & -> & _); cbn [serr]; apply ge_eq; now apply struct_fault with (bo := bo).
  - intros bo sr off b n M H N. pose proof (made_kind _ _ _ M) as K. cbn [height] in N.
    destruct sr; try (cbn [fault]; replace (string_of hb md (mode_of hb bo) a off b) with (string_of hb md (mode_of hb bo) a 0 b)
               by (destruct a; try reflexivity; discriminate K); exact (char_raises a bo _ b n M ltac:(lia))).
    + apply ge_eq. symmetry. apply (fault_exact hb md rec why EX). rewrite (null_read hb md rec o _ _ (mode_of hb bo) off b M). discriminate.
    + apply ge_eq. exact (struct_fault hb md rec why o (XChar a) bo st (mode_of hb bo) off b M).
  - intros bo sr off b n M H N. cbn [made fault height] in *. destruct M as (i & -> & M). apply rnode; [exact I|reflexivity|lia|]. intros k EK. cbn [dec_step].
    subst n.
    pose proof (char_raises a BO_DEFAULT i b k M ltac:(lia)) as CF. change (mode_of hb BO_DEFAULT) with (machine hb) in CF.
    assert (AG : agree (S k) 1 (fun n => sread hb ct md BO_DEFAULT n i o 0 b) (string_of hb md (machine hb) a 0 b)) by (apply (char_read hb ct md a BO_DEFAULT); [exact M|lia]).
    apply agree_pdec in AG; [|apply (made_field (XChar a)); exact M|lia].
    unfold pdec in CF, AG. rewrite (leaf_resolve o i (char_leaf _ _ _ M)) in CF, AG. cbn [rbind] in CF, AG.
    destruct (string_of hb md (machine hb) a 0 b) as [[[vs o'] z]|] eqn:SO.
    + destruct (AG k (vs, z)) as [_ P]. specialize (P ltac:(lia) eq_refl). destruct (dec hb ct md k i o b) as [q|]; [|discriminate P]. cbn in P. injection P as ->. cbn [rbind].
      destruct vs as [|v vs]; [apply ge_refl|]. destruct (string_bytes _ _ _ _ _ _ _ _ _ _ SO) as [y ->]. cbn [nth0 rbind as_bytes].
      apply ge_eq. destruct (cod_dec cd y); reflexivity.
    + cbn [absent] in CF. destruct (dec hb ct md k i o b) as [[vs z]|e]; cbn [rbind err] in *; [|exact CF]. apply ge_lost; [exact CF|discriminate].
  - now apply array_raising.
  - now apply tuple_raising.
  - intros bo sr off b n M H N. cbn [made fault height] in *. destruct M as (i & -> & M & LD). cbn [hc] in H. apply andb_prop in H as [H1 H2].
    cbn [serr]. unfold pdec. cbn [resolve]. unfold cond_fault. destruct (f o) as [r|]; [|apply ge_refl]. cbn [rbind]. unfold cond_branch.
    destruct (key_eqb r (VBool true)); cbn [orb or_else].
    + cbn [rbind]. pose proof (raising_pdec x bo i b n IHx M H1 N) as FP. unfold pdec in FP.
      assert (E : resolve false i o = Ok i) by (destruct i; try discriminate H2; reflexivity). rewrite E in FP. exact FP.
    + destruct (key_eqb r (VBool false)); cbn [or_else]; [|destruct (hashable r); apply ge_refl]. apply ge_none.
  - intros bo sr off b n M H2 N. cbn [made fault height] in *. destruct M as (id' & ms & ds & -> & A & D). cbn [hc] in H2. apply andb_prop in H2 as [HC1 HC2].
    apply rnode; [exact I|reflexivity|lia|]. intros k EK. subst n. cbn [dec_step]. destruct (f o) as [r|]; [|apply ge_refl]. cbn [rbind].
    match type of N with (_ + S ?h <= _)%nat => apply pick_ge with (ms := ms) (ds := ds) (H := h); auto; [| |lia] end.
    + intros p I. apply (fold_max (fun p => height (snd p))) in I. lia.
    + intros x ->. lia.
  - intros bo sr off b n M H2 N. cbn [made fault height] in *. destruct M as (id' & r & ms & ds & -> & MR & A & D). cbn [hc] in H2. apply andb_prop in H2 as [H2 HC2]. apply andb_prop in H2 as [LF HC1].
    apply rnode; [exact I|reflexivity|lia|]. intros k EK. subst n. cbn [dec_step].
    pose proof (raising_pdec x BO_DEFAULT r b k IHx MR (leaf_hc ct TT c r LF) ltac:(lia)) as FP.
    pose proof (fun p => gets_pdec x BO_DEFAULT r b k p MR (leaf_hc ct TT c r LF) ltac:(lia)) as GP.
    pose proof (unread x (machine hb) 0 b) as UR. change (mode_of hb BO_DEFAULT) with (machine hb) in *.
    unfold pdec in FP, GP. rewrite (leaf_resolve o r LF) in FP, GP. cbn [rbind] in FP, GP.
    destruct (read hb md rec o (machine hb) x 0 b) as [[[rs o'] z]|]; cbn [body] in *.
    + rewrite (GP _ eq_refl). cbn [rbind]. destruct rs as [|v rs]; [apply ge_refl|]. cbn [nth0 rbind].
      match type of N with (_ + S ?h <= _)%nat => apply pick_ge with (ms := ms) (ds := ds) (H := h); auto; [| |lia] end.
      * intros p I. apply (fold_max (fun p => height (snd p))) in I. lia.
      * intros y ->. lia.
    + destruct (dec hb ct md k r o b) as [[rs z]|e]; cbn [rbind err] in *; [|exact FP]. apply ge_lost; auto.
  - intros bo sr off b n M H N. cbn [made fault height] in *. destruct M as (id & ->). apply rnode; [exact I|reflexivity|lia|]. intros k EK. subst n. cbn [dec_step].
    pose proof (OG c0 b k ltac:(lia)) as Q. unfold dcreate in Q. destruct (dcreate_step _ _ _ _) as [[? ?]|]; exact Q.
  - intros bo sr off b n M H N. cbn [made fault height] in *. destruct M as (id & ->). cbn [serr]. unfold pdec. cbn [resolve]. unfold self_class, self_fault.
    destruct (assoc "cls" (p_attrs o)); [apply ge_refl|]. destruct (p_proxy o); [|apply ge_refl]. cbn [rbind or_else]. destruct n as [|k]; [lia|]. cbn [dec dec_step].
    pose proof (OG (p_cls o) b k ltac:(lia)) as Q. unfold dcreate in Q. destruct (dcreate_step _ _ _ _) as [[? ?]|]; exact Q.
  - intros bo sr off b n M. contradiction.
  - intros bo sr off b n M. contradiction.
Qed.
End Main.

(** ** classes *)
Lemma ofill_ge : forall hb ct md c px n ctx l b nm d,
  ge (err (ofill hb ct md n (PO c px []) ctx l b nm d)) (perr hb ct md nmd put_all (seen c px) (S n) l b (nm, d)).
Proof.
  intros hb ct md c px n ctx. induction l as [|s l IH]; intros b nm d; [apply ge_none|]. rewrite ofill_cons. cbn [perr]. unfold pdec, seen at 1. cbn [snd p_cls p_proxy].
  destruct (resolve false s (PO c px d)) as [s'|]; [|apply ge_refl]. cbn [rbind].
  change (seen c px (nm, d)) with (PO c px d).
  destruct (dec hb ct md (S n) s' (PO c px d) b) as [[vs k]|]; [|apply ge_refl]. cbn [rbind]. unfold put_all at 1. cbn [fst snd].
  destruct (assign nm vs d) as [[nm'|] d']; [|apply ge_any]. specialize (IH (adv k b) nm' d').
  destruct (ofill _ _ _ _ _ _ _ _ _ _) as [[nd z]|]; exact IH.
Qed.
Section ClassRaise.
Variable hb : bool.
Variable md : umode.
Variables (sl : list sclass) (l : list cinfo).
Hypothesis CR : classes_rel sl l.
Hypothesis RG : forallb regular_class sl = true.
Variable TT : nat -> nat -> bool.
Let ct := classes l.
Hypothesis HC : forall c cd, ct c = Some cd -> hc ct TT c (c_ser cd) = true.
Section One.
Variable rec : nat -> bytes -> option (value * Z).
Variable why : nat -> bytes -> option exn.
Variables L U : nat.
Hypothesis OB : forall c b, agree L U (fun n => opt (dcreate hb ct md n c b)) (rec c b).
Hypothesis EX : forall c b, why c b = None <-> rec c b <> None.
Hypothesis OG : forall c b n, (U <= n)%nat -> ge (err (dcreate hb ct md n c b)) (why c b).
Variable c : nat.
Variable bo : border.
Let f := fun d => read hb md rec (PO c true d) (mode_of hb bo).
Let g := fun d => fault hb md rec why (PO c true d) (mode_of hb bo).
Lemma fields_ge : forall fl H, lined fl -> (forall x, In x (map snd fl) -> (height x <= H)%nat) ->
  forall sers, all2 (made bo) (map snd fl) sers -> forallb (hc ct TT c) sers = true ->
  forall n off b d, (U + H <= n)%nat ->
  ge (gerr hb ct md bo nmd put_all (seen c true) n sers off b (names_of fl, d)) (fields_fault f g fl d off b).
Proof using OB EX OG.
  clear CR RG HC. induction fl as [|[a x] fl IH]; intros HH LN HL [|s sers] A H n off b d N; try contradiction; [apply ge_none|].
  pose proof (short_cut hb md rec (PO c true d) bo (map snd ((a, x) :: fl)) (s :: sers) A off b) as SC. cbn [map snd] in A, SC.
  destruct A as [A1 A2]. cbn in H. apply andb_prop in H as [H1 H2]. assert (LN' : lined fl) by (intros p I; apply LN; now right).
  assert (HL' : forall x, In x (map snd fl) -> (height x <= HH)%nat) by (intros y I; apply HL; now right).
  pose proof (HL x (or_introl eq_refl)) as HX.
  cbn [gerr fields_fault map snd]. rewrite SC. fold (f d). destruct (cut_off _ (x :: map snd fl) off b); [apply ge_refl|].
  change (seen c true (names_of ((a, x) :: fl), d)) with (PO c true d).
  pose proof (all_raising hb ct md TT rec why L U OB EX OG c (PO c true d) x bo s off b n A1 H1 ltac:(lia)) as GE.
  pose proof (fun p => gets hb ct md TT rec L U OB c (PO c true d) x bo s off b n p A1 H1 ltac:(lia)) as GO.
  pose proof (unread hb md rec why EX (PO c true d) x (mode_of hb bo) off b) as UR.
  pose proof (proj2 (sread_serr hb ct md bo n s (PO c true d) off b)) as SS.
  change (fault hb md rec why (PO c true d) (mode_of hb bo) x off b) with (g d x off b) in GE, UR.
  change (read hb md rec (PO c true d) (mode_of hb bo) x off b) with (f d x off b) in GO, UR.
  destruct (f d x off b) as [[[vs off'] k]|].
  - rewrite (GO _ eq_refl). unfold put_all at 1. cbn [fst snd]. destruct (padding x) eqn:P.
    + assert (TK : takes x = false) by (destruct x; try discriminate P; reflexivity). rewrite TK.
      destruct vs as [|v [|]]; try apply ge_any. rewrite assign_nil.
      assert (NM : names_of ((a, x) :: fl) = names_of fl) by (unfold names_of; cbn [filter snd]; now rewrite P). rewrite NM. now apply IH with (H := HH).
    + assert (TK : takes x = true) by (destruct (LN (a, x) (or_introl eq_refl)) as [Q|Q]; cbn [snd] in Q; congruence). rewrite TK.
      assert (NM : names_of ((a, x) :: fl) = a :: names_of fl) by (unfold names_of; cbn [filter snd]; now rewrite P). rewrite NM.
      destruct vs as [|v [|]]; try apply ge_any. cbn [assign]. rewrite assign_nil. now apply IH with (H := HH).
  - destruct (sread hb ct md bo n s (PO c true d) off b) as [[[vs off'] k]|]; [|exact GE]. rewrite (SS ltac:(discriminate)) in GE. apply ge_lost; auto.
Qed.
End One.
(** For each depth of nested classes there is a stack with which the exception given for it is raised. *)
Theorem create_ge : forall L, exists B, forall n c b, (B <= n)%nat -> ge (err (dcreate hb ct md n c b)) (why_unread hb md sl L c b).
Proof using CR RG HC.
  induction L as [|L [B IH]]; [exists 0%nat; intros n c b _; apply ge_stack|].
  destruct (parse_agree hb md sl l CR RG TT HC L) as [U0 OB0]. set (U := Nat.max U0 B).
  set (rec := parse hb md sl L) in *. set (why := why_unread hb md sl L) in *.
  assert (OB : forall c b, agree L U (fun n => opt (dcreate hb ct md n c b)) (rec c b)) by (intros c b; eapply agree_weak; [| |apply OB0]; lia).
  assert (OG : forall c b n, (U <= n)%nat -> ge (err (dcreate hb ct md n c b)) (why c b)) by (intros c b n H; apply IH; lia).
  assert (EX : forall c b, why c b = None <-> rec c b <> None) by (intros; apply parse_exact).
  exists (U + top sl)%nat. intros n c b N. cbn [why_unread]. fold why.
  pose proof (top_pos hb md sl l RG TT HC rec L U OB) as TP.
  destruct (nth_error sl c) as [sc|] eqn:NS.
  2:{ assert (NI : nth_error l c = None) by (apply nth_error_None; destruct CR as [LEN _]; apply nth_error_None in NS; lia).
      unfold dcreate, dcreate_step, ct, classes. rewrite NI. apply ge_refl. }
  destruct (nth_error l c) as [i|] eqn:NI.
  2:{ exfalso. apply nth_error_None in NI. destruct CR as [LEN _]. assert (c < List.length sl)%nat by (apply nth_error_Some; congruence). lia. }
  destruct (class_facts sl l CR RG TT HC c sc i NS NI) as (sers & AT & ND & A2 & HS & FL & RL & ATM & LN & RX).
  assert (CT : ct c = Some (ci_def i)) by (unfold ct, classes; now rewrite NI).
  assert (FO : Forall (field_ok (sc_bo sc)) sers) by (eapply all2_field; eauto).
  cbv zeta. set (fl := fields_of (sc_anns sc)) in *.
  pose proof (fields_ge rec why L U OB EX OG c (sc_bo sc) fl (top sl) LN
    (fun x I => top_bound hb md sl l RG TT HC rec L U OB c sc x NS I) sers A2 HS n 0 b [] N) as FGE.
  assert (SUM : ge (perr hb ct md nmd put_all (seen c true) n (runs sers) b (names_of fl, []))
                   (gerr hb ct md (sc_bo sc) nmd put_all (seen c true) n sers 0 b (names_of fl, []))).
  { apply sum_ge; auto using put_nil, put_app. lia. }
  destruct n as [|n]; [lia|].
  pose proof (fill_eq hb ct md n c TT (c_ser (ci_def i)) b (c_attrs (ci_def i)) FL (HC c _ CT)) as FE. cbv zeta in FE.
  rewrite (rel_fill hb ct md n (PO c true []) (PO c true []) _ _ b _ [] RL), AT in FE. fold fl in FE.
  pose proof (ofill_ge hb ct md c true n (PO c true []) (runs sers) b (names_of fl) []) as OP.
  pose proof (ge_trans _ _ _ (ge_trans _ _ _ OP SUM) FGE) as G. clear OP SUM FGE.
  unfold dcreate, dcreate_step. rewrite CT, AT. fold fl.
  match type of G with ge _ ?e => set (q := e) in * end. match goal with |- ge _ ?e => change e with q end.
  destruct (ofill hb ct md n (PO c true []) (PO c true []) (runs sers) b (names_of fl) []) as [[[nm d] z]|e]; cbn [err] in G.
  - destruct q as [e|]; [|apply ge_none]. apply ge_lost; [exact G|discriminate].
  - destruct (resolve false (c_ser (ci_def i)) (PO c true [])) as [x|e1]; cbn [rbind] in *; [|injection FE as ->; exact G].
    destruct (dfill _ x _ b (names_of fl) []) as [[k|e1] d1]; [discriminate FE|]. injection FE as ->. exact G.
Qed.
End ClassRaise.
