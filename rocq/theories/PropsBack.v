(** Property C58: what was read from arbitrary bytes is written back as those bytes (BackSpec.v says for which class
    statements). *)
From Verif Require Import Base Floats Value StructMod Format Ser Exec Pure BaseFacts SerFacts RefPack RefUnpack User Fuel DecFacts Sample
  Canon RoundTrip PropsRoundTrip Wire Hints HintFacts Surface SerShape Programs Accept AcceptProg PropsProgram PropsAccept WireSpec WireFacts Wires
  PropsWire PackSpec PropsPack ReadSpec ReadFacts Reads PropsReads LocalSpec Locals PropsLocal BackSpec Backs BackFits.
Open Scope string_scope. Open Scope list_scope. Open Scope Z_scope.

Lemma distinct : forall idf fac prog l sl md, reading idf fac prog l sl md ->
  forall c sc, nth_error sl c = Some sc -> NoDup (map fst (fields_of (sc_anns sc))).
Proof.
  intros idf fac prog l sl md (R & CK & _) c sc NS. pose proof (prog_rel idf fac prog [] [] 0 nothing_defined) as PR. rewrite CK in PR.
  destruct PR as (l' & Q & LEN & CR). assert (l' = l) as -> by congruence.
  destruct (nth_error l c) as [i|] eqn:NI; [|apply nth_error_None in NI; assert (c < List.length sl)%nat by (apply nth_error_Some; congruence); lia].
  destruct (CR c sc i NS NI) as (DR & _). unfold fields_of. apply filter_nodup.
  assert (E : map fst (sc_anns sc) = map fst (get_type_hints (ci_mro i))).
  { clear -DR. induction DR as [|p q x y [E _] DR IH]; [reflexivity|]. cbn. now rewrite E, IH. }
  rewrite E. apply hints_nodup.
Qed.
(** what [v] is packed to, by any call that succeeds *)
Definition packs_only (hb : bool) (l : list cinfo) (v : value) (taken : bytes) : Prop :=
  forall allow n w b, healthy (classes l) allow -> conforms hb (classes l) allow n v ->
    fst (Structured_pack hb (classes l) n v w) = Ok b -> b = taken.
(** what [v] is packed to, by all calls with enough stack; [pack_write] and [pack_into] over those bytes change nothing *)
Definition packs_back (hb : bool) (l : list cinfo) (v : value) (taken : bytes) : Prop :=
  exists N, forall n w, (N <= n)%nat ->
    fst (Structured_pack hb (classes l) n v w) = Ok taken /\
    (forall pre rest, w_data w = pre ++ taken ++ rest -> w_pos w = blen pre ->
      fst (Structured_pack_write hb (classes l) n v w) = Ok [] /\ w_data (snd (Structured_pack_write hb (classes l) n v w)) = w_data w) /\
    (forall pre rest, w_buf w = pre ++ taken ++ rest ->
      fst (Structured_pack_into hb (classes l) n v (blen pre) w) = Ok [] /\ w_buf (snd (Structured_pack_into hb (classes l) n v (blen pre) w)) = w_buf w).
Lemma back_only : forall hb md idf fac prog l sl P n c b v k, reading idf fac prog l sl md -> lossless_classes hb md P sl -> P c = true ->
  parse hb md sl n c b = Some (v, k) -> k <= blen b -> no_nan v = true -> packs_only hb l v (firstn (Z.to_nat k) b).
Proof.
  intros hb md idf fac prog l sl P n c b v k R LC PC E LE NN allow n' w' b' H CF PK.
  destruct (parse_back hb md sl P LC (distinct _ _ _ _ _ _ R) n c b v k PC E LE NN) as (d & -> & W). destruct R as (RN & CK & RG & _).
  pose proof (C44_pack hb idf fac prog l sl allow n' c None d w' b' RN CK RG H CF PK) as W'.
  apply (wire_mono hb sl n (Nat.max n (S n'))) in W; [|lia]. apply (wire_mono hb sl (S n') (Nat.max n (S n'))) in W'; [|lia]. congruence.
Qed.
Lemma over_same : forall (pre taken rest : bytes), overwrite (pre ++ taken ++ rest) (blen pre) taken = pre ++ taken ++ rest.
Proof.
  intros pre taken rest. unfold overwrite, blen. rewrite Nat2Z.id, firstn_app, Nat.sub_diag, firstn_all. cbn [firstn]. rewrite app_nil_r. f_equal. f_equal.
  rewrite app_assoc, <- app_length, skipn_app, skipn_all, Nat.sub_diag. reflexivity.
Qed.
Lemma back_always : forall hb md idf fac prog l sl allow P n c b v k, reading idf fac prog l sl md -> healthy (classes l) allow -> (forall d, allow d d = true) ->
  lossless_classes hb md P sl -> settled_classes md P sl -> P c = true ->
  parse hb md sl n c b = Some (v, k) -> k <= blen b -> no_nan v = true -> packs_back hb l v (firstn (Z.to_nat k) b).
Proof.
  intros hb md idf fac prog l sl allow P n c b v k R H AL LC ST PC E LE NN.
  destruct (parse_back hb md sl P LC (distinct _ _ _ _ _ _ R) n c b v k PC E LE NN) as (d & -> & W).
  destruct (parse_fits hb md allow sl P AL LC ST (distinct _ _ _ _ _ _ R) n c b _ k PC E) as (d' & V & F). injection V as <-.
  destruct R as (RN & CK & RG & _). destruct (C49_enough hb idf fac prog l sl allow n n c None d _ RN CK RG H W F) as [N EN]. exists N. intros n' w' L.
  destruct (EN n' w' L) as (_ & E1 & E2 & E3). split; [exact E1|]. split.
  - intros pre rest D Q. destruct E2 as [E2 E2']; [rewrite Q; apply blen_nonneg|]. split; [exact E2|]. rewrite E2', D, Q. unfold sput.
    destruct (firstn (Z.to_nat k) b) as [|y t] eqn:F0; [reflexivity|]. rewrite <- F0.
    replace (Z.to_nat (blen pre - blen (pre ++ firstn (Z.to_nat k) b ++ rest))) with 0%nat by (unfold blen; rewrite !app_length; lia). cbn [zeros repeat]. rewrite app_nil_r. apply over_same.
  - intros pre rest D. destruct (E3 (blen pre) (blen_nonneg _)) as [E4 E5]; [rewrite D; unfold blen; rewrite !app_length; lia|]. split; [exact E4|]. rewrite E5, D. apply over_same.
Qed.

(** What [create_unpack] read is packed to the bytes it was read from, whenever it is packed at all. *)
Theorem C58_unpack : forall hb idf fac prog l sl P n c b w v, reading idf fac prog l sl UBuf ->
  lossless_classes hb UBuf P sl -> notices UBuf P sl -> P c = true ->
  fst (create_unpack hb (classes l) n c b w) = Ok v -> no_nan v = true ->
  exists taken rest, b = taken ++ rest /\ packs_only hb l v taken.
Proof.
  intros hb idf fac prog l sl P n c b w v R LC NT PC E NN. destruct (C46_create_unpack _ _ _ _ _ _ _ _ _ _ _ R E) as [k K].
  pose proof (parse_tight _ _ _ _ NT _ _ _ _ _ PC K) as LE. exists (firstn (Z.to_nat k) b), (skipn (Z.to_nat k) b).
  split; [now rewrite firstn_skipn|]. eapply back_only; eauto.
Qed.
Print Assumptions C58_unpack.
Theorem C58_unpack_from : forall hb idf fac prog l sl P n c b off w v, reading idf fac prog l sl UFrom ->
  lossless_classes hb UFrom P sl -> P c = true -> 0 <= off <= blen b ->
  fst (create_unpack_from hb (classes l) n c b off w) = Ok v -> no_nan v = true ->
  exists pre taken rest, b = pre ++ taken ++ rest /\ blen pre = off /\ packs_only hb l v taken.
Proof.
  intros hb idf fac prog l sl P n c b off w v R LC PC OFF E NN. destruct (C46_create_unpack_from _ _ _ _ _ _ _ _ _ _ _ _ R OFF E) as [k K].
  pose proof (parse_tight _ _ _ _ (lossless_notices hb UFrom P sl ltac:(discriminate) LC) _ _ _ _ _ PC K) as LE.
  exists (firstn (Z.to_nat off) b), (firstn (Z.to_nat k) (skipn (Z.to_nat off) b)), (skipn (Z.to_nat k) (skipn (Z.to_nat off) b)).
  split; [now rewrite !firstn_skipn|]. split; [unfold blen in *; rewrite firstn_length; lia|]. eapply back_only; eauto.
Qed.
Print Assumptions C58_unpack_from.
(** On a stream: the bytes between where it was and where it is left. *)
Theorem C58_unpack_read : forall hb idf fac prog l sl P n c w v, reading idf fac prog l sl URead ->
  lossless_classes hb URead P sl -> P c = true -> 0 <= w_pos w ->
  fst (create_unpack_read hb (classes l) n c w) = Ok v -> no_nan v = true ->
  packs_only hb l v (firstn (Z.to_nat (w_pos (snd (create_unpack_read hb (classes l) n c w)) - w_pos w)) (skipn (Z.to_nat (w_pos w)) (w_data w))).
Proof.
  intros hb idf fac prog l sl P n c w v R LC PC POS E NN. destruct (C46_create_unpack_read _ _ _ _ _ _ _ _ _ _ R POS E) as (k & K & ->).
  pose proof (parse_tight _ _ _ _ (lossless_notices hb URead P sl ltac:(discriminate) LC) _ _ _ _ _ PC K) as LE.
  replace (w_pos w + Z.min k (blen (skipn (Z.to_nat (w_pos w)) (w_data w))) - w_pos w) with k by lia. eapply back_only; eauto.
Qed.
Print Assumptions C58_unpack_read.
(** For the classes of [settled_classes] packing succeeds, and writing in place changes nothing. *)
Theorem C58_unpack_back : forall hb idf fac prog l sl allow P n c b w v, reading idf fac prog l sl UBuf -> healthy (classes l) allow -> (forall d, allow d d = true) ->
  lossless_classes hb UBuf P sl -> settled_classes UBuf P sl -> P c = true ->
  fst (create_unpack hb (classes l) n c b w) = Ok v -> no_nan v = true ->
  exists taken rest, b = taken ++ rest /\ packs_back hb l v taken.
Proof.
  intros hb idf fac prog l sl allow P n c b w v R H AL LC ST PC E NN. destruct (C46_create_unpack _ _ _ _ _ _ _ _ _ _ _ R E) as [k K].
  pose proof (parse_tight _ _ _ _ (settled_notices hb UBuf P sl LC ST) _ _ _ _ _ PC K) as LE. exists (firstn (Z.to_nat k) b), (skipn (Z.to_nat k) b).
  split; [now rewrite firstn_skipn|]. eapply back_always; eauto.
Qed.
Print Assumptions C58_unpack_back.
Theorem C58_unpack_from_back : forall hb idf fac prog l sl allow P n c b off w v, reading idf fac prog l sl UFrom -> healthy (classes l) allow -> (forall d, allow d d = true) ->
  lossless_classes hb UFrom P sl -> settled_classes UFrom P sl -> P c = true -> 0 <= off <= blen b ->
  fst (create_unpack_from hb (classes l) n c b off w) = Ok v -> no_nan v = true ->
  exists pre taken rest, b = pre ++ taken ++ rest /\ blen pre = off /\ packs_back hb l v taken.
Proof.
  intros hb idf fac prog l sl allow P n c b off w v R H AL LC ST PC OFF E NN. destruct (C46_create_unpack_from _ _ _ _ _ _ _ _ _ _ _ _ R OFF E) as [k K].
  pose proof (parse_tight _ _ _ _ (lossless_notices hb UFrom P sl ltac:(discriminate) LC) _ _ _ _ _ PC K) as LE.
  exists (firstn (Z.to_nat off) b), (firstn (Z.to_nat k) (skipn (Z.to_nat off) b)), (skipn (Z.to_nat k) (skipn (Z.to_nat off) b)).
  split; [now rewrite !firstn_skipn|]. split; [unfold blen in *; rewrite firstn_length; lia|]. eapply back_always; eauto.
Qed.
Print Assumptions C58_unpack_from_back.
Theorem C58_unpack_read_back : forall hb idf fac prog l sl allow P n c w v, reading idf fac prog l sl URead -> healthy (classes l) allow -> (forall d, allow d d = true) ->
  lossless_classes hb URead P sl -> settled_classes URead P sl -> P c = true -> 0 <= w_pos w ->
  fst (create_unpack_read hb (classes l) n c w) = Ok v -> no_nan v = true ->
  packs_back hb l v (firstn (Z.to_nat (w_pos (snd (create_unpack_read hb (classes l) n c w)) - w_pos w)) (skipn (Z.to_nat (w_pos w)) (w_data w))).
Proof.
  intros hb idf fac prog l sl allow P n c w v R H AL LC ST PC POS E NN. destruct (C46_create_unpack_read _ _ _ _ _ _ _ _ _ _ R POS E) as (k & K & ->).
  pose proof (parse_tight _ _ _ _ (lossless_notices hb URead P sl ltac:(discriminate) LC) _ _ _ _ _ PC K) as LE.
  replace (w_pos w + Z.min k (blen (skipn (Z.to_nat (w_pos w)) (w_data w))) - w_pos w) with k by lia. eapply back_always; eauto.
Qed.
Print Assumptions C58_unpack_read_back.

(** ** examples *)
Definition lossless_check (hb : bool) (md : umode) (P : nat -> bool) (sl : list sclass) : bool :=
  forallb (fun c => match nth_error sl c with
    | Some sc => negb (P c) || (bits_fields md P (m_native (mode_of hb (sc_bo sc))) (fields_of (sc_anns sc)) 0
        && apart (map snd (fields_of (sc_anns sc))) && forallb (fun p => settled md (sc_bo sc) (snd p)) (fields_of (sc_anns sc)))
    | None => true end) (seq 0 (List.length sl)).
Lemma lossless_checked : forall hb md P sl, lossless_check hb md P sl = true ->
  (forall c sc, nth_error sl c = Some sc -> P c = true -> Forall (fun p => answering (snd p)) (fields_of (sc_anns sc))) ->
  lossless_classes hb md P sl /\ settled_classes md P sl.
Proof.
  intros hb md P sl H AN. assert (B : forall c sc, nth_error sl c = Some sc -> P c = true -> bits_fields md P (m_native (mode_of hb (sc_bo sc))) (fields_of (sc_anns sc)) 0 = true /\
     apart (map snd (fields_of (sc_anns sc))) = true /\ forallb (fun p => settled md (sc_bo sc) (snd p)) (fields_of (sc_anns sc)) = true).
  { intros c sc NS PC. unfold lossless_check in H. rewrite forallb_forall in H. specialize (H c). rewrite NS, PC in H. cbn [negb orb] in H.
    assert (I : In c (seq 0 (List.length sl))) by (apply in_seq; split; [lia|]; cbn; apply nth_error_Some; congruence).
    apply H in I. apply andb_prop in I as [I I3]. apply andb_prop in I as [I1 I2]. auto. }
  split; intros c sc NS PC; destruct (B c sc NS PC) as (B1 & B2 & B3); split; eauto.
Qed.
Lemma fld_answers : forall a, answers (fld a).
Proof. intros a c px px' d d' r K E. unfold fld in *. cbn [p_attrs] in *. destruct (assoc a d) as [v|] eqn:A; [|discriminate]. now rewrite (K _ _ A). Qed.
Lemma fld_is_answers : forall a z, answers (fld_is a z).
Proof.
  intros a z c px px' d d' r K E. unfold fld_is in *. destruct (fld a (PO c px d)) as [v|] eqn:F; [|discriminate]. now rewrite (fld_answers a c px px' d d' v K F).
Qed.
(** points, and nodes that hold a string, a condition, a union, a sized array of points, nodes and a tuple;
    and a node after a counted string *)
Definition back_prog : list stmt :=
  [ Stmt [("y", XBasic Cf); ("x", XBasic Ch)] None BO_DEFAULT STRICT false;
    Stmt [ ("kind", XBasic CB);
           ("name", XChar (KInt 2));
           ("opt", XCond (XBasic CI) (fld_is "kind" 1) [VInt 7]);
           ("payload", XBack 12 [XBasic CH; XClass 0; XChar (KInt 3)] (fld "kind")
                         [(VInt 0, XBasic CH); (VInt 1, XClass 0)] (Some (XChar (KInt 3))));
           ("pts", XArray (inr CH) (Some CH) (XClass 0));
           ("kids", XArray (inr CB) None XSelf);
           ("pair", XTuple [XBasic Cb; XChar (KInt 3)]) ] None BO_DEFAULT STRICT true;
    Stmt [("s", XChar (KUint CH)); ("node", XClass 1)] None BO_DEFAULT STRICT false ].
Definition back_idf (k : nat) (p : list nat) : nat := match k with 2 => 30 + List.length p | _ => sample_idf k p end%nat.
Definition back_fac (k : akind) (a : list pyh) : nat := match k with AkChar => 21 | _ => sample_fac k a end%nat.
Definition back_run := run back_idf back_fac [] 0 back_prog.
Definition back_classes : list cinfo := match back_run with Ok l => l | Err _ => [] end.
Definition back_stmts : list sclass := match check_prog [] 0 back_prog with Some l => l | None => [] end.
Lemma back_program : forall md, program md back_idf back_fac back_prog back_classes.
Proof.
  intros md. constructor.
  - reflexivity.
  - apply frag_check. destruct md; reflexivity.
  - intros c H. destruct c as [|[|[|c]]]; try reflexivity. destruct c; reflexivity.
  - apply (class_check back_classes 3 (fun _ cd => sized (c_ser cd))); reflexivity.
  - exists (fun id => id), (fun c => match c with 0 => 1 | 1 => 20 | _ => 60 end)%nat.
    intros c cd C. apply andb_prop.
    apply (class_check back_classes 3 (fun c cd => ordered (fun id => id) (fun c => match c with 0 => 1 | 1 => 20 | _ => 60 end)%nat (c_ser cd)
      && older (fun id => id) (fun c => match c with 0 => 1 | 1 => 20 | _ => 60 end)%nat
           (match c with 0 => 1 | 1 => 20 | _ => 60 end)%nat (c_ser cd))); [reflexivity|reflexivity|exact C].
Qed.
Definition back_bytes : bytes := [x02; x41; x42; x61; x62; x63; x01; x00; x06; x00; x00; x00; x80; x3f; x05; x00; x01;
   x00; x43; x44; x07; x08; x00; x00; x00; x00; x00; xff; x01; x02; x03; xfe; x0a; x0b; x0c].
Lemma back_reading : forall md, reading back_idf back_fac back_prog back_classes back_stmts md.
Proof. intros md. apply C46_program; [exact (back_program md)|vm_compute; reflexivity|vm_compute; reflexivity]. Qed.
Lemma back_answers : forall c sc, nth_error back_stmts c = Some sc -> Forall (fun p => answering (snd p)) (fields_of (sc_anns sc)).
Proof.
  assert (E : map (fun sc => fields_of (sc_anns sc)) back_stmts = map st_body back_prog) by reflexivity.
  intros c sc NS. assert (NF : nth_error (map st_body back_prog) c = Some (fields_of (sc_anns sc))) by (rewrite <- E; exact (map_nth_error (fun sc => fields_of (sc_anns sc)) c back_stmts NS)).
  unfold back_prog in NF. cbn [map st_body] in NF.
  do 3 (destruct c as [|c]; [cbn [nth_error] in NF; injection NF as <-;
    repeat (apply Forall_cons; [cbn [snd answering]; auto 8 using fld_answers, (fld_is_answers "kind" 1)|]); apply Forall_nil|]).
  destruct c; discriminate NF.
Qed.
(** All hypotheses are met, on either kind of machine: by all three classes for [unpack_from] and [unpack_read], and by the
    first two for [unpack].  The bytes of a node with a node inside, followed by others, are read; the stream is left behind
    them; there is no NaN; and [pack] gives them back. *)
Example C58_nontrivial :
  (forall md, reading back_idf back_fac back_prog back_classes back_stmts md) /\ healthy (classes back_classes) Nat.eqb /\
  (forall hb md, md <> UBuf -> lossless_classes hb md (fun _ => true) back_stmts /\ settled_classes md (fun _ => true) back_stmts) /\
  (forall hb md, lossless_classes hb md (fun c => (c <? 2)%nat) back_stmts /\ settled_classes md (fun c => (c <? 2)%nat) back_stmts) /\
  match fst (create_unpack false (classes back_classes) 9 1 (back_bytes ++ [xaa]) dirty),
        create_unpack_read false (classes back_classes) 9 2 (W (fun _ => 7) (fun _ => None) [] ([x02; x00; x68; x69] ++ back_bytes ++ [xaa]) 0) with
  | Ok v, (Ok v', w') => no_nan v = true /\ no_nan v' = true /\ v' = VObj 2 None [("s", VBytes [x68; x69]); ("node", v)] /\ w_pos w' = 39 /\
      fst (Structured_pack false (classes back_classes) 9 v dirty) = Ok back_bytes
  | _, _ => False
  end.
Proof.
  split; [exact back_reading|]. split; [exact (C42_healthy _ _ _ _ _ (back_program UBuf))|].
  split; [intros hb md N; apply lossless_checked; [destruct hb, md; try congruence; vm_compute; reflexivity|intros; now eapply back_answers; eauto]|].
  split; [intros hb md; apply lossless_checked; [destruct hb, md; vm_compute; reflexivity|intros; now eapply back_answers; eauto]|].
  vm_compute. repeat split.
Qed.
(** Outside [lossless_classes]: a boolean read from another byte than 1 is packed as 1 (structured/hint_types/basic_types.py:26 and the
    struct module). *)
Definition single_prog (x : hx) : list stmt := [Stmt [("v", x)] None BO_DEFAULT STRICT false].
Definition comes_back_as (x : hx) (b b' : bytes) : Prop := exists l sl,
  run (fun _ _ => 5%nat) (fun _ _ => 6%nat) [] 0 (single_prog x) = Ok l /\ check_prog [] 0 (single_prog x) = Some sl /\
  exists v, fst (create_unpack false (classes l) 5 0 b clean) = Ok v /\ fst (Structured_pack false (classes l) 5 v clean) = Ok b' /\ b' <> firstn (List.length b') b.
Theorem C58_bool_refuted : comes_back_as (XBasic Cbool) [x02] [x01].
Proof. eexists _, _. split; [vm_compute; reflexivity|]. split; [vm_compute; reflexivity|]. eexists. split; [vm_compute; reflexivity|]. split; [vm_compute; reflexivity|discriminate]. Qed.
Print Assumptions C58_bool_refuted.
(** The payload of a half-precision NaN is lost, so [no_nan] is asked for. *)
Theorem C58_nan_refuted : comes_back_as (XBasic Ce) [x01; x7c] [x00; x7e].
Proof. eexists _, _. split; [vm_compute; reflexivity|]. split; [vm_compute; reflexivity|]. eexists. split; [vm_compute; reflexivity|]. split; [vm_compute; reflexivity|discriminate]. Qed.
Print Assumptions C58_nan_refuted.
(** Trailing NULs of text are dropped. *)
Theorem C58_text_refuted : comes_back_as (XUnicode (KUint CB) latin1) [x02; x41; x00] [x01; x41].
Proof. eexists _, _. split; [vm_compute; reflexivity|]. split; [vm_compute; reflexivity|]. eexists. split; [vm_compute; reflexivity|]. split; [vm_compute; reflexivity|discriminate]. Qed.
Print Assumptions C58_text_refuted.
(** Outside [settled_classes]: [unpack] reads an empty counted string, and [pack] refuses it. *)
Theorem C58_empty_refuted : exists l sl,
  run (fun _ _ => 5%nat) (fun _ _ => 6%nat) [] 0 (single_prog (XChar (KUint CB))) = Ok l /\ check_prog [] 0 (single_prog (XChar (KUint CB))) = Some sl /\
  lossless_classes false UBuf (fun _ => true) sl /\
  exists v, fst (create_unpack false (classes l) 5 0 [x00] clean) = Ok v /\ no_nan v = true /\ is_ok (fst (Structured_pack false (classes l) 5 v clean)) = false.
Proof.
  eexists _, _. split; [vm_compute; reflexivity|]. split; [vm_compute; reflexivity|]. split.
  - intros c sc NS _. destruct c as [|c]; [injection NS as <-|destruct c; discriminate NS]. split; [reflexivity|]. repeat constructor.
  - eexists. split; [vm_compute; reflexivity|]. split; vm_compute; reflexivity.
Qed.
Print Assumptions C58_empty_refuted.
