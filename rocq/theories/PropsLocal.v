(** Property C57: reading looks only at the bytes it uses (LocalSpec.v says for which class statements).  The bytes are
    arbitrary: nothing here was written by the library. *)
From Verif Require Import Base Floats Value StructMod Format Ser Exec Pure BaseFacts SerFacts RefPack RefUnpack User Fuel DecFacts Sample
  Canon RoundTrip PropsRoundTrip Wire Hints HintFacts Surface SerShape Programs Accept AcceptProg PropsProgram PropsAccept WireSpec WireFacts Wires
  PropsWire ReadSpec ReadFacts Reads PropsReads LocalSpec Locals.
Open Scope string_scope. Open Scope list_scope. Open Scope Z_scope.

Lemma extended : forall hb md sl P n c b v k rest, closes md true P sl -> P c = true -> parse hb md sl n c b = Some (v, k) -> k <= blen b ->
  parse hb md sl n c (b ++ rest) = Some (v, k).
Proof.
  intros hb md sl P n c b v k rest CL PC E LE. apply (parse_local hb md sl P true CL n c b [] rest v k PC (fun _ => eq_refl)); [|exact LE].
  now rewrite app_nil_r.
Qed.
Lemma used : forall hb md sl P n c b v k, closes md false P sl -> P c = true -> parse hb md sl n c b = Some (v, k) -> k <= blen b -> forall rest,
  parse hb md sl n c (firstn (Z.to_nat k) b ++ rest) = Some (v, k).
Proof.
  intros hb md sl P n c b v k CL PC E LE rest. pose proof (parse_pos _ _ _ _ _ _ _ _ E) as K0.
  apply (parse_local hb md sl P false CL n c _ (skipn (Z.to_nat k) b) rest v k PC ltac:(discriminate)); [now rewrite firstn_skipn|].
  unfold blen in *. rewrite firstn_length. lia.
Qed.

(** Bytes after those that make up an object change nothing: what was read from [b] alone is read from [b] and anything. *)
Theorem C57_extend : forall hb idf fac prog l sl P n c b w v, reading idf fac prog l sl UBuf ->
  closes UBuf true P sl -> notices UBuf P sl -> P c = true ->
  fst (create_unpack hb (classes l) n c b w) = Ok v ->
  forall rest, exists N, forall n' w', (N <= n')%nat -> fst (create_unpack hb (classes l) n' c (b ++ rest) w') = Ok v.
Proof.
  intros hb idf fac prog l sl P n c b w v R CL NT PC E rest. destruct (C46_create_unpack _ _ _ _ _ _ _ _ _ _ _ R E) as [k K].
  apply (C46_complete hb idf fac prog l sl (S n) c (b ++ rest) v k R). eapply extended; eauto. eapply parse_tight; eauto.
Qed.
Print Assumptions C57_extend.
Theorem C57_extend_from : forall hb idf fac prog l sl P n c b off w v, reading idf fac prog l sl UFrom ->
  closes UFrom true P sl -> notices UFrom P sl -> P c = true -> 0 <= off <= blen b ->
  fst (create_unpack_from hb (classes l) n c b off w) = Ok v ->
  forall rest, exists N, forall n' w', (N <= n')%nat -> fst (create_unpack_from hb (classes l) n' c (b ++ rest) off w') = Ok v.
Proof.
  intros hb idf fac prog l sl P n c b off w v R CL NT PC OFF E rest. destruct (C46_create_unpack_from _ _ _ _ _ _ _ _ _ _ _ _ R OFF E) as [k K].
  destruct (C46_complete_from hb idf fac prog l sl (S n) c (firstn (Z.to_nat off) b) (skipn (Z.to_nat off) b ++ rest) v k R) as [N H];
    [eapply extended; eauto; eapply parse_tight; eauto|].
  exists N. intros n' w' L. specialize (H n' w' L). rewrite app_assoc, firstn_skipn in H.
  replace (blen (firstn (Z.to_nat off) b)) with off in H; [exact H|]. unfold blen in *. rewrite firstn_length. lia.
Qed.
Print Assumptions C57_extend_from.
(** On a stream: the bytes between where it was and where it is left decide the object.  Any stream on which those bytes
    come next, whatever follows them, gives the same object and is left behind them. *)
Theorem C57_stream : forall hb idf fac prog l sl P n c w v, reading idf fac prog l sl URead ->
  closes URead false P sl -> notices URead P sl -> P c = true -> 0 <= w_pos w -> 
  fst (create_unpack_read hb (classes l) n c w) = Ok v ->
  let k := w_pos (snd (create_unpack_read hb (classes l) n c w)) - w_pos w in
  let taken := firstn (Z.to_nat k) (skipn (Z.to_nat (w_pos w)) (w_data w)) in
  blen taken = k /\
  forall pre rest, exists N, forall n' w', (N <= n')%nat -> w_data w' = pre ++ taken ++ rest -> w_pos w' = blen pre ->
    fst (create_unpack_read hb (classes l) n' c w') = Ok v /\
    w_pos (snd (create_unpack_read hb (classes l) n' c w')) = blen (pre ++ taken).
Proof.
  intros hb idf fac prog l sl P n c w v R CL NT PC POS E. destruct (C46_create_unpack_read _ _ _ _ _ _ _ _ _ _ R POS E) as (k & K & ->).
  pose proof (parse_tight _ _ _ _ NT _ _ _ _ _ PC K) as LE. pose proof (parse_pos _ _ _ _ _ _ _ _ K) as K0.
  set (b := skipn (Z.to_nat (w_pos w)) (w_data w)) in *. replace (w_pos w + Z.min k (blen b) - w_pos w) with k by lia. cbv zeta.
  assert (LT : blen (firstn (Z.to_nat k) b) = k) by (unfold blen in *; rewrite firstn_length; lia).
  split; [exact LT|]. intros pre rest.
  destruct (C46_complete_read hb idf fac prog l sl (S n) c pre _ v k R (used _ _ _ _ _ _ _ _ _ CL PC K LE rest)) as [N H]. exists N.
  intros n' w' L D Q. destruct (H n' w' L D Q) as [H1 H2]. split; [exact H1|]. rewrite H2. unfold blen in *. rewrite !app_length. lia.
Qed.
Print Assumptions C57_stream.
(** No object is the beginning of another: cut anywhere before their end, the bytes of an object are refused, however much
    stack there is. *)
Theorem C57_cut : forall hb idf fac prog l sl P n c w v, reading idf fac prog l sl URead ->
  closes URead false P sl -> notices URead P sl -> P c = true -> 0 <= w_pos w ->
  fst (create_unpack_read hb (classes l) n c w) = Ok v ->
  let k := w_pos (snd (create_unpack_read hb (classes l) n c w)) - w_pos w in
  forall pre j n' w', 0 <= j < k -> w_data w' = pre ++ firstn (Z.to_nat j) (skipn (Z.to_nat (w_pos w)) (w_data w)) -> w_pos w' = blen pre ->
    exists e, fst (create_unpack_read hb (classes l) n' c w') = Err e.
Proof.
  intros hb idf fac prog l sl P n c w v R CL NT PC POS E. destruct (C46_create_unpack_read _ _ _ _ _ _ _ _ _ _ R POS E) as (k & K & ->).
  pose proof (parse_tight _ _ _ _ NT _ _ _ _ _ PC K) as LE.
  set (b := skipn (Z.to_nat (w_pos w)) (w_data w)) in *. replace (w_pos w + Z.min k (blen b) - w_pos w) with k by lia. cbv zeta.
  intros pre j n' w' J D Q. destruct (fst (create_unpack_read hb (classes l) n' c w')) as [v'|e] eqn:E'; [|eauto]. exfalso.
  assert (P' : 0 <= w_pos w') by (rewrite Q; apply blen_nonneg).
  destruct (C46_create_unpack_read _ _ _ _ _ _ _ _ _ _ R P' E') as (k' & K' & _).
  rewrite D, Q in K'. unfold blen in K'. rewrite Nat2Z.id, skipn_app, skipn_all, Nat.sub_diag in K'. cbn [app skipn] in K'.
  pose proof (parse_tight _ _ _ _ NT _ _ _ _ _ PC K') as LE'.
  assert (CL' : closes URead true P sl).
  { intros c0 sc NS PC0. specialize (CL c0 sc NS PC0). rewrite forallb_forall in *. intros p I. specialize (CL p I). revert CL. apply closed_more. }
  pose proof (extended _ _ _ _ _ _ _ _ _ (skipn (Z.to_nat j) b) CL' PC K' LE') as K2. rewrite firstn_skipn in K2.
  pose proof (C46_unique _ _ _ _ _ _ _ _ _ _ _ _ _ R K K2) as U. injection U as <- <-. unfold blen in LE'. rewrite firstn_length in LE'. lia.
Qed.
Print Assumptions C57_cut.
(** The three methods read the same: what [create_unpack_from] makes of bytes [create_unpack] makes of them, and
    [create_unpack_read]. *)
Theorem C57_methods : forall hb idf fac prog l sl P n c b off w v, (forall md, reading idf fac prog l sl md) ->
  evens UFrom P sl -> notices UFrom P sl -> P c = true -> 0 <= off <= blen b ->
  fst (create_unpack_from hb (classes l) n c b off w) = Ok v ->
  exists N, forall n' w', (N <= n')%nat ->
    fst (create_unpack hb (classes l) n' c (skipn (Z.to_nat off) b) w') = Ok v /\
    (w_data w' = b -> w_pos w' = off -> fst (create_unpack_read hb (classes l) n' c w') = Ok v).
Proof.
  intros hb idf fac prog l sl P n c b off w v R EV NT PC OFF E. destruct (C46_create_unpack_from _ _ _ _ _ _ _ _ _ _ _ _ (R UFrom) OFF E) as [k K].
  pose proof (parse_tight _ _ _ _ NT _ _ _ _ _ PC K) as LE.
  pose proof (parse_even _ _ UBuf _ _ EV _ _ _ _ _ PC K LE) as KB. pose proof (parse_even _ _ URead _ _ EV _ _ _ _ _ PC K LE) as KR.
  destruct (C46_complete _ _ _ _ _ _ _ _ _ _ _ (R UBuf) KB) as [N1 H1].
  destruct (C46_complete_read _ _ _ _ _ _ _ _ (firstn (Z.to_nat off) b) _ _ _ (R URead) KR) as [N2 H2].
  exists (Nat.max N1 N2). intros n' w' L. split; [apply H1; lia|]. intros D Q. apply H2; [lia|now rewrite firstn_skipn|].
  rewrite Q. unfold blen in *. rewrite firstn_length. lia.
Qed.
Print Assumptions C57_methods.
(** ... and what [create_unpack_read] makes of them without reaching the end, or if the class notices the end. *)
Theorem C57_methods_read : forall hb idf fac prog l sl P n c w v, (forall md, reading idf fac prog l sl md) ->
  evens URead P sl -> P c = true -> 0 <= w_pos w <= blen (w_data w) ->
  fst (create_unpack_read hb (classes l) n c w) = Ok v ->
  notices URead P sl \/ w_pos (snd (create_unpack_read hb (classes l) n c w)) < blen (w_data w) ->
  exists N, forall n' w', (N <= n')%nat ->
    fst (create_unpack hb (classes l) n' c (skipn (Z.to_nat (w_pos w)) (w_data w)) w') = Ok v /\
    fst (create_unpack_from hb (classes l) n' c (w_data w) (w_pos w) w') = Ok v.
Proof.
  intros hb idf fac prog l sl P n c w v R EV PC POS E. destruct (C46_create_unpack_read _ _ _ _ _ _ _ _ _ _ (R URead) (proj1 POS) E) as (k & K & ->).
  intros NT. set (b := skipn (Z.to_nat (w_pos w)) (w_data w)) in *.
  assert (LB : blen b = blen (w_data w) - w_pos w) by (unfold b, blen in *; rewrite skipn_length; lia).
  assert (LE : k <= blen b) by (destruct NT as [NT|NT]; [exact (parse_tight _ _ _ _ NT _ _ _ _ _ PC K)|lia]).
  pose proof (parse_even _ _ UBuf _ _ EV _ _ _ _ _ PC K LE) as KB. pose proof (parse_even _ _ UFrom _ _ EV _ _ _ _ _ PC K LE) as KF.
  destruct (C46_complete _ _ _ _ _ _ _ _ _ _ _ (R UBuf) KB) as [N1 H1].
  destruct (C46_complete_from _ _ _ _ _ _ _ _ (firstn (Z.to_nat (w_pos w)) (w_data w)) _ _ _ (R UFrom) KF) as [N2 H2].
  exists (Nat.max N1 N2). intros n' w' L. split; [apply H1; lia|]. specialize (H2 n' w' ltac:(lia)). unfold b in H2. rewrite firstn_skipn in H2.
  replace (blen (firstn (Z.to_nat (w_pos w)) (w_data w))) with (w_pos w) in H2; [exact H2|]. unfold blen in *. rewrite firstn_length. lia.
Qed.
Print Assumptions C57_methods_read.
(** ... and what [create_unpack] makes of them, for classes without counted strings: it alone reads an empty one (C18). *)
Theorem C57_methods_unpack : forall hb idf fac prog l sl P n c b w v, (forall md, reading idf fac prog l sl md) ->
  evens UBuf P sl -> notices UBuf P sl -> P c = true ->
  fst (create_unpack hb (classes l) n c b w) = Ok v ->
  forall pre, exists N, forall n' w', (N <= n')%nat ->
    fst (create_unpack_from hb (classes l) n' c (pre ++ b) (blen pre) w') = Ok v /\
    (w_data w' = pre ++ b -> w_pos w' = blen pre -> fst (create_unpack_read hb (classes l) n' c w') = Ok v).
Proof.
  intros hb idf fac prog l sl P n c b w v R EV NT PC E pre. destruct (C46_create_unpack _ _ _ _ _ _ _ _ _ _ _ (R UBuf) E) as [k K].
  pose proof (parse_tight _ _ _ _ NT _ _ _ _ _ PC K) as LE.
  pose proof (parse_even _ _ UFrom _ _ EV _ _ _ _ _ PC K LE) as KF. pose proof (parse_even _ _ URead _ _ EV _ _ _ _ _ PC K LE) as KR.
  destruct (C46_complete_from _ _ _ _ _ _ _ _ pre _ _ _ (R UFrom) KF) as [N1 H1].
  destruct (C46_complete_read _ _ _ _ _ _ _ _ pre _ _ _ (R URead) KR) as [N2 H2].
  exists (Nat.max N1 N2). intros n' w' L. split; [apply H1; lia|]. intros D Q. apply H2; [lia|exact D|exact Q].
Qed.
Print Assumptions C57_methods_unpack.

(** ** examples *)
Lemma within_check : forall ok P sl, forallb (fun c => match nth_error sl c with
    | Some sc => negb (P c) || forallb (fun p => ok (snd p)) (fields_of (sc_anns sc)) | None => true end) (seq 0 (List.length sl)) = true ->
  within_classes ok P sl.
Proof.
  intros ok P sl H c sc NS PC. rewrite forallb_forall in H. specialize (H c). rewrite NS, PC in H. apply H. apply in_seq. split; [lia|].
  cbn. apply nth_error_Some. congruence.
Qed.
(** The classes of C42 but the last, which reads to the end: for streams they look only at what they use, and notice the
    end; the tree of nodes followed by other bytes is read, and the stream is left behind it. *)
Example C57_nontrivial :
  (forall md, reading sample_idf sample_fac sample_prog sample_classes sample_stmts md) /\
  (let P := fun c => (c <? 3)%nat in
   closes URead false P sample_stmts /\ notices URead P sample_stmts /\
   closes UFrom true P sample_stmts /\ notices UFrom P sample_stmts /\ evens UFrom P sample_stmts /\ evens URead P sample_stmts) /\
  (let P := fun c => (c =? 2)%nat in closes UBuf true P sample_stmts /\ notices UBuf P sample_stmts /\ evens UBuf P sample_stmts) /\
  match (match tree with VObj c ov d => wire false sample_stmts 11 c ov d | _ => None end) with
  | Some b => let w := W (fun _ => 7) (fun _ => None) [] ([x55] ++ b ++ [xaa; xbb]) 1 in
      fst (create_unpack_read false (classes sample_classes) 9 1 w) = Ok tree /\
      w_pos (snd (create_unpack_read false (classes sample_classes) 9 1 w)) = 59 /\
      fst (create_unpack_from false (classes sample_classes) 9 1 ([x55] ++ b ++ [xaa; xbb]) 1 dirty) = Ok tree
  | None => False
  end /\
  is_ok (fst (create_unpack false (classes sample_classes) 9 2 [x01; x00; x02; x00; x03; x00; xee; xee; x07] dirty)) = true.
Proof.
  split; [exact (proj1 C46_nontrivial)|].
  split; [cbv zeta; repeat match goal with |- _ /\ _ => split end; apply within_check; vm_compute; reflexivity|].
  split; [cbv zeta; repeat match goal with |- _ /\ _ => split end; apply within_check; vm_compute; reflexivity|].
  split; [vm_compute; auto|vm_compute; reflexivity].
Qed.
(** A union that reads its key ahead looks further than the member it picks: the stream moves by one byte, which is the
    same on both streams, and the values differ (serializers/unions.py:227-232).  So [C57_stream] asks for
    [closes URead false]. *)
Definition ahead_prog : list stmt :=
  [Stmt [("u", XAhead 3 [XBasic CB; XBasic Cb] (XBasic CH) (fun _ => Ok (VInt 0)) [(VInt 255, XBasic CB)] (Some (XBasic Cb)))] None BO_DEFAULT STRICT false].
Definition stream_of (b : bytes) : world := W (fun _ => 0) (fun _ => None) [] b 0.
Theorem C57_ahead_refuted : exists l sl,
  run (fun _ _ => 5%nat) (fun _ _ => 6%nat) [] 0 ahead_prog = Ok l /\ check_prog [] 0 ahead_prog = Some sl /\
  closes URead true (fun _ => true) sl /\ notices URead (fun _ => true) sl /\
  create_unpack_read false (classes l) 5 0 (stream_of [xff; x00]) =
    (Ok (VObj 0 None [("u", VInt 255)]), snd (create_unpack_read false (classes l) 5 0 (stream_of [xff; x00]))) /\
  w_pos (snd (create_unpack_read false (classes l) 5 0 (stream_of [xff; x00]))) = 1 /\
  fst (create_unpack_read false (classes l) 5 0 (stream_of [xff; x01])) = Ok (VObj 0 None [("u", VInt (-1))]) /\
  w_pos (snd (create_unpack_read false (classes l) 5 0 (stream_of [xff; x01]))) = 1.
Proof.
  eexists _, _. split; [vm_compute; reflexivity|]. split; [vm_compute; reflexivity|].
  split; [apply within_check; vm_compute; reflexivity|]. split; [apply within_check; vm_compute; reflexivity|].
  split; [apply injective_projections; [vm_compute; reflexivity|reflexivity]|]. split; [vm_compute; reflexivity|]. split; vm_compute; reflexivity.
Qed.
Print Assumptions C57_ahead_refuted.
(** [create_unpack] takes what is left for a counted string that is cut short (serializers/strings.py:113-115), so more
    bytes change what it reads.  So [C57_extend] asks for [notices]. *)
Definition counted_prog : list stmt := [Stmt [("s", XChar (KUint CB)); ("t", XTuple [XChar (KUint CB)])] None BO_DEFAULT STRICT false].
Definition counted_first : list stmt := [Stmt [("s", XChar (KUint CB))] None BO_DEFAULT STRICT false].
Theorem C57_short_refuted : exists l sl,
  run (fun _ _ => 5%nat) (fun _ _ => 6%nat) [] 0 counted_first = Ok l /\ check_prog [] 0 counted_first = Some sl /\
  closes UBuf true (fun _ => true) sl /\
  fst (create_unpack false (classes l) 5 0 [x05; x41] clean) = Ok (VObj 0 None [("s", VBytes [x41])]) /\
  fst (create_unpack false (classes l) 5 0 ([x05; x41] ++ [x42]) clean) = Ok (VObj 0 None [("s", VBytes [x41; x42])]).
Proof.
  eexists _, _. split; [vm_compute; reflexivity|]. split; [vm_compute; reflexivity|].
  split; [apply within_check; vm_compute; reflexivity|]. split; vm_compute; reflexivity.
Qed.
Print Assumptions C57_short_refuted.
(** An empty counted string in a tuple is an item for [create_unpack] and none for the other two: the same bytes, two
    values.  So [C57_methods] asks for [evens]. *)
Theorem C57_methods_refuted : exists l sl,
  run (fun _ _ => 5%nat) (fun _ _ => 6%nat) [] 0 counted_prog = Ok l /\ check_prog [] 0 counted_prog = Some sl /\
  notices UFrom (fun _ => true) sl /\
  fst (create_unpack false (classes l) 5 0 [x01; x41; x00] clean) = Ok (VObj 0 None [("s", VBytes [x41]); ("t", VTuple [VBytes []])]) /\
  fst (create_unpack_from false (classes l) 5 0 [x01; x41; x00] 0 clean) = Ok (VObj 0 None [("s", VBytes [x41]); ("t", VTuple [])]) /\
  fst (create_unpack_read false (classes l) 5 0 (stream_of [x01; x41; x00])) = Ok (VObj 0 None [("s", VBytes [x41]); ("t", VTuple [])]).
Proof.
  eexists _, _. split; [vm_compute; reflexivity|]. split; [vm_compute; reflexivity|].
  split; [apply within_check; vm_compute; reflexivity|]. split; [vm_compute; reflexivity|]. split; vm_compute; reflexivity.
Qed.
Print Assumptions C57_methods_refuted.
