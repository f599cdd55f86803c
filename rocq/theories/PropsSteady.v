(** Property C59: what was read and packed is read again as the same object (SteadySpec.v says for which class statements). *)
From Verif Require Import Base Floats Value StructMod Format Ser Exec Pure BaseFacts SerFacts RefPack RefUnpack User Fuel DecFacts Sample
  Canon RoundTrip PropsRoundTrip Wire Hints HintFacts Surface SerShape Programs Accept AcceptProg PropsProgram PropsAccept WireSpec WireFacts Wires
  PropsWire PackSpec PropsPack ReadSpec ReadFacts Reads PropsReads LocalSpec Locals PropsLocal BackSpec Backs BackFits PropsBack SteadySpec Steadies.
Open Scope string_scope. Open Scope list_scope. Open Scope Z_scope.

(** a class is read with as much stack as one likes *)
Lemma parse_more : forall hb md idf fac prog l sl n c b v k, reading idf fac prog l sl md -> parse hb md sl n c b = Some (v, k) ->
  forall q, exists n' k', (q <= n')%nat /\ parse hb md sl n' c b = Some (v, k').
Proof.
  intros hb md idf fac prog l sl n c b v k R E q. destruct md.
  - destruct (C46_complete _ _ _ _ _ _ _ _ _ _ _ R E) as [N H]. specialize (H (Nat.max N q) clean ltac:(lia)).
    destruct (C46_create_unpack _ _ _ _ _ _ _ _ _ _ _ R H) as [k' K]. exists (S (Nat.max N q)), k'. split; [lia|exact K].
  - destruct (C46_complete_from _ _ _ _ _ _ _ _ [] _ _ _ R E) as [N H]. specialize (H (Nat.max N q) clean ltac:(lia)).
    destruct (C46_create_unpack_from hb idf fac prog l sl _ c b 0 _ v R (conj (Z.le_refl 0) (blen_nonneg b)) H) as [k' K]. exists (S (Nat.max N q)), k'. split; [lia|exact K].
  - destruct (C46_complete_read _ _ _ _ _ _ _ _ [] _ _ _ R E) as [N H]. specialize (H (Nat.max N q) (W (fun _ => 0) (fun _ => None) [] b 0) ltac:(lia) eq_refl eq_refl). destruct H as [H _].
    destruct (C46_create_unpack_read hb idf fac prog l sl _ c (W (fun _ => 0) (fun _ => None) [] b 0) v R (Z.le_refl 0) H) as (k' & K & _). exists (S (Nat.max N q)), k'. split; [lia|exact K].
Qed.
Lemma once_again : forall hb md idf fac prog l sl P allow n c b v k n' w' y, reading idf fac prog l sl md -> steady_classes hb md P sl -> P c = true ->
  parse hb md sl n c b = Some (v, k) ->
  healthy (classes l) allow -> conforms hb (classes l) allow n' v -> fst (Structured_pack hb (classes l) n' v w') = Ok y ->
  exists m, forall rest, parse hb md sl m c (y ++ rest) = Some (v, blen y).
Proof.
  intros hb md idf fac prog l sl P allow n c b v k n' w' y R SC PC E H CF PK.
  destruct (parse_more _ _ _ _ _ _ _ _ _ _ _ _ R E (S n')) as (m & k' & L & E'). exists m.
  destruct (parse_again hb md sl P SC (distinct _ _ _ _ _ _ R) m c b v k' PC E') as (d & -> & W). destruct R as (RN & CK & RG & _).
  pose proof (C44_pack hb idf fac prog l sl allow n' c None d w' y RN CK RG H CF PK) as W'. apply (wire_mono hb sl (S n') m) in W'; [|exact L]. exact (W y W').
Qed.

(** What [create_unpack] read from whatever bytes, and [pack] packed, is what [create_unpack] reads from the packed bytes,
    whatever follows them, with enough stack. *)
Theorem C59_unpack : forall hb idf fac prog l sl P allow n c b w v n' w' y, reading idf fac prog l sl UBuf -> steady_classes hb UBuf P sl -> P c = true ->
  fst (create_unpack hb (classes l) n c b w) = Ok v ->
  healthy (classes l) allow -> conforms hb (classes l) allow n' v -> fst (Structured_pack hb (classes l) n' v w') = Ok y ->
  forall rest, exists N, forall m u, (N <= m)%nat -> fst (create_unpack hb (classes l) m c (y ++ rest) u) = Ok v.
Proof.
  intros hb idf fac prog l sl P allow n c b w v n' w' y R SC PC E H CF PK rest. destruct (C46_create_unpack _ _ _ _ _ _ _ _ _ _ _ R E) as [k K].
  destruct (once_again _ _ _ _ _ _ _ _ _ _ _ _ _ _ _ _ _ R SC PC K H CF PK) as [m M]. exact (C46_complete _ _ _ _ _ _ _ _ _ _ _ R (M rest)).
Qed.
Print Assumptions C59_unpack.
(** The same for [unpack_from], behind any bytes. *)
Theorem C59_unpack_from : forall hb idf fac prog l sl P allow n c b off w v n' w' y, reading idf fac prog l sl UFrom -> steady_classes hb UFrom P sl -> P c = true ->
  0 <= off <= blen b -> fst (create_unpack_from hb (classes l) n c b off w) = Ok v ->
  healthy (classes l) allow -> conforms hb (classes l) allow n' v -> fst (Structured_pack hb (classes l) n' v w') = Ok y ->
  forall pre rest, exists N, forall m u, (N <= m)%nat -> fst (create_unpack_from hb (classes l) m c (pre ++ y ++ rest) (blen pre) u) = Ok v.
Proof.
  intros hb idf fac prog l sl P allow n c b off w v n' w' y R SC PC OFF E H CF PK pre rest. destruct (C46_create_unpack_from _ _ _ _ _ _ _ _ _ _ _ _ R OFF E) as [k K].
  destruct (once_again _ _ _ _ _ _ _ _ _ _ _ _ _ _ _ _ _ R SC PC K H CF PK) as [m M]. exact (C46_complete_from _ _ _ _ _ _ _ _ pre _ _ _ R (M rest)).
Qed.
Print Assumptions C59_unpack_from.
(** The same for streams, which are left behind the packed bytes. *)
Theorem C59_unpack_read : forall hb idf fac prog l sl P allow n c w v n' w' y, reading idf fac prog l sl URead -> steady_classes hb URead P sl -> P c = true ->
  0 <= w_pos w -> fst (create_unpack_read hb (classes l) n c w) = Ok v ->
  healthy (classes l) allow -> conforms hb (classes l) allow n' v -> fst (Structured_pack hb (classes l) n' v w') = Ok y ->
  forall pre rest, exists N, forall m u, (N <= m)%nat -> w_data u = pre ++ y ++ rest -> w_pos u = blen pre ->
    fst (create_unpack_read hb (classes l) m c u) = Ok v /\ w_pos (snd (create_unpack_read hb (classes l) m c u)) = blen (pre ++ y).
Proof.
  intros hb idf fac prog l sl P allow n c w v n' w' y R SC PC POS E H CF PK pre rest. destruct (C46_create_unpack_read _ _ _ _ _ _ _ _ _ _ R POS E) as (k & K & _).
  destruct (once_again _ _ _ _ _ _ _ _ _ _ _ _ _ _ _ _ _ R SC PC K H CF PK) as [m M]. destruct (C46_complete_read _ _ _ _ _ _ _ _ pre _ _ _ R (M rest)) as [N HN].
  exists N. intros m' u L D Q. destruct (HN m' u L D Q) as [H1 H2]. split; [exact H1|]. rewrite H2. unfold blen. rewrite !app_length. lia.
Qed.
Print Assumptions C59_unpack_read.

(** ** examples *)
Lemma latin1_ok : forall s e, latin1_enc s = Ok e -> map zb e = s.
Proof.
  induction s as [|c s IH]; intros e E; cbn in E; [injection E as <-; reflexivity|]. destruct ((0 <=? c) && (c <? 256)) eqn:Q; [|discriminate].
  destruct (latin1_enc s) as [e'|]; [|discriminate]. injection E as <-. cbn. rewrite (IH e' eq_refl), zb_bz, Z.mod_small by lia. reflexivity.
Qed.
Lemma strip_more : forall s n, strip (s ++ repeat 0 n) = strip s.
Proof.
  induction s as [|c s IH]; intros n; cbn [app].
  - induction n as [|n IH]; [reflexivity|]. cbn [repeat strip]. now rewrite IH.
  - cbn [strip]. now rewrite IH.
Qed.
Lemma strip_front : forall s, exists n, s = strip s ++ repeat 0 n.
Proof.
  induction s as [|c s [n IH]]; [exists 0%nat; reflexivity|]. cbn [strip]. destruct (strip s) as [|x r].
  - destruct (c =? 0) eqn:Q; [exists (S n)|exists n]; rewrite IH; cbn; [now replace c with 0 by lia|reflexivity].
  - exists n. cbn in *. now rewrite <- IH.
Qed.
Lemma strip_twice : forall s, strip (strip s) = strip s.
Proof. intros s. destruct (strip_front s) as [n E]. rewrite E at 2. now rewrite strip_more. Qed.
Lemma nul_zb : forall q, map zb (repeat x00 q) = repeat 0 q.
Proof. induction q as [|q IH]; [reflexivity|]. cbn [repeat map]. rewrite IH. reflexivity. Qed.
(** latin1 is as asked for *)
Lemma latin1_returns : forall a, returns a latin1.
Proof.
  intros a y t e LN NI D E. cbn in D, E. injection D as <-. pose proof (latin1_ok _ _ E) as B. destruct (strip_front (map zb y)) as [n F]. rewrite <- B in F.
  assert (PR : y = e ++ repeat x00 n).
  { assert (J : map zb y = map zb (e ++ repeat x00 n)) by (rewrite F, map_app, nul_zb; reflexivity). clear -J. revert J. generalize (e ++ repeat x00 n). induction y as [|a y IH]; intros [|b z] J; try discriminate; [reflexivity|].
    injection J as J1 J2. f_equal; [now apply zb_inj|now apply IH]. }
  split.
  - intros x EA I. apply (NI x EA). rewrite PR. apply in_or_app. now left.
  - destruct a as [cc|z|tt| |]; try (eexists; split; [reflexivity|]; rewrite B; apply strip_twice).
    eexists. split; [reflexivity|]. specialize (LN z eq_refl). rewrite PR, app_length, repeat_length in LN. unfold fixed. rewrite firstn_all2 by lia.
    rewrite map_app, B. unfold zeros. rewrite nul_zb, strip_more. apply strip_twice.
Qed.
Definition steady_check (hb : bool) (md : umode) (P : nat -> bool) (sl : list sclass) : bool :=
  forallb (fun c => match nth_error sl c with
    | Some sc => negb (P c) || forallb (fun p => steady hb md P (m_native (mode_of hb (sc_bo sc))) (snd p)) (fields_of (sc_anns sc))
    | None => true end) (seq 0 (List.length sl)).
Lemma steady_checked : forall hb md P sl, steady_check hb md P sl = true ->
  (forall c sc, nth_error sl c = Some sc -> Forall (fun p => answering (snd p) /\ returning (snd p)) (fields_of (sc_anns sc))) -> steady_classes hb md P sl.
Proof.
  intros hb md P sl H AN c sc NS PC. split; [|now apply (AN c)]. unfold steady_check in H. rewrite forallb_forall in H. specialize (H c). rewrite NS, PC in H. cbn [negb orb] in H.
  apply H. apply in_seq. split; [lia|]. cbn. apply nth_error_Some. congruence.
Qed.
(** rows with a boolean, a padding, a Pascal string, an aligned number and a half-precision float; and a table of rows with .NET strings, text and tables inside *)
Definition steady_prog : list stmt :=
  [ Stmt [("on", XBasic Cbool); ("_gap", XPad 2); ("name", XPascal 4); ("x", XBasic Ci); ("h", XBasic Ce)] None BO_DEFAULT STRICT false;
    Stmt [ ("kind", XBasic CB);
           ("title", XUnicode (KInt 4) latin1);
           ("net", XChar KNet);
           ("note", XCond (XUnicode KNet latin1) (fld_is "kind" 1) [VStr [63]]);
           ("rows", XArray (inr CH) (Some CI) (XClass 0));
           ("kids", XArray (inr CB) None XSelf);
           ("flags", XArray (inl 3) None (XBasic Cbool));
           ("pair", XTuple [XBasic Cbool; XPad 1; XBasic CH]) ] None BO_DEFAULT STRICT true ].
Definition steady_run := run back_idf back_fac [] 0 steady_prog.
Definition steady_cls : list cinfo := match steady_run with Ok l => l | Err _ => [] end.
Definition steady_stmts : list sclass := match check_prog [] 0 steady_prog with Some l => l | None => [] end.
Definition steady_bytes : bytes := 
  [x01] ++ [x41; x00; x42; x00] ++ [x83; x00; x61; x62; x63] ++ [x02; x64; x00] ++ [x01; x00; x00; x00; x0e; x00; x00; x00] ++
  [x05; xee; xee; xfe; x68; x69; x6a; xee; x07; x00; x00; x00; x01; x7c] ++ [x00] ++ [x00; x02; xff] ++ [x03; xee; x34; x12].
Definition steady_again : bytes :=
  [x01] ++ [x41; x00; x42; x00] ++ [x03; x61; x62; x63] ++ [x01; x64] ++ [x01; x00; x00; x00; x0e; x00; x00; x00] ++
  [x01; x00; x00; x03; x68; x69; x6a; x00; x07; x00; x00; x00; x00; x7e] ++ [x00] ++ [x00; x01; x01] ++ [x01; x00; x34; x12].
Lemma steady_program : forall md, program md back_idf back_fac steady_prog steady_cls.
Proof.
  intros md. constructor.
  - reflexivity.
  - apply frag_check. destruct md; reflexivity.
  - intros c H. destruct c as [|[|c]]; try reflexivity. destruct c; reflexivity.
  - apply (class_check steady_cls 2 (fun _ cd => sized (c_ser cd))); reflexivity.
  - exists (fun id => id), (fun c => match c with 0 => 1 | _ => 20 end)%nat.
    intros c cd C. apply andb_prop.
    apply (class_check steady_cls 2 (fun c cd => ordered (fun id => id) (fun c => match c with 0 => 1 | _ => 20 end)%nat (c_ser cd)
      && older (fun id => id) (fun c => match c with 0 => 1 | _ => 20 end)%nat
           (match c with 0 => 1 | _ => 20 end)%nat (c_ser cd))); [reflexivity|reflexivity|exact C].
Qed.
Lemma steady_reading : forall md, reading back_idf back_fac steady_prog steady_cls steady_stmts md.
Proof. intros md. apply C46_program; [exact (steady_program md)|vm_compute; reflexivity|vm_compute; reflexivity]. Qed.
Lemma steady_answers : forall c sc, nth_error steady_stmts c = Some sc -> Forall (fun p => answering (snd p) /\ returning (snd p)) (fields_of (sc_anns sc)).
Proof.
  assert (E : map (fun sc => fields_of (sc_anns sc)) steady_stmts = map st_body steady_prog) by reflexivity.
  intros c sc NS. assert (NF : nth_error (map st_body steady_prog) c = Some (fields_of (sc_anns sc))) by (rewrite <- E; exact (map_nth_error (fun sc => fields_of (sc_anns sc)) c steady_stmts NS)).
  unfold steady_prog in NF. cbn [map st_body] in NF.
  do 2 (destruct c as [|c]; [cbn [nth_error] in NF; injection NF as <-;
    repeat (apply Forall_cons; [cbn [snd answering returning]; auto 8 using latin1_returns, (fld_is_answers "kind" 1)|]); apply Forall_nil|]).
  destruct c; discriminate NF.
Qed.
(** All hypotheses are met, on little-endian machines and by all three methods.  The bytes read have another byte for True, garbage in
    paddings and gaps, a long form of a length, a Pascal length beyond its field, a signalling NaN and a trailing NUL in a text; the packed bytes are others, and give the same object. *)
Example C59_nontrivial :
  (forall md, reading back_idf back_fac steady_prog steady_cls steady_stmts md) /\ healthy (classes steady_cls) Nat.eqb /\
  (forall md, steady_classes false md (fun _ => true) steady_stmts) /\
  match fst (create_unpack false (classes steady_cls) 9 1 (steady_bytes ++ [xaa]) dirty) with
  | Ok v => fst (Structured_pack false (classes steady_cls) 9 v dirty) = Ok steady_again /\ conforms false (classes steady_cls) Nat.eqb 9 v /\
      steady_again <> steady_bytes /\ fst (create_unpack false (classes steady_cls) 9 1 (steady_again ++ [xbb]) dirty) = Ok v
  | _ => False
  end.
Proof.
  split; [exact steady_reading|]. split; [exact (C42_healthy _ _ _ _ _ (steady_program UBuf))|].
  split; [intros md; apply steady_checked; [destruct md; vm_compute; reflexivity|exact steady_answers]|].
  vm_compute. repeat split; try discriminate.
Qed.
(** Outside [steady_classes] the object read from the packed bytes is another. *)
Definition comes_back_other (hb : bool) (x : hx) (b b' : bytes) : Prop := exists l sl,
  run (fun _ _ => 5%nat) (fun _ _ => 6%nat) [] 0 (single_prog x) = Ok l /\ check_prog [] 0 (single_prog x) = Some sl /\
  exists v v', fst (create_unpack hb (classes l) 5 0 b clean) = Ok v /\ fst (Structured_pack hb (classes l) 5 v clean) = Ok b' /\
    fst (create_unpack hb (classes l) 5 0 b' clean) = Ok v' /\ v' <> v.
(** The count of an array is followed by a gap when packed, and not when unpacked (structured/serializers/arrays.py:247-280; C22). *)
Theorem C59_gap_refuted : comes_back_other false (XArray (inr CB) None (XBasic CH)) [x01; x34; x12] [x01; x00; x34; x12].
Proof.
  eexists _, _. split; [vm_compute; reflexivity|]. split; [vm_compute; reflexivity|]. eexists _, _. split; [vm_compute; reflexivity|]. split; [vm_compute; reflexivity|].
  split; [vm_compute; reflexivity|discriminate].
Qed.
Print Assumptions C59_gap_refuted.
(** A .NET string of 128 bytes or more on a big-endian machine: the byte without the mark comes first (structured/serializers/strings.py:269-319). *)
Theorem C59_net_refuted : comes_back_other true (XChar KNet) ([x80; x00] ++ repeat x61 130) ([x01; x82] ++ repeat x61 130).
Proof.
  eexists _, _. split; [vm_compute; reflexivity|]. split; [vm_compute; reflexivity|]. eexists _, _. split; [vm_compute; reflexivity|]. split; [vm_compute; reflexivity|].
  split; [vm_compute; reflexivity|discriminate].
Qed.
Print Assumptions C59_net_refuted.
