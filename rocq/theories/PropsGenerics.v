(** Property C50: programs with generic classes.  [class D(C[args])] defines the class whose text is that of C with
    the arguments written in the place of the type variables (Generics.v). *)
From Verif Require Import Base Floats Value StructMod Format Ser Exec Pure BaseFacts StructFacts SerFacts RefPack RefUnpack User Fuel Canon DecFacts
  RoundTrip RoundTripMain PropsRoundTrip Sample Wire Hints HintFacts Surface SerShape Programs ProgramFacts Accept AcceptProg PropsProgram PropsAccept
  WireSpec WireFacts Wires PropsWire ReadSpec ReadFacts Reads PropsReads PackSpec Packable Packing PropsPack Generics Skeleton.
Open Scope string_scope. Open Scope list_scope. Open Scope Z_scope.

(** the classes without type variables the program amounts to, and the program that writes them out *)
Definition texts (gl : list gclass) : list sclass := map gc_sc gl.
Definition written_out (gl : list gclass) : list stmt := map flat (texts gl).
(** The program ran with a sufficient recursion limit, and the text of its classes is [gl]. *)
Definition generic (idf : nat -> list nat -> nat) (fac : akind -> list pyh -> nat) (n : nat) (prog : list gstmt)
  (gl : list gclass) (l : list cinfo) : Prop :=
  (4 <= n)%nat /\ gcheck_prog [] 0 prog = Some gl /\ grun idf fac n [] 0 prog = Ok l.
Lemma generic_rel : forall idf fac n prog gl, (4 <= n)%nat -> gcheck_prog [] 0 prog = Some gl ->
  exists l, grun idf fac n [] 0 prog = Ok l /\ classes_rel (texts gl) l.
Proof.
  intros idf fac n prog gl N CK. apply (gprog_rel idf fac n N prog [] [] 0 gl); [exact nothing_defined| |exact CK].
  intros j g i Q. destruct j; discriminate Q.
Qed.
Lemma generic_classes : forall idf fac n prog gl l, generic idf fac n prog gl l -> classes_rel (texts gl) l.
Proof. intros idf fac n prog gl l (N & CK & R). destruct (generic_rel idf fac n prog gl N CK) as (l' & R' & CR). congruence. Qed.
Lemma written_check : forall prog gl, gcheck_prog [] 0 prog = Some gl -> check_prog [] 0 (written_out gl) = Some (texts gl).
Proof.
  intros prog gl CK. destruct (flat_prog prog [] 0 gl) as (more & M & C); [|exact CK|].
  - intros j g Q. destruct j; discriminate Q.
  - cbn in M, C. unfold written_out, texts. rewrite M at 1. exact C.
Qed.
Lemma run_rel : forall idf fac prog sl l, check_prog [] 0 prog = Some sl -> run idf fac [] 0 prog = Ok l -> classes_rel sl l.
Proof.
  intros idf fac prog sl l CK R. pose proof (prog_rel idf fac prog [] [] 0 nothing_defined) as P. rewrite CK in P.
  destruct P as (l' & Q & CR). congruence.
Qed.

(** A program whose text makes sense is accepted, and so is the program that writes it out without type variables. *)
Theorem C50_accepted : forall idf fac n prog gl, (4 <= n)%nat -> gcheck_prog [] 0 prog = Some gl ->
  (exists l, generic idf fac n prog gl l) /\ (exists l, run idf fac [] 0 (written_out gl) = Ok l).
Proof.
  intros idf fac n prog gl N CK. split.
  - destruct (generic_rel idf fac n prog gl N CK) as (l & R & _). exists l. repeat split; assumption.
  - pose proof (prog_rel idf fac (written_out gl) [] [] 0 nothing_defined) as P.
    change (map _ (@nil sclass)) with (@nil sclass) in P. rewrite (written_check _ _ CK) in P. destruct P as (l & R & _). eauto.
Qed.
Print Assumptions C50_accepted.
(** The two define the same classes: the same serializers up to the identity of the objects, the same attributes,
    byte orders, and the same classes that read to the end. *)
Theorem C50_same_classes : forall idf fac n prog gl l idf' fac' l', generic idf fac n prog gl l ->
  run idf' fac' [] 0 (written_out gl) = Ok l' -> same_classes l l'.
Proof.
  intros idf fac n prog gl l idf' fac' l' G R. pose proof (generic_classes _ _ _ _ _ _ G) as CR.
  pose proof (run_rel _ _ _ _ _ (written_check _ _ (proj1 (proj2 G))) R) as CR'. split.
  - pose proof (proj1 CR). pose proof (proj1 CR'). congruence.
  - exact (rel_skel _ _ _ CR CR').
Qed.
Print Assumptions C50_same_classes.

(** Classes that are the same in this sense do the same, exceptions included. *)
Lemma same_table : forall l l', same_classes l l' -> forall c, option_map skcd (classes l c) = option_map skcd (classes l' c).
Proof.
  intros l l' [LEN H] c. destruct (classes l c) as [cd|] eqn:C.
  - destruct (H c cd C) as (cd' & -> & E & A & B & F). cbn. unfold skcd. congruence.
  - destruct (classes l' c) as [cd'|] eqn:C'; [|reflexivity]. unfold classes in *. destruct (nth_error l c) eqn:N; [discriminate|].
    destruct (nth_error l' c) eqn:N'; [|discriminate]. apply nth_error_None in N. assert (c < List.length l')%nat by (apply nth_error_Some; congruence). lia.
Qed.
Lemma same_enc : forall hb allow l l', same_classes l l' -> forall n v, enc_obj hb (classes l) allow n v = enc_obj hb (classes l') allow n v.
Proof.
  intros hb allow l l' H n v. rewrite <- (enc_value_skel hb allow (classes l) (fun c => option_map skcd (classes l c)) (fun _ => eq_refl)).
  apply enc_value_skel. apply same_table. exact H.
Qed.
Lemma same_dec : forall hb l l', same_classes l l' -> forall md n c b, dcreate hb (classes l) md n c b = dcreate hb (classes l') md n c b.
Proof.
  intros hb l l' H md n c b. rewrite <- (dcreate_skel hb (classes l) (fun c => option_map skcd (classes l c)) (fun _ => eq_refl)).
  apply dcreate_skel. apply same_table. exact H.
Qed.
Lemma same_refill : forall hb l l', same_classes l l' -> forall md n c ov d b,
  drefill_step (classes l) (dec hb (classes l) md n) c ov d b = drefill_step (classes l') (dec hb (classes l') md n) c ov d b.
Proof.
  intros hb l l' H md n c ov d b. set (t := fun c => option_map skcd (classes l c)).
  transitivity (drefill_step t (dec hb t md n) c ov d b); [symmetry|];
    apply drefill_skel; try (intros; apply dec_skel); unfold t; try reflexivity; now apply same_table.
Qed.
Theorem C50_same_bytes : forall hb allow l l' n v, same_classes l l' ->
  healthy (classes l) allow -> healthy (classes l') allow -> conforms hb (classes l) allow n v ->
  conforms hb (classes l') allow n v /\
  (forall w w', fst (Structured_pack hb (classes l) n v w) = fst (Structured_pack hb (classes l') n v w')) /\
  (forall w, 0 <= w_pos w -> fst (Structured_pack_write hb (classes l) n v w) = fst (Structured_pack_write hb (classes l') n v w) /\
     (forall x, fst (Structured_pack_write hb (classes l) n v w) = Ok x ->
        w_data (snd (Structured_pack_write hb (classes l) n v w)) = w_data (snd (Structured_pack_write hb (classes l') n v w)))) /\
  (forall w off b, 0 <= off -> fst (Structured_pack hb (classes l) n v w) = Ok b -> off + blen b <= blen (w_buf w) ->
     w_buf (snd (Structured_pack_into hb (classes l) n v off w)) = w_buf (snd (Structured_pack_into hb (classes l') n v off w))).
Proof.
  intros hb allow l l' n v S H H' CF. pose proof (same_enc hb allow l l' S n v) as E.
  assert (CF' : conforms hb (classes l') allow n v) by (unfold conforms in *; congruence).
  pose proof (fun k w K => user_pack hb (classes l) allow false n v k w H ltac:(discriminate) CF K) as U.
  pose proof (fun k w K => user_pack hb (classes l') allow false n v k w H' ltac:(discriminate) CF' K) as U'.
  split; [exact CF'|]. unfold Structured_pack, Structured_pack_write, Structured_pack_into, do_pack in *. split; [|split].
  - intros w w'. destruct (U KPack w I) as [X _]. destruct (U' KPack w' I) as [X' _]. congruence.
  - intros w W. destruct (U KWrite w W) as (X & _ & D). destruct (U' KWrite w W) as (X' & _ & D'). split; [congruence|].
    intros x Q. destruct (io_ok _ _ _ _ _ _ _ (U KWrite w W) Q) as [b Eb]. rewrite (proj1 (D b Eb)), (proj1 (D' b ltac:(congruence))). reflexivity.
  - intros w off b OFF Q LE. destruct (U KPack w I) as [X _]. rewrite Q in X. symmetry in X.
    pose proof (U (KInto off) w OFF) as Y. pose proof (U' (KInto off) w OFF) as Y'. rewrite <- E, X in Y'. rewrite X in Y.
    destruct Y as (_ & _ & _ & Y & _). destruct Y' as (_ & _ & _ & Y' & _). rewrite (proj2 (Y LE)), (proj2 (Y' LE)). reflexivity.
Qed.
Print Assumptions C50_same_bytes.
Theorem C50_same_values : forall hb allow allow' md l l' n c s w, same_classes l l' ->
  healthy (classes l) allow -> healthy (classes l') allow' -> classes_hu (classes l) md -> classes_hu (classes l') md ->
  md_of s = md -> srcok s w ->
  fst (create_step hb (classes l) (unpack hb (classes l) n) c s w) = fst (create_step hb (classes l') (unpack hb (classes l') n) c s w) /\
  (forall v, fst (create_step hb (classes l) (unpack hb (classes l) n) c s w) = Ok v ->
     w_pos (snd (create_step hb (classes l) (unpack hb (classes l) n) c s w)) = w_pos (snd (create_step hb (classes l') (unpack hb (classes l') n) c s w))) /\
  forall ov d, fst (Structured_unpack hb (classes l) n c ov d s w) = fst (Structured_unpack hb (classes l') n c ov d s w).
Proof.
  intros hb allow allow' md l l' n c s w S H H' HU HU' M OK.
  destruct (user_create hb (classes l) allow md n c s w H HU M OK) as (A & _ & _ & P & _).
  destruct (user_create hb (classes l') allow' md n c s w H' HU' M OK) as (A' & _ & _ & P' & _).
  rewrite A, A'. rewrite <- (same_dec hb l l' S md n c) in *. split; [reflexivity|]. split.
  - intros v E. destruct (dcreate hb (classes l) md n c (suffix s w)) as [[v' k]|]; [|discriminate E]. cbn in P, P'.
    destruct P as (_ & _ & ->), P' as (_ & _ & ->). reflexivity.
  - intros ov d. destruct (user_refill hb (classes l) allow md n c ov d s w H HU M OK) as (B & C & _).
    destruct (user_refill hb (classes l') allow' md n c ov d s w H' HU' M OK) as (B' & C' & _).
    rewrite (surjective_pairing (fst (Structured_unpack hb (classes l) n c ov d s w))), (surjective_pairing (fst (Structured_unpack hb (classes l') n c ov d s w))).
    rewrite B, C, B', C', (same_refill hb l l' S). reflexivity.
Qed.
Print Assumptions C50_same_values.

(** ** Nothing to assume about the class objects *)
(** As for C42, with the conditions on the text of the classes: the hints are in the fragment, [Self] is not used in
    a class that reads to the end, every class has a size; the objects were created one after the other. *)
Record gprogram (md : umode) (idf : nat -> list nat -> nat) (fac : akind -> list pyh -> nat) (n : nat) (prog : list gstmt)
  (gl : list gclass) (l : list cinfo) : Prop := GProgram {
  gp_run : generic idf fac n prog gl l;
  gp_frag : forall c a x, In c (texts gl) -> In (a, x) (sc_anns c) -> frag md (reads_on (texts gl)) x = true;
  gp_self : forall c a x, In c (texts gl) -> In (a, x) (sc_anns c) -> has_self x = true -> sc_rest c = false;
  gp_size : forall c cd, classes l c = Some cd -> sized (c_ser cd) = true;
  gp_order : created_in_order l }.
Lemma reads_fin : forall sl l, classes_rel sl l -> forall d, fin_of l d = reads_on sl d.
Proof. intros sl l CR d. unfold fin_of. apply (fin_rel (fun _ _ => 0%nat) _ _ CR). Qed.
Theorem C50_program : forall hb md idf fac n prog gl l, gprogram md idf fac n prog gl l ->
  healthy (classes l) Nat.eqb /\ reads_back hb (classes l) md (fun d => negb (fin_of l d)).
Proof.
  intros hb md idf fac n prog gl l [G FR SF SZ (birth & cbirth & OR)]. pose proof (generic_classes _ _ _ _ _ _ G) as CR.
  destruct G as (N & CK & R). destruct (proj2 (C50_accepted idf fac n prog gl N CK)) as (l' & R').
  pose proof (C50_same_classes idf fac n prog gl l idf fac l' (conj N (conj CK R)) R') as S.
  pose proof (run_rel _ _ _ _ _ (written_check _ _ CK) R') as CR'.
  assert (FE : forall d, fin_of l' d = reads_on (texts gl) d) by (apply reads_fin; exact CR').
  assert (FR' : forall s a x, In s (written_out gl) -> In (a, x) (st_body s) -> frag md (fin_of l') x = true).
  { intros s a x I J. unfold written_out in I. apply in_map_iff in I as (c & <- & I). rewrite (frag_ext md (fin_of l') (reads_on (texts gl)) FE). eauto. }
  assert (SF' : forall c, selfy (written_out gl) c -> fin_of l' c = false).
  { intros c H. rewrite FE. induction H as [c s a x Q I X|c s b Q B H IH].
    - unfold written_out in Q. rewrite nth_error_map in Q. destruct (nth_error (texts gl) c) as [sc|] eqn:NS; [|discriminate]. injection Q as <-.
      unfold reads_on. rewrite NS. eapply SF; [eapply nth_error_In; exact NS|exact I|exact X].
    - unfold written_out in Q. rewrite nth_error_map in Q. destruct (nth_error (texts gl) c); [|discriminate]. injection Q as <-. discriminate B. }
  pose proof (program_wf hb md idf fac (written_out gl) l' FR' 0 R') as WF.
  pose proof (program_reads_back hb md idf fac (written_out gl) l' FR' 0 R' SF') as RB. split.
  - eapply wf_healthy; [exact (same_wf hb md l l' S WF)|exact SZ|exact OR].
  - apply (same_reads_back hb md l l' S WF).
    destruct RB as [A B]. split; [exact A|]. intros c cd C. destruct (B c cd C) as (B1 & B2 & B3).
    assert (E : forall d, negb (fin_of l d) = negb (fin_of l' d)) by (intros d; rewrite FE, (reads_fin _ _ CR); reflexivity).
    split; [exact B1|]. split; [rewrite (tailok_ext _ _ E); exact B2|]. intros Q. rewrite (pN_ext _ _ E). apply B3. now rewrite <- E.
Qed.
Print Assumptions C50_program.
(** An instance of a specialized class (or of a class with fields of specialized classes) that is packed and unpacked
    comes back. *)
Theorem C50_round_trip : forall hb idf fac k prog gl l n m c d w w' b, gprogram UBuf idf fac k prog gl l ->
  canonical hb (classes l) Nat.eqb UBuf n (VObj c None d) -> conforms hb (classes l) Nat.eqb n (VObj c None d) -> (n <= m)%nat ->
  fst (Structured_pack hb (classes l) n (VObj c None d) w) = Ok b ->
  fst (create_unpack hb (classes l) m c b w') = Ok (VObj c None d).
Proof.
  intros hb idf fac k prog gl l n m c d w w' b G. destruct (C50_program hb _ _ _ _ _ _ _ G) as [H RB]. intros.
  eapply C01_round_trip; eassumption.
Qed.
Print Assumptions C50_round_trip.
(** [pack] returns [b] exactly when [b] is the layout of the instance according to the text with the arguments
    written in (and the instance can be packed). *)
Theorem C50_pack : forall hb idf fac k prog gl l allow n c ov d w b,
  generic idf fac k prog gl l -> forallb regular_class (texts gl) = true ->
  healthy (classes l) allow -> conforms hb (classes l) allow n (VObj c ov d) ->
  fst (Structured_pack hb (classes l) n (VObj c ov d) w) <> Err RecursionError ->
  (fst (Structured_pack hb (classes l) n (VObj c ov d) w) = Ok b <->
   wire hb (texts gl) (S n) c ov d = Some b /\ packable allow (texts gl) (S n) c ov d = true).
Proof.
  intros hb idf fac k prog gl l allow n c ov d w b G RG H CF NR. pose proof (generic_classes _ _ _ _ _ _ G) as CR.
  destruct (user_pack hb (classes l) allow false n (VObj c ov d) KPack w H) as [X _]; [discriminate|exact CF|exact I|].
  unfold Structured_pack, do_pack in *. rewrite X in *. split.
  - intros E. split; [apply (wire_complete hb allow _ l CR RG); exact E|apply (packed_fits _ l CR RG hb allow n c ov d b E)].
  - intros [W F]. destruct (obj_sent _ l CR RG hb allow _ _ _ _ _ _ W F) as [j E].
    change (enc_obj hb (classes l) allow j (VObj c ov d) = Ok b) in E.
    apply (rle_ok _ _ _ _ (enc_obj_le hb (classes l) allow j (Nat.max j n) (VObj c ov d) ltac:(lia))) in E.
    destruct (enc_obj_le hb (classes l) allow n (Nat.max j n) (VObj c ov d) ltac:(lia)) as [Z|Z]; congruence.
Qed.
Print Assumptions C50_pack.
(** The meaning of arbitrary bytes is the one of that text, in all three ways of reading ... *)
Theorem C50_create : forall hb md idf fac k prog gl l allow n c s w v,
  generic idf fac k prog gl l -> forallb regular_class (texts gl) = true ->
  healthy (classes l) allow -> classes_hu (classes l) md -> md_of s = md -> srcok s w ->
  fst (create_step hb (classes l) (unpack hb (classes l) n) c s w) = Ok v ->
  exists k, parse hb md (texts gl) (S n) c (suffix s w) = Some (v, k) /\
    w_pos (snd (create_step hb (classes l) (unpack hb (classes l) n) c s w)) = posn s k w.
Proof.
  intros hb md idf fac k prog gl l allow n c s w v G RG H HU M OK E. pose proof (generic_classes _ _ _ _ _ _ G) as CR.
  destruct (user_create hb (classes l) allow md n c s w H HU M OK) as (A & _ & _ & P & _). rewrite A in E.
  destruct (dcreate hb (classes l) md n c (suffix s w)) as [[v' j]|] eqn:D; [|discriminate]. injection E as ->. exists j.
  destruct H as (TT & CO). destruct (parse_agree hb md _ l CR RG TT ltac:(intros c' cd' E'; destruct CO as [CO _]; apply (CO c' cd' E')) (S n)) as [B AG].
  destruct (AG c (suffix s w) n (v, j)) as [Q _].
  split; [apply Q; [lia|now rewrite D]|]. cbn in P. apply P.
Qed.
Print Assumptions C50_create.
(** ... and is returned by every call with enough stack. *)
Theorem C50_create_complete : forall hb md idf fac k prog gl l allow d c b v j,
  generic idf fac k prog gl l -> forallb regular_class (texts gl) = true ->
  healthy (classes l) allow -> classes_hu (classes l) md -> parse hb md (texts gl) d c b = Some (v, j) ->
  exists N, forall n s w, (N <= n)%nat -> md_of s = md -> srcok s w -> suffix s w = b ->
  fst (create_step hb (classes l) (unpack hb (classes l) n) c s w) = Ok v.
Proof.
  intros hb md idf fac k prog gl l allow d c b v j G RG H HU E. pose proof (generic_classes _ _ _ _ _ _ G) as CR.
  pose proof H as (TT & CO). destruct (parse_agree hb md _ l CR RG TT ltac:(intros c' cd' E'; destruct CO as [CO' _]; apply (CO' c' cd' E')) d) as [B AG].
  exists B. intros n s w LE M OK SX. destruct (user_create hb (classes l) allow md n c s w H HU M OK) as (A & _). rewrite A, SX.
  destruct (AG c b n (v, j)) as [_ Q]. specialize (Q LE E).
  destruct (dcreate hb (classes l) md n c b) as [r|]; [|discriminate]. cbn in Q. injection Q as ->. reflexivity.
Qed.
Print Assumptions C50_create_complete.

(** ** An example *)
(** class Pt; class Box(Structured, Generic[T, N]) with T, char[N], array[Header[2], T], array[Header[N], Pt] and
    tuple[N, uint8]; two specializations, the second with a class as argument; a class with fields of both *)
Definition box_prog : list gstmt :=
  [ GS [ ("p", GI (GX (XBasic CB))) ] None [] BO_DEFAULT STRICT false;
    GS [ ("one", GI (GVar 0)); ("name", GI (GChar 1)); ("two", GI (GArray (inl (inl 2%Z)) None (inr 0)));
         ("many", GI (GArray (inr 1) None (inl (XClass 0))));
         ("pair", GTuple [GVar 1; GX (XBasic CB)]); ("kind", GI (GX (XBasic CB))) ] None [0; 1] BO_DEFAULT STRICT false;
    GS [ ("extra", GI (GX (XBasic CI))) ] (Some (1, Some [AX (XBasic CB); AX (XBasic CB)])) [] BO_DEFAULT STRICT false;
    GS [] (Some (1, Some [AX (XClass 2); AX (XBasic CH)])) [] BO_DEFAULT OVERRIDE true;
    GS [ ("l", GI (GX (XClass 2))); ("r", GI (GX (XClass 3))) ] None [] BO_BE STRICT false ]%nat.
Definition box_idf (k : nat) (p : list nat) : nat := (10 * k + 5)%nat.
Definition box_fac (k : akind) (a : list pyh) : nat :=
  match k, a with AkArray, [_; PClass 2] => 35 | AkArray, _ => 12 | _, _ => 3 end%nat.
Definition box_gl : list gclass := match gcheck_prog [] 0 box_prog with Some gl => gl | None => [] end.
Definition box_classes : list cinfo := match grun box_idf box_fac 5 [] 0 box_prog with Ok l => l | Err _ => [] end.
(** the text of the second specialization *)
Example box_text : match nth_error (texts box_gl) 3 with Some c => fields_of (sc_anns c) | None => [] end =
  [ ("one", XClass 2); ("name", XChar (KUint CH)); ("two", XArray (inl 2) None (XClass 2)); ("many", XArray (inr CH) None (XClass 0));
    ("pair", XTuple [XBasic CH; XBasic CB]); ("kind", XBasic CB) ].
Proof. vm_compute. reflexivity. Qed.
Lemma box_generic : generic box_idf box_fac 5 box_prog box_gl box_classes.
Proof. split; [lia|]. split; vm_compute; reflexivity. Qed.
Definition box_born (c : nat) : nat := (10 * (c + 1))%nat.
Lemma box_program : forall md, gprogram md box_idf box_fac 5 box_prog box_gl box_classes.
Proof.
  intros md. constructor.
  - exact box_generic.
  - assert (Q : forallb (fun c => forallb (fun p => frag md (reads_on (texts box_gl)) (snd p)) (sc_anns c)) (texts box_gl) = true)
      by (destruct md; vm_compute; reflexivity).
    intros c a x I J. rewrite forallb_forall in Q. specialize (Q c I). rewrite forallb_forall in Q. exact (Q (a, x) J).
  - assert (Q : forallb (fun c => negb (sc_rest c)) (texts box_gl) = true) by (vm_compute; reflexivity).
    intros c a x I _ _. rewrite forallb_forall in Q. apply Bool.negb_true_iff. exact (Q c I).
  - apply (class_check box_classes 5 (fun _ cd => sized (c_ser cd))); vm_compute; reflexivity.
  - exists (fun id => id), box_born. intros c cd C. apply andb_prop.
    apply (class_check box_classes 5 (fun c cd => ordered (fun id => id) box_born (c_ser cd) && older (fun id => id) box_born (box_born c) (c_ser cd)));
      [vm_compute; reflexivity|vm_compute; reflexivity|exact C].
Qed.
Definition pt (x : Z) : value := VObj 0 None [("p", VInt x)].
Definition box1 (x : Z) : value :=
  VObj 2 None [("one", VInt x); ("name", VBytes [x68; x69]); ("two", VList [VInt 1; VInt 2]); ("many", VList [pt 13; pt 14; pt 15]);
               ("pair", VTuple [VInt 3; VInt 4]); ("kind", VInt 5); ("extra", VInt 6)].
Definition box2 : value :=
  VObj 3 None [("one", box1 7); ("name", VBytes [x6f]); ("two", VList [box1 8; box1 9]); ("many", VList []);
               ("pair", VTuple [VInt 300; VInt 10]); ("kind", VInt 11)].
Definition box3 : value := VObj 4 None [("l", box1 12); ("r", box2)].
Definition Pt : cdef := Eval vm_compute in match classes box_classes 0 with Some cd => cd | None => CD [] SNull BO_DEFAULT false end.
Definition Box1 : cdef := Eval vm_compute in match classes box_classes 2 with Some cd => cd | None => CD [] SNull BO_DEFAULT false end.
Definition Box2 : cdef := Eval vm_compute in match classes box_classes 3 with Some cd => cd | None => CD [] SNull BO_DEFAULT false end.
Definition Box3 : cdef := Eval vm_compute in match classes box_classes 4 with Some cd => cd | None => CD [] SNull BO_DEFAULT false end.
Section Boxes.
Variable ct : nat -> option cdef.
Hypothesis CT0 : ct 0%nat = Some Pt.
Hypothesis CT2 : ct 2%nat = Some Box1.
Hypothesis CT3 : ct 3%nat = Some Box2.
Hypothesis CT4 : ct 4%nat = Some Box3.
Ltac byte_field := unfold canon_st; cbn; unfold canon_fmt, expand; cbn; unfold in_range; change (ss_nvals _) with 1%nat; cbn;
  match goal with |- context [_ <=? ?x] => destruct (0 <=? x) eqn:?, (x <? 256) eqn:?; try reflexivity; lia end.
Lemma pt_in : forall md n id pc uc x, 0 <= x < 256 -> canon false ct Nat.eqb md (2 + n) (SStructd id 0) pc uc [pt x].
Proof.
  intros. cbn [Nat.add]. rewrite canon_S. cbn [canon_step]. eexists. split; [reflexivity|]. c_obj Pt. c_in. cbn. byte_field.
Qed.
Lemma box1_canon : forall md n x, 0 <= x < 256 -> canonical false ct Nat.eqb md (5 + n) (box1 x).
Proof.
  intros md n x X. unfold canonical, box1. c_obj Box1.
  c_field. { cbn. byte_field. }
  c_field. { c_open. eexists. reflexivity. }
  c_field. { c_open. eexists. split; [reflexivity|]. vm_compute. reflexivity. }
  c_field. { c_open. eexists. split; [reflexivity|]. c_in. repeat constructor; apply (pt_in md (1 + n)); lia. }
  c_field. { c_open. eexists. split; [reflexivity|]. c_in. vm_compute. reflexivity. }
  c_field. { vm_compute. reflexivity. }
  split; reflexivity.
Qed.
Lemma box1_in : forall md n id pc uc x, 0 <= x < 256 -> canon false ct Nat.eqb md (6 + n) (SStructd id 2) pc uc [box1 x].
Proof.
  intros. cbn [Nat.add]. rewrite canon_S. cbn [canon_step]. eexists. split; [reflexivity|].
  change (canonical false ct Nat.eqb md (5 + n) (box1 x)). now apply box1_canon.
Qed.
Lemma box2_canon : forall md n, canonical false ct Nat.eqb md (8 + n) box2.
Proof.
  intros md n. unfold canonical, box2. c_obj Box2.
  c_field. { apply (box1_in md (1 + n)). lia. }
  c_field. { c_open. eexists. reflexivity. }
  c_field. { c_open. eexists. split; [reflexivity|]. c_in. repeat constructor; apply (box1_in md n); lia. }
  c_field. { c_open. eexists. split; [reflexivity|]. c_in. constructor. }
  c_field. { c_open. eexists. split; [reflexivity|]. c_in. vm_compute. reflexivity. }
  c_field. { vm_compute. reflexivity. }
  split; reflexivity.
Qed.
Lemma box3_canon : forall md n, canonical false ct Nat.eqb md (10 + n) box3.
Proof.
  intros md n. unfold canonical, box3. c_obj Box3.
  c_field. { apply (box1_in md (3 + n)). lia. }
  c_field. { cbn [firstn skipn num_values Nat.add canon_pred]. rewrite canon_S. cbn [canon_step]. eexists. split; [reflexivity|].
    change (canonical false ct Nat.eqb md (8 + n) box2). apply box2_canon. }
  split; reflexivity.
Qed.
End Boxes.
Example C50_nontrivial :
  (forall md, gprogram md box_idf box_fac 5 box_prog box_gl box_classes) /\ forallb regular_class (texts box_gl) = true /\
  healthy (classes box_classes) Nat.eqb /\ (forall md, classes_hu (classes box_classes) md) /\
  conforms false (classes box_classes) Nat.eqb 10 box3 /\ canonical false (classes box_classes) Nat.eqb UBuf 10 box3 /\
  (exists b, fst (Structured_pack false (classes box_classes) 10 box3 dirty) = Ok b /\
     fst (create_unpack false (classes box_classes) 10 4 b dirty) = Ok box3 /\ wire false (texts box_gl) 11 4 None
       match box3 with VObj _ _ d => d | _ => [] end = Some b) /\
  (exists l', run box_idf box_fac [] 0 (written_out box_gl) = Ok l' /\ same_classes box_classes l').
Proof.
  split; [exact box_program|]. split; [vm_compute; reflexivity|]. split; [exact (proj1 (C50_program false _ _ _ _ _ _ _ (box_program UBuf)))|].
  split; [intros md; exact (proj1 (proj2 (C50_program false _ _ _ _ _ _ _ (box_program md))))|].
  split; [unfold conforms; vm_compute; congruence|]. split; [apply (box3_canon (classes box_classes)); vm_compute; reflexivity|]. split.
  - eexists. split; [vm_compute; reflexivity|]. split; vm_compute; reflexivity.
  - destruct (proj2 (C50_accepted box_idf box_fac 5 box_prog box_gl ltac:(lia) ltac:(vm_compute; reflexivity))) as (l' & R).
    exists l'. split; [exact R|]. exact (C50_same_classes _ _ _ _ _ _ _ _ _ box_generic R).
Qed.

(** ** What does not hold *)
(** "An annotation in the body of a class replaces the inherited one": not when the base is written [C[args]] and the
    annotation of [C] has a type variable.  [class E(C[uint8]): x: uint32] packs [x] into one byte. *)
Definition redeclare : list gstmt :=
  [ GS [("x", GI (GVar 0))] None [0%nat] BO_LE STRICT false;
    GS [("x", GI (GX (XBasic CI)))] (Some (0%nat, Some [AX (XBasic CB)])) [] BO_LE STRICT false ].
Theorem C50_redeclared_refuted : exists gl l,
  generic box_idf box_fac 5 redeclare gl l /\
  fst (Structured_pack false (classes l) 5 (VObj 1 None [("x", VInt 7)]) dirty) = Ok [x07] /\
  fst (Structured_pack false (classes l) 5 (VObj 1 None [("x", VInt 70000)]) dirty) = Err StructError.
Proof.
  eexists _, _. split; [split; [lia|split; vm_compute; reflexivity]|]. split; vm_compute; reflexivity.
Qed.
Print Assumptions C50_redeclared_refuted.
(** "Every annotated field is packed": not the fields with type variables when the base is written without arguments. *)
Definition unspecialized : list gstmt :=
  [ GS [("x", GI (GVar 0)); ("y", GI (GX (XBasic CB)))] None [0%nat] BO_LE STRICT false;
    GS [] (Some (0%nat, None)) [] BO_LE STRICT false ].
Theorem C50_unspecialized_refuted : exists gl l,
  generic box_idf box_fac 5 unspecialized gl l /\
  fst (Structured_pack false (classes l) 5 (VObj 1 None [("x", VInt 7); ("y", VInt 8)]) dirty) = Ok [x08] /\
  fst (create_unpack false (classes l) 5 1 [x08] dirty) = Ok (VObj 1 None [("y", VInt 8)]).
Proof.
  eexists _, _. split; [split; [lia|split; vm_compute; reflexivity]|]. split; vm_compute; reflexivity.
Qed.
Print Assumptions C50_unspecialized_refuted.
