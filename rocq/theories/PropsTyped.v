(** Property C53: what is read has the type of its annotation (TypeSpec.v). *)
From Verif Require Import Base Floats Value StructMod Format Ser Exec Pure BaseFacts FloatFacts RefUnpack User Sample PropsRoundTrip
  Hints HintFacts Surface SerShape Programs Accept AcceptProg PropsProgram PropsAccept WireSpec Wires PropsWire ReadSpec ReadFacts Reads PropsReads
  Refills PropsRefills TypeSpec Typed.
Open Scope string_scope. Open Scope list_scope. Open Scope Z_scope.

Lemma reading_made : forall idf fac prog l sl md, reading idf fac prog l sl md -> all_made sl /\
  forall c sc, nth_error sl c = Some sc -> sc_attrs sc = names_of (fields_of (sc_anns sc)) /\ lined (fields_of (sc_anns sc)) /\
    NoDup (map fst (fields_of (sc_anns sc))).
Proof.
  intros idf fac prog l sl md (R & CK & RG & (allow & TT & CO) & _).
  pose proof (prog_rel idf fac prog [] [] 0 nothing_defined) as P. rewrite CK in P.
  destruct P as (l' & Q & CR). assert (l' = l) as -> by congruence. split; [exact (rel_made sl l CR)|]. intros c sc NS.
  destruct (nth_error l c) as [i|] eqn:NI.
  - assert (HC : forall c cd, classes l c = Some cd -> hc (classes l) TT c (c_ser cd) = true) by (intros c' cd E; destruct CO as [CO _]; apply (CO c' cd E)).
    destruct (class_facts sl l CR RG TT HC c sc i NS NI) as (sers & _ & ND & _ & _ & _ & _ & _ & LN & _). split; [|auto]. apply attrs_names.
    rewrite forallb_forall in RG. apply RG. eapply nth_error_In; eauto.
  - exfalso. destruct CR as [LEN _]. apply nth_error_None in NI. assert (c < List.length sl)%nat by (apply nth_error_Some; congruence). lia.
Qed.

(** ** the calls *)
(** Objects made by [create_unpack], [create_unpack_from] and [create_unpack_read] are instances of their class in the
    sense of TypeSpec.v, whatever the bytes: so are the objects in their fields. *)
Theorem C53_create_unpack : forall hb idf fac prog l sl n c b w v, reading idf fac prog l sl UBuf ->
  fst (create_unpack hb (classes l) n c b w) = Ok v -> instance UBuf sl c v.
Proof.
  intros hb idf fac prog l sl n c b w v R E. destruct (C46_create_unpack _ _ _ _ _ _ _ _ _ _ _ R E) as [k P].
  exact (parse_typed hb UBuf sl (proj1 (reading_made _ _ _ _ _ _ R)) _ _ _ _ _ P).
Qed.
Print Assumptions C53_create_unpack.
Theorem C53_create_unpack_from : forall hb idf fac prog l sl n c b off w v, reading idf fac prog l sl UFrom -> 0 <= off <= blen b ->
  fst (create_unpack_from hb (classes l) n c b off w) = Ok v -> instance UFrom sl c v.
Proof.
  intros hb idf fac prog l sl n c b off w v R OFF E. destruct (C46_create_unpack_from _ _ _ _ _ _ _ _ _ _ _ _ R OFF E) as [k P].
  exact (parse_typed hb UFrom sl (proj1 (reading_made _ _ _ _ _ _ R)) _ _ _ _ _ P).
Qed.
Print Assumptions C53_create_unpack_from.
Theorem C53_create_unpack_read : forall hb idf fac prog l sl n c w v, reading idf fac prog l sl URead -> 0 <= w_pos w ->
  fst (create_unpack_read hb (classes l) n c w) = Ok v -> instance URead sl c v.
Proof.
  intros hb idf fac prog l sl n c w v R OFF E. destruct (C46_create_unpack_read _ _ _ _ _ _ _ _ _ _ R OFF E) as (k & P & _).
  exact (parse_typed hb URead sl (proj1 (reading_made _ _ _ _ _ _ R)) _ _ _ _ _ P).
Qed.
Print Assumptions C53_create_unpack_read.
(** [obj.unpack], [obj.unpack_from] and [obj.unpack_read] (by source): the fields of the class are typed in the order of
    the annotations, each with the attributes the object has at that point in view; other attributes stay. *)
Theorem C53_refill : forall hb md idf fac prog l sl n c ov d s w d' sc, reading idf fac prog l sl md -> md_of s = md -> srcok s w ->
  nth_error sl c = Some sc -> fst (Structured_unpack hb (classes l) n c ov d s w) = (Ok tt, d') ->
  fields_typed md sl c false (fields_of (sc_anns sc)) d d' /\
  (forall a x, In (a, x) (fields_of (sc_anns sc)) -> takes x = true ->
    exists d0 v, assoc a d' = Some v /\ typed md sl (PO c false d0) x [v]) /\
  forall a, ~ In a (map fst (fields_of (sc_anns sc))) -> assoc a d' = assoc a d.
Proof.
  intros hb md idf fac prog l sl n c ov d s w d' sc R M OK NS E. destruct (C48_refill _ _ _ _ _ _ _ _ _ _ _ _ _ _ R M OK E) as (k & P & _).
  destruct (reading_made _ _ _ _ _ _ R) as [AM CF]. pose proof (reparse_typed hb md sl AM _ _ _ _ _ _ _ _ NS P) as F. split; [exact F|].
  destruct (CF c sc NS) as (_ & _ & ND). destruct (typed_over md sl _ _ _ _ _ ND F). auto.
Qed.
Print Assumptions C53_refill.

(** ** what it means for the attributes *)
(** The attributes are those of the class statement, in order (paddings have none), and each of them has the type of its
    annotation, conditions and deciders being asked about the attributes in front of it. *)
Theorem C53_attributes : forall md idf fac prog l sl c sc v, reading idf fac prog l sl md -> nth_error sl c = Some sc ->
  instance md sl c v ->
  exists d, v = VObj c None d /\ map fst d = sc_attrs sc /\ NoDup (map fst d) /\
    forall a x, In (a, x) (fields_of (sc_anns sc)) -> takes x = true ->
      exists d0 u d1, d = d0 ++ (a, u) :: d1 /\ typed md sl (PO c true d0) x [u].
Proof.
  intros md idf fac prog l sl c sc v R NS I. inversion I as [c' sc' d NS' F]; subst. assert (sc' = sc) as -> by congruence. exists d. split; [reflexivity|].
  destruct (reading_made _ _ _ _ _ _ R) as [_ CF]. destruct (CF c sc NS) as (AN & LN & ND).
  assert (NO : forall a, In a (map fst (fields_of (sc_anns sc))) -> ~ In a (map fst (@nil (string * value)))) by (intros a _ []).
  destruct (typed_attrs md sl c true _ _ _ LN ND NO F) as [MF TY]. cbn in MF. rewrite AN, MF. split; [reflexivity|].
  split; [now apply names_nodup|exact TY].
Qed.
Print Assumptions C53_attributes.
Definition integer (c : code) : bool := match c with Cb | CB | Ch | CH | Ci | CI | Cq | CQ => true | _ => false end.
(** Integers are in the range of their type (which is also the range that can be packed, C27). *)
Theorem C53_integer : forall md sl o c v, integer c = true -> typed md sl o (XBasic c) [v] ->
  exists z, v = VInt z /\ least c <= z <= greatest c.
Proof. intros md sl o c v IC T. inversion T; subst. destruct c; try discriminate IC; assumption. Qed.
Print Assumptions C53_integer.
(** Scalars that were read can be packed again as the same type, in every byte order: floats other than NaN. *)
Theorem C53_scalar_packs : forall md sl o c v m, basic_code c = true -> typed md sl o (XBasic c) [v] ->
  match v with VFloat f => is_nan f = false | _ => True end -> scalar m c v <> None.
Proof.
  intros md sl o c v m BC T NN. inversion T as [? ? ? B| | | | | | | | | | | | | | |]; subst.
  destruct c; try discriminate BC; cbn [basic_value scalar] in *; try (destruct B as (z & -> & R); cbn [as_index]; cbn [least greatest] in *;
    match goal with |- (if ?q then _ else _) <> _ => replace q with true by (symmetry; apply andb_true_intro; split; lia) end; discriminate).
  - discriminate.
  - destruct B as (u & -> & R). cbn [as_float]. rewrite narrow_widen_e by assumption. discriminate.
  - destruct B as (u & -> & R). cbn [as_float]. rewrite narrow_widen_f by assumption. discriminate.
  - destruct B as (u & -> & R). cbn [as_float]. discriminate.
Qed.
Print Assumptions C53_scalar_packs.
(** [char[n]] has exactly [n] bytes; a counted string no more than its count can say; a terminated one no terminator. *)
Theorem C53_string : forall md sl o a v, typed md sl o (XChar a) [v] ->
  exists b, v = VBytes b /\
    match a with
    | KInt n => blen b = n
    | KUint c => blen b <= greatest c
    | KBytes t => forall x, t = [x] -> ~ In x b
    | KInf => True
    | KNet => blen b <= 32767
    end.
Proof.
  intros md sl o a v T. inversion T as [| | | |? ? b CB| | | | | | | | | | |]; subst. exists b. split; [reflexivity|]. destruct a; cbn [char_bytes] in CB; try tauto.
  destruct CB as (x & -> & N). intros y Q. injection Q as <-. exact N.
Qed.
Print Assumptions C53_string.
(** Decoded strings have no NUL at their end. *)
Theorem C53_unicode : forall md sl o a cd v, typed md sl o (XUnicode a cd) [v] ->
  exists s, v = VStr s /\ (forall s' z, s = s' ++ [z] -> z <> 0) /\ exists b k, cod_dec cd b = Ok (s ++ repeat 0 k).
Proof.
  intros md sl o a cd v T. inversion T as [| | | | | |? ? ? b t s CB CD [[k TR] NE]| | | | | | | | |]; subst. exists s. split; [reflexivity|]. split; [exact NE|]. eauto.
Qed.
Print Assumptions C53_unicode.
(** Arrays are lists of as many items as the annotation or a count of its type says, when items are sure to have a value
    (they are, unless they may be empty counted strings read from an offset or a stream). *)
Theorem C53_array : forall md sl o n sz y v, sure md y = true -> typed md sl o (XArray n sz y) [v] ->
  exists vs, v = VList vs /\ match n with inl z => Z.of_nat (List.length vs) = z | inr c => Z.of_nat (List.length vs) <= greatest c end /\
    Forall (fun u => typed md sl o y [u]) vs.
Proof.
  intros md sl o n sz y v SU T. inversion T as [| | | | | | |? ? ? ? k vs CO ET| | | | | | | |]; subst. exists vs. split; [reflexivity|].
  destruct (each_sure md sl o y k vs SU ET) as [-> F]. auto.
Qed.
Print Assumptions C53_array.
(** Tuples have a member for each member of the annotation. *)
Theorem C53_tuple : forall md sl o l v, forallb (sure md) l = true -> typed md sl o (XTuple l) [v] ->
  exists vs, v = VTuple vs /\ Forall2 (fun y u => typed md sl o y [u]) l vs.
Proof.
  intros md sl o l v SU T. inversion T as [| | | | | | | |? ? vs AT| | | | | | |]; subst. exists vs. split; [reflexivity|]. exact (all_sure md sl o l vs SU AT).
Qed.
Print Assumptions C53_tuple.
(** A field annotated with a class holds an instance of exactly that class, without a byte order of its own. *)
Theorem C53_class : forall md sl o v, (forall c, typed md sl o (XClass c) [v] -> exists d, v = VObj c None d /\ instance md sl c v) /\
  (typed md sl o XSelf [v] -> exists d, v = VObj (p_cls o) None d /\ instance md sl (p_cls o) v).
Proof.
  intros md sl o v. split; [intros c T|intros T]; inversion T as [| | | | | | | | | | | | | |? ? ? I|? ? I]; subst; inversion I; subst; eauto.
Qed.
Print Assumptions C53_class.

(** ** examples *)
(** The hypotheses are met: the program of C42, bytes that the library did not write. *)
Example C53_nontrivial : instance UBuf sample_stmts 3 header_meaning /\ instance UFrom sample_stmts 3 header_meaning /\ instance URead sample_stmts 3 header_meaning.
Proof.
  destruct C46_nontrivial as (R & _ & P & P' & P''). pose proof (proj1 (reading_made _ _ _ _ _ _ (R UBuf))) as AM.
  repeat split; eapply parse_typed; eauto.
Qed.
(** Not everything is an instance: x is an int16. *)
Example C53_excludes : forall md z, instance md sample_stmts 0 (VObj 0 None [("x", VInt z); ("y", VInt 0)]) -> -32768 <= z <= 32767.
Proof.
  intros md z I. assert (NS : nth_error sample_stmts 0 = Some (SC [("serializer", XClassVar (XPlain 0)); ("attrs", XClassVar (XPlain 0)); ("_attrgetter", XClassVar (XPlain 0)); ("byte_order", XClassVar (XPlain 0)); ("x", XBasic Ch); ("y", XBasic Ch)] BO_DEFAULT false)).
  { vm_compute. reflexivity. }
  destruct (C53_attributes md _ _ _ _ _ 0 _ _ (proj1 C46_nontrivial md) NS I) as (d & E & _ & _ & A). injection E as <-.
  destruct (A "x" (XBasic Ch)) as (d0 & u & d1 & E & T); [vm_compute; tauto|reflexivity|].
  destruct d0 as [|? [|? [|? ?]]]; try discriminate E. injection E as <- _. destruct (C53_integer md sample_stmts _ Ch _ eq_refl T) as (z' & Q & B). injection Q as <-. exact B.
Qed.
(** Without [sure] the count is not that of the annotation: an empty counted string read from a stream is no value
    (serializers/strings.py, C18), so that an array of two of them is read as the empty list. *)
Definition pair_prog : list stmt := [Stmt [("names", XArray (inl 2) None (XChar (KUint CB)))] None BO_DEFAULT STRICT false].
Theorem C53_array_count_refuted : exists l, run (fun _ _ => 5%nat) (fun k _ => match k with AkChar => 6 | _ => 7 end%nat) [] 0 pair_prog = Ok l /\
  sure UBuf (XChar (KUint CB)) = true /\ sure URead (XChar (KUint CB)) = false /\
  fst (create_unpack false (classes l) 5 0 [x00; x00] clean) = Ok (VObj 0 None [("names", VList [VBytes []; VBytes []])]) /\
  fst (create_unpack_from false (classes l) 5 0 [x00; x00] 0 clean) = Ok (VObj 0 None [("names", VList [])]) /\
  fst (create_unpack_read false (classes l) 5 0 (W (fun _ => 0) (fun _ => None) [] [x00; x00] 0)) = Ok (VObj 0 None [("names", VList [])]).
Proof.
  eexists. split; [vm_compute; reflexivity|]. split; [reflexivity|]. split; [reflexivity|].
  split; [vm_compute; reflexivity|]. split; vm_compute; reflexivity.
Qed.
Print Assumptions C53_array_count_refuted.
