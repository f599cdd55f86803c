(** C42: from class statements to bytes and back.  Programs are sequences of class statements (Surface.v); the
    theorems say that the classes they define meet the hypotheses of the theorems about packing and unpacking. *)
From Verif Require Import Base Floats Value StructMod Format Ser Exec Pure BaseFacts StructFacts FormatFacts
  SerFacts RefPack RefUnpack User Canon DecFacts RoundTrip RoundTripMain Sample PropsIO PropsArrays Adding PropsAdd PropsFinal PropsRoundTrip
  Hints HintFacts Surface SerShape Programs ProgramFacts.
Open Scope string_scope. Open Scope list_scope. Open Scope Z_scope.

(** Serializer objects and classes were created one after the other: a container after what it contains, a class
    after its fields.  ([birth], [cbirth]: when; the same object may occur in several places.) *)
Definition created_in_order (l : list cinfo) : Prop :=
  exists birth cbirth, forall c cd, classes l c = Some cd ->
    ordered birth cbirth (c_ser cd) = true /\ older birth cbirth (cbirth c) (c_ser cd) = true.
(** The program ran, and
    - its hints are in the fragment [frag] (Programs.v: everything except the combinations the library does not handle),
    - [Self] is not used in a class that reads to the end of its input,
    - no class consists of a single conditional field or a single [Self] (it would have no size). *)
Record program (md : umode) (idf : nat -> list nat -> nat) (fac : akind -> list pyh -> nat) (prog : list stmt)
  (l : list cinfo) : Prop := Program {
  pr_run : run idf fac [] 0 prog = Ok l;
  pr_frag : forall s a x, In s prog -> In (a, x) (st_body s) -> frag md (fin_of l) x = true;
  pr_self : forall c, selfy prog c -> fin_of l c = false;
  pr_size : forall c cd, classes l c = Some cd -> sized (c_ser cd) = true;
  pr_order : created_in_order l }.

Theorem C42_healthy : forall md idf fac prog l, program md idf fac prog l -> healthy (classes l) Nat.eqb.
Proof.
  intros md idf fac prog l [R F S Z (birth & cbirth & O)].
  eapply (program_healthy false md idf fac prog l F 0 R); eauto.
Qed.
Print Assumptions C42_healthy.
Theorem C42_reads_back : forall hb md idf fac prog l, program md idf fac prog l ->
  reads_back hb (classes l) md (fun d => negb (fin_of l d)).
Proof.
  intros hb md idf fac prog l [R F S Z _]. exact (program_reads_back hb md idf fac prog l F 0 R S).
Qed.
Print Assumptions C42_reads_back.

(** Packing and unpacking an instance of a class of the program gives the instance back. *)
Theorem C42_round_trip : forall hb idf fac prog l n m c d w w' b, program UBuf idf fac prog l ->
  canonical hb (classes l) Nat.eqb UBuf n (VObj c None d) -> conforms hb (classes l) Nat.eqb n (VObj c None d) -> (n <= m)%nat ->
  fst (Structured_pack hb (classes l) n (VObj c None d) w) = Ok b ->
  fst (create_unpack hb (classes l) m c b w') = Ok (VObj c None d).
Proof.
  intros. eapply C01_round_trip; [eapply C42_healthy; eassumption|eapply C42_reads_back; eassumption| | | |]; eassumption.
Qed.
Print Assumptions C42_round_trip.
(** ... with all three methods, anything before, and, unless the class reads to the end, anything after. *)
Theorem C42_three_methods : forall hb idf fac prog l n m c d w w1 w2 w3 pre b rest,
  (forall md, program md idf fac prog l) ->
  (forall md, canonical hb (classes l) Nat.eqb md n (VObj c None d)) -> conforms hb (classes l) Nat.eqb n (VObj c None d) -> (n <= m)%nat ->
  fin_of l c = false \/ rest = [] ->
  fst (Structured_pack hb (classes l) n (VObj c None d) w) = Ok b ->
  w_data w3 = pre ++ b ++ rest -> w_pos w3 = blen pre ->
  fst (create_unpack hb (classes l) m c (b ++ rest) w1) = Ok (VObj c None d) /\
  fst (create_unpack_from hb (classes l) m c (pre ++ b ++ rest) (blen pre) w2) = Ok (VObj c None d) /\
  fst (create_unpack_read hb (classes l) m c w3) = Ok (VObj c None d).
Proof.
  intros hb idf fac prog l n m c d w w1 w2 w3 pre b rest P CN CF NM FC PK D PS.
  eapply (C05_three_methods hb (classes l) Nat.eqb (fun d => negb (fin_of l d)) n m c d w w1 w2 w3 pre b rest); try eassumption.
  - exact (C42_healthy _ _ _ _ _ (P UBuf)).
  - intros md. exact (C42_reads_back hb md _ _ _ _ (P md)).
  - destruct FC as [-> | ->]; auto.
Qed.
Print Assumptions C42_three_methods.
(** Whatever an instance is unpacked from (packed or not), only the bytes it consumes matter. *)
Theorem C42_trailing : forall hb md idf fac prog l n c b v z rest, program md idf fac prog l -> fin_of l c = false ->
  let create b := create_step hb (classes l) (unpack hb (classes l) n) c (fst (src_of md b)) (snd (src_of md b)) in
  fst (create b) = Ok v -> fst (obj_size hb (classes l) c None (snd (create b))) = Ok z -> z <= blen b ->
  fst (create (b ++ rest)) = Ok v /\ fst (obj_size hb (classes l) c None (snd (create (b ++ rest)))) = Ok z.
Proof.
  intros hb md idf fac prog l n c b v z rest P FC. pose proof (C42_healthy _ _ _ _ _ P) as H.
  destruct (C42_reads_back hb _ _ _ _ _ P) as [HU _].
  destruct P as [R F S Z _].
  apply (C14_trailing hb (classes l) Nat.eqb md (fin_of l) n c b v z rest H HU); [|exact FC|].
  - exact (program_accepted hb md idf fac prog l F 0 R S).
  - unfold csized. destruct (classes l c) eqn:C; [eapply Z; exact C|reflexivity].
Qed.
Print Assumptions C42_trailing.
(** the serializer [s] uses class [d] *)
Inductive uses (d : nat) : ser -> Prop :=
| US_structured : forall id, uses d (SStructd id d)
| US_unicode : forall x cd, uses d x -> uses d (SUnicode x cd)
| US_array : forall id h x st, uses d x -> uses d (SArray id h x st)
| US_tuple : forall id x, uses d x -> uses d (STuple id x)
| US_cond : forall f x v, uses d x -> uses d (SCond f x v)
| US_back : forall id f m df k x, In (k, x) m -> uses d x -> uses d (SLookback id f m df)
| US_back_default : forall id f m x, uses d x -> uses d (SLookback id f m (Some x))
| US_peek : forall id ra f m df, uses d ra -> uses d (SLookahead id ra f m df)
| US_ahead : forall id ra f m df k x, In (k, x) m -> uses d x -> uses d (SLookahead id ra f m df)
| US_ahead_default : forall id ra f m x, uses d x -> uses d (SLookahead id ra f m (Some x))
| US_sum : forall id l x, In x l -> uses d x -> uses d (SCompound id l)
| US_spec : forall id l x o, In x l -> uses d x -> uses d (SSpec id l o).
(** Classes use earlier classes only: there is no recursion except through [Self]. *)
Theorem C42_uses_earlier : forall md idf fac prog l c cd d, program md idf fac prog l -> classes l c = Some cd ->
  uses d (c_ser cd) -> (d < c)%nat.
Proof.
  intros md idf fac prog l c cd d [R F S Z _] C U.
  pose proof (proj2 (program_wf false md idf fac prog l F 0 R c cd C)) as W. clear -U W.
  induction U; cbn [sall] in W; apply andb_prop in W as [W0 W]; auto.
  - now apply Nat.ltb_lt in W0.
  - apply andb_prop in W as [W _]. rewrite forallb_forall in W. exact (IHU (W _ H)).
  - apply andb_prop in W as [_ W]. auto.
  - apply andb_prop in W as [W _]. apply andb_prop in W as [W _]. auto.
  - apply andb_prop in W as [W _]. apply andb_prop in W as [_ W]. rewrite forallb_forall in W. exact (IHU (W _ H)).
  - apply andb_prop in W as [_ W]. auto.
  - rewrite forallb_forall in W. auto.
  - rewrite forallb_forall in W. auto.
Qed.
Print Assumptions C42_uses_earlier.

(** ** The sample classes as a program *)
Definition sample_prog : list stmt :=
  [ Stmt [("x", XBasic Ch); ("y", XBasic Ch)] None BO_DEFAULT STRICT false;
    Stmt [ ("kind", XBasic CB);
           ("name", XUnicode (KUint CB) latin1);
           ("opt", XCond (XBasic CI) (fld_is "kind" 1) [VInt 7]);
           ("payload", XBack 12 [XBasic CH; XClass 0; XChar (KUint CB)] (fld "kind")
                         [(VInt 0, XBasic CH); (VInt 1, XClass 0)] (Some (XChar (KUint CB))));
           ("pts", XArray (inr CB) (Some CH) (XClass 0));
           ("kids", XArray (inr CB) None XSelf);
           ("LIMIT", XClassVar (XPlain 7));
           ("pair", XTuple [XBasic Cb; XBasic CH]) ] None BO_DEFAULT STRICT true;
    Stmt [ ("z", XBasic Ch); ("_", XPad 2); ("color", XAs (fun v => Ok (VTuple [v])) (XBasic CB)) ] (Some 0%nat) BO_DEFAULT STRICT false;
    Stmt [ ("x", XBasic Ci); ("origin", XClass 2); ("body", XAhead 50 [XClass 0; XClass 1] (XBasic CB) (fld2 "body" "kind")
                         [(VInt 0, XClass 0); (VInt 1, XClass 1)] None);
           ("rest", XUnicode KInf latin1) ] (Some 2%nat) BO_LE OVERRIDE false ].
Definition sample_idf (k : nat) (p : list nat) : nat :=
  match k, p with
  | 1, [] => 10 | 1, [0; 0; 12] => 13 | 1, [0; 0; 15] => 16 | 1, [0; 0; 17] => 18 | 1, [_] => 19
  | 3, [0; 0; 50] => 51 | 3, [] => 52 | _, _ => 60
  end%nat.
Definition sample_fac (k : akind) (a : list pyh) : nat :=
  match k, a with
  | AkChar, [PAnn _ _] => 11 | AkChar, _ => 49 | AkArray, [_; PClass _] => 15 | AkArray, _ => 17 | _, _ => 61
  end%nat.
Definition sample_run := run sample_idf sample_fac [] 0 sample_prog.
Definition sample_classes : list cinfo := match sample_run with Ok l => l | Err _ => [] end.
Example sample_ran : sample_run = Ok sample_classes.
Proof. reflexivity. Qed.
Example sample_point : classes sample_classes 0 = Some Point.
Proof. reflexivity. Qed.
Example sample_node : classes sample_classes 1 = Some Node.
Proof. reflexivity. Qed.
Lemma frag_check : forall md fin prog, forallb (fun s => forallb (fun p => frag md fin (snd p)) (st_body s)) prog = true ->
  forall s a x, In s prog -> In (a, x) (st_body s) -> frag md fin x = true.
Proof.
  intros md fin prog H s a x I J. rewrite forallb_forall in H. specialize (H s I). rewrite forallb_forall in H. exact (H (a, x) J).
Qed.
Lemma class_check : forall l k P, List.length l = k ->
  forallb (fun c => match classes l c with Some cd => P c cd | None => true end) (seq 0 k) = true ->
  forall c cd, classes l c = Some cd -> P c cd = true.
Proof.
  intros l k P K H c cd C. rewrite forallb_forall in H. assert (I : In c (seq 0 k)).
  { apply in_seq. split; [lia|]. unfold classes in C. subst k. cbn. apply nth_error_Some. intros N. rewrite N in C. discriminate. }
  specialize (H c I). now rewrite C in H.
Qed.
Lemma sample_program : forall md, program md sample_idf sample_fac sample_prog sample_classes.
Proof.
  intros md. constructor.
  - exact sample_ran.
  - apply frag_check. destruct md; reflexivity.
  - intros c H. assert (c = 1%nat) as ->; [|reflexivity].
    induction H as [c s a x N I S|c s b N B H IH].
    + do 4 (destruct c as [|c]; [cbn in N; injection N as <-; cbn in I;
        repeat (destruct I as [I|I]; [injection I as <- <-; try discriminate S; try reflexivity|]); contradiction|]).
      destruct c; discriminate N.
    + subst b. do 4 (destruct c as [|c]; [cbn in N; injection N as <-; discriminate B|]). destruct c; discriminate N.
  - apply (class_check sample_classes 4 (fun _ cd => sized (c_ser cd))); reflexivity.
  - exists (fun id => id), (fun c => match c with 0 => 1 | 1 => 20 | 2 => 30 | _ => 60 end)%nat.
    intros c cd C. apply andb_prop.
    apply (class_check sample_classes 4 (fun c cd => ordered (fun id => id) (fun c => match c with 0 => 1 | 1 => 20 | 2 => 30 | _ => 60 end)%nat (c_ser cd)
      && older (fun id => id) (fun c => match c with 0 => 1 | 1 => 20 | 2 => 30 | _ => 60 end)%nat
           (match c with 0 => 1 | 1 => 20 | 2 => 30 | _ => 60 end)%nat (c_ser cd))); [reflexivity|reflexivity|exact C].
Qed.
(** all hypotheses are met by this program and a tree of nodes *)
Example C42_nontrivial :
  (forall md, program md sample_idf sample_fac sample_prog sample_classes) /\ fin_of sample_classes 1 = false /\
  fin_of sample_classes 3 = true /\
  (forall md, canonical false (classes sample_classes) Nat.eqb md 10 tree) /\
  conforms false (classes sample_classes) Nat.eqb 10 tree /\
  is_ok (fst (Structured_pack false (classes sample_classes) 10 tree dirty)) = true /\
  fst (create_unpack false (classes sample_classes) 4 3
         [x01; x00; x00; x00; x02; x00; x03; x00; x00; x00; x09;
          x01; x00; x02; x00; x03; x00; x00; x00; x07; x00; x05; x06; x00; x68; x69] dirty)
  = Ok (VObj 3 None [("x", VInt 1); ("y", VInt 2); ("z", VInt 3); ("color", VTuple [VInt 9]);
         ("origin", VObj 2 None [("x", VInt 1); ("y", VInt 2); ("z", VInt 3); ("color", VTuple [VInt 7])]);
         ("body", VObj 0 None [("x", VInt 1280); ("y", VInt 6)]); ("rest", VStr [104; 105])]).
Proof.
  split; [exact sample_program|]. split; [reflexivity|]. split; [reflexivity|].
  split; [intros md; apply (tree_canon (classes sample_classes) sample_point sample_node md 3)|].
  split; [unfold conforms; vm_compute; congruence|]. split; [vm_compute; reflexivity|].
  vm_compute. reflexivity.
Qed.
