(** Property C55: classes of a fixed size, read off the class statements (SizeSpec.v). *)
From Verif Require Import Base Floats Value StructMod Format Ser Exec Pure BaseFacts SerFacts RefPack RefUnpack User Fuel DecFacts Sample
  Canon RoundTrip PropsRoundTrip Wire Hints HintFacts Surface SerShape Programs Accept AcceptProg PropsProgram PropsAccept WireSpec WireFacts Wires
  PropsWire PackSpec Packable Packing PropsPack ReadSpec ReadFacts Reads PropsReads SizeSpec Sizes.
Open Scope string_scope. Open Scope list_scope. Open Scope Z_scope.

(** Every instance of a class of a fixed size packs to that many bytes, whatever its values ([marks]: also when instances
    in its fields have byte orders of their own). *)
Theorem C55_pack : forall hb md idf fac prog l sl marks n n' c ov d w b sc s,
  program md idf fac prog l -> check_prog [] 0 prog = Some sl -> forallb regular_class sl = true ->
  conforms hb (classes l) Nat.eqb n (VObj c ov d) ->
  nth_error sl c = Some sc -> class_size marks sl n' (aligns (match ov with Some bo => bo | None => sc_bo sc end)) c = Some s ->
  marks = true \/ forallb (fun p => unmarked (snd p)) d = true ->
  fst (Structured_pack hb (classes l) n (VObj c ov d) w) = Ok b -> List.length b = s.
Proof.
  intros hb md idf fac prog l sl marks n n' c ov d w b sc s P CK RG CF SC Z U E.
  assert (NR : fst (Structured_pack hb (classes l) n (VObj c ov d) w) <> Err RecursionError) by congruence.
  destruct (proj1 (C49_program hb md idf fac prog l sl n c ov d w b P CK RG CF NR) E) as [W F].
  exact (class_measured hb marks sl RG (S n) c ov d b sc n' s W F SC U Z).
Qed.
Print Assumptions C55_pack.

(** Reading uses that many bytes, of whatever source, and the [size] attribute says so. *)
Lemma create_size : forall hb md idf fac prog l sl marks n n' c s w v sc k,
  program md idf fac prog l -> check_prog [] 0 prog = Some sl -> forallb regular_class sl = true ->
  nth_error sl c = Some sc -> class_size marks sl n' (aligns (sc_bo sc)) c = Some k -> md_of s = md -> srcok s w ->
  fst (create_step hb (classes l) (unpack hb (classes l) n) c s w) = Ok v ->
  Z.of_nat k <= blen (suffix s w) /\
  w_pos (snd (create_step hb (classes l) (unpack hb (classes l) n) c s w)) = posn s (Z.of_nat k) w /\
  fst (obj_size hb (classes l) c None (snd (create_step hb (classes l) (unpack hb (classes l) n) c s w))) = Ok (Z.of_nat k).
Proof.
  intros hb md idf fac prog l sl marks n n' c s w v sc k P CK RG SC Z M OK E.
  pose proof (C46_program _ _ _ _ _ _ P CK RG) as R. pose proof (C42_healthy _ _ _ _ _ P) as H.
  destruct R as (R1 & R2 & R3 & R4 & HU).
  destruct (user_create hb (classes l) Nat.eqb md n c s w H HU M OK) as (A & _ & _ & PS & OS). rewrite A in E.
  destruct (dcreate hb (classes l) md n c (suffix s w)) as [[v' k1]|] eqn:D; [|discriminate]. injection E as ->.
  destruct (reading_agree hb md idf fac prog l sl (conj R1 (conj R2 (conj R3 (conj R4 HU)))) (S n)) as [B AG].
  destruct (AG c (suffix s w) n (v, k1)) as [Q _]. specialize (Q ltac:(lia)). rewrite D in Q. specialize (Q eq_refl).
  destruct (class_consumed hb md marks sl (S n) c (suffix s w) v k1 sc n' k Q SC Z) as [-> L].
  split; [exact L|]. split; [apply PS|]. rewrite (OS v (Z.of_nat k)); [reflexivity| |reflexivity].
  unfold csized. destruct (classes l c) eqn:C; [eapply (pr_size _ _ _ _ _ P); exact C|reflexivity].
Qed.
Theorem C55_unpack : forall hb idf fac prog l sl marks n n' c b w v sc s,
  program UBuf idf fac prog l -> check_prog [] 0 prog = Some sl -> forallb regular_class sl = true ->
  nth_error sl c = Some sc -> class_size marks sl n' (aligns (sc_bo sc)) c = Some s ->
  fst (create_unpack hb (classes l) n c b w) = Ok v ->
  Z.of_nat s <= blen b /\ fst (obj_size hb (classes l) c None (snd (create_unpack hb (classes l) n c b w))) = Ok (Z.of_nat s).
Proof.
  intros hb idf fac prog l sl marks n n' c b w v sc s P CK RG SC Z E.
  destruct (create_size hb UBuf idf fac prog l sl marks n n' c (SBuf b) w v sc s P CK RG SC Z eq_refl I E) as (A & _ & C). auto.
Qed.
Print Assumptions C55_unpack.
Theorem C55_unpack_from : forall hb idf fac prog l sl marks n n' c b off w v sc s,
  program UFrom idf fac prog l -> check_prog [] 0 prog = Some sl -> forallb regular_class sl = true ->
  nth_error sl c = Some sc -> class_size marks sl n' (aligns (sc_bo sc)) c = Some s -> 0 <= off <= blen b ->
  fst (create_unpack_from hb (classes l) n c b off w) = Ok v ->
  off + Z.of_nat s <= blen b /\ fst (obj_size hb (classes l) c None (snd (create_unpack_from hb (classes l) n c b off w))) = Ok (Z.of_nat s).
Proof.
  intros hb idf fac prog l sl marks n n' c b off w v sc s P CK RG SC Z OFF E.
  destruct (create_size hb UFrom idf fac prog l sl marks n n' c (SFrom b off) w v sc s P CK RG SC Z eq_refl OFF E) as (A & _ & C).
  split; [|exact C]. cbn [suffix] in A. unfold blen in *. rewrite skipn_length in A. lia.
Qed.
Print Assumptions C55_unpack_from.
(** The stream is moved by the size of the class. *)
Theorem C55_unpack_read : forall hb idf fac prog l sl marks n n' c w v sc s,
  program URead idf fac prog l -> check_prog [] 0 prog = Some sl -> forallb regular_class sl = true ->
  nth_error sl c = Some sc -> class_size marks sl n' (aligns (sc_bo sc)) c = Some s -> 0 <= w_pos w ->
  fst (create_unpack_read hb (classes l) n c w) = Ok v ->
  let w' := snd (create_unpack_read hb (classes l) n c w) in
  w_pos w' = w_pos w + Z.of_nat s /\ (s = 0%nat \/ w_pos w' <= blen (w_data w)).
Proof.
  intros hb idf fac prog l sl marks n n' c w v sc s P CK RG SC Z POS E. cbv zeta.
  destruct (create_size hb URead idf fac prog l sl marks n n' c SRead w v sc s P CK RG SC Z eq_refl POS E) as (A & B & _).
  unfold create_unpack_read. rewrite B. cbn [posn suffix] in *. rewrite Z.min_l by exact A. split; [reflexivity|]. destruct s as [|s]; [now left|right]. unfold blen in *. rewrite skipn_length in A. lia.
Qed.
Print Assumptions C55_unpack_read.
(** Fewer bytes are refused. *)
Theorem C55_short : forall hb idf fac prog l sl marks n n' c b off w sc s,
  (forall md, program md idf fac prog l) -> check_prog [] 0 prog = Some sl -> forallb regular_class sl = true ->
  nth_error sl c = Some sc -> class_size marks sl n' (aligns (sc_bo sc)) c = Some s -> 0 <= off <= blen b -> blen b < off + Z.of_nat s ->
  is_ok (fst (create_unpack_from hb (classes l) n c b off w)) = false /\
  is_ok (fst (create_unpack hb (classes l) n c (skipn (Z.to_nat off) b) w)) = false /\
  (w_data w = b -> w_pos w = off -> is_ok (fst (create_unpack_read hb (classes l) n c w)) = false).
Proof.
  intros hb idf fac prog l sl marks n n' c b off w sc s P CK RG SC Z OFF SH. repeat split.
  - destruct (fst _) as [v|] eqn:E; [|reflexivity]. exfalso.
    destruct (C55_unpack_from hb idf fac prog l sl marks n n' c b off w v sc s (P UFrom) CK RG SC Z OFF E). lia.
  - destruct (fst _) as [v|] eqn:E; [|reflexivity]. exfalso.
    destruct (C55_unpack hb idf fac prog l sl marks n n' c _ w v sc s (P UBuf) CK RG SC Z E) as [A _]. unfold blen in *. rewrite skipn_length in A. lia.
  - intros D PO. destruct (fst _) as [v|] eqn:E; [|reflexivity]. exfalso.
    destruct (C55_unpack_read hb idf fac prog l sl marks n n' c w v sc s (P URead) CK RG SC Z) as [A [B|B]]; [lia|exact E|lia|rewrite D in B; lia].
Qed.
Print Assumptions C55_short.

(** Records: instances packed one after the other can be read in any order; number [i] starts at [i] times the size. *)
Theorem C55_records : forall hb idf fac prog l sl marks n n' m c sc s ds bs i d w,
  (forall md, program md idf fac prog l) -> check_prog [] 0 prog = Some sl -> forallb regular_class sl = true ->
  nth_error sl c = Some sc -> class_size marks sl n' (aligns (sc_bo sc)) c = Some s -> reads_on sl c = false -> (n <= m)%nat ->
  Forall2 (fun d b => (forall md, canonical hb (classes l) Nat.eqb md n (VObj c None d)) /\ conforms hb (classes l) Nat.eqb n (VObj c None d) /\
    (marks = true \/ forallb (fun p => unmarked (snd p)) d = true) /\
    exists w, fst (Structured_pack hb (classes l) n (VObj c None d) w) = Ok b) ds bs ->
  nth_error ds i = Some d ->
  fst (create_unpack_from hb (classes l) m c (concat bs) (Z.of_nat (i * s)) w) = Ok (VObj c None d).
Proof.
  intros hb idf fac prog l sl marks n n' m c sc s ds bs i d w P CK RG SC Z FC NM F N.
  assert (SP : exists b pre rest w0, concat bs = pre ++ b ++ rest /\ List.length pre = (i * s)%nat /\
    (forall md, canonical hb (classes l) Nat.eqb md n (VObj c None d)) /\ conforms hb (classes l) Nat.eqb n (VObj c None d) /\
    fst (Structured_pack hb (classes l) n (VObj c None d) w0) = Ok b).
  { revert i N. induction F as [|d0 b0 ds bs (CN & CF & U & w0 & E) F IH]; intros i N; [destruct i; discriminate|]. destruct i as [|i].
    - injection N as ->. exists b0, [], (concat bs), w0. auto.
    - destruct (IH i N) as (b & pre & rest & w1 & A & B & C). exists b, (b0 ++ pre), rest, w1. cbn [concat]. rewrite A. split; [now rewrite app_assoc|].
      split; [|exact C]. rewrite app_length, B. erewrite (C55_pack hb UBuf idf fac prog l sl marks n n' c None d0 w0 b0 sc s); eauto. }
  destruct SP as (b & pre & rest & w0 & A & B & CN & CF & E). rewrite A. replace (Z.of_nat (i * s)) with (blen pre) by (unfold blen; lia).
  assert (FL : ProgramFacts.fin_of l c = false).
  { pose proof (prog_rel idf fac prog [] [] 0 nothing_defined) as PR. rewrite CK in PR. destruct PR as (l' & RN & CR).
    assert (l' = l) as -> by (pose proof (pr_run _ _ _ _ _ (P UBuf)); congruence). unfold ProgramFacts.fin_of. now rewrite (fin_rel idf sl l CR). }
  destruct (C42_three_methods hb idf fac prog l n m c d w0 w w (W (w_size w) (w_obj w) (w_buf w) (pre ++ b ++ rest) (blen pre)) pre b rest) as (_ & Q & _); auto.
Qed.
Print Assumptions C55_records.

(** ** an example *)
(** The second class has a text, an array of instances, an array of numbers, a tuple, an encoded string and a union whose
    members agree; the size of the first depends on its alignment. *)
Definition fixed_prog : list stmt :=
  [ Stmt [("a", XBasic CB); ("b", XBasic CI)] None BO_DEFAULT STRICT false;
    Stmt [("h", XBasic CH); ("_", XPad 1); ("p", XPascal 4); ("pts", XArray (inl 2) (Some CH) (XClass 0)); ("nums", XArray (inl 3) None (XBasic CH));
          ("t", XTuple [XBasic Cb; XBasic CI]); ("name", XUnicode (KInt 4) latin1);
          ("u", XBack 40 [XBasic CI; XChar (KInt 4)] (fld "h") [(VInt 0, XBasic CI); (VInt 1, XChar (KInt 4))] None)] None BO_LE STRICT false ].
Definition fixed_idf (k : nat) (p : list nat) : nat := match k, p with 1, [] => 90 | 1, [7] => 40 | _, [i] => 30 + i | _, _ => 80 end%nat.
Definition fixed_fac (k : akind) (a : list pyh) : nat := match k, a with AkArray, [_; _; _] => 20 | AkArray, _ => 21 | _, _ => 22 end%nat.
Definition fixed_classes : list cinfo := match run fixed_idf fixed_fac [] 0 fixed_prog with Ok l => l | Err _ => [] end.
Definition fixed_stmts : list sclass := match check_prog [] 0 fixed_prog with Some sl => sl | None => [] end.
Definition pt (x : Z) : value := VObj 0 None [("a", VInt 1); ("b", VInt x)].
Definition fixed_obj (h : Z) (u : value) : list (string * value) :=
  [("h", VInt h); ("p", VBytes [x61]); ("pts", VList [pt 2; pt 3]); ("nums", VList [VInt 1; VInt 2; VInt h]);
   ("t", VTuple [VInt (-1); VInt 7]); ("name", VStr [104; 105]); ("u", u)].
Example fixed_sizes :
  class_size false fixed_stmts 2 (aligns BO_LE) 1 = Some (2 + 1 + 4 + (2 + 2 * 8) + 6 + 8 + 4 + 4)%nat /\
  class_size true fixed_stmts 2 (aligns BO_LE) 1 = None /\
  class_size true fixed_stmts 1 true 0 = Some 8%nat /\ class_size true fixed_stmts 1 false 0 = Some 5%nat /\
  class_size false sample_stmts 1 true 2 = Some 9%nat /\ class_size false sample_stmts 9 true 1 = None.
Proof. do 5 (split; [vm_compute; reflexivity|]). vm_compute. reflexivity. Qed.
Lemma fixed_program : forall md, program md fixed_idf fixed_fac fixed_prog fixed_classes.
Proof.
  intros md. constructor.
  - vm_compute. reflexivity.
  - apply frag_check. destruct md; reflexivity.
  - intros c H. exfalso. induction H as [c s a x N I S|c s b N B H IH]; [|exact IH].
    do 2 (destruct c as [|c]; [cbn in N; injection N as <-; cbn in I;
        repeat (destruct I as [I|I]; [injection I as <- <-; discriminate S|]); contradiction|]).
    destruct c; discriminate N.
  - apply (class_check fixed_classes 2 (fun _ cd => sized (c_ser cd))); reflexivity.
  - exists (fun id => match id with 80 => 2 | _ => id end)%nat, (fun c => match c with 0 => 1 | _ => 100 end)%nat.
    intros c cd C. apply andb_prop.
    apply (class_check fixed_classes 2 (fun c cd => ordered (fun id => match id with 80 => 2 | _ => id end)%nat (fun c => match c with 0 => 1 | _ => 100 end)%nat (c_ser cd)
      && older (fun id => match id with 80 => 2 | _ => id end)%nat (fun c => match c with 0 => 1 | _ => 100 end)%nat
           (match c with 0 => 1 | _ => 100 end)%nat (c_ser cd))); [reflexivity|reflexivity|exact C].
Qed.
(** all hypotheses are met, and the sizes are the lengths *)
Example C55_nontrivial :
  (forall md, program md fixed_idf fixed_fac fixed_prog fixed_classes) /\
  check_prog [] 0 fixed_prog = Some fixed_stmts /\ forallb regular_class fixed_stmts = true /\
  Forall (fun d => conforms false (classes fixed_classes) Nat.eqb 5 (VObj 1 None d) /\ forallb (fun p => unmarked (snd p)) d = true /\
    exists b, fst (Structured_pack false (classes fixed_classes) 5 (VObj 1 None d) dirty) = Ok b /\ List.length b = 47%nat /\
    is_ok (fst (create_unpack_read false (classes fixed_classes) 5 1 (W (fun _ => 0) (fun _ => None) [] (repeat x00 13 ++ b) 13))) = true /\
    is_ok (fst (create_unpack_read false (classes fixed_classes) 5 1 (W (fun _ => 0) (fun _ => None) [] (repeat x00 13 ++ firstn 46 b) 13))) = false)
    [fixed_obj 0 (VInt 5); fixed_obj 1 (VBytes [x61])].
Proof.
  split; [exact fixed_program|]. split; [vm_compute; reflexivity|]. split; [vm_compute; reflexivity|].
  repeat (constructor; [split; [unfold conforms; vm_compute; congruence|split; [vm_compute; reflexivity|eexists; split; [vm_compute; reflexivity|
    split; [reflexivity|split; vm_compute; reflexivity]]]]|]). constructor.
Qed.
(** three points in a file: the third one is at offset 8 *)
Definition xy (x y : Z) : list (string * value) := [("x", VInt x); ("y", VInt y)].
Example C55_records_nontrivial :
  (forall md, program md sample_idf sample_fac sample_prog sample_classes) /\ check_prog [] 0 sample_prog = Some sample_stmts /\
  forallb regular_class sample_stmts = true /\ class_size true sample_stmts 1 true 0 = Some 4%nat /\ reads_on sample_stmts 0 = false /\
  (exists bs, Forall2 (fun d b => (forall md, canonical false (classes sample_classes) Nat.eqb md 5 (VObj 0 None d)) /\
     conforms false (classes sample_classes) Nat.eqb 5 (VObj 0 None d) /\ (true = true \/ forallb (fun p => unmarked (snd p)) d = true) /\
     exists w, fst (Structured_pack false (classes sample_classes) 5 (VObj 0 None d) w) = Ok b) [xy 1 2; xy 3 (-4); xy 5 6] bs /\
   fst (create_unpack_from false (classes sample_classes) 5 0 (concat bs) 8 dirty) = Ok (VObj 0 None (xy 5 6))).
Proof.
  split; [exact sample_program|]. split; [vm_compute; reflexivity|]. split; [vm_compute; reflexivity|]. split; [vm_compute; reflexivity|].
  split; [vm_compute; reflexivity|]. eexists. split.
  - repeat (apply Forall2_cons; [split; [intros md; apply (point_canon (classes sample_classes) sample_point); lia|
      split; [unfold conforms; vm_compute; congruence|split; [now left|exists dirty; vm_compute; reflexivity]]]|]). apply Forall2_nil.
  - vm_compute. reflexivity.
Qed.
