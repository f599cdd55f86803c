(** Property C05 on arbitrary input: the three unpacking methods as functions of the bytes at their position. *)
From Verif Require Import Base Floats Value StructMod Format Ser Exec Pure BaseFacts StructFacts FormatFacts
  SerFacts RefPack RefUnpack User Sample DecFacts Canon Fuel RoundTrip RoundTripMain PropsIO PropsRoundTrip.
Open Scope string_scope. Open Scope list_scope. Open Scope Z_scope.

(** the serializers whose method differs between [unpack], [unpack_from] and [unpack_read] beyond the place they
    look at: counted strings slice the buffer in [unpack] (strings.py:107-115), .NET strings use a struct in
    [unpack_from] (strings.py:320-333) *)
Definition buf_like (md : umode) : bool := match md with UBuf => true | _ => false end.
Definition from_like (md : umode) : bool := match md with UFrom => true | _ => false end.
Definition alike (md md' : umode) (x : ser) : bool :=
  match x with
  | SDynChar _ _ => Bool.eqb (buf_like md) (buf_like md')
  | SNet _ => Bool.eqb (from_like md) (from_like md')
  | _ => true
  end.
Definition classes_alike (ct : nat -> option cdef) (md md' : umode) : Prop :=
  forall c cd, ct c = Some cd -> sall (alike md md') (c_ser cd) = true.

Section Agree.
Variables (hb : bool) (ct : nat -> option cdef) (md md' : umode).
Hypothesis CLS : classes_alike ct md md'.
Let P := alike md md'.

Lemma alike_stable : forall c, stable P c.
Proof. intros c. split; intros; reflexivity. Qed.

Section Step.
Variables rec rec' : ser -> pobj -> bytes -> res (list value * Z).
Hypothesis REC : forall x, sall P x = true -> forall ctx b, rec x ctx b = rec' x ctx b.

Lemma any_items : forall item ctx n b, sall P item = true -> dec_items rec item ctx n b = dec_items rec' item ctx n b.
Proof.
  intros item ctx n b H. revert b. induction n as [|n IH]; intros b; [reflexivity|]. cbn [dec_items].
  rewrite REC by exact H. destruct (rec' item ctx b) as [[vs k]|]; [|reflexivity]. cbn. now rewrite IH.
Qed.
Lemma any_oresolve : forall pre x x', sall P x = true -> oresolve false pre x = Ok x' -> sall P x' = true.
Proof.
  intros [o|] x x' H R; cbn in R; [eapply resolve_sall; eauto; apply alike_stable|injection R as <-; exact H].
Qed.
Lemma any_subs : forall pre ctx subs b, forallb (sall P) subs = true ->
  dec_subs rec pre ctx subs b = dec_subs rec' pre ctx subs b.
Proof.
  intros pre ctx. induction subs as [|x subs IH]; intros b H; [reflexivity|]. cbn in H. apply andb_prop in H as [H1 H2].
  cbn [dec_subs]. destruct (oresolve false pre x) as [x'|] eqn:R; [|reflexivity]. cbn.
  rewrite REC by (eapply any_oresolve; eauto). destruct (rec' x' (octx pre ctx) b) as [[vs k]|]; [|reflexivity].
  cbn. now rewrite IH.
Qed.
Lemma any_fill_subs : forall pre ctx subs b names d, forallb (sall P) subs = true ->
  dfill_subs rec pre ctx subs b names d = dfill_subs rec' pre ctx subs b names d.
Proof.
  intros pre ctx. induction subs as [|x subs IH]; intros b names d H; [reflexivity|]. cbn in H.
  apply andb_prop in H as [H1 H2]. cbn [dfill_subs].
  destruct (oresolve false (option_map (fun o => PO (p_cls o) (p_proxy o) d) pre) x) as [x'|] eqn:R; [|reflexivity].
  cbn [rbind]. rewrite REC by (eapply any_oresolve; eauto).
  match goal with |- context [rec' x' ?c b] => destruct (rec' x' c b) as [[vs k]|]; [|reflexivity] end.
  destruct (assign names vs d) as [[names'|] d']; [|reflexivity]. now rewrite IH.
Qed.
Lemma any_fill : forall x ctx b names d, sall P x = true ->
  dfill rec x ctx b names d = dfill rec' x ctx b names d.
Proof.
  intros x ctx b names d H.
  destruct x; cbn [dfill]; try (rewrite REC by exact H; reflexivity);
    cbn in H; try (apply andb_prop in H as [_ H]); now rewrite any_fill_subs by exact H.
Qed.
Lemma any_create : forall c b, dcreate_step ct rec c b = dcreate_step ct rec' c b.
Proof.
  intros c b. unfold dcreate_step. destruct (ct c) as [cd|] eqn:E; [|reflexivity].
  destruct (resolve false (c_ser cd) (PO c true [])) as [x|] eqn:R; [|reflexivity]. cbn [rbind].
  rewrite any_fill; [reflexivity|]. eapply resolve_sall; [apply alike_stable|exact (CLS c cd E)|exact R].
Qed.
Lemma any_step : forall x ctx b, sall P x = true -> dec_step hb ct md rec x ctx b = dec_step hb ct md' rec' x ctx b.
Proof.
  intros x ctx b H. pose proof (sall_here _ _ H) as HX.
  assert (RES : forall s s', sall P s = true -> resolve false s ctx = Ok s' -> sall P s' = true)
    by (intros; eapply resolve_sall; eauto; apply alike_stable).
  destruct x; cbn [dec_step]; try reflexivity; cbn in H; repeat (apply andb_prop in H as [H ?]).
  - destruct (dst hb st b) as [cs|]; [|reflexivity]. cbn. destruct (nth0 cs) as [cv|]; [|reflexivity]. cbn.
    destruct (as_int cv); [|reflexivity]. cbn in *. clear -HX. destruct md, md'; cbn in *; congruence.
  - clear -HX. destruct md, md'; cbn in *; congruence.
  - rewrite REC by assumption. reflexivity.
  - destruct (dost hb hdr b) as [hv|]; [|reflexivity]. cbn.
    destruct (header_unpack_values hdr static hv) as [[count ds]|]; [|reflexivity]. cbn.
    destruct (resolve false x ctx) as [item'|] eqn:R; [|reflexivity]. cbn.
    rewrite any_items by eauto. reflexivity.
  - destruct (resolve false x ctx) as [inner'|] eqn:R; [|reflexivity]. cbn. now rewrite REC by eauto.
  - destruct (dec ctx) as [r|]; [|reflexivity]. cbn. destruct (choose rmap dflt r) as [s0|] eqn:C; [|reflexivity]. cbn.
    destruct (resolve false s0 ctx) as [x'|] eqn:R; [|reflexivity]. cbn. apply REC. eapply RES; [|exact R].
    eapply choose_sall; eauto.
  - rewrite REC by assumption. destruct (rec' _ ctx b) as [[rs ?]|]; [|reflexivity]. cbn.
    destruct (nth0 rs) as [r|]; [|reflexivity]. cbn. destruct (choose rmap dflt r) as [s0|] eqn:C; [|reflexivity]. cbn.
    destruct (resolve false s0 ctx) as [x'|] eqn:R; [|reflexivity]. cbn. apply REC. eapply RES; [|exact R].
    eapply choose_sall; eauto.
  - now rewrite any_create.
  - now apply any_subs.
  - now apply any_subs.
Qed.
End Step.

Lemma any_dec : forall n x, sall P x = true -> forall ctx b, dec hb ct md n x ctx b = dec hb ct md' n x ctx b.
Proof.
  induction n as [|n IH]; intros x H ctx b; [reflexivity|]. cbn [dec]. apply any_step; [exact IH|exact H].
Qed.
Lemma any_dcreate : forall n c b, dcreate hb ct md n c b = dcreate hb ct md' n c b.
Proof. intros n c b. unfold dcreate. apply any_create. apply any_dec. Qed.
End Agree.

(** ** C05 on arbitrary input *)
(** a method of reading: [create_unpack(b)], [create_unpack_from(b, off)], [create_unpack_read] at the position of
    the stream *)
Definition create_by (hb : bool) (ct : nat -> option cdef) (n c : nat) (s : src) : M value :=
  create_step hb ct (unpack hb ct n) c s.

Section Two.
Variables (hb : bool) (ct : nat -> option cdef) (allow : nat -> nat -> bool).
Lemma two_methods : forall n c s s' w w', healthy ct allow ->
  classes_hu ct (md_of s) -> classes_hu ct (md_of s') -> classes_alike ct (md_of s) (md_of s') ->
  srcok s w -> srcok s' w' -> suffix s w = suffix s' w' ->
  fst (create_by hb ct n c s w) = fst (create_by hb ct n c s' w') /\
  (csized ct c = true -> forall v, fst (create_by hb ct n c s w) = Ok v ->
     fst (obj_size hb ct c None (snd (create_by hb ct n c s w))) =
     fst (obj_size hb ct c None (snd (create_by hb ct n c s' w')))) /\
  (forall v k, dcreate hb ct (md_of s') n c (suffix s' w') = Ok (v, k) ->
     w_pos (snd (create_by hb ct n c s' w')) = posn s' k w').
Proof.
  intros n c s s' w w' H U U' AL O O' E. unfold create_by.
  destruct (user_create hb ct allow (md_of s) n c s w H U eq_refl O) as (A & _ & _ & _ & Z).
  destruct (user_create hb ct allow (md_of s') n c s' w' H U' eq_refl O') as (A' & _ & _ & PS & Z').
  rewrite E, (any_dcreate hb ct _ _ AL n c (suffix s' w')) in A, Z.
  split; [congruence|]. split.
  - intros CS v V. rewrite A in V. destruct (dcreate hb ct (md_of s') n c (suffix s' w')) as [[v0 k]|] eqn:D; [|discriminate].
    rewrite (Z v0 k CS eq_refl), (Z' v0 k CS eq_refl). reflexivity.
  - intros v k D. rewrite D in PS. cbn in PS. tauto.
Qed.
End Two.

(** reading at an offset of a buffer, and reading from a stream positioned there: the same object or the same
    error, for any bytes; counted strings included *)
Theorem C05_from_read_any : forall hb ct allow n c b off w w',
  healthy ct allow -> classes_hu ct UFrom -> classes_hu ct URead -> classes_alike ct UFrom URead ->
  0 <= off <= blen b -> w_data w' = b -> w_pos w' = off ->
  fst (create_unpack_from hb ct n c b off w) = fst (create_unpack_read hb ct n c w').
Proof.
  intros hb ct allow n c b off w w' H U1 U2 AL O D P.
  apply (two_methods hb ct allow n c (SFrom b off) SRead w w' H U1 U2 AL); cbn; auto; [lia|]. now rewrite D, P.
Qed.
Print Assumptions C05_from_read_any.
(** reading the bytes from an offset, and reading from a stream positioned there; .NET strings included *)
Theorem C05_unpack_read_any : forall hb ct allow n c pre b w w',
  healthy ct allow -> classes_hu ct UBuf -> classes_hu ct URead -> classes_alike ct UBuf URead ->
  w_data w' = pre ++ b -> w_pos w' = blen pre ->
  fst (create_unpack hb ct n c b w) = fst (create_unpack_read hb ct n c w').
Proof.
  intros hb ct allow n c pre b w w' H U1 U2 AL D P.
  apply (two_methods hb ct allow n c (SBuf b) SRead w w' H U1 U2 AL); cbn; auto.
  - rewrite P. apply blen_nonneg.
  - rewrite D, P. unfold blen. rewrite Nat2Z.id. rewrite <- (app_nil_r b) at 2.
    symmetry. rewrite app_nil_r. rewrite skipn_app, skipn_all, Nat.sub_diag. reflexivity.
Qed.
Print Assumptions C05_unpack_read_any.
(** the three methods: the same object or the same error, and the same size *)
Theorem C05_any_data : forall hb ct allow n c pre b w1 w2 w3,
  healthy ct allow -> (forall md, classes_hu ct md) -> classes_alike ct UBuf UFrom -> classes_alike ct UBuf URead ->
  w_data w3 = pre ++ b -> w_pos w3 = blen pre ->
  let r1 := create_unpack hb ct n c b w1 in
  let r2 := create_unpack_from hb ct n c (pre ++ b) (blen pre) w2 in
  let r3 := create_unpack_read hb ct n c w3 in
  fst r1 = fst r2 /\ fst r1 = fst r3 /\
  (csized ct c = true -> forall v, fst r1 = Ok v -> exists k,
     fst (obj_size hb ct c None (snd r1)) = Ok k /\ fst (obj_size hb ct c None (snd r2)) = Ok k /\
     fst (obj_size hb ct c None (snd r3)) = Ok k /\ w_pos (snd r3) = blen pre + k).
Proof.
  intros hb ct allow n c pre b w1 w2 w3 H U AF AR D P. cbv zeta.
  assert (SK : skipn (Z.to_nat (blen pre)) (pre ++ b) = b)
    by (unfold blen; rewrite Nat2Z.id, skipn_app, skipn_all, Nat.sub_diag; reflexivity).
  pose proof (blen_nonneg pre) as BP. pose proof (blen_nonneg b) as BB.
  assert (O2 : srcok (SFrom (pre ++ b) (blen pre)) w2) by (cbn; rewrite blen_app; lia).
  assert (O3 : srcok SRead w3) by (cbn; lia).
  assert (E2 : suffix (SBuf b) w1 = suffix (SFrom (pre ++ b) (blen pre)) w2) by (cbn; now rewrite SK).
  assert (E3 : suffix (SBuf b) w1 = suffix SRead w3) by (cbn; now rewrite D, P, SK).
  destruct (two_methods hb ct allow n c (SBuf b) (SFrom (pre ++ b) (blen pre)) w1 w2 H (U _) (U _) AF I O2 E2) as (A & Z & _).
  destruct (two_methods hb ct allow n c (SBuf b) SRead w1 w3 H (U _) (U _) AR I O3 E3) as (A' & Z' & PS).
  unfold create_unpack, create_unpack_from, create_unpack_read. unfold create_by in *.
  split; [exact A|]. split; [exact A'|]. intros CS v V.
  destruct (user_create hb ct allow UBuf n c (SBuf b) w1 H (U _) eq_refl I) as (B & _ & _ & _ & Q).
  rewrite V in B. destruct (dcreate hb ct UBuf n c (suffix (SBuf b) w1)) as [[v0 k]|] eqn:DD; [|discriminate].
  specialize (Q v0 k CS eq_refl). exists k. rewrite Q. split; [reflexivity|].
  rewrite <- (Z CS v V), <- (Z' CS v V), Q. split; [reflexivity|]. split; [reflexivity|].
  assert (DF : dcreate hb ct UFrom n c (suffix (SFrom (pre ++ b) (blen pre)) w2) = Ok (v0, k))
    by (rewrite <- E2, <- (any_dcreate hb ct _ _ AF); exact DD).
  assert (DR : dcreate hb ct URead n c (suffix SRead w3) = Ok (v0, k))
    by (rewrite <- E3, <- (any_dcreate hb ct _ _ AR); exact DD).
  destruct (user_create hb ct allow UFrom n c (SFrom (pre ++ b) (blen pre)) w2 H (U _) eq_refl O2) as (_ & _ & _ & PF & _).
  rewrite DF in PF. destruct PF as (_ & LE & _). cbn in LE. rewrite SK in LE.
  rewrite (PS v0 k DR). cbn. rewrite D, P, SK. lia.
Qed.
Print Assumptions C05_any_data.

(** the classes of the sample table without strings other than fixed ones: with a union and nested arrays *)
Definition plain (c : nat) : option cdef :=
  match c with
  | 0 => Some Point
  | 1 => Some (CD ["tag"; "body"; "pts"; "kids"]
           (SCompound 10
              [ SStruct (SS BO_BE [T None CB] None);
                SLookback 12 (fld "tag") [(VInt 0, SStruct sU16); (VInt 1, SStructd 13 0)] None;
                SArray 15 (Some (SS BO_DEFAULT [T None CB; T None CH] None)) (SStructd 16 0) (-1);
                SArray 17 (Some sU8) (SSelf 18) (-1) ]) BO_DEFAULT false)
  | _ => None
  end%nat.
Definition plain_T (c id : nat) : bool :=
  match c with 1 => existsb (Nat.eqb id) [12; 15; 17] | _ => false end%nat.
Example C05_any_nontrivial :
  healthy plain Nat.eqb /\ (forall md, classes_hu plain md) /\ classes_alike plain UBuf UFrom /\
  classes_alike plain UBuf URead /\
  (* bytes which no call of pack produced: accepted, and refused (a size that does not fit) *)
  is_ok (fst (create_unpack false plain 5 1 [x01; x02; x03; x04; x05; x00; x00; x00; x00; x00; xff] dirty)) = true /\
  fst (create_unpack false plain 5 1 [x01; x02; x03; x04; x05; x00; x00; x01; x00; x00; xff] dirty) = Err ValueError.
Proof.
  split.
  { exists plain_T. split.
    - intros c cd H. do 2 (destruct c as [|c]; [cbn in H; injection H as <-; split; [reflexivity|];
        intros id E; do 20 (destruct id as [|id]; [vm_compute in E |- *; congruence|]);
        vm_compute in E |- *; congruence |]). discriminate.
    - intros d c E. apply Nat.eqb_eq in E as ->. auto. }
  split; [intros md c cd E; do 2 (destruct c as [|c]; [injection E as <-; destruct md; reflexivity|]); discriminate|].
  split; [intros c cd E; do 2 (destruct c as [|c]; [injection E as <-; reflexivity|]); discriminate|].
  split; [intros c cd E; do 2 (destruct c as [|c]; [injection E as <-; reflexivity|]); discriminate|].
  split; [vm_compute; reflexivity|vm_compute; reflexivity].
Qed.

(** the restriction to [classes_alike] is needed: a counted string cut short is an object for [create_unpack] and
    an error for the other two *)
Definition counted1 (c : nat) : option cdef :=
  match c with O => Some (CD ["s"] (SDynChar 1 sU8) BO_DEFAULT false) | _ => None end.
Theorem C05_any_counted_refuted :
  ~ (forall n c pre b w1 w3, w_data w3 = pre ++ b -> w_pos w3 = blen pre ->
       fst (create_unpack false counted1 n c b w1) = fst (create_unpack_read false counted1 n c w3)).
Proof.
  intros H. specialize (H 3%nat 0%nat [] [x05; x41] clean (W (fun _ => 0) (fun _ => None) [] [x05; x41] 0) eq_refl eq_refl).
  vm_compute in H. discriminate.
Qed.
Print Assumptions C05_any_counted_refuted.
(** and a .NET string cut short is an object for [create_unpack] and an error for [create_unpack_from] *)
Definition net1 (c : nat) : option cdef :=
  match c with O => Some (CD ["s"] (SNet 1) BO_DEFAULT false) | _ => None end.
Theorem C05_any_net_refuted :
  ~ (forall n c pre b w1 w2, fst (create_unpack false net1 n c b w1)
                              = fst (create_unpack_from false net1 n c (pre ++ b) (blen pre) w2)).
Proof.
  intros H. specialize (H 3%nat 0%nat [] [x05; x41] clean clean). vm_compute in H. discriminate.
Qed.
Print Assumptions C05_any_net_refuted.
(** terminated strings: [unpack_from] of a class with a field after the string *)
Definition term1 (c : nat) : option cdef :=
  match c with O => Some (CD ["s"; "n"] (SCompound 2 [STerm 1 x00; SStruct sU8]) BO_DEFAULT false) | _ => None end.
Theorem C05_any_terminated_refuted :
  ~ (forall n c pre b w1 w2, fst (create_unpack false term1 n c b w1)
                              = fst (create_unpack_from false term1 n c (pre ++ b) (blen pre) w2)).
Proof.
  intros H. specialize (H 3%nat 0%nat [x41] [x42; x00; x07] clean clean). vm_compute in H. discriminate.
Qed.
Print Assumptions C05_any_terminated_refuted.
