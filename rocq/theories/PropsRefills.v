(** Property C48: what arbitrary bytes do to an existing object, read off the class statements (Refills.v). *)
From Verif Require Import Base Floats Value StructMod Format Ser Exec Pure BaseFacts SerFacts RefPack RefUnpack User Fuel DecFacts Sample
  Canon RoundTrip PropsRoundTrip Wire Hints HintFacts Surface SerShape Programs Accept AcceptProg PropsProgram PropsAccept WireSpec WireFacts Wires
  PropsWire ReadSpec ReadFacts Reads PropsReads Refills.
Open Scope string_scope. Open Scope list_scope. Open Scope Z_scope.

Lemma refill_agree : forall hb md idf fac prog l sl, reading idf fac prog l sl md -> forall n, exists B, forall c ov d b,
  agree n B (fun k => filled (drefill_step (classes l) (dec hb (classes l) md k) c ov d b)) (reparse hb md sl n c ov d b).
Proof.
  intros hb md idf fac prog l sl (R & CK & RG & (allow & TT & CO) & _) n.
  pose proof (prog_rel idf fac prog [] [] 0 nothing_defined) as P. rewrite CK in P.
  destruct P as (l' & Q & CR). assert (l' = l) as -> by congruence.
  apply (reparse_agree hb md sl l CR RG TT). intros c cd E. destruct CO as [CO _]. apply (CO c cd E).
Qed.
(** [obj.unpack(b)], [obj.unpack_from(b, off)] and [obj.unpack_read(f)] (by source) leave in the object what the class
    statement makes of the bytes: the fields in order, over the attributes the object had, in the byte order of the object; the stream is left
    behind what was read. *)
Theorem C48_refill : forall hb md idf fac prog l sl n c ov d s w d',
  reading idf fac prog l sl md -> md_of s = md -> srcok s w ->
  fst (Structured_unpack hb (classes l) n c ov d s w) = (Ok tt, d') ->
  exists k, reparse hb md sl (S n) c ov d (suffix s w) = Some (d', k) /\
    w_pos (snd (Structured_unpack hb (classes l) n c ov d s w)) = posn s k w.
Proof.
  intros hb md idf fac prog l sl n c ov d s w d' R M OK E.
  pose proof R as (_ & _ & _ & (allow & H) & HU).
  destruct (user_refill hb (classes l) allow md n c ov d s w H HU M OK) as (A & A' & _ & _ & P & _). cbv zeta in P.
  rewrite E in A, A'. cbn [fst snd] in A, A'.
  destruct (drefill_step (classes l) (dec hb (classes l) md n) c ov d (suffix s w)) as [[k|e] d1] eqn:D; cbn [fst snd rmap] in *; [|discriminate]. subst d1.
  exists k. destruct (refill_agree hb md idf fac prog l sl R (S n)) as [B AG]. destruct (AG c ov d (suffix s w) n (d', k)) as [Q _].
  split; [apply Q; [lia|now rewrite D]|]. apply P.
Qed.
Print Assumptions C48_refill.
(** Conversely, what the class statement makes of the bytes is what the object holds after every call with enough stack. *)
Theorem C48_complete : forall hb md idf fac prog l sl m c ov d b d' k,
  reading idf fac prog l sl md -> reparse hb md sl m c ov d b = Some (d', k) ->
  exists N, forall n s w, (N <= n)%nat -> md_of s = md -> srcok s w -> suffix s w = b ->
  fst (Structured_unpack hb (classes l) n c ov d s w) = (Ok tt, d') /\
  w_pos (snd (Structured_unpack hb (classes l) n c ov d s w)) = posn s k w.
Proof.
  intros hb md idf fac prog l sl m c ov d b d' k R E. destruct (refill_agree hb md idf fac prog l sl R m) as [B AG]. exists B.
  intros n s w LE M OK SX. pose proof R as (_ & _ & _ & (allow & H) & HU).
  destruct (user_refill hb (classes l) allow md n c ov d s w H HU M OK) as (A & A' & _ & _ & P & _). cbv zeta in P. rewrite SX in A, A', P.
  destruct (AG c ov d b n (d', k)) as [_ Q]. specialize (Q LE E).
  destruct (drefill_step (classes l) (dec hb (classes l) md n) c ov d b) as [[k1|e] d1]; [|discriminate]. cbn [filled fst snd rmap] in *.
  injection Q as -> ->. split; [|apply P]. destruct (fst (Structured_unpack hb (classes l) n c ov d s w)) as [r dd]. cbn in A, A'. now subst.
Qed.
Print Assumptions C48_complete.
(** One meaning, whatever the depth allowed. *)
Theorem C48_unique : forall hb md idf fac prog l sl m m' c ov d b r r', reading idf fac prog l sl md ->
  reparse hb md sl m c ov d b = Some r -> reparse hb md sl m' c ov d b = Some r' -> r = r'.
Proof.
  intros hb md idf fac prog l sl m m' c ov d b r r' R E E'.
  destruct (refill_agree hb md idf fac prog l sl R m) as [B AG]. destruct (refill_agree hb md idf fac prog l sl R m') as [B' AG'].
  destruct (AG c ov d b (Nat.max B B') r) as [_ Q]. destruct (AG' c ov d b (Nat.max B B') r') as [_ Q']. specialize (Q ltac:(lia) E). specialize (Q' ltac:(lia) E'). congruence.
Qed.
Print Assumptions C48_unique.

(** ** what it does to the attributes *)
Lemma assoc_set_other : forall a b (v : value) d, a <> b -> assoc a (assoc_set b v d) = assoc a d.
Proof.
  intros a b v d N. induction d as [|[k u] d IH]; cbn; [now rewrite (proj2 (String.eqb_neq a b) N)|].
  destruct (String.eqb_spec b k) as [->|]; cbn; [now rewrite (proj2 (String.eqb_neq a k) N)|]. now rewrite IH.
Qed.
Lemma fields_keep : forall f l d off b d' k, fields_read f l d off b = Some (d', k) ->
  forall a, ~ In a (map fst l) -> assoc a d' = assoc a d.
Proof.
  intros f. induction l as [|[x h] l IH]; intros d off b d' k E a N; cbn [fields_read] in E; [now injection E as <- _|].
  destruct (f d h off b) as [[[vs off'] k1]|]; [|discriminate]. cbn [obind] in E.
  destruct vs as [|v []]; destruct (takes h); try discriminate E; cbn [obind] in E;
    (match type of E with obind ?q _ = _ => destruct q as [[d2 k2]|] eqn:FR | match ?q with _ => _ end = _ => destruct q as [[d2 k2]|] eqn:FR end; [|discriminate]);
    injection E as <- _; rewrite (IH _ _ _ _ _ FR) by (intros I; apply N; now right); [reflexivity|].
  apply assoc_set_other. intros ->. apply N. now left.
Qed.
(** Attributes that the class does not serialize stay as they were. *)
Theorem C48_keeps : forall hb md idf fac prog l sl n c ov d s w d' sc,
  reading idf fac prog l sl md -> md_of s = md -> srcok s w -> nth_error sl c = Some sc ->
  fst (Structured_unpack hb (classes l) n c ov d s w) = (Ok tt, d') ->
  forall a, ~ In a (map fst (fields_of (sc_anns sc))) -> assoc a d' = assoc a d.
Proof.
  intros hb md idf fac prog l sl n c ov d s w d' sc R M OK NS E a N.
  destruct (C48_refill _ _ _ _ _ _ _ _ _ _ _ _ _ _ R M OK E) as (k & P & _). cbn [reparse] in P. rewrite NS in P. cbn [obind] in P.
  exact (fields_keep _ _ _ _ _ _ _ P a N).
Qed.
Print Assumptions C48_keeps.
(** An annotation with no condition, no decider that looks at the object, and no Self. *)
Fixpoint blind (x : hx) : bool :=
  match x with
  | XCond _ _ _ | XBack _ _ _ _ _ | XSelf => false
  | XArray _ _ y | XAs _ y => blind y
  | XTuple l => forallb blind l
  | XAhead _ _ ra _ m d =>
      blind ra && forallb (fun p => blind (snd p)) m && match d with Some y => blind y | None => true end
  | _ => true
  end.
Lemma items_ext : forall f g run, (forall off b, f off b = g off b) -> forall n off b, items_of f run n off b = items_of g run n off b.
Proof.
  intros f g run H. induction n as [|n IH]; intros off b; [reflexivity|]. cbn [items_of]. rewrite H. destruct (g off b) as [[[vs off'] k]|]; [|reflexivity].
  cbn [obind]. now rewrite IH.
Qed.
Lemma blind_read : forall hb md rec o o' x, blind x = true -> forall m off b, read hb md rec o m x off b = read hb md rec o' m x off b.
Proof.
  intros hb md rec o o'. induction x using hx_ind'; intros BL mo off bs; cbn [blind] in BL; try discriminate BL; cbn [read]; try reflexivity.
  - assert (RD : ready o x = ready o' x) by (destruct x; try discriminate BL; reflexivity). rewrite RD.
    destruct (packed x).
    + destruct n as [z|d]; cbn [obind]; [|destruct (number_at mo d 0 bs) as [[[? ?] ?]|]; [|reflexivity]; cbn [obind]]; now rewrite (items_ext _ _ true (IHx BL mo)).
    + destruct (negb (ready o' x)); [reflexivity|].
      destruct n as [z|d]; cbn [obind]; [|destruct (number_at mo d 0 bs) as [[[? ?] ?]|]; [|reflexivity]; cbn [obind]];
        (destruct s as [d'|]; cbn [obind]; [match goal with |- context [number_at mo d' ?a ?b] => destruct (number_at mo d' a b) as [[[? ?] ?]|]; [|reflexivity] end; cbn [obind]|]);
        now rewrite (items_ext _ _ false (IHx BL mo)).
  - assert (G : forall off b, members_of (read hb md rec o (machine hb)) l off b = members_of (read hb md rec o' (machine hb)) l off b).
    { clear off bs. induction l as [|y l IHl]; intros off b; [reflexivity|]. inversion H as [|? ? H1 H2]; subst. cbn in BL. apply andb_prop in BL as [B1 B2].
      cbn [members_of]. rewrite (H1 B1). destruct (read hb md rec o' (machine hb) y off b) as [[[vs off'] k]|]; [|reflexivity]. cbn [obind]. now rewrite (IHl H2 B2). }
    now rewrite G.
  - now rewrite (IHx BL).
  - apply andb_prop in BL as [BL BD]. apply andb_prop in BL as [BR BM]. rewrite (IHx BR). destruct (read hb md rec o' (machine hb) x 0 bs) as [[[rs ?] ?]|]; [|reflexivity].
    cbn [obind]. destruct rs as [|r rs]; [reflexivity|]. destruct (hashable r); [|reflexivity].
    assert (G : pick_of (fun y => read hb md rec o (machine hb) y 0 bs) d r m = pick_of (fun y => read hb md rec o' (machine hb) y 0 bs) d r m); [|now rewrite G].
    match goal with HM : Forall _ m |- _ => rename HM into FM end.
    induction m as [|[kk y] m IHm]; cbn [pick_of].
    + destruct d as [y|]; [|reflexivity]. cbn [obind]. auto.
    + inversion FM as [|? ? F1 F2]; subst. cbn in BM. apply andb_prop in BM as [BM1 BM2]. cbn in F1. destruct (key_eqb r kk); [now apply F1|now apply IHm].
Qed.
(** An object of a class all of whose annotations are like that holds, afterwards, what the bytes say, whatever it held before. *)
Definition same_view (f : list (string * value) -> hx -> nat -> bytes -> option place) : Prop := forall d d' x off b, f d x off b = f d' x off b.
Lemma fields_same : forall f l, same_view f -> forall d1 d2 off b r k, fields_read f l d1 off b = Some (r, k) ->
  exists r', fields_read f l d2 off b = Some (r', k) /\
    forall a, (assoc a d1 = assoc a d2 \/ In a (names_of (filter (fun p => takes (snd p)) l))) -> assoc a r = assoc a r'.
Proof.
  intros f l SV. induction l as [|[x h] l IH]; intros d1 d2 off b r k E; cbn [fields_read] in *.
  - injection E as <- <-. exists d2. split; [reflexivity|]. intros a [H|[]]. exact H.
  - rewrite (SV d2 d1). destruct (f d1 h off b) as [[[vs off'] k1]|]; [|discriminate]. cbn [obind] in *.
    destruct vs as [|v []]; destruct (takes h) eqn:TK; try discriminate E; cbn [obind] in *;
    (match type of E with match ?q with _ => _ end = _ => destruct q as [[d3 k3]|] eqn:FR end; [|discriminate]); injection E as <- <-.
    + destruct (IH _ d2 _ _ _ _ FR) as (r' & -> & H). exists r'. split; [reflexivity|]. intros a C. apply H. cbn [filter snd] in C. rewrite TK in C. exact C.
    + destruct (IH _ (assoc_set x v d2) _ _ _ _ FR) as (r' & -> & H). exists r'. split; [reflexivity|]. intros a C. apply H.
      destruct (String.eqb_spec a x) as [->|NE].
      * left. assert (G : forall d, assoc x (assoc_set x v d) = Some v).
        { induction d as [|[q u] d IHd]; cbn; [now rewrite String.eqb_refl|]. destruct (String.eqb_spec x q) as [->|Nq]; cbn; [now rewrite String.eqb_refl|].
          now rewrite (proj2 (String.eqb_neq x q) Nq). }
        now rewrite !G.
      * destruct C as [C|C]; [left; now rewrite !assoc_set_other by exact NE|].
        unfold names_of in *. cbn [filter snd] in C. rewrite TK in C. cbn [filter snd] in C. destruct (negb (padding h)); cbn [map fst] in C; [|now right].
        destruct C as [C|C]; [congruence|now right].
Qed.
Theorem C48_blind : forall hb md idf fac prog l sl n c ov d1 d2 s w r1 sc,
  reading idf fac prog l sl md -> md_of s = md -> srcok s w -> nth_error sl c = Some sc ->
  forallb (fun p => blind (snd p)) (fields_of (sc_anns sc)) = true ->
  fst (Structured_unpack hb (classes l) n c ov d1 s w) = (Ok tt, r1) ->
  exists N, forall n', (N <= n')%nat -> exists r2, fst (Structured_unpack hb (classes l) n' c ov d2 s w) = (Ok tt, r2) /\
    forall a, In a (sc_attrs sc) -> assoc a r1 = assoc a r2.
Proof.
  intros hb md idf fac prog l sl n c ov d1 d2 s w r1 sc R M OK NS BL E.
  destruct (C48_refill _ _ _ _ _ _ _ _ _ _ _ _ _ _ R M OK E) as (k & P & _).
  pose proof R as (_ & _ & RG & _). assert (RC : regular_class sc = true) by (rewrite forallb_forall in RG; apply RG; eapply nth_error_In; eauto).
  cbn [reparse] in P. rewrite NS in P. cbn [obind] in P.
  set (f := fun d => read hb md (parse hb md sl n) (PO c false d) (mode_of hb match ov with Some bo => bo | None => sc_bo sc end)) in P.
  assert (G : forall fl, (forall x, In x (map snd fl) -> In x (map snd (fields_of (sc_anns sc)))) -> forall d e off b,
    fields_read f fl d off b = fields_read (fun _ => f e) fl d off b).
  { clear - BL. induction fl as [|[a x] fl IH]; intros I d e off b; [reflexivity|]. cbn [fields_read].
    assert (Q : f d x off b = f e x off b) by (apply blind_read; rewrite forallb_forall in BL; specialize (I x (or_introl eq_refl)); apply in_map_iff in I as (p & <- & I); now apply BL). rewrite Q. destruct (f e x off b) as [[[vs off'] k1]|]; [|reflexivity]. cbn [obind].
    destruct vs as [|v []]; destruct (takes x); try reflexivity; cbn [obind]; now rewrite (IH (fun y J => I y (or_intror J)) _ e). }
  rewrite (G _ (fun x I => I) d1 []) in P.
  destruct (fields_same (fun _ => f []) (fields_of (sc_anns sc)) (fun _ _ _ _ _ => eq_refl) d1 d2 0%nat (suffix s w) r1 k P) as (r2 & P2 & H).
  rewrite <- (G _ (fun x I => I) d2 []) in P2.
  assert (RP : reparse hb md sl (S n) c ov d2 (suffix s w) = Some (r2, k)) by (cbn [reparse]; rewrite NS; exact P2).
  destruct (C48_complete _ _ _ _ _ _ _ _ _ _ _ _ _ _ R RP) as [N CO]. exists N. intros n' LE. exists r2.
  destruct (CO n' s w LE M OK eq_refl) as [CO1 _]. split; [exact CO1|]. intros a I. apply H. right.
  rewrite (attrs_names sc RC) in I. unfold regular_class in RC. rewrite forallb_forall in RC.
  unfold names_of in *. apply in_map_iff in I as (p & <- & I). apply filter_In in I as [I NP]. apply in_map_iff. exists p. split; [reflexivity|].
  apply filter_In. split; [|exact NP]. apply filter_In. split; [exact I|]. specialize (RC p I). apply andb_prop in RC as [RC _]. apply andb_prop in RC as [_ RC].
  apply Bool.orb_true_iff in RC as [Q|Q]; [|exact Q]. rewrite Q in NP. discriminate NP.
Qed.
Print Assumptions C48_blind.

(** ** the hypotheses are met: a class 3 object of the sample program, with a byte order of its own, attributes that are not
    serialized, and old values, is filled from the bytes of C46 with the byte order reversed *)
Definition old_header : list (string * value) :=
  [("note", VInt 5); ("x", VInt 77); ("y", VInt 78); ("z", VInt 79); ("color", VInt 80); ("origin", VNone); ("body", VNone); ("rest", VNone)].
Definition net_header : bytes :=
  [x00; x00; x00; x01; x00; x02; x00; x03; x00; x00; x09;
   x01; x00; x02; x00; x03; x00; x00; x00; x07; x00; x05; x06; x00; x68; x69].
Definition new_header : list (string * value) :=
  [("note", VInt 5); ("x", VInt 1); ("y", VInt 2); ("z", VInt 3); ("color", VTuple [VInt 9]);
    ("origin", VObj 2 None [("x", VInt 1); ("y", VInt 2); ("z", VInt 3); ("color", VTuple [VInt 7])]);
    ("body", VObj 0 None [("x", VInt 1280); ("y", VInt 6)]); ("rest", VStr [104; 105])].
Example C48_nontrivial :
  (forall md, reading sample_idf sample_fac sample_prog sample_classes sample_stmts md) /\
  srcok (SBuf net_header) dirty /\
  fst (Structured_unpack false (classes sample_classes) 4 3 (Some BO_NET) old_header (SBuf net_header) dirty) = (Ok tt, new_header) /\
  reparse false UBuf sample_stmts 5 3 (Some BO_NET) old_header net_header = Some (new_header, 26) /\
  reparse false UFrom sample_stmts 5 3 (Some BO_NET) old_header net_header = Some (new_header, 26) /\
  reparse false URead sample_stmts 5 3 None old_header header_bytes = Some (new_header, 26) /\
  match nth_error sample_stmts 3 with Some sc => forallb (fun p => blind (snd p)) (fields_of (sc_anns sc)) = true | None => False end.
Proof.
  split; [intros md; apply C46_program; [exact (sample_program md)|vm_compute; reflexivity|vm_compute; reflexivity]|].
  split; [exact I|]. repeat split; vm_compute; reflexivity.
Qed.
(** An object of a class with a Self field, or an array of Self (even an empty one), is never filled: whatever the bytes and
    the object, the call raises (the library looks for the class on the proxy of create_unpack only).  An attribute
    called cls would be taken for the class; that case is not modelled (Exec.v, [self_class]). *)
Definition selfish (x : hx) : bool := match x with XSelf | XArray _ _ XSelf => true | _ => false end.
Theorem C48_self_fails : forall hb md idf fac prog l sl n c ov d s w sc a x,
  reading idf fac prog l sl md -> md_of s = md -> srcok s w -> nth_error sl c = Some sc ->
  assoc "cls" d = None -> ~ In "cls" (map fst (fields_of (sc_anns sc))) ->
  In (a, x) (fields_of (sc_anns sc)) -> selfish x = true ->
  fst (fst (Structured_unpack hb (classes l) n c ov d s w)) <> Ok tt.
Proof.
  intros hb md idf fac prog l sl n c ov d s w sc a x R M OK NS _ _ IN SE E.
  destruct (fst (Structured_unpack hb (classes l) n c ov d s w)) as [r d'] eqn:Q. cbn in E. subst r.
  destruct (C48_refill _ _ _ _ _ _ _ _ _ _ _ _ _ _ R M OK Q) as (k & P & _). cbn [reparse] in P. rewrite NS in P. cbn [obind] in P. clear Q.
  set (f := fun d => read hb md (parse hb md sl n) (PO c false d) (mode_of hb match ov with Some bo => bo | None => sc_bo sc end)) in P.
  assert (F : forall e off b, f e x off b = None).
  { intros e off b. unfold f. destruct x; try discriminate SE.
    - destruct x; try discriminate SE. cbn [read packed]. unfold ready. cbn [p_attrs p_proxy]. destruct (assoc "cls" e); reflexivity.
    - cbn [read p_attrs p_proxy]. destruct (assoc "cls" e); reflexivity. }
  clear - F IN P. revert d P. generalize 0%nat as off. generalize (suffix s w) as b. revert IN. generalize (fields_of (sc_anns sc)) as fl. intros fl IN. revert d' k.
  induction fl as [|[a' x'] fl IH]; intros d' k b off d P; [contradiction|]. cbn [fields_read] in P. destruct IN as [EQ|IN].
  - injection EQ as <- <-. rewrite F in P. discriminate.
  - destruct (f d x' off b) as [[[vs off'] k1]|]; [|discriminate]. cbn [obind] in P.
    destruct vs as [|v []]; destruct (takes x'); try discriminate P; cbn [obind] in P;
      (match type of P with match ?q with _ => _ end = _ => destruct q as [[d3 k3]|] eqn:FR end; [|discriminate]); eapply IH; eauto.
Qed.
Print Assumptions C48_self_fails.
Example C48_self_met : match nth_error sample_stmts 1 with
  | Some sc => ~ In "cls" (map fst (fields_of (sc_anns sc))) /\ exists a x, In (a, x) (fields_of (sc_anns sc)) /\ selfish x = true
  | None => False end.
Proof.
  split; [vm_compute; intuition discriminate|]. exists "kids", (XArray (inr CB) None XSelf). split; [|reflexivity]. vm_compute. tauto.
Qed.
