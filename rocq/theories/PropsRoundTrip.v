(** Properties C01, C02, C05, C06, C07, C38: reading back what was written. *)
From Verif Require Import Base Floats Value StructMod Format Ser Exec Pure BaseFacts StructFacts FormatFacts
  SerFacts RefPack RefUnpack User Sample DecFacts Canon Fuel RoundTrip RoundTripMain PropsIO.

(** the class definitions that can be read back with one of the unpack methods:
    - [hu] (Pure.v): the method is implemented correctly for the serializers used;
    - [readable] (RoundTripMain.v): counts and headers are integers, read-to-end strings come last.
      [NC c] says that class [c] contains no read-to-end string. *)
Definition reads_back (hb : bool) (ct : nat -> option cdef) (md : umode) (NC : nat -> bool) : Prop :=
  classes_hu ct md /\ readable hb ct md NC.

Section Main.
Variables (hb : bool) (ct : nat -> option cdef) (allow : nat -> nat -> bool) (NC : nat -> bool).

Lemma pack_enc : forall n v w b, healthy ct allow -> conforms hb ct allow n v ->
  fst (Structured_pack hb ct n v w) = Ok b -> enc_obj hb ct allow n v = Ok b.
Proof.
  intros n v w b H CF E. assert (N : false = true -> no_rest ct) by discriminate.
  pose proof (user_pack hb ct allow false n v KPack w H N CF I) as [A _].
  unfold Structured_pack in E. unfold do_pack in A. congruence.
Qed.

(** whichever method: reading at the packed bytes *)
Lemma read_back : forall md n m c d w w' b rest s, healthy ct allow -> reads_back hb ct md NC ->
  canonical hb ct allow md n (VObj c None d) -> conforms hb ct allow n (VObj c None d) -> (n <= m)%nat ->
  fst (Structured_pack hb ct n (VObj c None d) w) = Ok b -> rest = [] \/ NC c = true ->
  md_of s = md -> srcok s w' -> suffix s w' = b ++ rest ->
  let out := create_step hb ct (unpack hb ct m) c s w' in
  fst out = Ok (VObj c None d) /\ w_data (snd out) = w_data w' /\ w_buf (snd out) = w_buf w' /\
  w_pos (snd out) = match s with SRead => w_pos w' + blen b | _ => w_pos w' end /\
  (csized ct c = true -> fst (obj_size hb ct c None (snd out)) = Ok (blen b)).
Proof.
  intros md n m c d w w' b rest s H [HU RD] CN CF NM PK FW M OK SF. cbv zeta.
  pose proof (pack_enc n _ w b H CF PK) as E.
  pose proof (rt_object hb ct allow md NC RD n m c d b rest NM CN FW E) as D.
  destruct (user_create hb ct allow md m c s w' H HU M OK) as (A & B1 & B2 & PS & SZ). rewrite SF in *. rewrite D in *.
  split; [exact A|]. split; [exact B2|]. split; [exact B1|]. split.
  - cbn in PS. destruct PS as (_ & _ & PS). rewrite PS. unfold posn. destruct s; try reflexivity.
    rewrite SF, blen_app. pose proof (blen_nonneg rest). lia.
  - intros CS. now rewrite (SZ _ _ CS eq_refl).
Qed.
End Main.

(** ** C01 *)
Theorem C01_round_trip : forall hb ct allow NC n m c d w w' b,
  healthy ct allow -> reads_back hb ct UBuf NC ->
  canonical hb ct allow UBuf n (VObj c None d) -> conforms hb ct allow n (VObj c None d) -> (n <= m)%nat ->
  fst (Structured_pack hb ct n (VObj c None d) w) = Ok b ->
  fst (create_unpack hb ct m c b w') = Ok (VObj c None d).
Proof.
  intros hb ct allow NC n m c d w w' b H RB CN CF NM PK.
  apply (read_back hb ct allow NC UBuf n m c d w w' b [] (SBuf b) H RB CN CF NM PK); cbn; auto. now rewrite app_nil_r.
Qed.
Print Assumptions C01_round_trip.

(** ** C02 *)
Theorem C02_trailing_data : forall hb ct allow NC n m c d w w' b rest,
  healthy ct allow -> reads_back hb ct UBuf NC ->
  canonical hb ct allow UBuf n (VObj c None d) -> conforms hb ct allow n (VObj c None d) -> (n <= m)%nat ->
  NC c = true ->
  fst (Structured_pack hb ct n (VObj c None d) w) = Ok b ->
  fst (create_unpack hb ct m c (b ++ rest) w') = Ok (VObj c None d).
Proof.
  intros hb ct allow NC n m c d w w' b rest H RB CN CF NM NCc PK.
  apply (read_back hb ct allow NC UBuf n m c d w w' b rest (SBuf (b ++ rest)) H RB CN CF NM PK); cbn; auto.
Qed.
Print Assumptions C02_trailing_data.

(** ** C05 *)
(** [create_unpack_read] on a stream at [pos] *)
Theorem C05_read_agrees : forall hb ct allow NC n m c d w w' pre b rest,
  healthy ct allow -> reads_back hb ct URead NC ->
  canonical hb ct allow URead n (VObj c None d) -> conforms hb ct allow n (VObj c None d) -> (n <= m)%nat ->
  NC c = true \/ rest = [] ->
  fst (Structured_pack hb ct n (VObj c None d) w) = Ok b ->
  w_data w' = pre ++ b ++ rest -> w_pos w' = blen pre ->
  fst (create_unpack_read hb ct m c w') = Ok (VObj c None d).
Proof.
  intros hb ct allow NC n m c d w w' pre b rest H RB CN CF NM NCc PK D P.
  apply (read_back hb ct allow NC URead n m c d w w' b rest SRead H RB CN CF NM PK); cbn; auto; [tauto| |].
  - rewrite P. apply blen_nonneg.
  - rewrite D, P. unfold blen. rewrite Nat2Z.id. apply skipn_app_len.
Qed.
Print Assumptions C05_read_agrees.
Theorem C05_from_agrees : forall hb ct allow NC n m c d w w' pre b rest,
  healthy ct allow -> reads_back hb ct UFrom NC ->
  canonical hb ct allow UFrom n (VObj c None d) -> conforms hb ct allow n (VObj c None d) -> (n <= m)%nat ->
  NC c = true \/ rest = [] ->
  fst (Structured_pack hb ct n (VObj c None d) w) = Ok b ->
  fst (create_unpack_from hb ct m c (pre ++ b ++ rest) (blen pre) w') = Ok (VObj c None d).
Proof.
  intros hb ct allow NC n m c d w w' pre b rest H RB CN CF NM NCc PK.
  apply (read_back hb ct allow NC UFrom n m c d w w' b rest (SFrom (pre ++ b ++ rest) (blen pre)) H RB CN CF NM PK);
    cbn; auto; [tauto| |].
  - rewrite blen_app. pose proof (blen_nonneg pre). pose proof (blen_nonneg (b ++ rest)). lia.
  - unfold blen. rewrite Nat2Z.id. apply skipn_app_len.
Qed.
Print Assumptions C05_from_agrees.
(** the three methods return the same object *)
Theorem C05_three_methods : forall hb ct allow NC n m c d w w1 w2 w3 pre b rest,
  healthy ct allow -> (forall md, reads_back hb ct md NC) ->
  (forall md, canonical hb ct allow md n (VObj c None d)) -> conforms hb ct allow n (VObj c None d) -> (n <= m)%nat ->
  NC c = true \/ rest = [] ->
  fst (Structured_pack hb ct n (VObj c None d) w) = Ok b ->
  w_data w3 = pre ++ b ++ rest -> w_pos w3 = blen pre ->
  fst (create_unpack hb ct m c (b ++ rest) w1) = Ok (VObj c None d) /\
  fst (create_unpack_from hb ct m c (pre ++ b ++ rest) (blen pre) w2) = Ok (VObj c None d) /\
  fst (create_unpack_read hb ct m c w3) = Ok (VObj c None d).
Proof.
  intros hb ct allow NC n m c d w w1 w2 w3 pre b rest H RB CN CF NM NCc PK D P. split; [|split].
  - apply (read_back hb ct allow NC UBuf n m c d w w1 b rest (SBuf (b ++ rest)) H (RB _) (CN _) CF NM PK); cbn; auto. tauto.
  - eapply C05_from_agrees; eauto.
  - eapply C05_read_agrees; eauto.
Qed.
Print Assumptions C05_three_methods.

(** ** C06: after reading packed data back the size is its length *)
Theorem C06_size_after_unpack : forall hb ct allow NC n m c d w w' b rest,
  healthy ct allow -> reads_back hb ct UBuf NC -> csized ct c = true ->
  canonical hb ct allow UBuf n (VObj c None d) -> conforms hb ct allow n (VObj c None d) -> (n <= m)%nat ->
  NC c = true \/ rest = [] ->
  fst (Structured_pack hb ct n (VObj c None d) w) = Ok b ->
  fst (obj_size hb ct c None (snd (create_unpack hb ct m c (b ++ rest) w'))) = Ok (blen b).
Proof.
  intros hb ct allow NC n m c d w w' b rest H RB CS CN CF NM NCc PK.
  apply (read_back hb ct allow NC UBuf n m c d w w' b rest (SBuf (b ++ rest)) H RB CN CF NM PK); cbn; auto. tauto.
Qed.
Print Assumptions C06_size_after_unpack.

(** ** C07: a stream of objects *)
(** write objects one after the other *)
Fixpoint write_all (hb : bool) (ct : nat -> option cdef) (n : nat) (vs : list value) (w : world) : res unit * world :=
  match vs with
  | [] => (Ok tt, w)
  | v :: vs' => match Structured_pack_write hb ct n v w with
                | (Ok _, w') => write_all hb ct n vs' w'
                | (Err e, w') => (Err e, w')
                end
  end.
(** read objects of the given classes one after the other *)
Fixpoint read_all (hb : bool) (ct : nat -> option cdef) (n : nat) (cs : list nat) (w : world) : res (list value) * world :=
  match cs with
  | [] => (Ok [], w)
  | c :: cs' => match create_unpack_read hb ct n c w with
                | (Ok v, w') => let (r, w'') := read_all hb ct n cs' w' in (rmap (cons v) r, w'')
                | (Err e, w') => (Err e, w')
                end
  end.
Definition class_of (v : value) : nat := match v with VObj c _ _ => c | _ => O end.

Lemma sput_at : forall pre rest b, sput (pre ++ rest) (blen pre) b = pre ++ b ++ skipn (List.length b) rest.
Proof.
  intros pre rest b. unfold sput. destruct b as [|x b]; [reflexivity|].
  rewrite blen_app. pose proof (blen_nonneg rest). replace (Z.to_nat (blen pre - (blen pre + blen rest))) with O by lia.
  cbn [zeros repeat]. rewrite app_nil_r. unfold overwrite. replace (Z.to_nat (blen pre)) with (List.length pre) by (unfold blen; lia). rewrite firstn_app_len.
  rewrite skipn_app, skipn_all2 by lia. cbn [app]. f_equal. f_equal.
  replace (List.length pre + List.length (x :: b) - List.length pre)%nat with (List.length (x :: b)) by lia. reflexivity.
Qed.

(** what is in the stream after writing: the concatenated encodings *)
Lemma write_all_spec : forall hb ct allow n vs w w' pre rest, healthy ct allow ->
  Forall (conforms hb ct allow n) vs -> w_data w = pre ++ rest -> w_pos w = blen pre ->
  write_all hb ct n vs w = (Ok tt, w') ->
  exists bs, Forall2 (fun v b => enc_obj hb ct allow n v = Ok b) vs bs /\
    w_data w' = pre ++ List.concat bs ++ skipn (List.length (List.concat bs)) rest /\
    w_pos w' = blen pre + blen (List.concat bs).
Proof.
  intros hb ct allow n vs. induction vs as [|v vs IH]; intros w w' pre rest H CF D P E.
  - injection E as <-. exists []. cbn. rewrite Z.add_0_r. auto.
  - cbn [write_all] in E. inversion CF; subst.
    assert (N : false = true -> no_rest ct) by discriminate.
    assert (PP : kok KWrite w) by (cbn; rewrite P; apply blen_nonneg).
    pose proof (user_pack hb ct allow false n v KWrite w H N H2 PP) as (A1 & _ & A3).
    change (do_pack hb ct n v KWrite w) with (Structured_pack_write hb ct n v w) in *.
    destruct (Structured_pack_write hb ct n v w) as [[u|e] w1] eqn:W; [|discriminate].
    cbn [fst snd] in *. destruct (enc_obj hb ct allow n v) as [b|] eqn:EB; [|discriminate].
    destruct (A3 b eq_refl) as [D1 P1]. rewrite D, P, sput_at in D1. rewrite P in P1.
    destruct (IH w1 w' (pre ++ b) (skipn (List.length b) rest) H H3) as (bs & F & D2 & P2).
    + now rewrite <- app_assoc.
    + now rewrite blen_app.
    + exact E.
    + exists (b :: bs). split; [now constructor|]. cbn [List.concat]. split.
      * rewrite D2, <- !app_assoc. do 3 f_equal. rewrite skipn_skipn, app_length. f_equal; lia.
      * rewrite P2, !blen_app. lia.
Qed.
Lemma read_all_spec : forall hb ct allow NC n m vs bs w pre rest, healthy ct allow -> reads_back hb ct URead NC ->
  Forall (canonical hb ct allow URead n) vs -> (n <= m)%nat -> Forall (fun v => NC (class_of v) = true) vs ->
  Forall2 (fun v b => enc_obj hb ct allow n v = Ok b) vs bs ->
  w_data w = pre ++ List.concat bs ++ rest -> w_pos w = blen pre ->
  fst (read_all hb ct m (map class_of vs) w) = Ok vs /\
  w_pos (snd (read_all hb ct m (map class_of vs) w)) = blen pre + blen (List.concat bs).
Proof.
  intros hb ct allow NC n m vs bs w pre rest H [HU RD] CN NM NCv F. revert w pre.
  induction F as [|v b vs bs E F IH]; intros w pre D P.
  - cbn. rewrite Z.add_0_r. auto.
  - inversion CN; subst. inversion NCv; subst. destruct v; try contradiction. destruct ov; [contradiction|].
    cbn [map class_of read_all List.concat] in *.
    pose proof (rt_object hb ct allow URead NC RD n m c attrs b (List.concat bs ++ rest) NM H2 (or_intror H4) E) as DC.
    assert (OK : srcok SRead w) by (cbn; rewrite P; apply blen_nonneg).
    destruct (user_create hb ct allow URead m c SRead w H HU eq_refl OK) as (A & _ & B2 & PS & _).
    assert (SF : suffix SRead w = b ++ List.concat bs ++ rest).
    { cbn. rewrite D, P. unfold blen. rewrite Nat2Z.id, skipn_app_len, <- app_assoc. reflexivity. }
    cbv zeta in *. rewrite SF, DC in *.
    change (create_step hb ct (unpack hb ct m) c SRead w) with (create_unpack_read hb ct m c w) in *.
    destruct (create_unpack_read hb ct m c w) as [r w1]. cbn [fst snd rmap] in *. subst r.
    destruct PS as (_ & _ & PS). unfold posn in PS. rewrite SF, blen_app in PS. cbn [snd] in PS.
    destruct (IH H3 H5 w1 (pre ++ b)) as [R1 R2].
    + now rewrite B2, D, <- !app_assoc.
    + rewrite PS, P, (blen_app pre b). pose proof (blen_nonneg (List.concat bs ++ rest)). cbn [snd]. lia.
    + destruct (read_all hb ct m (map class_of vs) w1) as [r w2]. cbn [fst snd] in *. subst r. cbn.
      rewrite R2, !blen_app. split; [reflexivity|lia].
Qed.

Theorem C07_stream_of_objects : forall hb ct allow NC n m vs w w1 w2,
  healthy ct allow -> reads_back hb ct URead NC ->
  Forall (canonical hb ct allow URead n) vs -> Forall (conforms hb ct allow n) vs -> (n <= m)%nat ->
  Forall (fun v => NC (class_of v) = true) vs ->
  0 <= w_pos w <= blen (w_data w) ->
  (* written at the current position, over whatever was there *)
  write_all hb ct n vs w = (Ok tt, w1) ->
  (* the stream is then read from where writing began, with serializers in any state *)
  w_data w2 = w_data w1 -> w_pos w2 = w_pos w ->
  fst (read_all hb ct m (map class_of vs) w2) = Ok vs /\
  w_pos (snd (read_all hb ct m (map class_of vs) w2)) = w_pos w1.
Proof.
  intros hb ct allow NC n m vs w w1 w2 H RB CN CF NM NCv P W D2 P2.
  set (pre := firstn (Z.to_nat (w_pos w)) (w_data w)). set (rest := skipn (Z.to_nat (w_pos w)) (w_data w)).
  assert (D : w_data w = pre ++ rest) by (symmetry; apply firstn_skipn).
  assert (LP : w_pos w = blen pre) by (unfold pre, blen in *; rewrite firstn_length; lia).
  destruct (write_all_spec hb ct allow n vs w w1 pre rest H CF D LP W) as (bs & F & D1 & P1).
  rewrite P1. eapply read_all_spec; eauto; [now rewrite D2, D1|congruence].
Qed.
Print Assumptions C07_stream_of_objects.

(** ** C38 *)
Theorem C38_unambiguous : forall hb ct allow NC n c d1 d2 w1 w2 b rest,
  healthy ct allow -> reads_back hb ct UBuf NC -> NC c = true ->
  canonical hb ct allow UBuf n (VObj c None d1) -> conforms hb ct allow n (VObj c None d1) ->
  canonical hb ct allow UBuf n (VObj c None d2) -> conforms hb ct allow n (VObj c None d2) ->
  fst (Structured_pack hb ct n (VObj c None d1) w1) = Ok b ->
  fst (Structured_pack hb ct n (VObj c None d2) w2) = Ok (b ++ rest) ->
  d1 = d2 /\ rest = [].
Proof.
  intros hb ct allow NC n c d1 d2 w1 w2 b rest H [HU RD] NCc C1 F1 C2 F2 P1 P2.
  apply (pack_enc hb ct allow n _ w1 b H F1) in P1. apply (pack_enc hb ct allow n _ w2 _ H F2) in P2.
  pose proof (rt_object hb ct allow UBuf NC RD n n c d1 b rest (le_n n) C1 (or_intror NCc) P1) as R1.
  pose proof (rt_object hb ct allow UBuf NC RD n n c d2 (b ++ rest) [] (le_n n) C2 (or_introl eq_refl) P2) as R2.
  rewrite app_nil_r, R1 in R2. injection R2 as -> L. split; [reflexivity|].
  rewrite blen_app in L. destruct rest; [reflexivity|]. unfold blen in L. cbn in L. lia.
Qed.
Print Assumptions C38_unambiguous.

(** ** the hypotheses are met *)
(** every class of the sample table except Blob, which ends in a read-to-end string *)
Definition NCt (c : nat) : bool := negb (Nat.eqb c 2).
Lemma table_readable : forall md, readable false table md NCt.
Proof.
  intros md c cd E. do 6 (destruct c as [|c]; [injection E as <-; destruct md; vm_compute; auto|]). discriminate.
Qed.
Ltac c_nodup := repeat constructor; cbn; intuition discriminate.
Ltac c_obj X :=
  match goal with |- canon_obj ?ct _ _ ?c ?d => exists X, (map snd d) end;
  split; [assumption || reflexivity|]; split; [c_nodup|]; split; [reflexivity|]; split; [reflexivity|];
  lazymatch goal with |- context [c_ser ?x] =>
    let s := eval hnf in (c_ser x) in change (c_ser x) with s end; cbv beta iota.
Ltac c_field := cbn [canon_fields]; eexists; split; [reflexivity|]; split; [reflexivity|];
  cbv zeta; split; [apply Nat.leb_le; reflexivity|]; split.
Ltac c_in := eexists; split; [reflexivity|]; split; [reflexivity|].
Lemma canon_S : forall hb ct allow md n s pc uc vs, canon hb ct allow md (S n) s pc uc vs =
  canon_step hb ct (canon hb ct allow md n) (canon_pred hb ct allow md n) (enc hb ct allow n) (dec hb ct md n) s pc uc vs.
Proof. reflexivity. Qed.
Ltac c_open := cbn [firstn skipn num_values Nat.add canon_pred]; rewrite canon_S; cbn [canon_step].
Section Trees.
Variable ct : nat -> option cdef.
Hypothesis CT0 : ct 0%nat = Some Point.
Hypothesis CT1 : ct 1%nat = Some Node.
Lemma point_canon : forall allow md n x y, -32768 <= x < 32768 -> -32768 <= y < 32768 ->
  canonical false ct allow md (S n) (point x y).
Proof.
  intros. unfold canonical, point. c_obj Point. c_in. cbn. unfold canon_st. cbn. unfold canon_fmt, expand. cbn.
  unfold in_range. cbn. destruct (-32768 <=? x) eqn:?, (x <? 32768) eqn:?, (-32768 <=? y) eqn:?, (y <? 32768) eqn:?; lia.
Qed.
Lemma point_in : forall allow md n id pc uc x y, -32768 <= x < 32768 -> -32768 <= y < 32768 ->
  canon false ct allow md (S (S n)) (SStructd id 0) pc uc [point x y].
Proof.
  intros. cbn [canon canon_step]. eexists. split; [reflexivity|].
  change (canonical false ct allow md (S n) (point x y)). now apply point_canon.
Qed.
Lemma leaf_canon : forall md n, canonical false ct Nat.eqb md (4 + n) leaf_node.
Proof.
  intros md n. unfold canonical, leaf_node. c_obj Node.
  c_field. { vm_compute. reflexivity. }
  c_field. { c_open. do 4 eexists. repeat split; try reflexivity. cbn. eauto. }
  c_field. { reflexivity. }
  c_field. { c_open. do 3 eexists. do 4 (split; [reflexivity|]). c_in. vm_compute. reflexivity. }
  c_field. { c_open. eexists. split; [reflexivity|]. c_in. constructor. }
  c_field. { c_open. eexists. split; [reflexivity|]. c_in. constructor. }
  c_field. { c_open. eexists. split; [reflexivity|]. c_in. vm_compute. reflexivity. }
  split; reflexivity.
Qed.
Lemma tree_canon : forall md n, canonical false ct Nat.eqb md (7 + n) tree.
Proof.
  intros md n. unfold canonical, tree. c_obj Node.
  c_field. { vm_compute. reflexivity. }
  c_field. { c_open. do 4 eexists. repeat split; try reflexivity. cbn. eauto. }
  c_field. { vm_compute. reflexivity. }
  c_field. { c_open. do 3 eexists. do 4 (split; [reflexivity|]). c_in. apply point_in; lia. }
  c_field. { c_open. eexists. split; [reflexivity|]. c_in. repeat constructor; apply point_in; lia. }
  c_field. { c_open. eexists. split; [reflexivity|]. c_in.
    assert (L : forall pc uc, canon false ct Nat.eqb md (S (4 + n)) (SStructd 18 1) pc uc [leaf_node]).
    { intros. cbn [canon canon_step]. eexists. split; [reflexivity|]. exact (leaf_canon md n). }
    repeat constructor; apply L. }
  c_field. { c_open. eexists. split; [reflexivity|]. c_in. vm_compute. reflexivity. }
  split; reflexivity.
Qed.
End Trees.
Lemma blob_canon : forall md n, canonical false table Nat.eqb md (4 + n) blob.
Proof.
  intros md n. unfold canonical, blob. c_obj Blob.
  c_field. { vm_compute. reflexivity. }
  c_field. { c_open. eexists. split; [reflexivity|]. vm_compute. reflexivity. }
  c_field. { c_open. eexists. split; [reflexivity|]. cbn. intuition discriminate. }
  c_field. { c_open. eexists. reflexivity. }
  split; reflexivity.
Qed.
Lemma ping_in : forall allow md n id pc uc, canon false table allow md (S (S n)) (SStructd id 4) pc uc [ping].
Proof. intros. cbn [canon canon_step]. eexists. split; [reflexivity|]. c_obj Ping. c_in. vm_compute. reflexivity. Qed.
Lemma data_in : forall md n id pc uc, canon false table Nat.eqb md (6 + n) (SStructd id 5) pc uc [data].
Proof.
  intros. c_open. eexists. split; [reflexivity|]. c_obj Data.
  c_field. { vm_compute. reflexivity. }
  c_field. { c_open. eexists. split; [reflexivity|]. c_in. repeat constructor; apply ping_in. }
  c_field. { c_open. eexists. split; [reflexivity|]. now left. }
  split; reflexivity.
Qed.
Lemma msg_canon : forall md, canonical false table Nat.eqb md 10 (msg data).
Proof.
  intros md. unfold canonical, msg. c_obj Msg.
  c_field.
  { c_open. do 3 eexists. do 4 (split; [reflexivity|]). split; [apply (data_in md 2)|].
    intros b E. vm_compute in E. injection E as <-. destruct md; vm_compute; do 3 eexists; repeat split; congruence. }
  c_field. { vm_compute. reflexivity. }
  split; reflexivity.
Qed.
Example C01_nontrivial :
  healthy table Nat.eqb /\ (forall md, readable false table md NCt) /\ reads_back false table UBuf NCt /\
  reads_back false table URead NCt /\
  (forall md, canonical false table Nat.eqb md 10 tree) /\ (forall md, canonical false table Nat.eqb md 10 blob) /\
  (forall md, canonical false table Nat.eqb md 10 (msg data)) /\
  (forall v, In v [tree; blob; msg data] -> conforms false table Nat.eqb 10 v /\
     is_ok (fst (Structured_pack false table 10 v dirty)) = true).
Proof.
  split; [apply table_healthy|]. split; [apply table_readable|].
  split; [split; [apply table_hu|apply table_readable]|]. split; [split; [apply table_hu|apply table_readable]|].
  split; [intros md; apply (tree_canon table eq_refl eq_refl md 3)|]. split; [intros md; apply (blob_canon md 6)|]. split; [apply msg_canon|].
  intros v I. repeat destruct I as [<-|I]; try contradiction; (split; [unfold conforms; vm_compute; congruence|vm_compute; reflexivity]).
Qed.
(** C07: three objects of two classes written and read back, starting inside a stream with other data *)
Example C07_nontrivial : 
  fst (write_all false table 10 [tree; msg data; tree] dirty) = Ok tt /\
  Forall (fun v => NCt (class_of v) = true) [tree; msg data; tree].
Proof. split; [vm_compute; reflexivity|]. repeat constructor. Qed.
(** C38: two canonical instances with different encodings exist, so the statement is not empty *)
Example C38_nontrivial : fst (Structured_pack false table 10 tree dirty) <> fst (Structured_pack false table 10 leaf_node dirty)
  /\ canonical false table Nat.eqb UBuf 10 leaf_node.
Proof. split; [vm_compute; congruence|]. apply (leaf_canon table eq_refl UBuf 6). Qed.
(** C05: the classes other than Blob (which has a terminated string) with all three methods *)
Definition table3 (c : nat) : option cdef := if Nat.eqb c 2 then None else table c.
Example C05_nontrivial :
  healthy table3 Nat.eqb /\ (forall md, reads_back false table3 md NCt) /\
  (forall md, canonical false table3 Nat.eqb md 10 tree) /\ conforms false table3 Nat.eqb 10 tree /\
  NCt (class_of tree) = true /\ is_ok (fst (Structured_pack false table3 10 tree dirty)) = true.
Proof.
  split.
  { destruct table_healthy as [T [H1 H2]]. exists T. split.
    - intros c cd E. unfold table3 in E. destruct (Nat.eqb c 2) eqn:Q; [discriminate|]. destruct (H1 c cd E) as [A B].
      split; [|exact B]. clear -A E. do 6 (destruct c as [|c]; [injection E as <-; reflexivity|]). discriminate.
    - intros d c E. apply Nat.eqb_eq in E as ->. auto. }
  split.
  { intros md. split.
    - intros c cd E. unfold table3 in E. do 6 (destruct c as [|c]; [try discriminate; injection E as <-; destruct md; reflexivity|]). discriminate.
    - intros c cd E. unfold table3 in E. destruct (Nat.eqb c 2); [discriminate|]. now apply table_readable. }
  split; [intros md; apply (tree_canon table3 eq_refl eq_refl md 3)|].
  split; [unfold conforms; vm_compute; congruence|]. split; [reflexivity|vm_compute; reflexivity].
Qed.
