(** Reading into an existing object: [obj.unpack], [obj.unpack_from], [obj.unpack_read] against ReadSpec.v. *)
From Verif Require Import Base Floats Value StructMod Format Ser Exec Pure BaseFacts StructFacts FormatFacts
  SerFacts Leaf Wire Field Fuel DecFacts RoundTrip Adding PropsAdd PropsBasic PropsStrings Hints HintFacts Surface SerShape Programs Accept AcceptProg
  WireSpec WireFacts Wires ReadSpec ReadFacts Reads.

(** ** specification: the fields of the class are read over the attributes the object has; deciders and conditions see
    those that have not been read yet with their old values.  [ov]: the byte order given by [with_byte_order], if any.
    Nested objects are new objects. *)
Definition reparse (hb : bool) (md : umode) (sl : list sclass) (n : nat) (c : nat) (ov : option border)
  (d : list (string * value)) (b : bytes) : option (list (string * value) * Z) :=
  match n with
  | O => None
  | S n' =>
      odo sc <- nth_error sl c;
      let m := mode_of hb (match ov with Some bo => bo | None => sc_bo sc end) in
      fields_read (fun d => read hb md (parse hb md sl n') (PO c false d) m) (fields_of (sc_anns sc)) d 0 b
  end.

Section Fill.
Variables (hb : bool) (ct : nat -> option cdef) (md : umode) (n c : nat) (px : bool) (d0 : list (string * value)).
Let o := PO c px d0.
Lemma fill_none : forall T subs b names d, existsb needs_pre subs = false -> forallb (hc ct T c) subs = true ->
  okfill (dfill_subs (dec hb ct md (S n)) None o subs b names d) = ofill hb ct md n o o subs b names d.
Proof.
  intros T subs. induction subs as [|x subs IH]; intros b names d N H; [reflexivity|].
  cbn in N, H. apply Bool.orb_false_iff in N as [N1 N2]. apply andb_prop in H as [H1 H2].
  rewrite ofill_cons. cbn [dfill_subs option_map oresolve octx rbind].
  assert (R : resolve false x (PO (p_cls o) (p_proxy o) d) = Ok x) by (destruct x; try discriminate N1; reflexivity).
  rewrite R. cbn [rbind]. rewrite (np_dec_ctx hb ct md (S n) T c x o (PO (p_cls o) (p_proxy o) d) b N1 H1).
  destruct (dec hb ct md (S n) x _ b) as [[vs k]|]; [|reflexivity]. cbn [rbind].
  destruct (assign names vs d) as [[nm|] d']; [|reflexivity]. rewrite <- (IH _ _ _ N2 H2).
  destruct (dfill_subs _ _ _ subs _ _ _) as [[[nm2 z]|] d2]; reflexivity.
Qed.
Lemma parts_fill : forall T s b names, flat s -> hc ct T c s = true -> forall d' z,
  (rdo x <- resolve false s o;
   match dfill (dec hb ct md (S n)) x o b names d0 with (Err e, _) => Err e | (Ok k, d) => Ok (d, k) end)
  = Ok (d', z) <-> ofill hb ct md n o o (parts s) b names d0 = Ok ([], d', z).
Proof.
  intros T s b names F H d' z.
  destruct (match s with SNull | SCompound _ _ => true | _ => false end) eqn:K.
  - destruct s; try discriminate K.
    + cbn. unfold ofill. cbn. destruct names; split; intros E; try discriminate E; injection E as <- <-; reflexivity.
    + cbn [parts resolve]. destruct (existsb needs_pre subs) eqn:E; cbn [rbind dfill].
      * unfold ofill. destruct (dfill_subs _ _ _ subs _ _ _) as [[[nm z']|e] dd]; cbn [okfill];
          [|split; discriminate]. destruct nm; split; intros Q; try discriminate Q; injection Q as <- <-; reflexivity.
      * cbn in H. rewrite <- (fill_none T) by assumption.
        destruct (dfill_subs _ _ _ subs _ _ _) as [[[nm z']|e] dd]; cbn [okfill];
          [|split; discriminate]. destruct nm; split; intros Q; try discriminate Q; injection Q as <- <-; reflexivity.
  - assert (P : parts s = [s]) by (destruct s; try reflexivity; try discriminate K; contradiction). rewrite P.
    rewrite ofill_cons. change (PO (p_cls o) (p_proxy o) d0) with o.
    destruct (resolve false s o) as [x|] eqn:R; [|split; discriminate]. cbn [rbind].
    assert (X : is_compound x = false).
    { clear - R K F H. destruct s; cbn in R, K, F, H; try discriminate K; try contradiction; try (injection R as <-; reflexivity).
      - destruct (cond o) as [v|]; [|discriminate]. cbn [rbind] in R. unfold cond_branch in R.
        apply andb_prop in H as [_ H].
        destruct (key_eqb v (VBool true)); [injection R as <-; destruct s; try discriminate H; reflexivity|].
        destruct (key_eqb v (VBool false)); [injection R as <-; reflexivity|]. destruct (hashable v); discriminate.
      - destruct (assoc "cls" d0); [discriminate R|]. destruct px; [|discriminate R]. injection R as <-. reflexivity. }
    assert (DF : dfill (dec hb ct md (S n)) x o b names d0 =
      match dec hb ct md (S n) x o b with
      | Err e => (Err e, d0)
      | Ok (vs, k) => match assign names vs d0 with
                      | (None, d') => (Err ValueError, d')
                      | (Some names', d') => (match names' with [] => Ok k | _ => Err ValueError end, d') end end)
      by (destruct x; try discriminate X; reflexivity).
    rewrite DF. destruct (dec hb ct md (S n) x o b) as [[vs k]|]; [|split; discriminate]. cbn [rbind].
    destruct (assign names vs d0) as [[nm|] dd]; [|split; discriminate]. unfold ofill. cbn [dfill_subs okfill rbind].
    destruct nm; split; intros Q; try discriminate Q; injection Q as <- <-; now rewrite ?Z.add_0_r.
Qed.
Lemma ofill_o : forall l b nm d, ofill hb ct md n o o l b nm d = ofill hb ct md n (PO c px []) (PO c px []) l b nm d.
Proof.
  induction l as [|s l IH]; intros b nm d; [reflexivity|]. rewrite !ofill_cons. cbn [p_cls p_proxy o].
  destruct (resolve false s (PO c px d)) as [s'|]; [|reflexivity]. cbn [rbind].
  destruct (dec hb ct md (S n) s' (PO c px d) b) as [[vs k]|]; [|reflexivity]. cbn [rbind].
  destruct (assign nm vs d) as [[nm'|] d']; [|reflexivity]. fold o. now rewrite IH.
Qed.
End Fill.

(** the attributes and the number of bytes of a successful refill *)
Definition filled (r : res Z * list (string * value)) : option (list (string * value) * Z) :=
  match r with (Ok k, d) => Some (d, k) | (Err _, _) => None end.
Definition all_named (p : nmd * Z) : option (list (string * value) * Z) :=
  match p with (([], d), k) => Some (d, k) | _ => None end.
Section Depth.
Variable hb : bool.
Variable md : umode.
Variables (sl : list sclass) (l : list cinfo).
Hypothesis CR : classes_rel sl l.
Hypothesis RG : forallb regular_class sl = true.
Variable TT : nat -> nat -> bool.
Let ct := classes l.
Hypothesis HC : forall c cd, ct c = Some cd -> hc ct TT c (c_ser cd) = true.
Lemma obj_hc : forall c cd ov, ct c = Some cd -> hc ct TT c (obj_ser cd ov) = true.
Proof. intros c cd [bo|] E; cbn [obj_ser]; [apply wb_hc|]; now apply HC. Qed.
Lemma drefill_pseq : forall n c ov d cd b, ct c = Some cd -> flat (obj_ser cd ov) ->
  filled (drefill_step ct (dec hb ct md (S n)) c ov d b) =
  odo p <- pseq hb ct md nmd put_all (seen c false) (S n) (parts (obj_ser cd ov)) b (c_attrs cd, d); all_named p.
Proof.
  intros n c ov d cd b E F. rewrite <- (ofill_pseq hb ct md c false n (PO c false [])), <- (ofill_o hb ct md n c false d).
  pose proof (parts_fill hb ct md n c false d TT (obj_ser cd ov) b (c_attrs cd) F (obj_hc c cd ov E)) as P.
  unfold drefill_step. rewrite E.
  destruct (resolve false (obj_ser cd ov) (PO c false d)) as [x|]; cbn [rbind] in *.
  - destruct (dfill (dec hb ct md (S n)) x (PO c false d) b (c_attrs cd) d) as [[k|e] d1] eqn:Q.
    + destruct (P d1 k) as [P1 _]. rewrite (P1 eq_refl). reflexivity.
    + cbn [filled]. destruct (ofill hb ct md n (PO c false d) (PO c false d) (parts (obj_ser cd ov)) b (c_attrs cd) d) as [[[nm d'] k]|]; [|reflexivity].
      destruct nm as [|a nm]; [|reflexivity]. destruct (P d' k) as [_ P2]. specialize (P2 eq_refl). discriminate P2.
  - cbn [filled]. destruct (ofill hb ct md n (PO c false d) (PO c false d) (parts (obj_ser cd ov)) b (c_attrs cd) d) as [[[nm d'] k]|]; [|reflexivity].
    destruct nm as [|a nm]; [|reflexivity]. destruct (P d' k) as [_ P2]. specialize (P2 eq_refl). discriminate P2.
Qed.
Lemma drefill_0 : forall c ov d cd b, ct c = Some cd -> flat (obj_ser cd ov) -> forallb lone (parts (obj_ser cd ov)) = true ->
  filled (drefill_step ct (dec hb ct md 0) c ov d b) = None.
Proof.
  intros c ov d cd b E F LO. unfold drefill_step. rewrite E. revert F LO. generalize (obj_ser cd ov) as s. intros s F LO.
  destruct (resolve false s (PO c false d)) as [x|] eqn:R; [|reflexivity].
  assert (X : exists e d', dfill (dec hb ct md 0) x (PO c false d) b (c_attrs cd) d = (Err e, d')).
  { destruct (is_compound x) eqn:CX; [|destruct x; try discriminate CX; eexists _, _; reflexivity].
    assert (K : exists i subs, subs <> [] /\ (x = SCompound i subs \/ x = SSpec i subs (PO c false d))).
    { destruct s as [| | | | | | | | | | | |f i dv| | | |i|i l1|i l1 o1]; cbn [resolve parts forallb lone flat] in *; try (injection R as <-; discriminate CX); try contradiction.
      - destruct (f (PO c false d)) as [v|]; [|discriminate]. cbn [rbind] in R. unfold cond_branch in R. rewrite Bool.andb_true_r in LO.
        destruct (key_eqb v (VBool true)); [injection R as <-; rewrite CX in LO; discriminate|].
        destruct (key_eqb v (VBool false)); [injection R as <-; discriminate CX|]. destruct (hashable v); discriminate.
      - destruct (self_class false (PO c false d)) as [u|]; [|discriminate R]. cbn [rbind] in R. injection R as <-. discriminate CX.
      - injection R as <-. exists i, l1. split; [tauto|]. destruct (existsb needs_pre l1); auto. }
    destruct K as (i & subs & N & [-> | ->]); (destruct subs as [|s0 subs]; [congruence|]); cbn [dfill dfill_subs option_map oresolve].
    - eexists _, _. reflexivity.
    - destruct (resolve false s0 _); eexists _, _; reflexivity. }
  destruct X as (e & d' & ->). reflexivity.
Qed.
Section OneClass.
Variable rec : nat -> bytes -> option (value * Z).
Variables L U : nat.
Hypothesis OB : forall c b, agree L U (fun n => opt (dcreate hb ct md n c b)) (rec c b).
Definition object_reread (c : nat) (ov : option border) (d : list (string * value)) (b : bytes) : option (list (string * value) * Z) :=
  odo sc <- nth_error sl c;
  let m := mode_of hb (match ov with Some bo => bo | None => sc_bo sc end) in
  fields_read (fun d => read hb md rec (PO c false d) m) (fields_of (sc_anns sc)) d 0 b.
Lemma object_facts : forall c ov sc i, nth_error sl c = Some sc -> nth_error l c = Some i ->
  let bo := match ov with Some bo => bo | None => sc_bo sc end in let s := obj_ser (ci_def i) ov in
  exists sers, c_attrs (ci_def i) = names_of (fields_of (sc_anns sc)) /\
    all2 (made bo) (map snd (fields_of (sc_anns sc))) sers /\ forallb (hc ct TT c) sers = true /\
    flat s /\ rel (parts s) (runs sers) /\ Forall atom (runs sers) /\
    lined (fields_of (sc_anns sc)) /\ forallb (fun p => regular (snd p)) (fields_of (sc_anns sc)) = true.
Proof.
  intros c ov sc i NS NI. destruct (class_facts sl l CR RG TT HC c sc i NS NI) as (sers & AT & ND & A2 & HS & FL & RL & ATM & LN & RX).
  destruct ov as [bo|]; cbn zeta; cbn [obj_ser].
  - exists (map (with_bo bo) sers). repeat match goal with |- _ /\ _ => split end; auto.
    + eapply all2_bo; exact A2.
    + rewrite forallb_forall in *. intros y I. apply in_map_iff in I as (z & <- & I). apply wb_hc. auto.
    + now apply flat_bo.
    + rewrite (parts_bo bo _ FL), runs_bo. now apply rel_bo.
    + rewrite runs_bo. apply Forall_forall. intros y I. apply in_map_iff in I as (z & <- & I). apply atom_bo. rewrite Forall_forall in ATM. auto.
  - exists sers. repeat match goal with |- _ /\ _ => split end; auto.
Qed.
Lemma object_step : forall c ov d b, agree (S L) (U + top sl) (fun n => filled (drefill_step ct (dec hb ct md n) c ov d b)) (object_reread c ov d b).
Proof.
  intros c ov d b. unfold object_reread. destruct (nth_error sl c) as [sc|] eqn:NS.
  2:{ assert (NI : nth_error l c = None) by (apply nth_error_None; destruct CR as [LEN _]; apply nth_error_None in NS; lia).
      apply agree_ext with (F := fun _ => None); [|apply agree_const]. intros n. unfold drefill_step, ct, classes. now rewrite NI. }
  destruct (nth_error l c) as [i|] eqn:NI.
  2:{ exfalso. apply nth_error_None in NI. destruct CR as [LEN _]. assert (c < List.length sl)%nat by (apply nth_error_Some; congruence). lia. }
  destruct (object_facts c ov sc i NS NI) as (sers & AT & A2 & HS & FL & RL & ATM & LN & RX).
  set (bo := match ov with Some bo => bo | None => sc_bo sc end) in *.
  assert (CT : ct c = Some (ci_def i)) by (unfold ct, classes; now rewrite NI).
  assert (FO : Forall (field_ok bo) sers) by (eapply all2_field; eauto).
  set (g := fun d => read hb md rec (PO c false d) (mode_of hb bo)). set (fl := fields_of (sc_anns sc)) in *.
  assert (W : within g fl) by (eapply made_within; eauto).
  assert (E : fields_read g fl d 0 b = obind (gread g (map snd fl) 0 b (names_of fl, d)) all_named).
  { pose proof (gread_fields ct c g fl W LN 0 b d) as G. destruct (fields_read g fl d 0 b) as [[d1 k]|] eqn:FR.
    - destruct (G d1 k) as [_ G2]. rewrite (G2 eq_refl). reflexivity.
    - destruct (gread g (map snd fl) 0 b (names_of fl, d)) as [[[nm d1] k]|]; [|reflexivity]. destruct nm as [|a nm]; [|reflexivity].
      destruct (G d1 k) as [G1 _]. specialize (G1 eq_refl). discriminate G1. }
  cbn zeta. rewrite E. clear E.
  apply agree_ext with (F := fun n => match n with O => None | S _ => obind (pseq hb ct md nmd put_all (seen c false) n (runs sers) b (names_of fl, d)) all_named end).
  { intros [|n].
    - symmetry. eapply drefill_0; eauto. eapply rel_lone; [exact RL|]. apply runs_lone. clear -A2. revert sers A2. induction (map snd fl) as [|x xs IH]; intros [|s sers] A; try contradiction; [reflexivity|].
      destruct A as [A1 A2]. cbn. rewrite (made_lone _ _ _ A1). now apply IH.
    - rewrite (drefill_pseq n c ov d (ci_def i) b CT FL), AT, <- !(ofill_pseq hb ct md c false n (PO c false [])). now rewrite (rel_fill hb ct md n (PO c false []) (PO c false []) _ _ b (names_of fl) d RL). }
  assert (A : agree (S L) (U + top sl) (fun n => obind (pseq hb ct md nmd put_all (seen c false) n (runs sers) b (names_of fl, d)) all_named) (obind (gread g (map snd fl) 0 b (names_of fl, d)) all_named)).
  { apply agree_bind; [|intros p; apply agree_const]. apply pseq_agree with (rec := rec) (L := L) (U := U) (bo := bo); auto using put_nil, put_app.
    - pose proof (top_pos hb md sl l RG TT HC rec L U OB). lia.
    - apply (seq_agree hb md sl l RG TT HC rec L U OB); auto. intros x I. eapply top_bound; eauto. }
  intros n r. destruct (A n r) as [P Q]. split; intros N H.
  - destruct n; [discriminate H|]. auto.
  - destruct n; [pose proof (top_pos hb md sl l RG TT HC rec L U OB); lia|]. auto.
Qed.
End OneClass.
Theorem reparse_agree : forall n, exists B, forall c ov d b,
  agree n B (fun k => filled (drefill_step ct (dec hb ct md k) c ov d b)) (reparse hb md sl n c ov d b).
Proof.
  intros [|n].
  - exists 0%nat. intros c ov d b k r. split; intros H E; [lia|discriminate E].
  - destruct (parse_agree hb md sl l CR RG TT HC n) as [B IH]. exists (B + top sl)%nat. intros c ov d b.
    exact (object_step (parse hb md sl n) n B IH c ov d b).
Qed.
End Depth.
