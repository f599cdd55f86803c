(** Property C32: unpacking into an existing object. *)
From Verif Require Import Base Floats Value StructMod Format Ser Exec Pure BaseFacts StructFacts FormatFacts
  SerFacts RefPack RefUnpack Leaf Wire Sample User DecFacts RoundTrip PropsStrings PropsNum.

(** ** Deciders that look at earlier fields only *)
(** [f] depends on the class of the object and on the attributes [S] *)
Definition dep_only (S : list string) (f : decider) : Prop :=
  forall o1 o2, p_cls o1 = p_cls o2 ->
    (forall a, In a S -> assoc a (p_attrs o1) = assoc a (p_attrs o2)) -> f o1 = f o2.
(** all condition functions and lookback deciders used by the serializer of one field do; Self is not used *)
Fixpoint indep (S : list string) (s : ser) : Prop :=
  let all := fix all (m : list (value * ser)) := match m with [] => True | (_, x) :: m' => indep S x /\ all m' end in
  match s with
  | SUnicode x _ => leaf x = true
  | SArray _ _ x _ | STuple _ x => indep S x
  | SCond f x _ => dep_only S f /\ indep S x
  | SLookback _ f m d => dep_only S f /\ all m /\ match d with Some x => indep S x | None => True end
  | SLookahead _ ra _ m d => leaf ra = true /\ all m /\ match d with Some x => indep S x | None => True end
  | SSelf _ | SCompound _ _ | SSpec _ _ _ => False
  | _ => True
  end.
(** in a class: the deciders of each field depend on the fields before it *)
Fixpoint earlier (seen names : list string) (subs : list ser) : Prop :=
  match subs with
  | [] => True
  | x :: subs' => indep seen x /\ earlier (seen ++ firstn (num_values x) names) (skipn (num_values x) names) subs'
  end.
Definition earlier_only (cd : cdef) : Prop :=
  match c_ser cd with
  | SCompound _ subs => earlier [] (c_attrs cd) subs
  | s => indep [] s
  end.

Definition agree (S : list string) (o1 o2 : pobj) : Prop :=
  p_cls o1 = p_cls o2 /\ forall a, In a S -> assoc a (p_attrs o1) = assoc a (p_attrs o2).

Lemma leaf_indep : forall S s, leaf s = true -> indep S s.
Proof. intros S s L. destruct s; try discriminate L; cbn; auto. Qed.
Lemma indep_nopre : forall S s, needs_pre s = false -> indep S s -> indep [] s.
Proof. intros S s N I. destruct s; try discriminate N; cbn in *; auto. Qed.
Lemma choose_indep : forall S m d r s0,
  (fix all (m : list (value * ser)) := match m with [] => True | (_, x) :: m' => indep S x /\ all m' end) m ->
  match d with Some x => indep S x | None => True end -> choose m d r = Ok s0 -> indep S s0.
Proof.
  intros S m d r s0 A D C. unfold choose in C. destruct (hashable r); [|discriminate].
  destruct (map_find r m) as [s|] eqn:F.
  - injection C as <-. induction m as [|[k x] m IH]; [discriminate|]. cbn in F. destruct A as [A1 A2].
    destruct (key_eqb r k); [now injection F as <-|auto].
  - destruct d; [|discriminate]. now injection C as <-.
Qed.
Lemma resolve_agree : forall S s o1 o2, indep S s -> agree S o1 o2 ->
  resolve false s o1 = resolve false s o2 /\ forall s', resolve false s o1 = Ok s' -> indep S s'.
Proof.
  intros S s o1 o2 I [C A]. destruct s; cbn [resolve]; try (split; [reflexivity|intros s' E; injection E as <-; exact I]);
    try contradiction I.
  cbn in I. destruct I as [F I]. rewrite (F o1 o2 C A). split; [reflexivity|]. intros s' E.
  destruct (cond o2); [|discriminate E]. cbn in E. unfold cond_branch in E.
  destruct (key_eqb a (VBool true)); [now injection E as <-|].
  destruct (key_eqb a (VBool false)); [now injection E as <-|]. destruct (hashable a); discriminate.
Qed.

Section Agree.
Variable hb : bool.
Variable ct : nat -> option cdef.
Variable md : umode.

Lemma dec_items_ext : forall rec item o1 o2, (forall b, rec item o1 b = rec item o2 b) ->
  forall count b, dec_items rec item o1 count b = dec_items rec item o2 count b.
Proof.
  intros rec item o1 o2 E. induction count as [|c IH]; intros b; [reflexivity|]. cbn [dec_items]. rewrite E.
  destruct (rec item o2 b) as [[vs k]|e]; [|reflexivity]. cbn [rbind]. now rewrite IH.
Qed.
Lemma dec_agree : forall n x S o1 o2 b, indep S x -> agree S o1 o2 -> dec hb ct md n x o1 b = dec hb ct md n x o2 b.
Proof.
  induction n as [|n IH]; intros x S o1 o2 b I A; [reflexivity|]. cbn [dec].
  assert (RS : forall s b, indep S s -> (rdo x' <- resolve false s o1; dec hb ct md n x' o1 b)
                                      = (rdo x' <- resolve false s o2; dec hb ct md n x' o2 b)).
  { intros s y IS. destruct (resolve_agree S s o1 o2 IS A) as [E J]. rewrite E in *.
    destruct (resolve false s o2) as [s'|e]; [|reflexivity]. cbn [rbind]. eapply IH; eauto. }
  destruct x; cbn [dec_step]; try reflexivity; try contradiction I.
  - (* unicode *) cbn in I. now rewrite (IH x S o1 o2 b (leaf_indep _ _ I) A).
  - (* array *) destruct (dost hb hdr b) as [hv|e]; [|reflexivity]. cbn [rbind].
    destruct (header_unpack_values hdr static hv) as [[count ds]|e]; [|reflexivity]. cbn [rbind].
    destruct (resolve_agree S x o1 o2 I A) as [E J]. rewrite E in *.
    destruct (resolve false x o2) as [s'|e]; [|reflexivity]. cbn [rbind].
    rewrite (dec_items_ext (dec hb ct md n) s' o1 o2); [reflexivity|]. intros b'. eapply IH; eauto.
  - (* tuple *) cbn in I. destruct (resolve_agree S x o1 o2 I A) as [E J]. rewrite E in *.
    destruct (resolve false x o2) as [s'|e]; [|reflexivity]. cbn [rbind]. now rewrite (IH s' S o1 o2 b (J _ eq_refl) A).
  - (* lookback *) destruct I as (F & M & D). destruct A as [AC AA]. rewrite (F o1 o2 AC AA).
    match type of F with dep_only _ ?g => destruct (g o2) as [r|e]; [|reflexivity] end. cbn [rbind].
    destruct (choose rmap dflt r) as [s0|e] eqn:CH; [|reflexivity]. cbn [rbind]. apply RS. eapply choose_indep; eauto.
  - (* lookahead *) destruct I as (L & M & D). rewrite (IH x S o1 o2 b (leaf_indep _ _ L) A).
    destruct (Pure.dec hb ct md n x o2 b) as [[rs k]|e]; [|reflexivity]. cbn [rbind].
    destruct (nth0 rs) as [r|e]; [|reflexivity]. cbn [rbind].
    destruct (choose rmap dflt r) as [s0|e] eqn:CH; [|reflexivity]. cbn [rbind]. apply RS. eapply choose_indep; eauto.
Qed.

(** ** at most [num_values] values *)
Lemma dst_len : forall st b vs, ss_wf st = true -> dst hb st b = Ok vs -> List.length vs = ss_nvals st.
Proof.
  intros st b vs WF H. unfold dst in H.
  destruct (st_unpack (ss_mode hb st) (s_fmt st) _) as [us|e] eqn:E; [|discriminate]. cbn [rbind] in H.
  apply st_unpack_len in E. unfold ss_act in H. unfold ss_wf, ss_nvals in *. destruct (s_act st) as [acts|].
  - apply apply_actions_len in H. apply Nat.eqb_eq in WF. lia.
  - injection H as <-. exact E.
Qed.
Lemma resolve_nv : forall m s o s', nvok m s = true -> resolve false s o = Ok s' ->
  nvok m s' = true /\ num_values s' = num_values s.
Proof.
  intros m s o s' N H. destruct s; cbn in H; try (injection H as <-; auto).
  - destruct (cond o); [|discriminate]. cbn in H. unfold cond_branch in H.
    cbn in N. apply andb_prop in N as [N1 N2]. apply Nat.eqb_eq in N2.
    destruct (key_eqb a (VBool true)); [injection H as <-; auto|].
    destruct (key_eqb a (VBool false)); [injection H as <-; auto|]. destruct (hashable a); discriminate.
  - destruct (assoc "cls" (p_attrs o)); [discriminate|]. destruct (p_proxy o); [|discriminate]. injection H as <-. auto.
  - destruct (existsb needs_pre subs); auto.
Qed.
Lemma rb_ok : forall A B (x : res A) (f : A -> res B) r, rbind x f = Ok r -> exists a, x = Ok a /\ f a = Ok r.
Proof. intros A B [a|e] f r H; [eauto|discriminate H]. Qed.
Ltac rb H := let E := fresh "E" in apply rb_ok in H as (? & E & H).
Ltac rb2 H := let E := fresh "E" in apply rb_ok in H as ([? ?] & E & H).

Lemma dost_char_len : forall n o b vs, ss_matmul single_char n = Ok o -> dost hb o b = Ok vs -> (List.length vs <= 1)%nat.
Proof.
  intros n o b vs M D. destruct (Z_lt_le_dec n 1) as [L|L].
  - unfold ss_matmul, ss_mul_impl in M. destruct (n =? 0) eqn:Z0.
    + injection M as <-. cbn in D. injection D as <-. cbn. lia.
    + destruct (n <? 0) eqn:Z1; [discriminate|]. lia.
  - destruct (matmul_char BO_DEFAULT Cs n L) as (t & E & X & _). unfold single_char in M. rewrite E in M. injection M as <-.
    cbn [dost] in D. apply dst_len in D; [|reflexivity]. rewrite D. unfold ss_nvals. cbn [s_fmt].
    unfold nvals. rewrite X. reflexivity.
Qed.

(** exactly [num_values] if that is reliable for the method [md], at most [num_values] if it is for [unpack] *)
Definition nvrel (x : ser) (l : nat) : Prop :=
  (nvok md x = true -> l = num_values x) /\ (nvok UBuf x = true -> (l <= num_values x)%nat).
Lemma nvok_md : forall x, nvok md x = true -> nvok UBuf x = true.
Proof.
  fix IH 1. intros x N. destruct x; cbn [nvok] in *; try exact N; try reflexivity.
  - apply andb_prop in N as [N1 N2]. rewrite (IH _ N1). exact N2.
  - apply andb_prop in N as [N1 N2]. apply andb_true_intro. split.
    + induction rmap as [|[k y] m IHm]; [reflexivity|]. cbn in N1 |- *. apply andb_prop in N1 as [N0 N1].
      apply andb_prop in N0 as [N3 N4]. rewrite (IH _ N3), N4. cbn. now apply IHm.
    + destruct dflt; [|reflexivity]. apply andb_prop in N2 as [N3 N4]. now rewrite (IH _ N3).
  - apply andb_prop in N as [N1 N2]. apply andb_true_intro. split.
    + induction rmap as [|[k y] m IHm]; [reflexivity|]. cbn in N1 |- *. apply andb_prop in N1 as [N0 N1].
      apply andb_prop in N0 as [N3 N4]. rewrite (IH _ N3), N4. cbn. now apply IHm.
    + destruct dflt; [|reflexivity]. apply andb_prop in N2 as [N3 N4]. now rewrite (IH _ N3).
  - induction subs as [|y l IHl]; [reflexivity|]. cbn in N |- *. apply andb_prop in N as [N1 N2]. rewrite (IH _ N1). now apply IHl.
  - induction subs as [|y l IHl]; [reflexivity|]. cbn in N |- *. apply andb_prop in N as [N1 N2]. rewrite (IH _ N1). now apply IHl.
Qed.
Lemma dec_nv : forall n x o b vs k, dec hb ct md n x o b = Ok (vs, k) -> nvrel x (List.length vs).
Proof.
  induction n as [|n IH]; intros x o b vs k H; [discriminate H|]. cbn [dec] in H.
  assert (ONE : forall m d r s0 x' vs k, choose m d r = Ok s0 -> resolve false s0 o = Ok x' ->
     dec hb ct md n x' o b = Ok (vs, k) ->
     (forallb (fun p => nvok md (snd p) && Nat.eqb (num_values (snd p)) 1) m &&
        match d with Some x => nvok md x && Nat.eqb (num_values x) 1 | None => true end = true -> List.length vs = 1%nat) /\
     (forallb (fun p => nvok UBuf (snd p) && Nat.eqb (num_values (snd p)) 1) m &&
        match d with Some x => nvok UBuf x && Nat.eqb (num_values x) 1 | None => true end = true -> (List.length vs <= 1)%nat)).
  { intros m d r s0 x' us z C R D. destruct (IH _ _ _ _ _ D) as [J1 J2]. split; intros N.
    - destruct (choose_nv md _ _ _ _ N C) as [N0 V0]. destruct (resolve_nv md _ _ _ N0 R) as [N1 V1].
      rewrite (J1 N1). congruence.
    - destruct (choose_nv UBuf _ _ _ _ N C) as [N0 V0]. destruct (resolve_nv UBuf _ _ _ N0 R) as [N1 V1].
      specialize (J2 N1). lia. }
  assert (SUBS : forall pre subs b vs k, dec_subs (dec hb ct md n) pre o subs b = Ok (vs, k) ->
     (forallb (nvok md) subs = true -> List.length vs = fold_right (fun s n => num_values s + n)%nat 0%nat subs) /\
     (forallb (nvok UBuf) subs = true -> (List.length vs <= fold_right (fun s n => num_values s + n)%nat 0%nat subs)%nat)).
  { intros pre. induction subs as [|y subs IHs]; intros b0 us z D; cbn [dec_subs] in D.
    - injection D as <- _. split; reflexivity || (cbn; lia).
    - apply rb_ok in D as (y' & R & D). apply rb_ok in D as ([us1 k1] & U & D). apply rb_ok in D as ([us2 k2] & V & D).
      injection D as <- _. destruct (IHs _ _ _ V) as [A1 A2]. destruct (IH _ _ _ _ _ U) as [B1 B2].
      assert (X : forall m, nvok m y = true -> nvok m y' = true /\ num_values y' = num_values y).
      { intros m N. destruct pre; cbn in R; [eapply resolve_nv; eauto|]. injection R as <-. auto. }
      rewrite app_length. cbn [forallb fold_right]. split; intros N; apply andb_prop in N as [N1 N2];
        destruct (X _ N1) as [X1 X2]; [rewrite (A1 N2), (B1 X1)|specialize (A2 N2); specialize (B2 X1)]; lia. }
  destruct x; cbn [dec_step] in H; unfold nvrel.
  - injection H as <- _. split; reflexivity || (cbn; lia).
  - rb H. injection H as <- _. cbn [nvok num_values]. split; intros N; rewrite (dst_len _ _ _ N E); lia.
  - injection H as <- _. split; reflexivity || (cbn; lia).
  - rb H. rb H. rb H. cbn [nvok num_values]. destruct md.
    + injection H as <- _. split; reflexivity || (cbn; lia).
    + rb H. rb H. injection H as <- _. split; [discriminate|]. intros _. eapply dost_char_len; eauto.
    + rb H. rb H. injection H as <- _. split; [discriminate|]. intros _. eapply dost_char_len; eauto.
  - injection H as <- _. split; reflexivity || (cbn; lia).
  - destruct (byte_find t b); [|discriminate H]. injection H as <- _. split; reflexivity || (cbn; lia).
  - rb2 H. destruct md; try (injection H as <- _; split; reflexivity || (cbn; lia)).
    rb H. injection H as <- _. apply dst_len in E0; [|reflexivity]. rewrite E0. split; reflexivity || (cbn; lia).
  - rb2 H. rb H. rb H. rb H. injection H as <- _. split; reflexivity || (cbn; lia).
  - rb H. rb H. injection H as <- _. split; reflexivity || (cbn; lia).
  - split; discriminate.
  - rb H. rb2 H. rb H. rb2 H. rb H. injection H as <- _. split; reflexivity || (cbn; lia).
  - rb H. rb2 H. injection H as <- _. split; reflexivity || (cbn; lia).
  - discriminate H.
  - rb H. rb H. rb H. cbn [nvok num_values]. eapply ONE; eauto.
  - rb2 H. rb H. rb H. rb H. cbn [nvok num_values]. eapply ONE; eauto.
  - rb2 H. injection H as <- _. split; reflexivity || (cbn; lia).
  - discriminate H.
  - cbn [nvok num_values]. eapply SUBS; eauto.
  - cbn [nvok num_values]. eapply SUBS; eauto.
Qed.

(** ** assigning attributes *)
Lemma assoc_set_same : forall (d : list (string * value)) a v, assoc a (assoc_set a v d) = Some v.
Proof.
  induction d as [|[k y] d IH]; intros a v; cbn; [now rewrite String.eqb_refl|].
  destruct (String.eqb a k) eqn:E; cbn; [now rewrite String.eqb_refl|]. now rewrite E.
Qed.
Lemma assoc_set_other : forall (d : list (string * value)) a a' v, a <> a' -> assoc a (assoc_set a' v d) = assoc a d.
Proof.
  induction d as [|[k y] d IH]; intros a a' v N; cbn.
  - apply String.eqb_neq in N. now rewrite N.
  - destruct (String.eqb a' k) eqn:E; cbn.
    + apply String.eqb_eq in E. subst k. apply String.eqb_neq in N. now rewrite N.
    + destruct (String.eqb a k); [reflexivity|]. now apply IH.
Qed.
Lemma assign_spec : forall vs names d1 d2 S,
  (forall a, In a S -> assoc a d1 = assoc a d2) ->
  match assign names vs d1, assign names vs d2 with
  | (None, d1'), (None, d2') => (List.length names < List.length vs)%nat /\ forall a, ~ In a names -> assoc a d2' = assoc a d2
  | (Some n1, d1'), (Some n2, d2') => n1 = n2 /\ n1 = skipn (List.length vs) names /\ (List.length vs <= List.length names)%nat /\
      (forall a, In a (S ++ firstn (List.length vs) names) -> assoc a d1' = assoc a d2') /\
      (forall a, In a (firstn (List.length vs) names) -> assoc a d1' <> None) /\
      (forall a, assoc a d1 <> None -> assoc a d1' <> None) /\
      (forall a, ~ In a names -> assoc a d2' = assoc a d2)
  | _, _ => False
  end.
Proof.
  induction vs as [|v vs IH]; intros names d1 d2 S A.
  - replace (assign names [] d1) with (Some names, d1) by (destruct names; reflexivity).
    replace (assign names [] d2) with (Some names, d2) by (destruct names; reflexivity).
    cbn [List.length firstn skipn]. rewrite app_nil_r. repeat split; auto; lia.
  - destruct names as [|x names]; cbn [assign].
    + split; [cbn; lia|auto].
    + assert (A' : forall a, In a (S ++ [x]) -> assoc a (assoc_set x v d1) = assoc a (assoc_set x v d2)).
      { intros a I. destruct (string_dec a x) as [->|NE]; [now rewrite !assoc_set_same|]. rewrite !assoc_set_other by exact NE.
        apply in_app_or in I as [I|[I|[]]]; [auto|congruence]. }
      specialize (IH names _ _ _ A').
      destruct (assign names vs (assoc_set x v d1)) as [[n1|] d1'], (assign names vs (assoc_set x v d2)) as [[n2|] d2']; try contradiction.
      * destruct IH as (-> & E & L & I1 & I2 & I3 & I4). cbn [List.length firstn skipn].
        split; [reflexivity|]. split; [exact E|]. split; [lia|]. split; [|split; [|split]].
        -- intros a I. apply I1. rewrite <- app_assoc. exact I.
        -- intros a [<-|I]; [|auto]. apply I3. now rewrite assoc_set_same.
        -- intros a I. apply I3. destruct (string_dec a x) as [->|NE]; [now rewrite assoc_set_same|now rewrite assoc_set_other].
        -- intros a I. rewrite I4 by (intros J; apply I; now right). apply assoc_set_other. intros ->. apply I. now left.
      * destruct IH as [L I4]. split; [cbn; lia|].
        intros a I. rewrite I4 by (intros J; apply I; now right). apply assoc_set_other. intros ->. apply I. now left.
Qed.

Lemma dfill_count : forall n pre ctx subs b names d names' k d', forallb (nvok UBuf) subs = true ->
  dfill_subs (dec hb ct md n) pre ctx subs b names d = (Ok (names', k), d') ->
  (List.length names <= List.length names' + fold_right (fun s n => num_values s + n)%nat 0%nat subs)%nat.
Proof.
  intros n pre ctx subs. induction subs as [|x subs IH]; intros b names d names' k d' N H; cbn [dfill_subs] in H.
  - injection H as <- _ _. cbn. lia.
  - cbn [forallb fold_right] in *. apply andb_prop in N as [N1 N2].
    destruct (oresolve false _ x) as [x'|e] eqn:R; [|discriminate H]. cbn [rbind] in H.
    destruct (dec hb ct md n x' _ b) as [[vs z]|e] eqn:D; [|discriminate H].
    destruct (dec_nv _ _ _ _ _ _ D) as [_ LE].
    assert (X : nvok UBuf x' = true /\ num_values x' = num_values x).
    { destruct pre; cbn in R; [eapply resolve_nv; eauto|]. injection R as <-. auto. }
    destruct X as [X1 X2]. specialize (LE X1).
    pose proof (assign_spec vs names d d [] ltac:(auto)) as AS.
    destruct (assign names vs d) as [[nm|] d1]; [|discriminate H].
    destruct AS as (_ & -> & L & _).
    destruct (dfill_subs (dec hb ct md n) pre ctx subs (adv z b) (skipn (List.length vs) names) d1) as [[[nm2 k2]|e] d2] eqn:F; [|discriminate H].
    cbn in H. injection H as <- _ _. specialize (IH _ _ _ _ _ _ N2 F). rewrite skipn_length in IH. lia.
Qed.

Lemma dfill_keep : forall rec pre ctx subs b names d,
  (forall a, assoc a d <> None -> assoc a (snd (dfill_subs rec pre ctx subs b names d)) <> None) /\
  (forall a, ~ In a names -> assoc a (snd (dfill_subs rec pre ctx subs b names d)) = assoc a d).
Proof.
  intros rec pre ctx subs. induction subs as [|x subs IH]; intros b names d; cbn [dfill_subs]; [auto|].
  destruct (rdo x' <- _; _) as [[vs k]|e]; [|auto].
  assert (AS : match assign names vs d with
    | (o, d') => (forall a, assoc a d <> None -> assoc a d' <> None) /\ (forall a, ~ In a names -> assoc a d' = assoc a d) /\
                 match o with Some names' => forall a, In a names' -> In a names | None => True end
    end).
  { clear. revert names d. induction vs as [|v vs IH]; intros [|y names] d; cbn [assign]; auto.
    specialize (IH names (assoc_set y v d)). destruct (assign names vs (assoc_set y v d)) as [o d'].
    destruct IH as (I1 & I2 & I3). split; [|split].
    - intros a H. apply I1. destruct (string_dec a y) as [->|NE]; [now rewrite assoc_set_same|now rewrite assoc_set_other].
    - intros a H. rewrite I2 by (intros J; apply H; now right). apply assoc_set_other. intros ->. apply H. now left.
    - destruct o; [|exact I]. intros a H. right. auto. }
  destruct (assign names vs d) as [[names'|] d'].
  - destruct AS as (A1 & A2 & A3). destruct (IH (adv k b) names' d') as [I1 I2].
    destruct (dfill_subs rec pre ctx subs (adv k b) names' d') as [r d'']. cbn [snd] in *. split; [auto|].
    intros a H. rewrite I2 by auto. auto.
  - destruct AS as (A1 & A2 & _). cbn [snd]. auto.
Qed.

Definition total (subs : list ser) : nat := fold_right (fun s n => num_values s + n)%nat 0%nat subs.

(** the two runs: from objects [PO c true d1] and [PO c false d2] that agree on the attributes assigned so far *)
Lemma dfill_agree : forall n ctx1 ctx2 pre1 pre2 c subs b names seen d1 d2,
  (forall d, option_map (fun o => PO (p_cls o) (p_proxy o) d) pre1 = None \/
             option_map (fun o => PO (p_cls o) (p_proxy o) d) pre1 = Some (PO c true d)) ->
  (pre1 = None <-> pre2 = None) ->
  (forall d, pre2 <> None -> option_map (fun o => PO (p_cls o) (p_proxy o) d) pre2 = Some (PO c false d)) ->
  (pre1 = None -> existsb needs_pre subs = false) -> p_cls ctx1 = p_cls ctx2 ->
  forallb (nvok UBuf) subs = true -> earlier seen names subs ->
  (forall a, In a seen -> assoc a d1 = assoc a d2) ->
  List.length names = total subs ->
  let r1 := dfill_subs (dec hb ct md n) pre1 ctx1 subs b names d1 in
  let r2 := dfill_subs (dec hb ct md n) pre2 ctx2 subs b names d2 in
  (forall k, fst r1 = Ok ([], k) <-> fst r2 = Ok ([], k)) /\
  (forall k, fst r1 = Ok ([], k) -> forall a, In a (seen ++ names) -> assoc a (snd r1) = assoc a (snd r2)) /\
  (forall k, fst r1 = Ok ([], k) -> forall a, In a names -> assoc a (snd r1) <> None) /\
  (forallb (nvok md) subs = true -> fst r1 = fst r2).
Proof.
  intros n ctx1 ctx2 pre1 pre2 c subs. induction subs as [|x subs IH];
    intros b names seen d1 d2 P1 PN P2 NP CC NV EA AG LN; cbv zeta.
  - cbn [dfill_subs fst snd]. destruct names; [|discriminate LN].
    rewrite app_nil_r. split; [reflexivity|]. split; [auto|]. split; [intros _ _ a []|]. reflexivity.
  - cbn [forallb] in NV. apply andb_prop in NV as [NV1 NV2]. cbn [earlier] in EA. destruct EA as [EA1 EA2].
    unfold total in LN. cbn [fold_right] in LN. fold (total subs) in LN.
    cbn [dfill_subs].
    set (q1 := option_map (fun o => PO (p_cls o) (p_proxy o) d1) pre1).
    set (q2 := option_map (fun o => PO (p_cls o) (p_proxy o) d2) pre2).
    assert (ST : (rdo x' <- oresolve false q1 x; dec hb ct md n x' (octx q1 ctx1) b)
               = (rdo x' <- oresolve false q2 x; dec hb ct md n x' (octx q2 ctx2) b)).
    { destruct pre1 as [o1|].
      - assert (NE2 : pre2 <> None) by (intros E; apply PN in E; discriminate E).
        destruct (P1 d1) as [E|E]; [discriminate E|]. unfold q1, q2. rewrite E, (P2 d2 NE2). cbn [oresolve octx].
        assert (A : agree seen (PO c true d1) (PO c false d2)) by (split; [reflexivity|exact AG]).
        destruct (resolve_agree seen x _ _ EA1 A) as [R J]. rewrite R in *.
        destruct (resolve false x (PO c false d2)) as [x'|e]; [|reflexivity]. cbn [rbind]. eapply dec_agree; eauto.
      - assert (pre2 = None) as E2 by (now apply PN). unfold q1, q2. rewrite E2. cbn [option_map oresolve octx rbind].
        specialize (NP eq_refl). cbn [existsb] in NP. apply orb_false_elim in NP as [NP _].
        eapply (dec_agree n x []); [eapply indep_nopre; eauto|]. split; [exact CC|intros a []]. }
    rewrite <- ST. destruct (rdo x' <- oresolve false q1 x; dec hb ct md n x' (octx q1 ctx1) b) as [[vs z]|e] eqn:D1.
    2:{ cbn [fst snd]. split; [split; discriminate|]. split; [discriminate|]. split; [discriminate|]. reflexivity. }
    assert (LV : nvrel x (List.length vs)).
    { apply rb_ok in D1 as (x' & R & D1). destruct (dec_nv _ _ _ _ _ _ D1) as [B1 B2].
      assert (X : forall m, nvok m x = true -> nvok m x' = true /\ num_values x' = num_values x).
      { intros m N. destruct q1; cbn in R; [eapply resolve_nv; eauto|]. injection R as <-. auto. }
      split; intros N; destruct (X _ N) as [X1 X2]; rewrite <- X2; auto. }
    destruct LV as [LV1 LV2]. specialize (LV2 NV1).
    pose proof (assign_spec vs names d1 d2 seen AG) as AS.
    destruct (assign names vs d1) as [[n1|] d1'] eqn:A1, (assign names vs d2) as [[n2|] d2'] eqn:A2; try contradiction.
    2:{ destruct AS as [LT _]. lia. }
    destruct AS as (<- & EN & L & I1 & I2 & I3 & I4).
    destruct (Nat.eq_dec (List.length vs) (num_values x)) as [EQ|NEQ].
    + (* the expected number of values *)
      rewrite <- EQ in EA2. rewrite <- EN in EA2.
      assert (LN' : List.length n1 = total subs) by (rewrite EN, skipn_length; lia).
      assert (NP' : pre1 = None -> existsb needs_pre subs = false).
      { intros E. specialize (NP E). cbn [existsb] in NP. now apply orb_false_elim in NP. }
      specialize (IH (adv z b) n1 (seen ++ firstn (List.length vs) names) d1' d2' P1 PN P2 NP' CC NV2 EA2 I1 LN').
      cbv zeta in IH.
      pose proof (dfill_keep (dec hb ct md n) pre1 ctx1 subs (adv z b) n1 d1') as [J4 _].
      destruct (dfill_subs (dec hb ct md n) pre1 ctx1 subs (adv z b) n1 d1') as [r1 e1].
      destruct (dfill_subs (dec hb ct md n) pre2 ctx2 subs (adv z b) n1 d2') as [r2 e2].
      cbn [fst snd] in *. destruct IH as (J1 & J2 & J3 & J6).
      assert (SP : names = firstn (List.length vs) names ++ n1) by (rewrite EN; now rewrite firstn_skipn).
      assert (OKE : forall r k, Base.rmap (fun p : list string * Z => (fst p, z + snd p)) r = Ok ([], k) <-> r = Ok ([], k - z)).
      { intros [[nm q]|e] k; cbn; split; intros H; try discriminate H; injection H as -> E; do 2 f_equal; lia. }
      split; [|split; [|split]].
      * intros k. rewrite !OKE. apply J1.
      * intros k H a I. apply OKE in H. apply (J2 _ H). rewrite SP in I. now rewrite <- app_assoc.
      * intros k H a I. apply OKE in H. rewrite SP in I. apply in_app_or in I as [I|I]; [|eauto]. apply J4. auto.
      * intros N. cbn [forallb] in N. apply andb_prop in N as [_ N]. now rewrite (J6 N).
    + (* fewer values: some attribute stays without a value, both fail *)
      assert (NO : forall pre ctx d k, fst (dfill_subs (dec hb ct md n) pre ctx subs (adv z b) n1 d) = Ok ([], k) -> False).
      { intros pre ctx d k H. destruct (dfill_subs (dec hb ct md n) pre ctx subs (adv z b) n1 d) as [r dd] eqn:F. cbn in H. subst r.
        apply dfill_count in F; [|exact NV2]. fold (total subs) in F. rewrite EN, skipn_length in F. cbn in F. lia. }
      assert (NO' : forall pre ctx d k, fst (let (r, d'') := dfill_subs (dec hb ct md n) pre ctx subs (adv z b) n1 d in
                      (Base.rmap (fun p : list string * Z => (fst p, z + snd p)) r, d'')) = Ok ([], k) -> False).
      { intros pre ctx d k H. apply (NO pre ctx d (k - z)).
        destruct (dfill_subs (dec hb ct md n) pre ctx subs (adv z b) n1 d) as [[[nm q]|e] dd]; cbn in *; [|discriminate H].
        injection H as -> E. do 2 f_equal. lia. }
      split; [|split; [|split]].
      * intros k. split; intros H; destruct (NO' _ _ _ _ H).
      * intros k H. destruct (NO' _ _ _ _ H).
      * intros k H. destruct (NO' _ _ _ _ H).
      * intros N. cbn [forallb] in N. apply andb_prop in N as [N _]. destruct (NEQ (LV1 N)).
Qed.
End Agree.

(** the number of attributes is the number of values of the serializer (structured.py:415-419: one name for
    each annotation); only classes with several serializers need it *)
Definition counted (cd : cdef) : Prop :=
  match c_ser cd with
  | SCompound _ subs => forallb (nvok UBuf) subs = true /\ List.length (c_attrs cd) = total subs
  | _ => True
  end.

Lemma get_attrs_all : forall names (d : list (string * value)), (forall a, In a names -> assoc a d <> None) ->
  exists vs, get_attrs names d = Ok vs /\ forall a, In a names -> assoc a (zipw names vs) = assoc a d.
Proof.
  induction names as [|x names IH]; intros d A.
  - exists []. split; [reflexivity|intros a []].
  - destruct (IH d) as (vs & E & F). { intros a I. apply A. now right. }
    unfold get_attrs in *. cbn [rmapM]. destruct (assoc x d) as [v|] eqn:X; [|destruct (A x (or_introl eq_refl) X)].
    exists (v :: vs). cbn [rbind]. rewrite E. split; [reflexivity|]. intros a I. cbn [zipw assoc].
    destruct (String.eqb a x) eqn:EQ; [apply String.eqb_eq in EQ; congruence|].
    apply F. destruct I as [<-|I]; [now rewrite String.eqb_refl in EQ|exact I].
Qed.

Section Refill.
Variable hb : bool.
Variable ct : nat -> option cdef.
Variable md : umode.

Lemma drefill_create : forall n c cd d b, ct c = Some cd -> earlier_only cd -> counted cd ->
  let r1 := dcreate hb ct md n c b in
  let r2 := drefill_step ct (dec hb ct md n) c None d b in
  (forall v k, r1 = Ok (v, k) -> fst r2 = Ok k /\ exists kv, v = VObj c None kv /\
     (forall a, In a (c_attrs cd) -> assoc a (snd r2) = assoc a kv)) /\
  (forall k, fst r2 = Ok k -> exists v, r1 = Ok (v, k)) /\
  (forall a, ~ In a (c_attrs cd) -> assoc a (snd r2) = assoc a d).
Proof.
  intros n c cd d b C EO CN. cbv zeta. unfold dcreate, dcreate_step, drefill_step. rewrite C. cbn [obj_ser].
  set (o1 := PO c true []). set (o2 := PO c false d).
  assert (FIN : forall (r1 r2 : res Z) (e1 e2 : list (string * value)),
    (forall k, r1 = Ok k <-> r2 = Ok k) ->
    (forall k, r1 = Ok k -> forall a, In a (c_attrs cd) -> assoc a e1 = assoc a e2 /\ assoc a e1 <> None) ->
    (forall a, ~ In a (c_attrs cd) -> assoc a e2 = assoc a d) ->
    let q := match (r1, e1) with
             | (Err e, _) => Err e
             | (Ok k, d') => Base.rmap (fun vs => (VObj c None (zipw (c_attrs cd) vs), k)) (get_attrs (c_attrs cd) d')
             end in
    (forall v k, q = Ok (v, k) -> r2 = Ok k /\ exists kv, v = VObj c None kv /\
       (forall a, In a (c_attrs cd) -> assoc a e2 = assoc a kv)) /\
    (forall k, r2 = Ok k -> exists v, q = Ok (v, k)) /\
    (forall a, ~ In a (c_attrs cd) -> assoc a e2 = assoc a d)).
  { intros r1 r2 e1 e2 RR AA KK. cbv zeta. split; [|split; [|exact KK]].
    - intros v k H. destruct r1 as [k1|e]; [|discriminate H].
      destruct (get_attrs_all (c_attrs cd) e1) as (vs & G & Z). { intros a I. now apply (AA k1). }
      rewrite G in H. cbn in H. injection H as <- <-. split; [now apply RR|].
      eexists. split; [reflexivity|]. intros a I. rewrite Z by exact I. symmetry. now apply (AA k1).
    - intros k H. apply RR in H. subst r1.
      destruct (get_attrs_all (c_attrs cd) e1) as (vs & G & Z). { intros a I. now apply (AA k). }
      rewrite G. eexists. reflexivity. }
  unfold earlier_only in EO. unfold counted in CN.
  destruct (is_compound (c_ser cd)) eqn:IC.
  - (* several serializers *)
    assert (X : exists id subs, c_ser cd = SCompound id subs).
    { destruct (c_ser cd); try discriminate IC; eauto. contradiction EO. }
    destruct X as (id & subs & E). rewrite E in *. clear E IC. destruct CN as [NV LN].
    cbn [resolve rbind].
    set (fin := fun r : res (list string * Z) =>
      match r with Ok ([], k) => Ok k | Ok _ => Err ValueError | Err e => Err e end).
    assert (FINOK : forall r k, fin r = Ok k <-> r = Ok ([], k)).
    { intros [[[|y l] k1]|e] k; cbn; split; intros H; try discriminate H; congruence. }
    assert (GO : forall (r1 : res (list string * Z)) e1 (r2 : res (list string * Z)) e2,
      (forall k, r1 = Ok ([], k) <-> r2 = Ok ([], k)) ->
      (forall k, r1 = Ok ([], k) -> forall a, In a ([] ++ c_attrs cd) -> assoc a e1 = assoc a e2) ->
      (forall k, r1 = Ok ([], k) -> forall a, In a (c_attrs cd) -> assoc a e1 <> None) ->
      (forall a, ~ In a (c_attrs cd) -> assoc a e2 = assoc a d) ->
      let q := match (match (r1, e1) with
                      | (Err e, d') => (Err e, d')
                      | (Ok (names', k), d') => (match names' with [] => Ok k | _ => Err ValueError end, d')
                      end : res Z * list (string * value)) with
               | (Err e, _) => Err e
               | (Ok k, d') => Base.rmap (fun vs => (VObj c None (zipw (c_attrs cd) vs), k)) (get_attrs (c_attrs cd) d')
               end in
      let q2 : res Z * list (string * value) :=
                match (r2, e2) with
                | (Err e, d') => (Err e, d')
                | (Ok (names', k), d') => (match names' with [] => Ok k | _ => Err ValueError end, d')
                end in
      (forall v k, q = Ok (v, k) -> fst q2 = Ok k /\ exists kv, v = VObj c None kv /\
         (forall a, In a (c_attrs cd) -> assoc a (snd q2) = assoc a kv)) /\
      (forall k, fst q2 = Ok k -> exists v, q = Ok (v, k)) /\
      (forall a, ~ In a (c_attrs cd) -> assoc a (snd q2) = assoc a d)).
    { intros r1 e1 r2 e2 A1 A2 A3 KK.
      specialize (FIN (fin r1) (fin r2) e1 e2).
      assert (F1 : forall k, fin r1 = Ok k <-> fin r2 = Ok k) by (intros k; rewrite !FINOK; apply A1).
      assert (F2 : forall k, fin r1 = Ok k -> forall a, In a (c_attrs cd) -> assoc a e1 = assoc a e2 /\ assoc a e1 <> None).
      { intros k H a I. apply FINOK in H. split; [exact (A2 k H a I)|exact (A3 k H a I)]. }
      specialize (FIN F1 F2 KK). clear - FIN.
      destruct r1 as [[[|y l] k1]|e], r2 as [[[|y' l'] k2]|e']; exact FIN. }
    destruct (existsb needs_pre subs) eqn:NP; cbn [dfill].
    + destruct (dfill_agree hb ct md n o1 o2 (Some o1) (Some o2) c subs b (c_attrs cd) [] [] d
        ltac:(intros; now right) ltac:(split; discriminate) ltac:(reflexivity) ltac:(discriminate) eq_refl NV EO
        ltac:(intros a []) LN) as (A1 & A2 & A3 & _).
      pose proof (dfill_keep (dec hb ct md n) (Some o2) o2 subs b (c_attrs cd) d) as [_ KK].
      destruct (dfill_subs (dec hb ct md n) (Some o1) o1 subs b (c_attrs cd) []) as [r1 e1].
      destruct (dfill_subs (dec hb ct md n) (Some o2) o2 subs b (c_attrs cd) d) as [r2 e2]. cbn [fst snd] in *.
      exact (GO r1 e1 r2 e2 A1 A2 A3 KK).
    + destruct (dfill_agree hb ct md n o1 o2 None None c subs b (c_attrs cd) [] [] d
        ltac:(intros; now left) ltac:(split; auto) ltac:(congruence) ltac:(auto) eq_refl NV EO
        ltac:(intros a []) LN) as (A1 & A2 & A3 & _).
      pose proof (dfill_keep (dec hb ct md n) None o2 subs b (c_attrs cd) d) as [_ KK].
      destruct (dfill_subs (dec hb ct md n) None o1 subs b (c_attrs cd) []) as [r1 e1].
      destruct (dfill_subs (dec hb ct md n) None o2 subs b (c_attrs cd) d) as [r2 e2]. cbn [fst snd] in *.
      exact (GO r1 e1 r2 e2 A1 A2 A3 KK).
  - (* one serializer *)
    assert (I0 : indep [] (c_ser cd)) by (destruct (c_ser cd); try discriminate IC; exact EO).
    assert (AG : agree [] o1 o2) by (split; [reflexivity|intros a []]).
    destruct (resolve_agree [] _ o1 o2 I0 AG) as [R J]. rewrite R in *.
    destruct (resolve false (c_ser cd) o2) as [x|e]; cbn [rbind fst snd].
    2:{ split; [discriminate|]. split; [discriminate|]. reflexivity. }
    specialize (J x eq_refl).
    assert (DF : forall o dd, dfill (dec hb ct md n) x o b (c_attrs cd) dd
      = match dec hb ct md n x o b with
        | Err e => (Err e, dd)
        | Ok (vs, k) => match assign (c_attrs cd) vs dd with
                        | (None, d') => (Err ValueError, d')
                        | (Some names', d') => (match names' with [] => Ok k | _ => Err ValueError end, d')
                        end
        end) by (intros; destruct x; try reflexivity; contradiction J).
    rewrite !DF, (dec_agree hb ct md n x [] o1 o2 b J AG).
    destruct (dec hb ct md n x o2 b) as [[vs k]|e]; cbn [fst snd].
    2:{ split; [discriminate|]. split; [discriminate|]. reflexivity. }
    pose proof (assign_spec vs (c_attrs cd) [] d [] ltac:(intros a [])) as AS.
    destruct (assign (c_attrs cd) vs []) as [[n1|] e1], (assign (c_attrs cd) vs d) as [[n2|] e2]; try contradiction.
    + destruct AS as (<- & EN & L & A1 & A2 & _ & KK).
      apply (FIN (match n1 with [] => Ok k | _ => Err ValueError end) (match n1 with [] => Ok k | _ => Err ValueError end) e1 e2);
        [reflexivity| |exact KK].
      intros k' H a I. destruct n1; [|discriminate H].
      assert (firstn (List.length vs) (c_attrs cd) = c_attrs cd) as FA.
      { rewrite <- (firstn_skipn (List.length vs) (c_attrs cd)) at 2. now rewrite <- EN, app_nil_r. }
      rewrite FA in *. cbn [app] in A1. auto.
    + destruct AS as (_ & KK). cbn [fst snd]. split; [discriminate|]. split; [discriminate|]. exact KK.
Qed.
End Refill.

(** ** C32 *)
(** [obj.unpack*] on an instance with attributes [d], compared with [create_unpack*] on the same input: they
    succeed together; then the serialized attributes are those of the created object, all other attributes are
    kept, and the stream position is the same *)
Theorem C32_refill : forall hb ct allow n c cd d s w,
  healthy ct allow -> classes_hu ct (md_of s) -> srcok s w ->
  ct c = Some cd -> earlier_only cd -> counted cd ->
  let made := create_step hb ct (unpack hb ct n) c s w in
  let refilled := Structured_unpack hb ct n c None d s w in
  (forall v, fst made = Ok v -> exists kv, v = VObj c None kv /\ fst (fst refilled) = Ok tt /\
     (forall a, In a (c_attrs cd) -> assoc a (snd (fst refilled)) = assoc a kv) /\
     w_pos (snd refilled) = w_pos (snd made)) /\
  (fst (fst refilled) = Ok tt -> exists v, fst made = Ok v) /\
  (forall a, ~ In a (c_attrs cd) -> assoc a (snd (fst refilled)) = assoc a d).
Proof.
  intros hb ct allow n c cd d s w H HU K C EO CN. cbv zeta.
  destruct (user_create hb ct allow (md_of s) n c s w H HU eq_refl K) as (A & _ & _ & P1 & _).
  destruct (user_refill hb ct allow (md_of s) n c None d s w H HU eq_refl K) as (B & B' & _ & _ & P2 & _).
  destruct (drefill_create hb ct (md_of s) n c cd d (suffix s w) C EO CN) as (X & Y & KP).
  rewrite A, B, B'. split; [|split; [|exact KP]].
  - intros v E. destruct (dcreate hb ct (md_of s) n c (suffix s w)) as [[v1 k]|e]; [|discriminate E].
    cbn in E. injection E as ->. destruct (X v k eq_refl) as (F & kv & -> & AA). exists kv. rewrite F in *.
    split; [reflexivity|]. split; [reflexivity|]. split; [exact AA|].
    cbn in P1, P2. destruct P1 as (_ & _ & P1). destruct P2 as (_ & _ & P2). now rewrite P1, P2.
  - intros E. destruct (fst (drefill_step ct (dec hb ct (md_of s) n) c None d (suffix s w))) as [k|e]; [|discriminate E].
    destruct (Y k eq_refl) as [v ->]. exists v. reflexivity.
Qed.
Print Assumptions C32_refill.

(** ** the hypotheses are met *)
(** class Rec: kind: uint8; name: char[uint8]; opt: uint16 if kind == 1 else 7;
    val: uint16 if kind == 1, a Point if kind == 2, else char[uint8]; pts: array[Header[uint8], Point] *)
Definition rec_cd : cdef := CD ["kind"; "name"; "opt"; "val"; "pts"]
  (SCompound 10
     [ SStruct sU8;
       SDynChar 11 sU8;
       SCond (fld_is "kind" 1) (SStruct sU16) [VInt 7];
       SLookback 12 (fld "kind") [(VInt 1, SStruct sU16); (VInt 2, SStructd 13 0)] (Some (SDynChar 11 sU8));
       SArray 15 (Some sU8) (SStructd 16 0) (-1) ]) BO_DEFAULT false.
Definition rec_table (c : nat) : option cdef := match c with 0 => Some Point | 1 => Some rec_cd | _ => None end%nat.
Lemma dep_fld : forall S a, In a S -> dep_only S (fld a).
Proof. intros S a I o1 o2 _ A. unfold fld. now rewrite (A a I). Qed.
Lemma dep_fld_is : forall S a z, In a S -> dep_only S (fld_is a z).
Proof. intros S a z I o1 o2 C A. unfold fld_is. now rewrite (dep_fld S a I o1 o2 C A). Qed.
Definition rec_bytes : bytes := [x02; x01; x41; x05; x00; x06; x00; x01; x08; x00; x09; x00].
Example C32_nontrivial :
  healthy rec_table Nat.eqb /\ classes_hu rec_table UBuf /\ earlier_only rec_cd /\ counted rec_cd /\
  (let junk := [("note", VInt 99); ("kind", VInt 1); ("opt", VInt 3)] in
   fst (create_unpack false rec_table 5 1 rec_bytes cloud0)
     = Ok (VObj 1 None [("kind", VInt 2); ("name", VBytes [x41]); ("opt", VInt 7);
                        ("val", VObj 0 None [("x", VInt 5); ("y", VInt 6)]);
                        ("pts", VList [VObj 0 None [("x", VInt 8); ("y", VInt 9)]])]) /\
   fst (Structured_unpack false rec_table 5 1 None junk (SBuf rec_bytes) cloud0)
     = (Ok tt, [("note", VInt 99); ("kind", VInt 2); ("opt", VInt 7); ("name", VBytes [x41]);
                        ("val", VObj 0 None [("x", VInt 5); ("y", VInt 6)]);
                        ("pts", VList [VObj 0 None [("x", VInt 8); ("y", VInt 9)]])])).
Proof.
  split; [|split; [|split; [|split]]].
  - exists (fun c id => Nat.eqb c 1 && existsb (Nat.eqb id) [12; 15]%nat). split.
    + intros [|[|c]] cd E; try discriminate E; injection E as <-; (split; [reflexivity|]); intros id; cbn;
        destruct id as [|[|[|[|[|[|[|[|[|[|[|[|[|[|[|[|[|id]]]]]]]]]]]]]]]]]; cbn; auto; discriminate.
    + intros a b E. apply Nat.eqb_eq in E. subst b. auto.
  - intros [|[|c]] cd E; try discriminate E; injection E as <-; reflexivity.
  - unfold earlier_only. cbn [c_ser rec_cd c_attrs earlier indep].
    split; [exact I|]. split; [exact I|]. split; [split; [apply dep_fld_is; vm_compute; auto|exact I]|].
    split; [split; [apply dep_fld; vm_compute; auto|]|]; cbn; auto 10.
  - split; reflexivity.
  - vm_compute. auto.
Qed.

(** ** C32 is false for classes that refer to themselves (self.py:27-28 wants [partial_object.cls], which an
    instance does not have): Node of Sample.v can be created from bytes, but not unpacked into *)
Theorem C32_self_refuted : exists v b, 
  fst (Structured_pack false table 6 v cloud0) = Ok b /\
  fst (create_unpack false table 6 1 b cloud0) = Ok v /\
  (exists d, v = VObj 1 None d /\ fst (fst (Structured_unpack false table 6 1 None d (SBuf b) cloud0)) = Err AttributeError).
Proof.
  exists leaf_node. eexists. split; [vm_compute; reflexivity|]. split; [vm_compute; reflexivity|].
  eexists. split; [reflexivity|]. vm_compute. reflexivity.
Qed.
Print Assumptions C32_self_refuted.
(** ... and without the assumption about earlier fields: the value an attribute had before decides.
    class Late: a: uint8 if b == 1 else 0; b: uint8 *)
Definition late_table (c : nat) : option cdef :=
  match c with
  | O => Some (CD ["a"; "b"] (SCompound 0 [SCond (fld_is "b" 1) (SStruct sU8) [VInt 0]; SStruct sU8]) BO_DEFAULT false)
  | _ => None
  end.
Theorem C32_late_refuted : exists b d1 d2,
  fst (create_unpack false late_table 3 0 b cloud0) = Err AttributeError /\
  fst (Structured_unpack false late_table 3 0 None d1 (SBuf b) cloud0) = (Ok tt, [("a", VInt 5); ("b", VInt 6)]) /\
  fst (Structured_unpack false late_table 3 0 None d2 (SBuf b) cloud0) = (Ok tt, [("a", VInt 0); ("b", VInt 5)]).
Proof. exists [x05; x06], [("a", VInt 0); ("b", VInt 1)], [("a", VInt 0); ("b", VInt 2)]. vm_compute. auto. Qed.
Print Assumptions C32_late_refuted.
