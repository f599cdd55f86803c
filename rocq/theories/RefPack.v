(** The packing methods of Exec.v compute [enc], from every state. *)
From Verif Require Import Base Floats Value StructMod Format Ser Exec Pure BaseFacts StructFacts FormatFacts SerFacts.

(** contents of a stream after writing [b] at position [pos] *)
Definition sput (data : bytes) (pos : Z) (b : bytes) : bytes :=
  match b with
  | [] => data
  | _ => overwrite (data ++ zeros (Z.to_nat (pos - blen data))) pos b
  end.

Lemma sput_app : forall data pos b1 b2, 0 <= pos ->
  sput (sput data pos b1) (pos + blen b1) b2 = sput data pos (b1 ++ b2).
Proof.
  intros data pos b1 b2 H.
  destruct b1 as [|x b1].
  - cbn [sput app]. unfold blen at 1. cbn [List.length]. now rewrite Z.add_0_r.
  - destruct b2 as [|y b2]; [rewrite app_nil_r; reflexivity|].
    cbn [app]. unfold sput.
    set (base := data ++ zeros (Z.to_nat (pos - blen data))).
    set (B1 := x :: b1). set (B2 := y :: b2).
    assert (L : pos <= blen base).
    { unfold base. rewrite blen_app. unfold blen at 2. rewrite zeros_length. lia. }
    change (x :: b1 ++ y :: b2) with (B1 ++ B2).
    assert (LF : List.length (firstn (Z.to_nat pos) base) = Z.to_nat pos).
    { rewrite firstn_length. unfold blen in L. lia. }
    assert (P : Z.to_nat (pos + blen B1 - blen (overwrite base pos B1)) = O).
    { unfold overwrite. rewrite !blen_app. unfold blen. rewrite LF. lia. }
    rewrite P. cbn [zeros repeat]. rewrite app_nil_r.
    unfold overwrite.
    set (F := firstn (Z.to_nat pos) base) in *.
    set (R := skipn (Z.to_nat pos + List.length B1) base).
    rewrite (app_assoc F B1 R).
    assert (LFB : Z.to_nat (pos + blen B1) = List.length (F ++ B1)).
    { rewrite app_length, LF. unfold blen. lia. }
    rewrite LFB, firstn_app_len, <- skipn_skipn, skipn_app_len, <- !app_assoc.
    subst R. rewrite skipn_skipn. change (x :: b1 ++ B2) with (B1 ++ B2).
    rewrite app_length, <- app_assoc, Nat.add_assoc. reflexivity.
Qed.

Lemma sput_length : forall data pos b, 0 <= pos -> b <> [] ->
  blen (sput data pos b) = Z.max (blen data) (pos + blen b).
Proof.
  intros data pos b H N. destruct b as [|x b]; [congruence|]. unfold sput, overwrite, blen.
  rewrite !app_length, firstn_length, skipn_length, app_length, zeros_length. unfold blen. lia.
Qed.

Lemma matmul_single_char_size : forall hb n o, ss_matmul single_char n = Ok o -> 1 <= n ->
  exists st, o = Some st /\ ss_size hb st = n.
Proof.
  intros hb n o H L. unfold single_char in H.
  destruct (matmul_char BO_DEFAULT Cs n L) as (t & E & X & _). rewrite H in E. injection E as ->.
  eexists. split; [reflexivity|]. unfold ss_size, calcsize. cbn [s_fmt]. rewrite X.
  unfold expand. cbn. lia.
Qed.

Section RefPack.
Variable hb : bool.
Variable ct : nat -> option cdef.
Variable allow : nat -> nat -> bool.
Variable T : nat -> nat -> bool.
Variable nc : bool.
Hypothesis COK : classes_ok ct allow T.
Hypothesis NC : nc = true -> classes_nocons ct.

Definition szof (s : ser) (w : world) : res Z := fst (get_size hb s w).
Lemma get_size_eq : forall s w, get_size hb s w = (szof s w, w).
Proof.
  unfold szof. induction s using ser_ind'; intros w; cbn; try reflexivity; auto.
Qed.

(** what a packing method does to buffer and stream, given the stateless result [r] *)
Definition io_spec (r : res bytes) (k : sink) (w : world) (x : res bytes) (w' : world) : Prop :=
  match k with
  | KPack => x = r /\ w_buf w' = w_buf w /\ w_data w' = w_data w /\ w_pos w' = w_pos w
  | KWrite => x = rmap (fun _ => []) r /\ w_buf w' = w_buf w /\
      forall b, r = Ok b -> w_data w' = sput (w_data w) (w_pos w) b /\ w_pos w' = w_pos w + blen b
  | KInto off => w_data w' = w_data w /\ w_pos w' = w_pos w /\
      match r with
      | Err _ => exists e, x = Err e
      | Ok b =>
          ((exists e, x = Err e) \/ x = Ok []) /\
          (off + blen b <= blen (w_buf w) -> x = Ok [] /\ w_buf w' = overwrite (w_buf w) off b) /\
          (nc = true -> blen (w_buf w) < off + blen b ->
             (exists e, x = Err e) \/ (b = [] /\ x = Ok [] /\ w_buf w' = w_buf w))
      end
  end.
Definition kok (k : sink) (w : world) : Prop :=
  match k with KPack => True | KInto off => 0 <= off | KWrite => 0 <= w_pos w end.

Lemma io_ok : forall r k w x w' a, io_spec r k w x w' -> x = Ok a -> exists b, r = Ok b.
Proof.
  intros r k w x w' a H E. destruct r as [b|e]; [eauto|].
  destruct k; cbn in H.
  - destruct H as [H _]. congruence.
  - destruct H as (_ & _ & e' & H). congruence.
  - destruct H as [H _]. cbn in H. congruence.
Qed.
Lemma io_val : forall r k w x w' a b, io_spec r k w x w' -> x = Ok a -> r = Ok b ->
  a = match k with KPack => b | _ => [] end.
Proof.
  intros r k w x w' a b H E R. subst r. destruct k; cbn in H.
  - destruct H as [H _]. congruence.
  - destruct H as (_ & _ & [[e H]|H] & _); congruence.
  - destruct H as [H _]. cbn in H. congruence.
Qed.
(** the world may be changed in the other fields *)
Lemma io_world : forall r k w0 w x w' w1, io_spec r k w x w' ->
  w_buf w0 = w_buf w -> w_data w0 = w_data w -> w_pos w0 = w_pos w ->
  w_buf w1 = w_buf w' -> w_data w1 = w_data w' -> w_pos w1 = w_pos w' ->
  io_spec r k w0 x w1.
Proof.
  intros r k w0 w x w' w1 H A1 A2 A3 B1 B2 B3.
  destruct k; cbn in *; rewrite ?A1, ?A2, ?A3, ?B1, ?B2, ?B3; assumption.
Qed.
Lemma io_err : forall e k w w', w_buf w' = w_buf w -> w_data w' = w_data w -> w_pos w' = w_pos w ->
  io_spec (Err e) k w (Err e) w'.
Proof. intros e [] w w' A B C; cbn; repeat split; eauto; discriminate. Qed.
Lemma io_nil : forall k w w', w_buf w' = w_buf w -> w_data w' = w_data w -> w_pos w' = w_pos w ->
  io_spec (Ok []) k w (Ok []) w'.
Proof.
  intros [] w w' A B C; cbn; repeat split; eauto.
  - now rewrite overwrite_nil.
  - injection H as <-. assumption.
  - injection H as <-. unfold blen; cbn; lia.
Qed.

(** running one piece after the other *)
Lemma io_seq : forall r1 (r2 : bytes -> res bytes) k w x1 w1 (out2 : bytes -> res bytes * world),
  kok k w ->
  io_spec r1 k w x1 w1 ->
  (forall a1 b1, x1 = Ok a1 -> r1 = Ok b1 ->
     io_spec (r2 b1) (ksub k (blen b1)) w1 (fst (out2 a1)) (snd (out2 a1))) ->
  io_spec (rdo b1 <- r1; rdo b2 <- r2 b1; Ok (b1 ++ b2)) k w
    (match x1 with Ok a1 => rdo a2 <- fst (out2 a1); Ok (a1 ++ a2) | Err e => Err e end)
    (match x1 with Ok a1 => snd (out2 a1) | Err _ => w1 end).
Proof.
  intros r1 r2 k w x1 w1 out2 K H1 H2.
  destruct x1 as [a1|e1].
  - destruct (io_ok _ _ _ _ _ _ H1 eq_refl) as [b1 ->].
    pose proof (io_val _ _ _ _ _ _ _ H1 eq_refl eq_refl) as V.
    specialize (H2 a1 b1 eq_refl eq_refl). destruct (out2 a1) as [x2 w2]. cbn [fst snd] in *.
    cbn [rbind]. destruct k; cbn [ksub] in *.
    + subst a1. destruct H1 as (_ & A & B & C), H2 as (-> & A' & B' & C').
      cbn. destruct (r2 b1); cbn; repeat split; congruence.
    + subst a1. destruct H1 as (A & B & D1 & F1 & N1), H2 as (A' & B' & D2).
      cbn [io_spec]. split; [congruence|]. split; [congruence|].
      destruct (r2 b1) as [b2|e2]; cbn [rbind].
      * destruct D2 as (D2 & F2 & N2). split; [|split].
        -- destruct D2 as [[e ->] | ->]; cbn; eauto.
        -- intros Fit. rewrite blen_app in Fit. cbn in K.
           pose proof (blen_nonneg b1). pose proof (blen_nonneg b2).
           destruct F1 as [_ F1]; [lia|].
           assert (LL : blen (w_buf w1) = blen (w_buf w)).
           { rewrite F1. unfold blen in *. rewrite overwrite_length; lia. }
           destruct F2 as [-> F2]; [lia|]. cbn. split; [reflexivity|].
           rewrite F2, F1. apply overwrite_app; [lia|]. unfold blen in *. lia.
        -- intros Hnc NF. rewrite blen_app in NF. specialize (N1 Hnc). specialize (N2 Hnc).
           cbn in K. pose proof (blen_nonneg b1). pose proof (blen_nonneg b2).
           destruct (Z.le_gt_cases (off + blen b1) (blen (w_buf w))) as [Q|Q].
           ++ destruct F1 as [_ F1]; [lia|].
              assert (LL : blen (w_buf w1) = blen (w_buf w)).
              { rewrite F1. unfold blen in *. rewrite overwrite_length; lia. }
              destruct N2 as [[e ->]|(-> & -> & E)]; [lia| |]; cbn; eauto.
              exfalso. unfold blen in *. cbn in *. lia.
           ++ destruct N1 as [[e N1]|(-> & _ & E)]; [lia|discriminate|].
              cbn. rewrite Z.add_0_r in *. rewrite E in *.
              destruct N2 as [[e ->]|(-> & -> & E')]; [lia| |]; cbn; [eauto|].
              right. repeat split. congruence.
      * destruct D2 as [e ->]. cbn. eauto.
    + subst a1. destruct H1 as (_ & A & D1), H2 as (-> & A' & D2).
      destruct (D1 _ eq_refl) as [D1a D1b]. cbn [io_spec].
      destruct (r2 b1) as [b2|e2]; cbn.
      * split; [reflexivity|]. split; [congruence|]. intros b E. injection E as <-.
        destruct (D2 _ eq_refl) as [-> ->]. rewrite D1a, D1b, blen_app. split; [|lia].
        now apply sput_app.
      * repeat split; try congruence.
  - destruct r1 as [b1|e].
    + cbn [rbind]. destruct k; cbn in H1.
      * destruct H1 as [H1 _]. discriminate.
      * destruct H1 as (A & B & D & F & N). cbn [io_spec]. split; [assumption|]. split; [assumption|].
        destruct (r2 b1); cbn [rbind]; [|eauto].
        split; [eauto|]. split; [|intros; eauto].
        intros Fit. rewrite blen_app in Fit. pose proof (blen_nonneg a).
        destruct F as [F _]; [lia|discriminate].
      * destruct H1 as [H1 _]. discriminate.
    + cbn [rbind]. destruct k; cbn in *.
      * assumption.
      * destruct H1 as (A & B & C). repeat split; eauto.
      * destruct H1 as (A & B & C). repeat split; try assumption. discriminate. discriminate.
Qed.

Lemma est_length : forall st vs b, est hb st vs = Ok b -> blen b = ss_size hb st.
Proof. intros st vs b H. apply st_pack_length in H. unfold blen, ss_size. now rewrite H. Qed.
Lemma eost_length : forall o vs b, eost hb o vs = Ok b -> blen b = osize hb o.
Proof.
  intros [st|] vs b H; cbn in *; [now apply est_length in H|]. injection H as <-. reflexivity.
Qed.

Definition io_only (w w' : world) : Prop := w_obj w' = w_obj w /\ w_size w' = w_size w.

Lemma put_struct_spec : forall st k vs w, kok k w ->
  io_spec (est hb st vs) k w (fst (put_struct hb st k vs w)) (snd (put_struct hb st k vs w)) /\
  io_only w (snd (put_struct hb st k vs w)).
Proof.
  intros st k vs w K. destruct k; cbn [put_struct].
  - cbn. repeat split.
  - unfold est, st_pack, st_pack_into. fold (ss_mode hb st). set (m := ss_mode hb st). set (f := s_fmt st).
    destruct (Nat.eqb (List.length vs) (nvals f)) eqn:E.
    2:{ cbn. repeat split. eauto. }
    cbn in K. unfold st_offset. destruct (off <? 0) eqn:Q; [lia|]. clear Q.
    destruct (blen (w_buf w) - off <? Z.of_nat (calcsize m f)) eqn:Q.
    + split; [|split; reflexivity]. cbn. repeat split.
      destruct (pack_u m 0 (expand f) vs) as [b [e|]] eqn:P; [eauto|].
      split; [eauto|]. split; [|eauto].
      intros Fit. apply pack_u_length in P. unfold calcsize in Q. unfold blen in *. lia.
    + destruct (pack_u m 0 (expand f) vs) as [b [e|]] eqn:P.
      * cbn. repeat split. eauto.
      * split; [|split; reflexivity]. cbn. repeat split; eauto.
        -- apply pack_u_length in P. unfold calcsize. rewrite P, Nat.sub_diag. cbn. now rewrite app_nil_r.
        -- intros _ NF. apply pack_u_length in P. unfold calcsize in Q. unfold blen in *. lia.
  - unfold bind, lift, est. destruct (st_pack _ _ _) as [b|e]; cbn.
    + repeat split; injection H as <-; cbn; reflexivity.
    + repeat split; discriminate.
Qed.
Lemma put_ostruct_spec : forall o k vs w, kok k w ->
  io_spec (eost hb o vs) k w (fst (put_ostruct hb o k vs w)) (snd (put_ostruct hb o k vs w)) /\
  io_only w (snd (put_ostruct hb o k vs w)).
Proof.
  intros [st|] k vs w K; [now apply put_struct_spec|]. cbn. split; [|split; reflexivity].
  now apply io_nil.
Qed.

Lemma emit_spec : forall k b w, (forall off, k <> KInto off) -> 
  io_spec (Ok b) k w (fst (emit k b w)) (snd (emit k b w)) /\ io_only w (snd (emit k b w)).
Proof.
  intros [|off|] b w N; cbn.
  - repeat split.
  - exfalso. eapply N. reflexivity.
  - repeat split; injection H as <-; reflexivity.
Qed.

(** ** the specification of a call *)
Definition same_obj (S : nat -> bool) (w w' : world) : Prop :=
  forall id, S id = false -> w_obj w' id = w_obj w id.
Lemma same_obj_refl : forall S w w', w_obj w' = w_obj w -> same_obj S w w'.
Proof. intros S w w' H id _. now rewrite H. Qed.
Lemma same_obj_trans : forall S w w1 w2, same_obj S w w1 -> same_obj S w1 w2 -> same_obj S w w2.
Proof. intros S w w1 w2 A B id H. rewrite B, A by assumption. reflexivity. Qed.
Lemma same_obj_weak : forall (S S' : nat -> bool) w w', (forall id, S id = true -> S' id = true) ->
  same_obj S w w' -> same_obj S' w w'.
Proof.
  intros S S' w w' H A id N. apply A. destruct (S id) eqn:E; [|reflexivity].
  rewrite (H _ E) in N. discriminate.
Qed.

Definition pspec (c : nat) (s : ser) (r : res bytes) (k : sink) (w : world) (out : res bytes * world) : Prop :=
  io_spec r k w (fst out) (snd out) /\
  same_obj (sets T c s) w (snd out) /\
  (forall a b, fst out = Ok a -> r = Ok b -> szof s (snd out) = Ok (blen b)).

(** the stored partial object is the current one *)
Definition ready (w : world) (s : ser) (ctx : pobj) : Prop :=
  match s with
  | SCompound _ subs => existsb needs_pre subs = false
  | _ => match own s with Some id => w_obj w id = Some ctx | None => True end
  end.

Definition rec_ok (rec : ser -> sink -> list value -> M bytes) (prec : ser -> pobj -> list value -> res bytes) : Prop :=
  forall c s k vs w ctx, hc ct T c s = true -> (nc = true -> nocons s = true) ->
    p_cls ctx = c -> ready w s ctx -> kok k w ->
    prec s ctx vs <> Err Unspecified ->
    pspec c s (prec s ctx vs) k w (rec s k vs w).

(** prepack *)
Lemma prep_spec : forall b s o w c, hc ct T c s = true -> p_cls o = c ->
  exists w', prep b s o w = (resolve b s o, w') /\
    w_buf w' = w_buf w /\ w_data w' = w_data w /\ w_pos w' = w_pos w /\ w_size w' = w_size w /\
    same_obj (owns s) w w' /\
    forall s', resolve b s o = Ok s' ->
      hc ct T c s' = true /\ ready w' s' o /\
      (forall id, sets T c s' id = true -> sets T c s id = true) /\ sized s' = true /\
      (nocons s = true -> nocons s' = true) /\ (forall md, hu md s = true -> hu md s' = true) /\
      own s' = own s.
Proof.
  intros b s o w c H HC.
  assert (Owns : forall id, same_obj (fun j => Nat.eqb id j) w
     (W (w_size w) (upd (w_obj w) id (Some o)) (w_buf w) (w_data w) (w_pos w))).
  { intros id j N. cbn. unfold upd. rewrite Nat.eqb_sym, N. reflexivity. }
  Local Ltac fin := split; [assumption|]; split; [reflexivity || exact I || assumption|];
    split; [auto|]; split; [reflexivity || auto|]; split; [auto|]; split; [auto|reflexivity].
  Local Ltac pre := do 4 (split; [reflexivity|]); split; [intros j _; reflexivity|].
  destruct s; cbn [prep resolve].
  all: try (eexists; split; [reflexivity|]; pre; intros s' E; injection E as <-; fin; fail).
  - (* unicode *) eexists; split; [reflexivity|]; pre; intros s' E; injection E as <-.
    split; [assumption|]; split; [exact I|]; split; [auto|]; split; [now apply leaf_sized|]; auto.
  - (* array *)
    eexists. split; [reflexivity|]. do 4 (split; [reflexivity|]). split; [apply Owns|].
    intros s' E; injection E as <-.
    split; [assumption|]; split; [cbn; unfold upd; now rewrite Nat.eqb_refl|]; split; [auto|];
      split; [reflexivity|]; auto.
  - eexists. split; [reflexivity|]. do 4 (split; [reflexivity|]). split; [apply Owns|].
    intros s' E; injection E as <-.
    split; [assumption|]; split; [cbn; unfold upd; now rewrite Nat.eqb_refl|]; split; [auto|];
      split; [cbn in H; now apply andb_prop in H as [_ H]|]; auto.
  - (* condition *)
    unfold lift. eexists. split; [reflexivity|]. pre. intros s' E.
    cbn [hc] in H. apply andb_prop in H as [H1 H2].
    assert (A : s' = s \/ s' = SSkip defaults).
    { destruct (cond o) as [v|e]; cbn in E; [|discriminate]. unfold cond_branch in E.
      destruct (key_eqb v (VBool true)); [left; congruence|].
      destruct (key_eqb v (VBool false)); [right; congruence|].
      destruct (hashable v); discriminate. }
    destruct A as [-> | ->].
    + split; [assumption|].
      split; [destruct s; cbn in *; try discriminate; exact I|]. split; [auto|].
      split; [destruct s; cbn in *; try discriminate; try reflexivity; now apply leaf_sized|].
      split; [auto|]. split; [auto|]. destruct s; cbn in *; try discriminate; reflexivity.
    + split; [reflexivity|]. split; [exact I|]. split; [discriminate|]. repeat (split; [auto|]). reflexivity.
  - eexists. split; [reflexivity|]. do 4 (split; [reflexivity|]). split; [apply Owns|].
    intros s' E; injection E as <-.
    split; [assumption|]; split; [cbn; unfold upd; now rewrite Nat.eqb_refl|]; split; [auto|];
      split; [reflexivity|]; auto.
  - eexists. split; [reflexivity|]. do 4 (split; [reflexivity|]). split; [apply Owns|].
    intros s' E; injection E as <-.
    split; [assumption|]; split; [cbn; unfold upd; now rewrite Nat.eqb_refl|]; split; [auto|];
      split; [reflexivity|]; auto.
  - (* self *)
    unfold lift. eexists. split; [reflexivity|]. pre. intros s' E.
    assert (A : s' = SStructd id c).
    { destruct (self_class b o) eqn:E'; cbn in E; [|discriminate]. injection E as <-.
      unfold self_class in E'. destruct b; [congruence|].
      destruct (assoc "cls" (p_attrs o)); [discriminate|]. destruct (p_proxy o); congruence. }
    subst s'. fin.
  - (* compound *)
    eexists. split; [reflexivity|]. pre. intros s' E.
    destruct (existsb needs_pre subs) eqn:Q; injection E as <-; [|fin].
    split; [cbn in *; rewrite HC, Nat.eqb_refl; assumption|].
    split; [exact I|]. split; [auto|]. split; [reflexivity|]. auto.
Qed.

Lemma io_kok : forall r k w x w' a b, kok k w -> io_spec r k w x w' -> x = Ok a -> r = Ok b ->
  kok (ksub k (blen b)) w'.
Proof.
  intros r k w x w' a b K H E R. pose proof (blen_nonneg b). destruct k; cbn in *.
  - exact I.
  - lia.
  - destruct H as (_ & _ & H). destruct (H _ R) as [_ ->]. lia.
Qed.
Lemma kok_world : forall k w w', kok k w -> w_pos w' = w_pos w -> kok k w'.
Proof. intros [] w w' H E; cbn in *; rewrite ?E; assumption. Qed.
Lemma ksub_ksub : forall k a b, ksub (ksub k a) b = ksub k (a + b).
Proof. intros [] a b; cbn; try reflexivity. now rewrite Z.add_assoc. Qed.

Definition any_sets (c : nat) (subs : list ser) (id : nat) : bool :=
  existsb (fun x => owns x id || sets T c x id) subs.

Section Step.
Variable rec : ser -> sink -> list value -> M bytes.
Variable prec : ser -> pobj -> list value -> res bytes.
Hypothesis REC : rec_ok rec prec.

Definition seqspec (S : nat -> bool) (r : res bytes) (k : sink) (size : Z) (w : world)
  (out : res (bytes * Z) * world) : Prop :=
  io_spec r (ksub k size) w (rmap fst (fst out)) (snd out) /\
  same_obj S w (snd out) /\
  (forall y b, fst out = Ok y -> r = Ok b -> snd y = size + blen b).

(** one piece, its size, then the rest *)
Lemma step_seq : forall (S : nat -> bool) c s ctx vs k size w w1 (rest : bytes -> Z -> M (bytes * Z)) (rr : res bytes),
  hc ct T c s = true -> (nc = true -> nocons s = true) -> p_cls ctx = c -> ready w1 s ctx ->
  kok (ksub k size) w1 ->
  (rdo b1 <- prec s ctx vs; rdo b2 <- rr; Ok (b1 ++ b2)) <> Err Unspecified ->
  w_buf w1 = w_buf w -> w_data w1 = w_data w -> w_pos w1 = w_pos w ->
  same_obj S w w1 -> (forall id, sets T c s id = true -> S id = true) ->
  (forall a1 b1 w2, prec s ctx vs = Ok b1 -> kok (ksub k (size + blen b1)) w2 -> same_obj S w w2 ->
     same_obj (sets T c s) w1 w2 ->
     rr <> Err Unspecified ->
     exists out, rest a1 (size + blen b1) w2 = (rmap (fun y => (a1 ++ fst y, snd y)) (fst out), snd out) /\
       seqspec S rr k (size + blen b1) w2 out) ->
  seqspec S (rdo b1 <- prec s ctx vs; rdo b2 <- rr; Ok (b1 ++ b2)) k size w
    ((mdo a <- rec s (ksub k size) vs; mdo z <- get_size hb s; rest a (size + z)) w1).
Proof.
  intros S c s ctx vs k size w w1 rest rr HC HN HP HR HK HU A1 A2 A3 SO SS HREST.
  unfold bind at 1. 
  assert (NU : prec s ctx vs <> Err Unspecified) by (intros E; rewrite E in HU; now apply HU).
  pose proof (REC c s (ksub k size) vs w1 ctx HC HN HP HR HK NU) as (I1 & O1 & Z1).
  destruct (rec s (ksub k size) vs w1) as [x1 w2]. cbn [fst snd] in *.
  assert (SO2 : same_obj S w w2).
  { eapply same_obj_trans; [exact SO|]. eapply same_obj_weak; [|exact O1]. assumption. }
  assert (I1' : io_spec (prec s ctx vs) (ksub k size) w x1 w2) by (eapply io_world; eauto; congruence).
  destruct x1 as [a1|e1].
  - destruct (io_ok _ _ _ _ _ _ I1 eq_refl) as [b1 R1].
    unfold bind. rewrite get_size_eq, (Z1 _ _ eq_refl R1).
    assert (NU2 : rr <> Err Unspecified).
    { intros E. rewrite R1, E in HU. now apply HU. }
    assert (K2 : kok (ksub k (size + blen b1)) w2).
    { rewrite <- ksub_ksub. eapply io_kok; [exact HK|exact I1|reflexivity|exact R1]. }
    destruct (HREST a1 b1 w2 R1 K2 SO2 O1 NU2) as ([x2 w3] & E & (I2 & O2 & Z2)).
    rewrite E. cbn [fst snd] in *.
    pose proof (io_seq (prec s ctx vs) (fun _ => rr) (ksub k size) w (Ok a1) w2
      (fun _ => (rmap fst x2, w3)) ltac:(eapply kok_world; [exact HK|congruence]) I1') as Q.
    split; [|split]; cbn [fst snd].
    + cbn in Q. destruct x2 as [y2|e2]; cbn in *; apply Q; intros ? b1' E1 E2; rewrite R1 in E2;
        injection E2 as <-; rewrite ksub_ksub; exact I2.
    + eapply same_obj_trans; eauto.
    + intros y b Ey Eb. rewrite R1 in Eb. cbn in Eb. destruct rr as [b2|]; [|discriminate].
      cbn in Eb. injection Eb as <-. destruct x2 as [y2|]; [|discriminate]. cbn in Ey. injection Ey as <-.
      cbn. rewrite (Z2 _ _ eq_refl eq_refl), blen_app. lia.
  - split; [|split]; cbn [fst snd].
    + pose proof (io_seq (prec s ctx vs) (fun _ => rr) (ksub k size) w (Err e1) w2
        (fun _ => (Err e1, w2)) ltac:(eapply kok_world; [exact HK|congruence]) I1') as Q.
      cbn in Q |- *. apply Q. discriminate.
    + assumption.
    + discriminate.
Qed.

Lemma pack_subs_spec : forall subs pre ctx vs k size w c,
  forallb (hc ct T c) subs = true -> (nc = true -> forallb nocons subs = true) ->
  p_cls (octx pre ctx) = c -> (pre = None -> existsb needs_pre subs = false) ->
  kok (ksub k size) w ->
  enc_subs prec pre ctx subs vs <> Err Unspecified ->
  seqspec (any_sets c subs) (enc_subs prec pre ctx subs vs) k size w (pack_subs hb rec pre subs k vs size w).
Proof.
  induction subs as [|s subs IH]; intros pre ctx vs k size w c HC HN HP HPre HK HU.
  - cbn. split; [|split]; cbn.
    + now apply io_nil.
    + apply same_obj_refl. reflexivity.
    + intros y b E E'. injection E as <-. injection E' as <-. unfold blen; cbn. lia.
  - cbn [forallb] in HC. apply andb_prop in HC as [HC1 HC2].
    assert (HN1 : nc = true -> nocons s = true) by (intros E; apply HN in E; cbn in E; now apply andb_prop in E).
    assert (HN2 : nc = true -> forallb nocons subs = true)
      by (intros E; apply HN in E; cbn in E; now apply andb_prop in E).
    cbn [enc_subs pack_subs] in *. 
    (* after preparing the serializer *)
    assert (MAIN : forall s' w1, hc ct T c s' = true -> (nc = true -> nocons s' = true) ->
      ready w1 s' (octx pre ctx) ->
      w_buf w1 = w_buf w -> w_data w1 = w_data w -> w_pos w1 = w_pos w ->
      same_obj (owns s) w w1 -> (forall id, sets T c s' id = true -> sets T c s id = true) ->
      (rdo b <- prec s' (octx pre ctx) (firstn (num_values s') vs);
       rdo bs <- enc_subs prec pre ctx subs (skipn (num_values s') vs); Ok (b ++ bs)) <> Err Unspecified ->
      seqspec (any_sets c (s :: subs))
        (rdo b <- prec s' (octx pre ctx) (firstn (num_values s') vs);
         rdo bs <- enc_subs prec pre ctx subs (skipn (num_values s') vs); Ok (b ++ bs)) k size w
        ((mdo b <- rec s' (ksub k size) (firstn (num_values s') vs);
          mdo z <- get_size hb s';
          mdo (bs, size') <- pack_subs hb rec pre subs k (skipn (num_values s') vs) (size + z);
          ret (b ++ bs, size')) w1)).
    { intros s' w1 C1 N1 R1 A1 A2 A3 S1 SS1 U1.
      eapply (step_seq (any_sets c (s :: subs)) c s' (octx pre ctx) _ k size w w1
         (fun b sz => mdo (bs, size') <- pack_subs hb rec pre subs k (skipn (num_values s') vs) sz;
                      ret (b ++ bs, size'))); eauto.
      - eapply kok_world; eauto.
      - eapply same_obj_weak; [|exact S1]. intros id E. unfold any_sets. cbn. rewrite E. reflexivity.
      - intros id E. unfold any_sets. cbn. rewrite (SS1 _ E), orb_true_r. reflexivity.
      - intros a1 b1 w2 E1 K2 SO2 _ NU2.
        assert (HPre2 : pre = None -> existsb needs_pre subs = false).
        { intros E. apply HPre in E. cbn in E. now apply orb_false_elim in E. }
        specialize (IH pre ctx (skipn (num_values s') vs) k (size + blen b1) w2 c HC2 HN2 HP HPre2 K2 NU2).
        exists (pack_subs hb rec pre subs k (skipn (num_values s') vs) (size + blen b1) w2).
        destruct IH as (I2 & O2 & Z2). split.
        + unfold bind. destruct (pack_subs _ _ _ _ _ _ _ _) as [[[y z]|e] w3]; reflexivity.
        + split; [assumption|]. split; [|assumption].
          eapply same_obj_weak; [|exact O2]. intros id E. unfold any_sets in *. cbn. rewrite E.
          apply orb_true_r. }
    destruct pre as [o|]; cbn [oresolve] in *.
    + destruct (prep_spec true s o w c HC1 HP) as (w1 & E & A1 & A2 & A3 & A4 & S1 & Q).
      unfold bind at 1. rewrite E.
      destruct (resolve true s o) as [s'|e]; cbn [rbind] in *.
      * destruct (Q s' eq_refl) as (Q1 & Q2 & Q3 & Q4 & Q5 & Q6). apply MAIN; auto.
      * split; [|split]; cbn.
        -- now apply io_err.
        -- eapply same_obj_weak; [|exact S1]. intros id E'. unfold any_sets. cbn. rewrite E'. reflexivity.
        -- discriminate.
    + unfold bind at 1, ret at 1. cbn [rbind] in *. apply MAIN; auto.
      * specialize (HPre eq_refl). cbn in HPre. apply orb_false_elim in HPre as [N _].
        destruct s; cbn in *; try discriminate; exact I.
      * apply same_obj_refl. reflexivity.
Qed.

Lemma pack_items_spec : forall items item ctx k size w c,
  hc ct T c item = true -> (nc = true -> nocons item = true) -> p_cls ctx = c ->
  ready w item ctx -> (forall i, own item = Some i -> sets T c item i = false) ->
  kok (ksub k size) w ->
  enc_items prec item ctx items <> Err Unspecified ->
  seqspec (sets T c item) (enc_items prec item ctx items) k size w (pack_items hb rec item k items size w).
Proof.
  induction items as [|v items IH]; intros item ctx k size w c HC HN HP HR HO HK HU.
  - cbn. split; [|split]; cbn.
    + now apply io_nil.
    + apply same_obj_refl. reflexivity.
    + intros y b E E'. injection E as <-. injection E' as <-. unfold blen; cbn. lia.
  - cbn [enc_items pack_items] in *.
    eapply (step_seq (sets T c item) c item ctx _ k size w w
         (fun b sz => mdo (bs, size') <- pack_items hb rec item k items sz; ret (b ++ bs, size'))); eauto.
    + apply same_obj_refl. reflexivity.
    + intros a1 b1 w2 E1 K2 SO2 SO3 NU2.
      assert (R2 : ready w2 item ctx).
      { destruct item; cbn in *; try assumption; rewrite SO3 by (apply HO; reflexivity); assumption. }
      specialize (IH item ctx k (size + blen b1) w2 c HC HN HP R2 HO K2 NU2).
      exists (pack_items hb rec item k items (size + blen b1) w2). split; [|assumption].
      unfold bind. destruct (pack_items _ _ _ _ _ _ _) as [[[y z]|e] w3]; reflexivity.
Qed.

Lemma resolve_szof : forall b s o s' w, resolve b s o = Ok s' -> sized s = true -> szof s w = szof s' w.
Proof.
  intros b s o s' w H Z. destruct s; cbn in H; try (injection H as <-; reflexivity); try discriminate.
  destruct (existsb needs_pre subs); injection H as <-; reflexivity.
Qed.

Lemma obj_ser_hc : forall c cd ov, ct c = Some cd -> hc ct T c (obj_ser cd ov) = true.
Proof.
  intros c cd ov E. destruct (proj1 COK _ _ E) as [H _]. destruct ov; cbn; [now apply wb_hc|assumption].
Qed.
Lemma obj_ser_nocons : forall c cd ov, ct c = Some cd -> nc = true -> nocons (obj_ser cd ov) = true.
Proof.
  intros c cd ov E N. pose proof (NC N _ _ E) as H. destruct ov; cbn; [now rewrite wb_nocons|assumption].
Qed.
Lemma obj_ser_T : forall c cd ov id, ct c = Some cd ->
  owns (obj_ser cd ov) id || sets T c (obj_ser cd ov) id = true -> T c id = true.
Proof.
  intros c cd ov id E H. apply (proj2 (proj1 COK _ _ E)).
  destruct ov; cbn in H; [now rewrite wb_owns, wb_sets in H|assumption].
Qed.

Lemma obj_step_spec : forall c ov d k w, kok k w -> enc_obj_step ct prec c ov d <> Err Unspecified ->
  io_spec (enc_obj_step ct prec c ov d) k w (fst (obj_pack_step ct rec c ov d k w))
          (snd (obj_pack_step ct rec c ov d k w)) /\
  same_obj (T c) w (snd (obj_pack_step ct rec c ov d k w)) /\
  (forall a b, csized ct c = true -> fst (obj_pack_step ct rec c ov d k w) = Ok a ->
     enc_obj_step ct prec c ov d = Ok b ->
     obj_size hb ct c ov (snd (obj_pack_step ct rec c ov d k w)) =
       (Ok (blen b), snd (obj_pack_step ct rec c ov d k w))).
Proof.
  intros c ov d k w K U. unfold enc_obj_step, obj_pack_step in *.
  destruct (ct c) as [cd|] eqn:CT.
  2:{ cbn. split; [now apply io_err|]. split; [now apply same_obj_refl|discriminate]. }
  pose proof (obj_ser_hc c cd ov CT) as HC.
  destruct (prep_spec true (obj_ser cd ov) (PO c false d) w c HC eq_refl)
    as (w1 & E & A1 & A2 & A3 & A4 & S1 & Q).
  assert (TT : forall id, owns (obj_ser cd ov) id = true -> T c id = true).
  { intros id O. eapply obj_ser_T; [exact CT|]. rewrite O. reflexivity. }
  unfold bind. rewrite E. destruct (resolve true (obj_ser cd ov) (PO c false d)) as [s'|e] eqn:RS; cbn [rbind] in *.
  2:{ cbn. split; [now apply io_err|]. split; [|discriminate]. eapply same_obj_weak; [|exact S1]. exact TT. }
  unfold lift. destruct (get_attrs (c_attrs cd) d) as [vs|e]; cbn [rbind] in *.
  2:{ cbn. split; [now apply io_err|]. split; [|discriminate]. eapply same_obj_weak; [|exact S1]. exact TT. }
  destruct (Q s' eq_refl) as (Q1 & Q2 & Q3 & Q4 & Q5 & Q6).
  assert (N' : nc = true -> nocons s' = true) by (intros N; apply Q5; eapply obj_ser_nocons; eauto).
  assert (K1 : kok k w1) by (eapply kok_world; eauto).
  pose proof (REC c s' k vs w1 (PO c false d) Q1 N' eq_refl Q2 K1 U) as (I1 & O1 & Z1).
  split; [|split].
  - eapply io_world; eauto; congruence.
  - eapply same_obj_trans.
    + eapply same_obj_weak; [|exact S1]. exact TT.
    + eapply same_obj_weak; [|exact O1]. intros id O. eapply obj_ser_T; [exact CT|].
      rewrite (Q3 _ O). apply orb_true_r.
  - intros a b CS X R. unfold obj_size. rewrite CT, get_size_eq. f_equal.
    rewrite (resolve_szof _ _ _ _ _ RS).
    + eapply Z1; eauto.
    + unfold csized in CS. rewrite CT in CS. destruct ov; cbn; [now rewrite wb_sized|assumption].
Qed.

(** putting a struct, after its size was recorded *)
Lemma put_struct_pspec : forall c s id st k vs w, kok k w ->
  (forall w0, szof s w0 = Ok (w_size w0 id)) ->
  pspec c s (est hb st vs) k w ((set_size id (ss_size hb st);; put_struct hb st k vs) w).
Proof.
  intros c s id st k vs w K HS. unfold bind, set_size.
  set (w1 := W _ _ _ _ _).
  assert (K1 : kok k w1) by (eapply kok_world; [exact K|reflexivity]).
  destruct (put_struct_spec st k vs w1 K1) as [I [O1 O2]].
  split; [|split].
  - eapply io_world; eauto.
  - intros j _. rewrite O1. reflexivity.
  - intros a b X R. rewrite HS, O2. cbn. unfold upd. rewrite Nat.eqb_refl.
    f_equal. symmetry. now apply est_length in R.
Qed.

Lemma pspec_err : forall c s e k w, pspec c s (Err e) k w (Err e, w).
Proof. intros. split; [now apply io_err|]. split; [now apply same_obj_refl|discriminate]. Qed.

Lemma set_size_szof : forall s id z w, (forall w0, szof s w0 = Ok (w_size w0 id)) ->
  szof s (snd (set_size id z w)) = Ok z.
Proof. intros s id z w H. rewrite H. cbn. unfold upd. now rewrite Nat.eqb_refl. Qed.

Ltac stp r := match goal with H : _ <> Err Unspecified |- _ => revert H end; destruct r; intros HU; cbn [rbind] in *; [|apply pspec_err].

Lemma choose_in : forall m d r s (P : ser -> bool), choose m d r = Ok s ->
  forallb (fun p => P (snd p)) m = true -> match d with Some x => P x | None => true end = true -> P s = true.
Proof.
  intros m d r s P H A B. unfold choose in H. destruct (hashable r); [|discriminate].
  destruct (map_find r m) as [x|] eqn:E.
  - injection H as <-. induction m as [|[k' y] m IH]; [discriminate|]. cbn in *.
    apply andb_prop in A as [A1 A2]. destruct (key_eqb r k'); [congruence|auto].
  - destruct d; [|discriminate]. congruence.
Qed.
Lemma choose_sets : forall m d r s (P : ser -> bool), choose m d r = Ok s -> P s = true ->
  existsb (fun p => P (snd p)) m || match d with Some x => P x | None => false end = true.
Proof.
  intros m d r s P H A. unfold choose in H. destruct (hashable r); [|discriminate].
  destruct (map_find r m) as [x|] eqn:E.
  - injection H as <-. apply orb_true_iff. left. induction m as [|[k' y] m IH]; [discriminate|]. cbn in *.
    destruct (key_eqb r k'); [injection E as ->; now rewrite A|]. now rewrite IH, orb_true_r.
  - destruct d; [|discriminate]. injection H as ->. rewrite A. apply orb_true_r.
Qed.

(** a wrapper around the serializer chosen for the current object (unions) *)
Lemma wrap_spec : forall c s id s0 ctx vs k w, p_cls ctx = c ->
  (forall w0, szof s w0 = Ok (w_size w0 id)) ->
  hc ct T c s0 = true -> (nc = true -> nocons s0 = true) ->
  (forall j, owns s0 j || sets T c s0 j = true -> sets T c s j = true) -> kok k w ->
  (rdo s' <- resolve true s0 ctx; prec s' ctx vs) <> Err Unspecified ->
  pspec c s (rdo s' <- resolve true s0 ctx; prec s' ctx vs) k w
    ((mdo s' <- prep true s0 ctx; mdo b <- rec s' k vs; mdo z <- get_size hb s'; set_size id z;; ret b) w).
Proof.
  intros c s id s0 ctx vs k w HP HS HC HN HT K U.
  destruct (prep_spec true s0 ctx w c HC HP) as (w1 & E & A1 & A2 & A3 & A4 & S1 & Q).
  unfold bind at 1. rewrite E.
  assert (S1' : same_obj (sets T c s) w w1).
  { eapply same_obj_weak; [|exact S1]. intros j O. apply HT. rewrite O. reflexivity. }
  destruct (resolve true s0 ctx) as [s'|e]; cbn [rbind] in *.
  2:{ split; [now apply io_err|]. split; [assumption|discriminate]. }
  destruct (Q s' eq_refl) as (Q1 & Q2 & Q3 & Q4 & Q5 & Q6).
  assert (K1 : kok k w1) by (eapply kok_world; eauto).
  assert (N' : nc = true -> nocons s' = true) by auto.
  destruct (REC c s' k vs w1 ctx Q1 N' HP Q2 K1 U) as (I1 & O1 & Z1).
  unfold bind. destruct (rec s' k vs w1) as [[a|e] w2]; cbn [fst snd] in *.
  - destruct (io_ok _ _ _ _ _ _ I1 eq_refl) as [b R1].
    rewrite get_size_eq, (Z1 _ _ eq_refl R1).
    split; [|split].
    + cbn. eapply io_world; eauto.
    + intros j N. cbn. rewrite <- (S1' j N). apply O1.
      destruct (sets T c s' j) eqn:X; [|reflexivity]. rewrite HT in N; [discriminate|].
      rewrite (Q3 _ X). apply orb_true_r.
    + intros a' b' X R. cbn in X. rewrite R1 in R. injection R as <-.
      change (snd (ret a (snd (set_size id (blen b) w2)))) with (snd (set_size id (blen b) w2)).
      now apply set_size_szof.
  - split; [|split; [|discriminate]].
    + eapply io_world; eauto.
    + intros j N. cbn. rewrite <- (S1' j N). apply O1.
      destruct (sets T c s' j) eqn:X; [|reflexivity]. rewrite HT in N; [discriminate|].
      rewrite (Q3 _ X). apply orb_true_r.
Qed.

Lemma arr_into_io : forall h bs hd w off w1 x2 w2 hv,
  0 <= off ->
  eost hb h hv = Ok hd ->
  (off + (blen hd + blen bs) <= blen (w_buf w) -> w_buf w1 = overwrite (w_buf w) (off + blen hd) bs) ->
  (nc = true -> blen (w_buf w) < off + blen hd + blen bs -> bs = [] /\ w_buf w1 = w_buf w) ->
  w_data w1 = w_data w -> w_pos w1 = w_pos w ->
  io_spec (Ok hd) (KInto off) w1 x2 w2 ->
  io_spec (Ok (hd ++ bs)) (KInto off) w x2 w2.
Proof.
  intros h bs hd w off w1 x2 w2 hv Ho HE HF HNF HD HPo (A & B & C & F & N).
  pose proof (blen_nonneg hd) as P1. pose proof (blen_nonneg bs) as P2.
  cbn. split; [congruence|]. split; [congruence|]. split; [assumption|]. rewrite blen_app. split.
  - intros Fit. specialize (HF Fit).
    assert (LL : blen (w_buf w1) = blen (w_buf w)).
    { rewrite HF. unfold blen in *. rewrite overwrite_length; lia. }
    destruct F as [F1 F2]; [lia|]. split; [assumption|].
    rewrite F2, HF. unfold blen. apply overwrite_app_r; [lia|]. rewrite app_length. unfold blen in *. lia.
  - intros Hnc NF. specialize (N Hnc). destruct (HNF Hnc) as [-> E]; [lia|]. rewrite E in *.
    change (blen []) with 0 in *. rewrite app_nil_r.
    destruct N as [N|(-> & X & Y)]; [lia|left; assumption|]. right. repeat split; congruence.
Qed.

Lemma pack_step_spec : rec_ok (pack_step hb ct rec) (enc_step hb ct allow prec).
Proof.
  intros c s k vs w ctx HC HN HP HR HK HU.
  destruct s; cbn [pack_step enc_step] in *.
  - (* null *) split; [now apply io_nil|]. split; [now apply same_obj_refl|].
    intros a b E R. injection R as <-. reflexivity.
  - (* struct *) destruct (put_struct_spec st k vs w HK) as [I [O1 O2]].
    split; [assumption|]. split; [now apply same_obj_refl|].
    intros a b X R. cbn. f_equal. symmetry. now apply est_length in R.
  - (* skip *) split; [now apply io_nil|]. split; [now apply same_obj_refl|].
    intros a b E R. injection R as <-. reflexivity.
  - (* dynchar *)
    unfold lift, bind at 1. stp (nth0 vs). unfold bind at 1. stp (py_len a). unfold bind at 1.
    stp (dynchar_st st (Z.of_nat a0)). now apply put_struct_pspec.
  - (* consume *)
    unfold lift, bind at 1. stp (nth0 vs). unfold bind at 1. destruct (as_bytes a) as [b|e]; [|apply pspec_err].
    unfold bind, set_size.
    set (w1 := W _ _ _ _ _).
    destruct k.
    + split; [|split].
      * cbn. repeat split.
      * now apply same_obj_refl.
      * intros x y X R. injection R as <-. cbn. unfold upd. now rewrite Nat.eqb_refl.
    + split; [|split].
      * cbn. split; [reflexivity|]. split; [reflexivity|]. split; [eauto|]. split.
        -- intros Fit. split; [reflexivity|]. apply py_splice_overwrite; unfold blen in *; cbn in HK; lia.
        -- intros N _. specialize (HN N). discriminate.
      * now apply same_obj_refl.
      * intros x y X R. injection R as <-. cbn. unfold upd. now rewrite Nat.eqb_refl.
    + destruct (emit_spec KWrite b w1 ltac:(discriminate)) as [I [O1 O2]].
      split; [|split].
      * eapply io_world; eauto.
      * now apply same_obj_refl.
      * intros x y X R. injection R as <-. cbn. unfold upd. now rewrite Nat.eqb_refl.
  - (* term *)
    unfold lift, bind at 1. stp (nth0 vs). unfold bind at 1. stp (as_bytes a).
    unfold bind, set_size. set (w1 := W _ _ _ _ _).
    destruct (ss_matmul single_char (blen (a0 ++ [t]))) as [o|e] eqn:EO; cbn [rbind] in *.
    2:{ split; [now apply io_err|]. split; [now apply same_obj_refl|discriminate]. }
    assert (K1 : kok k w1) by (eapply kok_world; [exact HK|reflexivity]).
    destruct (put_ostruct_spec o k [VBytes (a0 ++ [t])] w1 K1) as [I [O1 O2]].
    split; [|split].
    + eapply io_world; eauto.
    + intros j _. rewrite O1. reflexivity.
    + intros x y X R. unfold szof. cbn [get_size fst]. rewrite O2. cbn. unfold upd. rewrite Nat.eqb_refl. f_equal.
      destruct (matmul_single_char_size hb (blen (a0 ++ [t])) o EO ltac:(rewrite blen_app; pose proof (blen_nonneg a0); cbn; lia)) as [st [-> Hs]].
      cbn in R. apply est_length in R. congruence.
  - (* net *) 
    unfold lift, bind at 1. stp (nth0 vs). unfold bind at 1. stp (py_len a). unfold bind at 1.
    destruct (net_st (Z.of_nat a0)) as [[st mark]|e]; cbn [rbind]; [|apply pspec_err].
    destruct k.
    + now apply put_struct_pspec.
    + now apply put_struct_pspec.
    + pose proof (put_struct_pspec c (SNet id) id st KWrite [VInt mark; a] w HK ltac:(reflexivity)) as Q.
      replace ((set_size id (ss_size hb st);; mdo b <- put_struct hb st KPack [VInt mark; a]; emit KWrite b) w)
        with ((set_size id (ss_size hb st);; put_struct hb st KWrite [VInt mark; a]) w); [exact Q|].
      reflexivity.
  - (* unicode *)
    unfold lift, bind at 1. stp (nth0 vs). destruct a; try apply pspec_err.
    unfold bind at 1. revert HU; destruct (cod_enc cd s0) as [b|e]; intros HU; cbn [rbind] in *; [|apply pspec_err].
    cbn [hc] in HC.
    assert (R : ready w s ctx) by (destruct s; try discriminate; exact I).
    destruct (REC c s k [VBytes b] w ctx (leaf_hc _ _ _ _ HC) HN HP R HK HU) as (I1 & O1 & Z1).
    split; [assumption|]. split; [assumption|]. exact Z1.
  - (* static array *)
    unfold lift, bind at 1. stp (nth0 vs). unfold bind at 1. stp (py_len a).
    destruct (negb (Nat.eqb a0 count)); [apply pspec_err|].
    unfold bind at 1. stp (py_iter a). unfold bind at 1.
    revert HU; destruct (ss_mul item (Z.of_nat count)) as [o|e] eqn:EO; intros HU; cbn [rbind] in *; [|apply pspec_err].
    destruct (put_ostruct_spec o k a1 w HK) as [I [O1 O2]].
    split; [assumption|]. split; [now apply same_obj_refl|].
    intros x y X R. unfold szof. cbn. unfold lift. rewrite EO. cbn. f_equal.
    apply eost_length in R. symmetry. destruct o; exact R.
  - (* dynamic array *)
    unfold lift, bind at 1. stp (nth0 vs). unfold bind at 1. stp (py_len a). unfold bind at 1.
    stp (dynarr_st cnt item (Z.of_nat a0)).
    revert HU; destruct (py_iter a) as [items|e]; intros HU; cbn [rbind] in *.
    + pose proof (put_struct_pspec c (SDynArr id cnt item) id a1 k (VInt (Z.of_nat (ss_nvals a1) - 1) :: items) w HK
        ltac:(reflexivity)) as Q. exact Q.
    + split; [now apply io_err|]. split; [now apply same_obj_refl|discriminate].
  - (* array *)
    cbn [hc] in HC. apply andb_prop in HC as [HC1 HC2].
    cbn in HR.
    assert (GO : get_obj id w = (Ok ctx, w)) by (unfold get_obj; now rewrite HR).
    destruct (prep_spec true s ctx w c HC1 HP) as (w1 & E & A1 & A2 & A3 & A4 & S1 & Q).
    assert (S1' : same_obj (sets T c (SArray id hdr s static)) w w1).
    { eapply same_obj_weak; [|exact S1]. intros j O. cbn. rewrite O. reflexivity. }
    assert (IT : forall s' items k', resolve true s ctx = Ok s' -> kok (ksub k' (osize hb hdr)) w1 ->
       enc_items prec s' ctx items <> Err Unspecified ->
       seqspec (sets T c s') (enc_items prec s' ctx items) k' (osize hb hdr) w1
               (pack_items hb rec s' k' items (osize hb hdr) w1)).
    { intros s' items k' RS K' U'. destruct (Q s' RS) as (Q1 & Q2 & Q3 & Q4 & Q5 & Q6 & Q7).
      apply pack_items_spec; auto.
      intros i Hi. rewrite Q7 in Hi. rewrite Hi in HC2.
      destruct (sets T c s' i) eqn:X; [|reflexivity]. rewrite (Q3 _ X) in HC2. discriminate. }
    assert (ST : forall s' j, resolve true s ctx = Ok s' -> sets T c s' j = true ->
                 sets T c (SArray id hdr s static) j = true).
    { intros s' j RS X. destruct (Q s' RS) as (_ & _ & Q3 & _). cbn. rewrite (Q3 _ X). apply orb_true_r. }
    assert (KP : forall k', (forall off, k' <> KInto off) -> kok k' w ->
      pspec c (SArray id hdr s static)
       (rdo item' <- resolve true s ctx; rdo v <- nth0 vs; rdo items <- py_iter v;
        rdo bs <- enc_items prec item' ctx items; rdo l <- py_len v;
        rdo hv <- header_pack_values hdr static (Z.of_nat l) (blen bs);
        rdo hd <- eost hb hdr hv; Ok (hd ++ bs)) k' w
       ((mdo o <- get_obj id; mdo item' <- prep true s o; mdo v <- lift (nth0 vs);
         mdo items <- lift (py_iter v);
         mdo (bs, size) <- pack_items hb rec item' KPack items (osize hb hdr);
         mdo l <- lift (py_len v);
         mdo hv <- lift (header_pack_values hdr static (Z.of_nat l) (size - osize hb hdr));
         mdo hb0 <- put_ostruct hb hdr KPack hv; set_size id size;; emit k' (hb0 ++ bs)) w)).
    { intros k' NI K'. unfold bind at 1. rewrite GO. unfold bind at 1. rewrite E.
      revert HU; destruct (resolve true s ctx) as [s'|e] eqn:RS; intros HU; cbn [rbind] in *.
      2:{ split; [now apply io_err|]. split; [assumption|discriminate]. }
      unfold bind at 1, lift at 1. revert HU; destruct (nth0 vs) as [v|e]; intros HU; cbn [rbind] in *.
      2:{ split; [now apply io_err|]. split; [assumption|discriminate]. }
      unfold bind at 1, lift at 1. revert HU; destruct (py_iter v) as [items|e]; intros HU; cbn [rbind] in *.
      2:{ split; [now apply io_err|]. split; [assumption|discriminate]. }
      assert (U' : enc_items prec s' ctx items <> Err Unspecified).
      { intros X. rewrite X in HU. now apply HU. }
      destruct (IT s' items KPack eq_refl I U') as ((I1 & I2 & I3 & I4) & O1 & Z1).
      cbn [ksub] in *. unfold bind at 1.
      destruct (pack_items hb rec s' KPack items (osize hb hdr) w1) as [x2 w2]. cbn [fst snd] in *.
      assert (SO2 : same_obj (sets T c (SArray id hdr s static)) w w2).
      { eapply same_obj_trans; [exact S1'|]. eapply same_obj_weak; [|exact O1]. intros j. now apply ST. }
      revert HU; destruct (enc_items prec s' ctx items) as [bs|e] eqn:EI; intros HU; cbn [rbind] in *.
      2:{ destruct x2; [discriminate|]. cbn in I1. injection I1 as ->.
          split; [apply io_err; cbn; congruence|]. split; [assumption|discriminate]. }
      destruct x2 as [[bs' size]|]; [|discriminate]. cbn in I1. injection I1 as ->.
      specialize (Z1 _ _ eq_refl eq_refl). cbn in Z1. subst size.
      unfold bind at 1, lift at 1. revert HU; destruct (py_len v) as [l|e]; intros HU; cbn [rbind] in *.
      2:{ split; [apply io_err; cbn; congruence|]. split; [assumption|discriminate]. }
      replace (osize hb hdr + blen bs - osize hb hdr) with (blen bs) by lia.
      unfold bind at 1, lift at 1.
      revert HU; destruct (header_pack_values hdr static (Z.of_nat l) (blen bs)) as [hv|e]; intros HU; cbn [rbind] in *.
      2:{ split; [apply io_err; cbn; congruence|]. split; [assumption|discriminate]. }
      destruct (put_ostruct_spec hdr KPack hv w2 I) as [(J1 & J2 & J3 & J4) [P1 P2]].
      unfold bind at 1. destruct (put_ostruct hb hdr KPack hv w2) as [x3 w3]. cbn [fst snd] in *. subst x3.
      revert HU; destruct (eost hb hdr hv) as [hd|e] eqn:EH; intros HU; cbn [rbind] in *.
      2:{ split; [apply io_err; cbn; congruence|]. split; [|discriminate].
          intros j N. cbn. rewrite P1. now apply SO2. }
      unfold bind at 1, set_size. set (w4 := W _ _ _ _ _).
      destruct (emit_spec k' (hd ++ bs) w4 NI) as [I5 [P5 P6]].
      split; [|split].
      - eapply io_world; eauto; unfold w4; cbn; congruence.
      - intros j N. rewrite P5. unfold w4. cbn. rewrite P1. now apply SO2.
      - intros a b X R. injection R as <-. unfold szof. cbn. rewrite P6. unfold w4, upd. cbn.
        rewrite Nat.eqb_refl, blen_app. apply eost_length in EH. rewrite EH. reflexivity. }
    destruct k as [|off|]; [apply KP; [discriminate|assumption]| |apply KP; [discriminate|assumption]].
    clear KP. cbn in HK.
    assert (OS : 0 <= osize hb hdr) by (destruct hdr; cbn; unfold ss_size; lia).
    (* errors before the items *)
    unfold bind at 1, lift at 1.
    revert HU; destruct (nth0 vs) as [v|e]; intros HU; cbn [rbind] in *.
    2:{ split; [|split]; cbn [fst snd].
        - destruct (resolve true s ctx); cbn; repeat split; eauto.
        - now apply same_obj_refl.
        - discriminate. }
    unfold bind at 1. rewrite GO. unfold bind at 1. rewrite E.
    revert HU; destruct (resolve true s ctx) as [s'|e] eqn:RS; intros HU; cbn [rbind] in *.
    2:{ split; [now apply io_err|]. split; [assumption|discriminate]. }
    unfold bind at 1, lift at 1. revert HU; destruct (py_iter v) as [items|e]; intros HU; cbn [rbind] in *.
    2:{ split; [now apply io_err|]. split; [assumption|discriminate]. }
    assert (U' : enc_items prec s' ctx items <> Err Unspecified).
    { intros X. rewrite X in HU. now apply HU. }
    assert (K1 : kok (ksub (KInto off) (osize hb hdr)) w1) by (cbn; lia).
    destruct (IT s' items (KInto off) eq_refl K1 U') as (I1 & O1 & Z1). cbn [ksub] in *.
    unfold bind at 1. destruct (pack_items hb rec s' (KInto off) items (osize hb hdr) w1) as [x2 w2].
    cbn [fst snd] in *.
    assert (SO2 : same_obj (sets T c (SArray id hdr s static)) w w2).
    { eapply same_obj_trans; [exact S1'|]. eapply same_obj_weak; [|exact O1]. intros j. now apply ST. }
    destruct I1 as (D1 & D2 & I1).
    revert HU; destruct (enc_items prec s' ctx items) as [bs|e] eqn:EI; intros HU; cbn [rbind] in *.
    2:{ destruct I1 as [e' I1]. destruct x2; [discriminate|]. cbn in *.
        split; [|split; [assumption|discriminate]]. cbn. repeat split; try congruence. eauto. }
    destruct I1 as (I1 & F1 & N1).
    (* header *)
    assert (HV : forall r, 
       (rdo l <- py_len v; rdo hv <- header_pack_values hdr static (Z.of_nat l) (blen bs); eost hb hdr hv) = r ->
       forall x w3,
       x2 = Ok ([], osize hb hdr + blen bs) ->
       (mdo l <- lift (py_len v);
        mdo hv <- lift (header_pack_values hdr static (Z.of_nat l) (blen bs));
        set_size id (osize hb hdr + blen bs);; put_ostruct hb hdr (KInto off) hv) w2 = (x, w3) ->
       io_spec r (KInto off) w2 x w3 /\ w_obj w3 = w_obj w2 /\
       (forall a, x = Ok a -> w_size w3 id = osize hb hdr + blen bs)).
    { intros r <- x w3 _ RUN. unfold bind at 1, lift at 1 in RUN.
      revert HU; destruct (py_len v) as [l|e]; intros HU; cbn [rbind] in *.
      2:{ injection RUN as <- <-. split; [now apply io_err|]. split; [reflexivity|discriminate]. }
      unfold bind at 1, lift at 1 in RUN.
      revert HU; destruct (header_pack_values hdr static (Z.of_nat l) (blen bs)) as [hv|e]; intros HU; cbn [rbind] in *.
      2:{ injection RUN as <- <-. split; [now apply io_err|]. split; [reflexivity|discriminate]. }
      unfold bind, set_size in RUN. 
      match type of RUN with put_ostruct _ _ _ _ ?W = _ => set (w4 := W) in * end.
      destruct (put_ostruct_spec hdr (KInto off) hv w4 HK) as [I5 [P5 P6]].
      rewrite RUN in *. cbn [fst snd] in *.
      split; [eapply io_world; eauto|]. split; [rewrite P5; reflexivity|].
      intros _ _. rewrite P6. cbn. unfold upd. now rewrite Nat.eqb_refl. }
    replace (rdo l <- py_len v; rdo hv <- header_pack_values hdr static (Z.of_nat l) (blen bs);
             rdo hd <- eost hb hdr hv; Ok (hd ++ bs))
      with (rdo hd <- (rdo l <- py_len v; rdo hv <- header_pack_values hdr static (Z.of_nat l) (blen bs);
             eost hb hdr hv); Ok (hd ++ bs)) in *
      by (destruct (py_len v) as [l|]; cbn; [destruct (header_pack_values hdr static (Z.of_nat l) (blen bs))|];
          reflexivity).
    set (R := rdo l <- py_len v; rdo hv <- header_pack_values hdr static (Z.of_nat l) (blen bs);
             eost hb hdr hv) in *.
    assert (RL : forall hd, R = Ok hd -> blen hd = osize hb hdr /\ exists hv, eost hb hdr hv = Ok hd).
    { intros hd EH. unfold R in EH. destruct (py_len v) as [l|]; [|discriminate]. cbn in EH.
      destruct (header_pack_values hdr static (Z.of_nat l) (blen bs)) as [hv|]; [|discriminate]. cbn in EH.
      split; [now apply eost_length in EH|eauto]. }
    destruct x2 as [[bs' size]|e2].
    + cbn in I1. destruct I1 as [[e I1]|I1]; [discriminate|]. injection I1 as ->.
      specialize (Z1 _ _ eq_refl eq_refl). cbn in Z1. subst size.
      replace (osize hb hdr + blen bs - osize hb hdr) with (blen bs) by lia.
      match goal with |- pspec _ _ _ _ _ ?O => destruct O as [x w3] eqn:RUN end.
      destruct (HV R eq_refl x w3 eq_refl eq_refl) as (I5 & P5 & Z5).
      split; [|split]; cbn [fst snd].
      * destruct R as [hd|e] eqn:ER; cbn [rbind].
        -- destruct (RL hd eq_refl) as (L & hv & EH).
           eapply (arr_into_io hdr bs hd w off w2 x w3 hv); eauto.
           ++ intros Fit. rewrite <- A1. rewrite L in *. rewrite <- A1 in Fit.
              apply F1. lia.
           ++ intros Hnc NF. rewrite <- A1 in NF. rewrite L in NF.
              destruct (N1 Hnc) as [[e N1']|(N3 & _ & N2)]; [lia|discriminate|]. split; [assumption|congruence].
           ++ congruence.
           ++ congruence.
        -- destruct I5 as (B1 & B2 & e' & ->). cbn. repeat split; try congruence. eauto.
      * intros j N. rewrite P5. now apply SO2.
      * intros a b X RR. unfold szof. cbn. rewrite (Z5 _ X).
        destruct R as [hd|] eqn:ER; [|discriminate]. cbn in RR. injection RR as <-.
        destruct (RL hd eq_refl) as [L _]. rewrite blen_app, L. reflexivity.
    + split; [|split; [assumption|discriminate]]. cbn [fst snd].
      destruct R as [hd|e] eqn:ER; cbn [rbind].
      * destruct (RL hd eq_refl) as [L _]. cbn. split; [congruence|]. split; [congruence|].
        split; [eauto|]. split; [|eauto].
        intros Fit. rewrite blen_app in Fit. rewrite <- A1 in Fit. destruct F1 as [F1 _]; [lia|discriminate].
      * cbn. repeat split; try congruence. eauto.
  - (* tuple *)
    cbn [hc] in HC. apply andb_prop in HC as [HC1 HC2]. cbn in HR.
    assert (GO : get_obj id w = (Ok ctx, w)) by (unfold get_obj; now rewrite HR).
    unfold bind at 1, lift at 1. revert HU; destruct (one vs TypeError) as [v|e]; intros HU; cbn [rbind] in *; [|apply pspec_err].
    unfold bind at 1. rewrite GO.
    destruct (prep_spec true s ctx w c HC1 HP) as (w1 & E & A1 & A2 & A3 & A4 & S1 & Q).
    assert (S1' : same_obj (sets T c (STuple id s)) w w1).
    { eapply same_obj_weak; [|exact S1]. intros j O. cbn. rewrite O. reflexivity. }
    unfold bind at 1. rewrite E. revert HU; destruct (resolve true s ctx) as [s'|e] eqn:RS; intros HU; cbn [rbind] in *.
    2:{ split; [now apply io_err|]. split; [assumption|discriminate]. }
    unfold bind at 1, lift at 1. revert HU; destruct (py_iter v) as [items|e]; intros HU; cbn [rbind] in *.
    2:{ split; [now apply io_err|]. split; [assumption|discriminate]. }
    destruct (Q s' eq_refl) as (Q1 & Q2 & Q3 & Q4 & Q5 & Q6).
    assert (N' : nc = true -> nocons s' = true) by auto.
    assert (K1 : kok k w1) by (eapply kok_world; eauto).
    destruct (REC c s' k items w1 ctx Q1 N' HP Q2 K1 HU) as (I1 & O1 & Z1).
    split; [eapply io_world; eauto|]. split.
    + eapply same_obj_trans; [exact S1'|]. eapply same_obj_weak; [|exact O1]. intros j X. cbn.
      rewrite (Q3 _ X). apply orb_true_r.
    + intros a b X R. change (szof (STuple id s)) with (szof s).
      rewrite (resolve_szof _ _ _ _ _ RS HC2). eauto.
  - apply pspec_err.
  - (* lookback *)
    cbn [hc] in HC. apply andb_prop in HC as [HC1 HC2]. cbn in HR.
    assert (GO : get_obj id w = (Ok ctx, w)) by (unfold get_obj; now rewrite HR).
    unfold bind at 1. rewrite GO. unfold lift, bind at 1. revert HU; destruct (dec ctx) as [r|e]; intros HU; cbn [rbind] in *; [|apply pspec_err].
    unfold bind at 1. revert HU; destruct (choose rmap dflt r) as [s0|e] eqn:CH; intros HU; cbn [rbind] in *; [|apply pspec_err].
    eapply wrap_spec; eauto.
    + exact (choose_in _ _ _ _ _ CH HC1 HC2).
    + intros N. specialize (HN N). cbn in HN. apply andb_prop in HN as [H1 H2].
      exact (choose_in _ _ _ _ _ CH H1 H2).
    + intros j X. cbn. exact (choose_sets _ _ _ _ (fun x => owns x j || sets T c x j) CH X).
  - (* lookahead *)
    cbn [hc] in HC. apply andb_prop in HC as [HC0 HC2]. apply andb_prop in HC0 as [HC0 HC1]. cbn in HR.
    assert (GO : get_obj id w = (Ok ctx, w)) by (unfold get_obj; now rewrite HR).
    unfold bind at 1. rewrite GO. unfold lift, bind at 1. revert HU; destruct (dec ctx) as [r|e]; intros HU; cbn [rbind] in *; [|apply pspec_err].
    unfold bind at 1. revert HU; destruct (choose rmap dflt r) as [s0|e] eqn:CH; intros HU; cbn [rbind] in *; [|apply pspec_err].
    eapply wrap_spec; eauto.
    + exact (choose_in _ _ _ _ _ CH HC1 HC2).
    + intros N. specialize (HN N). cbn in HN. apply andb_prop in HN as [H1 H2].
      exact (choose_in _ _ _ _ _ CH H1 H2).
    + intros j X. cbn. exact (choose_sets _ _ _ _ (fun x => owns x j || sets T c x j) CH X).
  - (* structured *)
    unfold bind at 1, lift at 1. revert HU; destruct (one vs TypeError) as [v|e]; intros HU; cbn [rbind] in *; [|apply pspec_err].
    destruct v; try apply pspec_err.
    destruct (allow cls c0) eqn:AL; [|now elim HU].
    cbn in HC. destruct (proj2 COK _ _ AL HC) as [CS TT].
    destruct (obj_step_spec c0 ov attrs k w HK HU) as (I1 & O1 & Z1).
    unfold bind. destruct (obj_pack_step ct rec c0 ov attrs k w) as [[a|e] w2]; cbn [fst snd] in *.
    + destruct (io_ok _ _ _ _ _ _ I1 eq_refl) as [b R1]. rewrite (Z1 a b CS eq_refl R1).
      split; [|split].
      * cbn. eapply io_world; eauto.
      * cbn. intros j N. cbn. apply O1. destruct (T c0 j) eqn:X; [|reflexivity]. rewrite (TT _ X) in N. discriminate.
      * intros a' b' X R. rewrite R1 in R. injection R as <-. cbn. unfold szof; cbn. unfold upd. now rewrite Nat.eqb_refl.
    + split; [assumption|]. split; [|discriminate].
      intros j N. apply O1. cbn in N. destruct (T c0 j) eqn:X; [|reflexivity]. rewrite (TT _ X) in N. discriminate.
  - apply pspec_err.
  - (* compound *)
    cbn [hc] in HC. cbn in HR.
    assert (K0 : kok (ksub k 0) w) by (destruct k; cbn in *; lia || assumption).
    destruct (pack_subs_spec subs None ctx vs k 0 w c HC HN HP (fun _ => HR) K0 HU) as (I1 & O1 & Z1).
    assert (KK : ksub k 0 = k) by (destruct k; cbn; now rewrite ?Z.add_0_r).
    rewrite KK in I1. unfold bind.
    destruct (pack_subs hb rec None subs k vs 0 w) as [[[a z]|e] w2]; cbn [fst snd Base.rmap] in *.
    + split; [|split].
      * cbn. eapply io_world; eauto.
      * exact O1.
      * intros a' b' X R. specialize (Z1 _ _ eq_refl R). cbn in Z1. subst z. unfold szof; cbn. unfold upd.
        now rewrite Nat.eqb_refl.
    + split; [assumption|]. split; [exact O1|discriminate].
  - (* specialized compound *)
    cbn [hc] in HC. apply andb_prop in HC as [HCo HC]. apply Nat.eqb_eq in HCo.
    assert (K0 : kok (ksub k 0) w) by (destruct k; cbn in *; lia || assumption).
    destruct (pack_subs_spec subs (Some ctx0) ctx vs k 0 w c HC HN HCo ltac:(discriminate) K0 HU) as (I1 & O1 & Z1).
    assert (KK : ksub k 0 = k) by (destruct k; cbn; now rewrite ?Z.add_0_r).
    rewrite KK in I1. unfold bind.
    destruct (pack_subs hb rec (Some ctx0) subs k vs 0 w) as [[[a z]|e] w2]; cbn [fst snd Base.rmap] in *.
    + split; [|split].
      * cbn. eapply io_world; eauto.
      * exact O1.
      * intros a' b' X R. specialize (Z1 _ _ eq_refl R). cbn in Z1. subst z. unfold szof; cbn. unfold upd.
        now rewrite Nat.eqb_refl.
    + split; [assumption|]. split; [exact O1|discriminate].
Qed.
End Step.

Theorem pack_refines : forall n, rec_ok (pack hb ct n) (enc hb ct allow n).
Proof.
  induction n.
  - intros c s k vs w ctx _ _ _ _ _ _. apply pspec_err.
  - cbn [pack enc]. now apply pack_step_spec.
Qed.
End RefPack.
