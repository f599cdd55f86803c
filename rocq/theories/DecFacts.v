(** Facts about the stateless decoder: it only looks at the bytes it reports as consumed. *)
From Verif Require Import Base Floats Value StructMod Format Ser Exec Pure BaseFacts StructFacts FormatFacts
  SerFacts RefPack RefUnpack.

(** [P] holds of every serializer in the tree *)
Fixpoint sall (P : ser -> bool) (s : ser) : bool :=
  P s && match s with
         | SUnicode x _ | SArray _ _ x _ | STuple _ x | SCond _ x _ => sall P x
         | SLookback _ _ m d =>
             forallb (fun p => sall P (snd p)) m && match d with Some x => sall P x | None => true end
         | SLookahead _ ra _ m d =>
             sall P ra && forallb (fun p => sall P (snd p)) m && match d with Some x => sall P x | None => true end
         | SCompound _ subs | SSpec _ subs _ => forallb (sall P) subs
         | _ => true
         end.

Lemma sall_here : forall P s, sall P s = true -> P s = true.
Proof. intros P s H. destruct s; cbn in H; now apply andb_prop in H as [H _]. Qed.
Lemma sall_weaken : forall (P Q : ser -> bool), (forall s, P s = true -> Q s = true) ->
  forall s, sall P s = true -> sall Q s = true.
Proof.
  intros P Q PQ. induction s using ser_ind'; cbn; intros E; apply andb_prop in E as [A E]; rewrite PQ by exact A; cbn;
    auto; repeat (apply andb_prop in E as [E ?]); repeat (apply andb_true_intro; split); auto;
    try (rewrite forallb_forall in *; rewrite Forall_forall in *; intros; eauto; fail);
    destruct d; auto.
Qed.

(** what [resolve] may produce keeps the predicate *)
Record stable (P : ser -> bool) (c : nat) : Prop := {
  st_skip : forall d, P (SSkip d) = true;
  st_self : forall id, P (SSelf id) = true -> P (SStructd id c) = true;
  st_comp : forall id subs o, p_cls o = c -> P (SCompound id subs) = true -> P (SSpec id subs o) = true }.

Lemma resolve_sall : forall P packing s o s', stable P (p_cls o) -> sall P s = true ->
  resolve packing s o = Ok s' -> sall P s' = true.
Proof.
  intros P packing s o s' ST H R. destruct s; cbn in R; try (injection R as <-; exact H).
  - destruct (cond o) as [v|]; [|discriminate]. cbn in R. unfold cond_branch in R.
    destruct (key_eqb v (VBool true)); [injection R as <-; now apply andb_prop in H as [_ H]|].
    destruct (key_eqb v (VBool false)); [injection R as <-; cbn; now rewrite (st_skip _ _ ST)|].
    destruct (hashable v); discriminate.
  - destruct (self_class packing o) as [c|] eqn:SC; [|discriminate]. injection R as <-.
    assert (c = p_cls o) as ->.
    { unfold self_class in SC. destruct packing; [congruence|].
      destruct (assoc _ _); [discriminate|]. destruct (p_proxy o); congruence. }
    cbn in *. rewrite andb_true_r in *. now apply (st_self _ _ ST).
  - injection R as <-. destruct (existsb needs_pre subs); [|exact H].
    cbn in *. apply andb_prop in H as [A B]. now rewrite (st_comp _ _ ST) by (reflexivity || exact A).
Qed.
Lemma choose_sall : forall P m d k s0, choose m d k = Ok s0 ->
  forallb (fun p => sall P (snd p)) m = true -> match d with Some x => sall P x | None => true end = true ->
  sall P s0 = true.
Proof.
  intros P m d k s0 C M D. unfold choose in C. destruct (hashable k); [|discriminate].
  assert (F : forall x, map_find k m = Some x -> sall P x = true).
  { clear -M. induction m as [|[k' y] m IH]; cbn in *; [discriminate|]. apply andb_prop in M as [M1 M2].
    destruct (key_eqb k k'); [intros x E; injection E as <-; exact M1|auto]. }
  destruct (map_find k m); [injection C as <-; auto|]. destruct d; [injection C as <-; exact D|discriminate].
Qed.

(** a decoder is well behaved: it consumes a non-negative number of bytes (not more than there are if
    [S]), and if it did not run over the end, then what follows those bytes is irrelevant *)
Definition wb {A} (S : Prop) (f : bytes -> res (A * Z)) : Prop :=
  forall b a k, f b = Ok (a, k) ->
    0 <= k /\ (S -> k <= blen b) /\ (forall rest, k <= blen b -> f (b ++ rest) = Ok (a, k)).

Lemma adv_app : forall k b rest, 0 <= k <= blen b -> adv k (b ++ rest) = adv k b ++ rest.
Proof.
  intros k b rest H. unfold adv. rewrite skipn_app.
  replace (Z.to_nat k - List.length b)%nat with O by (unfold blen in H; lia). reflexivity.
Qed.
Lemma firstn_app_le : forall {A} n (a b : list A), (n <= List.length a)%nat -> firstn n (a ++ b) = firstn n a.
Proof.
  intros A n a b H. rewrite firstn_app. replace (n - List.length a)%nat with O by lia.
  cbn. apply app_nil_r.
Qed.

Lemma wb_ret : forall {A} S (a : A), wb S (fun _ => Ok (a, 0)).
Proof. intros A S a b a' k H. injection H as <- <-. pose proof (blen_nonneg b). auto with zarith. Qed.
Lemma wb_err : forall {A} S e, wb (A := A) S (fun _ => Err e).
Proof. intros A S e b a k H. discriminate. Qed.
(** a fixed result, or error, not depending on the input *)
Lemma wb_const : forall {A} S (r : res A), wb S (fun _ => rmap (fun a => (a, 0)) r).
Proof. intros A S [a|e]; [apply wb_ret|apply wb_err]. Qed.
Lemma wb_bind : forall {A B C} S (f : bytes -> res (A * Z)) (g : A -> bytes -> res (B * Z)) (h : A -> B -> C),
  wb S f -> (forall a, wb S (g a)) ->
  wb S (fun b => rdo (a, k) <- f b; rdo (c, k') <- g a (adv k b); Ok (h a c, k + k')).
Proof.
  intros A B C S f g h F G b a k H.
  destruct (f b) as [[a1 k1]|] eqn:E1; [|discriminate]. cbn in H.
  destruct (g a1 (adv k1 b)) as [[c2 k2]|] eqn:E2; [|discriminate]. injection H as <- <-.
  destruct (F b a1 k1 E1) as (A1 & A2 & A3). destruct (G a1 _ _ _ E2) as (B1 & B2 & B3).
  rewrite blen_adv in B2, B3 by lia. split; [lia|]. split.
  - intros X. specialize (A2 X). specialize (B2 X). lia.
  - intros rest L. rewrite A3 by lia. cbn. rewrite adv_app by lia. rewrite B3 by lia. reflexivity.
Qed.
Lemma wb_ext : forall {A} S (f g : bytes -> res (A * Z)), (forall b, f b = g b) -> wb S f -> wb S g.
Proof. intros A S f g E F b a k H. rewrite <- E in H. destruct (F b a k H) as (X & Y & Z0). repeat split; auto.
  intros. rewrite <- E. auto. Qed.
Lemma wb_map : forall {A B} S (f : bytes -> res (A * Z)) (h : A -> res B),
  wb S f -> wb S (fun b => rdo (a, k) <- f b; rdo c <- h a; Ok (c, k)).
Proof.
  intros A B S f h F b c k H. destruct (f b) as [[a k1]|] eqn:E; [|discriminate]. cbn in H.
  destruct (h a) as [c'|] eqn:Hh; [|discriminate]. injection H as <- <-.
  destruct (F b a k1 E) as (X & Y & Z0). repeat split; auto.
  intros rest L. rewrite Z0 by exact L. cbn. rewrite Hh. reflexivity.
Qed.

Section DecFacts.
Variable hb : bool.
Variable ct : nat -> option cdef.
Variable md : umode.

Lemma ss_size_nonneg : forall st, 0 <= ss_size hb st.
Proof. intros. unfold ss_size. lia. Qed.

Lemma wb_dst : forall S st, wb S (fun b => rdo vs <- dst hb st b; Ok (vs, ss_size hb st)).
Proof.
  intros S st b a k H. destruct (dst hb st b) as [vs|] eqn:E; [|discriminate]. injection H as <- <-.
  pose proof (ss_size_nonneg st). pose proof (dst_len hb st b vs E) as L.
  split; [assumption|]. split; [auto|]. intros rest _.
  unfold dst in *. rewrite firstn_app_le, E by (unfold blen in L; lia). reflexivity.
Qed.
Lemma wb_dost : forall S o, wb S (fun b => rdo vs <- dost hb o b; Ok (vs, osize hb o)).
Proof. intros S [st|]; [apply wb_dst|]. apply wb_ret. Qed.

(** a string of [n] bytes taken without a length check *)
Lemma wb_take : forall n, 0 <= n -> wb False (fun b => Ok (firstn (Z.to_nat n) b, n)).
Proof.
  intros n N b a k H. injection H as <- <-. split; [exact N|]. split; [tauto|].
  intros rest L. rewrite firstn_app_le; [reflexivity|unfold blen in L; lia].
Qed.
Lemma wb_weak : forall {A} (S S' : Prop) (f : bytes -> res (A * Z)), (S' -> S) -> wb S f -> wb S' f.
Proof. intros A S S' f I F b a k H. destruct (F b a k H) as (X & Y & Z0). auto. Qed.

(** conditions on single nodes *)
Definition pU (x : ser) : bool := match x with SDynChar _ st => uint1 st | _ => true end.
Definition pC (x : ser) : bool := match x with SConsume _ => false | _ => true end.
Definition pS (x : ser) : bool :=
  match md, x with
  | UFrom, _ => true
  | UBuf, SDynChar _ _ => false
  | _, SNet _ => false
  | _, _ => true
  end.
Definition pR (st : bool) (x : ser) : bool := pU x && pC x && (negb st || pS x).
(** ... the value a LookaheadDecider reads ahead comes from a leaf that rejects truncated input *)
Definition pD (st : bool) (x : ser) : bool :=
  pR st x && match x with SLookahead _ ra _ _ _ => leaf ra && sall (pR true) ra | _ => true end.

Lemma pR_stable : forall st c, stable (pR st) c.
Proof. intros st c. split; intros; unfold pR, pS in *; cbn; destruct md, st; reflexivity. Qed.
Lemma pD_stable : forall st c, stable (pD st) c.
Proof. intros st c. split; intros; unfold pD, pR, pS in *; cbn; destruct md, st; reflexivity. Qed.

Section Step.
Variable prec : ser -> pobj -> bytes -> res (list value * Z).
Variable S : Prop.
Variable P : ser -> bool.
Hypothesis STAB : forall c, stable P c.
Hypothesis REC : forall x ctx, sall P x = true -> wb S (prec x ctx).
Hypothesis CLS : forall c cd, ct c = Some cd -> sall P (c_ser cd) = true.

Lemma wb_items : forall item ctx n, sall P item = true -> wb S (dec_items prec item ctx n).
Proof.
  intros item ctx n H. induction n as [|n IH]; [apply wb_ret|]. cbn [dec_items].
  apply (wb_bind S (prec item ctx) (fun _ => dec_items prec item ctx n) (fun a c => a ++ c)); auto.
Qed.
Lemma resolve_const : forall packing x o (f : ser -> bytes -> res (list value * Z)),
  sall P x = true -> (forall x', sall P x' = true -> wb S (f x')) ->
  wb S (fun b => rdo x' <- resolve packing x o; f x' b).
Proof.
  intros packing x o f H F. destruct (resolve packing x o) as [x'|] eqn:R; [|apply wb_err].
  apply F. eapply resolve_sall; eauto.
Qed.
Lemma wb_subs : forall pre ctx subs, forallb (sall P) subs = true -> wb S (dec_subs prec pre ctx subs).
Proof.
  intros pre ctx subs. induction subs as [|x subs IH]; intros H; [apply wb_ret|]. cbn [dec_subs].
  cbn in H. apply andb_prop in H as [H1 H2].
  assert (K : forall x', sall P x' = true ->
    wb S (fun b => rdo (vs, k) <- prec x' (octx pre ctx) b;
                   rdo (rest, k') <- dec_subs prec pre ctx subs (adv k b); Ok (vs ++ rest, k + k'))).
  { intros x' HX. apply (wb_bind S (prec x' _) (fun _ => dec_subs prec pre ctx subs) (fun a c => a ++ c)); auto. }
  destruct pre as [o|]; cbn [oresolve].
  - apply (resolve_const false x o (fun x' b => rdo (vs, k) <- prec x' (octx (Some o) ctx) b;
       rdo (rest, k') <- dec_subs prec (Some o) ctx subs (adv k b); Ok (vs ++ rest, k + k'))); auto.
  - cbn [rbind]. auto.
Qed.

(** filling an attribute dict, successful results only *)
Definition okfill {A} (r : res (A * Z) * list (string * value)) : res (A * list (string * value) * Z) :=
  match r with (Ok (a, k), d) => Ok (a, d, k) | (Err e, _) => Err e end.
Lemma wb_fill_subs : forall pre ctx subs names d, forallb (sall P) subs = true ->
  wb S (fun b => okfill (dfill_subs prec pre ctx subs b names d)).
Proof.
  intros pre ctx subs. induction subs as [|x subs IH]; intros names d H; [apply wb_ret|].
  cbn in H. apply andb_prop in H as [H1 H2].
  eapply wb_ext; [|eapply (wb_bind S
    (fun b => rdo x' <- oresolve false (option_map (fun o => PO (p_cls o) (p_proxy o) d) pre) x;
              prec x' (octx (option_map (fun o => PO (p_cls o) (p_proxy o) d) pre) ctx) b)
    (fun vs b => match assign names vs d with
                 | (None, _) => Err ValueError
                 | (Some names', d') => okfill (dfill_subs prec pre ctx subs b names' d')
                 end) (fun _ a => a))].
  - intros b. cbn [dfill_subs]. cbv zeta.
    destruct (oresolve false _ x) as [x'|]; [|reflexivity]. cbn [rbind].
    destruct (prec x' _ b) as [[vs k]|]; [|reflexivity]. cbn [rbind].
    destruct (assign names vs d) as [[names'|] d']; [|reflexivity].
    destruct (dfill_subs prec pre ctx subs (adv k b) names' d') as [[[nn kk]|] dd]; reflexivity.
  - destruct pre as [o|]; cbn [option_map oresolve octx].
    + eapply (resolve_const false x _ (fun x' => prec x' _)); auto.
    + cbn [rbind]. auto.
  - intros vs. destruct (assign names vs d) as [[names'|] d']; [|apply wb_err]. auto.
Qed.
Lemma wb_fill : forall x ctx names d, sall P x = true ->
  wb S (fun b => match dfill prec x ctx b names d with
                 | (Ok k, d') => Ok (d', k) | (Err e, _) => Err e end).
Proof.
  intros x ctx names d H.
  assert (FIN : forall (f : bytes -> res ((list string * list (string * value)) * Z)), wb S f ->
    wb S (fun b => rdo (p, k) <- f b; rdo d' <- match fst p with [] => Ok (snd p) | _ => Err ValueError end; Ok (d', k))).
  { intros f F. apply (wb_map S f (fun p => match fst p with [] => Ok (snd p) | _ => Err ValueError end)). exact F. }
  assert (GEN : wb S (fun b => match
      match prec x ctx b with
      | Err e => (Err e, d)
      | Ok (vs, k) =>
          match assign names vs d with
          | (None, d') => (Err ValueError, d')
          | (Some names', d') => (match names' with [] => Ok k | _ => Err ValueError end, d')
          end
      end with (Ok k, d') => Ok (d', k) | (Err e, _) => Err e end)).
  { eapply wb_ext; [|apply (wb_map S (prec x ctx) (fun vs => match assign names vs d with
                      | (Some [], d') => Ok d' | _ => Err ValueError end)); auto].
    intros b. cbn. destruct (prec x ctx b) as [[vs k]|]; [|reflexivity]. cbn.
    destruct (assign names vs d) as [[[|? ?]|] d']; reflexivity. }
  destruct x; cbn [dfill]; try exact GEN.
  - cbn in H. apply andb_prop in H as [_ H].
    eapply wb_ext; [|apply (FIN (fun b => okfill (dfill_subs prec None ctx subs b names d))); now apply wb_fill_subs].
    intros b. cbn. destruct (dfill_subs prec None ctx subs b names d) as [[[nn kk]|] dd]; [|reflexivity].
    cbn. destruct nn; reflexivity.
  - cbn in H. apply andb_prop in H as [_ H].
    eapply wb_ext; [|apply (FIN (fun b => okfill (dfill_subs prec (Some ctx0) ctx subs b names d))); now apply wb_fill_subs].
    intros b. cbn. destruct (dfill_subs prec (Some ctx0) ctx subs b names d) as [[[nn kk]|] dd]; [|reflexivity].
    cbn. destruct nn; reflexivity.
Qed.
Lemma wb_create : forall c, wb S (dcreate_step ct prec c).
Proof.
  intros c. unfold dcreate_step. destruct (ct c) as [cd|] eqn:E; [|apply wb_err].
  destruct (resolve false (c_ser cd) (PO c true [])) as [x|] eqn:R; [|apply wb_err]. cbn [rbind].
  assert (HX : sall P x = true) by (eapply resolve_sall; eauto).
  eapply wb_ext; [|apply (wb_map S _ (fun d => rmap (fun vs => VObj c None (zipw (c_attrs cd) vs))
                      (get_attrs (c_attrs cd) d)) (wb_fill x (PO c true []) (c_attrs cd) [] HX))].
  intros b. cbn. destruct (dfill prec x (PO c true []) b (c_attrs cd) []) as [[k|] d]; [|reflexivity].
  cbn. destruct (get_attrs (c_attrs cd) d); reflexivity.
Qed.
End Step.

Definition base (x : ser) : bool :=
  match x with
  | SNull | SSkip _ | SStruct _ | SDynChar _ _ | STerm _ _ | SNet _ | SStaticArr _ _ | SDynArr _ _ _ => true
  | _ => false
  end.

Lemma dst_app : forall st b rest vs, dst hb st b = Ok vs -> dst hb st (b ++ rest) = Ok vs.
Proof.
  intros st b rest vs E. pose proof (dst_len hb st b vs E) as L. pose proof (ss_size_nonneg st).
  unfold dst in *. rewrite firstn_app_le, E by (unfold blen in L; lia). reflexivity.
Qed.
Lemma dost_app : forall o b rest vs, dost hb o b = Ok vs -> dost hb o (b ++ rest) = Ok vs.
Proof. intros [st|] b rest vs E; [now apply dst_app|exact E]. Qed.
Lemma dec_net_app : forall b rest z, dec_net hb b = Ok z -> dec_net hb (b ++ rest) = Ok z.
Proof.
  intros b rest z. unfold dec_net.
  destruct (dst hb net_short b) as [cs|] eqn:D; [|discriminate]. rewrite (dst_app _ _ rest _ D). cbn [rbind].
  destruct (nth0 cs) as [cv|]; [|discriminate]. cbn [rbind].
  destruct (as_int cv) as [c0|]; [|discriminate]. cbn [rbind].
  destruct (128 <=? c0); [|auto].
  destruct (dst hb net_long b) as [cs'|] eqn:D'; [|discriminate]. rewrite (dst_app _ _ rest _ D'). auto.
Qed.
Lemma dec_net_len : forall b size count, dec_net hb b = Ok (size, count) -> size <= blen b.
Proof.
  intros b size count. unfold dec_net.
  destruct (dst hb net_short b) as [cs|] eqn:D; [|discriminate]. cbn [rbind].
  destruct (nth0 cs) as [cv|]; [|discriminate]. cbn [rbind].
  destruct (as_int cv) as [c0|]; [|discriminate]. cbn [rbind].
  destruct (128 <=? c0).
  - destruct (dst hb net_long b) as [cs'|] eqn:D'; [|discriminate]. cbn [rbind].
    destruct (nth0 cs'); [|discriminate]. cbn [rbind]. destruct (as_int a); [|discriminate]. cbn [rbind].
    destruct (net_decode a0); [|discriminate]. cbn [rbind]. intros E. injection E as <- _.
    eapply dst_len; eauto.
  - intros E. injection E as <- _. eapply dst_len; eauto.
Qed.
Lemma nstr_size : forall n, ss_size hb (SS BO_DEFAULT [Verif.StructMod.T (Some n) Cs] None) = Z.of_nat n.
Proof. clear ct md. intros. unfold ss_size, calcsize, expand. cbn. f_equal. lia. Qed.

Lemma wb_base : forall st prec x ctx, base x = true -> pR st x = true ->
  wb (st = true) (dec_step hb ct md prec x ctx).
Proof.
  intros st prec x ctx B R. destruct x; try discriminate; cbv beta iota delta [dec_step].
  - apply wb_ret.
  - apply wb_dst.
  - apply wb_ret.
  - (* DynChar *)
    unfold pR in R. apply andb_prop in R as [R RS]. apply andb_prop in R as [RU _]. cbn in RU.
    intros b a k H. destruct (dst hb st0 b) as [cs|] eqn:D; [|discriminate].
    destruct (uint1_dst hb st0 b cs RU D) as (z & -> & Z0). cbn [rbind nth0 as_int as_index] in H.
    pose proof (dst_len hb _ _ _ D) as L. pose proof (ss_size_nonneg st0) as NN.
    assert (E : forall rest, adv (ss_size hb st0) (b ++ rest) = adv (ss_size hb st0) b ++ rest)
      by (intros; apply adv_app; lia).
    assert (X : match md with UBuf => True | _ => ss_size hb st0 + z <= blen b end /\ k = ss_size hb st0 + z).
    { destruct md; [injection H as _ <-; auto| |];
      (destruct (ss_matmul single_char z) as [o|] eqn:MM; [|discriminate]; cbn [rbind] in H;
       destruct (dost hb o (adv (ss_size hb st0) b)) eqn:DO; [|discriminate]; injection H as _ <-; split; [|reflexivity];
       apply dost_len in DO; rewrite (matmul_osize hb z o Z0 MM) in DO; rewrite blen_adv in DO by assumption; lia). }
    destruct X as [X ->]. split; [lia|]. split.
    + intros ->. unfold pS in RS. cbn in RS. destruct md; [discriminate|exact X|exact X].
    + intros rest KL. rewrite (dst_app _ _ rest _ D). cbn [rbind nth0 as_int as_index]. rewrite E.
      destruct md.
      * injection H as <-. rewrite firstn_app_le; [reflexivity|].
        pose proof (blen_adv (ss_size hb st0) b NN). unfold blen in *. lia.
      * destruct (ss_matmul single_char z) as [o|]; [|discriminate]. cbn [rbind] in *.
        destruct (dost hb o (adv (ss_size hb st0) b)) eqn:DO; [|discriminate]. now rewrite (dost_app _ _ rest _ DO).
      * destruct (ss_matmul single_char z) as [o|]; [|discriminate]. cbn [rbind] in *.
        destruct (dost hb o (adv (ss_size hb st0) b)) eqn:DO; [|discriminate]. now rewrite (dost_app _ _ rest _ DO).
  - (* Term *)
    intros b a k H. destruct (byte_find t b) as [i|] eqn:F; [|discriminate]. injection H as <- <-.
    pose proof (byte_find_lt _ _ _ F). split; [lia|]. split; [unfold blen; lia|].
    intros rest _. rewrite byte_find_app, F, firstn_app_le by lia. reflexivity.
  - (* Net *)
    unfold pR in R. apply andb_prop in R as [_ RS].
    intros b a k H. destruct (dec_net hb b) as [[size count]|] eqn:D; [|discriminate]. cbn [rbind] in H.
    destruct (dec_net_nonneg hb _ _ _ D) as [N1 N2]. pose proof (dec_net_len _ _ _ D) as L.
    assert (E : forall rest, adv size (b ++ rest) = adv size b ++ rest) by (intros; apply adv_app; lia).
    assert (X : match md with UFrom => size + count <= blen b | _ => True end /\ k = size + count).
    { destruct md; [injection H as _ <-; auto| |injection H as _ <-; auto].
      destruct (dst hb _ (adv size b)) eqn:DO; [|discriminate]. injection H as _ <-. split; [|reflexivity].
      apply dst_len in DO. rewrite nstr_size, blen_adv in DO by assumption. lia. }
    destruct X as [X ->]. split; [lia|]. split.
    + intros ->. unfold pS in RS. cbn in RS. destruct md; [discriminate|exact X|discriminate].
    + intros rest KL. rewrite (dec_net_app _ rest _ D). cbn [rbind]. rewrite E.
      pose proof (blen_adv size b N1).
      destruct md.
      * injection H as <-. rewrite firstn_app_le; [reflexivity|unfold blen in *; lia].
      * destruct (dst hb _ (adv size b)) eqn:DO; [|discriminate]. now rewrite (dst_app _ _ rest _ DO).
      * injection H as <-. rewrite firstn_app_le; [reflexivity|unfold blen in *; lia].
  - (* StaticArr *)
    destruct (ss_mul item (Z.of_nat count)) as [o|]; [|apply wb_err]. cbn [rbind].
    eapply wb_ext; [|apply (wb_map _ _ (fun vs => Ok [VList vs]) (wb_dost _ o))].
    intros b. cbn. destruct (dost hb o b); reflexivity.
  - (* DynArr *)
    eapply wb_ext; [|apply (wb_bind _ (fun b => rdo cs <- dst hb cnt b; Ok (cs, ss_size hb cnt))
        (fun cs b => rdo cv <- one cs ValueError; rdo count <- as_int cv; rdo o <- ss_mul item count;
                     rdo vs <- dost hb o b; Ok (vs, osize hb o)) (fun _ vs => [VList vs]))].
    + intros b. cbn. destruct (dst hb cnt b); [|reflexivity]. cbn. destruct (one a ValueError); [|reflexivity]. cbn.
      destruct (as_int a0); [|reflexivity]. cbn. destruct (ss_mul item a1); [|reflexivity]. cbn.
      destruct (dost hb a2 _); reflexivity.
    + apply wb_dst.
    + intros cs. destruct (one cs ValueError); [|apply wb_err]. cbn. destruct (as_int a); [|apply wb_err]. cbn.
      destruct (ss_mul item a0); [|apply wb_err]. cbn. apply wb_dost.
Qed.

Lemma wb_leaf : forall st n x ctx, leaf x = true -> sall (pR st) x = true -> wb (st = true) (dec hb ct md n x ctx).
Proof.
  induction n as [|n IH]; intros x ctx L R; [apply wb_err|]. cbn [dec].
  destruct (base x) eqn:B; [apply wb_base; [exact B|now apply sall_here in R]|].
  destruct x; try discriminate; cbv beta iota delta [dec_step].
  - cbn in L, R. apply andb_prop in R as [_ R].
    eapply wb_ext; [|apply (wb_map _ (dec hb ct md n x ctx) (fun vs => rdo v <- nth0 vs; rdo y <- as_bytes v; rdo t <- cod_dec cd y;
        Ok [VStr (rstrip_nul t)]))]; [|auto].
    intros b. cbn. destruct (dec hb ct md n x ctx b) as [[vs k]|]; [|reflexivity]. cbn.
    destruct (nth0 vs); [|reflexivity]. cbn. destruct (as_bytes a); [|reflexivity]. cbn.
    destruct (cod_dec cd a0); reflexivity.
Qed.

Theorem dec_wb : forall st, (forall c cd, ct c = Some cd -> sall (pD st) (c_ser cd) = true) ->
  forall n x ctx, sall (pD st) x = true -> wb (st = true) (dec hb ct md n x ctx).
Proof.
  intros st CLS. induction n as [|n IH]; intros x ctx R; [apply wb_err|]. cbn [dec].
  pose proof (sall_here _ _ R) as RH.
  assert (RP : pR st x = true) by (unfold pD in RH; now apply andb_prop in RH as [RH _]).
  destruct (base x) eqn:B; [now apply wb_base|].
  pose proof (pD_stable st) as STAB.
  destruct x; try discriminate; cbv beta iota delta [dec_step].
  - cbn in R. apply andb_prop in R as [_ R].
    eapply wb_ext; [|apply (wb_map _ (dec hb ct md n x ctx) (fun vs => rdo v <- nth0 vs; rdo y <- as_bytes v; rdo t <- cod_dec cd y;
        Ok [VStr (rstrip_nul t)]))]; [|auto].
    intros b. cbn. destruct (dec hb ct md n x ctx b) as [[vs k]|]; [|reflexivity]. cbn.
    destruct (nth0 vs); [|reflexivity]. cbn. destruct (as_bytes a); [|reflexivity]. cbn.
    destruct (cod_dec cd a0); reflexivity.
  - (* Array *)
    cbn in R. apply andb_prop in R as [_ R].
    eapply wb_ext; [|apply (wb_bind _ (fun b => rdo vs <- dost hb hdr b; Ok (vs, osize hb hdr))
      (fun hv b => rdo (count, data_size) <- header_unpack_values hdr static hv;
                   rdo item' <- resolve false x ctx;
                   rdo (items, k) <- dec_items (dec hb ct md n) item' ctx (Z.to_nat count) b;
                   rdo y <- (rdo _ <- check_data_size data_size k; Ok items); Ok (y, k)) (fun _ items => [VList items]))].
    + intros b. cbn. destruct (dost hb hdr b); [|reflexivity]. cbn.
      destruct (header_unpack_values hdr static a) as [[c ds]|]; [|reflexivity]. cbn.
      destruct (resolve false x ctx); [|reflexivity]. cbn.
      destruct (dec_items _ a0 ctx (Z.to_nat c) _) as [[items k]|]; [|reflexivity]. cbn.
      destruct (check_data_size ds k); reflexivity.
    + apply wb_dost.
    + intros hv. destruct (header_unpack_values hdr static hv) as [[c ds]|]; [|apply wb_err]. cbn.
      apply (resolve_const (st = true) (pD st) STAB false x ctx (fun item' b => rdo (items, k) <- dec_items (dec hb ct md n) item' ctx (Z.to_nat c) b;
                   rdo y <- (rdo _ <- check_data_size ds k; Ok items); Ok (y, k)) R).
      intros x' HX. intros b items k H.
      destruct (dec_items (dec hb ct md n) x' ctx (Z.to_nat c) b) as [[it kk]|] eqn:E; [|discriminate]. cbn in H.
      destruct (check_data_size ds kk) eqn:CK; [|discriminate]. injection H as <- <-.
      destruct (wb_items (dec hb ct md n) (st = true) (pD st) IH x' ctx (Z.to_nat c) HX _ _ _ E) as (A1 & A2 & A3).
      split; [exact A1|]. split; [exact A2|]. intros rest L. rewrite A3 by exact L. cbn. rewrite CK. reflexivity.
  - (* Tuple *)
    cbn in R. apply andb_prop in R as [_ R].
    apply (resolve_const (st = true) (pD st) STAB false x ctx (fun inner' b => rdo (vs, k) <- dec hb ct md n inner' ctx b; Ok ([VTuple vs], k)) R).
    intros x' HX. eapply wb_ext; [|apply (wb_map _ _ (fun vs => Ok [VTuple vs]) (IH x' ctx HX))].
    intros b. cbn. destruct (dec hb ct md n x' ctx b) as [[vs k]|]; reflexivity.
  - (* Lookback *)
    cbn in R. apply andb_prop in R as [_ R]. apply andb_prop in R as [R1 R2].
    destruct (dec ctx); [|apply wb_err]. cbn. destruct (choose rmap dflt a) as [s0|] eqn:CH; [|apply wb_err]. cbn.
    apply (resolve_const (st = true) (pD st) STAB false s0 ctx (fun x' b => Pure.dec hb ct md n x' ctx b)); [|auto].
    eapply choose_sall; eauto.
  - (* Lookahead *)
    cbn in R. apply andb_prop in R as [R0 R]. apply andb_prop in R as [R R2]. apply andb_prop in R as [_ R1].
    unfold pD in R0. apply andb_prop in R0 as [_ R0]. apply andb_prop in R0 as [LF RR].
    intros b vs k H. destruct (Pure.dec hb ct md n x ctx b) as [[rs kr]|] eqn:E; [|discriminate]. cbn in H.
    destruct (wb_leaf true n x ctx LF RR _ _ _ E) as (A1 & A2 & A3). specialize (A2 eq_refl).
    destruct (nth0 rs) as [r|] eqn:N0; [|discriminate]. cbn in H.
    destruct (choose rmap dflt r) as [s0|] eqn:CH; [|discriminate]. cbn in H.
    destruct (resolve false s0 ctx) as [x'|] eqn:RV; [|discriminate]. cbn in H.
    assert (HX : sall (pD st) x' = true) by (eapply resolve_sall; eauto; eapply choose_sall; eauto).
    destruct (IH x' ctx HX _ _ _ H) as (B1 & B2 & B3). split; [exact B1|]. split; [exact B2|].
    intros rest L. rewrite A3 by lia. cbn. rewrite N0. cbn. rewrite CH. cbn. rewrite RV. cbn. auto.
  - (* Structd *)
    eapply wb_ext; [|apply (wb_map _ (dcreate_step ct (dec hb ct md n) cls) (fun v => Ok [v]))].
    + intros b. cbn. destruct (dcreate_step ct (dec hb ct md n) cls b) as [[v k]|]; reflexivity.
    + apply (wb_create _ _ (pD st) STAB IH CLS).
  - cbn in R. apply andb_prop in R as [_ R]. now apply (wb_subs _ _ (pD st) STAB IH).
  - cbn in R. apply andb_prop in R as [_ R]. now apply (wb_subs _ _ (pD st) STAB IH).
Qed.
Theorem dcreate_wb : forall st, (forall c cd, ct c = Some cd -> sall (pD st) (c_ser cd) = true) ->
  forall n c, wb (st = true) (dcreate hb ct md n c).
Proof.
  intros st CLS n c. unfold dcreate. apply (wb_create _ _ (pD st) (pD_stable st)); [|exact CLS].
  intros x ctx. now apply dec_wb.
Qed.
End DecFacts.
