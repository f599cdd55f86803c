(** Classes with the same text have the same serializers up to the identities of the objects (HintFacts.skel), and
    with them the same properties. *)
From Verif Require Import Base Floats Value StructMod Format Ser Exec Pure BaseFacts StructFacts FormatFacts
  SerFacts RefPack RefUnpack User DecFacts RoundTrip RoundTripMain Adding PropsAdd PropsFinal PropsRoundTrip Hints HintFacts
  Surface SerShape Programs ProgramFacts Accept AcceptProg.

(** ** a sum does not depend on which classes read to the end, when it exists *)
Definition nofin (_ : nat) : bool := false.
Section Less.
Variable fin : nat -> bool.
Lemma final_less : forall s, is_final fin s = false -> is_final nofin s = false.
Proof.
  induction s using ser_ind'; cbn [is_final]; auto.
  - intros E. induction H as [|p m Q F IH]; [reflexivity|]. cbn in *. apply Bool.orb_false_iff in E as [E1 E2]. now rewrite Q, IH.
  - intros E. induction H as [|p m Q F IH]; [reflexivity|]. cbn in *. apply Bool.orb_false_iff in E as [E1 E2]. now rewrite Q, IH.
  - induction H as [|x l Q F IH]; [reflexivity|]. destruct l; auto.
  - induction H as [|x l Q F IH]; [reflexivity|]. destruct l; auto.
Qed.
Lemma add2_less : forall id a b s, add2 fin id a b = Ok s -> add2 nofin id a b = Ok s.
Proof.
  intros id a b s. pose proof (final_less a) as F.
  destruct a, b; cbn [add2]; auto; destruct (is_final fin _); try discriminate; now rewrite F.
Qed.
Lemma add_impl_less : forall id cs l b s, add_impl fin id l b cs = Ok s -> add_impl nofin id l b cs = Ok s.
Proof.
  intros id. induction cs as [|c cs IH]; intros l b s E; cbn [add_impl] in *; [exact E|].
  destruct (add2 fin id l c) as [j|] eqn:A; [|discriminate]. rewrite (add2_less _ _ _ _ A). cbn [rbind] in *. destruct (is_compound j); auto.
Qed.
Lemma sadd_less : forall id a b s, sadd fin id a b = Ok s -> sadd nofin id a b = Ok s.
Proof.
  intros id a b s E. pose proof (final_less a) as F. pose proof (add2_less id a b s) as A2.
  destruct a; cbn [sadd] in *; auto;
    try (match goal with |- context [rev ?l] => destruct (rev l) end; [discriminate|]; now apply add_impl_less);
    destruct b; cbn [sadd] in *; auto; destruct (is_final fin _); try discriminate; rewrite F by reflexivity; now apply add_impl_less.
Qed.
Lemma ssum_less : forall id l s, ssum fin id l = Ok s -> ssum nofin id l = Ok s.
Proof.
  unfold ssum. intros id l. generalize SNull. induction l as [|x l IH]; intros acc s E; cbn [ssum_from] in *; [exact E|].
  destruct (sadd fin id acc x) as [j|] eqn:A; [|discriminate]. rewrite (sadd_less _ _ _ _ A). cbn [rbind] in *. auto.
Qed.
End Less.
Lemma sum_skel : forall fin fin' id id' l l' s s', ssum fin id l = Ok s -> ssum fin' id' l' = Ok s' ->
  map (skel false) l = map (skel false) l' -> skel false s = skel false s'.
Proof.
  intros fin fin' id id' l l' s s' E E' M. apply ssum_less in E. apply ssum_less in E'.
  pose proof (ssum_rel' nofin nofin false (fun _ => eq_refl) id id' l l' SNull SNull eq_refl M) as R.
  unfold ssum in *. unfold srel in R. rewrite E, E' in R. exact R.
Qed.

(** ** what is made of a hint, up to identities *)
Lemma counted_skel : forall bo c n s s', counted bo c n s -> counted bo c n s' -> s = s'.
Proof.
  intros bo c n s s' H H'. unfold counted in *. destruct (n =? 0); [congruence|].
  destruct H as ([m c1] & -> & C1 & K1 & O1), H' as ([m' c2] & -> & C2 & K2 & O2). cbn in *. subst c1 c2. do 4 f_equal.
  unfold cnt in *. cbn in *. destruct m as [m|], m' as [m'|]; auto.
  - f_equal. lia.
  - symmetry; apply O2; lia.
Qed.
Lemma char_skel : forall bo a s s', char_made bo a s -> char_made bo a s' -> skel false s = skel false s'.
Proof.
  intros bo a s s' H H'. destruct a; cbn in *.
  - destruct H as (_ & i & ->), H' as (_ & i' & ->). reflexivity.
  - now rewrite (counted_skel _ _ _ _ _ H H').
  - destruct b as [|t [|]]; try contradiction. destruct H as (i & ->), H' as (i' & ->). reflexivity.
  - destruct H as (i & ->), H' as (i' & ->). reflexivity.
  - destruct H as (i & ->), H' as (i' & ->). reflexivity.
Qed.
Lemma made_skel : forall x bo s s', made bo x s -> made bo x s' -> skel false s = skel false s'.
Proof.
  assert (L2 : forall bo l, Forall (fun x => forall bo s s', made bo x s -> made bo x s' -> skel false s = skel false s') l ->
    forall a b, all2 (made bo) l a -> all2 (made bo) l b -> map (skel false) a = map (skel false) b).
  { intros bo l F. induction F as [|x l H F IH]; intros [|p a] [|q b] A B; cbn in *; try contradiction; [reflexivity|].
    destruct A as [A1 A2], B as [B1 B2]. f_equal; eauto. }
  assert (M2 : forall m, Forall (fun p : value * hx => forall bo s s', made bo (snd p) s -> made bo (snd p) s' -> skel false s = skel false s') m ->
    forall a b : list (value * ser),
    all2 (fun p q => fst p = fst q /\ made BO_DEFAULT (snd p) (snd q)) m a -> all2 (fun p q => fst p = fst q /\ made BO_DEFAULT (snd p) (snd q)) m b ->
    map (fun p => (fst p, skel false (snd p))) a = map (fun p => (fst p, skel false (snd p))) b).
  { intros m F. induction F as [|x l H F IH]; intros [|p a] [|q b] A B; cbn in *; try contradiction; [reflexivity|].
    destruct A as [[A0 A1] A2], B as [[B0 B1] B2]. f_equal; [|now apply IH]. f_equal; [congruence|eauto]. }
  assert (D2 : forall d, (forall y, d = Some y -> forall bo s s', made bo y s -> made bo y s' -> skel false s = skel false s') ->
    forall a b : option ser, match d, a with None, None => True | Some y, Some t => made BO_DEFAULT y t | _, _ => False end ->
    match d, b with None, None => True | Some y, Some t => made BO_DEFAULT y t | _, _ => False end ->
    option_map (skel false) a = option_map (skel false) b).
  { intros [y|] H [a|] [b|] A B; try contradiction; [|reflexivity]. cbn. f_equal. eauto. }
  induction x using hx_ind'; intros bo u u' M M'; cbn [made] in M, M'.
  - destruct M as [_ ->], M' as [_ ->]. reflexivity.
  - now rewrite (counted_skel _ _ _ _ _ M M').
  - now rewrite (counted_skel _ _ _ _ _ M M').
  - eapply char_skel; eauto.
  - destruct M as (i & -> & M), M' as (i' & -> & M'). cbn. f_equal. eapply char_skel; eauto.
  - destruct M as (_ & i & M & Q), M' as (_ & i' & M' & Q'). specialize (IHx bo i i' M M'). destruct (structy x && Nat.eqb (vals x) 1).
    + destruct Q as (st & -> & Q), Q' as (st' & -> & Q'). injection IHx as <-.
      destruct n; [congruence|]. destruct Q as (? & ->), Q' as (? & ->). reflexivity.
    + destruct Q as (? & ->), Q' as (? & ->). cbn. now rewrite IHx.
  - destruct M as (f & j & j' & l1 & i & -> & S & A), M' as (f' & k & k' & l2 & i' & -> & S' & A'). cbn. f_equal.
    eapply sum_skel; [exact S|exact S'|]. eapply L2; eauto.
  - destruct M as (i & -> & M & _), M' as (i' & -> & M' & _). cbn. f_equal. eauto.
  - destruct M as (st & st0 & -> & M & A1 & A2 & _ & _ & A3), M' as (st' & st0' & -> & M' & B1 & B2 & _ & _ & B3).
    pose proof (IHx _ _ _ M M') as Q. cbn in Q. injection Q as <-. cbn. f_equal. destruct st, st'; cbn in *. congruence.
  - destruct M as (? & ms & ds & -> & A & B), M' as (? & ms' & ds' & -> & A' & B'). cbn. f_equal; eauto.
  - destruct M as (? & r & ms & ds & -> & R & A & B), M' as (? & r' & ms' & ds' & -> & R' & A' & B'). cbn. f_equal; eauto.
  - destruct M as (? & ->), M' as (? & ->). reflexivity.
  - destruct M as (? & ->), M' as (? & ->). reflexivity.
  - contradiction.
  - contradiction.
Qed.
Lemma skel_bo : forall bo s, skel false (with_bo bo s) = with_bo bo (skel false s).
Proof.
  intros bo. induction s using ser_ind'; cbn; auto; try (now rewrite IHs);
    rewrite !map_map; f_equal; apply map_ext_in; rewrite Forall_forall in H; auto.
Qed.
(** two runs that make classes of the same text make the same classes *)
Lemma rel_skel : forall sl l l', classes_rel sl l -> classes_rel sl l' ->
  forall c cd, classes l c = Some cd -> exists cd', classes l' c = Some cd' /\ skel false (c_ser cd) = skel false (c_ser cd') /\
    c_attrs cd = c_attrs cd' /\ c_bo cd = c_bo cd' /\ c_final cd = c_final cd'.
Proof.
  intros sl l l' [LEN R] [LEN' R'] c cd C. unfold classes in *. destruct (nth_error l c) as [i|] eqn:N; [|discriminate]. injection C as <-.
  assert (B : (c < List.length l)%nat) by (apply nth_error_Some; congruence).
  destruct (nth_error sl c) as [s|] eqn:NS; [|apply nth_error_None in NS; lia]. destruct (nth_error l' c) as [i'|] eqn:N'; [|apply nth_error_None in N'; lia].
  destruct (R c s i NS N) as (_ & B1 & F1 & A1 & (f & id & ss & t & S & E & M)). destruct (R' c s i' NS N') as (_ & B2 & F2 & A2 & (f' & id' & ss' & t' & S' & E' & M')).
  exists (ci_def i'). split; [reflexivity|]. split; [|repeat split; congruence]. rewrite E, E', !skel_bo. f_equal.
  eapply sum_skel; [exact S|exact S'|].
  revert M M'. generalize (map snd (fields_of (sc_anns s))). clear. intros xs. revert ss ss'.
  induction xs as [|x xs IH]; intros [|a ss] [|b ss'] M M'; cbn in *; try contradiction; [reflexivity|].
  destruct M as [M1 M2], M' as [M1' M2']. f_equal; [eapply made_skel; eauto|auto].
Qed.

(** ** properties that do not depend on identities *)
Lemma sall_skel : forall P, (forall s, P (skel false s) = P s) -> forall s, sall P (skel false s) = sall P s.
Proof.
  intros P E. assert (OPT : forall d : option ser, (forall x, d = Some x -> sall P (skel false x) = sall P x) ->
    match option_map (skel false) d with Some x => sall P x | None => true end = match d with Some x => sall P x | None => true end).
  { intros [x|] H; [|reflexivity]. cbn. auto. }
  induction s using ser_ind'; cbn [skel sall].
  all: match goal with |- ?p ?x && _ = ?p ?y && _ => change (p x) with (p (skel false y)); rewrite (E y) end; try reflexivity.
  all: try (rewrite IHs; reflexivity).
  all: f_equal; rewrite ?forallb_map; cbn [snd].
  - f_equal; [now apply forallb_ext_F|]. apply OPT. assumption.
  - rewrite IHs. f_equal; [f_equal; now apply forallb_ext_F|]. apply OPT. assumption.
  - now apply forallb_ext_F.
  - now apply forallb_ext_F.
Qed.

Lemma own_skel : forall s, match own (skel false s) with Some _ => true | None => false end = match own s with Some _ => true | None => false end.
Proof. destruct s; reflexivity. Qed.
Lemma sized_skel : forall s, sized (skel false s) = sized s.
Proof. induction s using ser_ind'; cbn; auto. Qed.
Lemma leaf_skel : forall s, leaf (skel false s) = leaf s.
Proof. induction s using ser_ind'; cbn; auto. Qed.
Lemma pre_skel : forall s, needs_pre (skel false s) = needs_pre s.
Proof. destruct s; reflexivity. Qed.
Lemma noself_skel : forall s, sall noself (skel false s) = sall noself s.
Proof. apply sall_skel. now destruct s. Qed.
Lemma refs_skel : forall k s, sall (refs k) (skel false s) = sall (refs k) s.
Proof. intros k. apply sall_skel. now destruct s. Qed.
Lemma pN_skel : forall NC c s, sall (pN NC c) (skel false s) = sall (pN NC c) s.
Proof. intros NC c. apply sall_skel. now destruct s. Qed.
Lemma pR_skel : forall md st s, sall (pR md st) (skel false s) = sall (pR md st) s.
Proof. intros md st. apply sall_skel. now destruct s. Qed.
Lemma wf1_skel : forall hb md s, sall (wf1 hb md) (skel false s) = sall (wf1 hb md) s.
Proof.
  intros hb md. apply sall_skel. intros s. destruct s; cbn [skel wf1]; try reflexivity.
  - apply leaf_skel.
  - f_equal. rewrite noself_skel. pose proof (own_skel s) as O. destruct (own (skel false s)), (own s); congruence.
  - now rewrite sized_skel, skel_compound.
  - now rewrite pre_skel.
  - rewrite leaf_skel, pR_skel. f_equal. now destruct md, s.
Qed.
Lemma tail_skel : forall NC c s, tailok NC c (skel false s) = tailok NC c s.
Proof.
  intros NC c. induction s using ser_ind'; cbn [skel tailok]; try reflexivity; auto.
  - apply pN_skel.
  - rewrite forallb_map. f_equal; [now apply forallb_ext_F|]. destruct d; cbn; auto.
  - rewrite forallb_map. f_equal; [now apply forallb_ext_F|]. destruct d; cbn; auto.
  - induction H as [|x l Q F IH]; [reflexivity|]. cbn [map]. destruct l; cbn [map] in *; [exact Q|]. rewrite pN_skel. f_equal. exact IH.
  - induction H as [|x l Q F IH]; [reflexivity|]. cbn [map]. destruct l; cbn [map] in *; [exact Q|]. rewrite pN_skel. f_equal. exact IH.
Qed.

(** ** classes that are the same up to identities *)
Definition same_classes (l l' : list cinfo) : Prop :=
  List.length l = List.length l' /\
  forall c cd, classes l c = Some cd -> exists cd', classes l' c = Some cd' /\ skel false (c_ser cd) = skel false (c_ser cd') /\
    c_attrs cd = c_attrs cd' /\ c_bo cd = c_bo cd' /\ c_final cd = c_final cd'.
Section Transfer.
Variable hb : bool.
Variable md : umode.
Variables l l' : list cinfo.
Hypothesis SAME : same_classes l l'.
Hypothesis WF' : forall c cd, classes l' c = Some cd -> sall (wf1 hb md) (c_ser cd) = true /\ sall (refs c) (c_ser cd) = true.
Lemma same_wf : forall c cd, classes l c = Some cd -> sall (wf1 hb md) (c_ser cd) = true /\ sall (refs c) (c_ser cd) = true.
Proof.
  intros c cd C. destruct (proj2 SAME c cd C) as (cd' & C' & E & _). destruct (WF' c cd' C') as [A B].
  now rewrite <- wf1_skel, <- refs_skel, E, wf1_skel, refs_skel.
Qed.
Lemma same_reads_back : forall NC, reads_back hb (classes l') md NC -> reads_back hb (classes l) md NC.
Proof.
  intros NC [_ R]. split.
  - intros c cd C. eapply wf1_hu. exact (proj1 (same_wf c cd C)).
  - intros c cd C. split; [eapply wf1_pT; exact (proj1 (same_wf c cd C))|].
    destruct (proj2 SAME c cd C) as (cd' & C' & E & _). destruct (R c cd' C') as (_ & T & N). split.
    + now rewrite <- tail_skel, E, tail_skel.
    + intros H. specialize (N H). now rewrite <- pN_skel, E, pN_skel.
Qed.
End Transfer.

(** the last step of C42_healthy, for any classes *)
Lemma wf_healthy : forall hb md l birth cbirth,
  (forall c cd, classes l c = Some cd -> sall (wf1 hb md) (c_ser cd) = true /\ sall (refs c) (c_ser cd) = true) ->
  (forall c cd, classes l c = Some cd -> sized (c_ser cd) = true) ->
  (forall c cd, classes l c = Some cd -> ordered birth cbirth (c_ser cd) = true /\ older birth cbirth (cbirth c) (c_ser cd) = true) ->
  healthy (classes l) Nat.eqb.
Proof.
  intros hb md l birth cbirth WF SZ OR. exists (by_birth birth cbirth). split.
  - intros c cd C. destruct (OR c cd C) as [O1 O2]. split.
    + eapply wf1_hc; [|exact (proj1 (WF c cd C))|exact O1]. intros d. unfold csized. destruct (classes l d) eqn:D; [|reflexivity].
      eapply SZ; exact D.
    + intros id H. apply Bool.orb_prop in H as [H|H].
      * unfold by_birth. apply Nat.ltb_lt. eapply owns_older; eauto.
      * destruct (sets_older _ _ _ _ _ _ O2 H) as [LT|[_ B]]; [unfold by_birth; now apply Nat.ltb_lt|exact B].
  - intros d c A _. apply Nat.eqb_eq in A. subst. unfold csized. destruct (classes l c) as [cd|] eqn:C; [|auto].
    split; [eapply SZ; exact C|auto].
Qed.
(** only the values of the functions matter *)
Lemma sall_ext : forall P Q, (forall s, P s = Q s) -> forall s, sall P s = sall Q s.
Proof.
  intros P Q E. assert (OPT : forall d : option ser, (forall x, d = Some x -> sall P x = sall Q x) ->
    match d with Some x => sall P x | None => true end = match d with Some x => sall Q x | None => true end).
  { intros [x|] H; [|reflexivity]. auto. }
  induction s using ser_ind'; cbn [sall]; rewrite E; f_equal; auto.
  - f_equal; [now apply forallb_ext_F|now apply OPT].
  - rewrite IHs. f_equal; [f_equal; now apply forallb_ext_F|now apply OPT].
  - now apply forallb_ext_F.
  - now apply forallb_ext_F.
Qed.
Lemma pN_ext : forall NC NC' : nat -> bool, (forall d, NC d = NC' d) -> forall c s, sall (pN NC c) s = sall (pN NC' c) s.
Proof. intros NC NC' E c. apply sall_ext. intros s. destruct s; cbn; auto. Qed.
Lemma tailok_ext : forall NC NC' : nat -> bool, (forall d, NC d = NC' d) -> forall c s, tailok NC c s = tailok NC' c s.
Proof.
  intros NC NC' E c. induction s using ser_ind'; cbn [tailok]; auto.
  - apply pN_ext. exact E.
  - f_equal; [now apply forallb_ext_F|]. destruct d; auto.
  - f_equal; [now apply forallb_ext_F|]. destruct d; auto.
  - induction H as [|x l Q F IH]; [reflexivity|]. destruct l; [exact Q|]. rewrite (pN_ext NC NC' E). f_equal. exact IH.
  - induction H as [|x l Q F IH]; [reflexivity|]. destruct l; [exact Q|]. rewrite (pN_ext NC NC' E). f_equal. exact IH.
Qed.
Lemma xfinal_ext : forall f g : nat -> bool, (forall d, f d = g d) -> forall x, xfinal f x = xfinal g x.
Proof.
  intros f g E. induction x using hx_ind'; cbn [xfinal]; auto.
  all: now apply existsb_ext_F.
Qed.
Lemma frag_ext : forall md (f g : nat -> bool), (forall d, f d = g d) -> forall x, frag md f x = frag md g x.
Proof.
  intros md f g E. assert (OPT : forall d : option hx, (forall y, d = Some y -> frag md f y = frag md g y) ->
    match d with Some y => frag md f y && negb (xfinal f y) | None => true end = match d with Some y => frag md g y && negb (xfinal g y) | None => true end).
  { intros [y|] H; [|reflexivity]. now rewrite (H y eq_refl), (xfinal_ext f g E). }
  induction x using hx_ind'; cbn [frag]; auto.
  - now rewrite IHx.
  - f_equal. destruct l as [|y []]; auto. inversion H; subst. now rewrite H2.
  - now rewrite IHx.
  - f_equal; [now apply forallb_ext_F|now apply OPT].
  - f_equal; [f_equal; now apply forallb_ext_F|now apply OPT].
Qed.

(** ** what classes that are the same up to identities do *)
Definition skcd (cd : cdef) : cdef := CD (c_attrs cd) (skel false (c_ser cd)) (c_bo cd) (c_final cd).
Lemma choose_skel : forall m d r, choose (map (fun p => (fst p, skel false (snd p))) m) (option_map (skel false) d) r = rmap (skel false) (choose m d r).
Proof.
  intros m d r. unfold choose. destruct (hashable r); [|reflexivity].
  replace (map_find r (map (fun p => (fst p, skel false (snd p))) m)) with (option_map (skel false) (map_find r m)).
  - destruct (map_find r m); [reflexivity|]. now destruct d.
  - induction m as [|[k x] m IH]; [reflexivity|]. cbn. destruct (key_eqb r k); [reflexivity|exact IH].
Qed.
Lemma resolve_skel : forall p s o, resolve p (skel false s) o = rmap (skel false) (resolve p s o).
Proof.
  intros p s o. destruct s as [ | st | vals | i st | i | i t | i | s cd | n st | i cn st | i h s z | i s | f s d | i f m d | i s f m d | i c | i | i subs | i subs o']; cbn [skel resolve]; try reflexivity.
  - destruct (f o) as [v|]; [|reflexivity]. cbn [rbind]. unfold cond_branch. destruct (key_eqb v (VBool true)); [reflexivity|].
    destruct (key_eqb v (VBool false)); [reflexivity|]. now destruct (hashable v).
  - now destruct (self_class p o).
  - rewrite existsb_map. cbn [rmap]. f_equal. replace (existsb (fun x => needs_pre (skel false x)) subs) with (existsb needs_pre subs).
    + now destruct (existsb needs_pre subs).
    + apply existsb_ext_F, Forall_forall. intros x _. symmetry. apply pre_skel.
Qed.
Lemma oresolve_skel : forall p o s, oresolve p o (skel false s) = rmap (skel false) (oresolve p o s).
Proof. intros p [o|] s; [apply resolve_skel|reflexivity]. Qed.
Section Behave.
Variable hb : bool.
Variable allow : nat -> nat -> bool.
Variables ct ct' : nat -> option cdef.
Hypothesis CT : forall c, ct' c = option_map skcd (ct c).
Section Enc.
Variables rec rec' : ser -> pobj -> list value -> res bytes.
Hypothesis REC : forall s ctx vs, rec' (skel false s) ctx vs = rec s ctx vs.
Lemma enc_items_skel : forall items s ctx, enc_items rec' (skel false s) ctx items = enc_items rec s ctx items.
Proof. induction items as [|v items IH]; intros s ctx; cbn [enc_items]; [reflexivity|]. now rewrite REC, IH. Qed.
Lemma enc_subs_skel : forall subs pre ctx vs, enc_subs rec' pre ctx (map (skel false) subs) vs = enc_subs rec pre ctx subs vs.
Proof.
  induction subs as [|s subs IH]; intros pre ctx vs; cbn [enc_subs map]; [reflexivity|]. rewrite oresolve_skel.
  destruct (oresolve true pre s) as [x|]; [|reflexivity]. cbn [rmap rbind]. now rewrite skel_num, REC, IH.
Qed.
Lemma enc_obj_skel : forall c ov d, enc_obj_step ct' rec' c ov d = enc_obj_step ct rec c ov d.
Proof.
  intros c ov d. unfold enc_obj_step. rewrite CT. destruct (ct c) as [cd|]; [|reflexivity]. cbn [option_map].
  replace (obj_ser (skcd cd) ov) with (skel false (obj_ser cd ov)) by (destruct ov; cbn; now rewrite ?skel_bo).
  rewrite resolve_skel. destruct (resolve true (obj_ser cd ov) (PO c false d)) as [x|]; [|reflexivity]. cbn [rmap rbind skcd c_attrs].
  destruct (get_attrs (c_attrs cd) d); [|reflexivity]. apply REC.
Qed.
Lemma enc_step_skel : forall s ctx vs, enc_step hb ct' allow rec' (skel false s) ctx vs = enc_step hb ct allow rec s ctx vs.
Proof.
  intros s ctx vs. destruct s as [ | st | vals | i st | i | i t | i | s cd | n st | i cn st | i h s z | i s | f s d | i f m d | i s f m d | i c | i | i subs | i subs o']; cbn [skel enc_step]; try reflexivity.
  - destruct (nth0 vs) as [v|]; [|reflexivity]. cbn [rbind]. destruct v; try reflexivity. destruct (cod_enc cd s0); [|reflexivity]. apply REC.
  - rewrite resolve_skel. destruct (resolve true s ctx) as [x|]; [|reflexivity]. cbn [rmap rbind].
    destruct (nth0 vs) as [v|]; [|reflexivity]. cbn [rbind]. destruct (py_iter v); [|reflexivity]. cbn [rbind]. now rewrite enc_items_skel.
  - destruct (one vs TypeError) as [v|]; [|reflexivity]. cbn [rbind]. rewrite resolve_skel. destruct (resolve true s ctx) as [x|]; [|reflexivity]. cbn [rmap rbind].
    destruct (py_iter v); [|reflexivity]. apply REC.
  - destruct (f ctx) as [r|]; [|reflexivity]. cbn [rbind]. rewrite choose_skel. destruct (choose m d r) as [x|]; [|reflexivity]. cbn [rmap rbind].
    rewrite resolve_skel. destruct (resolve true x ctx); [|reflexivity]. apply REC.
  - destruct (f ctx) as [r|]; [|reflexivity]. cbn [rbind]. rewrite choose_skel. destruct (choose m d r) as [x|]; [|reflexivity]. cbn [rmap rbind].
    rewrite resolve_skel. destruct (resolve true x ctx); [|reflexivity]. apply REC.
  - destruct (one vs TypeError) as [v|]; [|reflexivity]. cbn [rbind]. destruct v; try reflexivity. destruct (allow c c0); [|reflexivity]. apply enc_obj_skel.
  - apply enc_subs_skel.
  - apply enc_subs_skel.
Qed.
End Enc.
Lemma enc_skel : forall n s ctx vs, enc hb ct' allow n (skel false s) ctx vs = enc hb ct allow n s ctx vs.
Proof. induction n as [|n IH]; intros; cbn [enc]; [reflexivity|]. now apply enc_step_skel. Qed.
Lemma enc_value_skel : forall n v, enc_obj hb ct' allow n v = enc_obj hb ct allow n v.
Proof. intros n v. destruct v; try reflexivity. cbn [enc_obj]. apply enc_obj_skel. apply enc_skel. Qed.
Section Dec.
Variable md : umode.
Variables rec rec' : ser -> pobj -> bytes -> res (list value * Z).
Hypothesis REC : forall s ctx b, rec' (skel false s) ctx b = rec s ctx b.
Lemma dec_items_skel : forall k s ctx b, dec_items rec' (skel false s) ctx k b = dec_items rec s ctx k b.
Proof. induction k as [|k IH]; intros s ctx b; cbn [dec_items]; [reflexivity|]. rewrite REC. destruct (rec s ctx b) as [[vs j]|]; [|reflexivity]. cbn [rbind]. now rewrite IH. Qed.
Lemma dec_subs_skel : forall subs pre ctx b, dec_subs rec' pre ctx (map (skel false) subs) b = dec_subs rec pre ctx subs b.
Proof.
  induction subs as [|s subs IH]; intros pre ctx b; cbn [dec_subs map]; [reflexivity|]. rewrite oresolve_skel.
  destruct (oresolve false pre s) as [x|]; [|reflexivity]. cbn [rmap rbind]. rewrite REC. destruct (rec x (octx pre ctx) b) as [[vs j]|]; [|reflexivity]. cbn [rbind]. now rewrite IH.
Qed.
Lemma dfill_subs_skel : forall subs pre ctx b names d, dfill_subs rec' pre ctx (map (skel false) subs) b names d = dfill_subs rec pre ctx subs b names d.
Proof.
  induction subs as [|s subs IH]; intros pre ctx b names d; cbn [dfill_subs map]; [reflexivity|]. rewrite oresolve_skel.
  destruct (oresolve false (option_map (fun o => PO (p_cls o) (p_proxy o) d) pre) s) as [x|]; [|reflexivity]. cbn [rmap rbind]. rewrite REC.
  destruct (rec x _ b) as [[vs j]|]; [|reflexivity]. destruct (assign names vs d) as [[ns|] d']; [|reflexivity]. now rewrite IH.
Qed.
Lemma dfill_skel : forall s ctx b names d, dfill rec' (skel false s) ctx b names d = dfill rec s ctx b names d.
Proof.
  intros s ctx b names d. pose proof (REC s ctx b) as R. destruct s; cbn [skel dfill] in *; rewrite ?R, ?dfill_subs_skel; reflexivity.
Qed.
Lemma dcreate_step_skel : forall c b, dcreate_step ct' rec' c b = dcreate_step ct rec c b.
Proof.
  intros c b. unfold dcreate_step. rewrite CT. destruct (ct c) as [cd|]; [|reflexivity]. cbn [option_map skcd c_ser c_attrs].
  rewrite resolve_skel. destruct (resolve false (c_ser cd) (PO c true [])) as [x|]; [|reflexivity]. cbn [rmap rbind]. now rewrite dfill_skel.
Qed.
Lemma drefill_skel : forall c ov d b, drefill_step ct' rec' c ov d b = drefill_step ct rec c ov d b.
Proof.
  intros c ov d b. unfold drefill_step. rewrite CT. destruct (ct c) as [cd|]; [|reflexivity]. cbn [option_map].
  replace (obj_ser (skcd cd) ov) with (skel false (obj_ser cd ov)) by (destruct ov; cbn; now rewrite ?skel_bo).
  rewrite resolve_skel. destruct (resolve false (obj_ser cd ov) (PO c false d)) as [x|]; [|reflexivity]. cbn [rmap skcd c_attrs]. apply dfill_skel.
Qed.
Lemma dec_step_skel : forall s ctx b, dec_step hb ct' md rec' (skel false s) ctx b = dec_step hb ct md rec s ctx b.
Proof.
  intros s ctx b. destruct s as [ | st | vals | i st | i | i t | i | s cd | n st | i cn st | i h s z | i s | f s d | i f m d | i s f m d | i c | i | i subs | i subs o']; cbn [skel dec_step]; try reflexivity.
  - now rewrite REC.
  - destruct (dost hb h b) as [hv|]; [|reflexivity]. cbn [rbind]. destruct (header_unpack_values h z hv) as [[count ds]|]; [|reflexivity]. cbn [rbind].
    rewrite resolve_skel. destruct (resolve false s ctx) as [x|]; [|reflexivity]. cbn [rmap rbind]. now rewrite dec_items_skel.
  - rewrite resolve_skel. destruct (resolve false s ctx) as [x|]; [|reflexivity]. cbn [rmap rbind]. now rewrite REC.
  - destruct (f ctx) as [r|]; [|reflexivity]. cbn [rbind]. rewrite choose_skel. destruct (choose m d r) as [x|]; [|reflexivity]. cbn [rmap rbind].
    rewrite resolve_skel. destruct (resolve false x ctx); [|reflexivity]. apply REC.
  - rewrite REC. destruct (rec s ctx b) as [[rs j]|]; [|reflexivity]. cbn [rbind]. destruct (nth0 rs) as [r|]; [|reflexivity]. cbn [rbind].
    rewrite choose_skel. destruct (choose m d r) as [x|]; [|reflexivity]. cbn [rmap rbind].
    rewrite resolve_skel. destruct (resolve false x ctx); [|reflexivity]. apply REC.
  - now rewrite dcreate_step_skel.
  - apply dec_subs_skel.
  - apply dec_subs_skel.
Qed.
End Dec.
Lemma dec_skel : forall md n s ctx b, dec hb ct' md n (skel false s) ctx b = dec hb ct md n s ctx b.
Proof. intros md. induction n as [|n IH]; intros; cbn [dec]; [reflexivity|]. now apply dec_step_skel. Qed.
Lemma dcreate_skel : forall md n c b, dcreate hb ct' md n c b = dcreate hb ct md n c b.
Proof. intros. unfold dcreate. apply dcreate_step_skel. apply dec_skel. Qed.
End Behave.
