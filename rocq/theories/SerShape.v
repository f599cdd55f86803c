(** The shape of the serializers that hint expressions make: conditions on single nodes that imply the
    hypotheses of the theorems about packing and unpacking. *)
From Verif Require Import Base Floats Value StructMod Format Ser Exec Pure BaseFacts StructFacts FormatFacts
  SerFacts RefPack RefUnpack User DecFacts RoundTrip RoundTripMain Adding PropsAdd PropsFinal.

Definition noself (x : ser) : bool := match x with SSelf _ => false | _ => true end.
(** class numbers below [k] *)
Definition refs (k : nat) (x : ser) : bool := match x with SStructd _ d => Nat.ltb d k | _ => true end.
Definition all_bo : list border := [BO_DEFAULT; BO_LE; BO_BE; BO_NSTD; BO_NNAT; BO_NET].

Section Shape.
Variable hb : bool.
Variable md : umode.

(** count and items of a dynamic array of a basic type, in every byte order *)
Definition dyn_all (c item : sspec) : bool :=
  border_eqb (s_bo c) (s_bo item) && forallb (fun bo => dynarr_ok hb (ss_with_bo bo c) (ss_with_bo bo item)) all_bo.
Definition wf1 (x : ser) : bool :=
  match x with
  | SDynChar _ st => uint1 st
  | STerm _ _ => match md with UFrom => false | _ => true end
  | SUnicode i _ => leaf i
  | SDynArr _ c item => dyn_all c item
  | SArray _ h i static => hdr_ok h static && match own i with Some _ => sall noself i | None => true end
  | STuple _ i => sized i && negb (is_compound i)
  | SCond _ i _ => negb (needs_pre i)
  | SLookahead _ ra _ _ _ => leaf ra && sall (pR md true) ra
                             && match md, ra with URead, SUnicode _ _ => false | _, _ => true end
  | SSpec _ _ _ => false
  | _ => true
  end.

Lemma with_bo_same : forall bo st, s_bo st = bo -> ss_with_bo bo st = st.
Proof. intros bo [b f a] H. cbn in H. subst. reflexivity. Qed.
Lemma dyn_all_here : forall c item, dyn_all c item = true -> dynarr_ok hb c item = true.
Proof.
  intros c item H. unfold dyn_all in H. apply andb_prop in H as [B H]. rewrite forallb_forall in H.
  specialize (H (s_bo c)). rewrite (with_bo_same (s_bo c) c eq_refl) in H.
  assert (E : s_bo item = s_bo c) by (destruct (s_bo c), (s_bo item); cbn in B; congruence).
  rewrite (with_bo_same (s_bo c) item E) in H. apply H. destruct (s_bo c); cbn; auto 7.
Qed.
Lemma dyn_all_bo : forall bo c item, dyn_all c item = true -> dyn_all (ss_with_bo bo c) (ss_with_bo bo item) = true.
Proof.
  intros bo c item H. unfold dyn_all in *. apply andb_prop in H as [_ H]. apply andb_true_intro. split.
  - destruct bo; reflexivity.
  - exact H.
Qed.
Lemma uint1_bo : forall bo st, uint1 (ss_with_bo bo st) = uint1 st. Proof. reflexivity. Qed.
Lemma hdr_ok_bo : forall bo h st, hdr_ok (option_map (ss_with_bo bo) h) st = hdr_ok h st.
Proof. intros bo [h|] st; reflexivity. Qed.
Lemma noself_bo : forall bo s, sall noself s = true -> sall noself (with_bo bo s) = true.
Proof.
  intros bo. induction s using ser_ind'; cbn; intros E; try reflexivity; try assumption; try discriminate; auto;
    (rewrite forallb_map; rewrite forallb_forall in *; rewrite Forall_forall in H; auto).
Qed.
Lemma wf1_bo : forall bo s, sall wf1 s = true -> sall wf1 (with_bo bo s) = true.
Proof.
  intros bo. induction s using ser_ind'; intros E; try exact E;
    pose proof (sall_here _ _ E) as W; cbn [wf1] in W; cbn [with_bo sall wf1]; cbn [sall] in E; apply andb_prop in E as [_ E].
  - rewrite dyn_all_bo by exact W. reflexivity.
  - apply andb_prop in W as [W1 W2]. rewrite hdr_ok_bo, W1, wb_own. rewrite IHs by exact E. rewrite Bool.andb_true_r. cbn [andb].
    destruct (own s); [|reflexivity]. now apply noself_bo.
  - rewrite wb_needs_pre, W, IHs by exact E. reflexivity.
  - cbn [andb]. rewrite forallb_map. rewrite forallb_forall in *. rewrite Forall_forall in H. auto.
  - discriminate W.
Qed.
Lemma refs_bo : forall k bo s, sall (refs k) s = true -> sall (refs k) (with_bo bo s) = true.
Proof.
  intros k bo. induction s using ser_ind'; cbn; intros E; try reflexivity; try assumption; auto;
    (rewrite forallb_map; rewrite forallb_forall in *; rewrite Forall_forall in H; auto).
Qed.
Lemma refs_mono : forall k k' s, (k <= k')%nat -> sall (refs k) s = true -> sall (refs k') s = true.
Proof.
  intros k k' s L. apply sall_weaken. intros x H. destruct x; try reflexivity. cbn in *.
  apply Nat.ltb_lt in H. apply Nat.ltb_lt. lia.
Qed.

Lemma wf1_pT : forall s, sall wf1 s = true -> sall (pT hb md) s = true.
Proof.
  apply sall_weaken. intros s H. destruct s; try reflexivity; cbn [wf1 pT] in *; try assumption.
  - now apply dyn_all_here.
  - now apply andb_prop in H as [H _].
  - apply andb_prop in H as [H _]. apply andb_prop in H as [L R]. rewrite L. cbn [andb].
    eapply sall_weaken; [|exact R]. intros x. unfold pR. cbn [negb orb]. intros X. apply andb_prop in X as [X _].
    now rewrite X.
Qed.
Lemma wf1_hu : forall s, sall wf1 s = true -> hu md s = true.
Proof.
  induction s using ser_ind'; intros E; pose proof (sall_here _ _ E) as W; cbn [wf1] in W; cbn [sall] in E;
    apply andb_prop in E as [_ E]; cbn [hu]; try reflexivity; try assumption; auto.
  - apply andb_prop in W as [_ W]. rewrite IHs by exact E. exact W.
  - apply andb_prop in E as [E1 E2]. apply andb_true_intro. split.
    + rewrite forallb_forall in *. rewrite Forall_forall in H. auto.
    + destruct d; auto.
  - apply andb_prop in E as [E E2]. apply andb_prop in E as [E0 E1].
    apply andb_prop in W as [W W3]. apply andb_prop in W as [W1 W2].
    rewrite IHs by exact E0. cbn [andb]. apply andb_true_intro. split; [apply andb_true_intro; split|].
    + destruct md; try reflexivity. destruct s; try reflexivity; try assumption.
    + rewrite forallb_forall in *. rewrite Forall_forall in H. auto.
    + destruct d; auto.
  - rewrite forallb_forall in *. rewrite Forall_forall in H. auto.
  - discriminate W.
Qed.

(** ** creation order *)
(** [birth id]: when the object [id] was created; [cbirth c]: when the class [c] was *)
Variable birth : nat -> nat.
Variable cbirth : nat -> nat.
(** the objects of [s] that store a partial object, and the classes named in it, are older than [t] *)
Fixpoint older (t : nat) (s : ser) : bool :=
  match s with
  | SUnicode x _ | SCond _ x _ => older t x
  | SArray id _ x _ | STuple id x => Nat.ltb (birth id) t && older t x
  | SLookback id _ m d | SLookahead id _ _ m d =>
      Nat.ltb (birth id) t && forallb (fun p => older t (snd p)) m && match d with Some x => older t x | None => true end
  | SStructd _ d => Nat.leb (cbirth d) t
  | SCompound _ subs | SSpec _ subs _ => forallb (older t) subs
  | _ => true
  end.
(** a container is created after what it contains *)
Fixpoint ordered (s : ser) : bool :=
  match s with
  | SUnicode x _ | SCond _ x _ => ordered x
  | SArray id _ x _ | STuple id x => older (birth id) x && ordered x
  | SLookback id _ m d | SLookahead id _ _ m d =>
      forallb (fun p => older (birth id) (snd p) && ordered (snd p)) m
      && match d with Some x => older (birth id) x && ordered x | None => true end
  | SCompound _ subs | SSpec _ subs _ => forallb ordered subs
  | _ => true
  end.
Definition by_birth (d id : nat) : bool := Nat.ltb (birth id) (cbirth d).

Lemma owns_older : forall t x id, older t x = true -> owns x id = true -> (birth id < t)%nat.
Proof.
  intros t x id O H. unfold owns in H. destruct x; cbn [own] in H; try discriminate H; cbn [older] in O;
    apply Nat.eqb_eq in H; subst; repeat (apply andb_prop in O as [O ?]); now apply Nat.ltb_lt.
Qed.
(** what running [s] may assign was created before [t], or belongs to the class itself *)
Lemma sets_older : forall t c id s, older t s = true -> sets by_birth c s id = true ->
  (birth id < t)%nat \/ (sall noself s = false /\ by_birth c id = true).
Proof.
  intros t c id. induction s using ser_ind'; cbn [older sets]; intros O S; try discriminate S.
  - cbn [sall noself andb]. auto.
  - apply andb_prop in O as [_ O]. cbn [sall noself andb]. apply Bool.orb_prop in S as [S|S]; [left; eapply owns_older; eauto|auto].
  - apply andb_prop in O as [_ O]. cbn [sall noself andb]. apply Bool.orb_prop in S as [S|S]; [left; eapply owns_older; eauto|auto].
  - cbn [sall noself andb]. auto.
  - apply andb_prop in O as [O OD]. apply andb_prop in O as [_ O]. cbn [sall noself andb].
    apply Bool.orb_prop in S as [S|S].
    + apply existsb_exists in S as (p & I & S). rewrite forallb_forall in O. rewrite Forall_forall in H.
      apply Bool.orb_prop in S as [S|S]; [left; eapply owns_older; [exact (O p I)|exact S]|].
      destruct (H p I (O p I) S) as [L|[N B]]; [now left|right]. split; [|exact B].
      apply Bool.andb_false_iff. left. destruct (forallb (fun p0 => sall noself (snd p0)) m) eqn:F; [|reflexivity].
      rewrite forallb_forall in F. rewrite (F p I) in N. discriminate.
    + destruct d as [x|]; [|discriminate]. apply Bool.orb_prop in S as [S|S]; [left; eapply owns_older; eauto|].
      destruct (H0 _ eq_refl OD S) as [L|[N B]]; [now left|right]. split; [|exact B]. rewrite N. apply Bool.andb_false_r.
  - apply andb_prop in O as [O OD]. apply andb_prop in O as [_ O]. cbn [sall noself andb].
    apply Bool.orb_prop in S as [S|S].
    + apply existsb_exists in S as (p & I & S). rewrite forallb_forall in O. rewrite Forall_forall in H.
      apply Bool.orb_prop in S as [S|S]; [left; eapply owns_older; [exact (O p I)|exact S]|].
      destruct (H p I (O p I) S) as [L|[N B]]; [now left|right]. split; [|exact B].
      apply Bool.andb_false_iff. left. apply Bool.andb_false_iff. right.
      destruct (forallb (fun p0 => sall noself (snd p0)) m) eqn:F; [|reflexivity].
      rewrite forallb_forall in F. rewrite (F p I) in N. discriminate.
    + destruct d as [x|]; [|discriminate]. apply Bool.orb_prop in S as [S|S]; [left; eapply owns_older; eauto|].
      destruct (H0 _ eq_refl OD S) as [L|[N B]]; [now left|right]. split; [|exact B]. rewrite N. apply Bool.andb_false_r.
  - left. unfold by_birth in S. apply Nat.ltb_lt in S. apply Nat.leb_le in O. lia.
  - right. split; [reflexivity|exact S].
  - cbn [sall noself andb]. apply existsb_exists in S as (x & I & S). rewrite forallb_forall in O. rewrite Forall_forall in H.
    apply Bool.orb_prop in S as [S|S]; [left; eapply owns_older; [exact (O x I)|exact S]|].
    destruct (H x I (O x I) S) as [L|[N B]]; [now left|right]. split; [|exact B].
    destruct (forallb (sall noself) l) eqn:F; [|reflexivity]. rewrite forallb_forall in F. rewrite (F x I) in N. discriminate.
  - cbn [sall noself andb]. apply existsb_exists in S as (x & I & S). rewrite forallb_forall in O. rewrite Forall_forall in H.
    apply Bool.orb_prop in S as [S|S]; [left; eapply owns_older; [exact (O x I)|exact S]|].
    destruct (H x I (O x I) S) as [L|[N B]]; [now left|right]. split; [|exact B].
    destruct (forallb (sall noself) l) eqn:F; [|reflexivity]. rewrite forallb_forall in F. rewrite (F x I) in N. discriminate.
Qed.
(** a container of an array item does not assign its own object again *)
Lemma not_reset : forall c x i, own x = Some i -> ordered x = true -> sall noself x = true -> sets by_birth c x i = false.
Proof.
  intros c x i OW OR NS. destruct (sets by_birth c x i) eqn:S; [|reflexivity]. exfalso.
  assert (P : forall y, older (birth i) y = true -> sall noself y = true -> owns y i || sets by_birth c y i = true -> False).
  { intros y O N H. apply Bool.orb_prop in H as [H|H]; [pose proof (owns_older _ _ _ O H); lia|].
    destruct (sets_older _ _ _ _ O H) as [L|[N' _]]; [lia|congruence]. }
  destruct x; cbn [own] in OW; try discriminate OW; injection OW as <-; cbn [sets] in S; cbn [ordered] in OR;
    cbn [sall noself andb] in NS.
  - apply andb_prop in OR as [O _]. exact (P _ O NS S).
  - apply andb_prop in OR as [O _]. exact (P _ O NS S).
  - apply andb_prop in OR as [OM OD]. apply andb_prop in NS as [NM ND]. apply Bool.orb_prop in S as [S|S].
    + apply existsb_exists in S as (p & I & S). rewrite forallb_forall in OM, NM.
      specialize (OM p I). apply andb_prop in OM as [O _]. exact (P _ O (NM p I) S).
    + destruct dflt as [y|]; [|discriminate]. apply andb_prop in OD as [O _]. exact (P _ O ND S).
  - apply andb_prop in OR as [OM OD]. apply andb_prop in NS as [NM ND]. apply andb_prop in NM as [_ NM].
    apply Bool.orb_prop in S as [S|S].
    + apply existsb_exists in S as (p & I & S). rewrite forallb_forall in OM, NM.
      specialize (OM p I). apply andb_prop in OM as [O _]. exact (P _ O (NM p I) S).
    + destruct dflt as [y|]; [|discriminate]. apply andb_prop in OD as [O _]. exact (P _ O ND S).
Qed.
Lemma wf1_hc : forall ct c s, (forall d, csized ct d = true) -> sall wf1 s = true -> ordered s = true ->
  hc ct by_birth c s = true.
Proof.
  intros ct c s SZ. induction s using ser_ind'; intros E O; pose proof (sall_here _ _ E) as W; cbn [wf1] in W; cbn [sall] in E;
    apply andb_prop in E as [_ E]; cbn [hc]; cbn [ordered] in O; try reflexivity; try assumption; auto.
  - apply andb_prop in O as [_ O]. rewrite IHs by assumption. apply andb_prop in W as [_ W]. cbn [andb].
    destruct (own s) as [j|] eqn:OW; [|reflexivity]. now rewrite not_reset.
  - apply andb_prop in O as [_ O]. rewrite IHs by assumption. now apply andb_prop in W as [W _].
  - rewrite IHs by assumption. exact W.
  - apply andb_prop in O as [O1 O2]. apply andb_prop in E as [E1 E2]. apply andb_true_intro. split.
    + rewrite forallb_forall in *. rewrite Forall_forall in H. intros p I. specialize (O1 p I). apply andb_prop in O1 as [_ O1]. auto.
    + destruct d; [|reflexivity]. apply andb_prop in O2 as [_ O2]. auto.
  - apply andb_prop in O as [O1 O2]. apply andb_prop in E as [E E2]. apply andb_prop in E as [_ E1].
    apply andb_prop in W as [W _]. apply andb_prop in W as [W _]. rewrite W. cbn [andb]. apply andb_true_intro. split.
    + rewrite forallb_forall in *. rewrite Forall_forall in H. intros p I. specialize (O1 p I). apply andb_prop in O1 as [_ O1]. auto.
    + destruct d; [|reflexivity]. apply andb_prop in O2 as [_ O2]. auto.
  - rewrite forallb_forall in *. rewrite Forall_forall in H. auto.
  - discriminate W.
Qed.
End Shape.

(** ** read-to-end fields come last *)
Section Tail.
Variables (md : umode) (fin : nat -> bool) (c : nat).
Let NC (d : nat) : bool := negb (fin d).
Definition ends (x : ser) : Prop := tailok NC c x = true /\ (is_final fin x = false -> sall (pN NC c) x = true).

Lemma pF_pN : forall x, sall (pF md NC c) x = true -> sall (pN NC c) x = true.
Proof.
  apply sall_weaken. intros x H. unfold pF in H. apply andb_prop in H as [_ H]. destruct x; try reflexivity; exact H.
Qed.
Lemma add2_ends : forall id a x j, ends a -> ends x -> is_compound a = false -> is_compound x = false ->
  add2 fin id a x = Ok j ->
  (is_compound j = true -> sall (pN NC c) a = true) /\ (is_compound j = false -> ends j).
Proof.
  intros id a x j A X CA CX E.
  assert (ST : forall st, ends (SStruct st)) by (intros; split; reflexivity).
  assert (GEN : (if is_final fin a then Err TypeError else Ok (SCompound id [a; x])) = Ok j ->
     (is_compound j = true -> sall (pN NC c) a = true) /\ (is_compound j = false -> ends j)).
  { intros Q. destruct (is_final fin a) eqn:F; [discriminate|]. injection Q as <-. split; [intros _; now apply A|discriminate]. }
  destruct a; try discriminate CA; destruct x; try discriminate CX; cbn [add2] in E;
    try (injection E as <-; split; [discriminate|auto]; fail); try (exact (GEN E)).
  unfold Base.rmap in E. destruct (ss_add st st0); [|discriminate]. injection E as <-. split; [discriminate|auto].
Qed.
Lemma tails_snoc : forall l x, forallb (sall (pN NC c)) l = true -> tailok NC c x = true -> tails NC c (l ++ [x]) = true.
Proof.
  induction l as [|y l IH]; intros x F T; [exact T|]. cbn in F. apply andb_prop in F as [F1 F2].
  specialize (IH x F2 T). cbn [app]. unfold tails in *. destruct (l ++ [x]) eqn:E; [destruct l; discriminate|].
  rewrite F1. exact IH.
Qed.
Lemma add_impl_ends : forall id cands last before s, ends last -> is_compound last = false ->
  forallb (sall (pN NC c)) before = true -> Forall (fun x => ends x /\ is_compound x = false) cands ->
  add_impl fin id last before cands = Ok s ->
  exists p x, s = SCompound id (p ++ [x]) /\ forallb (sall (pN NC c)) p = true /\ ends x /\ is_compound x = false.
Proof.
  induction cands as [|y cands IH]; intros last before s L CL B C E; cbn [add_impl] in E.
  - injection E as <-. exists (rev before), last. repeat split; try assumption; try apply L.
    rewrite forallb_forall in *. intros z I. rewrite <- in_rev in I. auto.
  - inversion C as [|? ? [Y CY] CS]; subst. destruct (add2 fin id last y) as [j|] eqn:Q; [|discriminate].
    cbn [rbind] in E. destruct (add2_ends _ _ _ _ L Y CL CY Q) as [J1 J2]. destruct (is_compound j) eqn:CJ.
    + eapply (IH y (last :: before)); eauto. cbn. now rewrite J1.
    + eapply (IH j before); eauto.
Qed.
Definition ends_sum (s : ser) : Prop :=
  match s with
  | SCompound _ l => exists p x, l = p ++ [x] /\ forallb (sall (pN NC c)) p = true /\ ends x /\ is_compound x = false
  | SSpec _ _ _ => False
  | _ => ends s
  end.
Lemma ends_sum_ends : forall s, ends_sum s -> ends s.
Proof.
  intros s H. destruct s; try exact H; [|contradiction]. destruct H as (p & x & -> & F & X & _). split.
  - exact (tails_snoc p x F (proj1 X)).
  - cbn [is_final]. rewrite final_last. intros FX. cbn [sall]. cbn [pN andb]. rewrite forallb_app, F. cbn. now rewrite (proj2 X FX).
Qed.
Lemma ssum_ends : forall id l s, Forall (fun x => ends x /\ is_compound x = false) l -> ssum fin id l = Ok s -> ends_sum s.
Proof.
  intros id l s F E. unfold ssum in E. assert (A : ends_sum SNull) by (split; reflexivity).
  revert A E. generalize SNull. induction F as [|x l [X CX] F IH]; intros acc A E; cbn [ssum_from] in E; [injection E as <-; exact A|].
  destruct (sadd fin id acc x) as [a|] eqn:Q; [|discriminate]. cbn [rbind] in E. eapply IH; [|exact E]. clear IH E.
  assert (BX : match x with SCompound _ bs | SSpec _ bs _ => bs | _ => [x] end = [x])
    by (destruct x; try discriminate CX; reflexivity).
  destruct (match acc with SNull | SCompound _ _ | SSpec _ _ _ => true | _ => false end) eqn:K.
  - destruct acc; try discriminate K; cbn [sadd] in Q.
    + injection Q as <-. destruct x; try discriminate CX; exact X.
    + rewrite BX in Q. destruct A as (p & y & -> & P & Y & CY). rewrite rev_app_distr in Q. cbn [rev app] in Q.
      assert (RP : forallb (sall (pN NC c)) (rev p) = true)
        by (rewrite forallb_forall in *; intros z I; rewrite <- in_rev in I; now apply P).
      assert (FX : Forall (fun x => ends x /\ is_compound x = false) [x]) by (constructor; [split; [exact X|exact CX]|constructor]).
      destruct (add_impl_ends _ _ _ _ _ Y CY RP FX Q) as (p' & x' & -> & R). exists p', x'. auto.
    + contradiction.
  - assert (S : sadd fin id acc x = add2 fin id acc x)
      by (destruct acc; try discriminate K; destruct x; try discriminate CX; reflexivity).
    rewrite S in Q. assert (AE : ends acc) by (now apply ends_sum_ends).
    assert (CA : is_compound acc = false) by (destruct acc; try discriminate K; reflexivity).
    destruct (add2_ends _ _ _ _ AE X CA CX Q) as [J1 J2]. destruct (is_compound a) eqn:CJ.
    + apply add2_cases in Q as [->|[->|[[st ->]| ->]]]; try congruence; try discriminate CJ.
      exists [acc], x. split; [reflexivity|]. cbn [forallb]. rewrite J1 by reflexivity. auto.
    + pose proof (J2 eq_refl) as J. destruct a; try discriminate CJ; exact J.
Qed.
Lemma accepted_ends : forall x, accepted md fin c x -> ends x.
Proof.
  intros x A. split; [|intros F; apply pF_pN; now apply accepted_pF].
  induction A as [x L T|id h x st A IH N|id i b l x A IH F S|f x d A IH
    |id f m d A IHm B IHd N|id ra f m d L T A IHm B IHd N|id d|id FC]; cbn [tailok]; try reflexivity; try assumption.
  - clear T. induction x using ser_ind'; try discriminate L; try reflexivity. cbn in *. auto.
  - apply pF_pN. apply accepted_pF; [exact A|]. now apply not_final.
  - apply ends_sum_ends. eapply ssum_ends; [|exact S]. rewrite Forall_forall in *. intros y I. split; [|exact (proj1 (F y I))].
    split; [now apply IH|]. intros Q. apply pF_pN. apply accepted_pF; auto.
  - apply andb_true_intro. split.
    + rewrite forallb_forall. intros [k x] I. exact (IHm k x I).
    + destruct d; auto.
  - apply andb_true_intro. split.
    + rewrite forallb_forall. intros [k x] I. exact (IHm k x I).
    + destruct d; auto.
Qed.
Lemma pN_bo : forall bo s, sall (pN NC c) s = true -> sall (pN NC c) (with_bo bo s) = true.
Proof.
  intros bo. induction s using ser_ind'; cbn; intros E; try reflexivity; try assumption; auto;
    (rewrite forallb_map; rewrite forallb_forall in *; rewrite Forall_forall in H; auto).
Qed.
Lemma tail_bo : forall bo s, tailok NC c s = true -> tailok NC c (with_bo bo s) = true.
Proof.
  intros bo. induction s using ser_ind'; cbn [with_bo]; intros E; try exact E; try reflexivity.
  - cbn in *. now apply pN_bo.
  - cbn in *. auto.
  - change (tails NC c l = true) in E. change (tails NC c (map (with_bo bo) l) = true).
    induction l as [|y l IHl]; [reflexivity|]. inversion H; subst. destruct l as [|z l]; [cbn in *; auto|].
    cbn [map tails] in *. apply andb_prop in E as [E1 E2]. rewrite pN_bo by exact E1. cbn [andb]. exact (IHl H3 E2).
  - change (tails NC c l = true) in E. change (tails NC c (map (with_bo bo) l) = true).
    induction l as [|y l IHl]; [reflexivity|]. inversion H; subst. destruct l as [|z l]; [cbn in *; auto|].
    cbn [map tails] in *. apply andb_prop in E as [E1 E2]. rewrite pN_bo by exact E1. cbn [andb]. exact (IHl H3 E2).
Qed.
End Tail.
