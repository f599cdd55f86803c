(** The recursion limit, for the methods of Exec.v themselves and for every class table: a result other
    than RecursionError does not depend on the limit, and for every instance there is a limit that is
    enough to pack it. *)
From Verif Require Import Base Floats Value StructMod Format Ser Exec Pure SerFacts Fuel.

(** [a] does what [b] does, unless it ran into the limit *)
Definition mle {A} (a b : M A) : Prop := forall w, fst (a w) = Err RecursionError \/ a w = b w.
Lemma mle_refl : forall A (a : M A), mle a a. Proof. now right. Qed.
Lemma mle_trans : forall A (a b c : M A), mle a b -> mle b c -> mle a c.
Proof. intros A a b c H K w. destruct (H w) as [E| ->]; [now left|apply K]. Qed.
Lemma mle_bind : forall A B (a a' : M A) (f f' : A -> M B), mle a a' -> (forall x, mle (f x) (f' x)) ->
  mle (bind a f) (bind a' f').
Proof.
  intros A B a a' f f' H F w. unfold bind. destruct (H w) as [E|E].
  - left. destruct (a w) as [[x|e] w1]; cbn in *; [discriminate|]. congruence.
  - rewrite E. destruct (a' w) as [[x|e] w1]; [apply F|now right].
Qed.
Lemma mle_fun : forall A (f g : world -> M A), (forall w, mle (f w) (g w)) -> mle (fun w => f w w) (fun w => g w w).
Proof. intros A f g H w. apply H. Qed.

Ltac mle_go tac :=
  repeat first
    [ apply mle_refl
    | tac
    | apply mle_bind; [|intros]
    | match goal with
      | |- mle (match ?x with _ => _ end) (match ?x with _ => _ end) => destruct x
      | |- mle (if ?x then _ else _) (if ?x then _ else _) => destruct x
      end ].

Section Mono.
Variable hb : bool.
Variable ct : nat -> option cdef.
Section Pack.
Variables r1 r2 : ser -> sink -> list value -> M bytes.
Hypothesis R : forall s k vs, mle (r1 s k vs) (r2 s k vs).
Lemma pack_items_mle : forall item k items size, mle (pack_items hb r1 item k items size) (pack_items hb r2 item k items size).
Proof. induction items; intros size; cbn [pack_items]; mle_go ltac:(first [apply R|apply IHitems]). Qed.
Lemma pack_subs_mle : forall pre subs k vs size, mle (pack_subs hb r1 pre subs k vs size) (pack_subs hb r2 pre subs k vs size).
Proof. induction subs; intros k vs size; cbn [pack_subs]; mle_go ltac:(first [apply R|apply IHsubs]). Qed.
Lemma obj_pack_mle : forall c ov d k, mle (obj_pack_step ct r1 c ov d k) (obj_pack_step ct r2 c ov d k).
Proof. intros. unfold obj_pack_step. mle_go ltac:(apply R). Qed.
Lemma pack_step_mle : forall s k vs, mle (pack_step hb ct r1 s k vs) (pack_step hb ct r2 s k vs).
Proof.
  intros s k vs. destruct s; cbn [pack_step];
    mle_go ltac:(first [apply R|apply pack_items_mle|apply pack_subs_mle|apply obj_pack_mle]).
Qed.
End Pack.
Lemma pack_mle_S : forall n s k vs, mle (pack hb ct n s k vs) (pack hb ct (S n) s k vs).
Proof.
  induction n as [|n IH]; intros; [now left|].
  change (pack hb ct (S (S n)) s k vs) with (pack_step hb ct (pack hb ct (S n)) s k vs).
  cbn [pack]. apply pack_step_mle. exact IH.
Qed.
Lemma pack_mle : forall n m s k vs, (n <= m)%nat -> mle (pack hb ct n s k vs) (pack hb ct m s k vs).
Proof. intros n m s k vs H. induction H; [apply mle_refl|]. eapply mle_trans; [exact IHle|apply pack_mle_S]. Qed.

Section Unpack.
Variables r1 r2 : ser -> src -> M (list value).
Hypothesis R : forall s k, mle (r1 s k) (r2 s k).
Lemma unpack_items_mle : forall item s n size, mle (unpack_items hb r1 item s n size) (unpack_items hb r2 item s n size).
Proof. induction n; intros size; cbn [unpack_items]; mle_go ltac:(first [apply R|apply IHn]). Qed.
Lemma unpack_subs_mle : forall pre subs s size, mle (unpack_subs hb r1 pre subs s size) (unpack_subs hb r2 pre subs s size).
Proof. induction subs; intros s size; cbn [unpack_subs]; mle_go ltac:(first [apply R|apply IHsubs]). Qed.
(** with attributes and world *)
Definition tle {A D} (a b : res A * D * world) : Prop := fst (fst a) = Err RecursionError \/ a = b.
Lemma fill_subs_tle : forall pre subs s size names d w,
  tle (fill_subs hb r1 pre subs s size names d w) (fill_subs hb r2 pre subs s size names d w).
Proof.
  induction subs as [|x subs IH]; intros s size names d w; [now right|]. cbn [fill_subs].
  match goal with |- tle match ?a with _ => _ end match ?b with _ => _ end =>
    assert (E : fst a = Err RecursionError \/ a = b) end.
  { apply mle_bind; [apply mle_refl|]. intros x'. apply mle_bind; [apply R|]. intros. apply mle_refl. }
  destruct E as [E|E].
  - match goal with |- tle match ?a with _ => _ end _ => destruct a as [r w'] end. cbn in E. subst r. now left.
  - rewrite E. match goal with |- tle match ?a with _ => _ end _ => destruct a as [[[x' vs]|e] w'] end; [|now right].
    destruct (assign names vs d) as [[names'|] d']; [|now right].
    destruct (get_size hb x' w') as [[z|e] w'']; [apply IH|now right].
Qed.
Lemma fill_tle : forall x s names d w, tle (fill hb r1 x s names d w) (fill hb r2 x s names d w).
Proof.
  intros x s names d w. destruct x; cbn [fill];
  try (match goal with |- context [r1 ?x] => destruct (R x s w) as [E|E]; [|rewrite E; now right];
         destruct (r1 x s w) as [r w'] end; cbn in E; subst r; now left).
  - destruct (fill_subs_tle None subs s 0 names d w) as [E|E]; [|rewrite E; now right].
    destruct (fill_subs hb r1 None subs s 0 names d w) as [[r d'] w']. cbn in E. subst r. now left.
  - destruct (fill_subs_tle (Some ctx) subs s 0 names d w) as [E|E]; [|rewrite E; now right].
    destruct (fill_subs hb r1 (Some ctx) subs s 0 names d w) as [[r d'] w']. cbn in E. subst r. now left.
Qed.
Lemma create_mle : forall c s, mle (create_step hb ct r1 c s) (create_step hb ct r2 c s).
Proof.
  intros c s w. unfold create_step. destruct (ct c) as [cd|]; [|now right].
  destruct (prep false (c_ser cd) (PO c true []) w) as [[x|e] w']; [|now right].
  destruct (fill_tle x s (c_attrs cd) [] w') as [E|E]; [|rewrite E; now right].
  destruct (fill hb r1 x s (c_attrs cd) [] w') as [[r d'] w'']. cbn in E. subst r. now left.
Qed.
Lemma refill_tle : forall c ov d s w, tle (refill_step hb ct r1 c ov d s w) (refill_step hb ct r2 c ov d s w).
Proof.
  intros c ov d s w. unfold refill_step. destruct (ct c) as [cd|]; [|now right].
  destruct (prep false (obj_ser cd ov) (PO c false d) w) as [[x|e] w']; [|now right]. apply fill_tle.
Qed.
Lemma unpack_step_mle : forall x s, mle (unpack_step hb ct r1 x s) (unpack_step hb ct r2 x s).
Proof.
  intros x s. destruct x; cbn [unpack_step];
    mle_go ltac:(first [apply R|apply unpack_items_mle|apply unpack_subs_mle|apply create_mle]).
Qed.
End Unpack.
Lemma unpack_mle_S : forall n x s, mle (unpack hb ct n x s) (unpack hb ct (S n) x s).
Proof.
  induction n as [|n IH]; intros; [now left|].
  change (unpack hb ct (S (S n)) x s) with (unpack_step hb ct (unpack hb ct (S n)) x s).
  cbn [unpack]. apply unpack_step_mle. exact IH.
Qed.
Lemma unpack_mle : forall n m x s, (n <= m)%nat -> mle (unpack hb ct n x s) (unpack hb ct m x s).
Proof. intros n m x s H. induction H; [apply mle_refl|]. eapply mle_trans; [exact IHle|apply unpack_mle_S]. Qed.
End Mono.

(** ** Enough fuel for packing *)
Fixpoint lmax (l : list nat) : nat := match l with [] => O | n :: l' => Nat.max n (lmax l') end.
(** nesting of serializers *)
Fixpoint shgt (s : ser) : nat :=
  match s with
  | SCond _ x _ => shgt x
  | SUnicode x _ | SArray _ _ x _ | STuple _ x => S (shgt x)
  | SLookback _ _ m d | SLookahead _ _ _ m d =>
      S (Nat.max (lmax (map (fun p => shgt (snd p)) m)) (match d with Some x => shgt x | None => 0 end))
  | SCompound _ subs | SSpec _ subs _ => S (lmax (map shgt subs))
  | _ => 1
  end%nat.

Section Enough.
Variable hb : bool.
Variable ct : nat -> option cdef.

(** nesting of the serializers of the classes of the instances nested in a value *)
Fixpoint vneed (v : value) : nat :=
  match v with
  | VList l | VTuple l => lmax (map vneed l)
  | VObj c ov d =>
      (match ct c with Some cd => shgt (obj_ser cd ov) | None => 0 end
       + S (lmax (map (fun p => vneed (snd p)) d)))%nat
  | _ => 0%nat
  end.
Definition need (s : ser) (vs : list value) : nat := (shgt s + lmax (map vneed vs))%nat.

Definition meq {A} (a b : M A) : Prop := forall w, a w = b w.
Lemma meq_refl : forall A (a : M A), meq a a. Proof. intros A a w. reflexivity. Qed.
Lemma meq_bind : forall A B (a a' : M A) (f f' : A -> M B), meq a a' -> (forall x, meq (f x) (f' x)) ->
  meq (bind a f) (bind a' f').
Proof. intros A B a a' f f' H F w. unfold bind. rewrite H. destruct (a' w) as [[x|e] w1]; [apply F|reflexivity]. Qed.

Lemma lmax_in : forall l n, In n l -> (n <= lmax l)%nat.
Proof. induction l as [|a l IH]; intros n []; cbn; [subst; lia|]. specialize (IH n H). lia. Qed.
Lemma lmax_sub : forall l l', (forall n, In n l -> In n l') -> (lmax l <= lmax l')%nat.
Proof.
  induction l as [|a l IH]; intros l' H; cbn; [lia|].
  pose proof (lmax_in l' a (H a (or_introl eq_refl))). pose proof (IH l' (fun n I => H n (or_intror I))). lia.
Qed.
Lemma vmax_sub : forall vs vs', (forall v, In v vs -> In v vs') -> (lmax (map vneed vs) <= lmax (map vneed vs'))%nat.
Proof.
  intros vs vs' H. apply lmax_sub. intros n I. apply in_map_iff in I as (v & <- & I). apply in_map. auto.
Qed.
Lemma firstn_sub : forall {A} n (l : list A) x, In x (firstn n l) -> In x l.
Proof. intros A n l x H. rewrite <- (firstn_skipn n l). apply in_or_app. now left. Qed.
Lemma skipn_sub : forall {A} n (l : list A) x, In x (skipn n l) -> In x l.
Proof. intros A n l x H. rewrite <- (firstn_skipn n l). apply in_or_app. now right. Qed.
Lemma iter_need : forall v items, py_iter v = Ok items -> (lmax (map vneed items) <= vneed v)%nat.
Proof.
  intros v items E. destruct v; cbn in E; try discriminate; injection E as <-; [| |apply le_n|apply le_n].
  - induction b; cbn in *; lia.
  - induction s; cbn in *; lia.
Qed.
Lemma nth0_need : forall vs v, nth0 vs = Ok v -> (vneed v <= lmax (map vneed vs))%nat.
Proof. intros [|x vs] v E; [discriminate|]. injection E as ->. cbn. lia. Qed.
Lemma one_need : forall vs e v, one vs e = Ok v -> (vneed v <= lmax (map vneed vs))%nat.
Proof. intros vs e v E. destruct vs as [|x [|y l]]; try discriminate. injection E as ->. cbn. lia. Qed.
Lemma attrs_need : forall names d vs, get_attrs names d = Ok vs ->
  (lmax (map vneed vs) <= lmax (map (fun p => vneed (snd p)) d))%nat.
Proof.
  induction names as [|a names IH]; intros d vs E.
  - injection E as <-. cbn. lia.
  - unfold get_attrs in E. cbn in E. destruct (assoc a d) as [v|] eqn:A; [|discriminate]. cbn in E.
    destruct (rmapM _ names) as [vs'|] eqn:G; [|discriminate]. injection E as <-. cbn.
    specialize (IH d vs' G).
    assert (I : In (vneed v) (map (fun p => vneed (snd p)) d)).
    { clear -A. induction d as [|[k x] d IH]; [discriminate|]. cbn in A. destruct (String.eqb a k); [injection A as ->; now left|right; auto]. }
    pose proof (lmax_in _ _ I). lia.
Qed.
Lemma prep_shgt : forall b s o w s' w', prep b s o w = (Ok s', w') -> (shgt s' <= Nat.max 1 (shgt s))%nat.
Proof.
  intros b s o w s' w' E. destruct s; cbn [prep] in E; unfold bind, lift, ret, set_obj in E;
    try (injection E as E1 E2; subst s'; cbn [shgt]; lia).
  - destruct (cond o) as [v|]; [|discriminate]. cbn in E. unfold cond_branch in E.
    destruct (key_eqb v (VBool true)); [injection E as E1 E2; subst s'; cbn [shgt]; lia|].
    destruct (key_eqb v (VBool false)); [injection E as E1 E2; subst s'; cbn [shgt]; lia|].
    destruct (hashable v); discriminate.
  - destruct (self_class b o); [|discriminate]. cbn in E. injection E as E1 E2; subst s'. cbn [shgt]. lia.
  - injection E as E1 E2; subst s'. destruct (existsb needs_pre subs); cbn [shgt]; lia.
Qed.
Lemma shgt_pos : forall s, (1 <= shgt s)%nat.
Proof. induction s using ser_ind'; cbn; lia. Qed.
Lemma prep_need : forall b s o w s' w', prep b s o w = (Ok s', w') -> (shgt s' <= shgt s)%nat.
Proof. intros b s o w s' w' E. apply prep_shgt in E. pose proof (shgt_pos s). lia. Qed.
Lemma choose_shgt : forall m d k s0, choose m d k = Ok s0 ->
  (shgt s0 <= Nat.max (lmax (map (fun p => shgt (snd p)) m)) (match d with Some x => shgt x | None => 0 end))%nat.
Proof.
  intros m d k s0 C. unfold choose in C. destruct (hashable k); [|discriminate].
  assert (F : forall x, map_find k m = Some x -> (shgt x <= lmax (map (fun p => shgt (snd p)) m))%nat).
  { clear. induction m as [|[k' y] m IH]; cbn; [discriminate|]. intros x.
    destruct (key_eqb k k'); [intros E; injection E as <-; lia|]. intros E. specialize (IH x E). lia. }
  destruct (map_find k m) as [x|]; [injection C as <-; specialize (F x eq_refl); lia|].
  destruct d; [injection C as <-; lia|discriminate].
Qed.

Section Step.
Variables (r1 r2 : ser -> sink -> list value -> M bytes) (N : nat).
Hypothesis R : forall s k vs, (need s vs <= N)%nat -> meq (r1 s k vs) (r2 s k vs).

(** running [prep] first *)
Lemma meq_prep : forall A b s o (f f' : ser -> M A),
  (forall s', (shgt s' <= shgt s)%nat -> meq (f s') (f' s')) -> meq (bind (prep b s o) f) (bind (prep b s o) f').
Proof.
  intros A b s o f f' H w. unfold bind. destruct (prep b s o w) as [[s'|e] w'] eqn:P; [|reflexivity].
  apply H. eapply prep_need; eauto.
Qed.
Lemma meq_lift : forall A B (r : res A) (f f' : A -> M B), (forall a, r = Ok a -> meq (f a) (f' a)) ->
  meq (bind (lift r) f) (bind (lift r) f').
Proof. intros A B r f f' H w. unfold bind, lift. destruct r; [now apply H|reflexivity]. Qed.
Lemma meq_same : forall A B (m : M A) (f f' : A -> M B), (forall a, meq (f a) (f' a)) ->
  meq (bind m f) (bind m f').
Proof. intros. apply meq_bind; [apply meq_refl|assumption]. Qed.

Lemma pack_items_meq : forall item k items size, (shgt item + lmax (map vneed items) <= N)%nat ->
  meq (pack_items hb r1 item k items size) (pack_items hb r2 item k items size).
Proof.
  induction items as [|v items IH]; intros size H; [apply meq_refl|]. cbn [pack_items]. cbn in H.
  apply meq_bind; [apply R; unfold need; cbn; lia|]. intros b. apply meq_same. intros z.
  apply meq_bind; [apply IH; lia|]. intros. apply meq_refl.
Qed.
Lemma pack_subs_meq : forall pre subs k vs size,
  (lmax (map shgt subs) + lmax (map vneed vs) <= N)%nat ->
  meq (pack_subs hb r1 pre subs k vs size) (pack_subs hb r2 pre subs k vs size).
Proof.
  induction subs as [|s subs IH]; intros k vs size H; [apply meq_refl|]. cbn [pack_subs]. cbn in H.
  assert (G : forall s', (shgt s' <= shgt s)%nat -> meq
     (let n := num_values s' in
      mdo b <- r1 s' (ksub k size) (firstn n vs); mdo z <- get_size hb s';
      mdo (bs, size') <- pack_subs hb r1 pre subs k (skipn n vs) (size + z); ret (b ++ bs, size'))
     (let n := num_values s' in
      mdo b <- r2 s' (ksub k size) (firstn n vs); mdo z <- get_size hb s';
      mdo (bs, size') <- pack_subs hb r2 pre subs k (skipn n vs) (size + z); ret (b ++ bs, size'))).
  { intros s' L. cbv zeta.
    pose proof (vmax_sub (firstn (num_values s') vs) vs (firstn_sub _ _)).
    pose proof (vmax_sub (skipn (num_values s') vs) vs (skipn_sub _ _)).
    apply meq_bind; [apply R; unfold need; lia|]. intros b. apply meq_same. intros z.
    apply meq_bind; [apply IH; lia|]. intros. apply meq_refl. }
  destruct pre as [o|]; [apply meq_prep; exact G|]. apply (meq_lift _ _ (Ok s)). intros a E. injection E as <-. now apply G.
Qed.
Lemma obj_pack_meq : forall c ov d k, (vneed (VObj c ov d) <= S N)%nat ->
  meq (obj_pack_step ct r1 c ov d k) (obj_pack_step ct r2 c ov d k).
Proof.
  intros c ov d k H. unfold obj_pack_step. cbn [vneed] in H. destruct (ct c) as [cd|]; [|apply meq_refl].
  apply meq_prep. intros s' L. apply meq_lift. intros vs E. apply attrs_need in E. apply R. unfold need. lia.
Qed.
Lemma pack_step_meq : forall s k vs, (need s vs <= S N)%nat -> meq (pack_step hb ct r1 s k vs) (pack_step hb ct r2 s k vs).
Proof.
  intros s k vs H. unfold need in H. destruct s; cbn [pack_step]; cbn [shgt] in H; try apply meq_refl.
  - (* Unicode *)
    apply meq_lift. intros v E. destruct v; try apply meq_refl. apply meq_lift. intros b _. apply R. unfold need. cbn. lia.
  - (* Array *)
    assert (G : forall item' v items k' size, (shgt item' <= shgt s)%nat -> nth0 vs = Ok v -> py_iter v = Ok items ->
      meq (pack_items hb r1 item' k' items size) (pack_items hb r2 item' k' items size)).
    { intros item' v items k' size L N0 I. apply pack_items_meq. apply nth0_need in N0. apply iter_need in I. lia. }
    destruct k.
    + apply meq_same. intros o. apply meq_prep. intros item' L. apply meq_lift. intros v N0.
      apply meq_lift. intros items I. apply meq_bind; [eapply G; eauto|]. intros. apply meq_refl.
    + apply meq_lift. intros v N0. apply meq_same. intros o. apply meq_prep. intros item' L.
      apply meq_lift. intros items I. apply meq_bind; [eapply G; eauto|]. intros. apply meq_refl.
    + apply meq_same. intros o. apply meq_prep. intros item' L. apply meq_lift. intros v N0.
      apply meq_lift. intros items I. apply meq_bind; [eapply G; eauto|]. intros. apply meq_refl.
  - (* Tuple *)
    apply meq_lift. intros v N0. apply meq_same. intros o. apply meq_prep. intros s' L. apply meq_lift. intros items I.
    apply R. unfold need. apply one_need in N0. apply iter_need in I. lia.
  - (* Lookback *)
    apply meq_same. intros o. apply meq_lift. intros r _. apply meq_lift. intros s0 C. apply choose_shgt in C.
    apply meq_prep. intros s' L. apply meq_bind; [|intros; apply meq_refl]. apply R. unfold need. lia.
  - apply meq_same. intros o. apply meq_lift. intros r _. apply meq_lift. intros s0 C. apply choose_shgt in C.
    apply meq_prep. intros s' L. apply meq_bind; [|intros; apply meq_refl]. apply R. unfold need. lia.
  - (* Structd *)
    apply meq_lift. intros v N0. apply one_need in N0. destruct v; try apply meq_refl.
    apply meq_bind; [|intros; apply meq_refl]. apply obj_pack_meq. lia.
  - apply meq_bind; [|intros; apply meq_refl]. apply pack_subs_meq. lia.
  - apply meq_bind; [|intros; apply meq_refl]. apply pack_subs_meq. lia.
Qed.
End Step.

Lemma pack_enough : forall N n m s k vs, (need s vs <= N)%nat -> (N <= n)%nat -> (N <= m)%nat ->
  meq (pack hb ct n s k vs) (pack hb ct m s k vs).
Proof.
  induction N as [|N IH]; intros n m s k vs H Hn Hm.
  - pose proof (shgt_pos s). unfold need in H. lia.
  - destruct n; [lia|]. destruct m; [lia|]. cbn [pack]. eapply pack_step_meq; [|exact H].
    intros s' k' vs' H'. apply IH; lia.
Qed.
End Enough.
