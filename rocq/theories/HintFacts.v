(** Facts about dictionaries and about the transformation of hints. *)
From Verif Require Import Base Floats Value StructMod Format Ser Exec BaseFacts StructFacts FormatFacts SerFacts Hints.

(** ** Dictionaries *)
Definition keys {A} (d : list (string * A)) : list string := map fst d.
Definition mem {A} (a : string) (d : list (string * A)) : bool := match assoc a d with Some _ => true | None => false end.

Lemma assoc_In : forall {A} a (d : list (string * A)), assoc a d = None <-> ~ In a (keys d).
Proof.
  induction d as [|[b v] d IH]; cbn; [intuition|].
  destruct (String.eqb_spec a b) as [->|N].
  - split; [discriminate|]. intros H. destruct H. now left.
  - rewrite IH. split; intros H; [intros [E|E]; [congruence|auto]|auto].
Qed.
Lemma mem_In : forall {A} a (d : list (string * A)), mem a d = true <-> In a (keys d).
Proof.
  intros A a d. unfold mem. pose proof (assoc_In a d) as H.
  destruct (assoc a d) eqn:E; split; intros; try discriminate; auto.
  - destruct (in_dec string_dec a (keys d)) as [I|I]; auto. apply H in I. discriminate.
  - destruct H as [H _]. exfalso. now apply (H eq_refl).
Qed.
Lemma keys_set : forall {A} a (v : A) d, keys (assoc_set a v d) = if mem a d then keys d else keys d ++ [a].
Proof.
  unfold mem, keys. induction d as [|[b w] d IH]; cbn [assoc assoc_set map fst app]; [reflexivity|].
  destruct (String.eqb_spec a b) as [->|N]; cbn [map fst]; [reflexivity|].
  rewrite IH. destruct (assoc a d); reflexivity.
Qed.
Lemma assoc_set_eq : forall {A} a b (v : A) d, assoc a (assoc_set b v d) = if String.eqb a b then Some v else assoc a d.
Proof.
  induction d as [|[k w] d IH]; cbn.
  - destruct (String.eqb a b); reflexivity.
  - destruct (String.eqb_spec b k) as [->|N]; cbn.
    + destruct (String.eqb_spec a k); reflexivity.
    + destruct (String.eqb_spec a k) as [->|N2]; [|exact IH].
      destruct (String.eqb_spec k b); [congruence|reflexivity].
Qed.
Lemma set_nodup : forall {A} a (v : A) d, NoDup (keys d) -> NoDup (keys (assoc_set a v d)).
Proof.
  intros A a v d H. rewrite keys_set. unfold mem. destruct (assoc a d) eqn:E; auto.
  apply assoc_In in E. apply NoDup_rev in H. rewrite <- (rev_involutive (keys d ++ [a])), rev_app_distr.
  apply NoDup_rev. cbn. constructor; auto. now rewrite <- in_rev.
Qed.

Lemma update_nodup : forall {A} (e d : list (string * A)), NoDup (keys d) -> NoDup (keys (dict_update d e)).
Proof.
  unfold dict_update. induction e as [|[a v] e IH]; cbn; intros d H; auto. apply IH, set_nodup, H.
Qed.
(** [d.update(e)] for a dict [e] *)
Lemma update_assoc : forall {A} a (e d : list (string * A)), NoDup (keys e) ->
  assoc a (dict_update d e) = match assoc a e with Some v => Some v | None => assoc a d end.
Proof.
  unfold dict_update. induction e as [|[b v] e IH]; cbn; intros d H; [reflexivity|].
  inversion H; subst. rewrite IH by assumption. rewrite assoc_set_eq.
  destruct (String.eqb_spec a b) as [->|N]; [|reflexivity].
  rewrite (proj2 (assoc_In b e)); auto.
Qed.
Lemma update_keys : forall {A} (e d : list (string * A)), NoDup (keys e) ->
  keys (dict_update d e) = keys d ++ filter (fun a => negb (mem a d)) (keys e).
Proof.
  unfold dict_update. induction e as [|[b v] e IH]; intros d H; [cbn; now rewrite app_nil_r|].
  inversion H; subst. cbn [fold_left fst snd]. rewrite IH by assumption. rewrite keys_set. cbn [keys map fst filter].
  fold (keys e).
  assert (E : filter (fun a => negb (mem a (assoc_set b v d))) (keys e) = filter (fun a => negb (mem a d)) (keys e)).
  { apply filter_ext_in. intros a I. unfold mem. rewrite assoc_set_eq.
    destruct (String.eqb_spec a b) as [->|N]; [contradiction|reflexivity]. }
  rewrite E. destruct (mem b d); cbn; [reflexivity|]. now rewrite <- app_assoc.
Qed.
(** dicts are determined by their keys in order and their values *)
Lemma dict_ext : forall {A} (d e : list (string * A)), NoDup (keys d) -> keys d = keys e ->
  (forall a, In a (keys d) -> assoc a d = assoc a e) -> d = e.
Proof.
  induction d as [|[a v] d IH]; destruct e as [|[b w] e]; cbn; intros N K H; try discriminate; [reflexivity|].
  injection K as K1 K2. subst b. inversion N; subst.
  pose proof (H a (or_introl eq_refl)) as H1. rewrite String.eqb_refl in H1. injection H1 as ->.
  f_equal. apply IH; auto. intros b HI. specialize (H b (or_intror HI)).
  destruct (String.eqb_spec b a) as [EQ|NE]; [|exact H]. subst. contradiction.
Qed.

(** get_type_hints of a class and of its base *)
Definition hints_of (mro : list dict) : dict := get_type_hints mro.
Lemma fold_update_nodup : forall (l : list dict) d, NoDup (keys d) -> NoDup (keys (fold_left dict_update l d)).
Proof. induction l as [|e l IH]; cbn; intros d H; auto. apply IH, update_nodup, H. Qed.
Lemma keys_map_fwd : forall (d : dict), keys (map (fun kv => (fst kv, eval_fwd (snd kv))) d) = keys d.
Proof. intros d. unfold keys. rewrite map_map. reflexivity. Qed.
Lemma assoc_map_fwd : forall a (d : dict), assoc a (map (fun kv => (fst kv, eval_fwd (snd kv))) d) = option_map eval_fwd (assoc a d).
Proof. induction d as [|[b v] d IH]; cbn; auto. destruct (String.eqb a b); auto. Qed.
Lemma hints_nodup : forall mro, NoDup (keys (get_type_hints mro)).
Proof. intros mro. unfold get_type_hints. rewrite keys_map_fwd. apply fold_update_nodup. constructor. Qed.
Lemma hints_cons_keys : forall d mro, NoDup (keys d) ->
  keys (get_type_hints (d :: mro)) = keys (get_type_hints mro) ++ filter (fun a => negb (mem a (get_type_hints mro))) (keys d).
Proof.
  intros d mro H. unfold get_type_hints. rewrite !keys_map_fwd. cbn [rev]. rewrite fold_left_app. cbn [fold_left].
  rewrite update_keys by assumption. f_equal. apply filter_ext. intros a. unfold mem. rewrite assoc_map_fwd.
  destruct (assoc a _); reflexivity.
Qed.
Lemma hints_cons_assoc : forall a d mro, NoDup (keys d) ->
  assoc a (get_type_hints (d :: mro)) = match assoc a d with Some h => Some (eval_fwd h) | None => assoc a (get_type_hints mro) end.
Proof.
  intros a d mro H. unfold get_type_hints. rewrite !assoc_map_fwd. cbn [rev]. rewrite fold_left_app. cbn [fold_left].
  rewrite update_assoc by assumption. destruct (assoc a d); reflexivity.
Qed.

(** ** Identities of the created serializers do not matter *)
(** a serializer without identities ([e]: also without class numbers) *)
Fixpoint skel (e : bool) (s : ser) : ser :=
  match s with
  | SDynChar _ st => SDynChar 0 st
  | SConsume _ => SConsume 0
  | STerm _ t => STerm 0 t
  | SNet _ => SNet 0
  | SUnicode x cd => SUnicode (skel e x) cd
  | SDynArr _ c i => SDynArr 0 c i
  | SArray _ h x n => SArray 0 h (skel e x) n
  | STuple _ x => STuple 0 (skel e x)
  | SCond f x d => SCond f (skel e x) d
  | SLookback _ f m d => SLookback 0 f (map (fun p => (fst p, skel e (snd p))) m) (option_map (skel e) d)
  | SLookahead _ r f m d => SLookahead 0 (skel e r) f (map (fun p => (fst p, skel e (snd p))) m) (option_map (skel e) d)
  | SStructd _ c => SStructd 0 (if e then 0 else c)
  | SSelf _ => SSelf 0
  | SCompound _ l => SCompound 0 (map (skel e) l)
  | SSpec _ l o => SSpec 0 (map (skel e) l) o
  | SNull | SStruct _ | SSkip _ | SStaticArr _ _ => s
  end%nat.
Definition hskel (e : bool) (h : pyh) : pyh := match h with PSer s => PSer (skel e s) | _ => h end.

Lemma skel_num : forall e s, num_values (skel e s) = num_values s.
Proof.
  intros e. induction s using ser_ind'; cbn; auto.
  - induction H; cbn; auto.
  - induction H; cbn; auto.
Qed.
Lemma skel_compound : forall e s, is_compound (skel e s) = is_compound s.
Proof. destruct s; reflexivity. Qed.
Lemma skel_final : forall fin s, is_final fin (skel false s) = is_final fin s.
Proof.
  intros fin. induction s using ser_ind'; cbn [skel is_final]; auto.
  - rewrite existsb_map. apply existsb_ext_F. cbn. exact H.
  - rewrite existsb_map. apply existsb_ext_F. cbn. exact H.
  - induction H as [|x l Hx Hl IH]; cbn [map]; [reflexivity|]. destruct l; cbn [map] in *; [exact Hx|exact IH].
  - induction H as [|x l Hx Hl IH]; cbn [map]; [reflexivity|]. destruct l; cbn [map] in *; [exact Hx|exact IH].
Qed.

(** results that agree up to identities; [e]: up to class numbers and errors as well *)
Section Rel.
Variables (fin fin' : nat -> bool) (e : bool).
Hypothesis FE : e = false -> fin = fin'.
Definition rrel {A} (f : A -> A) (r r' : res A) : Prop :=
  match r, r' with
  | Ok a, Ok b => f a = f b
  | Err x, Err y => e = false -> x = y
  | _, _ => e = true
  end.
Definition srel := rrel (skel e).
Lemma rrel_bind : forall {A B} (f : A -> A) (g : B -> B) r r' k k', rrel f r r' ->
  (forall a b, f a = f b -> rrel g (k a) (k' b)) -> rrel g (rbind r k) (rbind r' k').
Proof.
  intros A B f g [a|x] [b|y] k k' H K; cbn in *; auto.
  - destruct (k a); cbn; auto. intros; congruence.
  - destruct (k' b); cbn; auto. intros; congruence.
Qed.
Lemma final_rel : forall s s', skel e s = skel e s' -> e = false -> is_final fin s = is_final fin' s'.
Proof.
  intros s s' H E. subst. rewrite (FE eq_refl), <- skel_final, H, skel_final. reflexivity.
Qed.
Lemma add2_rel : forall i i' a a' b b', skel e a = skel e a' -> skel e b = skel e b' ->
  srel (add2 fin i a b) (add2 fin' i' a' b').
Proof.
  intros i i' a a' b b' Ha Hb.
  assert (D : srel (if is_final fin a then Err TypeError else Ok (SCompound i [a; b]))
                   (if is_final fin' a' then Err TypeError else Ok (SCompound i' [a'; b']))).
  { pose proof (final_rel _ _ Ha) as F.
    destruct (is_final fin a), (is_final fin' a'); cbn; auto; try congruence;
      destruct e; auto; specialize (F eq_refl); discriminate. }
  destruct a; cbn in Ha; destruct a'; try discriminate Ha;
    destruct b; cbn in Hb; destruct b'; try discriminate Hb; cbn [add2]; first [exact D | exact Hb | exact Ha | idtac].
  injection Ha as <-. injection Hb as <-. destruct (ss_add st st1); cbn; auto.
Qed.
Lemma map_skel_rev : forall l l', map (skel e) l = map (skel e) l' -> map (skel e) (rev l) = map (skel e) (rev l').
Proof. intros l l' H. now rewrite !map_rev, H. Qed.
Lemma add_impl_rel : forall i i' cs cs' l l' b b', skel e l = skel e l' -> map (skel e) b = map (skel e) b' ->
  map (skel e) cs = map (skel e) cs' -> srel (add_impl fin i l b cs) (add_impl fin' i' l' b' cs').
Proof.
  induction cs as [|c cs IH]; destruct cs' as [|c' cs']; cbn [add_impl map]; intros l l' b b' Hl Hb Hc; try discriminate.
  - cbn. f_equal. rewrite !map_app, !map_rev, Hb. cbn. now rewrite Hl.
  - injection Hc as Hc Hcs. eapply rrel_bind; [now apply add2_rel|]. intros j j' Hj.
    rewrite <- (skel_compound e j), <- (skel_compound e j'), Hj.
    destruct (is_compound (skel e j')); apply IH; auto. cbn. congruence.
Qed.
Lemma sadd_rel : forall i i' a a' b b', skel e a = skel e a' -> skel e b = skel e b' ->
  srel (sadd fin i a b) (sadd fin' i' a' b').
Proof.
  intros i i' a a' b b' Ha Hb.
  assert (CB : map (skel e) (match b with SCompound _ bs | SSpec _ bs _ => bs | _ => [b] end)
             = map (skel e) (match b' with SCompound _ bs | SSpec _ bs _ => bs | _ => [b'] end)).
  { destruct b; cbn in Hb; destruct b'; try discriminate Hb; cbn [map]; try (f_equal; exact Hb); cbn in Hb; congruence. }
  assert (L : forall subs subs', map (skel e) subs = map (skel e) subs' ->
    srel (match rev subs with
          | [] => Err IndexError
          | l :: bf => add_impl fin i l bf (match b with SCompound _ bs | SSpec _ bs _ => bs | _ => [b] end)
          end)
         (match rev subs' with
          | [] => Err IndexError
          | l :: bf => add_impl fin' i' l bf (match b' with SCompound _ bs | SSpec _ bs _ => bs | _ => [b'] end)
          end)).
  { intros subs subs' Hs. apply map_skel_rev in Hs. destruct (rev subs), (rev subs'); cbn in Hs; try discriminate; [cbn; auto|].
    injection Hs as H1 H2. now apply add_impl_rel. }
  assert (R : forall bs bs', map (skel e) bs = map (skel e) bs' ->
    srel (if is_final fin a then Err TypeError else add_impl fin i a [] bs)
         (if is_final fin' a' then Err TypeError else add_impl fin' i' a' [] bs')).
  { intros bs bs' H. pose proof (final_rel _ _ Ha) as F.
    assert (E : is_final fin a <> is_final fin' a' -> e = true).
    { intros N. destruct e; [reflexivity|]. destruct (N (F eq_refl)). }
    destruct (is_final fin a), (is_final fin' a').
    - cbn. auto.
    - specialize (E ltac:(discriminate)). destruct (add_impl fin' i' a' [] bs'); cbn; auto. intros; congruence.
    - specialize (E ltac:(discriminate)). destruct (add_impl fin i a [] bs); cbn; auto. intros; congruence.
    - now apply add_impl_rel. }
  pose proof (add2_rel i i' a a' b b' Ha Hb) as A2.
  destruct a; cbn in Ha; destruct a'; try discriminate Ha; cbn [sadd]; try exact Hb;
    try (apply L; cbn in Ha; congruence);
    destruct b; cbn in Hb; destruct b'; try discriminate Hb; try exact A2; apply R; cbn in Hb; congruence.
Qed.
Lemma ssum_rel' : forall i i' l l' acc acc', skel e acc = skel e acc' -> map (skel e) l = map (skel e) l' ->
  srel (ssum_from fin i acc l) (ssum_from fin' i' acc' l').
Proof.
  induction l as [|s l IH]; destruct l' as [|s' l']; cbn [ssum_from map]; intros acc acc' Ha Hl; try discriminate; [exact Ha|].
  injection Hl as H1 H2. eapply rrel_bind; [now apply sadd_rel|]. intros j j' Hj. now apply IH.
Qed.
End Rel.

(** ** Transformation of hints *)
Section PyhInd.
Variable P : pyh -> Prop.
Hypothesis Hann : forall b m, P b -> P (PAnn b m).
Hypothesis Htup : forall l, Forall P l -> P (PTuple l).
Hypothesis Huni : forall l, Forall P l -> P (PUnion l).
Hypothesis Hgen : forall c l, Forall P l -> P (PGen c l).
Hypothesis Hali : forall k l, Forall P l -> P (PAlias k l).
Hypothesis Hgal : forall c sa l, Forall P sa -> Forall P l -> P (PGenAlias c sa l).
Hypothesis Htva : forall a, P a -> P (PTupleVar a).
Hypothesis Hrest : forall h, match h with
  | PAnn _ _ | PTuple _ | PUnion _ | PGen _ _ | PAlias _ _ | PGenAlias _ _ _ | PTupleVar _ => False
  | _ => True end -> P h.
Fixpoint pyh_ind' (h : pyh) : P h :=
  let fix go l : Forall P l :=
    match l with [] => Forall_nil _ | x :: l' => Forall_cons x (pyh_ind' x) (go l') end in
  match h with
  | PAnn b m => Hann b m (pyh_ind' b)
  | PTuple l => Htup l (go l)
  | PUnion l => Huni l (go l)
  | PGen c l => Hgen c l (go l)
  | PAlias k l => Hali k l (go l)
  | PGenAlias c sa l => Hgal c sa l (go sa) (go l)
  | PTupleVar a => Htva a (pyh_ind' a)
  | h => Hrest h I
  end.
End PyhInd.

Definition hbase (h : pyh) : pyh := match h with PAnn b _ => b | _ => h end.
Definition hmeta (h : pyh) : list pyh := match h with PAnn _ m => flat_map metas m | _ => [] end.
Definition hargs (h : pyh) : list pyh := match h with PTuple l | PUnion l => l | _ => [] end.
Section TEq.
Variables (fin : nat -> bool) (spec : nat -> list pyh -> res nat) (idf : list nat -> nat).
Fixpoint gosub (p : list nat) (i : nat) (l : list pyh) : res (list pyh) :=
  match l with
  | [] => Ok []
  | x :: l' => rdo y <- transform fin spec idf false (S i :: p) x; rdo ys <- gosub p (S i) l'; Ok (y :: ys)
  end.
Lemma gosub_eq : forall p l i,
  (fix go i l := match l with
                 | [] => Ok []
                 | x :: l' => rdo y <- transform fin spec idf false (S i :: p) x; rdo ys <- go (S i) l'; Ok (y :: ys)
                 end) i l = gosub p i l.
Proof. induction l as [|x l IH]; intros i; cbn; [reflexivity|]. rewrite IH. reflexivity. Qed.
Lemma transform_eq : forall chk p h,
  transform fin spec idf chk p h
  = passes fin spec idf chk p (gosub p 0 (hargs (hbase h))) (PNone :: hmeta h) (hbase h).
Proof.
  intros chk p h. destruct h; try reflexivity.
  - destruct h; try reflexivity; cbn [transform hbase hargs hmeta]; rewrite gosub_eq; reflexivity.
  - cbn [transform hbase hargs hmeta]. rewrite gosub_eq. reflexivity.
  - cbn [transform hbase hargs hmeta]. rewrite gosub_eq. reflexivity.
Qed.
End TEq.

Section TRel.
Variables (fin fin' : nat -> bool) (spec spec' : nat -> list pyh -> res nat) (idf idf' : list nat -> nat) (e : bool).
Hypothesis FE : e = false -> fin = fin'.
Hypothesis SE : e = false -> spec = spec'.
Definition hrel := rrel e (hskel e).
Definition hrelo := rrel e (option_map (hskel e)).
Definition hrell := rrel e (map (hskel e)).

Lemma hskel_ser : forall e h h', hskel e h = hskel e h' ->
  match h, h' with PSer s, PSer s' => skel e s = skel e s' | PSer _, _ | _, PSer _ => False | _, _ => h = h' end.
Proof. intros e0 h h' H. destruct h, h'; cbn in H; try discriminate; auto. congruence. Qed.

Lemma step_rel : forall f f' b b', (hskel e b = hskel e b' -> hrelo (f b) (f' b')) -> hskel e b = hskel e b' ->
  hrel (step f b) (step f' b').
Proof.
  intros f f' b b' H E. unfold step. eapply rrel_bind; [now apply H|].
  intros [x|] [y|] D; cbn in *; congruence.
Qed.
Lemma all_sers_rel : forall l l', map (hskel e) l = map (hskel e) l' ->
  option_map (map (skel e)) (all_sers l) = option_map (map (skel e)) (all_sers l').
Proof.
  induction l as [|h l IH]; destruct l' as [|h' l']; cbn [map]; intros H; try discriminate; [reflexivity|].
  injection H as H1 H2. specialize (IH _ H2). apply hskel_ser in H1.
  destruct h, h'; try contradiction; try discriminate; cbn [all_sers]; try reflexivity.
  destruct (all_sers l), (all_sers l'); cbn in *; congruence.
Qed.
Ltac same H := apply hskel_ser in H.
Lemma pass_rel : forall chk p p' subs subs' ann b b', hrell subs subs' -> hskel e b = hskel e b' ->
  hrel (pass fin spec idf chk p subs ann b) (pass fin' spec' idf' chk p' subs' ann b').
Proof.
  intros chk p p' subs subs' ann b b' S B. unfold pass.
  eapply rrel_bind with (f := hskel e).
  { destruct chk; [|exact B]. apply step_rel; auto. intros _. same B.
    destruct b, b'; try contradiction; try discriminate B; cbn; auto; try congruence;
      destruct ann; cbn; congruence. }
  clear b b' B. intros b b' B.
  eapply rrel_bind with (f := hskel e).
  { apply step_rel; auto. intros _. same B. destruct b, b'; try contradiction; try discriminate B; cbn [tr_tuple]; try (cbn; reflexivity).
    injection B as ->. destruct args0 as [|a args]; [cbn; reflexivity|].
    destruct (existsb _ _); [cbn; reflexivity|].
    eapply rrel_bind; [exact S|]. intros l l' L. apply all_sers_rel in L.
    destruct (all_sers l), (all_sers l'); cbn in L; try discriminate; [|cbn; reflexivity].
    eapply rrel_bind; [apply (ssum_rel' fin fin' e FE); [reflexivity|congruence]|].
    intros s s' Hs. cbn. congruence. }
  clear b b' B. intros b b' B.
  eapply rrel_bind with (f := hskel e).
  { apply step_rel; auto. intros _. destruct ann; try (cbn; reflexivity). cbn [tr_seras].
    assert (A : act_of b = act_of b').
    { same B. destruct b, b'; try contradiction; try discriminate B; cbn; congruence. }
    rewrite A. cbn. reflexivity. }
  clear b b' B. intros b b' B.
  eapply rrel_bind with (f := hskel e).
  { apply step_rel; auto. intros _. destruct ann; try (cbn; reflexivity). cbn [tr_cond]. same B.
    destruct b, b'; try contradiction; try discriminate B; try (cbn; reflexivity).
    rewrite <- (skel_num e s), <- (skel_num e s0), B. destruct (Nat.eqb _ _); cbn; congruence. }
  clear b b' B. intros b b' B.
  eapply rrel_bind with (f := hskel e).
  { apply step_rel; auto. intros _. destruct ann; try (cbn; reflexivity). cbn [tr_union].
    destruct (is_decider s); [|cbn; reflexivity]. same B.
    destruct b, b'; try contradiction; try discriminate B; try (cbn; reflexivity).
    injection B as ->. destruct args0 as [|a args]; [cbn; reflexivity|].
    eapply rrel_bind; [exact S|]. intros l l' L. apply all_sers_rel in L.
    destruct (all_sers l), (all_sers l'); cbn in L; try discriminate; cbn; reflexivity. }
  clear b b' B. intros b b' B.
  eapply rrel_bind with (f := hskel e).
  { apply step_rel; auto. intros _. same B. destruct b, b'; try contradiction; try discriminate B; cbn; reflexivity. }
  clear b b' B. intros b b' B.
  eapply rrel_bind with (f := hskel e).
  { apply step_rel; auto. intros _. same B. destruct b, b'; try contradiction; try discriminate B; try (cbn; reflexivity).
    - injection B as ->. cbn. reflexivity.
    - injection B as -> ->. cbn [tr_structured]. destruct (existsb is_tv args0); [cbn; reflexivity|].
      assert (SR : rrel e (fun k => if e then 0%nat else k) (spec c0 args0) (spec' c0 args0)).
      { clear S. destruct e.
        - destruct (spec c0 args0), (spec' c0 args0); cbn; auto. intros X; discriminate X.
        - rewrite (SE eq_refl). destruct (spec' c0 args0); cbn; auto. }
      eapply rrel_bind; [exact SR|]. intros k k' K. cbn. destruct e; congruence. }
  clear b b' B. intros b b' B.
  eapply rrel_bind with (f := hskel e).
  { apply step_rel; auto. intros _. same B. destruct b, b'; try contradiction; try discriminate B; cbn; auto;
      destruct ann; cbn; auto. }
  clear b b' B. intros b b' B.
  apply step_rel; auto. intros _. destruct ann; cbn; reflexivity.
Qed.
Lemma passes_rel : forall chk p p' subs subs' anns b b', hrell subs subs' -> hskel e b = hskel e b' ->
  hrel (passes fin spec idf chk p subs anns b) (passes fin' spec' idf' chk p' subs' anns b').
Proof.
  induction anns as [|a anns IH]; cbn [passes]; intros b b' S B; [exact B|].
  eapply rrel_bind; [now apply pass_rel|]. intros x y D. now apply IH.
Qed.
Lemma gosub_rel : forall l, Forall (fun h => forall chk p p',
    hrel (transform fin spec idf chk p h) (transform fin' spec' idf' chk p' h)) l ->
  forall p p' i i', hrell (gosub fin spec idf p i l) (gosub fin' spec' idf' p' i' l).
Proof.
  induction 1 as [|h l H _ IH]; intros p p' i i'; cbn [gosub]; [cbn; reflexivity|].
  eapply rrel_bind; [apply H|]. intros x y D. eapply rrel_bind; [apply IH|]. intros xs ys Ds. cbn. congruence.
Qed.
(** the result of a transformation up to identities depends on the hint only *)
Theorem transform_rel : forall h chk p p',
  hrel (transform fin spec idf chk p h) (transform fin' spec' idf' chk p' h).
Proof.
  intros h.
  assert (Q : (forall chk p p', hrel (transform fin spec idf chk p h) (transform fin' spec' idf' chk p' h)) /\
    Forall (fun h => forall chk p p', hrel (transform fin spec idf chk p h) (transform fin' spec' idf' chk p' h)) (hargs h));
    [|apply Q].
  induction h using pyh_ind'.
  - split; [|constructor]. intros chk p p'. rewrite !transform_eq. apply passes_rel; [|reflexivity].
    cbn [hbase]. apply gosub_rel. apply IHh.
  - assert (F : Forall (fun h => forall chk p p', hrel (transform fin spec idf chk p h) (transform fin' spec' idf' chk p' h)) l)
      by (eapply Forall_impl; [|exact H]; intros a Ha; apply Ha).
    split; [|exact F]. intros. rewrite !transform_eq. apply passes_rel; [|reflexivity]. now apply gosub_rel.
  - assert (F : Forall (fun h => forall chk p p', hrel (transform fin spec idf chk p h) (transform fin' spec' idf' chk p' h)) l)
      by (eapply Forall_impl; [|exact H]; intros a Ha; apply Ha).
    split; [|exact F]. intros. rewrite !transform_eq. apply passes_rel; [|reflexivity]. now apply gosub_rel.
  - split; [|constructor]. intros. rewrite !transform_eq. apply passes_rel; reflexivity.
  - split; [|constructor]. intros. rewrite !transform_eq. apply passes_rel; reflexivity.
  - split; [|constructor]. intros. rewrite !transform_eq. apply passes_rel; reflexivity.
  - split; [|constructor]. intros. rewrite !transform_eq. apply passes_rel; reflexivity.
  - split; [|destruct h; try contradiction; constructor]. intros. rewrite !transform_eq. apply passes_rel; [|reflexivity].
    destruct h; try contradiction; reflexivity.
Qed.
End TRel.
