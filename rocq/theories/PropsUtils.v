(** Property C51: the strict zip, attrgetter, and what unpacking does on Python 3.9. *)
From Verif Require Import Base Floats Value StructMod Format Ser Exec Pure BaseFacts StructFacts FormatFacts SerFacts
  RefPack RefUnpack Leaf Wire RoundTrip Sample User PropsStrings PropsNum HintFacts Utils.

(** ** zip *)
Section ZipSpec.
Context {A : Type}.
(** number of rows: the length of the shortest *)
Definition shortest (first : list A) (rest : list (list A)) : nat :=
  fold_right Nat.min (List.length first) (map (@List.length A) rest).
(** row [i]: the items at position [i] *)
Definition row_at (d : A) (its : list (list A)) (i : nat) : list A := map (fun l => nth i l d) its.

Lemma pull_some : forall (its : list (list A)) row its', pull its = (Some row, its') ->
  Forall (fun l => l <> []) its /\ its' = map (@tl A) its /\ forall d, row = row_at d its 0.
Proof.
  induction its as [|[|a l] its IH]; intros row its' H; cbn in H.
  - injection H as <- <-. split; [constructor|split; reflexivity].
  - discriminate.
  - destruct (pull its) as [[r|] its1]; [|discriminate]. injection H as <- <-.
    destruct (IH _ _ eq_refl) as (F & -> & R). split; [constructor; [discriminate|exact F]|]. split; [reflexivity|].
    intros d. cbn. f_equal. apply R.
Qed.
Lemma pull_none : forall (its its' : list (list A)), pull its = (None, its') ->
  exists r1 r2, its = r1 ++ [] :: r2 /\ Forall (fun l => l <> []) r1 /\ its' = map (@tl A) r1 ++ [] :: r2.
Proof.
  induction its as [|[|a l] its IH]; intros its' H; cbn in H.
  - discriminate.
  - injection H as <-. exists [], its. repeat split. constructor.
  - destruct (pull its) as [[r|] its1]; [discriminate|]. injection H as <-.
    destruct (IH _ eq_refl) as (r1 & r2 & -> & F & ->). exists ((a :: l) :: r1), r2.
    split; [reflexivity|]. split; [constructor; [discriminate|exact F]|reflexivity].
Qed.
Lemma pull_all : forall (its : list (list A)), Forall (fun l => l <> []) its -> exists row, pull its = (Some row, map (@tl A) its).
Proof.
  induction its as [|[|a l] its IH]; intros F; inversion F; subst; [eexists; reflexivity|congruence|].
  destruct (IH H2) as [r E]. cbn. rewrite E. eauto.
Qed.

Lemma shortest_tl : forall a l rest, Forall (fun l : list A => l <> []) rest ->
  shortest (a :: l) rest = S (shortest l (map (@tl A) rest)).
Proof.
  intros a l rest. unfold shortest. induction rest as [|x rest IH]; intros F; [reflexivity|].
  inversion F; subst. cbn [map fold_right]. rewrite IH by assumption. destruct x; [congruence|]. cbn [tl List.length]. lia.
Qed.
Lemma shortest_none : forall l r1 r2, shortest l (r1 ++ ([] : list A) :: r2) = 0%nat.
Proof. intros l r1 r2. unfold shortest. rewrite map_app, fold_right_app. cbn. induction r1; [reflexivity|]. cbn. lia. Qed.
Lemma rows_tl : forall d a l rest n, Forall (fun l : list A => l <> []) rest ->
  map (row_at d ((a :: l) :: rest)) (seq 1 n) = map (row_at d (l :: map (@tl A) rest)) (seq 0 n).
Proof.
  intros d a l rest n F. rewrite <- seq_shift, map_map. apply map_ext. intros i. unfold row_at. cbn [map]. f_equal.
  rewrite map_map. clear -F. induction F; [reflexivity|]. cbn. rewrite IHF. f_equal. destruct x; [congruence|reflexivity].
Qed.

Lemma strict_rows : forall d first rest,
  fst (zip_strict first rest) = map (row_at d (first :: rest)) (seq 0 (shortest first rest)).
Proof.
  intros d. induction first as [|a l IH]; intros rest.
  - assert (E : shortest ([] : list A) rest = 0%nat) by (unfold shortest; induction rest; [reflexivity|cbn in *; lia]).
    rewrite E. reflexivity.
  - cbn [zip_strict]. destruct (pull rest) as [[row|] rest'] eqn:P.
    + apply pull_some in P as (F & -> & R). rewrite shortest_tl by exact F. specialize (IH (map (@tl A) rest)).
      destruct (zip_strict l (map (@tl A) rest)) as [rows e]. cbn [fst] in *. cbn [seq map].
      rewrite rows_tl by exact F. rewrite <- IH, (R d). reflexivity.
    + apply pull_none in P as (r1 & r2 & -> & F & ->). rewrite shortest_none. reflexivity.
Qed.
Lemma loop_rows : forall d first rest,
  fst (zip_loop first rest) = map (row_at d (first :: rest)) (seq 0 (shortest first rest)).
Proof.
  intros d. induction first as [|a l IH]; intros rest.
  - assert (E : shortest ([] : list A) rest = 0%nat) by (unfold shortest; induction rest; [reflexivity|cbn in *; lia]).
    rewrite E. reflexivity.
  - cbn [zip_loop]. destruct (pull rest) as [[row|] rest'] eqn:P.
    + apply pull_some in P as (F & -> & R). rewrite shortest_tl by exact F. specialize (IH (map (@tl A) rest)).
      destruct (zip_loop l (map (@tl A) rest)) as [rows e]. cbn [fst] in *. cbn [seq map].
      rewrite rows_tl by exact F. rewrite <- IH, (R d). reflexivity.
    + apply pull_none in P as (r1 & r2 & -> & F & ->). rewrite shortest_none. reflexivity.
Qed.
Lemma exhausted_len : forall its : list (list A), forallb exhausted its = true <-> Forall (fun l => List.length l = 0%nat) its.
Proof.
  induction its as [|[|a l] its IH]; cbn; [split; auto|rewrite IH; split; intros H; [now constructor|now inversion H]|].
  split; [discriminate|]. intros H. inversion H. discriminate.
Qed.
Lemma tl_len : forall n (its : list (list A)), Forall (fun l => l <> []) its ->
  (Forall (fun l => List.length l = n) (map (@tl A) its) <-> Forall (fun l => List.length l = S n) its).
Proof.
  intros n its F. induction F as [|[|a l] its N F IH]; cbn [map tl]; [split; constructor|congruence|].
  split; intros H; inversion H; subst; constructor; cbn in *; try lia; now apply IH.
Qed.

Lemma strict_ok : forall first rest,
  snd (zip_strict first rest) = None <-> Forall (fun l : list A => List.length l = List.length first) rest.
Proof.
  induction first as [|a l IH]; intros rest; cbn [zip_strict].
  - cbn [snd List.length]. rewrite <- exhausted_len. destruct (forallb exhausted rest); split; congruence.
  - destruct (pull rest) as [[row|] rest'] eqn:P.
    + apply pull_some in P as (F & -> & R). specialize (IH (map (@tl A) rest)).
      destruct (zip_strict l (map (@tl A) rest)) as [rows e]. cbn [snd List.length] in *. rewrite IH. now apply tl_len.
    + apply pull_none in P as (r1 & r2 & -> & F & ->). split; [discriminate|]. intros H. exfalso.
      rewrite Forall_app in H. destruct H as [_ H]. inversion H. discriminate.
Qed.
Lemma strict_err : forall first rest e, snd (@zip_strict A first rest) = Some e -> e = ValueError.
Proof.
  induction first as [|a l IH]; intros rest e; cbn [zip_strict].
  - cbn [snd]. destruct (forallb exhausted rest); congruence.
  - destruct (pull rest) as [[row|] rest']; [|cbn; congruence]. specialize (IH rest').
    destruct (zip_strict l rest'). cbn [snd] in *. auto.
Qed.

(** what the replacement lets pass: [l] is the first of the shortest, those before it have one item more, those after
    it as many *)
Definition passes39 (its : list (list A)) : Prop := exists before l after, its = before ++ l :: after /\
  Forall (fun x => List.length x = S (List.length l)) before /\ Forall (fun x => List.length x = List.length l) after.

Lemma aligned : forall r1 r2 before (l : list A) after, List.length l = 0%nat -> Forall (fun x => x <> []) r1 ->
  r1 ++ [] :: r2 = before ++ l :: after -> Forall (fun x => List.length x = 1%nat) before ->
  Forall (fun x => List.length x = 0%nat) after ->
  Forall (fun x => List.length x = 1%nat) r1 /\ Forall (fun x => List.length x = 0%nat) r2.
Proof.
  induction r1 as [|x r1 IH]; intros r2 before l after L N E B F.
  - split; [constructor|]. destruct before as [|b before]; cbn in E; injection E as E1 E2; subst; [exact F|].
    inversion B. discriminate.
  - inversion N; subst. destruct before as [|b before]; cbn in E; injection E as E1 E; subst.
    + destruct l; [congruence|discriminate].
    + inversion B; subst. destruct (IH _ _ _ _ L H2 E H4 F). split; [now constructor|assumption].
Qed.
Lemma passes_tl : forall its, Forall (fun l : list A => l <> []) its -> passes39 (map (@tl A) its) <-> passes39 its.
Proof.
  intros its N. split; intros (b & l & f & E & B & F).
  - apply map_eq_app in E as (b0 & r0 & -> & Eb & Er). destruct r0 as [|l0 f0]; [discriminate|].
    cbn in Er. injection Er as El Ef. rewrite Forall_app in N. destruct N as [Nb Nf]. inversion Nf; subst.
    assert (L : List.length l0 = S (List.length (tl l0))) by (destruct l0; [congruence|reflexivity]).
    exists b0, l0, f0. split; [reflexivity|]. rewrite L. split; [now apply tl_len|now apply tl_len].
  - subst its. rewrite Forall_app in N. destruct N as [Nb Nf]. inversion Nf; subst.
    assert (L : List.length l = S (List.length (tl l))) by (destruct l; [congruence|reflexivity]).
    exists (map (@tl A) b), (tl l), (map (@tl A) f). rewrite map_app. split; [reflexivity|].
    rewrite L in B, F. split; [now apply tl_len in B|now apply tl_len in F].
Qed.
Lemma zips_ok : forall first rest, snd (zips true first rest) = None <-> passes39 (first :: rest).
Proof.
  unfold zips. induction first as [|a l IH]; intros rest; cbn [zip_loop].
  - cbn [snd forallb exhausted andb]. split.
    + intros H. destruct (forallb exhausted rest) eqn:X; [|discriminate]. apply exhausted_len in X.
      exists [], [], rest. repeat split; [constructor|exact X].
    + intros (b & x & f & E & B & F). destruct b as [|b0 b]; cbn in E; injection E as E1 E2.
      * subst. apply exhausted_len in F. now rewrite F.
      * subst b0. inversion B. discriminate.
  - destruct (pull rest) as [[row|] rest'] eqn:P.
    + apply pull_some in P as (N & -> & R). specialize (IH (map (@tl A) rest)).
      destruct (zip_loop l (map (@tl A) rest)) as [rows its]. cbn [snd] in *. rewrite IH.
      apply (passes_tl ((a :: l) :: rest)). constructor; [discriminate|exact N].
    + apply pull_none in P as (r1 & r2 & -> & N & ->). cbn [snd]. split.
      * intros H. destruct (forallb exhausted (l :: map (@tl A) r1 ++ [] :: r2)) eqn:X; [|discriminate].
        apply exhausted_len in X. inversion X as [|? ? L X']; subst. apply Forall_app in X' as [X1 X2]. inversion X2; subst.
        exists ((a :: l) :: r1), [], r2. split; [reflexivity|]. cbn [List.length]. split; [|assumption].
        constructor; [cbn; lia|]. now apply tl_len.
      * intros (b & x & f & E & B & F).
        assert (L : List.length x = 0%nat).
        { assert (I : In [] (b ++ x :: f)) by (rewrite <- E; right; apply in_or_app; right; now left).
          apply in_app_or in I as [I|[I|I]]; [|now subst|].
          - rewrite Forall_forall in B. apply B in I. discriminate I.
          - rewrite Forall_forall in F. apply F in I. now rewrite <- I. }
        rewrite L in B, F.
        destruct (aligned ((a :: l) :: r1) r2 b x f L) as [R1 R2]; [constructor; [discriminate|exact N]|exact E|exact B|exact F|].
        inversion R1; subst.
        assert (X : forallb exhausted (l :: map (@tl A) r1 ++ [] :: r2) = true).
        { apply exhausted_len. constructor; [cbn in *; lia|]. apply Forall_app. split; [now apply tl_len|now constructor]. }
        now rewrite X.
Qed.
End ZipSpec.

(** C51: both versions give the rows of the items at the same position, as many as the shortest iterable has items *)
Theorem C51_rows : forall (A : Type) (d : A) first rest strict,
  let rows := map (row_at d (first :: rest)) (seq 0 (shortest first rest)) in
  fst (zip_strict first rest) = rows /\ fst (zips strict first rest) = rows.
Proof.
  intros A d first rest strict rows. split; [apply strict_rows|]. unfold zips. pose proof (loop_rows d first rest) as H.
  destruct (zip_loop first rest). exact H.
Qed.
Print Assumptions C51_rows.
(** C51: Python >= 3.10: ValueError after the last row unless all are of the same length *)
Theorem C51_strict : forall (A : Type) (first : list A) rest,
  (Forall (fun l => List.length l = List.length first) rest -> snd (zip_strict first rest) = None) /\
  (~ Forall (fun l => List.length l = List.length first) rest -> snd (zip_strict first rest) = Some ValueError).
Proof.
  intros A first rest. rewrite <- strict_ok. split; [auto|]. intros N.
  destruct (snd (zip_strict first rest)) as [e|] eqn:E; [|contradiction]. f_equal. eapply strict_err; eauto.
Qed.
Print Assumptions C51_strict.
(** C51: Python 3.9: exactly what passes the check *)
Theorem C51_python39 : forall (A : Type) (first : list A) rest,
  (snd (zips true first rest) = None <-> passes39 (first :: rest)) /\
  (snd (zips true first rest) = None \/ snd (zips true first rest) = Some ValueError) /\
  snd (zips false first rest) = None.
Proof.
  intros A first rest. split; [apply zips_ok|]. unfold zips. destruct (zip_loop first rest) as [rows its]. cbn.
  destruct (forallb exhausted its); auto.
Qed.
Print Assumptions C51_python39.
(** C51: of two iterables the first may have one item too many *)
Corollary C51_two : forall (A : Type) (names vals : list A),
  (snd (zip_strict names [vals]) = None <-> List.length vals = List.length names) /\
  (snd (zips true names [vals]) = None <->
   List.length vals = List.length names \/ S (List.length vals) = List.length names).
Proof.
  intros A names vals. split.
  - rewrite strict_ok. split; intros H; [now inversion H|now constructor].
  - rewrite zips_ok. split.
    + intros (b & l & f & E & B & F). destruct b as [|b0 [|b1 [|]]]; cbn in E; try discriminate.
      * injection E as <- <-. inversion F; subst. auto.
      * injection E as <- <- <-. inversion B; subst. auto.
    + intros [H|H]; [exists [], names, [vals]|exists [names], vals, []]; split; try reflexivity; split; auto.
Qed.
Print Assumptions C51_two.
(** the replacement does not emulate [strict=True] *)
Theorem C51_emulation_refuted : exists (names vals : list nat),
  zip_strict names [vals] = ([[1; 7]], Some ValueError)%nat /\ zips true names [vals] = ([[1; 7]], None)%nat.
Proof. exists [1; 2]%nat, [7]%nat. split; reflexivity. Qed.
Print Assumptions C51_emulation_refuted.
Example C51_zip_nontrivial :
  zip_strict [1; 2]%nat [[3; 4]; [5; 6]]%nat = ([[1; 3; 5]; [2; 4; 6]]%nat, None) /\
  zips true [1; 2]%nat [[3; 4]; [5; 6]]%nat = ([[1; 3; 5]; [2; 4; 6]]%nat, None) /\
  zips true [1; 2; 3]%nat [[4]]%nat = ([[1; 4]]%nat, Some ValueError) /\
  zips true [1]%nat [[4; 5]]%nat = ([[1; 4]]%nat, Some ValueError) /\
  zips true [1; 2]%nat [[4; 5]; [6]]%nat = ([[1; 4; 6]]%nat, None).
Proof. repeat split. Qed.

(** ** The two ends of the assignment loop *)
(** [for attr, value in rows: setattr(obj, attr, value)] on the attribute dictionary *)
Definition setattrs (rows : list (list (string + value))) (d : list (string * value)) : list (string * value) :=
  fold_left (fun d row => match row with [inl a; inr v] => assoc_set a v d | _ => d end) rows d.
(** the loops of Exec.v and Utils.v over a finished tuple of values are those over the rows of the zips *)
Theorem C51_loop : forall names vs d,
  let z := zip_strict (map inl names) [map inr vs] in
  let z9 := zips true (map inl names) [map inr vs] in
  (match assign names vs d with
   | (Some [], d') => (None, d') | (_, d') => (Some ValueError, d')
   end = (snd z, setattrs (fst z) d)) /\
  (match assign names vs d with
   | (Some ([] | [_]), d') => (None, d') | (_, d') => (Some ValueError, d')
   end = (snd z9, setattrs (fst z9) d)).
Proof.
  induction names as [|a names IH]; intros vs d.
  - destruct vs as [|v vs]; split; reflexivity.
  - destruct vs as [|v vs].
    + split; [reflexivity|]. cbn. destruct names; reflexivity.
    + specialize (IH vs (assoc_set a v d)). cbn [assign map zip_strict zips pull]. unfold zips in *. cbn [map zip_loop pull].
      destruct (zip_strict (map inl names) [map inr vs]) as [rows e].
      destruct (zip_loop (map inl names) [map inr vs]) as [rows9 its]. cbn [fst snd setattrs fold_left] in *.
      destruct IH as [I1 I2]. split; [exact I1|exact I2].
Qed.
Print Assumptions C51_loop.

(** ** attrgetter *)
Fixpoint has_dot (s : string) : bool :=
  match s with EmptyString => false | String c s' => Ascii.eqb c "."%char || has_dot s' end.
Lemma split_nodot : forall s, has_dot s = false -> split_dots s = [s].
Proof.
  induction s as [|c s IH]; intros H; [reflexivity|]. cbn in *. apply orb_false_iff in H as [H1 H2]. rewrite H1, IH by exact H2.
  reflexivity.
Qed.
(** C51: the values of the attributes in order, for any number of them; AttributeError for the first that is missing *)
Theorem C51_attrgetter : forall names c ov d, Forall (fun a => has_dot a = false) names ->
  attrgetter names (VObj c ov d) = get_attrs names d.
Proof.
  intros names c ov d F.
  assert (P : forall a, has_dot a = false -> getattr_path (VObj c ov d) (split_dots a)
                      = match assoc a d with Some v => Ok v | None => Err AttributeError end).
  { intros a N. rewrite split_nodot by exact N. cbn. destruct (assoc a d); reflexivity. }
  assert (R : rmapM (fun a => getattr_path (VObj c ov d) (split_dots a)) names = get_attrs names d).
  { unfold get_attrs. clear -F P. induction F; [reflexivity|]. cbn [rmapM]. rewrite P by assumption.
    destruct (assoc x d); [|reflexivity]. cbn [rbind]. now rewrite IHF. }
  destruct names as [|a [|b names]]; [reflexivity| |].
  - cbn [attrgetter operator_attrgetter]. inversion F; subst. rewrite P by assumption. unfold get_attrs. cbn.
    destruct (assoc a d); reflexivity.
  - cbn [attrgetter operator_attrgetter]. rewrite R. destruct (get_attrs (a :: b :: names) d); reflexivity.
Qed.
Print Assumptions C51_attrgetter.
Lemma split_some : forall s, split_dots s <> [].
Proof. destruct s as [|c s]; cbn; [discriminate|]. destruct (Ascii.eqb c "."%char); [discriminate|]. destruct (split_dots s); discriminate. Qed.
Lemma split_first : forall a b, has_dot a = false -> split_dots (a ++ "." ++ b)%string = a :: split_dots b.
Proof.
  induction a as [|c a IH]; intros b H; [reflexivity|]. cbn in H. apply orb_false_iff in H as [H1 H2].
  change ((String c a ++ "." ++ b)%string) with (String c (a ++ "." ++ b)%string). cbn [split_dots]. rewrite H1, IH by exact H2. reflexivity.
Qed.
(** a dotted name: the attribute of the attribute *)
Theorem C51_dotted : forall a b v, has_dot a = false ->
  attrgetter [(a ++ "." ++ b)%string] v =
  match attrgetter [a] v with Ok [x] => attrgetter [b] x | Ok _ => Err TypeError | Err e => Err e end.
Proof.
  intros a b v H. cbn [attrgetter operator_attrgetter]. rewrite split_first, (split_nodot a) by exact H. cbn [getattr_path].
  destruct (getattr_value v a) as [x|e]; reflexivity.
Qed.
Print Assumptions C51_dotted.
Example C51_attrgetter_nontrivial :
  attrgetter ["b"; "a"]%string (VObj 0 None [("a"%string, VInt 1); ("b"%string, VInt 2)]) = Ok [VInt 2; VInt 1] /\
  attrgetter ["a"]%string (VObj 0 None [("a"%string, VInt 1)]) = Ok [VInt 1] /\
  attrgetter [] (VObj 0 None []) = Ok [] /\
  attrgetter ["a"; "b"]%string (VObj 0 None [("a"%string, VInt 1)]) = Err AttributeError /\
  attrgetter ["p.x"]%string (VObj 0 None [("p"%string, VObj 1 None [("x"%string, VInt 7)])]) = Ok [VInt 7].
Proof. repeat split. Qed.

(** ** Unpacking on Python 3.9 *)
(** same result up to the kind of the exception, same state afterwards *)
Definition alike {A} (p q : res A * world) : Prop :=
  snd p = snd q /\
  match fst p, fst q with Ok a, Ok b => a = b | Err _, Err _ => True | _, _ => False end.
Definition malike {A} (m m' : M A) : Prop := forall w, alike (m w) (m' w).
Lemma al_refl : forall A (m : M A), malike m m.
Proof. intros A m w. split; [reflexivity|]. destruct (fst (m w)); reflexivity. Qed.
Lemma al_bind : forall A B (m m' : M A) (f f' : A -> M B), malike m m' -> (forall a, malike (f a) (f' a)) ->
  malike (bind m f) (bind m' f').
Proof.
  intros A B m m' f f' Hm Hf w. unfold bind. destruct (Hm w) as [E R].
  destruct (m w) as [[a|e] w1], (m' w) as [[a'|e'] w2]; cbn in *; try contradiction; subst; [apply Hf|split; [reflexivity|exact I]].
Qed.

Section On39.
Variable hb : bool.
Variable ct : nat -> option cdef.
Hypothesis ND : forall c cd, ct c = Some cd -> NoDup (c_attrs cd).

Definition recs_alike (rec rec' : ser -> src -> M (list value)) : Prop := forall x s, malike (rec x s) (rec' x s).

Section Step.
Variables rec rec' : ser -> src -> M (list value).
Hypothesis R : recs_alike rec rec'.

Lemma al_items : forall item s n size, malike (unpack_items hb rec item s n size) (unpack_items hb rec' item s n size).
Proof.
  intros item s n. induction n as [|n IH]; intros size; cbn [unpack_items]; [apply al_refl|].
  apply al_bind; [apply R|]. intros vs. apply al_bind; [apply al_refl|]. intros z. apply al_bind; [apply IH|]. intros [? ?]. apply al_refl.
Qed.
Lemma al_subs : forall pre subs s size, malike (unpack_subs hb rec pre subs s size) (unpack_subs hb rec' pre subs s size).
Proof.
  intros pre subs s. induction subs as [|x subs IH]; intros size; cbn [unpack_subs]; [apply al_refl|].
  apply al_bind; [apply al_refl|]. intros x'. apply al_bind; [apply R|]. intros vs. apply al_bind; [apply al_refl|].
  intros z. apply al_bind; [apply IH|]. intros [? ?]. apply al_refl.
Qed.

(** the names left over when the values end *)
Definition left_over (names names' : list string) (d d' : list (string * value)) : Prop :=
  exists done, names = done ++ names' /\ forall a, ~ In a done -> assoc a d' = assoc a d.
Lemma lo_refl : forall names d, left_over names names d d.
Proof. intros. exists []. auto. Qed.
Lemma lo_trans : forall n1 n2 n3 d1 d2 d3, left_over n1 n2 d1 d2 -> left_over n2 n3 d2 d3 -> left_over n1 n3 d1 d3.
Proof.
  intros n1 n2 n3 d1 d2 d3 (x & -> & X) (y & -> & Y). exists (x ++ y). rewrite app_assoc. split; [reflexivity|].
  intros a N. rewrite Y, X; [reflexivity| |]; intros I; apply N; apply in_or_app; auto.
Qed.
Lemma lo_assign : forall vs names d names' d', assign names vs d = (Some names', d') -> left_over names names' d d'.
Proof.
  induction vs as [|v vs IH]; intros names d names' d' H.
  - destruct names; cbn in H; injection H as <- <-; apply lo_refl.
  - destruct names as [|a names]; [discriminate|]. cbn in H. apply IH in H as (x & -> & X). exists (a :: x).
    split; [reflexivity|]. intros b N. cbn in N. rewrite X by tauto. rewrite assoc_set_eq.
    destruct (String.eqb_spec b a); [|reflexivity]. subst. tauto.
Qed.

Lemma al_fill_subs : forall pre subs s size names d w,
  snd (fill_subs hb rec pre subs s size names d w) = snd (fill_subs hb rec' pre subs s size names d w) /\
  snd (fst (fill_subs hb rec pre subs s size names d w)) = snd (fst (fill_subs hb rec' pre subs s size names d w)) /\
  match fst (fst (fill_subs hb rec pre subs s size names d w)), fst (fst (fill_subs hb rec' pre subs s size names d w)) with
  | Ok a, Ok b => a = b /\ left_over names (fst a) d (snd (fst (fill_subs hb rec pre subs s size names d w)))
  | Err _, Err _ => True
  | _, _ => False
  end.
Proof.
  intros pre subs s. induction subs as [|x subs IH]; intros size names d w; cbn [fill_subs].
  - cbn. repeat split. apply lo_refl.
  - match goal with |- context [bind ?m ?f w] => set (mm := bind m f) end.
    match goal with |- context [match ?m' w with _ => _ end] =>
      match m' with mm => fail 1 | bind ?a ?b => set (mm' := bind a b) end end.
    assert (A : malike mm mm').
    { subst mm mm'. apply al_bind; [apply al_refl|]. intros x'. apply al_bind; [apply R|]. intros vs. apply al_refl. }
    destruct (A w) as [E F]. destruct (mm w) as [[[x' vs]|e] w1], (mm' w) as [[[x2 vs2]|e'] w2]; cbn in E, F; try contradiction.
    + injection F as <- <-. subst w2. destruct (assign names vs d) as [[names'|] d'] eqn:AS; [|cbn; auto].
      destruct (get_size hb x' w1) as [[z|e] w3]; [|cbn; auto].
      destruct (IH (size + z) names' d' w3) as (I1 & I2 & I3). split; [exact I1|]. split; [exact I2|].
      destruct (fst (fst (fill_subs hb rec pre subs s (size + z) names' d' w3))) as [a|e1],
               (fst (fst (fill_subs hb rec' pre subs s (size + z) names' d' w3))) as [b|e2]; try exact I3.
      destruct I3 as [-> L]. split; [reflexivity|]. eapply lo_trans; [eapply lo_assign; exact AS|exact L].
    + subst. cbn. auto.
Qed.

(** how the two versions of the loop compare: [p] on Python >= 3.10, [q] on Python 3.9 *)
Definition compared (names : list string) (d : list (string * value)) (p q : res unit * list (string * value) * world) : Prop :=
  snd p = snd q /\ snd (fst p) = snd (fst q) /\
  match fst (fst p), fst (fst q) with
  | Ok _, Ok _ => True
  | Err _, Err _ => True
  | Ok _, Err _ => False
  | Err e, Ok _ => e = ValueError /\ exists done a, names = done ++ [a] /\ (NoDup names -> assoc a (snd (fst q)) = assoc a d)
  end.
Lemma lo_last : forall names d names' d', left_over names names' d d' -> forall a, names' = [a] ->
  exists done b, names = done ++ [b] /\ (NoDup names -> assoc b d' = assoc b d).
Proof.
  intros names d names' d' (done & -> & L) a ->. exists done, a. split; [reflexivity|]. intros N. apply L.
  intros I. apply NoDup_remove_2 in N. apply N. rewrite app_nil_r. exact I.
Qed.
Lemma cmp_finish : forall names d names' d' w, left_over names names' d d' ->
  compared names d (match names' with [] => (Ok tt, d', w) | _ => (Err ValueError, d', w) end)
                   (match names' with [] | [_] => (Ok tt, d', w) | _ => (Err ValueError, d', w) end).
Proof.
  intros names d names' d' w L. unfold compared. destruct names' as [|a [|b r]]; cbn; repeat split; auto.
  eapply lo_last; eauto.
Qed.
Lemma cmp_fill : forall x s names d w, compared names d (fill hb rec x s names d w) (fill39 hb rec' x s names d w).
Proof.
  intros x s names d w.
  assert (SUB : forall id pre subs,
    compared names d
      (match fill_subs hb rec pre subs s 0 names d w with
       | (Err e, d', w') => (Err e, d', w')
       | (Ok (names', size), d', w') =>
           match names' with [] => (Ok tt, d', snd (set_size id size w')) | _ => (Err ValueError, d', snd (set_size id size w')) end
       end)
      (match fill_subs hb rec' pre subs s 0 names d w with
       | (Err e, d', w') => (Err e, d', w')
       | (Ok (names', size), d', w') =>
           match names' with [] | [_] => (Ok tt, d', snd (set_size id size w')) | _ => (Err ValueError, d', snd (set_size id size w')) end
       end)).
  { intros id pre subs. destruct (al_fill_subs pre subs s 0 names d w) as (E1 & E2 & E3).
    destruct (fill_subs hb rec pre subs s 0 names d w) as [[[[n1 z1]|e1] d1] w1],
             (fill_subs hb rec' pre subs s 0 names d w) as [[[[n2 z2]|e2] d2] w2]; cbn in E1, E2, E3; try contradiction; subst.
    - destruct E3 as [E3 L]. injection E3 as -> ->. now apply cmp_finish.
    - cbn. repeat split. }
  assert (ONE :
    compared names d
      (match rec x s w with
       | (Err e, w') => (Err e, d, w')
       | (Ok vs, w') => match assign names vs d with
                        | (None, d') => (Err ValueError, d', w')
                        | (Some names', d') => match names' with [] => (Ok tt, d', w') | _ => (Err ValueError, d', w') end
                        end
       end)
      (match rec' x s w with
       | (Err e, w') => (Err e, d, w')
       | (Ok vs, w') => match assign names vs d with
                        | (None, d') => (Err ValueError, d', w')
                        | (Some names', d') => match names' with [] | [_] => (Ok tt, d', w') | _ => (Err ValueError, d', w') end
                        end
       end)).
  { destruct (R x s w) as [E F]. destruct (rec x s w) as [[vs|e] w1], (rec' x s w) as [[vs'|e'] w2]; cbn in E, F; try contradiction; subst.
    - destruct (assign names vs' d) as [[names'|] d'] eqn:AS; [|cbn; repeat split]. apply cmp_finish. eapply lo_assign; eauto.
    - cbn. repeat split. }
  destruct x; cbn [fill fill39]; first [apply SUB|exact ONE].
Qed.

Lemma get_attrs_none : forall names d a, In a names -> assoc a d = None -> exists e, get_attrs names d = Err e.
Proof.
  intros names d a I N. unfold get_attrs. induction names as [|b names IH]; [contradiction|]. cbn [rmapM].
  destruct I as [->|I].
  - rewrite N. cbn. eauto.
  - destruct (assoc b d); cbn; [|eauto]. destruct (IH I) as [e ->]. cbn. eauto.
Qed.
Lemma al_create : forall c s, malike (create_step hb ct rec c s) (create_step39 hb ct rec' c s).
Proof.
  intros c s w. unfold create_step, create_step39. destruct (ct c) as [cd|] eqn:C; [|apply (al_refl _ (raise AttributeError))].
  destruct (prep false (c_ser cd) (PO c true []) w) as [[x|e] w1]; [|split; cbn; auto].
  destruct (cmp_fill x s (c_attrs cd) [] w1) as (E1 & E2 & E3).
  destruct (fill hb rec x s (c_attrs cd) [] w1) as [[[[]|e1] d1] w2], (fill39 hb rec' x s (c_attrs cd) [] w1) as [[[[]|e2] d2] w3];
    cbn in E1, E2, E3; try contradiction; subst.
  - split; [reflexivity|]. cbn. destruct (rmap _ _); reflexivity.
  - destruct E3 as (-> & done & a & E & L). split; [reflexivity|]. cbn.
    destruct (get_attrs_none (c_attrs cd) d2 a) as [e ->]; [rewrite E; apply in_or_app; right; now left|apply L; eapply ND; eauto|].
    exact I.
  - split; cbn; auto.
Qed.

Lemma al_step : forall x s, malike (unpack_step hb ct rec x s) (unpack_step39 hb ct rec' x s).
Proof.
  intros x s. destruct x; cbn [unpack_step39]; cbn [unpack_step]; try apply al_refl.
  - (* SUnicode *) apply al_bind; [apply R|]. intros. apply al_refl.
  - (* SArray *) apply al_bind; [apply al_refl|]. intros hv. apply al_bind; [apply al_refl|]. intros [count ds].
    apply al_bind; [apply al_refl|]. intros o. apply al_bind; [apply al_refl|]. intros item'.
    apply al_bind; [apply al_items|]. intros [? ?]. apply al_refl.
  - (* STuple *) apply al_bind; [apply al_refl|]. intros o. apply al_bind; [apply al_refl|]. intros inner'.
    destruct (is_compound inner'); [apply al_refl|]. apply al_bind; [apply R|]. intros. apply al_refl.
  - (* SLookback *) do 4 (apply al_bind; [apply al_refl|]; intros). apply al_bind; [apply R|]. intros. apply al_refl.
  - (* SLookahead *) apply al_bind; [apply R|]. intros rs. do 5 (apply al_bind; [apply al_refl|]; intros).
    apply al_bind; [apply R|]. intros. apply al_refl.
  - (* SStructd *) apply al_bind; [apply al_create|]. intros. apply al_refl.
  - apply al_bind; [apply al_subs|]. intros [? ?]. apply al_refl.
  - apply al_bind; [apply al_subs|]. intros [? ?]. apply al_refl.
Qed.
End Step.

Lemma al_unpack : forall n, recs_alike (unpack hb ct n) (unpack39 hb ct n).
Proof.
  induction n as [|n IH]; intros x s; [apply al_refl|]. cbn [unpack unpack39]. now apply al_step.
Qed.
End On39.

(** C51: creating objects.  On Python 3.9 [create_unpack], [create_unpack_from] and [create_unpack_read] succeed for
    the same bytes, with the same objects and the same state, as on later versions; only the exception may be another
    one.  This includes objects within objects.  (Attribute names are distinct: they are the keys of a dictionary.) *)
Theorem C51_create : forall hb ct n c s w, (forall c' cd, ct c' = Some cd -> NoDup (c_attrs cd)) ->
  let new := create_step hb ct (unpack hb ct n) c s w in
  let old := create39 hb ct n c s w in
  snd old = snd new /\ (forall v, fst old = Ok v <-> fst new = Ok v).
Proof.
  intros hb ct n c s w ND new old.
  destruct (al_create hb ct ND _ _ (al_unpack hb ct ND n) c s w) as [E F]. fold new in E, F.
  change (create_step39 hb ct (unpack39 hb ct n) c s w) with old in E, F. split; [now symmetry|]. intros v.
  destruct (fst new), (fst old); try contradiction; [subst; split; auto|split; discriminate].
Qed.
Print Assumptions C51_create.

(** C51: unpacking into an existing object.  The attributes and the state afterwards are the same; the outcome differs in one
    case only: ValueError on later versions, but no error on Python 3.9, where the last attribute keeps its old value. *)
Theorem C51_refill : forall hb ct n c ov d s w, (forall c' cd, ct c' = Some cd -> NoDup (c_attrs cd)) ->
  let new := Structured_unpack hb ct n c ov d s w in
  let old := Structured_unpack39 hb ct n c ov d s w in
  snd old = snd new /\ snd (fst old) = snd (fst new) /\
  (fst (fst new) = Ok tt -> fst (fst old) = Ok tt) /\
  (fst (fst old) = Ok tt -> fst (fst new) = Ok tt \/
     fst (fst new) = Err ValueError /\ exists cd names a, ct c = Some cd /\ c_attrs cd = names ++ [a] /\
       assoc a (snd (fst old)) = assoc a d).
Proof.
  intros hb ct n c ov d s w ND new old. subst new old. unfold Structured_unpack, Structured_unpack39, refill_step, refill_step39.
  destruct (ct c) as [cd|] eqn:C; [|repeat split; cbn; discriminate].
  destruct (prep false (obj_ser cd ov) (PO c false d) w) as [[x|e] w1]; [|repeat split; cbn; discriminate].
  destruct (cmp_fill hb _ _ (al_unpack hb ct ND n) x s (c_attrs cd) d w1) as (E1 & E2 & E3).
  destruct (fill hb (unpack hb ct n) x s (c_attrs cd) d w1) as [[[[]|e1] d1] w2],
           (fill39 hb (unpack39 hb ct n) x s (c_attrs cd) d w1) as [[[[]|e2] d2] w3];
    cbn in E1, E2, E3; try contradiction; subst; cbn; repeat split; auto; try discriminate.
  intros _. right. destruct E3 as (-> & done & a & E & L). split; [reflexivity|]. exists cd, done, a. eauto.
Qed.
Print Assumptions C51_refill.

(** ** When the versions agree *)
Section Count.
Variable hb : bool.
Variable ct : nat -> option cdef.

Lemma assign_len : forall vs names d names' d', assign names vs d = (Some names', d') ->
  List.length names = (List.length vs + List.length names')%nat.
Proof.
  induction vs as [|v vs IH]; intros names d names' d' H.
  - destruct names; cbn in H; injection H as <- <-; reflexivity.
  - destruct names as [|a names]; [discriminate|]. cbn in *. f_equal. eauto.
Qed.
Lemma fill_subs_len : forall md rec, nvrec md rec -> forall pre subs s size names d w names' z d' w',
  forallb (nvok md) subs = true -> md_of s = md ->
  fill_subs hb rec pre subs s size names d w = (Ok (names', z), d', w') ->
  List.length names = (fold_right (fun s n => num_values s + n) 0 subs + List.length names')%nat.
Proof.
  intros md rec R pre subs. induction subs as [|x subs IH]; intros s size names d w names' z d' w' F M H; cbn [fill_subs] in H.
  - injection H as <- _ _ _. reflexivity.
  - cbn [forallb] in F. apply andb_prop in F as [F1 F2].
    match type of H with match ?m with _ => _ end = _ => destruct m as [[[x' vs]|e] w1] eqn:B end; [|discriminate].
    apply bind_ok in B as (x0 & w0 & P & B). apply bind_ok in B as (vs0 & w2 & U & B). cbn in B. injection B as -> -> ->.
    assert (X : nvok md x' = true /\ num_values x' = num_values x).
    { destruct pre; [eapply prep_nv; eauto|]. cbn in P. injection P as <- _. auto. }
    destruct X as [X1 X2].
    assert (L : List.length vs = num_values x') by (refine (R _ _ _ _ _ X1 _ U); now rewrite md_ssub).
    destruct (assign names vs d) as [[names1|] d1] eqn:AS; [|discriminate]. apply assign_len in AS.
    destruct (get_size hb x' w1) as [[z1|e] w3]; [|discriminate].
    apply IH in H; [|exact F2|exact M]. cbn [fold_right]. lia.
Qed.
End Count.

(** C51: no difference for classes whose [num_values] can be relied on (C31: all but counted strings with other methods
    than [unpack], and dynamic arrays of basic types) *)
Theorem C51_agree : forall hb ct n c ov d s w, (forall c' cd, ct c' = Some cd -> NoDup (c_attrs cd)) ->
  (forall cd, ct c = Some cd -> nvok (md_of s) (obj_ser cd ov) = true /\
                                num_values (obj_ser cd ov) = List.length (c_attrs cd)) ->
  let new := Structured_unpack hb ct n c ov d s w in
  let old := Structured_unpack39 hb ct n c ov d s w in
  snd old = snd new /\ snd (fst old) = snd (fst new) /\ (fst (fst old) = Ok tt <-> fst (fst new) = Ok tt).
Proof.
  intros hb ct n c ov d s w ND NV new old. destruct (C51_refill hb ct n c ov d s w ND) as (E1 & E2 & E3 & E4).
  split; [exact E1|]. split; [exact E2|]. split; [|exact E3]. intros O. specialize (E4 O).
  destruct E4 as [E4|(E4 & cd & names & a & C & EA & _)]; [exact E4|]. exfalso.
  destruct (NV _ C) as [N L]. subst new old. clear E1 E2 E3. revert O E4.
  unfold Structured_unpack, Structured_unpack39, refill_step, refill_step39. rewrite C.
  destruct (prep false (obj_ser cd ov) (PO c false d) w) as [[x|e] w1] eqn:P; [|cbn; discriminate].
  destruct (prep_nv _ _ _ _ _ _ N P) as [N1 V1]. rewrite <- V1 in L. clear P N V1.
  assert (RA : recs_alike (unpack hb ct n) (unpack39 hb ct n)) by now apply al_unpack.
  assert (RN : nvrec (md_of s) (unpack hb ct n)).
  { intros y s' w0 vs w' Ny My H. rewrite <- My in Ny. eapply C31_unpack; eauto. }
  assert (SUB : forall id pre subs, forallb (nvok (md_of s)) subs = true ->
    fold_right (fun s n => num_values s + n)%nat 0%nat subs = List.length (c_attrs cd) ->
    fst (fst (match fill_subs hb (unpack39 hb ct n) pre subs s 0 (c_attrs cd) d w1 with
       | (Err e, d', w') => (Err e, d', w')
       | (Ok (names', size), d', w') =>
           match names' with [] | [_] => (Ok tt, d', snd (set_size id size w')) | _ => (Err ValueError, d', snd (set_size id size w')) end
       end)) = Ok tt ->
    fst (fst (match fill_subs hb (unpack hb ct n) pre subs s 0 (c_attrs cd) d w1 with
       | (Err e, d', w') => (Err e, d', w')
       | (Ok (names', size), d', w') =>
           match names' with [] => (Ok tt, d', snd (set_size id size w')) | _ => (Err ValueError, d', snd (set_size id size w')) end
       end)) = Err ValueError -> False).
  { intros id pre subs F Lx. destruct (al_fill_subs hb _ _ RA pre subs s 0 (c_attrs cd) d w1) as (A1 & A2 & A3).
    destruct (fill_subs hb (unpack hb ct n) pre subs s 0 (c_attrs cd) d w1) as [[[[n1 z1]|e1] d1] w2] eqn:FS,
             (fill_subs hb (unpack39 hb ct n) pre subs s 0 (c_attrs cd) d w1) as [[[[n2 z2]|e2] d2] w3]; cbn in A1, A2, A3;
      try contradiction; [|discriminate].
    eapply fill_subs_len in FS; [|exact RN|exact F|reflexivity]. rewrite Lx in FS. destruct n1; [|cbn in FS; lia]. discriminate. }
  assert (ONE :
    fst (fst (match unpack39 hb ct n x s w1 with
       | (Err e, w') => (Err e, d, w')
       | (Ok vs, w') => match assign (c_attrs cd) vs d with
                        | (None, d') => (Err ValueError, d', w')
                        | (Some names', d') => match names' with [] | [_] => (Ok tt, d', w') | _ => (Err ValueError, d', w') end
                        end
       end)) = Ok tt ->
    fst (fst (match unpack hb ct n x s w1 with
       | (Err e, w') => (Err e, d, w')
       | (Ok vs, w') => match assign (c_attrs cd) vs d with
                        | (None, d') => (Err ValueError, d', w')
                        | (Some names', d') => match names' with [] => (Ok tt, d', w') | _ => (Err ValueError, d', w') end
                        end
       end)) = Err ValueError -> False).
  { destruct (RA x s w1) as [A1 A2].
    destruct (unpack hb ct n x s w1) as [[vs|e] w2] eqn:U, (unpack39 hb ct n x s w1) as [[vs'|e'] w3]; cbn in A1, A2;
      try contradiction; [|discriminate]. subst vs'.
    apply RN in U; [|exact N1|reflexivity]. rewrite L in U.
    destruct (assign (c_attrs cd) vs d) as [[names'|] d'] eqn:AS; [|discriminate].
    apply assign_len in AS. destruct names'; [|cbn in AS; lia]. discriminate. }
  destruct x; cbn [fill fill39]; first [exact ONE|apply SUB; [exact N1|exact L]].
Qed.
Print Assumptions C51_agree.

(** class Name(Structured): name: char[uint8] *)
Definition name_ct : nat -> option cdef :=
  fun c => match c with 0%nat => Some (CD ["name"%string] (SDynChar 1 (uint_ser BO_DEFAULT CB)) BO_DEFAULT false) | _ => None end.
(** without the hypothesis on the class: reading an empty name into an object leaves the old name on Python 3.9, without
    an error *)
Theorem C51_stale_refuted : forall old_name,
  let d := [("name"%string, VBytes old_name)] in
  fst (Structured_unpack39 false name_ct 1 0 None d (SFrom [x00] 0) cloud0) = (Ok tt, d) /\
  fst (Structured_unpack false name_ct 1 0 None d (SFrom [x00] 0) cloud0) = (Err ValueError, d).
Proof. intros old_name. split; reflexivity. Qed.
Print Assumptions C51_stale_refuted.
(** and the exception of [create_unpack_from] is another one *)
Theorem C51_kind_refuted :
  fst (create39 false name_ct 1 0 (SFrom [x00] 0) cloud0) = Err AttributeError /\
  fst (create_unpack_from false name_ct 1 0 [x00] 0 cloud0) = Err ValueError.
Proof. split; reflexivity. Qed.
Print Assumptions C51_kind_refuted.
(** the hypotheses of C51_create and C51_refill hold for this class, those of C51_agree for [unpack]; a successful case *)
Example C51_nontrivial :
  (forall c' cd, name_ct c' = Some cd -> NoDup (c_attrs cd)) /\
  (forall cd, name_ct 0 = Some cd -> nvok (md_of (SBuf [])) (obj_ser cd None) = true /\
                                     num_values (obj_ser cd None) = List.length (c_attrs cd)) /\
  fst (create39 false name_ct 1 0 (SFrom [x02; x61; x62] 0) cloud0) = Ok (VObj 0 None [("name"%string, VBytes [x61; x62])]) /\
  fst (Structured_unpack39 false name_ct 1 0 None [("name"%string, VBytes [x63])] (SBuf [x00]) cloud0)
  = (Ok tt, [("name"%string, VBytes [])]).
Proof.
  split; [|split; [|split; reflexivity]].
  - intros [|c'] cd H; [|discriminate]. injection H as <-. cbn. repeat constructor. intros [].
  - intros cd H. injection H as <-. split; reflexivity.
Qed.
