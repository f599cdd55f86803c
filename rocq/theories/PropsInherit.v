(** C33, C34, C39: what a class definition makes of the annotations of the class and of its base. *)
From Coq Require Import DecimalString DecimalNat.
From Verif Require Import Base Floats Value StructMod Format Ser Exec Pure BaseFacts StructFacts FormatFacts SerFacts
  Adding PropsAdd PropsFinal PropsOrder Hints HintFacts.

(** ** The attributes of a class *)
(** A hint makes a serialized attribute: it turns into a serializer, and not into padding *)
Definition serialized (fin : nat -> bool) (spec : nat -> list pyh -> res nat) (h : pyh) : bool :=
  match transform fin spec (fun _ => O) false [] h with Ok (PSer s) => negb (ser_ispad s) | _ => false end.
Definition not_self (a : string) : bool := negb (String.eqb a "self").

Lemma skel_ispad : forall e s, ser_ispad (skel e s) = ser_ispad s.
Proof. destruct s; reflexivity. Qed.

Section Attrs.
Variables (env : nat -> option cinfo) (spec : nat -> list pyh -> res nat) (idf : list nat -> nat).

Lemma transform_serialized : forall p h r, transform (efin env) spec idf false p h = Ok r ->
  serialized (efin env) spec h = match r with PSer s => negb (ser_ispad s) | _ => false end.
Proof.
  intros p h r E. unfold serialized.
  pose proof (transform_rel (efin env) (efin env) spec spec idf (fun _ => O) false (fun _ => eq_refl) (fun _ => eq_refl)
                h false p []) as R.
  rewrite E in R. unfold hrel, rrel in R.
  destruct (transform _ _ (fun _ => O) _ _ _) as [r'|]; [|discriminate].
  apply hskel_ser in R. destruct r, r'; try contradiction; try reflexivity.
  now rewrite <- (skel_ispad false s), R, skel_ispad.
Qed.
Lemma classvar_not_serialized : forall h, serialized (efin env) spec (PClassVar h) = false.
Proof. reflexivity. Qed.

Lemma filter_step : forall i a h hints l, filter_typehints env spec idf i ((a, h) :: hints) = Ok l ->
  exists x r, filter_typehints env spec idf (S i) hints = Ok r /\
    serialized (efin env) spec h = match x with PSer s => negb (ser_ispad s) | _ => false end /\
    l = match x with PSer s => (a, s) :: r | _ => r end.
Proof.
  intros i a h hints l E. cbn [filter_typehints] in E.
  destruct (match h with PClassVar _ => _ | _ => _ end) as [x|] eqn:X; cbn [rbind] in E; [|discriminate].
  destruct (filter_typehints env spec idf (S i) hints) as [r|]; cbn [rbind] in E; [|discriminate].
  exists x, r. split; [reflexivity|]. split; [|congruence].
  destruct h; try (eapply transform_serialized; exact X). injection X as <-. reflexivity.
Qed.
Lemma filter_keys : forall hints i l, filter_typehints env spec idf i hints = Ok l ->
  keys (filter (fun kv => negb (ser_ispad (snd kv))) l)
  = keys (filter (fun kv => serialized (efin env) spec (snd kv)) hints).
Proof.
  induction hints as [|[a h] hints IH]; intros i l E; [injection E as <-; reflexivity|].
  apply filter_step in E. destruct E as (x & r & F & S & ->). specialize (IH _ _ F). cbn [filter snd]. rewrite S.
  destruct x; try exact IH. cbn [filter snd]. destruct (ser_ispad s); cbn [negb]; [exact IH|].
  cbn [keys map fst]. now f_equal.
Qed.
Lemma filter_all_ok : forall hints i l a h, filter_typehints env spec idf i hints = Ok l -> In (a, h) hints ->
  match h with PClassVar _ => True | _ => exists p r, transform (efin env) spec idf false p h = Ok r end.
Proof.
  induction hints as [|[b g] hints IH]; intros i l a h E I; [contradiction|].
  cbn [filter_typehints] in E.
  destruct (match g with PClassVar _ => _ | _ => _ end) as [x|] eqn:X; cbn [rbind] in E; [|discriminate].
  destruct (filter_typehints env spec idf (S i) hints) as [r|] eqn:F; cbn [rbind] in E; [|discriminate].
  destruct I as [I|I]; [|eapply IH; eauto].
  injection I as <- <-. destruct g; try exact I; eauto.
Qed.
End Attrs.

Lemma keys_filter_assoc : forall (f : pyh -> bool) (d : dict), NoDup (keys d) ->
  keys (filter (fun kv => f (snd kv)) d)
  = filter (fun a => match assoc a d with Some h => f h | None => false end) (keys d).
Proof.
  induction d as [|[a h] d IH]; intros N; [reflexivity|]. inversion N; subst. fold (keys d) in *.
  assert (E : filter (fun b => match assoc b ((a, h) :: d) with Some x => f x | None => false end) (keys d)
            = filter (fun b => match assoc b d with Some x => f x | None => false end) (keys d)).
  { apply filter_ext_in. intros b Ib. cbn [assoc]. destruct (String.eqb_spec b a) as [->|]; [contradiction|reflexivity]. }
  unfold keys at 2. cbn [map fst filter]. fold (keys d). rewrite E. cbn [assoc snd]. rewrite String.eqb_refl.
  rewrite <- (IH H2). destruct (f h); reflexivity.
Qed.
Lemma filter_sub_nodup : forall {A} (f : string * A -> bool) d, NoDup (keys d) -> NoDup (keys (filter f d)).
Proof.
  induction d as [|[a h] d IH]; intros N; [constructor|]. inversion N; subst. cbn [filter].
  destruct (f (a, h)); auto. constructor; auto. intros I. apply H1. unfold keys in *.
  apply in_map_iff in I. destruct I as ([b g] & E & I). apply filter_In in I. destruct I as [I _]. cbn in E. subst.
  apply in_map_iff. exists (a, g). auto.
Qed.
Lemma attrs_of_eq : forall hints, NoDup (keys hints) ->
  attrs_of hints = filter not_self (keys (filter (fun kv => negb (ser_ispad (snd kv))) hints)).
Proof.
  intros hints N. unfold attrs_of. fold (keys (dict_update [("self"%string, SNull)] (filter (fun kv => negb (ser_ispad (snd kv))) hints))).
  rewrite update_keys by now apply filter_sub_nodup. cbn [keys map fst app tl].
  apply filter_ext. intros a. unfold mem, not_self. cbn [assoc]. destruct (String.eqb a "self"); reflexivity.
Qed.
Lemma filter_filter : forall {A} (f g : A -> bool) l, filter f (filter g l) = filter (fun a => g a && f a) l.
Proof. induction l as [|a l IH]; cbn; [reflexivity|]. destruct (g a); cbn; rewrite ?IH; reflexivity. Qed.
Lemma filtered_nodup : forall env spec idf hints i l, filter_typehints env spec idf i hints = Ok l -> NoDup (keys hints) ->
  NoDup (keys l) /\ forall a, In a (keys l) -> In a (keys hints).
Proof.
  induction hints as [|[a h] hints IH]; intros i l E N; [injection E as <-; split; [constructor|auto]|].
  apply filter_step in E. destruct E as (x & r & F & _ & ->). inversion N; subst. destruct (IH _ _ F H2) as [R1 R2].
  destruct x; try (split; [exact R1|]; intros ? Ib; right; now apply R2).
  split; [constructor; [|exact R1]; intros I; apply H1; now apply R2|].
  intros ? [Ib|Ib]; [left; exact Ib|right; now apply R2].
Qed.

(** ** What [define] does *)
Section Define.
Variables (env : nat -> option cinfo) (spec : nat -> list pyh -> res nat) (idf : list nat -> nat).
Variable fac : akind -> list pyh -> nat.
Notation define := (define env spec idf fac).

(** the attributes of a class are the serialized ones among its hints *)
Definition hint_attrs (hints : dict) : list string :=
  filter (fun a => match assoc a hints with Some h => serialized (efin env) spec h | None => false end && not_self a)
         (keys hints).
Lemma define_attrs : forall n body bases tvars bo mode d, define n body bases tvars bo mode = Ok d ->
  c_attrs (ci_def d) = hint_attrs (get_type_hints (ci_mro d)) /\ c_bo (ci_def d) = bo /\
  (exists l s, filter_typehints env spec idf 0 (get_type_hints (ci_mro d)) = Ok l /\
               ssum (efin env) (idf []) (map snd l) = Ok s /\ c_ser (ci_def d) = with_bo bo s).
Proof.
  intros n body bases tvars bo mode d E. unfold Hints.define in E.
  destruct bases as [|b [|b' bs]]; [| |discriminate].
  - cbn [rbind] in E.
    destruct (filter_typehints _ _ _ _ _) as [l|] eqn:F; cbn [rbind] in E; [|discriminate].
    destruct (ssum _ _ _) as [s|] eqn:S; cbn [rbind] in E; [|discriminate]. injection E as <-. cbn [ci_def ci_mro c_attrs c_bo c_ser].
    split; [|split; [reflexivity|]; exists l, s; auto]. pose proof (hints_nodup [body; structured_ann]) as N.
    rewrite attrs_of_eq by (eapply filtered_nodup; eauto). rewrite (filter_keys env spec idf _ _ _ F).
    rewrite keys_filter_assoc by assumption. now rewrite filter_filter.
  - destruct b as [c args]. destruct (env c) as [i|]; cbn [rbind] in E; [|discriminate].
    destruct (match mode with STRICT => _ | OVERRIDE => _ end); cbn [rbind] in E; [|discriminate].
    destruct (match args with Some _ => _ | None => _ end) as [own|]; cbn [rbind] in E; [|discriminate].
    destruct (filter_typehints _ _ _ _ _) as [l|] eqn:F; cbn [rbind] in E; [|discriminate].
    destruct (ssum _ _ _) as [s|] eqn:S; cbn [rbind] in E; [|discriminate]. injection E as <-. cbn [ci_def ci_mro c_attrs c_bo c_ser].
    split; [|split; [reflexivity|]; exists l, s; auto]. pose proof (hints_nodup (own :: ci_mro i)) as N.
    rewrite attrs_of_eq by (eapply filtered_nodup; eauto). rewrite (filter_keys env spec idf _ _ _ F).
    rewrite keys_filter_assoc by assumption. now rewrite filter_filter.
Qed.
Lemma define_mro : forall n body c i tvars bo mode d, env c = Some i -> define n body [(c, None)] tvars bo mode = Ok d ->
  ci_mro d = body :: ci_mro i.
Proof.
  intros n body c i tvars bo mode d E D. unfold Hints.define in D. rewrite E in D. cbn [rbind] in D.
  destruct (match mode with STRICT => _ | OVERRIDE => _ end); cbn [rbind] in D; [|discriminate].
  destruct (filter_typehints _ _ _ _ _); cbn [rbind] in D; [|discriminate].
  destruct (ssum _ _ _); cbn [rbind] in D; [|discriminate]. now injection D as <-.
Qed.

(** The attributes of a subclass: the names of the base in the base order, then the new names in order of
    definition; of these, the ones whose hint (the one of the subclass if there is one) is serialized. *)
Definition effective (base body : dict) (a : string) : option pyh :=
  match assoc a body with Some h => Some (eval_fwd h) | None => assoc a base end.
Theorem C33_order : forall n body c i tvars bo mode d,
  env c = Some i -> NoDup (keys body) -> define n body [(c, None)] tvars bo mode = Ok d ->
  let base := get_type_hints (ci_mro i) in
  c_attrs (ci_def d)
  = filter (fun a => match effective base body a with Some h => serialized (efin env) spec h | None => false end && not_self a)
           (keys base ++ filter (fun a => negb (mem a base)) (keys body)).
Proof.
  intros n body c i tvars bo mode d E N D base. pose proof (define_mro _ _ _ _ _ _ _ _ E D) as M.
  apply define_attrs in D. destruct D as [D _]. rewrite D, M. unfold hint_attrs. rewrite hints_cons_keys by assumption.
  fold base. apply filter_ext. intros a. rewrite hints_cons_assoc by assumption. fold base. unfold effective. reflexivity.
Qed.
End Define.
Print Assumptions C33_order.

Lemma serialized_stable : forall env env' spec spec' idf idf' p p' h r r',
  transform (efin env) spec idf false p h = Ok r -> transform (efin env') spec' idf' false p' h = Ok r' ->
  serialized (efin env) spec h = serialized (efin env') spec' h.
Proof.
  intros env env' spec spec' idf idf' p p' h r r' E E'.
  rewrite (transform_serialized _ _ _ _ _ _ E), (transform_serialized _ _ _ _ _ _ E').
  pose proof (transform_rel (efin env) (efin env') spec spec' idf idf' true ltac:(discriminate) ltac:(discriminate)
                h false p p') as R.
  rewrite E, E' in R. cbn in R. apply hskel_ser in R. destruct r, r'; try contradiction; try reflexivity.
  now rewrite <- (skel_ispad true s), R, skel_ispad.
Qed.
Lemma assoc_some_In : forall {A} a (v : A) d, assoc a d = Some v -> In (a, v) d.
Proof.
  induction d as [|[b w] d IH]; cbn; [discriminate|]. destruct (String.eqb_spec a b) as [->|]; [intros [= ->]; now left|].
  intros H. right. auto.
Qed.

(** In terms of the attributes of the base class: they come first, in the same order, except for those whose
    hint was replaced by one that is not serialized; then the new serialized attributes.  Condition: no
    name that had a not serialized hint in the base gets a serialized one (else see C33_promoted_refuted). *)
Theorem C33_inherited : forall env spec idf fac n body c i tvars bo mode d
    env0 spec0 idf0 fac0 n0 body0 bases0 tvars0 bo0 mode0,
  env c = Some i -> define env0 spec0 idf0 fac0 n0 body0 bases0 tvars0 bo0 mode0 = Ok i ->
  NoDup (keys body) -> define env spec idf fac n body [(c, None)] tvars bo mode = Ok d ->
  let keeps h := serialized (efin env) spec (eval_fwd h) in
  (forall a h, assoc a body = Some h -> keeps h = true -> In a (keys (get_type_hints (ci_mro i))) ->
               In a (c_attrs (ci_def i))) ->
  c_attrs (ci_def d)
  = filter (fun a => match assoc a body with Some h => keeps h | None => true end) (c_attrs (ci_def i))
    ++ filter (fun a => match assoc a body with Some h => keeps h | None => false end
                        && negb (mem a (get_type_hints (ci_mro i))) && not_self a) (keys body).
Proof.
  intros env spec idf fac n body c i tvars bo mode d env0 spec0 idf0 fac0 n0 body0 bases0 tvars0 bo0 mode0
    E D0 N D keeps NP.
  rewrite (C33_order _ _ _ _ _ _ _ _ _ _ _ _ E N D). cbv zeta.
  pose proof (define_mro _ _ _ _ _ _ _ _ _ _ _ _ E D) as M.
  destruct (define_attrs _ _ _ _ _ _ _ _ _ _ _ D) as (_ & _ & l & s & FT & _).
  destruct (define_attrs _ _ _ _ _ _ _ _ _ _ _ D0) as (A0 & _ & l0 & s0 & FT0 & _).
  set (base := get_type_hints (ci_mro i)) in *.
  assert (NB : NoDup (keys base)) by apply hints_nodup.
  rewrite filter_app. f_equal.
  - rewrite A0. unfold hint_attrs. fold base. rewrite filter_filter.
    apply filter_ext_in. intros a Ia. unfold effective.
    destruct (assoc a body) as [h|] eqn:B.
    + fold (keeps h). destruct (keeps h) eqn:K; cbn [andb]; [|now rewrite andb_false_r].
      specialize (NP a h B K Ia). rewrite A0 in NP. unfold hint_attrs in NP. apply filter_In in NP.
      destruct NP as [_ NP]. fold base in NP. rewrite NP. apply andb_prop in NP. destruct NP as [_ NP]. now rewrite NP.
    + destruct (assoc a base) as [h|] eqn:H; [|reflexivity]. rewrite andb_true_r. f_equal.
      assert (I1 : In (a, h) (get_type_hints (ci_mro d))).
      { rewrite M. apply assoc_some_In. rewrite hints_cons_assoc by assumption. now rewrite B. }
      pose proof (filter_all_ok _ _ _ _ _ _ _ _ FT I1) as T1.
      pose proof (filter_all_ok _ _ _ _ _ _ _ _ FT0 (assoc_some_In _ _ _ H)) as T0.
      destruct h; try reflexivity; destruct T1 as (p & r & T1), T0 as (p0 & r0 & T0);
        exact (serialized_stable _ _ _ _ _ _ _ _ _ _ _ T1 T0).
  - rewrite filter_filter. apply filter_ext_in. intros a Ia. unfold effective.
    destruct (assoc a body) as [h|] eqn:B; [|exfalso; now apply (proj1 (assoc_In a body) B)].
    fold (keeps h). destruct (keeps h), (mem a base), (not_self a); reflexivity.
Qed.
Print Assumptions C33_inherited.

Lemma filter_all : forall {A} (f : A -> bool) l, (forall a, In a l -> f a = true) -> filter f l = l.
Proof.
  induction l as [|a l IH]; intros H; cbn; [reflexivity|]. rewrite H by now left. f_equal. apply IH. intros. apply H. now right.
Qed.
(** Adding new names only (the usual case): nothing changes for the inherited ones *)
Corollary C33_extend : forall env spec idf fac n body c i tvars bo mode d
    env0 spec0 idf0 fac0 n0 body0 bases0 tvars0 bo0 mode0,
  env c = Some i -> define env0 spec0 idf0 fac0 n0 body0 bases0 tvars0 bo0 mode0 = Ok i ->
  NoDup (keys body) -> define env spec idf fac n body [(c, None)] tvars bo mode = Ok d ->
  (forall a, In a (keys body) -> ~ In a (keys (get_type_hints (ci_mro i)))) ->
  c_attrs (ci_def d)
  = c_attrs (ci_def i)
    ++ filter (fun a => match assoc a body with Some h => serialized (efin env) spec (eval_fwd h) | None => false end
                        && not_self a) (keys body).
Proof.
  intros env spec idf fac n body c i tvars bo mode d env0 spec0 idf0 fac0 n0 body0 bases0 tvars0 bo0 mode0 E D0 N D NEW.
  rewrite (C33_inherited _ _ _ _ _ _ _ _ _ _ _ _ _ _ _ _ _ _ _ _ _ _ E D0 N D).
  - destruct (define_attrs _ _ _ _ _ _ _ _ _ _ _ D0) as (A0 & _).
    f_equal.
    + apply filter_all. intros a Ia. rewrite A0 in Ia. unfold hint_attrs in Ia. apply filter_In in Ia. destruct Ia as [Ia _].
      destruct (assoc a body) eqn:B; [|reflexivity]. exfalso. apply (NEW a); auto. apply mem_In. unfold mem. now rewrite B.
    + apply filter_ext_in. intros a Ia. destruct (mem a (get_type_hints (ci_mro i))) eqn:Mb.
      * exfalso. apply mem_In in Mb. now apply (NEW a).
      * cbn [negb]. now rewrite andb_true_r.
  - intros a h B _ Ia. exfalso. apply (NEW a); auto. apply mem_In. unfold mem. now rewrite B.
Qed.
Print Assumptions C33_extend.

(** ** C34: byte orders *)
Theorem C34_strict : forall env spec idf fac n body c args i tvars bo,
  env c = Some i -> c_bo (ci_def i) <> bo ->
  define env spec idf fac n body [(c, args)] tvars bo STRICT = Err ValueError.
Proof.
  intros env spec idf fac n body c args i tvars bo E NE. unfold define. rewrite E. cbn [rbind].
  destruct (border_eqb (c_bo (ci_def i)) bo) eqn:B; [|reflexivity].
  exfalso. apply NE. destruct (c_bo (ci_def i)), bo; try discriminate; reflexivity.
Qed.
Print Assumptions C34_strict.
Lemma border_refl : forall b, border_eqb b b = true. Proof. destruct b; reflexivity. Qed.
(** the check is the only thing the mode decides *)
Theorem C34_same_order : forall env spec idf fac n body c args i tvars,
  env c = Some i ->
  define env spec idf fac n body [(c, args)] tvars (c_bo (ci_def i)) STRICT
  = define env spec idf fac n body [(c, args)] tvars (c_bo (ci_def i)) OVERRIDE.
Proof. intros env spec idf fac n body c args i tvars E. unfold define. rewrite E. cbn [rbind]. now rewrite border_refl. Qed.
Print Assumptions C34_same_order.
(** OVERRIDE: the class is the one that would have been defined with the order of the base, with its
    serializer, inherited fields included, switched to the new byte order. *)
Definition rebo (bo : border) (d : cinfo) : cinfo :=
  CInfo (ci_ann d) (ci_mro d) (ci_tvars d) (ci_supers d)
     (CD (c_attrs (ci_def d)) (with_bo bo (c_ser (ci_def d))) bo (c_final (ci_def d))).
Theorem C34_override : forall env spec idf fac n body c args i tvars bo,
  env c = Some i ->
  define env spec idf fac n body [(c, args)] tvars bo OVERRIDE
  = rmap (rebo bo) (define env spec idf fac n body [(c, args)] tvars (c_bo (ci_def i)) STRICT).
Proof.
  intros env spec idf fac n body c args i tvars bo E. unfold define. rewrite E. cbn [rbind]. rewrite border_refl. cbn [rbind].
  destruct (match args with Some _ => _ | None => _ end) as [own|]; cbn [rbind]; [|reflexivity].
  destruct (filter_typehints _ _ _ _ _) as [l|]; cbn [rbind]; [|reflexivity].
  destruct (ssum _ _ _) as [s|]; cbn [rbind rmap]; [|reflexivity].
  unfold rebo. cbn [ci_ann ci_mro ci_tvars ci_supers ci_def c_attrs c_ser c_bo c_final].
  rewrite C13_last_wins. do 3 f_equal. now rewrite !wb_final.
Qed.
Print Assumptions C34_override.
(** an empty subclass with OVERRIDE has the wire format of the base class written with that byte order *)
Lemma hints_skip : forall mro, get_type_hints ([] :: mro) = get_type_hints mro.
Proof. intros mro. unfold get_type_hints. cbn [rev]. rewrite fold_left_app. reflexivity. Qed.
Ltac dstep D := match type of D with
  | (if ?c then _ else _) = Ok _ => destruct c; cbn [rbind] in D; [|discriminate D]
  | rbind ?r _ = Ok _ => destruct r eqn:?; cbn [rbind] in D; [|discriminate D]
  end.
Lemma define_inv : forall env spec idf fac n body bases tvars bo mode d,
  define env spec idf fac n body bases tvars bo mode = Ok d ->
  exists l s, filter_typehints env spec idf 0 (get_type_hints (ci_mro d)) = Ok l /\
    ssum (efin env) (idf []) (map snd l) = Ok s /\
    ci_def d = CD (attrs_of l) (with_bo bo s) bo (is_final (efin env) (with_bo bo s)).
Proof.
  intros env spec idf fac n body bases tvars bo mode d D. unfold define in D.
  destruct bases as [|[c args] [|? ?]]; [| |discriminate]; cbn [rbind] in D; repeat dstep D; injection D as <-; cbn [ci_mro ci_def]; eauto.
Qed.
Definition mro_of (env : nat -> option cinfo) spec idf fac n body (bases : list (nat * option (list pyh))) : list dict :=
  match bases with
  | (c, a) :: _ =>
      match env c with
      | Some i => match a with
                  | Some args => match spec_hints env spec idf fac n c args with Ok s => dict_update body s | _ => body end
                  | None => body
                  end :: ci_mro i
      | None => []
      end
  | [] => [body; structured_ann]
  end.
Lemma define_mro_of : forall env spec idf fac n body bases tvars bo mode d,
  define env spec idf fac n body bases tvars bo mode = Ok d -> ci_mro d = mro_of env spec idf fac n body bases.
Proof.
  intros env spec idf fac n body bases tvars bo mode d D. unfold define in D.
  destruct bases as [|[c args] [|? ?]]; [| |discriminate]; cbn [rbind] in D; unfold mro_of; [repeat dstep D; now injection D as <-|].
  destruct (env c); [|discriminate]. cbn [rbind] in D. destruct args.
  - destruct (spec_hints _ _ _ _ _ _ _); cbn [rbind] in D; repeat dstep D; try discriminate; now injection D as <-.
  - cbn [rbind] in D. repeat dstep D. now injection D as <-.
Qed.
Theorem C34_as_if : forall env spec idf fac n n0 body0 bases0 tvars0 bo0 mode0 c i tvars bo d f,
  define env spec idf fac n0 body0 bases0 tvars0 bo0 mode0 = Ok i -> env c = Some i ->
  define env spec idf fac n [] [(c, None)] tvars bo OVERRIDE = Ok d ->
  define env spec idf fac n0 body0 bases0 tvars0 bo OVERRIDE = Ok f ->
  ci_def d = ci_def f.
Proof.
  intros env spec idf fac n n0 body0 bases0 tvars0 bo0 mode0 c i tvars bo d f D0 E D F.
  pose proof (define_mro_of _ _ _ _ _ _ _ _ _ _ _ D0) as M0. pose proof (define_mro_of _ _ _ _ _ _ _ _ _ _ _ F) as MF.
  pose proof (define_mro_of _ _ _ _ _ _ _ _ _ _ _ D) as MD. unfold mro_of in MD. rewrite E in MD.
  apply define_inv in D, F. destruct D as (l & s & D1 & D2 & D3), F as (l' & s' & F1 & F2 & F3).
  rewrite MD, hints_skip, M0, <- MF, F1 in D1. injection D1 as <-. rewrite F2 in D2. injection D2 as <-. congruence.
Qed.
Print Assumptions C34_as_if.

(** ** C39: attributes and values *)
(** the serializers of the fields of a class, in order *)
Definition fields (env : nat -> option cinfo) (spec : nat -> list pyh -> res nat) (idf : list nat -> nat) (d : cinfo)
  : res (list (string * ser)) := filter_typehints env spec idf 0 (get_type_hints (ci_mro d)).
Lemma count_values : forall (l : list (string * ser)),
  Forall (fun f => if ser_ispad (snd f) then True else num_values (snd f) = 1%nat) l ->
  fold_right (fun x k => num_values x + k)%nat 0%nat (map snd l)
  = List.length (filter (fun kv => negb (ser_ispad (snd kv))) l).
Proof.
  induction 1 as [|[a s] l H _ IH]; [reflexivity|]. cbn [map snd fold_right filter]. rewrite IH. cbn [snd] in H.
  destruct (ser_ispad s) eqn:P; cbn [negb]; [|cbn [List.length]; lia].
  destruct s; cbn in P; try discriminate. apply andb_prop in P. destruct P as [P _]. apply Nat.eqb_eq in P. cbn. lia.
Qed.
Theorem C39_one_value_each : forall env spec idf fac n body bases tvars bo mode d l,
  define env spec idf fac n body bases tvars bo mode = Ok d -> fields env spec idf d = Ok l ->
  forallb plain_field (map snd l) = true -> lossless (map snd l) = true ->
  Forall (fun f => if ser_ispad (snd f) then True else num_values (snd f) = 1%nat) l ->
  ~ In "self"%string (keys l) ->
  List.length (c_attrs (ci_def d)) = num_values (c_ser (ci_def d)).
Proof.
  intros env spec idf fac n body bases tvars bo mode d l D F PL LL NV NS.
  destruct (define_attrs _ _ _ _ _ _ _ _ _ _ _ D) as (A & _ & l' & s & FT & S & CS).
  unfold fields in F. rewrite F in FT. injection FT as <-.
  destruct (C15_flat _ _ _ _ PL LL S) as [_ NVS]. rewrite CS, wb_nvals, NVS, count_values by assumption.
  assert (N : NoDup (keys l)) by (eapply filtered_nodup; [exact F|apply hints_nodup]).
  assert (AT : c_attrs (ci_def d) = attrs_of l).
  { rewrite A. unfold hint_attrs. rewrite attrs_of_eq by assumption.
    rewrite (filter_keys env spec idf _ _ _ F), keys_filter_assoc by apply hints_nodup. now rewrite filter_filter. }
  rewrite AT, attrs_of_eq by assumption. rewrite filter_all.
  - unfold keys. now rewrite map_length.
  - intros a Ia. unfold not_self. destruct (String.eqb_spec a "self"); [|reflexivity]. subst. exfalso. apply NS.
    unfold keys in *. apply in_map_iff in Ia. destruct Ia as ([b x] & Eb & Ib). apply filter_In in Ib. apply in_map_iff.
    exists (b, x). split; [exact Eb|apply Ib].
Qed.
Print Assumptions C39_one_value_each.
(** attribute names are distinct *)
Theorem C39_distinct : forall env spec idf fac n body bases tvars bo mode d,
  define env spec idf fac n body bases tvars bo mode = Ok d -> NoDup (c_attrs (ci_def d)).
Proof.
  intros env spec idf fac n body bases tvars bo mode d D. destruct (define_attrs _ _ _ _ _ _ _ _ _ _ _ D) as (A & _).
  rewrite A. apply NoDup_filter, hints_nodup.
Qed.
Print Assumptions C39_distinct.

(** ** C14 for class definitions and arrays *)
Theorem C14_class : forall env spec idf fac n body bases tvars bo mode d l,
  define env spec idf fac n body bases tvars bo mode = Ok d -> fields env spec idf d = Ok l ->
  Forall (fun s => is_compound s = false /\ bo_is BO_DEFAULT s) (map snd l) ->
  ~ misplaced (efin env) (map snd l) /\
  (c_final (ci_def d) = true <-> reads_rest (fun c => efin env c = true) (c_ser (ci_def d))).
Proof.
  intros env spec idf fac n body bases tvars bo mode d l D F W.
  assert (CF : c_final (ci_def d) = is_final (efin env) (c_ser (ci_def d))).
  { unfold define in D. destruct bases as [|[c args] [|? ?]]; [| |discriminate].
    - cbn [rbind] in D. destruct (filter_typehints _ _ _ _ _); cbn [rbind] in D; [|discriminate].
      destruct (ssum _ _ _); cbn [rbind] in D; [|discriminate]. injection D as <-. reflexivity.
    - destruct (env c); cbn [rbind] in D; [|discriminate].
      destruct (match mode with STRICT => _ | OVERRIDE => _ end); cbn [rbind] in D; [|discriminate].
      destruct (match args with Some _ => _ | None => _ end); cbn [rbind] in D; [|discriminate].
      destruct (filter_typehints _ _ _ _ _); cbn [rbind] in D; [|discriminate].
      destruct (ssum _ _ _); cbn [rbind] in D; [|discriminate]. injection D as <-. reflexivity. }
  destruct (define_attrs _ _ _ _ _ _ _ _ _ _ _ D) as (_ & _ & l' & s & FT & S & CS).
  unfold fields in F. rewrite F in FT. injection FT as <-. split.
  - intros M. destruct (C14_accepted (efin env) (idf []) BO_DEFAULT _ W) as [_ A]. rewrite (A M) in S. discriminate.
  - rewrite CF. symmetry. apply reads_rest_final.
Qed.
Print Assumptions C14_class.
Theorem C14_class_rejected : forall env spec idf fac n body tvars bo mode l,
  filter_typehints env spec idf 0 (get_type_hints [body; structured_ann]) = Ok l ->
  Forall (fun s => is_compound s = false /\ bo_is BO_DEFAULT s) (map snd l) -> misplaced (efin env) (map snd l) ->
  define env spec idf fac n body [] tvars bo mode = Err TypeError.
Proof.
  intros env spec idf fac n body tvars bo mode l F W M. unfold define. cbn [rbind].
  match goal with |- context [filter_typehints _ _ _ _ ?x] => change x with (get_type_hints [body; structured_ann]) end.
  rewrite F. cbn [rbind].
  destruct (C14_accepted (efin env) (idf []) BO_DEFAULT _ W) as [_ A]. now rewrite (A M).
Qed.
Print Assumptions C14_class_rejected.
Theorem C14_subclass_rejected : forall env spec idf fac n body c i tvars bo mode l,
  env c = Some i -> (mode = OVERRIDE \/ c_bo (ci_def i) = bo) ->
  filter_typehints env spec idf 0 (get_type_hints (body :: ci_mro i)) = Ok l ->
  Forall (fun s => is_compound s = false /\ bo_is BO_DEFAULT s) (map snd l) -> misplaced (efin env) (map snd l) ->
  define env spec idf fac n body [(c, None)] tvars bo mode = Err TypeError.
Proof.
  intros env spec idf fac n body c i tvars bo mode l E MO F W M. unfold define. rewrite E. cbn [rbind].
  assert (X : match mode with STRICT => if border_eqb (c_bo (ci_def i)) bo then Ok tt else Err ValueError
              | OVERRIDE => Ok tt end = Ok tt).
  { destruct mode; [|reflexivity]. destruct MO as [MO|<-]; [discriminate|]. now rewrite border_refl. }
  rewrite X. cbn [rbind].
  match goal with |- context [filter_typehints _ _ _ _ ?x] => change x with (get_type_hints (body :: ci_mro i)) end.
  rewrite F. cbn [rbind].
  destruct (C14_accepted (efin env) (idf []) BO_DEFAULT _ W) as [_ A]. now rewrite (A M).
Qed.
Print Assumptions C14_subclass_rejected.
Theorem C14_array_item : forall fin spec idf fac count size item s,
  transform fin spec idf false [O; O; fac AkArray [PHeader count size; item]] item = Ok (PSer s) ->
  is_tv item = false -> reads_rest (fun c => fin c = true) s ->
  array_create fin spec idf fac (PHeader count size) item = Err TypeError.
Proof.
  intros fin spec idf fac count size item s T TV R. unfold array_create. cbn [is_alias orb]. rewrite TV, T. cbn [rbind].
  apply reads_rest_final in R. now rewrite R.
Qed.
Print Assumptions C14_array_item.

(** ** C29: paddings in a class body *)
(** Names of attributes are identifiers: they do not start with a digit *)
Definition digit (a : ascii) : bool := (48 <=? nat_of_ascii a)%nat && (nat_of_ascii a <=? 57)%nat.
Definition ident (a : string) : bool := match a with EmptyString => false | String x _ => negb (digit x) end.
(** the hint is a padding *)
Definition is_padding (fin : nat -> bool) (spec : nat -> list pyh -> res nat) (idf : list nat -> nat) (h : pyh) : bool :=
  match transform fin spec idf false [] h with Ok (PSer s) => ser_ispad s | _ => false end.

Lemma app_inj_tail_str : forall a b s, (a ++ s)%string = (b ++ s)%string -> a = b.
Proof.
  assert (L : forall a b, String.length (a ++ b)%string = (String.length a + String.length b)%nat).
  { induction a; intros; cbn; auto. }
  induction a as [|x a IH]; intros [|y b] s E.
  - reflexivity.
  - exfalso. assert (F := f_equal String.length E). cbn in F. rewrite L in F. lia.
  - exfalso. assert (F := f_equal String.length E). cbn in F. rewrite L in F. lia.
  - cbn in E. injection E as <- E. f_equal. eapply IH; eauto.
Qed.
Lemma pad_name_inj : forall j k, pad_name j = pad_name k -> j = k.
Proof.
  intros j k E. unfold pad_name in E. apply app_inj_tail_str in E.
  assert (F : Nat.to_uint j = Nat.to_uint k).
  { pose proof (DecimalString.NilEmpty.usu (Nat.to_uint j)) as A. rewrite E in A. rewrite DecimalString.NilEmpty.usu in A. congruence. }
  now apply DecimalNat.Unsigned.to_uint_inj.
Qed.
Lemma pad_name_not_ident : forall k, ident (pad_name k) = false.
Proof.
  intros k. unfold pad_name. assert (N : Nat.to_uint k <> Decimal.Nil).
  { intros E. pose proof (DecimalNat.Unsigned.to_of (Nat.to_uint k)) as O. rewrite DecimalNat.Unsigned.of_to, E in O. discriminate. }
  destruct (Nat.to_uint k); try reflexivity. contradiction.
Qed.
Lemma assoc_set_new : forall {A} a (v : A) d, assoc a d = None -> assoc_set a v d = d ++ [(a, v)].
Proof.
  induction d as [|[b w] d IH]; cbn; [reflexivity|]. destruct (String.eqb_spec a b); [discriminate|]. intros H. f_equal. auto.
Qed.
Section Body.
Variables (fin : nat -> bool) (spec : nat -> list pyh -> res nat) (idf : list nat -> nat).
(** everything but the paddings called "_" *)
Definition named (body : list (string * pyh)) : list string :=
  keys (filter (fun kv => negb (String.eqb (fst kv) "_" && is_padding fin spec idf (snd kv))) body).
Lemma class_body_keeps : forall body k d d' k',
  class_body fin spec idf k body d = Ok (d', k') ->
  forallb (fun kv => ident (fst kv)) body = true -> NoDup (named body) ->
  (forall a, In a (named body) -> assoc a d = None) -> (forall j, (k <= j)%nat -> assoc (pad_name j) d = None) ->
  map snd d' = map snd d ++ map snd body /\
  filter ident (keys d') = filter ident (keys d) ++ named body /\ (k <= k')%nat.
Proof.
  induction body as [|[a h] body IH]; intros k d d' k' E ID ND NN NP.
  - injection E as <- <-. cbn. now rewrite !app_nil_r.
  - cbn [class_body] in E. cbn [forallb fst] in ID. apply andb_prop in ID. destruct ID as [IA ID].
    assert (K : forall b g, assoc b (d ++ [(a, h)]) = g -> assoc b d = None -> a <> b -> g = None).
    { intros b g <-. clear. induction d as [|[x y] d IHd]; cbn.
      - destruct (String.eqb_spec b a); congruence.
      - destruct (String.eqb b x); [discriminate|]. auto. }
    assert (PADCASE : String.eqb a "_" && is_padding fin spec idf h = true ->
              class_body fin spec idf (S k) body (assoc_set (pad_name k) h d) = Ok (d', k') ->
              map snd d' = map snd d ++ map snd ((a, h) :: body) /\
              filter ident (keys d') = filter ident (keys d) ++ named ((a, h) :: body) /\ (k <= k')%nat).
    { intros P E'. assert (NB : named ((a, h) :: body) = named body).
      { unfold named. cbn [filter fst snd]. now rewrite P. }
      rewrite NB in *. rewrite (assoc_set_new _ _ _ (NP k (le_n k))) in E'.
      destruct (IH _ _ _ _ E' ID ND) as (I1 & I2 & I3).
      - intros b Ib. specialize (NN b Ib). assert (b <> pad_name k).
        { intros ->. unfold named, keys in Ib. apply in_map_iff in Ib. destruct Ib as (kv & Eb & Ib).
          apply filter_In in Ib. destruct Ib as [Ib _]. rewrite forallb_forall in ID. specialize (ID kv Ib).
          rewrite Eb, pad_name_not_ident in ID. discriminate. }
        revert NN H. clear. intros NN H. induction d as [|[x y] d IHd]; cbn in *.
        + destruct (String.eqb_spec b (pad_name k)); congruence.
        + destruct (String.eqb b x); [discriminate|]. auto.
      - intros j J. assert (N : assoc (pad_name j) d = None) by (apply NP; lia).
        assert (pad_name j <> pad_name k) by (intros X; apply pad_name_inj in X; lia).
        revert N H. clear. intros N H. induction d as [|[x y] d IHd]; cbn in *.
        + destruct (String.eqb_spec (pad_name j) (pad_name k)); congruence.
        + destruct (String.eqb (pad_name j) x); [discriminate|]. auto.
      - split; [|split; [|lia]].
        + rewrite I1, map_app. cbn. now rewrite <- app_assoc.
        + rewrite I2. unfold keys at 1. rewrite map_app, filter_app. cbn [map fst filter]. rewrite pad_name_not_ident.
          now rewrite app_nil_r. }
    assert (NAMED : String.eqb a "_" && is_padding fin spec idf h = false ->
              class_body fin spec idf k body (assoc_set a h d) = Ok (d', k') ->
              map snd d' = map snd d ++ map snd ((a, h) :: body) /\
              filter ident (keys d') = filter ident (keys d) ++ named ((a, h) :: body) /\ (k <= k')%nat).
    { intros P E'. assert (NB : named ((a, h) :: body) = a :: named body).
      { unfold named. cbn [filter fst snd]. now rewrite P. }
      rewrite NB in *. inversion ND; subst. rewrite (assoc_set_new a h d (NN a (or_introl eq_refl))) in E'.
      destruct (IH _ _ _ _ E' ID H2) as (I1 & I2 & I3).
      - intros b Ib. apply (K b); [reflexivity|apply NN; now right|]. intros ->. contradiction.
      - intros j J. apply (K (pad_name j)); [reflexivity|now apply NP|]. intros ->. rewrite pad_name_not_ident in IA. discriminate.
      - split; [|split; [|lia]].
        + rewrite I1, map_app. cbn. now rewrite <- app_assoc.
        + rewrite I2. unfold keys at 1. rewrite map_app, filter_app. cbn [map fst filter]. rewrite IA.
          now rewrite <- app_assoc. }
    destruct (String.eqb a "_") eqn:U; [|now apply NAMED].
    unfold ispad, is_padding in *. destruct (transform fin spec idf false [] h) as [s|]; cbn [rbind] in E; [|discriminate].
    destruct (match s with PSer s => ser_ispad s | _ => false end) eqn:P.
    + apply PADCASE; [|exact E]. destruct s; try discriminate; reflexivity.
    + apply NAMED; [|exact E]. destruct s; try reflexivity; cbn [andb]; exact P.
Qed.
(** Every annotation of the class body is kept, in order, however many paddings are called "_"; and the other
    names stay what they are. *)
Theorem C29_body : forall k body d k',
  class_body fin spec idf k body [] = Ok (d, k') ->
  forallb (fun kv => ident (fst kv)) body = true -> NoDup (named body) ->
  map snd d = map snd body /\ filter ident (keys d) = named body.
Proof.
  intros k body d k' E ID ND. destruct (class_body_keeps _ _ _ _ _ E ID ND) as (A & B & _); auto.
Qed.
End Body.
Print Assumptions C29_body.
(** a padding is not an attribute *)
Theorem C29_not_attribute : forall env spec idf fac n body bases tvars bo mode d a h idf',
  define env spec idf fac n body bases tvars bo mode = Ok d ->
  assoc a (get_type_hints (ci_mro d)) = Some h -> is_padding (efin env) spec idf' h = true ->
  ~ In a (c_attrs (ci_def d)).
Proof.
  intros env spec idf fac n body bases tvars bo mode d a h idf' D A P I.
  destruct (define_attrs _ _ _ _ _ _ _ _ _ _ _ D) as (E & _). rewrite E in I. unfold hint_attrs in I.
  apply filter_In in I. destruct I as [_ I]. rewrite A in I. unfold is_padding in P.
  destruct (transform (efin env) spec idf' false [] h) as [r|] eqn:T; [|discriminate].
  rewrite (transform_serialized _ _ _ _ _ _ T) in I. destruct r; try discriminate. rewrite P in I. discriminate.
Qed.
Print Assumptions C29_not_attribute.

(** ** Examples and counterexamples *)
Definition xspec : nat -> list pyh -> res nat := fun _ _ => Err TypeError.
Definition xid (p : list nat) : nat := match p with [] => 50 | x :: _ => x end%nat.
Definition xfac : akind -> list pyh -> nat := fun k _ => match k with AkChar => 60 | AkArray => 61 | _ => 62 end%nat.
Definition xok (r : res pyh) : pyh := match r with Ok h => h | Err _ => PNone end.
Definition xopt (r : res cinfo) : option cinfo := match r with Ok i => Some i | Err _ => None end.
Definition xdef (env : nat -> option cinfo) := define env xspec xid xfac 20.
Definition char4 : pyh := xok (char_create xfac (PInt 4)).
Definition char8 : pyh := xok (char_create xfac (basic CB)).
Definition rest : pyh := xok (char_create xfac PInf).
Definition pad3 : pyh := xok (pad_getitem 3).
Definition nowhere : nat -> option cinfo := fun _ => None.
(* class Base(Structured, byte_order=LE): a: uint8; b: int; _: pad[3]; c: char[4]; d: char[uint8] *)
Definition xbody : dict :=
  match class_body (efin nowhere) xspec xid 7
          [("a", basic CB); ("b", t_int); ("_", pad3); ("c", char4); ("d", char8)]%string [] with
  | Ok (d, _) => d | Err _ => [] end.
Definition xbase := xdef nowhere xbody [] [] BO_LE STRICT.
Definition xenv (c : nat) : option cinfo := match c with O => xopt xbase | _ => None end.
(* class Derived(Base, byte_order=LE): c: str; a: uint16; e: uint32 *)
Definition xbody2 : dict := [("c", t_str); ("a", basic CH); ("e", basic CI)]%string.
Definition xder := xdef xenv xbody2 [(0%nat, None)] [] BO_LE STRICT.

Example xbase_def : xbase = Ok (CInfo xbody [xbody; structured_ann] [] []
  (CD ["a"; "c"; "d"]%string
      (SCompound 50 [SStruct (SS BO_LE [T None CB; T (Some 3%nat) Cx; T (Some 4%nat) Cs] None);
                     SDynChar 60 (SS BO_LE [T None CB] None)]) BO_LE false)).
Proof. vm_compute. reflexivity. Qed.
Example C33_met : exists i d, xenv 0%nat = Some i /\ xbase = Ok i /\ xder = Ok d /\ NoDup (keys xbody2) /\
  (forall a h, assoc a xbody2 = Some h -> serialized (efin xenv) xspec (eval_fwd h) = true ->
     In a (keys (get_type_hints (ci_mro i))) -> In a (c_attrs (ci_def i))) /\
  c_attrs (ci_def i) = ["a"; "c"; "d"]%string /\ c_attrs (ci_def d) = ["a"; "d"; "e"]%string.
Proof.
  destruct xbase as [i|] eqn:B; [|vm_compute in B; discriminate].
  destruct xder as [d|] eqn:D; [|vm_compute in D; discriminate].
  exists i, d. split; [unfold xenv, xopt; now rewrite B|]. split; [reflexivity|]. split; [reflexivity|].
  split; [repeat constructor; cbn; intuition discriminate|].
  rewrite xbase_def in B. injection B as <-.
  split; [|split; [reflexivity|vm_compute in D; injection D as <-; reflexivity]].
  intros a h A S I. cbn [ci_def c_attrs]. unfold xbody2 in A. cbn [assoc] in A.
  destruct (String.eqb_spec a "c"); [subst; right; left; reflexivity|].
  destruct (String.eqb_spec a "a"); [subst; left; reflexivity|].
  destruct (String.eqb_spec a "e"); [|discriminate]. subst. exfalso. vm_compute in I.
  repeat (destruct I as [I|I]; [discriminate|]). contradiction.
Qed.
(** the fields of the derived class: a becomes uint16 in its place, c is gone, e comes last *)
Example xder_ser : exists d, xder = Ok d /\ c_ser (ci_def d) =
  SCompound 50 [SStruct (SS BO_LE [T None CH; T (Some 3%nat) Cx] None); SDynChar 60 (SS BO_LE [T None CB] None);
                SStruct (SS BO_LE [T None CI] None)].
Proof. eexists. split; vm_compute; reflexivity. Qed.
Example C39_met : exists d l, xder = Ok d /\ fields xenv xspec xid d = Ok l /\
  forallb plain_field (map snd l) = true /\ lossless (map snd l) = true /\
  Forall (fun f => if ser_ispad (snd f) then True else num_values (snd f) = 1%nat) l /\
  ~ In "self"%string (keys l) /\ List.length (c_attrs (ci_def d)) = 3%nat.
Proof.
  eexists. eexists. split; [vm_compute; reflexivity|]. split; [vm_compute; reflexivity|].
  split; [vm_compute; reflexivity|]. split; [vm_compute; reflexivity|].
  split; [repeat constructor|]. split; [|reflexivity]. cbn. intuition discriminate.
Qed.
Example C34_met : (exists i, xenv 0%nat = Some i /\ c_bo (ci_def i) = BO_LE) /\
  xdef xenv [] [(0%nat, None)] [] BO_BE STRICT = Err ValueError /\
  exists d, xdef xenv [] [(0%nat, None)] [] BO_BE OVERRIDE = Ok d /\
    c_ser (ci_def d) = SCompound 50 [SStruct (SS BO_BE [T None CB; T (Some 3%nat) Cx; T (Some 4%nat) Cs] None);
                                     SDynChar 60 (SS BO_BE [T None CB] None)].
Proof.
  split; [eexists; split; vm_compute; reflexivity|]. split; [vm_compute; reflexivity|].
  eexists. split; vm_compute; reflexivity.
Qed.
Example C14_class_met :
  xdef xenv [("r", rest); ("x", basic CB)]%string [] [] BO_LE STRICT = Err TypeError /\
  xdef xenv [("r", rest)]%string [(0%nat, None)] [] BO_LE STRICT <> Err TypeError /\
  array_create (efin xenv) xspec xid xfac (PHeader (inl 2) None) rest = Err TypeError.
Proof. split; [vm_compute; reflexivity|]. split; [vm_compute; discriminate|vm_compute; reflexivity]. Qed.

(* x: uint8; _: pad[3]; y: int; _: pad[3]; _: uint16 *)
Example C29_body_met :
  let body := [("x", basic CB); ("_", pad3); ("y", t_int); ("_", pad3); ("_", basic CH)]%string in
  forallb (fun kv => ident (fst kv)) body = true /\ named (efin nowhere) xspec xid body = ["x"; "y"; "_"]%string /\
  exists d, class_body (efin nowhere) xspec xid 9 body [] = Ok (d, 11%nat) /\
    keys d = ["x"; "9_pad_"; "y"; "10_pad_"; "_"]%string /\ is_padding (efin nowhere) xspec xid pad3 = true /\
    exists i, xdef nowhere d [] [] BO_LE STRICT = Ok i /\ c_attrs (ci_def i) = ["x"; "_"]%string.
Proof.
  split; [reflexivity|]. split; [vm_compute; reflexivity|]. eexists. split; [vm_compute; reflexivity|].
  split; [reflexivity|]. split; [vm_compute; reflexivity|]. eexists. split; vm_compute; reflexivity.
Qed.

(** A name whose hint is not serialized in the base and serialized in the subclass keeps its place among
    the names of the base, so it comes before inherited attributes. *)
Theorem C33_promoted_refuted : exists base d,
  xdef nowhere [("x", basic CB); ("y", t_int); ("z", basic CB)]%string [] [] BO_LE STRICT = Ok base /\
  c_attrs (ci_def base) = ["x"; "z"]%string /\
  xdef (fun c => match c with O => Some base | _ => None end) [("y", basic CB)]%string [(0%nat, None)] [] BO_LE STRICT = Ok d /\
  c_attrs (ci_def d) = ["x"; "y"; "z"]%string.
Proof. eexists. eexists. split; [vm_compute; reflexivity|]. split; [reflexivity|]. split; vm_compute; reflexivity. Qed.
Print Assumptions C33_promoted_refuted.
(** Deriving from a specialized generic class: the hints of the specialization replace those written in the
    class body.  class Base(Generic[T], Structured): x: T;  class D(Base[uint8]): x: uint16. *)
Theorem C33_redefine_generic_refuted : exists base d,
  xdef nowhere [("x", PTVar 0)]%string [] [0%nat] BO_LE STRICT = Ok base /\
  xdef (fun c => match c with O => Some base | _ => None end) [("x", basic CH)]%string [(0%nat, Some [basic CB])] [] BO_LE STRICT = Ok d /\
  c_ser (ci_def d) = SStruct (SS BO_LE [T None CB] None).
Proof. eexists. eexists. split; [vm_compute; reflexivity|]. split; vm_compute; reflexivity. Qed.
Print Assumptions C33_redefine_generic_refuted.
(** A field called "self" is part of the format and is not an attribute. *)
Theorem C39_self_refuted : exists d,
  xdef nowhere [("self", basic CB); ("x", basic CB)]%string [] [] BO_LE STRICT = Ok d /\
  c_attrs (ci_def d) = ["x"]%string /\ num_values (c_ser (ci_def d)) = 2%nat.
Proof. eexists. split; [vm_compute; reflexivity|]. split; reflexivity. Qed.
Print Assumptions C39_self_refuted.
(** char[0] and pad[0] are attributes without a value; a dynamic array of a basic type claims no value *)
Theorem C39_zero_refuted : exists d,
  xdef nowhere [("e", xok (char_create xfac (PInt 0))); ("p", xok (pad_getitem 0));
                ("l", xok (array_create (efin nowhere) xspec xid xfac (PHeader (inr (SS BO_DEFAULT [T None CB] None)) None) (basic CB)))]%string
       [] [] BO_LE STRICT = Ok d /\
  c_attrs (ci_def d) = ["e"; "p"; "l"]%string /\ num_values (c_ser (ci_def d)) = 0%nat.
Proof. eexists. split; [vm_compute; reflexivity|]. split; reflexivity. Qed.
Print Assumptions C39_zero_refuted.
(** A conditional padding is listed as an attribute. *)
Theorem C29_conditional_pad_refuted : exists d,
  xdef nowhere [("x", basic CB); ("p", mk_ann pad3 [PCond (fun _ => Ok (VBool true)) []])]%string [] [] BO_LE STRICT = Ok d /\
  c_attrs (ci_def d) = ["x"; "p"]%string.
Proof. eexists. split; [vm_compute; reflexivity|]. reflexivity. Qed.
Print Assumptions C29_conditional_pad_refuted.
(** With [from __future__ import annotations] the annotations are strings while the class body runs: all the
    paddings called "_" become one. *)
Theorem C29_future_refuted :
  (exists k, class_body (efin nowhere) xspec xid 0 [("_", PFwd pad3); ("x", PFwd (basic CB)); ("_", PFwd pad3)]%string [] =
     Ok ([("_", PFwd pad3); ("x", PFwd (basic CB))]%string, k)) /\
  (exists d, xdef nowhere [("_", PFwd pad3); ("x", PFwd (basic CB))]%string [] [] BO_LE STRICT = Ok d /\
     c_ser (ci_def d) = SStruct (SS BO_LE [T (Some 3%nat) Cx; T None CB] None)).
Proof. split; [eexists; vm_compute; reflexivity|]. eexists. split; vm_compute; reflexivity. Qed.
Print Assumptions C29_future_refuted.
(** The size check of an array header is dropped without notice for basic items:
    array[Header[2, uint32], uint8] and array[Header[uint8, uint32], uint8]. *)
Theorem C21_size_dropped_refuted :
  let u32 := SS BO_DEFAULT [T None CI] None in let u8 := SS BO_DEFAULT [T None CB] None in
  header_create (PInt 2) (basic CI) = Ok (PHeader (inl 2) (Some u32)) /\
  array_create (efin nowhere) xspec xid xfac (PHeader (inl 2) (Some u32)) (basic CB)
  = Ok (PAnn t_list [PSer (SStaticArr 2 u8)]) /\
  header_create (basic CB) (basic CI) = Ok (PHeader (inr u8) (Some u32)) /\
  array_create (efin nowhere) xspec xid xfac (PHeader (inr u8) (Some u32)) (basic CB)
  = Ok (PAnn t_list [PSer (SDynArr 61 u8 u8)]).
Proof. repeat split. Qed.
Print Assumptions C21_size_dropped_refuted.
