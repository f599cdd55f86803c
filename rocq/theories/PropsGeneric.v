(** C35: specialization of generic classes is simultaneous substitution, and composes. *)
From Verif Require Import Base Floats Value StructMod Format Ser Exec Pure BaseFacts StructFacts FormatFacts SerFacts
  Adding PropsAdd PropsFinal PropsOrder Hints HintFacts PropsInherit.

(** ** The specification: terms over type variables *)
(** simultaneous substitution; nothing is evaluated *)
Fixpoint subst (m : list (nat * pyh)) (h : pyh) : pyh :=
  match h with
  | PTVar t => match tassoc t m with Some x => x | None => h end
  | PAlias k args => PAlias k (map (subst m) args)
  | PGenAlias c sa args => PGenAlias c sa (map (subst m) args)
  | _ => h
  end.
Fixpoint vars (h : pyh) : list nat :=
  match h with
  | PTVar t => [t]
  | PAlias _ args | PGenAlias _ _ args => flat_map vars args
  | _ => []
  end.
Fixpoint adepth (h : pyh) : nat :=
  match h with
  | PAlias _ args | PGenAlias _ _ args => S (fold_right (fun a k => Nat.max (adepth a) k) O args)
  | _ => O
  end.
Definition pending (h : pyh) : bool := is_tv h || is_alias h.

Section Terms.
Variables (fin : nat -> bool) (spec : nat -> list pyh -> res nat) (idf : list nat -> nat).
Variable fac : akind -> list pyh -> nat.

(** evaluation: an expression is built, innermost first, when no type variable is left in its arguments *)
Fixpoint norm (h : pyh) : res pyh :=
  let fix go l := match l with [] => Ok [] | a :: l' => rdo b <- norm a; rdo bs <- go l'; Ok (b :: bs) end in
  match h with
  | PAlias k args => rdo l <- go args; if existsb pending l then Ok (PAlias k l) else getitem fin spec idf fac k l
  | PGenAlias c sa args => rdo l <- go args; if existsb pending l then Ok (PGenAlias c sa l) else gen_getitem c sa l
  | _ => Ok h
  end.
Lemma norm_go : forall l,
  (fix go l := match l with [] => Ok [] | a :: l' => rdo b <- norm a; rdo bs <- go l'; Ok (b :: bs) end) l = rmapM norm l.
Proof. induction l as [|a l IH]; cbn; [reflexivity|]. destruct (norm a); cbn; [|reflexivity]. now rewrite IH. Qed.
Lemma norm_alias : forall k args, norm (PAlias k args)
  = rdo l <- rmapM norm args; if existsb pending l then Ok (PAlias k l) else getitem fin spec idf fac k l.
Proof. intros. cbn [norm]. now rewrite norm_go. Qed.
Lemma norm_gen : forall c sa args, norm (PGenAlias c sa args)
  = rdo l <- rmapM norm args; if existsb pending l then Ok (PGenAlias c sa l) else gen_getitem c sa l.
Proof. intros. cbn [norm]. now rewrite norm_go. Qed.
Lemma norm_other : forall h, is_alias h = false -> norm h = Ok h.
Proof. destruct h; try reflexivity; discriminate. Qed.

(** expressions that were built are not pending *)
Lemma built_both : forall k l r, existsb pending l = false -> getitem fin spec idf fac k l = Ok r -> pending r = false /\ eval_fwd r = r.
Proof.
  intros k l r O E. destruct k.
  - destruct l as [|c [|? ?]]; try discriminate. cbn [existsb] in O. rewrite orb_false_r in O. cbn [getitem] in E.
    unfold char_create in E. destruct (size_type c); [injection E as <-; (split; reflexivity)|].
    destruct c; try discriminate; try (injection E as <-; (split; reflexivity)).
    + destruct (ss_matmul _ _); cbn in E; [|discriminate]. injection E as <-. (split; reflexivity).
    + destruct b as [|? [|? ?]]; try discriminate. injection E as <-. (split; reflexivity).
  - destruct l as [|c [|e [|? ?]]]; try discriminate. cbn [existsb] in O. cbn [getitem] in E. unfold unicode_create in E.
    destruct (is_tv c) eqn:T; [unfold pending in O; rewrite T in O; discriminate|].
    destruct e; try discriminate. destruct (char_create fac c) as [hc|]; cbn [rbind] in E; [|discriminate].
    destruct (transform fin spec idf false [] hc) as [u|]; cbn [rbind] in E; [|discriminate].
    destruct u; try discriminate. injection E as <-. (split; reflexivity).
  - destruct l as [|a [|b [|? ?]]]; try discriminate. cbn [existsb] in O. cbn [getitem] in E. unfold header_create in E.
    destruct (is_tv a) eqn:T; [unfold pending in O; rewrite T in O; discriminate|].
    destruct (is_tv b) eqn:T'; [unfold pending in O; rewrite T' in O; cbn in O; now rewrite orb_true_r in O|].
    cbn [orb] in E. dstep E. destruct (size_type b); [injection E as <-; (split; reflexivity)|].
    destruct b; try discriminate. injection E as <-. (split; reflexivity).
  - destruct l as [|a [|b [|? ?]]]; try discriminate. cbn [existsb] in O. cbn [getitem] in E. unfold array_create in E.
    destruct (is_alias a) eqn:T; [unfold pending in O; rewrite T, orb_true_r in O; discriminate|].
    destruct (is_tv b) eqn:T'; [unfold pending in O; rewrite T' in O; cbn in O; now rewrite orb_true_r in O|].
    cbn [orb] in E. destruct a; try discriminate.
    destruct (transform _ _ _ _ _ b) as [it|]; cbn [rbind] in E; [|discriminate]. destruct it; try discriminate.
    destruct (is_final fin s); [discriminate|].
    assert (X : forall r', match count, size with
                | inl z, None => Ok (PAnn t_list [PSer (SArray (fac AkArray [PHeader count size; b]) None s z)])
                | inl z, Some d => Ok (PAnn t_list [PSer (SArray (fac AkArray [PHeader count size; b]) (Some d) s z)])
                | inr c, None => Ok (PAnn t_list [PSer (SArray (fac AkArray [PHeader count size; b]) (Some c) s (-1))])
                | inr c, Some d => rdo cd <- ss_add c d; Ok (PAnn t_list [PSer (SArray (fac AkArray [PHeader count size; b]) (Some cd) s (-1))])
                end = Ok r' -> pending r' = false /\ eval_fwd r' = r').
    { intros r'. destruct count, size; try (intros [= <-]; (split; reflexivity)).
      destruct (ss_add _ _); cbn [rbind]; [|discriminate]. intros [= <-]; (split; reflexivity). }
    destruct s; try (eapply X; exact E).
    destruct (Nat.eqb _ _); [|eapply X; exact E]. destruct count; injection E as <-; (split; reflexivity).
  - cbn [getitem] in E. injection E as <-. (split; reflexivity).
Qed.
Lemma built : forall k l r, existsb pending l = false -> getitem fin spec idf fac k l = Ok r -> pending r = false.
Proof. intros k l r O E. exact (proj1 (built_both k l r O E)). Qed.
Lemma built_gen : forall c sa l r, gen_getitem c sa l = Ok r -> pending r = false.
Proof. intros c sa l r. unfold gen_getitem. destruct (Nat.eqb _ _); [|discriminate]. intros [= <-]. reflexivity. Qed.

Lemma rmapM_Forall2 : forall {A B} (f : A -> res B) l l', rmapM f l = Ok l' -> Forall2 (fun a b => f a = Ok b) l l'.
Proof.
  induction l as [|a l IH]; cbn; intros l' E; [injection E as <-; constructor|].
  destruct (f a) eqn:F; cbn [rbind] in E; [|discriminate]. destruct (rmapM f l); cbn [rbind] in E; [|discriminate].
  injection E as <-. constructor; auto.
Qed.
Lemma Forall2_rmapM : forall {A B} (f : A -> res B) l l', Forall2 (fun a b => f a = Ok b) l l' -> rmapM f l = Ok l'.
Proof. induction 1 as [|a b l l' H _ IH]; cbn; [reflexivity|]. now rewrite H, IH. Qed.
Lemma rmapM_map : forall {A B C} (f : B -> res C) (g : A -> B) l, rmapM f (map g l) = rmapM (fun a => f (g a)) l.
Proof. induction l as [|a l IH]; cbn; [reflexivity|]. now rewrite IH. Qed.
Lemma rmapM_ext_in : forall {A B} (f g : A -> res B) l, (forall a, In a l -> f a = g a) -> rmapM f l = rmapM g l.
Proof.
  induction l as [|a l IH]; cbn; intros H; [reflexivity|]. rewrite (H a) by now left. rewrite IH; [reflexivity|]. auto.
Qed.

(** evaluated expressions *)
Definition normal (h : pyh) : Prop := norm h = Ok h.
Lemma normal_args : forall k args, normal (PAlias k args) -> Forall normal args /\ existsb pending args = true.
Proof.
  intros k args N. unfold normal in N. rewrite norm_alias in N. destruct (rmapM norm args) as [l|] eqn:E; cbn [rbind] in N; [|discriminate].
  destruct (existsb pending l) eqn:O; [|apply built in N; [discriminate|exact O]].
  injection N as ->. split; [|exact O]. apply rmapM_Forall2 in E. clear -E. assert (G : forall l l', Forall2 (fun a b => norm a = Ok b) l l' -> l = l' -> Forall normal l).
  { induction 1; intros Q; constructor; injection Q as <- <-; auto. } eapply G; eauto.
Qed.
Lemma normal_gargs : forall c sa args, normal (PGenAlias c sa args) -> Forall normal args /\ existsb pending args = true.
Proof.
  intros c sa args N. unfold normal in N. rewrite norm_gen in N. destruct (rmapM norm args) as [l|] eqn:E; cbn [rbind] in N; [|discriminate].
  destruct (existsb pending l) eqn:O; [|apply built_gen in N; discriminate].
  injection N as ->. split; [|exact O]. apply rmapM_Forall2 in E. clear -E. assert (G : forall l l', Forall2 (fun a b => norm a = Ok b) l l' -> l = l' -> Forall normal l).
  { induction 1; intros Q; constructor; injection Q as <- <-; auto. } eapply G; eauto.
Qed.
Lemma not_pending_alias : forall h, pending h = false -> is_alias h = false.
Proof. unfold pending. intros h H. apply orb_false_elim in H. tauto. Qed.
Lemma norm_normal : forall h r, norm h = Ok r -> normal r.
Proof.
  induction h using pyh_ind'; intros r E; try (cbn in E; injection E as <-; reflexivity).
  - rewrite norm_alias in E. destruct (rmapM norm l) as [l'|] eqn:M; cbn [rbind] in E; [|discriminate].
    destruct (existsb pending l') eqn:O.
    + injection E as <-. unfold normal. rewrite norm_alias.
      assert (N : rmapM norm l' = Ok l').
      { apply rmapM_Forall2 in M. apply Forall2_rmapM. clear -M H. revert H. induction M as [|x y l l2 Q _ IH]; intros F; constructor; inversion F; subst; [exact (H1 _ Q)|auto]. }
      rewrite N. cbn [rbind]. now rewrite O.
    + apply built in E; [|exact O]. now apply norm_other, not_pending_alias.
  - rewrite norm_gen in E. destruct (rmapM norm l) as [l'|] eqn:M; cbn [rbind] in E; [|discriminate].
    destruct (existsb pending l') eqn:O.
    + injection E as <-. unfold normal. rewrite norm_gen.
      assert (N : rmapM norm l' = Ok l').
      { apply rmapM_Forall2 in M. apply Forall2_rmapM. clear -M H0. revert H0. induction M as [|x y l l2 Q _ IH]; intros F; constructor; inversion F; subst; [exact (H1 _ Q)|auto]. }
      rewrite N. cbn [rbind]. now rewrite O.
    + apply built_gen in E. now apply norm_other, not_pending_alias.
  - destruct h; try contradiction; cbn in E; injection E as <-; reflexivity.
Qed.

(** ** [StructuredAlias.resolve] *)
(** The maps covered: the images are evaluated, and the type variables of an image that is itself an expression
    are not in the map (see C35_capture_refuted) *)
Definition fresh (m : list (nat * pyh)) : Prop :=
  forall t x, tassoc t m = Some x -> normal x /\ (is_alias x = true -> forall u, In u (vars x) -> tassoc u m = None).
Definition mdepth (m : list (nat * pyh)) : nat := fold_right (fun e k => Nat.max (adepth (snd e)) k) O m.

Notation resolve := (resolve_alias fin spec idf fac).
Definition res_arg (n : nat) (m : list (nat * pyh)) (a : pyh) : res pyh :=
  let a' := match a with PTVar t => match tassoc t m with Some x => x | None => a end | _ => a end in
  if is_alias a' then resolve n m a' else Ok a'.
Lemma resolve_alias_S : forall n m k args, resolve (S n) m (PAlias k args)
  = rdo l <- rmapM (res_arg n m) args; if existsb pending l then Ok (PAlias k l) else getitem fin spec idf fac k l.
Proof. reflexivity. Qed.
Lemma resolve_gen_S : forall n m c sa args, resolve (S n) m (PGenAlias c sa args)
  = rdo l <- rmapM (res_arg n m) args; if existsb pending l then Ok (PGenAlias c sa l) else gen_getitem c sa l.
Proof. reflexivity. Qed.
Lemma adepth_arg : forall (args : list pyh) a, In a args -> (adepth a <= fold_right (fun a k => Nat.max (adepth a) k) O args)%nat.
Proof. induction args as [|b args IH]; cbn; intros a []; [subst; lia|]. specialize (IH _ H). lia. Qed.
Lemma mdepth_le : forall t x m, tassoc t m = Some x -> (adepth x <= mdepth m)%nat.
Proof.
  unfold mdepth. induction m as [|[u y] m IH]; cbn; [discriminate|]. destruct (Nat.eqb t u); [intros [= ->]; lia|]. intros H. specialize (IH H). lia.
Qed.
Lemma resolve_fixed : forall x n mp, is_alias x = true -> normal x -> (forall u, In u (vars x) -> tassoc u mp = None) ->
  (adepth x <= n)%nat -> resolve n mp x = Ok x.
Proof.
  induction x using pyh_ind'; intros n mp A N V D; try discriminate; try (destruct x; try contradiction; discriminate).
  - cbn [adepth] in D. destruct n as [|n]; [lia|]. destruct (normal_args _ _ N) as [NA O].
    rewrite resolve_alias_S. replace (rmapM (res_arg n mp) l) with (@Ok (list pyh) l); [cbn [rbind]; now rewrite O|].
    symmetry. apply Forall2_rmapM. clear N A O. revert V D. cbn [vars].
    rewrite Forall_forall in H, NA. assert (G : forall a, In a l -> (forall u, In u (vars a) -> tassoc u mp = None) -> (adepth a <= n)%nat -> res_arg n mp a = Ok a).
    { intros a Ia Va Da. unfold res_arg. destruct a; try reflexivity.
      - cbn in Va. now rewrite Va by auto.
      - cbn [is_alias]. now apply H; auto.
      - cbn [is_alias]. now apply H; auto. }
    clear H NA. intros V D. assert (G' : forall a, In a l -> res_arg n mp a = Ok a).
    { intros a Ia. apply G; auto. - intros u Iu. apply V. apply in_flat_map. eauto. - pose proof (adepth_arg l a Ia). lia. }
    clear -G'. induction l; constructor; auto with datatypes.
  - cbn [adepth] in D. destruct n as [|n]; [lia|]. destruct (normal_gargs _ _ _ N) as [NA O].
    rewrite resolve_gen_S. replace (rmapM (res_arg n mp) l) with (@Ok (list pyh) l); [cbn [rbind]; now rewrite O|].
    symmetry. apply Forall2_rmapM. clear N A O. revert V D. cbn [vars].
    rewrite Forall_forall in H0, NA. assert (G : forall a, In a l -> (forall u, In u (vars a) -> tassoc u mp = None) -> (adepth a <= n)%nat -> res_arg n mp a = Ok a).
    { intros a Ia Va Da. unfold res_arg. destruct a; try reflexivity.
      - cbn in Va. now rewrite Va by auto.
      - cbn [is_alias]. now apply H0; auto.
      - cbn [is_alias]. now apply H0; auto. }
    clear H H0 NA. intros V D. assert (G' : forall a, In a l -> res_arg n mp a = Ok a).
    { intros a Ia. apply G; auto. - intros u Iu. apply V. apply in_flat_map. eauto. - pose proof (adepth_arg l a Ia). lia. }
    clear -G'. induction l; constructor; auto with datatypes.
Qed.
Lemma res_arg_norm : forall n m a, fresh m -> (mdepth m <= n)%nat ->
  (is_alias a = true -> resolve n m a = norm (subst m a)) -> res_arg n m a = norm (subst m a).
Proof.
  intros n m a F D H. unfold res_arg. destruct a; try reflexivity; try (now apply H).
  cbn [subst]. destruct (tassoc t m) as [x|] eqn:T; [|reflexivity]. destruct (F _ _ T) as [N V].
  destruct (is_alias x) eqn:A; [|symmetry; now apply norm_other].
  rewrite resolve_fixed; auto. pose proof (mdepth_le _ _ _ T). lia.
Qed.
(** Resolving is substituting and evaluating *)
Theorem C35_resolve : forall h n mp, is_alias h = true -> fresh mp -> (adepth h + mdepth mp <= n)%nat ->
  resolve_alias fin spec idf fac n mp h = norm (subst mp h).
Proof.
  induction h using pyh_ind'; intros n mp A F D; try discriminate; try (destruct h; try contradiction; discriminate).
  - cbn [adepth] in D. destruct n as [|n]; [lia|]. rewrite resolve_alias_S. cbn [subst]. rewrite norm_alias, rmapM_map.
    erewrite rmapM_ext_in; [reflexivity|]. intros a Ia. rewrite Forall_forall in H. pose proof (adepth_arg l a Ia).
    apply res_arg_norm; auto; [lia|]. intros Aa. apply H; auto. lia.
  - cbn [adepth] in D. destruct n as [|n]; [lia|]. rewrite resolve_gen_S. cbn [subst]. rewrite norm_gen, rmapM_map.
    erewrite rmapM_ext_in; [reflexivity|]. intros a Ia. rewrite Forall_forall in H0. pose proof (adepth_arg l a Ia).
    apply res_arg_norm; auto; [lia|]. intros Aa. apply H0; auto. lia.
Qed.
(** more recursion never changes a result *)
Lemma resolve_more : forall n n' m h r, (n <= n')%nat -> resolve n m h = Ok r -> resolve n' m h = Ok r.
Proof.
  induction n as [|n IH]; intros n' m h r L E; [discriminate|]. destruct n' as [|n']; [lia|].
  assert (RA : forall args l, rmapM (res_arg n m) args = Ok l -> rmapM (res_arg n' m) args = Ok l).
  { intros args l M. apply rmapM_Forall2 in M. apply Forall2_rmapM. clear E. induction M as [|a b args l Q _ IHM]; constructor; [clear IHM|exact IHM].
    unfold res_arg in *.
    destruct (is_alias (match a with PTVar t => match tassoc t m with Some x => x | None => a end | _ => a end)); auto.
    apply IH; auto. lia. }
  destruct h; try discriminate.
  - rewrite resolve_alias_S in *. destruct (rmapM (res_arg n m) args) as [l|] eqn:M; cbn [rbind] in E; [|discriminate].
    rewrite (RA _ _ M). exact E.
  - rewrite resolve_gen_S in *. destruct (rmapM (res_arg n m) args) as [l|] eqn:M; cbn [rbind] in E; [|discriminate].
    rewrite (RA _ _ M). exact E.
Qed.
(** the result of every resolution that succeeds, whatever the recursion limit *)
Theorem C35_resolved : forall n m h r, fresh m ->
  resolve_alias fin spec idf fac n m h = Ok r -> norm (subst m h) = Ok r.
Proof.
  intros n m h r F E. destruct (is_alias h) eqn:A.
  - rewrite <- (C35_resolve h (n + (adepth h + mdepth m)) m A F) by lia. apply (resolve_more n); [lia|exact E].
  - destruct n; [discriminate|]. cbn in E. destruct h; discriminate.
Qed.

(** ** Composition *)
Definition same {A} (a b : res A) : Prop :=
  match a, b with Ok x, Ok y => x = y | Err _, Err _ => True | _, _ => False end.
Lemma same_refl : forall {A} (a : res A), same a a. Proof. destruct a; cbn; auto. Qed.
Lemma same_ok : forall {A} (a : res A) x, same a (Ok x) -> a = Ok x. Proof. destruct a; cbn; intros; [congruence|contradiction]. Qed.
(** [m12] is [m1] followed by [m2], on the variables [vs] *)
Definition composed (m1 m2 m12 : list (nat * pyh)) (vs : list nat) : Prop :=
  forall t, In t vs ->
    match tassoc t m1 with
    | Some x => exists y, norm (subst m2 x) = Ok y /\ tassoc t m12 = Some y
    | None => tassoc t m12 = tassoc t m2
    end.
Definition normal_map (m : list (nat * pyh)) : Prop := forall t x, tassoc t m = Some x -> normal x.

Lemma two_args : forall m1 m2 m12 l,
  Forall (fun h => composed m1 m2 m12 (vars h) ->
            same (rdo r <- norm (subst m1 h); norm (subst m2 r)) (norm (subst m12 h))) l ->
  composed m1 m2 m12 (flat_map vars l) ->
  match rmapM norm (map (subst m1) l) with
  | Ok l1 => same (rmapM (fun r => norm (subst m2 r)) l1) (rmapM norm (map (subst m12) l))
  | Err _ => exists e, rmapM norm (map (subst m12) l) = Err e
  end.
Proof.
  intros m1 m2 m12. induction 1 as [|h l H _ IH]; intros C; [reflexivity|].
  assert (C1 : composed m1 m2 m12 (vars h)) by (intros t I; apply C; cbn; apply in_or_app; auto).
  assert (C2 : composed m1 m2 m12 (flat_map vars l)) by (intros t I; apply C; cbn; apply in_or_app; auto).
  specialize (H C1). specialize (IH C2). cbn [map rmapM].
  destruct (norm (subst m1 h)) as [r|]; cbn [rbind] in *.
  - destruct (rmapM norm (map (subst m1) l)) as [l1|]; cbn [rbind].
    + cbn [rmapM]. destruct (norm (subst m2 r)), (norm (subst m12 h)); cbn in H; try contradiction; cbn [rbind]; [|exact I].
      subst. destruct (rmapM (fun r => _) l1), (rmapM norm (map (subst m12) l)); cbn in IH |- *; try contradiction; auto. congruence.
    + destruct IH as [e1 IH]. rewrite IH. destruct (norm (subst m12 h)); cbn [rbind]; eauto.
  - destruct (norm (subst m12 h)); cbn in H; [contradiction|]. cbn [rbind]. eauto.
Qed.
Lemma closed_args : forall m l, existsb pending l = false -> rmapM (fun r => norm (subst m r)) l = Ok l.
Proof.
  induction l as [|a l IH]; cbn; intros H; [reflexivity|]. apply orb_false_elim in H. destruct H as [H1 H2].
  assert (E : norm (subst m a) = Ok a) by (destruct a; try reflexivity; discriminate). now rewrite E, (IH H2).
Qed.
Lemma closed_subst : forall m r, pending r = false -> norm (subst m r) = Ok r.
Proof. intros m r H. destruct r; try reflexivity; discriminate. Qed.
(** Two substitutions one after the other, with evaluation in between, are the composed substitution *)
Theorem C35_compose : forall h m1 m2 m12, normal_map m1 -> composed m1 m2 m12 (vars h) ->
  same (rdo r <- norm (subst m1 h); norm (subst m2 r)) (norm (subst m12 h)).
Proof.
  intros h m1 m2 m12 N1. induction h using pyh_ind'; intros C; try reflexivity.
  - cbn [subst]. rewrite !norm_alias. assert (X := two_args m1 m2 m12 l H C).
    destruct (rmapM norm (map (subst m1) l)) as [l1|]; cbn [rbind]; [|destruct X as [e1 ->]; exact I].
    destruct (existsb pending l1) eqn:O; cbn [rbind].
    + cbn [subst]. rewrite norm_alias, rmapM_map.
      destruct (rmapM (fun r => _) l1), (rmapM norm (map (subst m12) l)); cbn in X; try contradiction; [|exact I].
      subst. apply same_refl.
    + rewrite (closed_args m2 l1 O) in X. destruct (rmapM norm (map (subst m12) l)); cbn in X; [|contradiction]. subst. cbn [rbind]. rewrite O.
      destruct (getitem fin spec idf fac k _) as [r|] eqn:G; cbn [rbind]; [|exact I].
      apply built in G; [|exact O]. rewrite closed_subst by assumption. reflexivity.
  - cbn [subst]. rewrite !norm_gen. assert (X := two_args m1 m2 m12 l H0 C).
    destruct (rmapM norm (map (subst m1) l)) as [l1|]; cbn [rbind]; [|destruct X as [e1 ->]; exact I].
    destruct (existsb pending l1) eqn:O; cbn [rbind].
    + cbn [subst]. rewrite norm_gen, rmapM_map.
      destruct (rmapM (fun r => _) l1), (rmapM norm (map (subst m12) l)); cbn in X; try contradiction; [|exact I].
      subst. apply same_refl.
    + rewrite (closed_args m2 l1 O) in X. destruct (rmapM norm (map (subst m12) l)); cbn in X; [|contradiction]. subst. cbn [rbind]. rewrite O.
      destruct (gen_getitem c sa _) as [r|] eqn:G; cbn [rbind]; [|exact I].
      apply built_gen in G. rewrite closed_subst by assumption. reflexivity.
  - destruct h; try contradiction; try reflexivity. cbn [subst]. specialize (C t (or_introl eq_refl)).
    destruct (tassoc t m1) as [x|] eqn:T.
    + destruct C as (y & Y & ->). rewrite (N1 _ _ T : norm x = Ok x). cbn [rbind]. rewrite Y.
      rewrite (norm_normal _ _ Y : norm y = Ok y). reflexivity.
    + rewrite C. cbn [norm rbind subst]. destruct (tassoc t m2) as [x|] eqn:T2; [|reflexivity].
      apply same_refl.
Qed.
End Terms.
Print Assumptions C35_resolve.
Print Assumptions C35_resolved.
Print Assumptions C35_compose.

(** ** Classes *)
Section Classes.
Variables (env : nat -> option cinfo) (spec : nat -> list pyh -> res nat) (idf : list nat -> nat).
Variable fac : akind -> list pyh -> nat.
Notation norm := (norm (efin env) spec idf fac).
Notation normal := (normal (efin env) spec idf fac).
Notation normal_map := (normal_map (efin env) spec idf fac).
Notation fresh := (fresh (efin env) spec idf fac).
Notation resolve := (resolve_alias (efin env) spec idf fac).
Notation spec_hints := (spec_hints env spec idf fac).
(** the type expression of a hint *)
Definition expr (h : pyh) : res pyh := transform (efin env) spec idf true [] h.
(** the instance of a hint *)
Definition inst (m : list (nat * pyh)) (h : pyh) : res pyh :=
  rdo u <- expr h;
  match u with
  | PTVar t => Ok (match tassoc t m with Some x => x | None => h end)
  | PAlias _ _ | PGenAlias _ _ _ => norm (subst m u)
  | _ => Ok h
  end.
Definition closed (h : pyh) : Prop := pending h = false /\ forall u, expr h = Ok u -> pending u = false.

Lemma expr_pending : forall h, pending h = true -> expr h = Ok h.
Proof. destruct h; try discriminate; reflexivity. Qed.
Lemma inst_pending : forall m h, pending h = true -> is_alias h = true -> inst m h = norm (subst m h).
Proof. intros m h P A. unfold inst. rewrite (expr_pending h P). cbn [rbind]. destruct h; try discriminate; reflexivity. Qed.
Lemma inst_closed : forall m h x, inst m h = Ok x -> closed h -> x = h.
Proof.
  intros m h x I [P C]. unfold inst in I. destruct (expr h) as [u|] eqn:E; cbn [rbind] in I; [|discriminate].
  specialize (C u eq_refl). destruct u; try discriminate; congruence.
Qed.

(** structured.py:448-456 *)
Fixpoint own_hints (n : nat) (m : list (nat * pyh)) (ann l : dict) : res dict :=
  match l with
  | [] => Ok []
  | (a, h) :: l' =>
      rdo x <- (match assoc a ann with
                | None => Ok None
                | Some _ =>
                    rdo u <- expr h;
                    match u with
                    | PTVar t => Ok (tassoc t m)
                    | PAlias _ _ | PGenAlias _ _ _ => rmap Some (resolve n m u)
                    | _ => Ok None
                    end
                end);
      rdo r <- own_hints n m ann l';
      Ok (match x with Some y => (a, y) :: r | None => r end)
  end.
Definition shallow (m : list (nat * pyh)) (a : pyh) : pyh :=
  match a with PTVar t => match tassoc t m with Some x => x | None => a end | _ => a end.
Lemma spec_hints_S : forall n c args, spec_hints (S n) c args =
  match env c with
  | None => Err AttributeError
  | Some i =>
      let m := zipw (ci_tvars i) args in
      match m with
      | [] => Err TypeError
      | _ => rdo own <- own_hints n m (ci_ann i) (get_type_hints (ci_mro i));
             rdo supers <- rmapM (fun s => spec_hints n (fst s) (map (shallow m) (snd s))) (ci_supers i);
             Ok (dict_update (fold_left dict_update (rev supers) []) own)
      end
  end.
Proof.
  intros n c args. cbn [Hints.spec_hints]. destruct (env c) as [i|]; [|reflexivity]. cbv zeta.
  destruct (zipw (ci_tvars i) args) as [|e m]; [reflexivity|].
  generalize (get_type_hints (ci_mro i)). generalize (e :: m). intros mm l.
  match goal with |- rbind ?x _ = rbind ?y _ => assert (Q : x = y) end; [|rewrite Q; reflexivity].
  induction l as [|[a h] l IH]; [reflexivity|]. cbn [own_hints]. rewrite <- IH. reflexivity.
Qed.
Lemma own_spec : forall n m ann l o, own_hints n m ann l = Ok o -> NoDup (keys l) ->
  NoDup (keys o) /\ (forall a, In a (keys o) -> In a (keys l) /\ mem a ann = true) /\
  forall a h, assoc a l = Some h -> mem a ann = true ->
    exists u, expr h = Ok u /\
      match u with
      | PTVar t => assoc a o = tassoc t m
      | PAlias _ _ | PGenAlias _ _ _ => exists r, resolve n m u = Ok r /\ assoc a o = Some r
      | _ => assoc a o = None
      end.
Proof.
  induction l as [|[b g] l IH]; intros o E N; cbn [own_hints] in E.
  - injection E as <-. split; [constructor|]. split; [contradiction|discriminate].
  - destruct (match assoc b ann with None => Ok None | Some _ => _ end) as [x|] eqn:X; cbn [rbind] in E; [|discriminate].
    destruct (own_hints n m ann l) as [r|]; cbn [rbind] in E; [|discriminate]. injection E as <-.
    inversion N; subst. fold (keys l) in *. destruct (IH r eq_refl H2) as (I1 & I2 & I3).
    assert (NB : ~ In b (keys r)) by (intros Q; apply I2 in Q; tauto).
    assert (NR : assoc b r = None) by now apply assoc_In.
    split; [destruct x; [constructor; auto|auto]|]. split.
    + intros a Ia. destruct x as [y|].
      * destruct Ia as [<-|Ia]; [|apply I2 in Ia; split; [now right|tauto]]. split; [now left|]. unfold mem.
        cbn [fst]. destruct (assoc b ann); [reflexivity|discriminate].
      * apply I2 in Ia. split; [now right|tauto].
    + intros a h A M. cbn [assoc] in A. destruct (String.eqb_spec a b) as [->|D].
      * injection A as <-. unfold mem in M. destruct (assoc b ann); [|discriminate].
        destruct (expr g) as [u|]; cbn [rbind] in X; [|discriminate]. exists u. split; [reflexivity|].
        assert (AO : match x with Some y => assoc b ((b, y) :: r) | None => assoc b r end = x).
        { destruct x; [cbn; now rewrite String.eqb_refl|exact NR]. }
        replace (assoc b (match x with Some y => (b, y) :: r | None => r end)) with x by (destruct x; symmetry; exact AO).
        destruct u; try congruence.
        -- destruct (resolve n m _) as [z|]; cbn in X; [|discriminate]. exists z. split; [reflexivity|congruence].
        -- destruct (resolve n m _) as [z|]; cbn in X; [|discriminate]. exists z. split; [reflexivity|congruence].
      * destruct (I3 a h A M) as (u & U & V). exists u. split; [exact U|].
        assert (AO : assoc a (match x with Some y => (b, y) :: r | None => r end) = assoc a r).
        { destruct x; [|reflexivity]. cbn. destruct (String.eqb_spec a b); [contradiction|reflexivity]. }
        rewrite AO. exact V.
Qed.

(** arguments that are settled are the same *)
Definition agree (x x' : pyh) : Prop := pending x = false -> x' = x.
Lemma agree_map : forall tv args args' t x, Forall2 agree args args' -> tassoc t (zipw tv args) = Some x -> pending x = false ->
  tassoc t (zipw tv args') = Some x.
Proof.
  induction tv as [|u tv IH]; intros args args' t x F; [discriminate|]. destruct F as [|a a' l l' H F]; [discriminate|].
  cbn. destruct (Nat.eqb t u); [intros [= ->] P; now rewrite (H P)|]. now apply IH.
Qed.
Lemma agree_shallow : forall m args, Forall2 agree args (map (shallow m) args).
Proof. induction args; constructor; auto. intros P. destruct a; try reflexivity; discriminate. Qed.
Lemma agree_refl : forall args, Forall2 agree args args. Proof. induction args; constructor; auto. now intros. Qed.

(** what resolves to a settled hint does so for every map that agrees *)
Lemma closed_stable : forall u m m', normal_map m ->
  (forall t x, tassoc t m = Some x -> pending x = false -> tassoc t m' = Some x) ->
  forall n r r', norm (subst m u) = Ok r -> pending r = false -> resolve n m' u = Ok r' -> r' = r.
Proof.
  intros u m m' NM AG.
  assert (ARGS : forall l, Forall (fun u => forall n r r', norm (subst m u) = Ok r -> pending r = false -> resolve n m' u = Ok r' -> r' = r) l ->
            forall n l1 l2, rmapM norm (map (subst m) l) = Ok l1 -> existsb pending l1 = false ->
              rmapM (res_arg (efin env) spec idf fac n m') l = Ok l2 -> l2 = l1).
  { induction 1 as [|a l H _ IH]; intros n l1 l2 E1 O E2; [cbn in *; congruence|].
    cbn [map rmapM] in E1, E2.
    destruct (norm (subst m a)) as [b|] eqn:B; cbn [rbind] in E1; [|discriminate].
    destruct (rmapM norm (map (subst m) l)) as [bs|] eqn:BS; cbn [rbind] in E1; [|discriminate]. injection E1 as <-.
    cbn [existsb] in O. apply orb_false_elim in O. destruct O as [O1 O2].
    destruct (res_arg _ _ _ _ n m' a) as [b'|] eqn:B'; cbn [rbind] in E2; [|discriminate].
    destruct (rmapM (res_arg _ _ _ _ n m') l) as [bs'|] eqn:BS'; cbn [rbind] in E2; [|discriminate]. injection E2 as <-.
    f_equal; [|exact (IH n _ _ eq_refl O2 BS')].
    unfold res_arg in B'. destruct a; try (cbn in B, B'; congruence); try (exact (H n _ _ eq_refl O1 B')).
    cbn [subst] in B. destruct (tassoc t m) as [x|] eqn:T; [|cbn in B; injection B as <-; discriminate].
    rewrite (NM _ _ T : norm x = Ok x) in B. injection B as <-. rewrite (AG _ _ T O1) in B'.
    rewrite (not_pending_alias _ O1) in B'. congruence. }
  induction u using pyh_ind'; intros n r r' E P E'; try (destruct n; discriminate).
  - destruct n as [|n]; [discriminate|]. rewrite resolve_alias_S in E'. cbn [subst] in E. rewrite norm_alias in E.
    destruct (rmapM norm (map (subst m) l)) as [l1|] eqn:L1; cbn [rbind] in E; [|discriminate].
    destruct (existsb pending l1) eqn:O; [injection E as <-; discriminate|].
    destruct (rmapM (res_arg _ _ _ _ n m') l) as [l2|] eqn:L2; cbn [rbind] in E'; [|discriminate].
    rewrite (ARGS l H n _ _ L1 O L2), O in E'. congruence.
  - destruct n as [|n]; [discriminate|]. rewrite resolve_gen_S in E'. cbn [subst] in E. rewrite norm_gen in E.
    destruct (rmapM norm (map (subst m) l)) as [l1|] eqn:L1; cbn [rbind] in E; [|discriminate].
    destruct (existsb pending l1) eqn:O; [injection E as <-; discriminate|].
    destruct (rmapM (res_arg _ _ _ _ n m') l) as [l2|] eqn:L2; cbn [rbind] in E'; [|discriminate].
    rewrite (ARGS l H0 n _ _ L1 O L2), O in E'. congruence.
  - destruct n; [discriminate|]. destruct u; try contradiction; discriminate.
Qed.

(** what every class made by specialization satisfies: later specializations leave settled hints alone *)
Definition settled (c : nat) (i : cinfo) : Prop :=
  forall n args' d, spec_hints n c args' = Ok d ->
    NoDup (keys d) /\ (forall a, In a (keys d) -> In a (keys (get_type_hints (ci_mro i)))) /\
    (forall a h, assoc a (get_type_hints (ci_mro i)) = Some h -> mem a (ci_ann i) = false ->
       assoc a d = None \/ assoc a d = Some h /\ forall u, expr h = Ok u -> pending u = false) /\
    forall args a h x, normal_map (zipw (ci_tvars i) args) -> Forall2 agree args args' ->
      assoc a (get_type_hints (ci_mro i)) = Some h -> mem a (ci_ann i) = true ->
      inst (zipw (ci_tvars i) args) h = Ok x -> closed x -> assoc a d = None \/ assoc a d = Some x.
(** a generic class that is not itself a specialization, all of whose type variables are listed *)
Record root (c : nat) (i : cinfo) : Prop := {
  r_env : env c = Some i; r_supers : ci_supers i = [];
  r_scoped : forall a h u t, assoc a (get_type_hints (ci_mro i)) = Some h -> mem a (ci_ann i) = true ->
               expr h = Ok u -> In t (vars u) -> In t (ci_tvars i) }.

Lemma own_settled : forall n tv args args' ann hs o a h x,
  own_hints n (zipw tv args') ann hs = Ok o -> NoDup (keys hs) ->
  normal_map (zipw tv args) -> Forall2 agree args args' -> assoc a hs = Some h -> mem a ann = true ->
  inst (zipw tv args) h = Ok x -> closed x ->
  assoc a o = Some x \/ (assoc a o = None /\ x = h /\ forall u, expr h = Ok u -> pending u = false).
Proof.
  intros n tv args args' ann hs o a h x OW N NM AG A M I C.
  destruct (own_spec _ _ _ _ _ OW N) as (_ & _ & S). destruct (S a h A M) as (u & U & V).
  unfold inst in I. rewrite U in I. cbn [rbind] in I.
  assert (AGM : forall t y, tassoc t (zipw tv args) = Some y -> pending y = false -> tassoc t (zipw tv args') = Some y)
    by (intros; eapply agree_map; eauto).
  destruct u; try (right; split; [exact V|]; split; [congruence|]; rewrite U; intros ? [= <-]; reflexivity).
  - destruct (tassoc t (zipw tv args)) as [y|] eqn:T; injection I as <-.
    + left. rewrite V. apply AGM; [exact T|exact (proj1 C)].
    + destruct C as [C1 C2]. specialize (C2 _ U). discriminate.
  - destruct V as (r & R & V). left. rewrite V. f_equal. eapply closed_stable; eauto; exact (proj1 C).
  - destruct V as (r & R & V). left. rewrite V. f_equal. eapply closed_stable; eauto; exact (proj1 C).
Qed.
Lemma root_settled : forall c i, root c i -> settled c i.
Proof.
  intros c i R n args' d E. destruct n as [|n]; [discriminate|]. rewrite spec_hints_S, (r_env _ _ R) in E. cbv zeta in E.
  destruct (zipw (ci_tvars i) args') as [|e m] eqn:Z; [discriminate|]. rewrite <- Z in E.
  destruct (own_hints n (zipw (ci_tvars i) args') (ci_ann i) (get_type_hints (ci_mro i))) as [o|] eqn:O; cbn [rbind] in E; [|discriminate].
  rewrite (r_supers _ _ R) in E. cbn [rmapM rbind rev fold_left] in E. injection E as <-.
  pose proof (hints_nodup (ci_mro i)) as NH. destruct (own_spec _ _ _ _ _ O NH) as (N1 & N2 & _).
  assert (AO : forall a, assoc a (dict_update [] o) = assoc a o).
  { intros a. rewrite update_assoc by assumption. destruct (assoc a o); reflexivity. }
  split; [apply update_nodup; constructor|]. split.
  - intros a Ia. apply N2. apply mem_In. apply mem_In in Ia. unfold mem in *. rewrite AO in Ia. exact Ia.
  - split; [intros a h A M; left; rewrite AO; apply assoc_In; intros Q; apply N2 in Q; destruct Q; congruence|].
    intros args a h x NM AG A M I C. rewrite AO.
    destruct (own_settled _ _ _ _ _ _ _ _ _ _ O NH NM AG A M I C) as [Q|[Q _]]; auto.
Qed.

(** hints built by the factories are settled *)
Lemma uniq_In : forall l t, In t l -> In t (uniq l).
Proof.
  induction l as [|u l IH]; cbn; intros t []; [now left|]. destruct (Nat.eq_dec t u) as [->|D]; [now left|].
  right. apply filter_In. split; [auto|]. destruct (Nat.eqb_spec t u); [contradiction|reflexivity].
Qed.
Lemma tassoc_zip : forall ps l t, In t ps -> List.length ps = List.length l -> exists x, tassoc t (zipw ps l) = Some x /\ In x l.
Proof.
  induction ps as [|u ps IH]; intros l t I L; [contradiction|]. destruct l as [|y l]; [discriminate|]. cbn.
  destruct (Nat.eqb_spec t u) as [->|D]; [eauto|]. destruct I as [->|I]; [contradiction|].
  destruct (IH l t I) as (x & X & Ix); [cbn in L; lia|]. eauto.
Qed.
Lemma getitem_closed : forall k l r, existsb pending l = false ->
  getitem (efin env) spec idf fac k l = Ok r -> forall u, expr r = Ok u -> pending u = false.
Proof.
  assert (ANN : forall t a s u, expr (PAnn (POther t a) [PSer s]) = Ok u -> pending u = false).
  { intros t a s u. unfold expr. cbn. destruct s; cbn; intros [= <-]; reflexivity. }
  intros k l r O E u U. destruct k.
  - destruct l as [|c [|? ?]]; try discriminate. cbn [existsb] in O. rewrite orb_false_r in O. cbn [getitem] in E.
    unfold char_create in E. destruct (size_type c); [injection E as <-; eapply ANN; exact U|].
    destruct c; try discriminate; try (injection E as <-; eapply ANN; exact U).
    + destruct (ss_matmul _ _); cbn in E; [|discriminate]. injection E as <-. eapply ANN; exact U.
    + destruct b as [|? [|? ?]]; try discriminate. injection E as <-. eapply ANN; exact U.
  - destruct l as [|c [|e [|? ?]]]; try discriminate. cbn [existsb] in O. cbn [getitem] in E. unfold unicode_create in E.
    destruct (is_tv c) eqn:T; [unfold pending in O; rewrite T in O; discriminate|].
    destruct e; try discriminate. destruct (char_create fac c) as [hc|]; cbn [rbind] in E; [|discriminate].
    destruct (transform (efin env) spec idf false [] hc) as [v|]; cbn [rbind] in E; [|discriminate].
    destruct v; try discriminate. injection E as <-. eapply ANN; exact U.
  - destruct l as [|a [|b [|? ?]]]; try discriminate. cbn [existsb] in O. cbn [getitem] in E. unfold header_create in E.
    destruct (is_tv a) eqn:T; [unfold pending in O; rewrite T in O; discriminate|].
    destruct (is_tv b) eqn:T'; [unfold pending in O; rewrite T' in O; cbn in O; now rewrite orb_true_r in O|].
    cbn [orb] in E. dstep E. destruct (size_type b); [injection E as <-; injection U as <-; reflexivity|].
    destruct b; try discriminate. injection E as <-. injection U as <-. reflexivity.
  - destruct l as [|a [|b [|? ?]]]; try discriminate. cbn [existsb] in O. cbn [getitem] in E. unfold array_create in E.
    destruct (is_alias a) eqn:T; [unfold pending in O; rewrite T, orb_true_r in O; discriminate|].
    destruct (is_tv b) eqn:T'; [unfold pending in O; rewrite T' in O; cbn in O; now rewrite orb_true_r in O|].
    cbn [orb] in E. destruct a; try discriminate.
    destruct (transform _ _ _ _ _ b) as [it|]; cbn [rbind] in E; [|discriminate]. destruct it; try discriminate.
    destruct (is_final (efin env) s); [discriminate|].
    assert (X : exists s', r = PAnn t_list [PSer s']).
    { destruct s; try (destruct count, size; try (destruct (ss_add _ _); cbn [rbind] in E; [|discriminate]); injection E as <-; eauto; fail).
      destruct (Nat.eqb _ _); [destruct count; injection E as <-; eauto|].
      destruct count, size; try (destruct (ss_add _ _); cbn [rbind] in E; [|discriminate]); injection E as <-; eauto. }
    destruct X as (s' & ->). eapply ANN; exact U.
  - cbn [getitem] in E. injection E as <-. unfold expr in U. rewrite transform_eq in U.
    cbn [hbase hargs hmeta passes] in U. unfold pass in U. unfold step at 1 in U. cbn [tr_check is_tv is_alias orb rbind] in U.
    unfold step at 1 in U. destruct l as [|a l]; [cbn in U; injection U as <-; reflexivity|].
    assert (Q : existsb (fun a => is_tv a || is_alias a) (a :: l) = false) by exact O. cbv beta iota delta [tr_tuple] in U.
    rewrite Q in U.
    destruct (gosub _ _ _ _ _ _) as [hs|]; cbn [rbind] in U; [|discriminate].
    destruct (all_sers hs) as [ss|].
    + destruct (ssum _ _ _) as [sm|]; cbn in U; [|discriminate]. injection U as <-. reflexivity.
    + cbn in U. injection U as <-. reflexivity.
Qed.
Lemma gen_closed : forall c sa l r, existsb pending l = false -> gen_getitem c sa l = Ok r ->
  eval_fwd r = r /\ forall u, expr r = Ok u -> pending u = false.
Proof.
  intros c sa l r O E. unfold gen_getitem in E. destruct (Nat.eqb_spec (List.length (ty_params sa)) (List.length l)) as [L|]; [|discriminate].
  injection E as <-. split; [reflexivity|]. intros u U. unfold expr in U. cbn in U.
  assert (X : existsb is_tv (map (ty_subst (zipw (ty_params sa) l)) sa) = false).
  { rewrite <- not_true_iff_false. intros T. apply existsb_exists in T. destruct T as (y & Iy & T).
    apply in_map_iff in Iy. destruct Iy as (z & <- & Iz). destruct z; try discriminate.
    - cbn [ty_subst] in T. unfold mk_ann in T. destruct (ty_subst _ z); discriminate.
    - assert (J : In t (ty_params sa)) by (apply uniq_In, in_flat_map; exists (PTVar t); split; [exact Iz|now left]).
      destruct (tassoc_zip _ l t J L) as (x & X & Ix). cbn in T. rewrite X in T.
      assert (existsb pending l = true) by (apply existsb_exists; exists x; split; [exact Ix|unfold pending; now rewrite T]).
      congruence. }
  unfold step, tr_structured in U. rewrite X in U. destruct (spec c _); cbn in U; [|discriminate]. injection U as <-. reflexivity.
Qed.
Lemma norm_closed : forall m u r, is_alias u = true -> norm (subst m u) = Ok r ->
  eval_fwd r = r /\ (pending r = false -> closed r) /\ (pending r = true -> is_alias r = true).
Proof.
  intros m u r A E. destruct u; try discriminate; cbn [subst] in E.
  - rewrite norm_alias in E. destruct (rmapM _ _) as [l|]; cbn [rbind] in E; [|discriminate].
    destruct (existsb pending l) eqn:O; [injection E as <-; split; [reflexivity|split; [discriminate|reflexivity]]|].
    destruct (built_both _ _ _ _ _ _ _ O E) as [B1 B2]. split; [exact B2|]. split; [|congruence]. intros P. split; [exact P|]. eapply getitem_closed; eauto.
  - rewrite norm_gen in E. destruct (rmapM _ _) as [l|]; cbn [rbind] in E; [|discriminate].
    destruct (existsb pending l) eqn:O; [injection E as <-; split; [reflexivity|split; [discriminate|reflexivity]]|].
    pose proof (built_gen _ _ _ _ E) as B1.
    destruct (gen_closed _ _ _ _ O E) as [B2 B3]. split; [exact B2|]. split; [|congruence]. intros P. split; [exact P|exact B3].
Qed.

(** ** Specialization in one step *)
Notation define := (define env spec idf fac).
Lemma define_generic : forall n p ip args tv bo mode d, env p = Some ip ->
  define n [] [(p, Some args)] tv bo mode = Ok d ->
  exists s, spec_hints n p args = Ok s /\ ci_ann d = dict_update [] s /\ ci_mro d = dict_update [] s :: ci_mro ip /\
    ci_tvars d = tv /\ ci_supers d = [(p, args)].
Proof.
  intros n p ip args tv bo mode d E D. unfold Hints.define in D. rewrite E in D. cbn [rbind] in D.
  destruct (match mode with STRICT => _ | OVERRIDE => _ end); cbn [rbind] in D; [|discriminate].
  destruct (spec_hints n p args) as [s|]; cbn [rbind] in D; [|discriminate].
  destruct (filter_typehints _ _ _ _ _); cbn [rbind] in D; [|discriminate].
  destruct (ssum _ _ _); cbn [rbind] in D; [|discriminate]. injection D as <-. cbn. eauto 10.
Qed.
(** arguments: type variables, evaluated expressions with type variables, or settled hints *)
Definition arg_ok (tv : list nat) (x : pyh) : Prop :=
  eval_fwd x = x /\ (pending x = false -> closed x) /\ forall t, In t (vars x) -> In t tv.
Definition scoped (i : cinfo) : Prop :=
  forall a h u t, assoc a (get_type_hints (ci_mro i)) = Some h -> mem a (ci_ann i) = true ->
               expr h = Ok u -> In t (vars u) -> In t (ci_tvars i).

Section Step.
Variables (p : nat) (ip : cinfo) (n : nat) (args : list pyh) (tv : list nat) (bo : border) (mode : bomode) (d : cinfo).
Hypothesis EP : env p = Some ip.
Hypothesis SET : settled p ip.
Hypothesis SC : scoped ip.
Hypothesis D : define n [] [(p, Some args)] tv bo mode = Ok d.
Hypothesis LEN : List.length args = List.length (ci_tvars ip).
Hypothesis FR : fresh (zipw (ci_tvars ip) args).
Hypothesis AOK : Forall (arg_ok tv) args.
Let m := zipw (ci_tvars ip) args.

Lemma fresh_normal : forall m, fresh m -> normal_map m.
Proof. intros m0 F t x T. exact (proj1 (F t x T)). Qed.
Lemma step_keys : keys (get_type_hints (ci_mro d)) = keys (get_type_hints (ci_mro ip)).
Proof.
  destruct (define_generic _ _ _ _ _ _ _ _ EP D) as (s & S & A & M & _). destruct (SET _ _ _ S) as (N1 & N2 & _).
  assert (ND : NoDup (keys (dict_update [] s))) by (apply update_nodup; constructor).
  rewrite M, hints_cons_keys by assumption.
  assert (X : filter (fun a => negb (mem a (get_type_hints (ci_mro ip)))) (keys (dict_update [] s)) = []).
  { destruct (filter _ _) as [|b l] eqn:F; [reflexivity|]. exfalso. assert (Ib : In b (b :: l)) by now left. rewrite <- F in Ib.
    apply filter_In in Ib. destruct Ib as [Ia Q]. rewrite update_keys in Ia by assumption. cbn [keys map app] in Ia.
    apply filter_In in Ia. destruct Ia as [Ia _]. apply N2 in Ia. apply mem_In in Ia. rewrite Ia in Q. discriminate. }
  rewrite X. apply app_nil_r.
Qed.
Lemma hint_evaluated : forall mro a h, assoc a (get_type_hints mro) = Some h -> exists g, h = eval_fwd g.
Proof.
  intros mro a h A. unfold get_type_hints in A. rewrite assoc_map_fwd in A.
  destruct (assoc a (fold_left _ _ _)) as [g|]; [|discriminate]. injection A as <-. eauto.
Qed.
Lemma step_hint : (forall a g, assoc a (get_type_hints (ci_mro ip)) = Some g -> eval_fwd g = g) ->
  forall a h, assoc a (get_type_hints (ci_mro ip)) = Some h ->
  (mem a (ci_ann ip) = true ->
     exists x, inst m h = Ok x /\ assoc a (get_type_hints (ci_mro d)) = Some x /\
       (mem a (ci_ann d) = false -> x = h /\ forall u, expr h = Ok u -> pending u = false)) /\
  (mem a (ci_ann ip) = false -> assoc a (get_type_hints (ci_mro d)) = Some h /\
       (mem a (ci_ann d) = true -> forall u, expr h = Ok u -> pending u = false)).
Proof.
  intros EV a h A. destruct (define_generic _ _ _ _ _ _ _ _ EP D) as (s & S & AN & M & _).
  destruct (SET _ _ _ S) as (N1 & N2 & N4 & N3).
  assert (ND : NoDup (keys (dict_update [] s))) by (apply update_nodup; constructor).
  assert (AU : forall b, assoc b (dict_update [] s) = assoc b s).
  { intros b. rewrite update_assoc by assumption. destruct (assoc b s); reflexivity. }
  assert (MU : mem a (dict_update [] s) = mem a s) by (unfold mem; now rewrite AU).
  rewrite M, hints_cons_assoc by assumption. rewrite AN, MU, AU.
  split; intros MA.
  - destruct n as [|n']; [discriminate|]. pose proof S as S'. rewrite spec_hints_S, EP in S'. cbv zeta in S'. fold m in S'.
    destruct m as [|e m'] eqn:Z; [discriminate|]. rewrite <- Z in *.
    destruct (own_hints n' m (ci_ann ip) (get_type_hints (ci_mro ip))) as [o|] eqn:O; cbn [rbind] in S'; [|discriminate].
    destruct (rmapM _ (ci_supers ip)) as [sup|]; cbn [rbind] in S'; [|discriminate]. injection S' as S'.
    pose proof (hints_nodup (ci_mro ip)) as NH. destruct (own_spec _ _ _ _ _ O NH) as (O1 & O2 & O3).
    destruct (O3 a h A MA) as (u & U & V).
    assert (OS : forall y, assoc a o = Some y -> assoc a s = Some y).
    { intros y Y. rewrite <- S', update_assoc by assumption. now rewrite Y. }
    assert (INS : inst m h = match u with
              | PTVar t => Ok (match tassoc t m with Some x => x | None => h end)
              | PAlias _ _ | PGenAlias _ _ _ => norm (subst m u) | _ => Ok h end) by (unfold inst; now rewrite U).
    assert (CL : pending u = false -> exists x, inst m h = Ok x /\
                match assoc a s with Some h0 => Some (eval_fwd h0) | None => assoc a (get_type_hints (ci_mro ip)) end = Some x /\
                (mem a s = false -> x = h /\ (forall u0, expr h = Ok u0 -> pending u0 = false))).
    { intros PU. exists h. assert (IH : inst m h = Ok h) by (rewrite INS; destruct u; try reflexivity; discriminate).
      split; [exact IH|]. assert (CU : forall u0, expr h = Ok u0 -> pending u0 = false) by (rewrite U; intros ? [= <-]; exact PU).
      split; [|intros _; split; [reflexivity|exact CU]].
      assert (CH : closed h).
      { split; [|exact CU]. destruct (pending h) eqn:PH; [|reflexivity]. rewrite (expr_pending h PH) in U. congruence. }
      destruct (N3 args a h h (fresh_normal _ FR) (agree_refl args) A MA IH CH) as [Q|Q]; rewrite Q; [exact A|].
      f_equal. eapply EV; exact A. }
    destruct u; try (apply CL; reflexivity).
    + assert (IT : In t (ci_tvars ip)) by (eapply SC; eauto; now left).
      destruct (tassoc_zip (ci_tvars ip) args t IT (eq_sym LEN)) as (x & X & Ix). fold m in X. rewrite X in *.
      exists x. split; [exact INS|]. unfold mem. rewrite (OS _ V). split; [|discriminate]. f_equal.
      rewrite Forall_forall in AOK. exact (proj1 (AOK x Ix)).
    + destruct V as (r & R & V). pose proof (C35_resolved _ _ _ _ _ _ _ _ FR R) as NR. fold m in NR. rewrite NR in INS. exists r.
      split; [exact INS|]. unfold mem. rewrite (OS _ V). split; [|discriminate]. f_equal.
      exact (proj1 (norm_closed _ (PAlias k args0) _ eq_refl NR)).
    + destruct V as (r & R & V). pose proof (C35_resolved _ _ _ _ _ _ _ _ FR R) as NR. fold m in NR. rewrite NR in INS. exists r.
      split; [exact INS|]. unfold mem. rewrite (OS _ V). split; [|discriminate]. f_equal.
      exact (proj1 (norm_closed _ (PGenAlias c sa args0) _ eq_refl NR)).
  - unfold mem. destruct (N4 a h A MA) as [Q|[Q C]]; rewrite Q; [split; [exact A|discriminate]|].
    split; [f_equal; eapply EV; exact A|auto].
Qed.
Lemma step_settled : (forall a g, assoc a (get_type_hints (ci_mro ip)) = Some g -> eval_fwd g = g) ->
  forall c, env c = Some d -> settled c d.
Proof.
  intros EV c EC k args' dd E. destruct k as [|k]; [discriminate|]. rewrite spec_hints_S, EC in E. cbv zeta in E.
  destruct (zipw (ci_tvars d) args') as [|e m'] eqn:Z; [discriminate|]. rewrite <- Z in E.
  destruct (own_hints k _ (ci_ann d) (get_type_hints (ci_mro d))) as [o|] eqn:O; cbn [rbind] in E; [|discriminate].
  destruct (define_generic _ _ _ _ _ _ _ _ EP D) as (s & S & AN & MR & TV & SU). rewrite SU in E. cbn [rmapM fst snd] in E.
  destruct (spec_hints k p _) as [s2|] eqn:S2; cbn [rbind rev app fold_left] in E; [|discriminate]. injection E as <-.
  pose proof (hints_nodup (ci_mro d)) as NH. destruct (own_spec _ _ _ _ _ O NH) as (O1 & O2 & O3).
  destruct (SET _ _ _ S2) as (N1 & N2 & N4 & N3).
  assert (N0 : NoDup (keys (dict_update [] s2))) by (apply update_nodup; constructor).
  assert (AU : forall b, assoc b (dict_update (dict_update [] s2) o) = match assoc b o with Some v => Some v | None => assoc b s2 end).
  { intros b. rewrite update_assoc by assumption. rewrite (update_assoc b s2 []) by assumption. destruct (assoc b o), (assoc b s2); reflexivity. }
  assert (BACK : forall a h, assoc a (get_type_hints (ci_mro d)) = Some h -> exists hp, assoc a (get_type_hints (ci_mro ip)) = Some hp).
  { intros a h A. destruct (assoc a (get_type_hints (ci_mro ip))) eqn:H; [eauto|]. exfalso. apply assoc_In in H. apply H.
    rewrite <- step_keys. apply mem_In. unfold mem. now rewrite A. }
  (* settled hints of d, as the base sees them *)
  assert (SUP : forall a h, assoc a (get_type_hints (ci_mro d)) = Some h -> closed h -> assoc a s2 = None \/ assoc a s2 = Some h).
  { intros a h A C. destruct (BACK a h A) as (hp & HP). destruct (step_hint EV a hp HP) as [H1 H2].
    destruct (mem a (ci_ann ip)) eqn:MP.
    - destruct (H1 eq_refl) as (x & IX & AX & _). assert (x = h) by congruence. subst x.
      exact (N3 args a hp h (fresh_normal _ FR) (agree_shallow _ args) HP MP IX C).
    - destruct (H2 eq_refl) as [AX _]. assert (hp = h) by congruence. subst hp. destruct (N4 a h HP MP) as [Q|[Q _]]; auto. }
  split; [apply update_nodup; exact N0|]. split; [|split].
  - intros a Ia. apply mem_In in Ia. unfold mem in Ia. rewrite AU in Ia.
    destruct (assoc a o) eqn:AO; [apply O2, mem_In; unfold mem; now rewrite AO|].
    rewrite step_keys. apply N2, mem_In. exact Ia.
  - intros a h A MD. rewrite AU. assert (AO : assoc a o = None) by (apply assoc_In; intros Q; apply O2 in Q; destruct Q; congruence).
    rewrite AO. destruct (BACK a h A) as (hp & HP). destruct (step_hint EV a hp HP) as [H1 H2].
    destruct (mem a (ci_ann ip)) eqn:MP.
    + destruct (H1 eq_refl) as (x & IX & AX & C). destruct (C MD) as [-> CU]. assert (hp = h) by congruence. subst hp.
      assert (CH : closed h).
      { split; [|exact CU]. destruct (pending h) eqn:PH; [|reflexivity]. rewrite <- PH. apply CU. now apply expr_pending. }
      destruct (SUP a h A CH) as [Q|Q]; auto.
    + destruct (H2 eq_refl) as [AX _]. assert (hp = h) by congruence. subst hp. exact (N4 a h HP MP).
  - intros args1 a h x NM AG A MD I C. rewrite AU.
    destruct (own_settled _ _ _ _ _ _ _ _ _ _ O NH NM AG A MD I C) as [Q|(Q & -> & CU)]; rewrite Q; [auto|].
    apply SUP; assumption.
Qed.
End Step.

(** ** Specialization in several steps *)
Definition evaluated (i : cinfo) : Prop := forall a g, assoc a (get_type_hints (ci_mro i)) = Some g -> eval_fwd g = g.
(** [generic b ib]: a class whose own annotations mention the type variables it lists *)
Record generic (b : nat) (ib : cinfo) : Prop := {
  g_env : env b = Some ib; g_supers : ci_supers ib = []; g_scoped : scoped ib; g_evaluated : evaluated ib }.
(** [steps b c args]: class [c] is made from [b] by specializing one or more times, each time possibly only in
    part; [args] are the resulting arguments of [b]. *)
Inductive steps (b : nat) : nat -> list pyh -> Prop :=
| steps_one : forall ib n args tv bo mode c d,
    env b = Some ib -> define n [] [(b, Some args)] tv bo mode = Ok d -> env c = Some d ->
    List.length args = List.length (ci_tvars ib) -> fresh (zipw (ci_tvars ib) args) -> Forall (arg_ok tv) args ->
    steps b c args
| steps_more : forall p ip args1 n args2 tv bo mode c d args,
    steps b p args1 -> env p = Some ip ->
    define n [] [(p, Some args2)] tv bo mode = Ok d -> env c = Some d ->
    List.length args2 = List.length (ci_tvars ip) -> fresh (zipw (ci_tvars ip) args2) -> Forall (arg_ok tv) args2 ->
    rmapM (inst (zipw (ci_tvars ip) args2)) args1 = Ok args ->
    steps b c args.

Lemma vars_pending : forall x, pending x = false -> vars x = [].
Proof. destruct x; try reflexivity; discriminate. Qed.
Lemma norm_vars : forall h r t, norm h = Ok r -> In t (vars r) -> In t (vars h).
Proof.
  assert (ARGS : forall l, Forall (fun h => forall r t, norm h = Ok r -> In t (vars r) -> In t (vars h)) l ->
            forall l', rmapM norm l = Ok l' -> forall t, In t (flat_map vars l') -> In t (flat_map vars l)).
  { induction 1 as [|a l H _ IH]; intros l' E t I; cbn [rmapM] in E; [injection E as <-; contradiction|].
    destruct (norm a) as [b|] eqn:B; cbn [rbind] in E; [|discriminate].
    destruct (rmapM norm l) as [bs|]; cbn [rbind] in E; [|discriminate]. injection E as <-.
    cbn [flat_map] in *. apply in_app_or in I. apply in_or_app. destruct I as [I|I]; [left; eapply H; eauto|right; eapply IH; eauto]. }
  induction h using pyh_ind'; intros r t E I; try (cbn in E; injection E as <-; exact I).
  - rewrite norm_alias in E. destruct (rmapM norm l) as [l'|] eqn:L; cbn [rbind] in E; [|discriminate].
    destruct (existsb pending l') eqn:O; [injection E as <-; cbn [vars] in *; eapply ARGS; eauto|].
    apply built in E; [|exact O]. rewrite (vars_pending _ E) in I. contradiction.
  - rewrite norm_gen in E. destruct (rmapM norm l) as [l'|] eqn:L; cbn [rbind] in E; [|discriminate].
    destruct (existsb pending l') eqn:O; [injection E as <-; cbn [vars] in *; eapply ARGS; eauto|].
    apply built_gen in E. rewrite (vars_pending _ E) in I. contradiction.
  - destruct h; try contradiction; cbn in E; injection E as <-; exact I.
Qed.
Lemma subst_vars : forall m h t, In t (vars (subst m h)) ->
  exists u, In u (vars h) /\ match tassoc u m with Some x => In t (vars x) | None => t = u end.
Proof.
  intros m0. assert (ARGS : forall l, Forall (fun h => forall t, In t (vars (subst m0 h)) ->
      exists u, In u (vars h) /\ match tassoc u m0 with Some x => In t (vars x) | None => t = u end) l ->
      forall t, In t (flat_map vars (map (subst m0) l)) ->
      exists u, In u (flat_map vars l) /\ match tassoc u m0 with Some x => In t (vars x) | None => t = u end).
  { induction 1 as [|a l H _ IH]; intros t I; cbn in *; [contradiction|]. apply in_app_or in I. destruct I as [I|I].
    - destruct (H t I) as (u & U & Q). exists u. split; [apply in_or_app; auto|exact Q].
    - destruct (IH t I) as (u & U & Q). exists u. split; [apply in_or_app; auto|exact Q]. }
  induction h using pyh_ind'; intros t I; try contradiction; try (apply ARGS; assumption).
  destruct h; try contradiction. cbn [subst] in I. destruct (tassoc t0 m0) as [x|] eqn:T.
  - exists t0. rewrite T. split; [now left|exact I].
  - cbn in I. destruct I as [->|[]]. exists t. rewrite T. split; [now left|reflexivity].
Qed.

(** instances of scoped hints with good arguments *)
Lemma inst_ok : forall tvs args tv h x, List.length args = List.length tvs -> normal_map (zipw tvs args) -> Forall (arg_ok tv) args ->
  (forall u t, expr h = Ok u -> In t (vars u) -> In t tvs) -> eval_fwd h = h -> inst (zipw tvs args) h = Ok x ->
  normal x /\ eval_fwd x = x /\ forall u, expr x = Ok u -> forall t, In t (vars u) -> In t tv.
Proof.
  intros tvs args tv h x L NM AOK SC EH I. unfold inst in I. destruct (expr h) as [u|] eqn:U; cbn [rbind] in I; [|discriminate].
  specialize (SC u). rewrite Forall_forall in AOK.
  assert (IMG : forall t, In t (vars u) -> exists y, tassoc t (zipw tvs args) = Some y /\ In y args).
  { intros t It. apply tassoc_zip; [|auto]. apply SC; auto. }
  assert (PLAIN : pending u = false -> x = h -> normal x /\ eval_fwd x = x /\ forall u, expr x = Ok u -> forall t, In t (vars u) -> In t tv).
  { intros PU ->. split; [apply norm_other, not_pending_alias|split; [exact EH|]].
    - destruct (pending h) eqn:PH; [|reflexivity]. rewrite (expr_pending h PH) in U. congruence.
    - rewrite U. intros ? [= <-] t It. rewrite (vars_pending _ PU) in It. contradiction. }
  assert (ALIAS : is_alias u = true -> norm (subst (zipw tvs args) u) = Ok x ->
            normal x /\ eval_fwd x = x /\ forall u, expr x = Ok u -> forall t, In t (vars u) -> In t tv).
  { intros AU NX. destruct (norm_closed _ _ _ AU NX) as (Q1 & Q2 & Q3). split; [eapply norm_normal; eauto|]. split; [exact Q1|].
    intros v V t It. destruct (pending x) eqn:PX.
    - rewrite (expr_pending x PX) in V. injection V as <-. apply (norm_vars _ _ _ NX) in It. apply subst_vars in It.
      destruct It as (w & W & It). destruct (IMG w W) as (y & Y & Iy). rewrite Y in It. apply (AOK y Iy). exact It.
    - destruct (Q2 eq_refl) as [_ Q]. rewrite (vars_pending _ (Q v V)) in It. contradiction. }
  destruct u; try (apply PLAIN; [reflexivity|congruence]); try (apply ALIAS; [reflexivity|exact I]).
  destruct (IMG t (or_introl eq_refl)) as (y & Y & Iy). rewrite Y in I. injection I as <-. split; [exact (NM _ _ Y)|].
  destruct (AOK y Iy) as (A1 & A2 & A3). split; [exact A1|]. intros u V s Is. destruct (pending y) eqn:PY.
  - rewrite (expr_pending y PY) in V. injection V as <-. auto.
  - destruct (A2 eq_refl) as [_ Q]. rewrite (vars_pending _ (Q u V)) in Is. contradiction.
Qed.
Lemma inst_subst : forall m x y, normal_map m -> (pending x = false -> closed x) -> inst m x = Ok y -> norm (subst m x) = Ok y.
Proof.
  intros m x y NM C I. destruct (pending x) eqn:P.
  - unfold inst in I. rewrite (expr_pending x P) in I. cbn [rbind] in I. destruct x; try discriminate; try exact I.
    cbn [subst]. destruct (tassoc t m) as [z|] eqn:T; injection I as <-; [exact (NM _ _ T)|reflexivity].
  - rewrite (inst_closed _ _ _ I (C eq_refl)). now apply closed_subst.
Qed.
Lemma zip_rmapM : forall (f : pyh -> res pyh) tvs l l' t x, rmapM f l = Ok l' -> tassoc t (zipw tvs l) = Some x ->
  exists y, f x = Ok y /\ tassoc t (zipw tvs l') = Some y.
Proof.
  intros f. induction tvs as [|u tvs IH]; intros l l' t x E T; [discriminate|]. destruct l as [|a l]; [discriminate|].
  cbn [rmapM] in E. destruct (f a) as [b|] eqn:F; cbn [rbind] in E; [|discriminate].
  destruct (rmapM f l) as [l2|] eqn:M; cbn [rbind] in E; [|discriminate]. injection E as <-.
  cbn in T |- *. destruct (Nat.eqb t u); [|eapply IH; eauto]. injection T as <-. eauto.
Qed.
(** instantiating twice *)
Lemma inst_twice : forall tvs args1 args m2 h x y,
  normal_map (zipw tvs args1) -> normal_map m2 -> List.length args1 = List.length tvs ->
  Forall (fun a => pending a = false -> closed a) args1 ->
  rmapM (inst m2) args1 = Ok args -> (forall u t, expr h = Ok u -> In t (vars u) -> In t tvs) ->
  inst (zipw tvs args1) h = Ok x -> inst m2 x = Ok y -> inst (zipw tvs args) h = Ok y.
Proof.
  intros tvs args1 args m2 h x y NM NM2 L CA MA SC I1 I2. unfold inst in I1 |- *.
  destruct (expr h) as [u|] eqn:U; cbn [rbind] in *; [|discriminate]. specialize (SC u). rewrite Forall_forall in CA.
  assert (ALIAS : is_alias u = true -> norm (subst (zipw tvs args1) u) = Ok x -> norm (subst (zipw tvs args) u) = Ok y).
  { intros AU NX. destruct (norm_closed _ _ _ AU NX) as (_ & Q2 & _).
    assert (N2 : norm (subst m2 x) = Ok y) by (apply inst_subst; auto).
    assert (CP : same (rdo r <- norm (subst (zipw tvs args1) u); norm (subst m2 r)) (norm (subst (zipw tvs args) u))).
    { apply C35_compose; [exact NM|]. intros t It. destruct (tassoc_zip tvs args1 t (SC t eq_refl It) (eq_sym L)) as (z & Z & Iz).
      rewrite Z. destruct (zip_rmapM _ _ _ _ _ _ MA Z) as (w & W & W2). exists w. split; [|exact W2]. apply inst_subst; auto. }
    rewrite NX in CP. cbn [rbind] in CP. rewrite N2 in CP. destruct (norm (subst (zipw tvs args) u)); cbn in CP; [congruence|contradiction]. }
  assert (PLAIN : pending u = false -> x = h -> y = h).
  { intros PU ->. eapply inst_closed; eauto. split.
    - destruct (pending h) eqn:PH; [|reflexivity]. rewrite (expr_pending h PH) in U. congruence.
    - rewrite U. intros ? [= <-]. exact PU. }
  destruct u; try (apply ALIAS; [reflexivity|exact I1]); try (f_equal; symmetry; apply PLAIN; [reflexivity|congruence]).
  destruct (tassoc_zip tvs args1 t (SC t eq_refl (or_introl eq_refl)) (eq_sym L)) as (z & Z & Iz).
  rewrite Z in I1. injection I1 as ->. destruct (zip_rmapM _ _ _ _ _ _ MA Z) as (w & W & W2). rewrite W2. congruence.
Qed.

Record state (b : nat) (ib : cinfo) (i : cinfo) (args : list pyh) : Prop := {
  st_sc : scoped i; st_ev : evaluated i;
  st_keys : keys (get_type_hints (ci_mro i)) = keys (get_type_hints (ci_mro ib));
  st_hint : forall a h, assoc a (get_type_hints (ci_mro ib)) = Some h -> mem a (ci_ann ib) = true ->
    exists x, inst (zipw (ci_tvars ib) args) h = Ok x /\ assoc a (get_type_hints (ci_mro i)) = Some x /\
      (mem a (ci_ann i) = false -> exists u, expr x = Ok u /\ pending u = false);
  st_other : forall a h, assoc a (get_type_hints (ci_mro ib)) = Some h -> mem a (ci_ann ib) = false ->
    assoc a (get_type_hints (ci_mro i)) = Some h /\ (mem a (ci_ann i) = true -> forall u, expr h = Ok u -> pending u = false);
  st_args : Forall (arg_ok (ci_tvars i)) args; st_len : List.length args = List.length (ci_tvars ib);
  st_norm : normal_map (zipw (ci_tvars ib) args);
  st_def : exists l s, filter_typehints env spec idf 0 (get_type_hints (ci_mro i)) = Ok l /\
    ssum (efin env) (idf []) (map snd l) = Ok s /\
    ci_def i = CD (attrs_of l) (with_bo (c_bo (ci_def i)) s) (c_bo (ci_def i)) (is_final (efin env) (with_bo (c_bo (ci_def i)) s)) }.

Lemma st_def_of : forall n body bases tv bo mode d, define n body bases tv bo mode = Ok d ->
  exists l s, filter_typehints env spec idf 0 (get_type_hints (ci_mro d)) = Ok l /\
    ssum (efin env) (idf []) (map snd l) = Ok s /\
    ci_def d = CD (attrs_of l) (with_bo (c_bo (ci_def d)) s) (c_bo (ci_def d)) (is_final (efin env) (with_bo (c_bo (ci_def d)) s)).
Proof.
  intros n body bases tv bo mode d D. apply define_inv in D. destruct D as (l & s & F & S & E). exists l, s.
  split; [exact F|]. split; [exact S|]. rewrite E. reflexivity.
Qed.
(** one step keeps scopes *)
Lemma step_scoped : forall p ip n args tv bo mode d, env p = Some ip -> settled p ip -> scoped ip -> evaluated ip ->
  define n [] [(p, Some args)] tv bo mode = Ok d -> List.length args = List.length (ci_tvars ip) ->
  fresh (zipw (ci_tvars ip) args) -> Forall (arg_ok tv) args -> scoped d /\ evaluated d.
Proof.
  intros p ip n args tv bo mode d EP SET SC EV D LEN FR AOK.
  destruct (define_generic _ _ _ _ _ _ _ _ EP D) as (s & _ & _ & _ & TV & _).
  pose proof (step_keys p ip n args tv bo mode d EP SET D) as K.
  assert (B : forall a x, assoc a (get_type_hints (ci_mro d)) = Some x ->
     eval_fwd x = x /\ (mem a (ci_ann d) = true -> forall u, expr x = Ok u -> forall t, In t (vars u) -> In t tv)).
  { intros a x A. destruct (assoc a (get_type_hints (ci_mro ip))) as [h|] eqn:H.
    - destruct (step_hint p ip n args tv bo mode d EP SET SC D LEN FR AOK EV a h H) as [H1 H2].
      destruct (mem a (ci_ann ip)) eqn:MP.
      + destruct (H1 eq_refl) as (x' & IX & AX & _). assert (x' = x) by congruence. subst x'.
        destruct (inst_ok (ci_tvars ip) args tv h x LEN (fresh_normal _ FR) AOK) as (_ & Q1 & Q2); auto.
        * intros u t U It. eapply SC; eauto.
        * eapply EV; eauto.
      + destruct (H2 eq_refl) as [AX C]. assert (h = x) by congruence. subst h. split; [eapply EV; eauto|].
        intros MD u U t It. rewrite (vars_pending _ (C MD u U)) in It. contradiction.
    - exfalso. apply assoc_In in H. apply H. rewrite <- K. apply mem_In. unfold mem. now rewrite A. }
  split.
  - intros a h u t A M U It. rewrite TV. exact (proj2 (B a h A) M u U t It).
  - intros a g A. exact (proj1 (B a g A)).
Qed.
Lemma steps_state : forall b ib c args, generic b ib -> steps b c args ->
  exists i, env c = Some i /\ settled c i /\ state b ib i args.
Proof.
  intros b ib c args G S. induction S.
  - rewrite (g_env _ _ G) in H. injection H as <-.
    assert (SET : settled b ib) by (apply root_settled; constructor; [apply G|apply G|exact (g_scoped _ _ G)]).
    destruct (define_generic _ _ _ _ _ _ _ _ (g_env _ _ G) H0) as (s & _ & _ & _ & TV & _).
    destruct (step_scoped _ _ _ _ _ _ _ _ (g_env _ _ G) SET (g_scoped _ _ G) (g_evaluated _ _ G) H0 H2 H3 H4) as [SD ED].
    exists d. split; [exact H1|]. split.
    + eapply (step_settled b ib n args tv bo mode d); eauto; apply G.
    + constructor; auto.
      * eapply step_keys; eauto. apply G.
      * intros a h A M. destruct (step_hint b ib n args tv bo mode d (g_env _ _ G) SET (g_scoped _ _ G) H0 H2 H3 H4 (g_evaluated _ _ G) a h A) as [Q _].
        destruct (Q M) as (x & X1 & X2 & X3). exists x. split; [exact X1|]. split; [exact X2|]. intros MD. destruct (X3 MD) as [-> C].
        unfold inst in X1. destruct (expr h) as [u|] eqn:U; [|discriminate]. eauto.
      * intros a h A M. destruct (step_hint b ib n args tv bo mode d (g_env _ _ G) SET (g_scoped _ _ G) H0 H2 H3 H4 (g_evaluated _ _ G) a h A) as [_ Q].
        exact (Q M).
      * now rewrite TV.
      * now apply fresh_normal.
      * eapply st_def_of; eauto.
  - destruct IHS as (ip' & EP & SET & ST). rewrite H in EP. injection EP as <-.
    destruct (define_generic _ _ _ _ _ _ _ _ H H0) as (s & _ & _ & _ & TV & _).
    destruct (step_scoped _ _ _ _ _ _ _ _ H SET (st_sc _ _ _ _ ST) (st_ev _ _ _ _ ST) H0 H2 H3 H4) as [SD ED].
    assert (STEP := step_hint p ip n args2 tv bo mode d H SET (st_sc _ _ _ _ ST) H0 H2 H3 H4 (st_ev _ _ _ _ ST)).
    pose proof (st_args _ _ _ _ ST) as SA.
    assert (CA : Forall (fun a => pending a = false -> closed a) args1) by (eapply Forall_impl; [|exact SA]; intros x Q; apply Q).
    assert (TW : forall h x y, (forall u t, expr h = Ok u -> In t (vars u) -> In t (ci_tvars ib)) ->
               inst (zipw (ci_tvars ib) args1) h = Ok x -> inst (zipw (ci_tvars ip) args2) x = Ok y ->
               inst (zipw (ci_tvars ib) args) h = Ok y).
    { intros h x y SC I1 I2. eapply inst_twice; eauto; [apply ST|now apply fresh_normal|apply ST]. }
    assert (AI : Forall2 (fun a b => inst (zipw (ci_tvars ip) args2) a = Ok b) args1 args) by now apply rmapM_Forall2.
    assert (AB : Forall (fun y => normal y /\ arg_ok (ci_tvars d) y) args).
    { rewrite TV. clear -AI SA H2 H3 H4. induction AI as [|x y l l' Q _ IH]; constructor; [|inversion SA; auto].
      inversion SA as [|? ? (A1 & A2 & A3) _]; subst.
      destruct (inst_ok (ci_tvars ip) args2 tv x y H2 (fresh_normal _ H3) H4) as (Q0 & Q1 & Q2); auto.
      - intros u t U It. destruct (pending x) eqn:PX; [rewrite (expr_pending x PX) in U; injection U as <-; auto|].
        destruct (A2 eq_refl) as [_ C]. rewrite (vars_pending _ (C u U)) in It. contradiction.
      - split; [exact Q0|]. split; [exact Q1|]. split.
        + intros PY. destruct (pending x) eqn:PX; [|rewrite (inst_closed _ _ _ Q (A2 eq_refl)); auto].
          destruct x; try discriminate.
          * cbn in Q. destruct (tassoc t (zipw (ci_tvars ip) args2)) as [z|] eqn:T; injection Q as <-; [|discriminate].
            rewrite Forall_forall in H4. assert (Iz : In z args2).
            { clear -T. revert T. generalize (ci_tvars ip). intros tvs. revert args2.
              induction tvs as [|u tvs IH]; intros [|w l]; cbn; try discriminate. destruct (Nat.eqb t u); [intros [= ->]; now left|]. intros Q. right. eauto. }
            exact (proj1 (proj2 (H4 z Iz)) PY).
          * rewrite inst_pending in Q by reflexivity. refine (proj1 (proj2 (norm_closed _ _ _ _ Q)) PY). reflexivity.
          * rewrite inst_pending in Q by reflexivity. refine (proj1 (proj2 (norm_closed _ _ _ _ Q)) PY). reflexivity.
        + intros t It. destruct (pending y) eqn:PY; [|rewrite (vars_pending _ PY) in It; contradiction].
          exact (Q2 y (expr_pending y PY) t It). }
    exists d. split; [exact H1|]. split.
    + eapply (step_settled p ip n args2 tv bo mode d); eauto; apply ST.
    + constructor; auto.
      * rewrite (step_keys p ip n args2 tv bo mode d H SET H0). exact (st_keys _ _ _ _ ST).
      * intros a h A M. destruct (st_hint _ _ _ _ ST a h A M) as (x & X1 & X2 & X3). destruct (STEP a x X2) as [Q1 Q2].
        assert (SCB : forall u t, expr h = Ok u -> In t (vars u) -> In t (ci_tvars ib)) by (intros u t U It; eapply (g_scoped _ _ G); eauto).
        destruct (mem a (ci_ann ip)) eqn:MP.
        -- destruct (Q1 eq_refl) as (y & Y1 & Y2 & Y3). exists y. split; [eapply TW; eauto|]. split; [exact Y2|].
           intros MD. destruct (Y3 MD) as [-> C]. unfold inst in Y1. destruct (expr x) as [u|] eqn:U; [|discriminate]. eauto.
        -- destruct (Q2 eq_refl) as [Y1 Y2]. destruct (X3 eq_refl) as (u & U & PU). exists x. split; [|split; [exact Y1|eauto]].
           eapply TW; eauto. unfold inst. rewrite U. cbn [rbind]. destruct u; try reflexivity; discriminate.
      * intros a h A M. destruct (st_other _ _ _ _ ST a h A M) as [X1 X2]. destruct (STEP a h X1) as [Q1 Q2].
        destruct (mem a (ci_ann ip)) eqn:MP.
        -- destruct (Q1 eq_refl) as (y & Y1 & Y2 & Y3). specialize (X2 eq_refl).
           assert (y = h). { eapply inst_closed; eauto. split; [|exact X2]. destruct (pending h) eqn:PH; [|reflexivity].
             rewrite <- PH. apply X2. now apply expr_pending. }
           subst y. split; [exact Y2|]. intros _. exact X2.
        -- exact (Q2 eq_refl).
      * eapply Forall_impl; [|exact AB]. intros y Q. apply Q.
      * rewrite <- (st_len _ _ _ _ ST). clear -AI. induction AI; cbn; congruence.
      * intros t y T. rewrite Forall_forall in AB. assert (Iy : In y args).
        { clear -T. revert T. generalize (ci_tvars ib). intros tvs. revert args.
          induction tvs as [|u tvs IH]; intros [|w l]; cbn; try discriminate. destruct (Nat.eqb t u); [intros [= ->]; now left|]. intros Q. right. eauto. }
        exact (proj1 (AB y Iy)).
      * eapply st_def_of; eauto.
Qed.

(** ** C35.  The hints of [class C(B[args])] are those of [B] with the arguments substituted. *)
Theorem C35_one_step : forall b ib n args tv bo mode d, generic b ib ->
  define n [] [(b, Some args)] tv bo mode = Ok d -> List.length args = List.length (ci_tvars ib) ->
  fresh (zipw (ci_tvars ib) args) -> Forall (arg_ok tv) args ->
  keys (get_type_hints (ci_mro d)) = keys (get_type_hints (ci_mro ib)) /\
  forall a h, assoc a (get_type_hints (ci_mro ib)) = Some h ->
    exists x, assoc a (get_type_hints (ci_mro d)) = Some x /\
      (if mem a (ci_ann ib) then inst (zipw (ci_tvars ib) args) h = Ok x else x = h).
Proof.
  intros b ib n args tv bo mode d G D LEN FR AOK.
  assert (SET : settled b ib) by (apply root_settled; constructor; [apply G|apply G|exact (g_scoped _ _ G)]).
  split; [exact (step_keys b ib n args tv bo mode d (g_env _ _ G) SET D)|]. intros a h A.
  destruct (step_hint b ib n args tv bo mode d (g_env _ _ G) SET (g_scoped _ _ G) D LEN FR AOK (g_evaluated _ _ G) a h A) as [Q1 Q2].
  destruct (mem a (ci_ann ib)).
  - destruct (Q1 eq_refl) as (x & X1 & X2 & _). eauto.
  - destruct (Q2 eq_refl) as [X _]. eauto.
Qed.
(** Specializing in several steps gives the same class as specializing at once: same hints, same attributes
    in the same order, same serializer.  ([tv]: the type variables left over.) *)
Theorem C35_steps : forall b ib c i args n tv bo mode g, generic b ib -> steps b c args -> env c = Some i ->
  define n [] [(b, Some args)] tv bo mode = Ok g ->
  (forall t, In t (ci_tvars i) -> In t tv /\ ~ In t (ci_tvars ib)) ->
  get_type_hints (ci_mro i) = get_type_hints (ci_mro g) /\
  (c_bo (ci_def i) = c_bo (ci_def g) -> ci_def i = ci_def g).
Proof.
  intros b ib c i args n tv bo mode g G S E D TV.
  destruct (steps_state b ib c args G S) as (i' & E' & _ & ST). rewrite E in E'. injection E' as <-.
  assert (AOK : Forall (arg_ok tv) args).
  { eapply Forall_impl; [|exact (st_args _ _ _ _ ST)]. intros x (A1 & A2 & A3). split; [exact A1|]. split; [exact A2|].
    intros t It. apply TV. auto. }
  assert (FR : fresh (zipw (ci_tvars ib) args)).
  { intros t x T. split; [exact (st_norm _ _ _ _ ST t x T)|]. intros _ u Iu.
    assert (Ix : In x args).
    { clear -T. revert T. generalize (ci_tvars ib). intros tvs. revert args.
      induction tvs as [|v tvs IH]; intros [|w l]; cbn; try discriminate. destruct (Nat.eqb t v); [intros [= ->]; now left|]. intros Q. right. eauto. }
    assert (NU : ~ In u (ci_tvars ib)).
    { apply TV. pose proof (st_args _ _ _ _ ST) as SA. rewrite Forall_forall in SA. apply (SA x Ix). exact Iu. }
    clear -NU. revert NU. generalize (ci_tvars ib). intros tvs. revert args.
    induction tvs as [|v tvs IH]; intros [|w l] NU; cbn; try reflexivity. destruct (Nat.eqb_spec u v) as [->|]; [exfalso; apply NU; now left|].
    apply IH. intros I. apply NU. now right. }
  destruct (C35_one_step b ib n args tv bo mode g G D (st_len _ _ _ _ ST) FR AOK) as [K H].
  assert (HE : get_type_hints (ci_mro i) = get_type_hints (ci_mro g)).
  { apply dict_ext; [apply hints_nodup|rewrite K; exact (st_keys _ _ _ _ ST)|]. intros a Ia.
    rewrite (st_keys _ _ _ _ ST) in Ia. destruct (assoc a (get_type_hints (ci_mro ib))) as [h|] eqn:A.
    - destruct (H a h A) as (x & X1 & X2). rewrite X1. destruct (mem a (ci_ann ib)) eqn:M.
      + destruct (st_hint _ _ _ _ ST a h A M) as (y & Y1 & Y2 & _). rewrite Y2. congruence.
      + subst x. exact (proj1 (st_other _ _ _ _ ST a h A M)).
    - exfalso. apply assoc_In in A. contradiction. }
  split; [exact HE|]. intros BO. destruct (st_def _ _ _ _ ST) as (l & s & L & SS & Q).
  destruct (st_def_of _ _ _ _ _ _ _ D) as (l' & s' & L' & SS' & Q').
  rewrite <- HE, L in L'. injection L' as <-. rewrite SS in SS'. injection SS' as <-. rewrite Q, Q', BO. reflexivity.
Qed.
(** Every way of specializing completely gives the same class. *)
Theorem C35_confluent : forall b ib c1 c2 i1 i2 args, generic b ib -> steps b c1 args -> steps b c2 args ->
  env c1 = Some i1 -> env c2 = Some i2 ->
  get_type_hints (ci_mro i1) = get_type_hints (ci_mro i2) /\
  (c_bo (ci_def i1) = c_bo (ci_def i2) -> ci_def i1 = ci_def i2).
Proof.
  intros b ib c1 c2 i1 i2 args G S1 S2 E1 E2.
  destruct (steps_state b ib c1 args G S1) as (i' & E' & _ & T1). rewrite E1 in E'. injection E' as <-.
  destruct (steps_state b ib c2 args G S2) as (i' & E' & _ & T2). rewrite E2 in E'. injection E' as <-.
  assert (HE : get_type_hints (ci_mro i1) = get_type_hints (ci_mro i2)).
  { apply dict_ext; [apply hints_nodup|rewrite (st_keys _ _ _ _ T1), (st_keys _ _ _ _ T2); reflexivity|]. intros a Ia.
    rewrite (st_keys _ _ _ _ T1) in Ia. destruct (assoc a (get_type_hints (ci_mro ib))) as [h|] eqn:A.
    - destruct (mem a (ci_ann ib)) eqn:M.
      + destruct (st_hint _ _ _ _ T1 a h A M) as (x & X1 & X2 & _). destruct (st_hint _ _ _ _ T2 a h A M) as (y & Y1 & Y2 & _). congruence.
      + rewrite (proj1 (st_other _ _ _ _ T1 a h A M)), (proj1 (st_other _ _ _ _ T2 a h A M)). reflexivity.
    - exfalso. apply assoc_In in A. contradiction. }
  split; [exact HE|]. intros BO. destruct (st_def _ _ _ _ T1) as (l & s & L & SS & Q). destruct (st_def _ _ _ _ T2) as (l' & s' & L' & SS' & Q').
  rewrite <- HE, L in L'. injection L' as <-. rewrite SS in SS'. injection SS' as <-. rewrite Q, Q', BO. reflexivity.
Qed.
End Classes.
Print Assumptions C35_one_step.
Print Assumptions C35_steps.
Print Assumptions C35_confluent.

(** ** A case meeting the hypotheses *)
(* class Inner(Structured, Generic[V]): v: V *)
Definition gspec : nat -> list pyh -> res nat := fun c _ => if Nat.eqb c 8 then Ok 9%nat else Err TypeError.
Definition gdef (env : nat -> option cinfo) := define env gspec xid xfac 20.
Definition gI : option cinfo := Eval vm_compute in xopt (gdef nowhere [("v", PTVar 7)]%string [] [7%nat] BO_DEFAULT STRICT).
Definition gJ : option cinfo := Eval vm_compute in xopt (gdef nowhere [("v", basic CB)]%string [] [] BO_DEFAULT STRICT).
Definition genv0 (c : nat) : option cinfo := match c with 8%nat => gI | 9%nat => gJ | _ => None end.
(* class B(Structured, Generic[T, U]): k: uint8; x: T; y: char[U]; z: array[Header[U], T]; w: Inner[T]; t: tuple[T, U] *)
Definition gbody : dict :=
  [("k", basic CB); ("x", PTVar 0); ("y", PAlias AkChar [PTVar 1]);
   ("z", PAlias AkArray [PAlias AkHeader [PTVar 1; PNone]; PTVar 0]); ("w", PGen 8 [PTVar 0]);
   ("t", PTuple [PTVar 0; PTVar 1])]%string.
Definition gB : option cinfo := Eval vm_compute in xopt (gdef genv0 gbody [] [0; 1]%nat BO_DEFAULT STRICT).
Definition genv1 (c : nat) : option cinfo := match c with O => gB | _ => genv0 c end.
(* class P(B[int8, V], Generic[V]); class F(P[uint16]); class Q(B[W, uint16], Generic[W]); class R(Q[int8]) *)
Definition gP : option cinfo := Eval vm_compute in xopt (gdef genv1 [] [(0%nat, Some [basic Cb; PTVar 5])] [5%nat] BO_DEFAULT STRICT).
Definition gQ : option cinfo := Eval vm_compute in xopt (gdef genv1 [] [(0%nat, Some [PTVar 6; basic CH])] [6%nat] BO_DEFAULT STRICT).
Definition genv2 (c : nat) : option cinfo := match c with 1%nat => gP | 3%nat => gQ | _ => genv1 c end.
Definition gF : option cinfo := Eval vm_compute in xopt (gdef genv2 [] [(1%nat, Some [basic CH])] [] BO_DEFAULT STRICT).
Definition gR : option cinfo := Eval vm_compute in xopt (gdef genv2 [] [(3%nat, Some [basic Cb])] [] BO_DEFAULT STRICT).
Definition genv (c : nat) : option cinfo := match c with 2%nat => gF | 4%nat => gR | _ => genv2 c end.

Example g_classes : exists b p f q r, genv 0%nat = Some b /\ genv 1%nat = Some p /\ genv 2%nat = Some f /\
  genv 3%nat = Some q /\ genv 4%nat = Some r /\ c_attrs (ci_def b) = ["k"]%string /\
  c_attrs (ci_def p) = ["k"; "x"; "w"]%string /\ c_attrs (ci_def f) = ["k"; "x"; "y"; "z"; "w"; "t"]%string /\
  c_ser (ci_def f) = SCompound 50 [
    SStruct (SS BO_DEFAULT [T None CB; T None Cb] None); SDynChar 60 (SS BO_DEFAULT [T None CH] None);
    SDynArr 61 (SS BO_DEFAULT [T None CH] None) (SS BO_DEFAULT [T None Cb] None); SStructd 8 9;
    STuple 9 (SStruct (SS BO_DEFAULT [T None Cb; T None CH] None))].
Proof. do 5 eexists. repeat (split; [reflexivity|]). reflexivity. Qed.
Lemma assoc_some_In : forall {A} a (d : list (string * A)) x, assoc a d = Some x -> In (a, x) d.
Proof.
  induction d as [|[b y] d IH]; cbn; [discriminate|]. intros x. destruct (String.eqb_spec a b) as [->|]; [intros [= ->]; now left|].
  intros H. right. now apply IH.
Qed.
Definition gi (o : option cinfo) : cinfo := match o with Some i => i | None => CInfo [] [] [] [] (CD [] SNull BO_DEFAULT false) end.
Lemma g_basic : forall c tv, arg_ok genv gspec xid tv (basic c).
Proof. intros c tv. split; [reflexivity|]. split; [|contradiction]. intros _. split; [reflexivity|]. intros u E. destruct c; vm_compute in E; injection E as <-; reflexivity. Qed.
Lemma g_var : forall t tv, In t tv -> arg_ok genv gspec xid tv (PTVar t).
Proof. intros t tv I. split; [reflexivity|]. split; [discriminate|]. intros u [<-|[]]. exact I. Qed.
Lemma g_fresh : forall l, Forall (fun e => norm (efin genv) gspec xid xfac (snd e) = Ok (snd e) /\ is_alias (snd e) = false) l ->
  fresh (efin genv) gspec xid xfac l.
Proof.
  intros l F t x T. assert (I : In (t, x) l).
  { clear F. induction l as [|[u y] l IH]; cbn in *; [discriminate|]. destruct (Nat.eqb_spec t u) as [->|]; [injection T as ->; now left|right; auto]. }
  rewrite Forall_forall in F. destruct (F _ I) as [F1 F2]. cbn in *. split; [exact F1|]. rewrite F2. discriminate.
Qed.
Example g_generic : generic genv gspec xid 0%nat (gi gB).
Proof.
  constructor; [reflexivity|reflexivity| |].
  - intros a h u t A M U I. apply assoc_some_In in A. cbv in A.
    repeat (destruct A as [A|A]; [injection A as <- <-; cbv in M; try discriminate M; cbv in U; injection U as <-; cbv in I; cbv; tauto|]).
    contradiction.
  - intros a g A. apply assoc_some_In in A. cbv in A.
    repeat (destruct A as [A|A]; [injection A as <- <-; reflexivity|]). contradiction.
Qed.
Ltac gfresh := apply g_fresh; repeat constructor.
Ltac gargs := repeat (apply Forall_cons; [first [apply g_basic|apply g_var; now left]|]); apply Forall_nil.
Example g_steps : steps genv gspec xid xfac 0 2 [basic Cb; basic CH] /\ steps genv gspec xid xfac 0 4 [basic Cb; basic CH] /\
  exists g, define genv gspec xid xfac 20 [] [(0%nat, Some [basic Cb; basic CH])] [] BO_DEFAULT STRICT = Ok g /\
    c_attrs (ci_def g) = ["k"; "x"; "y"; "z"; "w"; "t"]%string.
Proof.
  assert (S1 : steps genv gspec xid xfac 0 1 [basic Cb; PTVar 5]).
  { apply (steps_one genv gspec xid xfac 0 (gi gB) 20 [basic Cb; PTVar 5] [5%nat] BO_DEFAULT STRICT 1 (gi gP));
      [reflexivity|vm_compute; reflexivity|reflexivity|reflexivity|gfresh|gargs]. }
  assert (S3 : steps genv gspec xid xfac 0 3 [PTVar 6; basic CH]).
  { apply (steps_one genv gspec xid xfac 0 (gi gB) 20 [PTVar 6; basic CH] [6%nat] BO_DEFAULT STRICT 3 (gi gQ));
      [reflexivity|vm_compute; reflexivity|reflexivity|reflexivity|gfresh|gargs]. }
  split; [|split].
  - apply (steps_more genv gspec xid xfac 0 1 (gi gP) [basic Cb; PTVar 5] 20 [basic CH] [] BO_DEFAULT STRICT 2 (gi gF));
      [exact S1|reflexivity|vm_compute; reflexivity|reflexivity|reflexivity|gfresh|gargs|vm_compute; reflexivity].
  - apply (steps_more genv gspec xid xfac 0 3 (gi gQ) [PTVar 6; basic CH] 20 [basic Cb] [] BO_DEFAULT STRICT 4 (gi gR));
      [exact S3|reflexivity|vm_compute; reflexivity|reflexivity|reflexivity|gfresh|gargs|vm_compute; reflexivity].
  - eexists. split; [vm_compute; reflexivity|reflexivity].
Qed.
Example C35_met : ci_def (gi gF) = ci_def (gi gR).
Proof.
  apply (C35_confluent genv gspec xid xfac 0 (gi gB) 2 4 (gi gF) (gi gR) [basic Cb; basic CH] g_generic (proj1 g_steps) (proj1 (proj2 g_steps)));
    reflexivity.
Qed.

(** ** Where specialization goes wrong *)
(** 1. A type variable reused inside its own argument: [class P(B[char[T]], Generic[T])] where [B] has
    [x: array[Header[2], T]]: [StructuredAlias.resolve] substitutes into what it has just substituted
    (utils.py:91-94), without end.  With another variable the same definition is accepted. *)
Definition cB : option cinfo := Eval vm_compute in
  xopt (gdef nowhere [("x", PAlias AkArray [PHeader (inl 2) None; PTVar 0])]%string [] [0%nat] BO_DEFAULT STRICT).
Definition cenv (c : nat) : option cinfo := match c with O => cB | _ => None end.
Lemma capture_loop : forall n, resolve_alias (efin cenv) gspec xid xfac n [(0%nat, PAlias AkChar [PTVar 0])] (PAlias AkChar [PTVar 0]) = Err RecursionError.
Proof. induction n as [|n IH]; [reflexivity|]. cbn [resolve_alias rmapM tassoc Nat.eqb is_alias]. rewrite IH. reflexivity. Qed.
Theorem C35_capture_refuted :
  (forall n, define cenv gspec xid xfac n [] [(0%nat, Some [PAlias AkChar [PTVar 0]])] [0%nat] BO_DEFAULT STRICT = Err RecursionError) /\
  exists d, define cenv gspec xid xfac 5 [] [(0%nat, Some [PAlias AkChar [PTVar 1]])] [1%nat] BO_DEFAULT STRICT = Ok d /\
    ci_ann d = [("x", PAlias AkArray [PHeader (inl 2) None; PAlias AkChar [PTVar 1]])]%string.
Proof.
  split; [|eexists; split; vm_compute; reflexivity].
  intros n. unfold define. cbn [cenv cB rbind]. destruct n as [|n]; [reflexivity|]. cbn - [resolve_alias].
  destruct n as [|n]; [reflexivity|]. cbn [resolve_alias rmapM tassoc Nat.eqb is_alias rbind]. rewrite capture_loop. reflexivity.
Qed.
(** 2. ... and the class of the second part cannot be completed: an array of a still open item does not
    become open again, it is rejected (arrays.py:96-99 only looks at type variables).  So
    [class P(B[char[U]], Generic[U]); class F(P[uint8])] works, *)
Definition cP : option cinfo := Eval vm_compute in
  xopt (gdef cenv [] [(0%nat, Some [PAlias AkChar [PTVar 1]])] [1%nat] BO_DEFAULT STRICT).
Definition cenv2 (c : nat) : option cinfo := match c with 1%nat => cP | _ => cenv c end.
Example C35_alias_argument : exists d, define cenv2 gspec xid xfac 5 [] [(1%nat, Some [basic CB])] [] BO_DEFAULT STRICT = Ok d /\
  c_ser (ci_def d) = SArray 61 None (SDynChar 60 (SS BO_DEFAULT [T None CB] None)) 2.
Proof. eexists. split; vm_compute; reflexivity. Qed.
(** while writing that item directly is a TypeError. *)
Theorem C35_array_alias_refuted :
  array_create (efin nowhere) gspec xid xfac (PHeader (inl 2) None) (PAlias AkChar [PTVar 1]) = Err TypeError.
Proof. reflexivity. Qed.
(** 3. A generic class nested with some arguments fixed, [w: Inner2[int8, T]]: the alias keeps all
    arguments but indexes a class with one parameter left (structured.py:104-109, utils.py:102). *)
Definition mB : option cinfo := Eval vm_compute in
  xopt (gdef nowhere [("w", PGen 8 [basic Cb; PTVar 0])]%string [] [0%nat] BO_DEFAULT STRICT).
Definition menv (c : nat) : option cinfo := match c with O => mB | _ => None end.
Theorem C35_mixed_arguments_refuted : exists b, menv O = Some b /\ ci_tvars b = [0%nat] /\
  define menv gspec xid xfac 20 [] [(0%nat, Some [basic CB])] [] BO_DEFAULT STRICT = Err TypeError.
Proof. eexists. split; [reflexivity|]. split; [reflexivity|vm_compute; reflexivity]. Qed.
(** 4. A tuple inside a tuple is not substituted; the field is silently left out (tuples.py:10-17):
    [t: tuple[T, tuple[T, uint8]]]. *)
Definition nB : option cinfo := Eval vm_compute in
  xopt (gdef nowhere [("k", basic CB); ("t", PTuple [PTVar 0; PTuple [PTVar 0; basic CB]])]%string [] [0%nat] BO_DEFAULT STRICT).
Definition nenv (c : nat) : option cinfo := match c with O => nB | _ => None end.
Theorem C35_nested_tuple_refuted : exists d,
  define nenv gspec xid xfac 20 [] [(0%nat, Some [basic CH])] [] BO_DEFAULT STRICT = Ok d /\
  c_attrs (ci_def d) = ["k"]%string /\
  exists e, define nenv gspec xid xfac 20 [("t", PTuple [basic CH; PTuple [basic CH; basic CB]])]%string [(0%nat, None)] [] BO_DEFAULT STRICT = Ok e /\
    c_attrs (ci_def e) = ["k"; "t"]%string.
Proof. eexists. split; [vm_compute; reflexivity|]. split; [reflexivity|]. eexists. split; [vm_compute; reflexivity|reflexivity]. Qed.
(** 5. The same for a generic class inside a tuple, [t: tuple[uint8, Inner[T]]]: left out. *)
Definition tB : option cinfo := Eval vm_compute in
  xopt (gdef genv0 [("k", basic CB); ("t", PTuple [basic CB; PGen 8 [PTVar 0]])]%string [] [0%nat] BO_DEFAULT STRICT).
Definition tenv (c : nat) : option cinfo := match c with O => tB | _ => genv0 c end.
Theorem C35_tuple_item_refuted : exists d,
  define tenv gspec xid xfac 20 [] [(0%nat, Some [basic CH])] [] BO_DEFAULT STRICT = Ok d /\
  c_attrs (ci_def d) = ["k"]%string.
Proof. eexists. split; [vm_compute; reflexivity|reflexivity]. Qed.
(** 6. [class P(B[T])] without [Generic[T]] cannot be specialized (structured.py:433-438), although
    [typing] takes it for generic. *)
Definition iP : option cinfo := Eval vm_compute in xopt (gdef genv1 [] [(0%nat, Some [PTVar 0; basic CH])] [] BO_DEFAULT STRICT).
Definition ienv (c : nat) : option cinfo := match c with 1%nat => iP | _ => genv1 c end.
Theorem C35_implicit_generic_refuted : (exists p, ienv 1%nat = Some p) /\
  forall n args, exists e, define ienv gspec xid xfac n [] [(1%nat, Some args)] [] BO_DEFAULT STRICT = Err e.
Proof.
  split; [eexists; reflexivity|]. intros n args. unfold define. cbn [ienv iP rbind]. destruct n as [|n]; [eexists; reflexivity|].
  eexists. cbn. reflexivity.
Qed.
(** 7. A field of a type variable type under a condition: the class cannot even be defined
    (condition.py:39-47, before any substitution). *)
Theorem C35_condition_refuted : forall f d,
  define nowhere gspec xid xfac 20 [("x", PAnn (PTVar 0) [PCond f d])]%string [] [0%nat] BO_DEFAULT STRICT = Err TypeError.
Proof. reflexivity. Qed.
(** 8. A class nested with its arguments, [w: Inner[int8]], is defined on the spot with the default byte order
    (structured.py:99-100): with any other byte order of [Inner] this is a ValueError. *)
Theorem C35_nested_order_refuted : forall env spec idf fac n c i args, env c = Some i -> c_bo (ci_def i) <> BO_DEFAULT ->
  define env spec idf fac n [] [(c, Some args)] [] BO_DEFAULT STRICT = Err ValueError.
Proof.
  intros env spec idf fac n c i args E B. unfold define. rewrite E. cbn [rbind].
  destruct (border_eqb (c_bo (ci_def i)) BO_DEFAULT) eqn:Q; [|reflexivity]. exfalso. apply B.
  destruct (c_bo (ci_def i)); try discriminate Q. reflexivity.
Qed.
Example C35_nested_order_met : exists i, xenv 0%nat = Some i /\ c_bo (ci_def i) <> BO_DEFAULT.
Proof. eexists. split; [vm_compute; reflexivity|discriminate]. Qed.
Print Assumptions C35_capture_refuted.
Print Assumptions C35_array_alias_refuted.
Print Assumptions C35_mixed_arguments_refuted.
Print Assumptions C35_nested_tuple_refuted.
Print Assumptions C35_tuple_item_refuted.
Print Assumptions C35_implicit_generic_refuted.
Print Assumptions C35_condition_refuted.
Print Assumptions C35_nested_order_refuted.
