(** Property C31: the number of values. *)
From Verif Require Import Base Floats Value StructMod Format Ser Exec Pure BaseFacts StructFacts FormatFacts
  SerFacts RefPack RefUnpack Leaf Wire RoundTrip PropsStrings.

(** Serializers whose [num_values] is reliable for the unpack method [md]:
    actions are as many as values, a Condition has as many defaults as values (conditional.py:50-56), union
    members have one value (unions.py:61-68); excluded are dynamic arrays of basic types, and counted strings
    other than with [unpack]. *)
Fixpoint nvok (md : umode) (s : ser) : bool :=
  match s with
  | SStruct st => ss_wf st
  | SDynChar _ _ => match md with UBuf => true | _ => false end
  | SDynArr _ _ _ => false
  | SCond _ inner d => nvok md inner && Nat.eqb (List.length d) (num_values inner)
  | SLookback _ _ m d | SLookahead _ _ _ m d =>
      forallb (fun p => nvok md (snd p) && Nat.eqb (num_values (snd p)) 1) m &&
      match d with Some x => nvok md x && Nat.eqb (num_values x) 1 | None => true end
  | SCompound _ subs | SSpec _ subs _ => forallb (nvok md) subs
  | _ => true
  end.

Lemma unpack_u_len : forall m us off b, List.length (unpack_u m off us b) = nvals_u us.
Proof.
  induction us as [|u us IH]; intros off b; [reflexivity|]. unfold nvals_u in *.
  cbn [unpack_u filter]. destruct u; cbn [takes_value List.length]; now rewrite IH.
Qed.
Lemma apply_actions_len : forall acts vs us, apply_actions acts vs = Ok us ->
  List.length us = Nat.min (List.length acts) (List.length vs).
Proof.
  induction acts; intros [|v vs] us H; cbn in H; try (injection H as <-; reflexivity).
  destruct (a v); [|discriminate]. cbn in H. destruct (apply_actions acts vs) eqn:E; [|discriminate].
  cbn in H. injection H as <-. cbn. f_equal. eauto.
Qed.
Lemma st_unpack_len : forall m f b vs, st_unpack m f b = Ok vs -> List.length vs = nvals f.
Proof.
  intros m f b vs H. unfold st_unpack in H. destruct (Nat.eqb _ _); [|discriminate]. injection H as <-.
  apply unpack_u_len.
Qed.
Lemma st_unpack_from_len : forall m f b off vs, st_unpack_from m f b off = Ok vs -> List.length vs = nvals f.
Proof.
  intros m f b off vs H. unfold st_unpack_from in H. destruct (st_offset _ _ _); [|discriminate]. injection H as <-.
  apply unpack_u_len.
Qed.
Lemma take_struct_len : forall hb st s w vs w', ss_wf st = true -> take_struct hb st s w = (Ok vs, w') ->
  List.length vs = ss_nvals st.
Proof.
  intros hb st s w vs w' W H. unfold take_struct, bind in H.
  match type of H with (match ?x with _ => _ end) = _ => destruct x as [[us|e] w1] eqn:E end; [|discriminate].
  assert (L : List.length us = nvals (s_fmt st)).
  { destruct s; unfold lift, bind in E.
    - injection E as E _. eapply st_unpack_len; eauto.
    - injection E as E _. eapply st_unpack_from_len; eauto.
    - destruct (io_read (ss_size hb st) w) as [[x|e] w2]; [|discriminate]. injection E as E _. eapply st_unpack_len; eauto. }
  unfold lift in H. injection H as H _. unfold ss_act in H. unfold ss_wf, ss_nvals in *. destruct (s_act st) as [acts|].
  - apply apply_actions_len in H. apply Nat.eqb_eq in W. lia.
  - injection H as <-. exact L.
Qed.

Lemma prep_nv : forall md s o w s' w', nvok md s = true -> prep false s o w = (Ok s', w') ->
  nvok md s' = true /\ num_values s' = num_values s.
Proof.
  intros md s o w s' w' N H. destruct s; cbn in H; try (injection H as <- _; auto).
  - (* SCond *) unfold lift in H. destruct (cond o); [|discriminate]. cbn in H. unfold cond_branch in H.
    cbn in N. apply andb_prop in N as [N1 N2]. apply Nat.eqb_eq in N2.
    destruct (key_eqb a (VBool true)); [injection H as <- _; auto|].
    destruct (key_eqb a (VBool false)); [injection H as <- _; auto|]. destruct (hashable a); discriminate.
  - unfold lift in H. cbn in H. destruct (assoc "cls" (p_attrs o)); [discriminate|].
    destruct (p_proxy o); [|discriminate]. cbn in H. injection H as <- _. auto.
  - destruct (existsb needs_pre subs); auto.
Qed.

Lemma choose_nv : forall md m d r s0,
  forallb (fun p => nvok md (snd p) && Nat.eqb (num_values (snd p)) 1) m &&
    match d with Some x => nvok md x && Nat.eqb (num_values x) 1 | None => true end = true ->
  choose m d r = Ok s0 -> nvok md s0 = true /\ num_values s0 = 1%nat.
Proof.
  intros md m d r s0 H C. apply andb_prop in H as [H1 H2]. unfold choose in C. destruct (hashable r); [|discriminate].
  destruct (map_find r m) as [s|] eqn:F.
  - injection C as <-. clear H2. induction m as [|[k x] m IH]; [discriminate|]. cbn in F, H1.
    apply andb_prop in H1 as [H0 H1]. destruct (key_eqb r k).
    + injection F as <-. apply andb_prop in H0 as [? E]. apply Nat.eqb_eq in E. auto.
    + auto.
  - destruct d; [|discriminate]. injection C as <-. apply andb_prop in H2 as [? E]. apply Nat.eqb_eq in E. auto.
Qed.

Lemma bind_ok : forall A B (p : M A) (f : A -> M B) w r w', bind p f w = (Ok r, w') ->
  exists a w1, p w = (Ok a, w1) /\ f a w1 = (Ok r, w').
Proof. intros A B p f w r w' H. unfold bind in H. destruct (p w) as [[a|e] w1]; [eauto|discriminate]. Qed.
Ltac bi H := let E := fresh "E" in apply bind_ok in H as (? & ? & E & H).

Section Num.
Variable hb : bool.
Variable ct : nat -> option cdef.
Variable md : umode.

Definition nvrec (rec : ser -> src -> M (list value)) : Prop :=
  forall x s w vs w', nvok md x = true -> md_of s = md -> rec x s w = (Ok vs, w') -> List.length vs = num_values x.

Lemma md_ssub : forall s k, md_of (ssub s k) = md_of s.
Proof. intros [] k; reflexivity. Qed.

Lemma unpack_subs_nv : forall rec, nvrec rec -> forall pre subs s size w vs z w',
  forallb (nvok md) subs = true -> md_of s = md ->
  unpack_subs hb rec pre subs s size w = (Ok (vs, z), w') ->
  List.length vs = fold_right (fun s n => num_values s + n)%nat 0%nat subs.
Proof.
  intros rec R pre subs. induction subs as [|x subs IH]; intros s size w vs z w' F M H.
  - cbn in H. injection H as <- _ _. reflexivity.
  - cbn [forallb] in F. apply andb_prop in F as [F1 F2]. cbn [unpack_subs] in H. unfold bind in H.
    destruct ((match pre with Some o => prep false x o | None => ret x end) w) as [[x'|e] w1] eqn:P; [|discriminate].
    assert (X : nvok md x' = true /\ num_values x' = num_values x).
    { destruct pre; [eapply prep_nv; eauto|]. cbn in P. injection P as <- _. auto. }
    destruct X as [X1 X2].
    destruct (rec x' (ssub s size) w1) as [[us|e] w2] eqn:U; [|discriminate].
    destruct (get_size hb x' w2) as [[z'|e] w3]; [|discriminate].
    destruct (unpack_subs hb rec pre subs s (size + z') w3) as [[[rest z2]|e] w4] eqn:V; [|discriminate].
    cbn in H. injection H as <- _ _. rewrite app_length. cbn [fold_right].
    rewrite (IH _ _ _ _ _ _ F2 M V), <- X2. f_equal. refine (R _ _ _ _ _ X1 _ U). now rewrite md_ssub.
Qed.

Lemma unpack_step_nv : forall rec, nvrec rec -> nvrec (unpack_step hb ct rec).
Proof.
  intros rec R x s w vs w' N M H.
  destruct x; cbn [unpack_step] in H.
  - cbn in H. injection H as <- _. reflexivity.
  - eapply take_struct_len; eauto.
  - cbn in H. injection H as <- _. reflexivity.
  - cbn in N. destruct md; try discriminate. destruct s; try discriminate.
    bi H. bi H. bi H. bi H. cbn in H. injection H as <- _. reflexivity.
  - destruct s; cbn in H; injection H as <- _; reflexivity.
  - destruct s.
    + bi H. bi H. cbn in H. injection H as <- _. reflexivity.
    + bi H. bi H. cbn in H. injection H as <- _. reflexivity.
    + bi H. apply bind_ok in H as ([? ?] & ? & _ & H). bi H. cbn in H. injection H as <- _. reflexivity.
  - destruct s.
    + bi H. bi H. bi H. apply bind_ok in H as ([? ?] & ? & _ & H). bi H. cbn in H. injection H as <- _. reflexivity.
    + bi H. bi H. bi H. apply bind_ok in H as ([? ?] & ? & _ & H). bi H.
      apply take_struct_len in H; [|reflexivity]. rewrite H. reflexivity.
    + bi H. bi H. bi H. bi H. apply bind_ok in H as ([? ?] & ? & _ & H). bi H. bi H.
      cbn in H. injection H as <- _. reflexivity.
  - bi H. bi H. bi H. bi H. cbn in H. injection H as <- _. reflexivity.
  - bi H. bi H. cbn in H. injection H as <- _. reflexivity.
  - discriminate N.
  - bi H. apply bind_ok in H as ([? ?] & ? & _ & H). bi H. bi H. apply bind_ok in H as ([? ?] & ? & _ & H).
    bi H. bi H. cbn in H. injection H as <- _. reflexivity.
  - bi H. apply bind_ok in H as (i' & w1 & _ & H).
    destruct (is_compound i'); [cbn in H; injection H as <- _; reflexivity|].
    bi H. cbn in H. injection H as <- _. reflexivity.
  - discriminate H.
  - apply bind_ok in H as (o & w1 & _ & H). bi H. apply bind_ok in H as (s0 & w3 & C & H).
    unfold lift in C. injection C as C _.
    destruct (choose_nv _ _ _ _ _ N C) as [N0 V0].
    apply bind_ok in H as (x' & w4 & P & H). destruct (prep_nv _ _ _ _ _ _ N0 P) as [N1 V1].
    apply bind_ok in H as (us & w5 & U & H). bi H. bi H. cbn in H. injection H as <- _.
    cbn [num_values]. rewrite (R _ _ _ _ _ N1 M U). congruence.
  - bi H. bi H. bi H. apply bind_ok in H as (s0 & w3 & C & H). unfold lift in C. injection C as C _.
    destruct (choose_nv _ _ _ _ _ N C) as [N0 V0]. bi H.
    apply bind_ok in H as (x' & w4 & P & H). destruct (prep_nv _ _ _ _ _ _ N0 P) as [N1 V1].
    apply bind_ok in H as (us & w5 & U & H). bi H. bi H. cbn in H. injection H as <- _.
    cbn [num_values]. rewrite (R _ _ _ _ _ N1 M U). congruence.
  - bi H. bi H. bi H. cbn in H. injection H as <- _. reflexivity.
  - discriminate H.
  - apply bind_ok in H as ([us z] & w1 & U & H). bi H. cbn in H. injection H as <- _. eapply unpack_subs_nv; eauto.
  - apply bind_ok in H as ([us z] & w1 & U & H). bi H. cbn in H. injection H as <- _. eapply unpack_subs_nv; eauto.
Qed.
End Num.

(** C31: every successful unpack returns [num_values] values, in any class table and any state *)
Theorem C31_unpack : forall hb ct n x s w vs w', nvok (md_of s) x = true ->
  unpack hb ct n x s w = (Ok vs, w') -> List.length vs = num_values x.
Proof.
  intros hb ct n x s w vs w' N H.
  assert (R : forall n, nvrec (md_of s) (unpack hb ct n)).
  { clear. induction n; [intros x s' w vs w' _ _ H; discriminate H|]. now apply unpack_step_nv. }
  exact (R n x s w vs w' N eq_refl H).
Qed.
Print Assumptions C31_unpack.
Example C31_nontrivial :
  let x := SCompound 9 [SStruct (SS BO_LE [T (Some 2%nat) CB] None);
                        SCond (fun _ => Ok (VBool false)) (SStruct (SS BO_LE [T None CH] None)) [VInt 7]; SConsume 3] in
  nvok UFrom x = true /\ num_values x = 4%nat /\
  fst (unpack false no_classes 5 (SSpec 9 (match x with SCompound _ l => l | _ => [] end) (PO 0 true []))
         (SFrom [x00; x01; x02; x41] 1) cloud0)
  = Ok [VInt 1; VInt 2; VInt 7; VBytes [x41]].
Proof. repeat split; reflexivity. Qed.

(** ** Packing: a struct, tuple or nested class refuses any other number of values *)
Theorem C31_pack_struct : forall hb ct n st k vs w, List.length vs <> num_values (SStruct st) ->
  fst (pack hb ct (S n) (SStruct st) k vs w) = Err StructError.
Proof.
  intros hb ct n st k vs w L. cbn [num_values] in L. unfold ss_nvals in L. apply Nat.eqb_neq in L.
  cbn [pack pack_step]. unfold put_struct, st_pack, st_pack_into, lift, bind. rewrite L. destruct k; reflexivity.
Qed.
Print Assumptions C31_pack_struct.
Theorem C31_pack_one : forall hb ct n s k vs w,
  match s with STuple _ _ | SStructd _ _ => True | _ => False end -> List.length vs <> num_values s ->
  fst (pack hb ct (S n) s k vs w) = Err TypeError.
Proof.
  intros hb ct n s k vs w S L. destruct s; try contradiction; cbn [num_values] in L;
    destruct vs as [|v [|v2 vs]]; cbn in L; try lia; reflexivity.
Qed.
Print Assumptions C31_pack_one.

(** a compound given [num_values] values hands every member its own [num_values] values, in order *)
Fixpoint pack_chunks (hb : bool) (rec : ser -> sink -> list value -> M bytes) (pre : option pobj)
  (subs : list ser) (vss : list (list value)) (k : sink) (size : Z) : M (bytes * Z) :=
  match subs, vss with
  | s :: subs', vs :: vss' =>
      mdo s' <- (match pre with Some o => prep true s o | None => ret s end);
      mdo b <- rec s' (ksub k size) vs;
      mdo z <- get_size hb s';
      mdo (bs, size') <- pack_chunks hb rec pre subs' vss' k (size + z);
      ret (b ++ bs, size')
  | _, _ => ret ([], size)
  end.

Lemma prep_nv_pack : forall md s o w s' w', nvok md s = true -> prep true s o w = (Ok s', w') ->
  num_values s' = num_values s.
Proof.
  intros md s o w s' w' N H. destruct s; cbn in H; try (injection H as <- _; auto).
  - unfold lift in H. destruct (cond o); [|discriminate]. cbn in H. unfold cond_branch in H.
    cbn in N. apply andb_prop in N as [N1 N2]. apply Nat.eqb_eq in N2.
    destruct (key_eqb a (VBool true)); [injection H as <- _; auto|].
    destruct (key_eqb a (VBool false)); [injection H as <- _; auto|]. destruct (hashable a); discriminate.
  - destruct (existsb needs_pre subs); auto.
Qed.

Lemma pack_subs_chunks : forall hb rec pre md subs vss k size w, forallb (nvok md) subs = true ->
  Forall2 (fun s vs => List.length vs = num_values s) subs vss ->
  pack_subs hb rec pre subs k (concat vss) size w = pack_chunks hb rec pre subs vss k size w.
Proof.
  intros hb rec pre md subs vss k size w N F. revert size w. induction F as [|s vs subs vss L F IH]; intros size w; [reflexivity|].
  cbn [forallb] in N. apply andb_prop in N as [N1 N2]. cbn [pack_subs pack_chunks concat]. unfold bind.
  destruct ((match pre with Some o => prep true s o | None => ret s end) w) as [[s'|e] w1] eqn:P; [|reflexivity].
  assert (X : num_values s' = num_values s).
  { destruct pre; [eapply prep_nv_pack; eauto|]. cbn in P. now injection P as <- _. }
  rewrite X, <- L, firstn_app_len, skipn_app_len.
  destruct (rec s' (ksub k size) vs w1) as [[b|e] w2]; [|reflexivity].
  destruct (get_size hb s' w2) as [[z|e] w3]; [|reflexivity]. now rewrite (IH N2).
Qed.

Theorem C31_pack_compound : forall hb ct n id subs vss k w md, forallb (nvok md) subs = true ->
  Forall2 (fun s vs => List.length vs = num_values s) subs vss ->
  List.length (concat vss) = num_values (SCompound id subs) /\
  pack hb ct (S n) (SCompound id subs) k (concat vss) w
  = (mdo (b, size) <- pack_chunks hb (pack hb ct n) None subs vss k 0; set_size id size;; ret b) w /\
  forall o, pack hb ct (S n) (SSpec id subs o) k (concat vss) w
  = (mdo (b, size) <- pack_chunks hb (pack hb ct n) (Some o) subs vss k 0; set_size id size;; ret b) w.
Proof.
  intros hb ct n id subs vss k w md N F. split; [|split].
  - clear N. induction F; [reflexivity|]. cbn [concat]. rewrite app_length, IHF, H. reflexivity.
  - cbn [pack pack_step]. unfold bind. now rewrite (pack_subs_chunks hb _ None md subs vss k 0 w N F).
  - intros o. cbn [pack pack_step]. unfold bind. now rewrite (pack_subs_chunks hb _ (Some o) md subs vss k 0 w N F).
Qed.
Print Assumptions C31_pack_compound.

(** ** C31 is false for dynamic arrays of basic types ... *)
Definition dynarr8 (id : nat) : ser := SDynArr id (uint_ser BO_DEFAULT CB) (uint_ser BO_DEFAULT CB).
Theorem C31_dynarr_refuted : exists s vs w,
  fst (unpack false no_classes 1 (dynarr8 0) s w) = Ok vs /\ List.length vs = 1%nat /\ num_values (dynarr8 0) = 0%nat.
Proof. exists (SBuf [x01; x05]), [VList [VInt 5]], cloud0. repeat split; reflexivity. Qed.
Print Assumptions C31_dynarr_refuted.
(** ... so that a class with such an array next to any other field can never be packed *)
Lemma pack_subs_dynarr : forall hb ct n pre id c item after before k vs size w,
  is_ok (fst (pack_subs hb (pack hb ct n) pre (before ++ SDynArr id c item :: after) k vs size w)) = false.
Proof.
  intros hb ct n pre id c item after. induction before as [|s before IH]; intros k vs size w.
  - cbn [app pack_subs]. unfold bind at 1.
    assert (P : (match pre with Some o => prep true (SDynArr id c item) o | None => ret (SDynArr id c item) end) w
                = (Ok (SDynArr id c item), w)) by (destruct pre; reflexivity).
    rewrite P. cbn [num_values firstn]. unfold bind at 1. destruct n; reflexivity.
  - cbn [app pack_subs]. unfold bind at 1.
    destruct ((match pre with Some o => prep true s o | None => ret s end) w) as [[s'|e] w1]; [|reflexivity].
    unfold bind at 1. destruct (pack hb ct n s' _ _ w1) as [[b|e] w2]; [|reflexivity].
    unfold bind at 1. destruct (get_size hb s' w2) as [[z|e] w3]; [|reflexivity].
    unfold bind at 1. specialize (IH k (skipn (num_values s') vs) (size + z) w3).
    destruct (pack_subs hb (pack hb ct n) pre _ k _ (size + z) w3) as [[[bs z2]|e] w4]; [discriminate IH|reflexivity].
Qed.
Theorem C31_dynarr_field_refuted : forall hb ct n id id' c item before after k vs w,
  is_ok (fst (pack hb ct n (SCompound id (before ++ SDynArr id' c item :: after)) k vs w)) = false /\
  forall o, is_ok (fst (pack hb ct n (SSpec id (before ++ SDynArr id' c item :: after) o) k vs w)) = false.
Proof.
  intros hb ct n id id' c item before after k vs w. destruct n; [split; reflexivity|]. split; [|intros o].
  - cbn [pack pack_step]. unfold bind at 1.
    pose proof (pack_subs_dynarr hb ct n None id' c item after before k vs 0 w) as H.
    destruct (pack_subs _ _ _ _ _ _ _ _) as [[[bs z]|e] w']; [discriminate H|reflexivity].
  - cbn [pack pack_step]. unfold bind at 1.
    pose proof (pack_subs_dynarr hb ct n (Some o) id' c item after before k vs 0 w) as H.
    destruct (pack_subs _ _ _ _ _ _ _ _) as [[[bs z]|e] w']; [discriminate H|reflexivity].
Qed.
Print Assumptions C31_dynarr_field_refuted.
(** C31 is false for an empty counted string read with unpack_from or unpack_read *)
Theorem C31_dynchar_refuted : forall id, exists x, x = SDynChar id (uint_ser BO_DEFAULT CB) /\ num_values x = 1%nat /\
  fst (unpack false no_classes 1 x (SFrom [x00] 0) cloud0) = Ok [].
Proof. intros id. eexists. repeat split; reflexivity. Qed.
Print Assumptions C31_dynchar_refuted.
