(** Properties C14 and C15: adding the serializers of the fields of a class. *)
From Verif Require Import Base Floats Value StructMod Format Ser Exec Pure BaseFacts StructFacts FormatFacts
  SerFacts RefPack RefUnpack Leaf Wire Sample User Field Fuel DecFacts RoundTripMain Adding PropsIO PropsArrays.

(** ** C15 *)
(** a field of the class body: not itself a compound, a struct field whose actions match its values, and a
    Condition whose defaults are as many as the values they stand for *)
Definition plain_field (s : ser) : bool :=
  negb (is_compound s) &&
  match s with
  | SStruct st => ss_wf st
  | SCond _ inner d => Nat.eqb (List.length d) (num_values inner)
  | _ => true
  end.
Lemma plain_nc : forall l, forallb plain_field l = true -> Forall (fun s => is_compound s = false) l.
Proof.
  intros l H. apply Forall_forall. intros x I. rewrite forallb_forall in H. specialize (H x I).
  unfold plain_field in H. destruct (is_compound x); [discriminate|reflexivity].
Qed.
Lemma plain_wf : forall l, forallb plain_field l = true -> forallb wf_field l = true.
Proof.
  intros l H. rewrite forallb_forall in *. intros x I. specialize (H x I). unfold plain_field in H.
  apply andb_prop in H as [_ H]. destruct x; try reflexivity. exact H.
Qed.
Lemma plain_bo : forall bo l, forallb plain_field l = true -> forallb plain_field (map (with_bo bo) l) = true.
Proof.
  intros bo l H. rewrite forallb_map. rewrite forallb_forall in *. intros x I. specialize (H x I).
  unfold plain_field in *. rewrite wb_is_compound. destruct x; try exact H. cbn in *. now rewrite wb_nvals.
Qed.
Lemma plain_good : forall bo l, forallb plain_field l = true -> good bo (map (with_bo bo) l).
Proof.
  intros bo l H. apply Forall_forall. intros x I. apply in_map_iff in I as (y & <- & I).
  rewrite forallb_forall in H. specialize (H y I). unfold plain_field in H. apply andb_prop in H as [_ H].
  destruct y; try exact Logic.I; cbn in *.
  - split; [reflexivity|exact H].
  - rewrite wb_nvals. now apply Nat.eqb_eq.
Qed.
Definition cond_ok (s : ser) : Prop :=
  match s with SCond _ inner d => List.length d = num_values inner | _ => True end.
Lemma resolve_nv' : forall packing s o s', cond_ok s -> resolve packing s o = Ok s' -> num_values s' = num_values s.
Proof.
  intros packing s o s' G H. destruct s; cbn [resolve] in H; try (injection H as <-; reflexivity).
  - destruct (cond o) as [v|]; [|discriminate]. cbn [rbind] in H. unfold cond_branch in H.
    destruct (key_eqb v (VBool true)); [injection H as <-; reflexivity|].
    destruct (key_eqb v (VBool false)); [injection H as <-; exact G|]. destruct (hashable v); discriminate.
  - destruct (self_class packing o); [|discriminate]. injection H as <-. reflexivity.
  - destruct (existsb needs_pre subs); injection H as <-; reflexivity.
Qed.

(** *** packing the fields one by one, each with its own values *)
Section Write.
Variable hb : bool.
Variable ct : nat -> option cdef.
Variable allow : nat -> nat -> bool.
Variable n : nat.
Variable o : pobj.
Inductive fields_write : list ser -> list value -> bytes -> Prop :=
| FW_nil : fields_write [] [] []
| FW_cons : forall x l vs b vs' b', List.length vs = num_values x ->
    conforming hb ct allow n x o vs -> field_writes hb ct n x o vs b ->
    fields_write l vs' b' -> fields_write (x :: l) (vs ++ vs') (b ++ b').
(** the first field that cannot be packed raises [e] *)
Inductive fields_refuse : list ser -> list value -> exn -> Prop :=
| FR_here : forall x l vs vs' e, List.length vs = num_values x -> List.length vs' = total l ->
    conforming hb ct allow n x o vs -> field_refuses hb ct n x o vs e -> fields_refuse (x :: l) (vs ++ vs') e
| FR_there : forall x l vs b vs' e, List.length vs = num_values x ->
    conforming hb ct allow n x o vs -> field_writes hb ct n x o vs b ->
    fields_refuse l vs' e -> fields_refuse (x :: l) (vs ++ vs') e.

Definition healthy_fields (l : list ser) : Prop :=
  exists T, classes_ok ct allow T /\ forallb (hc ct T (p_cls o)) l = true.

Lemma healthy_fields_in : forall l x, healthy_fields l -> In x l -> healthy_field ct allow (p_cls o) x.
Proof. intros l x (T & C & H) I. exists T. split; [exact C|]. rewrite forallb_forall in H. auto. Qed.
Lemma healthy_fields_cons : forall x l, healthy_fields (x :: l) -> healthy_field ct allow (p_cls o) x /\ healthy_fields l.
Proof.
  intros x l (T & C & H). cbn in H. apply andb_prop in H as [H1 H2]. split; exists T; split; assumption.
Qed.
Lemma write_enc : forall l vs b, healthy_fields l -> Forall cond_ok l -> fields_write l vs b ->
  enc_subs (enc hb ct allow n) (Some o) o l vs = Ok b.
Proof.
  intros l vs b H G F. revert H G. induction F as [|x l vs b vs' b' L CF FW F IH]; intros H G; [reflexivity|].
  apply healthy_fields_cons in H as [HX HL]. inversion G; subst.
  cbn [enc_subs oresolve octx]. pose proof (writes_penc hb ct allow n x o vs b HX CF FW) as P. unfold penc in P.
  destruct (resolve true x o) as [x'|] eqn:R; [|discriminate]. cbn [rbind] in *.
  rewrite (resolve_nv' _ _ _ _ H1 R), <- L, firstn_app_len, P, skipn_app_len. cbn [rbind].
  rewrite IH by assumption. reflexivity.
Qed.
Lemma refuse_enc : forall l vs e, healthy_fields l -> Forall cond_ok l -> fields_refuse l vs e ->
  enc_subs (enc hb ct allow n) (Some o) o l vs = Err e /\ List.length vs = total l.
Proof.
  intros l vs e H G F. revert H G.
  induction F as [x l vs vs' e L L' CF FR|x l vs b vs' e L CF FW F IH]; intros H G;
    apply healthy_fields_cons in H as [HX HL]; inversion G; subst.
  - cbn [enc_subs oresolve octx]. pose proof (refuses_penc hb ct allow n x o vs e HX CF FR) as P. unfold penc in P.
    split; [|rewrite app_length; unfold total in *; cbn [fold_right]; lia].
    destruct (resolve true x o) as [x'|] eqn:R; cbn [rbind] in *; [|congruence].
    rewrite (resolve_nv' _ _ _ _ H1 R), <- L, firstn_app_len, P. reflexivity.
  - cbn [enc_subs oresolve octx]. pose proof (writes_penc hb ct allow n x o vs b HX CF FW) as P. unfold penc in P.
    destruct (IH HL H2) as [E T]. split; [|rewrite app_length, T, L; reflexivity].
    destruct (resolve true x o) as [x'|] eqn:R; cbn [rbind] in *; [|congruence].
    rewrite (resolve_nv' _ _ _ _ H1 R), <- L, firstn_app_len, P, skipn_app_len. cbn [rbind].
    rewrite E. reflexivity.
Qed.
Lemma write_total : forall l vs b, fields_write l vs b -> List.length vs = total l.
Proof.
  induction 1 as [|x l vs b vs' b' L _ _ _ IH]; [reflexivity|]. rewrite app_length. unfold total in *. cbn [fold_right]. lia.
Qed.
End Write.

(** *** health is inherited by the sum *)
Section Sum.
Variable ct : nat -> option cdef.
Lemma rel_total : forall l p, rel l p -> total l = total p.
Proof. induction 1 as [|a b l p S _ IH]; [reflexivity|]. unfold total in *. cbn [fold_right]. rewrite (same_nv a b S). lia. Qed.
Lemma flat_total : forall s, flat s -> num_values s = total (parts s).
Proof. intros s F. destruct s; unfold total; cbn [parts fold_right num_values]; try reflexivity; try lia. Qed.
Section Pred.
(** a predicate that looks through compounds and holds for struct serializers *)
Variable P : ser -> bool.
Hypothesis Pst : forall st, P (SStruct st) = true.
Lemma push_all : forall p s, forallb P p = true -> P s = true -> forallb P (push p s) = true.
Proof.
  intros p s A B. unfold push. destruct s; try (rewrite forallb_app, A; cbn; now rewrite B).
  - exact A.
  - destruct (split_last p) as [[q y]|] eqn:E.
    + pose proof (split_last_some _ _ _ E) as Q. rewrite Q in A. rewrite forallb_app in A. apply andb_prop in A as [A1 A2].
      assert (D : forallb P (p ++ [SStruct st]) = true)
        by (rewrite Q, !forallb_app; cbn [forallb] in *; now rewrite A1, A2, B).
      destruct y; try exact D. rewrite forallb_app, A1. cbn. now rewrite Pst.
    + rewrite forallb_app, A. cbn. now rewrite B.
Qed.
Lemma runs_all : forall l, forallb P l = true -> forallb P (runs l) = true.
Proof.
  intros l H. unfold runs. assert (G : forall p, forallb P p = true -> forallb P (fold_left push l p) = true).
  { induction l as [|x l IH]; intros p A; [exact A|]. cbn in *. apply andb_prop in H as [H1 H2].
    apply IH; [exact H2|]. now apply push_all. }
  now apply G.
Qed.
Lemma rel_all : forall l p, rel l p -> forallb P p = true -> forallb P l = true.
Proof.
  induction 1 as [|a b l p S _ IH]; intros A; [reflexivity|]. cbn in *. apply andb_prop in A as [A1 A2].
  rewrite (IH A2). destruct S as [->|(x & y & -> & _)]; [now rewrite A1|now rewrite Pst].
Qed.
End Pred.
Lemma parts_hc : forall T c s, flat s -> forallb (hc ct T c) (parts s) = true -> hc ct T c s = true.
Proof.
  intros T c s F H. destruct s; cbn [parts] in H; try contradiction; try exact H; try reflexivity;
    cbn [forallb] in H; rewrite Bool.andb_true_r in H; exact H.
Qed.
Lemma parts_hu : forall md s, flat s -> forallb (hu md) (parts s) = true -> hu md s = true.
Proof.
  intros md s F H. destruct s; cbn [parts] in H; try contradiction; try exact H; try reflexivity;
    cbn [forallb] in H; rewrite Bool.andb_true_r in H; exact H.
Qed.
End Sum.

(** the sum is never nested: null, one field or run, or a compound of fields and runs *)
Theorem C15_flat : forall fin id l s, forallb plain_field l = true -> lossless l = true -> ssum fin id l = Ok s ->
  match s with
  | SCompound _ subs => subs <> [] /\ Forall (fun x => is_compound x = false /\ x <> SNull) subs
  | _ => is_compound s = false
  end /\ num_values s = fold_right (fun x k => num_values x + k)%nat 0%nat l.
Proof.
  intros fin id l s P L E.
  destruct (ssum_rel fin id l s (plain_nc l P) (plain_wf l P) L E) as (F & R & OK). split.
  - destruct s; try reflexivity; [exact F|contradiction].
  - change (num_values s = total l). rewrite (flat_total s F), (rel_total _ _ R). symmetry.
    pose proof (plain_good BO_LE l P) as G. clear - G.
    destruct (steps_good false BO_LE eq_refl _ _ (runs_steps (map (with_bo BO_LE) l)) G) as [_ T].
    assert (TM : forall l, total (map (with_bo BO_LE) l) = total l)
      by (induction l0 as [|x l0 IH]; [reflexivity|]; unfold total in *; cbn [map fold_right]; rewrite wb_nvals; lia).
    rewrite runs_bo, !TM in T. exact T.
Qed.
Print Assumptions C15_flat.

Definition cond_okb (s : ser) : bool :=
  match s with SCond _ inner d => Nat.eqb (List.length d) (num_values inner) | _ => true end.
Lemma cond_okb_ok : forall l, forallb cond_okb l = true -> Forall cond_ok l.
Proof.
  intros l H. apply Forall_forall. intros x I. rewrite forallb_forall in H. specialize (H x I).
  destruct x; try exact Logic.I. cbn in *. now apply Nat.eqb_eq.
Qed.
Lemma plain_cond : forall l, forallb plain_field l = true -> forallb cond_okb l = true.
Proof.
  intros l H. rewrite forallb_forall in *. intros x I. specialize (H x I). unfold plain_field in H.
  apply andb_prop in H as [_ H]. destruct x; try reflexivity. exact H.
Qed.

Section Main.
Variable hb : bool.
Variable ct : nat -> option cdef.
Variable allow : nat -> nat -> bool.
Variable fin : nat -> bool.
Variable id : nat.
Variable bo : border.
Variable l : list ser.
Variable s : ser.
Hypothesis PL : forallb plain_field l = true.
Hypothesis LL : lossless l = true.
Hypothesis SU : ssum fin id l = Ok s.

Let fs := map (with_bo bo) l.
Lemma sum_shape : flat (with_bo bo s) /\ rel (parts (with_bo bo s)) (runs fs) /\
  num_values (with_bo bo s) = total fs /\ cond_ok (with_bo bo s).
Proof.
  destruct (ssum_rel fin id l s (plain_nc l PL) (plain_wf l PL) LL SU) as (F & R & OK).
  assert (R' : rel (parts (with_bo bo s)) (runs fs))
    by (unfold fs; rewrite parts_bo, runs_bo by exact F; now apply rel_bo).
  split; [now apply flat_bo|]. split; [exact R'|]. split.
  - rewrite wb_nvals. destruct (C15_flat fin id l s PL LL SU) as [_ ->].
    unfold fs. clear. induction l as [|x l' IH]; [reflexivity|]. unfold total in *. cbn [map fold_right].
    rewrite wb_nvals, IH. reflexivity.
  - assert (C : forallb cond_okb (parts (with_bo bo s)) = true).
    { eapply rel_all; [reflexivity|exact R'|]. apply runs_all; [reflexivity|]. apply plain_cond. now apply plain_bo. }
    destruct (with_bo bo s); try exact I. cbn in *. apply Nat.eqb_eq. now rewrite Bool.andb_true_r in C.
Qed.
Lemma sum_health : forall o, healthy_fields ct allow o fs -> healthy_field ct allow (p_cls o) (with_bo bo s) /\
  healthy_fields ct allow o (runs fs).
Proof.
  intros o (T & C & H). destruct sum_shape as (F & R & _).
  assert (HR : forallb (hc ct T (p_cls o)) (runs fs) = true) by (apply runs_all; [reflexivity|exact H]).
  split; exists T; (split; [exact C|]); [|exact HR].
  apply parts_hc; [exact F|]. eapply rel_all; [reflexivity|exact R|exact HR].
Qed.
Lemma sum_enc : forall n o vs, List.length vs = total fs ->
  rle (enc_subs (enc hb ct allow n) (Some o) o (runs fs) vs) (penc hb ct allow (S n) (with_bo bo s) o vs).
Proof.
  intros n o vs L. destruct sum_shape as (F & R & NV & CO).
  rewrite <- (rel_enc hb ct allow n (Some o) o _ _ vs R). apply parts_enc; [exact F| |congruence].
  intros s' E. eapply resolve_nv'; eauto.
Qed.
Lemma runs_cond : Forall cond_ok (runs fs).
Proof. apply cond_okb_ok. apply runs_all; [reflexivity|]. apply plain_cond. now apply plain_bo. Qed.
Lemma fs_cond : Forall cond_ok fs.
Proof. apply cond_okb_ok, plain_cond. now apply plain_bo. Qed.
Lemma runs_total : total (runs fs) = total fs.
Proof.
  destruct sum_shape as (F & R & NV & _). rewrite <- (rel_total _ _ R), <- NV. symmetry. now apply flat_total.
Qed.
End Main.

(** [runs l]: the fields in order, null serializers left out, adjacent struct fields grouped in one format
    (their formats one after the other).  Packing the sum is packing the runs in order, for any byte order
    (with native alignment, the padding is inserted within each run). *)
Theorem C15_pack_runs : forall hb ct allow fin id bo l s n o vs b,
  forallb plain_field l = true -> lossless l = true -> ssum fin id l = Ok s ->
  healthy_fields ct allow o (map (with_bo bo) l) ->
  fields_write hb ct allow n o (runs (map (with_bo bo) l)) vs b ->
  field_writes hb ct (S n) (with_bo bo s) o vs b.
Proof.
  intros hb ct allow fin id bo l s n o vs b PL LL SU H F.
  destruct (sum_health ct allow fin id bo l s PL LL SU o H) as [HS HR].
  apply (penc_writes hb ct allow); [exact HS|].
  eapply rle_ok; [eapply sum_enc; eauto|].
  - rewrite (write_total _ _ _ _ _ _ _ _ F). eapply runs_total; eauto.
  - eapply write_enc; eauto. now apply runs_cond.
Qed.
Print Assumptions C15_pack_runs.

(** Without native alignment the runs make no difference: packing the sum is packing every field. *)
Theorem C15_pack : forall hb ct allow fin id bo l s n o vs b,
  m_native (mode_of hb bo) = false ->
  forallb plain_field l = true -> lossless l = true -> ssum fin id l = Ok s ->
  healthy_fields ct allow o (map (with_bo bo) l) ->
  fields_write hb ct allow (S n) o (map (with_bo bo) l) vs b ->
  field_writes hb ct (S (S n)) (with_bo bo s) o vs b.
Proof.
  intros hb ct allow fin id bo l s n o vs b UN PL LL SU H F.
  destruct (sum_health ct allow fin id bo l s PL LL SU o H) as [HS HR].
  apply (penc_writes hb ct allow); [exact HS|].
  pose proof (write_total _ _ _ _ _ _ _ _ F) as T.
  eapply rle_ok; [eapply sum_enc; eauto|].
  rewrite (runs_enc hb bo UN) by ((apply plain_good; assumption) || (rewrite T; apply le_n)).
  eapply write_enc; eauto. now apply fs_cond.
Qed.
Print Assumptions C15_pack.
(** and the exception is the one of the first field that cannot be packed *)
Theorem C15_pack_error : forall hb ct allow fin id bo l s n o vs e,
  m_native (mode_of hb bo) = false ->
  forallb plain_field l = true -> lossless l = true -> ssum fin id l = Ok s ->
  healthy_fields ct allow o (map (with_bo bo) l) ->
  fields_refuse hb ct allow (S n) o (map (with_bo bo) l) vs e -> e <> RecursionError -> e <> Unspecified ->
  field_refuses hb ct (S (S n)) (with_bo bo s) o vs e.
Proof.
  intros hb ct allow fin id bo l s n o vs e UN PL LL SU H F NR NU.
  destruct (sum_health ct allow fin id bo l s PL LL SU o H) as [HS HR].
  apply (penc_refuses hb ct allow); [exact HS|exact NU|].
  destruct (refuse_enc hb ct allow (S n) o _ _ _ H (fs_cond bo l PL) F) as [E T].
  destruct (sum_enc hb ct allow fin id bo l s PL LL SU (S n) o vs T) as [Q|Q];
    rewrite (runs_enc hb bo UN) in Q by ((apply plain_good; assumption) || (rewrite T; apply le_n)); congruence.
Qed.
Print Assumptions C15_pack_error.

(** the same for an instance: [obj.pack()] *)
Theorem C15_instance_pack : forall hb ct allow fin id bo l s n c cd ov d vs b w,
  m_native (mode_of hb bo) = false ->
  forallb plain_field l = true -> lossless l = true -> ssum fin id l = Ok s ->
  healthy_fields ct allow (PO c false d) (map (with_bo bo) l) ->
  ct c = Some cd -> obj_ser cd ov = with_bo bo s -> get_attrs (c_attrs cd) d = Ok vs ->
  fields_write hb ct allow (S n) (PO c false d) (map (with_bo bo) l) vs b ->
  fst (Structured_pack hb ct (S (S n)) (VObj c ov d) w) = Ok b.
Proof.
  intros hb ct allow fin id bo l s n c cd ov d vs b w UN PL LL SU H C S GA F.
  assert (HE : healthy ct allow) by (destruct H as (T' & COK & _); exists T'; exact COK).
  pose proof (write_total _ _ _ _ _ _ _ _ F) as T.
  assert (E : enc_obj hb ct allow (Datatypes.S (Datatypes.S n)) (VObj c ov d) = Ok b).
  { cbn [enc_obj]. unfold enc_obj_step. rewrite C, S, GA.
    assert (P : penc hb ct allow (Datatypes.S (Datatypes.S n)) (with_bo bo s) (PO c false d) vs = Ok b).
    { eapply rle_ok; [eapply sum_enc; eauto|].
      rewrite (runs_enc hb bo UN) by ((apply plain_good; assumption) || (rewrite T; apply le_n)).
      eapply write_enc; eauto. now apply fs_cond. }
    exact P. }
  assert (N : false = true -> no_rest ct) by discriminate.
  destruct (user_pack hb ct allow false (Datatypes.S (Datatypes.S n)) (VObj c ov d) KPack w HE N
              ltac:(unfold conforms; rewrite E; discriminate) Logic.I) as [A _].
  rewrite E in A. exact A.
Qed.
Print Assumptions C15_instance_pack.

(** *** unpacking: the fields one after the other, each seeing the attributes already read *)
Section Read.
Variable hb : bool.
Variable ct : nat -> option cdef.
Variable allow : nat -> nat -> bool.
Variable md : umode.
Variable n : nat.
Variable c : nat.
Inductive fields_decode : list ser -> list string -> list (string * value) -> bytes -> list value -> Z -> Prop :=
| FD_nil : forall d b, fields_decode [] [] d b [] 0
| FD_cons : forall x l nm names d b vs z vs' z', field_decodes hb ct md n x (PO c true d) b vs z ->
    List.length nm = List.length vs ->
    fields_decode l names (d ++ zipw nm vs) (skipn (Z.to_nat z) b) vs' z' ->
    fields_decode (x :: l) (nm ++ names) d b (vs ++ vs') (z + z').

Definition readable_fields (l : list ser) : Prop :=
  exists T, classes_ok ct allow T /\ forallb (hc ct T c) l = true /\
            classes_hu ct md /\ forallb (hu md) l = true.
Lemma readable_cons : forall x l, readable_fields (x :: l) -> readable_field ct allow c md x /\ readable_fields l.
Proof.
  intros x l (T & C & H & HU & U). cbn in H, U. apply andb_prop in H as [H1 H2]. apply andb_prop in U as [U1 U2].
  split; [split; [|split]|]; auto.
  - exists T. split; assumption.
  - exists T. repeat (split; [assumption|]). assumption.
Qed.
End Read.

Section Fill.
Variable hb : bool.
Variable ct : nat -> option cdef.
Variable allow : nat -> nat -> bool.
Variable md : umode.
Variable n : nat.
Variable c : nat.
Variable ctx : pobj.
Let o := PO c true [].

Lemma zipw_app : forall {A B} (a : list A) (b : list B) a' b', List.length a = List.length b ->
  zipw (a ++ a') (b ++ b') = zipw a b ++ zipw a' b'.
Proof.
  induction a as [|x a IH]; intros b a' b' L; destruct b; try discriminate L; [reflexivity|].
  cbn. rewrite IH by (cbn in L; lia). reflexivity.
Qed.
Lemma zipw_assoc_none : forall (nm : list string) (vs : list value) x, ~ In x nm -> assoc x (zipw nm vs) = None.
Proof.
  induction nm as [|a nm IH]; intros vs x N; destruct vs; try reflexivity. cbn in *.
  destruct (String.eqb x a) eqn:E; [apply String.eqb_eq in E; subst; tauto|]. apply IH. tauto.
Qed.
Lemma NoDup_app_inv : forall (a b : list string), NoDup (a ++ b) -> NoDup b /\ forall x, In x b -> ~ In x a.
Proof.
  induction a as [|y a IH]; intros b H; [split; [exact H|auto]|]. cbn in H. inversion H; subst.
  destruct (IH b H3) as [A B]. split; [exact A|]. intros x I [->|J]; [apply H2, in_or_app; now right|exact (B x I J)].
Qed.
Lemma fresh_step : forall (nm names : list string) (d : list (string * value)) vs, NoDup (nm ++ names) ->
  (forall a, In a (nm ++ names) -> assoc a d = None) ->
  NoDup names /\ forall a, In a names -> assoc a (d ++ zipw nm vs) = None.
Proof.
  intros nm names d vs ND F. destruct (NoDup_app_inv _ _ ND) as [A B]. split; [exact A|].
  intros a I. rewrite assoc_app by (apply F, in_or_app; now right). apply zipw_assoc_none. auto.
Qed.
Lemma decode_ofill : forall l names d b vs z, readable_fields ct allow md c l -> NoDup names ->
  (forall a, In a names -> assoc a d = None) ->
  fields_decode hb ct md (S n) c l names d b vs z ->
  ofill hb ct md n o ctx l b names d = Ok ([], d ++ zipw names vs, z) /\ List.length names = List.length vs.
Proof.
  intros l names d b vs z RF ND F D. revert RF ND F.
  induction D as [d b|x l nm names d b vs z vs' z' FD L D IH]; intros RF ND F.
  - split; [|reflexivity]. unfold ofill. cbn. now rewrite app_nil_r.
  - apply readable_cons in RF as [RX RL]. destruct (fresh_step nm names d vs ND F) as [ND' F'].
    destruct (IH RL ND' F') as [E L'].
    rewrite ofill_cons. cbn [p_cls p_proxy o].
    pose proof (proj1 (decodes_pdec hb ct allow md (S n) x (PO c true d) b vs z RX) FD) as P. unfold pdec in P.
    destruct (resolve false x (PO c true d)) as [x'|]; [|discriminate]. cbn [rbind] in *. rewrite P. cbn [rbind].
    rewrite (assign_fresh vs (nm ++ names) d) by (rewrite ?app_length; (lia || assumption)).
    rewrite <- L, skipn_app_len, firstn_app_len. unfold adv. rewrite E. cbn [rbind].
    split; [|rewrite !app_length; congruence]. rewrite zipw_app by exact L. now rewrite app_assoc.
Qed.
Lemma assign_len : forall vs names d names' d', assign names vs d = (Some names', d') ->
  (List.length vs <= List.length names)%nat.
Proof.
  induction vs as [|v vs IH]; intros names d names' d' H; cbn; [lia|]. cbn in H. destruct names; [discriminate|].
  apply IH in H. cbn. lia.
Qed.
Lemma ofill_decode : forall l names d b d' z, readable_fields ct allow md c l -> NoDup names ->
  (forall a, In a names -> assoc a d = None) ->
  ofill hb ct md n o ctx l b names d = Ok ([], d', z) ->
  exists vs, fields_decode hb ct md (S n) c l names d b vs z.
Proof.
  induction l as [|x l IH]; intros names d b d' z RF ND F E.
  - unfold ofill in E. cbn in E. injection E as -> -> <-. exists []. constructor.
  - apply readable_cons in RF as [RX RL]. rewrite ofill_cons in E. cbn [p_cls p_proxy o] in E.
    destruct (resolve false x (PO c true d)) as [x'|] eqn:R; [|discriminate]. cbn [rbind] in E.
    destruct (dec hb ct md (S n) x' (PO c true d) b) as [[vs k]|] eqn:D; [|discriminate]. cbn [rbind] in E.
    destruct (assign names vs d) as [[nm|] d1] eqn:A; [|discriminate].
    pose proof (assign_len _ _ _ _ _ A) as L. rewrite (assign_fresh vs names d L ND F) in A. injection A as <- <-.
    destruct (ofill hb ct md n o ctx l (adv k b) _ _) as [[[nd dd] zz]|] eqn:Q; [|discriminate]. cbn [rbind] in E.
    injection E as -> -> <-.
    rewrite <- (firstn_skipn (List.length vs) names) in ND, F.
    destruct (fresh_step _ _ d vs ND F) as [ND' F'].
    destruct (IH _ _ _ _ _ RL ND' F' Q) as [vs' FD]. exists (vs ++ vs').
    rewrite <- (firstn_skipn (List.length vs) names). econstructor; [| |exact FD].
    + apply (decodes_pdec hb ct allow); [exact RX|]. unfold pdec. now rewrite R.
    + rewrite firstn_length. lia.
Qed.

(** the object is only looked at by serializers with a [preunpack] *)
Lemma leaf_dec_ctx : forall m x c1 c2 b, leaf x = true -> dec hb ct md m x c1 b = dec hb ct md m x c2 b.
Proof.
  induction m; intros x c1 c2 b L; [reflexivity|]. destruct x; try discriminate L; try reflexivity.
  cbn [dec dec_step]. rewrite (IHm x c1 c2 b L). reflexivity.
Qed.
Lemma np_dec_ctx : forall m T k x c1 c2 b, needs_pre x = false -> hc ct T k x = true ->
  dec hb ct md m x c1 b = dec hb ct md m x c2 b.
Proof.
  intros m T k x c1 c2 b N H. destruct x; try discriminate N; try (apply leaf_dec_ctx; exact H || reflexivity);
    destruct m; reflexivity.
Qed.
Lemma fill_none : forall T subs b names d, existsb needs_pre subs = false -> forallb (hc ct T c) subs = true ->
  okfill (dfill_subs (dec hb ct md (S n)) None ctx subs b names d) = ofill hb ct md n o ctx subs b names d.
Proof.
  intros T subs. induction subs as [|x subs IH]; intros b names d N H; [reflexivity|].
  cbn in N, H. apply Bool.orb_false_iff in N as [N1 N2]. apply andb_prop in H as [H1 H2].
  rewrite ofill_cons. cbn [dfill_subs option_map oresolve octx rbind].
  assert (R : resolve false x (PO (p_cls o) (p_proxy o) d) = Ok x) by (destruct x; try discriminate N1; reflexivity).
  rewrite R. cbn [rbind]. rewrite (np_dec_ctx (S n) T c x ctx (PO (p_cls o) (p_proxy o) d) b N1 H1).
  destruct (dec hb ct md (S n) x _ b) as [[vs k]|]; [|reflexivity]. cbn [rbind].
  destruct (assign names vs d) as [[nm|] d']; [|reflexivity]. rewrite <- (IH _ _ _ N2 H2).
  destruct (dfill_subs _ _ _ subs _ _ _) as [[[nm2 z]|] d2]; reflexivity.
Qed.
Lemma parts_fill : forall T s b names, flat s -> hc ct T c s = true ->
  forall d' z, ctx = o ->
  (rdo x <- resolve false s o;
   match dfill (dec hb ct md (S n)) x ctx b names [] with (Err e, _) => Err e | (Ok k, d) => Ok (d, k) end)
  = Ok (d', z) <-> ofill hb ct md n o ctx (parts s) b names [] = Ok ([], d', z).
Proof.
  intros T s b names F H d' z EC.
  destruct (match s with SNull | SCompound _ _ => true | _ => false end) eqn:K.
  - destruct s; try discriminate K.
    + cbn. unfold ofill. cbn. destruct names; split; intros E; try discriminate E; injection E as <- <-; reflexivity.
    + cbn [parts resolve]. destruct (existsb needs_pre subs) eqn:E; cbn [rbind dfill].
      * fold o. unfold ofill. destruct (dfill_subs _ _ _ subs _ _ _) as [[[nm z']|e] dd]; cbn [okfill];
          [|split; discriminate]. destruct nm; split; intros Q; try discriminate Q; injection Q as <- <-; reflexivity.
      * cbn in H. rewrite <- (fill_none T) by assumption.
        destruct (dfill_subs _ _ _ subs _ _ _) as [[[nm z']|e] dd]; cbn [okfill];
          [|split; discriminate]. destruct nm; split; intros Q; try discriminate Q; injection Q as <- <-; reflexivity.
  - assert (P : parts s = [s]) by (destruct s; try reflexivity; try discriminate K; contradiction). rewrite P.
    rewrite ofill_cons. change (PO (p_cls o) (p_proxy o) []) with o.
    destruct (resolve false s o) as [x|] eqn:R; [|split; discriminate]. cbn [rbind].
    assert (X : is_compound x = false).
    { clear - R K F H. destruct s; cbn in R, K, F, H; try discriminate K; try contradiction; try (injection R as <-; reflexivity).
      - destruct (cond o) as [v|]; [|discriminate]. cbn [rbind] in R. unfold cond_branch in R.
        apply andb_prop in H as [_ H].
        destruct (key_eqb v (VBool true)); [injection R as <-; destruct s; try discriminate H; reflexivity|].
        destruct (key_eqb v (VBool false)); [injection R as <-; reflexivity|]. destruct (hashable v); discriminate.
    }
    assert (DF : dfill (dec hb ct md (S n)) x ctx b names [] =
      match dec hb ct md (S n) x ctx b with
      | Err e => (Err e, [])
      | Ok (vs, k) => match assign names vs [] with
                      | (None, d') => (Err ValueError, d')
                      | (Some names', d') => (match names' with [] => Ok k | _ => Err ValueError end, d') end end)
      by (destruct x; try discriminate X; reflexivity).
    rewrite DF, EC. destruct (dec hb ct md (S n) x o b) as [[vs k]|]; [|split; discriminate]. cbn [rbind].
    destruct (assign names vs []) as [[nm|] dd]; [|split; discriminate]. unfold ofill. cbn [dfill_subs okfill rbind].
    destruct nm; split; intros Q; try discriminate Q; injection Q as <- <-; now rewrite ?Z.add_0_r.
Qed.
End Fill.

Lemma sum_dcreate : forall hb ct allow fin id bo l s md n c cd b v z,
  m_native (mode_of hb bo) = false ->
  forallb plain_field l = true -> lossless l = true -> ssum fin id l = Ok s ->
  readable_fields ct allow md c (map (with_bo bo) l) ->
  ct c = Some cd -> c_ser cd = with_bo bo s -> NoDup (c_attrs cd) ->
  (dcreate hb ct md (S n) c b = Ok (v, z) <->
   exists vs, fields_decode hb ct md (S n) c (map (with_bo bo) l) (c_attrs cd) [] b vs z /\
     v = VObj c None (zipw (c_attrs cd) vs)).
Proof.
  intros hb ct allow fin id bo l s md n c cd b v z UN PL LL SU RF C S ND.
  destruct (sum_shape fin id bo l s PL LL SU) as (F & R & _).
  assert (FN : forall a, In a (c_attrs cd) -> assoc a (@nil (string * value)) = None) by reflexivity.
  assert (HS : exists T, hc ct T c (with_bo bo s) = true).
  { destruct RF as (T & _ & H & _). exists T. apply parts_hc; [exact F|].
    eapply rel_all; [reflexivity|exact R|]. apply runs_all; [reflexivity|exact H]. }
  destruct HS as [T HS].
  assert (EQ : forall d, (rdo x <- resolve false (with_bo bo s) (PO c true []);
      match dfill (dec hb ct md (Datatypes.S n)) x (PO c true []) b (c_attrs cd) [] with (Err e, _) => Err e | (Ok k, d) => Ok (d, k) end)
      = Ok (d, z) <-> ofill hb ct md n (PO c true []) (PO c true []) (map (with_bo bo) l) b (c_attrs cd) [] = Ok ([], d, z)).
  { intros d. rewrite (parts_fill hb ct md n c (PO c true []) T _ b (c_attrs cd) F HS d z eq_refl).
    rewrite (rel_fill hb ct md n _ _ _ _ b _ _ R).
    exact (runs_fill hb bo UN ct md n (PO c true []) (PO c true []) _ b (c_attrs cd) [] (plain_good bo l PL) ([], d, z)). }
  unfold dcreate, dcreate_step. rewrite C, S.
  split.
  - intros E.
    destruct (resolve false (with_bo bo s) (PO c true [])) as [x|]; [|discriminate]. cbn [rbind] in *.
    destruct (dfill _ x _ b (c_attrs cd) []) as [[k|] d]; [|discriminate].
    destruct (get_attrs (c_attrs cd) d) as [vs|] eqn:G; [|discriminate]. cbn in E. injection E as <- <-.
    pose proof (proj1 (EQ d) eq_refl) as O.
    destruct (ofill_decode hb ct allow md n c (PO c true []) _ _ _ _ _ _ RF ND FN O) as [vs' D].
    exists vs'. split; [exact D|].
    destruct (decode_ofill hb ct allow md n c (PO c true []) _ _ _ _ _ _ RF ND FN D) as [O' L].
    rewrite O in O'. injection O' as ->. cbn [app] in G. rewrite get_attrs_zip in G by (assumption || congruence).
    now injection G as ->.
  - intros (vs & D & ->).
    destruct (decode_ofill hb ct allow md n c (PO c true []) _ _ _ _ _ _ RF ND FN D) as [O L].
    apply EQ in O.
    destruct (resolve false (with_bo bo s) (PO c true [])) as [x|]; [|discriminate]. cbn [rbind] in *.
    destruct (dfill _ x _ b (c_attrs cd) []) as [[k|] d]; [|discriminate]. injection O as -> ->.
    cbn [app]. rewrite get_attrs_zip by (assumption || congruence). reflexivity.
Qed.

(** [create_unpack], [create_unpack_from], [create_unpack_read] of a class whose fields are [l] succeed exactly
    if the fields can be read one after the other, and give the object holding their values *)
Theorem C15_unpack : forall hb ct allow fin id bo l s n c cd src w v,
  m_native (mode_of hb bo) = false ->
  forallb plain_field l = true -> lossless l = true -> ssum fin id l = Ok s ->
  readable_fields ct allow (md_of src) c (map (with_bo bo) l) ->
  ct c = Some cd -> c_ser cd = with_bo bo s -> NoDup (c_attrs cd) -> srcok src w ->
  (fst (create_step hb ct (unpack hb ct (S n)) c src w) = Ok v <->
   exists vs z, fields_decode hb ct (md_of src) (S n) c (map (with_bo bo) l) (c_attrs cd) [] (suffix src w) vs z /\
     v = VObj c None (zipw (c_attrs cd) vs)).
Proof.
  intros hb ct allow fin id bo l s n c cd src w v UN PL LL SU RF C S ND K.
  assert (HE : healthy ct allow) by (destruct RF as (T' & COK & _); exists T'; exact COK).
  assert (HU : classes_hu ct (md_of src)) by (destruct RF as (_ & _ & _ & H & _); exact H).
  destruct (user_create hb ct allow (md_of src) (Datatypes.S n) c src w HE HU eq_refl K) as [-> _].
  pose proof (fun z => sum_dcreate hb ct allow fin id bo l s (md_of src) n c cd (suffix src w) v z UN PL LL SU RF C S ND) as Q.
  split.
  - destruct (dcreate _ _ _ _ _ _) as [[v' z]|] eqn:E; [|discriminate]. intros H. cbn in H. injection H as ->.
    destruct (proj1 (Q z) eq_refl) as (vs & D & ->). eauto.
  - intros (vs & z & D & ->). rewrite (proj2 (Q z)) by eauto. reflexivity.
Qed.
Print Assumptions C15_unpack.

(** example: class Rec(Structured, byte_order=BE): a: uint8; b: uint16; s: char[b'\0']; c: uint32; d: int8 *)
Definition rec_fields : list ser :=
  [SStruct sU8; SStruct sU16; STerm 60 x00; SNull; SStruct (st1 BO_DEFAULT CI); SStruct (st1 BO_DEFAULT Cb)].
Definition rec_ser : ser :=
  SCompound 61 [SStruct (SS BO_BE [T None CB; T None CH] None); STerm 60 x00;
                SStruct (SS BO_BE [T None CI; T None Cb] None)].
Definition rec_cd : cdef := CD ["a"; "b"; "s"; "c"; "d"]%string rec_ser BO_BE false.
Definition rec_ct : nat -> option cdef := fun c => match c with O => Some rec_cd | _ => None end.
Definition rec_attrs : list (string * value) :=
  [("a", VInt 1); ("b", VInt 515); ("s", VBytes [x68; x69]); ("c", VInt 67438087); ("d", VInt (-2))]%string.
Definition rec_bytes : bytes := [x01; x02; x03; x68; x69; x00; x04; x05; x06; x07; xfe].
Example rec_sum : exists s, ssum (fun _ => false) 61 rec_fields = Ok s /\ rec_ser = with_bo BO_BE s /\
  forallb plain_field rec_fields = true /\ lossless rec_fields = true.
Proof. eexists. repeat split; reflexivity. Qed.
Lemma rec_classes : classes_ok rec_ct Nat.eqb no_sets.
Proof.
  split.
  - intros [|c] cd E; [injection E as <-|discriminate]. split; [reflexivity|]. intros i. cbn. discriminate.
  - intros d c E. apply Nat.eqb_eq in E. subst. auto.
Qed.
Lemma rec_writes : fields_write false rec_ct Nat.eqb 1 (PO 0 false rec_attrs) (map (with_bo BO_BE) rec_fields)
  [VInt 1; VInt 515; VBytes [x68; x69]; VInt 67438087; VInt (-2)] rec_bytes.
Proof.
  assert (W : forall x vs b, hc rec_ct no_sets 0 x = true ->
     penc false rec_ct Nat.eqb 1 x (PO 0 false rec_attrs) vs = Ok b -> List.length vs = num_values x ->
     List.length vs = num_values x /\ conforming false rec_ct Nat.eqb 1 x (PO 0 false rec_attrs) vs /\
     field_writes false rec_ct 1 x (PO 0 false rec_attrs) vs b).
  { intros x vs b H E L. split; [exact L|]. split; [unfold conforming; rewrite E; discriminate|].
    eapply penc_writes; [|exact E]. exists no_sets. split; [apply rec_classes|exact H]. }
  change rec_bytes with ([x01] ++ [x02; x03] ++ [x68; x69; x00] ++ [] ++ [x04; x05; x06; x07] ++ [xfe] ++ []).
  change [VInt 1; VInt 515; VBytes [x68; x69]; VInt 67438087; VInt (-2)]
    with ([VInt 1] ++ [VInt 515] ++ [VBytes [x68; x69]] ++ [] ++ [VInt 67438087] ++ [VInt (-2)] ++ []).
  unfold rec_fields. cbn [map with_bo].
  do 6 (match goal with |- fields_write _ _ _ _ _ _ (?vs ++ _) (?b ++ _) =>
    apply FW_cons; [eapply (W _ vs b); reflexivity|eapply (W _ vs b); reflexivity|eapply (W _ vs b); reflexivity|] end).
  constructor.
Qed.
Example C15_instance_pack_met : fst (Structured_pack false rec_ct 2 (VObj 0 None rec_attrs) dirty) = Ok rec_bytes.
Proof.
  destruct rec_sum as (s & SU & RS & PL & LL).
  apply (C15_instance_pack false rec_ct Nat.eqb (fun _ => false) 61 BO_BE rec_fields s 0 0 rec_cd None rec_attrs
           [VInt 1; VInt 515; VBytes [x68; x69]; VInt 67438087; VInt (-2)]); auto; try reflexivity.
  - exists no_sets. split; [apply rec_classes|reflexivity].
  - apply rec_writes.
Qed.
Example C15_unpack_met : fst (create_unpack false rec_ct 1 0 rec_bytes dirty) = Ok (VObj 0 None rec_attrs).
Proof.
  destruct rec_sum as (s & SU & RS & PL & LL).
  apply (C15_unpack false rec_ct Nat.eqb (fun _ => false) 61 BO_BE rec_fields s 0 0 rec_cd (SBuf rec_bytes) dirty
          (VObj 0 None rec_attrs)); auto; try reflexivity; try exact I.
  - exists no_sets. split; [apply rec_classes|]. split; [reflexivity|]. split; [|reflexivity].
    intros [|c] cd E; [injection E as <-; reflexivity|discriminate].
  - repeat constructor; cbn; intuition discriminate.
  - exists [VInt 1; VInt 515; VBytes [x68; x69]; VInt 67438087; VInt (-2)], 11. split; [|reflexivity].
    change [VInt 1; VInt 515; VBytes [x68; x69]; VInt 67438087; VInt (-2)]
      with ([VInt 1] ++ [VInt 515] ++ [VBytes [x68; x69]] ++ [] ++ [VInt 67438087] ++ [VInt (-2)] ++ []).
    change (c_attrs rec_cd) with (["a"%string] ++ ["b"%string] ++ ["s"%string] ++ [] ++ ["c"%string] ++ ["d"%string] ++ []).
    change 11 with (1 + (2 + (3 + (0 + (4 + (1 + 0)))))). unfold rec_fields. cbn [map with_bo].
    do 6 (eapply FD_cons; [vm_compute; reflexivity|reflexivity|]). constructor.
Qed.

(** With native alignment the padding depends on how the fields are grouped: uint8, uint16 in one run are
    padded, with a string in between they are not.  Packing is then not the concatenation of the fields. *)
Theorem C15_fields_native_refuted : exists s,
  ssum (fun _ => false) 61 [SStruct sU8; SStruct sU16] = Ok s /\
  field_writes false rec_ct 1 (SStruct sU8) (PO 0 false []) [VInt 1] [x01] /\
  field_writes false rec_ct 1 (SStruct sU16) (PO 0 false []) [VInt 2] [x02; x00] /\
  ~ field_writes false rec_ct 2 s (PO 0 false []) [VInt 1; VInt 2] [x01; x02; x00].
Proof.
  assert (W : forall x vs b, hc rec_ct no_sets 0 x = true ->
     penc false rec_ct Nat.eqb 1 x (PO 0 false []) vs = Ok b -> field_writes false rec_ct 1 x (PO 0 false []) vs b).
  { intros x vs b H E. eapply penc_writes; [|exact E]. exists no_sets. split; [apply rec_classes|exact H]. }
  eexists. split; [reflexivity|]. split; [apply W; reflexivity|]. split; [apply W; reflexivity|].
  intros F. specialize (F KPack cloud0 I). vm_compute in F. destruct F as [F _]. discriminate.
Qed.
Print Assumptions C15_fields_native_refuted.
