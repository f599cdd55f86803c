(** Properties C24 and C25: conditional fields and unions. *)
From Verif Require Import Base Floats Value StructMod Format Ser Exec Pure BaseFacts StructFacts FormatFacts
  SerFacts RefPack RefUnpack Leaf Wire Sample User Field RoundTrip PropsStrings PropsNum.

Section Cond.
Variable hb : bool.
Variable ct : nat -> option cdef.

(** ** C24: one field *)
(** condition true: the same program as without the Condition, whatever the serializer (not using the
    object itself), the values, the input and the state *)
Theorem C24_true : forall n f inner d o, f o = Ok (VBool true) -> needs_pre inner = false ->
  (forall k vs w, field_pack hb ct n (SCond f inner d) o k vs w = field_pack hb ct n inner o k vs w) /\
  (forall s w, field_unpack hb ct n (SCond f inner d) o s w = field_unpack hb ct n inner o s w).
Proof.
  intros n f inner d o F N.
  assert (P : forall b w, prep b (SCond f inner d) o w = prep b inner o w).
  { intros b w. cbn [prep]. unfold lift. rewrite F. cbn. destruct inner; try discriminate N; reflexivity. }
  split; intros; unfold field_pack, field_unpack, bind; now rewrite P.
Qed.
(** condition false: no bytes, nothing read, the default values *)
Theorem C24_false : forall n f inner d o, f o = Ok (VBool false) ->
  (forall k vs w, field_pack hb ct (S n) (SCond f inner d) o k vs w = (Ok ([], 0), w)) /\
  (forall s w, field_unpack hb ct (S n) (SCond f inner d) o s w = (Ok (d, 0), w)).
Proof.
  intros n f inner d o F.
  assert (P : forall b w, prep b (SCond f inner d) o w = (Ok (SSkip d), w)).
  { intros b w. cbn [prep]. unfold lift. rewrite F. reflexivity. }
  split; intros; unfold field_pack, field_unpack, bind; rewrite P; reflexivity.
Qed.
(** an exception of the condition function is passed on *)
Theorem C24_raise : forall n f inner d o e, f o = Err e ->
  (forall k vs w, field_pack hb ct n (SCond f inner d) o k vs w = (Err e, w)) /\
  (forall s w, field_unpack hb ct n (SCond f inner d) o s w = (Err e, w)).
Proof.
  intros n f inner d o e F. split; intros; unfold field_pack, field_unpack, bind; cbn [prep]; unfold lift; rewrite F; reflexivity.
Qed.

(** ** C24: the field inside a class *)
Lemma prep_id : forall b s o w, needs_pre s = false -> prep b s o w = (Ok s, w).
Proof. intros b s o w N. destruct s; try discriminate N; reflexivity. Qed.
Lemma pack_subs_pre : forall rec subs o k vs size w, existsb needs_pre subs = false ->
  pack_subs hb rec None subs k vs size w = pack_subs hb rec (Some o) subs k vs size w.
Proof.
  intros rec subs o k. induction subs as [|s subs IH]; intros vs size w N; [reflexivity|].
  cbn [existsb] in N. apply orb_false_elim in N as [N1 N2]. cbn [pack_subs]. unfold bind.
  rewrite prep_id by exact N1. unfold ret at 1. destruct (rec s (ksub k size) (firstn (num_values s) vs) w) as [[b|e] w1]; [|reflexivity].
  destruct (get_size hb s w1) as [[z|e] w2]; [|reflexivity]. now rewrite IH.
Qed.
Lemma unpack_subs_pre : forall rec subs o s size w, existsb needs_pre subs = false ->
  unpack_subs hb rec None subs s size w = unpack_subs hb rec (Some o) subs s size w.
Proof.
  intros rec subs o s. induction subs as [|x subs IH]; intros size w N; [reflexivity|].
  cbn [existsb] in N. apply orb_false_elim in N as [N1 N2]. cbn [unpack_subs]. unfold bind.
  rewrite prep_id by exact N1. unfold ret at 1. destruct (rec x (ssub s size) w) as [[b|e] w1]; [|reflexivity].
  destruct (get_size hb x w1) as [[z|e] w2]; [|reflexivity]. now rewrite IH.
Qed.
Lemma fill_subs_pre : forall rec subs o s size names d w, existsb needs_pre subs = false ->
  fill_subs hb rec None subs s size names d w = fill_subs hb rec (Some o) subs s size names d w.
Proof.
  intros rec subs o s. induction subs as [|x subs IH]; intros size names d w N; [reflexivity|].
  cbn [existsb] in N. apply orb_false_elim in N as [N1 N2]. cbn [fill_subs]. unfold bind.
  rewrite prep_id by exact N1. unfold ret at 1. destruct (rec x (ssub s size) w) as [[vs|e] w1]; [|reflexivity].
  cbn. destruct (assign names vs d) as [[names'|] d']; [|reflexivity].
  destruct (get_size hb x w1) as [[z|e] w2]; [|reflexivity]. now rewrite IH.
Qed.
(** the compound of a class hands the object to its members, one after the other *)
Lemma compound_pack : forall n id subs o k vs w,
  field_pack hb ct (S n) (SCompound id subs) o k vs w
  = (mdo (b, size) <- pack_subs hb (pack hb ct n) (Some o) subs k vs 0; set_size id size;; ret (b, size)) w.
Proof.
  intros n id subs o k vs w. unfold field_pack. unfold bind at 1. cbn [prep]. unfold ret at 1.
  destruct (existsb needs_pre subs) eqn:N; unfold bind; cbn [pack pack_step]; unfold bind.
  - destruct (pack_subs hb (pack hb ct n) (Some o) subs k vs 0 w) as [[[b z]|e] w1]; [|reflexivity].
    cbn. unfold upd. now rewrite Nat.eqb_refl.
  - rewrite (pack_subs_pre _ subs o) by exact N.
    destruct (pack_subs hb (pack hb ct n) (Some o) subs k vs 0 w) as [[[b z]|e] w1]; [|reflexivity].
    cbn. unfold upd. now rewrite Nat.eqb_refl.
Qed.
Lemma compound_fill : forall rec id subs o s names d w,
  (match prep false (SCompound id subs) o w with
   | (Err e, w') => (Err e, d, w')
   | (Ok x, w') => fill hb rec x s names d w'
   end)
  = match fill_subs hb rec (Some o) subs s 0 names d w with
    | (Err e, d', w') => (Err e, d', w')
    | (Ok (names', size), d', w') => (match names' with [] => Ok tt | _ => Err ValueError end, d', snd (set_size id size w'))
    end.
Proof.
  intros rec id subs o s names d w. cbn [prep]. unfold ret.
  destruct (existsb needs_pre subs) eqn:N; cbn [fill].
  - destruct (fill_subs hb rec (Some o) subs s 0 names d w) as [[[[[|nm names'] z]|e] d'] w']; reflexivity.
  - rewrite (fill_subs_pre rec subs o) by exact N.
    destruct (fill_subs hb rec (Some o) subs s 0 names d w) as [[[[[|nm names'] z]|e] d'] w']; reflexivity.
Qed.

Lemma prep_cond_true : forall b f inner d o w, f o = Ok (VBool true) -> needs_pre inner = false ->
  prep b (SCond f inner d) o w = prep b inner o w.
Proof. intros b f inner d o w F N. rewrite (prep_id b inner) by exact N. cbn [prep]. unfold lift. now rewrite F. Qed.
Lemma prep_cond_false : forall b f inner d o w, f o = Ok (VBool false) -> prep b (SCond f inner d) o w = (Ok (SSkip d), w).
Proof. intros b f inner d o w F. cbn [prep]. unfold lift. now rewrite F. Qed.

Lemma pack_subs_cond : forall rec f inner d o, f o = Ok (VBool true) -> needs_pre inner = false ->
  forall a b k vs size w,
  pack_subs hb rec (Some o) (a ++ SCond f inner d :: b) k vs size w
  = pack_subs hb rec (Some o) (a ++ inner :: b) k vs size w.
Proof.
  intros rec f inner d o F N. induction a as [|x a IH]; intros b k vs size w; cbn [app pack_subs]; unfold bind.
  - now rewrite prep_cond_true.
  - destruct (prep true x o w) as [[x'|e] w1]; [|reflexivity].
    destruct (rec x' _ _ w1) as [[y|e] w2]; [|reflexivity].
    destruct (get_size hb x' w2) as [[z|e] w3]; [|reflexivity]. now rewrite IH.
Qed.
(** a class with a conditional field whose condition holds packs like the class without the Condition *)
Theorem C24_class_pack_true : forall n id a f inner d b o k vs w,
  f o = Ok (VBool true) -> needs_pre inner = false ->
  field_pack hb ct (S n) (SCompound id (a ++ SCond f inner d :: b)) o k vs w
  = field_pack hb ct (S n) (SCompound id (a ++ inner :: b)) o k vs w.
Proof. intros. rewrite !compound_pack. unfold bind. now rewrite pack_subs_cond. Qed.

(** when it does not hold: like the class without the field, and without its values *)
Theorem C24_class_pack_false : forall n id a f inner d b o k va vd vb w md,
  f o = Ok (VBool false) ->
  forallb (nvok md) (a ++ SCond f inner d :: b) = true ->
  Forall2 (fun s vs => List.length vs = num_values s) a va -> List.length vd = num_values inner ->
  Forall2 (fun s vs => List.length vs = num_values s) b vb ->
  field_pack hb ct (S (S n)) (SCompound id (a ++ SCond f inner d :: b)) o k (concat va ++ vd ++ concat vb) w
  = field_pack hb ct (S (S n)) (SCompound id (a ++ b)) o k (concat va ++ concat vb) w.
Proof.
  intros n id a f inner d b o k va vd vb w md F NV FA LD FB. rewrite !compound_pack. unfold bind at 1 3.
  replace (pack_subs hb (pack hb ct (S n)) (Some o) (a ++ SCond f inner d :: b) k (concat va ++ vd ++ concat vb) 0 w)
    with (pack_subs hb (pack hb ct (S n)) (Some o) (a ++ b) k (concat va ++ concat vb) 0 w); [reflexivity|].
  rewrite forallb_app in NV. apply andb_prop in NV as [NA NB]. cbn [forallb] in NB. apply andb_prop in NB as [NC NB].
  generalize 0 as size. revert w. induction FA as [|x va0 a va L FA IH]; intros w size.
  - cbn [app concat pack_subs]. unfold bind at 1. rewrite prep_cond_false by exact F.
    cbn [nvok] in NC. apply andb_prop in NC as [_ NC]. apply Nat.eqb_eq in NC.
    cbn [num_values]. 
    replace (List.length d) with (List.length vd) by congruence. rewrite firstn_app_len, skipn_app_len.
    unfold bind at 1. cbn [pack pack_step]. unfold ret at 1. unfold bind at 1. cbn [get_size]. unfold ret at 1.
    rewrite Z.add_0_r. unfold bind.
    match goal with |- ?l = _ => destruct l as [[[y z]|e] w']; reflexivity end.
  - cbn [forallb] in NA. apply andb_prop in NA as [N1 NA]. cbn [app concat pack_subs]. unfold bind.
    destruct (prep true x o w) as [[x'|e] w1] eqn:P; [|reflexivity].
    rewrite (prep_nv_pack md _ _ _ _ _ N1 P), <- L, <- !app_assoc, !firstn_app_len, !skipn_app_len.
    destruct (pack hb ct (S n) x' _ _ w1) as [[y|e] w2]; [|reflexivity].
    destruct (get_size hb x' w2) as [[z|e] w3]; [|reflexivity]. now rewrite <- (IH NA).
Qed.

(** unpacking: the members before the conditional field leave an object; the condition sees that object *)
Lemma fill_subs_app : forall rec pre a b s size names d w,
  fill_subs hb rec pre (a ++ b) s size names d w
  = match fill_subs hb rec pre a s size names d w with
    | (Err e, d', w') => (Err e, d', w')
    | (Ok (names', z), d', w') => fill_subs hb rec pre b s z names' d' w'
    end.
Proof.
  intros rec pre. induction a as [|x a IH]; intros b s size names d w; [reflexivity|]. cbn [app fill_subs].
  match goal with |- context [ ?m w ] => destruct (m w) as [[[x' vs]|e] w1]; [|reflexivity] end.
  destruct (assign names vs d) as [[names'|] d']; [|reflexivity].
  destruct (get_size hb x' w1) as [[z|e] w2]; [|reflexivity]. apply IH.
Qed.
Lemma create_compound : forall (t : nat -> option cdef) rec c s w attrs id subs bo fin,
  t c = Some (CD attrs (SCompound id subs) bo fin) ->
  create_step hb t rec c s w
  = match fill_subs hb rec (Some (PO c true [])) subs s 0 attrs [] w with
    | (Err e, d', w') => (Err e, w')
    | (Ok (names', size), d', w') =>
        (match names' with
         | [] => Base.rmap (fun vs => VObj c None (zipw attrs vs)) (get_attrs attrs d')
         | _ => Err ValueError
         end, snd (set_size id size w'))
    end.
Proof.
  intros t rec c s w attrs id subs bo fin E. unfold create_step. rewrite E. cbn [c_ser c_attrs].
  generalize (compound_fill rec id subs (PO c true []) s attrs [] w). intros X.
  cbn [prep] in *. unfold ret in *. rewrite X. clear X.
  destruct (fill_subs hb rec (Some (PO c true [])) subs s 0 attrs [] w) as [[[[[|nm names'] z]|e] d'] w']; reflexivity.
Qed.

(** create_unpack*, condition true for the object read so far: like the class without the Condition *)
Theorem C24_class_unpack_true : forall (t t' : nat -> option cdef) rec c s w attrs id a f inner d b bo fin,
  t c = Some (CD attrs (SCompound id (a ++ SCond f inner d :: b)) bo fin) ->
  t' c = Some (CD attrs (SCompound id (a ++ inner :: b)) bo fin) ->
  needs_pre inner = false ->
  (forall names' z d' w', fill_subs hb rec (Some (PO c true [])) a s 0 attrs [] w = (Ok (names', z), d', w') ->
     f (PO c true d') = Ok (VBool true)) ->
  create_step hb t rec c s w = create_step hb t' rec c s w.
Proof.
  intros t t' rec c s w attrs id a f inner d b bo fin E E' N F.
  rewrite (create_compound t rec c s w _ _ _ _ _ E), (create_compound t' rec c s w _ _ _ _ _ E'), !fill_subs_app.
  destruct (fill_subs hb rec (Some (PO c true [])) a s 0 attrs [] w) as [[[[names' z]|e] d'] w'] eqn:A; [|reflexivity].
  specialize (F _ _ _ _ eq_refl). cbn [fill_subs p_cls p_proxy]. unfold bind at 1 3. now rewrite (prep_cond_true false f inner d _ w' F N).
Qed.
(** condition false: the attributes get the default, the rest is read at the same position from the same input *)
Theorem C24_class_unpack_false : forall n o a f inner d b s size names w names1 z d1 w1,
  fill_subs hb (unpack hb ct (S n)) (Some o) a s size names [] w = (Ok (names1, z), d1, w1) ->
  f (PO (p_cls o) (p_proxy o) d1) = Ok (VBool false) ->
  forall mine names2, names1 = mine ++ names2 -> List.length mine = List.length d ->
  fill_subs hb (unpack hb ct (S n)) (Some o) (a ++ SCond f inner d :: b) s size names [] w
  = fill_subs hb (unpack hb ct (S n)) (Some o) b s z names2
      (fold_left (fun x av => assoc_set (fst av) (snd av) x) (combine mine d) d1) w1.
Proof.
  intros n o a f inner d b s size names w names1 z d1 w1 A F mine names2 -> L. rewrite fill_subs_app, A.
  cbn [fill_subs]. unfold bind at 1. rewrite prep_cond_false by exact F. cbn.
  assert (X : forall vs m x, List.length m = List.length vs ->
    assign (m ++ names2) vs x = (Some names2, fold_left (fun x av => assoc_set (fst av) (snd av) x) (combine m vs) x)).
  { induction vs as [|v vs IH]; intros [|y m] x E; try discriminate E; [destruct names2; reflexivity|]; cbn. apply IH. now injection E. }
  rewrite X by exact L. now rewrite Z.add_0_r.
Qed.
End Cond.
Print Assumptions C24_true.
Print Assumptions C24_false.
Print Assumptions C24_raise.
Print Assumptions C24_class_pack_true.
Print Assumptions C24_class_pack_false.
Print Assumptions C24_class_unpack_true.
Print Assumptions C24_class_unpack_false.

(** the hypotheses are met: class Opt: kind: uint8; opt: uint16 if kind == 1 else 7; last: uint8 *)
Definition opt_subs : list ser :=
  [SStruct sU8; SCond (fld_is "kind" 1) (SStruct sU16) [VInt 7]; SStruct sU8].
Definition opt_table (c : nat) : option cdef :=
  match c with 0%nat => Some (CD ["kind"; "opt"; "last"] (SCompound 0 opt_subs) BO_DEFAULT false) | _ => None end.
Example C24_nontrivial :
  (* packed with and without the field *)
  fst (field_pack false opt_table 3 (SCompound 0 opt_subs) (PO 0 false [("kind", VInt 1)]) KPack [VInt 1; VInt 258; VInt 9] cloud0)
    = Ok ([x01; x02; x01; x09], 4) /\
  fst (field_pack false opt_table 3 (SCompound 0 opt_subs) (PO 0 false [("kind", VInt 2)]) KPack [VInt 2; VInt 258; VInt 9] cloud0)
    = Ok ([x02; x09], 2) /\
  (* unpacked with the field, and without it with the default *)
  fst (create_step false opt_table (unpack false opt_table 2) 0 (SBuf [x01; x02; x01; x09]) cloud0)
    = Ok (VObj 0 None [("kind", VInt 1); ("opt", VInt 258); ("last", VInt 9)]) /\
  fst (create_step false opt_table (unpack false opt_table 2) 0 (SBuf [x02; x09]) cloud0)
    = Ok (VObj 0 None [("kind", VInt 2); ("opt", VInt 7); ("last", VInt 9)]) /\
  forallb (nvok UBuf) opt_subs = true.
Proof. vm_compute. auto 10. Qed.

(** ** C24 is false as soon as the condition returns something true that is not equal to True
    (conditional.py:67: the result is used as a dict key; the module promises "a Truthy value") *)
Theorem C24_truthy_refuted : forall hb ct n inner d o k vs s w,
  let f := fun _ : pobj => Ok (VInt 2) in
  field_pack hb ct n (SCond f inner d) o k vs w = (Err KeyError, w) /\
  field_unpack hb ct n (SCond f inner d) o s w = (Err KeyError, w).
Proof. intros. split; reflexivity. Qed.
Print Assumptions C24_truthy_refuted.
(** ... and for fields that need the object themselves, like arrays: conditional.py:66-70 does not call their
    prepack / preunpack.  The same array packs and unpacks without the Condition *)
Definition arr8 : ser := SArray 5 (Some sU8) (SStruct sU8) (-1).
Theorem C24_array_refuted : 
  let always := fun _ : pobj => Ok (VBool true) in
  let o := PO 0 false [] in
  fst (field_pack false no_classes 3 arr8 o KPack [VList [VInt 3; VInt 4]] cloud0) = Ok ([x02; x03; x04], 3) /\
  fst (field_pack false no_classes 3 (SCond always arr8 [VNone]) o KPack [VList [VInt 3; VInt 4]] cloud0) = Err AttributeError /\
  fst (field_unpack false no_classes 3 arr8 o (SBuf [x02; x03; x04]) cloud0) = Ok ([VList [VInt 3; VInt 4]], 3) /\
  fst (field_unpack false no_classes 3 (SCond always arr8 [VNone]) o (SBuf [x02; x03; x04]) cloud0) = Err AttributeError.
Proof. vm_compute. auto 10. Qed.
Print Assumptions C24_array_refuted.

(** ** C25: unions *)
(** the serializer for a decision: the one whose key equals it, else the default *)
Definition no_key (m : list (value * ser)) (r : value) : Prop := forall k s, In (k, s) m -> key_eqb r k = false.
Definition selects (m : list (value * ser)) (d : option ser) (r : value) (s : ser) : Prop :=
  hashable r = true /\
  ((exists m1 k m2, m = m1 ++ (k, s) :: m2 /\ key_eqb r k = true /\ no_key m1 r) \/ (no_key m r /\ d = Some s)).
Lemma map_find_none : forall m r, no_key m r -> map_find r m = None.
Proof.
  induction m as [|[k s] m IH]; intros r N; [reflexivity|]. cbn. rewrite (N k s) by (now left).
  apply IH. intros k' s' I. apply (N k' s'). now right.
Qed.
Lemma selects_choose : forall m d r s, selects m d r s -> choose m d r = Ok s.
Proof.
  intros m d r s [H X]. unfold choose. rewrite H. destruct X as [(m1 & k & m2 & -> & K & N)|[N ->]].
  - replace (map_find r (m1 ++ (k, s) :: m2)) with (Some s); [reflexivity|].
    induction m1 as [|[k1 s1] m1 IH]; cbn; [now rewrite K|]. rewrite (N k1 s1) by (now left).
    apply IH. intros k' s' I. apply (N k' s'). now right.
  - now rewrite map_find_none.
Qed.
Lemma unmapped_choose : forall m r, no_key m r -> choose m None r = if hashable r then Err ValueError else Err TypeError.
Proof. intros m r N. unfold choose. now rewrite map_find_none. Qed.

Section Union.
Variable hb : bool.
Variable ct : nat -> option cdef.

(** the program run when serializer [s0] was chosen: its own prepack, pack method and size *)
Definition as_pack n s0 id o k vs : M (bytes * Z) :=
  set_obj id o;; mdo r <- field_pack hb ct n s0 o k vs; set_size id (snd r);; ret r.
Definition as_unpack n s0 id o s : M (list value * Z) :=
  set_obj id o;; mdo r <- field_unpack hb ct n s0 o s; set_size id (snd r);; ret r.

Lemma get_obj_set : forall id o w, get_obj id (snd (set_obj id o w)) = (Ok o, snd (set_obj id o w)).
Proof. intros. unfold get_obj, set_obj. cbn. unfold upd. now rewrite Nat.eqb_refl. Qed.
Lemma size_after : forall A id (z : Z) (r : A) w,
  (mdo _ <- set_size id z; mdo b <- ret r; mdo z' <- (fun w => (Ok (w_size w id), w)); ret (b, z')) w
  = (mdo _ <- set_size id z; ret (r, z)) w.
Proof. intros. unfold bind, set_size, ret. cbn. unfold upd. now rewrite Nat.eqb_refl. Qed.

Theorem C25_lookback_pack : forall n id f m d o r s0 k vs w, f o = Ok r -> selects m d r s0 ->
  field_pack hb ct (S n) (SLookback id f m d) o k vs w = as_pack n s0 id o k vs w.
Proof.
  intros n id f m d o r s0 k vs w F S. apply selects_choose in S.
  unfold field_pack at 1, as_pack, field_pack. unfold bind at 1. cbn [prep]. unfold bind at 1.
  destruct (set_obj id o w) as [[[]|e] w1] eqn:E; [|discriminate E].
  assert (G : get_obj id w1 = (Ok o, w1)) by (generalize (get_obj_set id o w); now rewrite E).
  unfold ret at 1. unfold bind at 1. cbn [pack pack_step]. unfold bind. rewrite E, G. unfold lift. rewrite F. cbn. rewrite S.
  destruct (prep true s0 o w1) as [[s'|e] w2]; [|reflexivity].
  destruct (pack hb ct n s' k vs w2) as [[b|e] w3]; [|reflexivity].
  destruct (get_size hb s' w3) as [[z|e] w4]; [|reflexivity]. cbn. unfold upd. now rewrite Nat.eqb_refl.
Qed.

Theorem C25_lookback_unpack : forall n id f m d o r s0 s w, f o = Ok r -> selects m d r s0 ->
  field_unpack hb ct (S n) (SLookback id f m d) o s w = as_unpack n s0 id o s w.
Proof.
  intros n id f m d o r s0 s w F S. apply selects_choose in S.
  unfold field_unpack at 1, as_unpack, field_unpack. unfold bind at 1. cbn [prep]. unfold bind at 1.
  destruct (set_obj id o w) as [[[]|e] w1] eqn:E; [|discriminate E].
  assert (G : get_obj id w1 = (Ok o, w1)) by (generalize (get_obj_set id o w); now rewrite E).
  unfold ret at 1. unfold bind at 1. cbn [unpack unpack_step]. unfold bind. rewrite E, G. unfold lift. rewrite F. cbn. rewrite S.
  destruct (prep false s0 o w1) as [[s'|e] w2]; [|reflexivity].
  destruct (unpack hb ct n s' s w2) as [[b|e] w3]; [|reflexivity].
  destruct (get_size hb s' w3) as [[z|e] w4]; [|reflexivity]. cbn. unfold upd. now rewrite Nat.eqb_refl.
Qed.
(** packing with a LookaheadDecider: the write decider plays the same part *)
Theorem C25_lookahead_pack : forall n id ra f m d o r s0 k vs w, f o = Ok r -> selects m d r s0 ->
  field_pack hb ct (S n) (SLookahead id ra f m d) o k vs w = as_pack n s0 id o k vs w.
Proof. intros. change (field_pack hb ct (S n) (SLookahead id ra f m d) o k vs w)
  with (field_pack hb ct (S n) (SLookback id f m d) o k vs w). eapply C25_lookback_pack; eauto. Qed.

(** an unmapped decision without default: ValueError, nothing written or read *)
Theorem C25_unmapped : forall n id ra f m o r w, f o = Ok r -> hashable r = true -> no_key m r ->
  (forall k vs, field_pack hb ct (S n) (SLookback id f m None) o k vs w = (Err ValueError, snd (set_obj id o w))) /\
  (forall k vs, field_pack hb ct (S n) (SLookahead id ra f m None) o k vs w = (Err ValueError, snd (set_obj id o w))) /\
  (forall s, field_unpack hb ct (S n) (SLookback id f m None) o s w = (Err ValueError, snd (set_obj id o w))).
Proof.
  intros n id ra f m o r w F H N. pose proof (unmapped_choose m r N) as C. rewrite H in C.
  assert (P : forall k vs, field_pack hb ct (S n) (SLookback id f m None) o k vs w = (Err ValueError, snd (set_obj id o w))).
  { intros k vs. unfold field_pack. unfold bind at 1. cbn [prep]. unfold bind at 1.
    destruct (set_obj id o w) as [[[]|e] w1] eqn:E; [|discriminate E].
    assert (G : get_obj id w1 = (Ok o, w1)) by (generalize (get_obj_set id o w); now rewrite E).
    unfold ret at 1. unfold bind at 1. cbn [pack pack_step]. unfold bind. rewrite G. unfold lift. rewrite F. cbn. now rewrite C. }
  split; [exact P|]. split; [exact P|].
  intros s. unfold field_unpack. unfold bind at 1. cbn [prep]. unfold bind at 1.
  destruct (set_obj id o w) as [[[]|e] w1] eqn:E; [|discriminate E].
  assert (G : get_obj id w1 = (Ok o, w1)) by (generalize (get_obj_set id o w); now rewrite E).
  unfold ret at 1. unfold bind at 1. cbn [unpack unpack_step]. unfold bind. rewrite G. unfold lift. rewrite F. cbn. now rewrite C.
Qed.

(** unpacking with a LookaheadDecider.  [ra] needs no object (a read-ahead serializer is never prepared).
    Reading ahead changes stored sizes and objects only of [ra]; the stream is back where it was *)
Section Ahead.
Variable allow : nat -> nat -> bool.
Lemma ahead_parts : forall c md id ra f m d, readable_field ct allow c md (SLookahead id ra f m d) ->
  readable_field ct allow c md ra /\ forall r s0, choose m d r = Ok s0 -> readable_field ct allow c md s0.
Proof.
  intros c md id ra f m d ((T & COK & HC) & HU & U). cbn [hc hu] in HC, U.
  apply andb_prop in HC as [HC HD]. apply andb_prop in HC as [HL HM].
  apply andb_prop in U as [U UD]. apply andb_prop in U as [U UM]. apply andb_prop in U as [U _].
  split.
  - split; [exists T; split; [exact COK|now apply SerFacts.leaf_hc]|]. now split.
  - intros r s0 C. unfold choose in C. destruct (hashable r); [|discriminate].
    assert (X : (exists k, In (k, s0) m) \/ d = Some s0).
    { destruct (map_find r m) as [x|] eqn:E.
      - injection C as <-. left. clear -E. induction m as [|[k' y] m IH]; [discriminate|]. cbn in E.
        destruct (key_eqb r k'); [injection E as <-; exists k'; now left|]. destruct (IH E) as [k I]. exists k. now right.
      - destruct d; [|discriminate]. injection C as <-. now right. }
    destruct X as [[k I]| ->].
    + rewrite forallb_forall in HM, UM. specialize (HM _ I). specialize (UM _ I). cbn in HM, UM.
      split; [exists T; now split|]. now split.
    + split; [exists T; now split|]. now split.
Qed.
Lemma ahead_pdec : forall md n id ra f m d o b, leaf ra = true ->
  pdec hb ct md (S n) (SLookahead id ra f m d) o b
  = (rdo (rs, _) <- pdec hb ct md n ra o b; rdo r <- nth0 rs; rdo s0 <- choose m d r; pdec hb ct md n s0 o b).
Proof.
  intros md n id ra f m d o b L. unfold pdec. cbn [resolve rbind dec dec_step].
  replace (resolve false ra o) with (Ok ra : res ser) by (destruct ra; try discriminate L; reflexivity). reflexivity.
Qed.
(** the value read ahead selects the serializer, which then reads from the same position [s], [w]; the bytes
    consumed are those of the selected serializer only *)
Theorem C25_lookahead_unpack : forall n id ra f m d o s w r rest z0 s0 vs z,
  readable_field ct allow (p_cls o) (md_of s) (SLookahead id ra f m d) -> srcok s w ->
  fst (field_unpack hb ct n ra o s w) = Ok (r :: rest, z0) -> selects m d r s0 ->
  fst (field_unpack hb ct n s0 o s w) = Ok (vs, z) ->
  field_reads hb ct (S n) (SLookahead id ra f m d) o s w vs z.
Proof.
  intros n id ra f m d o s w r rest z0 s0 vs z H K A S B. apply selects_choose in S.
  destruct (ahead_parts _ _ _ _ _ _ _ H) as [RA RS]. specialize (RS _ _ S).
  apply (pdec_reads hb ct allow); [exact H|exact K|].
  rewrite ahead_pdec by (destruct H as ((T & _ & HC) & _); cbn [hc] in HC; now do 2 apply andb_prop in HC as [HC _]).
  rewrite (reads_pdec hb ct allow _ _ _ _ _ _ _ RA K A). cbn [rbind nth0]. rewrite S. cbn [rbind].
  now apply (reads_pdec hb ct allow).
Qed.
(** errors: of the read-ahead, of the choice, of the selected serializer *)
Theorem C25_lookahead_unpack_error : forall n id ra f m d o s w,
  readable_field ct allow (p_cls o) (md_of s) (SLookahead id ra f m d) -> srcok s w ->
  (forall e, fst (field_unpack hb ct n ra o s w) = Err e -> field_rejects hb ct (S n) (SLookahead id ra f m d) o s w e) /\
  (forall r rest z0, fst (field_unpack hb ct n ra o s w) = Ok (r :: rest, z0) ->
    (d = None -> hashable r = true -> no_key m r -> field_rejects hb ct (S n) (SLookahead id ra f m d) o s w ValueError) /\
    (forall s0 e, selects m d r s0 -> fst (field_unpack hb ct n s0 o s w) = Err e ->
      field_rejects hb ct (S n) (SLookahead id ra f m d) o s w e)).
Proof.
  intros n id ra f m d o s w H K. destruct (ahead_parts _ _ _ _ _ _ _ H) as [RA RS].
  assert (L : leaf ra = true) by (destruct H as ((T & _ & HC) & _); cbn [hc] in HC; now do 2 apply andb_prop in HC as [HC _]).
  destruct (field_unpack_spec hb ct allow n ra o s w RA K) as (FA & _).
  split.
  - intros e E. apply (pdec_rejects hb ct allow); [exact H|exact K|]. rewrite ahead_pdec by exact L.
    rewrite E in FA. now rewrite <- FA.
  - intros r rest z0 E. rewrite E in FA. split.
    + intros -> HR N. apply (pdec_rejects hb ct allow); [exact H|exact K|]. rewrite ahead_pdec by exact L.
      rewrite <- FA. cbn [rbind nth0]. rewrite unmapped_choose by exact N. now rewrite HR.
    + intros s0 e S B. apply selects_choose in S. specialize (RS _ _ S).
      apply (pdec_rejects hb ct allow); [exact H|exact K|]. rewrite ahead_pdec by exact L.
      rewrite <- FA. cbn [rbind nth0]. rewrite S. cbn [rbind].
      destruct (field_unpack_spec hb ct allow n s0 o s w RS K) as (FB & _). congruence.
Qed.
End Ahead.
End Union.
Print Assumptions C25_lookback_pack.
Print Assumptions C25_lookback_unpack.
Print Assumptions C25_lookahead_pack.
Print Assumptions C25_unmapped.
Print Assumptions C25_lookahead_unpack.
Print Assumptions C25_lookahead_unpack_error.

(** a union of an array, an integer and (default) a string; decided by a field / by the next byte *)
Definition un_map : list (value * ser) := [(VInt 1, arr8); (VInt 2, SStruct sU16)].
Definition un_back : ser := SLookback 3 (fld "kind") un_map (Some (SDynChar 4 sU8)).
Definition un_ahead (d : option ser) : ser := SLookahead 3 (SStruct sU8) (fld "kind") un_map d.
Example C25_nontrivial :
  let o k := PO 0 false [("kind", VInt k)] in
  selects un_map None (VInt 1) arr8 /\ selects un_map (Some (SDynChar 4 sU8)) (VInt 7) (SDynChar 4 sU8) /\
  no_key un_map (VInt 7) /\
  readable_field no_classes (fun _ _ => true) 0 URead (un_ahead None) /\
  fst (field_pack false no_classes 3 un_back (o 1) KPack [VList [VInt 3]] cloud0) = Ok ([x01; x03], 2) /\
  fst (field_pack false no_classes 3 un_back (o 7) KPack [VBytes [x61]] cloud0) = Ok ([x01; x61], 2) /\
  (* bytes 02 01: read ahead gives 2, so a uint16 is read from the start of the stream *)
  let out := field_unpack false no_classes 3 (un_ahead None) (o 0) SRead (W (fun _ => 0) (fun _ => None) [] [x09; x02; x01; x05] 1) in
  fst out = Ok ([VInt 258], 2) /\ w_pos (snd out) = 3.
Proof.
  cbv zeta. split; [|split; [|split; [|split]]].
  - split; [reflexivity|]. left. exists [], (VInt 1), [(VInt 2, SStruct sU16)]. repeat split. intros k s [].
  - split; [reflexivity|]. right. split; [|reflexivity]. intros k s [E|[E|[]]]; injection E as <- <-; reflexivity.
  - intros k s [E|[E|[]]]; injection E as <- <-; reflexivity.
  - split; [|split; [intros c cd E; discriminate E|reflexivity]].
    exists no_sets. split; [apply no_classes_ok|reflexivity].
  - vm_compute. auto 10.
Qed.
