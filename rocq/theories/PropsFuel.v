(** Property C09: recursive structures and the recursion limit. *)
From Verif Require Import Base Floats Value StructMod Format Ser Exec Pure BaseFacts StructFacts FormatFacts
  SerFacts RefPack RefUnpack User Sample DecFacts Canon Fuel RoundTrip RoundTripMain PropsIO PropsRoundTrip
  FuelExec NoRec.
Open Scope string_scope. Open Scope list_scope. Open Scope Z_scope.

(** ** a larger limit never changes a result: every class table, every method, every state *)
Theorem C09_limit_pack : forall hb ct n m v k w, (n <= m)%nat ->
  fst (do_pack hb ct n v k w) <> Err RecursionError -> do_pack hb ct m v k w = do_pack hb ct n v k w.
Proof.
  intros hb ct n m v k w L H. destruct v; try reflexivity. cbn [do_pack] in *.
  destruct (obj_pack_mle ct (pack hb ct n) (pack hb ct m) (fun s k vs => pack_mle hb ct n m s k vs L) c ov attrs k w); congruence.
Qed.
Print Assumptions C09_limit_pack.
Theorem C09_limit_unpack : forall hb ct n m c s w, (n <= m)%nat ->
  fst (create_step hb ct (unpack hb ct n) c s w) <> Err RecursionError ->
  create_step hb ct (unpack hb ct m) c s w = create_step hb ct (unpack hb ct n) c s w.
Proof.
  intros hb ct n m c s w L H.
  destruct (create_mle hb ct (unpack hb ct n) (unpack hb ct m) (fun x s => unpack_mle hb ct n m x s L) c s w); congruence.
Qed.
Print Assumptions C09_limit_unpack.
(** the same for unpacking into an existing object: result, attributes and state *)
Theorem C09_limit_unpack_into : forall hb ct n m c ov d s w, (n <= m)%nat ->
  fst (fst (Structured_unpack hb ct n c ov d s w)) <> Err RecursionError ->
  Structured_unpack hb ct m c ov d s w = Structured_unpack hb ct n c ov d s w.
Proof.
  intros hb ct n m c ov d s w L H. unfold Structured_unpack in *.
  destruct (refill_tle hb ct (unpack hb ct n) (unpack hb ct m) (fun x s => unpack_mle hb ct n m x s L) c ov d s w); congruence.
Qed.
Print Assumptions C09_limit_unpack_into.

(** ** every instance, of any depth, can be packed with some limit *)
(** no condition, decider or encoder of any class raises RecursionError itself *)
Definition callables_ok (ct : nat -> option cdef) : Prop := forall c cd, ct c = Some cd -> calls_ok (c_ser cd).
Theorem C09_pack_any_depth : forall hb ct v, callables_ok ct ->
  exists N, forall n k w, (N <= n)%nat ->
    fst (do_pack hb ct n v k w) <> Err RecursionError /\ do_pack hb ct n v k w = do_pack hb ct N v k w.
Proof.
  intros hb ct v CO. exists (vneed ct v). intros n k w L.
  destruct v; try (cbn; split; [discriminate|reflexivity]). cbn [do_pack].
  set (N := vneed ct (VObj c ov attrs)) in *.
  assert (R : forall m, (N <= m)%nat -> fst (obj_pack_step ct (pack hb ct m) c ov attrs k w) <> Err RecursionError).
  { intros m Lm. apply (mnr_obj ct CO (pack hb ct m) m); [|unfold N in Lm; lia].
    intros s' k' vs' H' C'. now apply pack_no_rec. }
  split; [now apply R|].
  destruct (obj_pack_mle ct (pack hb ct N) (pack hb ct n) (fun s k vs => pack_mle hb ct N n s k vs L) c ov attrs k w) as [E|E].
  - exfalso. exact (R N (le_n _) E).
  - congruence.
Qed.
Print Assumptions C09_pack_any_depth.

(** ** and what was packed is read back, with any limit that is at least as large *)
Theorem C09_round_trip_any_depth : forall hb ct allow NC n m c d w w',
  healthy ct allow -> reads_back hb ct UBuf NC -> callables_ok ct ->
  (vneed ct (VObj c None d) <= n)%nat -> (n <= m)%nat ->
  canonical hb ct allow UBuf n (VObj c None d) -> conforms hb ct allow n (VObj c None d) ->
  match fst (Structured_pack hb ct m (VObj c None d) w) with
  | Ok b => fst (create_unpack hb ct m c b w') = Ok (VObj c None d)
  | Err e => e <> RecursionError
  end.
Proof.
  intros hb ct allow NC n m c d w w' H RB CO D L CN CF.
  assert (R : fst (Structured_pack hb ct n (VObj c None d) w) <> Err RecursionError).
  { apply (mnr_obj ct CO (pack hb ct n) n); [|lia]. intros s' k' vs' H' C'. now apply pack_no_rec. }
  pose proof (C09_limit_pack hb ct n m (VObj c None d) KPack w L R) as E.
  change (do_pack hb ct m (VObj c None d) KPack w) with (Structured_pack hb ct m (VObj c None d) w) in E.
  change (do_pack hb ct n (VObj c None d) KPack w) with (Structured_pack hb ct n (VObj c None d) w) in E.
  rewrite E. destruct (fst (Structured_pack hb ct n (VObj c None d) w)) as [b|e] eqn:P; [|congruence].
  exact (C01_round_trip hb ct allow NC n m c d w w' b H RB CN CF L P).
Qed.
Print Assumptions C09_round_trip_any_depth.

(** ** the hypotheses are met, and more: complete binary trees of every depth *)
Fixpoint bt_attrs (k : nat) : list (string * value) :=
  [ ("kind", VInt 0); ("name", VStr [65]); ("opt", VInt 7); ("payload", VInt 513); ("pts", VList []);
    ("kids", VList (match k with O => [] | S k' => [VObj 1 None (bt_attrs k'); VObj 1 None (bt_attrs k')] end));
    ("pair", VTuple [VInt (-1); VInt 2]) ].
Definition btree (k : nat) : value := VObj 1 None (bt_attrs k).
Lemma table_calls : callables_ok table.
Proof.
  intros c cd E. do 6 (destruct c as [|c]; [injection E as <-; cbn; repeat split; intros a;
    first [ unfold fld_is, fld2, fld; destruct (assoc _ _) as [v|]; cbn; try discriminate; destruct v; try discriminate;
            destruct (assoc _ _); discriminate
          | induction a as [|x a IH]; cbn; [discriminate|]; destruct (_ && _); [now apply nre_rmap|discriminate]] |]). discriminate.
Qed.
Lemma btree_canon : forall md k n, canonical false table Nat.eqb md (3 * k + (4 + n)) (btree k).
Proof.
  intros md k n. induction k as [|k IH].
  - exact (leaf_canon table eq_refl md n).
  - replace (3 * S k + (4 + n))%nat with (S (S (S (3 * k + (4 + n))))) by lia.
    unfold canonical, btree. cbn [bt_attrs]. c_obj Node.
    c_field. { vm_compute. reflexivity. }
    c_field. { c_open. do 4 eexists. repeat split; try reflexivity. cbn. eauto. }
    c_field. { reflexivity. }
    c_field. { c_open. do 3 eexists. do 4 (split; [reflexivity|]). c_in. vm_compute. reflexivity. }
    c_field. { c_open. eexists. split; [reflexivity|]. c_in. constructor. }
    c_field. { c_open. eexists. split; [reflexivity|]. c_in.
      assert (L : forall pc uc, canon false table Nat.eqb md (S (3 * k + (4 + n))) (SStructd 18 1) pc uc [btree k]).
      { intros. cbn [canon canon_step]. eexists. split; [reflexivity|]. exact IH. }
      repeat constructor; try apply L. }
    c_field. { c_open. eexists. split; [reflexivity|]. c_in. vm_compute. reflexivity. }
    split; reflexivity.
Qed.

Lemma enc_1 : forall n s ctx vs, enc false table Nat.eqb (S n) s ctx vs = enc_step false table Nat.eqb (enc false table Nat.eqb n) s ctx vs.
Proof. reflexivity. Qed.
Lemma btree_enc : forall k n, exists b, enc_obj false table Nat.eqb (3 * k + (4 + n)) (btree k) = Ok b.
Proof.
  intros k n. induction k as [|k [b IH]].
  - eexists. vm_compute. reflexivity.
  - replace (3 * S k + (4 + n))%nat with (S (S (S (3 * k + (4 + n))))) by lia. set (m := (3 * k + (4 + n))%nat) in *.
    unfold btree. cbn [enc_obj]. unfold enc_obj_step. cbn [table obj_ser c_ser Node c_attrs resolve existsb needs_pre orb rbind].
    change (get_attrs _ (bt_attrs (S k))) with (Ok (map snd (bt_attrs (S k)))). cbn [rbind]. rewrite enc_1. cbn [enc_step].
    set (o := PO 1 false (bt_attrs (S k))).
    assert (K : enc false table Nat.eqb (S (S m)) (SArray 17 (Some sU8) (SSelf 18) (-1)) o [VList [btree k; btree k]]
                = Ok ([x02] ++ b ++ b)).
    { rewrite enc_1. cbn [enc_step resolve self_class p_cls o rbind nth0 py_iter enc_items]. rewrite enc_1.
      cbn [enc_step one rbind btree Nat.eqb]. change (enc_obj_step table (enc false table Nat.eqb m) 1 None (bt_attrs k))
        with (enc_obj false table Nat.eqb m (btree k)). rewrite IH. cbn [rbind]. rewrite app_nil_r. reflexivity. }
    assert (P : enc false table Nat.eqb (S (S m)) (SArray 15 (Some (SS BO_DEFAULT [T None CB; T None CH] None)) (SStructd 16 0) (-1)) o [VList []]
                = Ok [x00; x00; x00; x00]) by reflexivity.
    cbn [bt_attrs map snd enc_subs oresolve octx resolve rbind num_values].
    change (ss_nvals sU8) with 1%nat. cbn [firstn skipn].
    do 2 (match goal with |- context [enc false table Nat.eqb (S (S m)) ?s o ?v] =>
      let r := eval vm_compute in (enc false table Nat.eqb (S (S 5)) s o v) in
      change (enc false table Nat.eqb (S (S m)) s o v) with r end; cbn [rbind]).
    change (fld_is "kind" 1 o) with (Ok (VBool false)). cbn [rbind cond_branch key_eqb as_index Z.eqb Pos.eqb].
    eexists.
    match goal with |- context [SSkip ?d] => change (enc false table Nat.eqb (S (S m)) (SSkip d) o _) with (@Ok bytes []) end.
    cbn [rbind num_values List.length firstn skipn].
    match goal with |- context [enc false table Nat.eqb (S (S m)) (SLookback ?i ?f ?mm ?dd) o ?v] =>
      change (enc false table Nat.eqb (S (S m)) (SLookback i f mm dd) o v) with (@Ok bytes [x01; x02]) end.
    cbn [rbind num_values List.length firstn skipn]. rewrite P. cbn [rbind num_values List.length firstn skipn].
    change (VObj 1 None (bt_attrs k)) with (btree k). rewrite K. cbn [rbind num_values List.length firstn skipn].
    match goal with |- context [enc false table Nat.eqb (S (S m)) (STuple ?i ?f) o ?v] =>
      change (enc false table Nat.eqb (S (S m)) (STuple i f) o v) with (@Ok bytes [xff; x00; x02; x00]) end.
    reflexivity.
Qed.
(** binary trees of every depth [k] pack, and are read back *)
Theorem C09_binary_trees : forall k w w', exists N, forall m, (N <= m)%nat -> exists b,
  fst (Structured_pack false table m (btree k) w) = Ok b /\ fst (create_unpack false table m 1 b w') = Ok (btree k).
Proof.
  intros k w w'. exists (3 * k + 4)%nat. intros m L.
  destruct (btree_enc k 0) as [b E]. replace (3 * k + (4 + 0))%nat with (3 * k + 4)%nat in E by lia.
  assert (CF : conforms false table Nat.eqb (3 * k + 4) (btree k)) by (unfold conforms; congruence).
  exists b. assert (P : fst (Structured_pack false table (3 * k + 4) (btree k) w) = Ok b).
  { assert (NR : false = true -> no_rest table) by discriminate.
    pose proof (user_pack false table Nat.eqb false _ (btree k) KPack w table_healthy NR CF I) as [A _].
    rewrite E in A. exact A. }
  split.
  - rewrite <- P. f_equal. apply (C09_limit_pack false table _ m (btree k) KPack w L).
    change (fst (Structured_pack false table (3 * k + 4) (btree k) w) <> Err RecursionError). congruence.
  - eapply (C01_round_trip false table Nat.eqb NCt (3 * k + 4) m 1); eauto.
    + apply table_healthy.
    + split; [apply table_hu|apply table_readable].
    + pose proof (btree_canon UBuf k 0) as C. now replace (3 * k + (4 + 0))%nat with (3 * k + 4)%nat in C by lia.
Qed.
Print Assumptions C09_binary_trees.
Example C09_nontrivial : healthy table Nat.eqb /\ reads_back false table UBuf NCt /\ callables_ok table /\
  (vneed table (btree 3) <= 20)%nat /\ canonical false table Nat.eqb UBuf 20 (btree 3) /\ conforms false table Nat.eqb 20 (btree 3) /\
  fst (Structured_pack false table 8 (btree 3) dirty) = Err RecursionError /\
  is_ok (fst (Structured_pack false table 20 (btree 3) dirty)) = true.
Proof.
  split; [apply table_healthy|]. split; [split; [apply table_hu|apply table_readable]|]. split; [apply table_calls|].
  split; [vm_compute; lia|]. split; [apply (btree_canon UBuf 3 7)|]. split; [unfold conforms; vm_compute; congruence|].
  split; vm_compute; reflexivity.
Qed.
