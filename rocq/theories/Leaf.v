(** The simple serializers (no partial object, no nested class) behave the same in every class table, so
    the refinement theorems hold for them without any assumption on the classes. *)
From Verif Require Import Base Floats Value StructMod Format Ser Exec Pure BaseFacts StructFacts FormatFacts
  SerFacts RefPack RefUnpack.

Definition no_classes : nat -> option cdef := fun _ => None.
Definition no_sets : nat -> nat -> bool := fun _ _ => false.

Lemma no_classes_ok : forall allow, classes_ok no_classes allow no_sets.
Proof. intros allow. split; [discriminate|]. intros. split; [reflexivity|discriminate]. Qed.

Section Leaf.
Variable hb : bool.
Variable ct : nat -> option cdef.

Lemma leaf_pack_ct : forall n s k vs w, leaf s = true -> pack hb ct n s k vs w = pack hb no_classes n s k vs w.
Proof.
  induction n; intros s k vs w L; [reflexivity|]. cbn [pack].
  destruct s; try discriminate L; cbn [pack_step]; try reflexivity.
  unfold bind, lift. destruct (nth0 vs) as [[]|]; try reflexivity.
  destruct (cod_enc cd s0); [|reflexivity]. now apply IHn.
Qed.
Lemma leaf_unpack_ct : forall n x s w, leaf x = true -> unpack hb ct n x s w = unpack hb no_classes n x s w.
Proof.
  induction n; intros x s w L; [reflexivity|]. cbn [unpack].
  destruct x; try discriminate L; cbn [unpack_step]; try reflexivity.
  unfold bind. now rewrite (IHn x s w L).
Qed.
Lemma leaf_hc : forall c s T, leaf s = true -> hc no_classes T c s = true.
Proof. intros c s T L. destruct s; try discriminate L; try reflexivity. exact L. Qed.
Lemma leaf_ready : forall s w ctx, leaf s = true -> ready w s ctx.
Proof. intros s w ctx L. destruct s; try discriminate L; exact I. Qed.

Definition lenc (n : nat) (s : ser) (vs : list value) : res bytes :=
  enc hb no_classes Nat.eqb n s (PO 0 true []) vs.
Definition ldec (md : umode) (n : nat) (x : ser) (b : bytes) : res (list value * Z) :=
  dec hb no_classes md n x (PO 0 true []) b.

Lemma leaf_pack : forall n s k vs w, leaf s = true -> lenc n s vs <> Err Unspecified -> kok k w ->
  io_spec (nocons s) (lenc n s vs) k w (fst (pack hb ct n s k vs w)) (snd (pack hb ct n s k vs w)) /\
  (forall a b, fst (pack hb ct n s k vs w) = Ok a -> lenc n s vs = Ok b ->
     szof hb s (snd (pack hb ct n s k vs w)) = Ok (blen b)).
Proof.
  intros n s k vs w L U K. rewrite leaf_pack_ct by exact L.
  assert (NC : nocons s = true -> classes_nocons no_classes) by (intros _ c cd; discriminate).
  destruct (pack_refines hb no_classes Nat.eqb no_sets (nocons s) (no_classes_ok _) NC n 0%nat s k vs w (PO 0 true [])
              (leaf_hc _ _ _ L) (fun H => H) eq_refl (leaf_ready _ _ _ L) K U) as (A & _ & B).
  split; assumption.
Qed.
Lemma leaf_unpack : forall n x s w, leaf x = true -> hu (md_of s) x = true -> srcok s w ->
  let out := unpack hb ct n x s w in
  let r := ldec (md_of s) n x (suffix s w) in
  fst out = rmap fst r /\ w_buf (snd out) = w_buf w /\ w_data (snd out) = w_data w /\
  pos_spec s w (snd out) (rmap snd r) /\ (forall k, rmap snd r = Ok k -> szof hb x (snd out) = Ok k).
Proof.
  intros n x s w L U K. cbv zeta. rewrite leaf_unpack_ct by exact L.
  assert (HU : classes_hu no_classes (md_of s)) by (intros c cd; discriminate).
  destruct (unpack_refines hb no_classes Nat.eqb no_sets (no_classes_ok _) (md_of s) HU n) as [R _].
  destruct (R 0%nat x s w (PO 0 true []) (leaf_hc _ _ _ L) U eq_refl eq_refl (leaf_ready _ _ _ L) K)
    as (A & B & C & _ & P & Z).
  auto.
Qed.
End Leaf.
