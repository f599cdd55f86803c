(** Structural facts about serializers: induction principle, what [with_byte_order] preserves. *)
From Verif Require Import Base Floats Value StructMod Format Ser Exec Pure BaseFacts.

Section SerInd.
Variable P : ser -> Prop.
Hypothesis Hnull : P SNull.
Hypothesis Hstruct : forall st, P (SStruct st).
Hypothesis Hskip : forall v, P (SSkip v).
Hypothesis Hdc : forall i st, P (SDynChar i st).
Hypothesis Hco : forall i, P (SConsume i).
Hypothesis Hte : forall i t, P (STerm i t).
Hypothesis Hne : forall i, P (SNet i).
Hypothesis Hun : forall x cd, P x -> P (SUnicode x cd).
Hypothesis Hsa : forall n st, P (SStaticArr n st).
Hypothesis Hda : forall i c st, P (SDynArr i c st).
Hypothesis Har : forall i h x st, P x -> P (SArray i h x st).
Hypothesis Htu : forall i x, P x -> P (STuple i x).
Hypothesis Hcd : forall f x d, P x -> P (SCond f x d).
Hypothesis Hlb : forall i f m d, Forall (fun p => P (snd p)) m -> (forall x, d = Some x -> P x) -> P (SLookback i f m d).
Hypothesis Hla : forall i ra f m d, P ra -> Forall (fun p => P (snd p)) m -> (forall x, d = Some x -> P x) ->
  P (SLookahead i ra f m d).
Hypothesis Hst : forall i c, P (SStructd i c).
Hypothesis Hse : forall i, P (SSelf i).
Hypothesis Hcp : forall i l, Forall P l -> P (SCompound i l).
Hypothesis Hsp : forall i l o, Forall P l -> P (SSpec i l o).

Fixpoint ser_ind' (s : ser) : P s :=
  let fix go l : Forall P l :=
    match l with [] => Forall_nil _ | x :: l' => Forall_cons x (ser_ind' x) (go l') end in
  let fix gom (l : list (value * ser)) : Forall (fun p => P (snd p)) l :=
    match l with [] => Forall_nil _ | x :: l' => Forall_cons x (ser_ind' (snd x)) (gom l') end in
  let god (d : option ser) : forall x, d = Some x -> P x :=
    match d return forall x, d = Some x -> P x with
    | Some y => fun x E => match E in _ = o return match o with Some x => P x | None => True end with
                           | eq_refl => ser_ind' y end
    | None => fun x E => match E in _ = o return match o with Some _ => P x | None => True end with
                         | eq_refl => I end
    end in
  match s with
  | SNull => Hnull
  | SStruct st => Hstruct st
  | SSkip v => Hskip v
  | SDynChar i st => Hdc i st
  | SConsume i => Hco i
  | STerm i t => Hte i t
  | SNet i => Hne i
  | SUnicode x cd => Hun x cd (ser_ind' x)
  | SStaticArr n st => Hsa n st
  | SDynArr i c st => Hda i c st
  | SArray i h x st => Har i h x st (ser_ind' x)
  | STuple i x => Htu i x (ser_ind' x)
  | SCond f x d => Hcd f x d (ser_ind' x)
  | SLookback i f m d => Hlb i f m d (gom m) (god d)
  | SLookahead i ra f m d => Hla i ra f m d (ser_ind' ra) (gom m) (god d)
  | SStructd i c => Hst i c
  | SSelf i => Hse i
  | SCompound i l => Hcp i l (go l)
  | SSpec i l o => Hsp i l o (go l)
  end.
End SerInd.

Lemma existsb_map : forall {A B} (f : A -> B) p l, existsb p (map f l) = existsb (fun x => p (f x)) l.
Proof. induction l; cbn; congruence. Qed.
Lemma forallb_map : forall {A B} (f : A -> B) p l, forallb p (map f l) = forallb (fun x => p (f x)) l.
Proof. induction l; cbn; congruence. Qed.
Lemma existsb_ext_F : forall {A} (p q : A -> bool) l, Forall (fun x => p x = q x) l -> existsb p l = existsb q l.
Proof. induction 1; cbn; congruence. Qed.
Lemma forallb_ext_F : forall {A} (p q : A -> bool) l, Forall (fun x => p x = q x) l -> forallb p l = forallb q l.
Proof. induction 1; cbn; congruence. Qed.

Section WithBo.
Variable bo : border.

Lemma wb_own : forall s, own (with_bo bo s) = own s.
Proof. destruct s; reflexivity. Qed.
Lemma wb_owns : forall s id, owns (with_bo bo s) id = owns s id.
Proof. intros. unfold owns. now rewrite wb_own. Qed.
Lemma wb_needs_pre : forall s, needs_pre (with_bo bo s) = needs_pre s.
Proof. destruct s; reflexivity. Qed.
Lemma wb_is_compound : forall s, is_compound (with_bo bo s) = is_compound s.
Proof. destruct s; reflexivity. Qed.
Lemma wb_leaf : forall s, leaf (with_bo bo s) = leaf s.
Proof. destruct s; reflexivity. Qed.
Lemma wb_sized : forall s, sized (with_bo bo s) = sized s.
Proof. destruct s; reflexivity. Qed.
Lemma wb_nvals : forall s, num_values (with_bo bo s) = num_values s.
Proof.
  induction s using ser_ind'; cbn; try reflexivity; try assumption;
    (induction H; cbn; [reflexivity | congruence]).
Qed.
Lemma wb_sets : forall T c s id, sets T c (with_bo bo s) id = sets T c s id.
Proof.
  intros T c s id; revert s. induction s using ser_ind'; cbn; try reflexivity; try assumption.
  - now rewrite wb_owns, IHs.
  - rewrite existsb_map. apply existsb_ext_F. eapply Forall_impl; [|exact H].
    intros a E. cbn in E. now rewrite wb_owns, E.
  - rewrite existsb_map. apply existsb_ext_F. eapply Forall_impl; [|exact H].
    intros a E. cbn in E. now rewrite wb_owns, E.
Qed.
Lemma wb_hc : forall ct T c s, hc ct T c s = true -> hc ct T c (with_bo bo s) = true.
Proof.
  intros ct T c. induction s using ser_ind'; cbn; intros E; try reflexivity; try assumption.
  - apply andb_prop in E as [A B]. rewrite IHs, wb_own by assumption. cbn.
    destruct (own s); [|reflexivity]. now rewrite wb_sets.
  - apply andb_prop in E as [A B]. rewrite IHs, wb_needs_pre by assumption. assumption.
  - rewrite forallb_map. rewrite forallb_forall in *. rewrite Forall_forall in H. auto.
  - apply andb_prop in E as [_ E].
    rewrite forallb_map. rewrite forallb_forall in *. rewrite Forall_forall in H. auto.
Qed.
Lemma wb_nocons : forall s, nocons (with_bo bo s) = nocons s.
Proof.
  induction s using ser_ind'; cbn; try reflexivity; try assumption;
    rewrite forallb_map; now apply forallb_ext_F.
Qed.
Lemma wb_hu : forall md s, hu md s = true -> hu md (with_bo bo s) = true.
Proof.
  intros md. induction s using ser_ind'; cbn; intros E; try reflexivity; try assumption; auto;
    rewrite forallb_map; rewrite forallb_forall in *; rewrite Forall_forall in H; auto.
Qed.
End WithBo.

(** leaves touch no stored object *)
Lemma leaf_sets : forall T c s id, leaf s = true -> sets T c s id = false.
Proof. induction s using ser_ind'; cbn; intros; try reflexivity; try discriminate; auto. Qed.
Lemma leaf_sized : forall s, leaf s = true -> sized s = true.
Proof. induction s using ser_ind'; cbn; intros; try reflexivity; try discriminate; auto. Qed.
Lemma leaf_hc : forall ct T c s, leaf s = true -> hc ct T c s = true.
Proof. induction s using ser_ind'; cbn; intros; try reflexivity; try discriminate; auto. Qed.
Lemma leaf_own : forall s, leaf s = true -> own s = None.
Proof. destruct s; cbn; congruence. Qed.
