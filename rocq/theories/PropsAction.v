(** Property C30: custom types (SerializeAs). *)
From Verif Require Import Base Floats Value StructMod Format Ser Exec Pure BaseFacts StructFacts FormatFacts
  SerFacts RefPack RefUnpack Leaf Wire RoundTrip PropsStruct PropsStrings.

(** the serializer without its actions *)
Definition plain (st : sspec) : sspec := SS (s_bo st) (s_fmt st) None.
(** every value is passed to the action in its own position *)
Inductive acted : list action -> list value -> list value -> Prop :=
| acted_nil : acted [] [] []
| acted_cons : forall a acts v vs u us, a v = Ok u -> acted acts vs us -> acted (a :: acts) (v :: vs) (u :: us).
(** the first action that raises *)
Inductive acts_raise : list action -> list value -> exn -> Prop :=
| raise_here : forall a acts v vs e, a v = Err e -> acts_raise (a :: acts) (v :: vs) e
| raise_later : forall a acts v vs u e, a v = Ok u -> acts_raise acts vs e -> acts_raise (a :: acts) (v :: vs) e.

Lemma acted_apply : forall acts vs us, acted acts vs us -> apply_actions acts vs = Ok us.
Proof. induction 1; cbn; [reflexivity|]. now rewrite H, IHacted. Qed.
Lemma raise_apply : forall acts vs e, acts_raise acts vs e -> apply_actions acts vs = Err e.
Proof. induction 1; cbn; rewrite H; [reflexivity|]. cbn. now rewrite IHacts_raise. Qed.
Lemma acted_app : forall a v u a' v' u', acted a v u -> acted a' v' u' -> acted (a ++ a') (v ++ v') (u ++ u').
Proof. induction 1; intros; cbn; [assumption|]. constructor; auto. Qed.
Lemma acted_noop : forall vs, acted (repeat noop_action (List.length vs)) vs vs.
Proof. induction vs; cbn; constructor; auto. Qed.
Lemma acted_length : forall a v u, acted a v u -> List.length a = List.length v.
Proof. induction 1; cbn; lia. Qed.

(** a custom type packs exactly as its basic type *)
Theorem C30_pack : forall hb ct n st k vs w,
  pack hb ct (S n) (SStruct st) k vs w = pack hb ct (S n) (SStruct (plain st)) k vs w.
Proof. reflexivity. Qed.
Print Assumptions C30_pack.

(** ... and unpacks to action(value) *)
Theorem C30_unpack : forall hb ct n st acts s w vs us z, s_act st = Some acts -> acted acts vs us ->
  reads hb ct (S n) (SStruct (plain st)) s w vs z -> reads hb ct (S n) (SStruct st) s w us z.
Proof.
  intros hb ct n st acts s w vs us z A H R. unfold reads in *. cbv zeta in *.
  cbn [unpack unpack_step take_struct] in *. unfold take_struct, bind, lift in *.
  change (ss_mode hb (plain st)) with (ss_mode hb st) in R. change (ss_size hb (plain st)) with (ss_size hb st) in R.
  cbn [plain s_fmt ss_act s_act get_size] in *. unfold ss_act. rewrite A.
  match goal with |- context [match ?m w with _ => _ end] => destruct (m w) as [[x|e] w'] end.
  - cbn [fst snd] in *. destruct R as (R1 & R2). injection R1 as ->. rewrite (acted_apply _ _ _ H). auto.
  - cbn in R. now destruct R.
Qed.
Print Assumptions C30_unpack.
Theorem C30_action_error : forall hb ct n st acts s w vs e z, s_act st = Some acts -> acts_raise acts vs e ->
  reads hb ct (S n) (SStruct (plain st)) s w vs z -> rejects hb ct (S n) (SStruct st) s w e.
Proof.
  intros hb ct n st acts s w vs e z A H R. unfold reads, rejects in *. cbv zeta in *.
  cbn [unpack unpack_step take_struct] in *. unfold take_struct, bind, lift in *.
  change (ss_mode hb (plain st)) with (ss_mode hb st) in R. change (ss_size hb (plain st)) with (ss_size hb st) in R.
  cbn [plain s_fmt ss_act s_act get_size] in *. unfold ss_act. rewrite A.
  match goal with |- context [match ?m w with _ => _ end] => destruct (m w) as [[x|e'] w'] end.
  - cbn [fst snd] in *. destruct R as (R1 & R2). injection R1 as ->. now rewrite (raise_apply _ _ _ H).
  - cbn in R. now destruct R.
Qed.
Print Assumptions C30_action_error.

(** ** SerializeAs and sums of fields *)
(** serialize_as.py:20-29: one value is required; 31-43 [with_factory] / base type as the action *)
Definition serialize_as (st : sspec) (act : action) : res sspec :=
  if Nat.eqb (ss_nvals st) 1 then Ok (mk_action (s_bo st) (s_fmt st) [act]) else Err TypeError.

Lemma serialize_as_ok : forall st act s, serialize_as st act = Ok s ->
  s_act s = Some [act] /\ s_fmt s = s_fmt st /\ s_bo s = s_bo st /\ ss_wf s = true.
Proof.
  intros st act s H. unfold serialize_as in H. destruct (Nat.eqb (ss_nvals st) 1) eqn:N; [|discriminate].
  injection H as <-. apply Nat.eqb_eq in N. unfold ss_nvals in N. rewrite mk_action_exact by now rewrite N.
  cbn. unfold ss_wf, ss_nvals. cbn. now rewrite N.
Qed.

(** left to right sum of struct serializers (structured.py:402-404 for neighbouring basic fields) *)
Fixpoint ss_sum (acc : sspec) (l : list sspec) : res sspec :=
  match l with [] => Ok acc | s :: l' => rdo a <- ss_add acc s; ss_sum a l' end.

(** one specifier, as every type hint makes *)
Definition basic (s : sspec) : bool := ss_wf s && Nat.leb (List.length (s_fmt s)) 1.

Lemma foldable_basic : forall f g, (List.length g <= 1)%nat -> foldable f g = true.
Proof. intros f g H. unfold foldable. destruct g as [|t [|? ?]]; [reflexivity|reflexivity|cbn in H; lia]. Qed.

Lemma ss_add_wf : forall a b s, ss_wf a = true -> ss_wf b = true -> foldable (s_fmt a) (s_fmt b) = true ->
  ss_add a b = Ok s -> ss_wf s = true /\ acts_of s = acts_of a ++ acts_of b /\
  layout_eq (expand (s_fmt s)) (expand (s_fmt a ++ s_fmt b)) /\ s_bo s = s_bo a.
Proof.
  intros a b s WA WB F H. destruct (add_acts a b s WA WB F H) as (W & N & C). split; [exact W|]. split; [|split].
  - destruct C as [(E1 & E2 & E3)|C]; [|exact C]. unfold acts_of. rewrite E1, E2, E3, N. apply repeat_app.
  - replace (s_fmt s) with (fold_overlaps false (s_fmt a) (s_fmt b)); [now apply fold_layout|].
    unfold ss_add in H. destruct (s_act a), (s_act b); try (now injection H as <-).
    destruct (border_eqb _ _); [|discriminate]. now injection H as <-.
  - unfold ss_add in H. destruct (s_act a), (s_act b); try (now injection H as <-).
    destruct (border_eqb _ _); [|discriminate]. now injection H as <-.
Qed.

Lemma ss_sum_spec : forall l acc s, ss_wf acc = true -> forallb basic l = true -> ss_sum acc l = Ok s ->
  ss_wf s = true /\ acts_of s = acts_of acc ++ concat (map acts_of l) /\
  layout_eq (expand (s_fmt s)) (expand (s_fmt acc ++ concat (map s_fmt l))) /\ s_bo s = s_bo acc.
Proof.
  induction l as [|b l IH]; intros acc s W B H.
  - injection H as <-. cbn. rewrite !app_nil_r. repeat split; auto; apply layout_eq_refl.
  - cbn [ss_sum] in H. destruct (ss_add acc b) as [a|] eqn:A; [|discriminate]. cbn [rbind] in H.
    cbn [forallb] in B. apply andb_prop in B as [B1 B2]. unfold basic in B1. apply andb_prop in B1 as [WB LB].
    apply Nat.leb_le in LB.
    destruct (ss_add_wf acc b a W WB (foldable_basic _ _ LB) A) as (WA & AA & LA & OA).
    destruct (IH a s WA B2 H) as (WS & AS & LS & OS). split; [exact WS|]. split; [|split].
    + rewrite AS, AA. cbn. now rewrite app_assoc.
    + eapply layout_eq_trans; [exact LS|]. cbn [map concat]. rewrite app_assoc, !expand_app.
      apply layout_eq_app_r. rewrite <- expand_app. exact LA.
    + congruence.
Qed.

(** the plain concatenation of the formats of some fields *)
Definition fields_fmt (bo : border) (l : list sspec) : sspec := SS bo (concat (map s_fmt l)) None.

(** C30: the joined serializer of any number of neighbouring custom or plain basic fields packs as the
    plain formats one after the other, and passes each unpacked value to the action of its own field
    ([acts_of] of a plain field is the identity) *)
Theorem C30_join_pack : forall hb ct n f l s, forallb basic (f :: l) = true -> ss_sum f l = Ok s ->
  forall k vs w, pack hb ct (S n) (SStruct s) k vs w
                 = pack hb ct (S n) (SStruct (fields_fmt (s_bo f) (f :: l))) k vs w.
Proof.
  intros hb ct n f l s B H k vs w. cbn [forallb] in B. apply andb_prop in B as [B1 B2].
  unfold basic in B1. apply andb_prop in B1 as [W _].
  destruct (ss_sum_spec l f s W B2 H) as (WS & _ & L & O).
  apply layout_st in L as (_ & L). specialize (L (mode_of hb (s_bo f))) as (_ & P & _ & _ & PI).
  cbn [pack pack_step]. unfold put_struct. unfold ss_mode. cbn [fields_fmt s_bo s_fmt map concat]. rewrite O.
  destruct k; cbn; rewrite ?P, ?PI; reflexivity.
Qed.
Print Assumptions C30_join_pack.

Theorem C30_join_unpack : forall hb ct n f l s, forallb basic (f :: l) = true -> ss_sum f l = Ok s ->
  forall src w vs us z, reads hb ct (S n) (SStruct (fields_fmt (s_bo f) (f :: l))) src w vs z ->
    acted (concat (map acts_of (f :: l))) vs us ->
    reads hb ct (S n) (SStruct s) src w us z.
Proof.
  intros hb ct n f l s B H src w vs us z R A. cbn [forallb] in B. apply andb_prop in B as [B1 B2].
  unfold basic in B1. apply andb_prop in B1 as [W _].
  destruct (ss_sum_spec l f s W B2 H) as (WS & AS & L & O).
  apply layout_st in L as (LN & L). specialize (L (mode_of hb (s_bo f))) as (SZ & _ & U & UF & _).
  assert (RP : reads hb ct (S n) (SStruct (plain s)) src w vs z).
  { revert R. unfold reads. cbv zeta. cbn [unpack unpack_step]. unfold take_struct, ss_mode, ss_size.
    cbn [plain fields_fmt s_bo s_fmt map concat get_size]. unfold ss_size, ss_mode. rewrite O.
    unfold ss_act. cbn [s_act s_bo s_fmt plain fields_fmt].
    change (s_fmt f ++ concat (map s_fmt l)) with (concat (map s_fmt (f :: l))) in *. rewrite O.
    destruct src; unfold bind, lift; rewrite ?SZ, ?UF, ?U; auto.
    destruct (io_read _ w) as [[x|e] w']; cbn; rewrite ?U; auto. }
  destruct (s_act s) as [acts|] eqn:SA.
  - eapply C30_unpack; [exact SA| |exact RP]. unfold acts_of in AS at 1. rewrite SA in AS. cbn [map concat] in A. congruence.
  - assert (s = plain s) as -> by (destruct s; cbn in *; now subst).
    replace us with vs; [exact RP|]. unfold acts_of in AS at 1. rewrite SA in AS. cbn [map concat] in A.
    rewrite <- AS in A. pose proof (acted_length _ _ _ A) as LA. rewrite repeat_length in LA.
    apply acted_apply in A. rewrite apply_noop in A by lia. now injection A.
Qed.
Print Assumptions C30_join_unpack.

(** repetition: [st * n] applies each action n times, round by round *)
Theorem C30_repeat : forall hb ct k st acts n, s_act st = Some acts -> repeatable (s_fmt st) = true -> 1 <= n ->
  exists r, ss_mul st n = Ok (Some r) /\
  (forall snk vs w, pack hb ct (S k) (SStruct r) snk vs w
     = pack hb ct (S k) (SStruct (SS (s_bo st) (repeat_fmt (s_fmt st) (Z.to_nat n)) None)) snk vs w) /\
  (forall src w vs us z,
     reads hb ct (S k) (SStruct (SS (s_bo st) (repeat_fmt (s_fmt st) (Z.to_nat n)) None)) src w vs z ->
     acted (concat (repeat acts (Z.to_nat n))) vs us -> reads hb ct (S k) (SStruct r) src w us z).
Proof.
  intros hb ct k [bo f oa] acts n A R N. cbn in A. subst oa. cbn [s_fmt s_bo] in *.
  destruct (mul_action_layout bo f acts n R N) as (g & E & L). eexists. split; [exact E|].
  apply layout_st in L as (LN & L). specialize (L (mode_of hb bo)) as (SZ & P & U & UF & PI). split.
  - intros snk vs w. cbn [pack pack_step]. unfold put_struct, ss_mode. cbn [s_bo s_fmt].
    destruct snk; rewrite ?P, ?PI; reflexivity.
  - intros src w vs us z RD AC. eapply C30_unpack; [reflexivity|exact AC|].
    revert RD. unfold reads. cbv zeta. cbn [unpack unpack_step]. unfold take_struct, ss_mode, ss_size.
    cbn [plain s_bo s_fmt get_size]. unfold ss_size, ss_mode, ss_act. cbn [s_act s_bo s_fmt plain].
    destruct src; unfold bind, lift; rewrite ?SZ, ?UF, ?U; auto.
    destruct (io_read _ w) as [[x|e] w']; cbn; rewrite ?U; auto.
Qed.
Print Assumptions C30_repeat.

(** changing the byte order changes the format only *)
Theorem C30_with_byte_order : forall bo st s act, serialize_as st act = Ok s ->
  with_bo bo (SStruct s) = SStruct (mk_action bo (s_fmt st) [act]) /\
  serialize_as (ss_with_bo bo st) act = Ok (ss_with_bo bo s).
Proof.
  intros bo st s act H. unfold serialize_as in *. unfold ss_nvals in *. cbn [ss_with_bo s_fmt s_bo].
  destruct (Nat.eqb (nvals (s_fmt st)) 1); [|discriminate]. injection H as <-. split; reflexivity.
Qed.
Print Assumptions C30_with_byte_order.

(** a custom type needs a basic type with exactly one value *)
Theorem C30_one_value : forall st act, ss_nvals st <> 1%nat -> serialize_as st act = Err TypeError.
Proof. intros st act H. unfold serialize_as. apply Nat.eqb_neq in H. now rewrite H. Qed.
Print Assumptions C30_one_value.

Definition incr : action := fun v => match v with VInt z => Ok (VInt (z + 1)) | _ => Err TypeError end.
(** uint8, Annotated[.., SerializeAs(uint8)], int16 *)
Example C30_nontrivial : exists a s, serialize_as (SS BO_LE [T None CB] None) incr = Ok a /\
  forallb basic [SS BO_LE [T None CB] None; a; SS BO_LE [T None Ch] None] = true /\
  ss_sum (SS BO_LE [T None CB] None) [a; SS BO_LE [T None Ch] None] = Ok s /\
  s_fmt s = [T (Some 2%nat) CB; T None Ch] /\
  reads false no_classes 1 (SStruct s) (SBuf [x05; x05; x01; x00]) cloud0 [VInt 5; VInt 6; VInt 1] 4.
Proof.
  do 2 eexists. split; [reflexivity|]. split; [reflexivity|]. split; [reflexivity|]. split; [reflexivity|].
  repeat split; reflexivity.
Qed.

(** C30 is false for [@]: the actions are lost *)
Theorem C30_matmul_refuted : forall act, exists st s, serialize_as single_char act = Ok st /\
  ss_matmul st 4 = Ok (Some s) /\ (forall vs, List.length vs = 1%nat -> ss_act s vs = Ok vs).
Proof.
  intros act. do 2 eexists. split; [reflexivity|]. split; [reflexivity|].
  intros [|v [|? ?]] L; try discriminate. reflexivity.
Qed.
Print Assumptions C30_matmul_refuted.
(** the byte order check of C10 is skipped when a custom type is involved: '<H' + '>H' is '<2H' *)
Theorem C30_join_byte_order_refuted : forall act, exists a s,
  serialize_as (SS BO_BE [T None CH] None) act = Ok a /\
  ss_add (SS BO_LE [T None CH] None) a = Ok s /\ s_bo s = BO_LE /\ s_fmt s = [T (Some 2%nat) CH].
Proof. intros act. do 2 eexists. repeat split; reflexivity. Qed.
Print Assumptions C30_join_byte_order_refuted.
