(** Facts about the struct module model. *)
From Verif Require Import Base Floats Value StructMod BaseFacts.
From Coq Require Import ZifyBool ZifyNat.

Lemma zeros_length : forall n, List.length (zeros n) = n.
Proof. intros; apply repeat_length. Qed.

Lemma code_eqb_eq : forall a b, code_eqb a b = true <-> a = b.
Proof. intros a b; split; [destruct a, b; cbn; congruence | intros ->; destruct b; reflexivity]. Qed.

Lemma csize_pos : forall nt c, (0 < csize nt c)%nat.
Proof. intros [] []; cbn; lia. Qed.
Lemma calign_pos : forall nt c, (0 < calign nt c)%nat.
Proof. intros [] c; cbn; [apply csize_pos | lia]. Qed.
Lemma csize_align : forall nt c, (csize nt c mod calign nt c = 0)%nat.
Proof.
  intros [] c; unfold calign; [apply Nat.mod_same; pose proof (csize_pos true c); lia | apply Nat.mod_1_r].
Qed.

Lemma str_fit_length : forall n b, List.length (str_fit n b) = n.
Proof. intros. unfold str_fit. rewrite app_length, firstn_length, zeros_length. lia. Qed.
Lemma pas_pack_length : forall n b, List.length (pas_pack n b) = n.
Proof. intros [|n] b; cbn; [reflexivity | now rewrite str_fit_length]. Qed.

Lemma pack_val_length : forall m c v b, pack_val m c v = Ok b -> List.length b = csize (m_native m) c.
Proof.
  intros m c v b H. unfold pack_val in H.
  destruct (int_code c) eqn:I.
  - destruct (as_index v); [|discriminate]. destruct (in_range _ _ _); [|discriminate].
    injection H as <-. apply int_enc_length.
  - destruct c; try discriminate.
    + destruct v; try discriminate. destruct b0 as [|? [|]]; try discriminate. now injection H as <-.
    + now injection H as <-.
    + destruct (as_float v); [|discriminate]. destruct (narrow _ _ _); [|discriminate].
      injection H as <-. apply int_enc_length.
    + destruct (as_float v); [|discriminate]. destruct (narrow _ _ _).
      * injection H as <-. apply int_enc_length.
      * destruct (m_native m); [|discriminate]. injection H as <-. apply int_enc_length.
    + destruct (as_float v); [|discriminate]. injection H as <-. apply int_enc_length.
Qed.

Lemma pack_unit_length : forall m off u vs b vs', pack_unit m off u vs = Ok (b, vs') ->
  List.length b = usize m off u.
Proof.
  intros m off u vs b vs' H. destruct u; cbn in H.
  - injection H as <- <-. apply zeros_length.
  - injection H as <- <-. reflexivity.
  - destruct vs as [|[] ?]; try discriminate. injection H as <- <-. apply str_fit_length.
  - destruct vs as [|[] ?]; try discriminate. injection H as <- <-. apply pas_pack_length.
  - destruct vs; [discriminate|]. destruct (pack_val m c v) eqn:E; [|discriminate].
    cbn in H. injection H as <- <-. eapply pack_val_length; eauto.
Qed.

Lemma pack_u_length : forall m us off vs b, pack_u m off us vs = (b, None) ->
  List.length b = size_u m off us.
Proof.
  induction us; intros off vs b H; cbn in H.
  - now injection H as <-.
  - destruct (pack_unit m off a vs) as [[b1 vs1]|] eqn:E; [|discriminate].
    destruct (pack_u m (off + List.length b1) us vs1) as [bs e] eqn:E2.
    injection H as <- ->. rewrite app_length. cbn.
    pose proof (pack_unit_length _ _ _ _ _ _ E) as L. rewrite <- L.
    now rewrite (IHus _ _ _ E2).
Qed.

Lemma pack_u_le : forall m us off vs b e, pack_u m off us vs = (b, e) ->
  (List.length b <= size_u m off us)%nat.
Proof.
  induction us; intros off vs b e H; cbn in H.
  - injection H as <- <-. cbn. lia.
  - destruct (pack_unit m off a vs) as [[b1 vs1]|] eqn:E.
    + destruct (pack_u m (off + List.length b1) us vs1) as [bs e'] eqn:E2.
      injection H as <- ->. rewrite app_length. cbn.
      pose proof (pack_unit_length _ _ _ _ _ _ E) as L. rewrite <- L.
      apply IHus in E2. lia.
    + injection H as <- <-. cbn. lia.
Qed.

Lemma st_pack_length : forall m f vs b, st_pack m f vs = Ok b -> List.length b = calcsize m f.
Proof.
  intros m f vs b H. unfold st_pack in H. destruct (Nat.eqb _ _); [|discriminate].
  destruct (pack_u m 0 (expand f) vs) as [b' [e|]] eqn:E; [discriminate|].
  injection H as <-. apply pack_u_length in E. exact E.
Qed.

Lemma unpack_u_length : forall m us off b, List.length (unpack_u m off us b) = nvals_u us.
Proof.
  induction us; intros; cbn; [reflexivity|].
  destruct a; unfold nvals_u in *; cbn; rewrite ?IHus; reflexivity.
Qed.

(** unpacking only looks at the first [size_u] bytes *)
Lemma unpack_u_firstn : forall m us off b n, (size_u m off us <= n)%nat ->
  unpack_u m off us (firstn n b) = unpack_u m off us b.
Proof.
  induction us; intros off b n H; cbn in *; [reflexivity|].
  set (k := usize m off a) in *.
  assert (E1 : firstn k (firstn n b) = firstn k b) by (rewrite firstn_firstn; f_equal; lia).
  assert (E2 : unpack_u m (off + k) us (skipn k (firstn n b)) = unpack_u m (off + k) us (skipn k b)).
  { replace (skipn k (firstn n b)) with (firstn (n - k) (skipn k b)) by (symmetry; apply skipn_firstn_comm).
    apply IHus. lia. }
  rewrite E1, E2. reflexivity.
Qed.

(** ** canonical values: those that unpacking can return *)
Definition canon_val (m : mode) (c : code) (v : value) : bool :=
  match int_code c, v with
  | Some sg, VInt z => in_range sg (csize (m_native m) c) z
  | Some _, _ => false
  | None, _ =>
      match c, v with
      | Cc, VBytes [_] => true
      | Cbool, VBool _ => true
      | Cd, VFloat b => (0 <=? b) && (b <? 2 ^ 64)
      | Cf, VFloat b => match narrow 8 23 b with
                        | Some f => (0 <=? f) && (f <? 2 ^ 32) && (widen 8 23 f =? b)
                        | None => false
                        end
      | Ce, VFloat b => match narrow 5 10 b with
                        | Some f => (0 <=? f) && (f <? 2 ^ 16) && (widen 5 10 f =? b)
                        | None => false
                        end
      | _, _ => false
      end
  end.

Lemma int_code_pos : forall c sg, int_code c = Some sg -> forall nt, (0 < csize nt c)%nat.
Proof. intros. apply csize_pos. Qed.

Lemma pack_unpack_val : forall m c v b, pack_val m c v = Ok b -> canon_val m c v = true ->
  unpack_val m c b = v.
Proof.
  intros m c v b H C. unfold pack_val, canon_val, unpack_val in *.
  destruct (int_code c) as [sg|] eqn:I.
  - destruct v; try discriminate. cbn in H. rewrite C in H. injection H as <-.
    f_equal. rewrite int_dec_enc. unfold in_range in C. destruct sg.
    + apply to_signed_mod; [apply csize_pos|lia].
    + apply Z.mod_small. lia.
  - destruct c; try discriminate.
    + destruct v; try discriminate. destruct b0 as [|x [|]]; try discriminate. now injection H as <-.
    + destruct v; try discriminate. injection H as <-. destruct b0; reflexivity.
    + destruct v; try discriminate. cbn in H. destruct (narrow 5 10 bits) as [f|]; [|discriminate].
      injection H as <-. f_equal. rewrite int_dec_enc.
      change (8 * Z.of_nat 2) with 16. rewrite Z.mod_small by lia. lia.
    + destruct v; try discriminate. cbn in H. destruct (narrow 8 23 bits) as [f|]; [|discriminate].
      injection H as <-. f_equal. rewrite int_dec_enc.
      change (8 * Z.of_nat 4) with 32. rewrite Z.mod_small by lia. lia.
    + destruct v; try discriminate. cbn in H. injection H as <-. f_equal. rewrite int_dec_enc.
      change (8 * Z.of_nat 8) with 64. now rewrite Z.mod_small by lia.
Qed.

(** canonical values can be packed *)
Lemma canon_pack_val : forall m c v, canon_val m c v = true -> exists b, pack_val m c v = Ok b.
Proof.
  intros m c v C. unfold pack_val, canon_val in *.
  destruct (int_code c) as [sg|] eqn:I.
  - destruct v; try discriminate. cbn. rewrite C. eauto.
  - destruct c, v; try discriminate; cbn; eauto.
    + destruct b as [|? [|]]; try discriminate. eauto.
    + destruct (narrow 5 10 bits); [eauto|discriminate].
    + destruct (narrow 8 23 bits); [eauto|discriminate].
Qed.

Definition canon_unit (m : mode) (u : unit_) (v : value) : bool :=
  match u with
  | UStr n => match v with VBytes b => Nat.eqb (List.length b) n | _ => false end
  | UPas n => match v with
              | VBytes b => (Nat.leb (List.length b) (n - 1)) && (Nat.leb (List.length b) 255)
              | _ => false
              end
  | UVal c => canon_val m c v
  | _ => false
  end.
(** a list of values canonical for the units of a format *)
Fixpoint canon_units (m : mode) (us : list unit_) (vs : list value) : bool :=
  match us with
  | [] => match vs with [] => true | _ => false end
  | u :: us' =>
      if takes_value u then
        match vs with v :: vs' => canon_unit m u v && canon_units m us' vs' | [] => false end
      else canon_units m us' vs
  end.
Definition canon_fmt (m : mode) (f : fmt) (vs : list value) : bool := canon_units m (expand f) vs.

Lemma str_fit_exact : forall n b, List.length b = n -> str_fit n b = b.
Proof.
  intros n b <-. unfold str_fit. rewrite firstn_all, Nat.sub_diag. apply app_nil_r.
Qed.

Lemma pas_roundtrip : forall n b, (List.length b <= n - 1)%nat -> (List.length b <= 255)%nat ->
  pas_unpack (pas_pack n b) = b.
Proof.
  intros [|n] b H H'; cbn in *.
  - destruct b; [reflexivity|cbn in H; lia].
  - rewrite zb_bz, str_fit_length.
    replace (Z.min 255 (Z.of_nat (Nat.min n (List.length b)))) with (Z.of_nat (List.length b)) by lia.
    rewrite Z.mod_small by lia. rewrite Nat2Z.id, Nat.min_l by lia.
    unfold str_fit. rewrite (firstn_all2 (n:=n)) by lia. apply firstn_app_len.
Qed.

Lemma canon_pack_u : forall m us off vs, canon_units m us vs = true ->
  exists b, pack_u m off us vs = (b, None).
Proof.
  induction us; intros off vs C; cbn in *.
  - eauto.
  - destruct (takes_value a) eqn:TV.
    + destruct vs as [|v vs']; [discriminate|]. apply andb_prop in C as [C1 C2].
      assert (exists b1, pack_unit m off a (v :: vs') = Ok (b1, vs')) as [b1 E].
      { destruct a; try discriminate; cbn in *.
        - destruct v; try discriminate. eauto.
        - destruct v; try discriminate. eauto.
        - destruct (canon_pack_val _ _ _ C1) as [b1 E]. rewrite E. cbn. eauto. }
      rewrite E. destruct (IHus (off + List.length b1)%nat _ C2) as [b2 E2]. rewrite E2. eauto.
    + assert (exists b1, pack_unit m off a vs = Ok (b1, vs)) as [b1 E].
      { destruct a; try discriminate; cbn; eauto. }
      rewrite E. destruct (IHus (off + List.length b1)%nat _ C) as [b2 E2]. rewrite E2. eauto.
Qed.

Lemma canon_nvals : forall m us vs, canon_units m us vs = true -> List.length vs = nvals_u us.
Proof.
  induction us; intros vs C; cbn in *.
  - destruct vs; [reflexivity|discriminate].
  - unfold nvals_u in *. cbn. destruct (takes_value a) eqn:TV.
    + destruct vs; [discriminate|]. apply andb_prop in C as [_ C]. cbn. f_equal. auto.
    + auto.
Qed.

Lemma pack_unpack_u : forall m us off vs b rest, pack_u m off us vs = (b, None) ->
  canon_units m us vs = true -> unpack_u m off us (b ++ rest) = vs.
Proof.
  induction us; intros off vs b rest H C; cbn in *.
  - destruct vs; [reflexivity|discriminate].
  - destruct (pack_unit m off a vs) as [[b1 vs1]|] eqn:E; [|discriminate].
    destruct (pack_u m (off + List.length b1) us vs1) as [bs e] eqn:E2.
    injection H as <- ->.
    pose proof (pack_unit_length _ _ _ _ _ _ E) as L. rewrite <- L, <- app_assoc.
    rewrite firstn_app_len, skipn_app_len.
    destruct a; cbn in E, C.
    + injection E as <- <-. cbn [takes_value] in *. apply IHus; assumption.
    + injection E as <- <-. apply IHus; assumption.
    + destruct vs as [|[] vs']; try discriminate. injection E as <- <-.
      apply andb_prop in C as [C1 C2]. rewrite str_fit_exact in * by lia.
      f_equal. apply IHus; assumption.
    + destruct vs as [|[] vs']; try discriminate. injection E as <- <-.
      apply andb_prop in C as [C1 C2]. apply andb_prop in C1 as [C0 C1].
      rewrite pas_roundtrip by lia.
      f_equal. apply IHus; assumption.
    + destruct vs as [|v vs']; [discriminate|].
      destruct (pack_val m c v) eqn:P; [|discriminate]. cbn in E. injection E as <- <-.
      apply andb_prop in C as [C1 C2].
      rewrite (pack_unpack_val _ _ _ _ P C1).
      f_equal. apply IHus; assumption.
Qed.

(** ** layout equality of formats *)
Definition layout_eq (us us' : list unit_) : Prop :=
  nvals_u us = nvals_u us' /\
  forall m off, size_u m off us = size_u m off us' /\
    (forall vs, pack_u m off us vs = pack_u m off us' vs) /\
    (forall b, unpack_u m off us b = unpack_u m off us' b).

Lemma layout_eq_refl : forall us, layout_eq us us.
Proof. repeat split. Qed.
Lemma layout_eq_trans : forall a b c, layout_eq a b -> layout_eq b c -> layout_eq a c.
Proof.
  intros a b c [N1 H1] [N2 H2]. split; [congruence|]. intros m off.
  destruct (H1 m off) as (A & B & C), (H2 m off) as (A' & B' & C').
  repeat split; intros; congruence.
Qed.
Lemma layout_eq_sym : forall a b, layout_eq a b -> layout_eq b a.
Proof.
  intros a b [N1 H1]. split; [congruence|]. intros m off.
  destruct (H1 m off) as (A & B & C). repeat split; intros; congruence.
Qed.
Lemma layout_eq_cons : forall u a b, layout_eq a b -> layout_eq (u :: a) (u :: b).
Proof.
  intros u a b [N H]. split.
  - unfold nvals_u in *. cbn. destruct (takes_value u); cbn; congruence.
  - intros m off. repeat split.
    + cbn. f_equal. apply H.
    + intros vs. cbn. destruct (pack_unit m off u vs) as [[b1 vs1]|]; [|reflexivity].
      destruct (H m (off + List.length b1)%nat) as (_ & E & _). now rewrite E.
    + intros x. cbn. destruct (H m (off + usize m off u)%nat) as (_ & _ & E). now rewrite E.
Qed.
Lemma layout_eq_app_l : forall p a b, layout_eq a b -> layout_eq (p ++ a) (p ++ b).
Proof. induction p; intros; cbn; [assumption | apply layout_eq_cons; auto]. Qed.

Lemma size_u_app : forall m us vs off,
  size_u m off (us ++ vs) = (size_u m off us + size_u m (off + size_u m off us) vs)%nat.
Proof.
  induction us; intros vs off; cbn; [now rewrite Nat.add_0_r|].
  rewrite IHus, Nat.add_assoc. f_equal. f_equal. lia.
Qed.
Lemma nvals_u_app : forall a b, nvals_u (a ++ b) = (nvals_u a + nvals_u b)%nat.
Proof. intros. unfold nvals_u. rewrite filter_app, app_length. reflexivity. Qed.

(** an alignment step is redundant when the position is already aligned *)
Lemma padding_aligned : forall m off c, (off mod calign (m_native m) c = 0)%nat -> padding m off c = O.
Proof.
  intros. unfold padding. rewrite H, Nat.sub_0_r. apply Nat.mod_same.
  pose proof (calign_pos (m_native m) c). lia.
Qed.
Lemma padding_aligns : forall m off c,
  ((off + padding m off c) mod calign (m_native m) c = 0)%nat.
Proof.
  intros. unfold padding. set (a := calign (m_native m) c).
  assert (a <> 0)%nat by (pose proof (calign_pos (m_native m) c); lia).
  rewrite Nat.add_mod_idemp_r by lia.
  pose proof (Nat.mod_upper_bound off a ltac:(lia)).
  replace (off + (a - off mod a))%nat with ((off / a + 1) * a)%nat.
  - apply Nat.mod_mul. lia.
  - rewrite (Nat.div_mod off a) at 2 by lia. nia.
Qed.
Lemma aligned_step : forall m off c, (off mod calign (m_native m) c = 0)%nat ->
  ((off + csize (m_native m) c) mod calign (m_native m) c = 0)%nat.
Proof.
  intros m off c H. pose proof (calign_pos (m_native m) c).
  rewrite Nat.add_mod, H, csize_align by lia. cbn. apply Nat.mod_0_l. lia.
Qed.

Section Realign.
Variables (m : mode) (c : code) (us : list unit_).
Lemma realign_size : forall k off, (off mod calign (m_native m) c = 0)%nat ->
  size_u m off (repeat (UVal c) k ++ UAlign c :: us) = size_u m off (repeat (UVal c) k ++ us).
Proof.
  induction k; intros off H; cbn.
  - rewrite padding_aligned, Nat.add_0_r by assumption. reflexivity.
  - f_equal. apply IHk. now apply aligned_step.
Qed.
Lemma realign_pack : forall k off vs, (off mod calign (m_native m) c = 0)%nat ->
  pack_u m off (repeat (UVal c) k ++ UAlign c :: us) vs = pack_u m off (repeat (UVal c) k ++ us) vs.
Proof.
  induction k; intros off vs H; cbn.
  - rewrite padding_aligned by assumption. cbn. rewrite Nat.add_0_r.
    destruct (pack_u m off us vs). reflexivity.
  - destruct vs as [|v vs]; [reflexivity|]. destruct (pack_val m c v) eqn:P; [|reflexivity]. cbn.
    rewrite IHk; [reflexivity|]. rewrite (pack_val_length _ _ _ _ P). now apply aligned_step.
Qed.
Lemma realign_unpack : forall k off b, (off mod calign (m_native m) c = 0)%nat ->
  unpack_u m off (repeat (UVal c) k ++ UAlign c :: us) b = unpack_u m off (repeat (UVal c) k ++ us) b.
Proof.
  induction k; intros off b H; cbn.
  - rewrite padding_aligned, Nat.add_0_r by assumption. reflexivity.
  - f_equal. apply IHk. now apply aligned_step.
Qed.
End Realign.

Lemma layout_merge : forall c k us,
  layout_eq (UAlign c :: repeat (UVal c) k ++ UAlign c :: us) (UAlign c :: repeat (UVal c) k ++ us).
Proof.
  intros c k us. split.
  - unfold nvals_u. cbn. rewrite !filter_app. cbn. reflexivity.
  - intros m off. pose proof (padding_aligns m off c) as A. repeat split.
    + cbn. f_equal. now apply realign_size.
    + intros vs. cbn. rewrite zeros_length.
      rewrite realign_pack by assumption. reflexivity.
    + intros b. cbn. now apply realign_unpack.
Qed.

(** from unit-level layout equality to the struct functions *)
Lemma layout_st : forall f g, layout_eq (expand f) (expand g) ->
  nvals f = nvals g /\
  forall m, calcsize m f = calcsize m g /\
    (forall vs, st_pack m f vs = st_pack m g vs) /\
    (forall b, st_unpack m f b = st_unpack m g b) /\
    (forall b off, st_unpack_from m f b off = st_unpack_from m g b off) /\
    (forall buf off vs, st_pack_into m f buf off vs = st_pack_into m g buf off vs).
Proof.
  intros f g [N H]. split; [exact N|]. intros m. destruct (H m O) as (S & P & U).
  unfold st_pack, st_unpack, st_unpack_from, st_pack_into, calcsize, nvals in *.
  repeat split; intros; rewrite ?S, ?N, ?P; try reflexivity.
  - destruct (Nat.eqb _ _); [now rewrite U | reflexivity].
  - destruct (st_offset _ _ _); [now rewrite U|reflexivity].
Qed.
