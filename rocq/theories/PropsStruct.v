(** Properties C10, C11: struct formats. *)
From Verif Require Import Base Floats Value StructMod Format BaseFacts StructFacts FormatFacts.

(** The behaviour of a format under [struct]: number of values, size, and all four operations, in
    every byte order mode. *)
Definition same_struct (f g : fmt) : Prop :=
  nvals f = nvals g /\
  forall m, calcsize m f = calcsize m g /\
    (forall vs, st_pack m f vs = st_pack m g vs) /\
    (forall b, st_unpack m f b = st_unpack m g b) /\
    (forall b off, st_unpack_from m f b off = st_unpack_from m g b off) /\
    (forall buf off vs, st_pack_into m f buf off vs = st_pack_into m g buf off vs).

(** C10: a joined serializer behaves as the concatenation of the two formats, provided the right
    operand is a single specifier (as is every serializer made by a type hint) or does not begin with
    the specifier the left one ends with. *)
Theorem C10_join_layout : forall a b s,
  s_act a = None -> s_act b = None ->
  foldable (s_fmt a) (s_fmt b) = true ->
  ss_add a b = Ok s ->
  s_bo s = s_bo a /\ s_bo s = s_bo b /\ same_struct (s_fmt s) (s_fmt a ++ s_fmt b).
Proof.
  intros a b s HA HB F H. unfold ss_add in H. rewrite HA, HB in H.
  destruct (border_eqb (s_bo a) (s_bo b)) eqn:E; [|discriminate]. injection H as <-.
  cbn. split; [reflexivity|]. split.
  - destruct (s_bo a), (s_bo b); cbn in E; congruence.
  - apply layout_st. now apply fold_layout.
Qed.
Print Assumptions C10_join_layout.

Example C10_nontrivial :
  foldable [T None CB; T (Some 2%nat) CH] [T None CH] = true /\
  ss_add (SS BO_LE [T None CB; T (Some 2%nat) CH] None) (SS BO_LE [T None CH] None)
  = Ok (SS BO_LE [T None CB; T (Some 3%nat) CH] None).
Proof. split; reflexivity. Qed.

(** C10 in general is false: 'h' + 'hI' is joined to '2h', the 'I' is lost. *)
Theorem C10_join_general_refuted : ~ (forall a b s,
  s_act a = None -> s_act b = None -> ss_add a b = Ok s -> same_struct (s_fmt s) (s_fmt a ++ s_fmt b)).
Proof.
  intros H.
  specialize (H (SS BO_LE [T None Ch] None) (SS BO_LE [T None Ch; T None CI] None) _ eq_refl eq_refl eq_refl).
  destruct H as [N _]. vm_compute in N. discriminate.
Qed.
Print Assumptions C10_join_general_refuted.

(** different byte orders are never joined *)
Theorem C10_join_checks_byte_order : forall a b,
  s_act a = None -> s_act b = None -> s_bo a <> s_bo b -> ss_add a b = Err ValueError.
Proof.
  intros a b HA HB N. unfold ss_add. rewrite HA, HB.
  destruct (border_eqb (s_bo a) (s_bo b)) eqn:E; [|reflexivity].
  destruct (s_bo a), (s_bo b); cbn in E; congruence.
Qed.
Print Assumptions C10_join_checks_byte_order.

(** C11: [st * n] *)
Theorem C11_repeat_layout : forall bo f n, repeatable f = true -> 1 <= n ->
  exists g, ss_mul (SS bo f None) n = Ok (Some (SS bo g None)) /\
            same_struct g (repeat_fmt f (Z.to_nat n)).
Proof.
  intros bo f n R H. destruct (mul_layout bo f n R H) as (g & E & L).
  exists g. split; [exact E | now apply layout_st].
Qed.
Print Assumptions C11_repeat_layout.

(** [st * 0] and [st @ 0] are the empty serializer, negative counts raise *)
Theorem C11_repeat_bounds : forall a,
  ss_mul a 0 = Ok None /\ ss_matmul a 0 = Ok None /\
  forall n, n < 0 -> ss_mul a n = Err ValueError /\ ss_matmul a n = Err ValueError.
Proof.
  intros a. repeat split; intros; unfold ss_mul, ss_matmul, ss_mul_impl.
  - destruct (n =? 0) eqn:E; [apply Z.eqb_eq in E; lia|].
    destruct (n <? 0) eqn:E'; [reflexivity | apply Z.ltb_ge in E'; lia].
  - destruct (n =? 0) eqn:E; [apply Z.eqb_eq in E; lia|].
    destruct (n <? 0) eqn:E'; [reflexivity | apply Z.ltb_ge in E'; lia].
Qed.
Print Assumptions C11_repeat_bounds.

(** [st @ n] of a one letter format is one specifier counting n *)
Theorem C11_matmul_layout : forall bo c n, 1 <= n ->
  exists g, ss_matmul (SS bo [T None c] None) n = Ok (Some (SS bo g None)) /\
            same_struct g [T (Some (Z.to_nat n)) c].
Proof.
  intros bo c n H. destruct (matmul_char bo c n H) as (t & E & X & _).
  exists [t]. split; [exact E|]. apply layout_st. rewrite X. apply layout_eq_refl.
Qed.
Print Assumptions C11_matmul_layout.

Theorem C11_repeat_general_refuted : ~ (forall bo f n, 1 <= n ->
  exists g, ss_mul (SS bo f None) n = Ok (Some (SS bo g None)) /\ same_struct g (repeat_fmt f (Z.to_nat n))).
Proof.
  intros H. destruct (H BO_LE [T None Ch; T None CI; T None Ch] 2 ltac:(lia)) as (g & E & N & _).
  vm_compute in E. injection E as <-. vm_compute in N. discriminate.
Qed.
Print Assumptions C11_repeat_general_refuted.

Example C11_nontrivial : repeatable [T None CH] = true /\ repeatable [T (Some 5%nat) Cs] = true /\
  repeatable [T None CB; T None CI] = true /\
  ss_mul (SS BO_BE [T None CH] None) 3 = Ok (Some (SS BO_BE [T (Some 3%nat) CH] None)).
Proof. repeat split; reflexivity. Qed.
