(** Formats that mean the same on every machine, and the classes made of them. *)
From Verif Require Import Base Floats Value StructMod Format Ser Exec Pure BaseFacts StructFacts FormatFacts
  SerFacts RefPack RefUnpack Fuel DecFacts.

(** a byte order that does not depend on the machine *)
Definition explicit (b : border) : bool := match b with BO_LE | BO_BE | BO_NET => true | _ => false end.
(** a specifier of one byte *)
Definition tiny (c : code) : bool := Nat.eqb (csize true c) 1.
Definition tiny_fmt (f : fmt) : bool := forallb (fun t => tiny (t_code t)) f.
Definition portable (st : sspec) : bool := explicit (s_bo st) || tiny_fmt (s_fmt st).

Lemma int_enc_1 : forall a b z, int_enc a 1 z = int_enc b 1 z.
Proof. intros [] []; reflexivity. Qed.
Lemma int_dec_1 : forall a b l, (List.length l <= 1)%nat -> int_dec a l = int_dec b l.
Proof. intros [] [] [|x [|y l]] H; try reflexivity; cbn in H; lia. Qed.

Definition tiny_unit (u : unit_) : bool := match u with UAlign c | UVal c => tiny c | _ => true end.
Lemma tiny_expand : forall f, tiny_fmt f = true -> forallb tiny_unit (expand f) = true.
Proof.
  unfold tiny_fmt, expand. induction f as [|t f IH]; [reflexivity|]. cbn [forallb flat_map]. intros H.
  apply andb_prop in H as [A B]. rewrite forallb_app, IH by exact B.
  assert (R : forall n u, tiny_unit u = true -> forallb tiny_unit (repeat u n) = true)
    by (intros n u E; induction n; cbn; [reflexivity|now rewrite E]).
  unfold expand_tok. destruct (t_code t) eqn:C; cbn [forallb andb]; rewrite ?R; try reflexivity; exact A || (cbn; now rewrite ?A).
Qed.
Lemma tiny_size : forall n c, tiny c = true -> csize n c = 1%nat.
Proof. intros [] c H; apply Nat.eqb_eq in H; [exact H|]. destruct c; try reflexivity; discriminate H. Qed.
Lemma tiny_usize : forall n a b off u, tiny_unit u = true -> usize (Mode n a) off u = usize (Mode n b) off u.
Proof. intros. destruct u; reflexivity. Qed.
Lemma tiny_sizes : forall n a b us off, size_u (Mode n a) off us = size_u (Mode n b) off us.
Proof.
  induction us as [|u us IH]; intros off; [reflexivity|]. cbn [size_u].
  assert (U : usize (Mode n a) off u = usize (Mode n b) off u) by (destruct u; reflexivity).
  now rewrite U, IH.
Qed.
Lemma tiny_pack_val : forall n a b c v, tiny c = true -> pack_val (Mode n a) c v = pack_val (Mode n b) c v.
Proof.
  intros n a b c v H. unfold pack_val. cbn [m_native m_big]. rewrite (tiny_size n c H).
  destruct c; try discriminate H; cbn [int_code]; try reflexivity;
    destruct (as_index v); try reflexivity; now rewrite (int_enc_1 a b).
Qed.
Lemma tiny_unpack_val : forall n a b c l, tiny c = true -> (List.length l <= 1)%nat ->
  unpack_val (Mode n a) c l = unpack_val (Mode n b) c l.
Proof.
  intros n a b c l H L. unfold unpack_val. cbn [m_native m_big]. rewrite (int_dec_1 a b l L).
  destruct c; try discriminate H; reflexivity.
Qed.
Lemma tiny_pack : forall n a b us off vs, forallb tiny_unit us = true ->
  pack_u (Mode n a) off us vs = pack_u (Mode n b) off us vs.
Proof.
  induction us as [|u us IH]; intros off vs H; [reflexivity|]. cbn in H. apply andb_prop in H as [HU H].
  cbn [pack_u].
  assert (E : pack_unit (Mode n a) off u vs = pack_unit (Mode n b) off u vs).
  { destruct u; try reflexivity. cbn [pack_unit]. destruct vs as [|v vs]; [reflexivity|].
    now rewrite (tiny_pack_val n a b). }
  rewrite E. destruct (pack_unit (Mode n b) off u vs) as [[x vs']|]; [|reflexivity]. now rewrite IH.
Qed.
Lemma tiny_unpack : forall n a b us off l, forallb tiny_unit us = true ->
  unpack_u (Mode n a) off us l = unpack_u (Mode n b) off us l.
Proof.
  induction us as [|u us IH]; intros off l H; [reflexivity|]. cbn in H. apply andb_prop in H as [HU H].
  cbn [unpack_u].
  assert (E : usize (Mode n a) off u = usize (Mode n b) off u) by (destruct u; reflexivity).
  rewrite E, IH by exact H. destruct u; try reflexivity. f_equal. apply tiny_unpack_val; [exact HU|].
  cbn [usize m_native]. rewrite (tiny_size n c HU), firstn_length. lia.
Qed.

(** a portable format packs, unpacks and measures the same on both kinds of machines *)
Lemma mode_same : forall st, portable st = true ->
  mode_of true (s_bo st) = mode_of false (s_bo st) \/
  (tiny_fmt (s_fmt st) = true /\ exists n, mode_of true (s_bo st) = Mode n true /\ mode_of false (s_bo st) = Mode n false).
Proof.
  intros st H. unfold portable in H. destruct (s_bo st); cbn in *; auto; right; split; eauto.
Qed.
Lemma est_same : forall st vs, portable st = true -> est true st vs = est false st vs.
Proof.
  intros st vs H. unfold est, ss_mode. destruct (mode_same st H) as [->|(T & n & -> & ->)]; [reflexivity|].
  unfold st_pack. now rewrite (tiny_pack n true false _ 0%nat vs (tiny_expand _ T)).
Qed.
Lemma size_same : forall st, ss_size true st = ss_size false st.
Proof.
  intros st. unfold ss_size, ss_mode, calcsize. destruct (s_bo st); cbn [mode_of]; try reflexivity;
    now rewrite (tiny_sizes _ true false).
Qed.
Lemma osize_same : forall o, osize true o = osize false o.
Proof. intros [st|]; [apply size_same|reflexivity]. Qed.
Lemma dst_same : forall st b, portable st = true -> dst true st b = dst false st b.
Proof.
  intros st b H. unfold dst. rewrite size_same. f_equal.
  unfold ss_mode. destruct (mode_same st H) as [->|(T & n & -> & ->)]; [reflexivity|].
  unfold st_unpack, calcsize. rewrite (tiny_sizes n true false).
  now rewrite (tiny_unpack n true false _ 0%nat _ (tiny_expand _ T)).
Qed.
Definition oportable (o : option sspec) : bool := match o with Some st => portable st | None => true end.
Lemma eost_same : forall o vs, oportable o = true -> eost true o vs = eost false o vs.
Proof. intros [st|] vs H; [now apply est_same|reflexivity]. Qed.
Lemma dost_same : forall o b, oportable o = true -> dost true o b = dost false o b.
Proof. intros [st|] b H; [now apply dst_same|reflexivity]. Qed.

(** joining and repeating keep formats portable *)
Lemma split_last_app : forall A (l : list A) p x, split_last l = Some (p, x) -> l = p ++ [x].
Proof.
  induction l as [|a l IH]; intros p x H; [discriminate|]. cbn in H. destruct l as [|b l].
  - injection H as <- <-. reflexivity.
  - destruct (split_last (b :: l)) as [[p' y]|] eqn:E; [|discriminate]. injection H as <- <-.
    cbn. f_equal. now apply IH.
Qed.
Lemma tiny_app : forall f g, tiny_fmt (f ++ g) = tiny_fmt f && tiny_fmt g.
Proof. intros. apply forallb_app. Qed.
Lemma tiny_fold : forall cs f g, tiny_fmt f = true -> tiny_fmt g = true -> tiny_fmt (fold_overlaps cs f g) = true.
Proof.
  intros cs f g F G. unfold fold_overlaps. destruct (split_last f) as [[p t]|] eqn:E.
  - apply split_last_app in E. subst f. destruct g as [|t2 g]; [now rewrite tiny_app, F, G|].
    destruct (_ && _); [|now rewrite tiny_app, F, G]. rewrite tiny_app in *. apply andb_prop in F as [F1 F2].
    rewrite F1. cbn in *. exact F2.
  - now rewrite tiny_app, F, G.
Qed.
Lemma tiny_repeat : forall cs n acc f, tiny_fmt acc = true -> tiny_fmt f = true -> tiny_fmt (fold_repeat cs acc f n) = true.
Proof. intros cs n. induction n as [|n IH]; intros acc f A F; cbn; [exact A|]. apply IH; [|exact F]. now apply tiny_fold. Qed.
Lemma mul_impl_keeps : forall cs a n o, ss_mul_impl cs a n = Ok (Some o) ->
  s_bo o = s_bo a /\ (tiny_fmt (s_fmt a) = true -> tiny_fmt (s_fmt o) = true).
Proof.
  intros cs a n o H. unfold ss_mul_impl in H. destruct (n =? 0); [discriminate|]. destruct (n <? 0); [discriminate|].
  destruct (n =? 1); injection H as <-; [auto|]. destruct (s_act a); cbn; split; try reflexivity;
    intros T; now apply tiny_repeat.
Qed.
Lemma mul_keeps : forall a n o, ss_mul a n = Ok (Some o) ->
  s_bo o = s_bo a /\ (tiny_fmt (s_fmt a) = true -> tiny_fmt (s_fmt o) = true).
Proof.
  intros a n o H. unfold ss_mul in H. destruct (ss_mul_impl false a n) as [[x|]|] eqn:E; try discriminate.
  - apply mul_impl_keeps in E. cbn in H. destruct (s_act a); injection H as <-; exact E.
Qed.
Lemma portable_mul : forall a n o, portable a = true -> ss_mul a n = Ok o -> oportable o = true.
Proof.
  intros a n [o|] P H; [|reflexivity]. apply mul_keeps in H as [B T]. unfold oportable, portable in *. rewrite B.
  destruct (explicit (s_bo a)); [reflexivity|]. cbn in *. auto.
Qed.
Lemma portable_matmul_char : forall n o, ss_matmul single_char n = Ok o ->
  oportable o = true /\ match o with Some st => tiny_fmt (s_fmt st) = true | None => True end.
Proof.
  intros n [o|] H; [|auto]. apply mul_impl_keeps in H as [B T]. unfold oportable, portable. rewrite T by reflexivity.
  now rewrite Bool.orb_true_r.
Qed.
Lemma add_keeps : forall a b o, ss_add a b = Ok o ->
  s_bo o = s_bo a /\ (tiny_fmt (s_fmt a) = true -> tiny_fmt (s_fmt b) = true -> tiny_fmt (s_fmt o) = true).
Proof.
  intros a b o H. unfold ss_add in H. destruct (s_act a), (s_act b);
    try (destruct (border_eqb _ _); [|discriminate]); injection H as <-; cbn; split; try reflexivity;
    intros; now apply tiny_fold.
Qed.
Lemma portable_dynchar : forall st n o, portable st = true -> dynchar_st st n = Ok o -> portable o = true.
Proof.
  intros st n o P H. unfold dynchar_st in H. destruct (ss_matmul single_char n) as [[c|]|] eqn:E; try discriminate;
    cbn [rbind] in H.
  - apply portable_matmul_char in E as [_ T]. apply add_keeps in H as [B K]. unfold portable in *. rewrite B.
    destruct (explicit (s_bo st)); [reflexivity|]. cbn in *. auto.
  - now injection H as <-.
Qed.
(** both explicit or both made of bytes *)
Definition portable2 (a b : sspec) : bool :=
  explicit (s_bo a) && explicit (s_bo b) || tiny_fmt (s_fmt a) && tiny_fmt (s_fmt b).
Lemma portable2_both : forall a b, portable2 a b = true -> portable a = true /\ portable b = true.
Proof.
  intros a b H. unfold portable2, portable in *. apply Bool.orb_prop in H as [H|H]; apply andb_prop in H as [-> ->];
    now rewrite ?Bool.orb_true_r.
Qed.
Lemma portable_dynarr : forall c item n o, portable2 c item = true -> dynarr_st c item n = Ok o -> portable o = true.
Proof.
  intros c item n o P H. unfold dynarr_st in H. destruct (portable2_both c item P) as [PC PI].
  destruct (n =? 0); [injection H as <-; exact PC|].
  destruct (ss_mul item n) as [[st|]|] eqn:E; try discriminate; cbn [rbind] in H; [|now injection H as <-].
  apply add_keeps in H as [B K]. apply mul_keeps in E as [BI KI]. unfold portable2, portable in *. rewrite B.
  apply Bool.orb_prop in P as [P|P]; apply andb_prop in P as [P1 P2]; [now rewrite P1|]. rewrite K by auto.
  now rewrite Bool.orb_true_r.
Qed.

(** ** serializers *)
Definition port1 (x : ser) : bool :=
  match x with
  | SStruct st | SDynChar _ st | SStaticArr _ st => portable st
  | SDynArr _ c item => portable2 c item
  | SArray _ h _ _ => oportable h
  | SNet _ => false
  | _ => true
  end.
Lemma port_stable : forall c, stable port1 c.
Proof. intros c. split; intros; reflexivity. Qed.
(** instances whose byte order was changed were given an explicit one *)
Fixpoint explicit_obj (v : value) : bool :=
  match v with
  | VObj _ ov a => match ov with Some b => explicit b | None => true end && forallb (fun p => explicit_obj (snd p)) a
  | VList l | VTuple l => forallb explicit_obj l
  | VWrap _ v => explicit_obj v
  | _ => true
  end.

Lemma wb_port : forall bo s, explicit bo = true -> sall port1 s = true -> sall port1 (with_bo bo s) = true.
Proof.
  intros bo s B. induction s using ser_ind'; cbn; intros E; try reflexivity; try assumption; auto.
  all: unfold portable2, portable, oportable; cbn; rewrite ?B; cbn; try reflexivity.
  - destruct h; cbn; unfold portable; cbn; rewrite ?B; cbn; apply andb_prop in E as [_ E]; auto.
  - rewrite forallb_map. rewrite forallb_forall in *. rewrite Forall_forall in H. auto.
  - rewrite forallb_map. rewrite forallb_forall in *. rewrite Forall_forall in H. auto.
Qed.

Section Same.
Variable ct : nat -> option cdef.
Variable allow : nat -> nat -> bool.
Hypothesis CLS : forall c cd, ct c = Some cd -> sall port1 (c_ser cd) = true.

Lemma res_port : forall p s o s', sall port1 s = true -> resolve p s o = Ok s' -> sall port1 s' = true.
Proof. intros p s o s' H R. eapply resolve_sall; eauto. apply port_stable. Qed.
Lemma nth0_explicit : forall vs v, forallb explicit_obj vs = true -> nth0 vs = Ok v -> explicit_obj v = true.
Proof. intros [|x vs] v H E; [discriminate|]. injection E as <-. cbn in H. now apply andb_prop in H as [H _]. Qed.
Lemma one_explicit : forall vs v e, forallb explicit_obj vs = true -> one vs e = Ok v -> explicit_obj v = true.
Proof.
  intros [|x [|y vs]] v e H E; try discriminate. injection E as <-. cbn in H. now apply andb_prop in H as [H _].
Qed.
Lemma iter_explicit : forall v l, explicit_obj v = true -> py_iter v = Ok l -> forallb explicit_obj l = true.
Proof.
  intros v l H E. destruct v; try discriminate; injection E as <-; try exact H; try reflexivity.
  all: rewrite forallb_map; apply forallb_forall; reflexivity.
Qed.
Lemma attrs_explicit : forall names d vs, forallb (fun p => explicit_obj (snd p)) d = true -> get_attrs names d = Ok vs ->
  forallb explicit_obj vs = true.
Proof.
  intros names d. induction names as [|a names IH]; intros vs H E; [now injection E as <-|].
  unfold get_attrs in E. cbn [rmapM] in E. destruct (assoc a d) as [v|] eqn:A; [|discriminate E]. cbn [rbind] in E.
  fold (get_attrs names d) in E. destruct (get_attrs names d) as [l|] eqn:G; [|discriminate E]. cbn [rbind] in E.
  injection E as <-. cbn. rewrite (IH l) by auto. rewrite Bool.andb_true_r. rewrite forallb_forall in H.
  clear - A H. induction d as [|[k x] d IH]; [discriminate|]. cbn in A. destruct (String.eqb a k).
  - injection A as <-. apply (H (k, x)). now left.
  - apply IH; [intros p I; apply H; now right|exact A].
Qed.
Lemma firstn_explicit : forall n vs, forallb explicit_obj vs = true -> forallb explicit_obj (firstn n vs) = true.
Proof.
  intros n vs H. rewrite <- (firstn_skipn n vs), forallb_app in H. now apply andb_prop in H as [H _].
Qed.
Lemma skipn_explicit : forall n vs, forallb explicit_obj vs = true -> forallb explicit_obj (skipn n vs) = true.
Proof.
  intros n vs H. rewrite <- (firstn_skipn n vs), forallb_app in H. now apply andb_prop in H as [_ H].
Qed.

Let E1 := enc true ct allow.
Let E2 := enc false ct allow.
Definition esame (n : nat) : Prop := forall x ctx vs, sall port1 x = true -> forallb explicit_obj vs = true ->
  E1 n x ctx vs = E2 n x ctx vs.
Lemma items_same : forall n x ctx vs, esame n -> sall port1 x = true -> forallb explicit_obj vs = true ->
  enc_items (E1 n) x ctx vs = enc_items (E2 n) x ctx vs.
Proof.
  intros n x ctx vs A H. induction vs as [|v vs IH]; [reflexivity|]. cbn. intros V. apply andb_prop in V as [V1 V2].
  rewrite (A x ctx [v] H) by (cbn; now rewrite V1). now rewrite IH.
Qed.
Lemma subs_same : forall n pre ctx subs vs, esame n -> forallb (sall port1) subs = true -> forallb explicit_obj vs = true ->
  enc_subs (E1 n) pre ctx subs vs = enc_subs (E2 n) pre ctx subs vs.
Proof.
  intros n pre ctx subs vs A. revert vs. induction subs as [|x subs IH]; intros vs H V; [reflexivity|].
  cbn in H. apply andb_prop in H as [H1 H2]. cbn [enc_subs].
  destruct (oresolve true pre x) as [x'|] eqn:R; [|reflexivity]. cbn [rbind].
  assert (HX : sall port1 x' = true).
  { destruct pre as [o|]; cbn in R; [|now injection R as <-]. eapply res_port; eauto. }
  rewrite (A x' _ _ HX) by (now apply firstn_explicit). destruct (E2 n x' _ _); [|reflexivity]. cbn [rbind].
  now rewrite IH by (auto; now apply skipn_explicit).
Qed.
Lemma obj_same : forall n c ov d, esame n -> explicit_obj (VObj c ov d) = true ->
  enc_obj_step ct (E1 n) c ov d = enc_obj_step ct (E2 n) c ov d.
Proof.
  intros n c ov d A V. unfold enc_obj_step. destruct (ct c) as [cd|] eqn:C; [|reflexivity].
  destruct (resolve true (obj_ser cd ov) (PO c false d)) as [x|] eqn:R; [|reflexivity]. cbn [rbind].
  destruct (get_attrs (c_attrs cd) d) as [vs|] eqn:G; [|reflexivity]. cbn [rbind].
  cbn in V. apply andb_prop in V as [V1 V2]. apply A; [|eapply attrs_explicit; eauto].
  eapply res_port; [|exact R]. unfold obj_ser. destruct ov as [b|]; [apply wb_port; [exact V1|]|]; now apply (CLS c).
Qed.
Lemma enc_same : forall n, esame n.
Proof.
  induction n as [|n IH]; intros x ctx vs H V; [reflexivity|]. unfold E1, E2. cbn [enc]. fold E1 E2.
  destruct x; cbn [enc_step]; try reflexivity.
  - cbn in H. rewrite Bool.andb_true_r in H. now apply est_same.
  - cbn in H. rewrite Bool.andb_true_r in H. destruct (nth0 vs); [|reflexivity]. cbn [rbind].
    destruct (py_len a); [|reflexivity]. cbn [rbind]. destruct (dynchar_st st (Z.of_nat a0)) as [st'|] eqn:D; [|reflexivity].
    cbn [rbind]. apply est_same. eapply portable_dynchar; eauto.
  - destruct (nth0 vs); [|reflexivity]. cbn [rbind]. destruct (as_bytes a) as [raw|]; [|reflexivity]. cbn [rbind].
    destruct (ss_matmul single_char _) as [o|] eqn:D; [|reflexivity]. cbn [rbind]. apply eost_same.
    now apply portable_matmul_char in D as [D _].
  - discriminate H.
  - cbn in H. destruct (nth0 vs) as [v|]; [|reflexivity]. cbn [rbind]. destruct v; try reflexivity.
    destruct (cod_enc cd s); [|reflexivity]. cbn [rbind]. now apply IH.
  - cbn in H. rewrite Bool.andb_true_r in H. destruct (nth0 vs) as [v|]; [|reflexivity]. cbn [rbind].
    destruct (py_len v); [|reflexivity]. cbn [rbind]. destruct (negb _); [reflexivity|].
    destruct (py_iter v); [|reflexivity]. cbn [rbind]. destruct (ss_mul item _) as [o|] eqn:D; [|reflexivity].
    cbn [rbind]. apply eost_same. eapply portable_mul; eauto.
  - cbn in H. rewrite Bool.andb_true_r in H. destruct (nth0 vs) as [v|]; [|reflexivity]. cbn [rbind].
    destruct (py_len v); [|reflexivity]. cbn [rbind]. destruct (dynarr_st cnt item (Z.of_nat a)) as [st|] eqn:D; [|reflexivity].
    cbn [rbind]. destruct (py_iter v); [|reflexivity]. cbn [rbind]. apply est_same. eapply portable_dynarr; eauto.
  - cbn in H. apply andb_prop in H as [H1 H2]. destruct (resolve true x ctx) as [x'|] eqn:R; [|reflexivity]. cbn [rbind].
    destruct (nth0 vs) as [v|] eqn:N0; [|reflexivity]. cbn [rbind]. destruct (py_iter v) as [l|] eqn:I; [|reflexivity]. cbn [rbind].
    rewrite (items_same n x' ctx l IH) by (eauto using res_port, iter_explicit, nth0_explicit).
    destruct (enc_items _ _ _ _); [|reflexivity]. cbn [rbind]. destruct (py_len v); [|reflexivity]. cbn [rbind].
    destruct (header_pack_values _ _ _ _); [|reflexivity]. cbn [rbind]. now rewrite eost_same.
  - cbn in H. destruct (one vs TypeError) as [v|] eqn:O; [|reflexivity]. cbn [rbind].
    destruct (resolve true x ctx) as [x'|] eqn:R; [|reflexivity]. cbn [rbind].
    destruct (py_iter v) as [l|] eqn:I; [|reflexivity]. cbn [rbind]. apply IH; eauto using res_port, iter_explicit, one_explicit.
  - cbn in H. apply andb_prop in H as [H1 H2].
    destruct (dec ctx); [|reflexivity]. cbn [rbind]. destruct (choose rmap dflt a) as [s0|] eqn:C; [|reflexivity].
    cbn [rbind]. destruct (resolve true s0 ctx) as [x'|] eqn:R; [|reflexivity]. cbn [rbind].
    apply IH; [|exact V]. eapply res_port; [|exact R]. eapply choose_sall; eauto.
  - cbn in H. apply andb_prop in H as [H H2]. apply andb_prop in H as [H0 H1].
    destruct (dec ctx); [|reflexivity]. cbn [rbind]. destruct (choose rmap dflt a) as [s0|] eqn:C; [|reflexivity].
    cbn [rbind]. destruct (resolve true s0 ctx) as [x'|] eqn:R; [|reflexivity]. cbn [rbind].
    apply IH; [|exact V]. eapply res_port; [|exact R]. eapply choose_sall; eauto.
  - destruct (one vs TypeError) as [v|] eqn:O; [|reflexivity]. cbn [rbind]. destruct v; try reflexivity.
    destruct (allow cls c); [|reflexivity]. apply obj_same; [exact IH|]. eapply one_explicit; eauto.
  - cbn in H. now apply subs_same.
  - cbn in H. now apply subs_same.
Qed.
Lemma enc_obj_same : forall n v, explicit_obj v = true -> enc_obj true ct allow n v = enc_obj false ct allow n v.
Proof. intros n v V. destruct v; try reflexivity. cbn [enc_obj]. apply obj_same; [apply enc_same|exact V]. Qed.

(** ** decoding *)
Variable md : umode.
Let D1 := dec true ct md.
Let D2 := dec false ct md.
Definition dsame (n : nat) : Prop := forall x ctx b, sall port1 x = true -> D1 n x ctx b = D2 n x ctx b.
Lemma ditems_same : forall n x ctx k b, dsame n -> sall port1 x = true ->
  dec_items (D1 n) x ctx k b = dec_items (D2 n) x ctx k b.
Proof.
  intros n x ctx k b A H. revert b. induction k as [|k IH]; intros b; [reflexivity|]. cbn [dec_items].
  rewrite (A x ctx b H). destruct (D2 n x ctx b) as [[vs z]|]; [|reflexivity]. cbn [rbind]. now rewrite IH.
Qed.
Lemma dsubs_same : forall n pre ctx subs b, dsame n -> forallb (sall port1) subs = true ->
  dec_subs (D1 n) pre ctx subs b = dec_subs (D2 n) pre ctx subs b.
Proof.
  intros n pre ctx subs b A. revert b. induction subs as [|x subs IH]; intros b H; [reflexivity|].
  cbn in H. apply andb_prop in H as [H1 H2]. cbn [dec_subs].
  destruct (oresolve false pre x) as [x'|] eqn:R; [|reflexivity]. cbn [rbind].
  assert (HX : sall port1 x' = true).
  { destruct pre as [o|]; cbn in R; [|now injection R as <-]. eapply res_port; eauto. }
  rewrite (A x' _ b HX). destruct (D2 n x' _ b) as [[vs z]|]; [|reflexivity]. cbn [rbind]. now rewrite IH.
Qed.
Lemma dfill_subs_same : forall n pre ctx subs b names d, dsame n -> forallb (sall port1) subs = true ->
  dfill_subs (D1 n) pre ctx subs b names d = dfill_subs (D2 n) pre ctx subs b names d.
Proof.
  intros n pre ctx subs b names d A. revert b names d. induction subs as [|x subs IH]; intros b names d H; [reflexivity|].
  cbn in H. apply andb_prop in H as [H1 H2]. cbn [dfill_subs]. cbv zeta.
  set (pre' := option_map (fun o => PO (p_cls o) (p_proxy o) d) pre).
  destruct (oresolve false pre' x) as [x'|] eqn:R; [|reflexivity]. cbn [rbind].
  assert (HX : sall port1 x' = true).
  { destruct pre as [o|]; cbn in R; [|now injection R as <-]. eapply res_port; eauto. }
  rewrite (A x' _ b HX). destruct (D2 n x' _ b) as [[vs z]|]; [|reflexivity].
  destruct (assign names vs d) as [[nm|] d']; [|reflexivity]. now rewrite IH.
Qed.
Lemma dfill_same : forall n x ctx b names d, dsame n -> sall port1 x = true ->
  dfill (D1 n) x ctx b names d = dfill (D2 n) x ctx b names d.
Proof.
  intros n x ctx b names d A H.
  destruct x; cbn [dfill]; try (rewrite (A _ _ _ H); reflexivity); cbn in H; now rewrite dfill_subs_same.
Qed.
Lemma create_same : forall n c b, dsame n -> dcreate_step ct (D1 n) c b = dcreate_step ct (D2 n) c b.
Proof.
  intros n c b A. unfold dcreate_step. destruct (ct c) as [cd|] eqn:E; [|reflexivity].
  destruct (resolve false (c_ser cd) (PO c true [])) as [x|] eqn:R; [|reflexivity]. cbn [rbind].
  rewrite dfill_same; [reflexivity|exact A|]. eapply res_port; [exact (CLS c cd E)|exact R].
Qed.
Lemma dec_same : forall n, dsame n.
Proof.
  induction n as [|n IH]; intros x ctx b H; [reflexivity|]. unfold D1, D2. cbn [dec]. fold D1 D2.
  destruct x; cbn [dec_step]; try reflexivity.
  - cbn in H. rewrite Bool.andb_true_r in H. now rewrite dst_same, size_same.
  - cbn in H. rewrite Bool.andb_true_r in H. rewrite dst_same, size_same by exact H.
    destruct (dst false st b); [|reflexivity]. cbn [rbind]. destruct (nth0 a); [|reflexivity]. cbn [rbind].
    destruct (as_int a0); [|reflexivity]. cbn [rbind]. destruct (ss_matmul single_char a1) as [o|] eqn:M; [|reflexivity].
    cbn [rbind]. rewrite dost_same; [reflexivity|]. now apply portable_matmul_char in M as [M _].
  - discriminate H.
  - cbn in H. now rewrite (IH x ctx b H).
  - cbn in H. rewrite Bool.andb_true_r in H. destruct (ss_mul item _) as [o|] eqn:M; [|reflexivity]. cbn [rbind].
    rewrite dost_same by (eapply portable_mul; eauto). now rewrite osize_same.
  - cbn in H. rewrite Bool.andb_true_r in H. destruct (portable2_both _ _ H) as [HC HI].
    rewrite dst_same, size_same by exact HC. destruct (dst false cnt b); [|reflexivity]. cbn [rbind].
    destruct (one a ValueError); [|reflexivity]. cbn [rbind]. destruct (as_int a0); [|reflexivity]. cbn [rbind].
    destruct (ss_mul item a1) as [o|] eqn:M; [|reflexivity]. cbn [rbind].
    rewrite dost_same by (eapply portable_mul; eauto). now rewrite osize_same.
  - cbn in H. apply andb_prop in H as [H1 H2]. rewrite dost_same, osize_same by exact H1.
    destruct (dost false hdr b); [|reflexivity]. cbn [rbind].
    destruct (header_unpack_values hdr static a) as [[k ds]|]; [|reflexivity]. cbn [rbind].
    destruct (resolve false x ctx) as [x'|] eqn:R; [|reflexivity]. cbn [rbind].
    rewrite (ditems_same n x' ctx _ _ IH (res_port _ _ _ _ H2 R)). reflexivity.
  - cbn in H. destruct (resolve false x ctx) as [x'|] eqn:R; [|reflexivity]. cbn [rbind].
    now rewrite (IH x' ctx b (res_port _ _ _ _ H R)).
  - cbn in H. apply andb_prop in H as [H1 H2].
    destruct (dec ctx); [|reflexivity]. cbn [rbind]. destruct (choose rmap dflt a) as [s0|] eqn:C; [|reflexivity].
    cbn [rbind]. destruct (resolve false s0 ctx) as [x'|] eqn:R; [|reflexivity]. cbn [rbind].
    apply IH. eapply res_port; [|exact R]. eapply choose_sall; eauto.
  - cbn in H. apply andb_prop in H as [H H2]. apply andb_prop in H as [H0 H1].
    rewrite (IH x ctx b H0). destruct (D2 n x ctx b) as [[rs k]|]; [|reflexivity]. cbn [rbind].
    destruct (nth0 rs); [|reflexivity]. cbn [rbind]. destruct (choose rmap dflt a) as [s0|] eqn:C; [|reflexivity].
    cbn [rbind]. destruct (resolve false s0 ctx) as [x'|] eqn:R; [|reflexivity]. cbn [rbind].
    apply IH. eapply res_port; [|exact R]. eapply choose_sall; eauto.
  - now rewrite (create_same n cls b IH).
  - cbn in H. now apply dsubs_same.
  - cbn in H. now apply dsubs_same.
Qed.
Lemma dcreate_same : forall n c b, dcreate true ct md n c b = dcreate false ct md n c b.
Proof. intros n c b. apply create_same, dec_same. Qed.
End Same.
