(** What was read is read again from its layout. *)
From Verif Require Import Base Floats FloatFacts Value StructMod Format Ser Exec Pure BaseFacts SerFacts DecFacts Wire Hints HintFacts Surface SerShape Programs Accept AcceptProg
  WireSpec WireFacts ReadSpec ReadFacts Reads TypeSpec Typed LocalSpec Locals BackSpec Backs SteadySpec.
Open Scope string_scope. Open Scope list_scope. Open Scope Z_scope.

(** ** places *)
Lemma adv_front : forall (y z : bytes), adv (blen y) (y ++ z) = z.
Proof. intros y z. unfold adv, blen. rewrite Nat2Z.id, skipn_app, skipn_all, Nat.sub_diag. reflexivity. Qed.
Lemma blen_app' : forall (a b : bytes), blen (a ++ b) = blen a + blen b.
Proof. intros. unfold blen. rewrite app_length. lia. Qed.
Lemma zeros_len : forall n, List.length (zeros n) = n.
Proof. intros. unfold zeros. apply repeat_length. Qed.
Lemma at_again : forall m w n off y rest f, List.length y = n ->
  at_ m w n off (lay (m_native m) off [Atom w y] ++ rest) f = Some (f y, endof (m_native m) off [Atom w y], blen (lay (m_native m) off [Atom w y])).
Proof.
  intros m w n off y rest f L. unfold at_. cbn [lay endof]. cbv zeta. set (g := if m_native m then _ else _). rewrite app_nil_r.
  assert (Q : (g + n <=? List.length ((zeros g ++ y) ++ rest))%nat = true) by (apply Nat.leb_le; rewrite !app_length, zeros_len; lia). rewrite Q.
  rewrite <- app_assoc, skipn_app, skipn_all2 by (rewrite zeros_len; lia). rewrite zeros_len, Nat.sub_diag. cbn [skipn app].
  rewrite firstn_app, L, Nat.sub_diag. cbn [firstn]. rewrite app_nil_r, <- L, firstn_all. unfold blen. rewrite app_length, zeros_len. reflexivity.
Qed.
Lemma uint_again : forall big n z, 0 <= z < 256 ^ Z.of_nat n -> uint_of big (uint_bytes big n z) = z.
Proof.
  intros big n z R. rewrite uint_dec. transitivity (int_dec big (int_enc big n z)); [f_equal; symmetry; apply int_enc_bytes|].
  rewrite int_dec_enc. apply Z.mod_small. rewrite Z.pow_mul_r by lia. exact R.
Qed.
Lemma greatest_room : forall c z, size_code c = true -> z <= greatest c -> z < 256 ^ Z.of_nat (wsize c).
Proof. intros c z SC L. destruct c; try discriminate SC; cbn in *; lia. Qed.
Lemma number_again : forall m c off z h rest, size_code c = true -> 0 <= z -> number m c z = Some h ->
  number_at m c off (lay (m_native m) off h ++ rest) = Some (z, endof (m_native m) off h, blen (lay (m_native m) off h)).
Proof.
  intros m c off z h rest SC Z0 E. unfold number in E. destruct (z <=? greatest c) eqn:Q; [|discriminate]. injection E as <-. unfold number_at.
  rewrite at_again by apply uint_bytes_length. rewrite uint_again; [reflexivity|]. split; [exact Z0|]. apply greatest_room; [exact SC|lia].
Qed.
Lemma lay_false : forall al h m c z, number m c z = Some h -> lay false 0 h = lay al 0 h.
Proof.
  intros al h m c z E. unfold number in E. destruct (_ <=? _); [|discriminate]. injection E as <-. cbn [lay]. rewrite Nat.mod_0_l by (destruct c; cbn; lia).
  rewrite Nat.sub_0_r, Nat.mod_same by (destruct c; cbn; lia). now destruct al.
Qed.
(** a NaN is quieted once *)
Lemma nan_stable : forall eb mb x, 2 <= eb <= 10 -> 1 <= mb <= 51 -> 0 <= x < 2 ^ (1 + eb + mb) -> nan_in eb mb x = true ->
  exists z, narrow eb mb (widen eb mb x) = Some z /\ 0 <= z < 2 ^ (1 + eb + mb) /\ widen eb mb z = widen eb mb x.
Proof.
  intros eb mb x EB MB X NN.
  set (s := x / 2 ^ (eb + mb)). set (e := (x / 2 ^ mb) mod 2 ^ eb). set (m := x mod 2 ^ mb).
  assert (PE : 0 < 2 ^ eb) by (apply Z.pow_pos_nonneg; lia). assert (PM : 0 < 2 ^ mb) by (apply Z.pow_pos_nonneg; lia).
  assert (PEM : 2 ^ (eb + mb) = 2 ^ eb * 2 ^ mb) by (apply Z.pow_add_r; lia).
  assert (P1 : 2 ^ (1 + eb + mb) = 2 * 2 ^ (eb + mb)) by (rewrite <- Z.pow_succ_r by lia; f_equal; lia).
  assert (HM : 0 <= m < 2 ^ mb) by (apply Z.mod_pos_bound; lia).
  assert (HS : 0 <= s < 2) by (unfold s; split; [apply Z.div_pos; lia|apply Z.div_lt_upper_bound; lia]).
  assert (PK : 2 ^ 52 = 2 ^ mb * 2 ^ (52 - mb)) by (rewrite <- Z.pow_add_r by lia; f_equal; lia). assert (P2 : 0 < 2 ^ (52 - mb)) by (apply Z.pow_pos_nonneg; lia).
  assert (PH : 2 ^ mb = 2 * 2 ^ (mb - 1) /\ 0 < 2 ^ (mb - 1)) by (split; [rewrite <- Z.pow_succ_r by lia; f_equal; lia|apply Z.pow_pos_nonneg; lia]). destruct PH as [PH PH0].
  unfold nan_in in NN. fold e m in NN. apply andb_prop in NN as [NE NM]. apply negb_true_iff in NM.
  set (pl := nan_payload mb m). assert (NP : 0 < pl < 2 ^ mb) by (unfold pl, nan_payload; destruct (mb =? 10); [lia|]; destruct (m <? 2 ^ (mb - 1)) eqn:Q; lia).
  assert (NI : nan_payload mb pl = pl).
  { unfold pl, nan_payload. destruct (mb =? 10); [reflexivity|]. destruct (m <? 2 ^ (mb - 1)) eqn:Q; [destruct (m + 2 ^ (mb - 1) <? 2 ^ (mb - 1)) eqn:Q2; lia|now rewrite Q]. }
  assert (WX : widen eb mb x = s * 2 ^ 63 + 2047 * 2 ^ 52 + pl * 2 ^ (52 - mb)) by (unfold widen; fold s e m; rewrite NE, NM; reflexivity).
  assert (PB : 0 < pl * 2 ^ (52 - mb) < 2 ^ 52) by (rewrite PK; split; [apply Z.mul_pos_pos|apply Z.mul_lt_mono_pos_r]; lia).
  destruct (FloatFacts.fields s 2047 (pl * 2 ^ (52 - mb)) ltac:(lia) ltac:(lia) ltac:(lia)) as (F1 & F2 & F3). cbv zeta in F1, F2, F3.
  assert (BA : 2 ^ mb <= 2 ^ (eb + mb)) by (apply Z.pow_le_mono_r; lia). assert (MA : (2 ^ eb - 1) * 2 ^ mb = 2 ^ (eb + mb) - 2 ^ mb) by (rewrite PEM; ring).
  exists (s * 2 ^ (eb + mb) + (2 ^ eb - 1) * 2 ^ mb + pl).
  set (z := s * 2 ^ (eb + mb) + (2 ^ eb - 1) * 2 ^ mb + pl).
  split; [|split].
  - rewrite WX. unfold narrow. rewrite F1, F2, F3. cbn [Z.eqb Pos.eqb]. destruct (pl * 2 ^ (52 - mb) =? 0) eqn:Q; [lia|]. rewrite Z.div_mul by lia. now rewrite NI.
  - clearbody s pl. unfold z. rewrite P1, MA. assert (SS : s = 0 \/ s = 1) by (clear -HS; lia). clear -SS BA NP PM. destruct SS as [-> | ->]; lia.
  - assert (Z1 : z / 2 ^ (eb + mb) = s) by (symmetry; apply (Z.div_unique_pos z (2 ^ (eb + mb)) s ((2 ^ eb - 1) * 2 ^ mb + pl)); [rewrite MA; clear -BA NP PM; lia|unfold z; ring]).
    assert (Z2 : z / 2 ^ mb = s * 2 ^ eb + (2 ^ eb - 1)) by (symmetry; apply (Z.div_unique_pos z (2 ^ mb) _ pl); [clear -NP; lia|unfold z; rewrite PEM; ring]).
    assert (Z3 : z mod 2 ^ mb = pl) by (symmetry; apply (Z.mod_unique_pos z (2 ^ mb) (s * 2 ^ eb + (2 ^ eb - 1)) pl); [clear -NP; lia|unfold z; rewrite PEM; ring]).
    rewrite WX. unfold widen. rewrite Z1, Z2, Z3. rewrite Z.add_comm, Z.mod_add by lia. rewrite Z.mod_small by lia. rewrite Z.eqb_refl.
    destruct (pl =? 0) eqn:Q; [lia|]. now rewrite NI.
Qed.
Lemma float_stable_f : forall x, 0 <= x < 2 ^ 32 -> exists z, narrow 8 23 (widen 8 23 x) = Some z /\ 0 <= z < 2 ^ 32 /\ widen 8 23 z = widen 8 23 x.
Proof.
  intros x X. destruct (is_nan (widen 8 23 x)) eqn:N; [|exists x; split; [now apply narrow_widen_f|auto]].
  rewrite (widen_nan 8 23) in N by (try (unfold bias); lia). apply (nan_stable 8 23); lia || assumption.
Qed.
Lemma float_stable_e : forall x, 0 <= x < 2 ^ 16 -> exists z, narrow 5 10 (widen 5 10 x) = Some z /\ 0 <= z < 2 ^ 16 /\ widen 5 10 z = widen 5 10 x.
Proof.
  intros x X. destruct (is_nan (widen 5 10 x)) eqn:N; [|exists x; split; [now apply narrow_widen_e|auto]].
  rewrite (widen_nan 5 10) in N by (try (unfold bias); lia). apply (nan_stable 5 10); lia || assumption.
Qed.
Lemma scalar_again : forall m c y z, basic_code c = true -> List.length y = wsize c ->
  scalar m c (scalar_of m c y) = Some z -> List.length z = wsize c /\ scalar_of m c z = scalar_of m c y.
Proof.
  intros m c y z BC L E. pose proof (uint_range (m_big m) y) as UR. unfold blen in UR. rewrite L in UR.
  destruct (match c with Cbool | Ce | Cf => true | _ => false end) eqn:Q.
  - destruct c; try discriminate Q; cbn [scalar scalar_of truthy as_float] in *.
    + injection E as <-. destruct (uint_of (m_big m) y =? 0); destruct (m_big m); auto.
    + destruct (float_stable_e _ UR) as (u & NU & RU & WU). rewrite NU in E. match type of E with Some ?r = _ => assert (z = r) as -> by congruence end.
      split; [apply uint_bytes_length|]. rewrite (uint_again (m_big m) 2 u RU). now rewrite WU.
    + destruct (float_stable_f _ UR) as (u & NU & RU & WU). rewrite NU in E. match type of E with Some ?r = _ => assert (z = r) as -> by congruence end.
      split; [apply uint_bytes_length|]. rewrite (uint_again (m_big m) 4 u RU). now rewrite WU.
  - assert (z = y) as ->; [|auto]. destruct (match c with Cd => true | _ => false end) eqn:QD.
    + destruct c; try discriminate QD. cbn [scalar scalar_of as_float] in E. match type of E with Some ?r = _ => assert (z = r) as -> by congruence end.
      pose proof (uint_back (m_big m) y) as UB. rewrite L in UB. exact UB.
    + rewrite scalar_back in E; [congruence|exact BC|destruct c; discriminate|exact L|]. destruct c; try discriminate Q; try discriminate QD; reflexivity.
Qed.
Lemma pascal_again : forall n y, List.length y = n -> (1 <= n)%nat -> List.length (pascal n (pascal_of y)) = n /\ pascal_of (pascal n (pascal_of y)) = pascal_of y.
Proof.
  intros n y L N. destruct y as [|x r]; [cbn in L; lia|]. cbn [List.length] in L. cbn [pascal_of]. set (s := firstn (Z.to_nat (zb x)) r).
  assert (LS : (List.length s <= n - 1 /\ List.length s <= 255)%nat) by (unfold s; rewrite firstn_length; pose proof (zb_range x); lia).
  unfold pascal. cbn [List.length pascal_of]. split.
  - unfold fixed. rewrite app_length, zeros_len, firstn_length. lia.
  - rewrite zb_bz. rewrite Nat.min_r by lia. rewrite Z.min_r by lia. rewrite Z.mod_small by lia. rewrite Nat2Z.id. unfold fixed.
    rewrite firstn_app, firstn_firstn, Nat.min_l by lia. rewrite firstn_all. rewrite firstn_length, Nat.min_r by lia. rewrite Nat.sub_diag. cbn [firstn]. apply app_nil_r.
Qed.
Lemma net_again : forall n l rest, 0 <= n -> net_length false n = Some l -> net_of false (l ++ rest) = Some (n, blen l).
Proof.
  intros n l rest N E. unfold net_length in E. destruct (n <? 128) eqn:Q; [|destruct (n <=? 32767) eqn:Q2; [|discriminate]]; match type of E with Some ?y = _ => assert (l = y) as -> by congruence end; clear E.
  - cbn [app net_of]. rewrite zb_bz, Z.mod_small by lia. rewrite Q. reflexivity.
  - set (u := 128 + n mod 128 + 256 * (n / 128)).
    assert (U : 0 <= u < 256 ^ Z.of_nat 2). { change (256 ^ Z.of_nat 2) with 65536. unfold u. pose proof (Z.mod_pos_bound n 128 ltac:(lia)). pose proof (Z.div_mod n 128 ltac:(lia)). lia. }
    pose proof (uint_again false 2 u U) as UA. pose proof (uint_bytes_length false 2 u) as LU.
    destruct (uint_bytes false 2 u) as [|x [|y []]] eqn:EU; try discriminate LU. unfold net_of. cbn [app].
    assert (X : zb x = u mod 256). { unfold uint_of in UA. cbn [digits] in UA. pose proof (zb_range x). pose proof (zb_range y). rewrite <- UA. rewrite Z.mul_add_distr_l. 
      replace (zb x + (256 * zb y + 256 * (256 * 0))) with (zb x + zb y * 256) by lia. rewrite Z.mod_add by lia. now rewrite Z.mod_small by lia. }
    assert (X2 : u mod 256 = 128 + n mod 128). { unfold u. replace (256 * (n / 128)) with ((n / 128) * 256) by lia. rewrite Z.mod_add by lia. apply Z.mod_small. pose proof (Z.mod_pos_bound n 128 ltac:(lia)). lia. }
    assert (XL : zb x <? 128 = false) by (pose proof (Z.mod_pos_bound n 128 ltac:(lia)); lia). rewrite XL. rewrite UA. cbv zeta. change (blen [x; y]) with 2. do 2 f_equal.
    assert (U1 : u mod 128 = n mod 128). { unfold u. replace (128 + n mod 128 + 256 * (n / 128)) with (n mod 128 + (1 + 2 * (n / 128)) * 128) by lia. rewrite Z.mod_add by lia. now rewrite Z.mod_mod by lia. }
    assert (U2 : u / 256 = n / 128). { unfold u. replace (256 * (n / 128)) with ((n / 128) * 256) by lia. rewrite Z.div_add by lia. rewrite Z.div_small; [lia|]. pose proof (Z.mod_pos_bound n 128 ltac:(lia)). lia. }
    rewrite U1, U2. pose proof (Z.div_mod n 128 ltac:(lia)). lia.
Qed.
Lemma until_again : forall t s rest, ~ In t s -> until t (s ++ t :: rest) = Some s.
Proof.
  intros t s rest. induction s as [|x s IH]; intros N; cbn [app until].
  - assert (Q : Byte.eqb t t = true) by (apply byte_eqb_true; reflexivity). now rewrite Q.
  - destruct (Byte.eqb x t) eqn:Q; [apply byte_eqb_true in Q; exfalso; apply N; now left|]. rewrite IH; [reflexivity|]. intros I. apply N. now right.
Qed.
Lemma cut_again : forall sh s rest, cut sh (blen s) (s ++ rest) = Some s.
Proof.
  intros sh s rest. unfold cut. assert (Q : sh || (blen s <=? blen (s ++ rest)) = true) by (rewrite blen_app'; pose proof (blen_nonneg rest); destruct sh; cbn; lia). rewrite Q.
  unfold blen. rewrite Nat2Z.id, firstn_app, Nat.sub_diag, firstn_all. cbn [firstn]. now rewrite app_nil_r.
Qed.
(** strings: which ones are read again, and what is read *)
Definition kept (hb : bool) (md : umode) (a : carg) (s : bytes) : Prop :=
  match a with
  | KInt n => 0 < n
  | KUint c => size_code c = true /\ (md = UBuf \/ s <> [])
  | KBytes t => exists x, t = [x] /\ ~ In x s
  | KNet => hb = false
  | KInf => False
  end.
Lemma string_again : forall hb md m a s cs off rest, kept hb md a s -> string_chunks hb m a s = Some cs ->
  string_of hb md m a off (lay (m_native m) off cs ++ rest) =
  Some ([VBytes (match a with KInt n => fixed (Z.to_nat n) s | _ => s end)], endof (m_native m) off cs, blen (lay (m_native m) off cs)).
Proof.
  intros hb md m a s cs off rest K E. destruct a as [c|n|t| |]; cbn [kept string_chunks string_of] in *.
  - destruct K as [SC EM]. destruct (number m c (blen s)) as [h|] eqn:N; [|discriminate]. injection E as <-. cbn [lay endof]. rewrite app_nil_r.
    rewrite (lay_false (m_native m) h m c _ N). rewrite <- app_assoc. rewrite (number_again m c 0 (blen s) h _ SC (blen_nonneg s) N).
    rewrite adv_front, cut_again. cbn [block]. do 3 f_equal; [|now rewrite blen_app']. destruct md; try reflexivity; cbn [negb andb];
      (destruct (blen s =? 0) eqn:Q; [destruct EM as [EM|EM]; [discriminate|destruct s; [congruence|unfold blen in Q; cbn in Q; lia]]|reflexivity]).
  - destruct (n =? 0) eqn:Q; [lia|]. injection E as <-. apply at_again. unfold fixed. rewrite app_length, zeros_len, firstn_length. lia.
  - destruct K as (x & -> & NI). injection E as <-. cbn [lay endof]. rewrite app_nil_r. rewrite <- app_assoc. cbn [app]. rewrite until_again by exact NI. cbn [block]. now rewrite blen_app'.
  - contradiction.
  - subst hb. destruct (net_length false (blen s)) as [l|] eqn:N; [|discriminate]. injection E as <-. cbn [lay endof]. rewrite app_nil_r, <- app_assoc.
    rewrite (net_again _ _ _ (blen_nonneg s) N), adv_front, cut_again. cbn [block]. now rewrite blen_app'.
Qed.

(** ** hint expressions *)
Section Main.
Variables (hb : bool) (md : umode) (rec : nat -> bytes -> option (value * Z)) (rec' : nat -> option border -> list (string * value) -> option bytes).
Variable P : nat -> bool.
Hypothesis RB : forall c b v k, P c = true -> rec c b = Some (v, k) ->
  exists d, v = VObj c None d /\ forall y, rec' c None d = Some y -> forall rest, rec c (y ++ rest) = Some (v, blen y).
(** the object while reading, and when written *)
Variables (c0 : nat) (d0 d1 : list (string * value)).
Hypothesis PS : P c0 = true.
Hypothesis KN : forall a v, assoc a d0 = Some v -> assoc a d1 = Some v.
Notation o := (PO c0 true d0). Notation p := (PO c0 false d1).

Definition once_more (m : mode) (x : hx) (vs : list value) (cs : list chunk) : Prop := forall off rest,
  read hb md rec o m x off (lay (m_native m) off cs ++ rest) = Some (vs, endof (m_native m) off cs, blen (lay (m_native m) off cs)).
Definition again (x : hx) : Prop := forall m off b vs off' k, steady hb md P (m_native m) x = true -> answering x -> returning x ->
  read hb md rec o m x off b = Some (vs, off', k) ->
  (takes x = false -> vs = []) /\ (takes x = true -> (List.length vs <= 1)%nat /\ (single md x = true -> List.length vs = 1%nat)) /\
  forall cs, (takes x = true -> vs <> []) -> chunks hb rec' p m x (hd_error vs) = Some cs -> once_more m x vs cs.

Lemma more_block : forall m x vs y, (forall off rest, read hb md rec o m x off (y ++ rest) = Some (vs, 0%nat, blen y)) -> once_more m x vs [Block y].
Proof. intros m x vs y H off rest. cbn [lay endof]. rewrite app_nil_r. apply H. Qed.
(** items that are laid out one by one *)
Lemma items_again : forall x m, again x -> steady hb md P (m_native m) x = true -> takes x = true -> single md x = true -> answering x -> returning x ->
  forall n b vs k, items_of (read hb md rec o m x) false n 0 b = Some (vs, k) ->
  List.length vs = n /\ forall ls, omap (fun i => chunks hb rec' p m x (Some i)) vs = Some ls ->
    forall rest, items_of (read hb md rec o m x) false n 0 (concat (map (lay (m_native m) 0) ls) ++ rest) = Some (vs, blen (concat (map (lay (m_native m) 0) ls))).
Proof.
  intros x m AG ST TK SG AN RN. induction n as [|n IH]; intros b vs k E; cbn [items_of] in E.
  - injection E as <- <-. split; [reflexivity|]. intros ls L rest. injection L as <-. reflexivity.
  - destruct (read hb md rec o m x 0 b) as [[[v1 o1] k1]|] eqn:R; [|discriminate]. cbn in E.
    destruct (items_of _ false n 0 (adv k1 b)) as [[v2 k2]|] eqn:I; [|discriminate]. injection E as <- <-.
    destruct (AG m 0%nat b v1 o1 k1 ST AN RN R) as (_ & LN & CH). destruct (LN TK) as [_ LN']. specialize (LN' SG). destruct v1 as [|v [|]]; try discriminate LN'.
    destruct (IH _ _ _ I) as [LL IT]. split; [cbn; now rewrite LL|]. intros ls OM rest. cbn [app omap] in OM.
    destruct (chunks hb rec' p m x (Some v)) as [cs|] eqn:CE; [|discriminate]. destruct (omap _ v2) as [ls'|] eqn:OM'; [|discriminate]. injection OM as <-.
    cbn [map concat items_of]. rewrite <- app_assoc. rewrite (CH cs ltac:(discriminate) CE 0%nat). rewrite adv_front. rewrite (IT ls' eq_refl rest). now rewrite blen_app'.
Qed.
(** items that are laid out together: one atom each *)
Lemma packed_atom : forall m x v cs, packed x = true -> steady hb md P (m_native m) x = true -> chunks hb rec' p m x (Some v) = Some cs ->
  exists y j, cs = [Atom (width x) y] /\ List.length y = (j * width x)%nat.
Proof.
  intros m x v cs PK ST E. destruct x; try discriminate PK; try discriminate ST.
  - cbn [chunks] in E. destruct (scalar m c v) as [y|] eqn:SE; [|discriminate]. injection E as <-. exists y, 1%nat.
    change (width (XBasic c)) with (wsize c). split; [reflexivity|]. rewrite Nat.mul_1_l.
    destruct c; try discriminate ST; cbn [scalar] in SE;
      repeat match type of SE with (match ?q with _ => _ end) = _ => destruct q; try discriminate end;
      try (injection SE as <-; first [reflexivity|apply uint_bytes_length]).
  - cbn [chunks] in E. unfold packed in PK. cbn in PK. destruct (n =? 0); [discriminate|]. destruct v; try discriminate. injection E as <-. eexists _, _. split; [reflexivity|]. cbn [width]. now rewrite Nat.mul_1_r.
  - destruct a as [cc|n|t| |]; try discriminate PK. unfold packed in PK. cbn in PK. destruct (n =? 0) eqn:Q; [discriminate|].
    cbn [chunks] in E. destruct n; try lia; destruct v; try discriminate; cbn [string_chunks] in E; try rewrite Q in E; cbn in E; injection E as <-; (eexists _, _; split; [reflexivity|]; cbn [width]; now rewrite Nat.mul_1_r).
Qed.
Lemma lay_one : forall al w off y, flush al w off = true -> lay al off [Atom w y] = y /\ endof al off [Atom w y] = (off + List.length y)%nat.
Proof.
  intros al w off y F. split; [rewrite lay_atom by exact F; cbn; apply app_nil_r|]. cbn [endof]. cbv zeta. unfold flush in F. destruct al; [|lia]. apply Nat.eqb_eq in F. rewrite F. lia.
Qed.
Lemma atoms_again : forall x m, again x -> packed x = true -> steady hb md P (m_native m) x = true -> takes x = true -> single md x = true -> answering x -> returning x ->
  forall n off b vs k, items_of (read hb md rec o m x) true n off b = Some (vs, k) ->
  List.length vs = n /\ forall ls, omap (fun i => chunks hb rec' p m x (Some i)) vs = Some ls -> forall off2 ofs rest,
    flush (m_native m) (width x) off2 = true -> flush (m_native m) (width x) ofs = true ->
    items_of (read hb md rec o m x) true n off2 (lay (m_native m) ofs (concat ls) ++ rest) = Some (vs, blen (lay (m_native m) ofs (concat ls))).
Proof.
  intros x m AG PK ST TK SG AN RN. induction n as [|n IH]; intros off b vs k E; cbn [items_of] in E.
  - injection E as <- <-. split; [reflexivity|]. intros ls L off2 ofs rest _ _. injection L as <-. reflexivity.
  - destruct (read hb md rec o m x off b) as [[[v1 o1] k1]|] eqn:R; [|discriminate]. cbn in E.
    destruct (items_of _ true n o1 (adv k1 b)) as [[v2 k2]|] eqn:I; [|discriminate]. injection E as <- <-.
    destruct (AG m off b v1 o1 k1 ST AN RN R) as (_ & LN & CH). destruct (LN TK) as [_ LN']. specialize (LN' SG). destruct v1 as [|v [|]]; try discriminate LN'.
    destruct (IH _ _ _ _ I) as [LL IT]. split; [cbn; now rewrite LL|]. intros ls OM off2 ofs rest F1 F2. cbn [app omap] in OM.
    destruct (chunks hb rec' p m x (Some v)) as [cs|] eqn:CE; [|discriminate]. destruct (omap _ v2) as [ls'|] eqn:OM'; [|discriminate]. injection OM as <-.
    destruct (packed_atom m x v cs PK ST CE) as (y & j & -> & LY). specialize (CH _ ltac:(discriminate) CE off2).
    destruct (lay_one _ _ _ y F1) as [G1 G2]. rewrite G1, G2 in CH. cbn [concat app]. rewrite lay_atom by exact F2. rewrite <- app_assoc. cbn [items_of]. rewrite CH, adv_front.
    rewrite (IT ls' eq_refl (off2 + List.length y)%nat (ofs + List.length y)%nat rest); [|rewrite LY; apply flush_next; [apply width_pos|exact F1]|rewrite LY; apply flush_next; [apply width_pos|exact F2]].
    now rewrite blen_app'.
Qed.
Lemma members_again : forall l, Forall again l -> (forall x, In x l -> answering x /\ returning x) ->
  forallb (fun y => steady hb md P true y && (negb (takes y) || single md y)) l = true -> forall off b vs k,
  members_of (read hb md rec o (machine hb)) l off b = Some (vs, k) ->
  forall cs, members (chunks hb rec' p (machine hb)) l vs = Some cs -> forall off2 rest,
  members_of (read hb md rec o (machine hb)) l off2 (lay true off2 cs ++ rest) = Some (vs, blen (lay true off2 cs)).
Proof.
  intros l GB. induction GB as [|x l GX GB IH]; intros AN ST off b vs k E cs CE off2 rest; cbn [members_of] in E.
  - injection E as <- <-. injection CE as <-. reflexivity.
  - cbn [forallb] in ST. apply andb_prop in ST as [S1 S2]. apply andb_prop in S1 as [S0 S1].
    destruct (read hb md rec o (machine hb) x off b) as [[[v1 o1] k1]|] eqn:R; [|discriminate]. cbn in E.
    destruct (members_of _ l o1 (adv k1 b)) as [[v2 k2]|] eqn:I; [|discriminate]. injection E as <- <-.
    destruct (AN x (or_introl eq_refl)) as [A1 A2]. destruct (GX (machine hb) off b v1 o1 k1 S0 A1 A2 R) as (T0 & T1 & CH).
    assert (V : (if takes x then hd_error (v1 ++ v2) else None) = hd_error v1 /\ (if takes x then tl (v1 ++ v2) else v1 ++ v2) = v2 /\ (takes x = true -> v1 <> [])).
    { destruct (takes x) eqn:TK; [|rewrite (T0 eq_refl); repeat split; discriminate]. destruct (T1 eq_refl) as [_ T2]. cbn [negb orb] in S1. specialize (T2 S1). destruct v1 as [|v [|]]; try discriminate T2.
      repeat split; discriminate. }
    destruct V as (V1 & V2 & V3). cbn [members] in CE. rewrite V1, V2 in CE. destruct (chunks hb rec' p (machine hb) x (hd_error v1)) as [ch|] eqn:CX; [|discriminate].
    destruct (members _ l v2) as [cs'|] eqn:CM; [|discriminate]. injection CE as <-. specialize (CH ch V3 eq_refl off2). cbn [machine m_native] in CH.
    rewrite lay_app, <- app_assoc. cbn [members_of]. fold (machine hb) in CH. rewrite CH, adv_front.
    rewrite (IH (fun y J => AN y (or_intror J)) S2 _ _ _ _ I cs' CM _ rest). now rewrite blen_app'.
Qed.
Lemma answer_late : forall f r, answers f -> f o = Ok r -> f p = Ok r.
Proof. intros f r A E. exact (A _ _ _ _ _ _ KN E). Qed.
Lemma pick_three : forall (f : hx -> option place) d k m r, pick_of f d k m = Some r ->
  exists y, ((exists q, In q m /\ y = snd q) \/ d = Some y) /\ f y = Some r /\ (forall g, pick g d k m = g y) /\ (forall g, pick_of g d k m = g y).
Proof.
  intros f d k m r. induction m as [|[k' y] m IH]; intros E; cbn [pick_of pick] in *.
  - destruct d as [y|]; [|discriminate]. exists y. auto.
  - destruct (key_eqb k k').
    + exists y. split; [left; exists (k', y); cbn; auto|]. auto.
    + destruct (IH E) as (z & IN & F & G & G'). exists z. split; [|auto]. destruct IN as [(q & I & Q)|D]; [left; exists q; cbn; auto|now right].
Qed.
Theorem all_again : forall x, again x.
Proof.
  induction x using hx_ind'; intros m' off b vs off' k' ST AN RN E; cbn [steady] in ST; cbn [read] in E; try discriminate ST.
  - cbn [takes]. split; [discriminate|]. destruct (at_typed _ _ _ _ _ _ _ _ _ E) as (y & LY & ->). split; [split; auto|]. intros cs _ CE. cbn [hd_error chunks] in CE.
    destruct (scalar m' c (scalar_of m' c y)) as [z|] eqn:SC; [|discriminate]. injection CE as <-. 
    destruct (scalar_again m' c y z ST LY SC) as [LZ SE]. intros off2 rest. cbn [read]. rewrite at_again by exact LZ. now rewrite SE.
  - cbn [takes]. assert (V : vs = []). { destruct (n =? 0); [congruence|]. now destruct (at_typed _ _ _ _ _ _ _ _ _ E) as (y & LY & ->). }
    split; [auto|]. split; [discriminate|]. intros cs _ CE off2 rest. rewrite V. cbn [read chunks] in *. injection CE as <-. destruct (n =? 0) eqn:Q; [reflexivity|].
    now rewrite at_again by (apply zeros_len).
  - cbn [takes]. destruct (n =? 0) eqn:Q.
    + injection E as <- <- <-. split; [auto|]. split; [discriminate|]. intros cs _ CE off2 rest. cbn [chunks read] in *. rewrite Q in *. injection CE as <-. reflexivity.
    + destruct (at_typed _ _ _ _ _ _ _ _ _ E) as (y & LY & ->). split; [discriminate|]. split; [auto|]. intros cs _ CE off2 rest. cbn [chunks read hd_error] in *. rewrite Q in *. injection CE as <-.
      destruct (pascal_again (Z.to_nat n) y LY ltac:(lia)) as [LP PP]. rewrite at_again by exact LP. now rewrite PP.
  - assert (KS : forall y, vs = [VBytes y] -> takes (XChar a) = true -> forall cs, string_chunks hb m' a y = Some cs -> kept hb md a y /\ match a with KInt n => fixed (Z.to_nat n) y = y | _ => True end).
    { intros y -> TK cs _. destruct a as [cc|n|t| |]; cbn [string_of kept takes] in *.
      - split; [|exact I]. split; [exact ST|]. destruct (number_at m' cc 0 b) as [[[z o1] j]|] eqn:N; [|discriminate]. destruct (cut _ z _) as [s|] eqn:C; [|discriminate].
        destruct (number_room _ _ _ _ _ _ _ N) as [Z0 _]. destruct (cut_len _ _ _ _ Z0 C) as [_ CL]. cbn [block] in E. destruct md; [now left| |]; cbn [negb andb] in *; right;
          (destruct (z =? 0) eqn:Q; [discriminate|]; injection E as <- _ _; specialize (CL eq_refl); intros ->; unfold blen in CL; cbn in CL; lia).
      - destruct (n =? 0) eqn:Q; [discriminate|]. split; [lia|]. destruct (at_typed _ _ _ _ _ _ _ _ _ E) as (y' & LY & V). injection V as ->. unfold fixed. rewrite <- LY, firstn_all, Nat.sub_diag. apply app_nil_r.
      - split; [|exact I]. destruct t as [|t []]; try discriminate. destruct (until t b) as [s|] eqn:U; [|discriminate]. injection E as <- _ _. exists t. split; [reflexivity|]. eapply until_absent; eauto.
      - discriminate ST.
      - split; [|exact I]. now apply negb_true_iff in ST. }
    assert (LV : (List.length vs <= 1)%nat /\ (takes (XChar a) = false -> vs = []) /\ (takes (XChar a) = true -> (single md (XChar a) = true -> List.length vs = 1%nat) /\ (vs <> [] -> exists y, vs = [VBytes y]))).
    { clear KS. destruct a as [cc|n|t| |]; cbn [string_of takes] in *.
      - destruct (number_at m' cc 0 b) as [[[z o1] j]|]; [|discriminate]. destruct (cut _ z _) as [s|]; [|discriminate]. cbn [block] in E. injection E as <- _ _. unfold single. cbn [surface].
        split; [destruct (_ && _); cbn; lia|]. split; [discriminate|]. intros _. split; [destruct md; [reflexivity|discriminate|discriminate]|]. destruct (_ && _); [congruence|eauto].
      - destruct (n =? 0) eqn:Q; cbn [negb]; [injection E as <- _ _; cbn; split; [lia|]; split; [auto|discriminate]|].
        destruct (at_typed _ _ _ _ _ _ _ _ _ E) as (y' & LY & ->). cbn. split; [lia|]. split; [discriminate|]. eauto.
      - destruct t as [|t []]; try discriminate. destruct (until t b) as [s|]; [|discriminate]. injection E as <- _ _. cbn. split; [lia|]. split; [discriminate|]. eauto.
      - discriminate ST.
      - destruct (net_of hb b) as [[z j]|]; [|discriminate]. destruct (cut _ z _) as [s|]; [|discriminate]. injection E as <- _ _. cbn. split; [lia|]. split; [discriminate|]. eauto. }
    destruct LV as (L1 & L2 & L3). split; [exact L2|]. split; [intros TK; split; [exact L1|exact (proj1 (L3 TK))]|].
    intros cs NE CE. destruct (takes (XChar a)) eqn:TK.
    + destruct (proj2 (L3 eq_refl) (NE eq_refl)) as [y ->]. cbn [hd_error] in CE.
      assert (SE : string_chunks hb m' a y = Some cs) by (destruct a as [|[]| | |]; try discriminate TK; exact CE). destruct (KS y eq_refl eq_refl cs SE) as [KP FX].
      intros off2 rest. cbn [read]. rewrite (string_again _ md _ _ _ _ off2 rest KP SE). destruct a; try reflexivity. now rewrite FX.
    + rewrite (L2 eq_refl) in *. destruct a as [cc|n|t| |]; try discriminate TK. cbn [takes] in TK. apply negb_false_iff in TK. assert (n = 0) as -> by lia. cbn [chunks] in CE. injection CE as <-. intros off2 rest. reflexivity.
  - cbn [takes]. split; [discriminate|]. destruct (string_of hb md (machine hb) a 0 b) as [[[ws o1] k1]|] eqn:SO; [|discriminate]. destruct ws as [|[ | | | |y| | | | | | ] ws]; try discriminate.
    destruct (cod_dec cd y) as [t|] eqn:DC; [|discriminate]. cbn [block] in E. injection E as <- <- <-. split; [split; auto|]. intros cs _ CE. cbn [hd_error chunks] in CE.
    destruct (cod_enc cd (strip t)) as [e|] eqn:EN; [|discriminate]. destruct (string_chunks hb (machine hb) a e) as [l|] eqn:SC; [|discriminate]. injection CE as <-.
    cbn [returning] in RN. destruct (RN y t e) as (NT & t' & DC' & TE); [| |exact DC|exact EN|].
    { intros n ->. cbn [string_of] in SO. destruct (n =? 0); [discriminate|]. destruct (at_typed _ _ _ _ _ _ _ _ _ SO) as (y' & LY & V). now injection V as -> _. }
    { intros x ->. cbn [string_of] in SO. destruct (until x b) as [s|] eqn:U; [|discriminate]. injection SO as <- _ _. eapply until_absent; eauto. }
    assert (KP : kept hb md a e).
    { destruct a as [cc|n|tt| |]; cbn [steady_text kept] in *.
      - apply andb_prop in ST as [S1 S2]. split; [exact S1|]. left. now destruct md.
      - lia.
      - cbn [string_of] in SO. destruct tt as [|x []]; try discriminate. exists x. split; [reflexivity|]. now apply NT.
      - discriminate.
      - now apply negb_true_iff in ST. }
    apply more_block. intros off2 rest. cbn [read]. pose proof (string_again hb md (machine hb) a e l 0%nat rest KP SC) as SA. cbn [machine m_native] in SA. fold (machine hb) in SA. rewrite SA, DC'. cbn [block]. now rewrite TE.
  - cbv zeta in ST. apply andb_prop in ST as [ST SX]. apply andb_prop in ST as [ST PK]. apply andb_prop in ST as [ST SG]. apply andb_prop in ST as [ST TK]. apply andb_prop in ST as [CN SZ].
    cbn [takes]. split; [discriminate|]. cbn [answering returning] in *. destruct (packed x) eqn:PX.
    + destruct (match n with inl z => Some (z, 0) | inr c => _ end) as [[cc k0]|] eqn:C; [|discriminate].
      destruct (items_of _ true _ 0 _) as [[l k1]|] eqn:I; [|discriminate]. cbn [block] in E. injection E as <- <- <-. split; [split; auto|].
       cbn [andb negb] in PK. rewrite Bool.negb_involutive in PK.
      destruct (atoms_again x m' IHx PX SX TK SG AN RN _ _ _ _ _ I) as [LL IT]. intros cs _ CE. cbn [hd_error chunks py_iter] in CE.
      destruct (omap _ l) as [ls|] eqn:OM; [|discriminate]. cbv zeta in CE.
      destruct (match n with inl z => _ | inr c => _ end) as [h|] eqn:HE in CE; [|discriminate]. rewrite PX in CE. injection CE as <-. apply more_block. intros off2 rest. cbn [read]. rewrite PX.
      assert (HD : (match n with inl z => Some (z, 0) | inr c => odo (z, _, k) <- number_at m' c 0 (lay (m_native m') 0 (h ++ concat ls) ++ rest); Some (z, k) end) =
            Some (Z.of_nat (List.length l), blen (lay (m_native m') 0 h)) /\ endof (m_native m') 0 h = (match n with inr c => wsize c | inl _ => 0%nat end)).
      { destruct n as [z|c].
        - destruct (Z.of_nat (List.length l) =? z) eqn:Q; [|discriminate]. injection HE as <-. apply Z.eqb_eq in Q. rewrite Q. auto.
        - rewrite lay_app, <- app_assoc. rewrite (number_again m' c 0 (Z.of_nat (List.length l)) h _ CN (Nat2Z.is_nonneg _) HE). split; [reflexivity|]. unfold number in HE. destruct (_ <=? _); [|discriminate]. injection HE as <-.
          destruct (lay_one (m_native m') (wsize c) 0 (uint_bytes (m_big m') (wsize c) (Z.of_nat (List.length l))) (flush_zero _ _ (wsize_pos c))) as [_ G]. rewrite G. now rewrite uint_bytes_length. }
      destruct HD as [HD HO]. rewrite HD. rewrite lay_app, <- app_assoc, adv_front, HO, Nat2Z.id.
      assert (NL : Z.to_nat cc = List.length l) by (symmetry; exact LL). rewrite NL in IT. rewrite (IT ls eq_refl 0%nat _ rest (flush_zero _ _ (width_pos x)) PK). cbn [block]. now rewrite blen_app'.
    + destruct (ready o x) eqn:RD; [|discriminate]. cbn [negb] in E.
      destruct (match n with inl z => Some (z, 0%nat, 0) | inr c => _ end) as [[[cc o0] k0]|] eqn:C; [|discriminate].
      destruct (match s with None => Some (None, 0) | Some c => _ end) as [[sz k1]|] eqn:D; [|discriminate].
      destruct (items_of _ false _ 0 _) as [[l k2]|] eqn:I; [|discriminate].
      destruct (match sz with Some z => z =? k2 | None => true end) eqn:SE; [|discriminate]. cbn [block] in E. injection E as <- <- <-. split; [split; auto|].
      
      destruct (items_again x m' IHx SX TK SG AN RN _ _ _ _ I) as [LL IT]. intros cs _ CE. cbn [hd_error chunks py_iter] in CE.
      destruct (omap _ l) as [ls|] eqn:OM; [|discriminate]. cbv zeta in CE.
      destruct (match n with inl z => _ | inr c => _ end) as [h|] eqn:HE in CE; [|discriminate]. rewrite PX in CE. set (body := concat (map (lay (m_native m') 0) ls)) in *.
      destruct (match s with None => Some [] | Some c => _ end) as [h'|] eqn:HE' in CE; [|discriminate]. injection CE as <-. apply more_block. intros off2 rest. cbn [read]. rewrite PX, RD. cbn [negb].
      rewrite lay_app, <- !app_assoc. set (e := endof (m_native m') 0 h) in *.
      assert (HD : (match n with inl z => Some (z, 0%nat, 0) | inr c => number_at m' c 0 (lay (m_native m') 0 h ++ lay (m_native m') e h' ++ body ++ rest) end) =
            Some (Z.of_nat (List.length l), e, blen (lay (m_native m') 0 h))).
      { destruct n as [z|c].
        - destruct (Z.of_nat (List.length l) =? z) eqn:Q; [|discriminate]. injection HE as <-. apply Z.eqb_eq in Q. rewrite Q. auto.
        - apply number_again; [exact CN|apply Nat2Z.is_nonneg|exact HE]. }
      rewrite HD. rewrite adv_front.
      assert (HS : (match s with None => Some (None, 0) | Some c => odo (z, _, k1) <- number_at m' c e (lay (m_native m') e h' ++ body ++ rest); Some (Some z, k1) end) =
            Some ((match s with None => None | Some _ => Some (blen body) end), blen (lay (m_native m') e h'))).
      { destruct s as [c|]; [|injection HE' as <-; reflexivity]. rewrite (number_again m' c e (blen body) h' _ SZ (blen_nonneg _) HE'). reflexivity. }
      rewrite HS. rewrite <- blen_app'. rewrite app_assoc. rewrite adv_front, Nat2Z.id.
      assert (NL : Z.to_nat cc = List.length l) by (symmetry; exact LL). rewrite NL in IT. specialize (IT ls eq_refl rest). fold body in IT. rewrite IT.
      assert (Q : match (match s with None => None | Some _ => Some (blen body) end) with Some z => z =? blen body | None => true end = true) by (destruct s; [apply Z.eqb_refl|reflexivity]).
      rewrite Q. cbn [block]. rewrite !blen_app'. f_equal. f_equal. lia.
  - destruct (members_of _ l 0 b) as [[vs1 k1]|] eqn:M; [|discriminate]. cbn [block] in E. injection E as <- <- <-. 
    cbn [takes]. split; [discriminate|]. split; [split; auto|]. intros cs _ CE. cbn [hd_error chunks py_iter] in CE. destruct (members _ l vs1) as [ch|] eqn:CM; [|discriminate]. injection CE as <-.
    assert (AL : forall x, In x l -> answering x /\ returning x).
    { cbn [answering returning] in AN, RN. clear -AN RN. induction l as [|y l IH]; [contradiction|]. destruct AN as [A1 A2], RN as [R1 R2]. intros x [<-|I]; [auto|exact (IH A2 R2 x I)]. }
    apply more_block. intros off2 rest. cbn [read]. rewrite (members_again l H AL ST 0%nat b vs1 k1 M ch CM 0%nat rest). reflexivity.
  - apply andb_prop in ST as [LD SX]. apply Nat.eqb_eq in LD. destruct AN as [AF AX]. cbn [returning] in RN. cbn [takes].
    destruct (f o) as [r|] eqn:F; [|discriminate]. pose proof (answer_late f r AF F) as FP.
    destruct (key_eqb r (VBool true)) eqn:KT.
    + destruct (read hb md rec o m' x 0 b) as [[[v1 o2] k1]|] eqn:R; [|discriminate]. cbn [body block] in E. injection E as <- <- <-.
      destruct (IHx m' 0%nat b v1 o2 k1 SX AX RN R) as (T0 & T1 & CH). split; [exact T0|]. split; [exact T1|].
      intros cs NE CE. cbn [chunks] in CE. rewrite FP, KT in CE. destruct (chunks hb rec' p m' x (hd_error v1)) as [ch|] eqn:CX; [|discriminate]. injection CE as <-.
      apply more_block. intros off2 rest. cbn [read]. rewrite F, KT. rewrite (CH ch NE eq_refl 0%nat rest). reflexivity.
    + destruct (key_eqb r (VBool false)) eqn:KF; [|discriminate]. cbn [block] in E. injection E as <- <- <-. split; [|split].
      * intros TK. rewrite TK in LD. now destruct d.
      * intros TK. rewrite TK in LD. split; lia.
      * intros cs NE CE. cbn [chunks] in CE. rewrite FP, KT, KF in CE. injection CE as <-. apply more_block. intros off2 rest. cbn [read]. now rewrite F, KT, KF.
  - apply andb_prop in ST as [S1 S2]. rewrite forallb_forall in S1. destruct AN as (AF & AM & AD). destruct RN as (RM & RD). cbn [takes]. split; [discriminate|].
    destruct (f o) as [r|] eqn:F; [|discriminate]. pose proof (answer_late f r AF F) as FP. destruct (hashable r) eqn:HR; [|discriminate].
    destruct (pick_of _ d r m) as [[[v1 o2] k1]|] eqn:PK; [|discriminate]. cbn [body block] in E. injection E as <- <- <-.
    assert (AP : forall q, In q m -> answering (snd q) /\ returning (snd q)).
    { clear -AM RM. induction m as [|q m IH]; [contradiction|]. destruct AM as [A1 A2], RM as [R1 R2]. intros q' [<-|I]; [auto|exact (IH A2 R2 q' I)]. }
    rewrite Forall_forall in *. destruct (pick_three _ _ _ _ _ PK) as (y & IN & R & G & G').
    assert (ONE : again y /\ takes y = true /\ steady hb md P true y = true /\ answering y /\ returning y /\
       (surface y = true -> existsb (fun q => surface (snd q)) m || match d with Some y => surface y | None => false end = true)).
    { destruct IN as [(q & I & ->)| ->].
      - split; [match goal with H : forall x, In x m -> again _ |- _ => exact (H q I) end|]. destruct (andb_prop _ _ (S1 q I)) as [T1 T2]. destruct (AP q I) as [A1 A2]. repeat (split; [assumption|]).
        intros SF. apply Bool.orb_true_iff. left. apply existsb_exists. eauto.
      - split; [match goal with H : forall x, Some y = Some x -> again _ |- _ => exact (H y eq_refl) end|]. destruct (andb_prop _ _ S2) as [T1 T2]. repeat (split; [assumption|]).
        intros SF. apply Bool.orb_true_iff. now right. }
    destruct ONE as (GY & TY & SY & AY & RY & SF). destruct (GY (machine hb) 0%nat b v1 o2 k1 SY AY RY R) as (_ & T1 & CH). destruct (T1 TY) as [T2 T3]. split; [split; [exact T2|]|].
    + intros SG. apply T3. unfold single in *. destruct md; try reflexivity; cbn [surface] in SG; destruct (surface y); try reflexivity; rewrite SF in SG by reflexivity; discriminate SG.
    + intros cs NE CE. cbn [chunks] in CE. rewrite FP, HR, G in CE. destruct (chunks hb rec' p (machine hb) y (hd_error v1)) as [ch|] eqn:CX; [|discriminate]. injection CE as <-.
      apply more_block. intros off2 rest. cbn [read]. rewrite F, HR, G'. specialize (CH ch (fun _ => NE eq_refl) eq_refl 0%nat rest). cbn [machine m_native] in CH. fold (machine hb) in CH. rewrite CH. reflexivity.
  - destruct (rec c b) as [[v k1]|] eqn:R; [|discriminate]. cbn [block] in E. injection E as <- <- <-. cbn [takes]. split; [discriminate|]. split; [split; auto|].
     destruct (RB c b v k1 ST R) as (d & -> & W). intros cs _ CE. cbn [hd_error chunks] in CE.
    destruct (rec' c None d) as [y|] eqn:RE; [|discriminate]. injection CE as <-. apply more_block. intros off2 rest. cbn [read]. now rewrite (W y eq_refl rest).
  - cbn [p_cls p_proxy p_attrs] in E. destruct (assoc "cls" d0) eqn:AC; [discriminate|].
    destruct (rec c0 b) as [[v k1]|] eqn:R; [|discriminate]. cbn [block] in E. injection E as <- <- <-. cbn [takes]. split; [discriminate|]. split; [split; auto|].
     destruct (RB c0 b v k1 PS R) as (d & -> & W). intros cs _ CE. cbn [hd_error chunks] in CE.
    destruct (rec' c0 None d) as [y|] eqn:RE; [|discriminate]. injection CE as <-. apply more_block. intros off2 rest. cbn [read p_cls p_proxy p_attrs]. rewrite AC. now rewrite (W y eq_refl rest).
Qed.
End Main.

(** ** classes *)
Section Classes.
Variables (hb : bool) (md : umode) (P : nat -> bool).
Variables (rec : nat -> bytes -> option (value * Z)) (rec' : nat -> option border -> list (string * value) -> option bytes).
Hypothesis RB : forall c b v k, P c = true -> rec c b = Some (v, k) ->
  exists d, v = VObj c None d /\ forall y, rec' c None d = Some y -> forall rest, rec c (y ++ rest) = Some (v, blen y).
Variables (c : nat) (m : mode) (D : list (string * value)).
Hypothesis PS : P c = true.
Lemma fields_again : forall l d off b d' k, NoDup (map fst l) -> (forall a, In a (map fst l) -> assoc a d = None) ->
  forallb (fun q => steady hb md P (m_native m) (snd q)) l = true -> Forall (fun q => answering (snd q) /\ returning (snd q)) l ->
  fields_read (fun d => read hb md rec (PO c true d) m) l d off b = Some (d', k) ->
  (forall a v, assoc a d' = Some v -> assoc a D = Some v) ->
  forall cs, fields (chunks hb rec' (PO c false D) m) l D = Some cs -> forall off2 rest,
  fields_read (fun d => read hb md rec (PO c true d) m) l d off2 (lay (m_native m) off2 cs ++ rest) = Some (d', blen (lay (m_native m) off2 cs)).
Proof.
  intros l. induction l as [|[a x] l IH]; intros d off b d' k NU FR ST AN E KN cs CE off2 rest; cbn [fields_read] in E.
  - injection E as -> <-. injection CE as <-. reflexivity.
  - cbn [forallb snd] in ST. apply andb_prop in ST as [S1 S2]. cbn [map fst] in *.
    inversion NU as [|? ? NI NU']; subst. inversion AN as [|? ? AX AN']; subst. cbn [snd] in AX. destruct AX as [AX RX].
    destruct (read hb md rec (PO c true d) m x off b) as [[[vs o1] k1]|] eqn:R; [|discriminate]. cbn in E.
    destruct (match vs with [] => _ | _ => _ end) as [e|] eqn:DD; [|discriminate]. cbn in E. destruct (fields_read _ l e o1 (adv k1 b)) as [[d2 k2]|] eqn:Q; [|discriminate]. injection E as <- <-.
    assert (OE : forall a', a' <> a -> assoc a' e = assoc a' d).
    { intros a' N. destruct vs as [|v [|]], (takes x); try discriminate; injection DD as <-; [reflexivity|]. rewrite assoc_set_eq. destruct (String.eqb_spec a' a); [contradiction|reflexivity]. }
    assert (KD : forall a' v', assoc a' d = Some v' -> assoc a' D = Some v').
    { intros a' v' A. apply KN. assert (N : ~ In a' (a :: map fst l)) by (intros I; rewrite (FR a' I) in A; discriminate).
      rewrite (fields_keep _ _ _ _ _ _ _ Q a') by (intros I; apply N; now right). rewrite OE; [exact A|]. intros ->. apply N. now left. }
    assert (VS : (takes x = true -> vs <> []) /\ (if takes x then assoc a D = hd_error vs else vs = [])).
    { destruct vs as [|v [|]], (takes x); try discriminate; injection DD as <-; [repeat split; discriminate|].
      assert (AV : assoc a D = Some v) by (apply KN; rewrite (fields_keep _ _ _ _ _ _ _ Q a NI), assoc_set_eq, String.eqb_refl; reflexivity).
      split; [discriminate|exact AV]. }
    destruct VS as (NE & VD). destruct (all_again hb md rec rec' P RB c d D PS KD x m off b vs o1 k1 S1 AX RX R) as (_ & _ & CH).
    cbn [fields] in CE. assert (CX : exists ch cs', chunks hb rec' (PO c false D) m x (hd_error vs) = Some ch /\ fields (chunks hb rec' (PO c false D) m) l D = Some cs' /\ cs = ch ++ cs').
    { destruct (takes x) eqn:TK.
      - rewrite VD in CE. destruct vs as [|v vs]; [exfalso; now apply (NE eq_refl)|]. cbn [hd_error] in *. destruct (chunks hb rec' _ m x (Some v)) as [ch|]; [|discriminate].
        destruct (fields _ l D) as [cs'|]; [|discriminate]. injection CE as <-. eauto.
      - rewrite VD. cbn [hd_error]. destruct (chunks hb rec' _ m x None) as [ch|]; [|discriminate]. destruct (fields _ l D) as [cs'|]; [|discriminate]. injection CE as <-. eauto. }
    destruct CX as (ch & cs' & CX & CF & ->). specialize (CH ch NE CX off2). rewrite lay_app, <- app_assoc. cbn [fields_read]. rewrite CH. rewrite DD, adv_front.
    rewrite (IH e o1 (adv k1 b) d2 k2 NU') with (cs := cs'); auto; [now rewrite blen_app'|].
    intros a' I. rewrite OE; [apply FR; now right|]. intros ->. contradiction.
Qed.
End Classes.
Theorem parse_again : forall hb md sl P, steady_classes hb md P sl -> (forall c sc, nth_error sl c = Some sc -> NoDup (map fst (fields_of (sc_anns sc)))) ->
  forall n c b v k, P c = true -> parse hb md sl n c b = Some (v, k) ->
  exists d, v = VObj c None d /\ forall y, wire hb sl n c None d = Some y -> forall rest, parse hb md sl n c (y ++ rest) = Some (v, blen y).
Proof.
  intros hb md sl P SC NU. induction n as [|n IH]; intros c b v k PC E; [discriminate|]. cbn [parse wire] in *. destruct (nth_error sl c) as [sc|] eqn:NS; [|discriminate]. cbn in E.
  destruct (fields_read _ _ _ _ b) as [[d k1]|] eqn:Q; [|discriminate]. injection E as <- <-. exists d. split; [reflexivity|]. destruct (SC c sc NS PC) as [ST AN].
  intros y W rest. destruct (fields (chunks _ _ _ _) _ d) as [cs|] eqn:CE; [|discriminate]. injection W as <-.
  pose proof (fields_again hb md P (parse hb md sl n) (wire hb sl n) IH c (mode_of hb (sc_bo sc)) d PC _ [] 0%nat b d k1 (NU c sc NS)) as FA.
  rewrite (FA (fun _ _ => eq_refl) ST AN Q (fun _ _ H => H) cs CE 0%nat rest). reflexivity.
Qed.
