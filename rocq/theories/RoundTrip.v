(** Round trip of the stateless semantics: decoding the encoding of canonical values, followed by
    anything, gives back the values and the length of the encoding. *)
From Verif Require Import Base Floats Value StructMod Format Ser Exec Pure BaseFacts StructFacts FormatFacts
  SerFacts RefPack RefUnpack DecFacts Canon.

Section Struct.
Variable hb : bool.

Lemma est_len : forall st vs b, est hb st vs = Ok b -> blen b = ss_size hb st.
Proof. intros st vs b H. unfold est in H. apply st_pack_length in H. unfold blen, ss_size. now rewrite H. Qed.

Lemma dst_exact : forall st b rest, blen b = ss_size hb st ->
  dst hb st (b ++ rest) = ss_act st (unpack_u (ss_mode hb st) 0 (expand (s_fmt st)) b).
Proof.
  intros st b rest L. unfold dst. rewrite <- L. unfold blen. rewrite Nat2Z.id, firstn_app_len.
  unfold st_unpack. unfold blen, ss_size in L. apply Nat2Z.inj in L. rewrite L, Nat.eqb_refl. reflexivity.
Qed.

Lemma st_pack_inv : forall m f vs b, st_pack m f vs = Ok b ->
  List.length vs = nvals f /\ pack_u m 0 (expand f) vs = (b, None).
Proof.
  intros m f vs b H. unfold st_pack in H. destruct (Nat.eqb _ _) eqn:E; [|discriminate].
  apply Nat.eqb_eq in E. split; [exact E|]. destruct (pack_u _ _ _ _) as [b' [e|]]; [discriminate|].
  now injection H as ->.
Qed.

Lemma canon_unpack : forall m f vs b, st_pack m f vs = Ok b -> canon_fmt m f vs = true ->
  unpack_u m 0 (expand f) b = vs.
Proof.
  intros m f vs b H C. apply st_pack_inv in H as [_ H].
  rewrite <- (app_nil_r b). eapply pack_unpack_u; eauto.
Qed.

Lemma rt_st : forall st vs b rest, canon_st hb st vs -> est hb st vs = Ok b ->
  dst hb st (b ++ rest) = Ok vs.
Proof.
  intros st vs b rest C E. rewrite dst_exact by (eapply est_len; eauto).
  unfold canon_st in C. unfold ss_act. destruct (s_act st) as [acts|].
  - destruct C as (raw & C & P & A). rewrite P in E. unfold est in E. now rewrite (canon_unpack _ _ _ _ E C).
  - unfold est in E. now rewrite (canon_unpack _ _ _ _ E C).
Qed.

(** integer formats: everything that packs is canonical *)
Definition int_tok (t : tok) : bool := match int_code (t_code t) with Some _ => true | None => false end.
Definition int_unit (u : unit_) : bool :=
  match u with UAlign _ => true | UVal c => match int_code c with Some _ => true | None => false end | _ => false end.
Lemma int_tok_units : forall t, int_tok t = true -> forallb int_unit (expand_tok t) = true.
Proof.
  intros [n c] H. unfold int_tok in H. cbn in H. unfold expand_tok. cbn [t_code].
  assert (forallb int_unit (repeat (UVal c) (cnt (Verif.StructMod.T n c))) = true).
  { rewrite forallb_forall. intros u I. apply repeat_spec in I as ->. exact H. }
  destruct c; try discriminate; cbn; assumption.
Qed.
Lemma int_fmt_units : forall f, forallb int_tok f = true -> forallb int_unit (expand f) = true.
Proof.
  induction f as [|t f IH]; cbn; intros H; [reflexivity|]. apply andb_prop in H as [A B].
  unfold expand in *. cbn. rewrite forallb_app, int_tok_units, IH by assumption. reflexivity.
Qed.
Lemma int_units_canon : forall m us off zs b, forallb int_unit us = true ->
  pack_u m off us (map VInt zs) = (b, None) -> List.length zs = nvals_u us ->
  canon_units m us (map VInt zs) = true.
Proof.
  induction us as [|u us IH]; intros off zs b F P L; cbn in *.
  - destruct zs; [reflexivity|discriminate].
  - apply andb_prop in F as [F1 F2]. destruct u; try discriminate; cbn in *.
    + unfold nvals_u in *. cbn in L. destruct (pack_u m _ us (map VInt zs)) as [bs e] eqn:E. injection P as _ ->.
      eapply IH; eauto.
    + destruct zs as [|z zs]; [discriminate|]. cbn in *. unfold nvals_u in *. cbn in L.
      destruct (pack_val m c (VInt z)) as [bv|] eqn:PV; [|discriminate]. cbn in P.
      destruct (pack_u m _ us (map VInt zs)) as [bs e] eqn:E. injection P as _ ->.
      rewrite (IH _ _ _ F2 E) by lia. rewrite andb_true_r.
      unfold canon_val. unfold pack_val in PV. destruct (int_code c); [|discriminate]. cbn in PV.
      destruct (in_range _ _ _); [reflexivity|discriminate].
Qed.
Lemma rt_ints : forall st zs b rest, s_act st = None -> forallb int_tok (s_fmt st) = true ->
  est hb st (map VInt zs) = Ok b -> dst hb st (b ++ rest) = Ok (map VInt zs).
Proof.
  intros st zs b rest A F E. apply rt_st; [|exact E]. unfold canon_st. rewrite A.
  unfold est in E. apply st_pack_inv in E as [L E]. rewrite map_length in L.
  eapply int_units_canon; eauto. now apply int_fmt_units.
Qed.

Lemma uint1_inv : forall st, uint1 st = true -> exists t,
  s_fmt st = [t] /\ s_act st = None /\ cnt t = 1%nat /\ int_code (t_code t) = Some false.
Proof.
  intros [bo f act] U. unfold uint1 in U. cbn in *. destruct f as [|t [|]]; try discriminate.
  destruct act; try discriminate. apply andb_prop in U as [C U]. apply Nat.eqb_eq in C.
  exists t. destruct (int_code (t_code t)) as [[|]|]; try discriminate. auto.
Qed.
Lemma uint1_ints : forall st, uint1 st = true -> s_act st = None /\ forallb int_tok (s_fmt st) = true /\ ss_nvals st = 1%nat.
Proof.
  intros st U. destruct (uint1_inv st U) as (t & F & A & C & I). rewrite F. split; [exact A|].
  split; [cbn; unfold int_tok; now rewrite I|].
  unfold ss_nvals. rewrite F. unfold nvals, expand, nvals_u. cbn. rewrite app_nil_r.
  unfold expand_tok. rewrite C. destruct (t_code t); try discriminate; reflexivity.
Qed.
Lemma uint1_rt : forall st z b rest, uint1 st = true -> est hb st [VInt z] = Ok b ->
  dst hb st (b ++ rest) = Ok [VInt z].
Proof.
  intros st z b rest U E. destruct (uint1_ints st U) as (A & F & _). exact (rt_ints st [z] b rest A F E).
Qed.

(** a counted string: header then data *)
Lemma dynchar_enc : forall st n v raw st' b, uint1 st = true -> 0 <= n ->
  dynchar_st st n = Ok st' -> est hb st' [VInt v; raw] = Ok b ->
  exists h r, raw = VBytes r /\ est hb st [VInt v] = Ok h /\ 1 <= n /\
    b = h ++ str_fit (Z.to_nat n) r /\ s_bo st = BO_DEFAULT.
Proof.
  intros st n v raw st' b U N D E. unfold dynchar_st in D.
  destruct (uint1_inv st U) as (t & F & A & C & I).
  destruct (uint1_ints st U) as (_ & _ & NV).
  destruct (Z.eq_dec n 0) as [->|NZ].
  - exfalso. cbn in D. injection D as <-. unfold est in E. apply st_pack_inv in E as [L _].
    unfold ss_nvals in NV. rewrite NV in L. discriminate.
  - destruct (matmul_char BO_DEFAULT Cs n ltac:(lia)) as (tc & M & X & TC & CN).
    change (SS BO_DEFAULT [Verif.StructMod.T None Cs] None) with single_char in M. rewrite M in D. cbn [rbind] in D.
    unfold ss_add in D. rewrite A in D. cbn [s_act s_bo s_fmt] in D.
    destruct (border_eqb (s_bo st) BO_DEFAULT) eqn:BE; [|discriminate].
    assert (BO : s_bo st = BO_DEFAULT) by (destruct (s_bo st); cbn in BE; congruence).
    assert (FO : fold_overlaps false (s_fmt st) [tc] = s_fmt st ++ [tc]).
    { rewrite F. unfold fold_overlaps. cbn [split_last]. rewrite TC.
      destruct (t_code t); try discriminate; reflexivity. }
    injection D as <-. rewrite FO in E. unfold est in E. cbn [s_fmt] in E.
    apply st_pack_inv in E as [L E]. rewrite expand_app, X in E.
    change (ss_mode hb {| s_bo := s_bo st; s_fmt := s_fmt st ++ [tc]; s_act := None |}) with (ss_mode hb st) in E.
    rewrite pack_u_app in E.
    assert (P1 : pack_u (ss_mode hb st) 0 (expand (s_fmt st)) [VInt v; raw]
                 = pack_u (ss_mode hb st) 0 (expand (s_fmt st)) [VInt v]).
    { assert (EX : expand (s_fmt st) = [UAlign (t_code t); UVal (t_code t)]).
      { rewrite F. unfold expand. cbn [flat_map]. rewrite app_nil_r. unfold expand_tok. rewrite C.
        destruct (t_code t); try discriminate; reflexivity. }
      rewrite EX. cbn. destruct (pack_val (ss_mode hb st) (t_code t) (VInt v)); reflexivity. }
    rewrite P1 in E. destruct (pack_u (ss_mode hb st) 0 (expand (s_fmt st)) [VInt v]) as [h [e|]] eqn:PH; [discriminate|].
    change (nvals_u (expand (s_fmt st))) with (ss_nvals st) in E. rewrite NV in E. cbn [skipn] in E.
    unfold expand in E. cbn [flat_map expand_tok t_code app cnt t_cnt] in E. cbn [pack_u pack_unit] in E.
    destruct raw as [| | | |r| | | | | |]; try discriminate.
    cbn in E. rewrite app_nil_r in E. injection E as <-.
    exists h, r. split; [reflexivity|]. split.
    + unfold est, st_pack. unfold ss_nvals in NV. rewrite NV. cbn [List.length Nat.eqb]. rewrite PH. reflexivity.
    + split; [lia|]. split; [|exact BO]. reflexivity.
Qed.

Lemma char_dost : forall n r rest o, 1 <= n -> blen r = n -> ss_matmul single_char n = Ok o ->
  dost hb o (r ++ rest) = Ok [VBytes r].
Proof.
  intros n r rest o N L M.
  destruct (matmul_char BO_DEFAULT Cs n N) as (tc & M' & X & TC & CN).
  change (SS BO_DEFAULT [Verif.StructMod.T None Cs] None) with single_char in M'. rewrite M in M'. injection M' as ->.
  cbn [dost]. destruct (matmul_single_char_size hb n _ M N) as (st & Q & S). injection Q as <-.
  rewrite dst_exact by congruence. cbn [s_fmt ss_act s_act]. rewrite X. unfold expand. cbn.
  rewrite firstn_all2; [reflexivity|]. unfold blen in L. lia.
Qed.
Lemma nstr_dst : forall n r rest, blen r = n ->
  dst hb (SS BO_DEFAULT [Verif.StructMod.T (Some (Z.to_nat n)) Cs] None) (r ++ rest) = Ok [VBytes r].
Proof.
  intros n r rest L. pose proof (blen_nonneg r). rewrite dst_exact by (rewrite nstr_size; lia).
  cbn [s_fmt ss_act s_act]. unfold expand. cbn. rewrite firstn_all2; [reflexivity|]. unfold blen in L. lia.
Qed.

Lemma rt_dynchar : forall md st raw st' b rest ct id ctx prec, uint1 st = true ->
  dynchar_st st (blen raw) = Ok st' -> est hb st' [VInt (blen raw); VBytes raw] = Ok b ->
  dec_step hb ct md prec (SDynChar id st) ctx (b ++ rest) = Ok ([VBytes raw], blen b).
Proof.
  intros md st raw st' b rest ct id ctx prec U D E. pose proof (blen_nonneg raw) as N.
  destruct (dynchar_enc st _ _ _ _ _ U N D E) as (h & r & R & H & N1 & -> & BO). injection R as <-.
  rewrite str_fit_exact by (unfold blen; lia).
  assert (LH : blen h = ss_size hb st) by (eapply est_len; eauto).
  cbn [dec_step]. rewrite <- app_assoc. rewrite (uint1_rt st _ h (raw ++ rest) U H). cbn [rbind nth0 as_int as_index].
  assert (ADV : adv (ss_size hb st) (h ++ raw ++ rest) = raw ++ rest).
  { rewrite <- LH. unfold adv, blen. rewrite Nat2Z.id. apply skipn_app_len. }
  rewrite ADV, blen_app, LH.
  destruct md.
  - do 3 f_equal. unfold blen. rewrite Nat2Z.id. now rewrite firstn_app_len.
  - destruct (ss_matmul single_char (blen raw)) as [o|] eqn:M.
    + cbn [rbind]. rewrite (char_dost _ raw rest o N1 eq_refl M). reflexivity.
    + exfalso. destruct (matmul_char BO_DEFAULT Cs (blen raw) N1) as (tc & M' & _).
      change (SS BO_DEFAULT [Verif.StructMod.T None Cs] None) with single_char in M'. congruence.
  - destruct (ss_matmul single_char (blen raw)) as [o|] eqn:M.
    + cbn [rbind]. rewrite (char_dost _ raw rest o N1 eq_refl M). reflexivity.
    + exfalso. destruct (matmul_char BO_DEFAULT Cs (blen raw) N1) as (tc & M' & _).
      change (SS BO_DEFAULT [Verif.StructMod.T None Cs] None) with single_char in M'. congruence.
Qed.

(** NET strings *)
Lemma lor_disjoint : forall a b k, 0 <= k -> 0 <= a < 2 ^ k -> Z.lor a (b * 2 ^ k) = a + b * 2 ^ k.
Proof.
  intros a b k K A.
  assert (Z.land a (b * 2 ^ k) = 0) as L; [|now rewrite Z.add_nocarry_lxor, Z.lxor_lor].
  apply Z.bits_inj'. intros n N. rewrite Z.land_spec, Z.bits_0.
  destruct (Z_lt_le_dec n k) as [L|L].
  - rewrite Z.mul_pow2_bits_low by exact L. apply andb_false_r.
  - replace a with (a mod 2 ^ k) by (apply Z.mod_small; exact A).
    rewrite Z.mod_pow2_bits_high by lia. reflexivity.
Qed.
Lemma land_high : forall z, Z.land z 65408 = z / 128 mod 512 * 128.
Proof.
  intros z. change 65408 with (Z.shiftl (Z.ones 9) 7).
  change 128 with (2 ^ 7). change 512 with (2 ^ 9).
  rewrite <- Z.shiftr_div_pow2, <- Z.land_ones, <- Z.shiftl_mul_pow2 by lia.
  apply Z.bits_inj'. intros n N. rewrite Z.land_spec. destruct (Z_lt_le_dec n 7).
  - rewrite !Z.shiftl_spec_low by lia. apply andb_false_r.
  - rewrite !Z.shiftl_spec by lia. rewrite Z.land_spec, Z.shiftr_spec by lia. do 2 f_equal. lia.
Qed.
Lemma net_mark_eq : forall c, 128 <= c <= 32767 -> net_mark c = 128 + c mod 128 + c / 128 * 256.
Proof.
  intros c H. unfold net_mark. rewrite land_high. change 127 with (Z.ones 7). rewrite Z.land_ones by lia.
  rewrite Z.shiftl_mul_pow2 by lia. change (2 ^ 7) with 128. change (2 ^ 1) with 2.
  assert (c / 128 < 256) by (apply Z.div_lt_upper_bound; lia). assert (0 <= c / 128) by (apply Z.div_pos; lia).
  rewrite (Z.mod_small (c / 128)) by lia. pose proof (Z.mod_pos_bound c 128 ltac:(lia)).
  rewrite (Z.lor_comm 128). change 128 with (1 * 2 ^ 7) at 2. rewrite (lor_disjoint (c mod 128) 1 7) by lia.
  replace (c / 128 * 128 * 2) with (c / 128 * 2 ^ 8) by lia. rewrite lor_disjoint by lia. lia.
Qed.
Lemma net_mark_ok : forall c, 128 <= c <= 32767 ->
  net_decode (net_mark c) = Ok c /\ 0 <= net_mark c < 65536 /\ 128 <= net_mark c mod 256.
Proof.
  intros c H. rewrite (net_mark_eq c H).
  assert (c / 128 < 256) by (apply Z.div_lt_upper_bound; lia). assert (1 <= c / 128) by (apply Z.div_le_lower_bound; lia).
  pose proof (Z.mod_pos_bound c 128 ltac:(lia)). pose proof (Z.div_mod c 128 ltac:(lia)) as DM.
  set (hi := c / 128) in *. set (lo := c mod 128) in *.
  assert (M : (128 + lo + hi * 256) mod 256 = 128 + lo) by (rewrite Z.mod_add by lia; apply Z.mod_small; lia).
  split; [|lia]. unfold net_decode. rewrite land_high, Z.shiftr_div_pow2 by lia. change 127 with (Z.ones 7).
  rewrite Z.land_ones by lia. change (2 ^ 1) with 2. change (2 ^ 7) with 128.
  replace (128 + lo + hi * 256) with (lo + (1 + hi * 2) * 128) by lia. rewrite Z.mod_add, (Z.mod_small lo) by lia.
  rewrite Z.div_div by lia. replace (lo + (1 + hi * 2) * 128) with ((128 + lo) + hi * (2 * 128)) by lia.
  rewrite Z.div_add, (Z.div_small (128 + lo)) by lia. rewrite (Z.mod_small (0 + hi)) by lia.
  change 128 with (2 ^ 7). rewrite lor_disjoint by lia. change (2 ^ 7) with 128.
  destruct (32767 <? _) eqn:Q; [lia|]. f_equal. lia.
Qed.

Lemma rt_net : forall md raw st mark b rest ct id ctx prec,
  hb = false \/ blen raw < 128 ->
  net_st (blen raw) = Ok (st, mark) -> est hb st [VInt mark; VBytes raw] = Ok b ->
  dec_step hb ct md prec (SNet id) ctx (b ++ rest) = Ok ([VBytes raw], blen b).
Proof.
  intros md raw st mark b rest ct id ctx prec HB D E. pose proof (blen_nonneg raw) as N.
  assert (R : exists sh size, est hb sh [VInt mark] = Ok size /\ b = size ++ raw /\ blen size = ss_size hb sh /\
              forall x, dec_net hb (size ++ x) = Ok (ss_size hb sh, blen raw)).
  { unfold net_st in D. destruct (blen raw <? 128) eqn:S.
    - destruct (dynchar_st net_short (blen raw)) as [st1|] eqn:DS; [|discriminate]. injection D as <- <-.
      destruct (dynchar_enc net_short _ _ _ _ _ eq_refl N DS E) as (h & r & R & H & N1 & -> & _). injection R as <-.
      rewrite str_fit_exact by (unfold blen; lia).
      exists net_short, h. split; [exact H|]. split; [reflexivity|]. split; [eapply est_len; eauto|].
      intros x. unfold dec_net. rewrite (uint1_rt net_short _ h x eq_refl H). cbn [rbind nth0 as_int as_index].
      destruct (128 <=? blen raw) eqn:Q; [lia|reflexivity].
    - destruct HB as [HB|HB]; [|lia]. destruct (32767 <? blen raw) eqn:S2; [discriminate|].
      destruct (dynchar_st net_long (blen raw)) as [st1|] eqn:DS; [|discriminate]. injection D as <- <-.
      destruct (dynchar_enc net_long _ _ _ _ _ eq_refl N DS E) as (h & r & R & H & N1 & -> & _). injection R as <-.
      rewrite str_fit_exact by (unfold blen; lia).
      exists net_long, h. split; [exact H|]. split; [reflexivity|]. split; [eapply est_len; eauto|].
      intros x. destruct (net_mark_ok (blen raw) ltac:(lia)) as (DC & R1 & R2).
      set (mark := net_mark (blen raw)) in *.
      assert (HH : h = [bz mark; bz (mark / 256)]).
      { unfold est in H. apply st_pack_inv in H as [_ H]. rewrite HB in H.
        change (ss_mode false net_long) with (Mode true false) in H.
        unfold expand in H. cbn [net_long s_fmt flat_map expand_tok t_code cnt t_cnt repeat app] in H.
        cbn [pack_u pack_unit] in H. unfold pack_val in H. cbn [int_code as_index csize m_native m_big] in H.
        destruct (in_range false 2 mark); [|discriminate]. cbn in H. now injection H as <-. }
      unfold dec_net.
      assert (DS1 : dst hb net_short (h ++ x) = Ok [VInt (mark mod 256)]).
      { rewrite HH. change ([bz mark; bz (mark / 256)] ++ x) with ([bz mark] ++ ([bz (mark / 256)] ++ x)).
        rewrite dst_exact by reflexivity. rewrite HB. cbn [net_short s_fmt ss_act s_act]. unfold expand. cbn.
        rewrite zb_bz. do 3 f_equal. lia. }
      rewrite DS1. cbn [rbind nth0 as_int as_index].
      destruct (128 <=? mark mod 256) eqn:Q; [|lia].
      rewrite (uint1_rt net_long _ h x eq_refl H). cbn [rbind nth0 as_int as_index]. rewrite DC. reflexivity. }
  destruct R as (sh & size & _ & -> & LS & DN).
  cbn [dec_step]. rewrite <- app_assoc, DN. cbn [rbind].
  assert (ADV : adv (ss_size hb sh) (size ++ raw ++ rest) = raw ++ rest).
  { rewrite <- LS. unfold adv, blen. rewrite Nat2Z.id. apply skipn_app_len. }
  rewrite ADV, blen_app, LS.
  destruct md.
  - do 3 f_equal. unfold blen. rewrite Nat2Z.id. now rewrite firstn_app_len.
  - rewrite nstr_dst by reflexivity. reflexivity.
  - do 3 f_equal. unfold blen. rewrite Nat2Z.id. now rewrite firstn_app_len.
Qed.

(** a format may be moved by [k] bytes without changing its padding *)
Definition shift_ok (m : mode) (k : nat) (us : list unit_) : bool :=
  forallb (fun u => match u with UAlign c => Nat.eqb (k mod calign (m_native m) c) 0 | _ => true end) us.
Lemma padding_shift : forall m k off c, (k mod calign (m_native m) c = 0)%nat ->
  padding m (k + off) c = padding m off c.
Proof.
  intros m k off c H. unfold padding. pose proof (calign_pos (m_native m) c).
  rewrite Nat.add_mod, H by lia. cbn [Nat.add]. rewrite Nat.mod_mod by lia. reflexivity.
Qed.
Lemma usize_shift : forall m k off u, shift_ok m k [u] = true -> usize m (k + off) u = usize m off u.
Proof.
  intros m k off u H. cbn in H. rewrite andb_true_r in H. destruct u; try reflexivity.
  cbn. apply padding_shift. now apply Nat.eqb_eq.
Qed.
Lemma pack_u_shift : forall m k us off vs, shift_ok m k us = true ->
  pack_u m (k + off) us vs = pack_u m off us vs.
Proof.
  induction us as [|u us IH]; intros off vs H; [reflexivity|].
  cbn in H. apply andb_prop in H as [H1 H2].
  assert (SU : forall o, usize m (k + o) u = usize m o u)
    by (intros; apply usize_shift; cbn; now rewrite H1).
  assert (PU : pack_unit m (k + off) u vs = pack_unit m off u vs) by (destruct u; cbn in *; rewrite ?SU; reflexivity).
  cbn [pack_u]. rewrite PU. destruct (pack_unit m off u vs) as [[b vs']|]; [|reflexivity].
  rewrite <- Nat.add_assoc, IH by exact H2. reflexivity.
Qed.
Lemma unpack_u_shift : forall m k us off b, shift_ok m k us = true ->
  unpack_u m (k + off) us b = unpack_u m off us b.
Proof.
  induction us as [|u us IH]; intros off b H; [reflexivity|].
  cbn in H. apply andb_prop in H as [H1 H2].
  assert (SU : forall o, usize m (k + o) u = usize m o u)
    by (intros; apply usize_shift; cbn; now rewrite H1).
  cbn [unpack_u]. rewrite SU, <- Nat.add_assoc, IH by exact H2. reflexivity.
Qed.
Lemma shift_ok_app : forall m k a b, shift_ok m k (a ++ b) = shift_ok m k a && shift_ok m k b.
Proof. intros. apply forallb_app. Qed.
Lemma shift_ok_repeat : forall m k f n, shift_ok m k (expand f) = true -> shift_ok m k (expand (repeat_fmt f n)) = true.
Proof.
  induction n; intros H; [reflexivity|]. unfold repeat_fmt in *. cbn [repeat List.concat].
  rewrite expand_app, shift_ok_app, H, IHn by assumption. reflexivity.
Qed.

(** shape of a repeated single specifier *)
Lemma fold_repeat_shape : forall t k acc, acc <> [] -> Forall (fun x => t_code x = t_code t) acc ->
  (str_code (t_code t) = false -> exists x, acc = [x]) ->
  let g := fold_repeat false acc [t] k in
  g <> [] /\ Forall (fun x => t_code x = t_code t) g /\ (str_code (t_code t) = false -> exists x, g = [x]).
Proof.
  intros t. induction k as [|k IH]; intros acc NE F S; [auto|]. cbn [fold_repeat]. apply IH.
  - unfold fold_overlaps. destruct (split_last acc) as [[p x]|] eqn:E.
    + destruct (code_eqb _ _ && _); [destruct p; discriminate|]. destruct acc; discriminate.
    + destruct acc; discriminate.
  - unfold fold_overlaps. destruct (split_last acc) as [[p x]|] eqn:E.
    + apply split_last_some in E. subst acc. apply Forall_app in F as [F1 F2]. inversion F2; subst.
      destruct (code_eqb _ _ && _); repeat (apply Forall_app; split); auto.
    + apply split_last_none in E. contradiction.
  - intros SC. destruct (S SC) as [x ->]. unfold fold_overlaps. cbn [split_last].
    inversion F as [|? ? FX _]; subst. rewrite FX. rewrite SC.
    assert (code_eqb (t_code t) (t_code t) = true) as -> by now apply code_eqb_eq.
    cbn. eauto.
Qed.
Lemma mul_inv : forall item n st, 1 <= n -> repeatable (s_fmt item) = true -> ss_mul item n = Ok (Some st) ->
  s_bo st = s_bo item /\ layout_eq (expand (s_fmt st)) (expand (repeat_fmt (s_fmt item) (Z.to_nat n))).
Proof.
  intros [bo f act] n st N R E. cbn [s_fmt s_bo] in *. destruct act as [acts|].
  - destruct (mul_action_layout bo f acts n R N) as (g & E' & L). rewrite E in E'. injection E' as ->. auto.
  - destruct (mul_layout bo f n R N) as (g & E' & L). rewrite E in E'. injection E' as ->. auto.
Qed.
Lemma mul_shape : forall bo t act n st, 1 <= n -> ss_mul (SS bo [t] act) n = Ok (Some st) ->
  Forall (fun x => t_code x = t_code t) (s_fmt st) /\ (str_code (t_code t) = false -> exists x, s_fmt st = [x]).
Proof.
  intros bo t act n st N E. unfold ss_mul, ss_mul_impl in E.
  destruct (n =? 0) eqn:Z0; [lia|]. destruct (n <? 0) eqn:ZN; [lia|]. cbn [s_fmt s_act s_bo] in E.
  assert (H : s_fmt st = [t] \/ s_fmt st = fold_repeat false [t] [t] (Z.to_nat n - 1)).
  { destruct (n =? 1); destruct act; cbn in E; injection E as <-; auto. }
  destruct H as [-> | ->]; [split; eauto|].
  destruct (fold_repeat_shape t (Z.to_nat n - 1) [t]) as (_ & A & B); [discriminate|auto|eauto|]. auto.
Qed.

(** count header and item type of a DynamicStructArraySerializer that can be read back: one unsigned
    count, one specifier per item, equal byte orders, no padding between count and items *)
Definition dynarr_ok (c item : sspec) : bool :=
  uint1 c && border_eqb (s_bo c) (s_bo item) && match s_fmt item with [_] => true | _ => false end
  && shift_ok (ss_mode hb c) (calcsize (ss_mode hb c) (s_fmt c)) (expand (s_fmt item)).

Lemma dynarr_enc : forall c item n st st' k items b, dynarr_ok c item = true -> 1 <= n ->
  ss_mul item n = Ok (Some st) -> ss_add c st = Ok st' -> est hb st' (VInt k :: items) = Ok b ->
  ss_nvals st' = S (ss_nvals st) /\
  exists h y, est hb c [VInt k] = Ok h /\ est hb st items = Ok y /\ b = h ++ y.
Proof.
  intros c item n st st' k items b OK N M A E. unfold dynarr_ok in OK.
  apply andb_prop in OK as [OK SH]. apply andb_prop in OK as [OK SG]. apply andb_prop in OK as [U BO].
  assert (BO' : s_bo c = s_bo item) by (destruct (s_bo c), (s_bo item); cbn in BO; congruence).
  destruct (uint1_inv c U) as (tc & FC & AC & CC & IC). destruct (uint1_ints c U) as (_ & _ & NV).
  destruct item as [bo f act]. cbn [s_fmt s_bo] in *. destruct f as [|t [|]]; try discriminate.
  assert (R : repeatable [t] = true) by reflexivity.
  destruct (mul_inv (SS bo [t] act) n st N R M) as (BS & L). cbn [s_bo s_fmt] in BS, L.
  destruct (mul_shape bo t act n st N M) as (SF & SS1).
  assert (FO : foldable (s_fmt c) (s_fmt st) = true).
  { rewrite FC. unfold foldable. cbn [split_last]. destruct (s_fmt st) as [|t1 [|t2 r]]; try reflexivity.
    destruct (str_code (t_code t)) eqn:SC; [|destruct (SS1 eq_refl); discriminate].
    inversion SF as [|? ? S1 _]; subst. rewrite S1.
    destruct (t_code tc); try discriminate; destruct (t_code t); try discriminate; reflexivity. }
  assert (ST : s_bo st' = s_bo c /\ s_fmt st' = fold_overlaps false (s_fmt c) (s_fmt st)).
  { unfold ss_add in A. rewrite AC in A. destruct (s_act st).
    - injection A as <-. auto.
    - destruct (border_eqb (s_bo c) (s_bo st)); [|discriminate]. injection A as <-. auto. }
  destruct ST as [SB SFM]. pose proof (fold_layout _ _ FO) as FL. rewrite expand_app in FL.
  assert (MD : ss_mode hb st' = ss_mode hb c /\ ss_mode hb st = ss_mode hb c)
    by (unfold ss_mode; split; congruence).
  destruct MD as [MD1 MD2].
  assert (NS : ss_nvals st' = S (ss_nvals st)).
  { unfold ss_nvals, nvals. rewrite SFM, (proj1 FL), nvals_u_app.
    change (nvals_u (expand (s_fmt c))) with (ss_nvals c). rewrite NV. reflexivity. }
  split; [exact NS|].
  unfold est in E. rewrite MD1 in E. apply st_pack_inv in E as [LEN E]. rewrite SFM in E.
  destruct FL as [_ FL]. destruct (FL (ss_mode hb c) O) as (_ & FP & _). rewrite FP in E. clear FP FL.
  rewrite pack_u_app in E. change (nvals_u (expand (s_fmt c))) with (ss_nvals c) in E. rewrite NV in E. cbn [skipn] in E.
  assert (P1 : pack_u (ss_mode hb c) 0 (expand (s_fmt c)) (VInt k :: items)
               = pack_u (ss_mode hb c) 0 (expand (s_fmt c)) [VInt k]).
  { assert (EX : expand (s_fmt c) = [UAlign (t_code tc); UVal (t_code tc)]).
    { rewrite FC. unfold expand. cbn [flat_map]. rewrite app_nil_r. unfold expand_tok. rewrite CC.
      destruct (t_code tc); try discriminate; reflexivity. }
    rewrite EX. cbn. destruct (pack_val (ss_mode hb c) (t_code tc) (VInt k)); reflexivity. }
  rewrite P1 in E. destruct (pack_u (ss_mode hb c) 0 (expand (s_fmt c)) [VInt k]) as [h [e|]] eqn:PH; [discriminate|].
  destruct (pack_u (ss_mode hb c) (0 + List.length h) (expand (s_fmt st)) items) as [y oe] eqn:PY.
  injection E as <- ->. exists h, y. split; [|split; [|reflexivity]].
  - unfold est, st_pack. unfold ss_nvals in NV. rewrite NV. cbn [List.length Nat.eqb]. rewrite PH. reflexivity.
  - unfold est, st_pack. rewrite MD2.
    assert (NI : List.length items = nvals (s_fmt st)).
    { change (nvals (s_fmt st)) with (ss_nvals st). unfold ss_nvals in NS at 1. rewrite NS in LEN. cbn in LEN. lia. }
    rewrite NI, Nat.eqb_refl.
    assert (LH : List.length h = calcsize (ss_mode hb c) (s_fmt c)) by (apply pack_u_length in PH; exact PH).
    destruct L as [_ L]. destruct (L (ss_mode hb c) (0 + List.length h)%nat) as (_ & L1 & _).
    destruct (L (ss_mode hb c) O) as (_ & L0 & _).
    rewrite L1 in PY. rewrite L0. cbn [Nat.add] in PY. rewrite <- (Nat.add_0_r (List.length h)) in PY.
    rewrite pack_u_shift in PY by (rewrite LH; now apply shift_ok_repeat). rewrite PY. reflexivity.
Qed.

Lemma rt_dynarr : forall md c item items l st b rest ct id ctx prec,
  dynarr_ok c item = true -> l = List.length items ->
  canon_ost hb (ss_mul item (Z.of_nat l)) items ->
  dynarr_st c item (Z.of_nat l) = Ok st ->
  est hb st (VInt (Z.of_nat (ss_nvals st) - 1) :: items) = Ok b ->
  dec_step hb ct md prec (SDynArr id c item) ctx (b ++ rest) = Ok ([VList items], blen b).
Proof.
  intros md c item items l st b rest ct id ctx prec OK -> C D E.
  assert (U : uint1 c = true) by (unfold dynarr_ok in OK; now repeat apply andb_prop in OK as [OK _]).
  unfold dynarr_st in D. destruct items as [|v0 items'].
  - cbn in D. injection D as <-. destruct (uint1_ints c U) as (AC & _ & NV).
    change (ss_nvals {| s_bo := s_bo c; s_fmt := s_fmt c; s_act := None |}) with (ss_nvals c) in E. rewrite NV in E.
    change (est hb c [VInt 0] = Ok b) in E.
    cbn [dec_step]. rewrite (uint1_rt c _ b rest U E). cbn. rewrite Z.add_0_r. do 2 f_equal. symmetry. eapply est_len; eauto.
  - set (items := v0 :: items') in *. set (l := List.length items) in *.
    assert (L1 : 1 <= Z.of_nat l) by (unfold l, items; cbn [List.length]; lia).
    destruct (Z.of_nat l =? 0) eqn:Z0; [lia|].
    destruct (ss_mul item (Z.of_nat l)) as [[s1|]|] eqn:M; [|discriminate C|contradiction]. cbn [rbind] in D.
    destruct (dynarr_enc c item (Z.of_nat l) s1 st _ items b OK L1 M D E) as (NS & h & y & H & Y & ->).
    assert (NL : ss_nvals s1 = l).
    { unfold est in Y. apply st_pack_inv in Y as [Y _]. unfold ss_nvals. unfold l. congruence. }
    rewrite NS, NL in H. replace (Z.of_nat (S l) - 1) with (Z.of_nat l) in H by lia.
    cbn [dec_step]. rewrite <- app_assoc, (uint1_rt c _ h (y ++ rest) U H). cbn [rbind one as_int as_index].
    rewrite M. cbn [rbind].
    assert (LH : blen h = ss_size hb c) by (eapply est_len; eauto).
    assert (ADV : adv (ss_size hb c) (h ++ y ++ rest) = y ++ rest).
    { rewrite <- LH. unfold adv, blen. rewrite Nat2Z.id. apply skipn_app_len. }
    rewrite ADV. cbn [dost osize]. rewrite (rt_st s1 items y rest C Y). cbn [rbind].
    rewrite blen_app, LH, (est_len _ _ _ Y). reflexivity.
Qed.

(** array headers *)
Definition hdr_ok (h : option sspec) (static : Z) : bool :=
  match h with
  | None => 0 <=? static
  | Some st => match s_act st with None => true | Some _ => false end && forallb int_tok (s_fmt st)
               && if 0 <=? static then Nat.eqb (ss_nvals st) 1
                  else Nat.eqb (ss_nvals st) 1 || Nat.eqb (ss_nvals st) 2
  end.
Lemma eost_len : forall o vs b, eost hb o vs = Ok b -> blen b = osize hb o.
Proof. intros [st|] vs b H; cbn in *; [eapply est_len; eauto|now injection H as <-]. Qed.

Lemma rt_header : forall h static count dsz hv hd x, hdr_ok h static = true ->
  header_pack_values h static count dsz = Ok hv -> eost hb h hv = Ok hd ->
  dost hb h (hd ++ x) = Ok hv /\
  exists ds, header_unpack_values h static hv = Ok (count, ds) /\ check_data_size ds dsz = Ok tt.
Proof.
  intros h static count dsz hv hd x OK P E. unfold header_pack_values in P. unfold header_unpack_values.
  assert (CK : forall z, check_data_size z z = Ok tt).
  { intros z. unfold check_data_size. rewrite Z.eqb_refl. cbn. now rewrite andb_false_r. }
  destruct h as [st|].
  - cbn in OK. apply andb_prop in OK as [OK1 OK2]. apply andb_prop in OK1 as [OA OF].
    assert (A : s_act st = None) by (destruct (s_act st); [discriminate|reflexivity]).
    cbn [eost] in E. cbn [onvals] in *. cbn [dost].
    destruct (0 <=? static) eqn:S.
    + destruct (negb (count =? static)) eqn:Q; [discriminate|]. apply negb_false_iff, Z.eqb_eq in Q.
      rewrite OK2 in *. injection P as <-.
      split; [exact (rt_ints st [dsz] hd x A OF E)|]. exists dsz. cbn. rewrite Q. auto.
    + destruct (Nat.eqb (ss_nvals st) 2) eqn:N2; injection P as <-.
      * split; [exact (rt_ints st [count; dsz] hd x A OF E)|]. exists dsz. cbn. auto.
      * split; [exact (rt_ints st [count] hd x A OF E)|]. exists (-1). cbn. auto.
  - cbn in OK. rewrite OK in *. cbn [onvals Nat.eqb] in *.
    destruct (negb (count =? static)) eqn:Q; [discriminate|]. apply negb_false_iff, Z.eqb_eq in Q.
    injection P as <-. injection E as <-. split; [reflexivity|]. exists (-1). rewrite Q. auto.
Qed.
End Struct.
