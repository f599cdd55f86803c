(** Properties C19, C27, C28, C29, C30: text, integers, fixed strings, padding, custom types. *)
From Verif Require Import Base Floats Value StructMod Format Ser Exec Pure BaseFacts StructFacts FormatFacts
  SerFacts RefPack RefUnpack Leaf Wire RoundTrip PropsStrings.

(** ** C19 *)
(** [t'] is [t] without its trailing NULs *)
Definition stripped (t t' : list Z) : Prop :=
  exists k, t = t' ++ repeat 0 k /\ (forall u, t' <> u ++ [0]).

Lemma drop_nul_spec : forall l, exists k, l = repeat 0 k ++ drop_nul l /\ (forall u, drop_nul l <> 0 :: u).
Proof.
  induction l as [|a l IH]; [exists 0%nat; split; [reflexivity|discriminate]|].
  destruct a; try (exists 0%nat; split; [reflexivity|discriminate]).
  destruct IH as (k & E & N). exists (S k). cbn. split; [now f_equal|exact N].
Qed.
Lemma rev_repeat : forall A (a : A) k, rev (repeat a k) = repeat a k.
Proof.
  induction k; [reflexivity|]. cbn. rewrite IHk.
  clear. induction k; [reflexivity|]. cbn. now f_equal.
Qed.
Lemma rstrip_spec : forall t, stripped t (rstrip_nul t).
Proof.
  intros t. unfold rstrip_nul. destruct (drop_nul_spec (rev t)) as (k & E & N). exists k. split.
  - apply (f_equal (@rev Z)) in E. rewrite rev_involutive, rev_app_distr, rev_repeat in E. exact E.
  - intros u H. apply (f_equal (@rev Z)) in H. rewrite rev_involutive, rev_app_distr in H. now apply (N (rev u)).
Qed.
Lemma stripped_unique : forall t a b, stripped t a -> stripped t b -> a = b.
Proof.
  intros t a b (k & E & N) (j & F & M). rewrite F in E. clear F t.
  revert j E. induction k; intros j E.
  - cbn in E. rewrite app_nil_r in E. destruct j; [now rewrite app_nil_r in E|].
    replace (S j) with (j + 1)%nat in E by lia. rewrite repeat_app in E. cbn in E. rewrite app_assoc in E.
    symmetry in E. now destruct (N _ E).
  - replace (S k) with (k + 1)%nat in E by lia. rewrite repeat_app in E. cbn in E. rewrite app_assoc in E.
    destruct j.
    + cbn in E. rewrite app_nil_r in E. now destruct (M _ E).
    + replace (S j) with (j + 1)%nat in E by lia. rewrite repeat_app in E. cbn in E. rewrite app_assoc in E.
      apply app_inj_tail in E as [E _]. now apply (IHk j).
Qed.

(** a text field packs like the byte string field holding the encoded text *)
Theorem C19_pack : forall hb ct n inner cd t b out, cod_enc cd t = Ok b ->
  writes hb ct n inner [VBytes b] out -> writes hb ct (S n) (SUnicode inner cd) [VStr t] out.
Proof.
  intros hb ct n inner cd t b out E W k w K. specialize (W k w K).
  cbn [pack pack_step nth0]. unfold bind, lift. rewrite E. exact W.
Qed.
Print Assumptions C19_pack.
(** ... and unpacks to the decoded text without its trailing NULs *)
Theorem C19_unpack : forall hb ct n inner cd s w b t t' z,
  reads hb ct n inner s w [VBytes b] z -> cod_dec cd b = Ok t -> stripped t t' ->
  reads hb ct (S n) (SUnicode inner cd) s w [VStr t'] z.
Proof.
  intros hb ct n inner cd s w b t t' z R D S.
  rewrite (stripped_unique t t' (rstrip_nul t) S (rstrip_spec t)).
  unfold reads in *. cbv zeta in *. cbn [unpack unpack_step]. unfold bind, lift, ret.
  destruct (unpack hb ct n inner s w) as [r w'] eqn:E. cbn [fst snd] in *. destruct R as (-> & R2 & R3 & R4 & R5).
  cbn. rewrite D. cbn. auto.
Qed.
Print Assumptions C19_unpack.

(** [field] carries the byte string [b] as [out]: it is packed and read back by every method *)
Definition carries (hb : bool) (ct : nat -> option cdef) (n : nat) (field : ser) (v : value) (out : bytes) (ok : src -> Prop) : Prop :=
  writes hb ct n field [v] out /\
  forall s w rest, ok s -> srcok s w -> suffix s w = out ++ rest -> reads hb ct n field s w [v] (blen out).

(** C19: round trip of every text without trailing NULs whose encoding the byte string field carries *)
Theorem C19_round_trip : forall hb ct n inner cd t b out ok,
  cod_enc cd t = Ok b -> cod_dec cd b = Ok t -> (forall u, t <> u ++ [0]) ->
  carries hb ct n inner (VBytes b) out ok ->
  carries hb ct (S n) (SUnicode inner cd) (VStr t) out ok.
Proof.
  intros hb ct n inner cd t b out ok E D N [W R]. split; [eapply C19_pack; eauto|].
  intros s w rest O K X. eapply C19_unpack; [eapply R; eauto|exact D|].
  exists 0%nat. cbn. rewrite app_nil_r. auto.
Qed.
Print Assumptions C19_round_trip.
(** encoding and decoding errors are passed on *)
Theorem C19_encode_error : forall hb ct n inner cd t e, cod_enc cd t = Err e ->
  refuses hb ct (S n) (SUnicode inner cd) [VStr t] e.
Proof.
  intros hb ct n inner cd t e E k w K. cbn [pack pack_step nth0]. unfold bind, lift. rewrite E.
  destruct k; [reflexivity|exists e; reflexivity|reflexivity].
Qed.
Print Assumptions C19_encode_error.
Theorem C19_decode_error : forall hb ct n inner cd s w b z e,
  reads hb ct n inner s w [VBytes b] z -> cod_dec cd b = Err e ->
  rejects hb ct (S n) (SUnicode inner cd) s w e.
Proof.
  intros hb ct n inner cd s w b z e (R & _) D. unfold rejects. cbn [unpack unpack_step]. unfold bind, lift.
  destruct (unpack hb ct n inner s w) as [r w'] eqn:E. cbn [fst] in R. rewrite R. cbn. now rewrite D.
Qed.
Print Assumptions C19_decode_error.

(** the counted, terminated, .NET and read-to-end fields of PropsStrings carry byte strings *)
Theorem C19_counted : forall hb ct n id c b, unsigned c -> b <> [] -> blen b < 256 ^ Z.of_nat (csize true c) ->
  carries hb ct (S n) (SDynChar id (uint_ser BO_DEFAULT c)) (VBytes b)
    (uint_bytes hb (csize true c) (blen b) ++ b) (fun _ => True).
Proof.
  intros hb ct n id c b H NE L. split; [now apply C16_pack|]. intros s w rest _ K E.
  rewrite <- app_assoc in E. rewrite blen_app. unfold blen at 1. rewrite uint_bytes_length.
  now apply (C16_unpack hb ct n id BO_DEFAULT c b rest s w H L (or_introl NE) K).
Qed.
Print Assumptions C19_counted.
Theorem C19_terminated : forall hb ct n id t b, ~ In t b ->
  carries hb ct (S n) (STerm id t) (VBytes b) (b ++ [t]) (fun s => md_of s <> UFrom).
Proof.
  intros hb ct n id t b H. split; [apply C17_pack|]. intros s w rest O K E.
  rewrite <- app_assoc in E. rewrite blen_app. change (blen [t]) with 1. eapply C17_unpack; eauto.
Qed.
Print Assumptions C19_terminated.
Theorem C19_net : forall ct n id b, b <> [] -> blen b <= 32767 ->
  carries false ct (S n) (SNet id) (VBytes b) (net_prefix (blen b) ++ b) (fun _ => True).
Proof.
  intros ct n id b NE L. split; [now apply C18_pack|]. intros s w rest _ K E.
  rewrite <- app_assoc in E. rewrite blen_app. eapply C18_unpack; eauto.
Qed.
Print Assumptions C19_net.

(** a Latin-1 like codec *)
Definition latin1 : codec :=
  Codec (fun t => if forallb (fun c => (0 <=? c) && (c <? 256)) t then Ok (map bz t) else Err (UserError 1))
        (fun b => Ok (map zb b)).
Example C19_nontrivial :
  carries false no_classes 2 (SUnicode (SDynChar 3 (uint_ser BO_DEFAULT CB)) latin1) (VStr [72; 105]) [x02; x48; x69] (fun _ => True).
Proof.
  apply (C19_round_trip false no_classes 1 _ latin1 [72; 105] [x48; x69]); try reflexivity.
  - intros u H. apply (f_equal (@rev Z)) in H. rewrite rev_app_distr in H. discriminate.
  - apply (C19_counted false no_classes 0 3 CB [x48; x69]); [reflexivity|discriminate|cbn; lia].
Qed.
(** C19 is false for the empty text in a counted field *)
Theorem C19_empty_refuted : forall hb ct n id bo c cd, unsigned c -> cod_enc cd [] = Ok [] ->
  refuses hb ct (S (S n)) (SUnicode (SDynChar id (uint_ser bo c)) cd) [VStr []] StructError.
Proof.
  intros hb ct n id bo c cd H E k w K.
  assert (U : pack hb ct (S (S n)) (SUnicode (SDynChar id (uint_ser bo c)) cd) k [VStr []] w
              = pack hb ct (S n) (SDynChar id (uint_ser bo c)) k [VBytes []] w).
  { cbn [pack]. cbn [pack_step nth0]. unfold bind at 1 2, lift at 1 2. rewrite E. reflexivity. }
  rewrite U. exact (C16_empty_pack_refuted hb ct n id bo c H k w K).
Qed.
Print Assumptions C19_empty_refuted.

(** ** C28 *)
Lemma st_str_pack : forall hb st n b, s_act st = None -> expand (s_fmt st) = [UStr n] ->
  est hb st [VBytes b] = Ok (firstn n b ++ zeros (n - List.length b)).
Proof.
  intros hb st n b A X. unfold est, st_pack, nvals. rewrite X. cbn. now rewrite app_nil_r.
Qed.
(** [char[n]], n >= 1, in any byte order *)
Theorem C28_pack : forall hb ct k n bo b, 1 <= n -> exists st, ss_matmul single_char n = Ok (Some st) /\
  writes hb ct (S k) (with_bo bo (SStruct st)) [VBytes b]
    (firstn (Z.to_nat n) b ++ zeros (Z.to_nat n - List.length b)).
Proof.
  intros hb ct k n bo b N. destruct (matmul_char BO_DEFAULT Cs n N) as (tc & M & X & _).
  eexists. split; [exact M|]. apply leaf_writes; [reflexivity|]. unfold lenc. cbn [with_bo enc enc_step].
  now apply st_str_pack.
Qed.
Print Assumptions C28_pack.
Theorem C28_unpack : forall hb ct k n bo s w, 1 <= n -> srcok s w -> exists st, ss_matmul single_char n = Ok (Some st) /\
  (n <= blen (suffix s w) ->
     reads hb ct (S k) (with_bo bo (SStruct st)) s w [VBytes (firstn (Z.to_nat n) (suffix s w))] n) /\
  (blen (suffix s w) < n -> rejects hb ct (S k) (with_bo bo (SStruct st)) s w StructError).
Proof.
  intros hb ct k n bo s w N K. destruct (matmul_char BO_DEFAULT Cs n N) as (tc & M & X & _).
  exists (SS BO_DEFAULT [tc] None). split; [exact M|].
  assert (SZ : ss_size hb (ss_with_bo bo (SS BO_DEFAULT [tc] None)) = n).
  { unfold ss_size, calcsize. cbn [ss_with_bo s_fmt]. rewrite X. unfold expand. cbn. lia. }
  assert (CS : Z.of_nat (calcsize (ss_mode hb (ss_with_bo bo (SS BO_DEFAULT [tc] None))) [tc]) = n) by exact SZ.
  split; intros L.
  - apply leaf_reads; auto. unfold ldec. cbn [with_bo dec dec_step]. unfold dst. rewrite SZ.
    unfold st_unpack. cbn [ss_with_bo s_fmt]. 
    rewrite firstn_length.
    destruct (Nat.eqb _ _) eqn:Q; [|exfalso; unfold blen in L; apply Nat.eqb_neq in Q; cbn [ss_with_bo] in CS; lia].
    rewrite X. unfold expand. cbn. rewrite firstn_firstn, Nat.min_id. reflexivity.
  - apply leaf_rejects; auto. unfold ldec. cbn [with_bo dec dec_step]. unfold dst. rewrite SZ.
    unfold st_unpack. cbn [ss_with_bo s_fmt]. rewrite firstn_length.
    destruct (Nat.eqb _ _) eqn:Q; [exfalso; unfold blen in L; apply Nat.eqb_eq in Q; cbn [ss_with_bo] in CS; lia|].
    reflexivity.
Qed.
Print Assumptions C28_unpack.
Theorem C28_not_bytes : forall hb ct k n bo v, 1 <= n -> (forall b, v <> VBytes b) ->
  exists st, ss_matmul single_char n = Ok (Some st) /\ refuses hb ct (S k) (with_bo bo (SStruct st)) [v] StructError.
Proof.
  intros hb ct k n bo v N V. destruct (matmul_char BO_DEFAULT Cs n N) as (tc & M & X & _).
  eexists. split; [exact M|]. apply leaf_refuses; [reflexivity|discriminate|]. unfold lenc. cbn [with_bo enc enc_step].
  unfold est, st_pack, nvals. cbn [ss_with_bo s_fmt]. rewrite X. unfold expand. cbn. destruct v; try reflexivity.
  now destruct (V b).
Qed.
Print Assumptions C28_not_bytes.
Example C28_nontrivial :
  firstn (Z.to_nat 4) [x41; x42] ++ zeros (Z.to_nat 4 - List.length [x41; x42]) = [x41; x42; x00; x00] /\
  firstn (Z.to_nat 2) [x41; x42; x43] ++ zeros (Z.to_nat 2 - 3) = [x41; x42].
Proof. split; reflexivity. Qed.
(** C28 is false for n = 0: [char[0]] is the empty serializer, it takes no value and yields none *)
Theorem C28_zero_refuted : forall bo, ss_matmul single_char 0 = Ok None /\ num_values (with_bo bo SNull) = 0%nat.
Proof. intros bo. split; reflexivity. Qed.
Print Assumptions C28_zero_refuted.

(** ** C29 *)
(** basic_types.py:67-74 *)
Definition single_pad : sspec := SS BO_DEFAULT [T None Cx] None.
Lemma pad_expand : forall n, expand [T (Some n) Cx] = repeat UPad n.
Proof. intros. unfold expand. cbn. apply app_nil_r. Qed.
Lemma pad_pack : forall m n off, pack_u m off (repeat UPad n) [] = (zeros n, None).
Proof. induction n; intros off; [reflexivity|]. cbn [repeat pack_u pack_unit usize]. cbn. rewrite IHn. reflexivity. Qed.
Lemma pad_size : forall m n off, size_u m off (repeat UPad n) = n.
Proof. induction n; intros off; cbn; [reflexivity|]. now rewrite IHn. Qed.
Lemma pad_unpack : forall m n off b, unpack_u m off (repeat UPad n) b = [].
Proof. induction n; intros off b; cbn; [reflexivity|]. apply IHn. Qed.
Lemma pad_nvals : forall n, nvals_u (repeat UPad n) = 0%nat.
Proof. induction n; cbn; [reflexivity|]. apply IHn. Qed.

(** [pad[n]] takes no value, writes [n] zero bytes and reads any [n] bytes to no value *)
Theorem C29_pad : forall hb ct k n bo, 1 <= n -> exists st, ss_matmul single_pad n = Ok (Some st) /\
  let x := with_bo bo (SStruct st) in
  num_values x = 0%nat /\ writes hb ct (S k) x [] (zeros (Z.to_nat n)) /\
  (forall s w, srcok s w -> n <= blen (suffix s w) -> reads hb ct (S k) x s w [] n) /\
  (forall s w, srcok s w -> blen (suffix s w) < n -> rejects hb ct (S k) x s w StructError).
Proof.
  intros hb ct k n bo N. destruct (matmul_char BO_DEFAULT Cx n N) as (tc & M & X & _). rewrite pad_expand in X.
  exists (SS BO_DEFAULT [tc] None). split; [exact M|]. cbv zeta. cbn [with_bo num_values].
  assert (SZ : ss_size hb (ss_with_bo bo (SS BO_DEFAULT [tc] None)) = n).
  { unfold ss_size, calcsize. cbn [ss_with_bo s_fmt]. rewrite X, pad_size. lia. }
  assert (CS : Z.of_nat (calcsize (ss_mode hb (ss_with_bo bo (SS BO_DEFAULT [tc] None))) [tc]) = n) by exact SZ.
  split; [unfold ss_nvals, nvals; cbn; rewrite X; apply pad_nvals|].
  split; [|split].
  - apply leaf_writes; [reflexivity|]. unfold lenc. cbn [enc enc_step]. unfold est, st_pack, nvals. cbn [ss_with_bo s_fmt].
    rewrite X, pad_nvals, pad_pack. reflexivity.
  - intros s w K L. apply leaf_reads; auto. unfold ldec. cbn [dec dec_step]. unfold dst. rewrite SZ.
    unfold st_unpack. cbn [ss_with_bo s_fmt]. rewrite firstn_length.
    destruct (Nat.eqb _ _) eqn:Q; [|exfalso; unfold blen in L; apply Nat.eqb_neq in Q; cbn [ss_with_bo] in CS; lia].
    rewrite X, pad_unpack. reflexivity.
  - intros s w K L. apply leaf_rejects; auto. unfold ldec. cbn [dec dec_step]. unfold dst. rewrite SZ.
    unfold st_unpack. cbn [ss_with_bo s_fmt]. rewrite firstn_length.
    destruct (Nat.eqb _ _) eqn:Q; [exfalso; unfold blen in L; apply Nat.eqb_eq in Q; cbn [ss_with_bo] in CS; lia|].
    reflexivity.
Qed.
Print Assumptions C29_pad.
Example C29_nontrivial : exists st, ss_matmul single_pad 3 = Ok (Some st) /\ s_fmt st = [T (Some 3%nat) Cx].
Proof. eexists. split; reflexivity. Qed.

(** ** C27 *)
(** the range of an [n] byte integer *)
Definition int_range (signed : bool) (n : nat) (z : Z) : Prop :=
  if signed then - 256 ^ Z.of_nat n <= 2 * z < 256 ^ Z.of_nat n else 0 <= z < 256 ^ Z.of_nat n.

Lemma in_range_spec : forall sg n z, (0 < n)%nat -> in_range sg n z = true <-> int_range sg n z.
Proof.
  intros sg n z N. unfold in_range, int_range. rewrite <- pow256.
  assert (E : 2 ^ (8 * Z.of_nat n) = 2 * 2 ^ (8 * Z.of_nat n - 1)).
  { rewrite <- Z.pow_succ_r by lia. f_equal. lia. }
  destruct sg; split; intros H; lia.
Qed.

(** a single integer field: in range it is packed in two's complement, otherwise refused *)
Theorem C27_int : forall hb ct k bo c sg v, int_code c = Some sg ->
  let n := csize (m_native (mode_of hb bo)) c in
  match as_index v with
  | Some z =>
      (int_range sg n z -> writes hb ct (S k) (SStruct (SS bo [T None c] None)) [v]
         (uint_bytes (m_big (mode_of hb bo)) n (z mod 256 ^ Z.of_nat n))) /\
      (~ int_range sg n z -> refuses hb ct (S k) (SStruct (SS bo [T None c] None)) [v] StructError)
  | None => refuses hb ct (S k) (SStruct (SS bo [T None c] None)) [v] StructError
  end.
Proof.
  intros hb ct k bo c sg v I n.
  assert (X : expand [T None c] = [UAlign c; UVal c])
    by (unfold expand; cbn [flat_map]; rewrite app_nil_r; destruct c; try discriminate I; reflexivity).
  assert (P : est hb (SS bo [T None c] None) [v] =
              match as_index v with
              | Some z => if in_range sg n z then Ok (int_enc (m_big (mode_of hb bo)) n z) else Err StructError
              | None => Err StructError
              end).
  { unfold est, st_pack, nvals. cbn [s_fmt]. rewrite X. cbn [nvals_u filter takes_value List.length Nat.eqb].
    cbn [pack_u pack_unit usize]. rewrite padding_0. cbn [zeros repeat List.length Nat.add].
    unfold pack_val. rewrite I. change (ss_mode hb (SS bo [T None c] None)) with (mode_of hb bo). fold n.
    destruct (as_index v); [|reflexivity]. destruct (in_range sg n z); [|reflexivity]. cbn. now rewrite app_nil_r. }
  assert (PN : (0 < n)%nat) by apply csize_pos.
  destruct (as_index v) as [z|].
  - split; intros R.
    + apply (in_range_spec sg n z PN) in R. apply leaf_writes; [reflexivity|]. unfold lenc. cbn [enc enc_step].
      rewrite P, R. f_equal. rewrite <- int_enc_bytes. apply int_enc_mod. rewrite pow256.
      pose proof (pow256_pos n). now rewrite Z.mod_mod by lia.
    + apply leaf_refuses; [reflexivity|discriminate|]. unfold lenc. cbn [enc enc_step]. rewrite P.
      destruct (in_range sg n z) eqn:Q; [|reflexivity]. apply (in_range_spec sg n z PN) in Q. contradiction.
  - apply leaf_refuses; [reflexivity|discriminate|]. unfold lenc. cbn [enc enc_step]. exact P.
Qed.
Print Assumptions C27_int.

Example C27_nontrivial :
  int_range true 1 (-128) /\ ~ int_range true 1 128 /\ int_range false 2 65535 /\ ~ int_range false 2 (-1) /\
  uint_bytes false 2 (-2 mod 256 ^ Z.of_nat 2) = [xfe; xff] /\ as_index (VStr [49]) = None.
Proof. unfold int_range. repeat split; cbn; lia || reflexivity. Qed.

(** joined integer fields: whatever is packed is read back unchanged, nothing wraps *)
Lemma pack_u_index : forall m us off vs b, forallb int_unit us = true -> pack_u m off us vs = (b, None) ->
  List.length vs = nvals_u us ->
  exists zs, Forall2 (fun v z => as_index v = Some z) vs zs /\ pack_u m off us (map VInt zs) = (b, None).
Proof.
  induction us as [|u us IH]; intros off vs b F P L.
  - cbn in L. destruct vs; [|discriminate]. exists []. split; [constructor|exact P].
  - cbn [forallb] in F. apply andb_prop in F as [F1 F2]. destruct u; try discriminate F1.
    + cbn [pack_u pack_unit] in P. cbn [usize] in P. rewrite zeros_length in P.
      destruct (pack_u m (off + padding m off c) us vs) as [bs e] eqn:Q. injection P as <- ->.
      destruct (IH _ _ _ F2 Q L) as (zs & A & B). exists zs. split; [exact A|].
      cbn [pack_u pack_unit usize]. now rewrite zeros_length, B.
    + cbn in L. destruct vs as [|v vs]; [discriminate|]. cbn [pack_u pack_unit] in P.
      destruct (pack_val m c v) as [bv|] eqn:V; [|discriminate]. cbn [rbind] in P.
      destruct (pack_u m (off + List.length bv) us vs) as [bs e] eqn:Q. injection P as <- ->.
      destruct (IH _ _ _ F2 Q ltac:(unfold nvals_u in *; cbn in L; lia)) as (zs & A & B).
      cbn [int_unit] in F1. unfold pack_val in V. destruct (int_code c) as [sg|] eqn:I; [|discriminate].
      destruct (as_index v) as [z|] eqn:AI; [|discriminate].
      exists (z :: zs). split; [now constructor|]. cbn [map pack_u pack_unit]. unfold pack_val. rewrite I. cbn [as_index].
      rewrite V. cbn [rbind]. now rewrite B.
Qed.
Theorem C27_no_wrap : forall hb ct k st vs w b, s_act st = None -> forallb int_tok (s_fmt st) = true ->
  fst (pack hb ct (S k) (SStruct st) KPack vs w) = Ok b ->
  exists zs, Forall2 (fun v z => as_index v = Some z) vs zs /\
    forall s w' rest, srcok s w' -> suffix s w' = b ++ rest ->
      reads hb ct (S k) (SStruct st) s w' (map VInt zs) (blen b).
Proof.
  intros hb ct k st vs w b A F E. cbn in E. change (est hb st vs = Ok b) in E.
  unfold est in E. pose proof E as E0. apply st_pack_inv in E as [L E].
  destruct (pack_u_index _ _ _ _ _ (int_fmt_units _ F) E L) as (zs & I & P). exists zs. split; [exact I|].
  assert (LZ : List.length zs = List.length vs) by (clear - I; induction I; cbn; lia).
  assert (EZ : est hb st (map VInt zs) = Ok b).
  { unfold est, st_pack. rewrite map_length, LZ, L. unfold nvals. rewrite Nat.eqb_refl, P. reflexivity. }
  intros s w' rest K X. apply leaf_reads; auto.
  - rewrite X. unfold ldec. cbn [dec dec_step]. rewrite (rt_ints hb st zs b rest A F EZ). cbn [rbind].
    now rewrite (est_len hb st _ b EZ).
  - rewrite X, blen_app. pose proof (blen_nonneg rest). lia.
Qed.
Print Assumptions C27_no_wrap.
Example C27_no_wrap_nontrivial :
  fst (pack false no_classes 1 (SStruct (SS BO_BE [T None Ch; T (Some 2%nat) CB] None)) KPack [VInt (-2); VBool true; VInt 7] cloud0)
  = Ok [xff; xfe; x01; x07].
Proof. reflexivity. Qed.
