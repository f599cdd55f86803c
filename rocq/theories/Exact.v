(** Unpacking, then packing what was unpacked: which definitions give the same bytes again, whatever the
    input was. *)
From Verif Require Import Base Floats FloatFacts Value StructMod Format Ser Exec Pure BaseFacts StructFacts FormatFacts
  SerFacts RefPack RefUnpack DecFacts Fuel RoundTrip RoundTripMain.

(** no NaN anywhere inside a value *)
Fixpoint nanfree (v : value) : bool :=
  match v with
  | VFloat b => negb (is_nan b)
  | VList l | VTuple l => forallb nanfree l
  | VObj _ _ d => forallb (fun kv => nanfree (snd kv)) d
  | VWrap _ v => nanfree v
  | _ => true
  end.

(** ** struct formats *)
(** units that use every bit of their bytes *)
Definition plain_unit (u : unit_) : bool :=
  match u with
  | UAlign _ | UStr _ => true
  | UVal c => match int_code c with
              | Some _ => true
              | None => match c with Cc | Cd | Cf | Ce => true | _ => false end
              end
  | UPad | UPas _ => false
  end.
(** no alignment gap *)
Fixpoint gapless (m : mode) (off : nat) (us : list unit_) : bool :=
  match us with
  | [] => true
  | u :: us' => match u with UAlign c => Nat.eqb (padding m off c) 0 | _ => true end
                && gapless m (off + usize m off u) us'
  end.

Lemma unpack_pack_val : forall m c b, plain_unit (UVal c) = true -> List.length b = csize (m_native m) c ->
  nanfree (unpack_val m c b) = true -> pack_val m c (unpack_val m c b) = Ok b.
Proof.
  intros m c b P L N. unfold pack_val, unpack_val in *. cbn [plain_unit] in P.
  destruct (int_code c) as [sg|] eqn:I.
  - cbn [as_index]. pose proof (int_dec_range (m_big m) b) as R. rewrite L in R.
    pose proof (csize_pos (m_native m) c) as CP. set (n := csize (m_native m) c) in *.
    assert (IR : in_range sg n (if sg then to_signed n (int_dec (m_big m) b) else int_dec (m_big m) b) = true).
    { unfold in_range. destruct sg; [|lia]. pose proof (to_signed_range n (int_dec (m_big m) b) CP R). lia. }
    rewrite IR. f_equal. transitivity (int_enc (m_big m) n (int_dec (m_big m) b)).
    + destruct sg; [|reflexivity]. apply int_enc_mod, to_signed_cong.
    + rewrite <- L. apply int_enc_dec.
  - pose proof (int_dec_range (m_big m) b) as R. rewrite L in R.
    destruct c; try discriminate; cbn [as_float nanfree] in *.
    + destruct b as [|x [|]]; cbn in L; destruct (m_native m); try discriminate; reflexivity.
    + apply negb_true_iff in N. assert (L2 : List.length b = 2%nat) by (destruct (m_native m); exact L).
      rewrite narrow_widen_e; [|destruct (m_native m); exact R|exact N]. f_equal. rewrite <- L2. apply int_enc_dec.
    + apply negb_true_iff in N. assert (L4 : List.length b = 4%nat) by (destruct (m_native m); exact L).
      rewrite narrow_widen_f; [|destruct (m_native m); exact R|exact N]. f_equal. rewrite <- L4. apply int_enc_dec.
    + f_equal. assert (L8 : List.length b = 8%nat) by (destruct (m_native m); exact L).
      rewrite <- L8. apply int_enc_dec.
Qed.

Lemma unpack_pack_u : forall m us off b, forallb plain_unit us = true -> gapless m off us = true ->
  List.length b = size_u m off us -> forallb nanfree (unpack_u m off us b) = true ->
  pack_u m off us (unpack_u m off us b) = (b, None).
Proof.
  induction us as [|u us IH]; intros off b P G L N.
  - cbn in *. now destruct b.
  - cbn [forallb] in P. apply andb_prop in P as [P1 P2]. cbn [gapless] in G. apply andb_prop in G as [G1 G2].
    cbn [size_u] in L.
    assert (LF : List.length (firstn (usize m off u) b) = usize m off u) by (rewrite firstn_length; lia).
    assert (LS : List.length (skipn (usize m off u) b) = size_u m (off + usize m off u) us)
      by (rewrite skipn_length; lia).
    cbn [unpack_u pack_u] in *. cbv zeta in *.
    destruct u; try discriminate.
    + apply Nat.eqb_eq in G1. cbn [usize] in *. rewrite G1 in *. cbn [pack_unit usize]. rewrite G1.
      cbn [zeros repeat List.length app skipn] in *. rewrite Nat.add_0_r in *.
      rewrite (IH off b P2 G2) by (auto; lia). reflexivity.
    + cbn [forallb] in N. apply andb_prop in N as [_ N]. cbn [usize] in *. cbn [pack_unit].
      rewrite str_fit_exact by assumption. rewrite LF, (IH _ _ P2 G2 LS N), firstn_skipn. reflexivity.
    + cbn [forallb] in N. apply andb_prop in N as [N1 N]. cbn [usize] in *. cbn [pack_unit].
      rewrite (unpack_pack_val m c _ P1 LF N1). cbn [rbind]. rewrite LF, (IH _ _ P2 G2 LS N), firstn_skipn. reflexivity.
Qed.

(** repeating one specifier leaves no gap *)
Lemma gapless_app : forall m a b off, gapless m off (a ++ b) = gapless m off a && gapless m (off + size_u m off a) b.
Proof.
  induction a as [|u a IH]; intros b off; cbn [gapless app size_u]; [now rewrite Nat.add_0_r|].
  rewrite IH, <- andb_assoc, Nat.add_assoc. reflexivity.
Qed.
Lemma gapless_vals : forall m c k off, gapless m off (repeat (UVal c) k) = true.
Proof. induction k; intros off; cbn [repeat gapless andb]; [reflexivity|apply IHk]. Qed.
Lemma size_vals : forall m c k off, size_u m off (repeat (UVal c) k) = (k * csize (m_native m) c)%nat.
Proof. induction k; intros off; cbn [repeat size_u usize]; [reflexivity|]. rewrite IHk. cbn. reflexivity. Qed.

Definition exact_tok (t : tok) : bool := forallb plain_unit (expand_tok t).
Lemma tok_cases : forall t, exact_tok t = true ->
  (exists k, expand_tok t = [UStr k]) \/
  (exists c k, expand_tok t = UAlign c :: repeat (UVal c) k /\ t_code t = c) \/ expand_tok t = [].
Proof.
  intros [n c] E. unfold exact_tok in E. unfold expand_tok in *. cbn [t_code] in *.
  destruct c; try (right; left; do 2 eexists; split; reflexivity); cbn in E.
  - destruct (cnt _) eqn:C; [right; right; reflexivity|discriminate].
  - left. eauto.
  - discriminate.
Qed.
Lemma gapless_repeat : forall m t n off, exact_tok t = true ->
  (off mod calign (m_native m) (t_code t) = 0)%nat ->
  gapless m off (expand (repeat_fmt [t] n)) = true.
Proof.
  intros m t n. induction n as [|n IH]; intros off E O; [reflexivity|].
  unfold repeat_fmt in *. cbn [repeat List.concat]. rewrite expand_app, gapless_app.
  unfold expand at 1 2. cbn [flat_map]. rewrite app_nil_r.
  destruct (tok_cases t E) as [(k & X)|[(c & k & X & T)|X]]; rewrite X.
  - cbn [gapless size_u usize]. rewrite Nat.add_0_r. 
    clear IH O.
    assert (G : forall j o, gapless m o (expand (List.concat (repeat [t] j))) = true).
    { induction j as [|j IHj]; intros o; [reflexivity|]. cbn [repeat List.concat]. rewrite expand_app.
      unfold expand at 1. cbn [flat_map]. rewrite app_nil_r, X. cbn [app gapless]. apply IHj. }
    now rewrite G.
  - subst c. cbn [gapless size_u usize]. rewrite padding_aligned by exact O. rewrite Nat.add_0_r. cbn [Nat.eqb andb].
    rewrite gapless_vals, size_vals. cbn [andb]. apply IH; [exact E|].
    pose proof (calign_pos (m_native m) (t_code t)) as CP.
    rewrite Nat.add_0_l, Nat.add_mod, O by lia. rewrite Nat.mul_mod, csize_align by lia. rewrite Nat.mul_0_r, Nat.mod_0_l by lia.
    cbn. apply Nat.mod_0_l. lia.
  - cbn [gapless size_u]. rewrite Nat.add_0_r. cbn [andb]. now apply IH.
Qed.

Section Exact.
Variable hb : bool.
Notation est := (est hb). Notation dst := (dst hb). Notation eost := (eost hb). Notation dost := (dost hb).

(** every bit of the bytes ends up in the values *)
Definition exact_st (st : sspec) : bool :=
  match s_act st with None => true | Some _ => false end
  && forallb plain_unit (expand (s_fmt st)) && gapless (ss_mode hb st) 0 (expand (s_fmt st)).
(** one such specifier, to be repeated *)
Definition exact_item (st : sspec) : bool :=
  match s_act st with None => true | Some _ => false end
  && match s_fmt st with [t] => exact_tok t | _ => false end.

Lemma dst_inv : forall st b vs, s_act st = None -> dst st b = Ok vs ->
  vs = unpack_u (ss_mode hb st) 0 (expand (s_fmt st)) (firstn (Z.to_nat (ss_size hb st)) b) /\
  List.length (firstn (Z.to_nat (ss_size hb st)) b) = size_u (ss_mode hb st) 0 (expand (s_fmt st)).
Proof.
  intros st b vs A D. unfold Pure.dst, st_unpack in D. destruct (Nat.eqb _ _) eqn:Q; [|discriminate].
  cbn [rbind] in D. unfold ss_act in D. rewrite A in D. injection D as <-. apply Nat.eqb_eq in Q. auto.
Qed.
Lemma back_units : forall st us b vs, s_act st = None -> layout_eq (expand (s_fmt st)) us ->
  forallb plain_unit us = true -> gapless (ss_mode hb st) 0 us = true ->
  dst st b = Ok vs -> forallb nanfree vs = true -> est st vs = Ok (firstn (Z.to_nat (ss_size hb st)) b).
Proof.
  intros st us b vs A [NV L] P G D N. destruct (dst_inv st b vs A D) as [-> LEN].
  destruct (L (ss_mode hb st) O) as (S & PU & UU).
  unfold Pure.est, st_pack. rewrite unpack_u_length. unfold nvals. rewrite Nat.eqb_refl, PU.
  rewrite UU in N. rewrite UU, unpack_pack_u; auto. congruence.
Qed.
Lemma st_back : forall st b vs, exact_st st = true -> dst st b = Ok vs -> forallb nanfree vs = true ->
  est st vs = Ok (firstn (Z.to_nat (ss_size hb st)) b).
Proof.
  intros st b vs E D N. unfold exact_st in E. apply andb_prop in E as [E G]. apply andb_prop in E as [A P].
  apply (back_units st (expand (s_fmt st))); auto; [destruct (s_act st); [discriminate|reflexivity]|apply layout_eq_refl].
Qed.
Lemma dst_count : forall st b vs, s_act st = None -> dst st b = Ok vs -> List.length vs = ss_nvals st.
Proof. intros st b vs A D. destruct (dst_inv st b vs A D) as [-> _]. apply unpack_u_length. Qed.

Lemma mul_back : forall item n o b vs, exact_item item = true -> ss_mul item n = Ok o -> dost o b = Ok vs ->
  forallb nanfree vs = true ->
  0 <= n /\ eost o vs = Ok (firstn (Z.to_nat (osize hb o)) b) /\
  List.length vs = (Z.to_nat n * ss_nvals item)%nat /\ 0 <= osize hb o <= blen b.
Proof.
  intros [bo f act] n o b vs E M D N. unfold exact_item in E. cbn [s_act s_fmt] in E.
  destruct act; [discriminate|]. destruct f as [|t [|]]; try discriminate. cbn [andb] in E.
  destruct (Z_lt_le_dec n 1) as [L|L].
  - unfold ss_mul, ss_mul_impl in M. destruct (n =? 0) eqn:Z0.
    + apply Z.eqb_eq in Z0. subst n. cbn in M. injection M as <-. cbn in *. injection D as <-.
      pose proof (blen_nonneg b). repeat split; auto; lia.
    + destruct (n <? 0) eqn:ZN; [discriminate|lia].
  - assert (R : repeatable [t] = true) by reflexivity.
    destruct (mul_layout bo [t] n R L) as (g & M' & LY). rewrite M in M'. injection M' as ->.
    split; [lia|]. cbn [Pure.dost Pure.eost osize] in *.
    assert (PL : forall k, forallb plain_unit (expand (repeat_fmt [t] k)) = true).
    { induction k as [|k IHk]; [reflexivity|]. unfold repeat_fmt in *. cbn [repeat List.concat].
      rewrite expand_app, forallb_app, IHk, andb_true_r. unfold expand. cbn [flat_map]. now rewrite app_nil_r. }
    split; [|split].
    + apply (back_units (SS bo g None) (expand (repeat_fmt [t] (Z.to_nat n)))); auto.
      apply gapless_repeat; [exact E|]. apply Nat.mod_0_l. pose proof (calign_pos (m_native (ss_mode hb (SS bo g None))) (t_code t)). lia.
    + rewrite (dst_count (SS bo g None) b vs eq_refl D). unfold ss_nvals. cbn [s_fmt]. unfold nvals at 1. rewrite (proj1 LY).
      apply nvals_repeat.
    + split; [unfold ss_size; lia|]. eapply dst_len; eauto.
Qed.

Lemma uint1_exact : forall st, uint1 st = true -> exact_st st = true.
Proof.
  intros st U. destruct (uint1_inv st U) as (t & F & A & C & I). unfold exact_st. rewrite A, F.
  unfold expand. cbn [flat_map]. rewrite app_nil_r. unfold expand_tok. rewrite C.
  assert (X : forall c, int_code c = Some false ->
     forallb plain_unit (UAlign c :: repeat (UVal c) 1) && gapless (ss_mode hb st) 0 (UAlign c :: repeat (UVal c) 1) = true).
  { intros c Ic. cbn [repeat forallb plain_unit gapless]. rewrite Ic.
    rewrite padding_aligned; [reflexivity|]. apply Nat.mod_0_l. pose proof (calign_pos (m_native (ss_mode hb st)) c). lia. }
  cbn [andb]. destruct (t_code t); try discriminate I; apply X; reflexivity.
Qed.

(** headers made of unsigned integers *)
Definition uint_unit (u : unit_) : bool :=
  match u with UAlign _ => true | UVal c => match int_code c with Some false => true | _ => false end | _ => false end.
Lemma uints_unpack : forall m us off b, forallb uint_unit us = true ->
  Forall (fun v => exists z, v = VInt z /\ 0 <= z) (unpack_u m off us b).
Proof.
  induction us as [|u us IH]; intros off b U; [constructor|]. cbn [forallb] in U. apply andb_prop in U as [U1 U2].
  cbn [unpack_u]. cbv zeta. destruct u; try discriminate; [now apply IH|]. constructor; [|now apply IH].
  cbn in U1. unfold unpack_val. destruct (int_code c) as [[|]|]; try discriminate.
  eexists. split; [reflexivity|]. apply int_dec_range.
Qed.
Definition exact_hdr (h : option sspec) (static : Z) : bool :=
  match h with
  | None => 0 <=? static
  | Some st => exact_st st && forallb uint_unit (expand (s_fmt st))
               && if 0 <=? static then Nat.eqb (ss_nvals st) 1
                  else Nat.eqb (ss_nvals st) 1 || Nat.eqb (ss_nvals st) 2
  end.
Lemma hdr_back : forall h static b hv count ds, exact_hdr h static = true ->
  dost h b = Ok hv -> header_unpack_values h static hv = Ok (count, ds) ->
  0 <= count /\ 0 <= osize hb h <= blen b /\ eost h hv = Ok (firstn (Z.to_nat (osize hb h)) b) /\
  forall sz, check_data_size ds sz = Ok tt -> header_pack_values h static count sz = Ok hv.
Proof.
  intros h static b hv count ds X D U. unfold header_unpack_values in U. unfold header_pack_values.
  destruct h as [st|].
  - cbn in X. apply andb_prop in X as [X NV]. apply andb_prop in X as [X UI]. cbn [Pure.dost Pure.eost osize onvals] in *.
    assert (A : s_act st = None) by (unfold exact_st in X; destruct (s_act st); [discriminate|reflexivity]).
    pose proof (dst_count st b hv A D) as LEN. destruct (dst_inv st b hv A D) as [HV _].
    pose proof (uints_unpack (ss_mode hb st) _ 0 (firstn (Z.to_nat (ss_size hb st)) b) UI) as F. rewrite <- HV in F.
    assert (N : forallb nanfree hv = true).
    { clear -F. induction F as [|v l (z & -> & _) F IH]; [reflexivity|exact IH]. }
    pose proof (dst_len hb st b hv D) as DL.
    assert (CK : forall z sz, 0 <= z -> check_data_size z sz = Ok tt -> sz = z).
    { intros z sz Z0 Q. unfold check_data_size in Q. destruct (0 <=? z) eqn:Q1; [|lia].
      destruct (z =? sz) eqn:Q2; [lia|discriminate]. }
    destruct (0 <=? static) eqn:S.
    + rewrite NV in *. apply Nat.eqb_eq in NV. rewrite NV in LEN.
      destruct hv as [|v [|]]; try discriminate. inversion F as [|? ? (z & -> & Z0) _]; subst.
      cbn in U. injection U as <- <-. split; [lia|]. split; [unfold ss_size in *; lia|]. split; [now apply st_back|].
      intros sz Q. rewrite Z.eqb_refl. cbn. now rewrite (CK z sz Z0 Q).
    + destruct (Nat.eqb (ss_nvals st) 2) eqn:N2.
      * apply Nat.eqb_eq in N2. rewrite N2 in LEN. destruct hv as [|v [|v' [|]]]; try discriminate.
        inversion F as [|? ? (z & -> & Z0) F2]; subst. inversion F2 as [|? ? (z' & -> & Z0') _]; subst.
        cbn in U. injection U as <- <-. split; [lia|]. split; [unfold ss_size in *; lia|]. split; [now apply st_back|].
        intros sz Q. now rewrite (CK z' sz Z0' Q).
      * rewrite orb_false_r in NV. apply Nat.eqb_eq in NV. rewrite NV in LEN. destruct hv as [|v [|]]; try discriminate.
        inversion F as [|? ? (z & -> & Z0) _]; subst.
        cbn in U. injection U as <- <-. split; [lia|]. split; [unfold ss_size in *; lia|]. split; [now apply st_back|].
        reflexivity.
  - cbn in X, D. injection D as <-. rewrite X in *. cbn in U. injection U as <- <-. cbn. pose proof (blen_nonneg b).
    repeat split; try lia. rewrite Z.eqb_refl. reflexivity.
Qed.

(** ** deciders that answer from what has been read already *)
(** [p] knows everything [u] knows *)
Definition knows (u p : pobj) : Prop :=
  p_cls u = p_cls p /\ forall a v, assoc a (p_attrs u) = Some v -> assoc a (p_attrs p) = Some v.
Definition steady (f : decider) : Prop := forall u p r, knows u p -> f u = Ok r -> f p = Ok r.
Fixpoint steady_ser (s : ser) : Prop :=
  match s with
  | SUnicode x _ | SArray _ _ x _ | STuple _ x => steady_ser x
  | SCond f x _ => steady f /\ steady_ser x
  | SLookback _ f m d | SLookahead _ _ f m d =>
      steady f /\ (fix go l := match l with [] => True | p :: l' => steady_ser (snd p) /\ go l' end) m /\
      match d with Some x => steady_ser x | None => True end
  | SCompound _ subs | SSpec _ subs _ =>
      (fix go l := match l with [] => True | x :: l' => steady_ser x /\ go l' end) subs
  | _ => True
  end.
Fixpoint steady_subs (l : list ser) : Prop :=
  match l with [] => True | x :: l' => steady_ser x /\ steady_subs l' end.

(** ** the definitions *)
(** how many values unpacking gives (a dynamic array of basic items says 0) *)
Definition nvr (s : ser) : nat := match s with SDynArr _ _ _ => 1 | _ => num_values s end.
(** no counted string: read with unpack_from or unpack_read, an empty one gives no value at all *)
Definition nodc (s : ser) : bool := match s with SDynChar _ _ => false | _ => true end.
Variable md : umode.
(** conditions on single serializers *)
Definition pE (x : ser) : bool :=
  match x with
  | SStruct st => exact_st st
  | SDynChar _ st => uint1 st
  | SNet _ | SUnicode _ _ | SLookahead _ _ _ _ _ | SCompound _ _ | SSpec _ _ _ => false
  | SStaticArr _ item => exact_item item && Nat.eqb (ss_nvals item) 1
  | SDynArr _ c item => dynarr_ok hb c item && exact_item item && Nat.eqb (ss_nvals item) 1
  | SArray _ h item static =>
      exact_hdr h static && Nat.eqb (nvr item) 1 && match md with UBuf => true | _ => sall nodc item end
  | SCond _ i d =>                                              (* checked by conditional.py:50-56 *)
      match i with SDynArr _ _ _ => false | _ => Nat.eqb (List.length d) (num_values i) end
  | SLookback _ _ m d =>                                        (* checked by unions.py:61-68 *)
      forallb (fun p => Nat.eqb (nvr (snd p)) 1) m
      && match d with Some x => Nat.eqb (nvr x) 1 | None => true end
  | _ => true
  end.
Lemma pE_stable : forall c, stable pE c.
Proof. intros c. split; intros; cbn in *; try reflexivity. discriminate. Qed.

Definition class_exact (s : ser) : bool :=
  match s with SCompound _ subs => forallb (sall pE) subs | _ => sall pE s end.

(** the number of attributes of a class with this serializer *)
Definition total (subs : list ser) : nat := fold_right (fun s n => nvr s + n)%nat O subs.
Definition width (s : ser) : nat := match s with SCompound _ subs => total subs | _ => nvr s end.
Definition exact_class (cd : cdef) : Prop :=
  class_exact (c_ser cd) = true /\ steady_ser (c_ser cd) /\ NoDup (c_attrs cd) /\
  List.length (c_attrs cd) = width (c_ser cd).

Variable ct : nat -> option cdef.
Variable allow : nat -> nat -> bool.
Hypothesis CLS : forall c cd, ct c = Some cd -> exact_class cd.

Lemma resolve_same : forall s u p s', sall pE s = true -> steady_ser s -> knows u p ->
  resolve false s u = Ok s' -> resolve true s p = Ok s'.
Proof.
  intros s u p s' E ST K R. destruct s; cbn [resolve] in *; try exact R.
  - destruct ST as [ST _]. destruct (cond u) as [v|] eqn:F; [|discriminate]. now rewrite (ST u p v K F).
  - destruct K as [K _]. unfold self_class in *. destruct (assoc _ _); [discriminate|].
    destruct (p_proxy u); [|discriminate]. cbn in *. now rewrite <- K.
  - cbn in E. discriminate.
Qed.
Lemma resolve_steady : forall packing s o s', steady_ser s -> resolve packing s o = Ok s' -> steady_ser s'.
Proof.
  intros packing s o s' ST R. destruct s; cbn in R; try (injection R as <-; exact ST).
  - destruct (cond o) as [v|]; [|discriminate]. cbn in R. unfold cond_branch in R.
    destruct (key_eqb v (VBool true)); [injection R as <-; apply ST|].
    destruct (key_eqb v (VBool false)); [injection R as <-; exact I|]. destruct (hashable v); discriminate.
  - destruct (self_class packing o); [|discriminate]. injection R as <-. exact I.
  - injection R as <-. now destruct (existsb needs_pre subs).
Qed.
Lemma resolve_nvr : forall packing s o s', sall pE s = true -> resolve packing s o = Ok s' -> nvr s' = nvr s.
Proof.
  intros packing s o s' E R. pose proof (sall_here _ _ E) as EH.
  destruct s; cbn [resolve] in R; try (injection R as <-; reflexivity).
  - cbn [pE] in EH. assert (N : nvr s = num_values s /\ List.length defaults = num_values s).
    { destruct s; try discriminate EH; split; try reflexivity; now apply Nat.eqb_eq in EH. }
    destruct N as [N1 N2]. destruct (cond o) as [v|]; [|discriminate]. cbn in R. unfold cond_branch in R.
    destruct (key_eqb v (VBool true)); [injection R as <-; exact N1|].
    destruct (key_eqb v (VBool false)); [injection R as <-; exact N2|]. destruct (hashable v); discriminate.
  - destruct (self_class packing o); [|discriminate]. injection R as <-. reflexivity.
  - cbn in E. discriminate.
Qed.
Lemma resolve_nodc : forall packing s o s', sall nodc s = true -> resolve packing s o = Ok s' -> sall nodc s' = true.
Proof. intros packing s o s' E R. eapply resolve_sall; [|exact E|exact R]. now split. Qed.
Lemma choose_all : forall (Q : ser -> Prop) m d k s0, choose m d k = Ok s0 ->
  (forall k' x, In (k', x) m -> Q x) -> (forall x, d = Some x -> Q x) -> Q s0.
Proof.
  intros Q m d k s0 C M D. unfold choose in C. destruct (hashable k); [|discriminate].
  assert (F : forall x, map_find k m = Some x -> Q x).
  { clear -M. induction m as [|[k' y] m IH]; cbn in *; [discriminate|].
    destruct (key_eqb k k'); [intros x E; injection E as <-; eauto|]. apply IH. eauto. }
  destruct (map_find k m); [injection C as <-; auto|]. destruct d; [injection C as <-; auto|discriminate].
Qed.

Lemma firstn_adv : forall (k k' : Z) (b : bytes), 0 <= k -> 0 <= k' ->
  firstn (Z.to_nat k) b ++ firstn (Z.to_nat k') (adv k b) = firstn (Z.to_nat (k + k')) b.
Proof.
  intros k k' b K K'. unfold adv. rewrite Z2Nat.inj_add by assumption.
  generalize (Z.to_nat k), (Z.to_nat k'). clear. intros n m. revert b.
  induction n as [|n IH]; intros b; [reflexivity|]. destruct b; cbn; [now rewrite firstn_nil|]. now rewrite IH.
Qed.
Lemma adv_room : forall k k' b, 0 <= k -> 0 <= k' -> k + k' <= blen b -> k <= blen b /\ k' <= blen (adv k b).
Proof. intros k k' b K K' L. rewrite blen_adv by assumption. lia. Qed.

Notation enc := (enc hb ct allow). Notation dec := (dec hb ct md).

(** unpacking [x] at level [n] is undone by packing *)
Definition ex_at (n : nat) : Prop := forall x uc b vs k, sall pE x = true -> steady_ser x ->
  dec n x uc b = Ok (vs, k) ->
  0 <= k /\ (List.length vs <= nvr x)%nat /\ (md = UBuf \/ sall nodc x = true -> List.length vs = nvr x) /\
  forall m pc b', k <= blen b -> knows uc pc -> forallb nanfree vs = true ->
    enc m x pc vs = Ok b' -> b' = firstn (Z.to_nat k) b.

Lemma nth_find : forall t b i, byte_find t b = Some i -> firstn (S i) b = firstn i b ++ [t].
Proof.
  induction b as [|x b IH]; intros i F; [discriminate|]. cbn in F.
  destruct (Byte.eqb x t) eqn:Q.
  - injection F as <-. apply byte_eqb_true in Q. now subst.
  - destruct (byte_find t b) as [j|]; [|discriminate]. injection F as <-.
    change (firstn (S (S j)) (x :: b)) with (x :: firstn (S j) b). rewrite (IH j eq_refl). reflexivity.
Qed.
Lemma forallb_zip : forall (names : list string) vs, List.length vs = List.length names ->
  forallb (fun kv => nanfree (snd kv)) (zipw names vs) = forallb nanfree vs.
Proof.
  induction names as [|a names IH]; intros vs L; destruct vs as [|v vs]; try discriminate; [reflexivity|].
  cbn. rewrite IH; [reflexivity|]. now injection L.
Qed.
Lemma assign_some : forall vs names d names' d', assign names vs d = (Some names', d') ->
  (List.length vs <= List.length names)%nat.
Proof.
  induction vs as [|v vs IH]; intros names d names' d' A; [cbn; lia|].
  destruct names as [|a names]; [discriminate|]. cbn in *. apply IH in A. lia.
Qed.
Lemma assoc_app_some : forall {B} a (d e : list (string * B)) v, assoc a d = Some v -> assoc a (d ++ e) = Some v.
Proof.
  induction d as [|[k w] d IH]; intros e v H; [discriminate|]. cbn in *. destruct (String.eqb a k); auto.
Qed.
Lemma fresh_skip : forall (names : list string) (vs : list value) d k, NoDup names ->
  (forall a, In a names -> assoc a d = None) ->
  forall a, In a (skipn k names) -> assoc a (d ++ zipw (firstn k names) vs) = None.
Proof.
  intros names vs d k ND FR a I. rewrite assoc_app by (apply FR; eapply In_skipn; eauto).
  assert (NI : ~ In a (firstn k names)).
  { rewrite <- (firstn_skipn k names) in ND. intros J.
    clear -ND I J. induction (firstn k names) as [|y l IHl]; [contradiction|].
    cbn in ND. inversion ND; subst. destruct J as [->|J]; [apply H1; apply in_or_app; now right|auto]. }
  clear -NI. revert NI vs. generalize (firstn k names).
  induction l as [|y l IHl]; intros NI vs; [reflexivity|]. destruct vs; [reflexivity|]. cbn.
  destruct (String.eqb a y) eqn:Q; [apply String.eqb_eq in Q; subst; exfalso; apply NI; now left|].
  apply IHl. intros J. apply NI. now right.
Qed.

Section Step.
Variable n : nat.
Hypothesis IH : ex_at n.

Lemma ex_items : forall item uc c b vs k, sall pE item = true -> steady_ser item -> nvr item = 1%nat ->
  md = UBuf \/ sall nodc item = true ->
  dec_items (dec n) item uc c b = Ok (vs, k) ->
  0 <= k /\ List.length vs = c /\
  forall m pc b', k <= blen b -> knows uc pc -> forallb nanfree vs = true ->
    enc_items (enc m) item pc vs = Ok b' -> b' = firstn (Z.to_nat k) b.
Proof.
  intros item uc c. induction c as [|c IHc]; intros b vs k E ST NV DC D.
  - cbn in D. injection D as <- <-. repeat split; [lia|]. intros m pc b' _ _ _ Q. injection Q as <-. reflexivity.
  - cbn [dec_items] in D. destruct (dec n item uc b) as [[v1 k1]|] eqn:D1; [|discriminate]. cbn [rbind] in D.
    destruct (dec_items _ item uc c (adv k1 b)) as [[v2 k2]|] eqn:D2; [|discriminate]. injection D as <- <-.
    destruct (IH item uc b v1 k1 E ST D1) as (K1 & _ & L1 & X1). specialize (L1 DC). rewrite NV in L1.
    destruct (IHc (adv k1 b) v2 k2 E ST NV DC D2) as (K2 & L2 & X2).
    destruct v1 as [|v [|]]; try discriminate. cbn [app]. repeat split; [lia|cbn; congruence|].
    intros m pc b' LE KN NF Q. destruct (adv_room k1 k2 b K1 K2 LE) as [R1 R2].
    cbn [forallb] in NF. apply andb_prop in NF as [NF1 NF2]. cbn [enc_items] in Q.
    destruct (enc m item pc [v]) as [b1|] eqn:E1; [|discriminate]. cbn [rbind] in Q.
    destruct (enc_items _ item pc v2) as [b2|] eqn:E2; [|discriminate]. injection Q as <-.
    rewrite (X1 m pc b1 R1 KN ltac:(cbn; now rewrite NF1) E1), (X2 m pc b2 R2 KN NF2 E2). now apply firstn_adv.
Qed.

Lemma ex_fields : forall c pre X subs b names d names' k d',
  forallb (sall pE) subs = true -> steady_subs subs ->
  NoDup names -> (forall a, In a names -> assoc a d = None) ->
  dfill_subs (dec n) (if pre : bool then Some (PO c true X) else None) (PO c true []) subs b names d = (Ok (names', k), d') ->
  0 <= k /\ exists vs, (List.length vs <= List.length names)%nat /\ names' = skipn (List.length vs) names /\
    d' = d ++ zipw (firstn (List.length vs) names) vs /\ (List.length vs <= total subs)%nat /\
    forall m pc b' tl, List.length vs = total subs -> k <= blen b -> p_cls pc = c -> p_attrs pc = d' -> forallb nanfree vs = true ->
      enc_subs (enc m) (if pre then Some pc else None) pc subs (vs ++ tl) = Ok b' -> b' = firstn (Z.to_nat k) b.
Proof.
  intros c pre X subs. induction subs as [|x subs IHs]; intros b names d names' k d' E ST ND FR D.
  - cbn in D. injection D as <- <- <-. split; [lia|]. exists []. cbn.
    repeat split; [lia|now rewrite app_nil_r|lia|]. intros m pc b' tl _ _ _ _ _ Q. now injection Q as <-.
  - cbn [forallb] in E. apply andb_prop in E as [E1 E2]. destruct ST as [S1 S2].
    cbn [dfill_subs] in D. cbv zeta in D.
    destruct (rdo x' <- oresolve false (option_map _ (if pre then Some (PO c true X) else None)) x;
              dec n x' (octx _ (PO c true [])) b) as [[v1 k1]|] eqn:R; [|discriminate].
    destruct (assign names v1 d) as [[names1|] d1] eqn:AS; [|discriminate].
    destruct (dfill_subs _ _ _ subs (adv k1 b) names1 d1) as [[[nm kk]|] dd] eqn:DF; [|discriminate].
    cbn [rmap rbind fst snd] in D. injection D as <- <- <-.
    pose proof (assign_some _ _ _ _ _ AS) as LV. rewrite assign_fresh in AS by assumption. injection AS as <- <-.
    set (uc := PO c true (if pre then d else [])).
    assert (RX : exists x', dec n x' uc b = Ok (v1, k1) /\ sall pE x' = true /\ steady_ser x' /\ nvr x' = nvr x /\
      forall pc, knows uc pc -> oresolve true (if pre then Some pc else None) x = Ok x').
    { destruct pre; cbn [option_map oresolve octx p_cls p_proxy] in R.
      - destruct (resolve false x (PO c true d)) as [x'|] eqn:RS; [|discriminate]. cbn [rbind] in R.
        exists x'. split; [exact R|]. split; [eapply resolve_sall; [apply pE_stable| |exact RS]; assumption|].
        split; [eapply resolve_steady; eauto|]. split; [eapply resolve_nvr; eauto|]. intros pc KN. cbn. eapply resolve_same; eauto.
      - cbn [rbind] in R. exists x. repeat split; auto. }
    destruct RX as (x' & D1 & EX & SX & NX & RP).
    destruct (IH x' uc b v1 k1 EX SX D1) as (K1 & L1 & _ & X1). rewrite NX in L1.
    destruct (IHs (adv k1 b) (skipn (List.length v1) names) (d ++ zipw (firstn (List.length v1) names) v1) nm kk dd E2 S2)
      as (K2 & v2 & LV2 & -> & -> & LT & X2); [now apply NoDup_skipn|now apply fresh_skip|exact DF|].
    rewrite skipn_length in LV2.
    split; [lia|]. exists (v1 ++ v2). rewrite app_length. split; [lia|].
    split; [rewrite skipn_skipn; reflexivity|].
    assert (ZZ : zipw (firstn (List.length v1) names) v1 ++ zipw (firstn (List.length v2) (skipn (List.length v1) names)) v2
                 = zipw (firstn (List.length v1 + List.length v2) names) (v1 ++ v2)).
    { clear -LV. revert names LV. induction v1 as [|v v1 IHv]; intros names L; [reflexivity|].
      destruct names as [|a names]; [cbn in L; lia|]. cbn. f_equal. apply IHv. cbn in L. lia. }
    split; [now rewrite <- app_assoc, ZZ|]. cbn [total fold_right]. fold (total subs). split; [lia|].
    intros m pc b' tl TT LE PC PA NF Q. destruct (adv_room k1 kk b K1 K2 LE) as [R1 R2].
    rewrite forallb_app in NF. apply andb_prop in NF as [NF1 NF2].
    assert (KN : knows uc pc).
    { split; [now symmetry|]. unfold uc. cbn [p_attrs]. rewrite PA. destruct pre; [|discriminate].
      intros a v H. rewrite <- app_assoc. now apply assoc_app_some. }
    cbn [enc_subs] in Q. rewrite (RP pc KN) in Q. cbn [rbind] in Q.
    replace (octx (if pre then Some pc else None) pc) with pc in Q by now destruct pre.
    destruct (enc m x' pc (firstn (num_values x') ((v1 ++ v2) ++ tl))) as [b1|] eqn:Q1; [|discriminate]. cbn [rbind] in Q.
    destruct (enc_subs _ _ pc subs _) as [b2|] eqn:Q2; [|discriminate]. injection Q as <-.
    assert (NV : num_values x' = List.length v1).
    { assert (L1' : List.length v1 = nvr x') by lia. rewrite L1'. destruct x'; try reflexivity. destruct m; discriminate Q1. }
    rewrite NV in Q1, Q2. rewrite <- app_assoc in Q1, Q2. rewrite firstn_app_len in Q1. rewrite skipn_app_len in Q2.
    rewrite (X1 m pc b1 R1 KN NF1 Q1), (X2 m pc b2 tl ltac:(lia) R2 PC PA NF2 Q2). now apply firstn_adv.
Qed.

Lemma ex_create : forall c b v k, dcreate_step ct (dec n) c b = Ok (v, k) ->
  0 <= k /\ exists d, v = VObj c None d /\
  forall m b', k <= blen b -> nanfree v = true -> enc_obj_step ct (enc m) c None d = Ok b' -> b' = firstn (Z.to_nat k) b.
Proof.
  intros c b v k D. unfold dcreate_step in D. destruct (ct c) as [cd|] eqn:CT; [|discriminate].
  destruct (CLS c cd CT) as (CE & ST & ND & WD).
  destruct (resolve false (c_ser cd) (PO c true [])) as [x|] eqn:R; [|discriminate]. cbn [rbind] in D.
  destruct (dfill (dec n) x (PO c true []) b (c_attrs cd) []) as [[kk|] d] eqn:DF; [|discriminate].
  destruct (get_attrs (c_attrs cd) d) as [vals|] eqn:GA; [|discriminate]. cbn in D. injection D as <- <-.
  assert (GEN : is_compound (c_ser cd) = false ->
    0 <= kk /\ exists d0, VObj c None (zipw (c_attrs cd) vals) = VObj c None d0 /\
    forall m b', kk <= blen b -> nanfree (VObj c None (zipw (c_attrs cd) vals)) = true ->
      enc_obj_step ct (enc m) c None d0 = Ok b' -> b' = firstn (Z.to_nat kk) b).
  { intros NC. assert (CE' : sall pE (c_ser cd) = true) by (destruct (c_ser cd); try discriminate NC; exact CE).
    assert (EX : sall pE x = true) by (eapply resolve_sall; [apply pE_stable|exact CE'|exact R]).
    assert (SX : steady_ser x) by (eapply resolve_steady; eauto).
    assert (NX : is_compound x = false) by (apply sall_here in EX; destruct x; try reflexivity; discriminate).
    assert (DD : exists vs, dec n x (PO c true []) b = Ok (vs, kk) /\ assign (c_attrs cd) vs [] = (Some [], d)).
    { assert (Y : match dec n x (PO c true []) b with
        | Err e => (Err e, [])
        | Ok (vs, k) =>
          match assign (c_attrs cd) vs [] with
          | (None, d') => (Err ValueError, d')
          | (Some names', d') => (match names' with [] => Ok k | _ => Err ValueError end, d')
          end
        end = (Ok kk, d)) by (destruct x; try discriminate NX; exact DF).
      destruct (dec n x (PO c true []) b) as [[vs k']|]; [|discriminate].
      destruct (assign (c_attrs cd) vs []) as [[[|]|] d'] eqn:AS; try discriminate. injection Y as <- <-. eauto. }
    destruct DD as (vs & D1 & AS). pose proof (assign_some _ _ _ _ _ AS) as LV.
    rewrite assign_fresh in AS by (auto). injection AS as SK DE. cbn [app] in DE.
    assert (LEN : List.length vs = List.length (c_attrs cd)).
    { pose proof (skipn_length (List.length vs) (c_attrs cd)) as SL. rewrite SK in SL. cbn in SL. lia. }
    rewrite LEN, firstn_all in DE. subst d. rewrite get_attrs_zip in GA by assumption. injection GA as <-.
    destruct (IH x (PO c true []) b vs kk EX SX D1) as (K & _ & _ & X1). split; [exact K|].
    eexists. split; [reflexivity|]. intros m b' LE NF Q. cbn [nanfree] in NF. rewrite forallb_zip in NF by assumption.
    unfold enc_obj_step in Q. rewrite CT in Q. cbn [obj_ser] in Q.
    assert (KN : knows (PO c true []) (PO c false (zipw (c_attrs cd) vs))) by (split; [reflexivity|intros a v H; discriminate H]).
    rewrite (resolve_same _ _ _ _ CE' ST KN R) in Q. cbn [rbind] in Q. rewrite get_attrs_zip in Q by assumption. cbn [rbind] in Q.
    eapply X1; eauto. }
  destruct (c_ser cd) eqn:CS; try (apply GEN; reflexivity); [|cbn in CE; discriminate].
  clear GEN. cbn [class_exact] in CE. cbn [resolve] in R. injection R as <-.
  assert (ST' : steady_subs subs) by (clear -ST; cbn in ST; induction subs as [|y l IHl]; [exact I|destruct ST; split; auto]).
  assert (DF' : exists nm, dfill_subs (dec n) (if existsb needs_pre subs then Some (PO c true []) else None) (PO c true [])
            subs b (c_attrs cd) [] = (Ok (nm, kk), d) /\ nm = []).
  { destruct (existsb needs_pre subs); cbn [dfill] in DF;
      (destruct (dfill_subs _ _ _ subs b (c_attrs cd) []) as [[[[|] k']|] d'] eqn:Y; try discriminate;
       injection DF as <- <-; eauto). }
  destruct DF' as (nm & DF' & ->).
  destruct (ex_fields c (existsb needs_pre subs) [] subs b (c_attrs cd) [] [] kk d CE ST' ND (fun _ _ => eq_refl) DF')
    as (K & vs & LV & SK & DE & _ & X1). cbn [app] in DE.
  assert (LEN : List.length vs = List.length (c_attrs cd)).
  { pose proof (skipn_length (List.length vs) (c_attrs cd)) as SL. rewrite <- SK in SL. cbn in SL. lia. }
  rewrite LEN, firstn_all in DE. subst d. rewrite get_attrs_zip in GA by assumption. injection GA as <-.
  split; [exact K|]. eexists. split; [reflexivity|]. intros m b' LE NF Q. cbn [nanfree] in NF.
  rewrite forallb_zip in NF by assumption.
  unfold enc_obj_step in Q. rewrite CT in Q. cbn [obj_ser] in Q. rewrite CS in Q. cbn [resolve rbind] in Q.
  rewrite get_attrs_zip in Q by assumption. cbn [rbind] in Q. destruct m as [|m]; [destruct (existsb _ _); discriminate|].
  apply (X1 m (PO c false (zipw (c_attrs cd) vs)) b' [] (eq_trans LEN WD) LE eq_refl eq_refl NF). rewrite app_nil_r.
  destruct (existsb needs_pre subs); exact Q.
Qed.
End Step.

Lemma osize_nn : forall o, 0 <= osize hb o.
Proof. intros [st|]; cbn [osize]; [unfold ss_size|]; lia. Qed.

(** counted strings: what the three unpack methods give *)
Lemma dynchar_dec : forall st b z vs k, 0 <= z -> ss_size hb st <= blen b ->
  let rest := adv (ss_size hb st) b in
  match md with
  | UBuf => Ok ([VBytes (firstn (Z.to_nat z) rest)], ss_size hb st + z)
  | _ => rdo o <- ss_matmul single_char z; rdo vs <- dost o rest; Ok (vs, ss_size hb st + z)
  end = Ok (vs, k) ->
  k = ss_size hb st + z /\ (vs = [VBytes (firstn (Z.to_nat z) rest)] \/ vs = [] /\ md <> UBuf).
Proof.
  intros st b z vs k Z0 DL rest D.
  assert (G : (rdo o <- ss_matmul single_char z; rdo vs <- dost o rest; Ok (vs, ss_size hb st + z)) = Ok (vs, k) ->
    k = ss_size hb st + z /\ (vs = [VBytes (firstn (Z.to_nat z) rest)] \/ vs = [])).
  { intros G. destruct (ss_matmul single_char z) as [o|] eqn:MM; [|discriminate]. cbn [rbind] in G.
    destruct (dost o rest) as [us|] eqn:DO; [|discriminate]. injection G as <- <-. split; [reflexivity|].
    destruct (Z.eq_dec z 0) as [->|NZ].
    - cbn in MM. injection MM as <-. cbn in DO. injection DO as <-. auto.
    - pose proof (dost_len hb _ _ _ DO) as DL2.
      destruct (matmul_single_char_size hb z o MM ltac:(lia)) as (st1 & -> & SZ). cbn [osize] in DL2. rewrite SZ in DL2.
      assert (R : rest = firstn (Z.to_nat z) rest ++ skipn (Z.to_nat z) rest) by now rewrite firstn_skipn.
      rewrite R, (char_dost hb z (firstn (Z.to_nat z) rest)) in DO;
        [|lia|unfold blen; rewrite firstn_length; unfold blen in DL2; lia|exact MM].
      injection DO as <-. auto. }
  destruct md; [injection D as <- <-; auto| |]; destruct (G D) as [-> [->| ->]]; split; auto; right; split; congruence.
Qed.

Theorem ex_main : forall n, ex_at n.
Proof.
  induction n as [|n IH]; intros x uc b vs k E ST D; [discriminate|].
  pose proof (sall_here _ _ E) as EH. cbn [Pure.dec] in D.
  destruct x; cbn [pE] in EH; try discriminate EH.
  - (* Null *) cbn in D. injection D as <- <-. split; [lia|]. split; [cbn; lia|]. split; [reflexivity|]. intros [|m] pc b' _ _ _ Q; [discriminate|].
    cbn in Q. now injection Q as <-.
  - (* Struct *) cbn [dec_step] in D. destruct (dst st b) as [us|] eqn:DD; [|discriminate]. injection D as <- <-.
    assert (A : s_act st = None) by (unfold exact_st in EH; destruct (s_act st); [discriminate|reflexivity]).
    pose proof (dst_count st b us A DD) as LEN. cbn [nvr num_values].
    split; [unfold ss_size; lia|]. split; [lia|]. split; [auto|].
    intros [|m] pc b' _ _ N Q; [discriminate|]. cbn [Pure.enc enc_step] in Q.
    rewrite (st_back st b us EH DD N) in Q. now injection Q as <-.
  - (* Skip *) cbn in D. injection D as <- <-. split; [lia|]. split; [cbn; lia|]. split; [reflexivity|]. intros [|m] pc b' _ _ _ Q; [discriminate|].
    cbn in Q. now injection Q as <-.
  - (* DynChar *)
    cbn [dec_step] in D. destruct (dst st b) as [cs|] eqn:DD; [|discriminate].
    destruct (uint1_dst hb st b cs EH DD) as (z & -> & Z0). cbn [rbind nth0 as_int as_index] in D.
    pose proof (ss_size_nonneg hb st) as SN. pose proof (dst_len hb _ _ _ DD) as DL.
    destruct (dynchar_dec st b z vs k Z0 DL D) as [-> V]. clear D. set (rest := adv (ss_size hb st) b) in *.
    split; [lia|]. split; [destruct V as [->|[-> _]]; cbn; lia|].
    split; [intros [M|M]; [destruct V as [->|[_ V]]; [reflexivity|congruence]|cbn in M; discriminate]|].
    intros [|m] pc b' LE _ _ Q; [discriminate|]. cbn [Pure.enc enc_step] in Q.
    destruct V as [->|[-> _]]; [|discriminate Q]. cbn [nth0 py_len rbind] in Q.
    assert (LR : List.length (firstn (Z.to_nat z) rest) = Z.to_nat z).
    { rewrite firstn_length. assert (blen rest = Z.max 0 (blen b - ss_size hb st)) by (apply blen_adv; exact SN).
      unfold blen in *. lia. }
    rewrite LR, Z2Nat.id in Q by exact Z0.
    destruct (dynchar_st st z) as [st'|] eqn:DS; [|discriminate]. cbn [rbind] in Q.
    destruct (dynchar_enc hb st z z _ st' b' EH Z0 DS Q) as (h & r & RV & H & Z1 & -> & _).
    injection RV as <-. rewrite (st_back st b [VInt z] (uint1_exact st EH) DD eq_refl) in H. injection H as <-.
    rewrite str_fit_exact by exact LR. unfold rest. now apply firstn_adv.
  - (* Consume *) cbn in D. injection D as <- <-. pose proof (blen_nonneg b).
    split; [lia|]. split; [cbn; lia|]. split; [reflexivity|]. intros [|m] pc b' _ _ _ Q; [discriminate|].
    cbn in Q. injection Q as <-. unfold blen. now rewrite Nat2Z.id, firstn_all.
  - (* Term *) cbn [dec_step] in D. destruct (byte_find t b) as [i|] eqn:F; [|discriminate]. injection D as <- <-.
    split; [lia|]. split; [cbn; lia|]. split; [reflexivity|]. intros [|m] pc b' _ _ _ Q; [discriminate|].
    cbn [Pure.enc enc_step nth0 as_bytes rbind] in Q. set (raw := firstn i b) in *.
    destruct (ss_matmul single_char (blen (raw ++ [t]))) as [o|] eqn:MM; [|discriminate]. cbn [rbind] in Q.
    assert (L1 : 1 <= blen (raw ++ [t])) by (rewrite blen_app; pose proof (blen_nonneg raw); change (blen [t]) with 1; lia).
    destruct (matmul_char BO_DEFAULT Cs (blen (raw ++ [t])) L1) as (tc & M' & TC & _ & _).
    change (SS BO_DEFAULT [Verif.StructMod.T None Cs] None) with single_char in M'. rewrite MM in M'.
    injection M' as ->. cbn [Pure.eost] in Q. unfold Pure.est in Q. apply st_pack_inv in Q as [_ Q].
    cbn [s_fmt] in Q. rewrite TC in Q. unfold expand in Q. cbn in Q.
    injection Q as Q. rewrite app_nil_r in Q. rewrite <- Q.
    replace (Z.to_nat (Z.of_nat i + 1)) with (S i) by lia. rewrite (nth_find t b i F). fold raw.
    apply (str_fit_exact _ (raw ++ [t])). unfold blen. now rewrite Nat2Z.id.
  - (* StaticArr *) apply andb_prop in EH as [EH _]. cbn [dec_step] in D. destruct (ss_mul item (Z.of_nat count)) as [o|] eqn:MU; [|discriminate].
    cbn [rbind] in D. destruct (dost o b) as [us|] eqn:DO; [|discriminate]. injection D as <- <-.
    split; [apply osize_nn|]. split; [cbn; lia|]. split; [reflexivity|].
    intros [|m] pc b' _ _ N Q; [discriminate|]. cbn [forallb nanfree] in N. rewrite andb_true_r in N.
    cbn [Pure.enc enc_step nth0 py_len py_iter rbind] in Q.
    destruct (negb _); [discriminate|]. rewrite MU in Q. cbn [rbind] in Q.
    destruct (mul_back item _ o b us EH MU DO N) as (_ & B & _). rewrite B in Q. now injection Q as <-.
  - (* DynArr *) cbn [dec_step] in D. apply andb_prop in EH as [EH NV]. apply andb_prop in EH as [OK XI].
    apply Nat.eqb_eq in NV.
    assert (U : uint1 cnt = true) by (unfold dynarr_ok in OK; now repeat apply andb_prop in OK as [OK _]).
    destruct (dst cnt b) as [cs|] eqn:DD; [|discriminate].
    destruct (uint1_dst hb cnt b cs U DD) as (z & -> & Z0). cbn [rbind one as_int as_index] in D.
    destruct (ss_mul item z) as [o|] eqn:MU; [|discriminate]. cbn [rbind] in D.
    destruct (dost o (adv (ss_size hb cnt) b)) as [us|] eqn:DO; [|discriminate]. injection D as <- <-.
    pose proof (ss_size_nonneg hb cnt) as SN.
    assert (ON : 0 <= osize hb o) by (apply osize_nn).
    split; [lia|]. split; [cbn; lia|]. split; [reflexivity|].
    intros [|m] pc b' _ _ N Q; [discriminate|]. cbn [forallb nanfree] in N. rewrite andb_true_r in N.
    destruct (mul_back item z o _ us XI MU DO N) as (_ & B & LEN & _). rewrite NV, Nat.mul_1_r in LEN.
    cbn [Pure.enc enc_step nth0 py_len py_iter rbind] in Q. rewrite LEN, Z2Nat.id in Q by exact Z0.
    pose proof (st_back cnt b [VInt z] (uint1_exact cnt U) DD eq_refl) as HB.
    destruct (uint1_ints cnt U) as (AC & _ & NC).
    unfold dynarr_st in Q. destruct (z =? 0) eqn:ZZ.
    + apply Z.eqb_eq in ZZ. subst z. cbn [rbind] in Q. destruct us; [|discriminate].
      change (ss_nvals {| s_bo := s_bo cnt; s_fmt := s_fmt cnt; s_act := None |}) with (ss_nvals cnt) in Q. rewrite NC in Q.
      change (est cnt [VInt 0] = Ok b') in Q. rewrite HB in Q. injection Q as <-.
      cbn in MU. injection MU as <-. cbn [osize]. now rewrite Z.add_0_r.
    + rewrite MU in Q. cbn [rbind] in Q.
      assert (Z1 : 1 <= z) by lia.
      destruct o as [s1|].
      2: { exfalso. unfold ss_mul, ss_mul_impl in MU. rewrite ZZ in MU. destruct (z <? 0); [discriminate|].
           destruct (z =? 1); destruct (s_act item); cbn in MU; discriminate. }
      destruct (ss_add cnt s1) as [st|] eqn:AD; [|discriminate]. cbn [rbind] in Q.
      destruct (dynarr_enc hb cnt item z s1 st _ us b' OK Z1 MU AD Q) as (NS & h & y & H & Y & ->).
      cbn [Pure.eost osize] in *. rewrite B in Y. injection Y as <-.
      assert (NL : ss_nvals s1 = Z.to_nat z).
      { unfold Pure.est in B. apply st_pack_inv in B as [B _]. unfold ss_nvals. congruence. }
      rewrite NS, NL in H. replace (Z.of_nat (S (Z.to_nat z)) - 1) with z in H by lia.
      rewrite HB in H. injection H as <-. now apply firstn_adv.
  - (* Array *) cbn [dec_step] in D. apply andb_prop in EH as [EH DC]. apply andb_prop in EH as [XH NV].
    apply Nat.eqb_eq in NV. cbn in E. apply andb_prop in E as [_ E]. cbn [steady_ser] in ST.
    destruct (dost hdr b) as [hv|] eqn:DH; [|discriminate]. cbn [rbind] in D.
    destruct (header_unpack_values hdr static hv) as [[count ds]|] eqn:HU; [|discriminate]. cbn [rbind] in D.
    destruct (resolve false x uc) as [x'|] eqn:RS; [|discriminate]. cbn [rbind] in D.
    destruct (dec_items _ x' uc (Z.to_nat count) _) as [[items kk]|] eqn:DI; [|discriminate]. cbn [rbind] in D.
    destruct (check_data_size ds kk) as [[]|] eqn:CK; [|discriminate]. injection D as <- <-.
    destruct (hdr_back hdr static b hv count ds XH DH HU) as (C0 & (O1 & O2) & HB & HP).
    assert (EX : sall pE x' = true) by (eapply resolve_sall; [apply pE_stable|exact E|exact RS]).
    assert (SX : steady_ser x') by (eapply resolve_steady; eauto).
    assert (NX : nvr x' = 1%nat) by (rewrite (resolve_nvr _ _ _ _ E RS); exact NV).
    assert (DX : md = UBuf \/ sall nodc x' = true)
      by (destruct md; auto; right; eapply resolve_nodc; eauto).
    destruct (ex_items n IH x' uc (Z.to_nat count) _ items kk EX SX NX DX DI) as (K & LEN & XI).
    split; [lia|]. split; [cbn; lia|]. split; [reflexivity|].
    intros [|m] pc b' LE KN N Q; [discriminate|]. cbn [forallb nanfree] in N. rewrite andb_true_r in N.
    cbn [Pure.enc enc_step nth0 py_len py_iter rbind] in Q.
    rewrite (resolve_same x uc pc x' E ST KN RS) in Q. cbn [rbind] in Q.
    destruct (enc_items _ x' pc items) as [bs|] eqn:EI; [|discriminate]. cbn [rbind] in Q.
    destruct (adv_room _ _ _ O1 K LE) as [R1 R2].
    pose proof (XI m pc bs R2 KN N EI) as BS.
    assert (LB : blen bs = kk) by (rewrite BS; unfold blen in *; rewrite firstn_length; lia).
    rewrite LB, LEN, Z2Nat.id, (HP kk CK) in Q by exact C0. cbn [rbind] in Q. rewrite HB in Q. cbn [rbind] in Q.
    injection Q as <-. rewrite BS. now apply firstn_adv.
  - (* Tuple *) cbn [dec_step] in D. cbn in E. cbn [steady_ser] in ST.
    destruct (resolve false x uc) as [x'|] eqn:RS; [|discriminate]. cbn [rbind] in D.
    destruct (dec n x' uc b) as [[us kk]|] eqn:DX; [|discriminate]. injection D as <- <-.
    assert (EX : sall pE x' = true) by (eapply resolve_sall; [apply pE_stable|exact E|exact RS]).
    assert (SX : steady_ser x') by (eapply resolve_steady; eauto).
    destruct (IH x' uc b us kk EX SX DX) as (K & _ & _ & X1).
    split; [exact K|]. split; [cbn; lia|]. split; [reflexivity|].
    intros [|m] pc b' LE KN N Q; [discriminate|]. cbn [forallb nanfree] in N. rewrite andb_true_r in N.
    cbn [Pure.enc enc_step one rbind] in Q. rewrite (resolve_same x uc pc x' E ST KN RS) in Q. cbn [rbind py_iter] in Q.
    eapply X1; eauto.
  - (* Cond *) discriminate.
  - (* Lookback *) rename dec into dec0. cbn [dec_step] in D. cbn in E. apply andb_prop in E as [_ E]. apply andb_prop in E as [E1 E2].
    apply andb_prop in EH as [H1 H2]. cbn [steady_ser] in ST. destruct ST as (SF & SM & SD).
    destruct (dec0 uc) as [r|] eqn:F; [|discriminate]. cbn [rbind] in D.
    destruct (choose rmap dflt r) as [s0|] eqn:CH; [|discriminate]. cbn [rbind] in D.
    destruct (resolve false s0 uc) as [x'|] eqn:RS; [|discriminate]. cbn [rbind] in D.
    assert (P0 : sall pE s0 = true /\ nvr s0 = 1%nat /\ steady_ser s0).
    { apply (choose_all (fun s0 => sall pE s0 = true /\ nvr s0 = 1%nat /\ steady_ser s0) rmap dflt r s0 CH).
      - intros k' y I. rewrite forallb_forall in E1, H1. pose proof (E1 _ I). pose proof (H1 _ I) as H1'. cbn in *.
        apply Nat.eqb_eq in H1'. repeat split; auto. clear -SM I. induction rmap as [|p l IHl]; [contradiction|].
        destruct SM as [S1 S2], I as [->|I]; auto.
      - intros y ->. apply Nat.eqb_eq in H2. auto. }
    destruct P0 as (E0 & N0 & S0).
    assert (EX : sall pE x' = true) by (eapply resolve_sall; [apply pE_stable|exact E0|exact RS]).
    assert (SX : steady_ser x') by (eapply resolve_steady; eauto).
    assert (NX : nvr x' = 1%nat) by (rewrite (resolve_nvr _ _ _ _ E0 RS); exact N0).
    destruct (IH x' uc b vs k EX SX D) as (K & L1 & L2 & X1). rewrite NX in *. change (nvr (SLookback id dec0 rmap dflt)) with 1%nat.
    split; [exact K|]. split; [exact L1|]. split.
    + intros [M|M]; apply L2; [now left|right]. cbn in M. apply andb_prop in M as [M1 M2].
      eapply resolve_nodc; [|exact RS]. eapply choose_sall; eauto.
    + intros [|m] pc b' LE KN N Q; [discriminate|]. cbn [Pure.enc enc_step] in Q.
      rewrite (SF uc pc r KN F) in Q. cbn [rbind] in Q. rewrite CH in Q. cbn [rbind] in Q.
      rewrite (resolve_same s0 uc pc x' E0 S0 KN RS) in Q. cbn [rbind] in Q. eapply X1; eauto.
  - (* Structd *) cbn [dec_step] in D. destruct (dcreate_step ct (dec n) cls b) as [[v kk]|] eqn:DC; [|discriminate].
    injection D as <- <-. destruct (ex_create n IH cls b v kk DC) as (K & d & -> & X1).
    split; [exact K|]. split; [cbn; lia|]. split; [reflexivity|].
    intros [|m] pc b' LE KN N Q; [discriminate|]. cbn [forallb] in N. rewrite andb_true_r in N.
    cbn [Pure.enc enc_step one rbind] in Q. destruct (allow cls cls); [|discriminate]. eapply X1; eauto.
  - (* Self *) discriminate.
Qed.

(** objects *)
Theorem ex_object : forall n m c b v k b', dcreate hb ct md n c b = Ok (v, k) -> k <= blen b -> nanfree v = true ->
  enc_obj hb ct allow m v = Ok b' -> b' = firstn (Z.to_nat k) b.
Proof.
  intros n m c b v k b' D LE N Q. destruct (ex_create n (ex_main n) c b v k D) as (_ & d & -> & X).
  cbn [enc_obj] in Q. eapply X; eauto.
Qed.
Lemma create_obj : forall n c b v k, dcreate hb ct md n c b = Ok (v, k) -> 0 <= k /\ exists d, v = VObj c None d.
Proof. intros n c b v k D. destruct (ex_create n (ex_main n) c b v k D) as (K & d & -> & _). eauto. Qed.
End Exact.
