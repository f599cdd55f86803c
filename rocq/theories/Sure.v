(** Unpacking, then packing what was unpacked: that the packing succeeds (the bytes are then those of Exact.v). *)
From Verif Require Import Base Floats FloatFacts Value StructMod Format Ser Exec Pure BaseFacts StructFacts FormatFacts
  SerFacts RefPack RefUnpack DecFacts Fuel RoundTrip RoundTripMain Exact.

Section Sure.
Variable hb : bool.
Variable md : umode.
Variable ct : nat -> option cdef.
Variable allow : nat -> nat -> bool.
Hypothesis CLS : forall c cd, ct c = Some cd -> exact_class hb md cd.
Notation est := (est hb). Notation dst := (dst hb). Notation eost := (eost hb). Notation dost := (dost hb).
Notation enc := (enc hb ct allow). Notation dec := (dec hb ct md). Notation pE := (pE hb md).
Let ex_main := ex_main hb md ct allow CLS.
Let ex_items := ex_items hb md ct allow CLS.
Let ex_fields := ex_fields hb md ct allow CLS.
Let resolve_same := resolve_same hb md.
Let resolve_nvr := resolve_nvr hb md.
Let pE_stable := pE_stable hb md.
Let st_back := st_back hb.
Let mul_back := mul_back hb.

(** ** no reading past the end *)
(** [unpack] slices counted strings without checking that the bytes are there (strings.py:113-115) *)
Definition cut (x : ser) : bool := match md with UBuf => nodc x | _ => true end.
Lemma cut_stable : forall c, stable cut c.
Proof. intros c. unfold cut. split; intros; destruct md; reflexivity || assumption. Qed.
Definition whole_ser (s : ser) : bool :=
  match s with SCompound _ subs => forallb (sall cut) subs | _ => sall cut s end.
Definition rm_at (n : nat) : Prop := forall x uc b vs k, sall pE x = true -> sall cut x = true -> steady_ser x ->
  dec n x uc b = Ok (vs, k) -> k <= blen b.

Section Room.
Hypothesis WHOLE : forall c cd, ct c = Some cd -> whole_ser (c_ser cd) = true.
Lemma adv_le : forall k k' b, 0 <= k -> k <= blen b -> k' <= blen (adv k b) -> k + k' <= blen b.
Proof. intros k k' b K L R. rewrite blen_adv in R by exact K. lia. Qed.

Section Step.
Variable n : nat.
Hypothesis IH : rm_at n.
Lemma rm_items : forall item uc c b vs k, sall pE item = true -> sall cut item = true -> steady_ser item ->
  dec_items (dec n) item uc c b = Ok (vs, k) -> 0 <= k <= blen b.
Proof.
  intros item uc c. induction c as [|c IHc]; intros b vs k E C ST D.
  - cbn in D. injection D as <- <-. pose proof (blen_nonneg b). lia.
  - cbn [dec_items] in D. destruct (dec n item uc b) as [[v1 k1]|] eqn:D1; [|discriminate]. cbn [rbind] in D.
    destruct (dec_items _ item uc c (adv k1 b)) as [[v2 k2]|] eqn:D2; [|discriminate]. injection D as <- <-.
    destruct (ex_main n item uc b v1 k1 E ST D1) as (K1 & _).
    pose proof (IH item uc b v1 k1 E C ST D1) as R1. destruct (IHc _ _ _ E C ST D2) as [K2 R2].
    pose proof (adv_le k1 k2 b K1 R1 R2). lia.
Qed.
Lemma rm_fields : forall c pre X subs b names d names' k d',
  forallb (sall pE) subs = true -> forallb (sall cut) subs = true -> steady_subs subs ->
  dfill_subs (dec n) (if pre : bool then Some (PO c true X) else None) (PO c true []) subs b names d = (Ok (names', k), d') ->
  0 <= k <= blen b.
Proof.
  intros c pre X subs. induction subs as [|x subs IHs]; intros b names d names' k d' E C ST D.
  - cbn in D. injection D as <- <- <-. pose proof (blen_nonneg b). lia.
  - cbn [forallb] in E, C. apply andb_prop in E as [E1 E2]. apply andb_prop in C as [C1 C2]. destruct ST as [S1 S2].
    cbn [dfill_subs] in D. cbv zeta in D.
    destruct (rdo x' <- oresolve false (option_map _ (if pre then Some (PO c true X) else None)) x;
              dec n x' (octx _ (PO c true [])) b) as [[v1 k1]|] eqn:R; [|discriminate].
    destruct (assign names v1 d) as [[names1|] d1] eqn:AS; [|discriminate].
    destruct (dfill_subs _ _ _ subs (adv k1 b) names1 d1) as [[[nm kk]|] dd] eqn:DF; [|discriminate].
    cbn [rmap rbind fst snd] in D. injection D as <- <- <-.
    assert (RX : 0 <= k1 <= blen b).
    { destruct pre; cbn [option_map oresolve octx p_cls p_proxy] in R.
      - destruct (resolve false x (PO c true d)) as [x'|] eqn:RS; [|discriminate]. cbn [rbind] in R.
        assert (EX : sall pE x' = true) by (eapply resolve_sall; [apply pE_stable| |exact RS]; assumption).
        assert (SX : steady_ser x') by (eapply resolve_steady; eauto).
        assert (CX : sall cut x' = true) by (eapply resolve_sall; [apply cut_stable| |exact RS]; assumption).
        destruct (ex_main n x' _ b v1 k1 EX SX R) as (K1 & _). split; [exact K1|]. eapply IH; eauto.
      - cbn [rbind] in R. destruct (ex_main n x _ b v1 k1 E1 S1 R) as (K1 & _). split; [exact K1|]. eapply IH; eauto. }
    destruct (IHs _ _ _ _ _ _ E2 C2 S2 DF) as [K2 R2]. pose proof (adv_le k1 kk b (proj1 RX) (proj2 RX) R2). lia.
Qed.
Lemma rm_create : forall c b v k, dcreate_step ct (dec n) c b = Ok (v, k) -> k <= blen b.
Proof.
  intros c b v k D. unfold dcreate_step in D. destruct (ct c) as [cd|] eqn:CT; [|discriminate].
  destruct (CLS c cd CT) as (CE & ST & ND & WD). pose proof (WHOLE c cd CT) as W.
  destruct (resolve false (c_ser cd) (PO c true [])) as [x|] eqn:R; [|discriminate]. cbn [rbind] in D.
  destruct (dfill (dec n) x (PO c true []) b (c_attrs cd) []) as [[kk|] d] eqn:DF; [|discriminate].
  destruct (get_attrs (c_attrs cd) d) as [vals|] eqn:GA; [|discriminate]. cbn in D. injection D as <- <-.
  assert (GEN : is_compound (c_ser cd) = false -> kk <= blen b).
  { intros NC. assert (CE' : sall pE (c_ser cd) = true) by (destruct (c_ser cd); try discriminate NC; exact CE).
    assert (CN : sall cut (c_ser cd) = true) by (destruct (c_ser cd); try discriminate NC; exact W).
    assert (EX : sall pE x = true) by (eapply resolve_sall; [apply pE_stable|exact CE'|exact R]).
    assert (SX : steady_ser x) by (eapply resolve_steady; eauto).
    assert (CX : sall cut x = true) by (eapply resolve_sall; [apply cut_stable|exact CN|exact R]).
    assert (NX : is_compound x = false) by (apply sall_here in EX; destruct x; try reflexivity; discriminate).
    assert (Y : match dec n x (PO c true []) b with
        | Err e => (Err e, [])
        | Ok (vs, k) =>
          match assign (c_attrs cd) vs [] with
          | (None, d') => (Err ValueError, d')
          | (Some names', d') => (match names' with [] => Ok k | _ => Err ValueError end, d')
          end
        end = (Ok kk, d)) by (destruct x; try discriminate NX; exact DF).
    destruct (dec n x (PO c true []) b) as [[vs k']|] eqn:DX; [|discriminate].
    destruct (assign (c_attrs cd) vs []) as [[[|]|] d'] eqn:AS; try discriminate. injection Y as <- <-.
    eapply IH; eauto. }
  destruct (c_ser cd) eqn:CS; try (apply GEN; reflexivity); [|cbn in CE; discriminate].
  clear GEN. cbn [class_exact] in CE. cbn [resolve] in R. injection R as <-.
  assert (ST' : steady_subs subs) by (clear -ST; cbn in ST; induction subs as [|y l IHl]; [exact I|destruct ST; split; auto]).
  assert (DF' : exists nm, dfill_subs (dec n) (if existsb needs_pre subs then Some (PO c true []) else None) (PO c true [])
            subs b (c_attrs cd) [] = (Ok (nm, kk), d)).
  { destruct (existsb needs_pre subs); cbn [dfill] in DF;
      (destruct (dfill_subs _ _ _ subs b (c_attrs cd) []) as [[[[|] k']|] d'] eqn:Y; try discriminate;
       injection DF as <- <-; eauto). }
  destruct DF' as (nm & DF').
  exact (proj2 (rm_fields c _ [] subs b _ _ _ _ _ CE W ST' DF')).
Qed.
End Step.

Theorem rm_main : forall n, rm_at n.
Proof.
  induction n as [|n IH]; intros x uc b vs k E C ST D; [discriminate|].
  pose proof (sall_here _ _ E) as EH. pose proof (blen_nonneg b) as B0. cbn [Pure.dec] in D.
  destruct x; cbn [pE] in EH; try discriminate EH.
  - cbn in D. injection D as <- <-. exact B0.
  - cbn [dec_step] in D. destruct (dst st b) as [us|] eqn:DD; [|discriminate]. injection D as <- <-.
    exact (dst_len hb _ _ _ DD).
  - cbn in D. injection D as <- <-. exact B0.
  - cbn [dec_step] in D. destruct (dst st b) as [cs|] eqn:DD; [|discriminate].
    destruct (uint1_dst hb st b cs EH DD) as (z & -> & Z0). cbn [rbind nth0 as_int as_index] in D.
    pose proof (ss_size_nonneg hb st) as SN. pose proof (dst_len hb _ _ _ DD) as DL.
    assert (G : (rdo o <- ss_matmul single_char z; rdo vs <- dost o (adv (ss_size hb st) b); Ok (vs, ss_size hb st + z))
      = Ok (vs, k) -> k <= blen b).
    { intros G. destruct (ss_matmul single_char z) as [o|] eqn:MM; [|discriminate]. cbn [rbind] in G.
      destruct (dost o _) as [us|] eqn:DO; [|discriminate]. injection G as <- <-.
      destruct (Z.eq_dec z 0) as [->|NZ]; [lia|].
      pose proof (dost_len hb _ _ _ DO) as DL2.
      destruct (matmul_single_char_size hb z o MM ltac:(lia)) as (st1 & -> & SZ). cbn [osize] in DL2. rewrite SZ in DL2.
      apply adv_le; assumption. }
    unfold cut in C. destruct md; [cbn in C; discriminate|exact (G D)|exact (G D)].
  - cbn in D. injection D as <- <-. lia.
  - cbn [dec_step] in D. destruct (byte_find t b) as [i|] eqn:F; [|discriminate]. injection D as <- <-.
    assert (L : (i < List.length b)%nat).
    { clear -F. revert i F. induction b as [|y b IHb]; intros i F; cbn in F; [discriminate|].
      destruct (_ : bool); [injection F as <-; cbn; lia|].
      destruct (byte_find t b) as [j|]; [|discriminate]. injection F as <-. specialize (IHb j eq_refl). cbn. lia. }
    unfold blen. lia.
  - cbn [dec_step] in D. destruct (ss_mul item (Z.of_nat count)) as [o|] eqn:MU; [|discriminate].
    cbn [rbind] in D. destruct (dost o b) as [us|] eqn:DO; [|discriminate]. injection D as <- <-.
    exact (dost_len hb _ _ _ DO).
  - cbn [dec_step] in D.
    destruct (dst cnt b) as [cs|] eqn:DD; [|discriminate]. cbn [rbind] in D.
    destruct (one cs ValueError) as [cv|]; [|discriminate]. cbn [rbind] in D.
    destruct (as_int cv) as [z|]; [|discriminate]. cbn [rbind] in D.
    destruct (ss_mul item z) as [o|] eqn:MU; [|discriminate]. cbn [rbind] in D.
    destruct (dost o (adv (ss_size hb cnt) b)) as [us|] eqn:DO; [|discriminate]. injection D as <- <-.
    apply adv_le; [apply ss_size_nonneg|exact (dst_len hb _ _ _ DD)|exact (dost_len hb _ _ _ DO)].
  - cbn [dec_step] in D. cbn in E. apply andb_prop in E as [_ E]. cbn [steady_ser] in ST.
    cbn in C. apply andb_prop in C as [_ C].
    destruct (dost hdr b) as [hv|] eqn:DH; [|discriminate]. cbn [rbind] in D.
    destruct (header_unpack_values hdr static hv) as [[count ds]|] eqn:HU; [|discriminate]. cbn [rbind] in D.
    destruct (resolve false x uc) as [x'|] eqn:RS; [|discriminate]. cbn [rbind] in D.
    destruct (dec_items _ x' uc (Z.to_nat count) _) as [[items kk]|] eqn:DI; [|discriminate]. cbn [rbind] in D.
    destruct (check_data_size ds kk) as [[]|] eqn:CK; [|discriminate]. injection D as <- <-.
    assert (EX : sall pE x' = true) by (eapply resolve_sall; [apply pE_stable|exact E|exact RS]).
    assert (SX : steady_ser x') by (eapply resolve_steady; eauto).
    assert (CX : sall cut x' = true) by (eapply resolve_sall; [apply cut_stable|exact C|exact RS]).
    apply adv_le; [apply (osize_nn hb)|exact (dost_len hb _ _ _ DH)|]. eapply rm_items; eauto.
  - cbn [dec_step] in D. cbn in E. cbn [steady_ser] in ST. cbn in C. apply andb_prop in C as [_ C].
    destruct (resolve false x uc) as [x'|] eqn:RS; [|discriminate]. cbn [rbind] in D.
    destruct (dec n x' uc b) as [[us kk]|] eqn:DX; [|discriminate]. injection D as <- <-.
    assert (EX : sall pE x' = true) by (eapply resolve_sall; [apply pE_stable|exact E|exact RS]).
    assert (SX : steady_ser x') by (eapply resolve_steady; eauto).
    assert (CX : sall cut x' = true) by (eapply resolve_sall; [apply cut_stable|exact C|exact RS]).
    eapply IH; eauto.
  - discriminate.
  - rename dec into dec0. cbn [dec_step] in D. cbn in E. apply andb_prop in E as [_ E]. apply andb_prop in E as [E1 E2].
    cbn in C. apply andb_prop in C as [_ C]. apply andb_prop in C as [C1 C2].
    cbn [steady_ser] in ST. destruct ST as (SF & SM & SD).
    destruct (dec0 uc) as [r|] eqn:F; [|discriminate]. cbn [rbind] in D.
    destruct (choose rmap dflt r) as [s0|] eqn:CH; [|discriminate]. cbn [rbind] in D.
    destruct (resolve false s0 uc) as [x'|] eqn:RS; [|discriminate]. cbn [rbind] in D.
    assert (P0 : sall pE s0 = true /\ steady_ser s0).
    { apply (choose_all (fun s0 => sall pE s0 = true /\ steady_ser s0) rmap dflt r s0 CH).
      - intros k' y I. rewrite forallb_forall in E1. pose proof (E1 _ I). cbn in *.
        split; auto. clear -SM I. induction rmap as [|p l IHl]; [contradiction|].
        destruct SM as [S1 S2], I as [->|I]; auto.
      - intros y ->. auto. }
    destruct P0 as (E0 & S0).
    assert (EX : sall pE x' = true) by (eapply resolve_sall; [apply pE_stable|exact E0|exact RS]).
    assert (SX : steady_ser x') by (eapply resolve_steady; eauto).
    assert (CX : sall cut x' = true).
    { eapply resolve_sall; [apply cut_stable| |exact RS]. eapply choose_sall; eauto. }
    eapply IH; eauto.
  - cbn [dec_step] in D. destruct (dcreate_step ct (dec n) cls b) as [[v kk]|] eqn:DC'; [|discriminate].
    injection D as <- <-. eapply rm_create; eauto.
  - discriminate.
Qed.
Theorem rm_object : forall n c b v k, dcreate hb ct md n c b = Ok (v, k) -> k <= blen b.
Proof. intros n c b v k D. exact (rm_create n (rm_main n) c b v k D). Qed.
End Room.

(** ** the repacking succeeds *)
Lemma dynarr_make : forall c item n s1 k items h y, dynarr_ok hb c item = true -> exact_item item = true -> 1 <= n ->
  ss_mul item n = Ok (Some s1) -> est c [VInt k] = Ok h -> est s1 items = Ok y ->
  exists st, ss_add c s1 = Ok st /\ ss_nvals st = S (ss_nvals s1) /\ est st (VInt k :: items) = Ok (h ++ y).
Proof.
  intros c item n s1 k items h y OK XI N M H Y. unfold dynarr_ok in OK.
  apply andb_prop in OK as [OK SH]. apply andb_prop in OK as [OK SG]. apply andb_prop in OK as [U BO].
  assert (BO' : s_bo c = s_bo item) by (destruct (s_bo c), (s_bo item); cbn in BO; congruence).
  destruct (uint1_inv c U) as (tc & FC & AC & CC & IC). destruct (uint1_ints c U) as (_ & _ & NV).
  destruct item as [bo f act]. unfold exact_item in XI. cbn [s_fmt s_bo s_act] in *.
  destruct act; [discriminate|]. destruct f as [|t [|]]; try discriminate. clear XI SG.
  assert (R : repeatable [t] = true) by reflexivity.
  destruct (mul_layout bo [t] n R N) as (g & M' & L). rewrite M in M'. injection M' as ->.
  destruct (mul_shape bo t None n (SS bo g None) N M) as (SF & SS1). cbn [s_fmt] in SF, SS1.
  assert (FO : foldable (s_fmt c) g = true).
  { rewrite FC. unfold foldable. cbn [split_last]. destruct g as [|t1 [|t2 r]]; try reflexivity.
    destruct (str_code (t_code t)) eqn:SC; [|destruct (SS1 eq_refl); discriminate].
    inversion SF as [|? ? S1 _]; subst. rewrite S1.
    destruct (t_code tc); try discriminate; destruct (t_code t); try discriminate; reflexivity. }
  pose proof (fold_layout _ _ FO) as FL. rewrite expand_app in FL.
  set (st := SS (s_bo c) (fold_overlaps false (s_fmt c) g) None). exists st.
  assert (AD : ss_add c (SS bo g None) = Ok st).
  { unfold ss_add. cbn [s_act s_bo s_fmt]. rewrite AC. rewrite BO' at 1.
    assert (border_eqb bo bo = true) as -> by now destruct bo. reflexivity. }
  split; [exact AD|].
  assert (NS : ss_nvals st = S (ss_nvals (SS bo g None))).
  { unfold ss_nvals, nvals. cbn [s_fmt st]. unfold st. cbn [s_fmt]. rewrite (proj1 FL), nvals_u_app.
    change (nvals_u (expand (s_fmt c))) with (ss_nvals c). rewrite NV. reflexivity. }
  split; [exact NS|].
  assert (MD : ss_mode hb st = ss_mode hb c /\ ss_mode hb (SS bo g None) = ss_mode hb c)
    by (unfold ss_mode, st; cbn [s_bo]; split; congruence).
  destruct MD as [MD1 MD2].
  unfold Pure.est in H, Y |- *. rewrite MD1. rewrite MD2 in Y.
  apply st_pack_inv in H as [_ H]. apply st_pack_inv in Y as [LI Y]. cbn [s_fmt] in LI, Y.
  unfold st_pack. change (nvals (s_fmt st)) with (ss_nvals st). rewrite NS. unfold ss_nvals. cbn [s_fmt List.length].
  rewrite LI, Nat.eqb_refl. unfold st at 1. cbn [s_fmt].
  destruct FL as [_ FL]. destruct (FL (ss_mode hb c) O) as (_ & FP & _). rewrite FP. clear FP FL.
  rewrite pack_u_app. change (nvals_u (expand (s_fmt c))) with (ss_nvals c). rewrite NV. cbn [skipn].
  assert (P1 : pack_u (ss_mode hb c) 0 (expand (s_fmt c)) (VInt k :: items)
               = pack_u (ss_mode hb c) 0 (expand (s_fmt c)) [VInt k]).
  { assert (EX : expand (s_fmt c) = [UAlign (t_code tc); UVal (t_code tc)]).
    { rewrite FC. unfold expand. cbn [flat_map]. rewrite app_nil_r. unfold expand_tok. rewrite CC.
      destruct (t_code tc); try discriminate; reflexivity. }
    rewrite EX. cbn. destruct (pack_val (ss_mode hb c) (t_code tc) (VInt k)); reflexivity. }
  rewrite P1, H.
  assert (LH : List.length h = calcsize (ss_mode hb c) (s_fmt c)) by (apply pack_u_length in H; exact H).
  destruct L as [_ L]. destruct (L (ss_mode hb c) (0 + List.length h)%nat) as (_ & L1 & _).
  destruct (L (ss_mode hb c) O) as (_ & L0 & _).
  rewrite L1. rewrite L0 in Y. cbn [Nat.add]. rewrite <- (Nat.add_0_r (List.length h)).
  rewrite pack_u_shift by (rewrite LH; now apply shift_ok_repeat). rewrite Y. reflexivity.
Qed.

Lemma zip_len : forall {A B} (l : list A) (m : list B), List.length m = List.length l -> List.length (zipw l m) = List.length l.
Proof. induction l as [|x l IHl]; intros [|y m] E; cbn in *; try discriminate; [reflexivity|]. now rewrite IHl by congruence. Qed.
(** no array of basic items with a dynamic length next to other fields (api.py:277 with arrays.py:238) *)
Definition nodyn (s : ser) : bool := match s with SDynArr _ _ _ => false | _ => true end.
Definition sure_ser (s : ser) : bool :=
  match s with SCompound _ subs => forallb (sall nodc) subs && forallb nodyn subs | _ => sall nodc s end.
Hypothesis SURE : forall c cd, ct c = Some cd -> sure_ser (c_ser cd) = true.
Hypothesis REFL : forall c, allow c c = true.

Lemma enc_up : forall m m' x pc vs b, enc m x pc vs = Ok b -> (m <= m')%nat -> enc m' x pc vs = Ok b.
Proof. intros m m' x pc vs b E L. exact (rle_ok _ _ _ _ (enc_le hb ct allow m m' x pc vs L) E). Qed.
Lemma items_up : forall m m' x pc vs b, enc_items (enc m) x pc vs = Ok b -> (m <= m')%nat -> enc_items (enc m') x pc vs = Ok b.
Proof.
  intros m m' x pc vs b E L. refine (rle_ok _ _ _ _ (enc_items_le (enc m) (enc m') _ x pc vs) E).
  intros. now apply enc_le.
Qed.
Lemma subs_up : forall m m' pre pc subs vs b, enc_subs (enc m) pre pc subs vs = Ok b -> (m <= m')%nat ->
  enc_subs (enc m') pre pc subs vs = Ok b.
Proof.
  intros m m' pre pc subs vs b E L. refine (rle_ok _ _ _ _ (enc_subs_le (enc m) (enc m') _ pre pc subs vs) E).
  intros. now apply enc_le.
Qed.

Definition sr_at (n : nat) : Prop := forall x uc b vs k pc, sall pE x = true -> sall nodc x = true -> steady_ser x ->
  dec n x uc b = Ok (vs, k) -> k <= blen b -> knows uc pc -> forallb nanfree vs = true ->
  exists m b', enc m x pc vs = Ok b'.

Section Step.
Variable n : nat.
Hypothesis IH : sr_at n.

Lemma sr_items : forall item uc pc c b vs k, sall pE item = true -> sall nodc item = true -> steady_ser item ->
  nvr item = 1%nat -> dec_items (dec n) item uc c b = Ok (vs, k) -> k <= blen b -> knows uc pc ->
  forallb nanfree vs = true -> exists m b', enc_items (enc m) item pc vs = Ok b'.
Proof.
  intros item uc pc c. induction c as [|c IHc]; intros b vs k E DC ST NV D LE KN NF.
  - cbn in D. injection D as <- <-. exists O, []. reflexivity.
  - cbn [dec_items] in D. destruct (dec n item uc b) as [[v1 k1]|] eqn:D1; [|discriminate]. cbn [rbind] in D.
    destruct (dec_items _ item uc c (adv k1 b)) as [[v2 k2]|] eqn:D2; [|discriminate]. injection D as <- <-.
    destruct (ex_main n item uc b v1 k1 E ST D1) as (K1 & _ & L1 & _). specialize (L1 (or_intror DC)). rewrite NV in L1.
    destruct (ex_items n (ex_main n) item uc c _ v2 k2 E ST NV (or_intror DC) D2) as (K2 & _ & _).
    destruct (adv_room k1 k2 b K1 K2 LE) as [R1 R2]. destruct v1 as [|v [|]]; try discriminate.
    cbn [app forallb] in *. apply andb_prop in NF as [NF1 NF2].
    destruct (IH item uc b [v] k1 pc E DC ST D1 R1 KN) as (m1 & b1 & E1); [cbn; now rewrite NF1|].
    destruct (IHc _ v2 k2 E DC ST NV D2 R2 KN NF2) as (m2 & b2 & E2).
    exists (Nat.max m1 m2), (b1 ++ b2). cbn [enc_items].
    rewrite (enc_up m1 (Nat.max m1 m2) _ _ _ _ E1), (items_up m2 (Nat.max m1 m2) _ _ _ _ E2) by lia. reflexivity.
Qed.

Lemma sr_fields : forall c pre X pc subs b names d names' k d',
  forallb (sall pE) subs = true -> forallb (sall nodc) subs = true -> forallb nodyn subs = true -> steady_subs subs ->
  NoDup names -> (forall a, In a names -> assoc a d = None) ->
  dfill_subs (dec n) (if pre : bool then Some (PO c true X) else None) (PO c true []) subs b names d = (Ok (names', k), d') ->
  k <= blen b -> p_cls pc = c -> p_attrs pc = d' -> 
  (forall vs, d' = d ++ zipw (firstn (List.length vs) names) vs -> (List.length vs <= List.length names)%nat -> forallb nanfree vs = true) ->
  exists vs m b', (List.length vs <= List.length names)%nat /\ names' = skipn (List.length vs) names /\
    d' = d ++ zipw (firstn (List.length vs) names) vs /\
    forall tl, enc_subs (enc m) (if pre then Some pc else None) pc subs (vs ++ tl) = Ok b'.
Proof.
  intros c pre X pc subs. induction subs as [|x subs IHs]; intros b names d names' k d' E DC DY ST ND FR D LE PC PA NF.
  - cbn in D. injection D as <- <- <-. exists [], O, []. cbn. repeat split; [lia|now rewrite app_nil_r].
  - cbn [forallb] in E, DC, DY. apply andb_prop in E as [E1 E2]. apply andb_prop in DC as [C1 C2].
    apply andb_prop in DY as [Y1 Y2]. destruct ST as [S1 S2].
    cbn [dfill_subs] in D. cbv zeta in D.
    destruct (rdo x' <- oresolve false (option_map _ (if pre then Some (PO c true X) else None)) x;
              dec n x' (octx _ (PO c true [])) b) as [[v1 k1]|] eqn:R; [|discriminate].
    destruct (assign names v1 d) as [[names1|] d1] eqn:AS; [|discriminate].
    destruct (dfill_subs _ _ _ subs (adv k1 b) names1 d1) as [[[nm kk]|] dd] eqn:DF; [|discriminate].
    cbn [rmap rbind fst snd] in D. injection D as <- <- <-.
    pose proof (assign_some _ _ _ _ _ AS) as LV. rewrite assign_fresh in AS by assumption. injection AS as <- <-.
    set (uc := PO c true (if pre then d else [])).
    assert (RX : exists x', dec n x' uc b = Ok (v1, k1) /\ sall pE x' = true /\ steady_ser x' /\ nvr x' = nvr x /\
      sall nodc x' = true /\ nodyn x' = true /\
      forall pc, knows uc pc -> oresolve true (if pre then Some pc else None) x = Ok x').
    { destruct pre; cbn [option_map oresolve octx p_cls p_proxy] in R.
      - destruct (resolve false x (PO c true d)) as [x'|] eqn:RS; [|discriminate]. cbn [rbind] in R.
        exists x'. split; [exact R|]. split; [eapply resolve_sall; [apply pE_stable| |exact RS]; assumption|].
        split; [eapply resolve_steady; eauto|]. split; [eapply resolve_nvr; eauto|].
        split; [eapply resolve_nodc; eauto|]. split.
        + pose proof (sall_here _ _ E1) as EH. clear -RS Y1 EH. destruct x; cbn [resolve] in RS; try (injection RS as <-; exact Y1).
          * destruct (cond (PO c true d)) as [v|]; [|discriminate]. cbn in RS. unfold cond_branch in RS.
            destruct (key_eqb v (VBool true)); [injection RS as <-; destruct x; try reflexivity; discriminate EH|].
            destruct (key_eqb v (VBool false)); [injection RS as <-; reflexivity|]. destruct (hashable v); discriminate.
          * destruct (self_class false (PO c true d)); [|discriminate]. injection RS as <-. reflexivity.
          * injection RS as <-. now destruct (existsb needs_pre subs).
        + intros pc' KN. cbn. eapply resolve_same; eauto.
      - cbn [rbind] in R. exists x. repeat split; auto. }
    destruct RX as (x' & D1 & EX & SX & NX & CX & YX & RP).
    destruct (ex_main n x' uc b v1 k1 EX SX D1) as (K1 & _ & L1 & _). specialize (L1 (or_intror CX)).
    assert (FRS : forall a, In a (skipn (List.length v1) names) ->
        assoc a (d ++ zipw (firstn (List.length v1) names) v1) = None) by now apply fresh_skip.
    assert (NDS : NoDup (skipn (List.length v1) names)) by now apply NoDup_skipn.
    destruct (ex_fields n (ex_main n) c pre X subs (adv k1 b) _ _ nm kk dd E2 S2 NDS FRS DF) as (K2 & _).
    destruct (adv_room k1 kk b K1 K2 LE) as [R1 R2].
    assert (ZZ : forall v2, zipw (firstn (List.length v1) names) v1 ++ zipw (firstn (List.length v2) (skipn (List.length v1) names)) v2
                 = zipw (firstn (List.length v1 + List.length v2) names) (v1 ++ v2)).
    { intros v2. clear -LV. revert names LV. induction v1 as [|v v1 IHv]; intros names L; [reflexivity|].
      destruct names as [|a names]; [cbn in L; lia|]. cbn. f_equal. apply IHv. cbn in L. lia. }
    assert (NFA : forall v2, dd = (d ++ zipw (firstn (List.length v1) names) v1)
                     ++ zipw (firstn (List.length v2) (skipn (List.length v1) names)) v2 ->
                  (List.length v2 <= List.length (skipn (List.length v1) names))%nat -> forallb nanfree (v1 ++ v2) = true).
    { intros v2 DD L2. apply NF; rewrite app_length; [|rewrite skipn_length in L2; clear -L2 LV; lia].
      rewrite DD, <- app_assoc, ZZ. reflexivity. }
    destruct (IHs (adv k1 b) (skipn (List.length v1) names) (d ++ zipw (firstn (List.length v1) names) v1) nm kk dd
                E2 C2 Y2 S2 NDS FRS DF R2 PC PA) as (v2 & m2 & b2 & LV2 & -> & DD & EN).
    { intros v2 DD L2. specialize (NFA v2 DD L2). rewrite forallb_app in NFA. now apply andb_prop in NFA as [_ NFA]. }
    specialize (NFA v2 DD LV2). rewrite forallb_app in NFA. apply andb_prop in NFA as [NF1 NF2].
    assert (KN : knows uc pc).
    { split; [now symmetry|]. unfold uc. cbn [p_attrs]. rewrite PA, DD. destruct pre; [|discriminate].
      intros a v H. rewrite <- app_assoc. now apply assoc_app_some. }
    destruct (IH x' uc b v1 k1 pc EX CX SX D1 R1 KN NF1) as (m1 & b1 & EN1).
    exists (v1 ++ v2), (Nat.max m1 m2), (b1 ++ b2). rewrite app_length. rewrite skipn_length in LV2.
    split; [clear -LV LV2; lia|]. split; [rewrite skipn_skipn; reflexivity|]. split; [now rewrite DD, <- app_assoc, ZZ|].
    intros tl. cbn [enc_subs]. rewrite (RP pc KN). cbn [rbind].
    replace (octx (if pre then Some pc else None) pc) with pc by now destruct pre.
    assert (NV : num_values x' = List.length v1).
    { rewrite L1. destruct x'; try reflexivity. discriminate YX. }
    rewrite NV, <- app_assoc, firstn_app_len, skipn_app_len.
    rewrite (enc_up m1 (Nat.max m1 m2) _ _ _ _ EN1) by apply Nat.le_max_l. cbn [rbind].
    rewrite (subs_up m2 (Nat.max m1 m2) _ _ _ _ _ (EN tl)) by apply Nat.le_max_r. reflexivity.
Qed.

Lemma sr_create : forall c b v k, dcreate_step ct (dec n) c b = Ok (v, k) -> k <= blen b -> nanfree v = true ->
  exists m b' d, v = VObj c None d /\ enc_obj_step ct (enc m) c None d = Ok b'.
Proof.
  intros c b v k D LE NF. unfold dcreate_step in D. destruct (ct c) as [cd|] eqn:CT; [|discriminate].
  destruct (CLS c cd CT) as (CE & ST & ND & WD). pose proof (SURE c cd CT) as SU.
  destruct (resolve false (c_ser cd) (PO c true [])) as [x|] eqn:R; [|discriminate]. cbn [rbind] in D.
  destruct (dfill (dec n) x (PO c true []) b (c_attrs cd) []) as [[kk|] d] eqn:DF; [|discriminate].
  destruct (get_attrs (c_attrs cd) d) as [vals|] eqn:GA; [|discriminate]. cbn in D. injection D as <- <-.
  assert (GEN : is_compound (c_ser cd) = false ->
    exists m b' d0, VObj c None (zipw (c_attrs cd) vals) = VObj c None d0 /\ enc_obj_step ct (enc m) c None d0 = Ok b').
  { intros NC. assert (CE' : sall pE (c_ser cd) = true) by (destruct (c_ser cd); try discriminate NC; exact CE).
    assert (CN : sall nodc (c_ser cd) = true) by (destruct (c_ser cd); try discriminate NC; exact SU).
    assert (EX : sall pE x = true) by (eapply resolve_sall; [apply pE_stable|exact CE'|exact R]).
    assert (SX : steady_ser x) by (eapply resolve_steady; eauto).
    assert (CX : sall nodc x = true) by (eapply resolve_nodc; eauto).
    assert (NX : is_compound x = false) by (apply sall_here in EX; destruct x; try reflexivity; discriminate).
    assert (DD : exists vs, dec n x (PO c true []) b = Ok (vs, kk) /\ assign (c_attrs cd) vs [] = (Some [], d)).
    { assert (Y : match dec n x (PO c true []) b with
        | Err e => (Err e, [])
        | Ok (vs, k) =>
          match assign (c_attrs cd) vs [] with
          | (None, d') => (Err ValueError, d')
          | (Some names', d') => (match names' with [] => Ok k | _ => Err ValueError end, d')
          end
        end = (Ok kk, d)) by (destruct x; try discriminate NX; exact DF).
      destruct (dec n x (PO c true []) b) as [[vs k']|]; [|discriminate].
      destruct (assign (c_attrs cd) vs []) as [[[|]|] d'] eqn:AS; try discriminate. injection Y as <- <-. eauto. }
    destruct DD as (vs & D1 & AS). pose proof (assign_some _ _ _ _ _ AS) as LV.
    rewrite assign_fresh in AS by (auto). injection AS as SK DE. cbn [app] in DE.
    assert (LEN : List.length vs = List.length (c_attrs cd)).
    { pose proof (skipn_length (List.length vs) (c_attrs cd)) as SL. rewrite SK in SL. cbn in SL. lia. }
    rewrite LEN, firstn_all in DE. subst d. rewrite get_attrs_zip in GA by assumption. injection GA as <-.
    cbn [nanfree] in NF. rewrite forallb_zip in NF by assumption.
    assert (KN : knows (PO c true []) (PO c false (zipw (c_attrs cd) vs))) by (split; [reflexivity|intros a v H; discriminate H]).
    destruct (IH x (PO c true []) b vs kk _ EX CX SX D1 LE KN NF) as (m & b' & E1).
    exists m, b'. eexists. split; [reflexivity|].
    unfold enc_obj_step. rewrite CT. cbn [obj_ser].
    rewrite (resolve_same _ _ _ _ CE' ST KN R). cbn [rbind]. rewrite get_attrs_zip by assumption. exact E1. }
  destruct (c_ser cd) eqn:CS; try (apply GEN; reflexivity); [|cbn in CE; discriminate].
  clear GEN. cbn [class_exact] in CE. cbn [resolve] in R. injection R as <-.
  assert (ST' : steady_subs subs) by (clear -ST; cbn in ST; induction subs as [|y l IHl]; [exact I|destruct ST; split; auto]).
  assert (DF' : exists nm, dfill_subs (dec n) (if existsb needs_pre subs then Some (PO c true []) else None) (PO c true [])
            subs b (c_attrs cd) [] = (Ok (nm, kk), d) /\ nm = []).
  { destruct (existsb needs_pre subs); cbn [dfill] in DF;
      (destruct (dfill_subs _ _ _ subs b (c_attrs cd) []) as [[[[|] k']|] d'] eqn:Y; try discriminate;
       injection DF as <- <-; eauto). }
  destruct DF' as (nm & DF' & ->).
  destruct (ex_fields n (ex_main n) c (existsb needs_pre subs) [] subs b (c_attrs cd) [] [] kk d CE ST' ND (fun _ _ => eq_refl) DF')
    as (K & vs & LV & SK & DE & _). cbn [app] in DE.
  assert (LEN : List.length vs = List.length (c_attrs cd)).
  { pose proof (skipn_length (List.length vs) (c_attrs cd)) as SL. rewrite <- SK in SL. cbn in SL. lia. }
  rewrite LEN, firstn_all in DE. subst d. rewrite get_attrs_zip in GA by assumption. injection GA as <-.
  cbn [nanfree] in NF. rewrite forallb_zip in NF by assumption.
  cbn [sure_ser] in SU. apply andb_prop in SU as [U1 U2].
  destruct (sr_fields c (existsb needs_pre subs) [] (PO c false (zipw (c_attrs cd) vs)) subs b (c_attrs cd) [] [] kk _
              CE U1 U2 ST' ND (fun _ _ => eq_refl) DF' LE eq_refl eq_refl) as (us & m & b' & LU & SU & DU & EN).
  { intros us DU LU. cbn [app] in DU.
    assert (us = vs \/ List.length us < List.length vs)%nat as [->|LT]; [|exact NF|].
    { destruct (Nat.eq_dec (List.length us) (List.length vs)) as [E|E]; [left|right; lia].
      rewrite E, LEN, firstn_all in DU. clear -DU E LEN. revert us vs E LEN DU.
      induction (c_attrs cd) as [|a l IHl]; intros [|u us] [|v vs] E LEN DU; try discriminate; [reflexivity|].
      cbn in DU. injection DU as -> DU. f_equal. apply IHl; cbn in *; congruence. }
    exfalso. assert (Q : List.length (zipw (c_attrs cd) vs) = List.length (zipw (firstn (List.length us) (c_attrs cd)) us)) by now rewrite DU.
    rewrite !zip_len in Q by (rewrite ?firstn_length; lia). rewrite firstn_length in Q. lia. }
  assert (us = vs) as ->.
  { cbn [app] in DU. pose proof (skipn_length (List.length us) (c_attrs cd)) as SL. rewrite <- SU in SL. cbn in SL.
    assert (E : List.length us = List.length vs) by lia.
    rewrite E, LEN, firstn_all in DU. clear -DU E LEN. revert us vs E LEN DU.
    induction (c_attrs cd) as [|a l IHl]; intros [|u us] [|v vs] E LEN DU; try discriminate; [reflexivity|].
    cbn in DU. injection DU as -> DU. f_equal. apply IHl; cbn in *; congruence. }
  exists (S m), b'. eexists. split; [reflexivity|].
  unfold enc_obj_step. rewrite CT. cbn [obj_ser]. rewrite CS. cbn [resolve rbind].
  rewrite get_attrs_zip by assumption. cbn [rbind].
  specialize (EN []). rewrite app_nil_r in EN.
  destruct (existsb needs_pre subs); exact EN.
Qed.
End Step.

Lemma single_char_make : forall t raw, exists o, ss_matmul single_char (blen (raw ++ [t])) = Ok o /\
  exists b, eost o [VBytes (raw ++ [t])] = Ok b.
Proof.
  intros t raw.
  assert (L1 : 1 <= blen (raw ++ [t])) by (rewrite blen_app; pose proof (blen_nonneg raw); change (blen [t]) with 1; lia).
  destruct (matmul_char BO_DEFAULT Cs (blen (raw ++ [t])) L1) as (tc & M' & TC & _ & _).
  change (SS BO_DEFAULT [Verif.StructMod.T None Cs] None) with single_char in M'. rewrite M'.
  eexists. split; [reflexivity|]. cbn [Pure.eost]. unfold Pure.est, st_pack, nvals. cbn [s_fmt]. rewrite TC.
  cbn. eexists. reflexivity.
Qed.

Theorem sr_main : forall n, sr_at n.
Proof.
  induction n as [|n IH]; intros x uc b vs k pc E DC ST D LE KN N; [discriminate|].
  pose proof (sall_here _ _ E) as EH. cbn [Pure.dec] in D.
  destruct x; cbn [pE] in EH; try discriminate EH.
  - (* Null *) exists 1%nat. cbn. eauto.
  - (* Struct *) cbn [dec_step] in D. destruct (dst st b) as [us|] eqn:DD; [|discriminate]. injection D as <- <-.
    exists 1%nat. cbn [Pure.enc enc_step]. rewrite (st_back st b us EH DD N). eauto.
  - (* Skip *) exists 1%nat. cbn. eauto.
  - (* DynChar *) discriminate DC.
  - (* Consume *) cbn in D. injection D as <- <-. exists 1%nat. cbn. eauto.
  - (* Term *) cbn [dec_step] in D. destruct (byte_find t b) as [i|] eqn:F; [|discriminate]. injection D as <- <-.
    exists 1%nat. cbn [Pure.enc enc_step nth0 as_bytes rbind]. set (raw := firstn i b) in *.
    destruct (single_char_make t raw) as (o & -> & b' & Q). cbn [rbind]. eauto.
  - (* StaticArr *) cbn [dec_step] in D. destruct (ss_mul item (Z.of_nat count)) as [o|] eqn:MU; [|discriminate].
    cbn [rbind] in D. destruct (dost o b) as [us|] eqn:DO; [|discriminate]. injection D as <- <-.
    cbn [forallb nanfree] in N. rewrite andb_true_r in N.
    apply andb_prop in EH as [EH NV]. apply Nat.eqb_eq in NV.
    destruct (mul_back item _ o b us EH MU DO N) as (_ & B & LEN & _). rewrite NV, Nat.mul_1_r, Nat2Z.id in LEN.
    exists 1%nat. cbn [Pure.enc enc_step nth0 py_len py_iter rbind].
    rewrite LEN, Nat.eqb_refl. cbn [negb]. rewrite MU. cbn [rbind]. eauto.
  - (* DynArr *) cbn [dec_step] in D. apply andb_prop in EH as [EH NV]. apply andb_prop in EH as [OK XI].
    apply Nat.eqb_eq in NV.
    assert (U : uint1 cnt = true) by (unfold dynarr_ok in OK; now repeat apply andb_prop in OK as [OK _]).
    destruct (dst cnt b) as [cs|] eqn:DD; [|discriminate].
    destruct (uint1_dst hb cnt b cs U DD) as (z & -> & Z0). cbn [rbind one as_int as_index] in D.
    destruct (ss_mul item z) as [o|] eqn:MU; [|discriminate]. cbn [rbind] in D.
    destruct (dost o (adv (ss_size hb cnt) b)) as [us|] eqn:DO; [|discriminate]. injection D as <- <-.
    cbn [forallb nanfree] in N. rewrite andb_true_r in N.
    destruct (mul_back item z o _ us XI MU DO N) as (_ & B & LEN & _). rewrite NV, Nat.mul_1_r in LEN.
    exists 1%nat. cbn [Pure.enc enc_step nth0 py_len py_iter rbind]. rewrite LEN, Z2Nat.id by exact Z0.
    pose proof (st_back cnt b [VInt z] (uint1_exact hb cnt U) DD eq_refl) as HB.
    destruct (uint1_ints cnt U) as (AC & _ & NC).
    unfold dynarr_st. destruct (z =? 0) eqn:ZZ.
    + apply Z.eqb_eq in ZZ. subst z. cbn [rbind]. destruct us; [|discriminate].
      change (ss_nvals {| s_bo := s_bo cnt; s_fmt := s_fmt cnt; s_act := None |}) with (ss_nvals cnt). rewrite NC.
      change (exists b', est cnt [VInt 0] = Ok b'). rewrite HB. eauto.
    + rewrite MU. cbn [rbind].
      assert (Z1 : 1 <= z) by lia.
      destruct o as [s1|].
      2: { exfalso. unfold ss_mul, ss_mul_impl in MU. rewrite ZZ in MU. destruct (z <? 0); [discriminate|].
           destruct (z =? 1); destruct (s_act item); cbn in MU; discriminate. }
      cbn [Pure.eost] in B.
      assert (NL : ss_nvals s1 = Z.to_nat z).
      { unfold Pure.est in B. apply st_pack_inv in B as [B _]. unfold ss_nvals. congruence. }
      destruct (dynarr_make cnt item z s1 z us _ _ OK XI Z1 MU HB B) as (st & -> & NS & Q). cbn [rbind].
      rewrite NS, NL. replace (Z.of_nat (S (Z.to_nat z)) - 1) with z by lia. eauto.
  - (* Array *) cbn [dec_step] in D. apply andb_prop in EH as [EH DC']. apply andb_prop in EH as [XH NV].
    apply Nat.eqb_eq in NV. cbn in E. apply andb_prop in E as [_ E]. cbn [steady_ser] in ST. cbn in DC.
    destruct (dost hdr b) as [hv|] eqn:DH; [|discriminate]. cbn [rbind] in D.
    destruct (header_unpack_values hdr static hv) as [[count ds]|] eqn:HU; [|discriminate]. cbn [rbind] in D.
    destruct (resolve false x uc) as [x'|] eqn:RS; [|discriminate]. cbn [rbind] in D.
    destruct (dec_items _ x' uc (Z.to_nat count) _) as [[items kk]|] eqn:DI; [|discriminate]. cbn [rbind] in D.
    destruct (check_data_size ds kk) as [[]|] eqn:CK; [|discriminate]. injection D as <- <-.
    destruct (hdr_back hb hdr static b hv count ds XH DH HU) as (C0 & (O1 & O2) & HB & HP).
    assert (EX : sall pE x' = true) by (eapply resolve_sall; [apply pE_stable|exact E|exact RS]).
    assert (SX : steady_ser x') by (eapply resolve_steady; eauto).
    assert (NX : nvr x' = 1%nat) by (rewrite (resolve_nvr _ _ _ _ E RS); exact NV).
    assert (DX : sall nodc x' = true) by (eapply resolve_nodc; eauto).
    destruct (ex_items n (ex_main n) x' uc (Z.to_nat count) _ items kk EX SX NX (or_intror DX) DI) as (K & LEN & XI).
    cbn [forallb nanfree] in N. rewrite andb_true_r in N.
    destruct (adv_room _ _ _ O1 K LE) as [R1 R2].
    destruct (sr_items n IH x' uc pc (Z.to_nat count) _ items kk EX DX SX NX DI R2 KN N) as (m & bs & EI).
    pose proof (XI m pc bs R2 KN N EI) as BS.
    assert (LB : blen bs = kk) by (rewrite BS; unfold blen in *; rewrite firstn_length; lia).
    exists (S m). cbn [Pure.enc enc_step nth0 py_len py_iter rbind].
    rewrite (resolve_same x uc pc x' E ST KN RS). cbn [rbind]. rewrite EI. cbn [rbind].
    rewrite LB, LEN, Z2Nat.id, (HP kk CK) by exact C0. cbn [rbind]. rewrite HB. cbn [rbind]. eauto.
  - (* Tuple *) cbn [dec_step] in D. cbn in E. cbn [steady_ser] in ST. cbn in DC.
    destruct (resolve false x uc) as [x'|] eqn:RS; [|discriminate]. cbn [rbind] in D.
    destruct (dec n x' uc b) as [[us kk]|] eqn:DX; [|discriminate]. injection D as <- <-.
    assert (EX : sall pE x' = true) by (eapply resolve_sall; [apply pE_stable|exact E|exact RS]).
    assert (SX : steady_ser x') by (eapply resolve_steady; eauto).
    assert (CX : sall nodc x' = true) by (eapply resolve_nodc; eauto).
    cbn [forallb nanfree] in N. rewrite andb_true_r in N.
    destruct (IH x' uc b us kk pc EX CX SX DX LE KN N) as (m & b' & E1).
    exists (S m). cbn [Pure.enc enc_step one rbind]. rewrite (resolve_same x uc pc x' E ST KN RS). cbn [rbind py_iter]. eauto.
  - (* Cond *) discriminate.
  - (* Lookback *) rename dec into dec0. cbn [dec_step] in D. cbn in E. apply andb_prop in E as [_ E]. apply andb_prop in E as [E1 E2].
    apply andb_prop in EH as [H1 H2]. cbn [steady_ser] in ST. destruct ST as (SF & SM & SD).
    destruct (dec0 uc) as [r|] eqn:F; [|discriminate]. cbn [rbind] in D.
    destruct (choose rmap dflt r) as [s0|] eqn:CH; [|discriminate]. cbn [rbind] in D.
    destruct (resolve false s0 uc) as [x'|] eqn:RS; [|discriminate]. cbn [rbind] in D.
    assert (P0 : sall pE s0 = true /\ steady_ser s0).
    { apply (choose_all (fun s0 => sall pE s0 = true /\ steady_ser s0) rmap dflt r s0 CH).
      - intros k' y I. rewrite forallb_forall in E1. pose proof (E1 _ I). cbn in *.
        split; auto. clear -SM I. induction rmap as [|p l IHl]; [contradiction|].
        destruct SM as [S1 S2], I as [->|I]; auto.
      - intros y ->. auto. }
    destruct P0 as (E0 & S0).
    assert (EX : sall pE x' = true) by (eapply resolve_sall; [apply pE_stable|exact E0|exact RS]).
    assert (SX : steady_ser x') by (eapply resolve_steady; eauto).
    assert (CX : sall nodc x' = true).
    { cbn in DC. apply andb_prop in DC as [M1 M2]. eapply resolve_nodc; [|exact RS]. eapply choose_sall; eauto. }
    destruct (IH x' uc b vs k pc EX CX SX D LE KN N) as (m & b' & Q).
    exists (S m). cbn [Pure.enc enc_step].
    rewrite (SF uc pc r KN F). cbn [rbind]. rewrite CH. cbn [rbind].
    rewrite (resolve_same s0 uc pc x' E0 S0 KN RS). cbn [rbind]. eauto.
  - (* Structd *) cbn [dec_step] in D. destruct (dcreate_step ct (dec n) cls b) as [[v kk]|] eqn:DC'; [|discriminate].
    injection D as <- <-. cbn [forallb] in N. rewrite andb_true_r in N.
    destruct (sr_create n IH cls b v kk DC' LE N) as (m & b' & d & -> & Q).
    exists (S m). cbn [Pure.enc enc_step one rbind]. rewrite REFL. eauto.
  - (* Self *) discriminate.
Qed.

(** ** objects *)
Lemma sure_whole : forall s, sure_ser s = true -> whole_ser s = true.
Proof.
  assert (G : forall x, sall nodc x = true -> sall cut x = true).
  { intros x. apply sall_weaken. intros s. unfold cut. destruct md; auto. }
  intros s H. destruct s; try exact (G _ H). cbn in *. apply andb_prop in H as [H _].
  rewrite forallb_forall in *. intros y I. apply G, H, I.
Qed.
Theorem sr_object : forall n c b v k, dcreate hb ct md n c b = Ok (v, k) -> nanfree v = true ->
  exists m0, forall m, (m0 <= m)%nat -> enc_obj hb ct allow m v = Ok (firstn (Z.to_nat k) b).
Proof.
  intros n c b v k D N.
  pose proof (rm_object (fun c cd E => sure_whole _ (SURE c cd E)) n c b v k D) as LE.
  destruct (sr_create n (sr_main n) c b v k D LE N) as (m0 & b' & d & -> & Q).
  assert (E : enc_obj hb ct allow m0 (VObj c None d) = Ok b') by exact Q.
  exists m0. intros m L.
  rewrite <- (ex_object hb md ct allow CLS n m0 c b _ k b' D LE N E).
  exact (rle_ok _ _ _ _ (enc_obj_le hb ct allow m0 m _ L) E).
Qed.
End Sure.
