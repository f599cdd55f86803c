(** The layout of what was read is the bytes read. *)
From Verif Require Import Base Floats FloatFacts Value StructMod Format Ser Exec Pure BaseFacts SerFacts DecFacts Wire Hints HintFacts Surface SerShape Programs Accept AcceptProg
  WireSpec WireFacts ReadSpec ReadFacts Reads TypeSpec Typed LocalSpec Locals BackSpec.
Open Scope string_scope. Open Scope list_scope. Open Scope Z_scope.

(** ** numbers *)
Lemma uint_back : forall big b, uint_bytes big (List.length b) (uint_of big b) = b.
Proof. intros big b. rewrite uint_dec. transitivity (int_enc big (List.length b) (int_dec big b)); [|apply int_enc_dec]. symmetry. apply int_enc_bytes. Qed.
Lemma sint_back : forall big b, b <> [] -> uint_bytes big (List.length b) (sint_of big b) = b.
Proof.
  intros big b N. assert (L : (1 <= List.length b)%nat) by (destruct b; [congruence|cbn; lia]). rewrite (sint_dec big b _ eq_refl L).
  transitivity (int_enc big (List.length b) (to_signed (List.length b) (int_dec big b))); [symmetry; apply int_enc_bytes|].
  transitivity (int_enc big (List.length b) (int_dec big b)); [|apply int_enc_dec]. apply int_enc_mod, to_signed_cong.
Qed.
Lemma scalar_back : forall m c y, basic_code c = true -> c <> Cbool -> List.length y = wsize c -> no_nan (scalar_of m c y) = true -> scalar m c (scalar_of m c y) = Some y.
Proof.
  intros m c y BC NB L NN. pose proof (scalar_typed m c y BC L) as TY. assert (N : y <> []) by (destruct y; [destruct c; discriminate L|discriminate]).
  pose proof (uint_back (m_big m) y) as UB. pose proof (sint_back (m_big m) y N) as SB. rewrite L in UB, SB. pose proof (uint_range (m_big m) y) as UR. unfold blen in UR. rewrite L in UR.
  destruct c; try discriminate BC; try congruence; cbn [scalar_of scalar basic_value as_index as_float no_nan wsize] in *;
    try (destruct TY as (z & E & LO & HI); injection E as E; rewrite <- E in *;
         match goal with |- (if ?q then _ else _) = _ => assert (Q : q = true) by lia; rewrite Q; congruence end).
  - apply negb_true_iff in NN. rewrite narrow_widen_e by (exact NN || exact UR). now rewrite UB.
  - apply negb_true_iff in NN. rewrite narrow_widen_f by (exact NN || exact UR). now rewrite UB.
  - now rewrite UB.
Qed.

(** ** places *)
Lemma at_flush : forall m w n off b f vs off' k, flush (m_native m) w off = true -> at_ m w n off b f = Some (vs, off', k) ->
  vs = f (firstn n b) /\ off' = (off + n)%nat /\ k = Z.of_nat n /\ (n <= List.length b)%nat.
Proof.
  intros m w n off b f vs off' k F E. unfold at_, flush in *. cbv zeta in E. 
  assert (G : (if m_native m then ((w - off mod w) mod w)%nat else 0%nat) = 0%nat) by (destruct (m_native m); [now apply Nat.eqb_eq|reflexivity]).
  rewrite G in E. cbn [skipn] in E. destruct (0 + n <=? List.length b)%nat eqn:L; [|discriminate]. injection E as <- <- <-. repeat split; lia.
Qed.
Lemma lay_atom : forall al w off bs rest, flush al w off = true -> lay al off (Atom w bs :: rest) = bs ++ lay al (off + List.length bs) rest.
Proof.
  intros al w off bs rest F. cbn [lay]. cbv zeta. unfold flush in F.
  assert (G : (if al then ((w - off mod w) mod w)%nat else 0%nat) = 0%nat) by (destruct al; [now apply Nat.eqb_eq|reflexivity]). rewrite G.
  cbn [zeros repeat app]. now rewrite Nat.add_0_r.
Qed.
Lemma flush_one : forall al off, flush al 1 off = true.
Proof. intros [] off; unfold flush; [|reflexivity]. change (off mod 1)%nat with (off mod 1)%nat. rewrite Nat.mod_1_r. reflexivity. Qed.
Lemma flush_zero : forall al w, (1 <= w)%nat -> flush al w 0 = true.
Proof. intros [] w W; unfold flush; [|reflexivity]. rewrite Nat.mod_0_l by lia. rewrite Nat.sub_0_r, Nat.mod_same by lia. reflexivity. Qed.
Lemma flush_next : forall al w off j, (1 <= w)%nat -> flush al w off = true -> flush al w (off + j * w) = true.
Proof.
  intros [] w off j W F; unfold flush in *; [|reflexivity]. now rewrite Nat.mod_add by lia.
Qed.
Lemma wsize_pos : forall c, (1 <= wsize c)%nat.
Proof. destruct c; cbn; lia. Qed.
Lemma width_pos : forall x, (1 <= width x)%nat.
Proof. induction x using hx_ind'; cbn; try lia. destruct c; lia. Qed.
Lemma number_back : forall m c off b z off' k, size_code c = true -> flush (m_native m) (wsize c) off = true -> number_at m c off b = Some (z, off', k) ->
  off' = (off + wsize c)%nat /\ k = Z.of_nat (wsize c) /\ (wsize c <= List.length b)%nat /\ number m c z = Some [Atom (wsize c) (firstn (wsize c) b)].
Proof.
  intros m c off b z off' k SC F E. pose proof (number_typed _ _ _ _ _ _ _ SC E) as R. unfold number_at in E.
  destruct (at_ m (wsize c) (wsize c) off b _) as [[[vs o'] j]|] eqn:A; [|discriminate]. destruct (at_flush _ _ _ _ _ _ _ _ _ F A) as (-> & -> & -> & L).
  assert (Z0 : z = uint_of (m_big m) (firstn (wsize c) b)) by congruence. assert (off' = (off + wsize c)%nat) as -> by congruence. assert (k = Z.of_nat (wsize c)) as -> by congruence.
  split; [reflexivity|]. split; [reflexivity|]. split; [exact L|]. unfold number. assert (Q : z <=? greatest c = true) by lia. rewrite Q, Z0.
  pose proof (uint_back (m_big m) (firstn (wsize c) b)) as UB. rewrite firstn_length, Nat.min_l in UB by lia. now rewrite UB.
Qed.
Lemma firstn_more : forall k k' (b : bytes), 0 <= k -> 0 <= k' -> firstn (Z.to_nat k) b ++ firstn (Z.to_nat k') (adv k b) = firstn (Z.to_nat (k + k')) b.
Proof.
  intros k k' b K K'. unfold adv. rewrite Z2Nat.inj_add by assumption. generalize (Z.to_nat k), (Z.to_nat k'). clear. intros n m. revert b.
  induction n as [|n IH]; intros b; [reflexivity|]. destruct b; cbn; [now rewrite firstn_nil|]. now rewrite IH.
Qed.
Lemma until_take : forall t b s, until t b = Some s -> firstn (Z.to_nat (blen s + 1)) b = s ++ [t].
Proof.
  intros t b s. replace (Z.to_nat (blen s + 1)) with (S (List.length s)) by (unfold blen; lia). revert s.
  induction b as [|x b IH]; intros s E; [discriminate|]. cbn [until] in E. destruct (Byte.eqb x t) eqn:Q.
  - injection E as <-. cbn. apply byte_eqb_true in Q. now subst.
  - destruct (until t b) as [r|]; [|discriminate]. injection E as <-. change (firstn (S (List.length (x :: r))) (x :: b)) with (x :: firstn (S (List.length r)) b).
    now rewrite (IH r eq_refl).
Qed.
Lemma pick_both : forall (f : hx -> option place) d k m r, pick_of f d k m = Some r ->
  (exists p, In p m /\ f (snd p) = Some r /\ forall g, pick g d k m = g (snd p)) \/ (exists y, d = Some y /\ f y = Some r /\ forall g, pick g d k m = g y).
Proof.
  intros f d k m r. induction m as [|[k' y] m IH]; intros E; cbn [pick_of pick] in *.
  - destruct d as [y|]; [|discriminate]. right. eauto.
  - destruct (key_eqb k k').
    + left. exists (k', y). cbn. auto.
    + destruct (IH E) as [(p & I & F & G)|R]; [left; exists p; cbn; auto|right; exact R].
Qed.

(** ** hint expressions *)
Lemma bits_takes : forall md P x al off off', bits md P al x off = Some off' -> takes x = true.
Proof.
  intros md P. induction x using hx_ind'; intros al off off' B; cbn [bits] in B; try discriminate; try reflexivity.
  - destruct a as [cc|n|t| |]; try reflexivity. cbn. destruct (0 <? n) eqn:Q; [|discriminate]. destruct (n =? 0) eqn:Q2; [lia|reflexivity].
  - cbn. destruct (Nat.eqb _ _ && here _) eqn:Q; [|discriminate]. apply andb_prop in Q as [_ Q]. destruct (bits md P al x 0) eqn:R; [|discriminate]. eauto.
Qed.

Section Main.
Variables (hb : bool) (md : umode) (rec : nat -> bytes -> option (value * Z)) (rec' : nat -> option border -> list (string * value) -> option bytes).
Variable P : nat -> bool.
Hypothesis RP : forall c b v k, rec c b = Some (v, k) -> 0 <= k.
Hypothesis RB : forall c b v k, P c = true -> rec c b = Some (v, k) -> k <= blen b -> no_nan v = true ->
  exists d, v = VObj c None d /\ rec' c None d = Some (firstn (Z.to_nat k) b).
(** the object while reading, and when written *)
Variables (c0 : nat) (d0 d1 : list (string * value)).
Hypothesis PS : P c0 = true.
Hypothesis KN : forall a v, assoc a d0 = Some v -> assoc a d1 = Some v.
Notation o := (PO c0 true d0). Notation p := (PO c0 false d1).

Definition goes_back (x : hx) : Prop := forall m off b vs off' k off1, bits md P (m_native m) x off = Some off1 -> answering x ->
  read hb md rec o m x off b = Some (vs, off', k) -> k <= blen b -> forallb no_nan vs = true ->
  off' = off1 /\ (List.length vs <= 1)%nat /\ (single md x = true -> List.length vs = 1%nat) /\
  forall v, vs = [v] -> exists cs, chunks hb rec' p m x (Some v) = Some cs /\
    forall rest, lay (m_native m) off (cs ++ rest) = firstn (Z.to_nat k) b ++ lay (m_native m) off1 rest.

Lemma read_pos' : forall m x off b vs off' k, read hb md rec o m x off b = Some (vs, off', k) -> 0 <= k.
Proof. intros. eapply read_pos; eauto. Qed.

(** items that are laid out one by one *)
Lemma items_back : forall x m off1, goes_back x -> bits md P (m_native m) x 0 = Some off1 -> single md x = true -> answering x ->
  forall n b vs k, items_of (read hb md rec o m x) false n 0 b = Some (vs, k) -> k <= blen b -> forallb no_nan vs = true ->
  List.length vs = n /\ 0 <= k /\ exists ls, omap (fun i => chunks hb rec' p m x (Some i)) vs = Some ls /\ concat (map (lay (m_native m) 0) ls) = firstn (Z.to_nat k) b.
Proof.
  intros x m off1 GB B SG AN. induction n as [|n IH]; intros b vs k E LE NN; cbn [items_of] in E.
  - injection E as <- <-. split; [reflexivity|]. split; [lia|]. exists []. cbn. auto.
  - destruct (read hb md rec o m x 0 b) as [[[v1 o1] k1]|] eqn:R; [|discriminate]. cbn in E.
    destruct (items_of _ false n 0 (adv k1 b)) as [[v2 k2]|] eqn:I; [|discriminate]. injection E as <- <-. rewrite forallb_app in NN. apply andb_prop in NN as [N1 N2].
    pose proof (read_pos' _ _ _ _ _ _ _ R) as K1.
    assert (K2 : 0 <= k2) by (eapply (items_pos rec RP); [|exact I]; intros; eapply read_pos'; eauto).
    destruct (room_split k1 k2 b K1 K2 LE) as [L1 L2]. destruct (GB m 0%nat b v1 o1 k1 off1 B AN R L1 N1) as (_ & _ & LN & CH).
    specialize (LN SG). destruct v1 as [|v [|]]; try discriminate LN. destruct (CH v eq_refl) as (cs & CE & LY).
    destruct (IH _ _ _ I L2 N2) as (LL & _ & ls & OM & CC). split; [cbn; now rewrite LL|]. split; [lia|]. exists (cs :: ls). cbn [app omap]. rewrite CE, OM. split; [reflexivity|].
    cbn [map concat]. specialize (LY []). rewrite app_nil_r in LY. cbn [lay] in LY. rewrite app_nil_r in LY. rewrite LY, CC. apply firstn_more; assumption.
Qed.
(** items that are laid out together: one atom each *)
Lemma atoms_back : forall x m off1, packed x = true -> bits md P (m_native m) x 0 = Some off1 ->
  forall n off ofs b vs k, flush (m_native m) (width x) off = true -> flush (m_native m) (width x) ofs = true ->
  items_of (read hb md rec o m x) true n off b = Some (vs, k) -> k <= blen b -> forallb no_nan vs = true ->
  List.length vs = n /\ 0 <= k /\ exists ls, omap (fun i => chunks hb rec' p m x (Some i)) vs = Some ls /\ lay (m_native m) ofs (concat ls) = firstn (Z.to_nat k) b.
Proof.
  intros x m off1 PK B.
  assert (ONE : forall off b vs off' k, flush (m_native m) (width x) off = true -> read hb md rec o m x off b = Some (vs, off', k) -> forallb no_nan vs = true ->
    exists v n j, vs = [v] /\ k = Z.of_nat n /\ off' = (off + n)%nat /\ n = (j * width x)%nat /\ (n <= List.length b)%nat /\ (1 <= width x)%nat /\
      chunks hb rec' p m x (Some v) = Some [Atom (width x) (firstn n b)]).
  { intros off b vs off' k FL R NN. destruct x; cbn [bits] in B; try discriminate B; try discriminate PK.
    - cbn [read] in R. cbn [width] in *. change (match c with Ch | CH | Ce => 2 | Ci | CI | Cf => 4 | Cq | CQ | Cd => 8 | _ => 1 end)%nat with (wsize c) in *.
      destruct (at_flush _ _ _ _ _ _ _ _ _ FL R) as (-> & -> & -> & L). exists (scalar_of m c (firstn (wsize c) b)), (wsize c), 1%nat.
      repeat match goal with |- _ /\ _ => split end; try reflexivity; try lia; try apply wsize_pos. cbn [chunks].
      cbn [forallb] in NN. rewrite Bool.andb_true_r in NN.
      rewrite scalar_back; [reflexivity| |destruct c; try discriminate; congruence|rewrite firstn_length; lia|exact NN].
      destruct c; try discriminate B; reflexivity.
    - destruct a as [cc|n|t| |]; try discriminate PK. cbn [read string_of] in R. destruct (0 <? n) eqn:Q; [|discriminate]. destruct (n =? 0) eqn:Q0; [lia|].
      cbn [width] in *. destruct (at_flush _ _ _ _ _ _ _ _ _ FL R) as (-> & -> & -> & L). exists (VBytes (firstn (Z.to_nat n) b)), (Z.to_nat n), (Z.to_nat n).
      repeat match goal with |- _ /\ _ => split end; try reflexivity; try lia. cbn [chunks]. destruct n as [|n|n]; try lia. cbn [string_chunks]. rewrite Q0. unfold fixed.
      rewrite firstn_firstn, Nat.min_id. rewrite firstn_length, Nat.min_l by lia. rewrite Nat.sub_diag. cbn [zeros repeat]. now rewrite app_nil_r. }
  induction n as [|n IH]; intros off ofs b vs k F1 F2 E LE NN; cbn [items_of] in E.
  - injection E as <- <-. split; [reflexivity|]. split; [lia|]. exists []. cbn. auto.
  - destruct (read hb md rec o m x off b) as [[[v1 o1] k1]|] eqn:R; [|discriminate]. cbn in E.
    destruct (items_of _ true n o1 (adv k1 b)) as [[v2 k2]|] eqn:I; [|discriminate]. injection E as <- <-. rewrite forallb_app in NN. apply andb_prop in NN as [N1 N2].
    destruct (ONE _ _ _ _ _ F1 R N1) as (v & j & q & -> & -> & -> & J & LB & W & CE).
    assert (FN : flush (m_native m) (width x) (off + j) = true) by (rewrite J; now apply flush_next).
    assert (FO : flush (m_native m) (width x) (ofs + j) = true) by (rewrite J; now apply flush_next).
    assert (LA : k2 <= blen (adv (Z.of_nat j) b)) by (rewrite skip_len by (unfold blen; lia); lia).
    destruct (IH _ _ _ _ _ FN FO I LA N2) as (LL & K2 & ls & OM & CC).
    split; [cbn; now rewrite LL|]. split; [lia|]. exists ([Atom (width x) (firstn j b)] :: ls). cbn [app omap]. rewrite CE, OM. split; [reflexivity|].
    cbn [concat app]. rewrite lay_atom by exact F2. rewrite firstn_length, Nat.min_l by lia. rewrite CC.
    replace (firstn j b) with (firstn (Z.to_nat (Z.of_nat j)) b) by (now rewrite Nat2Z.id). apply firstn_more; lia.
Qed.

Fixpoint run_bits (l : list hx) (off : nat) : bool :=
  match l with [] => true | y :: l' => single md y && match bits md P true y off with Some off' => run_bits l' off' | None => false end end.
Lemma members_back : forall l, Forall goes_back l -> (forall x, In x l -> answering x) -> forall off b vs k, run_bits l off = true ->
  members_of (read hb md rec o (machine hb)) l off b = Some (vs, k) -> k <= blen b -> forallb no_nan vs = true ->
  exists cs, members (chunks hb rec' p (machine hb)) l vs = Some cs /\ lay true off cs = firstn (Z.to_nat k) b.
Proof.
  intros l GB. induction GB as [|x l GX GB IH]; intros AN off b vs k RB' E LE NN; cbn [members_of] in E.
  - injection E as <- <-. exists []. cbn. auto.
  - cbn [run_bits] in RB'. apply andb_prop in RB' as [SG RB']. destruct (bits md P true x off) as [off1|] eqn:B; [|discriminate].
    destruct (read hb md rec o (machine hb) x off b) as [[[v1 o1] k1]|] eqn:R; [|discriminate]. cbn in E.
    destruct (members_of _ l o1 (adv k1 b)) as [[v2 k2]|] eqn:I; [|discriminate]. injection E as <- <-. rewrite forallb_app in NN. apply andb_prop in NN as [N1 N2].
    pose proof (read_pos' _ _ _ _ _ _ _ R) as K1.
    assert (K2 : 0 <= k2) by (eapply (members_pos rec RP); [|exact I]; intros; eapply read_pos'; eauto).
    destruct (room_split k1 k2 b K1 K2 LE) as [L1 L2]. destruct (GX (machine hb) off b v1 o1 k1 off1 B (AN x (or_introl eq_refl)) R L1 N1) as (-> & _ & LN & CH).
    specialize (LN SG). destruct v1 as [|v [|]]; try discriminate LN. destruct (CH v eq_refl) as (cs & CE & LY).
    destruct (IH (fun y J => AN y (or_intror J)) off1 _ _ _ RB' I L2 N2) as (cs' & CE' & LY'). exists (cs ++ cs'). cbn [app members]. rewrite (bits_takes _ _ _ _ _ _ B). cbn [hd_error tl].
    rewrite CE, CE'. split; [reflexivity|]. cbn [machine m_native] in LY. rewrite LY, LY'. apply firstn_more; assumption.
Qed.
Lemma answer_true : forall f r, answers f -> f o = Ok r -> f p = Ok r.
Proof. intros f r A E. exact (A _ _ _ _ _ _ KN E). Qed.
Lemma back_block : forall m x off off1 b vs off' k, off1 = 0%nat -> off' = 0%nat -> (List.length vs <= 1)%nat -> (single md x = true -> List.length vs = 1%nat) ->
  (forall v, vs = [v] -> chunks hb rec' p m x (Some v) = Some [Block (firstn (Z.to_nat k) b)]) ->
  off' = off1 /\ (List.length vs <= 1)%nat /\ (single md x = true -> List.length vs = 1%nat) /\
  forall v, vs = [v] -> exists cs, chunks hb rec' p m x (Some v) = Some cs /\
    forall rest, lay (m_native m) off (cs ++ rest) = firstn (Z.to_nat k) b ++ lay (m_native m) off1 rest.
Proof.
  intros m x off off1 b vs off' k -> -> L SG C. split; [reflexivity|]. split; [exact L|]. split; [exact SG|]. intros v E. exists [Block (firstn (Z.to_nat k) b)].
  split; [now apply C|]. reflexivity.
Qed.
Theorem all_back : forall x, goes_back x.
Proof.
  induction x using hx_ind'; intros m' off b vs off' k' off1 B AN E LE NN; cbn [bits] in B; cbn [read] in E; try discriminate B.
  - assert (BC : basic_code c = true /\ c <> Cbool /\ flush (m_native m') (wsize c) off = true /\ off1 = (off + wsize c)%nat).
    { destruct (basic_code c && flush (m_native m') (wsize c) off) eqn:Q; [|destruct c; discriminate B]. apply andb_prop in Q as [Q1 Q2].
      repeat split; [exact Q1|destruct c; discriminate|exact Q2|destruct c; congruence]. }
    destruct BC as (BC & NB & FL & ->). destruct (at_flush _ _ _ _ _ _ _ _ _ FL E) as (-> & -> & -> & L).
    split; [reflexivity|]. split; [cbn; lia|]. split; [reflexivity|]. intros v V. injection V as <-. exists [Atom (wsize c) (firstn (wsize c) b)].
    cbn [forallb] in NN. rewrite Bool.andb_true_r in NN. cbn [chunks]. rewrite scalar_back; [|exact BC|exact NB|rewrite firstn_length; lia|exact NN].
    split; [reflexivity|]. intros rest. cbn [app]. rewrite lay_atom by exact FL. now rewrite firstn_length, Nat.min_l, Nat2Z.id by lia.
  - destruct a as [cc|n|t| |]; try discriminate B.
    + destruct (size_code cc) eqn:SC; [|discriminate]. injection B as <-. cbn [string_of] in E. destruct (number_at m' cc 0 b) as [[[z o1] j]|] eqn:N; [|discriminate].
      destruct (number_room _ _ _ _ _ _ _ N) as [Z0 J0]. destruct (number_back _ _ _ _ _ _ _ SC (flush_zero _ _ (wsize_pos cc)) N) as (_ & -> & LB & NB).
      unfold cut in E. destruct (_ || _); [|discriminate]. cbn [block] in E.
      assert (off' = 0%nat) as -> by congruence. assert (k' = Z.of_nat (wsize cc) + z) as -> by congruence.
      set (s := firstn (Z.to_nat z) (adv (Z.of_nat (wsize cc)) b)) in *.
      assert (LS : blen s = z) by (unfold s, blen; rewrite firstn_length; pose proof (skip_len (Z.of_nat (wsize cc)) b ltac:(lia)); unfold blen in *; lia).
      apply back_block; try reflexivity.
      * assert (V : vs = if negb (match md with UBuf => true | _ => false end) && (z =? 0) then [] else [VBytes s]) by congruence. rewrite V. destruct (_ && _); cbn; lia.
      * unfold single. cbn [surface negb]. destruct md; try discriminate. intros _. now injection E as <-.
      * intros v V. assert (v = VBytes s) as ->. { subst vs. injection E as E. destruct (_ && _) in E; congruence. }
        cbn [chunks string_chunks]. rewrite LS, NB. cbn [lay]. cbv zeta. cbn [zeros repeat app]. rewrite app_nil_r.
        do 3 f_equal. unfold s. replace (firstn (wsize cc) b) with (firstn (Z.to_nat (Z.of_nat (wsize cc))) b) by (now rewrite Nat2Z.id). apply firstn_more; lia.
    + destruct (0 <? n) eqn:Q; [|discriminate]. injection B as <-. cbn [string_of] in E. destruct (n =? 0) eqn:Q0; [lia|].
      destruct (at_flush _ _ _ _ _ _ _ _ _ (flush_one _ _) E) as (-> & -> & -> & L). split; [reflexivity|]. split; [cbn; lia|]. split; [reflexivity|].
      intros v V. injection V as <-. exists [Atom 1 (firstn (Z.to_nat n) b)]. split.
      * cbn [chunks]. destruct n as [|n|n]; try lia. cbn [string_chunks]. rewrite Q0. unfold fixed.
        rewrite firstn_firstn, Nat.min_id. rewrite firstn_length, Nat.min_l by lia. rewrite Nat.sub_diag. cbn [zeros repeat]. now rewrite app_nil_r.
      * intros rest. cbn [app]. rewrite lay_atom by apply flush_one. now rewrite firstn_length, Nat.min_l, Nat2Z.id by lia.
    + injection B as <-. cbn [string_of] in E. destruct t as [|t []]; try discriminate. destruct (until t b) as [s|] eqn:U; [|discriminate]. cbn [block] in E.
      injection E as <- <- <-. apply back_block; try reflexivity. intros v V. injection V as <-. cbn [chunks string_chunks]. now rewrite (until_take _ _ _ U).
    + injection B as <-. cbn [string_of block] in E. injection E as <- <- <-. apply back_block; try reflexivity. intros v V. injection V as <-. cbn [chunks string_chunks].
      unfold blen. now rewrite Nat2Z.id, firstn_all.
  - cbv zeta in B. destruct (_ && here _) eqn:Q in B; [|discriminate]. injection B as <-.
    apply andb_prop in Q as [Q HB]. apply andb_prop in Q as [Q PK]. apply andb_prop in Q as [Q SG]. apply andb_prop in Q as [CN SZ].
    destruct (bits md P (m_native m') x 0) as [o1|] eqn:BX; [|discriminate]. cbn [answering] in AN.
    destruct (packed x) eqn:PX.
    + destruct (match n with inl z => Some (z, 0) | inr c => _ end) as [[cc k0]|] eqn:C; [|discriminate].
      destruct (items_of _ true _ 0 _) as [[l k1]|] eqn:I; [|discriminate]. cbn [block] in E. injection E as <- <- <-.
      cbn [forallb no_nan] in NN. rewrite Bool.andb_true_r in NN. cbn [andb negb] in PK.
      assert (K1 : 0 <= k1) by (eapply (items_pos rec RP); [|exact I]; intros; eapply read_pos'; eauto).
      assert (HD : 0 <= cc /\ 0 <= k0 /\ exists h, (match n with inl z => if cc =? z then Some [] else None | inr c => number m' c cc end) = Some h /\
          forall rest, lay (m_native m') 0 (h ++ rest) = firstn (Z.to_nat k0) b ++ lay (m_native m') (match n with inr c => wsize c | inl _ => 0%nat end) rest).
      { destruct n as [z|c].
        - injection C as <- <-. split; [lia|]. split; [lia|]. exists []. rewrite Z.eqb_refl. auto.
        - destruct (number_at m' c 0 b) as [[[z o2] k2]|] eqn:N; [|discriminate]. injection C as <- <-. destruct (number_room _ _ _ _ _ _ _ N) as [Z0 J0].
          destruct (number_back _ _ _ _ _ _ _ CN (flush_zero _ _ (wsize_pos c)) N) as (_ & -> & LB & NB). split; [lia|]. split; [lia|]. eexists. split; [exact NB|].
          intros rest. cbn [app]. rewrite lay_atom by (apply flush_zero, wsize_pos). rewrite firstn_length, Nat.min_l by lia. now rewrite Nat2Z.id. }
      destruct HD as (C0 & K0 & h & HE & HL). destruct (room_split k0 k1 b K0 K1 LE) as [L0 L1].
      rewrite Bool.negb_involutive in PK.
      destruct (atoms_back x m' o1 PX BX (Z.to_nat cc) 0%nat (match n with inr c => wsize c | inl _ => 0%nat end) _ _ _
        (flush_zero _ _ (width_pos x)) PK I L1 NN) as (LL & _ & ls & OM & CC).
      apply back_block; try reflexivity. intros v V. injection V as <-. cbn [chunks py_iter]. rewrite OM, LL, Z2Nat.id by exact C0. rewrite HE, PX, HL, CC.
      do 3 f_equal. apply firstn_more; assumption.
    + destruct (ready o x); [|discriminate]. cbn [negb] in E.
      destruct (match n with inl z => Some (z, 0%nat, 0) | inr c => _ end) as [[[cc o0] k0]|] eqn:C; [|discriminate].
      destruct (match s with None => Some (None, 0) | Some c => _ end) as [[sz k1]|] eqn:D; [|discriminate].
      destruct (items_of _ false _ 0 _) as [[l k2]|] eqn:I; [|discriminate].
      destruct (match sz with Some z => z =? k2 | None => true end) eqn:SE; [|discriminate]. cbn [block] in E. injection E as <- <- <-.
      cbn [forallb no_nan] in NN. rewrite Bool.andb_true_r in NN.
      assert (K2 : 0 <= k2) by (eapply (items_pos rec RP); [|exact I]; intros; eapply read_pos'; eauto).
      assert (HD : 0 <= cc /\ 0 <= k0 <= blen b /\ o0 = (match n with inr c => wsize c | inl _ => 0%nat end) /\
          exists h, (match n with inl z => if cc =? z then Some [] else None | inr c => number m' c cc end) = Some h /\
          forall rest, lay (m_native m') 0 (h ++ rest) = firstn (Z.to_nat k0) b ++ lay (m_native m') o0 rest).
      { destruct n as [z|c].
        - injection C as <- <- <-. split; [lia|]. split; [pose proof (blen_nonneg b); lia|]. split; [reflexivity|]. exists []. rewrite Z.eqb_refl. auto.
        - destruct (number_room _ _ _ _ _ _ _ C) as [Z0 J0].
          destruct (number_back _ _ _ _ _ _ _ CN (flush_zero _ _ (wsize_pos c)) C) as (-> & -> & LB & NB). split; [lia|]. split; [lia|]. split; [reflexivity|]. eexists. split; [exact NB|].
          intros rest. cbn [app]. rewrite lay_atom by (apply flush_zero, wsize_pos). rewrite firstn_length, Nat.min_l by lia. now rewrite Nat2Z.id. }
      destruct HD as (C0 & K0 & O0 & h & HE & HL).
      assert (HS : 0 <= k1 /\ (match sz with Some z => z = k2 -> exists h', (match s with None => Some [] | Some c => number m' c k2 end) = Some h' /\
            lay (m_native m') o0 h' = firstn (Z.to_nat k1) (adv k0 b) | None => s = None /\ k1 = 0 end)).
      { destruct s as [c|]; [|injection D as <- <-; split; [lia|auto]]. apply andb_prop in SZ as [S1 S2].
        destruct (number_at m' c o0 (adv k0 b)) as [[[z o2] k3]|] eqn:N; [|discriminate]. injection D as <- <-. destruct (number_room _ _ _ _ _ _ _ N) as [Z0 J0]. split; [lia|].
        intros ->. rewrite <- O0 in S2. destruct (number_back _ _ _ _ _ _ _ S1 S2 N) as (_ & -> & LB & NB). eexists. split; [exact NB|].
        rewrite lay_atom by exact S2. cbn [lay]. now rewrite app_nil_r, Nat2Z.id. }
      destruct HS as (K1 & HS). destruct (room_split (k0 + k1) k2 b ltac:(lia) K2 LE) as [L01 L2].
      destruct (items_back x m' o1 IHx BX SG AN _ _ _ _ I L2 NN) as (LL & _ & ls & OM & CC).
      assert (LB : blen (firstn (Z.to_nat k2) (adv (k0 + k1) b)) = k2) by (unfold blen in *; rewrite firstn_length; lia).
      apply back_block; try reflexivity. intros v V. injection V as <-. cbn [chunks py_iter]. rewrite OM, LL, Z2Nat.id by exact C0. rewrite HE, PX. cbv zeta. rewrite CC, LB.
      destruct sz as [z|].
      * destruct (HS ltac:(lia)) as (h' & HE' & HL'). rewrite HE'. rewrite HL, HL'. do 3 f_equal. rewrite firstn_more by lia. apply firstn_more; lia.
      * destruct HS as [-> ->]. rewrite app_nil_r. specialize (HL []). rewrite app_nil_r in HL. cbn [lay] in HL. rewrite app_nil_r in HL. rewrite HL. do 3 f_equal.
        rewrite Z.add_0_r in *. apply firstn_more; lia.
  - assert (Q : run_bits l 0 = true) by (change ((if run_bits l 0 then Some 0%nat else None) = Some off1) in B; destruct (run_bits l 0); [reflexivity|discriminate]).
    assert (off1 = 0%nat) as -> by (change ((if run_bits l 0 then Some 0%nat else None) = Some off1) in B; rewrite Q in B; congruence). clear B.
    destruct (members_of _ l 0 b) as [[vs1 k1]|] eqn:M; [|discriminate]. cbn [block] in E. injection E as <- <- <-. cbn [forallb no_nan] in NN. rewrite Bool.andb_true_r in NN.
    assert (AL : forall x, In x l -> answering x).
    { cbn [answering] in AN. clear -AN. induction l as [|y l IH]; [contradiction|]. destruct AN as [A1 A2]. intros x [<-|I]; [exact A1|exact (IH A2 x I)]. }
    destruct (members_back l H AL 0%nat b vs1 k1 Q M LE NN) as (cs & CE & LY).
    apply back_block; try reflexivity. intros v V. injection V as <-. cbn [chunks py_iter]. now rewrite CE, LY.
  - destruct (Nat.eqb _ _ && here _) eqn:Q in B; [|discriminate]. injection B as <-. apply andb_prop in Q as [LD HB]. apply Nat.eqb_eq in LD.
    destruct (bits md P (m_native m') x 0) as [o1|] eqn:BX; [|discriminate]. destruct AN as [AF AX].
    destruct (f o) as [r|] eqn:F; [|discriminate]. pose proof (answer_true f r AF F) as FP.
    destruct (key_eqb r (VBool true)) eqn:KT.
    + destruct (read hb md rec o m' x 0 b) as [[[v1 o2] k1]|] eqn:R; [|discriminate]. cbn [body block] in E. injection E as <- <- <-.
      destruct (IHx m' 0%nat b v1 o2 k1 o1 BX AX R LE NN) as (_ & L1 & SG & CH). apply back_block; try reflexivity; [exact L1|exact SG|].
      intros v V. destruct (CH v V) as (cs & CE & LY). cbn [chunks]. rewrite FP, KT, CE. specialize (LY []). rewrite app_nil_r in LY. cbn [lay] in LY. rewrite app_nil_r in LY. now rewrite LY.
    + destruct (key_eqb r (VBool false)) eqn:KF; [|discriminate]. cbn [block] in E. injection E as <- <- <-. apply back_block; try reflexivity; [lia|auto|].
      intros v V. cbn [chunks]. now rewrite FP, KT, KF.
  - destruct (_ && _) eqn:Q in B; [|discriminate]. injection B as <-. apply andb_prop in Q as [Q1 Q2]. rewrite forallb_forall in Q1. destruct AN as (AF & AM & AD).
    destruct (f o) as [r|] eqn:F; [|discriminate]. pose proof (answer_true f r AF F) as FP. destruct (hashable r) eqn:HR; [|discriminate].
    destruct (pick_of _ d r m) as [[[v1 o2] k1]|] eqn:PK; [|discriminate]. cbn [body block] in E. injection E as <- <- <-.
    assert (AP : forall q, In q m -> answering (snd q)).
    { clear -AM. induction m as [|q m IH]; [contradiction|]. destruct AM as [A1 A2]. intros q' [<-|I]; [exact A1|exact (IH A2 q' I)]. }
    rewrite Forall_forall in *.
    assert (ONE : exists y, goes_back y /\ here (bits md P true y 0) = true /\ answering y /\ read hb md rec o (machine hb) y 0 b = Some (v1, o2, k1) /\ (forall g, pick g d r m = g y) /\
       (surface y = true -> existsb (fun q => surface (snd q)) m || match d with Some y => surface y | None => false end = true)).
    { apply pick_both in PK as [(q & I & R & G)|(y & -> & R & G)].
      - exists (snd q). split; [match goal with H : forall x, In x m -> goes_back _ |- _ => exact (H q I) end|]. split; [exact (Q1 q I)|]. split; [exact (AP q I)|].
        split; [exact R|]. split; [exact G|]. intros SF. apply Bool.orb_true_iff. left. apply existsb_exists. eauto.
      - exists y. split; [match goal with H : forall x, Some y = Some x -> goes_back _ |- _ => exact (H y eq_refl) end|]. split; [exact Q2|]. split; [exact AD|].
        split; [exact R|]. split; [exact G|]. intros SF. apply Bool.orb_true_iff. now right. }
    destruct ONE as (y & GY & HY & AY & R & G & SF). destruct (bits md P true y 0) as [o1|] eqn:BX; [|discriminate].
    destruct (GY (machine hb) 0%nat b v1 o2 k1 o1 BX AY R LE NN) as (_ & L1 & SG & CH). apply back_block; try reflexivity; [exact L1| |].
    + intros S1. apply SG. unfold single in *. destruct md; try reflexivity; cbn [surface] in S1; destruct (surface y); try reflexivity; rewrite SF in S1 by reflexivity; discriminate S1.
    + intros v V. destruct (CH v V) as (cs & CE & LY). cbn [chunks]. rewrite FP, HR, G, CE. specialize (LY []). rewrite app_nil_r in LY. cbn [lay machine m_native] in LY. rewrite app_nil_r in LY. now rewrite LY.
  - destruct (P c) eqn:PC; [|discriminate]. injection B as <-. destruct (rec c b) as [[v k1]|] eqn:R; [|discriminate]. cbn [block] in E. injection E as <- <- <-.
    cbn [forallb] in NN. rewrite Bool.andb_true_r in NN. destruct (RB c b v k1 PC R LE NN) as (d & -> & W). apply back_block; try reflexivity.
    intros v V. injection V as <-. cbn [chunks]. now rewrite W.
  - injection B as <-. cbn [p_cls p_proxy p_attrs] in E. destruct (assoc "cls" d0); [discriminate|].
    destruct (rec c0 b) as [[v k1]|] eqn:R; [|discriminate]. cbn [block] in E. injection E as <- <- <-.
    cbn [forallb] in NN. rewrite Bool.andb_true_r in NN. destruct (RB c0 b v k1 PS R LE NN) as (d & -> & W). apply back_block; try reflexivity.
    intros v V. injection V as <-. cbn [chunks]. now rewrite W.
Qed.
End Main.

(** ** classes *)
Lemma fields_keep : forall f l d off b d' k, fields_read f l d off b = Some (d', k) -> forall a, ~ In a (map fst l) -> assoc a d' = assoc a d.
Proof.
  intros f l. induction l as [|[a x] l IH]; intros d off b d' k E a' NI; cbn [fields_read] in E; [injection E as <- _; reflexivity|].
  destruct (f d x off b) as [[[vs o1] k1]|]; [|discriminate]. cbn in E. cbn [map fst] in NI.
  destruct (match vs with [] => _ | _ => _ end) as [d1|] eqn:DD; [|discriminate]. cbn in E.
  destruct (fields_read f l d1 o1 (adv k1 b)) as [[d2 k2]|] eqn:Q; [|discriminate]. injection E as <- _.
  rewrite (IH _ _ _ _ _ Q a') by (intros I; apply NI; now right).
  destruct vs as [|v [|]], (takes x); try discriminate; injection DD as <-; [reflexivity|]. rewrite assoc_set_eq.
  destruct (String.eqb_spec a' a) as [->|]; [exfalso; apply NI; now left|reflexivity].
Qed.
Section Classes.
Variables (hb : bool) (md : umode) (P : nat -> bool).
Variables (rec : nat -> bytes -> option (value * Z)) (rec' : nat -> option border -> list (string * value) -> option bytes).
Hypothesis RP : forall c b v k, rec c b = Some (v, k) -> 0 <= k.
Hypothesis RB : forall c b v k, P c = true -> rec c b = Some (v, k) -> k <= blen b -> no_nan v = true ->
  exists d, v = VObj c None d /\ rec' c None d = Some (firstn (Z.to_nat k) b).
Variables (c : nat) (m : mode) (D : list (string * value)).
Hypothesis PS : P c = true.
Hypothesis ND : forallb (fun kv => no_nan (snd kv)) D = true.
Lemma no_nan_in : forall a v, assoc a D = Some v -> no_nan v = true.
Proof.
  clear -ND. induction D as [|[a' v'] D' IH]; intros a v E; [discriminate|]. cbn in *. apply andb_prop in ND as [N1 N2]. destruct (String.eqb a a'); [congruence|]. eapply IH; eauto.
Qed.
Lemma fields_back : forall l d off b d' k, NoDup (map fst l) -> (forall a, In a (map fst l) -> assoc a d = None) ->
  bits_fields md P (m_native m) l off = true -> Forall (fun q => answering (snd q)) l ->
  fields_read (fun d => read hb md rec (PO c true d) m) l d off b = Some (d', k) -> k <= blen b ->
  (forall a v, assoc a d' = Some v -> assoc a D = Some v) ->
  exists cs, fields (chunks hb rec' (PO c false D) m) l D = Some cs /\ lay (m_native m) off cs = firstn (Z.to_nat k) b.
Proof.
  intros l. induction l as [|[a x] l IH]; intros d off b d' k NU FR BF AN E LE KN; cbn [fields_read] in E.
  - injection E as _ <-. exists []. cbn. auto.
  - cbn [bits_fields snd] in BF. destruct (bits md P (m_native m) x off) as [off1|] eqn:B; [|discriminate]. cbn [map fst] in *.
    inversion NU as [|? ? NI NU']; subst. inversion AN as [|? ? AX AN']; subst. cbn [snd] in AX.
    destruct (read hb md rec (PO c true d) m x off b) as [[[vs o1] k1]|] eqn:R; [|discriminate]. cbn in E. rewrite (bits_takes _ _ _ _ _ _ B) in E.
    destruct vs as [|v [|]]; try discriminate. destruct (fields_read _ l _ o1 (adv k1 b)) as [[d2 k2]|] eqn:Q; [|discriminate]. injection E as <- <-.
    assert (K1 : 0 <= k1) by (eapply read_pos; [exact RP|exact R]).
    assert (K2 : 0 <= k2) by exact (fields_pos _ _ _ _ _ _ _ (fun d0 x0 o0 b0 vs o' k0 (R0 : read hb md rec (PO c true d0) m x0 o0 b0 = _) => read_pos hb md rec RP _ _ _ _ _ _ _ _ R0) Q).
    destruct (room_split k1 k2 b K1 K2 LE) as [L1 L2].
    assert (AV : assoc a D = Some v) by (apply KN; rewrite (fields_keep _ _ _ _ _ _ _ Q a NI), assoc_set_eq, String.eqb_refl; reflexivity).
    assert (KD : forall a' v', assoc a' d = Some v' -> assoc a' D = Some v').
    { intros a' v' A. apply KN. assert (N : ~ In a' (a :: map fst l)) by (intros I; rewrite (FR a' I) in A; discriminate).
      rewrite (fields_keep _ _ _ _ _ _ _ Q a') by (intros I; apply N; now right). rewrite assoc_set_eq. destruct (String.eqb_spec a' a) as [->|]; [exfalso; apply N; now left|exact A]. }
    destruct (all_back hb md rec rec' P RP RB c d D PS KD x m off b [v] o1 k1 off1 B AX R L1) as (-> & _ & _ & CH); [cbn; now rewrite (no_nan_in a v AV)|].
    destruct (CH v eq_refl) as (cs & CE & LY).
    destruct (IH (assoc_set a v d) off1 (adv k1 b) d2 k2 NU') as (cs' & CE' & LY'); auto.
    { intros a' I. rewrite assoc_set_eq. destruct (String.eqb_spec a' a) as [->|]; [contradiction|apply FR; now right]. }
    exists (cs ++ cs'). cbn [fields]. rewrite (bits_takes _ _ _ _ _ _ B), AV, CE, CE'. split; [reflexivity|]. rewrite LY, LY'. apply firstn_more; assumption.
Qed.
End Classes.
Theorem parse_back : forall hb md sl P, lossless_classes hb md P sl -> (forall c sc, nth_error sl c = Some sc -> NoDup (map fst (fields_of (sc_anns sc)))) ->
  forall n c b v k, P c = true -> parse hb md sl n c b = Some (v, k) -> k <= blen b -> no_nan v = true ->
  exists d, v = VObj c None d /\ wire hb sl n c None d = Some (firstn (Z.to_nat k) b).
Proof.
  intros hb md sl P LC NU. induction n as [|n IH]; intros c b v k PC E LE NN; [discriminate|]. cbn [parse wire] in *. destruct (nth_error sl c) as [sc|] eqn:NS; [|discriminate]. cbn in E.
  destruct (fields_read _ _ _ _ b) as [[d k1]|] eqn:Q; [|discriminate]. injection E as <- <-. exists d. split; [reflexivity|]. cbn [no_nan] in NN. destruct (LC c sc NS PC) as [BF AN].
  destruct (fields_back hb md P (parse hb md sl n) (wire hb sl n) (parse_pos hb md sl n) IH c (mode_of hb (sc_bo sc)) d PC NN _ [] 0%nat b d k1 (NU c sc NS)) as (cs & CE & LY); auto.
  rewrite CE. now rewrite LY.
Qed.
(** what loses nothing notices the end, but for counted strings and [unpack] *)
Lemma bits_tight : forall md P x al off, md <> UBuf -> here (bits md P al x off) = true -> tight md P true x = true.
Proof.
  intros md P. induction x using hx_ind'; intros al off ND B; cbn [bits tight] in *; try reflexivity; try discriminate.
  - destruct a as [cc|n|t| |]; cbn; try reflexivity; [destruct md; congruence|discriminate].
  - destruct (_ && here _) eqn:Q in B; [|discriminate]. apply andb_prop in Q as [_ Q]. eauto.
  - rewrite Forall_forall in H. apply forallb_forall. intros x I. match type of B with here (if ?g l 0%nat then _ else _) = _ => destruct (g l 0%nat) eqn:Q; [|discriminate] end.
    clear B. assert (G : exists o, here (bits md P true x o) = true); [|destruct G as [o G]; eauto]. revert Q. generalize 0%nat. clear H.
    induction l as [|y l IH]; [contradiction|]. intros o0 Q. apply andb_prop in Q as [_ Q]. destruct (bits md P true y o0) eqn:BY; [|discriminate].
    destruct I as [->|I]; [exists o0; now rewrite BY|eauto].
  - destruct (_ && here _) eqn:Q in B; [|discriminate]. apply andb_prop in Q as [_ Q]. eauto.
  - destruct (_ && _) eqn:Q in B; [|discriminate]. apply andb_prop in Q as [Q1 Q2]. rewrite forallb_forall in Q1. rewrite Forall_forall in *. apply andb_true_intro. split.
    + apply forallb_forall. intros q I. match goal with H : forall x, In x m -> _ |- _ => eapply (H q I); eauto end.
    + destruct d as [y|]; [|reflexivity]. match goal with H : forall x, Some y = Some x -> _ |- _ => eapply (H y eq_refl); eauto end.
  - destruct (P c); [reflexivity|discriminate].
Qed.
Lemma lossless_notices : forall hb md P sl, md <> UBuf -> lossless_classes hb md P sl -> notices md P sl.
Proof.
  intros hb md P sl ND LC c sc NS PC. destruct (LC c sc NS PC) as [BF _]. revert BF. generalize 0%nat. induction (fields_of (sc_anns sc)) as [|q l IH]; intros off BF; [reflexivity|].
  cbn [bits_fields forallb] in *. destruct (bits md P _ (snd q) off) as [o1|] eqn:B; [|discriminate]. rewrite (IH _ BF), Bool.andb_true_r. eapply bits_tight; [exact ND|]. now rewrite B.
Qed.
