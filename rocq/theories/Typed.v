(** Whatever is read has the type of its annotation (TypeSpec.v). *)
From Verif Require Import Base Floats Value StructMod Format Ser Exec Pure BaseFacts Wire Hints Surface Programs Accept AcceptProg
  WireSpec WireFacts Wires ReadSpec ReadFacts Reads Refills TypeSpec.

(** ** numbers *)
Lemma digits_range : forall b, 0 <= digits b < 256 ^ blen b.
Proof.
  unfold blen. induction b as [|x b IH]; [cbn; lia|]. cbn [digits List.length]. rewrite Nat2Z.inj_succ, Z.pow_succ_r by lia.
  pose proof (zb_range x). lia.
Qed.
Lemma uint_range : forall big b, 0 <= uint_of big b < 256 ^ blen b.
Proof.
  intros big b. unfold uint_of. destruct big; [|apply digits_range]. pose proof (digits_range (rev b)) as H. unfold blen in *. now rewrite rev_length in H.
Qed.
Lemma sint_range : forall big b, b <> [] -> - (256 ^ blen b / 2) <= sint_of big b < 256 ^ blen b / 2.
Proof.
  intros big b N. unfold sint_of. pose proof (uint_range big b) as H.
  assert (E : 256 ^ blen b = 2 * (128 * 256 ^ (blen b - 1))).
  { destruct b as [|x b]; [congruence|]. unfold blen. cbn [List.length]. rewrite Nat2Z.inj_succ.
    replace (Z.succ (Z.of_nat (List.length b)) - 1) with (Z.of_nat (List.length b)) by lia. rewrite Z.pow_succ_r by lia. lia. }
  set (q := 128 * 256 ^ (blen b - 1)) in *. rewrite E in *. replace (2 * q / 2) with q by (rewrite Z.mul_comm, Z.div_mul by lia; reflexivity).
  destruct (2 * uint_of big b <? 2 * q) eqn:L; lia.
Qed.
Lemma scalar_typed : forall m c b, basic_code c = true -> List.length b = wsize c -> basic_value c (scalar_of m c b).
Proof.
  intros m c b BC L. pose proof (uint_range (m_big m) b) as U. assert (N : b <> []) by (destruct b; [destruct c; discriminate L|discriminate]).
  pose proof (sint_range (m_big m) b N) as S. unfold blen in *. rewrite L in U, S.
  destruct c; try discriminate BC; cbn [wsize] in U, S; cbn [scalar_of basic_value least greatest]; try (eexists; split; [reflexivity|]);
    try (eexists; reflexivity); change (Z.of_nat 1) with 1 in *; change (Z.of_nat 2) with 2 in *; change (Z.of_nat 4) with 4 in *; change (Z.of_nat 8) with 8 in *;
    change (256 ^ 1) with 256 in *; change (256 ^ 2) with 65536 in *; change (256 ^ 4) with 4294967296 in *; change (256 ^ 8) with 18446744073709551616 in *; lia.
Qed.
Lemma at_typed : forall m w n off b f vs off' k, at_ m w n off b f = Some (vs, off', k) -> exists y, List.length y = n /\ vs = f y.
Proof.
  intros m w n off b f vs off' k E. unfold at_ in E. set (gap := if m_native m then _ else _) in E. destruct (_ <=? _)%nat eqn:L; [|discriminate]. injection E as <- _ _.
  exists (firstn n (skipn gap b)). split; [|reflexivity]. rewrite firstn_length, skipn_length. lia.
Qed.
Lemma number_typed : forall m c off b z off' k, size_code c = true -> number_at m c off b = Some (z, off', k) -> 0 <= z <= greatest c.
Proof.
  intros m c off b z off' k SC E. unfold number_at in E. destruct (at_ m (wsize c) (wsize c) off b _) as [[[vs o'] j]|] eqn:A; [|discriminate].
  destruct (at_typed _ _ _ _ _ _ _ _ _ A) as (y & LY & ->). injection E as <- _ _.
  pose proof (uint_range (m_big m) y) as U. unfold blen in U. rewrite LY in U.
  destruct c; try discriminate SC; cbn [wsize greatest] in *;
    change (Z.of_nat 1) with 1 in *; change (Z.of_nat 2) with 2 in *; change (Z.of_nat 4) with 4 in *; change (Z.of_nat 8) with 8 in *;
    change (256 ^ 1) with 256 in *; change (256 ^ 2) with 65536 in *; change (256 ^ 4) with 4294967296 in *; change (256 ^ 8) with 18446744073709551616 in *; lia.
Qed.

(** ** strings *)
Lemma until_absent : forall t b s, until t b = Some s -> ~ In t s.
Proof.
  intros t. induction b as [|x b IH]; intros s E; [discriminate|]. cbn in E. destruct (Byte.eqb x t) eqn:Q; [injection E as <-; intros []|].
  destruct (until t b) as [r|]; [|discriminate]. injection E as <-. intros [->|I]; [|exact (IH r eq_refl I)].
  assert (Byte.eqb t t = true) by (destruct t; reflexivity). congruence.
Qed.
Lemma cut_len : forall sh n b s, 0 <= n -> cut sh n b = Some s -> blen s <= n /\ (sh = false -> blen s = n).
Proof.
  intros sh n b s N E. unfold cut in E. destruct (sh || _) eqn:Q; [|discriminate]. injection E as <-. unfold blen in *. rewrite firstn_length.
  split; [lia|]. intros ->. rewrite Bool.orb_false_l in Q. lia.
Qed.
Lemma net_range : forall hb b n k, net_of hb b = Some (n, k) -> 0 <= n <= 32767.
Proof.
  intros hb [|x b] n k E; [discriminate|]. cbn [net_of] in E. pose proof (zb_range x). destruct (zb x <? 128) eqn:L; [injection E as <- _; lia|].
  destruct b as [|y b]; [discriminate|]. assert (n = uint_of hb [x; y] mod 128 + 128 * (uint_of hb [x; y] / 256)) by (cbv zeta in E; congruence). pose proof (uint_range hb [x; y]) as U. change (256 ^ blen [x; y]) with 65536 in U.
  pose proof (Z.mod_pos_bound (uint_of hb [x; y]) 128 ltac:(lia)). pose proof (Z.div_pos (uint_of hb [x; y]) 256 ltac:(lia) ltac:(lia)).
  pose proof (Z.div_lt_upper_bound (uint_of hb [x; y]) 256 256 ltac:(lia) ltac:(lia)). lia.
Qed.
Lemma string_typed : forall hb md m a bo s off b vs off' k, char_made bo a s -> string_of hb md m a off b = Some (vs, off', k) ->
  (exists y, vs = [VBytes y] /\ char_bytes a y) \/ vs = [] /\ char_none md a = true.
Proof.
  intros hb md m a bo s off b vs off' k M E. destruct a as [c|n|t| |]; cbn [string_of char_made char_bytes char_none] in *.
  - destruct M as [SC _]. destruct (number_at m c 0 b) as [[[n o'] j]|] eqn:NA; [|discriminate]. apply number_typed in NA; [|exact SC].
    destruct (cut _ n (adv j b)) as [y|] eqn:C; [|discriminate]. apply cut_len in C as [C _]; [|lia]. injection E as <- _ _.
    destruct (negb _ && (n =? 0)) eqn:Q; [right|left].
    + split; [reflexivity|]. destruct md; [discriminate Q|reflexivity|reflexivity].
    + exists y. split; [reflexivity|lia].
  - unfold counted in M. destruct (n =? 0) eqn:Z0; [injection E as <- _ _; right; auto|]. left.
    destruct (at_typed _ _ _ _ _ _ _ _ _ E) as (y & LY & ->). exists y. split; [reflexivity|]. destruct M as (t & _ & _ & CN & _). unfold blen. lia.
  - destruct t as [|x []]; try contradiction. destruct (until x b) as [y|] eqn:Q; [|discriminate]. injection E as <- _ _. left. exists y. split; [reflexivity|].
    exists x. split; [reflexivity|]. exact (until_absent _ _ _ Q).
  - injection E as <- _ _. left. eauto.
  - destruct (net_of hb b) as [[n j]|] eqn:NO; [|discriminate]. apply net_range in NO. destruct (cut _ n (adv j b)) as [y|] eqn:C; [|discriminate].
    apply cut_len in C as [C _]; [|lia]. injection E as <- _ _. left. exists y. split; [reflexivity|lia].
Qed.
Lemma strip_trimmed : forall t, trimmed t (strip t).
Proof.
  induction t as [|c t [[k IH] IL]]; [split; [exists 0%nat; reflexivity|]; intros s' c E; destruct s'; discriminate E|]. cbn [strip].
  destruct (strip t) as [|x r] eqn:S.
  - destruct (c =? 0) eqn:C; split.
    + exists (Datatypes.S k). cbn. rewrite IH. f_equal. lia.
    + intros s' c' E. destruct s'; discriminate E.
    + exists k. rewrite IH. reflexivity.
    + intros [|y s'] c' E; [injection E as <-; lia|]. injection E as _ E. destruct s'; discriminate E.
  - split; [exists k; rewrite IH; reflexivity|]. intros [|y s'] c' E; [discriminate|]. injection E as _ E. exact (IL s' c' E).
Qed.

(** ** hint expressions *)
Section Reading.
Variables (hb : bool) (md : umode) (sl : list sclass) (rec : nat -> bytes -> option (value * Z)).
Hypothesis REC : forall c b v k, rec c b = Some (v, k) -> instance md sl c v.
Variable o : pobj.
Definition rightly (x : hx) : Prop := forall bo s m off b vs off' k, made bo x s ->
  read hb md rec o m x off b = Some (vs, off', k) -> typed md sl o x vs.
Lemma items_typed : forall y f run, (forall off b vs off' k, f off b = Some (vs, off', k) -> typed md sl o y vs) ->
  forall n off b vs k, items_of f run n off b = Some (vs, k) -> each_typed md sl o y n vs.
Proof.
  intros y f run F. induction n as [|n IH]; intros off b vs k E; cbn [items_of] in E; [injection E as <- _; constructor|].
  destruct (f off b) as [[[ws off'] j]|] eqn:Q; [|discriminate]. destruct (items_of f run n _ _) as [[us j']|] eqn:R; [|discriminate].
  injection E as <- _. constructor; [eapply F; eauto|eapply IH; eauto].
Qed.
Lemma members_typed : forall l, Forall rightly l -> forall sers bo m off b vs k, all2 (made bo) l sers ->
  members_of (read hb md rec o m) l off b = Some (vs, k) -> all_typed md sl o l vs.
Proof.
  induction 1 as [|x l R F IH]; intros sers bo m off b vs k A E; cbn [members_of] in E; [injection E as <- _; constructor|].
  destruct sers as [|s sers]; [contradiction|]. destruct A as [A1 A2].
  destruct (read hb md rec o m x off b) as [[[ws off'] j]|] eqn:Q; [|discriminate]. destruct (members_of _ l _ _) as [[us j']|] eqn:G; [|discriminate].
  injection E as <- _. constructor; [eapply R; eauto|eapply IH; eauto].
Qed.
Lemma pick_typed : forall m ms d ds b r vs off' k mo,
  all2 (fun p q => fst p = fst q /\ made BO_DEFAULT (snd p) (snd q)) m ms ->
  match d, ds with None, None => True | Some y, Some t => made BO_DEFAULT y t | _, _ => False end ->
  Forall (fun p => rightly (snd p)) m -> (forall x, d = Some x -> rightly x) ->
  pick_of (fun y => read hb md rec o mo y 0 b) d r m = Some (vs, off', k) ->
  exists y, member_for r m d = Some y /\ typed md sl o y vs.
Proof.
  intros m ms d ds b r vs off' k mo A D CM CD E.
  revert ms A E. induction CM as [|[k' x] m CX CM IH]; intros [|[k2 s] ms] A E; try contradiction.
  - cbn in E. destruct d as [y|], ds as [t|]; try contradiction; [|discriminate]. exists y. split; [reflexivity|]. eapply CD; eauto.
  - destruct A as [[A1 A2] A3]. cbn [pick_of member_for] in *. destruct (key_eqb r k'); [|eauto]. exists x. split; [reflexivity|]. eapply CX; eauto.
Qed.
Lemma convert_all : forall a y vs ws, convert a y vs = Some ws -> Forall2 (converted a y) vs ws.
Proof.
  intros a y. assert (G : forall vs ws, omap (fun v => match a v with Ok x => Some x | Err _ => None end) vs = Some ws -> Forall2 (fun v w => a v = Ok w) vs ws).
  { induction vs as [|v vs IH]; intros ws E; cbn in E; [injection E as <-; constructor|]. destruct (a v) as [w|] eqn:Q; [|discriminate].
    destruct (omap _ vs) as [us|]; [|discriminate]. injection E as <-. constructor; auto. }
  intros vs ws E. destruct y; cbn [convert converted] in *; try (apply G; exact E). injection E as <-. induction vs; constructor; auto; reflexivity.
Qed.
Theorem all_rightly : forall x, rightly x.
Proof.
  induction x using hx_ind'; intros bo sr mo off b vs off' k M E; cbn [made read] in *; try contradiction.
  - destruct (at_typed _ _ _ _ _ _ _ _ _ E) as (y & LY & ->). constructor. apply scalar_typed; [apply M|exact LY].
  - destruct (n =? 0); [injection E as <- _ _; constructor|]. destruct (at_typed _ _ _ _ _ _ _ _ _ E) as (y & LY & ->). constructor.
  - unfold counted in M. destruct (n =? 0) eqn:Z0; [injection E as <- _ _; assert (n = 0) as -> by lia; constructor|].
    destruct M as (t & _ & _ & CN & _). destruct (at_typed _ _ _ _ _ _ _ _ _ E) as (y & LY & ->). 
    assert (B : blen (pascal_of y) < n /\ blen (pascal_of y) <= 255).
    { unfold blen. destruct y as [|x y]; cbn [pascal_of List.length] in *; [lia|]. pose proof (zb_range x). rewrite firstn_length. lia. }
    constructor; lia.
  - destruct (string_typed _ _ _ _ _ _ _ _ _ _ _ M E) as [(y & -> & H)|[-> H]]; now constructor.
  - destruct M as (i & -> & M). destruct (string_of hb md (machine hb) a 0 b) as [[[ws ?] ?]|] eqn:S; [|discriminate].
    destruct (string_typed _ _ _ _ _ _ _ _ _ _ _ M S) as [(y & -> & H)|[-> H]]; [|discriminate]. destruct (cod_dec cd y) as [t|] eqn:CD; [|discriminate].
    injection E as <- _ _. econstructor; [exact H|exact CD|apply strip_trimmed].
  - destruct M as (HO & i & MI & _). unfold head_ok in HO. apply andb_prop in HO as [HN HS].
    assert (F : forall off b vs off' k, read hb md rec o mo x off b = Some (vs, off', k) -> typed md sl o x vs) by (intros; eapply IHx; eauto).
    destruct (packed x).
    + destruct n as [z|d]; [|destruct (number_at mo d 0 b) as [[[z ?] ?]|] eqn:NA; [|discriminate]; apply number_typed in NA; [|exact HN]];
        (destruct (items_of _ true _ 0 _) as [[ws ?]|] eqn:IT; [|discriminate]); injection E as <- _ _; (eapply T_array; [|eapply items_typed; [exact F|exact IT]]);
        cbn [count_ok]; lia.
    + destruct (negb (ready o x)); [discriminate|].
      destruct n as [z|d]; [|destruct (number_at mo d 0 b) as [[[z ?] ?]|] eqn:NA; [|discriminate]; apply number_typed in NA; [|exact HN]];
        (destruct s as [d'|]; [match type of E with context [number_at mo d' ?x ?y] => destruct (number_at mo d' x y) as [[[? ?] ?]|]; [|discriminate] end|]);
        (destruct (items_of _ false _ 0 _) as [[ws ?]|] eqn:IT; [|discriminate]);
        try (match type of E with context [?a =? ?b] => destruct (a =? b); [|discriminate] end); injection E as <- _ _;
        (eapply T_array; [|eapply items_typed; [exact F|exact IT]]); cbn [count_ok]; lia.
  - destruct M as (? & ? & ? & sers & ? & -> & _ & A). destruct (members_of _ l 0 b) as [[ws ?]|] eqn:G; [|discriminate]. injection E as <- _ _.
    constructor. eapply members_typed; eauto.
  - destruct M as (i & -> & MI & LD). destruct (f o) as [r|] eqn:FO; [|discriminate]. destruct (key_eqb r (VBool true)) eqn:K1.
    + destruct (read hb md rec o mo x 0 b) as [[[ws ?] ?]|] eqn:RX; [|discriminate]. injection E as <- _ _. eapply T_cond_true; eauto.
    + destruct (key_eqb r (VBool false)) eqn:K2; [|discriminate]. injection E as <- _ _. eapply T_cond_false; eauto.
  - destruct M as (st & st' & -> & MI & _). destruct (read hb md rec o mo x off b) as [[[ws ?] ?]|] eqn:RX; [|discriminate].
    destruct (convert a x ws) as [us|] eqn:CV; [|discriminate]. injection E as <- _ _. econstructor; [eapply IHx; eauto|now apply convert_all].
  - destruct M as (id' & ms & ds & -> & A & D). destruct (f o) as [r|] eqn:FO; [|discriminate]. destruct (hashable r); [|discriminate].
    destruct (pick_of _ d r m) as [[[ws ?] ?]|] eqn:PK; [|discriminate]. injection E as <- _ _.
    edestruct pick_typed as (y & MF & TY); [exact A|exact D|eassumption|eassumption|exact PK|]. eapply T_back; eauto.
  - destruct M as (id' & r & ms & ds & -> & MR & A & D).
    destruct (read hb md rec o (machine hb) x 0 b) as [[[rs ?] ?]|] eqn:RX; [|discriminate]. destruct rs as [|v rs]; [discriminate|]. destruct (hashable v); [|discriminate].
    destruct (pick_of _ d v m) as [[[ws ?] ?]|] eqn:PK; [|discriminate]. injection E as <- _ _.
    edestruct pick_typed as (y & MF & TY); [exact A|exact D|eassumption|eassumption|exact PK|]. eapply T_ahead; [eapply IHx; eauto|exact MF|exact TY].
  - destruct (rec c b) as [[v j]|] eqn:R; [|discriminate]. injection E as <- _ _. constructor. eapply REC; eauto.
  - destruct (assoc "cls" (p_attrs o)); [discriminate|]. destruct (p_proxy o); [|discriminate]. destruct (rec (p_cls o) b) as [[v j]|] eqn:R; [|discriminate].
    injection E as <- _ _. constructor. eapply REC; eauto.
Qed.
End Reading.

(** ** classes *)
Section Classes.
Variables (hb : bool) (md : umode) (sl : list sclass).
(** all fields have been accepted *)
Definition all_made : Prop := forall c sc, nth_error sl c = Some sc -> exists bo sers, all2 (made bo) (map snd (fields_of (sc_anns sc))) sers.
Hypothesis AM : all_made.
Lemma fields_are : forall rec, (forall c b v k, rec c b = Some (v, k) -> instance md sl c v) -> forall c px m bo l sers,
  all2 (made bo) (map snd l) sers -> forall d off b d' k,
  fields_read (fun d => read hb md rec (PO c px d) m) l d off b = Some (d', k) -> fields_typed md sl c px l d d'.
Proof.
  intros rec R c px m bo. induction l as [|[a x] l IH]; intros sers A d off b d' k E; cbn [fields_read] in E; [injection E as <- _; constructor|].
  destruct sers as [|s sers]; [contradiction|]. destruct A as [A1 A2]. cbn [snd] in A1.
  destruct (read hb md rec (PO c px d) m x off b) as [[[vs off'] j]|] eqn:RX; [|discriminate]. cbn [obind] in E.
  pose proof (all_rightly hb md sl rec R (PO c px d) x _ _ _ _ _ _ _ _ A1 RX) as T.
  destruct vs as [|v []]; destruct (takes x) eqn:TK; try discriminate E;
    (match type of E with match ?q with _ => _ end = _ => destruct q as [[d2 k2]|] eqn:FR end; [|discriminate]); injection E as <- _.
  - apply F_none; eauto.
  - eapply F_value; eauto.
Qed.
Theorem parse_typed : forall n c b v k, parse hb md sl n c b = Some (v, k) -> instance md sl c v.
Proof.
  induction n as [|n IH]; intros c b v k E; [discriminate|]. cbn [parse] in E. destruct (nth_error sl c) as [sc|] eqn:NS; [|discriminate].
  destruct (fields_read _ _ [] 0 b) as [[d j]|] eqn:FR; [|discriminate]. injection E as <- _. destruct (AM c sc NS) as (bo & sers & A).
  econstructor; [exact NS|]. eapply fields_are; eauto.
Qed.
Theorem reparse_typed : forall n c ov d b d' k sc, nth_error sl c = Some sc -> reparse hb md sl n c ov d b = Some (d', k) ->
  fields_typed md sl c false (fields_of (sc_anns sc)) d d'.
Proof.
  intros [|n] c ov d b d' k sc NS E; [discriminate|]. cbn [reparse] in E. rewrite NS in E. destruct (AM c sc NS) as (bo & sers & A).
  eapply fields_are; [|exact A|exact E]. intros. eapply parse_typed; eauto.
Qed.
End Classes.
Lemma rel_made : forall sl l, classes_rel sl l -> all_made sl.
Proof.
  intros sl l [LEN R] c sc NS. destruct (nth_error l c) as [i|] eqn:NI.
  - destruct (R c sc i NS NI) as (DR & BO & _ & AT & fin & id & sers & s & SM & CS & A2). eauto.
  - apply nth_error_None in NI. assert (c < List.length sl)%nat by (apply nth_error_Some; congruence). lia.
Qed.

(** ** what the types say *)
Section Facts.
Variables (md : umode) (sl : list sclass).
Lemma member_in : forall (P : hx -> Prop) k m d y, Forall (fun p => P (snd p)) m -> (forall x, d = Some x -> P x) -> member_for k m d = Some y -> P y.
Proof.
  intros P k m d y F D. induction F as [|[k' x] m H F IH]; cbn [member_for]; [apply D|]. destruct (key_eqb k k'); [|exact IH]. intros E. injection E as <-. exact H.
Qed.
(** Annotations that are sure to have a value have exactly one. *)
Lemma sure_one : forall x, sure md x = true -> forall o vs, typed md sl o x vs -> List.length vs = 1%nat.
Proof.
  assert (U : forall m d, Forall (fun p : value * hx => sure md (snd p) = true -> forall o vs, typed md sl o (snd p) vs -> List.length vs = 1%nat) m ->
    (forall x, d = Some x -> sure md x = true -> forall o vs, typed md sl o x vs -> List.length vs = 1%nat) ->
    forallb (fun p => sure md (snd p)) m && match d with Some y => sure md y | None => true end = true ->
    forall k y o vs, member_for k m d = Some y -> typed md sl o y vs -> List.length vs = 1%nat).
  { intros m d F D SU k y o vs MF T. apply andb_prop in SU as [S1 S2]. rewrite forallb_forall in S1.
    refine (member_in (fun y => forall o vs, typed md sl o y vs -> List.length vs = 1%nat) k m d y _ _ MF o vs T).
    - rewrite Forall_forall in *. intros p I. exact (F p I (S1 p I)).
    - intros x ->. exact (D x eq_refl S2). }
  induction x using hx_ind'; intros SU o vs T; cbn [sure] in SU; try discriminate SU; inversion T; subst; try reflexivity; try discriminate SU.
  - match goal with H : char_none md a = true |- _ => rewrite H in SU end. discriminate SU.
  - apply andb_prop in SU as [S1 S2]. eauto.
  - apply andb_prop in SU as [S1 S2]. apply Nat.eqb_eq in S2. exact S2.
  - match goal with H : Forall2 _ ?us vs |- _ => assert (List.length us = List.length vs) as <- by (clear -H; induction H; cbn; congruence) end. eauto.
  - eapply U; eauto.
  - eapply U; eauto.
Qed.
Lemma each_sure : forall o y k vs, sure md y = true -> each_typed md sl o y k vs -> List.length vs = k /\ Forall (fun v => typed md sl o y [v]) vs.
Proof.
  intros o y k vs SU. revert vs. induction k as [|k IH]; intros vs E; inversion E; subst; [auto|].
  match goal with H : typed _ _ _ _ ?us, H' : each_typed _ _ _ _ _ ?ws |- _ => pose proof (sure_one y SU o us H) as L; destruct (IH ws H') as [L' F]; destruct us as [|v []]; try discriminate L end.
  split; [cbn; now rewrite L'|]. constructor; assumption.
Qed.
Lemma all_sure : forall o l vs, forallb (sure md) l = true -> all_typed md sl o l vs -> Forall2 (fun y v => typed md sl o y [v]) l vs.
Proof.
  intros o. induction l as [|y l IH]; intros vs SU E; inversion E; subst; [constructor|]. cbn in SU. apply andb_prop in SU as [S1 S2].
  match goal with H : typed _ _ _ _ ?us |- _ => pose proof (sure_one y S1 o us H) as L; destruct us as [|v []]; try discriminate L end.
  constructor; [assumption|]. apply IH; assumption.
Qed.
(** The attributes of an object, in order: those of the fields that have a value, each typed with the ones before it in view. *)
Lemma typed_attrs : forall c px l d d', lined l -> NoDup (map fst l) -> (forall a, In a (map fst l) -> ~ In a (map fst d)) ->
  fields_typed md sl c px l d d' ->
  map fst d' = map fst d ++ names_of l /\
  forall a x, In (a, x) l -> takes x = true -> exists d0 v d1, d' = d0 ++ (a, v) :: d1 /\ typed md sl (PO c px d0) x [v].
Proof.
  intros c px. induction l as [|[a x] l IH]; intros d d' LN ND FR F; inversion F; subst.
  - split; [cbn; now rewrite app_nil_r|intros a x []].
  - cbn [map fst] in *. inversion ND as [|? ? NI ND']; subst. assert (LN' : lined l) by (intros p I; apply LN; now right).
    match goal with H : fields_typed _ _ _ _ _ (assoc_set a ?w d) _ |- _ => rename H into G; rename w into v end.
    pose proof G as G0. rewrite set_fresh in G by (apply FR; now left).
    assert (FR' : forall a', In a' (map fst l) -> ~ In a' (map fst (d ++ [(a, v)]))).
    { intros a' I. rewrite map_app, in_app_iff. cbn. intros [Q|[Q|[]]]; [exact (FR a' (or_intror I) Q)|congruence]. }
    destruct (IH _ _ LN' ND' FR' G) as [MF EA].
    assert (P : padding x = false) by (destruct (padding x) eqn:P; [|reflexivity]; destruct x; try discriminate P; match goal with H : takes _ = true |- _ => discriminate H end).
    assert (NM : names_of ((a, x) :: l) = a :: names_of l) by (unfold names_of; cbn [filter snd]; now rewrite P). rewrite NM.
    split; [rewrite MF, map_app; cbn; now rewrite <- app_assoc|]. intros a' x' [Q|I] TK; [|exact (EA a' x' I TK)]. injection Q as <- <-.
    assert (PRE : exists d1, d' = (d ++ [(a, v)]) ++ d1).
    { clear -G LN' ND' FR'. revert LN' ND' FR' G. generalize (d ++ [(a, v)]) as e. induction l as [|[b y] l IH]; intros e LN ND FR G; inversion G; subst.
      - exists []. now rewrite app_nil_r.
      - cbn [map fst] in *. inversion ND as [|? ? NI ND']; subst. assert (LN' : lined l) by (intros p I; apply LN; now right).
        match goal with H : fields_typed _ _ _ _ _ (assoc_set b ?w e) _ |- _ => rename H into K; rename w into u end.
        rewrite set_fresh in K by (apply FR; now left). destruct (IH (e ++ [(b, u)])) as [d1 ->]; auto.
        + intros a' I. rewrite map_app, in_app_iff. cbn. intros [Q|[Q|[]]]; [exact (FR a' (or_intror I) Q)|congruence].
        + exists ((b, u) :: d1). now rewrite <- app_assoc.
      - cbn [map fst] in *. inversion ND as [|? ? NI ND']; subst. assert (LN' : lined l) by (intros p I; apply LN; now right).
        apply IH; auto. intros a' I. apply FR. now right. }
    destruct PRE as [d1 ->]. exists d, v, d1. rewrite <- app_assoc. split; [reflexivity|assumption].
  - cbn [map fst] in *. inversion ND as [|? ? NI ND']; subst. assert (LN' : lined l) by (intros p I; apply LN; now right).
    assert (P : padding x = true) by (destruct (LN (a, x) (or_introl eq_refl)) as [Q|Q]; cbn in Q; congruence).
    assert (NM : names_of ((a, x) :: l) = names_of l) by (unfold names_of; cbn [filter snd]; now rewrite P). rewrite NM.
    match goal with H : fields_typed _ _ _ _ l _ _ |- _ => destruct (IH _ _ LN' ND' (fun a' I => FR a' (or_intror I)) H) as [MF EA] end.
    split; [exact MF|]. intros a' x' [Q|I] TK; [injection Q as <- <-; congruence|eauto].
Qed.
Lemma assoc_other : forall a b (v : value) d, a <> b -> assoc a (assoc_set b v d) = assoc a d.
Proof.
  intros a b v d N. induction d as [|[k u] d IH]; cbn; [now rewrite (proj2 (String.eqb_neq a b) N)|].
  destruct (String.eqb_spec b k) as [->|]; cbn; [now rewrite (proj2 (String.eqb_neq a k) N)|]. now rewrite IH.
Qed.
Lemma assoc_same : forall a (v : value) d, assoc a (assoc_set a v d) = Some v.
Proof.
  intros a v d. induction d as [|[k u] d IH]; cbn; [now rewrite String.eqb_refl|].
  destruct (String.eqb_spec a k) as [->|N]; cbn; [now rewrite String.eqb_refl|]. now rewrite (proj2 (String.eqb_neq a k) N), IH.
Qed.
(** An object that had attributes before: the fields have their types, the rest is as it was. *)
Lemma typed_over : forall c px l d d', NoDup (map fst l) -> fields_typed md sl c px l d d' ->
  (forall a, ~ In a (map fst l) -> assoc a d' = assoc a d) /\
  forall a x, In (a, x) l -> takes x = true -> exists d0 v, assoc a d' = Some v /\ typed md sl (PO c px d0) x [v].
Proof.
  intros c px. induction l as [|[a x] l IH]; intros d d' ND F; inversion F; subst; [split; [auto|intros ? ? []]| |];
    cbn [map fst] in *; inversion ND as [|? ? NI ND']; subst;
    (match goal with H : fields_typed _ _ _ _ l _ _ |- _ => destruct (IH _ _ ND' H) as [KE TY] end).
  - split.
    + intros b N. rewrite KE by (intros I; apply N; now right). apply assoc_other. intros ->. apply N. now left.
    + intros b y [Q|I] TK; [|eauto]. injection Q as <- <-. rewrite KE by exact NI. rewrite assoc_same. eauto.
  - split; [intros b N; apply KE; intros I; apply N; now right|]. intros b y [Q|I] TK; [injection Q as <- <-; congruence|eauto].
Qed.
End Facts.
