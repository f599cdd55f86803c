(** Reading looks only at the bytes it uses. *)
From Verif Require Import Base Floats Value StructMod Format Ser Exec Pure BaseFacts SerFacts DecFacts Wire Hints HintFacts Surface SerShape Programs Accept AcceptProg
  WireSpec ReadSpec ReadFacts LocalSpec.
Open Scope string_scope. Open Scope list_scope. Open Scope Z_scope.

Lemma skip_app : forall k b (rest : bytes), 0 <= k <= blen b -> adv k (b ++ rest) = adv k b ++ rest.
Proof. exact adv_app. Qed.
Lemma skip_len : forall k b, 0 <= k <= blen b -> blen (adv k b) = blen b - k.
Proof. intros k b H. unfold adv, blen in *. rewrite skipn_length. lia. Qed.
Lemma take_app : forall n b (r r' : bytes), (n <= List.length b)%nat -> firstn n (b ++ r) = firstn n (b ++ r').
Proof. intros n b r r' H. rewrite !firstn_app. replace (n - List.length b)%nat with 0%nat by lia. reflexivity. Qed.

(** ** a field *)
Lemma at_pos : forall m w n off b f vs off' k, at_ m w n off b f = Some (vs, off', k) -> 0 <= k <= blen b.
Proof. intros m w n off b f vs off' k E. unfold at_ in E. destruct (_ <=? _)%nat eqn:L; [|discriminate]. injection E as _ _ <-. unfold blen. lia. Qed.
Lemma at_local : forall m w n off p r r' f vs off' k, at_ m w n off (p ++ r) f = Some (vs, off', k) -> k <= blen p ->
  at_ m w n off (p ++ r') f = Some (vs, off', k).
Proof.
  intros m w n off p r r' f vs off' k E LE. unfold at_ in *. cbv zeta in *. match type of E with context [(?g + n <=? _)%nat] => set (gp := g) in * end.
  destruct (_ <=? _)%nat eqn:L; [|discriminate]. injection E as <- <- <-. unfold blen in LE.
  assert (Q : (gp + n <=? List.length (p ++ r'))%nat = true) by (rewrite app_length; lia). rewrite Q.
  rewrite !skipn_app. replace (gp - List.length p)%nat with 0%nat by lia. cbn [skipn]. rewrite (take_app n (skipn gp p) r' r) by (rewrite skipn_length; lia). reflexivity.
Qed.
Lemma number_local : forall m c off p r r' z off' k, number_at m c off (p ++ r) = Some (z, off', k) -> k <= blen p ->
  number_at m c off (p ++ r') = Some (z, off', k).
Proof.
  intros m c off p r r' z off' k E LE. unfold number_at in *.
  destruct (at_ m (wsize c) (wsize c) off (p ++ r) _) as [[[vs o'] k0]|] eqn:A; [|discriminate].
  destruct vs as [|[] [|]]; try discriminate. injection E as -> -> ->. now rewrite (at_local _ _ _ _ _ _ r' _ _ _ _ A LE).
Qed.
Lemma number_room : forall m c off b z off' k, number_at m c off b = Some (z, off', k) -> 0 <= z /\ 0 <= k <= blen b.
Proof.
  intros m c off b z off' k E. split; [apply (number_pos _ _ _ _ _ _ _ E)|]. unfold number_at in E.
  destruct (at_ m (wsize c) (wsize c) off b _) as [[[vs o'] k0]|] eqn:A; [|discriminate]. apply at_pos in A.
  destruct vs as [|[] [|]]; try discriminate. now injection E as _ _ <-.
Qed.
Lemma net_room : forall hb b n k, net_of hb b = Some (n, k) -> 0 <= n /\ 0 <= k <= blen b.
Proof.
  intros hb b n k E. unfold net_of in E. destruct b as [|x b]; [discriminate|]. assert (Z0 : forall y, 0 <= zb y < 256) by apply zb_range.
  pose proof (Z0 x) as ZX. destruct (zb x <? 128).
  - injection E as <- <-. unfold blen. cbn [List.length]. lia.
  - destruct b as [|y b]; [discriminate|]. pose proof (Z0 y) as ZY. cbv zeta in E.
    assert (U : 0 <= uint_of hb [x; y]). { unfold uint_of. destruct hb; cbn [rev app digits]; lia. }
    set (u := uint_of hb [x; y]) in *. assert (N : n = u mod 128 + 128 * (u / 256)) by congruence. assert (K : k = 2) by congruence.
    subst n k. unfold blen. cbn [List.length]. pose proof (Z.mod_pos_bound u 128 ltac:(lia)). pose proof (Z.div_pos u 256 U ltac:(lia)). lia.
Qed.
Lemma net_local : forall hb p r r' n k, net_of hb (p ++ r) = Some (n, k) -> k <= blen p -> net_of hb (p ++ r') = Some (n, k).
Proof.
  intros hb p r r' n k E LE. destruct p as [|x [|y p]]; cbn [app] in *.
  - destruct r as [|x r]; [discriminate|]. exfalso. unfold blen in LE. cbn in LE. unfold net_of in E. destruct (zb x <? 128); [injection E as _ <-; lia|].
    destruct r; [discriminate|]. injection E as _ <-. lia.
  - unfold net_of in *. destruct (zb x <? 128); [exact E|]. destruct r; [discriminate|]. injection E as _ <-. unfold blen in LE. cbn in LE. lia.
  - exact E.
Qed.
Lemma until_local : forall t p r r' s, until t (p ++ r) = Some s -> blen s + 1 <= blen p -> until t (p ++ r') = Some s.
Proof.
  intros t p. induction p as [|x p IH]; intros r r' s E LE; [pose proof (blen_nonneg s); unfold blen in *; cbn in LE; lia|]. cbn [app until] in *.
  destruct (Byte.eqb x t); [exact E|]. destruct (until t (p ++ r)) as [s'|] eqn:U; [|discriminate]. injection E as <-.
  rewrite (IH r r' s' U); [reflexivity|]. unfold blen in *. cbn [List.length] in LE. lia.
Qed.
Lemma until_room : forall t b s, until t b = Some s -> blen s + 1 <= blen b.
Proof.
  intros t. induction b as [|x b IH]; intros s E; [discriminate|]. cbn [until] in E. destruct (Byte.eqb x t).
  - injection E as <-. unfold blen. cbn [List.length]. lia.
  - destruct (until t b) as [s'|]; [|discriminate]. injection E as <-. specialize (IH s' eq_refl). unfold blen in *. cbn [List.length]. lia.
Qed.
Lemma cut_local : forall sh n p r r' s, cut sh n (p ++ r) = Some s -> 0 <= n <= blen p -> cut sh n (p ++ r') = Some s.
Proof.
  intros sh n p r r' s E LE. unfold cut in *. destruct (sh || (n <=? blen (p ++ r))) eqn:Q; [|discriminate]. injection E as <-.
  assert (Q' : sh || (n <=? blen (p ++ r')) = true) by (rewrite blen_app; pose proof (blen_nonneg r'); destruct sh; cbn; lia). rewrite Q'.
  f_equal. apply take_app. unfold blen in LE. lia.
Qed.
Lemma string_pos : forall hb md m a off b vs off' k, string_of hb md m a off b = Some (vs, off', k) -> 0 <= k.
Proof.
  intros hb md m a off b vs off' k E. destruct a as [c|n|t| |]; cbn [string_of] in E.
  - destruct (number_at m c 0 b) as [[[z o] j]|] eqn:N; [|discriminate]. destruct (number_room _ _ _ _ _ _ _ N). destruct (cut _ z _); [|discriminate].
    cbn [block] in E. injection E as _ _ <-. lia.
  - destruct (n =? 0); [injection E as _ _ <-; lia|]. now apply at_pos in E.
  - destruct t as [|t []]; try discriminate. destruct (until t b) as [s|]; [|discriminate]. cbn [block] in E. injection E as _ _ <-. pose proof (blen_nonneg s). lia.
  - cbn in E. injection E as _ _ <-. apply blen_nonneg.
  - destruct (net_of hb b) as [[z j]|] eqn:N; [|discriminate]. destruct (net_room _ _ _ _ N). destruct (cut _ z _); [|discriminate]. cbn [block] in E. injection E as _ _ <-. lia.
Qed.
Lemma string_local : forall hb md m a off p r r' vs off' k, string_of hb md m a off (p ++ r) = Some (vs, off', k) -> k <= blen p ->
  match a with KInf => false | _ => true end = true -> string_of hb md m a off (p ++ r') = Some (vs, off', k).
Proof.
  intros hb md m a off p r r' vs off' k E LE C. destruct a as [c|n|t| |]; cbn [string_of] in *; [| | |discriminate C|].
  - destruct (number_at m c 0 (p ++ r)) as [[[z o] j]|] eqn:N; [|discriminate]. destruct (number_room _ _ _ _ _ _ _ N) as [Z0 [J0 _]].
    destruct (cut _ z (adv j (p ++ r))) as [s|] eqn:CT; [|discriminate]. cbn [block] in E. injection E as <- <- <-.
    rewrite (number_local _ _ _ _ _ r' _ _ _ N) by lia. rewrite skip_app in CT by lia. rewrite skip_app by lia.
    rewrite (cut_local _ _ _ _ r' _ CT) by (rewrite skip_len; lia). reflexivity.
  - destruct (n =? 0); [exact E|]. eapply at_local; eauto.
  - destruct t as [|t []]; try discriminate. destruct (until t (p ++ r)) as [s|] eqn:U; [|discriminate]. cbn [block] in E. injection E as <- <- <-.
    now rewrite (until_local t p r r' s U).
  - destruct (net_of hb (p ++ r)) as [[z j]|] eqn:N; [|discriminate]. destruct (net_room _ _ _ _ N) as [Z0 [J0 _]].
    destruct (cut _ z (adv j (p ++ r))) as [s|] eqn:CT; [|discriminate]. cbn [block] in E. injection E as <- <- <-.
    rewrite (net_local _ _ _ r' _ _ N) by lia. rewrite skip_app in CT by lia. rewrite skip_app by lia.
    rewrite (cut_local _ _ _ _ r' _ CT) by (rewrite skip_len; lia). reflexivity.
Qed.
Lemma string_tight : forall hb md m a off b vs off' k, string_of hb md m a off b = Some (vs, off', k) -> tight_string md a = true -> k <= blen b.
Proof.
  intros hb md m a off b vs off' k E C. destruct a as [c|n|t| |]; cbn [string_of] in *.
  - destruct (number_at m c 0 b) as [[[z o] j]|] eqn:N; [|discriminate]. destruct (number_room _ _ _ _ _ _ _ N) as [Z0 J0].
    unfold cut in E. destruct md; try discriminate C; cbn [orb] in E; (destruct (z <=? blen (adv j b)) eqn:Q; [|discriminate]); cbn [block] in E; injection E as _ _ <-;
      rewrite skip_len in Q by lia; lia.
  - destruct (n =? 0); [injection E as _ _ <-; apply blen_nonneg|]. apply at_pos in E. lia.
  - destruct t as [|t []]; try discriminate. destruct (until t b) as [s|] eqn:U; [|discriminate]. cbn [block] in E. injection E as _ _ <-. eapply until_room; eauto.
  - cbn in E. injection E as _ _ <-. lia.
  - destruct (net_of hb b) as [[z j]|] eqn:N; [|discriminate]. destruct (net_room _ _ _ _ N) as [Z0 J0].
    unfold cut in E. destruct md; try discriminate C; cbn [orb] in E. destruct (z <=? blen (adv j b)) eqn:Q; [|discriminate]. cbn [block] in E; injection E as _ _ <-.
    rewrite skip_len in Q by lia; lia.
Qed.

(** ** hint expressions *)
Section Main.
Variables (hb : bool) (md : umode) (rec : nat -> bytes -> option (value * Z)).
Hypothesis RP : forall c b v k, rec c b = Some (v, k) -> 0 <= k.
Lemma items_pos : forall f run n off b vs k, (forall off b vs off' k, f off b = Some (vs, off', k) -> 0 <= k) ->
  items_of f run n off b = Some (vs, k) -> 0 <= k.
Proof.
  intros f run n. induction n as [|n IH]; intros off b vs k F E; cbn [items_of] in E; [injection E as _ <-; lia|].
  destruct (f off b) as [[[v1 o1] k1]|] eqn:E1; [|discriminate]. cbn in E. destruct (items_of f run n _ _) as [[v2 k2]|] eqn:E2; [|discriminate].
  injection E as _ <-. apply F in E1. apply IH in E2; [lia|exact F].
Qed.
Lemma members_pos : forall f l off b vs k, (forall x off b vs off' k, In x l -> f x off b = Some (vs, off', k) -> 0 <= k) ->
  members_of f l off b = Some (vs, k) -> 0 <= k.
Proof.
  intros f l. induction l as [|x l IH]; intros off b vs k F E; cbn [members_of] in E; [injection E as _ <-; lia|].
  destruct (f x off b) as [[[v1 o1] k1]|] eqn:E1; [|discriminate]. cbn in E. destruct (members_of f l _ _) as [[v2 k2]|] eqn:E2; [|discriminate].
  injection E as _ <-. apply F in E1; [|now left]. apply IH in E2; [lia|]. intros. eapply F; [right|]; eauto.
Qed.
Lemma block_body : forall r vs off k, block (body r) = Some (vs, off, k) -> exists off', r = Some (vs, off', k).
Proof. intros [[[v o] k']|] vs off k E; cbn in E; [|discriminate]. injection E as <- _ <-. eauto. Qed.
Lemma block_some : forall r vs off k, block r = Some (vs, off, k) -> r = Some (vs, k) /\ off = 0%nat.
Proof. intros [[v k']|] vs off k E; cbn in E; [|discriminate]. injection E as <- <- <-. auto. Qed.
Lemma pick_case : forall (f : hx -> option place) d k m r, pick_of f d k m = Some r ->
  (exists p, In p m /\ f (snd p) = Some r /\ forall g, pick_of g d k m = g (snd p)) \/ (exists y, d = Some y /\ f y = Some r /\ forall g, pick_of g d k m = g y).
Proof.
  intros f d k m r. induction m as [|[k' y] m IH]; intros E; cbn [pick_of] in *.
  - destruct d as [y|]; [|discriminate]. right. eauto.
  - destruct (key_eqb k k'); [left; exists (k', y); cbn; auto|]. destruct (IH E) as [(p & I & F & G)|(y' & I & F & G)]; [left; exists p; cbn; auto|right; eauto].
Qed.
Lemma read_pos : forall x o m off b vs off' k, read hb md rec o m x off b = Some (vs, off', k) -> 0 <= k.
Proof using RP.
  induction x using hx_ind'; intros o m' off b vs off' k' E; cbn [read] in E.
  - apply at_pos in E. lia.
  - destruct (n =? 0); [injection E as _ _ <-; lia|]. apply at_pos in E. lia.
  - destruct (n =? 0); [injection E as _ _ <-; lia|]. apply at_pos in E. lia.
  - eapply string_pos; eauto.
  - destruct (string_of hb md (machine hb) a 0 b) as [[[vs1 o1] k1]|] eqn:S; [|discriminate]. apply string_pos in S. cbn in E.
    destruct vs1 as [|[] ?]; try discriminate. destruct (cod_dec _ _); [|discriminate]. cbn in E. now injection E as _ _ <-.
  - destruct (packed x).
    + destruct (match n with inl z => _ | inr c => _ end) as [[cc k0]|] eqn:C; [|discriminate]. destruct (items_of _ _ _ _ _) as [[l k1]|] eqn:I; [|discriminate].
      cbn in E. injection E as _ _ <-. apply items_pos in I; [|eauto]. destruct n as [z|c]; [injection C as _ <-; lia|].
      destruct (number_at m' c 0 b) as [[[z o1] k2]|] eqn:N; [|discriminate]. apply number_room in N. injection C as _ <-. lia.
    + destruct (ready o x); [|discriminate]. cbn [negb] in E.
      destruct (match n with inl z => _ | inr c => _ end) as [[[cc o0] k0]|] eqn:C; [|discriminate].
      destruct (match s with None => _ | Some c => _ end) as [[sz k1]|] eqn:D; [|discriminate].
      destruct (items_of _ _ _ _ _) as [[l k2]|] eqn:I; [|discriminate].
      destruct (match sz with Some z => _ | None => _ end); [|discriminate]. cbn in E. injection E as _ _ <-. apply items_pos in I; [|eauto].
      assert (0 <= k0) by (destruct n as [z|c]; [injection C as _ _ <-; lia|]; apply number_room in C; lia).
      assert (0 <= k1). { destruct s as [c|]; [|injection D as _ <-; lia]. destruct (number_at m' c o0 (adv k0 b)) as [[[z o1] k3]|] eqn:N; [|discriminate]. apply number_room in N. injection D as _ <-. lia. }
      lia.
  - destruct (members_of _ _ _ _) as [[l' k1]|] eqn:M; [|discriminate]. cbn in E. injection E as _ _ <-. eapply members_pos; [|exact M].
    intros x off0 b0 vs0 o0 k0 I R. rewrite Forall_forall in H. eapply H; eauto.
  - destruct (f o) as [r|]; [|discriminate]. destruct (key_eqb r (VBool true)); [apply block_body in E as [? E]; eauto|].
    destruct (key_eqb r (VBool false)); [|discriminate]. cbn in E. injection E as _ _ <-. lia.
  - destruct (read hb md rec o m' x off b) as [[[ws o1] k1]|] eqn:R; [|discriminate]. cbn in E. destruct (convert a x ws); [|discriminate]. cbn in E. injection E as _ _ <-. eauto.
  - destruct (f o) as [r|]; [|discriminate]. destruct (hashable r); [|discriminate]. apply block_body in E as [o1 E].
    apply pick_case in E as [(p & I & F & _)|(y & -> & F & _)]; [rewrite Forall_forall in *; match goal with H : forall x, In x m -> _ |- _ => eapply H; eauto end|eauto].
  - destruct (read hb md rec o (machine hb) x 0 b) as [[[[|r ?] ?] ?]|]; try discriminate. cbn in E. destruct (hashable r); [|discriminate]. apply block_body in E as [o1 E].
    apply pick_case in E as [(p & I & F & _)|(y & -> & F & _)]; [rewrite Forall_forall in *; match goal with H : forall x, In x m -> _ |- _ => eapply H; eauto end|eauto].
  - destruct (rec c b) as [[v k1]|] eqn:R; [|discriminate]. cbn in E. injection E as _ _ <-. eauto.
  - destruct (assoc "cls" (p_attrs o)); [discriminate|]. destruct (p_proxy o); [|discriminate]. destruct (rec (p_cls o) b) as [[v k1]|] eqn:R; [|discriminate]. cbn in E. injection E as _ _ <-. eauto.
  - discriminate.
  - discriminate.
Qed.
(** the end of the bytes *)
Lemma items_tight : forall f run n off b vs k, (forall off b vs off' k, f off b = Some (vs, off', k) -> 0 <= k <= blen b) ->
  items_of f run n off b = Some (vs, k) -> k <= blen b.
Proof.
  intros f run n. induction n as [|n IH]; intros off b vs k F E; cbn [items_of] in E; [injection E as _ <-; apply blen_nonneg|].
  destruct (f off b) as [[[v1 o1] k1]|] eqn:E1; [|discriminate]. cbn in E. destruct (items_of f run n _ _) as [[v2 k2]|] eqn:E2; [|discriminate].
  injection E as _ <-. apply F in E1. apply IH in E2; [|exact F]. rewrite skip_len in E2 by lia. lia.
Qed.
Lemma members_tight : forall f l off b vs k, (forall x off b vs off' k, In x l -> f x off b = Some (vs, off', k) -> 0 <= k <= blen b) ->
  members_of f l off b = Some (vs, k) -> k <= blen b.
Proof.
  intros f l. induction l as [|x l IH]; intros off b vs k F E; cbn [members_of] in E; [injection E as _ <-; apply blen_nonneg|].
  destruct (f x off b) as [[[v1 o1] k1]|] eqn:E1; [|discriminate]. cbn in E. destruct (members_of f l _ _) as [[v2 k2]|] eqn:E2; [|discriminate].
  injection E as _ <-. apply F in E1; [|now left]. apply IH in E2; [rewrite skip_len in E2 by lia; lia|]. intros. eapply F; [right|]; eauto.
Qed.
Lemma read_tight : forall P self o, (forall c b v k, P c = true -> rec c b = Some (v, k) -> k <= blen b) ->
  (forall b v k, self = true -> rec (p_cls o) b = Some (v, k) -> k <= blen b) ->
  forall x m off b vs off' k, tight md P self x = true -> read hb md rec o m x off b = Some (vs, off', k) -> k <= blen b.
Proof using RP.
  intros P self o RT RS. induction x using hx_ind'; intros m' off b vs off' k' T E; cbn [tight] in T; cbn [read] in E.
  - apply at_pos in E. lia.
  - destruct (n =? 0); [injection E as _ _ <-; apply blen_nonneg|]. apply at_pos in E. lia.
  - destruct (n =? 0); [injection E as _ _ <-; apply blen_nonneg|]. apply at_pos in E. lia.
  - eapply string_tight; eauto.
  - destruct (string_of hb md (machine hb) a 0 b) as [[[vs1 o1] k1]|] eqn:S; [|discriminate]. apply string_tight in S; [|exact T]. cbn in E.
    destruct vs1 as [|[] ?]; try discriminate. destruct (cod_dec _ _); [|discriminate]. cbn in E. now injection E as _ _ <-.
  - assert (F : forall off b vs off' k, read hb md rec o m' x off b = Some (vs, off', k) -> 0 <= k <= blen b)
      by (intros off0 b0 vs0 o0 k0 R; split; [eapply read_pos; eauto|eauto]).
    destruct (packed x).
    + destruct (match n with inl z => _ | inr c => _ end) as [[cc k0]|] eqn:C; [|discriminate]. destruct (items_of _ _ _ _ _) as [[l k1]|] eqn:I; [|discriminate].
      cbn in E. injection E as _ _ <-. apply items_tight in I; [|exact F].
      assert (0 <= k0 <= blen b). { destruct n as [z|c]; [injection C as _ <-; pose proof (blen_nonneg b); lia|].
        destruct (number_at m' c 0 b) as [[[z o1] k2]|] eqn:N; [|discriminate]. apply number_room in N. injection C as _ <-. lia. }
      rewrite skip_len in I by lia. lia.
    + destruct (ready o x); [|discriminate]. cbn [negb] in E.
      destruct (match n with inl z => _ | inr c => _ end) as [[[cc o0] k0]|] eqn:C; [|discriminate].
      destruct (match s with None => _ | Some c => _ end) as [[sz k1]|] eqn:D; [|discriminate].
      destruct (items_of _ _ _ _ _) as [[l k2]|] eqn:I; [|discriminate].
      destruct (match sz with Some z => _ | None => _ end); [|discriminate]. cbn in E. injection E as _ _ <-. apply items_tight in I; [|exact F].
      assert (0 <= k0 <= blen b) by (destruct n as [z|c]; [injection C as _ _ <-; pose proof (blen_nonneg b); lia|]; apply number_room in C; lia).
      assert (K1 : 0 <= k1 <= blen (adv k0 b)). { destruct s as [c|]; [|injection D as _ <-; pose proof (blen_nonneg (adv k0 b)); lia].
        destruct (number_at m' c o0 (adv k0 b)) as [[[z o1] k3]|] eqn:N; [|discriminate]. apply number_room in N. injection D as _ <-. lia. }
      rewrite skip_len in K1 by lia. rewrite skip_len in I by lia. lia.
  - destruct (members_of _ _ _ _) as [[l' k1]|] eqn:M; [|discriminate]. cbn in E. injection E as _ _ <-. eapply members_tight; [|exact M].
    intros x off0 b0 vs0 o0 k0 I R. split; [eapply read_pos; eauto|]. rewrite Forall_forall in H. rewrite forallb_forall in T. eapply H; eauto.
  - destruct (f o) as [r|]; [|discriminate]. destruct (key_eqb r (VBool true)); [apply block_body in E as [? E]; eauto|].
    destruct (key_eqb r (VBool false)); [|discriminate]. cbn in E. injection E as _ _ <-. apply blen_nonneg.
  - destruct (read hb md rec o m' x off b) as [[[ws o1] k1]|] eqn:R; [|discriminate]. cbn in E. destruct (convert a x ws); [|discriminate]. cbn in E. injection E as _ _ <-. eauto.
  - destruct (f o) as [r|]; [|discriminate]. destruct (hashable r); [|discriminate]. apply block_body in E as [o1 E]. apply andb_prop in T as [T1 T2]. rewrite forallb_forall in T1.
    apply pick_case in E as [(p & I & F & _)|(y & -> & F & _)]; [rewrite Forall_forall in *; match goal with H : forall x, In x m -> _ |- _ => eapply H; eauto end|eauto].
  - destruct (read hb md rec o (machine hb) x 0 b) as [[[[|r ?] ?] ?]|]; try discriminate. cbn in E. destruct (hashable r); [|discriminate]. apply block_body in E as [o1 E].
    apply andb_prop in T as [T1 T2]. rewrite forallb_forall in T1.
    apply pick_case in E as [(p & I & F & _)|(y & -> & F & _)]; [rewrite Forall_forall in *; match goal with H : forall x, In x m -> _ |- _ => eapply H; eauto end|eauto].
  - destruct (rec c b) as [[v k1]|] eqn:R; [|discriminate]. cbn in E. injection E as _ _ <-. eauto.
  - destruct (assoc "cls" (p_attrs o)); [discriminate|]. destruct (p_proxy o); [|discriminate]. destruct (rec (p_cls o) b) as [[v k1]|] eqn:R; [|discriminate]. cbn in E. injection E as _ _ <-. eauto.
  - discriminate.
  - discriminate.
Qed.

(** the bytes after what is used *)
Lemma items_local : forall f run n off p r r' vs k, (forall off b vs off' k, f off b = Some (vs, off', k) -> 0 <= k) ->
  (forall off p vs off' k, f off (p ++ r) = Some (vs, off', k) -> k <= blen p -> f off (p ++ r') = Some (vs, off', k)) ->
  items_of f run n off (p ++ r) = Some (vs, k) -> k <= blen p -> items_of f run n off (p ++ r') = Some (vs, k).
Proof.
  intros f run n. induction n as [|n IH]; intros off p r r' vs k F G E LE; cbn [items_of] in *; [exact E|].
  destruct (f off (p ++ r)) as [[[v1 o1] k1]|] eqn:E1; [|discriminate]. cbn in E. destruct (items_of f run n _ _) as [[v2 k2]|] eqn:E2; [|discriminate].
  injection E as <- <-. pose proof (F _ _ _ _ _ E1). pose proof (items_pos _ _ _ _ _ _ _ F E2). rewrite (G _ _ _ _ _ E1) by lia. cbn.
  rewrite skip_app in E2 by lia. rewrite skip_app by lia. rewrite (IH _ _ r r' v2 k2 F G E2); [reflexivity|]. rewrite skip_len; lia.
Qed.
Lemma members_local : forall f l off p r r' vs k, (forall x off b vs off' k, In x l -> f x off b = Some (vs, off', k) -> 0 <= k) ->
  (forall x off p vs off' k, In x l -> f x off (p ++ r) = Some (vs, off', k) -> k <= blen p -> f x off (p ++ r') = Some (vs, off', k)) ->
  members_of f l off (p ++ r) = Some (vs, k) -> k <= blen p -> members_of f l off (p ++ r') = Some (vs, k).
Proof.
  intros f l. induction l as [|x l IH]; intros off p r r' vs k F G E LE; cbn [members_of] in *; [exact E|].
  assert (F' : forall x off b vs off' k, In x l -> f x off b = Some (vs, off', k) -> 0 <= k) by (intros; eapply F; [right|]; eauto).
  assert (G' : forall x off p vs off' k, In x l -> f x off (p ++ r) = Some (vs, off', k) -> k <= blen p -> f x off (p ++ r') = Some (vs, off', k)) by (intros; eapply G; eauto; now right).
  destruct (f x off (p ++ r)) as [[[v1 o1] k1]|] eqn:E1; [|discriminate]. cbn in E. destruct (members_of f l _ _) as [[v2 k2]|] eqn:E2; [|discriminate].
  injection E as <- <-. pose proof (F _ _ _ _ _ _ (or_introl eq_refl) E1). pose proof (members_pos _ _ _ _ _ _ F' E2).
  rewrite (G _ _ _ _ _ _ (or_introl eq_refl) E1) by lia. cbn.
  rewrite skip_app in E2 by lia. rewrite skip_app by lia. rewrite (IH _ _ r r' v2 k2 F' G' E2); [reflexivity|]. rewrite skip_len; lia.
Qed.
Lemma read_local : forall P ahead o r r', (ahead = true -> r = []) ->
  (forall c p v k, P c = true -> rec c (p ++ r) = Some (v, k) -> k <= blen p -> rec c (p ++ r') = Some (v, k)) -> P (p_cls o) = true ->
  forall x m off p vs off' k, closed md P ahead x = true -> read hb md rec o m x off (p ++ r) = Some (vs, off', k) -> k <= blen p ->
  read hb md rec o m x off (p ++ r') = Some (vs, off', k).
Proof using RP.
  intros P ahead o r r' AH RL PS. induction x using hx_ind'; intros m' off p vs off' k' T E LE; cbn [closed] in T; cbn [read] in *.
  - eapply at_local; eauto.
  - destruct (n =? 0); [exact E|]. eapply at_local; eauto.
  - destruct (n =? 0); [exact E|]. eapply at_local; eauto.
  - eapply string_local; eauto.
  - destruct (string_of hb md (machine hb) a 0 (p ++ r)) as [[[vs1 o1] k1]|] eqn:S; [|discriminate]. cbn in E.
    destruct vs1 as [|[] ?]; try discriminate. destruct (cod_dec _ _) eqn:CD; [|discriminate]. cbn in E. injection E as <- <- <-.
    rewrite (string_local _ _ _ _ _ _ _ r' _ _ _ S LE) by (destruct a; auto). now rewrite CD.
  - assert (F : forall off b vs off' k, read hb md rec o m' x off b = Some (vs, off', k) -> 0 <= k) by (intros; eapply read_pos; eauto).
    destruct (packed x).
    + destruct (match n with inl z => Some (z, 0) | inr c => _ end) as [[cc k0]|] eqn:C; [|discriminate]. destruct (items_of _ _ _ _ _) as [[l k1]|] eqn:I; [|discriminate].
      cbn in E. injection E as <- <- <-. pose proof (items_pos _ _ _ _ _ _ _ F I).
      assert (N0 : 0 <= k0 /\ match n with inl z => Some (z, 0) | inr c => odo (z, _, k) <- number_at m' c 0 (p ++ r'); Some (z, k) end = Some (cc, k0)).
      { destruct n as [z|c]; [injection C as <- <-; split; [lia|reflexivity]|].
        destruct (number_at m' c 0 (p ++ r)) as [[[z o1] k2]|] eqn:N; [|discriminate]. pose proof (number_room _ _ _ _ _ _ _ N). injection C as <- <-.
        rewrite (number_local _ _ _ _ _ r' _ _ _ N) by lia. split; [lia|reflexivity]. }
      destruct N0 as [N0 ->]. rewrite skip_app in I by lia. rewrite skip_app by lia.
      rewrite (items_local _ _ _ _ _ r r' l k1 F) by (auto; rewrite ?skip_len; lia || (intros; eapply IHx; eauto)). reflexivity.
    + destruct (ready o x); [|discriminate]. cbn [negb] in *.
      destruct (match n with inl z => Some (z, 0%nat, 0) | inr c => _ end) as [[[cc o0] k0]|] eqn:C; [|discriminate].
      destruct (match s with None => Some (None, 0) | Some c => _ end) as [[sz k1]|] eqn:D; [|discriminate].
      destruct (items_of _ _ _ _ _) as [[l k2]|] eqn:I; [|discriminate].
      destruct (match sz with Some z => z =? k2 | None => true end) eqn:SZ; [|discriminate]. cbn in E. injection E as <- <- <-. pose proof (items_pos _ _ _ _ _ _ _ F I).
      assert (K0 : 0 <= k0) by (destruct n as [z|c]; [injection C as _ _ <-; lia|]; apply number_room in C; lia).
      assert (K1 : 0 <= k1). { destruct s as [c|]; [|injection D as _ <-; lia].
        destruct (number_at m' c o0 (adv k0 (p ++ r))) as [[[z o1] k3]|] eqn:N; [|discriminate]. apply number_room in N. injection D as _ <-. lia. }
      assert (C' : match n with inl z => Some (z, 0%nat, 0) | inr c => number_at m' c 0 (p ++ r') end = Some (cc, o0, k0))
        by (destruct n as [z|c]; [exact C|]; apply (number_local _ _ _ _ _ r' _ _ _ C); lia).
      rewrite C'. rewrite skip_app in D by lia. rewrite (skip_app k0) by lia.
      assert (D' : match s with None => Some (None, 0) | Some c => odo (z, _, k1) <- number_at m' c o0 (adv k0 p ++ r'); Some (Some z, k1) end = Some (sz, k1)).
      { destruct s as [c|]; [|exact D]. destruct (number_at m' c o0 (adv k0 p ++ r)) as [[[z o1] k3]|] eqn:N; [|discriminate]. injection D as <- <-.
        rewrite (number_local _ _ _ _ _ r' _ _ _ N) by (rewrite skip_len; lia). reflexivity. }
      rewrite D'. rewrite skip_app in I by lia. rewrite (skip_app (k0 + k1)) by lia.
      rewrite (items_local _ _ _ _ _ r r' l k2 F) by (auto; rewrite ?skip_len; lia || (intros; eapply IHx; eauto)). rewrite SZ. reflexivity.
  - destruct (members_of _ _ _ _) as [[l' k1]|] eqn:M; [|discriminate]. cbn in E. injection E as <- <- <-.
    rewrite Forall_forall in H. rewrite forallb_forall in T.
    rewrite (members_local _ _ _ _ r r' l' k1) by (auto; intros; try (eapply read_pos; eauto); eapply H; eauto). reflexivity.
  - destruct (f o) as [q|]; [|discriminate]. destruct (key_eqb q (VBool true)); [|exact E]. 
    destruct (read hb md rec o m' x 0 (p ++ r)) as [[[v1 o1] k1]|] eqn:R; [|discriminate]. cbn in E. injection E as <- <- <-. now rewrite (IHx _ _ _ _ _ _ T R LE).
  - destruct (read hb md rec o m' x off (p ++ r)) as [[[ws o1] k1]|] eqn:R; [|discriminate]. cbn in E. destruct (convert a x ws) eqn:CV; [|discriminate]. cbn in E. injection E as <- <- <-.
    rewrite (IHx _ _ _ _ _ _ T R LE). cbn. now rewrite CV.
  - destruct (f o) as [q|]; [|discriminate]. destruct (hashable q); [|discriminate]. apply andb_prop in T as [T1 T2]. rewrite forallb_forall in T1.
    destruct (pick_of (fun y => read hb md rec o (machine hb) y 0 (p ++ r)) d q m) as [[[v1 o1] k1]|] eqn:PK; [|discriminate]. cbn in E. injection E as <- <- <-.
    apply pick_case in PK as [(y & I & F & G)|(y & -> & F & G)]; rewrite G; [|match goal with H : forall x, Some y = Some x -> _ |- _ => now rewrite (H y eq_refl _ _ _ _ _ _ T2 F LE) end].
    rewrite Forall_forall in *. match goal with H : forall x, In x m -> _ |- _ => now rewrite (H y I _ _ _ _ _ _ (T1 y I) F LE) end.
  - apply andb_prop in T as [T T2]. apply andb_prop in T as [T T1]. apply andb_prop in T as [T T0]. apply andb_prop in T as [A TR]. rewrite forallb_forall in T1.
    specialize (AH A). subst r. 
    destruct (read hb md rec o (machine hb) x 0 (p ++ [])) as [[[rs o2] k2]|] eqn:R; [|discriminate]. cbn in E.
    pose proof (read_tight (fun _ => false) false o ltac:(discriminate) ltac:(discriminate) _ _ _ _ _ _ _ TR R) as KR. rewrite app_nil_r in KR.
    rewrite (IHx _ _ _ _ _ _ T0 R KR). cbn. destruct rs as [|q rs]; [discriminate|]. destruct (hashable q); [|discriminate].
    destruct (pick_of (fun y => read hb md rec o (machine hb) y 0 (p ++ [])) d q m) as [[[v1 o1] k1]|] eqn:PK; [|discriminate]. cbn in E. injection E as <- <- <-.
    apply pick_case in PK as [(y & I & F & G)|(y & -> & F & G)]; rewrite G; [|match goal with H : forall x, Some y = Some x -> _ |- _ => now rewrite (H y eq_refl _ _ _ _ _ _ T2 F LE) end].
    rewrite Forall_forall in *. match goal with H : forall x, In x m -> _ |- _ => now rewrite (H y I _ _ _ _ _ _ (T1 y I) F LE) end.
  - destruct (rec c (p ++ r)) as [[v k1]|] eqn:R; [|discriminate]. cbn in E. injection E as <- <- <-. now rewrite (RL _ _ _ _ T R LE).
  - destruct (assoc "cls" (p_attrs o)); [discriminate|]. destruct (p_proxy o); [|discriminate].
    destruct (rec (p_cls o) (p ++ r)) as [[v k1]|] eqn:R; [|discriminate]. cbn in E. injection E as <- <- <-. now rewrite (RL _ _ _ _ PS R LE).
  - discriminate.
  - discriminate.
Qed.
End Main.

Lemma closed_more : forall md P x, closed md P false x = true -> closed md P true x = true.
Proof.
  intros md P. induction x using hx_ind'; cbn [closed]; auto; intros T.
  - rewrite Forall_forall in *. rewrite forallb_forall in *. auto.
  - apply andb_prop in T as [T1 T2]. rewrite Forall_forall in *. rewrite forallb_forall in *. apply andb_true_intro. split; [apply forallb_forall; auto|].
    destruct d; auto.
  - discriminate.
Qed.

(** ** classes *)
Lemma fields_pos : forall f l d off b d' k, (forall d x off b vs off' k, f d x off b = Some (vs, off', k) -> 0 <= k) ->
  fields_read f l d off b = Some (d', k) -> 0 <= k.
Proof.
  intros f l. induction l as [|[a x] l IH]; intros d off b d' k F E; cbn [fields_read] in E; [injection E as _ <-; lia|].
  destruct (f d x off b) as [[[vs o1] k1]|] eqn:R; [|discriminate]. cbn in E. destruct (match vs with [] => _ | _ => _ end) as [d1|]; [|discriminate]. cbn in E.
  destruct (fields_read f l d1 o1 (adv k1 b)) as [[d2 k2]|] eqn:Q; [|discriminate]. injection E as _ <-. apply F in R. apply IH in Q; [lia|exact F].
Qed.
Lemma parse_pos : forall hb md sl n c b v k, parse hb md sl n c b = Some (v, k) -> 0 <= k.
Proof.
  intros hb md sl. induction n as [|n IH]; intros c b v k E; [discriminate|]. cbn [parse] in E. destruct (nth_error sl c) as [sc|]; [|discriminate]. cbn in E.
  destruct (fields_read _ _ _ _ _) as [[d k1]|] eqn:Q; [|discriminate]. injection E as _ <-. eapply fields_pos; [|exact Q].
  intros d0 x off b0 vs off' k0 R. eapply read_pos; [|exact R]. intros; eapply IH; eauto.
Qed.
Lemma fields_tight : forall f l d off b d' k,
  (forall d x off b vs off' k, In x (map snd l) -> f d x off b = Some (vs, off', k) -> 0 <= k <= blen b) ->
  fields_read f l d off b = Some (d', k) -> k <= blen b.
Proof.
  intros f l. induction l as [|[a x] l IH]; intros d off b d' k F E; cbn [fields_read] in E; [injection E as _ <-; apply blen_nonneg|].
  destruct (f d x off b) as [[[vs o1] k1]|] eqn:R; [|discriminate]. cbn in E. destruct (match vs with [] => _ | _ => _ end) as [d1|]; [|discriminate]. cbn in E.
  destruct (fields_read f l d1 o1 (adv k1 b)) as [[d2 k2]|] eqn:Q; [|discriminate]. injection E as _ <-. apply F in R; [|now left].
  apply IH in Q; [rewrite skip_len in Q by lia; lia|]. intros. eapply F; [right|]; eauto.
Qed.
Theorem parse_tight : forall hb md sl P, notices md P sl -> forall n c b v k, P c = true -> parse hb md sl n c b = Some (v, k) -> k <= blen b.
Proof.
  intros hb md sl P NT. induction n as [|n IH]; intros c b v k PC E; [discriminate|]. cbn [parse] in E. destruct (nth_error sl c) as [sc|] eqn:NS; [|discriminate]. cbn in E.
  destruct (fields_read _ _ _ _ _) as [[d k1]|] eqn:Q; [|discriminate]. injection E as _ <-. eapply fields_tight; [|exact Q].
  intros d0 x off b0 vs off' k0 I R. split; [eapply read_pos; [|exact R]; apply parse_pos|].
  eapply (read_tight hb md (parse hb md sl n)) with (P := P) (self := true) (o := PO c true d0); [apply parse_pos|intros; eapply IH; eauto| | |exact R].
  - cbn. intros; eapply IH; eauto.
  - specialize (NT c sc NS PC). rewrite forallb_forall in NT. apply in_map_iff in I as (p & <- & I). apply (NT p I).
Qed.
Lemma fields_local : forall f l d off p r r' d' k,
  (forall d x off b vs off' k, f d x off b = Some (vs, off', k) -> 0 <= k) ->
  (forall d x off p vs off' k, In x (map snd l) -> f d x off (p ++ r) = Some (vs, off', k) -> k <= blen p -> f d x off (p ++ r') = Some (vs, off', k)) ->
  fields_read f l d off (p ++ r) = Some (d', k) -> k <= blen p -> fields_read f l d off (p ++ r') = Some (d', k).
Proof.
  intros f l. induction l as [|[a x] l IH]; intros d off p r r' d' k F G E LE; cbn [fields_read] in *; [exact E|].
  destruct (f d x off (p ++ r)) as [[[vs o1] k1]|] eqn:R; [|discriminate]. cbn in E. destruct (match vs with [] => _ | _ => _ end) as [d1|] eqn:DD; [|discriminate]. cbn in E.
  destruct (fields_read f l d1 o1 (adv k1 (p ++ r))) as [[d2 k2]|] eqn:Q; [|discriminate]. injection E as <- <-. pose proof (F _ _ _ _ _ _ _ R). pose proof (fields_pos _ _ _ _ _ _ _ F Q).
  rewrite (G d x off p vs o1 k1 (or_introl eq_refl) R) by lia. cbn. rewrite DD. cbn. rewrite skip_app in Q by lia. rewrite skip_app by lia.
  rewrite (IH _ _ _ r r' d2 k2 F); [reflexivity| |exact Q|rewrite skip_len; lia]. intros. eapply G; eauto. now right.
Qed.
Theorem parse_local : forall hb md sl P ahead, closes md ahead P sl -> forall n c p r r' v k, P c = true -> (ahead = true -> r = []) ->
  parse hb md sl n c (p ++ r) = Some (v, k) -> k <= blen p -> parse hb md sl n c (p ++ r') = Some (v, k).
Proof.
  intros hb md sl P ahead CL. induction n as [|n IH]; intros c p r r' v k PC AH E LE; [discriminate|]. cbn [parse] in *. destruct (nth_error sl c) as [sc|] eqn:NS; [|discriminate]. cbn in *.
  destruct (fields_read _ _ _ _ (p ++ r)) as [[d k1]|] eqn:Q; [|discriminate]. injection E as <- <-.
  rewrite (fields_local _ _ _ _ _ r r' d k1) by (auto; try (intros; eapply read_pos; [apply parse_pos|eauto]);
    (intros d0 x off p0 vs off' k0 I R L0; apply (read_local hb md (parse hb md sl n) (parse_pos hb md sl n) P ahead (PO c true d0) r r' AH);
     [intros; eapply IH; eauto|exact PC|specialize (CL c sc NS PC); rewrite forallb_forall in CL; apply in_map_iff in I as (q & <- & I); apply (CL q I)|exact R|exact L0])).
  reflexivity.
Qed.

(** ** the three methods *)
Lemma room_split : forall k k' b, 0 <= k -> 0 <= k' -> k + k' <= blen b -> k <= blen b /\ k' <= blen (adv k b).
Proof. intros k k' b H H' L. rewrite skip_len by lia. lia. Qed.
Lemma string_even : forall hb md md' m a off b vs off' k, string_of hb md m a off b = Some (vs, off', k) -> k <= blen b ->
  even_string md a = true -> (match a with KUint _ => true | _ => false end = true -> vs <> []) -> string_of hb md' m a off b = Some (vs, off', k).
Proof.
  intros hb md md' m a off b vs off' k E LE C NV. destruct a as [c|n|t| |]; cbn [string_of] in *; try exact E.
  - destruct (number_at m c 0 b) as [[[z o] j]|] eqn:N; [|discriminate]. destruct (number_room _ _ _ _ _ _ _ N) as [Z0 J0].
    specialize (NV eq_refl). unfold cut in *. assert (L : k = j + z) by (destruct (_ || _); [|discriminate]; cbn [block] in E; now injection E as _ _ <-). subst k.
    assert (Q : z <=? blen (adv j b) = true) by (rewrite skip_len by lia; lia). rewrite Q, !Bool.orb_true_r in *. cbn [block] in *. injection E as <- <-.
    destruct md; [discriminate C| |]; cbn [negb andb] in *; (destruct (z =? 0); [congruence|]); now rewrite Bool.andb_false_r.
  - destruct (net_of hb b) as [[z j]|] eqn:N; [|discriminate]. destruct (net_room _ _ _ _ N) as [Z0 J0]. unfold cut in *.
    assert (L : k = j + z) by (destruct (_ || _); [|discriminate]; cbn [block] in E; now injection E as _ _ <-). subst k.
    assert (Q : z <=? blen (adv j b) = true) by (rewrite skip_len by lia; lia). rewrite Q, !Bool.orb_true_r in *. exact E.
Qed.
Section Methods.
Variables (hb : bool) (md md' : umode) (rec rec' : nat -> bytes -> option (value * Z)) (P : nat -> bool).
Hypothesis RP : forall c b v k, rec c b = Some (v, k) -> 0 <= k.
Hypothesis RE : forall c b v k, P c = true -> rec c b = Some (v, k) -> k <= blen b -> rec' c b = Some (v, k).
Lemma items_even : forall f f' run n off b vs k, (forall off b vs off' k, f off b = Some (vs, off', k) -> 0 <= k) ->
  (forall off b vs off' k, f off b = Some (vs, off', k) -> k <= blen b -> f' off b = Some (vs, off', k)) ->
  items_of f run n off b = Some (vs, k) -> k <= blen b -> items_of f' run n off b = Some (vs, k).
Proof.
  intros f f' run n. induction n as [|n IH]; intros off b vs k F G E LE; cbn [items_of] in *; [exact E|].
  destruct (f off b) as [[[v1 o1] k1]|] eqn:E1; [|discriminate]. cbn in E. destruct (items_of f run n _ _) as [[v2 k2]|] eqn:E2; [|discriminate].
  injection E as <- <-. destruct (room_split k1 k2 b (F _ _ _ _ _ E1) ltac:(eapply items_pos; eauto) LE). rewrite (G _ _ _ _ _ E1) by lia. cbn.
  now rewrite (IH _ _ v2 k2 F G E2).
Qed.
Lemma members_even : forall f f' l off b vs k, (forall x off b vs off' k, f x off b = Some (vs, off', k) -> 0 <= k) ->
  (forall x off b vs off' k, In x l -> f x off b = Some (vs, off', k) -> k <= blen b -> f' x off b = Some (vs, off', k)) ->
  members_of f l off b = Some (vs, k) -> k <= blen b -> members_of f' l off b = Some (vs, k).
Proof.
  intros f f' l. induction l as [|x l IH]; intros off b vs k F G E LE; cbn [members_of] in *; [exact E|].
  destruct (f x off b) as [[[v1 o1] k1]|] eqn:E1; [|discriminate]. cbn in E. destruct (members_of f l _ _) as [[v2 k2]|] eqn:E2; [|discriminate].
  injection E as <- <-. destruct (room_split k1 k2 b (F _ _ _ _ _ _ E1)) as [L1 L2]; [eapply members_pos; try exact E2; try exact RP; intros; eapply F; eauto|exact LE|].
  rewrite (G x off b v1 o1 k1 (or_introl eq_refl) E1) by lia. cbn. rewrite (IH _ _ v2 k2 F); [reflexivity| |exact E2|exact L2]. intros. eapply G; eauto. now right.
Qed.
Lemma read_even : forall o, P (p_cls o) = true -> forall x m off b vs off' k, even md P x = true ->
  read hb md rec o m x off b = Some (vs, off', k) -> k <= blen b -> (surface x = true -> vs <> []) -> read hb md' rec' o m x off b = Some (vs, off', k).
Proof using RP RE.
  intros o PS. induction x using hx_ind'; intros m' off b vs off' k' T E LE NV; cbn [even] in T; cbn [read] in *; try exact E.
  - eapply string_even; [exact E|exact LE|exact T|]. cbn [surface] in NV. destruct a; try discriminate. exact NV.
  - destruct (string_of hb md (machine hb) a 0 b) as [[[vs1 o1] k1]|] eqn:S; [|discriminate]. cbn in E.
    destruct vs1 as [|[] ?]; try discriminate. destruct (cod_dec _ _) eqn:CD; [|discriminate]. cbn in E. injection E as <- <- <-.
    rewrite (string_even _ _ md' _ _ _ _ _ _ _ S LE T) by discriminate. now rewrite CD.
  - assert (F : forall off b vs off' k, read hb md rec o m' x off b = Some (vs, off', k) -> 0 <= k) by (intros; eapply read_pos; eauto).
    apply andb_prop in T as [T0 T]. 
    assert (G : forall off b vs off' k, read hb md rec o m' x off b = Some (vs, off', k) -> k <= blen b -> read hb md' rec' o m' x off b = Some (vs, off', k))
      by (intros; eapply IHx; eauto; intros SF; rewrite SF in T0; discriminate).
    destruct (packed x).
    + destruct (match n with inl z => Some (z, 0) | inr c => _ end) as [[cc k0]|] eqn:C; [|discriminate]. destruct (items_of _ _ _ _ _) as [[l k1]|] eqn:I; [|discriminate].
      cbn in E. injection E as <- <- <-. assert (K1 : 0 <= k1) by (eapply items_pos; eauto).
      assert (K0 : 0 <= k0). { destruct n as [z|c]; [injection C as _ <-; lia|]. destruct (number_at m' c 0 b) as [[[z o1] k2]|] eqn:N; [|discriminate].
        apply number_room in N. injection C as _ <-. lia. }
      destruct (room_split k0 k1 b K0 K1 LE) as [L0 L1]. now rewrite (items_even _ _ _ _ _ _ l k1 F G I L1).
    + destruct (ready o x); [|discriminate]. cbn [negb] in *.
      destruct (match n with inl z => Some (z, 0%nat, 0) | inr c => _ end) as [[[cc o0] k0]|] eqn:C; [|discriminate].
      destruct (match s with None => Some (None, 0) | Some c => _ end) as [[sz k1]|] eqn:D; [|discriminate].
      destruct (items_of _ _ _ _ _) as [[l k2]|] eqn:I; [|discriminate].
      destruct (match sz with Some z => z =? k2 | None => true end) eqn:SZ; [|discriminate]. cbn in E. injection E as <- <- <-. assert (K2 : 0 <= k2) by (eapply items_pos; eauto).
      assert (K0 : 0 <= k0) by (destruct n as [z|c]; [injection C as _ _ <-; lia|]; apply number_room in C; lia).
      assert (K1 : 0 <= k1). { destruct s as [c|]; [|injection D as _ <-; lia].
        destruct (number_at m' c o0 (adv k0 b)) as [[[z o1] k3]|] eqn:N; [|discriminate]. apply number_room in N. injection D as _ <-. lia. }
      destruct (room_split (k0 + k1) k2 b ltac:(lia) K2 LE) as [L0 L1]. rewrite (items_even _ _ _ _ _ _ l k2 F G I L1), SZ. reflexivity.
  - destruct (members_of _ _ _ _) as [[l' k1]|] eqn:M; [|discriminate]. cbn in E. injection E as <- <- <-.
    rewrite Forall_forall in H. rewrite forallb_forall in T.
    rewrite (members_even (read hb md rec o (machine hb)) (read hb md' rec' o (machine hb)) l 0 b l' k1); [reflexivity| | |exact M|exact LE].
    + intros. eapply read_pos; eauto.
    + intros x off0 b0 vs0 o0 k0 I R L0. specialize (T x I). apply andb_prop in T as [T0 T]. eapply H; eauto. intros SF. rewrite SF in T0. discriminate.
  - destruct (f o) as [q|]; [|discriminate]. destruct (key_eqb q (VBool true)); [|exact E].
    destruct (read hb md rec o m' x 0 b) as [[[v1 o1] k1]|] eqn:R; [|discriminate]. cbn in E. injection E as <- <- <-. now rewrite (IHx _ _ _ _ _ _ T R LE NV).
  - destruct (read hb md rec o m' x off b) as [[[ws o1] k1]|] eqn:R; [|discriminate]. cbn in E. destruct (convert a x ws) eqn:CV; [|discriminate]. cbn in E. injection E as <- <- <-.
    rewrite (IHx _ _ _ _ _ _ T R LE); [cbn; now rewrite CV|]. intros SF ->. specialize (NV SF). unfold convert in CV. destruct x; cbn in CV; congruence.
  - destruct (f o) as [q|]; [|discriminate]. destruct (hashable q); [|discriminate]. apply andb_prop in T as [T1 T2]. rewrite forallb_forall in T1. cbn [surface] in NV.
    destruct (pick_of (fun y => read hb md rec o (machine hb) y 0 b) d q m) as [[[v1 o1] k1]|] eqn:PK; [|discriminate]. cbn in E. injection E as <- <- <-.
    apply pick_case in PK as [(y & I & F & G)|(y & -> & F & G)]; rewrite G.
    + rewrite Forall_forall in *. match goal with H : forall x, In x m -> _ |- _ => rewrite (H y I _ _ _ _ _ _ (T1 y I) F LE); [reflexivity|] end.
      intros SF. apply NV. apply Bool.orb_true_iff. left. apply existsb_exists. eauto.
    + match goal with H : forall x, Some y = Some x -> _ |- _ => rewrite (H y eq_refl _ _ _ _ _ _ T2 F LE); [reflexivity|] end.
      intros SF. apply NV. apply Bool.orb_true_iff. now right.
  - apply andb_prop in T as [T T2]. apply andb_prop in T as [T T1]. apply andb_prop in T as [TR T0]. rewrite forallb_forall in T1. cbn [surface] in NV.
    destruct (read hb md rec o (machine hb) x 0 b) as [[[rs o2] k2]|] eqn:R; [|discriminate]. cbn in E.
    pose proof (read_tight hb md rec RP (fun _ => false) false o ltac:(discriminate) ltac:(discriminate) _ _ _ _ _ _ _ TR R) as KR.
    destruct rs as [|q rs]; [discriminate|]. rewrite (IHx _ _ _ _ _ _ T0 R KR) by discriminate. cbn. destruct (hashable q); [|discriminate].
    destruct (pick_of (fun y => read hb md rec o (machine hb) y 0 b) d q m) as [[[v1 o1] k1]|] eqn:PK; [|discriminate]. cbn in E. injection E as <- <- <-.
    apply pick_case in PK as [(y & I & F & G)|(y & -> & F & G)]; rewrite G.
    + rewrite Forall_forall in *. match goal with H : forall x, In x m -> _ |- _ => rewrite (H y I _ _ _ _ _ _ (T1 y I) F LE); [reflexivity|] end.
      intros SF. apply NV. apply Bool.orb_true_iff. left. apply existsb_exists. eauto.
    + match goal with H : forall x, Some y = Some x -> _ |- _ => rewrite (H y eq_refl _ _ _ _ _ _ T2 F LE); [reflexivity|] end.
      intros SF. apply NV. apply Bool.orb_true_iff. now right.
  - destruct (rec c b) as [[v k1]|] eqn:R; [|discriminate]. cbn in E. injection E as <- <- <-. now rewrite (RE _ _ _ _ T R LE).
  - destruct (assoc "cls" (p_attrs o)); [discriminate|]. destruct (p_proxy o); [|discriminate].
    destruct (rec (p_cls o) b) as [[v k1]|] eqn:R; [|discriminate]. cbn in E. injection E as <- <- <-. now rewrite (RE _ _ _ _ PS R LE).
Qed.
End Methods.

Lemma surface_takes : forall x, surface x = true -> takes x = true.
Proof. induction x using hx_ind'; cbn; try discriminate; try reflexivity; auto. destruct a; try discriminate; reflexivity. Qed.
Lemma fields_even : forall f f' l d off b d' k,
  (forall d x off b vs off' k, f d x off b = Some (vs, off', k) -> 0 <= k) ->
  (forall d x off b vs off' k, In x (map snd l) -> f d x off b = Some (vs, off', k) -> k <= blen b -> (surface x = true -> vs <> []) ->
    f' d x off b = Some (vs, off', k)) ->
  fields_read f l d off b = Some (d', k) -> k <= blen b -> fields_read f' l d off b = Some (d', k).
Proof.
  intros f f' l. induction l as [|[a x] l IH]; intros d off b d' k F G E LE; cbn [fields_read] in *; [exact E|].
  destruct (f d x off b) as [[[vs o1] k1]|] eqn:R; [|discriminate]. cbn in E. destruct (match vs with [] => _ | _ => _ end) as [d1|] eqn:DD; [|discriminate]. cbn in E.
  destruct (fields_read f l d1 o1 (adv k1 b)) as [[d2 k2]|] eqn:Q; [|discriminate]. injection E as <- <-.
  destruct (room_split k1 k2 b (F _ _ _ _ _ _ _ R) (fields_pos _ _ _ _ _ _ _ F Q) LE) as [L1 L2].
  rewrite (G d x off b vs o1 k1 (or_introl eq_refl) R L1) by (intros SF; rewrite (surface_takes _ SF) in DD; destruct vs; discriminate). cbn. rewrite DD. cbn.
  rewrite (IH _ _ _ d2 k2 F); [reflexivity| |exact Q|exact L2]. intros. eapply G; eauto. now right.
Qed.
Theorem parse_even : forall hb md md' sl P, evens md P sl -> forall n c b v k, P c = true -> parse hb md sl n c b = Some (v, k) -> k <= blen b ->
  parse hb md' sl n c b = Some (v, k).
Proof.
  intros hb md md' sl P EV. induction n as [|n IH]; intros c b v k PC E LE; [discriminate|]. cbn [parse] in *. destruct (nth_error sl c) as [sc|] eqn:NS; [|discriminate]. cbn in *.
  destruct (fields_read _ _ _ _ b) as [[d k1]|] eqn:Q; [|discriminate]. injection E as <- <-.
  rewrite (fields_even (fun d => read hb md (parse hb md sl n) (PO c true d) (mode_of hb (sc_bo sc))) (fun d => read hb md' (parse hb md' sl n) (PO c true d) (mode_of hb (sc_bo sc))) _ _ _ _ d k1); [reflexivity| | |exact Q|exact LE].
  - intros. eapply read_pos; [apply parse_pos|eauto].
  - intros d0 x off p0 vs off' k0 I R L0 NV. eapply (read_even hb md md' (parse hb md sl n) (parse hb md' sl n) P (parse_pos hb md sl n)); [intros; eapply IH; eauto|exact PC| |exact R|exact L0|exact NV].
    specialize (EV c sc NS PC). rewrite forallb_forall in EV. apply in_map_iff in I as (q & <- & I). apply (EV q I).
Qed.
