(** When the exception of FaultSpec.v is determined: nothing is out of step, and the functions in the hints raise known exceptions. *)
From Verif Require Import Base Floats Value StructMod Format Ser Exec Pure BaseFacts SerFacts Hints HintFacts Surface SerShape Programs Accept AcceptProg WireSpec WireFacts ReadSpec ReadFacts FaultSpec Faults.
Open Scope string_scope. Open Scope list_scope. Open Scope Z_scope.

Lemma every_in : forall {A} (P : A -> Prop) l, every P l -> forall x, In x l -> P x.
Proof. intros A P l. induction l as [|a l IH]; cbn; [tauto|]. intros [H T] x [<-|I]; auto. Qed.
Section Determined.
Variables (hb : bool) (md : umode) (rec : nat -> bytes -> option (value * Z)) (why : nat -> bytes -> option exn).
Hypothesis WK : forall c b, why c b <> Some Unspecified.
Lemma pick_len : forall m k ms d b r, Forall (fun p => forall off b' vs off' k', read hb md rec k m (snd p) off b' = Some (vs, off', k') -> List.length vs = 1%nat) ms ->
  (forall y, d = Some y -> forall off b' vs off' k', read hb md rec k m y off b' = Some (vs, off', k') -> List.length vs = 1%nat) ->
  forall vs off' k', pick_of (fun y => read hb md rec k m y 0 b) d r ms = Some (vs, off', k') -> List.length vs = 1%nat.
Proof.
  intros m k ms d b r F D. induction F as [|[k0 y] ms P F IH]; intros vs off' k' E; cbn [pick_of] in E.
  - destruct d as [y|]; [|discriminate]. cbn in E. eauto.
  - cbn in P. destruct (key_eqb r k0); [eauto|eauto].
Qed.
Lemma omap_len : forall {A B} (f : A -> option B) l l', omap f l = Some l' -> List.length l' = List.length l.
Proof.
  intros A B f l. induction l as [|a l IH]; intros l' E; cbn in E; [now injection E as <-|].
  destruct (f a); [|discriminate]. cbn in E. destruct (omap f l) as [r|]; [|discriminate]. injection E as <-. cbn. now rewrite (IH r).
Qed.
Lemma at_len : forall m w n off b f vs off' k j, (forall x, List.length (f x) = j) -> at_ m w n off b f = Some (vs, off', k) -> List.length vs = j.
Proof. intros m w n off b f vs off' k j F E. unfold at_ in E. destruct (_ <=? _)%nat; [|discriminate]. injection E as <- _ _. apply F. Qed.
Ltac ob E := repeat match type of E with
  | match ?q with Some _ => _ | None => None end = Some _ => let X := fresh "X" in destruct q as [[[? ?] ?]|] eqn:X; [|discriminate E]
  end.
Lemma block_len : forall r vs off' k, block r = Some (vs, off', k) -> exists k', r = Some (vs, k').
Proof. intros [[v k']|] vs off' k E; cbn in E; [|discriminate]. injection E as <- _ _. eauto. Qed.
Lemma body_len : forall r vs k, body r = Some (vs, k) -> exists off, r = Some (vs, off, k).
Proof. intros [[[v o] k']|] vs k E; cbn in E; [|discriminate]. injection E as <- <-. eauto. Qed.
Lemma union_len : forall ms d, Forall (fun p => instep md (snd p) = true -> forall o m off b vs off' k, read hb md rec o m (snd p) off b = Some (vs, off', k) ->
    List.length vs = if takes (snd p) then 1%nat else 0%nat) ms ->
  (forall y, d = Some y -> instep md y = true -> forall o m off b vs off' k, read hb md rec o m y off b = Some (vs, off', k) ->
    List.length vs = if takes y then 1%nat else 0%nat) ->
  forallb (fun p => instep md (snd p) && takes (snd p)) ms && match d with Some y => instep md y && takes y | None => true end = true ->
  forall o m r b vs off' k, block (body (pick_of (fun y => read hb md rec o m y 0 b) d r ms)) = Some (vs, off', k) -> List.length vs = 1%nat.
Proof.
  intros ms d F D IS o m r b vs off' k E. apply block_len in E as [k' E]. apply body_len in E as [o' E].
  apply andb_prop in IS as [I1 I2]. eapply (pick_len m o ms d b r); [| |exact E].
  - rewrite Forall_forall in *. intros p I off0 b' vs0 off0' k0 Q. rewrite forallb_forall in I1. specialize (I1 p I). cbn in I1.
    apply andb_prop in I1 as [A B]. rewrite (F p I A _ _ _ _ _ _ _ Q), B. reflexivity.
  - intros y -> off0 b' vs0 off0' k0 Q. apply andb_prop in I2 as [A B]. rewrite (D y eq_refl A _ _ _ _ _ _ _ Q), B. reflexivity.
Qed.
Lemma string_len : forall m a off b vs off' k, instep md (XChar a) = true -> string_of hb md m a off b = Some (vs, off', k) ->
  List.length vs = if takes (XChar a) then 1%nat else 0%nat.
Proof.
  intros m a off b vs off' k IS E. destruct a as [c|n|t| |]; cbn [string_of instep takes] in *.
  - destruct md; try discriminate. cbn in E. destruct (number_at m c 0 b) as [[[z o] k0]|]; [|discriminate]. unfold cut in E. cbn in E. now injection E as <- _ _.
  - destruct (n =? 0); [now injection E as <- _ _|]. eapply at_len; [|exact E]. reflexivity.
  - destruct t as [|x [|? ?]]; try discriminate. destruct (until x b) as [s|]; [|discriminate]. cbn in E. now injection E as <- _ _.
  - cbn in E. now injection E as <- _ _.
  - destruct (net_of hb b) as [[z k0]|]; [|discriminate]. destruct (cut _ z (adv k0 b)) as [s|]; [|discriminate]. cbn in E. now injection E as <- _ _.
Qed.
Lemma instep_len : forall x, instep md x = true -> forall o m off b vs off' k, read hb md rec o m x off b = Some (vs, off', k) ->
  List.length vs = if takes x then 1%nat else 0%nat.
Proof.
  induction x using hx_ind'; intros IS o m' off b vs off' k E; [.. | | ]; try (cbn [read] in E; cbn [takes]; cbn [instep] in IS).
  - eapply at_len; [|exact E]. reflexivity.
  - destruct (n =? 0); [now injection E as <- _ _|]. eapply at_len; [|exact E]. reflexivity.
  - destruct (n =? 0); [now injection E as <- _ _|]. eapply at_len; [|exact E]. reflexivity.
  - exact (string_len m' a off b vs off' k IS E).
  - destruct (string_of hb md (machine hb) a 0 b) as [[[[|[] ?] ?] ?]|]; try discriminate. destruct (cod_dec _ _); [|discriminate]. cbn in E. now injection E as <- _ _.
  - destruct (packed x).
    + destruct (match n with inl z => _ | inr c => _ end) as [[cc k0]|]; [|discriminate]. destruct (items_of _ _ _ _ _) as [[l k1]|]; [|discriminate].
      cbn in E. now injection E as <- _ _.
    + destruct (ready o x); [|discriminate]. cbn [negb] in E.
      destruct (match n with inl z => _ | inr c => _ end) as [[[cc o0] k0]|]; [|discriminate].
      destruct (match s with None => _ | Some c => _ end) as [[sz k1]|]; [|discriminate].
      destruct (items_of _ _ _ _ _) as [[l k2]|]; [|discriminate].
      destruct (match sz with Some z => _ | None => _ end); [|discriminate]. cbn in E. now injection E as <- _ _.
  - destruct (members_of _ _ _ _) as [[l' k1]|]; [|discriminate]. cbn in E. now injection E as <- _ _.
  - apply andb_prop in IS as [I1 I2]. apply Nat.eqb_eq in I2. destruct (f o) as [r|]; [|discriminate]. destruct (key_eqb r (VBool true)).
    + apply block_len in E as [k' E]. apply body_len in E as [o' E]. eauto.
    + destruct (key_eqb r (VBool false)); [|discriminate]. cbn in E. injection E as <- _ _. exact I2.
  - apply andb_prop in IS as [I1 I2]. destruct (read hb md rec o m' x off b) as [[[ws o'] k']|] eqn:R; [|discriminate].
    pose proof (IHx I1 _ _ _ _ _ _ _ R) as Q. rewrite I2 in Q. cbn in E. destruct (convert a x ws) as [us|] eqn:C; [|discriminate]. cbn in E. injection E as <- _ _.
    unfold convert in C. destruct x; try (apply omap_len in C; congruence). congruence.
  - destruct (f o) as [r|]; [|discriminate]. destruct (hashable r); [|discriminate]. eapply (union_len m d); eauto.
  - destruct (read hb md rec o (machine hb) x 0 b) as [[[[|r ?] ?] ?]|]; try discriminate. cbn in E. destruct (hashable r); [|discriminate]. eapply (union_len m d); eauto.
  - destruct (rec c b) as [[v k']|]; [|discriminate]. cbn in E. now injection E as <- _ _.
  - destruct (assoc "cls" (p_attrs o)); [discriminate|]. destruct (p_proxy o); [|discriminate]. destruct (rec (p_cls o) b) as [[v k']|]; [|discriminate]. cbn in E. now injection E as <- _ _.
  - discriminate.
  - discriminate.
Qed.
Lemma items_known : forall f g run n off b, (forall off b, g off b <> Some Unspecified) -> items_fault f g run n off b <> Some Unspecified.
Proof. intros f g run n. induction n as [|n IH]; intros off b G; cbn; [discriminate|]. destruct (f off b) as [[[? ?] ?]|]; auto. Qed.
Lemma absent_known : forall {A} (r : option A) e, e <> Unspecified -> absent r e <> Some Unspecified.
Proof. intros A [|] e H; cbn; congruence. Qed.
Lemma or_known : forall p q, p <> Some Unspecified -> q <> Some Unspecified -> or_else p q <> Some Unspecified.
Proof. intros [] q P Q; cbn; auto. Qed.
Lemma members_known : forall f g l off b, (forall x off b, In x l -> g x off b <> Some Unspecified) -> members_fault f g l off b <> Some Unspecified.
Proof.
  intros f g l. induction l as [|x l IH]; intros off b G; cbn [members_fault]; [discriminate|]. destruct (cut_off f (x :: l) off b); [discriminate|].
  destruct (f x off b) as [[[? ?] ?]|]; [|apply G; now left]. apply IH. intros. apply G. now right.
Qed.
Lemma pick_known : forall g d m r, (forall p, In p m -> g (snd p) <> Some Unspecified) -> (forall y, d = Some y -> g y <> Some Unspecified) ->
  pick_fault g d r m <> Some Unspecified.
Proof.
  intros g d m r G D. induction m as [|[k y] m IH]; cbn [pick_fault].
  - destruct d; [eauto|discriminate].
  - destruct (key_eqb r k); [apply (G (k, y)); now left|]. apply IH. intros. apply G. now right.
Qed.
Lemma first_known : forall a vs, (forall v : value, (a v : res value) <> Err Unspecified) -> first_fault a vs <> Some Unspecified.
Proof. intros a vs A. induction vs as [|v vs IH]; cbn; [discriminate|]. destruct (a v) eqn:E; [auto|]. specialize (A v). congruence. Qed.
Lemma cond_known : forall o f, (forall o, f o <> Err Unspecified) -> cond_fault o f <> Some Unspecified.
Proof.
  intros o f F. unfold cond_fault. destruct (f o) as [v|] eqn:E; [|specialize (F o); congruence]. destruct (_ || _); [discriminate|]. destruct (hashable v); discriminate.
Qed.
Lemma self_known : forall o, self_fault o <> Some Unspecified.
Proof. intros o. unfold self_fault. destruct (assoc _ _); [discriminate|]. destruct (p_proxy o); discriminate. Qed.
Lemma fault_known : forall x, known x -> forall o m off b, fault hb md rec why o m x off b <> Some Unspecified.
Proof.
  induction x using hx_ind'; intros K o m' off b; cbn [fault]; cbn [known] in K.
  1-3: apply absent_known; discriminate.
  - apply absent_known. destruct a; discriminate.
  - destruct (string_of hb md (machine hb) a 0 b) as [[[[|[] ?] ?] ?]|]; try discriminate; [|destruct a; discriminate].
    destruct (cod_dec _ _) eqn:E; [discriminate|]. intros Q. injection Q as ->. exact (K _ E).
  - destruct (packed x).
    + destruct (match n with inl z => _ | inr c => _ end) as [[cc k0]|]; [|discriminate].
      apply or_known; [apply absent_known; discriminate|]. apply items_known. auto.
    + match goal with |- match ?q with Some _ => _ | None => _ end <> _ => destruct q as [[[cc sz] k0]|]; [|discriminate] end.
      apply or_known. { destruct x; try discriminate; [apply cond_known; apply K|apply self_known]. }
      destruct (items_of _ _ _ _ _) as [[l k2]|]; [|apply items_known; auto]. destruct sz as [z|]; [|discriminate]. destruct (z =? k2); discriminate.
  - apply members_known. intros y off0 b0 I. rewrite Forall_forall in H. apply H; [exact I|]. exact (every_in _ _ K y I).
  - destruct K as [K1 K2]. apply or_known; [now apply cond_known|]. destruct (f o) as [r|]; [|discriminate]. destruct (key_eqb r (VBool true)); [auto|discriminate].
  - destruct K as [K1 K2]. apply or_known; [auto|]. destruct (read hb md rec o m' x off b) as [[[ws o'] k']|]; [|discriminate].
    unfold convert_fault. destruct x; try discriminate; now apply first_known.
  - destruct K as (K1 & K2 & K3). destruct (f o) as [r|] eqn:E; [|specialize (K1 o); congruence]. destruct (hashable r); [|discriminate].
    apply pick_known; [|intros y ->; auto]. intros p I. rewrite Forall_forall in *. match goal with H : forall x, In x m -> _ |- _ => apply H; [exact I|] end. exact (every_in _ _ K2 p I).
  - destruct K as (K1 & K2 & K3). destruct (read hb md rec o (machine hb) x 0 b) as [[[[|r ?] ?] ?]|]; try discriminate; [|auto]. destruct (hashable r); [|discriminate].
    apply pick_known; [|intros y ->; auto]. intros p I. rewrite Forall_forall in *. match goal with H : forall x, In x m -> _ |- _ => apply H; [exact I|] end. exact (every_in _ _ K2 p I).
  - apply WK.
  - apply or_known; [apply self_known|apply WK].
  - contradiction.
  - contradiction.
Qed.
Lemma fields_known : forall c m fl, every (fun p : string * hx => instep md (snd p) = true /\ known (snd p)) fl -> forall d off b,
  fields_fault (fun d => read hb md rec (PO c true d) m) (fun d => fault hb md rec why (PO c true d) m) fl d off b <> Some Unspecified.
Proof.
  intros c m fl. induction fl as [|[a x] fl IH]; intros EV d off b; cbn [fields_fault]; [discriminate|]. destruct EV as [[I K] EV]. cbn in I, K.
  destruct (cut_off _ _ off b); [discriminate|]. destruct (read hb md rec (PO c true d) m x off b) as [[[vs o'] k']|] eqn:R; [|now apply fault_known].
  pose proof (instep_len x I _ _ _ _ _ _ _ R) as Q. destruct (takes x); destruct vs as [|v [|? ?]]; try discriminate; auto.
Qed.
End Determined.
Theorem determined_known : forall hb md sl, determined md sl -> forall n c b, why_unread hb md sl n c b <> Some Unspecified.
Proof.
  intros hb md sl D. induction n as [|n IH]; intros c b; cbn [why_unread]; [discriminate|].
  destruct (nth_error sl c) as [sc|] eqn:E; [|discriminate]. apply fields_known; [exact IH|].
  exact (every_in _ _ D sc (nth_error_In _ _ E)).
Qed.
