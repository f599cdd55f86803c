(** What a packing or unpacking call can change besides its result, whether it succeeds or fails: lemmas about
    every serializer, class table and state (no well-formedness is assumed). *)
From Verif Require Import Base Floats Value StructMod Format Ser Exec Pure BaseFacts StructFacts FormatFacts SerFacts RefPack Hints HintFacts.
Open Scope Z_scope.

(** ** buffers *)
(** nothing before [off] changes and the buffer does not get shorter *)
Definition after (off : Z) (b b' : bytes) : Prop :=
  (List.length b <= List.length b')%nat /\
  forall i, Z.of_nat i < off -> (i < List.length b)%nat -> nth_error b' i = nth_error b i.
Lemma after_refl : forall off b, after off b b.
Proof. split; auto. Qed.
Lemma after_trans : forall off a b c, after off a b -> after off b c -> after off a c.
Proof.
  intros off a b c [L1 H1] [L2 H2]. split; [lia|]. intros i O L. rewrite H2 by lia. auto.
Qed.
Lemma after_le : forall o1 o2 a b, o2 <= o1 -> after o1 a b -> after o2 a b.
Proof. intros o1 o2 a b L [L1 H1]. split; [exact L1|]. intros i O. apply H1. lia. Qed.
Lemma nth_firstn : forall {A} n (l : list A) i, (i < n)%nat -> nth_error (firstn n l) i = nth_error l i.
Proof.
  intros A n. induction n as [|n IH]; intros l i L; [lia|]. destruct l as [|x l]; [now rewrite firstn_nil|].
  destruct i as [|i]; [reflexivity|]. cbn. apply IH. lia.
Qed.
Lemma nth_skipn : forall {A} n (l : list A) i, nth_error (skipn n l) i = nth_error l (n + i).
Proof.
  intros A n. induction n as [|n IH]; intros l i; [reflexivity|]. destruct l as [|x l]; [now destruct i|]. apply IH.
Qed.
Lemma after_put : forall off b d, 0 <= off -> after off b (overwrite b off d).
Proof.
  intros off b d O. unfold overwrite. split.
  - rewrite !app_length, firstn_length, skipn_length. lia.
  - intros i L1 L2. rewrite nth_error_app1 by (rewrite firstn_length; lia). apply nth_firstn. lia.
Qed.
Lemma after_splice : forall off b d, 0 <= off -> after off b (py_splice b off (off + blen d) d).
Proof.
  intros off b d O. unfold py_splice, norm_idx, blen. split.
  - rewrite !app_length, firstn_length, skipn_length.
    destruct (off <? 0) eqn:E1; [lia|]. destruct (off + Z.of_nat (List.length d) <? 0) eqn:E2; lia.
  - intros i L1 L2. destruct (off <? 0) eqn:E1; [lia|].
    rewrite nth_error_app1 by (rewrite firstn_length; lia). apply nth_firstn. lia.
Qed.
Lemma into_after : forall m f buf off vs, 0 <= off ->
  after off buf (fst (st_pack_into m f buf off vs)) /\
  List.length (fst (st_pack_into m f buf off vs)) = List.length buf.
Proof.
  intros m f buf off vs O. unfold st_pack_into.
  destruct (Nat.eqb (List.length vs) (nvals f)); [|cbn; split; [apply after_refl|reflexivity]].
  destruct (st_offset (blen buf) off (Z.of_nat (calcsize m f))) as [o|] eqn:E; [|cbn; split; [apply after_refl|reflexivity]].
  unfold st_offset in E. destruct (off <? 0) eqn:E0; [lia|].
  destruct (blen buf - off <? Z.of_nat (calcsize m f)) eqn:E1; [discriminate E|]. injection E as <-.
  destruct (pack_u m 0 (expand f) vs) as [b e] eqn:P. pose proof (pack_u_le _ _ _ _ _ _ P) as L. cbn [fst] in *.
  split; [now apply after_put|]. apply overwrite_length; [exact O|]. unfold blen in *. rewrite app_length, zeros_length.
  unfold calcsize in *. lia.
Qed.
(** exactly the bytes from [p] to [p'] are written *)
Definition between (p p' : Z) (b b' : bytes) : Prop :=
  p <= p' /\ after p b b' /\ forall i, p' <= Z.of_nat i -> nth_error b' i = nth_error b i.
Lemma between_refl : forall p b, between p p b b.
Proof. intros p b. split; [lia|]. split; [apply after_refl|]. auto. Qed.
Lemma between_trans : forall p q r a b c, between p q a b -> between q r b c -> between p r a c.
Proof.
  intros p q r a b c (L1 & A1 & H1) (L2 & A2 & H2). split; [lia|]. split.
  - eapply after_trans; [exact A1|]. eapply after_le; [|exact A2]. lia.
  - intros i L. rewrite H2 by lia. apply H1. lia.
Qed.
Lemma between_write : forall p d b, 0 <= p ->
  between p (p + blen b) d (match b with [] => d | _ => overwrite (d ++ zeros (Z.to_nat (p - blen d))) p b end).
Proof.
  intros p d b O. destruct b as [|x b].
  - cbn. rewrite Z.add_0_r. apply between_refl.
  - set (y := x :: b). unfold between. split; [unfold blen; lia|]. split.
    + apply (after_trans _ _ (d ++ zeros (Z.to_nat (p - blen d)))); [|apply after_put; exact O].
      split; [rewrite app_length; lia|]. intros i _ L. now rewrite nth_error_app1.
    + intros i L. unfold overwrite. unfold blen in *.
      assert (FL : List.length (firstn (Z.to_nat p) (d ++ zeros (Z.to_nat (p - Z.of_nat (List.length d))))) = Z.to_nat p).
      { rewrite firstn_length, app_length, zeros_length. lia. }
      rewrite nth_error_app2 by lia. rewrite FL. rewrite nth_error_app2 by lia.
      rewrite nth_skipn. replace (Z.to_nat p + List.length y + (i - Z.to_nat p - List.length y))%nat with i by lia.
      destruct (Nat.ltb_spec i (List.length d)); [now rewrite nth_error_app1|].
      rewrite (proj2 (nth_error_None d i)) by lia. apply nth_error_None. rewrite app_length, zeros_length. lia.
Qed.

(** ** the state of a call *)
Section Frame.
Variable hb : bool.
Variable ct : nat -> option cdef.
(** [nc]: no field reads to the end, and then the length of the buffer does not change either *)
Variable nc : bool.
Hypothesis NC : nc = true -> classes_nocons ct.
Definition same (w w' : world) : Prop := w_buf w' = w_buf w /\ w_data w' = w_data w /\ w_pos w' = w_pos w.
Definition R (k : sink) (w w' : world) : Prop :=
  match k with
  | KPack => same w w'
  | KInto off => w_data w' = w_data w /\ w_pos w' = w_pos w /\ after off (w_buf w) (w_buf w') /\
      (nc = true -> List.length (w_buf w') = List.length (w_buf w))
  | KWrite => w_buf w' = w_buf w /\ between (w_pos w) (w_pos w') (w_data w) (w_data w')
  end.
Lemma R_same : forall k w w', same w w' -> R k w w'.
Proof.
  intros k w w' (A & B & C). destruct k; cbn.
  - unfold same. auto.
  - rewrite A. repeat split; auto.
  - split; [exact A|]. rewrite B, C. apply between_refl.
Qed.
Lemma R_refl : forall k w, R k w w.
Proof. intros k w. apply R_same. unfold same. auto. Qed.
Lemma R_trans : forall k a b c, R k a b -> R k b c -> R k a c.
Proof.
  intros k a b c H1 H2. destruct k; cbn in *.
  - destruct H1 as (A & B & C), H2 as (A' & B' & C'). unfold same. repeat split; congruence.
  - destruct H1 as (A & B & C & D), H2 as (A' & B' & C' & D'). split; [congruence|]. split; [congruence|].
    split; [eapply after_trans; eauto|]. intros N. rewrite D', D; auto.
  - destruct H1 as (A & B), H2 as (A' & B'). split; [congruence|]. eapply between_trans; eauto.
Qed.
Lemma R_sub : forall k z w w', 0 <= z -> R (ksub k z) w w' -> R k w w'.
Proof.
  intros k z w w' Z0 H. destruct k; cbn in *; auto. destruct H as (A & B & C & D). repeat split; auto; try apply C.
  intros i L. apply C. lia.
Qed.
Lemma kok_sub : forall k z w, 0 <= z -> kok k w -> kok (ksub k z) w.
Proof. intros k z w Z0 H. destruct k; cbn in *; auto. lia. Qed.
Lemma kok_R : forall k w w', kok k w -> R k w w' -> kok k w'.
Proof. intros k w w' K H. destruct k; cbn in *; auto. destruct H as (_ & L & _). lia. Qed.

(** [m] changes what it may, and its result is [Q] *)
Definition frw {A} (k : sink) (m : M A) (Q : A -> world -> Prop) (w : world) : Prop :=
  R k w (snd (m w)) /\ match fst (m w) with Ok a => Q a (snd (m w)) | Err _ => True end.
Definition fr {A} (k : sink) (m : M A) (Q : A -> world -> Prop) : Prop := forall w, kok k w -> frw k m Q w.
Lemma fr_bind : forall {A B} k (m : M A) (f : A -> M B) P Q,
  fr k m P -> (forall a w, kok k w -> P a w -> frw k (f a) Q w) ->
  fr k (bind m f) Q.
Proof.
  intros A B k m f P Q H1 H2 w K. unfold frw, bind. destruct (H1 w K) as [R1 P1].
  destruct (m w) as [[a|e] w1]; cbn [fst snd] in *; [|split; [exact R1|exact I]].
  destruct (H2 a w1 (kok_R _ _ _ K R1) P1) as [R2 Q2]. split; [eapply R_trans; eauto|exact Q2].
Qed.
Lemma fr_seq : forall {A B} k (m : M A) (f : A -> M B) Q,
  fr k m (fun _ _ => True) -> (forall a, fr k (f a) Q) -> fr k (bind m f) Q.
Proof. intros. eapply fr_bind; [eassumption|]. intros a w K _. exact (H0 a w K). Qed.
Lemma fr_lift : forall {A} k (r : res A) (Q : A -> world -> Prop), (forall a w, r = Ok a -> Q a w) -> fr k (lift r) Q.
Proof. intros A k r Q H w K. unfold frw. cbn. split; [apply R_refl|]. destruct r; auto. Qed.
Lemma fr_ret : forall {A} k (a : A) (Q : A -> world -> Prop), (forall w, Q a w) -> fr k (ret a) Q.
Proof. intros A k a Q H w K. unfold frw. cbn. split; [apply R_refl|auto]. Qed.
Lemma fr_raise : forall {A} k e (Q : A -> world -> Prop), fr k (raise e) Q.
Proof. intros A k e Q w K. unfold frw. cbn. split; [apply R_refl|exact I]. Qed.
Lemma fr_weak : forall {A} k (m : M A) (P Q : A -> world -> Prop), fr k m P -> (forall a w, P a w -> Q a w) -> fr k m Q.
Proof.
  intros A k m P Q H I w K. destruct (H w K) as [H1 H2]. split; [exact H1|]. destruct (fst (m w)); auto.
Qed.
Lemma fr_set_size : forall k id z (Q : unit -> world -> Prop), (forall w, w_size w id = z -> Q tt w) -> fr k (set_size id z) Q.
Proof.
  intros k id z Q H w K. unfold frw. cbn. split; [apply R_same; unfold same; auto|]. apply H. cbn. unfold upd. now rewrite Nat.eqb_refl.
Qed.
Lemma fr_get_obj : forall k id, fr k (get_obj id) (fun _ _ => True).
Proof. intros k id w K. unfold frw, get_obj. destruct (w_obj w id); cbn; split; auto using R_refl. Qed.
Lemma fr_write : forall b, fr KWrite (io_write b) (fun _ _ => True).
Proof.
  intros b w K. unfold frw, io_write. cbn [fst snd]. split; [|exact I]. cbn. split; [reflexivity|]. now apply between_write.
Qed.
Lemma fr_struct : forall st k vs, fr k (put_struct hb st k vs) (fun _ _ => True).
Proof.
  intros st k vs. destruct k; cbn [put_struct].
  - apply fr_lift. auto.
  - intros w K. unfold frw. destruct (into_after (ss_mode hb st) (s_fmt st) (w_buf w) off vs K) as [A L].
    destruct (st_pack_into (ss_mode hb st) (s_fmt st) (w_buf w) off vs) as [buf' e]. cbn [fst snd] in *.
    split; [|destruct e; exact I]. cbn. auto.
  - apply fr_seq; [apply fr_lift; auto|]. intros b. apply fr_seq; [apply fr_write|]. intros _. apply fr_ret. auto.
Qed.
Lemma fr_ostruct : forall o k vs, fr k (put_ostruct hb o k vs) (fun _ _ => True).
Proof. intros [st|] k vs; [apply fr_struct|apply fr_ret; auto]. Qed.
Lemma fr_emit : forall k b, fr k (emit k b) (fun _ _ => True).
Proof.
  intros k b. destruct k; cbn [emit]; try (apply fr_ret; auto). apply fr_seq; [apply fr_write|]. intros _. apply fr_ret. auto.
Qed.
(** the size a serializer reports is not negative *)
Definition sz (s : ser) (w : world) : Prop := forall z, fst (get_size hb s w) = Ok z -> 0 <= z.
Lemma size_keeps : forall s w, snd (get_size hb s w) = w.
Proof. induction s; intros w; cbn; auto. Qed.
Lemma fr_prep : forall pk s o k, fr k (prep pk s o)
  (fun s' _ => (nocons s = true -> nocons s' = true) /\ forall w, sz s' w -> sz s w).
Proof.
  intros pk s o k. destruct s; cbn [prep];
    try (apply fr_ret; intros; split; auto; fail);
    try (apply fr_seq; [intros w K; unfold frw; cbn; split; [apply R_same; unfold same; auto|exact I]|]; intros _; apply fr_ret; intros; split; auto; fail).
  - apply fr_lift. intros s' w E. destruct (cond o) as [v|]; [|discriminate E]. cbn in E. unfold cond_branch in E.
    split; [|intros w' _ z Q; discriminate Q].
    destruct (key_eqb v (VBool true)); [injection E as <-; auto|]. destruct (key_eqb v (VBool false)); [injection E as <-; auto|].
    destruct (hashable v); discriminate E.
  - apply fr_lift. intros s' w E. destruct (self_class pk o); [|discriminate E]. injection E as <-.
    split; [auto|]. intros w' _ z Q. discriminate Q.
  - apply fr_ret. intros w. destruct (existsb needs_pre subs); split; auto.
Qed.

Lemma fr_sub : forall {A} k z (m : M A) Q, 0 <= z -> fr (ksub k z) m Q -> fr k m Q.
Proof.
  intros A k z m Q Z0 H w K. destruct (H w (kok_sub _ _ _ Z0 K)) as [H1 H2]. split; [eapply R_sub; eauto|exact H2].
Qed.
(** reading the size after packing *)
Lemma fr_size : forall {A} k s (f : Z -> M A) Q w, kok k w -> sz s w ->
  (forall z, 0 <= z -> fr k (f z) Q) ->
  frw k (bind (get_size hb s) f) Q w.
Proof.
  intros A k s f Q w K S H. pose proof (size_keeps s w) as E. unfold sz in S. unfold frw, bind.
  destruct (get_size hb s w) as [[z|e] w']; cbn [fst snd] in *; subst w'; [|split; [apply R_refl|exact I]].
  exact (H z (S z eq_refl) w K).
Qed.

Section Step.
Variable rec : ser -> sink -> list value -> M bytes.
Hypothesis REC : forall s k vs, (nc = true -> nocons s = true) -> fr k (rec s k vs) (fun _ w => sz s w).

Lemma fr_items : forall item k items size, (nc = true -> nocons item = true) -> 0 <= size ->
  fr k (pack_items hb rec item k items size) (fun p _ => size <= snd p).
Proof.
  intros item k items. induction items as [|v vs IH]; intros size N Z0; cbn [pack_items].
  - apply fr_ret. cbn. lia.
  - eapply fr_bind; [eapply fr_sub; [exact Z0|apply REC; exact N]|]. cbn beta. intros b w K S.
    apply fr_size; auto. intros z Z1. eapply fr_bind; [apply IH; auto; lia|].
    intros [bs size'] w1 K1 L. unfold frw. cbn in *. split; [apply R_refl|lia].
Qed.
Lemma fr_subs : forall pre k subs vs size, (nc = true -> forallb nocons subs = true) -> 0 <= size ->
  fr k (pack_subs hb rec pre subs k vs size) (fun p _ => size <= snd p).
Proof.
  intros pre k subs. induction subs as [|s subs IH]; intros vs size N Z0; cbn [pack_subs].
  - apply fr_ret. cbn. lia.
  - eapply (fr_bind k _ _ (fun s' _ => nocons s = true -> nocons s' = true)).
    + destruct pre; [|apply fr_ret; auto]. eapply fr_weak; [apply fr_prep|]. cbn. tauto.
    + intros s' w K P. refine (fr_bind k _ _ _ _ _ _ w K).
      * eapply fr_sub; [exact Z0|apply REC]. intros E. apply P. specialize (N E). cbn in N. now apply andb_prop in N.
      * cbn beta. intros b w1 K1 S1. apply fr_size; auto. intros z Z1. eapply fr_bind; [apply IH; [|lia]|].
        -- intros E. specialize (N E). cbn in N. now apply andb_prop in N.
        -- intros [bs size'] w2 K2 L. unfold frw. cbn in *. split; [apply R_refl|lia].
Qed.
(** the serializer found by prepack, then packed: its size is that of the original one *)
Lemma fr_prepped : forall s o k (f : ser -> M bytes) (Q : bytes -> world -> Prop), (nc = true -> nocons s = true) ->
  (forall s', (nc = true -> nocons s' = true) -> (forall w, sz s' w -> sz s w) -> fr k (f s') Q) ->
  fr k (bind (prep true s o) f) Q.
Proof.
  intros s o k f Q N H. eapply fr_bind; [apply fr_prep|]. cbn. intros s' w K [P1 P2]. apply H; auto.
Qed.
Lemma fr_obj : forall c ov d k, fr k (obj_pack_step ct rec c ov d k) (fun _ w => forall cd, ct c = Some cd -> sz (obj_ser cd ov) w).
Proof.
  intros c ov d k. unfold obj_pack_step. destruct (ct c) as [cd|] eqn:C; [|apply fr_raise].
  apply fr_prepped.
  - intros E. specialize (NC E _ _ C). destruct ov; cbn; [now rewrite wb_nocons|exact NC].
  - intros s' N S. apply fr_seq; [apply fr_lift; auto|]. intros vs. eapply fr_weak; [apply REC; exact N|].
    cbn. intros _ w SZ cd' Q. injection Q as <-. auto.
Qed.

Lemma ss_size_nonneg : forall st, 0 <= ss_size hb st.
Proof. intros st. unfold ss_size. lia. Qed.
Lemma osize_nonneg : forall o, 0 <= osize hb o.
Proof. intros [st|]; cbn; [apply ss_size_nonneg|lia]. Qed.
Lemma choose_nocons : forall m d r s, choose m d r = Ok s ->
  forallb (fun p => nocons (snd p)) m && match d with Some x => nocons x | None => true end = true -> nocons s = true.
Proof.
  intros m d r s E H. apply andb_prop in H as [H1 H2]. unfold choose in E. destruct (hashable r); [|discriminate E].
  assert (G : forall x, map_find r m = Some x -> nocons x = true).
  { clear -H1. induction m as [|[k y] m IH]; intros x F; [discriminate F|]. cbn in *. apply andb_prop in H1 as [A B].
    destruct (key_eqb r k); [injection F as <-; exact A|auto]. }
  destruct (map_find r m) as [x|]; [injection E as <-; auto|]. destruct d as [x|]; [injection E as <-; exact H2|discriminate E].
Qed.
Definition quiet {A} (m : M A) : Prop := forall w, w_size (snd (m w)) = w_size w.
Lemma quiet_struct : forall st k vs, quiet (put_struct hb st k vs).
Proof.
  intros st k vs w. destruct k; cbn [put_struct].
  - reflexivity.
  - destruct (st_pack_into _ _ _ _ _) as [b [e|]]; reflexivity.
  - unfold bind, lift. destruct (st_pack _ _ _) as [b|e]; reflexivity.
Qed.
Lemma quiet_ostruct : forall o k vs, quiet (put_ostruct hb o k vs).
Proof. intros [st|] k vs; [apply quiet_struct|]. intros w. reflexivity. Qed.
Lemma quiet_emit : forall k b, quiet (emit k b).
Proof. intros k b w. destruct k; reflexivity. Qed.
Lemma quiet_bind : forall {A B} (m : M A) (f : A -> M B), quiet m -> (forall a, quiet (f a)) -> quiet (bind m f).
Proof.
  intros A B m f H G w. unfold bind. specialize (H w). destruct (m w) as [[a|e] w']; cbn in *; [|exact H].
  rewrite G. exact H.
Qed.
Lemma quiet_lift : forall {A} (r : res A), quiet (lift r).
Proof. intros A r w. reflexivity. Qed.
(** a serializer that sets its size, then writes *)
Lemma fr_sized : forall s id k z (m : M bytes), (forall w, get_size hb s w = (Ok (w_size w id), w)) -> 0 <= z ->
  quiet m -> fr k m (fun _ _ => True) -> fr k (set_size id z;; m) (fun _ w => sz s w).
Proof.
  intros s id k z m G Z0 Q H w K. unfold frw.
  set (w0 := W (upd (w_size w) id z) (w_obj w) (w_buf w) (w_data w) (w_pos w)).
  assert (K0 : kok k w0) by (destruct k; exact K).
  assert (R0 : R k w w0) by (apply R_same; unfold same; auto).
  change ((set_size id z;; m) w) with (m w0).
  destruct (H w0 K0) as [H1 _]. split; [eapply R_trans; [exact R0|exact H1]|].
  destruct (fst (m w0)); [|exact I]. intros z'. rewrite G, Q. cbn. unfold upd. rewrite Nat.eqb_refl. intros E.
  injection E as <-. exact Z0.
Qed.
Lemma fr_setret : forall {A} s id k z (a : A), (forall w, get_size hb s w = (Ok (w_size w id), w)) -> 0 <= z ->
  fr k (set_size id z;; ret a) (fun _ w => sz s w).
Proof.
  intros A s id k z a G Z0. eapply fr_bind; [apply (fr_set_size k id z (fun _ w => w_size w id = z)); auto|].
  intros [] w K E. split; [apply R_refl|]. cbn. intros z'. rewrite G. cbn. intros Q. injection Q as <-. lia.
Qed.
Lemma fr_true : forall {A} k (m : M A) (Q : A -> world -> Prop), fr k m Q -> fr k m (fun _ _ => True).
Proof. intros A k m Q H. eapply fr_weak; [exact H|]. auto. Qed.
Lemma fr_kpack : forall {A} k (m : M A) Q, fr KPack m Q -> fr k m Q.
Proof.
  intros A k m Q H w K. destruct (H w I) as [H1 H2]. split; [apply R_same; exact H1|exact H2].
Qed.
Lemma fr_lookup : forall s id k vs dec m d, (forall w, get_size hb s w = (Ok (w_size w id), w)) ->
  (nc = true -> forallb (fun p => nocons (snd p)) m && match d with Some x => nocons x | None => true end = true) ->
  fr k (mdo o <- get_obj id; mdo r <- lift (dec o); mdo s0 <- lift (choose m d r); mdo s' <- prep true s0 o;
        mdo b <- rec s' k vs; mdo z <- get_size hb s'; set_size id z;; ret b) (fun _ w => sz s w).
Proof.
  intros s id k vs dec m d G N. apply fr_seq; [apply fr_get_obj|]. intros o. apply fr_seq; [apply fr_lift; auto|]. intros r.
  eapply (fr_bind k _ _ (fun s0 _ => choose m d r = Ok s0)); [apply fr_lift; auto|]. intros s0 w K E.
  apply fr_prepped; auto.
  - intros Q. eapply choose_nocons; eauto.
  - intros s' N' _. eapply fr_bind; [apply REC; exact N'|]. cbn. intros b w1 K1 S1. apply fr_size; auto.
    intros z Z0. now apply fr_setret.
Qed.
Lemma fr_step : forall s k vs, (nc = true -> nocons s = true) -> fr k (pack_step hb ct rec s k vs) (fun _ w => sz s w).
Proof.
  intros s k vs N.
  assert (LF : forall {A B} k (r : res A) (f : A -> M B) Q, (forall a, fr k (f a) Q) -> fr k (bind (lift r) f) Q).
  { intros. apply fr_seq; [apply fr_lift; auto|assumption]. }
  destruct s; cbn [pack_step].
  - apply fr_ret. intros w z E. injection E as <-. lia.
  - eapply fr_weak; [apply fr_struct|]. intros _ w _ z E. injection E as <-. apply ss_size_nonneg.
  - apply fr_ret. intros w z E. injection E as <-. lia.
  - (* counted string *) apply LF. intros raw. apply LF. intros n. apply LF. intros st'.
    apply (fr_sized _ id); auto using ss_size_nonneg, quiet_struct, fr_struct.
  - (* to the end *) apply LF. intros v. apply LF. intros b. assert (B0 : 0 <= blen b) by (unfold blen; lia).
    destruct k.
    + apply (fr_sized _ id); auto using quiet_emit, fr_emit.
    + apply (fr_sized _ id); auto.
      * intros w. reflexivity.
      * intros w K. unfold frw. cbn. split; [|exact I]. split; [reflexivity|]. split; [reflexivity|].
        split; [now apply after_splice|]. intros E. specialize (N E). discriminate N.
    + apply (fr_sized _ id); auto using quiet_emit, fr_emit.
  - (* terminated *) apply LF. intros v. apply LF. intros raw.
    apply (fr_sized _ id); auto.
    + unfold blen. lia.
    + apply quiet_bind; [apply quiet_lift|]. intros o. apply quiet_ostruct.
    + apply LF. intros o. apply fr_ostruct.
  - (* .NET *) apply LF. intros raw. apply LF. intros n. apply LF. intros [st mark].
    apply (fr_sized _ id); auto using ss_size_nonneg.
    + destruct k; try apply quiet_struct. apply quiet_bind; [apply (quiet_struct st KPack)|]. intros b. apply quiet_emit.
    + destruct k; try apply fr_struct. apply fr_seq; [apply fr_kpack; apply (fr_struct st KPack)|]. intros b. apply fr_emit.
  - (* unicode *) apply LF. intros v. destruct v; try apply fr_raise. apply LF. intros b. apply (REC s k _ N).
  - (* static array *) apply LF. intros v. apply LF. intros l. destruct (negb (Nat.eqb l count)); [apply fr_raise|].
    apply LF. intros items. apply LF. intros o. eapply fr_weak; [apply fr_ostruct|]. intros _ w _ z E. cbn in E.
    destruct (ss_mul item (Z.of_nat count)) as [[st|]|]; [| |discriminate E]; injection E as <-; [apply ss_size_nonneg|lia].
  - (* dynamic array *) apply LF. intros v. apply LF. intros l. apply LF. intros st.
    apply (fr_sized _ id); auto using ss_size_nonneg.
    + apply quiet_bind; [apply quiet_lift|]. intros items. apply quiet_struct.
    + apply LF. intros items. apply fr_struct.
  - (* array *) pose proof (osize_nonneg hdr) as H0.
    assert (G : fr k (mdo o <- get_obj id; mdo item' <- prep true s o; mdo v <- lift (nth0 vs); mdo items <- lift (py_iter v);
        mdo (bs, size) <- pack_items hb rec item' KPack items (osize hb hdr);
        mdo l <- lift (py_len v);
        mdo hv <- lift (header_pack_values hdr static (Z.of_nat l) (size - osize hb hdr));
        mdo hb <- put_ostruct hb hdr KPack hv; set_size id size;; emit k (hb ++ bs)) (fun _ w => sz (SArray id hdr s static) w)).
    { apply fr_seq; [apply fr_get_obj|]. intros o. apply fr_prepped; [exact N|]. intros s' N' _. apply LF. intros v. apply LF. intros items.
      eapply fr_bind; [apply fr_kpack; apply fr_items; [exact N'|exact H0]|]. intros [bs size] w K L. cbn [snd] in L.
      revert w K. apply LF. intros l. apply LF. intros hv. apply fr_seq; [apply fr_kpack; apply (fr_ostruct hdr KPack)|]. intros b.
      apply (fr_sized _ id); auto using quiet_emit, fr_emit. lia. }
    destruct k; [exact G| |exact G]. clear G.
    apply LF. intros v. apply fr_seq; [apply fr_get_obj|]. intros o. apply fr_prepped; [exact N|]. intros s' N' _. apply LF. intros items.
    eapply fr_bind; [apply fr_items; [exact N'|exact H0]|]. intros [bs size] w K L. cbn [snd] in L.
    revert w K. apply LF. intros l. apply LF. intros hv. apply (fr_sized _ id); auto using quiet_ostruct, fr_ostruct. lia.
  - (* tuple *) apply LF. intros v. apply fr_seq; [apply fr_get_obj|]. intros o. apply fr_prepped; [exact N|].
    intros s' N' S. apply LF. intros items. eapply fr_weak; [apply (REC s' k items N')|]. cbn. intros _ w H. exact (S w H).
  - apply fr_raise.
  - apply fr_lookup; auto.
  - apply fr_lookup; auto.
  - (* nested class *) apply LF. intros v. destruct v; try apply fr_raise.
    eapply fr_bind; [apply fr_obj|]. cbn. intros b w K S. unfold obj_size. destruct (ct c) as [cd|]; [|apply fr_raise; exact K].
    apply fr_size; auto. intros z Z0. apply (fr_setret (SStructd id cls) id); auto.
  - apply fr_raise.
  - eapply fr_bind; [apply (fr_subs None k subs vs 0 N); lia|]. intros [b size] w K L. revert w K. apply (fr_setret _ id); auto.
  - eapply fr_bind; [apply (fr_subs (Some ctx) k subs vs 0 N); lia|]. intros [b size] w K L. revert w K. apply (fr_setret _ id); auto.
Qed.
End Step.
Lemma fr_pack : forall n s k vs, (nc = true -> nocons s = true) -> fr k (pack hb ct n s k vs) (fun _ w => sz s w).
Proof.
  induction n as [|n IH]; intros s k vs N; cbn [pack]; [apply fr_raise|]. apply fr_step; auto.
Qed.
Lemma fr_do_pack : forall n c ov d k, fr k (obj_pack_step ct (pack hb ct n) c ov d k) (fun _ _ => True).
Proof. intros n c ov d k. eapply fr_true. apply fr_obj. intros. now apply fr_pack. Qed.
End Frame.

(** ** unpacking *)
Section UnpackFrame.
Variable hb : bool.
Variable ct : nat -> option cdef.
(** buffers and the contents of streams are not changed; the position only by the stream method *)
Definition ur (s : src) (w w' : world) : Prop :=
  w_buf w' = w_buf w /\ w_data w' = w_data w /\ (s <> SRead -> w_pos w' = w_pos w) /\ (0 <= w_pos w -> 0 <= w_pos w').
Lemma ur_refl : forall s w, ur s w w.
Proof. intros s w. unfold ur. auto. Qed.
Lemma ur_trans : forall s a b c, ur s a b -> ur s b c -> ur s a c.
Proof.
  intros s a b c (A & B & C & D) (A' & B' & C' & D'). repeat split; try congruence; auto.
  intros N. rewrite C', C; auto.
Qed.
Lemma ur_sub : forall s z w w', ur (ssub s z) w w' -> ur s w w'.
Proof. intros s z w w' (A & B & C & D). repeat split; auto. intros N. apply C. destruct s; cbn; congruence. Qed.
Definition uf {A} (s : src) (m : M A) : Prop := forall w, ur s w (snd (m w)).
Lemma uf_bind : forall {A B} s (m : M A) (f : A -> M B), uf s m -> (forall a, uf s (f a)) -> uf s (bind m f).
Proof.
  intros A B s m f H G w. unfold bind. specialize (H w). destruct (m w) as [[a|e] w1]; cbn [snd] in *; [|exact H].
  eapply ur_trans; [exact H|apply G].
Qed.
Lemma uf_ret : forall {A} s (a : A), uf s (ret a).
Proof. intros A s a w. apply ur_refl. Qed.
Lemma uf_raise : forall {A} s e, uf s (@raise A e).
Proof. intros A s e w. apply ur_refl. Qed.
Lemma uf_lift : forall {A} s (r : res A), uf s (lift r).
Proof. intros A s r w. apply ur_refl. Qed.
Lemma uf_set_size : forall s id z, uf s (set_size id z).
Proof. intros s id z w. cbn. unfold ur. auto. Qed.
Lemma uf_set_obj : forall s id o, uf s (set_obj id o).
Proof. intros s id o w. cbn. unfold ur. auto. Qed.
Lemma uf_get_obj : forall s id, uf s (get_obj id).
Proof. intros s id w. unfold get_obj. destruct (w_obj w id); apply ur_refl. Qed.
Lemma uf_get_size : forall s x, uf s (get_size hb x).
Proof. intros s x w. rewrite size_keeps. apply ur_refl. Qed.
Lemma uf_read : forall n, uf SRead (io_read n).
Proof.
  intros n w. cbn. unfold ur. cbn. repeat split; auto; [congruence|]. intros P. unfold blen. lia.
Qed.
Lemma uf_tell : forall s, uf s io_tell.
Proof. intros s w. apply ur_refl. Qed.
Lemma uf_seek : forall p, uf SRead (io_seek p).
Proof. intros p w. cbn. unfold ur. cbn. repeat split; auto; [congruence|]. lia. Qed.
Lemma uf_sub : forall {A} s z (m : M A), uf (ssub s z) m -> uf s m.
Proof. intros A s z m H w. eapply ur_sub. apply H. Qed.
Hint Resolve @uf_ret @uf_raise @uf_lift uf_set_size uf_set_obj uf_get_obj uf_get_size uf_read uf_tell uf_seek : uf.
Ltac uf := repeat (match goal with |- uf _ (bind _ _) => apply uf_bind; [auto with uf|intros; cbv beta] end); auto with uf.
Lemma uf_struct : forall st s, uf s (take_struct hb st s).
Proof.
  intros st s. unfold take_struct. apply uf_bind; [|intros; apply uf_lift]. destruct s; uf.
Qed.
Hint Resolve uf_struct : uf.
Lemma uf_ostruct : forall o s, uf s (take_ostruct hb o s).
Proof. intros [st|] s; cbn; auto with uf. Qed.
Hint Resolve uf_ostruct : uf.
Lemma uf_prep : forall s pk x o, uf s (prep pk x o).
Proof. intros s pk x o. destruct x; cbn; uf. Qed.
Hint Resolve uf_prep : uf.
Lemma uf_term_read : forall fuel t start size out, uf SRead (term_read fuel t start size out).
Proof.
  induction fuel as [|f IH]; intros t start size out; cbn [term_read]; [uf|].
  apply uf_bind; [uf|]. intros c. destruct c; [uf|]. destruct (byte_find t _); [uf|apply IH].
Qed.
Section Step.
Variable rec : ser -> src -> M (list value).
Hypothesis REC : forall x s, uf s (rec x s).
Hint Resolve REC : uf.
Lemma uf_items : forall item s n size, uf s (unpack_items hb rec item s n size).
Proof.
  intros item s n. induction n as [|n IH]; intros size; cbn [unpack_items]; [uf|].
  apply uf_bind; [eapply uf_sub; apply REC|]. intros vs. apply uf_bind; [uf|]. intros z. apply uf_bind; [apply IH|].
  intros [r z']. uf.
Qed.
Lemma uf_subs : forall pre s subs size, uf s (unpack_subs hb rec pre subs s size).
Proof.
  intros pre s subs. induction subs as [|x subs IH]; intros size; cbn [unpack_subs]; [uf|].
  apply uf_bind; [destruct pre; uf|]. intros x'. apply uf_bind; [eapply uf_sub; apply REC|]. intros vs.
  apply uf_bind; [uf|]. intros z. apply uf_bind; [apply IH|]. intros [r z']. uf.
Qed.
(** names that are not assigned *)
Lemma assign_other : forall a vs names d, ~ In a names -> assoc a (snd (assign names vs d)) = assoc a d /\
  forall names', fst (assign names vs d) = Some names' -> ~ In a names'.
Proof.
  intros a vs. induction vs as [|v vs IH]; intros names d N.
  - replace (assign names [] d) with (Some names, d) by (destruct names; reflexivity).
    split; [reflexivity|]. intros names' E. injection E as <-. exact N.
  - destruct names as [|b names]; [split; [reflexivity|discriminate]|]. cbn [assign]. cbn in N.
    destruct (IH names (assoc_set b v d)) as [A B]; [tauto|]. split; [|exact B]. rewrite A, assoc_set_eq.
    destruct (String.eqb_spec a b); [|reflexivity]. subst. tauto.
Qed.
Definition keeps (s : src) (names : list string) (d : list (string * value)) (w : world)
  (r : list (string * value) * world) : Prop :=
  ur s w (snd r) /\ forall a, ~ In a names -> assoc a (fst r) = assoc a d.
Lemma uf_fill_subs : forall pre s subs size names d w,
  keeps s names d w (snd (fst (fill_subs hb rec pre subs s size names d w)), snd (fill_subs hb rec pre subs s size names d w)).
Proof.
  intros pre s subs. induction subs as [|x subs IH]; intros size names d w; cbn [fill_subs].
  - split; [apply ur_refl|auto].
  - match goal with |- context [match ?m w with _ => _ end] => set (mm := m) end.
    assert (U : uf s mm).
    { subst mm. apply uf_bind; [destruct pre; uf|]. intros x'. apply uf_bind; [eapply uf_sub; apply REC|]. intros. uf. }
    specialize (U w). destruct (mm w) as [[[x' vs]|e] w1]; cbn [snd] in U; [|split; [exact U|auto]].
    destruct (assign names vs d) as [[names'|] d'] eqn:AS.
    + assert (AO : forall a, ~ In a names -> assoc a d' = assoc a d /\ ~ In a names').
      { intros a N. destruct (assign_other a vs names d N) as [A B]. rewrite AS in A, B. split; [exact A|]. apply B. reflexivity. }
      pose proof (uf_get_size s x' w1) as U2. destruct (get_size hb x' w1) as [[z|e] w2]; cbn [snd] in U2.
      * destruct (IH (size + z) names' d' w2) as [I1 I2]. split; [eapply ur_trans; [exact U|eapply ur_trans; [exact U2|exact I1]]|].
        intros a N. destruct (AO a N) as [A B]. cbn [fst snd] in *. rewrite I2; auto.
      * split; [eapply ur_trans; eauto|]. intros a N. exact (proj1 (AO a N)).
    + split; [exact U|]. intros a N. destruct (assign_other a vs names d N) as [A _]. rewrite AS in A. exact A.
Qed.
Lemma uf_fill : forall x s names d w,
  keeps s names d w (snd (fst (fill hb rec x s names d w)), snd (fill hb rec x s names d w)).
Proof.
  intros x s names d w. unfold fill.
  assert (CMP : forall pre id subs, let r := match fill_subs hb rec pre subs s 0 names d w with
      | (Err e, d', w') => (Err e, d', w')
      | (Ok (names', size), d', w') =>
          match names' with
          | [] => (Ok tt, d', snd (set_size id size w'))
          | _ => (Err ValueError, d', snd (set_size id size w'))
          end
      end in keeps s names d w (snd (fst r), snd r)).
  { intros pre id subs. pose proof (uf_fill_subs pre s subs 0 names d w) as [H1 H2].
    destruct (fill_subs hb rec pre subs s 0 names d w) as [[[[names' size]|e] d'] w']; cbn [fst snd] in *.
    - destruct names'; cbn [fst snd]; (split; [eapply ur_trans; [exact H1|apply uf_set_size]|exact H2]).
    - split; assumption. }
  assert (ONE : let r := match rec x s w with
      | (Err e, w') => (Err e, d, w')
      | (Ok vs, w') =>
          match assign names vs d with
          | (None, d') => (Err ValueError, d', w')
          | (Some names', d') => match names' with [] => (Ok tt, d', w') | _ => (Err ValueError, d', w') end
          end
      end in keeps s names d w (snd (fst r), snd r)).
  { pose proof (REC x s w) as U. destruct (rec x s w) as [[vs|e] w']; cbn [snd] in U; [|split; [exact U|auto]].
    assert (AO : forall a, ~ In a names -> assoc a (snd (assign names vs d)) = assoc a d) by (intros a N; now apply assign_other).
    destruct (assign names vs d) as [[[|b names']|] d']; cbn [fst snd] in *; split; assumption. }
  destruct x; first [exact ONE | apply (CMP None) | apply (CMP (Some _))].
Qed.
Lemma uf_create : forall c s, uf s (create_step hb ct rec c s).
Proof.
  intros c s w. unfold create_step. destruct (ct c) as [cd|]; [|apply ur_refl].
  pose proof (uf_prep s false (c_ser cd) (PO c true []) w) as U. destruct (prep false (c_ser cd) (PO c true []) w) as [[x|e] w']; cbn [snd] in *; [|exact U].
  destruct (uf_fill x s (c_attrs cd) [] w') as [F _]. destruct (fill hb rec x s (c_attrs cd) [] w') as [[[[]|e] d] w'']; cbn [fst snd] in *;
    eapply ur_trans; eauto.
Qed.
Lemma uf_step : forall x s, uf s (unpack_step hb ct rec x s).
Proof.
  intros x s. destruct x; cbn [unpack_step]; try (uf; fail).
  - apply uf_bind; [uf|]. intros cs. apply uf_bind; [uf|]. intros cv. apply uf_bind; [uf|]. intros count. apply uf_bind; [uf|]. intros [].
    destruct s; [uf| |]; (apply uf_bind; [uf|]; intros o; eapply uf_sub; apply uf_ostruct).
  - destruct s; uf. apply uf_read.
  - destruct s; uf. intros w. apply uf_bind; [apply uf_term_read|]. intros [out size]. uf.
  - assert (G : forall s, uf s (mdo cs <- take_struct hb net_short s; mdo cv <- lift (nth0 cs); mdo c0 <- lift (as_int cv);
          mdo (size, count) <-
            (if 128 <=? c0 then
               mdo cs' <- take_struct hb net_long s;
               mdo cv' <- lift (nth0 cs'); mdo c1 <- lift (as_int cv'); mdo count <- lift (net_decode c1);
               ret (ss_size hb net_long, count)
             else ret (ss_size hb net_short, c0));
          set_size id (size + count);;
          match s with
          | SBuf b => ret [VBytes (py_slice b size (size + count))]
          | _ => take_struct hb (SS BO_DEFAULT [T (Some (Z.to_nat count)) Cs] None) (ssub s size)
          end)).
    { clear s. intros s. apply uf_bind; [uf|]. intros cs. apply uf_bind; [uf|]. intros cv. apply uf_bind; [uf|]. intros c0.
      apply uf_bind; [destruct (128 <=? c0); uf|]. intros [size count]. apply uf_bind; [uf|]. intros [].
      destruct s; [uf| |]; eapply uf_sub; apply uf_struct. }
    destruct s; [exact (G (SBuf b))|exact (G (SFrom b off))|]. clear G.
    apply uf_bind; [uf|]. intros p. apply uf_bind; [uf|]. intros cs. apply uf_bind; [uf|]. intros cv. apply uf_bind; [uf|]. intros c0.
    apply uf_bind; [destruct (128 <=? c0); uf|]. intros [size count]. uf.
  - apply uf_bind; [uf|]. intros cs. apply uf_bind; [uf|]. intros cv. apply uf_bind; [uf|]. intros count. apply uf_bind; [uf|]. intros o.
    apply uf_bind; [eapply uf_sub; apply uf_ostruct|]. intros vs. uf.
  - apply uf_bind; [uf|]. intros hv. apply uf_bind; [uf|]. intros [count dsz]. apply uf_bind; [uf|]. intros o. apply uf_bind; [uf|]. intros item'.
    apply uf_bind; [apply uf_items|]. intros [items size]. uf.
  - apply uf_bind; [uf|]. intros o. apply uf_bind; [uf|]. intros inner'. destruct (is_compound inner'); uf.
  - apply uf_bind; [uf|]. intros rs. apply uf_bind; [uf|]. intros r. apply uf_bind; [destruct s; uf|]. intros []. uf.
  - apply uf_bind; [apply uf_create|]. intros v. unfold obj_size. destruct (ct cls); uf.
  - apply uf_bind; [apply uf_subs|]. intros [vs size]. uf.
  - apply uf_bind; [apply uf_subs|]. intros [vs size]. uf.
Qed.
End Step.
Lemma uf_unpack : forall n x s, uf s (unpack hb ct n x s).
Proof. induction n as [|n IH]; intros x s; cbn [unpack]; [apply uf_raise|]. apply uf_step. exact IH. Qed.
Lemma uf_refill : forall n c ov d s w cd, ct c = Some cd ->
  keeps s (c_attrs cd) d w (snd (fst (refill_step hb ct (unpack hb ct n) c ov d s w)), snd (refill_step hb ct (unpack hb ct n) c ov d s w)).
Proof.
  intros n c ov d s w cd C. unfold refill_step. rewrite C.
  pose proof (uf_prep s false (obj_ser cd ov) (PO c false d) w) as U.
  destruct (prep false (obj_ser cd ov) (PO c false d) w) as [[x|e] w']; cbn [snd] in U; [|split; [exact U|auto]].
  destruct (uf_fill (unpack hb ct n) (uf_unpack n) x s (c_attrs cd) d w') as [F1 F2]. split; [eapply ur_trans; [exact U|exact F1]|exact F2].
Qed.
End UnpackFrame.
