(** RecursionError comes from the recursion limit only: with a sufficient limit, and user callables that do
    not raise it themselves, packing does not raise it. *)
From Verif Require Import Base Floats Value StructMod Format Ser Exec Pure SerFacts Fuel FuelExec.

Definition nre {A} (r : res A) : Prop := r <> Err RecursionError.
Lemma nre_bind : forall A B (r : res A) (f : A -> res B), nre r -> (forall a, nre (f a)) -> nre (rbind r f).
Proof. intros A B [a|e] f H F; cbn; [apply F|]. unfold nre in *. congruence. Qed.
Lemma nre_rmap : forall A B (f : A -> B) r, nre r -> nre (Base.rmap f r).
Proof. intros A B f [a|e] H; unfold nre in *; cbn; congruence. Qed.

(** no callable used by [s] when packing raises RecursionError *)
Definition call_ok {A B} (f : A -> res B) : Prop := forall a, nre (f a).
Fixpoint calls_ok (s : ser) : Prop :=
  match s with
  | SUnicode x cd => call_ok (cod_enc cd) /\ calls_ok x
  | SArray _ _ x _ | STuple _ x => calls_ok x
  | SCond f x _ => call_ok f /\ calls_ok x
  | SLookback _ f m d | SLookahead _ _ f m d =>
      call_ok f /\ (fix go l := match l with [] => True | p :: l' => calls_ok (snd p) /\ go l' end) m
      /\ match d with Some x => calls_ok x | None => True end
  | SCompound _ subs | SSpec _ subs _ =>
      (fix go l := match l with [] => True | x :: l' => calls_ok x /\ go l' end) subs
  | _ => True
  end.

Lemma calls_with_bo : forall bo s, calls_ok s -> calls_ok (with_bo bo s).
Proof.
  intros bo. induction s using ser_ind'; cbn; auto; try (intros [? ?]; auto; fail); intros C.
  - induction l as [|x l IH]; cbn in *; [exact I|]. inversion H; subst. destruct C. split; [auto|]. exact (IH H3 H1).
  - induction l as [|x l IH]; cbn in *; [exact I|]. inversion H; subst. destruct C. split; [auto|]. exact (IH H3 H1).
Qed.

Lemma nre_as_bytes : forall v, nre (as_bytes v). Proof. destruct v; discriminate. Qed.
Lemma nre_nth0 : forall v, nre (nth0 v). Proof. destruct v; discriminate. Qed.
Lemma nre_py_len : forall v, nre (py_len v). Proof. destruct v; discriminate. Qed.
Lemma nre_py_iter : forall v, nre (py_iter v). Proof. destruct v; discriminate. Qed.
Lemma nre_one : forall v, nre (one v TypeError). Proof. destruct v as [|a [|b l]]; discriminate. Qed.
Lemma nre_add : forall a b, nre (ss_add a b).
Proof. intros a b. unfold ss_add. destruct (s_act a), (s_act b); try discriminate. destruct (border_eqb _ _); discriminate. Qed.
Lemma nre_mul_impl : forall cs a n, nre (ss_mul_impl cs a n).
Proof. intros. unfold ss_mul_impl. destruct (n =? 0); [discriminate|]. destruct (n <? 0); [discriminate|]. destruct (n =? 1); discriminate. Qed.
Lemma nre_mul : forall a n, nre (ss_mul a n).
Proof. intros. apply nre_bind; [apply nre_mul_impl|]. intros. discriminate. Qed.
Lemma nre_dynchar_st : forall st n, nre (dynchar_st st n).
Proof. intros. apply nre_bind; [apply nre_mul_impl|]. intros [c|]; [apply nre_add|discriminate]. Qed.
Lemma nre_net_st : forall n, nre (net_st n).
Proof.
  intros. unfold net_st. destruct (n <? 128); [apply nre_bind; [apply nre_dynchar_st|discriminate]|].
  destruct (_ <? n); [discriminate|]. apply nre_bind; [apply nre_dynchar_st|discriminate].
Qed.
Lemma nre_dynarr_st : forall c i n, nre (dynarr_st c i n).
Proof. intros. unfold dynarr_st. destruct (n =? 0); [discriminate|]. apply nre_bind; [apply nre_mul|]. intros [st|]; [apply nre_add|discriminate]. Qed.
Lemma nre_hdr : forall h st c d, nre (header_pack_values h st c d).
Proof. intros. unfold header_pack_values. destruct (0 <=? st); [destruct (negb _); discriminate|discriminate]. Qed.
Lemma nre_attrs : forall names d, nre (get_attrs names d).
Proof.
  induction names; intros d; [discriminate|]. unfold get_attrs. cbn. apply nre_bind; [destruct (assoc a d); discriminate|].
  intros. apply nre_bind; [apply IHnames|]. discriminate.
Qed.
Lemma nre_choose : forall m d k, nre (choose m d k).
Proof. intros. unfold choose. destruct (hashable k); [|discriminate]. destruct (map_find k m); [discriminate|]. destruct d; discriminate. Qed.
Lemma nre_pack_unit : forall m off u vs, nre (pack_unit m off u vs).
Proof.
  intros. destruct u; cbn; try discriminate; destruct vs as [|v vs]; try discriminate; try (destruct v; discriminate).
  apply nre_bind; [|discriminate]. unfold pack_val. destruct (int_code c).
  - destruct (as_index v); [destruct (in_range _ _ _)|]; discriminate.
  - destruct c; try discriminate.
    + destruct v; try discriminate. destruct b as [|x [|y l]]; discriminate.
    + destruct (as_float v); [|discriminate]. destruct (narrow _ _ _); discriminate.
    + destruct (as_float v); [|discriminate]. destruct (narrow _ _ _); [discriminate|]. destruct (m_native m); discriminate.
    + destruct (as_float v); discriminate.
Qed.
Lemma nre_pack_u : forall m us off vs, snd (pack_u m off us vs) <> Some RecursionError.
Proof.
  induction us as [|u us IH]; intros off vs; [discriminate|]. cbn [pack_u].
  pose proof (nre_pack_unit m off u vs). destruct (pack_unit m off u vs) as [[b vs']|e]; [|cbn; unfold nre in *; congruence].
  specialize (IH (off + List.length b)%nat vs'). destruct (pack_u m _ us vs') as [bs e]. exact IH.
Qed.
Lemma nre_st_pack : forall m f vs, nre (st_pack m f vs).
Proof.
  intros. unfold st_pack. destruct (Nat.eqb _ _); [|discriminate]. pose proof (nre_pack_u m (expand f) 0 vs).
  destruct (pack_u m 0 (expand f) vs) as [b [e|]]; [|discriminate]. unfold nre. cbn in *. congruence.
Qed.
Lemma nre_st_pack_into : forall m f buf off vs, snd (st_pack_into m f buf off vs) <> Some RecursionError.
Proof.
  intros. unfold st_pack_into. destruct (Nat.eqb _ _); [|discriminate]. destruct (st_offset _ _ _); [|discriminate].
  pose proof (nre_pack_u m (expand f) 0 vs). destruct (pack_u m 0 (expand f) vs) as [b e]. exact H.
Qed.

(** the same for computations with state *)
Definition mnr {A} (m : M A) : Prop := forall w, nre (fst (m w)).
Lemma mnr_bind : forall A B (m : M A) (f : A -> M B), mnr m -> (forall a, mnr (f a)) -> mnr (bind m f).
Proof.
  intros A B m f H F w. unfold bind. specialize (H w). destruct (m w) as [[a|e] w']; [apply F|].
  unfold nre in *. cbn in *. congruence.
Qed.
Lemma mnr_lift : forall A (r : res A), nre r -> mnr (lift r). Proof. intros A r H w. exact H. Qed.
Lemma mnr_liftb : forall A B (r : res A) (f : A -> M B), nre r -> (forall a, r = Ok a -> mnr (f a)) -> mnr (bind (lift r) f).
Proof. intros A B r f H F w. unfold bind, lift. destruct r; [now apply F|]. unfold nre in *. cbn. congruence. Qed.
Lemma mnr_ret : forall A (a : A), mnr (ret a). Proof. intros A a w. discriminate. Qed.
Lemma mnr_raise : forall A e, e <> RecursionError -> mnr (@raise A e). Proof. intros A e H w. unfold nre. cbn. congruence. Qed.
Lemma mnr_set_size : forall i z, mnr (set_size i z). Proof. intros i z w. discriminate. Qed.
Lemma mnr_set_obj : forall i z, mnr (set_obj i z). Proof. intros i z w. discriminate. Qed.
Lemma mnr_get_obj : forall i, mnr (get_obj i). Proof. intros i w. unfold get_obj. destruct (w_obj w i); discriminate. Qed.
Lemma mnr_write : forall b, mnr (io_write b). Proof. intros b w. discriminate. Qed.
Section NoRec.
Variable hb : bool.
Variable ct : nat -> option cdef.
Hypothesis CT : forall c cd, ct c = Some cd -> calls_ok (c_ser cd).

Lemma mnr_get_size : forall s, mnr (get_size hb s).
Proof.
  induction s using ser_ind'; cbn [get_size]; try (intros w; discriminate); auto.
  intros w. cbn. apply nre_bind; [apply nre_mul|]. discriminate.
Qed.
Lemma mnr_put : forall st k vs, mnr (put_struct hb st k vs).
Proof.
  intros st k vs. destruct k; cbn [put_struct].
  - apply mnr_lift, nre_st_pack.
  - intros w. pose proof (nre_st_pack_into (ss_mode hb st) (s_fmt st) (w_buf w) off vs).
    destruct (st_pack_into _ _ _ _ _) as [b' [e|]]; [|discriminate]. unfold nre. cbn in *. congruence.
  - apply mnr_bind; [apply mnr_lift, nre_st_pack|]. intros b. apply mnr_bind; [apply mnr_write|]. intros. apply mnr_ret.
Qed.
Lemma mnr_oput : forall o k vs, mnr (put_ostruct hb o k vs).
Proof. intros [st|] k vs; [apply mnr_put|apply mnr_ret]. Qed.
Lemma mnr_emit : forall k b, mnr (emit k b).
Proof. intros k b w. destruct k; discriminate. Qed.

Definition fix_subs (subs : list ser) : Prop := Forall calls_ok subs.
Lemma calls_subs : forall subs, (fix go l := match l with [] => True | x :: l' => calls_ok x /\ go l' end) subs -> Forall calls_ok subs.
Proof. induction subs; intros H; [constructor|]. destruct H. constructor; auto. Qed.
Lemma calls_choose : forall m d k s0, choose m d k = Ok s0 ->
  (fix go (l : list (value * ser)) := match l with [] => True | p :: l' => calls_ok (snd p) /\ go l' end) m ->
  match d with Some x => calls_ok x | None => True end -> calls_ok s0.
Proof.
  intros m d k s0 C M D. unfold choose in C. destruct (hashable k); [|discriminate].
  assert (F : forall x, map_find k m = Some x -> calls_ok x).
  { clear -M. induction m as [|[k' y] m IH]; cbn in *; [discriminate|]. destruct M as [M1 M2].
    destruct (key_eqb k k'); [intros x E; injection E as <-; exact M1|auto]. }
  destruct (map_find k m); [injection C as <-; auto|]. destruct d; [injection C as <-; exact D|discriminate].
Qed.
(** running [prep] first *)
Lemma mnr_prep : forall A b s o (f : ser -> M A), calls_ok s ->
  (forall s', (shgt s' <= shgt s)%nat -> calls_ok s' -> mnr (f s')) -> mnr (bind (prep b s o) f).
Proof.
  intros A b s o f C F.
  assert (P : mnr (prep b s o) /\ forall w s' w', prep b s o w = (Ok s', w') -> calls_ok s').
  { destruct s; cbn [prep]; try (split; [intros w; discriminate|intros w s' w' E; injection E as <- _; exact C]).
    - destruct C as [C1 C2]. split.
      + apply mnr_lift. apply nre_bind; [apply C1|]. intros v. unfold cond_branch.
        destruct (key_eqb v _); [discriminate|]. destruct (key_eqb v _); [discriminate|]. destruct (hashable v); discriminate.
      + intros w s' w' E. unfold lift in E. destruct (cond o) as [v|]; [|discriminate]. cbn in E. unfold cond_branch in E.
        destruct (key_eqb v (VBool true)); [injection E as <- _; exact C2|].
        destruct (key_eqb v (VBool false)); [injection E as <- _; exact I|].
        destruct (hashable v); discriminate.
    - split.
      + apply mnr_lift. apply nre_bind; [|discriminate]. unfold self_class. destruct b; [discriminate|].
        destruct (assoc _ _); [discriminate|]. destruct (p_proxy o); discriminate.
      + intros w s' w' E. unfold lift in E. destruct (self_class b o); [|discriminate]. cbn in E. injection E as <- _. exact I.
    - split; [intros w; discriminate|]. intros w s' w' E. injection E as <- _. destruct (existsb needs_pre subs); exact C. }
  destruct P as [P1 P2]. intros w. unfold bind. specialize (P1 w). destruct (prep b s o w) as [[s'|e] w'] eqn:E.
  - apply F; [eapply prep_need; eauto|eauto].
  - unfold nre in *. cbn in *. congruence.
Qed.

Section Step.
Variables (rec : ser -> sink -> list value -> M bytes) (N : nat).
Hypothesis R : forall s k vs, (need ct s vs <= N)%nat -> calls_ok s -> mnr (rec s k vs).

Lemma mnr_items : forall item k items size, (shgt item + lmax (map (vneed ct) items) <= N)%nat -> calls_ok item ->
  mnr (pack_items hb rec item k items size).
Proof.
  induction items as [|v items IH]; intros size H C; [apply mnr_ret|]. cbn [pack_items]. cbn in H.
  apply mnr_bind; [apply R; [unfold need; cbn; lia|exact C]|]. intros b. apply mnr_bind; [apply mnr_get_size|]. intros z.
  apply mnr_bind; [apply IH; [lia|exact C]|]. intros []. apply mnr_ret.
Qed.
Lemma mnr_subs : forall pre subs k vs size,
  (lmax (map shgt subs) + lmax (map (vneed ct) vs) <= N)%nat -> Forall calls_ok subs ->
  mnr (pack_subs hb rec pre subs k vs size).
Proof.
  induction subs as [|s subs IH]; intros k vs size H C; [apply mnr_ret|]. cbn [pack_subs]. cbn in H. inversion C; subst.
  assert (G : forall s', (shgt s' <= shgt s)%nat -> calls_ok s' -> mnr
     (let n := num_values s' in
      mdo b <- rec s' (ksub k size) (firstn n vs); mdo z <- get_size hb s';
      mdo (bs, size') <- pack_subs hb rec pre subs k (skipn n vs) (size + z); ret (b ++ bs, size'))).
  { intros s' L CS. cbv zeta.
    pose proof (vmax_sub ct (firstn (num_values s') vs) vs (firstn_sub _ _)).
    pose proof (vmax_sub ct (skipn (num_values s') vs) vs (skipn_sub _ _)).
    apply mnr_bind; [apply R; [unfold need; lia|exact CS]|]. intros b. apply mnr_bind; [apply mnr_get_size|]. intros z.
    apply mnr_bind; [apply IH; [lia|assumption]|]. intros []. apply mnr_ret. }
  destruct pre as [o|]; [apply mnr_prep; assumption|]. apply (mnr_liftb _ _ (Ok s)); [discriminate|]. intros a E. injection E as <-. now apply G.
Qed.
Lemma mnr_obj : forall c ov d k, (vneed ct (VObj c ov d) <= S N)%nat -> mnr (obj_pack_step ct rec c ov d k).
Proof.
  intros c ov d k H. unfold obj_pack_step. cbn [vneed] in H. destruct (ct c) as [cd|] eqn:E; [|apply mnr_raise; discriminate].
  apply mnr_prep.
  - apply CT in E. unfold obj_ser. destruct ov; [now apply calls_with_bo|exact E].
  - intros s' L C. apply mnr_liftb; [apply nre_attrs|]. intros vs A. apply attrs_need with (ct := ct) in A. apply R; [unfold need; lia|exact C].
Qed.
Ltac mnr_go := repeat first
  [ apply mnr_ret | apply mnr_set_size | apply mnr_get_obj | apply mnr_get_size | apply mnr_put | apply mnr_oput | apply mnr_emit
  | apply mnr_raise; discriminate
  | apply mnr_lift | apply mnr_liftb; [|intros] | apply mnr_bind; [|intros]
  | apply nre_st_pack | apply nre_as_bytes | apply nre_nth0 | apply nre_py_len | apply nre_py_iter | apply nre_one | apply nre_mul_impl
  | apply nre_mul | apply nre_dynchar_st | apply nre_net_st | apply nre_dynarr_st | apply nre_hdr | apply nre_choose
  | match goal with |- mnr (if ?b then _ else _) => destruct b | |- mnr (match ?p with _ => _ end) => destruct p end ].
Lemma mnr_pack_step : forall s k vs, (need ct s vs <= S N)%nat -> calls_ok s -> mnr (pack_step hb ct rec s k vs).
Proof.
  intros s k vs H C. unfold need in H. destruct s; cbn [pack_step]; cbn [shgt] in H; try (mnr_go; fail).
  - (* Unicode *)
    destruct C as [C1 C2].
    apply mnr_liftb; [apply nre_nth0|]. intros v E. destruct v; mnr_go.
    + apply C1.
    + apply R; [unfold need; cbn; lia|exact C2].
  - (* Array *)
    cbn in C.
    assert (G : forall item' v items k' size, (shgt item' <= shgt s)%nat -> calls_ok item' -> nth0 vs = Ok v -> py_iter v = Ok items ->
      mnr (pack_items hb rec item' k' items size)).
    { intros item' v items k' size L CI N0 I. apply mnr_items; [|exact CI]. apply (nth0_need ct) in N0. apply (iter_need ct) in I. lia. }
    destruct k.
    + apply mnr_bind; [apply mnr_get_obj|]. intros o. apply mnr_prep; [exact C|]. intros item' L CI.
      apply mnr_liftb; [apply nre_nth0|]. intros v N0. apply mnr_liftb; [apply nre_py_iter|]. intros items I.
      apply mnr_bind; [eapply G; eauto|]. intros. mnr_go.
    + apply mnr_liftb; [apply nre_nth0|]. intros v N0. apply mnr_bind; [apply mnr_get_obj|]. intros o. apply mnr_prep; [exact C|]. intros item' L CI.
      apply mnr_liftb; [apply nre_py_iter|]. intros items I.
      apply mnr_bind; [eapply G; eauto|]. intros. mnr_go.
    + apply mnr_bind; [apply mnr_get_obj|]. intros o. apply mnr_prep; [exact C|]. intros item' L CI.
      apply mnr_liftb; [apply nre_nth0|]. intros v N0. apply mnr_liftb; [apply nre_py_iter|]. intros items I.
      apply mnr_bind; [eapply G; eauto|]. intros. mnr_go.
  - (* Tuple *)
    cbn in C. apply mnr_liftb; [apply nre_one|]. intros v N0. apply mnr_bind; [apply mnr_get_obj|]. intros o.
    apply mnr_prep; [exact C|]. intros s' L CI. apply mnr_liftb; [apply nre_py_iter|]. intros items I.
    apply R; [|exact CI]. unfold need. apply (one_need ct) in N0. apply (iter_need ct) in I. lia.
  - (* Lookback *)
    destruct C as (C1 & C2 & C3).
    apply mnr_bind; [apply mnr_get_obj|]. intros o. apply mnr_liftb; [apply C1|]. intros r _. apply mnr_liftb; [apply nre_choose|]. intros s0 CH.
    pose proof (calls_choose _ _ _ _ CH C2 C3). apply choose_shgt in CH.
    apply mnr_prep; [assumption|]. intros s' L CI. apply mnr_bind; [|intros; mnr_go]. apply R; [unfold need; lia|exact CI].
  - destruct C as (C1 & C2 & C3).
    apply mnr_bind; [apply mnr_get_obj|]. intros o. apply mnr_liftb; [apply C1|]. intros r _. apply mnr_liftb; [apply nre_choose|]. intros s0 CH.
    pose proof (calls_choose _ _ _ _ CH C2 C3). apply choose_shgt in CH.
    apply mnr_prep; [assumption|]. intros s' L CI. apply mnr_bind; [|intros; mnr_go]. apply R; [unfold need; lia|exact CI].
  - (* Structd *)
    apply mnr_liftb; [apply nre_one|]. intros v N0. apply (one_need ct) in N0. destruct v; try (apply mnr_raise; discriminate).
    apply mnr_bind; [apply mnr_obj; lia|]. intros. apply mnr_bind; [|intros; mnr_go].
    unfold obj_size. destruct (ct c); [apply mnr_get_size|apply mnr_raise; discriminate].
  - apply mnr_bind; [|intros; mnr_go]. apply mnr_subs; [lia|]. now apply calls_subs.
  - apply mnr_bind; [|intros; mnr_go]. apply mnr_subs; [lia|]. now apply calls_subs.
Qed.
End Step.

Lemma pack_no_rec : forall n s k vs, (need ct s vs <= n)%nat -> calls_ok s -> mnr (pack hb ct n s k vs).
Proof.
  induction n as [|n IH]; intros s k vs H C.
  - pose proof (shgt_pos ct s). unfold need in H. lia.
  - cbn [pack]. eapply mnr_pack_step; eauto.
Qed.
End NoRec.
