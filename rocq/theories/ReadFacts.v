(** Facts for Reads.v: agreement of computations that run on fuel with a description that does not, and reading
    struct formats at an offset. *)
From Verif Require Import Base Floats Value StructMod Format Ser Exec Pure BaseFacts StructFacts FormatFacts
  SerFacts Leaf Wire Field Fuel DecFacts RoundTrip Adding PropsAdd PropsStrings Hints HintFacts Surface SerShape Programs Accept AcceptProg
  WireSpec WireFacts Wires ReadSpec.

(** ** agreement *)
Definition opt {A} (r : res A) : option A := match r with Ok a => Some a | Err _ => None end.
Definition obind {A B} (a : option A) (f : A -> option B) : option B := match a with Some x => f x | None => None end.
(** With fuel below [L] the computation finds nothing but [g]; with fuel [U] or more it finds [g]. *)
Definition agree {A} (L U : nat) (F : nat -> option A) (g : option A) : Prop :=
  forall n r, ((n < L)%nat -> F n = Some r -> g = Some r) /\ ((U <= n)%nat -> g = Some r -> F n = Some r).
Section Agree.
Context {A B : Type}.
Lemma agree_weak : forall L U L' U' (F : nat -> option A) g, (L' <= L)%nat -> (U <= U')%nat -> agree L U F g -> agree L' U' F g.
Proof. intros L U L' U' F g H1 H2 H n r. destruct (H n r) as [P Q]. split; intros N; [apply P|apply Q]; lia. Qed.
Lemma agree_const : forall L U (g : option A), agree L U (fun _ => g) g.
Proof. intros L U g n r. split; auto. Qed.
Lemma agree_ext : forall L U (F G : nat -> option A) g, (forall n, F n = G n) -> agree L U F g -> agree L U G g.
Proof. intros L U F G g E H n r. rewrite <- E. apply H. Qed.
Lemma agree_bind : forall L U (F : nat -> option A) g (K : nat -> A -> option B) k,
  agree L U F g -> (forall a, agree L U (fun n => K n a) (k a)) -> agree L U (fun n => obind (F n) (K n)) (obind g k).
Proof.
  intros L U F g K k HF HK n r. split; intros N E.
  - destruct (F n) as [a|] eqn:Q; [|discriminate]. cbn in E. destruct (HF n a) as [P _]. rewrite (P N Q). cbn.
    destruct (HK a n r) as [P' _]. auto.
  - destruct g as [a|]; [|discriminate]. cbn in E. destruct (HF n a) as [_ P]. rewrite (P N eq_refl). cbn.
    destruct (HK a n r) as [_ P']. auto.
Qed.
Lemma agree_step : forall L U (F : nat -> option A) g, agree L U F g ->
  agree (S L) (S U) (fun n => match n with O => None | S k => F k end) g.
Proof. intros L U F g H [|n] r; (split; intros N E; [|try lia]); [discriminate| |]; destruct (H n r) as [P Q]; [apply P|apply Q]; auto; lia. Qed.
Lemma agree_same : forall L U (F : nat -> option A) g, (forall n, F (S n) = g) -> F 0%nat = None -> (1 <= U)%nat -> agree L U F g.
Proof. intros L U F g H Z N [|n] r; rewrite ?H, ?Z; split; auto; try discriminate; lia. Qed.
End Agree.

(** ** a struct format at an offset of a run *)
Definition rst (m : mode) (st : sspec) (off : nat) (b : bytes) : option place :=
  let us := expand (s_fmt st) in let n := size_u m off us in
  if (n <=? List.length b)%nat then
    odo vs <- opt (ss_act st (unpack_u m off us b)); Some (vs, (off + n)%nat, Z.of_nat n)
  else None.
Lemma rst_dst : forall hb st b, opt (rdo vs <- dst hb st b; Ok (vs, ss_size hb st)) = body (rst (ss_mode hb st) st 0 b).
Proof.
  intros hb st b. unfold dst, rst, st_unpack, ss_size, calcsize. set (us := expand (s_fmt st)). set (m := ss_mode hb st).
  rewrite Nat2Z.id, firstn_length. destruct (size_u m 0 us <=? List.length b)%nat eqn:L.
  - replace (Nat.min (size_u m 0 us) (List.length b)) with (size_u m 0 us) by lia. rewrite Nat.eqb_refl. cbn [rbind].
    rewrite unpack_u_firstn by lia. destruct (ss_act st _); reflexivity.
  - destruct (Nat.eqb _ _) eqn:E; [lia|reflexivity].
Qed.
Lemma rst_layout : forall m bo f g act off b, layout_eq (expand f) (expand g) -> rst m (SS bo f act) off b = rst m (SS bo g act) off b.
Proof.
  intros m bo f g act off b [_ H]. destruct (H m off) as (S & _ & U). unfold rst. cbn [s_fmt]. rewrite S, U. reflexivity.
Qed.
Lemma rst_bo : forall m bo bo' f act off b, rst m (SS bo f act) off b = rst m (SS bo' f act) off b.
Proof. reflexivity. Qed.
Lemma adv_nat : forall n (b : bytes), adv (Z.of_nat n) b = skipn n b.
Proof. intros. unfold adv. now rewrite Nat2Z.id. Qed.
Lemma rst_glue : forall m x y off b, ss_wf x = true -> ss_wf y = true ->
  rst m (glue x y) off b =
  odo (v1, o1, k1) <- rst m x off b; odo (v2, o2, k2) <- rst m y o1 (adv k1 b); Some (v1 ++ v2, o2, k1 + k2).
Proof.
  intros m x y off b WX WY. unfold rst at 1. change (s_fmt (glue x y)) with (s_fmt x ++ s_fmt y).
  rewrite expand_app, size_u_app, unpack_u_app. unfold rst at 1.
  set (us := expand (s_fmt x)). set (ws := expand (s_fmt y)).
  destruct (size_u m off us <=? List.length b)%nat eqn:L1.
  2:{ destruct (_ + _ <=? List.length b)%nat eqn:L2; [lia|reflexivity]. }
  rewrite (glue_act false BO_LE eq_refl x y) by (auto; unfold ss_nvals, nvals; apply unpack_u_length).
  destruct (ss_act x _) as [v1|].
  2:{ destruct (_ + _ <=? List.length b)%nat; reflexivity. }
  cbn [rbind opt]. unfold rst. rewrite adv_nat, skipn_length. fold ws.
  destruct (size_u m (off + size_u m off us) ws <=? List.length b - size_u m off us)%nat eqn:L2.
  - destruct (_ + _ <=? List.length b)%nat eqn:L3; [|lia].
    destruct (ss_act y _) as [v2|]; [|reflexivity]. cbn [rbind opt]. do 3 f_equal; lia.
  - destruct (_ + _ <=? List.length b)%nat eqn:L3; [lia|reflexivity].
Qed.
(** repetition *)
Definition rep (st : sspec) (k : nat) : sspec :=
  SS (s_bo st) (repeat_fmt (s_fmt st) k) (option_map (fun a => concat (repeat a k)) (s_act st)).
Lemma rep_wf : forall st k, ss_wf st = true -> ss_wf (rep st k) = true.
Proof.
  intros st k W. unfold ss_wf, rep in *. cbn [s_act]. destruct (s_act st) as [a|]; [|reflexivity]. cbn [option_map]. apply Nat.eqb_eq in W.
  apply Nat.eqb_eq. unfold ss_nvals in *. cbn [s_fmt]. rewrite nvals_repeat, <- W. clear. induction k; cbn; [reflexivity|]. rewrite app_length. lia.
Qed.
Lemma rep_glue : forall st k, rst = rst -> forall m off b, rst m (rep st (S k)) off b = rst m (glue st (rep st k)) off b.
Proof.
  intros st k _ m off b. unfold glue, rep. cbn [s_act s_fmt s_bo]. unfold repeat_fmt. cbn [repeat List.concat].
  destruct (s_act st) as [a|] eqn:E; cbn [option_map repeat List.concat]; [|reflexivity]. unfold acts_of. rewrite E. reflexivity.
Qed.
Lemma rst_items : forall m st f, ss_wf st = true -> (forall off b, rst m st off b = f off b) -> forall k off b,
  items_of f true k off b = body (rst m (rep st k) off b).
Proof.
  intros m st f W H. induction k as [|k IH]; intros off b.
  - unfold rst, rep, repeat_fmt. cbn. destruct (s_act st); reflexivity.
  - rewrite (rep_glue st k eq_refl), rst_glue by (auto using rep_wf). cbn [items_of]. rewrite <- H.
    destruct (rst m st off b) as [[[v1 o1] k1]|]; [|reflexivity]. rewrite IH.
    destruct (rst m (rep st k) o1 (adv k1 b)) as [[[v2 o2] k2]|]; reflexivity.
Qed.
Lemma mul_rst : forall hb st k oo b, repeatable (s_fmt st) = true -> ss_mul st (Z.of_nat k) = Ok oo ->
  opt (rdo vs <- dost hb oo b; Ok (vs, osize hb oo)) = body (rst (ss_mode hb st) (rep st k) 0 b).
Proof.
  intros hb st k oo b R E. destruct k as [|k].
  - unfold ss_mul, ss_mul_impl in E. cbn in E. injection E as <-. unfold rst, rep, repeat_fmt. cbn. destruct (s_act st); reflexivity.
  - destruct st as [bo f act]. cbn [s_fmt] in R.
    assert (H : exists g, oo = Some (SS bo g (option_map (fun a => concat (repeat a (S k))) act)) /\
      layout_eq (expand g) (expand (repeat_fmt f (S k)))).
    { destruct act as [a|].
      - destruct (mul_action_layout bo f a (Z.of_nat (S k)) R ltac:(lia)) as (g & E' & L). rewrite Nat2Z.id in E', L. exists g. split; [|exact L]. rewrite E in E'. now injection E' as ->.
      - destruct (mul_layout bo f (Z.of_nat (S k)) R ltac:(lia)) as (g & E' & L). rewrite Nat2Z.id in L. exists g. split; [|exact L]. rewrite E in E'. now injection E' as ->. }
    destruct H as (g & -> & L). cbn [dost osize]. rewrite rst_dst. unfold rep. cbn [s_fmt s_bo s_act]. unfold ss_mode. cbn [s_bo].
    now rewrite (rst_layout _ _ _ _ _ _ _ L).
Qed.
Lemma mul_ok : forall st k, repeatable (s_fmt st) = true -> exists oo, ss_mul st (Z.of_nat k) = Ok oo.
Proof.
  intros [bo f act] k R. destruct k as [|k]; [eexists; reflexivity|]. destruct act as [a|].
  - destruct (mul_action_layout bo f a (Z.of_nat (S k)) R ltac:(lia)) as (g & E' & L). eauto.
  - destruct (mul_layout bo f (Z.of_nat (S k)) R ltac:(lia)) as (g & E' & L). eauto.
Qed.

(** ** one specifier *)
Lemma digits_le : forall b, digits b = le_dec b.
Proof. induction b as [|x b IH]; [reflexivity|]. cbn. now rewrite IH. Qed.
Lemma uint_dec : forall big b, uint_of big b = int_dec big b.
Proof. intros. unfold uint_of, int_dec. apply digits_le. Qed.
Lemma sint_dec : forall big b k, List.length b = k -> (1 <= k)%nat -> sint_of big b = to_signed k (int_dec big b).
Proof.
  intros big b k L K. unfold sint_of, to_signed. cbv zeta. rewrite uint_dec. unfold blen. rewrite L.
  assert (P : 256 ^ Z.of_nat k = 2 * 2 ^ (8 * Z.of_nat k - 1)).
  { change 256 with (2 ^ 8). rewrite <- Z.pow_mul_r by lia. rewrite <- Z.pow_succ_r by lia. f_equal. lia. }
  assert (P2 : 256 ^ Z.of_nat k = 2 ^ (8 * Z.of_nat k)) by (change 256 with (2 ^ 8); rewrite <- Z.pow_mul_r by lia; reflexivity).
  rewrite <- P2, P. destruct (Z.ltb_spec (2 * int_dec big b) (2 * 2 ^ (8 * Z.of_nat k - 1))), (Z.ltb_spec (int_dec big b) (2 ^ (8 * Z.of_nat k - 1))); lia.
Qed.
Definition num_code (c : code) : bool := basic_code c || size_code c.
Lemma scalar_val : forall m c b, num_code c = true -> List.length b = wsize c -> unpack_val m c b = scalar_of m c b.
Proof.
  intros m c b N L. destruct c; try discriminate N; cbn [wsize] in L; unfold unpack_val, scalar_of; cbn [int_code csize];
    rewrite ?uint_dec; try reflexivity; try (f_equal; symmetry; apply sint_dec; [exact L|lia]).
  destruct b as [|x [|]]; try discriminate L. unfold int_dec. destruct (m_big m), x; reflexivity.
Qed.
Lemma gap_padding : forall m off c, num_code c = true ->
  StructMod.padding m off c = (if m_native m then ((wsize c - off mod wsize c) mod wsize c) else 0)%nat.
Proof.
  intros m off c N. unfold StructMod.padding, calign. destruct (m_native m); [|apply mod1].
  destruct c; try discriminate N; reflexivity.
Qed.
Lemma rst_num : forall m bo c off b, num_code c = true ->
  rst m (SS bo [T None c] None) off b = at_ m (wsize c) (wsize c) off b (fun y => [scalar_of m c y]).
Proof.
  intros m bo c off b N. unfold rst, at_. cbn [s_fmt].
  assert (X : expand [T None c] = [UAlign c; UVal c]) by (destruct c; try discriminate N; reflexivity). rewrite X.
  assert (W : csize (m_native m) c = wsize c) by (destruct c; try discriminate N; reflexivity).
  cbn [size_u usize unpack_u]. rewrite (gap_padding m off c N), W.
  set (gap := (if m_native m then _ else _)%nat). rewrite Nat.add_0_r.
  destruct (gap + wsize c <=? List.length b)%nat eqn:L; [|reflexivity].
  unfold ss_act. cbn [s_act opt]. rewrite scalar_val; [do 3 f_equal; lia|exact N|]. rewrite firstn_length, skipn_length. lia.
Qed.
Lemma size_num : forall c, size_code c = true -> num_code c = true.
Proof. intros c S. unfold num_code. rewrite S. apply Bool.orb_true_r. Qed.
Lemma size_scalar : forall m c b, size_code c = true -> scalar_of m c b = VInt (uint_of (m_big m) b).
Proof. intros m c b S. destruct c; try discriminate S; reflexivity. Qed.
Lemma rst_number : forall m bo c off b, size_code c = true ->
  rst m (SS bo [T None c] None) off b = odo (z, off', k) <- number_at m c off b; Some ([VInt z], off', k).
Proof.
  intros m bo c off b S. rewrite rst_num by (now apply size_num). unfold number_at, at_.
  destruct (_ <=? List.length b)%nat; [|reflexivity]. now rewrite size_scalar.
Qed.
Lemma number_pos : forall m c off b z off' k, number_at m c off b = Some (z, off', k) -> 0 <= z /\ 0 <= k.
Proof.
  intros m c off b z off' k H. unfold number_at, at_ in H. destruct (_ <=? List.length b)%nat; [|discriminate].
  injection H as <- <- <-. split; [|lia]. rewrite uint_dec. unfold int_dec.
  assert (P : forall l, 0 <= le_dec l) by (induction l as [|x l IH]; cbn [le_dec]; [lia|]; pose proof (zb_range x); lia). apply P.
Qed.
