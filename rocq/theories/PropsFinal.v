(** Property C14: fields that read to the end of the input come last. *)
From Verif Require Import Base Floats Value StructMod Format Ser Exec Pure BaseFacts StructFacts FormatFacts
  SerFacts RefPack RefUnpack Leaf Wire Sample User Field Fuel DecFacts RoundTripMain Adding PropsArrays PropsIO PropsAdd.

(** ** which sums are accepted *)
(** a field that reads to the end of the input, as documented: char[math.inf], or a text, tuple, conditional,
    union or Structured class that may end with one; [fin c] for class number [c] *)
Inductive reads_rest (fin : nat -> Prop) : ser -> Prop :=
| RR_char : forall id, reads_rest fin (SConsume id)
| RR_unicode : forall x cd, reads_rest fin x -> reads_rest fin (SUnicode x cd)
| RR_tuple : forall id x, reads_rest fin x -> reads_rest fin (STuple id x)
| RR_cond : forall f x d, reads_rest fin x -> reads_rest fin (SCond f x d)
| RR_lookback : forall id f m d k x, In (k, x) m -> reads_rest fin x -> reads_rest fin (SLookback id f m d)
| RR_lookahead : forall id ra f m d k x, In (k, x) m -> reads_rest fin x -> reads_rest fin (SLookahead id ra f m d)
| RR_structured : forall id c, fin c -> reads_rest fin (SStructd id c)
| RR_sum : forall id l x, reads_rest fin x -> reads_rest fin (SCompound id (l ++ [x]))
| RR_spec : forall id l x o, reads_rest fin x -> reads_rest fin (SSpec id (l ++ [x]) o).

Lemma final_last : forall fin l x, (fix go l := match l with [] => false | [x] => is_final fin x | _ :: l' => go l' end) (l ++ [x])
  = is_final fin x.
Proof.
  intros fin l x. induction l as [|y l IH]; [reflexivity|]. cbn [app]. destruct (l ++ [x]) eqn:E; [destruct l; discriminate|].
  exact IH.
Qed.
Lemma reads_rest_final : forall (fin : nat -> bool) s, reads_rest (fun c => fin c = true) s <-> is_final fin s = true.
Proof.
  intros fin s. split.
  - induction 1; cbn [is_final]; try assumption; try reflexivity.
    + apply existsb_exists. exists (k, x). auto.
    + apply existsb_exists. exists (k, x). auto.
    + now rewrite final_last.
    + now rewrite final_last.
  - induction s using ser_ind'; cbn [is_final]; intros E; try discriminate E; try (constructor; auto; fail).
    + apply existsb_exists in E as ([k x] & I & E). rewrite Forall_forall in H. eapply RR_lookback; [exact I|].
      exact (H _ I E).
    + apply existsb_exists in E as ([k x] & I & E). rewrite Forall_forall in H. eapply RR_lookahead; [exact I|].
      exact (H _ I E).
    + destruct l as [|x l _] using rev_ind; [discriminate|]. rewrite final_last in E. constructor.
      apply Forall_app in H as [_ H]. inversion H; auto.
    + destruct l as [|x l _] using rev_ind; [discriminate|]. rewrite final_last in E. constructor.
      apply Forall_app in H as [_ H]. inversion H; auto.
Qed.

(** struct fields with the same byte order, as in a class body *)
Definition bo_is (b : border) (s : ser) : Prop := match s with SStruct st => s_bo st = b | _ => True end.
(** [true] if some field of [l], or what comes before if [f], must be last but is not *)
Fixpoint blocked (fin : nat -> bool) (f : bool) (l : list ser) : bool :=
  match l with
  | [] => false
  | SNull :: l' => blocked fin f l'
  | x :: l' => f || blocked fin (is_final fin x) l'
  end.
Fixpoint endf (fin : nat -> bool) (f : bool) (l : list ser) : bool :=
  match l with
  | [] => f
  | SNull :: l' => endf fin f l'
  | x :: l' => endf fin (is_final fin x) l'
  end.

Section Sum.
Variable fin : nat -> bool.
Variable id : nat.
Variable b : border.

Definition item_ok (s : ser) : Prop := is_compound s = false /\ bo_is b s.
Definition inv (s : ser) : Prop :=
  match s with
  | SCompound _ l => l <> [] /\ Forall (fun x => item_ok x /\ x <> SNull) l
  | _ => item_ok s
  end.

Lemma ss_add_ok : forall x y, s_bo x = b -> s_bo y = b -> exists z, ss_add x y = Ok z /\ s_bo z = b.
Proof.
  intros x y X Y. unfold ss_add. rewrite X, Y.
  assert (border_eqb b b = true) as -> by (destruct b; reflexivity).
  destruct (s_act x), (s_act y); eexists; (split; [reflexivity|]); try exact X; reflexivity.
Qed.
Lemma add2_final : forall a x, item_ok a -> item_ok x -> a <> SNull -> x <> SNull ->
  if is_final fin a then add2 fin id a x = Err TypeError
  else exists j, add2 fin id a x = Ok j /\
       (j = SCompound id [a; x] \/ item_ok j /\ j <> SNull /\ is_final fin j = is_final fin x).
Proof.
  intros a x [CA BA] [CX BX] NA NX.
  destruct a; try congruence; destruct x; try congruence; cbn [is_final add2];
    try (eexists; split; [reflexivity|]; left; reflexivity);
    try (match goal with |- if ?c then _ else _ => destruct c end; [reflexivity|];
         eexists; split; [reflexivity|]; left; reflexivity).
  { destruct (ss_add_ok st st0 BA BX) as (z & -> & Z). eexists. split; [reflexivity|]. right.
    split; [split; [reflexivity|exact Z]|]. split; [discriminate|reflexivity]. }
  all: reflexivity.
Qed.
Lemma sadd_final : forall acc x, inv acc -> item_ok x ->
  match x with
  | SNull => exists s, sadd fin id acc x = Ok s /\ inv s /\ is_final fin s = is_final fin acc
  | _ => if is_final fin acc then sadd fin id acc x = Err TypeError
         else exists s, sadd fin id acc x = Ok s /\ inv s /\ is_final fin s = is_final fin x
  end.
Proof.
  intros acc x IA IX.
  assert (IXI : inv x) by (destruct IX as [CX BX]; destruct x; try discriminate CX; split; assumption).
  destruct (match acc with SCompound _ _ => true | _ => false end) eqn:K.
  - destruct acc; try discriminate K. destruct IA as [NE FA].
    destruct subs as [|l bf _] using rev_ind; [congruence|]. apply Forall_app in FA as [FB FL].
    inversion FL as [|? ? [IL NL] _]; subst.
    cbn [sadd is_final]. rewrite final_last, rev_app_distr. cbn [rev app].
    assert (BX : match x with SCompound _ bs | SSpec _ bs _ => bs | _ => [x] end = [x])
      by (destruct IX as [CX _]; destruct x; try discriminate CX; reflexivity).
    destruct (match x with SNull => true | _ => false end) eqn:XN.
    + destruct x; try discriminate XN. cbn [add_impl].
      assert (A : add2 fin id l SNull = Ok l) by (destruct l; try reflexivity; congruence). rewrite A. cbn [rbind].
      destruct IL as [CL BL]. rewrite CL. cbn [add_impl]. eexists. split; [reflexivity|].
      cbn [rev]. rewrite rev_involutive. split.
      * split; [destruct bf; discriminate|]. apply Forall_app. split; [exact FB|]. constructor; [|constructor].
        split; [split; assumption|exact NL].
      * cbn [is_final]. now rewrite final_last.
    + assert (NX : x <> SNull) by (destruct x; discriminate).
      pose proof (add2_final l x IL IX NL NX) as A.
      assert (G : if is_final fin l then add_impl fin id l (rev bf) [x] = Err TypeError else
         exists s, add_impl fin id l (rev bf) [x] = Ok s /\ inv s /\ is_final fin s = is_final fin x).
      { cbn [add_impl]. destruct (is_final fin l); [now rewrite A|].
        destruct A as (j & -> & [->|(IJ & NJ & FJ)]); cbn [rbind is_compound].
        - cbn [add_impl]. eexists. split; [reflexivity|]. cbn [rev]. rewrite rev_involutive. split.
          + split; [destruct bf; discriminate|]. apply Forall_app. split; [apply Forall_app; split; [exact FB|]|].
            * constructor; [|constructor]. auto.
            * constructor; [|constructor]. auto.
          + cbn [is_final]. now rewrite final_last.
        - rewrite (proj1 IJ). cbn [add_impl]. eexists. split; [reflexivity|]. cbn [rev]. rewrite rev_involutive. split.
          + split; [destruct bf; discriminate|]. apply Forall_app. split; [exact FB|]. constructor; [|constructor]. auto.
          + cbn [is_final]. rewrite final_last. exact FJ. }
      rewrite BX. destruct x; try exact G; congruence.
  - destruct (match acc with SNull => true | _ => false end) eqn:AN.
    + destruct acc; try discriminate AN. cbn [sadd is_final].
      destruct x; eexists; (split; [reflexivity|]); (split; [exact IXI|reflexivity]).
    + assert (NA : acc <> SNull) by (destruct acc; discriminate).
      assert (IA' : item_ok acc) by (destruct acc; try exact IA; discriminate K).
      assert (S : sadd fin id acc x = add2 fin id acc x).
      { destruct IA' as [CA _]. destruct IX as [CX _]. destruct acc; try discriminate CA; try congruence;
          destruct x; try discriminate CX; reflexivity. }
      rewrite S. destruct (match x with SNull => true | _ => false end) eqn:XN.
      * destruct x; try discriminate XN. exists acc. split; [destruct acc; try reflexivity; congruence|].
        split; [exact IA|reflexivity].
      * assert (NX : x <> SNull) by (destruct x; discriminate).
        pose proof (add2_final acc x IA' IX NA NX) as A.
        assert (G : if is_final fin acc then add2 fin id acc x = Err TypeError else
          exists s, add2 fin id acc x = Ok s /\ inv s /\ is_final fin s = is_final fin x).
        { destruct (is_final fin acc); [exact A|]. destruct A as (j & -> & [->|(IJ & NJ & FJ)]).
          - eexists. split; [reflexivity|]. split; [|reflexivity]. split; [discriminate|]. repeat constructor; auto;
              apply IA' || apply IX.
          - eexists. split; [reflexivity|]. split; [|exact FJ]. destruct IJ as [CJ BJ].
            destruct j; try discriminate CJ; split; assumption. }
        destruct x; try exact G; congruence.
Qed.
Lemma sum_from_final : forall l acc, inv acc -> Forall item_ok l ->
  if blocked fin (is_final fin acc) l then ssum_from fin id acc l = Err TypeError
  else exists s, ssum_from fin id acc l = Ok s /\ is_final fin s = endf fin (is_final fin acc) l.
Proof.
  induction l as [|x l IH]; intros acc IA F; [cbn; eauto|]. inversion F as [|? ? FX FL]; subst.
  pose proof (sadd_final acc x IA FX) as A. cbn [ssum_from].
  destruct (match x with SNull => true | _ => false end) eqn:XN.
  - destruct x; try discriminate XN. cbn [blocked endf]. destruct A as (s & -> & IS & <-). cbn [rbind]. now apply IH.
  - assert (B : blocked fin (is_final fin acc) (x :: l) = is_final fin acc || blocked fin (is_final fin x) l)
      by (destruct x; try reflexivity; discriminate XN).
    assert (E : endf fin (is_final fin acc) (x :: l) = endf fin (is_final fin x) l)
      by (destruct x; try reflexivity; discriminate XN).
    assert (A' : if is_final fin acc then sadd fin id acc x = Err TypeError
         else exists s, sadd fin id acc x = Ok s /\ inv s /\ is_final fin s = is_final fin x)
      by (destruct x; try exact A; discriminate XN).
    rewrite B, E. destruct (is_final fin acc); cbn [orb]; [now rewrite A'|].
    destruct A' as (s & -> & IS & <-). cbn [rbind]. now apply IH.
Qed.
End Sum.

Lemma blocked_spec : forall fin l f, blocked fin f l = true <->
  (f = true /\ (exists y, In y l /\ y <> SNull)) \/
  exists p x q y, l = p ++ x :: q /\ is_final fin x = true /\ In y q /\ y <> SNull.
Proof.
  intros fin. induction l as [|a l IH]; intros f.
  - cbn. split; [discriminate|]. intros [[_ (y & [] & _)]|(p & x & q & y & E & _)]. destruct p; discriminate.
  - destruct (match a with SNull => true | _ => false end) eqn:K.
    + destruct a; try discriminate K. cbn [blocked]. rewrite IH. split.
      * intros [[F (y & I & N)]|(p & x & q & y & -> & R)]; [left; split; [exact F|]; exists y; split; [now right|exact N]|].
        right. exists (SNull :: p), x, q, y. auto.
      * intros [[F (y & [<-|I] & N)]|(p & x & q & y & E & FX & R)]; [congruence|left; eauto|].
        destruct p as [|z p]; [cbn in E; injection E as <- <-; discriminate FX|].
        cbn in E. injection E as _ ->. right. exists p, x, q, y. auto.
    + assert (N : a <> SNull) by (destruct a; discriminate).
      assert (B : blocked fin f (a :: l) = f || blocked fin (is_final fin a) l) by (destruct a; try reflexivity; discriminate K).
      rewrite B, Bool.orb_true_iff, IH. split.
      * intros [F|[[F (y & I & NY)]|(p & x & q & y & -> & R)]].
        -- left. split; [exact F|]. exists a. split; [now left|exact N].
        -- right. exists [], a, l, y. auto.
        -- right. exists (a :: p), x, q, y. auto.
      * intros [[F _]|(p & x & q & y & E & FX & I & NY)]; [now left|]. right.
        destruct p as [|z p]; cbn in E; injection E as <- ->; [left; eauto|]. right. exists p, x, q, y. auto.
Qed.

(** The fields of a class (of one byte order, as the hints make them) can be added exactly if no field that
    reads to the end is followed by another serializing field; otherwise TypeError. *)
Definition misplaced (fin : nat -> bool) (l : list ser) : Prop :=
  exists p x q y, l = p ++ x :: q /\ reads_rest (fun c => fin c = true) x /\ In y q /\ y <> SNull.
Theorem C14_accepted : forall fin id b l, Forall (fun s => is_compound s = false /\ bo_is b s) l ->
  (~ misplaced fin l -> exists s, ssum fin id l = Ok s) /\
  (misplaced fin l -> ssum fin id l = Err TypeError).
Proof.
  intros fin id b l F.
  pose proof (sum_from_final fin id b l SNull ltac:(split; [reflexivity|exact I]) F) as S. cbn [is_final] in S.
  assert (M : misplaced fin l <-> blocked fin false l = true).
  { rewrite blocked_spec. unfold misplaced. split.
    - intros (p & x & q & y & E & R & A). right. exists p, x, q, y. rewrite <- reads_rest_final. auto.
    - intros [[F0 _]|(p & x & q & y & E & R & A)]; [discriminate|]. exists p, x, q, y. rewrite reads_rest_final. auto. }
  rewrite M. unfold ssum. destruct (blocked fin false l); [split; [congruence|auto]|].
  destruct S as (s & -> & _). split; [eauto|discriminate].
Qed.
Print Assumptions C14_accepted.

(** the sum reads to the end exactly if its last serializing field does: a class or tuple ending with such a
    field is itself restricted to the last position *)
Theorem C14_inherited : forall fin id b l s, Forall (fun s => is_compound s = false /\ bo_is b s) l ->
  ssum fin id l = Ok s ->
  (reads_rest (fun c => fin c = true) s <->
   exists p x q, l = p ++ x :: q /\ Forall (eq SNull) q /\ reads_rest (fun c => fin c = true) x).
Proof.
  intros fin id b l s F E.
  pose proof (sum_from_final fin id b l SNull ltac:(split; [reflexivity|exact I]) F) as S. cbn [is_final] in S.
  unfold ssum in E. rewrite E in S. destruct (blocked fin false l) eqn:B; [discriminate|].
  destruct S as (s' & Q & FS). injection Q as <-. rewrite reads_rest_final, FS.
  assert (G : forall l f, endf fin f l = true <-> (f = true /\ Forall (eq SNull) l) \/
      exists p x q, l = p ++ x :: q /\ Forall (eq SNull) q /\ is_final fin x = true).
  { clear. induction l as [|a l IH]; intros f.
    - cbn. split; [auto|]. intros [[H _]|(p & x & q & E & _)]; [exact H|destruct p; discriminate].
    - destruct (match a with SNull => true | _ => false end) eqn:K.
      + destruct a; try discriminate K. cbn [endf]. rewrite IH. split.
        * intros [[H A]|(p & x & q & -> & A)]; [left; auto|right; exists (SNull :: p), x, q; auto].
        * intros [[H A]|(p & x & q & E & A & X)]; [left; split; [exact H|]; now inversion A|].
          right. destruct p; [cbn in E; injection E as <- <-; discriminate X|].
          cbn in E. injection E as _ ->. exists p, x, q. auto.
      + assert (N : a <> SNull) by (destruct a; discriminate).
        assert (EE : endf fin f (a :: l) = endf fin (is_final fin a) l) by (destruct a; try reflexivity; discriminate K).
        rewrite EE, IH. split.
        * intros [[H A]|(p & x & q & -> & A)]; [right; exists [], a, l; auto|right; exists (a :: p), x, q; auto].
        * intros [[H A]|(p & x & q & E & A & X)]; [inversion A; congruence|].
          destruct p; cbn in E; injection E as <- ->; [left; auto|right; exists p, x, q; auto]. }
  rewrite G. split.
  - intros [[H _]|(p & x & q & A & C & D)]; [discriminate|]. exists p, x, q. rewrite reads_rest_final. auto.
  - intros (p & x & q & A & C & D). right. exists p, x, q. rewrite <- reads_rest_final. auto.
Qed.
Print Assumptions C14_inherited.

(** ** what an accepted definition guarantees *)
(** the class table restricted to the classes in [NC] *)
Definition only (NC : nat -> bool) (ct : nat -> option cdef) (c : nat) : option cdef := if NC c then ct c else None.

Section Agree.
Variable hb : bool.
Variable ct : nat -> option cdef.
Variable md : umode.
Variable NC : nat -> bool.
(** counts are unsigned; a LookaheadDecider reads ahead a leaf that rejects truncated input *)
Definition tame1 (x : ser) : bool :=
  match x with
  | SDynChar _ st => uint1 st
  | SLookahead _ ra _ _ _ => leaf ra && sall (pR md true) ra
  | _ => true
  end.
(** in class [c]: no read-to-end string and no class outside [NC] *)
Definition pF (c : nat) (x : ser) : bool :=
  tame1 x &&
  match x with
  | SConsume _ => false
  | SStructd _ d => NC d
  | SSelf _ => NC c
  | SSpec _ _ o => Nat.eqb (p_cls o) c
  | _ => true
  end.
Lemma pF_stable : forall c, stable (pF c) c.
Proof.
  intros c. split; intros; try reflexivity.
  - exact H.
  - cbn. now rewrite H, Nat.eqb_refl.
Qed.
Hypothesis CLS : forall c cd, ct c = Some cd -> NC c = true -> sall (pF c) (c_ser cd) = true.

Let D := dec hb ct md.
Let D' := dec hb (only NC ct) md.
Definition agrees (n : nat) : Prop := forall x ctx b, sall (pF (p_cls ctx)) x = true -> D n x ctx b = D' n x ctx b.

Lemma agree_items : forall n item ctx k b, agrees n -> sall (pF (p_cls ctx)) item = true ->
  dec_items (D n) item ctx k b = dec_items (D' n) item ctx k b.
Proof.
  intros n item ctx k b A H. revert b. induction k as [|k IH]; intros b; [reflexivity|]. cbn [dec_items].
  rewrite (A item ctx b H). destruct (D' n item ctx b) as [[vs z]|]; [|reflexivity]. cbn [rbind]. now rewrite IH.
Qed.
Lemma agree_subs : forall n pre ctx subs b, agrees n -> forallb (sall (pF (p_cls (octx pre ctx)))) subs = true ->
  dec_subs (D n) pre ctx subs b = dec_subs (D' n) pre ctx subs b.
Proof.
  intros n pre ctx subs b A. revert b. induction subs as [|x subs IH]; intros b H; [reflexivity|].
  cbn in H. apply andb_prop in H as [H1 H2]. cbn [dec_subs].
  destruct (oresolve false pre x) as [x'|] eqn:R; [|reflexivity]. cbn [rbind].
  assert (HX : sall (pF (p_cls (octx pre ctx))) x' = true).
  { destruct pre as [o|]; cbn in *; [|injection R as <-; exact H1]. eapply resolve_sall; eauto. apply pF_stable. }
  rewrite (A x' _ b HX). destruct (D' n x' _ b) as [[vs z]|]; [|reflexivity]. cbn [rbind]. now rewrite IH.
Qed.
Lemma agree_fill_subs : forall n pre ctx subs b names d, agrees n ->
  forallb (sall (pF (p_cls (octx pre ctx)))) subs = true ->
  dfill_subs (D n) pre ctx subs b names d = dfill_subs (D' n) pre ctx subs b names d.
Proof.
  intros n pre ctx subs b names d A. revert b names d. induction subs as [|x subs IH]; intros b names d H; [reflexivity|].
  cbn in H. apply andb_prop in H as [H1 H2]. cbn [dfill_subs]. cbv zeta.
  set (pre' := option_map (fun o => PO (p_cls o) (p_proxy o) d) pre).
  assert (PC : p_cls (octx pre' ctx) = p_cls (octx pre ctx)) by (destruct pre; reflexivity).
  destruct (oresolve false pre' x) as [x'|] eqn:R; [|reflexivity]. cbn [rbind].
  assert (HX : sall (pF (p_cls (octx pre' ctx))) x' = true).
  { rewrite PC. destruct pre as [o|]; cbn in *; [|injection R as <-; exact H1].
    eapply (resolve_sall _ false x (PO (p_cls o) (p_proxy o) d)); eauto. apply pF_stable. }
  rewrite (A x' _ b HX). destruct (D' n x' _ b) as [[vs z]|]; [|reflexivity].
  destruct (assign names vs d) as [[nm|] d']; [|reflexivity]. now rewrite IH.
Qed.
Lemma agree_fill : forall n x ctx b names d, agrees n -> sall (pF (p_cls ctx)) x = true ->
  dfill (D n) x ctx b names d = dfill (D' n) x ctx b names d.
Proof.
  intros n x ctx b names d A H.
  destruct x; cbn [dfill]; try (rewrite (A _ _ _ H); reflexivity).
  - cbn in H. now rewrite agree_fill_subs.
  - cbn in H. apply andb_prop in H as [H0 H]. unfold pF in H0. cbn in H0. apply Nat.eqb_eq in H0.
    rewrite agree_fill_subs; [reflexivity|exact A|]. cbn [octx]. now rewrite H0.
Qed.
Lemma agree_create : forall n c b, agrees n -> NC c = true ->
  dcreate_step ct (D n) c b = dcreate_step (only NC ct) (D' n) c b.
Proof.
  intros n c b A N. unfold dcreate_step, only. rewrite N. destruct (ct c) as [cd|] eqn:E; [|reflexivity].
  destruct (resolve false (c_ser cd) (PO c true [])) as [x|] eqn:R; [|reflexivity]. cbn [rbind].
  rewrite agree_fill; [reflexivity|exact A|]. cbn [p_cls].
  eapply (resolve_sall _ false _ (PO c true [])); [apply pF_stable|exact (CLS c cd E N)|exact R].
Qed.
Lemma agree_dec : forall n, agrees n.
Proof.
  induction n as [|n IH]; intros x ctx b H; [reflexivity|]. unfold D, D'. cbn [dec]. fold D D'.
  assert (RES : forall s s', sall (pF (p_cls ctx)) s = true -> resolve false s ctx = Ok s' ->
                sall (pF (p_cls ctx)) s' = true) by (intros; eapply resolve_sall; eauto; apply pF_stable).
  destruct x; cbn [dec_step]; try reflexivity.
  - cbn in H. now rewrite (IH x ctx b H).
  - cbn in H. destruct (dost hb hdr b); [|reflexivity]. cbn [rbind].
    destruct (header_unpack_values hdr static a) as [[k ds]|]; [|reflexivity]. cbn [rbind].
    destruct (resolve false x ctx) as [x'|] eqn:R; [|reflexivity]. cbn [rbind].
    rewrite (agree_items n x' ctx _ _ IH (RES _ _ H R)). reflexivity.
  - cbn in H. destruct (resolve false x ctx) as [x'|] eqn:R; [|reflexivity]. cbn [rbind].
    now rewrite (IH x' ctx b (RES _ _ H R)).
  - cbn in H. apply andb_prop in H as [H1 H2].
    destruct (dec ctx); [|reflexivity]. cbn [rbind]. destruct (choose rmap dflt a) as [s0|] eqn:C; [|reflexivity].
    cbn [rbind]. destruct (resolve false s0 ctx) as [x'|] eqn:R; [|reflexivity]. cbn [rbind].
    apply IH. eapply RES; [|exact R]. eapply choose_sall; eauto.
  - cbn in H. apply andb_prop in H as [_ H]. apply andb_prop in H as [H H2]. apply andb_prop in H as [H0 H1].
    rewrite (IH x ctx b H0). destruct (D' n x ctx b) as [[rs k]|]; [|reflexivity]. cbn [rbind].
    destruct (nth0 rs); [|reflexivity]. cbn [rbind]. destruct (choose rmap dflt a) as [s0|] eqn:C; [|reflexivity].
    cbn [rbind]. destruct (resolve false s0 ctx) as [x'|] eqn:R; [|reflexivity]. cbn [rbind].
    apply IH. eapply RES; [|exact R]. eapply choose_sall; eauto.
  - cbn in H. rewrite Bool.andb_true_r in H. unfold pF in H. cbn in H. now rewrite (agree_create n cls b IH H).
  - cbn in H. now apply agree_subs.
  - cbn in H. apply andb_prop in H as [H0 H]. unfold pF in H0. cbn in H0. apply Nat.eqb_eq in H0.
    apply agree_subs; [exact IH|]. cbn [octx]. now rewrite H0.
Qed.

Lemma pF_pD : forall c x, pF c x = true -> pD md false x = true.
Proof.
  intros c x H. unfold pF in H. apply andb_prop in H as [A B]. unfold pD, pR.
  destruct x; try reflexivity; try discriminate B; try exact A.
  cbn in A |- *. now rewrite A.
Qed.
Lemma only_cls : forall c cd, only NC ct c = Some cd -> sall (pD md false) (c_ser cd) = true.
Proof.
  intros c cd E. unfold only in E. destruct (NC c) eqn:N; [|discriminate].
  eapply sall_weaken; [apply (pF_pD c)|]. now apply CLS.
Qed.
(** the decoder ignores what follows the bytes it consumed *)
Lemma tame_wb : forall n x ctx, sall (pF (p_cls ctx)) x = true -> wb False (D n x ctx).
Proof.
  intros n x ctx H. eapply wb_ext; [intros b; symmetry; apply agree_dec; exact H|].
  eapply wb_weak; [|eapply (dec_wb hb (only NC ct) md false)]; [discriminate || tauto|apply only_cls|].
  eapply sall_weaken; [apply pF_pD|exact H].
Qed.
Lemma tame_create : forall n c, NC c = true -> wb False (dcreate hb ct md n c).
Proof.
  intros n c N. eapply wb_ext; [intros b; symmetry; apply agree_create; [apply agree_dec|exact N]|].
  eapply wb_weak; [|eapply (dcreate_wb hb (only NC ct) md false)]; [discriminate || tauto|apply only_cls].
Qed.
End Agree.

(** the serializers the type hints produce for a field of class [c] ([fin d]: class [d] reads to the end):
    an array item must not read to the end (hint_types/arrays.py:102-107), tuples are sums.
    Left out: a union default or a Self that reads to the end, which are not checked (refuted below); counts of
    strings are unsigned, and a LookaheadDecider reads ahead a leaf that rejects truncated input. *)
Inductive accepted (md : umode) (fin : nat -> bool) (c : nat) : ser -> Prop :=
| AC_leaf : forall x, leaf x = true -> sall (tame1 md) x = true -> accepted md fin c x
| AC_array : forall id h x st, accepted md fin c x -> ~ reads_rest (fun d => fin d = true) x ->
    accepted md fin c (SArray id h x st)
| AC_tuple : forall id i b l x, (forall y, In y l -> accepted md fin c y) ->
    Forall (fun y => is_compound y = false /\ bo_is b y) l ->
    ssum fin i l = Ok x -> accepted md fin c (STuple id x)
| AC_cond : forall f x d, accepted md fin c x -> accepted md fin c (SCond f x d)
| AC_lookback : forall id f m d, (forall k x, In (k, x) m -> accepted md fin c x) ->
    (forall x, d = Some x -> accepted md fin c x) ->
    (forall x, d = Some x -> ~ reads_rest (fun d => fin d = true) x) -> accepted md fin c (SLookback id f m d)
| AC_lookahead : forall id ra f m d, leaf ra = true -> sall (pR md true) ra = true ->
    (forall k x, In (k, x) m -> accepted md fin c x) -> (forall x, d = Some x -> accepted md fin c x) ->
    (forall x, d = Some x -> ~ reads_rest (fun d => fin d = true) x) -> accepted md fin c (SLookahead id ra f m d)
| AC_structured : forall id d, accepted md fin c (SStructd id d)
| AC_self : forall id, fin c = false -> accepted md fin c (SSelf id).

(** class [c] is the sum of the fields [l], set to byte order [bo] *)
Definition defined_by (md : umode) (fin : nat -> bool) (c : nat) (cd : cdef) (l : list ser) (bo : border) : Prop :=
  exists id b s, Forall (fun x => is_compound x = false /\ bo_is b x) l /\ Forall (accepted md fin c) l /\
    ssum fin id l = Ok s /\ c_ser cd = with_bo bo s /\ (fin c = true <-> reads_rest (fun d => fin d = true) (c_ser cd)).

Lemma add2_cases : forall fin id a x j, add2 fin id a x = Ok j ->
  j = a \/ j = x \/ (exists st, j = SStruct st) \/ j = SCompound id [a; x].
Proof.
  intros fin id a x j E. destruct a, x; cbn [add2] in E; try (injection E as <-; auto; fail);
    try (match type of E with (if ?c then _ else _) = _ => destruct c; [discriminate|] end; injection E as <-; auto; fail).
  unfold Base.rmap in E. destruct (ss_add st st0); [|discriminate]. injection E as <-. eauto.
Qed.
Lemma sall_comp : forall P i l, sall P (SCompound i l) = P (SCompound i l) && forallb (sall P) l.
Proof. reflexivity. Qed.
Lemma ssum_sall : forall P fin id l s, P SNull = true -> (forall st, P (SStruct st) = true) ->
  (forall i l, P (SCompound i l) = true) ->
  forallb (sall P) l = true -> Forall (fun x => is_compound x = false) l -> ssum fin id l = Ok s -> sall P s = true.
Proof.
  intros P fin id l s PN PS PC.
  assert (A2 : forall a x j, sall P a = true -> sall P x = true -> add2 fin id a x = Ok j -> sall P j = true).
  { intros a x j A X E. apply add2_cases in E as [->|[->|[[st ->]| ->]]]; try assumption.
    - cbn. now rewrite PS.
    - rewrite sall_comp, PC. cbn [forallb andb]. now rewrite A, X. }
  assert (AI : forall cands last before s, sall P last = true -> forallb (sall P) before = true ->
     forallb (sall P) cands = true -> add_impl fin id last before cands = Ok s -> sall P s = true).
  { induction cands as [|y cands IH]; intros last before s0 L B C E; cbn [add_impl] in E.
    - injection E as <-.
      rewrite sall_comp, PC. cbn [andb]. change (rev before ++ [last]) with (rev (last :: before)). rewrite forallb_forall in *. intros z I.
      rewrite <- in_rev in I. destruct I as [<-|I]; auto.
    - cbn in C. apply andb_prop in C as [C1 C2]. destruct (add2 fin id last y) as [j|] eqn:Q; [|discriminate].
      cbn [rbind] in E. pose proof (A2 _ _ _ L C1 Q) as J. destruct (is_compound j).
      + eapply (IH y (last :: before)); eauto. cbn. now rewrite L.
      + eapply (IH j before); eauto. }
  assert (SA : forall a x s, sall P a = true -> sall P x = true -> is_compound x = false -> sadd fin id a x = Ok s -> sall P s = true).
  { intros a x s0 A X CX E. assert (X1 : forallb (sall P) [x] = true) by (cbn; now rewrite X).
    assert (BX : match x with SCompound _ bs | SSpec _ bs _ => bs | _ => [x] end = [x])
      by (destruct x; try discriminate CX; reflexivity).
    assert (COMP : forall subs, forallb (sall P) subs = true ->
      match rev subs with [] => Err IndexError | l :: bf => add_impl fin id l bf [x] end = Ok s0 -> sall P s0 = true).
    { intros subs H Q. destruct (rev subs) as [|y bf] eqn:R; [discriminate|].
      assert (RR : forallb (sall P) (y :: bf) = true).
      { rewrite <- R. rewrite forallb_forall in *. intros z I. rewrite <- in_rev in I. apply H, I. }
      cbn in RR. apply andb_prop in RR as [R1 R2]. exact (AI [x] y bf s0 R1 R2 X1 Q). }
    destruct (match a with SNull | SCompound _ _ | SSpec _ _ _ => true | _ => false end) eqn:K.
    - destruct a; try discriminate K; cbn [sadd] in E.
      + destruct x; try discriminate CX; injection E as <-; exact X.
      + rewrite BX in E. apply (COMP subs); [|exact E]. cbn in A. now apply andb_prop in A as [_ A].
      + rewrite BX in E. apply (COMP subs); [|exact E]. cbn in A. now apply andb_prop in A as [_ A].
    - assert (S : sadd fin id a x = add2 fin id a x)
        by (destruct a; try discriminate K; destruct x; try discriminate CX; reflexivity).
      rewrite S in E. exact (A2 _ _ _ A X E). }
  unfold ssum. intros H F.
  assert (G : forall acc, sall P acc = true -> ssum_from fin id acc l = Ok s -> sall P s = true).
  { induction l as [|x l IH]; intros acc A E; cbn [ssum_from] in E; [injection E as <-; exact A|].
    cbn in H. apply andb_prop in H as [H1 H2]. inversion F; subst.
    destruct (sadd fin id acc x) as [a|] eqn:Q; [|discriminate]. cbn [rbind] in E. apply (IH H2) with (acc := a); [assumption|exact (SA _ _ _ A H1 ltac:(assumption) Q)|exact E]. }
  apply G. cbn. now rewrite PN.
Qed.

Section Defined.
Variable md : umode.
Variable fin : nat -> bool.
Let NC (c : nat) : bool := negb (fin c).
Lemma leaf_pF : forall c x, leaf x = true -> is_final fin x = false -> sall (tame1 md) x = true ->
  sall (pF md NC c) x = true.
Proof.
  intros c. induction x using ser_ind'; intros L F T; try discriminate L; try discriminate F; try reflexivity.
  - cbn in *. rewrite Bool.andb_true_r in *. unfold pF. cbn. now rewrite T.
  - cbn in *. auto.
Qed.
Lemma leaf_pR : forall c x, leaf x = true -> sall (pR md true) x = true -> sall (pF md NC c) x = true.
Proof.
  intros c. induction x using ser_ind'; intros L T; try discriminate L; try reflexivity.
  - cbn in T. rewrite Bool.andb_true_r in T. unfold pR in T. cbn in T. rewrite Bool.andb_true_r in T.
    apply andb_prop in T as [T _]. cbn. unfold pF. cbn. now rewrite T.
  - discriminate T.
  - cbn in T |- *. apply andb_prop in T as [_ T]. auto.
Qed.
Lemma not_final : forall x, ~ reads_rest (fun d => fin d = true) x -> is_final fin x = false.
Proof.
  intros x H. destruct (is_final fin x) eqn:E; [|reflexivity]. apply reads_rest_final in E. contradiction.
Qed.
Lemma sum_not_final : forall i b l s, Forall (fun x => is_compound x = false /\ bo_is b x) l -> ssum fin i l = Ok s ->
  is_final fin s = false -> forall y, In y l -> is_final fin y = false.
Proof.
  intros i b l s F E NF y I. destruct (is_final fin y) eqn:FY; [|reflexivity]. exfalso.
  apply in_split in I as (p & q & ->).
  destruct (C14_accepted fin i b (p ++ y :: q) F) as [_ ERR].
  assert (Q : Forall (eq SNull) q).
  { apply Forall_forall. intros z IZ.
    destruct (match z with SNull => true | _ => false end) eqn:K; [destruct z; try discriminate K; reflexivity|].
    rewrite ERR in E; [discriminate|]. exists p, y, q, z. rewrite reads_rest_final.
    repeat split; auto. destruct z; discriminate. }
  assert (R : reads_rest (fun c => fin c = true) s).
  { apply (C14_inherited fin i b _ s F E). exists p, y, q. rewrite reads_rest_final. auto. }
  apply reads_rest_final in R. congruence.
Qed.
Lemma compound_of : forall (b : border) l, Forall (fun y => is_compound y = false /\ bo_is b y) l ->
  Forall (fun y => is_compound y = false) l.
Proof. intros b l H. eapply Forall_impl; [|exact H]. now intros a [A _]. Qed.
Lemma accepted_pF : forall c x, accepted md fin c x -> is_final fin x = false -> sall (pF md NC c) x = true.
Proof.
  intros c x A. induction A as [x L T|id h x st A IH N|id i b l x A IH F S|f x d A IH
    |id f m d A IHm B IHd N|id ra f m d L T A IHm B IHd N|id d|id FC]; intros NF.
  - now apply leaf_pF.
  - cbn. apply IH. now apply not_final.
  - cbn in NF |- *. eapply (ssum_sall (pF md NC c) fin i l x); try reflexivity; [|exact (compound_of _ _ F)|exact S].
    rewrite forallb_forall. intros y I. apply IH; [exact I|]. eapply sum_not_final; eauto.
  - cbn in *. auto.
  - cbn in NF |- *. apply andb_true_intro. split.
    + rewrite forallb_forall. intros [k x] I. cbn. apply (IHm k x I).
      destruct (is_final fin x) eqn:E; [|reflexivity]. rewrite <- NF. symmetry. apply existsb_exists. exists (k, x). auto.
    + destruct d as [x|]; [|reflexivity]. apply IHd; [reflexivity|]. now apply not_final, N.
  - cbn in NF |- *. unfold pF at 1. cbn [tame1]. rewrite L, T. cbn [andb]. apply andb_true_intro. split; [apply andb_true_intro; split|].
    + apply leaf_pR; assumption.
    + rewrite forallb_forall. intros [k x] I. cbn. apply (IHm k x I).
      destruct (is_final fin x) eqn:E; [|reflexivity]. rewrite <- NF. symmetry. apply existsb_exists. exists (k, x). auto.
    + destruct d as [x|]; [|reflexivity]. apply IHd; [reflexivity|]. now apply not_final, N.
  - cbn in *. unfold pF, NC. cbn. now rewrite NF.
  - cbn. unfold pF, NC. cbn. now rewrite FC.
Qed.
End Defined.

Lemma wb_final : forall fin bo s, is_final fin (with_bo bo s) = is_final fin s.
Proof.
  intros fin bo. induction s using ser_ind'; cbn; try reflexivity; try assumption;
    (induction H as [|y l0 Y F IH]; cbn; [reflexivity|]; destruct F; [exact Y|exact IH]).
Qed.
Lemma wb_pF : forall md NC c bo s, sall (pF md NC c) s = true -> sall (pF md NC c) (with_bo bo s) = true.
Proof.
  intros md NC c bo. induction s using ser_ind'; cbn; intros E; try reflexivity; try assumption; auto.
  - rewrite forallb_map. rewrite forallb_forall in *. rewrite Forall_forall in H. auto.
  - apply andb_prop in E as [_ E]. rewrite forallb_map. rewrite forallb_forall in *. rewrite Forall_forall in H. auto.
Qed.
Lemma defined_pF : forall md fin c cd l bo, defined_by md fin c cd l bo -> fin c = false ->
  sall (pF md (fun d => negb (fin d)) c) (c_ser cd) = true.
Proof.
  intros md fin c cd l bo (id & b & s & F & A & S & -> & R) FC. apply wb_pF.
  assert (NF : is_final fin s = false).
  { destruct (is_final fin s) eqn:E; [|reflexivity]. assert (X : fin c = true); [|congruence].
    apply R. apply reads_rest_final. now rewrite wb_final. }
  eapply (ssum_sall _ fin id l s); try reflexivity; [|exact (compound_of _ _ F)|exact S].
  rewrite forallb_forall. intros y I. apply accepted_pF.
  - rewrite Forall_forall in A. auto.
  - eapply sum_not_final; eauto.
Qed.

(** every class of the program was accepted *)
Definition accepted_program (md : umode) (fin : nat -> bool) (ct : nat -> option cdef) : Prop :=
  forall c cd, ct c = Some cd -> exists l bo, defined_by md fin c cd l bo.

(** Unpacking an instance of an accepted class whose fields do not read to the end depends only on the bytes
    it consumes: bytes added after them change neither the instance nor the reported size. *)
Theorem C14_trailing : forall hb ct allow md fin n c b v z rest,
  healthy ct allow -> classes_hu ct md -> accepted_program md fin ct -> fin c = false -> csized ct c = true ->
  let create b := create_step hb ct (unpack hb ct n) c (fst (src_of md b)) (snd (src_of md b)) in
  fst (create b) = Ok v -> fst (obj_size hb ct c None (snd (create b))) = Ok z -> z <= blen b ->
  fst (create (b ++ rest)) = Ok v /\ fst (obj_size hb ct c None (snd (create (b ++ rest)))) = Ok z.
Proof.
  intros hb ct allow md fin n c b v z rest H HU A FC CS create E Z L.
  destruct (src_of_ok md b) as (M1 & K1 & S1). destruct (src_of_ok md (b ++ rest)) as (M2 & K2 & S2).
  destruct (user_create hb ct allow md n c _ _ H HU M1 K1) as (A1 & _ & _ & _ & Z1).
  destruct (user_create hb ct allow md n c _ _ H HU M2 K2) as (A2 & _ & _ & _ & Z2).
  rewrite S1 in *. rewrite S2 in *. fold (create b) in A1. fold (create (b ++ rest)) in A2.
  rewrite A1 in E. destruct (dcreate hb ct md n c b) as [[v' k]|] eqn:D; [|discriminate]. cbn in E. injection E as ->.
  specialize (Z1 v k CS eq_refl). fold (create b) in Z1. rewrite Z1 in Z. cbn in Z. injection Z as ->.
  assert (W : wb False (dcreate hb ct md n c)).
  { eapply (tame_create hb ct md (fun d => negb (fin d))); [|now rewrite FC].
    intros d cd C N. destruct (A d cd C) as (l & bo & DB). eapply defined_pF; [exact DB|]. now destruct (fin d). }
  destruct (W b v z D) as (_ & _ & X). specialize (X rest L). rewrite X in *.
  split; [rewrite A2; reflexivity|]. specialize (Z2 v z CS eq_refl). fold (create (b ++ rest)) in Z2. now rewrite Z2.
Qed.
Print Assumptions C14_trailing.

(** Every field with something after it in an accepted class is unpacked from exactly the bytes it consumes. *)
Theorem C14_field_trailing : forall hb ct allow md fin n c cd bo p x q o b vs z rest,
  accepted_program md fin ct -> ct c = Some cd -> defined_by md fin c cd (p ++ x :: q) bo ->
  (exists y, In y q /\ y <> SNull) -> p_cls o = c -> readable_field ct allow c md (with_bo bo x) ->
  field_decodes hb ct md n (with_bo bo x) o b vs z -> z <= blen b ->
  field_decodes hb ct md n (with_bo bo x) o (b ++ rest) vs z.
Proof.
  intros hb ct allow md fin n c cd bo p x q o b vs z rest A C DB (y & IY & NY) PC R F L.
  subst c. apply (decodes_pdec hb ct allow md n _ o _ vs z R) in F.
  apply (decodes_pdec hb ct allow md n _ o _ vs z R).
  destruct DB as (id & b0 & s & FF & AC & SS & _).
  assert (NF : is_final fin x = false).
  { destruct (is_final fin x) eqn:FX; [|reflexivity]. exfalso.
    destruct (C14_accepted fin id b0 (p ++ x :: q) FF) as [_ ERR]. rewrite ERR in SS; [discriminate SS|].
    exists p, x, q, y. rewrite reads_rest_final. auto. }
  assert (TX : sall (pF md (fun d => negb (fin d)) (p_cls o)) (with_bo bo x) = true).
  { apply wb_pF, accepted_pF; [|exact NF]. rewrite Forall_forall in AC. apply AC, in_or_app. right. now left. }
  unfold pdec in *. destruct (resolve false (with_bo bo x) o) as [x'|] eqn:RX; [|discriminate]. cbn [rbind] in *.
  assert (W : wb False (dec hb ct md n x' o)).
  { apply (tame_wb hb ct md (fun d => negb (fin d))).
    - intros d e CE N. destruct (A d e CE) as (l & bo' & DB). eapply defined_pF; [exact DB|]. now destruct (fin d).
    - eapply (resolve_sall _ false _ o); [apply pF_stable|exact TX|exact RX]. }
  destruct (W b vs z F) as (_ & _ & X). exact (X rest L).
Qed.
Print Assumptions C14_field_trailing.

(** the sample classes were accepted; Blob, which ends with char[math.inf], reads to the end *)
Definition table_fin (c : nat) : bool := Nat.eqb c 2.
Definition d1 (c : code) : ser := SStruct (st1 BO_DEFAULT c).
Definition table_fields (c : nat) : list ser :=
  match c with
  | 0 => [d1 Ch; d1 Ch]
  | 1 => [d1 CB; SUnicode (SDynChar 11 sU8) latin1; SCond (fld_is "kind" 1) (d1 CI) [VInt 7];
          SLookback 12 (fld "kind") [(VInt 0, d1 CH); (VInt 1, SStructd 13 0)] (Some (SDynChar 11 sU8));
          SArray 15 (Some (SS BO_DEFAULT [T None CB; T None CH] None)) (SStructd 16 0) (-1);
          SArray 17 (Some sU8) (SSelf 18) (-1); STuple 19 (SStruct (SS BO_DEFAULT [T None Cb; T None CH] None))]
  | 2 => [SStruct (SS BO_DEFAULT [T (Some 4%nat) Cs] None); d1 CI; SStaticArr 3 (st1 BO_DEFAULT Ch); STerm 31 x00;
          SConsume 32]
  | 3 => [SLookahead 41 (SStruct (st1 BO_LE CB)) (fld2 "body" "tag")
            [(VInt 1, SStructd 42 4); (VInt 2, SStructd 43 5)] None; d1 CI]
  | 4 => [d1 CB; d1 CH]
  | _ => [d1 CB; SArray 45 (Some sU8) (SStructd 47 4) (-1); SNet 46]
  end%nat.
Definition table_bo (c : nat) : border := match c with 0 | 1 => BO_DEFAULT | _ => BO_LE end%nat.
Definition table_sid (c : nat) : nat := match c with 1 => 10 | 2 => 30 | 3 => 40 | _ => 44 end%nat.
Lemma table_defined : forall c cd, table c = Some cd -> defined_by UBuf table_fin c cd (table_fields c) (table_bo c).
Proof.
  intros c cd E. exists (table_sid c), BO_DEFAULT.
  assert (NR : forall x, is_final table_fin x = false -> ~ reads_rest (fun d => table_fin d = true) x).
  { intros x F R. apply reads_rest_final in R. congruence. }
  assert (LF : forall x, leaf x = true -> sall (tame1 UBuf) x = true -> accepted UBuf table_fin c x) by (intros; now apply AC_leaf).
  assert (FC : forall b x l (P : ser -> Prop), is_compound x = false -> bo_is b x ->
     Forall (fun x => is_compound x = false /\ bo_is b x) l -> Forall (fun x => is_compound x = false /\ bo_is b x) (x :: l)).
  { intros. constructor; auto. }
  assert (G : forall l c0 bo i s cd0 (FB : Forall (fun x => is_compound x = false /\ bo_is BO_DEFAULT x) l),
     Forall (accepted UBuf table_fin c0) l -> ssum table_fin i l = Ok s -> c_ser cd0 = with_bo bo s ->
     table_fin c0 = is_final table_fin (c_ser cd0) ->
     exists s, Forall (fun x => is_compound x = false /\ bo_is BO_DEFAULT x) l /\ Forall (accepted UBuf table_fin c0) l /\
       ssum table_fin i l = Ok s /\ c_ser cd0 = with_bo bo s /\
       (table_fin c0 = true <-> reads_rest (fun d => table_fin d = true) (c_ser cd0))).
  { intros l c0 bo i s cd0 FB FA S CS R. exists s. rewrite reads_rest_final, R. tauto. }
  destruct c as [|[|[|[|[|[|c]]]]]]; try discriminate E; injection E as <-; eapply G;
    try reflexivity; try (repeat (apply Forall_cons; [split; [reflexivity|first [reflexivity|exact I]]|]); apply Forall_nil).
  all: repeat (apply Forall_cons; [try (apply LF; reflexivity)|]); try apply Forall_nil.
  - apply AC_cond. apply LF; reflexivity.
  - apply AC_lookback.
    + intros k x [E|[E|[]]]; injection E as <- <-; [apply LF; reflexivity|apply AC_structured].
    + intros x E. injection E as <-. apply LF; reflexivity.
    + intros x E. injection E as <-. apply NR. reflexivity.
  - apply AC_array; [apply AC_structured|apply NR; reflexivity].
  - apply AC_array; [now apply AC_self|apply NR; reflexivity].
  - apply (AC_tuple _ _ _ 19 0 BO_DEFAULT [d1 Cb; d1 CH]); [|repeat constructor|reflexivity].
    intros y [<-|[<-|[]]]; apply LF; reflexivity.
  - apply AC_lookahead; try reflexivity; [|discriminate|discriminate].
    intros k x [E|[E|[]]]; injection E as <- <-; apply AC_structured.
  - apply AC_array; [apply AC_structured|apply NR; reflexivity].
Qed.
Lemma table_accepted : accepted_program UBuf table_fin table.
Proof. intros c cd E. exists (table_fields c), (table_bo c). now apply table_defined. Qed.
Definition tree_bytes : bytes := Eval vm_compute in
  match fst (Structured_pack false table 20 tree dirty) with Ok b => b | Err _ => [] end.
Example C14_trailing_met : forall rest, exists v,
  fst (create_step false table (unpack false table 20) 1 (SBuf (tree_bytes ++ rest)) cloud0) = Ok v /\ v = tree.
Proof.
  intros rest. exists tree. split; [|reflexivity].
  apply (C14_trailing false table Nat.eqb UBuf table_fin 20 1 tree_bytes tree (blen tree_bytes) rest
           table_healthy (proj1 table_hu) table_accepted); try reflexivity.
Qed.
(** text: char[b'\0'] is followed by rest: char[math.inf] *)
Example C14_field_trailing_met : forall rest,
  field_decodes false table UBuf 3 (STerm 31 x00) (PO 2 true []) ([x68; x69; x00] ++ rest) [VBytes [x68; x69]] 3.
Proof.
  intros rest.
  apply (C14_field_trailing false table Nat.eqb UBuf table_fin 3 2 Blob BO_LE
    [SStruct (SS BO_DEFAULT [T (Some 4%nat) Cs] None); d1 CI; SStaticArr 3 (st1 BO_DEFAULT Ch)] (STerm 31 x00) [SConsume 32]
    (PO 2 true []) [x68; x69; x00] [VBytes [x68; x69]] 3 rest table_accepted); try reflexivity.
  - exact (table_defined 2%nat Blob eq_refl).
  - exists (SConsume 32). split; [now left|discriminate].
  - destruct table_healthy as [T K]. split; [exists T; split; [exact K|reflexivity]|]. split; [apply table_hu|reflexivity].
Qed.

(** The default of a union is not looked at: class U(Structured): kind: uint8;
    u: by LookbackDecider(kind, {1: uint8}, default=char[math.inf]); last: uint8 is accepted, and what it packs
    cannot be unpacked. *)
Definition ud_field : ser := SLookback 81 (fld "kind") [(VInt 1, d1 CB)] (Some (SConsume 82)).
Definition ud_ct (c : nat) : option cdef :=
  match c with
  | O => Some (CD ["kind"; "u"; "last"]%string (SCompound 80 [d1 CB; ud_field; d1 CB]) BO_DEFAULT false)
  | _ => None
  end.
Definition ud_obj : value := VObj 0 None [("kind", VInt 2); ("u", VBytes [x61; x62]); ("last", VInt 9)]%string.
Theorem C14_union_default_refuted : exists s b,
  ssum (fun _ => false) 80 [d1 CB; ud_field; d1 CB] = Ok s /\
  option_map c_ser (ud_ct 0) = Some s /\ reads_rest (fun _ => False) (SConsume 82) /\
  (forall w, fst (Structured_pack false ud_ct 4 ud_obj w) = Ok b) /\
  (forall w, fst (create_unpack false ud_ct 4 0 b w) = Err StructError).
Proof.
  eexists. exists [x02; x61; x62; x09]. split; [reflexivity|]. split; [reflexivity|].
  split; [constructor|]. split; intros w; vm_compute; reflexivity.
Qed.
Print Assumptions C14_union_default_refuted.

(** Self reports that it does not read to the end: class K(Structured): kids: array[Header[uint8], Self];
    rest: char[math.inf] is accepted, and what it packs cannot be unpacked. *)
Definition sf_kids : ser := SArray 91 (Some sU8) (SSelf 92) (-1).
Definition sf_ct (c : nat) : option cdef :=
  match c with
  | O => Some (CD ["kids"; "rest"]%string (SCompound 90 [sf_kids; SConsume 93]) BO_DEFAULT true)
  | _ => None
  end.
Definition sf_kid (b : bytes) : value := VObj 0 None [("kids", VList []); ("rest", VBytes b)]%string.
Definition sf_obj : value := VObj 0 None [("kids", VList [sf_kid [x61]; sf_kid [x62]]); ("rest", VBytes [x63])]%string.
Theorem C14_self_refuted : exists s b,
  ssum (fun _ => true) 90 [sf_kids; SConsume 93] = Ok s /\ option_map c_ser (sf_ct 0) = Some s /\
  is_final (fun _ => true) (SSelf 92) = false /\ reads_rest (fun _ => True) s /\
  (forall w, fst (Structured_pack false sf_ct 6 sf_obj w) = Ok b) /\
  (forall w, fst (create_unpack false sf_ct 6 0 b w) = Err StructError).
Proof.
  eexists. exists [x02; x00; x61; x00; x62; x63]. split; [reflexivity|]. split; [reflexivity|]. split; [reflexivity|].
  split; [apply (RR_sum _ 90 [sf_kids]); constructor|]. split; intros w; vm_compute; reflexivity.
Qed.
Print Assumptions C14_self_refuted.
