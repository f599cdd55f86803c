(** The round trip theorem of the stateless semantics: what was encoded from canonical values decodes to
    the same values, in each of the three unpack modes, whatever follows. *)
From Verif Require Import Base Floats Value StructMod Format Ser Exec Pure BaseFacts StructFacts FormatFacts
  SerFacts RefPack RefUnpack DecFacts Canon Fuel RoundTrip.

(** ** attributes *)
Lemma assoc_app : forall {B} a (d e : list (string * B)), assoc a d = None -> assoc a (d ++ e) = assoc a e.
Proof.
  induction d as [|[k v] d IH]; intros e H; [reflexivity|]. cbn in *. destruct (String.eqb a k); [discriminate|auto].
Qed.
Lemma assoc_set_fresh : forall {B} a (v : B) d, assoc a d = None -> assoc_set a v d = d ++ [(a, v)].
Proof.
  induction d as [|[k w] d IH]; intros H; [reflexivity|]. cbn in *.
  destruct (String.eqb a k); [discriminate|]. now rewrite IH.
Qed.
Lemma assign_fresh : forall vs names d, (List.length vs <= List.length names)%nat -> NoDup names ->
  (forall a, In a names -> assoc a d = None) ->
  assign names vs d = (Some (skipn (List.length vs) names), d ++ zipw (firstn (List.length vs) names) vs).
Proof.
  induction vs as [|v vs IH]; intros names d L ND F; [cbn; rewrite app_nil_r; now destruct names|].
  destruct names as [|a names]; [cbn in L; lia|]. cbn [List.length skipn assign firstn zipw].
  inversion ND; subst. rewrite assoc_set_fresh by (apply F; now left).
  rewrite IH; [now rewrite <- app_assoc|cbn in L; lia|assumption|].
  intros b I. rewrite assoc_app by (apply F; now right). cbn.
  destruct (String.eqb b a) eqn:E; [|reflexivity]. apply String.eqb_eq in E. now subst.
Qed.
Lemma get_attrs_app : forall names vals d, NoDup names -> List.length vals = List.length names ->
  (forall a, In a names -> assoc a d = None) -> get_attrs names (d ++ zipw names vals) = Ok vals.
Proof.
  induction names as [|a names IH]; intros vals d ND L F; destruct vals as [|v vals]; try discriminate; [reflexivity|].
  unfold get_attrs in *. cbn [rmapM zipw]. rewrite assoc_app by (apply F; now left). cbn [assoc].
  rewrite String.eqb_refl. cbn [rbind]. inversion ND; subst.
  replace (d ++ (a, v) :: zipw names vals) with ((d ++ [(a, v)]) ++ zipw names vals) by now rewrite <- app_assoc.
  rewrite IH; [reflexivity|assumption|now injection L|].
  intros b I. rewrite assoc_app by (apply F; now right). cbn.
  destruct (String.eqb b a) eqn:E; [|reflexivity]. apply String.eqb_eq in E. now subst.
Qed.
Lemma get_attrs_zip : forall names vals, NoDup names -> List.length vals = List.length names ->
  get_attrs names (zipw names vals) = Ok vals.
Proof. intros names vals ND L. apply (get_attrs_app names vals [] ND L). reflexivity. Qed.
Lemma zipw_app_firstn : forall {A B} k (l : list A) (m : list B), (k <= List.length l)%nat -> List.length l = List.length m ->
  zipw (firstn k l) (firstn k m) ++ zipw (skipn k l) (skipn k m) = zipw l m.
Proof.
  induction k as [|k IH]; intros l m K L; [reflexivity|]. destruct l, m; try discriminate; [reflexivity|].
  cbn. f_equal. apply IH; cbn in *; lia.
Qed.
Lemma NoDup_skipn : forall {A} k (l : list A), NoDup l -> NoDup (skipn k l).
Proof. induction k; intros l H; [exact H|]. destruct l; [constructor|]. inversion H; subst. cbn. auto. Qed.
Lemma In_skipn : forall {A} k (l : list A) x, In x (skipn k l) -> In x l.
Proof. induction k; intros l x H; [exact H|]. destruct l; [contradiction|]. right. auto. Qed.

Section RT.
Variable hb : bool.
Variable ct : nat -> option cdef.
Variable allow : nat -> nat -> bool.
Variable md : umode.

(** ** which definitions can be read back
    counts are single unsigned integers, array headers hold integers, read-ahead serializers only look at
    bytes they report *)
Definition pT (x : ser) : bool :=
  match x with
  | SDynChar _ st => uint1 st
  | SDynArr _ c item => dynarr_ok hb c item
  | SArray _ h _ static => hdr_ok h static
  | SLookahead _ ra _ _ _ => leaf ra && sall (pR md false) ra
  | _ => true
  end.
Lemma pT_stable : forall c, stable pT c.
Proof. intros c. split; intros; reflexivity. Qed.

(** [NC d]: class [d] contains no read-to-end string *)
Variable NC : nat -> bool.
Definition pN (c : nat) (x : ser) : bool :=
  match x with
  | SConsume _ => false
  | SStructd _ d => NC d
  | SSelf _ => NC c
  | _ => true
  end.
Lemma pN_stable : forall c, stable (pN c) c.
Proof. intros c. split; intros; try reflexivity. assumption. Qed.

(** a read-to-end string occurs only at the end *)
Fixpoint tailok (c : nat) (x : ser) : bool :=
  match x with
  | SArray _ _ i _ => sall (pN c) i
  | SUnicode i _ | STuple _ i | SCond _ i _ => tailok c i
  | SLookback _ _ m d | SLookahead _ _ _ m d =>
      forallb (fun p => tailok c (snd p)) m && match d with Some i => tailok c i | None => true end
  | SCompound _ subs | SSpec _ subs _ =>
      (fix go l := match l with
                   | [] => true
                   | [i] => tailok c i
                   | i :: l' => sall (pN c) i && go l'
                   end) subs
  | _ => true
  end.
Definition tails (c : nat) (subs : list ser) : bool :=
  (fix go l := match l with
               | [] => true
               | [i] => tailok c i
               | i :: l' => sall (pN c) i && go l'
               end) subs.
Lemma sall_tailok : forall c x, sall (pN c) x = true -> tailok c x = true.
Proof.
  intros c. induction x using ser_ind'; cbn; intros E; try reflexivity; auto.
  - apply andb_prop in E as [E1 E2]. apply andb_true_intro. split.
    + rewrite forallb_forall in *. rewrite Forall_forall in *. intros p I. eauto.
    + destruct d; auto.
  - apply andb_prop in E as [E E2]. apply andb_prop in E as [_ E1]. apply andb_true_intro. split.
    + rewrite forallb_forall in *. rewrite Forall_forall in *. intros p I. eauto.
    + destruct d; auto.
  - induction l as [|i1 subs IH]; [reflexivity|]. cbn in E. apply andb_prop in E as [E1 E2].
    inversion H; subst. destruct subs; [auto|]. rewrite E1. cbn [andb]. auto.
  - induction l as [|i1 subs IH]; [reflexivity|]. cbn in E. apply andb_prop in E as [E1 E2].
    inversion H; subst. destruct subs; [auto|]. rewrite E1. cbn [andb]. auto.
Qed.
Lemma resolve_tailok : forall packing s o s', resolve packing s o = Ok s' -> tailok (p_cls o) s = true ->
  tailok (p_cls o) s' = true.
Proof.
  intros packing s o s' R H. destruct s; cbn in R; try (injection R as <-; exact H).
  - destruct (cond o) as [v|]; [|discriminate]. cbn in R. unfold cond_branch in R.
    destruct (key_eqb v (VBool true)); [injection R as <-; exact H|].
    destruct (key_eqb v (VBool false)); [injection R as <-; reflexivity|].
    destruct (hashable v); discriminate.
  - destruct (self_class packing o); [|discriminate]. injection R as <-. reflexivity.
  - injection R as <-. destruct (existsb needs_pre subs); exact H.
Qed.
Lemma choose_tailok : forall c m d k s0, choose m d k = Ok s0 ->
  forallb (fun p => tailok c (snd p)) m = true -> match d with Some x => tailok c x | None => true end = true ->
  tailok c s0 = true.
Proof.
  intros c m d k s0 C M D. unfold choose in C. destruct (hashable k); [|discriminate].
  assert (F : forall x, map_find k m = Some x -> tailok c x = true).
  { clear -M. induction m as [|[k' y] m IH]; cbn in *; [discriminate|]. apply andb_prop in M as [M1 M2].
    destruct (key_eqb k k'); [intros x E; injection E as <-; exact M1|auto]. }
  destruct (map_find k m); [injection C as <-; auto|]. destruct d; [injection C as <-; exact D|discriminate].
Qed.

(** the class table: every class can be read back, and [NC] is right *)
Definition readable : Prop :=
  forall c cd, ct c = Some cd ->
    sall pT (c_ser cd) = true /\ tailok c (c_ser cd) = true /\ (NC c = true -> sall (pN c) (c_ser cd) = true).
Hypothesis READ : readable.

(** [x] may be followed by [rest] *)
Definition follow (c : nat) (x : ser) (rest : bytes) : Prop := rest = [] \/ sall (pN c) x = true.

Lemma adv_len : forall a b, adv (blen a) (a ++ b) = b.
Proof. intros. unfold adv, blen. rewrite Nat2Z.id. apply skipn_app_len. Qed.
Lemma follow_resolve : forall packing s o s' rest, resolve packing s o = Ok s' -> follow (p_cls o) s rest ->
  follow (p_cls o) s' rest.
Proof.
  intros packing s o s' rest R [E|E]; [now left|right]. eapply resolve_sall; eauto. apply pN_stable.
Qed.
Lemma resolve_pT : forall packing s o s', resolve packing s o = Ok s' -> sall pT s = true -> sall pT s' = true.
Proof. intros. eapply resolve_sall; eauto. apply pT_stable. Qed.

(** fixed size byte strings *)
Lemma rt_fixed : forall bo n raw b rest,
  est hb (SS bo [Verif.StructMod.T n Cs] None) [VBytes raw] = Ok b ->
  b = str_fit (cnt (Verif.StructMod.T n Cs)) raw /\
  dst hb (SS bo [Verif.StructMod.T n Cs] None) (b ++ rest) = Ok [VBytes b].
Proof.
  intros bo n raw b rest E.
  pose proof (est_len hb _ _ _ E) as L. rewrite dst_exact by exact L.
  unfold est in E. apply st_pack_inv in E as [_ E]. unfold expand in *. cbn in *. injection E as E. rewrite app_nil_r in E.
  split; [now symmetry|]. rewrite firstn_all2; [reflexivity|].
  rewrite <- E. unfold str_fit. rewrite app_length, firstn_length. unfold zeros. rewrite repeat_length. lia.
Qed.
Lemma str_back_cases : forall rec inner pc uc b b', str_back rec inner pc uc b b' ->
  (exists bo n, inner = SStruct (SS bo [Verif.StructMod.T n Cs] None) /\ b' = str_fit (cnt (Verif.StructMod.T n Cs)) b)
  \/ (b' = b /\ rec inner pc uc [VBytes b]).
Proof.
  intros rec inner pc uc b b' H. unfold str_back in H.
  destruct inner; try (right; exact H). destruct st as [bo f act].
  destruct f as [|[n c] f]; try (right; exact H).
  destruct c; try (right; exact H). destruct f; try (right; exact H). destruct act; try (right; exact H). left. eauto.
Qed.

Section Step.
Variables n m : nat.
Let crec := canon hb ct allow md n.
(** one level down *)
Hypothesis IH : forall x pc uc vs b rest, crec x pc uc vs -> sall pT x = true ->
  tailok (p_cls uc) x = true -> follow (p_cls uc) x rest ->
  enc hb ct allow n x pc vs = Ok b -> dec hb ct md m x uc (b ++ rest) = Ok (vs, blen b).

Lemma rt_items : forall item pc uc items b rest,
  Forall (fun v => crec item pc uc [v]) items -> sall pT item = true -> sall (pN (p_cls uc)) item = true ->
  enc_items (enc hb ct allow n) item pc items = Ok b ->
  dec_items (dec hb ct md m) item uc (List.length items) (b ++ rest) = Ok (items, blen b).
Proof.
  intros item pc uc items. induction items as [|v items IHi]; intros b rest F P N E.
  - injection E as <-. reflexivity.
  - cbn [enc_items] in E. destruct (enc hb ct allow n item pc [v]) as [b1|] eqn:E1; [|discriminate]. cbn in E.
    destruct (enc_items _ item pc items) as [b2|] eqn:E2; [|discriminate]. injection E as <-.
    inversion F; subst. cbn [dec_items List.length]. rewrite <- app_assoc.
    rewrite (IH item pc uc [v] b1 (b2 ++ rest)); [|assumption|assumption|now apply sall_tailok|now right|assumption].
    cbn [rbind]. rewrite adv_len, IHi by auto. cbn. now rewrite blen_app.
Qed.

Lemma rt_fields : forall c pre pc X subs names vals d b rest,
  canon_fields crec c pre pc subs names vals d ->
  forallb (sall pT) subs = true -> tails c subs = true ->
  rest = [] \/ forallb (sall (pN c)) subs = true ->
  (pre = false -> existsb needs_pre subs = false) ->
  List.length vals = List.length names -> NoDup names -> (forall a, In a names -> assoc a d = None) ->
  p_cls pc = c ->
  enc_subs (enc hb ct allow n) (if pre then Some pc else None) pc subs vals = Ok b ->
  dfill_subs (dec hb ct md m) (if pre then Some (PO c true X) else None) (PO c true []) subs (b ++ rest) names d
  = (Ok ([], blen b), d ++ zipw names vals).
Proof.
  intros c pre pc X subs. induction subs as [|x subs IHs];
    intros names vals d b rest CF P TL FW PRE LEN ND FR PC E.
  - destruct CF as [-> ->]. injection E as <-. cbn. now rewrite app_nil_r.
  - cbn [canon_fields] in CF. cbv zeta in CF. destruct CF as (x' & R1 & R2 & K & CX & CF).
    cbn in P. apply andb_prop in P as [P1 P2].
    assert (RX : oresolve true (if pre then Some pc else None) x = Ok x' /\
                 oresolve false (option_map (fun o => PO (p_cls o) (p_proxy o) d) (if pre then Some (PO c true X) else None)) x = Ok x' /\
                 octx (option_map (fun o => PO (p_cls o) (p_proxy o) d) (if pre then Some (PO c true X) else None)) (PO c true [])
                   = PO c true (if pre then d else []) /\
                 octx (if pre then Some pc else None) pc = pc).
    { destruct pre; cbn; auto. specialize (PRE eq_refl). cbn in PRE. apply orb_false_iff in PRE as [Q _].
      assert (x' = x) by (destruct x; cbn in Q, R1; try discriminate; congruence). subst. auto. }
    destruct RX as (O1 & O2 & O3 & O4).
    cbn [enc_subs] in E. rewrite O1 in E. cbn [rbind] in E. rewrite O4 in E.
    destruct (enc hb ct allow n x' pc (firstn (num_values x') vals)) as [b1|] eqn:E1; [|discriminate]. cbn [rbind] in E.
    destruct (enc_subs _ _ pc subs _) as [b2|] eqn:E2; [|discriminate]. injection E as <-.
    set (uc := PO c true (if pre then d else [])) in *.
    assert (TX : tailok c x = true /\ tails c subs = true /\ follow c x (b2 ++ rest)).
    { unfold tails in TL. destruct subs as [|y subs].
      - injection E2 as <-. repeat split; auto. destruct FW as [->|FW]; [now left|right].
        cbn in FW. now apply andb_prop in FW as [FW _].
      - apply andb_prop in TL as [T1 T2]. repeat split; auto; [now apply sall_tailok|now right]. }
    destruct TX as (T1 & T2 & T3).
    assert (D1 : dec hb ct md m x' uc (b1 ++ b2 ++ rest) = Ok (firstn (num_values x') vals, blen b1)).
    { apply (IH x' pc uc _ b1 (b2 ++ rest)); auto.
      - eapply resolve_pT; eauto.
      - exact (resolve_tailok false x uc x' R2 T1).
      - exact (follow_resolve false x uc x' _ R2 T3). }
    cbn [dfill_subs]. cbv zeta. rewrite O2. cbn [rbind]. rewrite O3. rewrite <- app_assoc, D1.
    set (k := num_values x') in *.
    assert (LF : List.length (firstn k vals) = k) by (rewrite firstn_length; lia).
    rewrite assign_fresh by (auto; lia). rewrite LF, adv_len.
    rewrite (IHs (skipn k names) (skipn k vals) _ b2 rest); auto.
    + cbn. rewrite blen_app, <- app_assoc, zipw_app_firstn by lia. reflexivity.
    + destruct FW as [->|FW]; [now left|right]. cbn in FW. now apply andb_prop in FW as [_ FW].
    + intros Q. specialize (PRE Q). cbn in PRE. now apply orb_false_iff in PRE as [_ PRE].
    + rewrite !skipn_length. lia.
    + now apply NoDup_skipn.
    + intros a I. rewrite assoc_app by (apply FR; eapply In_skipn; eauto).
      assert (NI : ~ In a (firstn k names)).
      { rewrite <- (firstn_skipn k names) in ND. intros J.
        clear -ND I J. induction (firstn k names) as [|y l IHl]; [contradiction|].
        cbn in ND. inversion ND; subst. destruct J as [->|J]; [apply H1; apply in_or_app; now right|auto]. }
      clear -NI. revert NI. generalize (firstn k names), (firstn k vals).
      induction l as [|y l IHl]; intros vs NI; [reflexivity|]. destruct vs; [reflexivity|]. cbn.
      destruct (String.eqb a y) eqn:Q; [apply String.eqb_eq in Q; subst; exfalso; apply NI; now left|].
      apply IHl. intros J. apply NI. now right.
Qed.
End Step.

Definition rt_at (n m : nat) : Prop := forall x pc uc vs b rest, canon hb ct allow md n x pc uc vs ->
  sall pT x = true -> tailok (p_cls uc) x = true -> follow (p_cls uc) x rest ->
  enc hb ct allow n x pc vs = Ok b -> dec hb ct md m x uc (b ++ rest) = Ok (vs, blen b).

Lemma rt_create : forall n m c d b rest, rt_at n m -> rt_at (pred n) m ->
  canon_obj ct (canon hb ct allow md n) (canon_pred hb ct allow md n) c d ->
  rest = [] \/ NC c = true ->
  enc_obj_step ct (enc hb ct allow n) c None d = Ok b ->
  dcreate_step ct (dec hb ct md m) c (b ++ rest) = Ok (VObj c None d, blen b).
Proof.
  intros n m c d b rest IH IH1 (cd & vals & CT & ND & LEN & D & CS) FW E.
  destruct (READ c cd CT) as (P & TL & N).
  unfold enc_obj_step in E. rewrite CT in E. cbn [obj_ser] in E.
  destruct (resolve true (c_ser cd) (PO c false d)) as [s|] eqn:RS; [|discriminate]. cbn [rbind] in E.
  assert (GA : get_attrs (c_attrs cd) d = Ok vals) by (rewrite D; now apply get_attrs_zip).
  rewrite GA in E. cbn [rbind] in E.
  assert (GEN : canon_in (canon hb ct allow md n) (c_ser cd) (PO c false d) (PO c true []) vals ->
     is_compound (c_ser cd) = false ->
     dcreate_step ct (dec hb ct md m) c (b ++ rest) = Ok (VObj c None d, blen b)).
  { intros (s' & R1 & R2 & CN) NCMP. rewrite RS in R1. injection R1 as ->.
    unfold dcreate_step. rewrite CT, R2. cbn [rbind].
    assert (NC2 : is_compound s' = false).
    { destruct n; [contradiction|]. destruct s'; try reflexivity; cbn in CN; contradiction. }
    assert (DD : dec hb ct md m s' (PO c true []) (b ++ rest) = Ok (vals, blen b)).
    { apply (IH s' (PO c false d) (PO c true []) vals b rest); auto.
      - eapply resolve_pT; eauto.
      - exact (resolve_tailok false _ _ _ R2 TL).
      - apply (follow_resolve false _ (PO c true []) _ _ R2). destruct FW as [->|FW]; [now left|right; auto]. }
    assert (DF : dfill (dec hb ct md m) s' (PO c true []) (b ++ rest) (c_attrs cd) [] = (Ok (blen b), d)).
    { assert (X : match dec hb ct md m s' (PO c true []) (b ++ rest) with
        | Err e => (Err e, [])
        | Ok (vs, k) =>
          match assign (c_attrs cd) vs [] with
          | (None, d') => (Err ValueError, d')
          | (Some names', d') => (match names' with [] => Ok k | _ => Err ValueError end, d')
          end
        end = (Ok (blen b), d)).
      { rewrite DD. rewrite assign_fresh by (auto; lia). rewrite LEN, skipn_all. cbn [app].
        rewrite firstn_all. now rewrite <- D. }
      destruct s'; try discriminate NC2; exact X. }
    rewrite DF, GA. cbn. now rewrite <- D. }
  destruct (c_ser cd) eqn:CSER; try (apply GEN; [exact CS|reflexivity]); try (destruct CS as (? & R1 & R2 & CN);
    cbn in R1; injection R1 as <-; destruct n; contradiction).
  (* compound *)
  clear GEN. cbn [resolve] in RS. injection RS as <-.
  destruct n as [|n]; [discriminate|]. cbn [pred canon_pred] in *.
  assert (ES : enc_subs (enc hb ct allow n) (if existsb needs_pre subs then Some (PO c false d) else None)
                 (PO c false d) subs vals = Ok b) by (destruct (existsb needs_pre subs); exact E).
  cbn in P.
  assert (FF : rest = [] \/ forallb (sall (pN c)) subs = true).
  { destruct FW as [->|FW]; [now left|right]. specialize (N FW). cbn in N. exact N. }
  assert (PRE : existsb needs_pre subs = false -> existsb needs_pre subs = false) by auto.
  pose proof (rt_fields n m IH1 c (existsb needs_pre subs) (PO c false d) [] subs (c_attrs cd) vals [] b rest
    CS P TL FF PRE LEN ND (fun _ _ => eq_refl) eq_refl ES) as DF.
  unfold dcreate_step. rewrite CT, CSER. cbn [resolve rbind].
  destruct (existsb needs_pre subs); cbn [dfill]; rewrite DF; cbn [app];
    (rewrite get_attrs_zip by assumption); cbn; now rewrite <- D.
Qed.

Theorem rt_main : forall n m, (n <= m)%nat -> rt_at n m.
Proof.
  induction n as [n IHn] using lt_wf_ind. intros m NM x pc uc vs b rest CN P TL FW E.
  destruct n as [|n]; [contradiction|]. destruct m as [|m]; [lia|].
  assert (IH : rt_at n m) by (apply IHn; lia). assert (IH1 : rt_at (pred n) m) by (apply IHn; lia). clear IHn.
  change (canon_step hb ct (canon hb ct allow md n) (canon_pred hb ct allow md n)
            (enc hb ct allow n) (dec hb ct md n) x pc uc vs) in CN.
  cbn [enc] in E. cbn [dec].
  destruct x; cbn [canon_step] in CN; try contradiction.
  - (* Null *) subst. injection E as <-. reflexivity.
  - (* Struct *) cbn [enc_step] in E. cbn [dec_step]. rewrite (rt_st hb st vs b rest CN E). cbn.
    now rewrite <- (est_len hb _ _ _ E).
  - (* Skip *) subst. injection E as <-. reflexivity.
  - (* DynChar *) destruct CN as (raw & ->). cbn [enc_step nth0 py_len rbind] in E.
    destruct (dynchar_st st _) as [st'|] eqn:D; [|discriminate]. cbn [rbind] in E.
    eapply rt_dynchar; eauto. now apply sall_here in P.
  - (* Consume *) destruct CN as (raw & ->). injection E as <-.
    destruct FW as [->|FW]; [|discriminate]. cbn. now rewrite app_nil_r.
  - (* Term *) destruct CN as (raw & -> & NI). cbn [enc_step nth0 as_bytes rbind] in E.
    destruct (ss_matmul single_char (blen (raw ++ [t]))) as [o|] eqn:MM; [|discriminate]. cbn [rbind] in E.
    assert (B : b = raw ++ [t]).
    { assert (L1 : 1 <= blen (raw ++ [t])) by (rewrite blen_app; pose proof (blen_nonneg raw); change (blen [t]) with 1; lia).
      destruct (matmul_char BO_DEFAULT Cs (blen (raw ++ [t])) L1) as (tc & M' & TC & _ & _).
      change (SS BO_DEFAULT [Verif.StructMod.T None Cs] None) with single_char in M'. rewrite MM in M'.
      injection M' as ->. cbn [eost] in E. unfold est in E. apply st_pack_inv in E as [_ E].
      cbn [s_fmt] in E. rewrite TC in E. unfold expand in E. cbn in E.
      injection E as E. rewrite app_nil_r in E. rewrite <- E. apply str_fit_exact. unfold blen in *. lia. }
    subst b. cbn [dec_step]. rewrite <- app_assoc. rewrite byte_find_app.
    assert (BN : byte_find t raw = None).
    { clear -NI. induction raw as [|y raw IHr]; [reflexivity|]. cbn.
      destruct (Byte.eqb y t) eqn:Q; [exfalso; apply NI; left; now apply Byte.byte_dec_bl|].
      rewrite IHr; [reflexivity|]. intros I. apply NI. now right. }
    rewrite BN. cbn. rewrite byte_eqb_refl. cbn.
    rewrite Nat.add_0_r, firstn_app_len. unfold blen. rewrite app_length. cbn. do 2 f_equal. lia.
  - (* Net *) destruct CN as (raw & -> & HB). cbn [enc_step nth0 py_len rbind] in E.
    destruct (net_st _) as [[st mark]|] eqn:D; [|discriminate]. cbn [rbind] in E.
    eapply rt_net; eauto.
  - (* Unicode *)
    destruct CN as (s & raw & raw' & t & -> & CE & SB & CD & RS). cbn [enc_step nth0 rbind] in E. rewrite CE in E.
    cbn [rbind] in E. cbn in P, TL.
    assert (FI : follow (p_cls uc) x rest) by (destruct FW as [->|FW]; [now left|right; exact FW]).
    assert (DX : dec hb ct md m x uc (b ++ rest) = Ok ([VBytes raw'], blen b)).
    { destruct (str_back_cases _ _ _ _ _ _ SB) as [(bo & k & -> & ->)|(-> & CX)]; [|now apply (IH x pc uc)].
      destruct n as [|n]; [discriminate|]. cbn [enc enc_step] in E. destruct m as [|m]; [lia|]. cbn [dec dec_step].
      destruct (rt_fixed bo k raw b rest E) as [-> DS]. rewrite DS. cbn [rbind]. now rewrite <- (est_len hb _ _ _ E). }
    cbn [dec_step]. rewrite DX. cbn [rbind nth0 as_bytes]. rewrite CD. cbn [rbind]. now rewrite RS.
  - (* StaticArr *)
    destruct CN as (items & -> & CO). cbn [enc_step nth0 py_len py_iter rbind] in E.
    destruct (negb _); [discriminate|]. cbn [rbind] in E.
    destruct (ss_mul item (Z.of_nat count)) as [o|] eqn:MU; [|contradiction]. cbn [rbind] in E.
    cbn [dec_step]. rewrite MU. cbn [rbind]. rewrite <- (eost_len hb _ _ _ E).
    destruct o as [st|]; cbn in CO; cbn [dost eost] in *.
    + rewrite (rt_st hb st items b rest CO E). reflexivity.
    + subst. reflexivity.
  - (* DynArr *)
    destruct CN as (items & -> & CO). cbn [enc_step nth0 py_len py_iter rbind] in E.
    destruct (dynarr_st cnt item _) as [st|] eqn:D; [|discriminate]. cbn [rbind] in E.
    eapply rt_dynarr; eauto. now apply sall_here in P.
  - (* Array *)
    destruct CN as (items & -> & item' & R1 & R2 & F). cbn [enc_step] in E. rewrite R1 in E.
    cbn [nth0 py_len py_iter rbind] in E.
    destruct (enc_items _ item' pc items) as [bs|] eqn:EI; [|discriminate]. cbn [rbind] in E.
    destruct (header_pack_values hdr static _ _) as [hv|] eqn:HP; [|discriminate]. cbn [rbind] in E.
    destruct (eost hb hdr hv) as [hd|] eqn:EH; [|discriminate]. injection E as <-.
    pose proof (sall_here _ _ P) as HO. cbn [pT] in HO. cbn in P. apply andb_prop in P as [_ P]. cbn [tailok] in TL.
    destruct (rt_header hb hdr static _ _ hv hd (bs ++ rest) HO HP EH) as (D & ds & HU & CK).
    cbn [dec_step]. rewrite <- app_assoc, D. cbn [rbind]. rewrite HU. cbn [rbind]. rewrite R2. cbn [rbind].
    rewrite <- (eost_len hb _ _ _ EH), adv_len, Nat2Z.id.
    rewrite (rt_items n m IH item' pc uc items bs rest F).
    + cbn [rbind]. rewrite CK. cbn. now rewrite blen_app.
    + eapply resolve_pT; eauto.
    + eapply resolve_sall; eauto. apply pN_stable.
    + exact EI.
  - (* Tuple *)
    destruct CN as (items & -> & x' & R1 & R2 & CX). cbn [enc_step one rbind] in E. rewrite R1 in E.
    cbn [py_iter rbind] in E. cbn in P, TL.
    cbn [dec_step]. rewrite R2. cbn [rbind].
    rewrite (IH x' pc uc items b rest); auto.
    + eapply resolve_pT; eauto.
    + exact (resolve_tailok false _ _ _ R2 TL).
    + apply (follow_resolve false x uc x' rest R2). destruct FW as [->|FW]; [now left|right]. cbn in FW. exact FW.
  - (* Lookback *)
    destruct CN as (r & r' & s0 & F1 & C1 & F2 & C2 & x' & R1 & R2 & CX).
    cbn [enc_step] in E. rewrite F1 in E. cbn [rbind] in E. rewrite C1 in E. cbn [rbind] in E. rewrite R1 in E. cbn [rbind] in E.
    cbn in P, TL. apply andb_prop in P as [P1 P2]. apply andb_prop in TL as [T1 T2].
    assert (PS : sall pT s0 = true) by (eapply choose_sall; eauto).
    assert (TS : tailok (p_cls uc) s0 = true) by (eapply choose_tailok; eauto).
    cbn [dec_step]. rewrite F2. cbn [rbind]. rewrite C2. cbn [rbind]. rewrite R2. cbn [rbind].
    apply (IH x' pc uc vs b rest); auto.
    + eapply resolve_pT; eauto.
    + exact (resolve_tailok false _ _ _ R2 TS).
    + apply (follow_resolve false s0 uc x' rest R2). destruct FW as [->|FW]; [now left|right]. cbn in FW.
      apply andb_prop in FW as [FW1 FW2]. eapply choose_sall; eauto.
  - (* Lookahead *)
    destruct CN as (r & s0 & x' & F1 & C1 & R1 & R2 & CX & AH).
    cbn [enc_step] in E. rewrite F1 in E. cbn [rbind] in E. rewrite C1 in E. cbn [rbind] in E. rewrite R1 in E. cbn [rbind] in E.
    pose proof (sall_here _ _ P) as HO. cbn [pT] in HO. apply andb_prop in HO as [LF PR].
    cbn in P, TL. apply andb_prop in P as [_ P]. apply andb_prop in P as [P P2]. apply andb_prop in P as [P0 P1].
    apply andb_prop in TL as [T1 T2].
    assert (PS : sall pT s0 = true) by (eapply choose_sall; eauto).
    assert (TS : tailok (p_cls uc) s0 = true) by (eapply choose_tailok; eauto).
    destruct (AH b E) as (rs & k & r' & DR & KB & N0 & C2).
    assert (DR' : Pure.dec hb ct md m x uc (b ++ rest) = Ok (rs, k)).
    { apply (rle_ok _ _ _ _ (dec_le hb ct md n m x uc _ ltac:(lia))).
      destruct (wb_leaf hb ct md false n x uc LF PR _ _ _ DR) as (_ & _ & EX). now apply EX. }
    cbn [dec_step]. rewrite DR'. cbn [rbind]. rewrite N0. cbn [rbind]. rewrite C2. cbn [rbind]. rewrite R2. cbn [rbind].
    apply (IH x' pc uc vs b rest); auto.
    + eapply resolve_pT; eauto.
    + exact (resolve_tailok false _ _ _ R2 TS).
    + apply (follow_resolve false s0 uc x' rest R2). destruct FW as [->|FW]; [now left|right]. cbn in FW.
      apply andb_prop in FW as [FW FW2]. apply andb_prop in FW as [FW0 FW1]. eapply choose_sall; eauto.
  - (* Structd *)
    destruct CN as (d & -> & CO). cbn [enc_step one rbind] in E.
    destruct (allow cls cls); [|discriminate].
    cbn [dec_step]. rewrite (rt_create n m cls d b rest IH IH1 CO); [reflexivity| |exact E].
    destruct FW as [->|FW]; [now left|right]. cbn in FW. now rewrite andb_true_r in FW.
Qed.

(** the round trip of instances *)
Theorem rt_object : forall n m c d b rest, (n <= m)%nat ->
  canonical hb ct allow md n (VObj c None d) -> rest = [] \/ NC c = true ->
  enc_obj hb ct allow n (VObj c None d) = Ok b ->
  dcreate hb ct md m c (b ++ rest) = Ok (VObj c None d, blen b).
Proof.
  intros n m c d b rest NM CN FW E. cbn in CN, E. unfold dcreate.
  apply (rt_create n m c d b rest); auto; apply rt_main; lia.
Qed.
End RT.
