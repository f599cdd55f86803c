(** Property C12 for class statements: which of them have the same bytes on little-endian and on big-endian machines, read off the text. *)
From Verif Require Import Base Floats Value StructMod Format Ser Exec Pure BaseFacts SerFacts RefPack RefUnpack User Fuel DecFacts Sample
  Canon RoundTrip PropsRoundTrip Portable Wire Hints HintFacts Surface SerShape Programs Accept AcceptProg PropsProgram PropsAccept WireSpec WireFacts Wires
  PropsWire PackSpec PropsPack ReadSpec ReadFacts Reads PropsReads LocalSpec BackSpec PropsBack.
Open Scope string_scope. Open Scope list_scope. Open Scope Z_scope.

(** ** specification *)
Definition one_byte (c : code) : bool := Nat.eqb (wsize c) 1.
(** the text of an encoded string (structured/serializers/strings.py:362-399): its length is in the order of the machine *)
Definition anywhere_text (a : carg) : bool := match a with KUint c => one_byte c | KNet => false | _ => true end.
(** [e]: numbers are stored in a byte order that the statement gives.  Inside tuples, unions and encoded strings it has no effect
    (structured/serializers/tuples.py:26-67, unions.py:32-232, strings.py:362-399), and .NET lengths are in the order of the machine (strings.py:254-360). *)
Fixpoint anywhere (e : bool) (x : hx) : bool :=
  match x with
  | XBasic c => e || one_byte c
  | XChar (KUint c) => e || one_byte c
  | XChar KNet => false
  | XUnicode a _ => anywhere_text a
  | XArray n sz y =>
      match n with inr c => e || one_byte c | inl _ => true end && match sz with Some c => e || one_byte c | None => true end && anywhere e y
  | XTuple l => forallb (anywhere false) l
  | XCond y _ _ | XAs _ y => anywhere e y
  | XBack _ _ _ m d => forallb (fun p => anywhere false (snd p)) m && match d with Some y => anywhere false y | None => true end
  | XAhead _ _ ra _ m d => anywhere false ra && forallb (fun p => anywhere false (snd p)) m && match d with Some y => anywhere false y | None => true end
  | _ => true
  end.
Definition anywhere_classes (sl : list sclass) : Prop := forall c sc, nth_error sl c = Some sc ->
  forallb (fun p => anywhere (explicit (sc_bo sc)) (snd p)) (fields_of (sc_anns sc)) = true.

(** ** numbers *)
Definition alike (e : bool) (m1 m2 : mode) : Prop := m_native m1 = m_native m2 /\ (e = true -> m_big m1 = m_big m2).
Lemma alike_mode : forall h1 h2 bo, alike (explicit bo) (mode_of h1 bo) (mode_of h2 bo).
Proof. intros h1 h2 []; split; cbn; congruence. Qed.
Lemma alike_machine : forall h1 h2, alike false (machine h1) (machine h2).
Proof. intros h1 h2. split; [reflexivity|discriminate]. Qed.
Lemma same_bytes : forall e m1 m2 n z, alike e m1 m2 -> e || Nat.eqb n 1 = true -> uint_bytes (m_big m1) n z = uint_bytes (m_big m2) n z.
Proof.
  intros e m1 m2 n z [_ A] O. destruct e; [now rewrite A|]. apply Nat.eqb_eq in O. subst n. unfold uint_bytes. now destruct (m_big m1), (m_big m2).
Qed.
Lemma same_uint : forall e m1 m2 b, alike e m1 m2 -> e || Nat.eqb (List.length b) 1 = true -> uint_of (m_big m1) b = uint_of (m_big m2) b.
Proof.
  intros e m1 m2 b [_ A] O. destruct e; [now rewrite A|]. apply Nat.eqb_eq in O. destruct b as [|x []]; try discriminate. unfold uint_of. now destruct (m_big m1), (m_big m2).
Qed.
Lemma same_scalar : forall e m1 m2 c v, alike e m1 m2 -> e || one_byte c = true -> scalar m1 c v = scalar m2 c v.
Proof.
  intros e m1 m2 c v A O. unfold one_byte in O. pose proof (fun z => same_bytes e m1 m2 (wsize c) z A O) as SB. destruct A as [N A].
  destruct c; cbn [scalar wsize] in *; try reflexivity; rewrite ?N; repeat (match goal with |- match ?t with _ => _ end = _ => destruct t end); rewrite ?SB; reflexivity.
Qed.
Lemma same_number : forall e m1 m2 c n, alike e m1 m2 -> e || one_byte c = true -> number m1 c n = number m2 c n.
Proof. intros e m1 m2 c n A O. unfold number. now rewrite (same_bytes e m1 m2 _ n A O). Qed.
Lemma same_scalar_of : forall e m1 m2 c b, alike e m1 m2 -> e || one_byte c = true -> List.length b = wsize c -> scalar_of m1 c b = scalar_of m2 c b.
Proof.
  intros e m1 m2 c b A O L. unfold one_byte in O. rewrite <- L in O. pose proof (same_uint e m1 m2 b A O) as SU.
  assert (SI : sint_of (m_big m1) b = sint_of (m_big m2) b) by (unfold sint_of; now rewrite SU).
  destruct c; cbn [scalar_of]; congruence.
Qed.
Lemma same_at : forall m1 m2 w n off b f g, m_native m1 = m_native m2 -> (forall x, List.length x = n -> f x = g x) -> at_ m1 w n off b f = at_ m2 w n off b g.
Proof.
  intros m1 m2 w n off b f g N F. unfold at_. rewrite N. destruct (_ <=? _)%nat eqn:Q; [|reflexivity]. rewrite F; [reflexivity|]. rewrite firstn_length, skipn_length. apply Nat.leb_le in Q. lia.
Qed.
Lemma same_number_at : forall e m1 m2 c off b, alike e m1 m2 -> e || one_byte c = true -> number_at m1 c off b = number_at m2 c off b.
Proof.
  intros e m1 m2 c off b A O. unfold number_at. rewrite (same_at m1 m2 _ _ off b _ (fun x => [VInt (uint_of (m_big m2) x)]) (proj1 A)); [reflexivity|].
  intros x L. f_equal. f_equal. apply (same_uint e); [exact A|]. unfold one_byte in O. now rewrite L.
Qed.
Definition string_ok (e : bool) (a : carg) : bool := match a with KUint c => e || one_byte c | KNet => false | _ => true end.
Lemma same_string : forall h1 h2 e m1 m2 a b, alike e m1 m2 -> string_ok e a = true -> string_chunks h1 m1 a b = string_chunks h2 m2 a b.
Proof. intros h1 h2 e m1 m2 a b A O. destruct a as [c|n|t| |]; cbn [string_chunks string_ok] in *; try reflexivity; [|discriminate]. now rewrite (same_number e m1 m2 c _ A O). Qed.
Lemma same_string_of : forall h1 h2 e md m1 m2 a off b, alike e m1 m2 -> string_ok e a = true -> string_of h1 md m1 a off b = string_of h2 md m2 a off b.
Proof.
  intros h1 h2 e md m1 m2 a off b A O. destruct a as [c|n|t| |]; cbn [string_of string_ok] in *; try reflexivity; [| |discriminate].
  - now rewrite (same_number_at e m1 m2 c 0 b A O).
  - destruct (n =? 0); [reflexivity|]. apply same_at; [apply A|reflexivity].
Qed.
Lemma anywhere_more : forall x, anywhere false x = true -> anywhere true x = true.
Proof.
  induction x using hx_ind'; cbn [anywhere]; intros E; try reflexivity; auto.
  - destruct a; auto.
  - apply andb_prop in E as [E EY]. rewrite (IHx EY). destruct n, s; reflexivity.
Qed.

(** ** layouts *)
Section Layout.
Variables (h1 h2 : bool) (r1 r2 : nat -> option border -> list (string * value) -> option bytes) (o : pobj).
Hypothesis RS : forall c ov d, explicit_obj (VObj c ov d) = true -> r1 c ov d = r2 c ov d.
Definition given (v : option value) : bool := match v with Some w => explicit_obj w | None => true end.
Lemma pick_same : forall m d v r, forallb (fun p => anywhere false (snd p)) m = true -> match d with Some y => anywhere false y | None => true end = true -> given v = true ->
  Forall (fun p => forall e m1 m2 v, anywhere e (snd p) = true -> alike e m1 m2 -> given v = true -> chunks h1 r1 o m1 (snd p) v = chunks h2 r2 o m2 (snd p) v) m ->
  (forall x, d = Some x -> forall e m1 m2 v, anywhere e x = true -> alike e m1 m2 -> given v = true -> chunks h1 r1 o m1 x v = chunks h2 r2 o m2 x v) ->
  pick (fun y => chunks h1 r1 o (machine h1) y v) d r m = pick (fun y => chunks h2 r2 o (machine h2) y v) d r m.
Proof.
  intros m d v r AM AD GV F D. induction F as [|[k y] m Y F IH].
  - cbn [pick]. destruct d as [y|]; [|reflexivity]. cbn. exact (D y eq_refl false _ _ v AD (alike_machine h1 h2) GV).
  - cbn [forallb snd] in *. apply andb_prop in AM as [A1 A2]. cbn [pick]. destruct (key_eqb r k); [exact (Y false _ _ v A1 (alike_machine h1 h2) GV)|auto].
Qed.
Lemma chunks_same : forall x e m1 m2 v, anywhere e x = true -> alike e m1 m2 -> given v = true -> chunks h1 r1 o m1 x v = chunks h2 r2 o m2 x v.
Proof.
  induction x using hx_ind'; intros e m1 m2 v AN AL GV; cbn [anywhere] in AN; cbn [chunks]; try reflexivity.
  - destruct v as [w|]; [|reflexivity]. now rewrite (same_scalar e m1 m2 c w AL AN).
  - assert (SK : string_ok e a = true) by (destruct a; auto).
    destruct a as [c|[]|t| |]; try reflexivity; destruct v as [[]|]; try reflexivity; now apply (same_string h1 h2 e).
  - destruct v as [[]|]; try reflexivity. destruct (cod_enc _ _) as [b|]; [|reflexivity]. now rewrite (same_string h1 h2 false (machine h1) (machine h2) a b (alike_machine h1 h2) AN).
  - apply andb_prop in AN as [AN AY]. apply andb_prop in AN as [A1 A2]. destruct v as [w|]; [|reflexivity]. destruct (py_iter w) as [items|] eqn:PI; [|reflexivity].
    pose proof (iter_explicit _ _ GV PI) as EI.
    assert (OM : omap (fun i => chunks h1 r1 o m1 x (Some i)) items = omap (fun i => chunks h2 r2 o m2 x (Some i)) items).
    { clear PI GV. induction items as [|i items IH]; [reflexivity|]. cbn [forallb] in EI. apply andb_prop in EI as [E1 E2]. cbn [omap]. rewrite (IHx e m1 m2 (Some i) AY AL E1), (IH E2). reflexivity. }
    rewrite OM. clear OM. destruct (omap (fun i => chunks h2 r2 o m2 x (Some i)) items) as [ls|]; [|reflexivity]. cbv zeta. rewrite (proj1 AL).
    assert (HD : (match n with inl z => if Z.of_nat (List.length items) =? z then Some [] else None | inr c => number m1 c (Z.of_nat (List.length items)) end) =
                 (match n with inl z => if Z.of_nat (List.length items) =? z then Some [] else None | inr c => number m2 c (Z.of_nat (List.length items)) end))
      by (destruct n; [reflexivity|]; now apply (same_number e)).
    rewrite HD. clear HD. destruct (match n with inl z => if Z.of_nat (List.length items) =? z then Some [] else None | inr c => number m2 c (Z.of_nat (List.length items)) end) as [h|]; [|reflexivity]. destruct (packed x); [reflexivity|].
    destruct s as [c|]; [|reflexivity]. now rewrite (same_number e m1 m2 c _ AL A2).
  - destruct v as [w|]; [|reflexivity]. destruct (py_iter w) as [items|] eqn:PI; [|reflexivity]. pose proof (iter_explicit _ _ GV PI) as EI. clear PI GV.
    assert (MM : members (chunks h1 r1 o (machine h1)) l items = members (chunks h2 r2 o (machine h2)) l items).
    { revert items EI. induction l as [|y l IH]; intros items EI; [reflexivity|]. inversion H; subst. cbn [forallb] in AN. apply andb_prop in AN as [A1 A2]. cbn [members].
      rewrite (H2 false (machine h1) (machine h2) _ A1 (alike_machine h1 h2)).
      - rewrite (IH H3 A2); [reflexivity|]. destruct (takes y); [|exact EI]. destruct items; [reflexivity|]. cbn in EI |- *. now apply andb_prop in EI as [_ EI].
      - destruct (takes y); [|reflexivity]. destruct items; [reflexivity|]. cbn in EI |- *. now apply andb_prop in EI as [EI _]. }
    now rewrite MM.
  - destruct (f o) as [r|]; [|reflexivity]. rewrite (IHx e m1 m2 v AN AL GV). now rewrite (proj1 AL).
  - exact (IHx e m1 m2 v AN AL GV).
  - apply andb_prop in AN as [AM AD]. destruct (f o) as [r|]; [|reflexivity]. destruct (hashable r); [|reflexivity].
    now rewrite (pick_same m d v r AM AD GV) by assumption.
  - apply andb_prop in AN as [AM AD]. apply andb_prop in AM as [_ AM]. destruct (f o) as [r|]; [|reflexivity]. destruct (hashable r); [|reflexivity].
    now rewrite (pick_same m d v r AM AD GV) by assumption.
  - destruct v as [[]|]; try reflexivity. now rewrite RS.
  - destruct v as [[]|]; try reflexivity. now rewrite RS.
Qed.
Lemma fields_same : forall e m1 m2 l d, forallb (fun p => anywhere e (snd p)) l = true -> alike e m1 m2 -> forallb (fun p => explicit_obj (snd p)) d = true ->
  fields (chunks h1 r1 o m1) l d = fields (chunks h2 r2 o m2) l d.
Proof.
  intros e m1 m2 l d AN AL EX. induction l as [|[a x] l IH]; [reflexivity|]. cbn [forallb snd] in AN. apply andb_prop in AN as [A1 A2]. cbn [fields]. rewrite (IH A2).
  destruct (takes x); [|now rewrite (chunks_same x e m1 m2 None A1 AL eq_refl)].
  destruct (assoc a d) as [v|] eqn:AS; [|reflexivity]. rewrite (chunks_same x e m1 m2 (Some v) A1 AL); [reflexivity|].
  cbn [given]. clear -AS EX. induction d as [|[k u] d IH]; [discriminate|]. cbn [forallb snd] in EX. apply andb_prop in EX as [E1 E2]. cbn [assoc] in AS.
  destruct (String.eqb _ _); [congruence|auto].
Qed.
End Layout.
Lemma wire_same : forall h1 h2 sl, anywhere_classes sl -> forall n c ov d, explicit_obj (VObj c ov d) = true -> wire h1 sl n c ov d = wire h2 sl n c ov d.
Proof.
  intros h1 h2 sl AC. induction n as [|n IH]; intros c ov d EX; [reflexivity|]. cbn [wire]. destruct (nth_error sl c) as [sc|] eqn:NS; [|reflexivity].
  cbn [explicit_obj] in EX. apply andb_prop in EX as [EO ED]. pose proof (AC c sc NS) as AN. set (bo := match ov with Some bo => bo | None => sc_bo sc end). cbv zeta.
  pose proof (alike_mode h1 h2 bo) as AL. rewrite (proj1 AL).
  rewrite (fields_same h1 h2 (wire h1 sl n) (wire h2 sl n) (PO c false d) IH (explicit bo) _ (mode_of h2 bo)); [reflexivity| |exact AL|exact ED].
  destruct ov as [b|]; [|exact AN]. subst bo. rewrite EO. destruct (explicit (sc_bo sc)); [exact AN|].
  rewrite forallb_forall in *. intros p I. apply anywhere_more. now apply AN.
Qed.

(** ** reading *)
Section Read.
Variables (h1 h2 : bool) (md : umode) (r1 r2 : nat -> bytes -> option (value * Z)).
Hypothesis RS : forall c b, r1 c b = r2 c b.
Lemma items_same : forall f g run n off b, (forall off b, f off b = g off b) -> items_of f run n off b = items_of g run n off b.
Proof. intros f g run n. induction n as [|n IH]; intros off b E; [reflexivity|]. cbn [items_of]. rewrite E. destruct (g off b) as [[[vs o'] k]|]; [|reflexivity]. cbn. now rewrite IH. Qed.
Lemma pick_of_same : forall o m d b r, forallb (fun p => anywhere false (snd p)) m = true -> match d with Some y => anywhere false y | None => true end = true ->
  Forall (fun p => forall e m1 m2 off b, anywhere e (snd p) = true -> alike e m1 m2 -> read h1 md r1 o m1 (snd p) off b = read h2 md r2 o m2 (snd p) off b) m ->
  (forall x, d = Some x -> forall e m1 m2 off b, anywhere e x = true -> alike e m1 m2 -> read h1 md r1 o m1 x off b = read h2 md r2 o m2 x off b) ->
  pick_of (fun y => read h1 md r1 o (machine h1) y 0 b) d r m = pick_of (fun y => read h2 md r2 o (machine h2) y 0 b) d r m.
Proof.
  intros o m d b r AM AD F D. induction F as [|[k y] m Y F IH].
  - cbn [pick_of]. destruct d as [y|]; [|reflexivity]. cbn. exact (D y eq_refl false _ _ 0%nat b AD (alike_machine h1 h2)).
  - cbn [forallb snd] in *. apply andb_prop in AM as [A1 A2]. cbn [pick_of]. destruct (key_eqb r k); [exact (Y false _ _ 0%nat b A1 (alike_machine h1 h2))|auto].
Qed.
Lemma read_same : forall o x e m1 m2 off b, anywhere e x = true -> alike e m1 m2 -> read h1 md r1 o m1 x off b = read h2 md r2 o m2 x off b.
Proof.
  intros o. induction x using hx_ind'; intros e m1 m2 off b AN AL; cbn [anywhere] in AN; cbn [read]; try reflexivity.
  - apply same_at; [apply AL|]. intros y L. f_equal. now apply (same_scalar_of e).
  - destruct (n =? 0); [reflexivity|]. now apply same_at; [apply AL|].
  - destruct (n =? 0); [reflexivity|]. now apply same_at; [apply AL|].
  - apply (same_string_of h1 h2 e); [exact AL|]. destruct a; auto.
  - now rewrite (same_string_of h1 h2 false md (machine h1) (machine h2) a 0 b (alike_machine h1 h2) AN).
  - apply andb_prop in AN as [AN AY]. apply andb_prop in AN as [A1 A2].
    assert (IT : forall run n off b, items_of (read h1 md r1 o m1 x) run n off b = items_of (read h2 md r2 o m2 x) run n off b)
      by (intros; apply items_same; intros; now apply (IHx e)).
    destruct n as [z|c].
    + destruct (packed x); [now rewrite IT|]. destruct (negb (ready o x)); [reflexivity|]. destruct s as [c|]; [rewrite (same_number_at e m1 m2 c _ _ AL A2); destruct (number_at m2 c _ _) as [[[z1 o1] k1]|]; [|reflexivity]; now rewrite IT|now rewrite IT].
    + rewrite (same_number_at e m1 m2 c 0 b AL A1). destruct (packed x).
      * destruct (number_at m2 c 0 b) as [[[z1 o1] k1]|]; [|reflexivity]. now rewrite IT.
      * destruct (negb (ready o x)); [reflexivity|]. destruct (number_at m2 c 0 b) as [[[z1 o1] k1]|]; [|reflexivity].
        destruct s as [c'|]; [rewrite (same_number_at e m1 m2 c' _ _ AL A2); destruct (number_at m2 c' _ _) as [[[z2 o2] k2]|]; [|reflexivity]; now rewrite IT|now rewrite IT].
  - assert (MM : forall off b, members_of (read h1 md r1 o (machine h1)) l off b = members_of (read h2 md r2 o (machine h2)) l off b).
    { clear off b. induction l as [|y l IH]; intros off b; [reflexivity|]. inversion H; subst. cbn [forallb] in AN. apply andb_prop in AN as [A1 A2]. cbn [members_of].
      rewrite (H2 false (machine h1) (machine h2) off b A1 (alike_machine h1 h2)). destruct (read h2 md r2 o (machine h2) y off b) as [[[vs o1] k]|]; [|reflexivity]. now rewrite (IH H3 A2). }
    now rewrite MM.
  - destruct (f o) as [r|]; [|reflexivity]. now rewrite (IHx e m1 m2 0%nat b AN AL).
  - now rewrite (IHx e m1 m2 off b AN AL).
  - apply andb_prop in AN as [AM AD]. destruct (f o) as [r|]; [|reflexivity]. destruct (hashable r); [|reflexivity].
    now rewrite (pick_of_same o m d b r AM AD) by assumption.
  - apply andb_prop in AN as [AM AD]. apply andb_prop in AM as [AR AM]. rewrite (IHx false (machine h1) (machine h2) 0%nat b AR (alike_machine h1 h2)).
    destruct (read h2 md r2 o (machine h2) x 0 b) as [[[[|r rs] o1] k]|]; try reflexivity. destruct (hashable r); [|reflexivity].
    now rewrite (pick_of_same o m d b r AM AD) by assumption.
  - now rewrite RS.
  - destruct (assoc _ _); [reflexivity|]. destruct (p_proxy o); [|reflexivity]. now rewrite RS.
Qed.
Lemma fields_read_same : forall c e m1 m2 l d off b, forallb (fun p => anywhere e (snd p)) l = true -> alike e m1 m2 ->
  fields_read (fun d => read h1 md r1 (PO c true d) m1) l d off b = fields_read (fun d => read h2 md r2 (PO c true d) m2) l d off b.
Proof.
  intros c e m1 m2 l. induction l as [|[a x] l IH]; intros d off b AN AL; [reflexivity|]. cbn [forallb snd] in AN. apply andb_prop in AN as [A1 A2]. cbn [fields_read].
  rewrite (read_same (PO c true d) x e m1 m2 off b A1 AL). destruct (read h2 md r2 (PO c true d) m2 x off b) as [[[vs o1] k]|]; [|reflexivity]. cbn.
  destruct vs as [|v []], (takes x); try reflexivity; cbn; now rewrite IH.
Qed.
End Read.
Lemma parse_same : forall h1 h2 md sl, anywhere_classes sl -> forall n c b, parse h1 md sl n c b = parse h2 md sl n c b.
Proof.
  intros h1 h2 md sl AC. induction n as [|n IH]; intros c b; [reflexivity|]. cbn [parse]. destruct (nth_error sl c) as [sc|] eqn:NS; [|reflexivity]. cbv zeta.
  rewrite (fields_read_same h1 h2 md (parse h1 md sl n) (parse h2 md sl n) IH c (explicit (sc_bo sc)) _ (mode_of h2 (sc_bo sc)) _ [] 0%nat b (AC c sc NS) (alike_mode h1 h2 (sc_bo sc))). reflexivity.
Qed.

(** ** C12 *)
(** What is packed on one machine is packed on the other as the same bytes, with enough stack; by [pack_write] and [pack_into] as well. *)
Theorem C12_statement_pack : forall hb hb' idf fac prog l sl allow n c ov d w b,
  run idf fac [] 0 prog = Ok l -> check_prog [] 0 prog = Some sl -> forallb regular_class sl = true -> anywhere_classes sl -> healthy (classes l) allow ->
  explicit_obj (VObj c ov d) = true -> conforms hb (classes l) allow n (VObj c ov d) -> fst (Structured_pack hb (classes l) n (VObj c ov d) w) = Ok b ->
  exists N, forall m u, (N <= m)%nat -> fst (Structured_pack hb' (classes l) m (VObj c ov d) u) = Ok b /\
    (0 <= w_pos u -> w_data (snd (Structured_pack_write hb' (classes l) m (VObj c ov d) u)) = sput (w_data u) (w_pos u) b) /\
    (forall off, 0 <= off -> off + blen b <= blen (w_buf u) -> w_buf (snd (Structured_pack_into hb' (classes l) m (VObj c ov d) off u)) = overwrite (w_buf u) off b).
Proof.
  intros hb hb' idf fac prog l sl allow n c ov d w b R CK RG AC H EX CF E.
  assert (NR : fst (Structured_pack hb (classes l) n (VObj c ov d) w) <> Err RecursionError) by congruence.
  destruct (proj1 (C49_pack hb idf fac prog l sl allow n c ov d w b R CK RG H CF NR) E) as [W F]. rewrite (wire_same hb hb' sl AC _ _ _ _ EX) in W.
  destruct (C49_enough hb' idf fac prog l sl allow _ _ c ov d b R CK RG H W F) as [N HN]. exists N. intros m u L. destruct (HN m u L) as (_ & A & B & C).
  split; [exact A|]. split; [intros P; apply (B P)|intros off P Q; apply (C off P Q)].
Qed.
Print Assumptions C12_statement_pack.
(** What is read on one machine, from whatever bytes, is read on the other. *)
Theorem C12_statement_unpack : forall hb hb' idf fac prog l sl n c b w v, reading idf fac prog l sl UBuf -> anywhere_classes sl ->
  fst (create_unpack hb (classes l) n c b w) = Ok v -> exists N, forall m u, (N <= m)%nat -> fst (create_unpack hb' (classes l) m c b u) = Ok v.
Proof.
  intros hb hb' idf fac prog l sl n c b w v R AC E. destruct (C46_create_unpack _ _ _ _ _ _ _ _ _ _ _ R E) as [k K]. rewrite (parse_same hb hb' _ _ AC) in K.
  exact (C46_complete _ _ _ _ _ _ _ _ _ _ _ R K).
Qed.
Print Assumptions C12_statement_unpack.
Theorem C12_statement_unpack_from : forall hb hb' idf fac prog l sl n c pre b w v, reading idf fac prog l sl UFrom -> anywhere_classes sl ->
  fst (create_unpack_from hb (classes l) n c (pre ++ b) (blen pre) w) = Ok v ->
  exists N, forall m u, (N <= m)%nat -> fst (create_unpack_from hb' (classes l) m c (pre ++ b) (blen pre) u) = Ok v.
Proof.
  intros hb hb' idf fac prog l sl n c pre b w v R AC E.
  assert (B : 0 <= blen pre <= blen (pre ++ b)) by (rewrite blen_app; pose proof (blen_nonneg pre); pose proof (blen_nonneg b); lia).
  destruct (C46_create_unpack_from _ _ _ _ _ _ _ _ _ _ _ _ R B E) as [k K].
  rewrite (parse_same hb hb' _ _ AC) in K. unfold blen in K. rewrite Nat2Z.id, skipn_app_len in K. exact (C46_complete_from _ _ _ _ _ _ _ _ pre _ _ _ R K).
Qed.
Print Assumptions C12_statement_unpack_from.
Theorem C12_statement_unpack_read : forall hb hb' idf fac prog l sl n c w v, reading idf fac prog l sl URead -> anywhere_classes sl -> 0 <= w_pos w <= blen (w_data w) ->
  fst (create_unpack_read hb (classes l) n c w) = Ok v ->
  exists N, forall m u, (N <= m)%nat -> w_data u = w_data w -> w_pos u = w_pos w -> fst (create_unpack_read hb' (classes l) m c u) = Ok v /\
    w_pos (snd (create_unpack_read hb' (classes l) m c u)) = w_pos (snd (create_unpack_read hb (classes l) n c w)).
Proof.
  intros hb hb' idf fac prog l sl n c w v R AC P E. destruct (C46_create_unpack_read _ _ _ _ _ _ _ _ _ _ R (proj1 P) E) as (k & K & ->).
  rewrite (parse_same hb hb' _ _ AC) in K. destruct (C46_complete_read _ _ _ _ _ _ _ _ (firstn (Z.to_nat (w_pos w)) (w_data w)) _ _ _ R K) as [N HN].
  assert (LP : blen (firstn (Z.to_nat (w_pos w)) (w_data w)) = w_pos w) by (unfold blen in *; rewrite firstn_length; lia).
  exists N. intros m u L D Q. rewrite LP in HN. apply HN; [exact L|now rewrite D, firstn_skipn|exact Q].
Qed.
Print Assumptions C12_statement_unpack_read.

(** ** examples *)
(** a big-endian class with numbers, a counted string, a counted array with a size, text and a tuple of single bytes, and objects of itself;
    and a class without byte order, of single bytes *)
Definition order_prog : list stmt :=
  [ Stmt [("r", XBasic CB); ("on", XBasic Cbool); ("name", XChar (KInt 3))] None BO_DEFAULT STRICT false;
    Stmt [ ("x", XBasic Ci);
           ("f", XBasic Cd);
           ("data", XArray (inr CH) (Some CI) (XClass 0));
           ("rows", XArray (inl 2) None (XBasic Ch));
           ("title", XUnicode (KUint CB) latin1);
           ("pair", XTuple [XBasic CB; XBasic Cbool]);
           ("kids", XArray (inr CB) None XSelf) ] None BO_BE STRICT true ].
Definition order_run := run back_idf back_fac [] 0 order_prog.
Definition order_cls : list cinfo := match order_run with Ok l => l | Err _ => [] end.
Definition order_stmts : list sclass := match check_prog [] 0 order_prog with Some l => l | None => [] end.
Lemma order_program : forall md, program md back_idf back_fac order_prog order_cls.
Proof.
  intros md. constructor.
  - reflexivity.
  - apply frag_check. destruct md; reflexivity.
  - intros c H. destruct c as [|[|c]]; try reflexivity. destruct c; reflexivity.
  - apply (class_check order_cls 2 (fun _ cd => sized (c_ser cd))); reflexivity.
  - exists (fun id => id), (fun c => match c with 0 => 1 | _ => 20 end)%nat.
    intros c cd C. apply andb_prop.
    apply (class_check order_cls 2 (fun c cd => ordered (fun id => id) (fun c => match c with 0 => 1 | _ => 20 end)%nat (c_ser cd)
      && older (fun id => id) (fun c => match c with 0 => 1 | _ => 20 end)%nat
           (match c with 0 => 1 | _ => 20 end)%nat (c_ser cd))); [reflexivity|reflexivity|exact C].
Qed.
Definition order_leaf (kids : list value) : value := VObj 1 None
  [("x", VInt (-2)); ("f", VFloat 4607182418800017408); ("data", VList [VObj 0 None [("r", VInt 7); ("on", VBool true); ("name", VBytes [x61; x62; x63])]]);
   ("rows", VList [VInt 1; VInt (-1)]); ("title", VStr [104; 105]); ("pair", VTuple [VInt 9; VBool false]); ("kids", VList kids)].
Example C12_statement_nontrivial :
  (forall md, reading back_idf back_fac order_prog order_cls order_stmts md) /\ healthy (classes order_cls) Nat.eqb /\ anywhere_classes order_stmts /\
  explicit_obj (order_leaf [order_leaf []]) = true /\ conforms false (classes order_cls) Nat.eqb 9 (order_leaf [order_leaf []]) /\
  match fst (Structured_pack false (classes order_cls) 9 (order_leaf [order_leaf []]) dirty) with
  | Ok b => firstn 12 b = [xff; xff; xff; xfe; x3f; xf0; x00; x00; x00; x00; x00; x00] /\
      fst (Structured_pack true (classes order_cls) 9 (order_leaf [order_leaf []]) clean) = Ok b /\
      fst (create_unpack true (classes order_cls) 9 1 b clean) = Ok (order_leaf [order_leaf []])
  | _ => False
  end.
Proof.
  split; [intros md; apply C46_program; [exact (order_program md)|vm_compute; reflexivity|vm_compute; reflexivity]|]. split; [exact (C42_healthy _ _ _ _ _ (order_program UBuf))|].
  split; [intros c sc NS; destruct c as [|[|c]]; [injection NS as <-; reflexivity|injection NS as <-; reflexivity|destruct c; discriminate NS]|].
  split; [reflexivity|]. split; [unfold conforms; vm_compute; discriminate|]. vm_compute. repeat split.
Qed.
(** Without it: a big-endian class with a tuple of two-byte numbers, a counted text with a two-byte length, or a long .NET string. *)
Theorem C12_statement_refuted : Forall (fun p => exists l b b', run back_idf back_fac [] 0 [Stmt [("a", fst p)] None BO_BE STRICT false] = Ok l /\
    fst (Structured_pack false (classes l) 5 (VObj 0 None [("a", snd p)]) clean) = Ok b /\ fst (Structured_pack true (classes l) 5 (VObj 0 None [("a", snd p)]) clean) = Ok b' /\ b <> b')
  [(XTuple [XBasic CH], VTuple [VInt 258]); (XUnicode (KUint CH) latin1, VStr [97]); (XChar KNet, VBytes (repeat x61 128))].
Proof.
  repeat (apply Forall_cons; [eexists _, _, _; split; [vm_compute; reflexivity|]; split; [vm_compute; reflexivity|]; split; [vm_compute; reflexivity|discriminate]|]). apply Forall_nil.
Qed.
Print Assumptions C12_statement_refuted.
