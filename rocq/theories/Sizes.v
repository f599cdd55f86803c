(** The sizes of SizeSpec.v are the lengths of the layouts (WireSpec.v) of instances that can be packed (PackSpec.v), and
    the number of bytes that is read (ReadSpec.v). *)
From Verif Require Import Base Floats Value StructMod Format Ser Exec Pure BaseFacts StructFacts SerFacts Wire Hints HintFacts Surface SerShape
  Programs Accept AcceptProg WireSpec WireFacts Wires PackSpec Packable Whys Reasons ReadSpec SizeSpec.

Definition extent_of (c : chunk) : extent := match c with Atom w b => Cell w (List.length b) | Block b => Room (List.length b) end.
Lemma lay_span : forall al l off, List.length (lay al off l) = span al off (map extent_of l).
Proof.
  intros al l. induction l as [|[w b|b] l IH]; intros off; cbn [lay map extent_of span]; [reflexivity| |].
  - cbv zeta. rewrite !app_length, zeros_length, IH. unfold gap. lia.
  - now rewrite app_length, IH.
Qed.
Lemma gap0 : forall al w, gap al w 0 = 0%nat.
Proof. intros [] [|w]; try reflexivity. unfold gap. rewrite Nat.mod_0_l, Nat.sub_0_r by lia. apply Nat.mod_same. lia. Qed.
Lemma gap1 : forall al off, gap al 1 off = 0%nat.
Proof. intros [] off; [|reflexivity]. unfold gap. now rewrite Nat.mod_1_r. Qed.
Lemma scalar_length : forall m c v b, scalar m c v = Some b -> List.length b = wsize c.
Proof.
  intros m c v b H.
  destruct c; cbn [scalar wsize] in *;
    repeat match type of H with
           | match ?x with _ => _ end = _ => destruct x; try discriminate
           | (if ?x then _ else _) = _ => destruct x; try discriminate
           end; injection H as <-; try reflexivity; apply uint_bytes_length.
Qed.
Lemma number_extent : forall m c n l, number m c n = Some l -> map extent_of l = [Cell (wsize c) (wsize c)].
Proof. intros m c n l H. unfold number in H. destruct (n <=? greatest c); [|discriminate]. injection H as <-. cbn. now rewrite uint_bytes_length. Qed.
Lemma fixed_length : forall n b, List.length (fixed n b) = n.
Proof. intros n b. unfold fixed. rewrite app_length, firstn_length, zeros_length. lia. Qed.
Lemma concat_extents : forall ls (es : list extent), Forall (fun l => map extent_of l = es) ls ->
  map extent_of (concat ls) = concat (repeat es (List.length ls)).
Proof.
  intros ls es F. induction F as [|l ls E F IH]; [reflexivity|]. cbn [concat List.length repeat]. now rewrite map_app, E, IH.
Qed.
Lemma concat_spans : forall al ls es, Forall (fun l => map extent_of l = es) ls ->
  List.length (concat (map (lay al 0) ls)) = (List.length ls * span al 0 es)%nat.
Proof.
  intros al ls es F. induction F as [|l ls E F IH]; [reflexivity|]. cbn [map concat List.length]. rewrite app_length, IH, lay_span, E. lia.
Qed.
Lemma omap_length : forall (A B : Type) (f : A -> option B) l r, omap f l = Some r -> List.length r = List.length l.
Proof.
  intros A B f l. induction l as [|a l IH]; intros r H; cbn [omap] in H; [injection H as <-; reflexivity|].
  destruct (f a); [|discriminate]. destruct (omap f l) eqn:E; [|discriminate]. injection H as <-. cbn. now rewrite (IH _ eq_refl).
Qed.
Lemma agreed_all : forall l n, agreed l = Some n -> Forall (fun k => k = n) l.
Proof.
  induction l as [|a l IH]; intros n H; [constructor|]. cbn [agreed] in H. destruct l as [|b l'].
  - injection H as <-. auto.
  - destruct (agreed (b :: l')) as [k|] eqn:E; [|discriminate]. destruct (Nat.eqb a k) eqn:Q; [|discriminate]. injection H as <-.
    apply Nat.eqb_eq in Q. subst k. constructor; auto.
Qed.

(** ** what is written *)
Section Written.
Variable hb : bool.
Variable rec : nat -> option border -> list (string * value) -> option bytes.
Variable fit : nat -> option border -> list (string * value) -> bool.
Variable sz : nat -> option nat.
Variable marks : bool.
Definition plainly (v : value) : Prop := marks = true \/ unmarked v = true.
Hypothesis OBJ : forall c ov d b k, rec c ov d = Some b -> fit c ov d = true -> plainly (VObj c ov d) -> sz c = Some k -> List.length b = k.
Variable o : pobj.
Notation chunks bo := (chunks hb rec o (mode_of hb bo)).
Notation fits := (fitting Nat.eqb fit o).
Notation extents bo := (extents sz (m_native (mode_of hb bo))).
Definition measured (x : hx) : Prop := forall bo vs ch es, regular x = true ->
  chunks bo x (hd_error vs) = Some ch -> fits bo x vs = true -> Forall plainly vs -> extents bo x = Some es -> map extent_of ch = es.

Lemma iter_plainly : forall v l, plainly v -> py_iter v = Ok l -> Forall plainly l.
Proof.
  intros v l P H. destruct v; try discriminate H; injection H as <-.
  - apply Forall_forall. intros x I. right. apply in_map_iff in I as (y & <- & _). reflexivity.
  - apply Forall_forall. intros x I. right. apply in_map_iff in I as (y & <- & _). reflexivity.
  - destruct P as [P|P]; apply Forall_forall; intros x I; [now left|right]. cbn in P. rewrite forallb_forall in P. auto.
  - destruct P as [P|P]; apply Forall_forall; intros x I; [now left|right]. cbn in P. rewrite forallb_forall in P. auto.
Qed.
Lemma none_measured : forall x bo ch es, takes x = false -> chunks bo x None = Some ch -> extents bo x = Some es -> map extent_of ch = es.
Proof.
  intros x bo ch es T C E. destruct x; try discriminate T; cbn [WireSpec.chunks SizeSpec.extents takes] in *.
  - injection C as <-. injection E as <-. destruct (n =? 0); [reflexivity|]. cbn. now rewrite zeros_length.
  - destruct (n =? 0) eqn:Z0; [|discriminate]. injection C as <-. destruct (n <? 0); [discriminate|]. now injection E as <-.
  - destruct a; try discriminate. destruct z; try discriminate T. injection C as <-. now injection E as <-.
  - discriminate E.
Qed.
Lemma each_measured : forall bo xs vs chs es, Forall measured xs -> forallb regular xs = true -> Forall plainly vs ->
  each (fits bo) xs vs = true -> members (chunks bo) xs vs = Some chs -> omap (extents bo) xs = Some es -> map extent_of chs = concat es.
Proof.
  intros bo xs. induction xs as [|x xs IH]; intros vs chs es S R P E M X; cbn [each members omap forallb] in *.
  - injection M as <-. injection X as <-. reflexivity.
  - inversion S as [|? ? S1 S2]; subst. apply andb_prop in R as [R1 R2]. apply andb_prop in E as [E1 E2].
    destruct (extents bo x) as [e|] eqn:EX; [|discriminate]. destruct (omap (extents bo) xs) as [es'|] eqn:EXS; [|discriminate]. injection X as <-.
    destruct (vals_cases x R1) as [V|(c & s & y & -> & Q)]; [|discriminate EX].
    rewrite V in E1, E2. assert (H : hd_error (firstn (if takes x then 1 else 0) vs) = if takes x then hd_error vs else None).
    { destruct (takes x); [destruct vs; reflexivity|reflexivity]. }
    rewrite <- H in M. destruct (chunks bo x (hd_error (firstn _ vs))) as [c|] eqn:C; [|discriminate].
    destruct (members _ xs _) as [cs|] eqn:MS; [|discriminate]. injection M as <-.
    assert (Q : skipn (if takes x then 1 else 0) vs = if takes x then tl vs else vs) by (destruct (takes x); [destruct vs; reflexivity|reflexivity]).
    rewrite Q in E2. cbn [concat]. rewrite map_app. f_equal.
    + eapply S1; eauto. rewrite Forall_forall in *. intros v I. apply P.
      rewrite <- (firstn_skipn (if takes x then 1 else 0) vs). apply in_or_app. now left.
    + refine (IH _ _ _ S2 R2 _ E2 MS eq_refl). rewrite <- Q. rewrite Forall_forall in *. intros v I. apply P.
      rewrite <- (firstn_skipn (if takes x then 1 else 0) vs). apply in_or_app. now right.
Qed.
Lemma nothing_measured : forall bo x v ch es, nothing x = true -> chunks bo x v = Some ch -> extents bo x = Some es -> map extent_of ch = es.
Proof.
  intros bo x v ch es N C E. destruct x; try discriminate N; cbn [WireSpec.chunks SizeSpec.extents nothing] in *.
  - rewrite N in *. injection C as <-. now injection E as <-.
  - rewrite N in *. injection C as <-. destruct (n <? 0); [discriminate|]. now injection E as <-.
  - destruct a; try discriminate N. destruct z; try discriminate N. injection C as <-. now injection E as <-.
Qed.
Lemma nothings_measured : forall bo xs vs chs es, WhySpec.members_of xs = [] -> members (chunks bo) xs vs = Some chs ->
  omap (extents bo) xs = Some es -> map extent_of chs = concat es.
Proof.
  intros bo xs. unfold WhySpec.members_of. induction xs as [|x xs IH]; intros vs chs es N M X; cbn [filter members omap] in *.
  - injection M as <-. injection X as <-. reflexivity.
  - destruct (nothing x) eqn:NX; [|discriminate]. destruct (extents bo x) as [e|] eqn:EX; [|discriminate].
    destruct (omap (extents bo) xs) as [es'|] eqn:EXS; [|discriminate]. injection X as <-.
    destruct (chunks bo x _) as [c|] eqn:C; [|discriminate]. destruct (members _ xs _) as [cs|] eqn:MS; [|discriminate]. injection M as <-.
    cbn [concat]. rewrite map_app. f_equal; [eapply nothing_measured; eauto|eauto].
Qed.
Lemma alone_measured : forall bo x xs vs chs es, Forall measured xs -> forallb regular xs = true -> Forall plainly vs -> WhySpec.members_of xs = [x] ->
  alone (fits bo) xs vs = true -> members (chunks bo) xs vs = Some chs -> omap (extents bo) xs = Some es -> map extent_of chs = concat es.
Proof.
  intros bo x xs. unfold WhySpec.members_of. induction xs as [|y xs IH]; intros vs chs es S R P MO A M X; [discriminate|].
  inversion S as [|? ? S1 S2]; subst. cbn [filter forallb alone members omap] in *. apply andb_prop in R as [R1 R2].
  destruct (extents bo y) as [e|] eqn:EX; [|discriminate]. destruct (omap (extents bo) xs) as [es'|] eqn:EXS; [|discriminate]. injection X as <-.
  destruct (chunks bo y _) as [c|] eqn:C; [|discriminate]. destruct (members _ xs _) as [cs|] eqn:MS; [|discriminate]. injection M as <-.
  cbn [concat]. rewrite map_app. destruct (nothing y) eqn:NY; cbn [negb] in MO.
  - rewrite (nothing_takes y NY) in *. f_equal; [eapply nothing_measured; eauto|eauto].
  - injection MO as -> MO. f_equal; [|eapply nothings_measured; eauto].
    destruct (takes x) eqn:TK; [eapply S1; eauto|]. eapply none_measured; eauto.
Qed.
Lemma sum_measured : forall bo xs vs chs es, Forall measured xs -> forallb regular xs = true -> Forall plainly vs ->
  sum_fits (fits bo) xs vs = true -> members (chunks bo) xs vs = Some chs -> omap (extents bo) xs = Some es -> map extent_of chs = concat es.
Proof.
  intros bo xs vs chs es S R P F M X. unfold sum_fits in F. fold (WhySpec.members_of xs) in F. destruct (WhySpec.members_of xs) as [|x [|y r]] eqn:MO.
  - eapply nothings_measured; eauto.
  - eapply alone_measured; eauto.
  - apply andb_prop in F as [F _]. eapply each_measured; eauto.
Qed.
Lemma items_measured : forall bo y items ls es, measured y -> regular y = true -> Forall plainly items ->
  omap (fun i => chunks bo y (Some i)) items = Some ls -> forallb (fun i => fits bo y [i]) items = true -> extents bo y = Some es ->
  Forall (fun l => map extent_of l = es) ls.
Proof.
  intros bo y items. induction items as [|i items IH]; intros ls es S R P O F E; cbn [omap forallb] in *; [injection O as <-; constructor|].
  apply andb_prop in F as [F1 F2]. inversion P; subst. destruct (chunks bo y (Some i)) as [c|] eqn:C; [|discriminate].
  destruct (omap _ items) as [l'|] eqn:OI; [|discriminate]. injection O as <-. constructor; [|eauto].
  eapply (S bo [i]); eauto.
Qed.
Lemma pick_measured : forall vs k m d cs ms ds n, Forall (fun p => measured (snd p)) m -> (forall y, d = Some y -> measured y) ->
  forallb (fun p => regular (snd p)) m = true -> match d with Some y => regular y | None => true end = true -> Forall plainly vs ->
  pick (fun y => chunks BO_DEFAULT y (hd_error vs)) d k m = Some cs -> chosen (fun y => fits BO_DEFAULT y vs) d k m = true ->
  omap (fun p => SizeSpec.extents sz true (snd p)) m = Some ms ->
  (match d with None => Some [] | Some y => odo es <- SizeSpec.extents sz true y; Some [es] end) = Some ds ->
  Forall (fun k => k = n) (map (span true 0) (ms ++ ds)) -> List.length (lay true 0 cs) = n.
Proof.
  intros vs k m d cs ms ds n FM FD RM RD P. revert ms. induction m as [|[k' y] m IH]; intros ms C H OM OD A; cbn [pick chosen omap forallb snd] in *.
  - injection OM as <-. destruct d as [y|]; [|discriminate]. destruct (SizeSpec.extents sz true y) as [e|] eqn:E; [|discriminate]. injection OD as <-.
    cbn in A. inversion A; subst. rewrite lay_span. f_equal. eapply (FD y eq_refl BO_DEFAULT); eauto.
  - destruct (SizeSpec.extents sz true y) as [e|] eqn:E; [|discriminate]. destruct (omap _ m) as [ms'|] eqn:OM'; [|discriminate]. injection OM as <-.
    inversion FM; subst. apply andb_prop in RM as [R1 R2]. cbn [app map snd] in *. inversion A; subst. destruct (key_eqb k k').
    + rewrite lay_span. f_equal. eapply (H2 BO_DEFAULT); eauto.
    + eapply IH; eauto.
Qed.
Lemma string_measured : forall m n b ch, n <> 0 -> string_chunks hb m (KInt n) b = Some ch -> map extent_of ch = [Cell 1 (Z.to_nat n)].
Proof.
  intros m n b ch NZ H. cbn [string_chunks] in H. destruct (n =? 0) eqn:Z0; [lia|]. injection H as <-. cbn. now rewrite fixed_length.
Qed.
Theorem expr_measured : forall x, measured x.
Proof.
  induction x using hx_ind'; intros bo vs ch es R C F P E; cbn [regular WireSpec.chunks fitting SizeSpec.extents] in *; try discriminate.
  - destruct (hd_error vs) as [v|]; [|discriminate]. destruct (scalar _ c v) as [b|] eqn:SB; [|discriminate]. injection C as <-. injection E as <-.
    cbn. now rewrite (scalar_length _ _ _ _ SB).
  - injection C as <-. injection E as <-. destruct (n =? 0); [reflexivity|]. cbn. now rewrite zeros_length.
  - destruct (n <? 0) eqn:NG; [discriminate|]. injection E as <-. destruct (n =? 0) eqn:Z0; [now injection C as <-|]. destruct (hd_error vs) as [[]|]; try discriminate. injection C as <-.
    cbn [map extent_of pascal List.length]. unfold pascal. cbn [List.length]. rewrite fixed_length. repeat f_equal. lia.
  - destruct a; try discriminate. injection E as <-. destruct z; [now injection C as <-| |];
      (destruct (hd_error vs) as [[]|]; try discriminate; cbn [Z.eqb]; eapply string_measured; [|exact C]; lia).
  - destruct a; try discriminate. injection E as <-. destruct (hd_error vs) as [[]|]; try discriminate. destruct (cod_enc cd s) as [b|]; [|discriminate].
    cbn [string_chunks] in C. injection C as <-. destruct (z =? 0) eqn:Z0.
    + assert (z = 0) as -> by lia. reflexivity.
    + cbn [map extent_of]. rewrite lay_span. cbn [map extent_of span]. rewrite gap0, fixed_length. repeat f_equal. lia.
  - destruct n as [z|]; [|discriminate]. destruct (SizeSpec.extents _ _ x) as [e|] eqn:EX; [|discriminate]. injection E as <-.
    destruct vs as [|v r]; [discriminate|]. cbn [hd_error] in C. destruct (py_iter v) as [items|] eqn:IT; [|discriminate].
    apply andb_prop in F as [_ F]. destruct (omap _ items) as [ls|] eqn:OM; [|discriminate].
    destruct (_ =? z) eqn:Q in C; [|discriminate]. apply Z.eqb_eq in Q.
    assert (PI : Forall plainly items) by (eapply iter_plainly; [|exact IT]; now inversion P).
    pose proof (items_measured bo x items ls e IHx R PI OM F EX) as M. pose proof (omap_length _ _ _ _ _ OM) as L.
    assert (N : Z.to_nat z = List.length ls) by lia. rewrite N. destruct (packed x).
    + injection C as <-. cbn [map extent_of app]. now rewrite lay_span, (concat_extents ls e M).
    + match type of C with match ?g with _ => _ end = _ => destruct g as [h|] eqn:HD; [|discriminate] end. injection C as <-.
      cbn [map extent_of app]. rewrite app_length, (concat_spans _ ls e M), lay_span. do 3 f_equal.
      destruct s as [c|]; cbn [header]; [|now injection HD as <-]. rewrite (number_extent _ _ _ _ HD). cbn [span]. rewrite gap0. lia.
  - destruct (omap _ l) as [ex|] eqn:EX; [|discriminate]. injection E as <-. destruct vs as [|v [|w r]]; try discriminate. cbn [hd_error] in C.
    destruct (py_iter v) as [items|] eqn:IT; [|discriminate]. destruct (members _ l items) as [cs|] eqn:MS; [|discriminate]. injection C as <-.
    cbn [map extent_of]. rewrite lay_span. do 3 f_equal. eapply (sum_measured BO_DEFAULT l items); eauto.
    eapply iter_plainly; [|exact IT]. now inversion P.
  - eapply IHx; eauto.
  - apply andb_prop in R as [RM RD]. destruct (omap _ m) as [ms|] eqn:OM; [|discriminate].
    match type of E with match ?g with _ => _ end = _ => destruct g as [ds|] eqn:OD; [|discriminate] end.
    destruct (agreed _) as [n|] eqn:A; [|discriminate]. injection E as <-. destruct (f o) as [r|]; [|discriminate]. destruct (hashable r); [|discriminate].
    destruct (pick _ d r m) as [cs|] eqn:PK; [|discriminate]. injection C as <-. cbn [map extent_of]. do 2 f_equal.
    eapply pick_measured; eauto. now apply agreed_all.
  - apply andb_prop in R as [RM RD]. destruct (omap _ m) as [ms|] eqn:OM; [|discriminate].
    match type of E with match ?g with _ => _ end = _ => destruct g as [ds|] eqn:OD; [|discriminate] end.
    destruct (agreed _) as [n|] eqn:A; [|discriminate]. injection E as <-. destruct (f o) as [r|]; [|discriminate]. destruct (hashable r); [|discriminate].
    destruct (pick _ d r m) as [cs|] eqn:PK; [|discriminate]. injection C as <-. cbn [map extent_of]. do 2 f_equal.
    eapply pick_measured; eauto. now apply agreed_all.
  - destruct (sz c) as [n|] eqn:SZ; [|discriminate]. injection E as <-. unfold class_fits in F. destruct vs as [|[] [|w r]]; try discriminate. cbn [hd_error] in C.
    apply andb_prop in F as [K F]. apply Nat.eqb_eq in K. subst c0. destruct (rec c ov attrs) as [b|] eqn:RC; [|discriminate]. injection C as <-.
    cbn [map extent_of]. do 2 f_equal. eapply OBJ; eauto. now inversion P.
Qed.
End Written.

Lemma m_native_aligns : forall hb bo, m_native (mode_of hb bo) = aligns bo.
Proof. intros hb []; reflexivity. Qed.
Lemma assoc_in : forall (A : Type) k (l : list (string * A)) a, assoc k l = Some a -> exists k', In (k', a) l.
Proof.
  intros A k l a. induction l as [|[k' a'] l IH]; intros H; [discriminate|]. cbn [assoc] in H. destruct (String.eqb k k').
  - injection H as ->. exists k'. now left.
  - destruct (IH H) as [k'' I]. exists k''. now right.
Qed.
Lemma values_unmarked : forall l d vs, field_values l d = Some vs -> forallb (fun p => unmarked (snd p)) d = true ->
  Forall (fun v => unmarked v = true) vs.
Proof.
  intros l d. unfold field_values. induction (filter (fun p => takes (snd p)) l) as [|p l' IH]; intros vs H U; cbn [omap] in H.
  - injection H as <-. constructor.
  - destruct (assoc (fst p) d) as [v|] eqn:A; [|discriminate]. destruct (omap _ l') as [vs'|]; [|discriminate]. injection H as <-.
    constructor; [|auto]. destruct (assoc_in _ _ _ _ A) as [k I]. rewrite forallb_forall in U. exact (U _ I).
Qed.
Theorem class_measured : forall hb marks sl, forallb regular_class sl = true -> forall n c ov d b sc n' s,
  wire hb sl n c ov d = Some b -> packable Nat.eqb sl n c ov d = true -> nth_error sl c = Some sc ->
  (marks = true \/ forallb (fun p => unmarked (snd p)) d = true) ->
  class_size marks sl n' (aligns (match ov with Some bo => bo | None => sc_bo sc end)) c = Some s -> List.length b = s.
Proof.
  intros hb marks sl RG n. induction n as [|n IH]; intros c ov d b sc n' s W P SC U Z; [discriminate|]. cbn [wire packable] in *.
  rewrite SC in W, P. set (bo := match ov with Some bo => bo | None => sc_bo sc end) in *.
  assert (RC : regular_class sc = true) by (rewrite forallb_forall in RG; apply RG; eapply nth_error_In; eauto).
  assert (RX : forallb regular (map snd (fields_of (sc_anns sc))) = true).
  { rewrite forallb_map. unfold regular_class in RC. rewrite forallb_forall in *. intros p I. specialize (RC p I).
    apply andb_prop in RC as [RC _]. now apply andb_prop in RC as [RC _]. }
  destruct (field_values _ d) as [vs|] eqn:V; [|discriminate].
  destruct (fields_values _ _ _ V (chunks hb (wire hb sl n) (PO c false d) (mode_of hb bo)) (fun _ _ _ => False) TypeError) as [A _].
  rewrite A in W. destruct (members _ _ vs) as [chs|] eqn:M; [|discriminate]. injection W as <-.
  destruct n' as [|n']; [discriminate|]. cbn [class_size] in Z. rewrite SC in Z.
  match type of Z with context [extents ?f _] => set (sz := f) in * end.
  destruct (omap _ _) as [es|] eqn:E; [|discriminate]. injection Z as <-. rewrite lay_span, m_native_aligns. f_equal.
  rewrite <- (m_native_aligns hb) in E.
  assert (PV : Forall (plainly marks) vs).
  { destruct U as [U|U]; [apply Forall_forall; intros v _; now left|].
    eapply Forall_impl; [|eapply values_unmarked; eauto]. intros v Q. now right. }
  refine (sum_measured hb (wire hb sl n) (packable Nat.eqb sl n) sz marks (PO c false d) bo _ vs chs es _ RX PV P M E).
  apply Forall_forall. intros x _. apply expr_measured. clear - IH. intros c ov d b k R F PL Z. unfold sz in Z.
  destruct (nth_error sl c) as [sk|] eqn:SK; [|discriminate]. destruct (class_size marks sl n' (aligns (sc_bo sk)) c) as [s|] eqn:Z1; [|discriminate].
  assert (UD : marks = true \/ forallb (fun p => unmarked (snd p)) d = true).
  { destruct PL as [PL|PL]; [now left|]. right. cbn [unmarked] in PL. now apply andb_prop in PL. }
  assert (NO : ov = None -> Some s = Some k -> List.length b = k).
  { intros -> Q. injection Q as <-. eapply (IH c None d b sk n'); eauto. }
  destruct marks.
  - destruct (class_size true sl n' (negb (aligns (sc_bo sk))) c) as [t|] eqn:Z2; [|discriminate]. destruct (Nat.eqb s t) eqn:Q; [|discriminate].
    apply Nat.eqb_eq in Q. subst t. injection Z as <-. eapply (IH c ov d b sk n'); eauto. destruct ov as [bo|]; [|exact Z1].
    destruct (aligns bo), (aligns (sc_bo sk)); assumption.
  - rewrite Nat.eqb_refl in Z. apply NO; [|exact Z]. destruct PL as [PL|PL]; [discriminate|]. cbn [unmarked] in PL. destruct ov; [discriminate|reflexivity].
Qed.

(** ** what is read *)
(** the offset in the run after the extents *)
Fixpoint after (al : bool) (off : nat) (l : list extent) : nat :=
  match l with
  | [] => off
  | Cell w n :: l' => after al (off + gap al w off + n) l'
  | Room _ :: l' => after al 0 l'
  end.
Lemma span_app : forall al a b off, span al off (a ++ b) = (span al off a + span al (after al off a) b)%nat.
Proof. intros al a b. induction a as [|[w n|n] a IH]; intros off; cbn [app span after]; rewrite ?IH; lia. Qed.
Lemma after_app : forall al a b off, after al off (a ++ b) = after al (after al off a) b.
Proof. intros al a b. induction a as [|[w n|n] a IH]; intros off; cbn [app after]; auto. Qed.
Lemma adv_blen : forall k b, 0 <= k <= blen b -> blen (adv k b) = blen b - k.
Proof. intros k b H. unfold adv, blen in *. rewrite skipn_length. lia. Qed.
Section Reading.
Variables (hb : bool) (md : umode).
Variable rec : nat -> bytes -> option (value * Z).
Variable sz : nat -> option nat.
Hypothesis OBJ : forall c b v k s, rec c b = Some (v, k) -> sz c = Some s -> k = Z.of_nat s /\ k <= blen b.
Variable o : pobj.
Notation read := (read hb md rec o).
Definition consumed (x : hx) : Prop := forall m off b vs off' k es, read m x off b = Some (vs, off', k) ->
  extents sz (m_native m) x = Some es -> off' = after (m_native m) off es /\ k = Z.of_nat (span (m_native m) off es) /\ k <= blen b.
Lemma at_consumed : forall m w n off b f vs off' k, at_ m w n off b f = Some (vs, off', k) ->
  off' = after (m_native m) off [Cell w n] /\ k = Z.of_nat (span (m_native m) off [Cell w n]) /\ k <= blen b.
Proof.
  intros m w n off b f vs off' k H. unfold at_ in H. cbv zeta in H. fold (gap (m_native m) w off) in H.
  destruct (_ <=? _)%nat eqn:L in H; [|discriminate]. injection H as _ <- <-. cbn [after span]. apply Nat.leb_le in L. unfold blen. repeat split; lia.
Qed.
Lemma items_consumed : forall m y run n es off b vs k, consumed y -> extents sz (m_native m) y = Some es -> (run = false -> off = 0%nat) ->
  items_of (read m y) run n off b = Some (vs, k) ->
  k = Z.of_nat (if run then span (m_native m) off (concat (repeat es n)) else n * span (m_native m) 0 es)%nat /\ k <= blen b.
Proof.
  intros m y run n es. induction n as [|n IH]; intros off b vs k C E Z H; cbn [items_of repeat concat] in *.
  - injection H as _ <-. pose proof (blen_nonneg b). destruct run; cbn; lia.
  - destruct (read m y off b) as [[[vs1 off1] k1]|] eqn:R; [|discriminate]. destruct (C _ _ _ _ _ _ _ R E) as (A1 & A2 & A3).
    destruct (items_of _ run n _ _) as [[vs2 k2]|] eqn:I; [|discriminate]. injection H as _ <-.
    destruct (IH (if run then off1 else 0%nat) (adv k1 b) vs2 k2 C E) as [B1 B2]; [intros ->; reflexivity|exact I|].
    rewrite adv_blen in B2 by lia. split; [|lia]. destruct run.
    + rewrite span_app. subst off1. lia.
    + rewrite (Z eq_refl) in *. lia.
Qed.
Lemma members_consumed : forall m xs es off b vs k, Forall consumed xs -> omap (extents sz (m_native m)) xs = Some es ->
  ReadSpec.members_of (read m) xs off b = Some (vs, k) -> k = Z.of_nat (span (m_native m) off (concat es)) /\ k <= blen b.
Proof.
  intros m xs. induction xs as [|x xs IH]; intros es off b vs k F E H; cbn [ReadSpec.members_of omap] in *.
  - injection H as _ <-. injection E as <-. pose proof (blen_nonneg b). cbn. lia.
  - inversion F as [|? ? F1 F2]; subst. destruct (extents sz _ x) as [e|] eqn:EX; [|discriminate].
    destruct (omap _ xs) as [es'|] eqn:EXS; [|discriminate]. injection E as <-.
    destruct (read m x off b) as [[[vs1 off1] k1]|] eqn:R; [|discriminate]. destruct (F1 _ _ _ _ _ _ _ R EX) as (A1 & A2 & A3).
    destruct (ReadSpec.members_of _ xs _ _) as [[vs2 k2]|] eqn:I; [|discriminate]. injection H as _ <-.
    destruct (IH es' off1 (adv k1 b) vs2 k2 F2 eq_refl I) as [B1 B2]. rewrite adv_blen in B2 by lia. cbn [concat]. rewrite span_app. subst off1. lia.
Qed.
Lemma pick_consumed : forall b k m d p ms ds n, Forall (fun p => consumed (snd p)) m -> (forall y, d = Some y -> consumed y) ->
  pick_of (fun y => read (machine hb) y 0 b) d k m = Some p ->
  omap (fun p => extents sz true (snd p)) m = Some ms ->
  (match d with None => Some [] | Some y => odo es <- extents sz true y; Some [es] end) = Some ds ->
  Forall (fun k => k = n) (map (span true 0) (ms ++ ds)) -> snd p = Z.of_nat n /\ snd p <= blen b.
Proof.
  intros b k m d p ms ds n FM FD. revert ms. induction m as [|[k' y] m IH]; intros ms H OM OD A; cbn [pick_of omap snd] in *.
  - injection OM as <-. destruct d as [y|]; [|discriminate]. destruct (extents sz true y) as [e|] eqn:E; [|discriminate]. injection OD as <-.
    cbn in A. inversion A; subst. destruct p as [[vs off] z]. destruct (FD y eq_refl _ _ _ _ _ _ _ H E) as (_ & A2 & A3). auto.
  - destruct (extents sz true y) as [e|] eqn:E; [|discriminate]. destruct (omap _ m) as [ms'|] eqn:OM'; [|discriminate]. injection OM as <-.
    inversion FM as [|? ? C1 C2]; subst. cbn [app map snd] in *. inversion A; subst. destruct (key_eqb k k'); [|eapply IH; eauto].
    destruct p as [[vs off] z]. destruct (C1 _ _ _ _ _ _ _ H E) as (_ & A2 & A3). auto.
Qed.
Lemma number_consumed : forall m c off b z off' k, number_at m c off b = Some (z, off', k) ->
  k = Z.of_nat (span (m_native m) off [Cell (wsize c) (wsize c)]) /\ k <= blen b.
Proof.
  intros m c off b z off' k H. unfold number_at in H. destruct (at_ _ _ _ _ _ _) as [[[vs off1] k1]|] eqn:A; [|discriminate].
  destruct vs as [|[] [|]]; try discriminate. injection H as _ <- <-. destruct (at_consumed _ _ _ _ _ _ _ _ _ A) as (_ & B & C). auto.
Qed.
Theorem expr_consumed : forall x, consumed x.
Proof.
  induction x using hx_ind'; intros m0 off b vs off' k es RD E; cbn [ReadSpec.read extents] in *; try discriminate.
  - injection E as <-. eapply at_consumed; eauto.
  - injection E as <-. destruct (n =? 0); [|eapply at_consumed; eauto]. injection RD as _ <- <-. pose proof (blen_nonneg b). cbn. lia.
  - destruct (n <? 0); [discriminate|]. injection E as <-. destruct (n =? 0); [|eapply at_consumed; eauto]. injection RD as _ <- <-.
    pose proof (blen_nonneg b). cbn. lia.
  - destruct a; try discriminate. injection E as <-. cbn [string_of] in RD. destruct (z =? 0); [|eapply at_consumed; eauto]. injection RD as _ <- <-.
    pose proof (blen_nonneg b). cbn. lia.
  - destruct a; try discriminate. injection E as <-. cbn [string_of] in RD. destruct (z =? 0); [discriminate|].
    destruct (at_ _ _ _ _ _ _) as [[[vs1 off1] k1]|] eqn:A; [|discriminate]. destruct (at_consumed _ _ _ _ _ _ _ _ _ A) as (_ & B & C).
    destruct vs1 as [|[] ?]; try discriminate. destruct (cod_dec cd b0); [|discriminate]. injection RD as _ <- <-. cbn [span after machine m_native] in *.
    rewrite gap0 in B. repeat split; lia.
  - destruct n as [z|]; [|discriminate]. destruct (extents sz _ x) as [e|] eqn:EX; [|discriminate]. injection E as <-. destruct (packed x).
    + destruct (items_of _ _ _ _ _) as [[vs2 k2]|] eqn:I; [|discriminate]. injection RD as _ <- <-.
      destruct (items_consumed _ _ _ _ _ _ _ _ _ IHx EX (fun _ => eq_refl) I) as [A B]. rewrite adv_blen in B by (pose proof (blen_nonneg b); lia).
      cbn [after span]. repeat split; lia.
    + destruct (negb _); [discriminate|]. pose proof (blen_nonneg b) as NN.
      assert (HS : exists size k1, (match s with None => Some (None, 0) | Some c => odo (z, _, k1) <- number_at m0 c 0 (adv 0 b); Some (Some z, k1) end) = Some (size, k1)
                /\ k1 = Z.of_nat (header s) /\ k1 <= blen b).
      { destruct s as [c|]; [|exists None, 0; repeat split; lia]. destruct (number_at m0 c 0 (adv 0 b)) as [[[z1 o1] k1]|] eqn:N; [|discriminate].
        destruct (number_consumed _ _ _ _ _ _ _ N) as [A B]. exists (Some z1), k1. split; [reflexivity|]. cbn [span header] in *. rewrite gap0 in A.
        rewrite adv_blen in B by lia. lia. }
      destruct HS as (size & k1 & HS & A1 & A2). rewrite HS in RD. cbn [Z.add] in RD.
      destruct (items_of _ _ _ _ _) as [[vs2 k2]|] eqn:I; [|discriminate]. destruct (match size with Some _ => _ | None => _ end); [|discriminate].
      injection RD as _ <- <-. destruct (items_consumed _ _ _ _ _ _ _ _ _ IHx EX (fun _ => eq_refl) I) as [A B]. rewrite adv_blen in B by lia.
      cbn [after span]. repeat split; lia.
  - destruct (omap _ l) as [ex|] eqn:EX; [|discriminate]. injection E as <-. destruct (ReadSpec.members_of _ _ _ _) as [[vs2 k2]|] eqn:I; [|discriminate].
    injection RD as _ <- <-. destruct (members_consumed (machine hb) _ _ _ _ _ _ H EX I) as [A B]. cbn [after span machine m_native] in *. repeat split; lia.
  - destruct (ReadSpec.read _ _ _ _ _ x _ _) as [[[vs1 off1] k1]|] eqn:R; [|discriminate]. destruct (convert _ _ _); [|discriminate]. injection RD as _ <- <-.
    eapply IHx; eauto.
  - destruct (omap _ m) as [ms|] eqn:OM; [|discriminate].
    match type of E with match ?g with _ => _ end = _ => destruct g as [ds|] eqn:OD; [|discriminate] end.
    destruct (agreed _) as [n|] eqn:A; [|discriminate]. injection E as <-. destruct (f o) as [r|]; [|discriminate]. destruct (hashable r); [|discriminate].
    destruct (pick_of _ d r m) as [p|] eqn:PK; [|discriminate]. 
    assert (Q : snd p = Z.of_nat n /\ snd p <= blen b) by (eapply pick_consumed; eauto; now apply agreed_all).
    destruct p as [[vs1 off1] k1]. cbn in RD, Q. injection RD as _ <- <-. cbn [after span]. repeat split; lia.
  - destruct (omap _ m) as [ms|] eqn:OM; [|discriminate].
    match type of E with match ?g with _ => _ end = _ => destruct g as [ds|] eqn:OD; [|discriminate] end.
    destruct (agreed _) as [n|] eqn:A; [|discriminate]. injection E as <-. destruct (ReadSpec.read _ _ _ _ _ x _ _) as [[[[|r rs] ?] ?]|]; try discriminate.
    destruct (hashable r); [|discriminate].
    destruct (pick_of _ d r m) as [p|] eqn:PK; [|discriminate]. 
    assert (Q : snd p = Z.of_nat n /\ snd p <= blen b) by (eapply pick_consumed; eauto; now apply agreed_all).
    destruct p as [[vs1 off1] k1]. cbn in RD, Q. injection RD as _ <- <-. cbn [after span]. repeat split; lia.
  - destruct (sz c) as [n|] eqn:SZ; [|discriminate]. injection E as <-. destruct (rec c b) as [[v k1]|] eqn:RC; [|discriminate]. injection RD as _ <- <-.
    destruct (OBJ _ _ _ _ _ RC SZ). cbn [after span]. repeat split; lia.
Qed.
End Reading.
Lemma fields_consumed : forall (sz : nat -> option nat) (f : list (string * value) -> hx -> nat -> bytes -> option place) al l es,
  (forall d x off b vs off' k e, f d x off b = Some (vs, off', k) -> extents sz al x = Some e ->
     off' = after al off e /\ k = Z.of_nat (span al off e) /\ k <= blen b) ->
  omap (extents sz al) (map snd l) = Some es -> forall d off b d' k, fields_read f l d off b = Some (d', k) ->
  k = Z.of_nat (span al off (concat es)) /\ k <= blen b.
Proof.
  intros sz f al l. induction l as [|[a x] l IH]; intros es F E d off b d' k H; cbn [fields_read map omap snd] in *.
  - injection H as _ <-. injection E as <-. pose proof (blen_nonneg b). cbn. lia.
  - destruct (extents sz al x) as [e|] eqn:EX; [|discriminate]. destruct (omap _ _) as [es'|] eqn:EXS; [|discriminate]. injection E as <-.
    destruct (f d x off b) as [[[vs1 off1] k1]|] eqn:R; [|discriminate]. destruct (F _ _ _ _ _ _ _ _ R EX) as (A1 & A2 & A3).
    match type of H with match ?g with _ => _ end = _ => destruct g as [d1|]; [|discriminate] end.
    destruct (fields_read f l _ _ _) as [[d2 k2]|] eqn:I; [|discriminate]. injection H as _ <-.
    destruct (IH es' F eq_refl _ _ _ _ _ I) as [B1 B2]. rewrite adv_blen in B2 by lia. cbn [concat]. rewrite span_app. subst off1. lia.
Qed.
Theorem class_consumed : forall hb md marks sl n c b v k sc n' s, parse hb md sl n c b = Some (v, k) -> nth_error sl c = Some sc ->
  class_size marks sl n' (aligns (sc_bo sc)) c = Some s -> k = Z.of_nat s /\ k <= blen b.
Proof.
  intros hb md marks sl n. induction n as [|n IH]; intros c b v k sc n' s P SC Z; [discriminate|]. cbn [parse] in P. rewrite SC in P. cbv zeta in P.
  destruct (fields_read _ _ _ _ _) as [[d k1]|] eqn:F; [|discriminate]. injection P as _ <-.
  destruct n' as [|n']; [discriminate|]. cbn [class_size] in Z. rewrite SC in Z.
  match type of Z with context [extents ?f _] => set (sz := f) in * end.
  destruct (omap _ _) as [es|] eqn:E; [|discriminate]. injection Z as <-.
  refine (fields_consumed sz _ (aligns (sc_bo sc)) _ es _ E _ _ _ _ _ F).
  intros d0 x off b0 vs off' k0 e R EX. rewrite <- (m_native_aligns hb) in *.
  refine (expr_consumed hb md (parse hb md sl n) sz _ (PO c true d0) x _ _ _ _ _ _ _ R EX).
  clear - IH. intros c b v k s P Z. unfold sz in Z. destruct (nth_error sl c) as [sk|] eqn:SK; [|discriminate].
  destruct (class_size marks sl n' (aligns (sc_bo sk)) c) as [t|] eqn:Z1; [|discriminate].
  destruct (if marks then _ else _) as [u|]; [|discriminate]. destruct (Nat.eqb t u); [|discriminate]. injection Z as <-. eauto.
Qed.
