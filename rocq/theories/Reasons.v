(** The reasons of WhySpec.v are reasons: an instance to which one of them applies has no layout (WireSpec.v) or is
    not one that can be packed (PackSpec.v). *)
From Verif Require Import Base Floats Value StructMod Format Ser Exec Pure BaseFacts SerFacts Wire Hints HintFacts Surface SerShape
  Programs Accept AcceptProg WireSpec WireFacts Wires PackSpec Packable WhySpec Whys.

Section Sound.
Variables (hb : bool) (allow : nat -> nat -> bool).
Variable rec : nat -> option border -> list (string * value) -> option bytes.
Variable wo : nat -> option border -> list (string * value) -> exn -> Prop.
Variable fit : nat -> option border -> list (string * value) -> bool.
Hypothesis OBJ : forall c ov d e b, rec c ov d = Some b -> fit c ov d = true -> wo c ov d e -> False.
Variable o : pobj.
Notation why := (why hb rec wo o).
Notation chunks bo := (chunks hb rec o (mode_of hb bo)).
Notation fits := (fitting allow fit o).
Definition sound (x : hx) : Prop := forall bo vs e ch, regular x = true ->
  chunks bo x (hd_error vs) = Some ch -> fits bo x vs = true -> why bo x (hd_error vs) e -> False.
Definition bounded (x : hx) : Prop := forall bo vs e, ((if takes x then 1 else 0) < List.length vs)%nat ->
  fits bo x vs = true -> too_many o x e -> False.

Lemma pick_bounded : forall bo vs e k m d, (1 < List.length vs)%nat -> Forall (fun p => bounded (snd p)) m -> (forall y, d = Some y -> bounded y) ->
  chosen (fun y => fits bo y vs) d k m = true -> pick_why (fun y => too_many o y e) d False k m -> False.
Proof.
  intros bo vs e k m d L FM FD. assert (B : forall y, bounded y -> fits bo y vs = true -> too_many o y e -> False).
  { intros y H A B. apply (H bo vs e); auto. destruct (takes y); lia. }
  induction m as [|[k' y] m IH]; cbn [chosen pick_why]; intros C P.
  - destruct d as [y|]; [|discriminate]. apply (B y); auto.
  - inversion FM; subst. cbn [snd] in *. destruct (key_eqb k k'); [apply (B y); auto|auto].
Qed.
Theorem expr_bounded : forall x, bounded x.
Proof.
  induction x using hx_ind'; intros bo vs e L F T; cbn [takes fitting too_many] in *; try contradiction.
  - apply Nat.eqb_eq in F. lia.
  - destruct T as [T _]. destruct (n =? 0) eqn:Z0; [lia|]. cbn [orb] in F. apply Nat.eqb_eq in F. lia.
  - destruct T as [T _]. destruct (n =? 0) eqn:Z0; [lia|]. cbn [orb negb] in *. apply Nat.eqb_eq in F. lia.
  - destruct a; try contradiction. destruct T as [T _]. cbn [char_fits] in F. destruct (z =? 0) eqn:Z0; [lia|]. cbn [orb negb] in *. apply Nat.eqb_eq in F. lia.
  - destruct vs as [|v [|w r]]; try discriminate. cbn in L. lia.
  - destruct (f o) as [r|]; [|contradiction]. destruct T as [K T]. rewrite K in F. apply andb_prop in F as [_ F]. eapply IHx; eauto.
  - eapply IHx; eauto. destruct (takes x); lia.
  - destruct (f o) as [r|]; [|contradiction]. eapply pick_bounded; eauto.
  - destruct (f o) as [r|]; [|contradiction]. eapply pick_bounded; eauto.
  - unfold class_fits in F. destruct vs as [|[] [|w r]]; try discriminate. cbn in L. lia.
  - unfold class_fits in F. destruct vs as [|[] [|w r]]; try discriminate. cbn in L. lia.
Qed.

(** ** sums *)
Lemma none_sound : forall x bo vs e ch, takes x = false -> sound x -> regular x = true -> chunks bo x None = Some ch -> fits bo x vs = true ->
  why bo x None e -> False.
Proof.
  intros x bo vs e ch T S R C F W. assert (Q : vs = [] \/ vs <> []) by (destruct vs; [now left|right; discriminate]).
  destruct Q as [->|Q]; [eapply (S bo [] e); eauto|].
  revert bo vs e ch T S R C F W Q. induction x using hx_ind'; intros bo vs e ch T S R C F W Q; try discriminate T; cbn [WhySpec.why takes] in *.
  - contradiction.
  - destruct W as [NZ _]. destruct (n =? 0) eqn:Z0; [lia|discriminate].
  - destruct a; try discriminate. cbn [char_why] in W. destruct W as [NZ _]. destruct (z =? 0) eqn:Z0; [lia|discriminate].
  - cbn [fitting regular WireSpec.chunks] in *. apply andb_prop in R as [R RV]. unfold cond_why in W. destruct (f o) as [r|e0] eqn:FO; [|discriminate].
    destruct (key_eqb r (VBool true)) eqn:KT.
    + destruct W as [[K _]|[_ [W|[_ W]]]]; [discriminate| |].
      * apply andb_prop in F as [D F]. destruct (WireSpec.chunks _ _ _ _ x None) as [cs|] eqn:CX; [|discriminate].
        eapply (IHx bo vs e cs); eauto. intros bo' vs' e' ch' R' C' F' W'.
        eapply (S bo' vs' e' _); cbn [regular WireSpec.chunks fitting WhySpec.why]; rewrite ?FO, ?KT; [now rewrite R, RV|now rewrite C'| |right; split; [reflexivity|left; exact W']].
        now rewrite D, F'.
      * destruct x; try contradiction; cbn in F; discriminate.
    + destruct W as [[_ [K _]]|[K _]]; [|discriminate]. rewrite K in C. discriminate.
Qed.
Lemma nothing_why : forall x bo v e, nothing x = true -> slot [] (why bo) x v e -> False.
Proof.
  intros x bo v e N [W|(_ & U & _)].
  - destruct x; try discriminate N; cbn [WhySpec.why nothing] in *; [contradiction|destruct W as [W _]; lia|].
    destruct a; try discriminate N. cbn [char_why] in W. destruct v; destruct W as [W _]; lia.
  - destruct x; try discriminate N; contradiction.
Qed.
Lemma nothing_slot : forall sv x bo v e, nothing x = true -> slot sv (why bo) x v e -> False.
Proof.
  intros sv x bo v e N [W|(_ & U & _)]; [eapply (nothing_why x bo v e); [exact N|left; exact W]|]. destruct x; try discriminate N; contradiction.
Qed.
Lemma nothing_takes : forall x, nothing x = true -> takes x = false.
Proof. intros x N. destruct x; try discriminate N; cbn in *; [reflexivity|now rewrite N|]. destruct a; try discriminate N. now rewrite N. Qed.
Lemma each_sound : forall sv few bo xs vs e chs, Forall sound xs -> forallb regular xs = true ->
  each (fits bo) xs vs = true -> members (chunks bo) xs vs = Some chs -> members_why (chunks bo) (slot sv (why bo)) few xs vs e -> False.
Proof.
  intros sv few bo xs. induction xs as [|x xs IH]; intros vs e chs S R E M W; [contradiction|].
  inversion S as [|? ? S1 S2]; subst. cbn [forallb each members members_why] in *. apply andb_prop in R as [R1 R2]. apply andb_prop in E as [E1 E2].
  destruct (vals_cases x R1) as [V|(c & sz & y & -> & P)].
  2:{ cbn [vals] in E1. rewrite <- packed_eq, P in E1. cbn in E1. discriminate. }
  rewrite V in E1, E2. assert (H : hd_error (firstn (if takes x then 1 else 0) vs) = if takes x then hd_error vs else None).
  { destruct (takes x); [destruct vs; reflexivity|reflexivity]. }
  rewrite <- H in M, W. destruct (chunks bo x (hd_error (firstn _ vs))) as [c|] eqn:C; [|discriminate].
  destruct (members _ xs _) as [cs|] eqn:MS; [|discriminate]. destruct W as [[W|(_ & U & _)]|[_ W]].
  - eapply S1; eauto.
  - destruct x; try contradiction. destruct n; [contradiction|]. cbn [uncounted vals takes] in *. rewrite <- packed_eq, U in V. discriminate.
  - assert (Q : skipn (if takes x then 1 else 0) vs = if takes x then tl vs else vs) by (destruct (takes x); [destruct vs; reflexivity|reflexivity]).
    rewrite Q in E2. eapply IH; eauto.
Qed.
Lemma nothing_members : forall sv few bo xs vs e, members_of xs = [] -> members_why (chunks bo) (slot sv (why bo)) few xs vs e -> False.
Proof.
  intros sv few bo xs. unfold members_of. induction xs as [|x xs IH]; intros vs e N W; [contradiction|]. cbn [filter members_why] in *.
  destruct (nothing x) eqn:NX; [|discriminate]. destruct W as [W|[_ W]]; [eapply nothing_slot; eauto|eauto].
Qed.
Lemma alone_sound : forall sv few bo x xs vs e chs, ~ several sv -> Forall sound xs -> forallb regular xs = true -> members_of xs = [x] ->
  alone (fits bo) xs vs = true -> members (chunks bo) xs vs = Some chs -> members_why (chunks bo) (slot sv (why bo)) few xs vs e -> False.
Proof.
  intros sv few bo x xs. unfold members_of. induction xs as [|y xs IH]; intros vs e chs NS S R MO A M W; [contradiction|].
  inversion S as [|? ? S1 S2]; subst. cbn [filter forallb alone members members_why] in *. apply andb_prop in R as [R1 R2].
  destruct (chunks bo y _) as [c|] eqn:C; [|discriminate]. destruct (members _ xs _) as [cs|] eqn:MS; [|discriminate].
  destruct (nothing y) eqn:NY; cbn [negb] in MO.
  - rewrite (nothing_takes y NY) in *. destruct W as [W|[_ W]]; [eapply nothing_slot; eauto|eauto].
  - injection MO as -> MO. destruct W as [[W|(Z & _)]|[_ W]]; [|contradiction|eapply nothing_members; eauto].
    destruct (takes x) eqn:TK; [eapply S1; eauto|]. eapply none_sound; eauto.
Qed.
Lemma sum_sound : forall few bo xs vs e chs, Forall sound xs -> forallb regular xs = true -> sum_fits (fits bo) xs vs = true ->
  members (chunks bo) xs vs = Some chs -> members_why (chunks bo) (slot xs (why bo)) few xs vs e -> False.
Proof.
  intros few bo xs vs e chs S R F M W. unfold sum_fits in F. fold (members_of xs) in F. destruct (members_of xs) as [|x [|y r]] eqn:MO.
  - eapply nothing_members; eauto.
  - eapply alone_sound; eauto. unfold several. rewrite MO. cbn. lia.
  - apply andb_prop in F as [F _]. eapply each_sound; eauto.
Qed.
Lemma structy_takes : forall x, regular x = true -> structy x || nothing x = true -> vals x = (if takes x then 1 else 0)%nat.
Proof.
  intros x R S. destruct (vals_cases x R) as [V|(c & sz & y & -> & P)]; [exact V|discriminate].
Qed.
Lemma alone_one : forall bo xs x vs, members_of xs = [x] -> alone (fits bo) xs vs = fits bo x vs.
Proof.
  intros bo xs x vs. unfold members_of. induction xs as [|y xs IH]; intros M; [discriminate|]. cbn [filter alone] in *. destruct (nothing y); [auto|]. now injection M as -> _.
Qed.
Lemma members_takers : forall xs, takers xs = takers (members_of xs).
Proof.
  unfold takers, members_of. induction xs as [|x xs IH]; [reflexivity|]. cbn [filter]. destruct (nothing x) eqn:N; cbn [negb].
  - now rewrite (nothing_takes x N).
  - cbn [filter]. destruct (takes x); cbn [List.length]; now rewrite IH.
Qed.
Lemma left_sound : forall bo xs vs e, forallb regular xs = true -> sum_fits (fits bo) xs vs = true ->
  (takers xs < List.length vs)%nat -> left_over o xs e -> False.
Proof.
  intros bo xs vs e R F L W. unfold sum_fits in F. unfold left_over in W. fold (members_of xs) in F. destruct (members_of xs) as [|x [|y r]] eqn:MO; [contradiction| |].
  - rewrite (alone_one bo xs x vs MO) in F. rewrite members_takers, MO in L. unfold takers in L. cbn [filter] in L.
    eapply (expr_bounded x); eauto. destruct (takes x); cbn in L; lia.
  - destruct W as [W _]. apply andb_prop in F as [_ F]. rewrite W in F. cbn [negb orb] in F. apply Nat.eqb_eq in F.
    enough (list_sum (map vals xs) = takers xs) by lia. clear - R W. unfold takers. induction xs as [|x xs IH]; [reflexivity|].
    cbn [forallb map list_sum fold_right filter] in *. apply andb_prop in R as [R1 R2]. apply andb_prop in W as [W1 W2].
    change (fold_right Nat.add 0%nat) with list_sum. rewrite (IH R2 W2), (structy_takes x R1 W1). destruct (takes x); reflexivity.
Qed.

(** ** hint expressions *)
Lemma cond_sound : forall f r e, f o = Ok r -> key_eqb r (VBool true) || key_eqb r (VBool false) = true -> cond_why o f e -> False.
Proof. intros f r e F K W. unfold cond_why in W. rewrite F in W. destruct W as (A & B & _). rewrite A, B in K. discriminate. Qed.
Lemma char_sound : forall a bo vs e ch b, hd_error vs = Some (VBytes b) -> string_chunks hb (mode_of hb bo) a b = Some ch -> char_fits bo a vs = true ->
  char_why bo a (hd_error vs) e -> False.
Proof.
  intros a bo vs e ch b HD C F W. rewrite HD in W. destruct vs as [|v r]; [discriminate|]. injection HD as ->.
  destruct a; cbn [char_why string_chunks char_fits py_len is_bytes full] in *.
  - apply andb_prop in F as [F1 F2]. destruct b as [|x b]; [discriminate|]. cbn [List.length Nat.eqb] in W. rewrite F1 in W. cbn [negb] in W.
    destruct W as [[W|W] _]; [|discriminate]. unfold number, blen in C. destruct (_ <=? greatest c) eqn:Q in C; [|discriminate]. cbn [List.length] in Q. lia.
  - destruct W as (_ & W & _). discriminate.
  - destruct W as [W _]. discriminate.
  - destruct W as [W _]. discriminate.
  - destruct b as [|x b]; [discriminate|]. cbn [List.length Nat.eqb] in W. unfold net_length, blen in C. cbn [List.length] in C.
    destruct (32767 <? Z.of_nat (S (List.length b))) eqn:Q; [|destruct W; discriminate].
    destruct (_ <? 128) eqn:Q1 in C; [lia|]. destruct (_ <=? 32767) eqn:Q2 in C; [lia|discriminate].
Qed.
Lemma items_sound : forall bo y items ls e, regular y = true -> sound y -> omap (fun i => chunks bo y (Some i)) items = Some ls ->
  forallb (fun i => fits bo y [i]) items = true ->
  items_why (fun i => chunks bo y (Some i)) (fun i e => why bo y (Some i) e \/ surplus o y (Some i) e) items e -> False.
Proof.
  intros bo y items. induction items as [|i items IH]; intros ls e R S O F W; [contradiction|]. cbn [omap forallb items_why] in *.
  apply andb_prop in F as [F1 F2]. destruct (chunks bo y (Some i)) as [c|] eqn:C; [|discriminate]. destruct (omap _ items) as [l'|] eqn:OI; [|discriminate].
  destruct W as [[W|(T & _ & W)]|[_ W]].
  - eapply (S bo [i] e c); eauto.
  - eapply (expr_bounded y bo [i]); eauto. rewrite T. cbn. lia.
  - eapply IH; eauto.
Qed.
Lemma pick_sound : forall vs e k m d cs, Forall (fun p => sound (snd p)) m -> (forall y, d = Some y -> sound y) ->
  forallb (fun p => regular (snd p)) m = true -> match d with Some y => regular y | None => true end = true ->
  pick (fun y => chunks BO_DEFAULT y (hd_error vs)) d k m = Some cs -> chosen (fun y => fits BO_DEFAULT y vs) d k m = true ->
  pick_why (fun y => why BO_DEFAULT y (hd_error vs) e \/ surplus o y (hd_error vs) e) d (e = ValueError) k m -> False.
Proof.
  intros vs e k m d cs FM FD RM RD.
  assert (B : forall y c, sound y -> regular y = true -> chunks BO_DEFAULT y (hd_error vs) = Some c -> fits BO_DEFAULT y vs = true ->
    why BO_DEFAULT y (hd_error vs) e \/ surplus o y (hd_error vs) e -> False).
  { intros y c S R C F [W|(T & H & W)]; [eapply S; eauto|]. eapply (expr_bounded y BO_DEFAULT vs); eauto. rewrite T. destruct vs; [now destruct H|cbn; lia]. }
  induction m as [|[k' y] m IH]; cbn [pick chosen pick_why]; intros P C W.
  - destruct d as [y|]; [|discriminate]. eapply B; eauto.
  - inversion FM; subst. cbn [forallb snd] in *. apply andb_prop in RM as [R1 R2]. destruct (key_eqb k k'); [eapply B; eauto|eauto].
Qed.
Theorem expr_sound : forall x, sound x.
Proof.
  induction x using hx_ind'; intros bo vs e ch R C F W; cbn [regular WireSpec.chunks fitting WhySpec.why] in *; try contradiction.
  - destruct vs as [|v r]; [discriminate|]. cbn [hd_error scalar_why] in *. destruct W as [W _]. rewrite W in C. discriminate.
  - destruct W as (NZ & W & _). destruct (n =? 0) eqn:Z0; [lia|]. destruct vs as [|[] r]; cbn in *; discriminate.
  - destruct a; [| |destruct vs as [|[] r]; cbn [hd_error] in *; try discriminate; eapply char_sound; eauto; reflexivity..].
    + destruct vs as [|[] r]; cbn [hd_error] in *; try discriminate. eapply char_sound; eauto. reflexivity.
    + destruct z; [cbn in W; destruct (hd_error vs); destruct W as [W _]; lia|..];
        (destruct vs as [|[] r]; cbn [hd_error] in *; try discriminate; eapply char_sound; eauto; reflexivity).
  - destruct vs as [|[] r]; cbn [hd_error] in *; try discriminate. destruct (cod_enc cd s) as [b|] eqn:CE; [|discriminate].
    destruct (string_chunks hb (machine hb) a b) as [c|] eqn:SC; [|discriminate]. eapply (char_sound a BO_DEFAULT [VBytes b]); eauto. reflexivity.
  - destruct vs as [|v r]; [discriminate|]. cbn [hd_error] in *. apply andb_prop in F as [D F]. destruct (py_iter v) as [items|] eqn:IT; [|discriminate].
    destruct (omap _ items) as [ls|] eqn:OM; [|discriminate].
    destruct W as [W|[W|[W|W]]].
    + destruct x; try contradiction. cbn [decided] in D. destruct (f o) as [q|] eqn:FO; [|discriminate]. eapply cond_sound; eauto.
    + eapply items_sound; eauto.
    + destruct n as [z|c].
      * destruct W as [W _]. destruct (_ =? z) eqn:Q in C; [lia|discriminate].
      * destruct W as [W _]. unfold number in C. destruct (_ <=? greatest c) eqn:Q in C; [lia|discriminate].
    + match type of W with match ?z with _ => _ end => destruct z as [c|] end; [|contradiction]. destruct W as (P & _ & ls' & E & G).
      assert (ls' = ls) as -> by congruence. match type of C with match ?h with _ => _ end = _ => destruct h; [|discriminate] end.
      rewrite P in C. unfold number at 1 in C. destruct (_ <=? greatest c) eqn:Q in C; [lia|discriminate].
  - destruct vs as [|v [|w r]]; [discriminate| |discriminate]. cbn [hd_error] in *. destruct (py_iter v) as [items|] eqn:IT; [|discriminate].
    destruct (members _ l items) as [cs|] eqn:MS; [|discriminate]. destruct W as [W|[L W]].
    + eapply (sum_sound _ BO_DEFAULT l items e cs); eauto.
    + eapply (left_sound BO_DEFAULT); eauto.
  - apply andb_prop in R as [R _]. destruct (f o) as [r|] eqn:FO; [|discriminate]. destruct W as [W|[K W]].
    + eapply cond_sound; eauto. destruct (key_eqb r (VBool true)); [reflexivity|]. destruct (key_eqb r (VBool false)); [reflexivity|discriminate].
    + rewrite K in *. apply andb_prop in F as [D F]. destruct (WireSpec.chunks _ _ _ _ x _) as [cs|] eqn:CX; [|discriminate].
      destruct W as [W|[_ W]]; [eapply IHx; eauto|]. destruct x; try contradiction; discriminate D.
  - eapply IHx; eauto.
  - apply andb_prop in R as [RM RD]. destruct (f o) as [r|]; [|discriminate]. destruct (hashable r); [|discriminate].
    destruct (pick _ d r m) as [cs|] eqn:P; [|discriminate]. eapply pick_sound; eauto.
  - apply andb_prop in R as [RM RD]. destruct (f o) as [r|]; [|discriminate]. destruct (hashable r); [|discriminate].
    destruct (pick _ d r m) as [cs|] eqn:P; [|discriminate]. eapply pick_sound; eauto.
  - unfold class_fits in F. destruct vs as [|[] [|w r]]; try discriminate. cbn [hd_error] in *. apply andb_prop in F as [_ F].
    destruct (rec c0 ov attrs) as [b|] eqn:RC; [|discriminate]. eapply OBJ; eauto.
  - unfold class_fits in F. destruct vs as [|[] [|w r]]; try discriminate. cbn [hd_error] in *. apply andb_prop in F as [_ F].
    destruct (rec c ov attrs) as [b|] eqn:RC; [|discriminate]. eapply OBJ; eauto.
Qed.
End Sound.

(** ** classes *)
Lemma fields_values : forall l d vs, field_values l d = Some vs ->
  forall (f : hx -> option value -> option (list chunk)) w e,
  (fields f l d = members f (map snd l) vs) /\ (fields_why f w l d e -> members_why f w False (map snd l) vs e).
Proof.
  intros l d. unfold field_values. induction l as [|[a x] l IH]; intros vs V f w e; [injection V as <-; split; [reflexivity|auto]|].
  cbn [filter map fst snd fields members fields_why members_why] in *. destruct (takes x) eqn:T.
  - cbn [omap fst] in V. destruct (assoc a d) as [v|]; [|discriminate]. destruct (omap _ _) as [vs'|] eqn:O; [|discriminate]. injection V as <-.
    destruct (IH vs' eq_refl f w e) as [A B]. cbn [hd_error tl]. rewrite A. split; [reflexivity|]. intros [H|[H1 H2]]; [now left|right]. split; [now left|auto].
  - destruct (IH vs V f w e) as [A B]. rewrite A. split; [reflexivity|]. intros [H|[H1 H2]]; [now left|right]. split; [now left|auto].
Qed.
Lemma missing_values : forall l d a x, In (a, x) l -> takes x = true -> assoc a d = None -> field_values l d = None.
Proof.
  intros l d a x. unfold field_values. induction l as [|[b y] l IH]; intros I T A; [contradiction|]. cbn [filter fst snd].
  destruct I as [I|I].
  - injection I as -> ->. rewrite T. cbn [omap fst]. now rewrite A.
  - specialize (IH I T A). destruct (takes y); [|exact IH]. cbn [omap fst]. destruct (assoc b d); [|reflexivity]. now rewrite IH.
Qed.
Theorem why_sound : forall hb allow sl, forallb regular_class sl = true -> forall n c ov d e b,
  wire hb sl n c ov d = Some b -> packable allow sl n c ov d = true -> why_not hb sl n c ov d e -> False.
Proof.
  intros hb allow sl RG n. induction n as [|n IH]; intros c ov d e b W P Y; [discriminate|]. cbn [wire packable why_not] in *.
  destruct (nth_error sl c) as [sc|] eqn:SC; [|discriminate].
  set (bo := match ov with Some bo => bo | None => sc_bo sc end) in *.
  assert (RC : regular_class sc = true) by (rewrite forallb_forall in RG; apply RG; eapply nth_error_In; eauto).
  assert (RX : forallb regular (map snd (fields_of (sc_anns sc))) = true).
  { rewrite forallb_map. unfold regular_class in RC. rewrite forallb_forall in *. intros p I. specialize (RC p I).
    apply andb_prop in RC as [RC _]. now apply andb_prop in RC as [RC _]. }
  destruct (field_values _ d) as [vs|] eqn:V; [|discriminate].
  destruct Y as [(_ & a & I & A)|Y].
  - assert (NV : field_values (fields_of (sc_anns sc)) d = None); [|congruence]. unfold sc_attrs in I. apply filter_In in I as [I _].
    apply in_map_iff in I. destruct I as ([a' x] & E & I). cbn in E. subst a'. apply filter_In in I as [I J]. cbn [snd] in J. apply andb_prop in J as [J1 J2].
    assert (IF : In (a, x) (fields_of (sc_anns sc))) by (unfold fields_of; apply filter_In; auto).
    apply (missing_values _ _ a x IF); [|exact A]. unfold regular_class in RC. rewrite forallb_forall in RC. specialize (RC _ IF). cbn [fst snd] in RC.
    apply andb_prop in RC as [RC _]. apply andb_prop in RC as [_ RC]. destruct (padding x); [discriminate|exact RC].
  - destruct (fields_values _ _ _ V (chunks hb (wire hb sl n) (PO c false d) (mode_of hb bo))
      (slot (map snd (fields_of (sc_anns sc))) (why hb (wire hb sl n) (why_not hb sl n) (PO c false d) bo)) e) as [A B].
    rewrite A in W. destruct (members _ _ vs) as [chs|] eqn:M; [|discriminate].
    refine (sum_sound hb allow (wire hb sl n) (why_not hb sl n) (packable allow sl n) (PO c false d) False bo _ vs e chs _ RX P M (B Y)).
    apply Forall_forall. intros x _. apply expr_sound. exact IH.
Qed.
