(** Facts behind the wire format of class statements (WireSpec.v): what the serializer of a sum of fields writes,
    as a layout of chunks. *)
From Verif Require Import Base Floats Value StructMod Format Ser Exec Pure BaseFacts StructFacts FormatFacts
  SerFacts Leaf Wire Field Fuel DecFacts RoundTrip Adding PropsAdd PropsStrings Hints HintFacts Surface SerShape Programs Accept AcceptProg
  WireSpec.

(** ** layout *)
Fixpoint endof (al : bool) (off : nat) (l : list chunk) : nat :=
  match l with
  | [] => off
  | Atom w b :: l' => let gap := if al then ((w - off mod w) mod w)%nat else 0%nat in
                      endof al (off + gap + List.length b) l'
  | Block b :: l' => endof al 0 l'
  end.
Lemma lay_app : forall al a b off, lay al off (a ++ b) = lay al off a ++ lay al (endof al off a) b.
Proof.
  intros al a b. induction a as [|[w x|x] a IH]; intros off; [reflexivity| |]; cbn [app lay endof]; rewrite IH, !app_assoc; reflexivity.
Qed.

(** ** one struct format as chunks *)
Definition tchunk (m : mode) (t : tok) (vs : list value) : option chunk :=
  match pack_u m 0 (expand_tok t) vs with (b, None) => Some (Atom (csize true (t_code t)) b) | _ => None end.
Fixpoint tchunks (m : mode) (f : fmt) (vs : list value) : option (list chunk) :=
  match f with
  | [] => Some []
  | t :: f' => odo c <- tchunk m t vs; odo cs <- tchunks m f' (skipn (nvals_u (expand_tok t)) vs); Some (c :: cs)
  end.
Definition noalign (u : unit_) : bool := match u with UAlign _ => false | _ => true end.
Lemma pack_noalign : forall m us a b vs, forallb noalign us = true -> pack_u m a us vs = pack_u m b us vs.
Proof.
  intros m. induction us as [|u us IH]; intros a b vs H; [reflexivity|]. cbn in H. apply andb_prop in H as [H1 H2]. cbn [pack_u].
  assert (E : pack_unit m a u vs = pack_unit m b u vs) by (destruct u; try discriminate; reflexivity). rewrite E.
  destruct (pack_unit m b u vs) as [[x vs']|]; [|reflexivity]. now rewrite (IH (a + List.length x)%nat (b + List.length x)%nat).
Qed.
Lemma noalign_repeat : forall u n, noalign u = true -> forallb noalign (repeat u n) = true.
Proof. intros u n H. induction n; cbn; [reflexivity|]. now rewrite H. Qed.
Lemma mod1 : forall off, ((1 - off mod 1) mod 1 = 0)%nat.
Proof. intros. now rewrite !Nat.mod_1_r. Qed.
Lemma pack_tok : forall m t off vs b, pack_u m off (expand_tok t) vs = (b, None) ->
  exists b0, pack_u m 0 (expand_tok t) vs = (b0, None) /\
    b = zeros (if m_native m then ((csize true (t_code t) - off mod csize true (t_code t)) mod csize true (t_code t)) else 0)%nat ++ b0.
Proof.
  intros m t off vs b H.
  assert (D : csize true (t_code t) = 1%nat -> forallb noalign (expand_tok t) = true ->
    exists b0, pack_u m 0 (expand_tok t) vs = (b0, None) /\
    b = zeros (if m_native m then ((csize true (t_code t) - off mod csize true (t_code t)) mod csize true (t_code t)) else 0)%nat ++ b0).
  { intros C N. rewrite C, mod1. exists b. split; [now rewrite (pack_noalign m _ 0 off vs N)|]. destruct (m_native m); reflexivity. }
  destruct t as [k c]. cbn [t_code] in *.
  destruct (match c with Cx | Cs | Cp => true | _ => false end) eqn:E.
  - apply D; destruct c; try discriminate E; try reflexivity. unfold expand_tok. cbn [t_code]. now apply noalign_repeat.
  - clear D. assert (X : expand_tok (T k c) = UAlign c :: repeat (UVal c) (cnt (T k c))) by (destruct c; try discriminate E; reflexivity).
    rewrite X in *. cbn [pack_u pack_unit usize] in *.
    assert (N : forallb noalign (repeat (UVal c) (cnt (T k c))) = true) by now apply noalign_repeat.
    rewrite (padding_aligned m 0 c) by (apply Nat.mod_0_l; pose proof (calign_pos (m_native m) c); lia). cbn [zeros repeat List.length app].
    rewrite (pack_noalign m _ _ 0 vs N) in H. change (0 + 0)%nat with 0%nat.
    destruct (pack_u m 0 (repeat (UVal c) (cnt (T k c))) vs) as [x e]. injection H as <- ->. exists x. split; [reflexivity|].
    f_equal. f_equal. unfold StructMod.padding, calign. destruct (m_native m); [reflexivity|]. now rewrite mod1.
Qed.
Lemma pack_chunks : forall m f off vs b, pack_u m off (expand f) vs = (b, None) ->
  exists chs, tchunks m f vs = Some chs /\ lay (m_native m) off chs = b.
Proof.
  intros m. induction f as [|t f IH]; intros off vs b H.
  - injection H as <-. exists []. split; reflexivity.
  - change (expand (t :: f)) with (expand_tok t ++ expand f) in H. rewrite pack_u_app in H.
    destruct (pack_u m off (expand_tok t) vs) as [x [e|]] eqn:E; [discriminate|].
    destruct (pack_u m (off + List.length x) (expand f) (skipn (nvals_u (expand_tok t)) vs)) as [y e] eqn:E2.
    injection H as <- ->. destruct (IH _ _ _ E2) as (chs & T1 & L1). destruct (pack_tok _ _ _ _ _ E) as (b0 & P0 & ->).
    exists (Atom (csize true (t_code t)) b0 :: chs). split.
    + cbn [tchunks]. unfold tchunk. now rewrite P0, T1.
    + cbn [lay]. rewrite <- L1, app_length, zeros_length, <- app_assoc, Nat.add_assoc. reflexivity.
Qed.
Lemma skipn_skipn' : forall {A} a b (l : list A), skipn a (skipn b l) = skipn (b + a) l.
Proof. intros A a b. induction b; intros l; [reflexivity|]. destruct l; [now rewrite !skipn_nil|]. cbn. apply IHb. Qed.
Lemma nvals_cons : forall t f, nvals (t :: f) = (nvals_u (expand_tok t) + nvals f)%nat.
Proof. intros. unfold nvals. change (expand (t :: f)) with (expand_tok t ++ expand f). apply nvals_u_app. Qed.
Lemma tchunks_app : forall m f g vs, tchunks m (f ++ g) vs =
  odo a <- tchunks m f vs; odo b <- tchunks m g (skipn (nvals f) vs); Some (a ++ b).
Proof.
  intros m f g. induction f as [|t f IH]; intros vs.
  - change (nvals []) with 0%nat. cbn. destruct (tchunks m g vs); reflexivity.
  - cbn [app tchunks]. rewrite IH, nvals_cons, <- skipn_skipn'. destruct (tchunk m t vs); [|reflexivity].
    destruct (tchunks m f _); [|reflexivity]. destruct (tchunks m g _); reflexivity.
Qed.
Lemma tchunk_prefix : forall m t v w, (nvals_u (expand_tok t) <= List.length v)%nat -> tchunk m t (v ++ w) = tchunk m t v.
Proof.
  intros m t v w H. unfold tchunk. rewrite <- (firstn_skipn (nvals_u (expand_tok t)) v), <- app_assoc.
  rewrite !(pack_u_prefix false BO_LE eq_refl m (expand_tok t) 0 (firstn _ v)); auto; rewrite firstn_length; lia.
Qed.
Lemma tchunks_prefix : forall m f v w, (nvals f <= List.length v)%nat -> tchunks m f (v ++ w) = tchunks m f v.
Proof.
  intros m. induction f as [|t f IH]; intros v w H; [reflexivity|]. rewrite nvals_cons in H. cbn [tchunks].
  rewrite tchunk_prefix by lia. rewrite skipn_app.
  replace (nvals_u (expand_tok t) - List.length v)%nat with 0%nat by lia. cbn [skipn].
  rewrite IH by (rewrite skipn_length; lia). reflexivity.
Qed.

(** ** serializers of fields as chunks *)
Section Fo.
Variable hb : bool.
Variable ct : nat -> option cdef.
Variable allow : nat -> nat -> bool.
Variable bo : border.
Let m := mode_of hb bo.
Let al := m_native m.
Variable n : nat.
Variable o : pobj.

Definition fout (s : ser) (vs : list value) (chs : list chunk) : Prop :=
  match s with
  | SNull => chs = []
  | SStruct st => List.length vs = ss_nvals st /\ tchunks m (s_fmt st) vs = Some chs
  | _ => exists b, penc hb ct allow n s o vs = Ok b /\ chs = [Block b]
  end.
Inductive fo : list ser -> list value -> list chunk -> Prop :=
| fo_nil : forall vs, fo [] vs []
| fo_cons : forall s l vs c cs, fout s (firstn (num_values s) vs) c -> fo l (skipn (num_values s) vs) cs ->
    fo (s :: l) vs (c ++ cs).
Definition sbo (s : ser) : Prop := match s with SStruct st => s_bo st = bo | _ => True end.

Lemma est_fout : forall st vs b, s_bo st = bo -> est hb st vs = Ok b ->
  exists chs, fout (SStruct st) vs chs /\ lay al 0 chs = b.
Proof.
  intros st vs b B E. unfold est, st_pack, ss_mode in E. rewrite B in E. fold m in E.
  destruct (Nat.eqb (List.length vs) (nvals (s_fmt st))) eqn:L; [|discriminate]. apply Nat.eqb_eq in L.
  destruct (pack_u m 0 (expand (s_fmt st)) vs) as [x [e|]] eqn:P; [discriminate|]. injection E as <-.
  destruct (pack_chunks _ _ _ _ _ P) as (chs & A & C). exists chs. split; [|exact C]. split; [exact L|exact A].
Qed.
Lemma penc_fout : forall s vs b, sbo s -> penc hb ct allow n s o vs = Ok b ->
  exists chs, fout s vs chs /\ lay al 0 chs = b.
Proof.
  intros s vs b B E.
  assert (D : exists chs, (exists b, penc hb ct allow n s o vs = Ok b /\ chs = [Block b]) /\ lay al 0 chs = b).
  { exists [Block b]. split; [eauto|]. cbn. now rewrite app_nil_r. }
  destruct s; try exact D.
  - exists []. split; [reflexivity|]. unfold penc in E. cbn [resolve rbind] in E. destruct n; [discriminate|]. cbn in E. now injection E.
  - unfold penc in E. cbn [resolve rbind] in E. destruct n as [|n']; [discriminate|]. cbn [enc enc_step] in E. now apply est_fout.
Qed.

Lemma fo_step : forall a c vs chs, Adding.step a c -> fo c vs chs -> fo a vs chs.
Proof.
  intros a c vs chs S. revert vs chs. destruct S as [q r|q x y r].
  - induction q as [|s q IH]; intros vs chs F; cbn [app] in *.
    + change chs with ([] ++ chs). constructor; [reflexivity|exact F].
    + inversion F; subst. constructor; auto.
  - induction q as [|s q IH]; intros vs chs F; cbn [app] in *.
    + inversion F as [|? ? ? c1 cs G1 G2]; subst. cbn [num_values fout] in *. rewrite glue_nvals in *. destruct G1 as [L T1].
      unfold glue in T1. cbn [s_fmt] in T1. rewrite tchunks_app in T1. rewrite firstn_length in L.
      set (v := firstn (ss_nvals x + ss_nvals y) vs) in *.
      assert (V1 : firstn (ss_nvals x) v = firstn (ss_nvals x) vs) by (unfold v; rewrite firstn_firstn; f_equal; lia).
      assert (V2 : skipn (ss_nvals x) v = firstn (ss_nvals y) (skipn (ss_nvals x) vs)).
      { unfold v. rewrite firstn_skipn_comm. reflexivity. }
      destruct (tchunks m (s_fmt x) v) as [ca|] eqn:A; [|discriminate].
      change (nvals (s_fmt x)) with (ss_nvals x) in T1. rewrite V2 in T1.
      destruct (tchunks m (s_fmt y) _) as [cb|] eqn:B; [|discriminate]. injection T1 as <-. rewrite <- app_assoc.
      constructor; [|constructor].
      * cbn [fout num_values]. split; [rewrite firstn_length; lia|]. rewrite <- V1.
        rewrite <- A. rewrite <- (firstn_skipn (ss_nvals x) v) at 2. symmetry. apply tchunks_prefix.
        rewrite V1, firstn_length. unfold ss_nvals in *. lia.
      * cbn [fout num_values]. split; [rewrite firstn_length, skipn_length; lia|exact B].
      * cbn [num_values]. rewrite skipn_skipn'. exact G2.
    + inversion F; subst. constructor; auto.
Qed.
Lemma fo_steps : forall a c vs chs, Adding.steps a c -> fo c vs chs -> fo a vs chs.
Proof. intros a c vs chs S. induction S; intros F; [exact F|]. eapply fo_step; eauto. Qed.

(** no two struct serializers next to each other *)
Fixpoint alt (p : list ser) : bool :=
  match p with SStruct _ :: (SStruct _ :: _) => false | _ :: p' => alt p' | [] => true end.
Definition is_struct (s : ser) : bool := match s with SStruct _ => true | _ => false end.
Lemma alt_snoc : forall p s, alt p = true -> is_struct s = false \/ (forall q x, split_last p = Some (q, x) -> is_struct x = false) ->
  alt (p ++ [s]) = true.
Proof.
  induction p as [|a p IH]; intros s A H.
  - cbn. destruct s; reflexivity.
  - destruct p as [|b p].
    + cbn. destruct H as [H|H].
      * destruct a, s; try reflexivity; discriminate.
      * specialize (H [] a eq_refl). destruct a, s; try reflexivity; discriminate.
    + assert (A' : alt (b :: p) = true) by (destruct a, b; cbn in *; auto; discriminate).
      specialize (IH s A'). assert (R : alt ((b :: p) ++ [s]) = true).
      { apply IH. destruct H as [H|H]; [now left|]. right. intros q x E. apply (H (a :: q) x).
        cbn [split_last] in *. rewrite E. reflexivity. }
      cbn [app] in *. destruct a, b; cbn [alt] in *; auto; discriminate.
Qed.
Lemma alt_last : forall p x y, alt (p ++ [SStruct x]) = true -> alt (p ++ [SStruct y]) = true.
Proof.
  induction p as [|a p IH]; intros x y A; [reflexivity|]. destruct p as [|b p].
  - destruct a; cbn in *; auto.
  - assert (A' : alt ((b :: p) ++ [SStruct x]) = true) by (cbn [app] in *; destruct a, b; cbn [alt] in *; auto; discriminate).
    specialize (IH x y A'). cbn [app] in *. destruct a, b; cbn [alt] in *; auto; discriminate.
Qed.
Lemma push_alt : forall p s, alt p = true -> alt (push p s) = true.
Proof.
  intros p s A. destruct s; cbn [push]; try (apply alt_snoc; [exact A|left; reflexivity]).
  - exact A.
  - destruct (split_last p) as [[q x]|] eqn:E.
    + destruct (is_struct x) eqn:X.
      * destruct x; try discriminate. apply split_last_some in E as ->. eapply alt_last; exact A.
      * assert (R : alt (p ++ [SStruct st]) = true) by (apply alt_snoc; [exact A|right; intros ? ? Q; congruence]).
        destruct x; try exact R. discriminate.
    + apply alt_snoc; [exact A|]. right. intros ? ? Q. congruence.
Qed.
Lemma runs_alt : forall l, alt (runs l) = true.
Proof.
  intros l. unfold runs. assert (G : forall p, alt p = true -> alt (fold_left push l p) = true).
  { induction l; intros p A; [exact A|]. cbn. apply IHl. now apply push_alt. }
  now apply G.
Qed.
Lemma push_sbo : forall p s, Forall sbo p -> sbo s -> Forall sbo (push p s).
Proof.
  intros p s F S. assert (D : Forall sbo (p ++ [s])) by (apply Forall_app; auto).
  destruct s; cbn [push]; try exact D; [exact F|]. destruct (split_last p) as [[q x]|] eqn:E; [|exact D].
  destruct x; try exact D. apply split_last_some in E as ->. apply Forall_app in F as [F1 F2]. apply Forall_app. split; [exact F1|].
  inversion F2; subst. constructor; auto.
Qed.
Lemma runs_forall : forall (P : ser -> Prop) l, (forall p s, Forall P p -> P s -> Forall P (push p s)) -> Forall P l -> Forall P (runs l).
Proof.
  intros P l H F. unfold runs. assert (G : forall p, Forall P p -> Forall P (fold_left push l p)).
  { induction F; intros p A; [exact A|]. cbn. apply IHF. now apply H. }
  apply G. constructor.
Qed.
Lemma push_cond : forall p s, Forall cond_ok p -> cond_ok s -> Forall cond_ok (push p s).
Proof.
  intros p s F S. assert (D : Forall cond_ok (p ++ [s])) by (apply Forall_app; auto).
  destruct s; cbn [push]; try exact D; [exact F|]. destruct (split_last p) as [[q x]|] eqn:E; [|exact D].
  destruct x; try exact D. apply split_last_some in E as ->. apply Forall_app in F as [F1 F2]. apply Forall_app. split; [exact F1|].
  constructor; [exact I|constructor].
Qed.

Lemma runs_fo : forall p vs b, alt p = true -> Forall sbo p -> Forall cond_ok p -> Forall (fun s => s <> SNull) p ->
  enc_subs (enc hb ct allow n) (Some o) o p vs = Ok b ->
  exists chs, fo p vs chs /\
    forall off, (match p with SStruct _ :: _ => off = 0%nat | _ => True end) -> lay al off chs = b.
Proof.
  induction p as [|s p IH]; intros vs b A B C N E.
  - injection E as <-. exists []. split; [constructor|reflexivity].
  - inversion B; subst. inversion C; subst. inversion N; subst. cbn [enc_subs oresolve octx] in E.
    destruct (resolve true s o) as [s'|] eqn:R; [|discriminate]. cbn [rbind] in E.
    rewrite (resolve_nv' _ _ _ _ H3 R) in E.
    destruct (enc hb ct allow n s' o (firstn (num_values s) vs)) as [b1|] eqn:E1; [|discriminate]. cbn [rbind] in E.
    destruct (enc_subs _ _ _ p _) as [b2|] eqn:E2; [|discriminate]. injection E as <-.
    assert (P : penc hb ct allow n s o (firstn (num_values s) vs) = Ok b1) by (unfold penc; now rewrite R).
    assert (A' : alt p = true) by (destruct s, p as [|[] ?]; cbn in *; auto; discriminate).
    destruct (IH _ _ A' H2 H4 H6 E2) as (cs & F2 & L2).
    destruct (is_struct s) eqn:IS.
    + destruct s; try discriminate. destruct (penc_fout (SStruct st) _ _ H1 P) as (c & F1 & L1).
      exists (c ++ cs). split; [now constructor|]. intros off ->. rewrite lay_app, L1, L2; [reflexivity|].
      destruct p as [|[] ?]; cbn in A; auto; discriminate.
    + assert (F1 : fout s (firstn (num_values s) vs) [Block b1]).
      { destruct s; try discriminate; try congruence; cbn [fout]; eauto. }
      exists ([Block b1] ++ cs). split; [now constructor|]. intros off _. cbn [app lay]. rewrite L2; [reflexivity|].
      destruct p as [|[] ?]; auto.
Qed.
Theorem sum_fo : forall l vs b, Forall sbo l -> Forall cond_ok l -> Forall atom (runs l) ->
  enc_subs (enc hb ct allow n) (Some o) o (runs l) vs = Ok b ->
  exists chs, fo l vs chs /\ lay al 0 chs = b.
Proof.
  intros l vs b B C AT E.
  assert (N : Forall (fun s => s <> SNull) (runs l)) by (eapply Forall_impl; [|exact AT]; intros s [_ Q]; exact Q).
  destruct (runs_fo _ _ _ (runs_alt l) (runs_forall sbo l push_sbo B) (runs_forall cond_ok l push_cond C) N E) as (chs & F & L).
  exists chs. split; [eapply fo_steps; [apply runs_steps|exact F]|]. apply L. destruct (runs l) as [|[] ?]; auto.
Qed.
End Fo.

(** ** formats as chunks *)
Section Leaves.
Variable hb : bool.
Variable bo : border.
Let m := mode_of hb bo.
Let al := m_native m.

Lemma est_chunks : forall st f vs b, s_bo st = bo -> layout_eq (expand (s_fmt st)) (expand f) -> est hb st vs = Ok b ->
  List.length vs = nvals f /\ exists chs, tchunks m f vs = Some chs /\ lay al 0 chs = b.
Proof.
  intros st f vs b B L E. unfold est, ss_mode in E. rewrite B in E. fold m in E.
  destruct (layout_st _ _ L) as [_ H]. destruct (H m) as (_ & P & _). rewrite P in E. clear H P L.
  apply st_pack_inv in E as [LN E]. split; [exact LN|]. now apply pack_chunks.
Qed.
Lemma tok_num : forall c vs a, size_code c = true -> tchunk m (T None c) vs = Some a ->
  exists v r z, vs = v :: r /\ as_index v = Some z /\ 0 <= z <= greatest c /\ a = Atom (wsize c) (uint_bytes (m_big m) (wsize c) z).
Proof.
  intros c vs a S H. unfold tchunk in H.
  assert (X : expand_tok (T None c) = [UAlign c; UVal c]) by (destruct c; try discriminate S; reflexivity).
  rewrite X in H. cbn [pack_u pack_unit usize] in H. cbv beta iota in H.
  rewrite (padding_aligned m 0 c) in H by (apply Nat.mod_0_l; pose proof (calign_pos (m_native m) c); lia).
  cbn [zeros repeat List.length app] in H.
  destruct vs as [|v r]; [discriminate|]. unfold pack_val in H.
  assert (I : int_code c = Some false) by (destruct c; try discriminate S; reflexivity). rewrite I in H.
  assert (W : csize (m_native m) c = wsize c /\ csize true c = wsize c) by (destruct c; try discriminate S; split; reflexivity).
  destruct W as [W1 W2]. rewrite W1 in H. cbn [t_code] in H. rewrite W2 in H.
  destruct (as_index v) as [z|] eqn:A; [|discriminate].
  destruct (in_range false (wsize c) z) eqn:R; [|discriminate]. cbn [rbind] in H. injection H as <-.
  exists v, r, z. split; [reflexivity|]. split; [exact A|]. split.
  - unfold in_range in R. destruct c; try discriminate S; cbn [wsize greatest] in *;
      match type of R with context [2 ^ ?e] => let k := eval vm_compute in (2 ^ e) in change (2 ^ e) with k in R end; lia.
  - now rewrite app_nil_r, int_enc_bytes.
Qed.
Lemma tok_scalar : forall c v r a, basic_code c = true -> tchunk m (T None c) (v :: r) = Some a ->
  exists b, scalar m c v = Some b /\ a = Atom (wsize c) b.
Proof.
  intros c v r a S H. unfold tchunk in H.
  assert (X : expand_tok (T None c) = [UAlign c; UVal c]) by (destruct c; try discriminate S; reflexivity).
  rewrite X in H. cbn [pack_u pack_unit usize] in H. cbv beta iota in H.
  rewrite (padding_aligned m 0 c) in H by (apply Nat.mod_0_l; pose proof (calign_pos (m_native m) c); lia).
  cbn [zeros repeat List.length app] in H. cbn [t_code] in H.
  destruct (pack_val m c v) as [b|] eqn:P; [|discriminate]. cbn [rbind] in H. injection H as <-. rewrite app_nil_r.
  exists b. split; [|f_equal; destruct c; try discriminate S; reflexivity].
  destruct (int_code c) as [sg|] eqn:I.
  - unfold pack_val in P. rewrite I in P.
    assert (W1 : csize (m_native m) c = wsize c) by (destruct c; try discriminate S; try discriminate I; reflexivity).
    rewrite W1 in P. destruct (as_index v) as [z|] eqn:A; [|discriminate].
    destruct (in_range sg (wsize c) z) eqn:R; [|discriminate]. injection P as <-. rewrite int_enc_bytes.
    assert (Q : ((least c <=? z) && (z <=? greatest c))%bool = true).
    { unfold in_range in R. destruct c; try discriminate S; try discriminate I; injection I as <-; cbn [wsize least greatest] in *;
      match type of R with context [2 ^ ?e] => let k := eval vm_compute in (2 ^ e) in change (2 ^ e) with k in R end; lia. }
    destruct c; try discriminate S; try discriminate I; unfold scalar; rewrite A, Q; reflexivity.
  - destruct c; try discriminate S; try discriminate I; unfold pack_val in P; unfold scalar; cbn [int_code] in P.
    + injection P as <-. reflexivity.
    + destruct (as_float v); [|discriminate]. destruct (narrow 5 10 z); [|discriminate]. injection P as <-. now rewrite int_enc_bytes.
    + destruct (as_float v); [|discriminate]. destruct (narrow 8 23 z).
      * injection P as <-. now rewrite int_enc_bytes.
      * destruct (m_native m); [|discriminate]. injection P as <-. now rewrite int_enc_bytes.
    + destruct (as_float v); [|discriminate]. injection P as <-. now rewrite int_enc_bytes.
Qed.
Lemma tchunks1 : forall t vs chs, tchunks m [t] vs = Some chs -> exists a, tchunk m t vs = Some a /\ chs = [a].
Proof. intros t vs chs H. cbn in H. destruct (tchunk m t vs); [|discriminate]. injection H as <-. eauto. Qed.
Lemma tok_num1 : forall c z a r, size_code c = true -> tchunk m (T None c) (VInt z :: r) = Some a -> number m c z = Some [a].
Proof.
  intros c z a r S H. destruct (tok_num c _ _ S H) as (v & r' & z' & E & A & R & ->). injection E as <- <-.
  injection A as <-. unfold number. destruct (z <=? greatest c) eqn:Q; [reflexivity|lia].
Qed.
Lemma pads : forall k off vs, pack_u m off (repeat UPad k) vs = (zeros k, None).
Proof.
  induction k; intros off vs; [reflexivity|]. cbn [repeat pack_u pack_unit usize zeros List.length app].
  rewrite IHk. reflexivity.
Qed.
End Leaves.
