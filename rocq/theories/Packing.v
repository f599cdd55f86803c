(** Instances with a layout (WireSpec.v) that fit (PackSpec.v) can be packed. *)
From Verif Require Import Base Floats Value StructMod Format Ser Exec Pure BaseFacts StructFacts FormatFacts
  SerFacts Leaf Wire Field Fuel DecFacts RoundTrip Adding PropsAdd PropsStrings Hints HintFacts Surface SerShape Programs Accept AcceptProg
  WireSpec WireFacts Wires PackSpec Packable.

(** ** formats *)
Lemma tok_pack : forall m t off vs b0, pack_u m 0 (expand_tok t) vs = (b0, None) ->
  pack_u m off (expand_tok t) vs =
  (zeros (if m_native m then ((csize true (t_code t) - off mod csize true (t_code t)) mod csize true (t_code t)) else 0)%nat ++ b0, None).
Proof.
  intros m t off vs b0 H.
  assert (D : csize true (t_code t) = 1%nat -> forallb noalign (expand_tok t) = true ->
    pack_u m off (expand_tok t) vs =
    (zeros (if m_native m then ((csize true (t_code t) - off mod csize true (t_code t)) mod csize true (t_code t)) else 0)%nat ++ b0, None)).
  { intros C N. rewrite C, mod1. rewrite (pack_noalign m _ off 0 vs N), H. destruct (m_native m); reflexivity. }
  destruct t as [k c]. cbn [t_code] in *.
  destruct (match c with Cx | Cs | Cp => true | _ => false end) eqn:E.
  - apply D; destruct c; try discriminate E; try reflexivity. unfold expand_tok. cbn [t_code]. now apply noalign_repeat.
  - clear D. assert (X : expand_tok (T k c) = UAlign c :: repeat (UVal c) (cnt (T k c))) by (destruct c; try discriminate E; reflexivity).
    rewrite X in *. cbn [pack_u pack_unit usize] in *.
    assert (N : forallb noalign (repeat (UVal c) (cnt (T k c))) = true) by now apply noalign_repeat.
    rewrite (padding_aligned m 0 c) in H by (apply Nat.mod_0_l; pose proof (calign_pos (m_native m) c); lia). cbn [zeros repeat List.length app] in H.
    change (0 + 0)%nat with 0%nat in H. rewrite (pack_noalign m _ _ 0 vs N).
    destruct (pack_u m 0 (repeat (UVal c) (cnt (T k c))) vs) as [x e]. injection H as <- ->. do 3 f_equal.
    unfold StructMod.padding, calign. destruct (m_native m); [reflexivity|]. now rewrite mod1.
Qed.
Lemma chunks_pack : forall m f off vs chs, tchunks m f vs = Some chs -> pack_u m off (expand f) vs = (lay (m_native m) off chs, None).
Proof.
  intros m. induction f as [|t f IH]; intros off vs chs H.
  - injection H as <-. reflexivity.
  - cbn [tchunks] in H. unfold tchunk in H. destruct (pack_u m 0 (expand_tok t) vs) as [b0 [e|]] eqn:E; [discriminate|].
    destruct (tchunks m f _) as [cs|] eqn:E2; [|discriminate]. injection H as <-.
    change (expand (t :: f)) with (expand_tok t ++ expand f). rewrite pack_u_app, (tok_pack m t off vs b0 E), (IH _ _ _ E2).
    cbn [lay]. rewrite app_length, zeros_length, <- app_assoc, Nat.add_assoc. reflexivity.
Qed.
Section Leaves.
Variable hb : bool.
Variable bo : border.
Let m := mode_of hb bo.
Let al := m_native m.
Lemma chunks_est : forall st f vs chs, s_bo st = bo -> layout_eq (expand (s_fmt st)) (expand f) -> List.length vs = nvals f ->
  tchunks m f vs = Some chs -> est hb st vs = Ok (lay al 0 chs).
Proof.
  intros st f vs chs B L LN H. unfold est, ss_mode. rewrite B. fold m. destruct (layout_st _ _ L) as [_ Q]. destruct (Q m) as (_ & P & _).
  rewrite P. unfold st_pack. rewrite LN, Nat.eqb_refl, (chunks_pack m f 0 vs chs H). reflexivity.
Qed.
Lemma num_tok : forall c z r, size_code c = true -> 0 <= z <= greatest c ->
  tchunk m (T None c) (VInt z :: r) = Some (Atom (wsize c) (uint_bytes (m_big m) (wsize c) z)).
Proof.
  intros c z r S R. unfold tchunk.
  assert (X : expand_tok (T None c) = [UAlign c; UVal c]) by (destruct c; try discriminate S; reflexivity).
  rewrite X. cbn [pack_u pack_unit usize]. cbv beta iota.
  rewrite (padding_aligned m 0 c) by (apply Nat.mod_0_l; pose proof (calign_pos (m_native m) c); lia).
  cbn [zeros repeat List.length app]. unfold pack_val.
  assert (I : int_code c = Some false) by (destruct c; try discriminate S; reflexivity). rewrite I.
  assert (W : csize (m_native m) c = wsize c /\ csize true c = wsize c) by (destruct c; try discriminate S; split; reflexivity).
  destruct W as [W1 W2]. rewrite W1. cbn [t_code]. rewrite W2. cbn [as_index].
  assert (IR : in_range false (wsize c) z = true).
  { unfold in_range. destruct c; try discriminate S; cbn [wsize greatest] in *;
      match goal with |- context [2 ^ ?e] => let k := eval vm_compute in (2 ^ e) in change (2 ^ e) with k end; lia. }
  rewrite IR. cbn [rbind]. now rewrite app_nil_r, int_enc_bytes.
Qed.
Lemma number_tok : forall c z r h, size_code c = true -> 0 <= z -> number m c z = Some h ->
  exists a, h = [a] /\ tchunk m (T None c) (VInt z :: r) = Some a.
Proof.
  intros c z r h S Z H. unfold number in H. destruct (z <=? greatest c) eqn:Q; [|discriminate]. injection H as <-.
  eexists. split; [reflexivity|]. apply num_tok; [exact S|lia].
Qed.
Lemma scalar_tok : forall c v r b, basic_code c = true -> scalar m c v = Some b -> tchunk m (T None c) (v :: r) = Some (Atom (wsize c) b).
Proof.
  intros c v r b S H. unfold tchunk.
  assert (X : expand_tok (T None c) = [UAlign c; UVal c]) by (destruct c; try discriminate S; reflexivity).
  rewrite X. cbn [pack_u pack_unit usize]. cbv beta iota.
  rewrite (padding_aligned m 0 c) by (apply Nat.mod_0_l; pose proof (calign_pos (m_native m) c); lia).
  cbn [zeros repeat List.length app]. cbn [t_code].
  assert (W : csize true c = wsize c) by (destruct c; try discriminate S; reflexivity). rewrite W.
  assert (P : pack_val m c v = Ok b).
  { destruct (int_code c) as [sg|] eqn:I.
    - unfold pack_val. rewrite I.
      assert (W1 : csize (m_native m) c = wsize c) by (destruct c; try discriminate S; try discriminate I; reflexivity). rewrite W1.
      assert (H' : match as_index v with Some z => if (least c <=? z) && (z <=? greatest c) then Some (uint_bytes (m_big m) (wsize c) z) else None | None => None end = Some b)
        by (destruct c; try discriminate S; try discriminate I; exact H).
      destruct (as_index v) as [z|]; [|discriminate]. destruct ((least c <=? z) && (z <=? greatest c)) eqn:Q; [|discriminate]. injection H' as <-.
      assert (IR : in_range sg (wsize c) z = true).
      { unfold in_range. destruct c; try discriminate S; try discriminate I; injection I as <-; cbn [wsize least greatest] in *;
        match goal with |- context [2 ^ ?e] => let k := eval vm_compute in (2 ^ e) in change (2 ^ e) with k end; lia. }
      now rewrite IR, int_enc_bytes.
    - destruct c; try discriminate S; try discriminate I; unfold scalar in H; unfold pack_val; cbn [int_code].
      + injection H as <-. reflexivity.
      + destruct (as_float v); [|discriminate]. destruct (narrow 5 10 z); [|discriminate]. injection H as <-. now rewrite int_enc_bytes.
      + destruct (as_float v); [|discriminate]. destruct (narrow 8 23 z).
        * injection H as <-. now rewrite int_enc_bytes.
        * destruct (m_native m); [|discriminate]. injection H as <-. now rewrite int_enc_bytes.
      + destruct (as_float v); [|discriminate]. injection H as <-. now rewrite int_enc_bytes. }
  rewrite P. cbn [rbind]. now rewrite app_nil_r.
Qed.
End Leaves.
(** ** sums *)
Section Fo.
Variable hb : bool.
Variable ct : nat -> option cdef.
Variable allow : nat -> nat -> bool.
Variable bo : border.
Let m := mode_of hb bo.
Let al := m_native m.
Variable o : pobj.
Lemma penc_le : forall n n' s vs b, (n <= n')%nat -> penc hb ct allow n s o vs = Ok b -> penc hb ct allow n' s o vs = Ok b.
Proof.
  intros n n' s vs b L H. unfold penc in *. destruct (resolve true s o) as [s'|]; [|discriminate]. cbn [rbind] in *.
  eapply rle_ok; [apply enc_le; exact L|exact H].
Qed.
Lemma fout_le : forall n n' s vs ch, (n <= n')%nat -> fout hb ct allow bo n o s vs ch -> fout hb ct allow bo n' o s vs ch.
Proof.
  intros n n' s vs ch L H. destruct s; cbn [fout] in *; try exact H; destruct H as (b & P & ->); exists b; (split; [|reflexivity]); eapply penc_le; eauto.
Qed.
Lemma fo_le : forall n n' l vs ch, (n <= n')%nat -> fo hb ct allow bo n o l vs ch -> fo hb ct allow bo n' o l vs ch.
Proof. intros n n' l vs ch L H. induction H; constructor; eauto using fout_le. Qed.
Lemma step_fo : forall n a c vs chs, Adding.step a c -> fo hb ct allow bo n o a vs chs -> fo hb ct allow bo n o c vs chs.
Proof.
  intros n a c vs chs S. revert vs chs. destruct S as [q r|q x y r].
  - induction q as [|s q IH]; intros vs chs F; cbn [app] in *.
    + inversion F as [|? ? ? c1 cs F1 F2]; subst. cbn [fout] in F1. subst c1. exact F2.
    + inversion F; subst. constructor; auto.
  - induction q as [|s q IH]; intros vs chs F; cbn [app] in *.
    + inversion F as [|? ? ? c1 cs1 F1 F2]; subst. inversion F2 as [|? ? ? c2 cs2 F3 F4]; subst. cbn [num_values fout] in *. destruct F1 as [L1 T1], F3 as [L2 T2].
      rewrite app_assoc. rewrite skipn_skipn' in F4. rewrite <- glue_nvals in F4. constructor; [|exact F4]. cbn [num_values fout].
      rewrite firstn_length in L1. rewrite firstn_length, skipn_length in L2. rewrite glue_nvals. split; [rewrite firstn_length; lia|].
      unfold glue. cbn [s_fmt]. rewrite tchunks_app.
      set (v := firstn (ss_nvals x + ss_nvals y) vs).
      assert (V1 : firstn (ss_nvals x) v = firstn (ss_nvals x) vs) by (unfold v; rewrite firstn_firstn; f_equal; lia).
      assert (V2 : skipn (ss_nvals x) v = firstn (ss_nvals y) (skipn (ss_nvals x) vs)) by (unfold v; now rewrite firstn_skipn_comm).
      change (nvals (s_fmt x)) with (ss_nvals x). rewrite V2, T2.
      assert (Q : tchunks (mode_of hb bo) (s_fmt x) v = Some c1).
      { rewrite <- (firstn_skipn (ss_nvals x) v), V1. rewrite tchunks_prefix; [exact T1|]. rewrite firstn_length. unfold ss_nvals in *. lia. }
      now rewrite Q.
    + inversion F; subst. constructor; auto.
Qed.
Lemma steps_fo : forall n a c vs chs, Adding.steps a c -> fo hb ct allow bo n o a vs chs -> fo hb ct allow bo n o c vs chs.
Proof. intros n a c vs chs S. induction S; intros F; [exact F|]. apply IHS. eapply step_fo; eauto. Qed.
Lemma fo_runs : forall n p vs chs, alt p = true -> Forall (sbo bo) p -> Forall cond_ok p -> Forall (fun s => s <> SNull) p ->
  fo hb ct allow bo (S n) o p vs chs -> forall off, (match p with SStruct _ :: _ => off = 0%nat | _ => True end) ->
  enc_subs (enc hb ct allow (S n)) (Some o) o p vs = Ok (lay al off chs).
Proof.
  intros n. induction p as [|s p IH]; intros vs chs A B C NN F off OFF.
  - inversion F. reflexivity.
  - inversion B as [|? ? B1 B2]; subst. inversion C as [|? ? C1 C2]; subst. inversion NN as [|? ? N1 N2]; subst.
    inversion F as [|? ? ? c cs F1 F2]; subst.
    assert (A' : alt p = true) by (destruct s, p as [|[] ?]; cbn in *; auto; discriminate).
    cbn [enc_subs oresolve octx]. destruct (is_struct s) eqn:IS.
    + destruct s; try discriminate IS. subst off. cbn [resolve rbind num_values fout] in *. destruct F1 as [L1 T1].
      change (enc hb ct allow (S n) (SStruct st) o (firstn (ss_nvals st) vs)) with (est hb st (firstn (ss_nvals st) vs)). unfold sbo in B1. rewrite (chunks_est hb bo st (s_fmt st) _ c B1 (layout_eq_refl _) L1 T1). cbn [rbind].
      rewrite (IH _ _ A' B2 C2 N2 F2 (endof al 0 c)); [|destruct p as [|[] ?]; cbn in A; auto; discriminate].
      cbn [rbind]. unfold al, m. now rewrite lay_app.
    + assert (F1' : exists b, penc hb ct allow (S n) s o (firstn (num_values s) vs) = Ok b /\ c = [Block b])
        by (destruct s; try discriminate IS; try congruence; exact F1).
      destruct F1' as (b & P & ->). unfold penc in P. destruct (resolve true s o) as [s'|] eqn:R; [|discriminate]. cbn [rbind] in *.
      rewrite (resolve_nv' _ _ _ _ C1 R), P. cbn [rbind]. rewrite (IH _ _ A' B2 C2 N2 F2 0%nat); [reflexivity|]. destruct p as [|[] ?]; auto.
Qed.
Theorem fo_sum : forall n l vs chs, Forall (sbo bo) l -> Forall cond_ok l -> Forall atom (runs l) ->
  fo hb ct allow bo (S n) o l vs chs -> enc_subs (enc hb ct allow (S n)) (Some o) o (runs l) vs = Ok (lay al 0 chs).
Proof.
  intros n l vs chs B C AT F.
  assert (NN : Forall (fun s => s <> SNull) (runs l)) by (eapply Forall_impl; [|exact AT]; intros s [_ Q]; exact Q).
  apply (fo_runs n (runs l) vs chs); auto.
  - apply runs_alt.
  - exact (runs_forall (sbo bo) l (push_sbo bo) B).
  - exact (runs_forall cond_ok l push_cond C).
  - exact (steps_fo (S n) _ _ _ _ (runs_steps l) F).
  - destruct (runs l) as [|[] ?]; auto.
Qed.
(** a field alone *)
Lemma fout_penc : forall n s vs ch, sbo bo s -> fout hb ct allow bo (S n) o s vs ch -> penc hb ct allow (S n) s o vs = Ok (lay al 0 ch).
Proof.
  intros n s vs ch B F.
  assert (D : (exists b, penc hb ct allow (S n) s o vs = Ok b /\ ch = [Block b]) -> penc hb ct allow (S n) s o vs = Ok (lay al 0 ch)).
  { intros (b & P & ->). cbn. now rewrite app_nil_r. }
  destruct s; try (exact (D F)).
  - cbn [fout] in F. subst ch. reflexivity.
  - cbn [fout] in F. destruct F as [L T1]. unfold penc. cbn [resolve rbind enc enc_step].
    exact (chunks_est hb bo st (s_fmt st) vs ch B (layout_eq_refl _) L T1).
Qed.
End Fo.

(** ** hint expressions *)
Section Send.
Variable hb : bool.
Variable ct : nat -> option cdef.
Variable allow : nat -> nat -> bool.
Variable rec : nat -> option border -> list (string * value) -> option bytes.
Variable fit : nat -> option border -> list (string * value) -> bool.
Hypothesis OB : forall c ov d b, rec c ov d = Some b -> fit c ov d = true ->
  exists n, enc_obj_step ct (enc hb ct allow n) c ov d = Ok b.
Variable o : pobj.
Local Notation fits := (fitting allow fit o).
Local Notation out bo := (chunks hb rec o (mode_of hb bo)).
Definition sent (x : hx) : Prop := forall bo s vs ch, made bo x s -> regular x = true -> fits bo x vs = true ->
  out bo x (hd_error vs) = Some ch -> exists n, fout hb ct allow bo n o s vs ch.

Lemma struct_sent : forall x bo st vs ch, made bo x (SStruct st) -> fits bo x vs = true -> out bo x (hd_error vs) = Some ch ->
  List.length vs = ss_nvals st /\ tchunks (mode_of hb bo) (s_fmt st) vs = Some ch.
Proof.
  clear OB.
  assert (ONE : forall {A} (l : list A), Nat.eqb (List.length l) 1 = true -> exists v, l = [v]).
  { intros A l H. destruct l as [|v [|]]; try discriminate. eauto. }
  induction x using hx_ind'; intros bo st vs ch M F HC; cbn [made] in M; try contradiction; try (destruct M as (? & Q & _); discriminate Q); cbn [fitting chunks] in *.
  - destruct M as [A E]. injection E as ->. destruct (ONE _ _ F) as [v ->]. cbn [hd_error] in HC.
    destruct (scalar (mode_of hb bo) c v) as [b|] eqn:SC; [|discriminate]. injection HC as <-.
    split; [destruct c; try discriminate A; reflexivity|]. cbn [s_fmt tchunks]. now rewrite (scalar_tok hb bo c v [] b A SC).
  - unfold counted in M. destruct (n =? 0) eqn:Z0; [discriminate|]. destruct M as (t & E & TC & CN & _). injection E as ->.
    apply (f_equal Z.to_nat) in CN. rewrite Nat2Z.id in CN. cbn [orb] in F. destruct vs; [|discriminate]. injection HC as <-.
    assert (X : expand_tok t = repeat UPad (Z.to_nat n)) by (unfold expand_tok; now rewrite TC, CN).
    split; [unfold ss_nvals, nvals, expand; cbn [s_fmt flat_map]; now rewrite X, app_nil_r, nvals_pads|].
    cbn [s_fmt tchunks]. unfold tchunk. rewrite X, TC, pads. reflexivity.
  - unfold counted in M. destruct (n =? 0) eqn:Z0; [discriminate|]. destruct M as (t & E & TC & CN & _). injection E as ->.
    cbn [orb] in F. destruct (ONE _ _ F) as [v ->]. cbn [hd_error] in HC. destruct v; try discriminate. injection HC as <-.
    assert (X : expand_tok t = [UPas (Z.to_nat n)]) by (unfold expand_tok; rewrite TC, <- CN, Nat2Z.id; reflexivity).
    split; [unfold ss_nvals, nvals, expand; cbn [s_fmt flat_map]; now rewrite X|].
    cbn [s_fmt tchunks]. unfold tchunk. rewrite X, TC. cbn [pack_u pack_unit]. rewrite app_nil_r. cbn [csize]. do 3 f_equal. unfold pascal.
    assert (NN : Z.to_nat n <> 0%nat) by lia.
    destruct (Z.to_nat n) as [|j]; [congruence|]. cbn [pas_pack]. replace (S j - 1)%nat with j by lia. reflexivity.
  - destruct a; cbn [char_made] in M; try (destruct M as [_ [? Q]]; discriminate Q); try (destruct M as [? Q]; discriminate Q).
    + unfold counted in M. cbn [char_fits] in F. destruct (z =? 0) eqn:Z0; [discriminate|]. destruct M as (t & E & TC & CN & _). injection E as ->.
      apply (f_equal Z.to_nat) in CN. rewrite Nat2Z.id in CN.
      cbn [orb] in F. destruct (ONE _ _ F) as [v ->]. cbn [hd_error] in HC.
      assert (XT : expand_tok t = [UStr (Z.to_nat z)]) by (unfold expand_tok; now rewrite TC, CN).
      split; [unfold ss_nvals, nvals, expand; cbn [s_fmt flat_map]; now rewrite XT|].
      assert (HC' : match v with VBytes b => string_chunks hb (mode_of hb bo) (KInt z) b | _ => None end = Some ch)
        by (destruct z; [discriminate Z0| |]; destruct v; try discriminate HC; exact HC).
      destruct v; try discriminate. cbn [string_chunks] in HC'. rewrite Z0 in HC'. injection HC' as <-.
      cbn [s_fmt tchunks]. unfold tchunk. rewrite XT, TC. cbn [pack_u pack_unit csize]. now rewrite app_nil_r.
    + destruct b as [|? []]; try contradiction. destruct M as [? Q]; discriminate Q.
  - destruct M as (_ & i & _ & M). destruct (structy x && Nat.eqb (vals x) 1).
    + destruct M as (st' & _ & M). destruct n; [discriminate|]. destruct M; discriminate.
    + destruct M; discriminate.
  - destruct M as (? & ? & ? & ? & ? & Q & _). discriminate.
  - destruct M as (s1 & st' & E & M & FM & BO & NV & W & _). injection E as <-. unfold ss_nvals. rewrite FM. exact (IHx bo st' vs ch M F HC).
  - destruct M as (? & ? & ? & Q & _). discriminate.
  - destruct M as (? & ? & ? & ? & Q & _). discriminate.
  - destruct M; discriminate.
  - destruct M; discriminate.
Qed.
(** strings *)
Lemma dynchar_can : forall c n mark r, size_code c = true -> 1 <= n -> 0 <= mark <= greatest c -> exists st,
  dynchar_st (SS BO_DEFAULT [T None c] None) n = Ok st /\
  est hb st [VInt mark; VBytes r] = Ok (uint_bytes hb (wsize c) mark ++ str_fit (Z.to_nat n) r).
Proof.
  clear OB. intros c n mark r S N1 R. unfold dynchar_st. change single_char with (SS BO_DEFAULT [T None Cs] None).
  destruct (matmul_char BO_DEFAULT Cs n N1) as (t & M & X & TC & CN). rewrite M. cbn [rbind].
  unfold ss_add. cbn [s_act s_bo s_fmt border_eqb].
  assert (FO : fold_overlaps false [T None c] [t] = [T None c; t]).
  { unfold fold_overlaps. cbn [split_last]. rewrite TC. destruct c; try discriminate S; reflexivity. }
  rewrite FO. eexists. split; [reflexivity|].
  assert (NC : nvals_u (expand_tok (T None c)) = 1%nat) by (destruct c; try discriminate S; reflexivity).
  assert (XT : expand_tok t = [UStr (Z.to_nat n)]) by (unfold expand_tok; now rewrite TC, CN).
  rewrite (chunks_est hb BO_DEFAULT (SS BO_DEFAULT [T None c; t] None) [T None c; t] _
    [Atom (wsize c) (uint_bytes hb (wsize c) mark); Atom 1 (str_fit (Z.to_nat n) r)] eq_refl (layout_eq_refl _)).
  - cbn [lay mode_of m_native csize app]. rewrite mod1, app_nil_r. cbn [zeros repeat app].
    assert (G : ((wsize c - 0 mod wsize c) mod wsize c = 0)%nat) by (destruct c; reflexivity). rewrite G. reflexivity.
  - rewrite !nvals_cons, NC, XT. reflexivity.
  - cbn [tchunks]. rewrite (num_tok hb BO_DEFAULT c mark _ S R), NC. cbn [skipn]. unfold tchunk. rewrite XT, TC. cbn [pack_u pack_unit csize].
    rewrite app_nil_r. reflexivity.
Qed.
Lemma char_sent : forall a bo s b r ch, char_made bo a s -> (match a with KInt n => n =? 0 | _ => false end) = false ->
  char_fits bo a (VBytes b :: r) = true -> string_chunks hb (mode_of hb bo) a b = Some ch -> fout hb ct allow bo 1 o s (VBytes b :: r) ch.
Proof.
  clear OB. intros a bo s b r ch M NZ F H. destruct a; cbn [char_made char_fits string_chunks] in *.
  - destruct M as [S [id ->]]. apply andb_prop in F as [BO F]. assert (bo = BO_DEFAULT) as -> by (destruct bo; try discriminate BO; reflexivity).
    destruct b as [|x b]; [discriminate|]. set (y := x :: b) in *. unfold number in H. destruct (blen y <=? greatest c) eqn:Q; [|discriminate]. injection H as <-.
    assert (N1 : 1 <= blen y) by (unfold y, blen; cbn [List.length]; lia).
    destruct (dynchar_can c (blen y) (blen y) y S N1 ltac:(lia)) as (st & D & E).
    cbn [fout]. eexists. split.
    + unfold penc. cbn [resolve rbind enc enc_step nth0 py_len]. change (Z.of_nat (List.length y)) with (blen y). rewrite D. cbn [rbind]. exact E.
    + cbn [lay zeros repeat app mode_of m_big]. rewrite app_nil_r. rewrite str_fit_exact by (unfold blen; lia). reflexivity.
  - unfold counted in M. rewrite NZ in *. cbn [orb] in F. destruct r; [|discriminate]. pose proof M as (t & -> & TC & CN & _). cbn [fout].
    apply (struct_sent (XChar (KInt z)) bo (SS bo [t] None) [VBytes b] ch).
    + cbn [made char_made]. unfold counted. now rewrite NZ.
    + cbn [fitting char_fits]. rewrite NZ. reflexivity.
    + cbn [chunks hd_error string_chunks]. rewrite NZ. destruct z; [discriminate NZ|exact H|exact H].
  - destruct b0 as [|t []]; try contradiction. destruct M as [id ->]. injection H as <-. cbn [fout]. eexists. split; [|reflexivity].
    unfold penc. cbn [resolve rbind enc enc_step nth0 as_bytes]. change single_char with (SS BO_DEFAULT [T None Cs] None).
    assert (N1 : 1 <= blen (b ++ [t])) by (rewrite blen_app; pose proof (blen_nonneg b); cbn; lia).
    destruct (matmul_char BO_DEFAULT Cs _ N1) as (tt & MM & X & TC & CN). rewrite MM. cbn [rbind eost].
    unfold est, st_pack. cbn [s_fmt]. unfold nvals. rewrite X.
    change (expand [T (Some (Z.to_nat (blen (b ++ [t])))) Cs]) with [UStr (Z.to_nat (blen (b ++ [t])))].
    cbn [nvals_u Nat.eqb List.length pack_u pack_unit]. rewrite app_nil_r, str_fit_exact by (unfold blen; lia). reflexivity.
  - destruct M as [id ->]. injection H as <-. cbn [fout]. exists b. split; reflexivity.
  - destruct M as [id ->]. destruct b as [|x b]; [discriminate|]. set (y := x :: b) in *.
    assert (N1 : 1 <= blen y) by (unfold y, blen; cbn [List.length]; lia).
    unfold net_length in H. cbn [fout]. destruct (blen y <? 128) eqn:Q.
    + injection H as <-. destruct (dynchar_can CB (blen y) (blen y) y eq_refl N1 ltac:(cbn [greatest]; lia)) as (st & D & E). eexists. split; [|reflexivity].
      unfold penc. cbn [resolve rbind enc enc_step nth0 py_len]. change (Z.of_nat (List.length y)) with (blen y). unfold net_st. rewrite Q.
      change (SS BO_DEFAULT [T None CB] None) with net_short in D. rewrite D. cbn [rbind].
      rewrite str_fit_exact in E by (unfold blen; lia). rewrite E. do 2 f_equal. cbn [wsize]. rewrite <- int_enc_bytes. destruct hb; reflexivity.
    + destruct (blen y <=? 32767) eqn:Q3; [|discriminate].
      assert (ch = [Block (uint_bytes hb 2 (128 + blen y mod 128 + 256 * (blen y / 128)) ++ y)]) as -> by congruence. clear H. eexists. split; [|reflexivity].
      unfold penc. cbn [resolve rbind enc enc_step nth0 py_len]. change (Z.of_nat (List.length y)) with (blen y). unfold net_st. rewrite Q.
      destruct (32767 <? blen y) eqn:Q4; [lia|].
      assert (ME : net_mark (blen y) = 128 + blen y mod 128 + blen y / 128 * 256) by (apply net_mark_eq; lia).
      assert (MR : 0 <= net_mark (blen y) <= greatest CH).
      { rewrite ME. pose proof (Z.mod_pos_bound (blen y) 128 ltac:(lia)). pose proof (Z.div_mod (blen y) 128 ltac:(lia)).
        assert (0 <= blen y / 128 <= 255) by (split; [apply Z.div_pos; lia|apply Z.lt_succ_r, Z.div_lt_upper_bound; lia]). cbn [greatest]. lia. }
      destruct (dynchar_can CH (blen y) (net_mark (blen y)) y eq_refl N1 MR) as (st & D & E). change (SS BO_DEFAULT [T None CH] None) with net_long in D.
      rewrite D. cbn [rbind]. rewrite str_fit_exact in E by (unfold blen; lia). rewrite E. do 2 f_equal. rewrite ME. cbn [wsize]. f_equal. lia.
Qed.
(** sums *)
Lemma counted_vals : forall bo x, regular x = true -> fits bo x [] = true \/ vals x = 1%nat -> vals x = if takes x then 1%nat else 0%nat.
Proof.
  clear OB. intros bo x R F. destruct x; cbn [vals takes] in *; try reflexivity.
  - destruct (n =? 0); reflexivity.
  - destruct a; try reflexivity. destruct (z =? 0); reflexivity.
  - destruct n as [z|c]; [reflexivity|]. destruct (structy x && Nat.eqb (vals x) 1) eqn:P; [|reflexivity]. cbn [fitting] in F. destruct F; discriminate.
  - cbn [regular] in R. apply andb_prop in R as [_ R]. now apply Nat.eqb_eq in R.
Qed.
Lemma vals_le : forall x, regular x = true -> (vals x <= 1)%nat.
Proof.
  clear OB. intros x R. destruct x; cbn [vals]; try lia.
  - destruct (n =? 0); lia.
  - destruct a; try lia. destruct (z =? 0); lia.
  - destruct n; [lia|]. destruct (_ && _); lia.
  - cbn [regular] in R. apply andb_prop in R as [_ R]. apply Nat.eqb_eq in R. rewrite R. destruct (takes x); lia.
Qed.
Lemma members_sent : forall bo xs l vs chs, all2 (made bo) xs l -> Forall sent xs -> forallb regular xs = true ->
  each (fits bo) xs vs = true -> members (out bo) xs vs = Some chs -> exists n, fo hb ct allow bo n o l vs chs.
Proof.
  clear OB. intros bo. induction xs as [|x xs IH]; intros [|s l] vs chs M SH R E H; try contradiction.
  - injection H as <-. exists 0%nat. constructor.
  - destruct M as [M1 M2]. inversion SH as [|? ? S1 S2]; subst. cbn in R. apply andb_prop in R as [R1 R2].
    cbn [each] in E. apply andb_prop in E as [E1 E2]. cbn [members] in H.
    destruct (out bo x _) as [c|] eqn:C; [|discriminate].
    destruct (members _ _ _) as [cs|] eqn:Q; [|discriminate]. injection H as <-.
    assert (V : vals x = if takes x then 1%nat else 0%nat).
    { apply (counted_vals bo); [exact R1|]. pose proof (vals_le x R1). destruct (vals x) as [|[|]]; [left; exact E1|now right|lia]. }
    pose proof (made_nv _ _ _ M1) as NV.
    assert (C' : out bo x (hd_error (firstn (vals x) vs)) = Some c).
    { rewrite V. destruct (takes x); [replace (hd_error (firstn 1 vs)) with (hd_error vs) by (now destruct vs); exact C|exact C]. }
    destruct (S1 bo s _ c M1 R1 E1 C') as [n1 F1].
    assert (Q' : members (out bo) xs (skipn (vals x) vs) = Some cs).
    { rewrite V. destruct (takes x); [|exact Q]. replace (skipn 1 vs) with (tl vs) by (now destruct vs). exact Q. }
    destruct (IH l _ cs M2 S2 R2 E2 Q') as [n2 F2]. exists (Nat.max n1 n2). rewrite <- NV in *.
    constructor; [eapply fout_le; [|exact F1]; lia|eapply fo_le; [|exact F2]; lia].
Qed.
Lemma nulls_members : forall bo xs l vs, all2 (made bo) xs l -> filter real l = [] -> members (out bo) xs vs = Some [].
Proof.
  clear OB. intros bo. induction xs as [|x xs IH]; intros [|s l] vs M F; try contradiction; [reflexivity|].
  destruct M as [M1 M2]. cbn [filter] in F. destruct s; try discriminate F.
  destruct (made_null _ _ M1) as [TK C]. cbn [members]. rewrite TK, C, (IH l vs M2); auto.
Qed.
Lemma alone_sent : forall bo xs l p vs chs, all2 (made bo) xs l -> Forall sent xs -> forallb regular xs = true -> filter real l = [p] ->
  alone (fits bo) xs vs = true -> members (out bo) xs vs = Some chs -> exists n, fout hb ct allow bo n o p vs chs.
Proof.
  clear OB. intros bo. induction xs as [|x xs IH]; intros [|s l] p vs chs M SH R F E H; try contradiction; [discriminate|].
  destruct M as [M1 M2]. inversion SH as [|? ? S1 S2]; subst. cbn in R. apply andb_prop in R as [R1 R2].
  cbn [filter alone members] in *. pose proof (nothing_real _ _ _ M1) as NR. destruct (nothing x) eqn:NX; rewrite <- NR in F; cbn [negb] in F.
  - pose proof (nothing_null _ _ _ M1 NX) as ->. destruct (made_null _ _ M1) as [TK C]. rewrite TK, C in H.
    destruct (members _ xs vs) as [cs|] eqn:Q; [|discriminate]. injection H as <-. cbn [app]. eapply IH; eauto.
  - injection F as -> F. destruct (out bo x _) as [c|] eqn:C; [|discriminate]. rewrite (nulls_members bo xs l _ M2 F) in H. injection H as <-.
    rewrite app_nil_r. assert (C' : out bo x (hd_error vs) = Some c).
    { destruct (takes x) eqn:TK; [exact C|]. rewrite (takes_none hb rec o _ x _ TK). exact C. }
    exact (S1 bo p vs c M1 R1 E C').
Qed.
Lemma all_null : forall l : list ser, filter real l = [] -> forall bo xs vs chs, all2 (made bo) xs l -> members (out bo) xs vs = Some chs -> chs = [].
Proof. clear OB. intros l F bo xs vs chs M H. rewrite (nulls_members bo xs l vs M F) in H. congruence. Qed.
Lemma sum_sent : forall bo xs l s vs chs, all2 (made bo) xs l -> Forall sent xs -> forallb regular xs = true ->
  flat s -> rel (parts s) (runs l) -> Forall atom (runs l) -> big s ->
  sum_fits (fits bo) xs vs = true -> members (out bo) xs vs = Some chs ->
  exists n, penc hb ct allow n s o vs = Ok (lay (m_native (mode_of hb bo)) 0 chs).
Proof.
  clear OB. intros bo xs l s vs chs M SH R F RL AT B SF H. unfold sum_fits in SF.
  assert (FO : Forall (field_ok bo) l) by (eapply all2_field; eauto).
  assert (SB : Forall (sbo bo) l) by (eapply Forall_impl; [|exact FO]; intros ? (A & _); exact A).
  assert (CO : Forall cond_ok l) by (eapply Forall_impl; [|exact FO]; intros ? (_ & A & _); exact A).
  pose proof (filter_made bo xs l M) as FM. destruct (filter (fun x => negb (nothing x)) xs) as [|y1 [|y2 ys]] eqn:FX.
  - destruct (filter real l) as [|p ps] eqn:FL; [|contradiction]. rewrite (sum_none l s F RL B FL). rewrite (all_null l FL bo xs vs chs M H). now exists 1%nat.
  - destruct (filter real l) as [|p [|]] eqn:FL; try contradiction; [|destruct FM as [_ []]].
    destruct (sum_one l s F RL B p (runs_one l p FL)) as [SS _].
    destruct (alone_sent bo xs l p vs chs M SH R FL SF H) as [n FP]. exists (S n). rewrite (same_penc hb ct allow o (S n) s p vs SS).
    apply (fout_penc hb ct allow bo o n p vs chs).
    + rewrite Forall_forall in SB. apply SB. assert (I : In p (filter real l)) by (rewrite FL; now left). now apply filter_In in I.
    + eapply fout_le; [|exact FP]. lia.
  - destruct (filter real l) as [|p1 [|p2 ps]] eqn:FL; try contradiction; [destruct FM as [_ []]|].
    apply andb_prop in SF as [EA SF]. rewrite (structs_made bo xs l M), filter_structs in SF.
    destruct (members_sent bo xs l vs chs M SH R EA H) as [n FP].
    assert (E : enc_subs (enc hb ct allow (S n)) (Some o) o (runs l) vs = Ok (lay (m_native (mode_of hb bo)) 0 chs)).
    { apply fo_sum; auto. eapply fo_le; [|exact FP]. lia. }
    destruct (forallb is_struct (filter real l)) eqn:ST.
    + cbn [negb orb] in SF. apply Nat.eqb_eq in SF.
      destruct (sum_structs l p1 p2 ps FL ST) as [st RN]. destruct (sum_one l s F RL B _ RN) as [SS _].
      pose proof (steps_sum _ _ (runs_steps l)) as TS. rewrite RN, (made_sum bo xs l M) in TS. cbn [map list_sum fold_right num_values] in TS.
      exists (S n). rewrite (same_penc hb ct allow o (S n) s _ vs SS). unfold penc. cbn [resolve rbind].
      rewrite RN in E. cbn [enc_subs oresolve resolve rbind octx num_values] in E. 
      assert (LN : List.length vs = ss_nvals st) by lia. rewrite <- LN, firstn_all in E.
      destruct (enc hb ct allow (S n) (SStruct st) o vs) as [b|]; [|discriminate]. cbn [rbind] in E. rewrite app_nil_r in E. exact E.
    + destruct (sum_many l s F RL B p1 p2 ps FL) as (id & subs & -> & RS); [rewrite FL in *; exact ST|].
      exists (S (S n)). unfold penc. cbn [resolve rbind].
      rewrite <- (rel_enc hb ct allow (S n) (Some o) o _ _ vs RS) in E.
      destruct (existsb needs_pre subs) eqn:NP.
      * change (enc hb ct allow (S (S n)) (SSpec id subs o) o vs) with (enc_subs (enc hb ct allow (S n)) (Some o) o subs vs). exact E.
      * change (enc hb ct allow (S (S n)) (SCompound id subs) o vs) with (enc_subs (enc hb ct allow (S n)) None o subs vs). now rewrite enc_subs_none.
Qed.
(** arrays *)
Lemma items_tok : forall x bo st t, made bo x (SStruct st) -> s_fmt st = [t] -> nvals_u (expand_tok t) = 1%nat -> forall items ls,
  forallb (fun i => fits bo x [i]) items = true -> omap (fun i => out bo x (Some i)) items = Some ls ->
  tchunks (mode_of hb bo) (repeat_fmt [t] (List.length items)) items = Some (concat ls).
Proof.
  clear OB. intros x bo st t M FM NV. induction items as [|v items IH]; intros ls F H; cbn [omap forallb] in *.
  - injection H as <-. reflexivity.
  - apply andb_prop in F as [F1 F2]. destruct (out bo x (Some v)) as [c|] eqn:C; [|discriminate].
    destruct (omap _ items) as [cs|] eqn:Q; [|discriminate]. injection H as <-.
    destruct (struct_sent x bo st [v] c M F1 C) as [_ T1]. rewrite FM in T1. apply tchunks1 in T1 as (a & T1 & ->).
    unfold repeat_fmt in *. cbn [List.length repeat List.concat app tchunks].
    change (v :: items) with ([v] ++ items). rewrite tchunk_prefix by (rewrite NV; cbn; lia). rewrite T1, NV. cbn [app skipn].
    rewrite (IH cs F2 eq_refl). reflexivity.
Qed.
Lemma mul_can : forall bo st t items chs, s_fmt st = [t] -> s_bo st = bo -> nvals_u (expand_tok t) = 1%nat ->
  tchunks (mode_of hb bo) (repeat_fmt [t] (List.length items)) items = Some chs ->
  exists oo, ss_mul st (Z.of_nat (List.length items)) = Ok oo /\ eost hb oo items = Ok (lay (m_native (mode_of hb bo)) 0 chs).
Proof.
  clear OB. intros bo st t items chs FM BO NV TS. destruct items as [|v items].
  - injection TS as <-. exists None. split; [|reflexivity]. destruct st as [? ? []]; reflexivity.
  - set (k := Z.of_nat (List.length (v :: items))) in *. assert (K1 : 1 <= k) by (unfold k; cbn [List.length]; lia).
    assert (H : exists st', ss_mul st k = Ok (Some st')).
    { destruct st as [bo' f act]. cbn [s_fmt] in FM. subst f. destruct act as [acts|].
      - destruct (mul_action_layout bo' [t] acts k eq_refl K1) as (g & E' & _). eauto.
      - destruct (mul_layout bo' [t] k eq_refl K1) as (g & E' & _). eauto. }
    destruct H as [st' E]. exists (Some st'). split; [exact E|]. cbn [eost].
    destruct (mul_inv st k st' K1 ltac:(rewrite FM; reflexivity) E) as [SB LY]. rewrite FM in LY. unfold k in LY. rewrite Nat2Z.id in LY.
    apply (chunks_est hb bo st' (repeat_fmt [t] (List.length (v :: items)))); [congruence|exact LY| |exact TS].
    rewrite nvals_repeat. unfold nvals, expand. cbn [flat_map]. rewrite app_nil_r, NV. lia.
Qed.
Lemma dyn_can : forall bo c st t items h chs, size_code c = true -> s_fmt st = [t] -> nvals_u (expand_tok t) = 1%nat -> s_bo st = bo ->
  number (mode_of hb bo) c (Z.of_nat (List.length items)) = Some h ->
  tchunks (mode_of hb bo) (repeat_fmt [t] (List.length items)) items = Some chs ->
  exists st', dynarr_st (SS bo [T None c] None) st (Z.of_nat (List.length items)) = Ok st' /\
    est hb st' (VInt (Z.of_nat (ss_nvals st') - 1) :: items) = Ok (lay (m_native (mode_of hb bo)) 0 (h ++ chs)).
Proof.
  clear OB. intros bo c st t items h chs S FM NV BO NB TS.
  assert (NC : nvals_u (expand_tok (T None c)) = 1%nat) by (destruct c; try discriminate S; reflexivity).
  assert (H : exists st', dynarr_st (SS bo [T None c] None) st (Z.of_nat (List.length items)) = Ok st' /\
    s_bo st' = bo /\ layout_eq (expand (s_fmt st')) (expand (T None c :: repeat_fmt [t] (List.length items)))).
  { unfold dynarr_st. destruct items as [|v items].
    - eexists. split; [reflexivity|]. split; [reflexivity|apply layout_eq_refl].
    - set (k := Z.of_nat (List.length (v :: items))) in *. assert (K1 : 1 <= k) by (unfold k; cbn [List.length]; lia).
      destruct (k =? 0) eqn:K0; [lia|].
      assert (H : exists s1, ss_mul st k = Ok (Some s1)).
      { destruct st as [bo' f act]. cbn [s_fmt] in FM. subst f. destruct act as [acts|].
        - destruct (mul_action_layout bo' [t] acts k eq_refl K1) as (g & E' & _). eauto.
        - destruct (mul_layout bo' [t] k eq_refl K1) as (g & E' & _). eauto. }
      destruct H as [s1 M]. rewrite M. cbn [rbind]. destruct (mul_inv st k s1 K1 ltac:(rewrite FM; reflexivity) M) as [SB LY]. rewrite FM in LY.
      assert (FO : foldable [T None c] (s_fmt s1) = true).
      { destruct st as [bo' f act]. cbn [s_fmt] in FM. subst f. destruct (mul_shape bo' t act k s1 K1 M) as (SF & SS1).
        unfold foldable. cbn [split_last]. destruct (s_fmt s1) as [|t1 [|t2 r]]; try reflexivity.
        destruct (str_code (t_code t)) eqn:SC; [|destruct (SS1 eq_refl); discriminate].
        inversion SF as [|? ? S1 _]; subst. rewrite S1. cbn [t_code].
        destruct c; try discriminate S; destruct (t_code t); try discriminate SC; reflexivity. }
      assert (ST : exists st', ss_add (SS bo [T None c] None) s1 = Ok st' /\ s_bo st' = bo /\ s_fmt st' = fold_overlaps false [T None c] (s_fmt s1)).
      { unfold ss_add. cbn [s_act s_bo s_fmt]. destruct (s_act s1); [eexists; split; [reflexivity|auto]|].
        assert (BB : border_eqb bo (s_bo s1) = true) by (rewrite SB, BO; destruct bo; reflexivity). rewrite BB. eexists. split; [reflexivity|auto]. }
      destruct ST as (st' & A & B & C). exists st'. split; [exact A|]. split; [exact B|]. rewrite C.
      eapply layout_eq_trans; [apply fold_layout; exact FO|].
      change (T None c :: repeat_fmt [t] (List.length (v :: items))) with ([T None c] ++ repeat_fmt [t] (List.length (v :: items))).
      rewrite !expand_app. apply layout_eq_app_l. unfold k in LY. now rewrite Nat2Z.id in LY. }
  destruct H as (st' & D & SB & LY). exists st'. split; [exact D|].
  assert (NF : nvals (T None c :: repeat_fmt [t] (List.length items)) = Datatypes.S (List.length items)).
  { rewrite nvals_cons, NC, nvals_repeat. unfold nvals, expand. cbn [flat_map]. rewrite app_nil_r, NV. lia. }
  assert (NS : ss_nvals st' = Datatypes.S (List.length items)) by (unfold ss_nvals; rewrite <- NF; apply (proj1 LY)).
  rewrite NS. replace (Z.of_nat (Datatypes.S (List.length items)) - 1) with (Z.of_nat (List.length items)) by lia.
  apply (chunks_est hb bo st' (T None c :: repeat_fmt [t] (List.length items))); [exact SB|exact LY|rewrite NF; reflexivity|].
  destruct (number_tok hb bo c (Z.of_nat (List.length items)) items h S ltac:(lia) NB) as (a & -> & TA).
  cbn [tchunks]. rewrite TA, NC. cbn [skipn]. rewrite TS. reflexivity.
Qed.
Lemma header_can : forall bo n sz count size h h', head_ok n sz = true -> 0 <= count -> 0 <= size ->
  match n with inl z => if count =? z then Some [] else None | inr c => number (mode_of hb bo) c count end = Some h ->
  match sz with None => Some [] | Some c => number (mode_of hb bo) c size end = Some h' ->
  exists hv, header_pack_values (head_made bo n sz) (match n with inl z => z | inr _ => -1 end) count size = Ok hv /\
    eost hb (head_made bo n sz) hv = Ok (lay (m_native (mode_of hb bo)) 0 (h ++ h')).
Proof.
  clear OB. intros bo n sz count size h h' HO C0 S0 H1 H2. unfold head_ok in HO. apply andb_prop in HO as [HN HS].
  assert (O1 : forall c, size_code c = true -> nvals [T None c] = 1%nat) by (intros c Q; destruct c; try discriminate Q; reflexivity).
  assert (ONE : forall c z h, size_code c = true -> 0 <= z -> number (mode_of hb bo) c z = Some h ->
    est hb (SS bo [T None c] None) [VInt z] = Ok (lay (m_native (mode_of hb bo)) 0 h)).
  { intros c z hh S Z Q. destruct (number_tok hb bo c z [] hh S Z Q) as (a & -> & TA).
    apply (chunks_est hb bo (SS bo [T None c] None) [T None c]); [reflexivity|apply layout_eq_refl|rewrite (O1 c S); reflexivity|].
    cbn [tchunks]. now rewrite TA. }
  unfold header_pack_values. destruct n as [z|c]; cbn [head_made].
  - rewrite HN. destruct (count =? z) eqn:Q; [|discriminate]. injection H1 as <-. cbn [negb]. destruct sz as [d|].
    + cbn [onvals]. unfold ss_nvals. cbn [s_fmt]. rewrite (O1 d HS). cbn [Nat.eqb]. eexists. split; [reflexivity|]. cbn [eost app]. now apply ONE.
    + injection H2 as <-. cbn [onvals]. eexists. split; [reflexivity|]. reflexivity.
  - change (0 <=? -1) with false. cbv beta iota. destruct sz as [d|].
    + assert (LY : layout_eq (expand (fold_overlaps false [T None c] [T None d])) (expand [T None c; T None d])) by (apply (fold_layout [T None c] [T None d]); reflexivity).
      assert (N2 : nvals [T None c; T None d] = 2%nat) by (destruct c, d; try discriminate HN; try discriminate HS; reflexivity).
      assert (NV : nvals (fold_overlaps false [T None c] [T None d]) = 2%nat) by (unfold nvals at 1; rewrite (proj1 LY); exact N2).
      cbn [onvals]. unfold ss_nvals. cbn [s_fmt]. rewrite NV. cbn [Nat.eqb]. eexists. split; [reflexivity|]. cbn [eost].
      destruct (number_tok hb bo c count [VInt size] h HN C0 H1) as (a & -> & TA). destruct (number_tok hb bo d size [] h' HS S0 H2) as (a' & -> & TA').
      apply (chunks_est hb bo (SS bo (fold_overlaps false [T None c] [T None d]) None) [T None c; T None d]); [reflexivity|exact LY|rewrite N2; reflexivity|].
      assert (NC : nvals_u (expand_tok (T None c)) = 1%nat) by (destruct c; try discriminate HN; reflexivity).
      cbn [tchunks]. rewrite TA, NC. cbn [skipn]. rewrite TA'. reflexivity.
    + injection H2 as <-. rewrite app_nil_r. cbn [onvals]. unfold ss_nvals. cbn [s_fmt]. rewrite (O1 c HN). cbn [Nat.eqb]. eexists. split; [reflexivity|].
      cbn [eost]. now apply ONE.
Qed.
Lemma decided_resolve : forall y bo i, made bo y i -> decided o y = true -> exists i', resolve true i o = Ok i'.
Proof.
  clear OB. intros y bo i M D. destruct i; cbn [resolve self_class]; try (eexists; reflexivity).
  destruct y; cbn [made] in M; try contradiction; try (destruct M as (? & Q & _); discriminate Q);
    try (destruct M as [_ Q]; discriminate Q); try (destruct M as (? & ? & Q & _); discriminate Q); try (destruct M as (? & ? & ? & Q & _); discriminate Q);
    try (destruct M as (? & ? & ? & ? & Q & _); discriminate Q); try (destruct M as (? & ? & ? & ? & ? & Q & _); discriminate Q); try (destruct M as (? & Q); discriminate Q);
    try (unfold counted in M; destruct (n =? 0); [discriminate|destruct M as (? & Q & _); discriminate Q]).
  - destruct a; cbn [char_made] in M; try (destruct M as [_ [? Q]]; discriminate Q); try (destruct M as [? Q]; discriminate Q).
    + unfold counted in M; destruct (z =? 0); [discriminate|destruct M as (? & Q & _); discriminate Q].
    + destruct b as [|? []]; try contradiction. destruct M; discriminate.
  - destruct M as (_ & j & _ & M). destruct (structy y && Nat.eqb (vals y) 1).
    + destruct M as (st & _ & M). destruct n; [discriminate|]. destruct M; discriminate.
    + destruct M; discriminate.
  - destruct M as (j & E & _). injection E as -> -> ->. cbn [decided] in D. destruct (f o) as [r|]; [|discriminate]. cbn [rbind]. unfold cond_branch.
    destruct (key_eqb r (VBool true)); [eexists; reflexivity|]. destruct (key_eqb r (VBool false)); [eexists; reflexivity|discriminate].
Qed.
Lemma enc_items_le : forall n n' i items b, (n <= n')%nat -> enc_items (enc hb ct allow n) i o items = Ok b ->
  enc_items (enc hb ct allow n') i o items = Ok b.
Proof. clear OB. intros n n' i items b L E. eapply rle_ok; [apply enc_items_le; intros; apply enc_le; exact L|exact E]. Qed.
Lemma items_sent : forall bo x i i', made bo x i -> regular x = true -> sent x -> resolve true i o = Ok i' -> forall items ls,
  forallb (fun v => fits bo x [v]) items = true -> omap (fun v => out bo x (Some v)) items = Some ls ->
  exists n, enc_items (enc hb ct allow n) i' o items = Ok (concat (map (lay (m_native (mode_of hb bo)) 0) ls)).
Proof.
  clear OB. intros bo x i i' M R SH RS. induction items as [|v items IH]; intros ls F H; cbn [forallb omap] in *.
  - injection H as <-. exists 0%nat. reflexivity.
  - apply andb_prop in F as [F1 F2]. destruct (out bo x (Some v)) as [c|] eqn:C; [|discriminate].
    destruct (omap _ items) as [cs|] eqn:Q; [|discriminate]. injection H as <-. destruct (IH cs F2 eq_refl) as [n2 E2].
    destruct (SH bo i [v] c M R F1 C) as [n1 FO]. destruct (made_field _ _ _ M) as (SB & _).
    assert (P : penc hb ct allow (S n1) i o [v] = Ok (lay (m_native (mode_of hb bo)) 0 c)).
    { apply (fout_penc hb ct allow bo o n1 i [v] c SB). eapply fout_le; [|exact FO]. lia. }
    apply (penc_le hb ct allow o _ (Nat.max (S n1) n2)) in P; [|lia]. unfold penc in P. rewrite RS in P. cbn [rbind] in P.
    exists (Nat.max (S n1) n2). cbn [enc_items map concat]. rewrite P. cbn [rbind].
    rewrite (enc_items_le n2 (Nat.max (S n1) n2) i' items _ ltac:(lia) E2). reflexivity.
Qed.
Lemma array_sent : forall n sz x, sent x -> sent (XArray n sz x).
Proof.
  clear OB. intros n sz x SH bo s vs ch M R F H. cbn [made regular fitting chunks] in *. destruct M as (HO & i & MI & M).
  destruct vs as [|v r]; [discriminate|]. cbn [hd_error] in H. destruct (py_iter v) as [items|] eqn:IT; [|discriminate]. apply andb_prop in F as [D F].
  destruct (omap _ items) as [ls|] eqn:OM; [|discriminate].
  destruct (match n with inl z => _ | inr c => _ end) as [h|] eqn:HH in H; [|discriminate]. rewrite packed_eq in H.
  destruct (structy x && Nat.eqb (vals x) 1) eqn:PK.
  - apply andb_prop in PK as [SY VX]. apply Nat.eqb_eq in VX. destruct M as (st & -> & M). injection H as <-.
    assert (ST : exists t, s_fmt st = [t] /\ nvals_u (expand_tok t) = 1%nat /\ s_bo st = bo).
    { destruct (made_field _ _ _ MI) as (B & _ & _ & _ & t & FM). exists t. split; [exact FM|]. split; [|exact B].
      pose proof (made_nv _ _ _ MI) as NV. cbn [num_values] in NV. unfold ss_nvals, nvals in NV. rewrite FM, VX in NV. unfold expand in NV.
      cbn [flat_map] in NV. now rewrite app_nil_r in NV. }
    destruct ST as (t & FM & NV & BO). pose proof (items_tok x bo st t MI FM NV items ls F OM) as TS.
    unfold head_ok in HO. apply andb_prop in HO as [HN HS]. exists 1%nat. destruct n as [z|c].
    + subst s. destruct (Z.of_nat (List.length items) =? z) eqn:Q; [|discriminate]. injection HH as <-. cbn [app].
      destruct (mul_can bo st t items _ FM BO NV TS) as (oo & MU & E). cbn [fout]. eexists. split; [|reflexivity].
      unfold penc. cbn [resolve rbind enc enc_step nth0]. rewrite (py_len_iter _ _ IT), IT. cbn [rbind].
      assert (L : List.length items = Z.to_nat z) by lia. rewrite <- L, Nat.eqb_refl. cbn [negb]. rewrite MU. exact E.
    + destruct M as [id ->]. destruct (dyn_can bo c st t items h _ HN FM NV BO HH TS) as (st' & DS & E). cbn [fout]. eexists. split; [|reflexivity].
      unfold penc. cbn [resolve rbind enc enc_step nth0]. rewrite (py_len_iter _ _ IT). cbn [rbind]. rewrite DS. cbn [rbind]. rewrite IT. exact E.
  - destruct M as [id ->]. destruct (decided_resolve x bo i MI D) as [i' RS].
    destruct (items_sent bo x i i' MI R SH RS items ls F OM) as [k EI].
    set (body := concat (map (lay (m_native (mode_of hb bo)) 0) ls)) in *.
    destruct (match sz with None => _ | Some c => _ end) as [h'|] eqn:HH' in H; [|discriminate]. injection H as <-.
    destruct (header_can bo n sz _ (blen body) h h' HO (Nat2Z.is_nonneg _) (blen_nonneg _) HH HH') as (hv & HV & EH).
    exists (S k). cbn [fout]. eexists. split; [|reflexivity]. unfold penc. cbn [resolve rbind enc enc_step nth0]. rewrite RS. cbn [rbind]. rewrite IT. cbn [rbind].
    rewrite EI. cbn [rbind]. rewrite (py_len_iter _ _ IT). cbn [rbind]. rewrite HV. cbn [rbind]. rewrite EH. reflexivity.
Qed.
(** classes, strings, tuples, conditions and unions *)
Lemma class_sent : forall id c bo vs ch, class_fits allow fit c vs = true ->
  match hd_error vs with Some (VObj c ov a) => odo b <- rec c ov a; Some [Block b] | _ => None end = Some ch ->
  exists n b, enc hb ct allow n (SStructd id c) o vs = Ok b /\ ch = [Block b] /\ fout hb ct allow bo n o (SStructd id c) vs ch.
Proof.
  intros id c bo vs ch F H. destruct vs as [|v [|]]; try discriminate F; destruct v; try discriminate F. cbn [class_fits hd_error] in *.
  apply andb_prop in F as [A F]. destruct (rec c0 ov attrs) as [b|] eqn:R; [|discriminate]. injection H as <-.
  destruct (OB c0 ov attrs b R F) as [n E]. 
  assert (EN : enc hb ct allow (S n) (SStructd id c) o [VObj c0 ov attrs] = Ok b) by (cbn [enc enc_step one rbind]; rewrite A; exact E).
  exists (S n), b. split; [exact EN|]. split; [reflexivity|]. cbn [fout]. exists b. split; [|reflexivity]. unfold penc. cbn [resolve rbind]. exact EN.
Qed.
Lemma unicode_sent : forall a cd, sent (XUnicode a cd).
Proof.
  clear OB. intros a cd bo s vs ch M R F H. cbn [made fitting chunks] in *. destruct M as (i & -> & M).
  destruct vs as [|v r]; [discriminate|]. cbn [hd_error] in H. destruct v; try discriminate. destruct (cod_enc cd _) as [b|] eqn:CE; [|discriminate].
  change (machine hb) with (mode_of hb BO_DEFAULT) in H.
  destruct (string_chunks hb (mode_of hb BO_DEFAULT) a b) as [l|] eqn:SC; [|discriminate]. injection H as <-.
  assert (E : exists n, enc hb ct allow n i o [VBytes b] = Ok (lay true 0 l)).
  { destruct (match a with KInt z => z =? 0 | _ => false end) eqn:K.
    - destruct a; try discriminate K. cbn [char_made string_chunks] in *. unfold counted in M. rewrite K in *. injection SC as <-. subst i. now exists 1%nat.
    - destruct (made_field (XChar a) BO_DEFAULT i M) as (SB & _ & NC & _).
      pose proof (char_sent a BO_DEFAULT i b [] l M K F SC) as FO. apply fout_penc in FO; [|exact SB]. exists 1%nat.
      unfold penc in FO. destruct (resolve true i o) as [i'|] eqn:RS; [|discriminate]. cbn [rbind] in FO.
      assert (i' = i) as ->; [|exact FO].
      destruct a; cbn [char_made] in M; try (destruct M as [_ [? ->]]; cbn in RS; congruence); try (destruct M as [? ->]; cbn in RS; congruence).
      + unfold counted in M. rewrite K in M. destruct M as (t & -> & _). cbn in RS. congruence.
      + destruct b0 as [|? []]; try contradiction. destruct M as (? & ->). cbn in RS. congruence. }
  destruct E as [n E]. exists (S n). cbn [fout]. eexists. split; [|reflexivity]. unfold penc. cbn [resolve rbind enc enc_step nth0]. rewrite CE. exact E.
Qed.
Lemma tuple_sent : forall l, Forall sent l -> sent (XTuple l).
Proof.
  clear OB. intros l SH bo s vs ch M R F H. cbn [made regular fitting chunks] in *. destruct M as (fin & id & id' & sers & i & -> & SM & A2).
  destruct vs as [|v [|]]; try discriminate. cbn [hd_error] in H. destruct (py_iter v) as [items|] eqn:IT; [|discriminate].
  change (machine hb) with (mode_of hb BO_DEFAULT) in H. destruct (members _ l items) as [cs|] eqn:ME; [|discriminate]. injection H as <-.
  destruct (tuple_sum fin id' l sers i A2 SM) as (FL & RL & AT & B).
  destruct (sum_sent BO_DEFAULT l sers i items cs A2 SH R FL RL AT B F ME) as [n P]. exists (S n). cbn [fout]. eexists. split; [|reflexivity].
  unfold penc in *. cbn [resolve rbind enc enc_step one]. destruct (resolve true i o) as [i'|]; [|discriminate]. cbn [rbind] in *. rewrite IT. exact P.
Qed.
Lemma direct_resolve : forall y bo i, made bo y i -> direct y = true -> resolve true i o = Ok i.
Proof.
  clear OB. intros y bo i M D. destruct y; try discriminate D; cbn [made] in M; try contradiction;
    try (destruct M as [_ ->]; reflexivity); try (destruct M as (? & -> & _); reflexivity); try (destruct M as (? & ? & -> & _); reflexivity);
    try (destruct M as (? & ? & ? & -> & _); reflexivity); try (destruct M as (? & ? & ? & ? & -> & _); reflexivity);
    try (destruct M as (? & ? & ? & ? & ? & -> & _); reflexivity); try (destruct M as [? ->]; reflexivity);
    try (unfold counted in M; destruct (n =? 0); [subst i; reflexivity|destruct M as (? & -> & _); reflexivity]).
  - destruct a; cbn [char_made] in M; try (destruct M as [_ [? ->]]; reflexivity); try (destruct M as [? ->]; reflexivity).
    + unfold counted in M. destruct (z =? 0); [subst i; reflexivity|destruct M as (? & -> & _); reflexivity].
    + destruct b as [|? []]; try contradiction. destruct M as (? & ->). reflexivity.
  - destruct M as (_ & j & _ & M). destruct (structy y && Nat.eqb (vals y) 1).
    + destruct M as (st & _ & M). destruct n; [subst i; reflexivity|]. destruct M as [? ->]. reflexivity.
    + destruct M as [? ->]. reflexivity.
Qed.
Lemma cond_sent : forall x f d, sent x -> sent (XCond x f d).
Proof.
  clear OB. intros x f d SH bo s vs ch M R F H. cbn [made regular fitting chunks] in *. apply andb_prop in R as [R _]. destruct M as (i & -> & M & LD).
  destruct (f o) as [r|] eqn:FO; [|discriminate]. destruct (key_eqb r (VBool true)) eqn:KT.
  - apply andb_prop in F as [D F]. destruct (out bo x (hd_error vs)) as [cs|] eqn:C; [|discriminate]. injection H as <-.
    destruct (SH bo i vs cs M R F C) as [n FT]. destruct (made_field _ _ _ M) as (SB & _).
    apply (fout_le hb ct allow bo o n (S n)) in FT; [|lia]. apply fout_penc in FT; [|exact SB]. exists (S n). cbn [fout]. eexists. split; [|reflexivity].
    unfold penc in *. rewrite (direct_resolve x bo i M D) in FT. cbn [rbind] in FT. cbn [resolve]. rewrite FO. cbn [rbind]. unfold cond_branch. rewrite KT.
    exact FT.
  - destruct (key_eqb r (VBool false)) eqn:KF; [|discriminate]. injection H as <-. exists 1%nat. cbn [fout]. eexists. split; [|reflexivity].
    unfold penc. cbn [resolve]. rewrite FO. cbn [rbind]. unfold cond_branch. rewrite KT, KF. reflexivity.
Qed.
Lemma pick_sent : forall k m d ms ds vs cs,
  all2 (fun p q => fst p = fst q /\ made BO_DEFAULT (snd p) (snd q)) m ms ->
  match d, ds with None, None => True | Some y, Some t => made BO_DEFAULT y t | _, _ => False end ->
  Forall (fun p => sent (snd p)) m -> (forall y, d = Some y -> sent y) ->
  forallb (fun p => regular (snd p)) m = true -> match d with Some y => regular y | None => true end = true ->
  hashable k = true -> chosen (fun y => fits BO_DEFAULT y vs) d k m = true ->
  pick (fun y => out BO_DEFAULT y (hd_error vs)) d k m = Some cs ->
  exists s0 n, choose ms ds k = Ok s0 /\ penc hb ct allow n s0 o vs = Ok (lay true 0 cs).
Proof.
  clear OB. intros k m d ms ds vs cs A2 DD SM SD RM RD HK F P. unfold choose. rewrite HK.
  assert (DONE : forall y s, made BO_DEFAULT y s -> regular y = true -> sent y -> fits BO_DEFAULT y vs = true -> out BO_DEFAULT y (hd_error vs) = Some cs ->
    exists n, penc hb ct allow n s o vs = Ok (lay true 0 cs)).
  { intros y s M R SH FF C. destruct (SH BO_DEFAULT s vs cs M R FF C) as [n FT]. destruct (made_field _ _ _ M) as (SB & _).
    apply (fout_le hb ct allow BO_DEFAULT o n (S n)) in FT; [|lia]. apply fout_penc in FT; [|exact SB]. eauto. }
  revert ms A2. induction m as [|[k' y] m IH]; intros [|[k2 t] ms] A2; try contradiction; cbn [chosen pick map_find] in *.
  - destruct d as [y|]; [|discriminate]. destruct ds as [t|]; [|contradiction]. destruct (DONE y t DD RD (SD y eq_refl) F P) as [n E]. eauto.
  - destruct A2 as [[E M] A2]. cbn [fst snd] in *. subst k2. inversion SM; subst. apply andb_prop in RM as [R1 R2]. cbn [snd] in *.
    destruct (key_eqb k k'); [|eapply IH; eauto]. destruct (DONE y t M R1 H1 F P) as [n Q]. eauto.
Qed.
Theorem expr_sent : forall x, sent x.
Proof.
  assert (ST : forall x bo st vs ch, made bo x (SStruct st) -> fits bo x vs = true -> out bo x (hd_error vs) = Some ch ->
    exists n, fout hb ct allow bo n o (SStruct st) vs ch).
  { intros x bo st vs ch M F C. exists 0%nat. cbn [fout]. exact (struct_sent x bo st vs ch M F C). }
  induction x using hx_ind'.
  - intros bo s vs ch M R F HC. pose proof M as M'. cbn [made] in M. destruct M as [_ ->]. eapply ST; eauto.
  - intros bo s vs ch M R F HC. pose proof M as M'. cbn [made] in M. unfold counted in M. destruct (n =? 0) eqn:Z0.
    + subst s. exists 0%nat. cbn [fout]. cbn [chunks] in HC. rewrite Z0 in HC. congruence.
    + destruct M as (t & -> & _). eapply ST; eauto.
  - intros bo s vs ch M R F HC. pose proof M as M'. cbn [made] in M. unfold counted in M. destruct (n =? 0) eqn:Z0.
    + subst s. exists 0%nat. cbn [fout]. cbn [chunks] in HC. rewrite Z0 in HC. congruence.
    + destruct M as (t & -> & _). eapply ST; eauto.
  - intros bo s vs ch M R F HC. cbn [made fitting] in *.
    destruct (match a with KInt z => z =? 0 | _ => false end) eqn:K.
    + destruct a; try discriminate K. cbn [char_made] in M. unfold counted in M. rewrite K in M. subst s. apply Z.eqb_eq in K as ->.
      exists 0%nat. cbn [chunks fout] in *. congruence.
    + exists 1%nat. assert (HV : exists b r, vs = VBytes b :: r /\ string_chunks hb (mode_of hb bo) a b = Some ch).
      { destruct vs as [|v r].
        - cbn [chunks hd_error] in HC. destruct a; try discriminate HC. destruct z; discriminate.
        - cbn [chunks hd_error] in HC. destruct a; try (destruct v; try discriminate HC; eauto; fail). destruct z; [discriminate K| |]; destruct v; try discriminate HC; eauto. }
      destruct HV as (b & r & -> & SC). eapply char_sent; eauto.
  - apply unicode_sent.
  - now apply array_sent.
  - now apply tuple_sent.
  - now apply cond_sent.
  - intros bo s vs ch M R F HC. pose proof M as M'. cbn [made] in M. destruct M as (st & st' & -> & _). eapply ST; eauto.
  - intros bo s vs ch M R F HC. cbn [made regular fitting chunks] in *. apply andb_prop in R as [RM RD]. destruct M as (i & ms & ds & -> & A2 & DD).
    destruct (f o) as [r|] eqn:FO; [|discriminate]. destruct (hashable r) eqn:HR; [|discriminate].
    change (machine hb) with (mode_of hb BO_DEFAULT) in HC. destruct (pick _ d r m) as [cs|] eqn:PK; [|discriminate]. injection HC as <-.
    destruct (pick_sent r m d ms ds vs cs A2 DD H0 H1 RM RD HR F PK) as (s0 & n & C & P).
    exists (S n). cbn [fout]. eexists. split; [|reflexivity]. unfold penc at 1. cbn [resolve rbind enc enc_step]. rewrite FO. cbn [rbind]. rewrite C. exact P.
  - intros bo s vs ch M R F HC. cbn [made regular fitting chunks] in *. apply andb_prop in R as [RM RD]. destruct M as (i & ra' & ms & ds & -> & _ & A2 & DD).
    destruct (f o) as [r|] eqn:FO; [|discriminate]. destruct (hashable r) eqn:HR; [|discriminate].
    change (machine hb) with (mode_of hb BO_DEFAULT) in HC. destruct (pick _ d r m) as [cs|] eqn:PK; [|discriminate]. injection HC as <-.
    destruct (pick_sent r m d ms ds vs cs A2 DD H0 H1 RM RD HR F PK) as (s0 & n & C & P).
    exists (S n). cbn [fout]. eexists. split; [|reflexivity]. unfold penc at 1. cbn [resolve rbind enc enc_step]. rewrite FO. cbn [rbind]. rewrite C. exact P.
  - intros bo s vs ch M R F HC. cbn [made fitting chunks] in *. destruct M as [id ->]. destruct (class_sent id c bo vs ch F HC) as (n & b & _ & _ & FT). eauto.
  - intros bo s vs ch M R F HC. cbn [made fitting chunks] in *. destruct M as [id ->]. destruct (class_sent id (p_cls o) bo vs ch F HC) as (n & b & E & -> & _).
    exists n. cbn [fout]. exists b. split; [|reflexivity]. unfold penc. cbn [resolve self_class rbind]. exact E.
  - intros bo s vs ch M. contradiction.
  - intros bo s vs ch M. contradiction.
Qed.
End Send.

(** ** classes *)
Section Class.
Variables (sl : list sclass) (l : list cinfo).
Hypothesis CR : classes_rel sl l.
Hypothesis RG : forallb regular_class sl = true.
Let ct := classes l.
Variable hb : bool.
Variable allow : nat -> nat -> bool.
Theorem obj_sent : forall N N' c ov d b, wire hb sl N c ov d = Some b -> packable allow sl N' c ov d = true ->
  exists n, enc_obj_step ct (enc hb ct allow n) c ov d = Ok b.
Proof.
  induction N as [|N IH]; intros N' c ov d b W P; [discriminate|]. destruct N' as [|N']; [discriminate|]. cbn [wire packable] in *.
  destruct (nth_error sl c) as [sc|] eqn:NS; [|discriminate].
  destruct (class_sum sl l CR RG c sc NS) as (i & sers & NI & H). specialize (H ov). cbv zeta in H. destruct H as (CT & AT & A2 & FL & RL & ATM & B).
  destruct (field_values (fields_of (sc_anns sc)) d) as [vs|] eqn:FV; [|discriminate].
  set (bo := match ov with Some bo => bo | None => sc_bo sc end) in *.
  destruct (fields _ _ _) as [cs|] eqn:FI; [|discriminate]. injection W as <-.
  assert (RC : regular_class sc = true) by (rewrite forallb_forall in RG; apply RG; eapply nth_error_In; eauto).
  pose proof (proj2 (get_values _ d RC vs) FV) as GV. rewrite (fields_members _ _ d vs RC GV) in FI.
  assert (RM : forallb regular (map snd (fields_of (sc_anns sc))) = true).
  { unfold regular_class in RC. rewrite forallb_forall in RC |- *. intros x I. apply in_map_iff in I as (p & <- & I). specialize (RC p I).
    apply andb_prop in RC as [RC _]. apply andb_prop in RC as [RC _]. exact RC. }
  destruct (sum_sent hb ct allow (wire hb sl N) (packable allow sl N') (PO c false d) bo
    (map snd (fields_of (sc_anns sc))) (map (with_bo bo) sers) (obj_ser (ci_def i) ov) vs cs A2) as [n E]; auto.
  { apply Forall_forall. intros x _. apply expr_sent. intros c' ov' d' b' W' P'. exact (IH N' c' ov' d' b' W' P'). }
  exists n. unfold enc_obj_step. unfold ct. rewrite CT. rewrite AT. rewrite (proj2 (class_values sl RG c sc d NS vs) FV).
  unfold penc in E. fold ct. destruct (resolve true _ _) as [s'|]; [|discriminate]. exact E.
Qed.
End Class.
