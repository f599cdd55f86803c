(** What the serializers of class statements write is the wire format of WireSpec.v. *)
From Verif Require Import Base Floats Value StructMod Format Ser Exec Pure BaseFacts StructFacts FormatFacts
  SerFacts Leaf Wire Field Fuel DecFacts RoundTrip Adding PropsAdd PropsStrings Hints HintFacts Surface SerShape Programs Accept AcceptProg
  WireSpec WireFacts.

(** ** serializers that hint expressions turn into *)
Lemma counted_bo : forall bo bo' c n s, counted bo c n s -> counted bo' c n (with_bo bo' s).
Proof.
  intros bo bo' c n s H. unfold counted in *. destruct (n =? 0); [now subst|].
  destruct H as (t & -> & A & B). exists t. auto.
Qed.
Lemma char_made_bo : forall bo bo' a s, char_made bo a s -> char_made bo' a (with_bo bo' s).
Proof.
  intros bo bo' a s H. destruct a; cbn [char_made] in *.
  - destruct H as [A [id ->]]. split; [exact A|]. exists id. reflexivity.
  - eapply counted_bo; eauto.
  - destruct b as [|? []]; try contradiction. destruct H as [id ->]. now exists id.
  - destruct H as [id ->]. now exists id.
  - destruct H as [id ->]. now exists id.
Qed.
Lemma made_bo : forall x bo bo' s, made bo x s -> made bo' x (with_bo bo' s).
Proof.
  induction x using hx_ind'; intros bo bo' sr M; cbn [made] in *; try contradiction.
  - destruct M as [A ->]. auto.
  - eapply counted_bo; eauto.
  - eapply counted_bo; eauto.
  - eapply char_made_bo; eauto.
  - destruct M as (i & -> & C). exists i. auto.
  - destruct M as (HO & i & MI & H). split; [exact HO|]. exists (with_bo bo' i). split; [eauto|].
    destruct (structy x && Nat.eqb (vals x) 1).
    + destruct H as (st & -> & H). exists (ss_with_bo bo' st). split; [reflexivity|].
      destruct n; [now subst|]. destruct H as [id ->]. exists id. reflexivity.
    + destruct H as [id ->]. exists id. cbn [with_bo]. f_equal. destruct n, s; reflexivity.
  - destruct M as (fin & id & id' & sers & i & -> & A & B). exists fin, id, id', sers, i. auto.
  - destruct M as (i & -> & A & B). exists (with_bo bo' i). split; [reflexivity|]. split; [eauto|]. now rewrite wb_nvals.
  - destruct M as (st & st' & -> & A & B & C & D & E & G). exists (ss_with_bo bo' st), (ss_with_bo bo' st').
    split; [reflexivity|]. split; [exact (IHx _ bo' _ A)|]. auto.
  - destruct M as (i & ms & ds & -> & M). exists i, ms, ds. auto.
  - destruct M as (i & r & ms & ds & -> & M). exists i, r, ms, ds. auto.
  - destruct M as [i ->]. now exists i.
  - destruct M as [i ->]. now exists i.
Qed.
Lemma counted_nv : forall bo c n s, counted bo c n s -> num_values s = (if (n =? 0)%Z then 0 else nvals_u (expand [T (Some (Z.to_nat n)) c]))%nat.
Proof.
  intros bo c n s H. unfold counted in H. destruct (n =? 0); [now subst|]. destruct H as (t & -> & A & B & _).
  cbn [num_values]. unfold ss_nvals, nvals. cbn [s_fmt]. unfold expand. cbn [flat_map]. rewrite !app_nil_r.
  unfold expand_tok. cbn [t_code]. rewrite A. apply (f_equal Z.to_nat) in B. rewrite Nat2Z.id in B. rewrite B. reflexivity.
Qed.
Lemma nvals_pads : forall k, nvals_u (repeat UPad k) = 0%nat.
Proof. induction k; [reflexivity|exact IHk]. Qed.
Lemma made_nv : forall x bo s, made bo x s -> num_values s = vals x.
Proof.
  induction x using hx_ind'; intros bo sr M; cbn [made] in *; try contradiction.
  - destruct M as [A ->]. destruct c; try discriminate A; reflexivity.
  - apply counted_nv in M. rewrite M. unfold expand, expand_tok. cbn [flat_map t_code]. rewrite app_nil_r, nvals_pads. destruct (n =? 0); reflexivity.
  - apply counted_nv in M. exact M.
  - destruct a; cbn [char_made vals] in *.
    + destruct M as [_ [id ->]]. reflexivity.
    + apply counted_nv in M. exact M.
    + destruct b as [|? []]; try contradiction. destruct M as [id ->]. reflexivity.
    + destruct M as [id ->]. reflexivity.
    + destruct M as [id ->]. reflexivity.
  - destruct M as (i & -> & C). reflexivity.
  - destruct M as (HO & i & MI & H). cbn [vals]. destruct (structy x && Nat.eqb (vals x) 1).
    + destruct H as (st & -> & H). destruct n; [now subst|]. now destruct H as [id ->].
    + destruct H as [id ->]. now destruct n.
  - destruct M as (fin & id & id' & sers & i & -> & A & B). reflexivity.
  - destruct M as (i & -> & A & B). cbn [num_values vals]. eauto.
  - destruct M as (st & st' & -> & A & B & C & D & E & G). exact D.
  - destruct M as (i & ms & ds & -> & M). reflexivity.
  - destruct M as (i & r & ms & ds & -> & M). reflexivity.
  - destruct M as [i ->]. reflexivity.
  - destruct M as [i ->]. reflexivity.
Qed.
(** everything the sum and the layout ask of a field *)
Definition field_ok (bo : border) (s : ser) : Prop :=
  sbo bo s /\ cond_ok s /\ is_compound s = false /\ wf_field s = true /\
  match s with SStruct st => exists t, s_fmt st = [t] | _ => True end.
Lemma counted_field : forall bo c n s, counted bo c n s -> field_ok bo s.
Proof.
  intros bo c n s H. unfold counted in H. destruct (n =? 0); [subst; repeat split|].
  destruct H as (t & -> & A & B). repeat split. exists t. reflexivity.
Qed.
Lemma made_field : forall x bo s, made bo x s -> field_ok bo s.
Proof.
  induction x using hx_ind'; intros bo sr M; cbn [made] in *; try contradiction.
  - destruct M as [A ->]. repeat split. eexists. reflexivity.
  - eapply counted_field; eauto.
  - eapply counted_field; eauto.
  - destruct a; cbn [char_made vals] in *.
    + destruct M as [_ [id ->]]. repeat split.
    + eapply counted_field; eauto.
    + destruct b as [|? []]; try contradiction. destruct M as [id ->]. repeat split.
    + destruct M as [id ->]. repeat split.
    + destruct M as [id ->]. repeat split.
  - destruct M as (i & -> & C). repeat split.
  - destruct M as (HO & i & MI & H). destruct (structy x && Nat.eqb (vals x) 1).
    + destruct H as (st & -> & H). destruct n; [subst; repeat split|]. destruct H as [id ->]. repeat split.
    + destruct H as [id ->]. repeat split.
  - destruct M as (fin & id & id' & sers & i & -> & A & B). repeat split.
  - destruct M as (i & -> & A & B). repeat split. exact B.
  - destruct M as (st & st' & -> & A & B & C & D & E & G). destruct (IHx _ _ A) as (_ & _ & _ & _ & t & F).
    repeat split; auto. exists t. congruence.
  - destruct M as (i & ms & ds & -> & M). repeat split.
  - destruct M as (i & r & ms & ds & -> & M). repeat split.
  - destruct M as [i ->]. repeat split.
  - destruct M as [i ->]. repeat split.
Qed.
Lemma structy_takes : forall x, structy x = true -> vals x = if takes x then 1%nat else 0%nat.
Proof.
  induction x using hx_ind'; intros S; try discriminate S; cbn [vals takes]; try reflexivity.
  - destruct (n =? 0); reflexivity.
  - destruct a; try discriminate S. destruct (z =? 0); reflexivity.
Qed.
Lemma packed_eq : forall x, packed x = structy x && Nat.eqb (vals x) 1.
Proof. intros x. unfold packed. destruct (structy x) eqn:S; [|reflexivity]. rewrite (structy_takes x S). destruct (takes x); reflexivity. Qed.
Lemma fields_lossless : forall bo l, Forall (field_ok bo) l -> forall p, lossless_from p l = true.
Proof.
  intros bo l F. induction F as [|s l FS F IH]; intros p; [reflexivity|]. cbn [lossless_from]. rewrite IH, Bool.andb_true_r.
  destruct s; try reflexivity. cbn [fits_after]. destruct (split_last p) as [[q x]|]; [|reflexivity]. destruct x; try reflexivity.
  destruct FS as (_ & _ & _ & _ & t & E). rewrite E. reflexivity.
Qed.
Lemma all2_field : forall bo xs l, all2 (made bo) xs l -> Forall (field_ok bo) l.
Proof.
  intros bo xs. induction xs as [|x xs IH]; intros [|s l] H; try contradiction; [constructor|].
  destruct H as [H1 H2]. constructor; [eapply made_field; eauto|eauto].
Qed.
Lemma all2_bo : forall bo bo' xs l, all2 (made bo) xs l -> all2 (made bo') xs (map (with_bo bo') l).
Proof.
  intros bo bo' xs. induction xs as [|x xs IH]; intros [|s l] H; try contradiction; [exact I|].
  destruct H as [H1 H2]. split; [eapply made_bo; eauto|eauto].
Qed.
Lemma made_null : forall x bo, made bo x SNull -> takes x = false /\ forall hb rec o m v, chunks hb rec o m x v = Some [].
Proof.
  assert (C : forall bo c n, counted bo c n SNull -> (n =? 0) = true).
  { intros bo c n H. unfold counted in H. destruct (n =? 0); [reflexivity|]. destruct H as (t & E & _). discriminate. }
  intros x bo M. destruct x; cbn [made] in M; try contradiction; try (destruct M as (? & Q & _); discriminate Q).
  - destruct M as [_ M]. discriminate.
  - apply C in M. split; [reflexivity|]. intros. cbn [chunks]. now rewrite M.
  - apply C in M. split; [cbn; now rewrite M|]. intros. cbn [chunks]. now rewrite M.
  - destruct a; cbn [char_made] in M.
    + destruct M as [_ [? M]]. discriminate.
    + apply C in M. split; [cbn; now rewrite M|]. apply Z.eqb_eq in M as ->. reflexivity.
    + destruct b as [|? []]; try contradiction. destruct M; discriminate.
    + destruct M; discriminate.
    + destruct M; discriminate.
  - destruct M as (_ & i & _ & M). destruct (structy x && Nat.eqb (vals x) 1).
    + destruct M as (st & _ & M). destruct n; [discriminate|]. destruct M; discriminate.
    + destruct M; discriminate.
  - destruct M as (fin & i & i' & sers & j & Q & _). discriminate.
  - destruct M as (? & ? & Q & _). discriminate.
  - destruct M as (? & ? & ? & Q & _). discriminate.
  - destruct M as (? & ? & ? & ? & Q & _). discriminate.
  - destruct M as (? & Q). discriminate.
  - destruct M as (? & Q). discriminate.
Qed.
Lemma takes_none : forall hb rec o m x v, takes x = false -> chunks hb rec o m x v = chunks hb rec o m x None.
Proof.
  intros hb rec o m x. induction x using hx_ind'; intros v T; try discriminate T; cbn [chunks takes] in *; try reflexivity.
  - destruct (n =? 0); [reflexivity|discriminate].
  - destruct a; try discriminate. destruct z; try discriminate. reflexivity.
  - now rewrite (IHx v T).
Qed.
Lemma py_len_iter : forall v items, py_iter v = Ok items -> py_len v = Ok (List.length items).
Proof. intros v items H. destruct v; try discriminate; injection H as <-; cbn; now rewrite ?map_length. Qed.

(** ** strings *)
Section Strings.
Variable hb : bool.
Variable ct : nat -> option cdef.
Variable allow : nat -> nat -> bool.
Variable o : pobj.
Lemma dynchar_writes : forall bo c st n mark raw b, size_code c = true -> dynchar_st (SS bo [T None c] None) n = Ok st -> 0 <= n ->
  est hb st [VInt mark; raw] = Ok b ->
  bo = BO_DEFAULT /\ 1 <= n /\ exists r, raw = VBytes r /\ 0 <= mark <= greatest c /\
    b = uint_bytes hb (wsize c) mark ++ str_fit (Z.to_nat n) r.
Proof.
  intros bo c st n mark raw b S D N E. unfold dynchar_st in D. change single_char with (SS BO_DEFAULT [T None Cs] None) in D.
  destruct (Z.eq_dec n 0) as [->|NZ].
  { cbn in D. injection D as <-. unfold est in E. apply st_pack_inv in E as [E _]. exfalso. destruct c; try discriminate S; discriminate E. }
  assert (N1 : 1 <= n) by lia. destruct (matmul_char BO_DEFAULT Cs n N1) as (t & M & X & TC & CN). rewrite M in D. cbn [rbind] in D.
  unfold ss_add in D. cbn [s_act s_bo s_fmt] in D. destruct (border_eqb bo BO_DEFAULT) eqn:B; [|discriminate].
  assert (BO : bo = BO_DEFAULT) by (destruct bo; try discriminate; reflexivity). subst bo. split; [reflexivity|]. split; [exact N1|].
  assert (FO : fold_overlaps false [T None c] [t] = [T None c; t]).
  { unfold fold_overlaps. cbn [split_last]. rewrite TC. destruct c; try discriminate S; reflexivity. }
  rewrite FO in D. injection D as <-.
  destruct (est_chunks hb BO_DEFAULT (SS BO_DEFAULT [T None c; t] None) [T None c; t] _ _ eq_refl (layout_eq_refl _) E) as (_ & chs & TS & L).
  cbn [tchunks] in TS. destruct (tchunk _ (T None c) _) as [a|] eqn:A; [|discriminate].
  destruct (tok_num hb BO_DEFAULT c _ _ S A) as (v & r' & z & E1 & E2 & R & ->). injection E1 as <- <-. injection E2 as <-.
  assert (NV : nvals_u (expand_tok (T None c)) = 1%nat) by (destruct c; try discriminate S; reflexivity). rewrite NV in TS. cbn [skipn] in TS.
  unfold tchunk in TS. rewrite TC in TS.
  assert (XT : expand_tok t = [UStr (Z.to_nat n)]) by (unfold expand_tok; now rewrite TC, CN). rewrite XT in TS.
  cbn [pack_u pack_unit] in TS. destruct raw; try discriminate. injection TS as <-. exists b0. split; [reflexivity|]. split; [exact R|].
  rewrite <- L. cbn [lay mode_of m_native m_big csize app]. rewrite mod1, !app_nil_r. cbn [zeros repeat app].
  assert (G : ((wsize c - 0 mod wsize c) mod wsize c = 0)%nat) by (destruct c; reflexivity). rewrite G. reflexivity.
Qed.
Lemma char_chunks : forall a bo n s vs ch, char_made bo a s -> fout hb ct allow bo n o s vs ch ->
  if match a with KInt n => n =? 0 | _ => false end then ch = []
  else exists b r, vs = VBytes b :: r /\ string_chunks hb (mode_of hb bo) a b = Some ch.
Proof.
  intros a bo n s vs ch M F. destruct a; cbn [char_made] in M.
  - destruct M as [S [id ->]]. cbn [fout] in F. destruct F as (b & P & ->). unfold penc in P. cbn [resolve rbind] in P.
    destruct n as [|n]; [discriminate|]. cbn [enc enc_step] in P. destruct vs as [|raw r]; [discriminate|]. cbn [nth0 rbind] in P.
    destruct (py_len raw) as [k|] eqn:PL; [|discriminate]. cbn [rbind] in P.
    destruct (dynchar_st _ _) as [st|] eqn:D; [|discriminate]. cbn [rbind] in P.
    destruct (dynchar_writes bo c st _ _ _ _ S D ltac:(lia) P) as (-> & N1 & rb & -> & R & ->).
    injection PL as <-. exists rb, r. split; [reflexivity|]. cbn [string_chunks]. unfold number, blen.
    destruct (Z.of_nat (List.length rb) <=? greatest c) eqn:Q; [|lia]. cbn [lay zeros repeat app mode_of m_big]. rewrite app_nil_r.
    now rewrite str_fit_exact by lia.
  - unfold counted in M. destruct (z =? 0) eqn:Z0.
    + subst s. exact F.
    + destruct M as (t & -> & TC & CN & _). apply (f_equal Z.to_nat) in CN. rewrite Nat2Z.id in CN. cbn [fout s_fmt] in F. destruct F as [L F].
      apply tchunks1 in F as (a & F & ->). unfold tchunk in F.
      assert (XT : expand_tok t = [UStr (Z.to_nat z)]) by (unfold expand_tok; now rewrite TC, CN). rewrite XT, TC in F.
      cbn [pack_u pack_unit] in F. destruct vs as [|[] r]; try discriminate. injection F as <-. exists b, r. split; [reflexivity|].
      cbn [string_chunks csize]. rewrite Z0, app_nil_r. reflexivity.
  - destruct b as [|t []]; try contradiction. destruct M as [id ->]. cbn [fout] in F. destruct F as (b & P & ->). unfold penc in P. cbn [resolve rbind] in P.
    destruct n as [|n]; [discriminate|]. cbn [enc enc_step] in P. destruct vs as [|raw r]; [discriminate|]. cbn [nth0 rbind] in P.
    destruct raw; try discriminate. cbn [as_bytes rbind] in P. change single_char with (SS BO_DEFAULT [T None Cs] None) in P.
    assert (N1 : 1 <= blen (b0 ++ [t])) by (rewrite blen_app; pose proof (blen_nonneg b0); cbn; lia).
    destruct (matmul_char BO_DEFAULT Cs _ N1) as (tt & MM & X & TC & CN). rewrite MM in P. cbn [rbind eost] in P.
    unfold est in P. apply st_pack_inv in P as [_ P]. cbn [s_fmt] in P. rewrite X in P.
    change (expand [T (Some (Z.to_nat (blen (b0 ++ [t])))) Cs]) with [UStr (Z.to_nat (blen (b0 ++ [t])))] in P.
    cbn [pack_u pack_unit] in P. injection P as <-. rewrite app_nil_r, str_fit_exact by (unfold blen; lia).
    exists b0, r. split; reflexivity.
  - destruct M as [id ->]. cbn [fout] in F. destruct F as (b & P & ->). unfold penc in P. cbn [resolve rbind] in P.
    destruct n as [|n]; [discriminate|]. cbn [enc enc_step] in P. destruct vs as [|raw r]; [discriminate|]. cbn [nth0 rbind] in P.
    destruct raw; try discriminate. injection P as ->. exists b, r. split; reflexivity.
  - destruct M as [id ->]. cbn [fout] in F. destruct F as (b & P & ->). unfold penc in P. cbn [resolve rbind] in P.
    destruct n as [|n]; [discriminate|]. cbn [enc enc_step] in P. destruct vs as [|raw r]; [discriminate|]. cbn [nth0 rbind] in P.
    destruct (py_len raw) as [k|] eqn:PL; [|discriminate]. cbn [rbind] in P. unfold net_st in P.
    destruct (Z.of_nat k <? 128) eqn:Q.
    + destruct (dynchar_st _ _) as [st|] eqn:D; [|discriminate]. cbn [rbind] in P.
      destruct (dynchar_writes BO_DEFAULT CB st _ _ _ _ eq_refl D ltac:(lia) P) as (_ & N1 & rb & -> & R & ->).
      injection PL as <-. exists rb, r. split; [reflexivity|]. cbn [string_chunks]. unfold net_length, blen. rewrite Q.
      rewrite str_fit_exact by lia. rewrite <- int_enc_bytes. destruct hb; reflexivity.
    + destruct (32767 <? Z.of_nat k) eqn:Q2; [discriminate|].
      destruct (dynchar_st _ _) as [st|] eqn:D; [|discriminate]. cbn [rbind] in P.
      destruct (dynchar_writes BO_DEFAULT CH st _ _ _ _ eq_refl D ltac:(lia) P) as (_ & N1 & rb & -> & R & ->).
      injection PL as <-. exists rb, r. split; [reflexivity|]. cbn [string_chunks]. unfold net_length, blen. rewrite Q.
      destruct (Z.of_nat (List.length rb) <=? 32767) eqn:Q3; [|lia].
      rewrite str_fit_exact by lia. rewrite net_mark_eq by lia. cbn [wsize]. do 4 f_equal. f_equal. lia.
Qed.
End Strings.

(** ** a sum that is a single serializer is made of one field *)
Definition real (s : ser) : bool := match s with SNull => false | _ => true end.
Lemma steps_back : forall a c, Adding.steps a c -> Forall (fun s => is_struct s = false) c ->
  Forall (fun s => is_struct s = false) a /\ filter real a = filter real c.
Proof.
  intros a c ST. induction ST as [l|a b c H ST IH]; intros C; [auto|]. destruct (IH C) as [C1 C2]. rewrite <- C2. clear - H C1.
  destruct H as [q r|q x y r].
  - split; [|rewrite !filter_app; reflexivity]. apply Forall_app in C1 as [C1 C3]. apply Forall_app. split; [exact C1|].
    constructor; [reflexivity|exact C3].
  - apply Forall_app in C1 as [_ C3]. inversion C3; discriminate.
Qed.
Lemma runs_single : forall l p, is_struct p = false -> p <> SNull -> runs l = [p] ->
  Forall (fun s => is_struct s = false) l /\ filter real l = [p].
Proof.
  intros l p S N R. pose proof (runs_steps l) as ST. rewrite R in ST.
  destruct (steps_back _ _ ST ltac:(auto)) as [A B]. split; [exact A|]. rewrite B. destruct p; try reflexivity. congruence.
Qed.

(** ** sums *)
Section Sums.
Variable hb : bool.
Variable ct : nat -> option cdef.
Variable allow : nat -> nat -> bool.
Variable rec : nat -> option border -> list (string * value) -> option bytes.
Variable N : nat.
Variable o : pobj.
(** what is to be shown of every hint expression *)
Definition shown (x : hx) : Prop := forall n bo s vs ch, (n <= N)%nat -> made bo x s -> regular x = true ->
  fout hb ct allow bo n o s vs ch -> chunks hb rec o (mode_of hb bo) x (hd_error vs) = Some ch.

Lemma hd_first : forall (vs : list value) k, (1 <= k)%nat -> hd_error (firstn k vs) = hd_error vs.
Proof. intros [|v vs] [|k] H; try lia; reflexivity. Qed.
Lemma regular_vals : forall x bo s n vs ch, made bo x s -> regular x = true -> fout hb ct allow bo n o s (firstn (num_values s) vs) ch ->
  vals x = if takes x then 1%nat else 0%nat.
Proof.
  intros x bo s n vs ch M R F. rewrite (made_nv _ _ _ M) in F.
  destruct x; cbn [vals takes] in *; try reflexivity; try contradiction.
  - destruct (n0 =? 0); reflexivity.
  - destruct a; try reflexivity. destruct (z =? 0); reflexivity.
  - destruct n0 as [z|c]; [reflexivity|]. destruct (structy x && Nat.eqb (vals x) 1) eqn:P; [|reflexivity]. exfalso.
    cbn [made] in M. rewrite P in M. destruct M as (_ & i & _ & st & -> & id & ->). cbn [fout firstn] in F. destruct F as (b & E & _).
    unfold penc in E. cbn [resolve rbind] in E. destruct n; discriminate E.
  - cbn [regular] in R. apply andb_prop in R as [_ R]. now apply Nat.eqb_eq in R.
Qed.
Lemma members_fo : forall bo n xs l vs chs, (n <= N)%nat -> all2 (made bo) xs l -> Forall shown xs -> forallb regular xs = true ->
  fo hb ct allow bo n o l vs chs -> members (chunks hb rec o (mode_of hb bo)) xs vs = Some chs.
Proof.
  intros bo n xs. induction xs as [|x xs IH]; intros [|s l] vs chs LE M S R F; try contradiction.
  - inversion F. reflexivity.
  - inversion F as [|? ? ? c cs F1 F2]; subst. destruct M as [M1 M2]. inversion S as [|? ? S1 S2]; subst.
    cbn in R. apply andb_prop in R as [R1 R2]. cbn [members].
    pose proof (regular_vals x bo s n vs c M1 R1 F1) as V. pose proof (made_nv _ _ _ M1) as NV.
    pose proof (S1 n bo s _ c LE M1 R1 F1) as C. rewrite NV, V in *. destruct (takes x) eqn:TK.
    + rewrite hd_first in C by lia. rewrite C. replace (tl vs) with (skipn 1 vs) by (now destruct vs).
      now rewrite (IH l _ cs LE M2 S2 R2 F2).
    + rewrite (takes_none hb rec o (mode_of hb bo) x _ TK) in C. rewrite C. cbn [skipn] in F2.
      now rewrite (IH l _ cs LE M2 S2 R2 F2).
Qed.
Lemma members_null : forall bo xs l vs, all2 (made bo) xs l -> Forall (fun s => is_struct s = false) l -> filter real l = [] ->
  members (chunks hb rec o (mode_of hb bo)) xs vs = Some [].
Proof.
  intros bo xs. induction xs as [|x xs IH]; intros [|s l] vs M NS F; try contradiction; [reflexivity|].
  destruct M as [M1 M2]. inversion NS; subst. cbn [filter] in F. destruct s; try discriminate F.
  destruct (made_null _ _ M1) as [TK C]. cbn [members]. rewrite TK, C, (IH l vs M2); auto.
Qed.
Lemma members_single : forall bo n xs l s b vs, (n <= N)%nat -> all2 (made bo) xs l -> Forall shown xs -> forallb regular xs = true ->
  Forall (fun s => is_struct s = false) l -> filter real l = [s] -> s <> SNull -> penc hb ct allow n s o vs = Ok b ->
  members (chunks hb rec o (mode_of hb bo)) xs vs = Some [Block b].
Proof.
  intros bo n xs. induction xs as [|x xs IH]; intros [|t l] s b vs LE M S R NS F NN P; try contradiction; [discriminate F|].
  destruct M as [M1 M2]. inversion S as [|? ? S1 S2]; subst. inversion NS as [|? ? NS1 NS2]; subst.
  cbn in R. apply andb_prop in R as [R1 R2]. cbn [filter] in F. destruct (real t) eqn:RT.
  - injection F as -> F.
    assert (FO : fout hb ct allow bo n o s vs [Block b]) by (destruct s; try discriminate; cbn [fout]; eauto).
    pose proof (S1 n bo s vs _ LE M1 R1 FO) as C. cbn [members]. destruct (takes x) eqn:TK.
    + rewrite C, (members_null bo xs l _ M2 NS2 F). reflexivity.
    + rewrite (takes_none hb rec o (mode_of hb bo) x _ TK) in C. rewrite C, (members_null bo xs l _ M2 NS2 F). reflexivity.
  - destruct t; try discriminate RT. destruct (made_null _ _ M1) as [TK C]. cbn [members]. rewrite TK, C.
    now rewrite (IH l s b vs LE M2 S2 R2 NS2 F NN P).
Qed.
Lemma rel_single : forall s l, is_struct s = false -> rel [s] l -> l = [s].
Proof. intros s l S R. inversion R as [|? y ? l' H1 H2]; subst. inversion H2; subst. destruct H1 as [->|(a & b & -> & _)]; [reflexivity|discriminate]. Qed.
Lemma sum_chunks : forall bo n xs l s vs b, (n <= N)%nat -> all2 (made bo) xs l -> Forall shown xs -> forallb regular xs = true ->
  flat s -> rel (parts s) (runs l) -> Forall atom (runs l) -> penc hb ct allow n s o vs = Ok b ->
  exists chs, members (chunks hb rec o (mode_of hb bo)) xs vs = Some chs /\ lay (m_native (mode_of hb bo)) 0 chs = b.
Proof.
  intros bo n xs l s vs b LE M SH R F RL AT P.
  assert (FO : Forall (field_ok bo) l) by (eapply all2_field; eauto).
  assert (SB : Forall (sbo bo) l) by (eapply Forall_impl; [|exact FO]; intros ? (A & _); exact A).
  assert (CO : Forall cond_ok l) by (eapply Forall_impl; [|exact FO]; intros ? (_ & A & _); exact A).
  assert (ENC : forall n', (n' <= N)%nat -> enc_subs (enc hb ct allow n') (Some o) o (runs l) vs = Ok b ->
    exists chs, members (chunks hb rec o (mode_of hb bo)) xs vs = Some chs /\ lay (m_native (mode_of hb bo)) 0 chs = b).
  { intros n' LE' E. destruct (sum_fo hb ct allow bo n' o l vs b SB CO AT E) as (chs & G & L).
    exists chs. split; [|exact L]. eapply members_fo; eauto. }
  destruct (match s with SCompound _ _ => true | _ => false end) eqn:K.
  - destruct s; try discriminate K. unfold penc in P. cbn [resolve rbind] in P. destruct n as [|n]; [destruct (existsb _ _); discriminate P|].
    apply (ENC n); [lia|]. rewrite <- (rel_enc hb ct allow n (Some o) o _ _ vs RL). cbn [parts].
    destruct (existsb needs_pre subs) eqn:NP; cbn [enc enc_step] in P; [exact P|]. now rewrite <- enc_subs_none.
  - destruct s; try discriminate K; try contradiction;
      try (match type of RL with rel (parts ?s) _ => 
             pose proof (rel_single s (runs l) eq_refl RL) as RS; destruct (runs_single l s eq_refl ltac:(discriminate) RS) as [A B];
             exists [Block b]; split; [eapply members_single; eauto; discriminate|cbn; now rewrite app_nil_r] end).
    + apply (ENC n LE). inversion RL. destruct n; [discriminate P|]. cbn in P. injection P as <-. reflexivity.
    + apply (ENC n LE). rewrite <- (rel_enc hb ct allow n (Some o) o _ _ vs RL). cbn [parts enc_subs oresolve resolve rbind octx].
      unfold penc in P. cbn [resolve rbind] in P. destruct n as [|n]; [discriminate P|]. cbn [num_values]. cbn [enc enc_step] in *.
      assert (LN : List.length vs = ss_nvals st) by (unfold est in P; apply st_pack_inv in P as [P _]; exact P).
      rewrite <- LN, firstn_all, P. cbn [rbind]. now rewrite app_nil_r.
Qed.
End Sums.

(** ** hint expressions *)
Section Exprs.
Variable hb : bool.
Variable ct : nat -> option cdef.
Variable allow : nat -> nat -> bool.
Variable rec : nat -> option border -> list (string * value) -> option bytes.
Variable N : nat.
Hypothesis OB : forall n c ov d b, (S n <= N)%nat -> enc_obj_step ct (enc hb ct allow n) c ov d = Ok b -> rec c ov d = Some b.
Variable o : pobj.

Lemma class_shown : forall n id c vs ch, (n <= N)%nat -> fout hb ct allow BO_DEFAULT n o (SStructd id c) vs ch ->
  match hd_error vs with Some (VObj c ov a) => odo b <- rec c ov a; Some [Block b] | _ => None end = Some ch.
Proof.
  intros n id c vs ch LE F. cbn [fout] in F. destruct F as (b & P & ->). unfold penc in P. cbn [resolve rbind] in P.
  destruct n as [|n]; [discriminate|]. cbn [enc enc_step] in P. destruct vs as [|v [|]]; try discriminate. cbn [one rbind] in P.
  destruct v; try discriminate. destruct (allow c c0); [|discriminate]. cbn [hd_error]. now rewrite (OB n c0 ov attrs b LE P).
Qed.
Lemma enc_penc : forall n s vs b, is_compound s = false -> enc hb ct allow n s o vs = Ok b -> penc hb ct allow n s o vs = Ok b.
Proof.
  intros n s vs b C E. unfold penc. destruct s; try discriminate C; cbn [resolve rbind]; try exact E; destruct n; discriminate E.
Qed.
Lemma struct_chunks : forall x bo st vs ch n, made bo x (SStruct st) -> fout hb ct allow bo n o (SStruct st) vs ch ->
  chunks hb rec o (mode_of hb bo) x (hd_error vs) = Some ch.
Proof.
  induction x using hx_ind'; intros bo st vs ch k M F; cbn [made] in M; try contradiction; try (destruct M as (? & Q & _); discriminate Q).
  - destruct M as [A E]. injection E as ->. cbn [fout s_fmt] in F. destruct F as [L F]. apply tchunks1 in F as (a & F & ->).
    destruct vs as [|v r]; [destruct c; try discriminate A; discriminate L|].
    destruct (tok_scalar hb bo c v r a A F) as (b & SC & ->). cbn [chunks hd_error]. now rewrite SC.
  - unfold counted in M. destruct (n =? 0) eqn:Z0; [discriminate|]. destruct M as (t & E & TC & CN & _). injection E as ->.
    apply (f_equal Z.to_nat) in CN. rewrite Nat2Z.id in CN.
    cbn [fout s_fmt] in F. destruct F as [_ F]. apply tchunks1 in F as (a & F & ->). unfold tchunk in F.
    assert (X : expand_tok t = repeat UPad (Z.to_nat n)) by (unfold expand_tok; now rewrite TC, CN). rewrite X, TC, pads in F.
    injection F as <-. cbn [chunks]. now rewrite Z0.
  - unfold counted in M. destruct (n =? 0) eqn:Z0; [discriminate|]. destruct M as (t & E & TC & CN & _). injection E as ->.
    cbn [fout s_fmt] in F. destruct F as [_ F]. apply tchunks1 in F as (a & F & ->). unfold tchunk in F.
    assert (X : expand_tok t = [UPas (Z.to_nat n)]) by (unfold expand_tok; rewrite TC, <- CN, Nat2Z.id; reflexivity). rewrite X, TC in F.
    cbn [pack_u pack_unit] in F. destruct vs as [|[] r]; try discriminate. cbn [chunks hd_error]. rewrite Z0.
    injection F as <-. rewrite app_nil_r. cbn [csize]. f_equal. f_equal. f_equal. unfold pascal.
    assert (NN : Z.to_nat n <> 0%nat) by lia.
    destruct (Z.to_nat n) as [|j]; [congruence|]. cbn [pas_pack]. replace (S j - 1)%nat with j by lia. reflexivity.
  - pose proof (char_chunks hb ct allow o a bo k (SStruct st) vs ch M F) as H.
    destruct a; try (destruct M as [_ [? Q]]; discriminate Q); try (destruct M as [? Q]; discriminate Q).
    + destruct (z =? 0) eqn:Z0; [apply Z.eqb_eq in Z0 as ->; cbn in *; congruence|]. destruct H as (b & r & -> & H).
      cbn [chunks hd_error]. destruct z; try exact H.
    + cbn in M. destruct b as [|? []]; try contradiction. destruct M as [? Q]; discriminate Q.
  - destruct M as (_ & i & _ & M). destruct (structy x && Nat.eqb (vals x) 1).
    + destruct M as (st' & _ & M). destruct n; [discriminate|]. destruct M; discriminate.
    + destruct M; discriminate.
  - destruct M as (? & ? & ? & ? & ? & Q & _). discriminate.
  - destruct M as (s1 & st' & E & M & FM & BO & NV & W & _). injection E as <-. cbn [chunks]. apply (IHx bo st' vs ch k M).
    cbn [fout] in *. unfold ss_nvals in *. now rewrite <- FM.
  - destruct M as (? & ? & ? & Q & _). discriminate.
  - destruct M as (? & ? & ? & ? & Q & _). discriminate.
  - destruct M; discriminate.
  - destruct M; discriminate.
Qed.

(** arrays of scalars and strings of a fixed size *)
Lemma items_chunks : forall x bo st t, made bo x (SStruct st) -> s_fmt st = [t] -> nvals_u (expand_tok t) = 1%nat -> forall items chs,
  tchunks (mode_of hb bo) (repeat_fmt [t] (List.length items)) items = Some chs ->
  exists ls, omap (fun i => chunks hb rec o (mode_of hb bo) x (Some i)) items = Some ls /\ concat ls = chs.
Proof.
  intros x bo st t M FM NV. induction items as [|v items IH]; intros chs H.
  - injection H as <-. exists []. split; reflexivity.
  - unfold repeat_fmt in *. cbn [List.length repeat List.concat app tchunks] in H.
    destruct (tchunk (mode_of hb bo) t (v :: items)) as [a|] eqn:A; [|discriminate]. rewrite NV in H. cbn [skipn] in H.
    destruct (tchunks _ _ items) as [cs|] eqn:B; [|discriminate]. injection H as <-. destruct (IH cs eq_refl) as (ls & E & <-).
    change (v :: items) with ([v] ++ items) in A. rewrite tchunk_prefix in A by (rewrite NV; cbn; lia).
    assert (F : fout hb ct allow bo 0 o (SStruct st) [v] [a]).
    { cbn [fout]. unfold ss_nvals. rewrite FM. split; [rewrite nvals_cons, NV; reflexivity|]. cbn [tchunks]. now rewrite A. }
    pose proof (struct_chunks x bo st [v] [a] 0 M F) as C. cbn [hd_error] in C. cbn [omap]. rewrite C, E. eexists. split; reflexivity.
Qed.
Lemma single_tok : forall x bo st, made bo x (SStruct st) -> vals x = 1%nat ->
  exists t, s_fmt st = [t] /\ nvals_u (expand_tok t) = 1%nat /\ s_bo st = bo.
Proof.
  intros x bo st M V. destruct (made_field _ _ _ M) as (B & _ & _ & _ & t & F). exists t. split; [exact F|]. split; [|exact B].
  pose proof (made_nv _ _ _ M) as NV. cbn [num_values] in NV. unfold ss_nvals, nvals in NV. rewrite F, V in NV. unfold expand in NV.
  cbn [flat_map] in NV. now rewrite app_nil_r in NV.
Qed.
Lemma mul_chunks : forall bo st t k items b oo, s_fmt st = [t] -> s_bo st = bo -> ss_mul st (Z.of_nat k) = Ok oo ->
  List.length items = k -> eost hb oo items = Ok b ->
  exists chs, tchunks (mode_of hb bo) (repeat_fmt [t] (List.length items)) items = Some chs /\ lay (m_native (mode_of hb bo)) 0 chs = b.
Proof.
  intros bo st t k items b oo FM BO E L P. destruct k as [|k].
  - destruct items; [|discriminate]. cbn in E. unfold ss_mul, ss_mul_impl in E. cbn in E. injection E as <-. injection P as <-.
    exists []. split; reflexivity.
  - destruct st as [bo' f act]. cbn [s_fmt s_bo] in *. subst f bo'.
    assert (H : exists st', oo = Some st').
    { destruct act as [acts|].
      - destruct (mul_action_layout bo [t] acts (Z.of_nat (S k)) eq_refl ltac:(lia)) as (g & E' & _). rewrite E in E'. injection E' as ->. eauto.
      - destruct (mul_layout bo [t] (Z.of_nat (S k)) eq_refl ltac:(lia)) as (g & E' & _). rewrite E in E'. injection E' as ->. eauto. }
    destruct H as [st' ->]. cbn [eost] in P.
    destruct (mul_inv (SS bo [t] act) (Z.of_nat (S k)) st' ltac:(lia) eq_refl E) as [SB LY]. cbn [s_bo s_fmt] in *. rewrite Nat2Z.id, <- L in LY.
    destruct (est_chunks hb bo st' _ items b SB LY P) as [_ H]. exact H.
Qed.
Lemma dyn_chunks : forall bo c st t items st' b, size_code c = true -> s_fmt st = [t] -> nvals_u (expand_tok t) = 1%nat -> s_bo st = bo ->
  dynarr_st (SS bo [T None c] None) st (Z.of_nat (List.length items)) = Ok st' ->
  est hb st' (VInt (Z.of_nat (ss_nvals st') - 1) :: items) = Ok b ->
  exists h chs, number (mode_of hb bo) c (Z.of_nat (List.length items)) = Some h /\
    tchunks (mode_of hb bo) (repeat_fmt [t] (List.length items)) items = Some chs /\ lay (m_native (mode_of hb bo)) 0 (h ++ chs) = b.
Proof.
  intros bo c st t items st' b S FM NV BO D P.
  assert (NC : nvals_u (expand_tok (T None c)) = 1%nat) by (destruct c; try discriminate S; reflexivity).
  assert (H : s_bo st' = bo /\ layout_eq (expand (s_fmt st')) (expand (T None c :: repeat_fmt [t] (List.length items)))).
  { unfold dynarr_st in D. destruct items as [|v items].
    - cbn in D. injection D as <-. split; [reflexivity|apply layout_eq_refl].
    - set (k := Z.of_nat (List.length (v :: items))) in *. assert (K1 : 1 <= k) by (unfold k; cbn [List.length]; lia).
      destruct (k =? 0) eqn:K0; [lia|]. destruct (ss_mul st k) as [[s1|]|] eqn:M; [| |discriminate].
      2:{ exfalso. destruct st as [bo' f act]. cbn [s_fmt] in FM. subst f. destruct act as [acts|].
          - destruct (mul_action_layout bo' [t] acts k eq_refl K1) as (g & E' & _). congruence.
          - destruct (mul_layout bo' [t] k eq_refl K1) as (g & E' & _). congruence. }
      cbn [rbind] in D. destruct (mul_inv st k s1 K1 ltac:(rewrite FM; reflexivity) M) as [SB LY]. rewrite FM in LY.
      assert (FO : foldable [T None c] (s_fmt s1) = true).
      { destruct st as [bo' f act]. cbn [s_fmt] in FM. subst f. destruct (mul_shape bo' t act k s1 K1 M) as (SF & SS1).
        unfold foldable. cbn [split_last]. destruct (s_fmt s1) as [|t1 [|t2 r]]; try reflexivity.
        destruct (str_code (t_code t)) eqn:SC; [|destruct (SS1 eq_refl); discriminate].
        inversion SF as [|? ? S1 _]; subst. rewrite S1. cbn [t_code].
        destruct c; try discriminate S; destruct (t_code t); try discriminate SC; reflexivity. }
      assert (ST : s_bo st' = bo /\ s_fmt st' = fold_overlaps false [T None c] (s_fmt s1)).
      { unfold ss_add in D. cbn [s_act s_bo s_fmt] in D. destruct (s_act s1).
        - injection D as <-. auto.
        - destruct (border_eqb bo (s_bo s1)); [|discriminate]. injection D as <-. auto. }
      destruct ST as [-> ->]. split; [reflexivity|]. eapply layout_eq_trans; [apply fold_layout; exact FO|].
      change (T None c :: repeat_fmt [t] (List.length (v :: items))) with ([T None c] ++ repeat_fmt [t] (List.length (v :: items))).
      rewrite !expand_app. apply layout_eq_app_l. unfold k in LY. now rewrite Nat2Z.id in LY. }
  destruct H as [SB LY].
  assert (NS : ss_nvals st' = Datatypes.S (List.length items)).
  { unfold ss_nvals, nvals. rewrite (proj1 LY). change (nvals_u (expand ?f)) with (nvals f). rewrite nvals_cons, NC, nvals_repeat.
    unfold nvals, expand. cbn [flat_map]. rewrite app_nil_r, NV. lia. }
  rewrite NS in P. replace (Z.of_nat (Datatypes.S (List.length items)) - 1) with (Z.of_nat (List.length items)) in P by lia.
  destruct (est_chunks hb bo st' _ _ b SB LY P) as (_ & chs & TS & L). cbn [tchunks] in TS. rewrite NC in TS. cbn [skipn] in TS.
  destruct (tchunk _ (T None c) _) as [a|] eqn:A; [|discriminate]. destruct (tchunks _ _ items) as [cs|] eqn:B; [|discriminate].
  injection TS as <-. exists [a], cs. split; [|split; [reflexivity|exact L]]. eapply tok_num1; eauto.
Qed.
Lemma header_chunks : forall bo n sz count size hv hd, head_ok n sz = true ->
  header_pack_values (head_made bo n sz) (match n with inl z => z | inr _ => -1 end) count size = Ok hv ->
  eost hb (head_made bo n sz) hv = Ok hd ->
  exists h h', match n with inl z => if count =? z then Some [] else None | inr c => number (mode_of hb bo) c count end = Some h /\
    match sz with None => Some [] | Some c => number (mode_of hb bo) c size end = Some h' /\
    lay (m_native (mode_of hb bo)) 0 (h ++ h') = hd.
Proof.
  intros bo n sz count size hv hd HO P E. unfold head_ok in HO. apply andb_prop in HO as [HN HS].
  assert (O1 : forall c, size_code c = true -> nvals [T None c] = 1%nat) by (intros c Q; destruct c; try discriminate Q; reflexivity).
  assert (ONE : forall c z b, size_code c = true -> est hb (SS bo [T None c] None) [VInt z] = Ok b ->
    exists h, number (mode_of hb bo) c z = Some h /\ lay (m_native (mode_of hb bo)) 0 h = b).
  { intros c z b S Q. destruct (est_chunks hb bo (SS bo [T None c] None) [T None c] _ b eq_refl (layout_eq_refl _) Q) as (_ & chs & TS & L).
    apply tchunks1 in TS as (a & TS & ->). exists [a]. split; [eapply tok_num1; eauto|exact L]. }
  unfold header_pack_values in P. destruct n as [z|c]; cbn [head_made] in *.
  - rewrite HN in P. destruct (count =? z) eqn:Q; [|discriminate]. cbn [negb] in P. destruct sz as [d|].
    + cbn [onvals] in P. unfold ss_nvals in P. cbn [s_fmt] in P. rewrite (O1 d HS) in P. cbn [Nat.eqb] in P. injection P as <-.
      cbn [eost] in E. destruct (ONE d _ _ HS E) as (h & A & B). exists [], h. auto.
    + cbn [onvals] in P. cbn in P. injection P as <-. injection E as <-. exists [], []. auto.
  - cbn [Z.leb] in P. change (0 <=? -1) with false in P. cbv beta iota in P. destruct sz as [d|].
    + assert (LY : layout_eq (expand (fold_overlaps false [T None c] [T None d])) (expand [T None c; T None d])) by (apply (fold_layout [T None c] [T None d]); reflexivity).
      assert (NV : nvals (fold_overlaps false [T None c] [T None d]) = 2%nat).
      { unfold nvals. rewrite (proj1 LY). destruct c, d; try discriminate HN; try discriminate HS; reflexivity. }
      cbn [onvals] in P. unfold ss_nvals in P. cbn [s_fmt] in P. rewrite NV in P. cbn [Nat.eqb] in P. injection P as <-. cbn [eost] in E.
      destruct (est_chunks hb bo (SS bo (fold_overlaps false [T None c] [T None d]) None) _ _ hd eq_refl LY E) as (_ & chs & TS & L).
      cbn [tchunks] in TS. destruct (tchunk _ (T None c) _) as [a|] eqn:A; [|discriminate].
      assert (NC : nvals_u (expand_tok (T None c)) = 1%nat) by (destruct c; try discriminate HN; reflexivity). rewrite NC in TS. cbn [skipn] in TS.
      destruct (tchunk _ (T None d) _) as [a'|] eqn:A'; [|discriminate]. injection TS as <-.
      exists [a], [a']. split; [eapply tok_num1; eauto|]. split; [eapply tok_num1; eauto|exact L].
    + cbn [onvals] in P. unfold ss_nvals in P. cbn [s_fmt] in P. rewrite (O1 c HN) in P. cbn [Nat.eqb] in P. injection P as <-.
      cbn [eost] in E. destruct (ONE c _ _ HN E) as (h & A & B). exists h, []. rewrite app_nil_r. auto.
Qed.
Lemma items_shown : forall bo n x i, (n <= N)%nat -> made bo x i -> regular x = true -> shown hb ct allow rec N o x -> forall items bs i',
  resolve true i o = Ok i' -> enc_items (enc hb ct allow n) i' o items = Ok bs ->
  exists ls, omap (fun v => chunks hb rec o (mode_of hb bo) x (Some v)) items = Some ls /\
    concat (map (lay (m_native (mode_of hb bo)) 0) ls) = bs.
Proof.
  intros bo n x i LE M R SH items. induction items as [|v items IH]; intros bs i' RS E.
  - injection E as <-. exists []. split; reflexivity.
  - cbn [enc_items] in E. destruct (enc hb ct allow n i' o [v]) as [b|] eqn:E1; [|discriminate]. cbn [rbind] in E.
    destruct (enc_items _ i' o items) as [b'|] eqn:E2; [|discriminate]. injection E as <-. destruct (IH b' i' RS E2) as (ls & A & B).
    assert (P : penc hb ct allow n i o [v] = Ok b) by (unfold penc; now rewrite RS).
    destruct (made_field _ _ _ M) as (SB & _). destruct (penc_fout hb ct allow bo n o i [v] b SB P) as (ch & F & L).
    pose proof (SH n bo i [v] ch LE M R F) as C. cbn [hd_error] in C. cbn [omap]. rewrite C, A.
    eexists. split; [reflexivity|]. cbn [map concat]. now rewrite L, B.
Qed.
Lemma array_shown : forall n sz x, shown hb ct allow rec N o x -> shown hb ct allow rec N o (XArray n sz x).
Proof.
  intros n sz x SH k bo s vs ch LE M R F. cbn [made regular] in *. destruct M as (HO & i & MI & M). cbn [chunks]. rewrite packed_eq.
  destruct (structy x && Nat.eqb (vals x) 1) eqn:PK.
  - apply andb_prop in PK as [SY VX]. apply Nat.eqb_eq in VX. destruct M as (st & -> & M).
    destruct (single_tok x bo st MI VX) as (t & FM & NV & BO).
    unfold head_ok in HO. apply andb_prop in HO as [HN HS]. destruct n as [z|c].
    + subst s. cbn [fout] in F. destruct F as (b & P & ->). unfold penc in P. cbn [resolve rbind] in P. destruct k as [|k]; [discriminate|].
      cbn [enc enc_step] in P. destruct vs as [|v r]; [discriminate|]. cbn [nth0 rbind hd_error] in *.
      destruct (py_iter v) as [items|] eqn:IT; [|destruct (py_len v); [cbn in P; destruct (negb _); discriminate P|discriminate P]].
      rewrite (py_len_iter _ _ IT) in P. cbn [rbind] in P. destruct (Nat.eqb (List.length items) (Z.to_nat z)) eqn:LN; [|discriminate]. cbn [negb] in P.
      apply Nat.eqb_eq in LN. destruct (ss_mul st _) as [oo|] eqn:MU; [|discriminate]. cbn [rbind] in P.
      destruct (mul_chunks bo st t _ items b oo FM BO MU LN P) as (chs & TS & L).
      destruct (items_chunks x bo st t MI FM NV items chs TS) as (ls & A & <-). rewrite A.
      destruct (Z.of_nat (List.length items) =? z) eqn:Q; [|lia]. cbn [app]. now rewrite L.
    + destruct M as [id ->]. cbn [fout] in F. destruct F as (b & P & ->). unfold penc in P. cbn [resolve rbind] in P. destruct k as [|k]; [discriminate|].
      cbn [enc enc_step] in P. destruct vs as [|v r]; [discriminate|]. cbn [nth0 rbind hd_error] in *.
      destruct (py_len v) as [l|] eqn:PL; [|discriminate]. cbn [rbind] in P. destruct (dynarr_st _ _ _) as [st'|] eqn:D; [|discriminate]. cbn [rbind] in P.
      destruct (py_iter v) as [items|] eqn:IT; [|discriminate]. cbn [rbind] in P. rewrite (py_len_iter _ _ IT) in PL. injection PL as <-.
      destruct (dyn_chunks bo c st t items st' b HN FM NV BO D P) as (h & chs & NB & TS & L).
      destruct (items_chunks x bo st t MI FM NV items chs TS) as (ls & A & <-). rewrite A, NB. now rewrite L.
  - destruct M as [id ->]. cbn [fout] in F. destruct F as (b & P & ->). unfold penc in P. cbn [resolve rbind] in P. destruct k as [|k]; [discriminate|].
    cbn [enc enc_step] in P. destruct (resolve true i o) as [i'|] eqn:RS; [|discriminate]. cbn [rbind] in P.
    destruct vs as [|v r]; [discriminate|]. cbn [nth0 rbind hd_error] in *. destruct (py_iter v) as [items|] eqn:IT; [|discriminate]. cbn [rbind] in P.
    destruct (enc_items _ i' o items) as [bs|] eqn:EI; [|discriminate]. cbn [rbind] in P. rewrite (py_len_iter _ _ IT) in P. cbn [rbind] in P.
    destruct (header_pack_values _ _ _ _) as [hv|] eqn:HV; [|discriminate]. cbn [rbind] in P.
    destruct (eost hb _ hv) as [hd|] eqn:EH; [|discriminate]. injection P as <-.
    destruct (items_shown bo k x i ltac:(lia) MI R SH items bs i' RS EI) as (ls & A & <-).
    destruct (header_chunks bo n sz _ _ hv hd HO HV EH) as (h & h' & H1 & H2 & H3). rewrite A, H1, H2, H3. reflexivity.
Qed.
Lemma char_shown : forall a, shown hb ct allow rec N o (XChar a).
Proof.
  intros a n bo s vs ch LE M R F. cbn [made] in M. pose proof (char_chunks hb ct allow o a bo n s vs ch M F) as H.
  destruct a; cbn [chunks]; try (destruct H as (b' & r & -> & H); exact H).
  destruct (z =? 0) eqn:Z0; [apply Z.eqb_eq in Z0 as ->; congruence|]. destruct H as (b & r & -> & H). cbn [hd_error].
  destruct z; try exact H.
Qed.
Lemma unicode_shown : forall a cd, shown hb ct allow rec N o (XUnicode a cd).
Proof.
  intros a cd n bo s vs ch LE M R F. cbn [made] in M. destruct M as (i & -> & M). cbn [fout] in F. destruct F as (b & P & ->).
  unfold penc in P. cbn [resolve rbind] in P. destruct n as [|n]; [discriminate|]. cbn [enc enc_step] in P.
  destruct vs as [|v r]; [discriminate|]. cbn [nth0 rbind] in P. destruct v; try discriminate. cbn [chunks hd_error].
  destruct (cod_enc cd s) as [y|]; [|discriminate]. cbn [rbind] in P.
  destruct (made_field (XChar a) BO_DEFAULT i M) as (SB & _ & NC & _).
  apply (enc_penc n i [VBytes y] b NC) in P. destruct (penc_fout hb ct allow BO_DEFAULT n o i _ b SB P) as (ch & F & L).
  pose proof (char_chunks hb ct allow o a BO_DEFAULT n i _ ch M F) as H.
  change (mode_of hb BO_DEFAULT) with (machine hb) in *. cbn [machine m_native] in L.
  destruct (match a with KInt z => z =? 0 | _ => false end) eqn:K.
  - subst ch. destruct a; try discriminate K. cbn [string_chunks]. rewrite K. cbn [lay] in *. now subst b.
  - destruct H as (b' & r' & E & H). injection E as <- <-. rewrite H. now rewrite L.
Qed.
Lemma tuple_shown : forall l, Forall (shown hb ct allow rec N o) l -> shown hb ct allow rec N o (XTuple l).
Proof.
  intros l SH n bo s vs ch LE M R F. cbn [made regular] in *. destruct M as (fin & id & id' & sers & i & -> & SM & A2).
  cbn [fout] in F. destruct F as (b & P & ->). unfold penc in P. cbn [resolve rbind] in P. destruct n as [|n]; [discriminate|].
  cbn [enc enc_step] in P. destruct vs as [|v [|]]; try discriminate. cbn [one rbind hd_error] in *.
  destruct (resolve true i o) as [i'|] eqn:RS; [|discriminate]. cbn [rbind] in P. cbn [chunks].
  destruct (py_iter v) as [items|]; [|discriminate]. cbn [rbind] in P.
  assert (P' : penc hb ct allow n i o items = Ok b) by (unfold penc; now rewrite RS).
  assert (FO : Forall (field_ok BO_DEFAULT) sers) by (eapply all2_field; eauto).
  destruct (ssum_rel fin id' sers i) as (FL & RL & AT & _); auto.
  { eapply Forall_impl; [|exact FO]. intros ? (_ & _ & Q & _). exact Q. }
  { apply forallb_forall. rewrite Forall_forall in FO. intros y I. destruct (FO y I) as (_ & _ & _ & Q & _). exact Q. }
  { eapply fields_lossless; eauto. }
  destruct (sum_chunks hb ct allow rec N o BO_DEFAULT n l sers i items b ltac:(lia) A2 SH R FL RL AT P') as (chs & C & L).
  change (mode_of hb BO_DEFAULT) with (machine hb) in *. cbn [machine m_native] in L. rewrite C. now rewrite L.
Qed.
Lemma cond_shown : forall x f d, shown hb ct allow rec N o x -> shown hb ct allow rec N o (XCond x f d).
Proof.
  intros x f d SH n bo s vs ch LE M R F. cbn [made regular] in *. apply andb_prop in R as [R _]. destruct M as (i & -> & M & LD).
  cbn [fout] in F. destruct F as (b & P & ->). unfold penc in P. cbn [resolve] in P. cbn [chunks].
  destruct (f o) as [r|]; [|discriminate]. cbn [rbind] in P. unfold cond_branch in P.
  destruct (key_eqb r (VBool true)).
  - cbn [rbind] in P. destruct (made_field _ _ _ M) as (SB & _ & NC & _). apply (enc_penc n i vs b NC) in P.
    destruct (penc_fout hb ct allow bo n o i vs b SB P) as (ch & F & L). rewrite (SH n bo i vs ch LE M R F). now rewrite L.
  - destruct (key_eqb r (VBool false)); [|destruct (hashable r); discriminate P]. cbn [rbind] in P.
    destruct n; [discriminate|]. cbn in P. now injection P as <-.
Qed.
Lemma pick_shown : forall k m d ms ds s0 n vs b,
  all2 (fun p q => fst p = fst q /\ made BO_DEFAULT (snd p) (snd q)) m ms ->
  match d, ds with None, None => True | Some y, Some t => made BO_DEFAULT y t | _, _ => False end ->
  Forall (fun p => shown hb ct allow rec N o (snd p)) m -> (forall y, d = Some y -> shown hb ct allow rec N o y) ->
  forallb (fun p => regular (snd p)) m = true -> match d with Some y => regular y | None => true end = true ->
  choose ms ds k = Ok s0 -> (n <= N)%nat -> penc hb ct allow n s0 o vs = Ok b ->
  exists cs, pick (fun y => chunks hb rec o (machine hb) y (hd_error vs)) d k m = Some cs /\ lay true 0 cs = b.
Proof.
  intros k m d ms ds s0 n vs b A2 DD SM SD RM RD C LE P. unfold choose in C. destruct (hashable k); [|discriminate].
  assert (DONE : forall y s, made BO_DEFAULT y s -> regular y = true -> shown hb ct allow rec N o y -> penc hb ct allow n s o vs = Ok b ->
    exists cs, chunks hb rec o (machine hb) y (hd_error vs) = Some cs /\ lay true 0 cs = b).
  { intros y s M R SH Q. destruct (made_field _ _ _ M) as (SB & _). destruct (penc_fout hb ct allow BO_DEFAULT n o s vs b SB Q) as (ch & F & L).
    exists ch. split; [exact (SH n BO_DEFAULT s vs ch LE M R F)|exact L]. }
  revert ms A2 C. induction m as [|[k' y] m IH]; intros [|[k2 t] ms] A2 C; try contradiction; cbn [pick map_find] in *.
  - destruct ds as [t|]; [|discriminate]. injection C as ->. destruct d as [y|]; [|contradiction]. eapply DONE; eauto.
  - destruct A2 as [[E M] A2]. cbn [fst snd] in *. subst k2. inversion SM; subst. apply andb_prop in RM as [R1 R2]. cbn [snd] in *.
    destruct (key_eqb k k'); [injection C as ->; eapply DONE; eauto|]. eapply IH; eauto.
Qed.
Theorem expr_shown : forall x, shown hb ct allow rec N o x.
Proof.
  induction x using hx_ind'.
  - intros n bo s vs ch LE M R F. pose proof M as M'. cbn [made] in M. destruct M as [_ ->]. eapply struct_chunks; eauto.
  - intros k bo s vs ch LE M R F. pose proof M as M'. cbn [made] in M. unfold counted in M. destruct (n =? 0) eqn:Z0.
    + subst s. cbn [fout] in F. subst ch. now apply (made_null _ _ M').
    + destruct M as (t & -> & _). eapply struct_chunks; eauto.
  - intros k bo s vs ch LE M R F. pose proof M as M'. cbn [made] in M. unfold counted in M. destruct (n =? 0) eqn:Z0.
    + subst s. cbn [fout] in F. subst ch. now apply (made_null _ _ M').
    + destruct M as (t & -> & _). eapply struct_chunks; eauto.
  - apply char_shown.
  - apply unicode_shown.
  - now apply array_shown.
  - now apply tuple_shown.
  - now apply cond_shown.
  - intros n bo s vs ch LE M R F. pose proof M as M'. cbn [made] in M. destruct M as (st & st' & -> & _). eapply struct_chunks; eauto.
  - intros n bo s vs ch LE M R F. cbn [made regular] in *. apply andb_prop in R as [RM RD]. destruct M as (i & ms & ds & -> & A2 & DD).
    cbn [fout] in F. destruct F as (b & P & ->). unfold penc in P. cbn [resolve rbind] in P. destruct n as [|n]; [discriminate|].
    cbn [enc enc_step] in P. cbn [chunks]. destruct (f o) as [r|]; [|discriminate]. cbn [rbind] in P.
    destruct (choose ms ds r) as [s0|] eqn:C; [|discriminate]. cbn [rbind] in P.
    change (penc hb ct allow n s0 o vs = Ok b) in P.
    destruct (pick_shown r m d ms ds s0 n vs b A2 DD H0 H1 RM RD C ltac:(lia) P) as (cs & PK & L). rewrite PK, L.
    unfold choose in C. destruct (hashable r); [reflexivity|discriminate].
  - intros n bo s vs ch LE M R F. cbn [made regular] in *. apply andb_prop in R as [RM RD]. destruct M as (i & ra' & ms & ds & -> & _ & A2 & DD).
    cbn [fout] in F. destruct F as (b & P & ->). unfold penc in P. cbn [resolve rbind] in P. destruct n as [|n]; [discriminate|].
    cbn [enc enc_step] in P. cbn [chunks]. destruct (f o) as [r|]; [|discriminate]. cbn [rbind] in P.
    destruct (choose ms ds r) as [s0|] eqn:C; [|discriminate]. cbn [rbind] in P.
    change (penc hb ct allow n s0 o vs = Ok b) in P.
    destruct (pick_shown r m d ms ds s0 n vs b A2 DD H0 H1 RM RD C ltac:(lia) P) as (cs & PK & L). rewrite PK, L.
    unfold choose in C. destruct (hashable r); [reflexivity|discriminate].
  - intros n bo s vs ch LE M R F. cbn [made] in M. destruct M as [id ->]. exact (class_shown n id c vs ch LE F).
  - intros n bo s vs ch LE M R F. cbn [made] in M. destruct M as [id ->]. apply (class_shown n id (p_cls o) vs ch LE). exact F.
  - intros n bo s vs ch LE M. contradiction.
  - intros n bo s vs ch LE M. contradiction.
Qed.
End Exprs.

(** ** classes *)
Lemma with_bo_twice : forall bo bo' s, with_bo bo' (with_bo bo s) = with_bo bo' s.
Proof.
  intros bo bo'. induction s using ser_ind'; cbn [with_bo]; try reflexivity.
  - rewrite IHs. destruct h; reflexivity.
  - now rewrite IHs.
  - f_equal. rewrite map_map. apply map_ext_in. rewrite Forall_forall in H. auto.
  - f_equal. rewrite map_map. apply map_ext_in. rewrite Forall_forall in H. auto.
Qed.
Lemma fields_members : forall (f : hx -> option value -> option (list chunk)) l d vs,
  forallb (fun p => regular (snd p) && (padding (snd p) || takes (snd p)) && negb (String.eqb (fst p) "self")) l = true ->
  get_attrs (filter (fun a => negb (String.eqb a "self")) (map fst (filter (fun p => negb (padding (snd p))) l))) d = Ok vs ->
  fields f l d = members f (map snd l) vs.
Proof.
  intros f l d. unfold get_attrs. induction l as [|[a x] l IH]; intros vs R G; [reflexivity|].
  cbn [forallb fst snd] in R. apply andb_prop in R as [R1 R2]. apply andb_prop in R1 as [R1 R4]. apply andb_prop in R1 as [_ R3].
  cbn [filter map fst snd] in *. destruct (padding x) eqn:PX.
  - assert (TK : takes x = false) by (destruct x; try discriminate PX; reflexivity). cbn [negb] in G.
    cbn [fields members]. rewrite TK. destruct (f x None); [|reflexivity]. now rewrite (IH vs R2 G).
  - cbn [orb] in R3. cbn [negb map filter fst] in G. rewrite R4 in G. cbn [rmapM] in G.
    destruct (assoc a d) as [v|] eqn:A; [|discriminate]. cbn [rbind] in G.
    destruct (rmapM _ _) as [vs'|] eqn:Q; [|discriminate]. injection G as <-.
    cbn [fields members]. rewrite R3, A. cbn [hd_error tl]. destruct (f x (Some v)); [|reflexivity]. now rewrite (IH vs' R2 eq_refl).
Qed.
Section Classes.
Variable hb : bool.
Variable allow : nat -> nat -> bool.
Variables (sl : list sclass) (l : list cinfo).
Hypothesis CR : classes_rel sl l.
Hypothesis RG : forallb regular_class sl = true.
Let ct := classes l.
Lemma obj_wire : forall N, (forall o x, shown hb ct allow (wire hb sl N) N o x) ->
  forall n c ov d b, (n <= N)%nat -> enc_obj_step ct (enc hb ct allow n) c ov d = Ok b -> wire hb sl (S N) c ov d = Some b.
Proof.
  intros N SH n c ov d b LE E. destruct CR as [LEN R]. unfold enc_obj_step, ct, classes in E.
  destruct (nth_error l c) as [i|] eqn:NI; [|discriminate]. cbn [option_map] in E.
  destruct (nth_error sl c) as [sc|] eqn:NS.
  2:{ apply nth_error_None in NS. assert (c < List.length l)%nat by (apply nth_error_Some; congruence). lia. }
  destruct (R c sc i NS NI) as (_ & BO & _ & AT & fin & id & sers & s & SM & CS & A2).
  cbn [wire]. rewrite NS. set (bo := match ov with Some bo => bo | None => sc_bo sc end).
  assert (OS : obj_ser (ci_def i) ov = with_bo bo s) by (unfold obj_ser, bo; rewrite CS; destruct ov; [apply with_bo_twice|reflexivity]).
  rewrite OS in E. destruct (resolve true (with_bo bo s) (PO c false d)) as [s'|] eqn:RS; [|discriminate]. cbn [rbind] in E.
  rewrite AT in E. destruct (get_attrs (sc_attrs sc) d) as [vs|] eqn:GA; [|discriminate]. cbn [rbind] in E.
  assert (P : penc hb ct allow n (with_bo bo s) (PO c false d) vs = Ok b) by (unfold penc; now rewrite RS).
  assert (FO : Forall (field_ok BO_DEFAULT) sers) by (eapply all2_field; eauto).
  destruct (ssum_rel fin id sers s) as (FL & RL & ATM & _); auto.
  { eapply Forall_impl; [|exact FO]. intros ? (_ & _ & Q & _). exact Q. }
  { apply forallb_forall. rewrite Forall_forall in FO. intros y I. destruct (FO y I) as (_ & _ & _ & Q & _). exact Q. }
  { eapply fields_lossless; eauto. }
  assert (RC : regular_class sc = true) by (rewrite forallb_forall in RG; apply RG; eapply nth_error_In; eauto).
  assert (RX : forallb regular (map snd (fields_of (sc_anns sc))) = true).
  { rewrite forallb_map. unfold regular_class in RC. rewrite forallb_forall in *. intros p I. specialize (RC p I).
    apply andb_prop in RC as [RC _]. now apply andb_prop in RC as [RC _]. }
  destruct (sum_chunks hb ct allow (wire hb sl N) N (PO c false d) bo n _ (map (with_bo bo) sers) (with_bo bo s) vs b LE
    (all2_bo BO_DEFAULT bo _ _ A2)) as (chs & C & L); auto.
  { apply Forall_forall. intros x _. apply SH. }
  { now apply flat_bo. }
  { rewrite (parts_bo bo s FL), runs_bo. now apply rel_bo. }
  { rewrite runs_bo. apply Forall_forall. intros y I. apply in_map_iff in I as (z & <- & I). apply atom_bo. rewrite Forall_forall in ATM. auto. }
  rewrite (fields_members _ _ _ vs); [|exact RC|].
  - fold bo. now rewrite C, L.
  - rewrite <- GA. unfold sc_attrs, fields_of. do 3 f_equal. clear. induction (sc_anns sc) as [|p a IH]; [reflexivity|]. cbn [filter].
    destruct (serial (snd p)); cbn [filter andb]; [|exact IH]. destruct (negb (padding (snd p))); [now rewrite IH|exact IH].
Qed.
Theorem all_shown : forall N o x, shown hb ct allow (wire hb sl N) N o x.
Proof.
  induction N as [|N IH]; intros o x; apply expr_shown.
  - intros. lia.
  - intros n c ov d b LE E. apply (obj_wire N IH n c ov d b); [lia|exact E].
Qed.
Theorem wire_complete : forall n c ov d b, enc_obj hb ct allow n (VObj c ov d) = Ok b -> wire hb sl (S n) c ov d = Some b.
Proof. intros n c ov d b E. eapply (obj_wire n (all_shown n)); [apply le_n|exact E]. Qed.
End Classes.
