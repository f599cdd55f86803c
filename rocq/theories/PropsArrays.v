(** Properties C21, C22 and the array part of C27: lengths and headers of arrays. *)
From Verif Require Import Base Floats Value StructMod Format Ser Exec Pure BaseFacts StructFacts FormatFacts
  SerFacts RefPack RefUnpack Leaf Wire Sample User Field DecFacts RoundTrip PropsStrings PropsNum.

(** ** Array headers
    Header[n], Header[n, uintN], Header[uintN], Header[uintN, uintM] (hint_types/arrays.py:29-76) *)
Inductive ahdr :=
| HStatic (len : nat)
| HStaticSize (len : nat) (bo : border) (dc : code)
| HDyn (bo : border) (cc : code)
| HDynSize (bo : border) (cc dc : code).
(** the header serializer and static length given to ArraySerializer (hint_types/arrays.py:120-134) *)
Definition ahdr_ser (h : ahdr) : res (option sspec * Z) :=
  match h with
  | HStatic l => Ok (None, Z.of_nat l)
  | HStaticSize l bo dc => Ok (Some (uint_ser bo dc), Z.of_nat l)
  | HDyn bo cc => Ok (Some (uint_ser bo cc), -1)
  | HDynSize bo cc dc => rdo st <- ss_add (uint_ser bo cc) (uint_ser bo dc); Ok (Some st, -1)
  end.
Definition ahdr_wf (h : ahdr) : Prop :=
  match h with
  | HStatic _ => True
  | HStaticSize _ _ c | HDyn _ c => unsigned c
  | HDynSize _ c d => unsigned c /\ unsigned d
  end.

(** *** the wire format of a header, for [count] items of [dsz] bytes in total *)
Definition fits (hb : bool) (bo : border) (c : code) (z : Z) : Prop := 0 <= z < 256 ^ Z.of_nat (hsize hb bo c).
Definition hdr_count_ok (hb : bool) (h : ahdr) (count : Z) : Prop :=
  match h with
  | HStatic l | HStaticSize l _ _ => count = Z.of_nat l
  | HDyn bo c | HDynSize bo c _ => fits hb bo c count
  end.
Definition hdr_size_ok (hb : bool) (h : ahdr) (dsz : Z) : Prop :=
  match h with HStaticSize _ bo d | HDynSize bo _ d => fits hb bo d dsz | _ => True end.
Definition has_size (h : ahdr) : bool := match h with HStaticSize _ _ _ | HDynSize _ _ _ => true | _ => false end.
(** native alignment between the two header fields *)
Definition hdr_pad (hb : bool) (bo : border) (c d : code) : nat :=
  let a := calign (m_native (mode_of hb bo)) d in ((a - hsize hb bo c mod a) mod a)%nat.
Definition hdr_bytes (hb : bool) (h : ahdr) (count dsz : Z) : bytes :=
  match h with
  | HStatic _ => []
  | HStaticSize _ bo d => uint_bytes (hbig hb bo) (hsize hb bo d) dsz
  | HDyn bo c => uint_bytes (hbig hb bo) (hsize hb bo c) count
  | HDynSize bo c d => uint_bytes (hbig hb bo) (hsize hb bo c) count ++ zeros (hdr_pad hb bo c d)
                       ++ uint_bytes (hbig hb bo) (hsize hb bo d) dsz
  end.
Definition fitsb (hb : bool) (bo : border) (c : code) (z : Z) : bool :=
  (0 <=? z) && (z <? 256 ^ Z.of_nat (hsize hb bo c)).
Lemma fitsb_spec : forall hb bo c z, fitsb hb bo c z = true <-> fits hb bo c z.
Proof. intros. unfold fitsb, fits. lia. Qed.

Section Hdr.
Variable hb : bool.

Lemma two_ser : forall bo c d, unsigned c -> unsigned d -> exists st,
  ss_add (uint_ser bo c) (uint_ser bo d) = Ok st /\ s_bo st = bo /\ s_act st = None /\
  forallb int_tok (s_fmt st) = true /\ layout_eq (expand (s_fmt st)) [UAlign c; UVal c; UAlign d; UVal d].
Proof.
  intros bo c d C D. unfold ss_add. cbn [uint_ser s_act s_bo s_fmt].
  assert (border_eqb bo bo = true) as -> by (destruct bo; reflexivity).
  eexists. split; [reflexivity|]. cbn [s_bo s_act s_fmt]. split; [reflexivity|]. split; [reflexivity|]. split.
  - unfold fold_overlaps. cbn [split_last]. cbn [t_code t_cnt].
    destruct (code_eqb c d) eqn:E; cbn [andb].
    + destruct c; try discriminate C; cbn; reflexivity.
    + destruct c; try discriminate C; destruct d; try discriminate D; reflexivity.
  - eapply layout_eq_trans.
    + apply fold_layout. unfold foldable. cbn [split_last]. reflexivity.
    + rewrite expand_app, !unsigned_expand by assumption. apply layout_eq_refl.
Qed.
Lemma two_est : forall bo c d st x y, unsigned c -> unsigned d -> s_bo st = bo ->
  layout_eq (expand (s_fmt st)) [UAlign c; UVal c; UAlign d; UVal d] ->
  ss_nvals st = 2%nat /\
  ss_size hb st = blen (hdr_bytes hb (HDynSize bo c d) x y) /\
  est hb st [VInt x; VInt y]
  = if fitsb hb bo c x && fitsb hb bo d y then Ok (hdr_bytes hb (HDynSize bo c d) x y) else Err StructError.
Proof.
  intros bo c d st x y C D B [LN LL].
  assert (NV : ss_nvals st = 2%nat) by (unfold ss_nvals, nvals; rewrite LN; reflexivity).
  split; [exact NV|].
  assert (PD : forall m, padding m (csize (m_native m) c) d
               = ((calign (m_native m) d - csize (m_native m) c mod calign (m_native m) d) mod calign (m_native m) d)%nat)
    by reflexivity.
  destruct (LL (ss_mode hb st) O) as (LS & LP & _). split.
  - unfold ss_size, calcsize. rewrite LS. cbn [size_u usize]. rewrite padding_0. cbn [Nat.add].
    cbn [hdr_bytes]. rewrite !blen_app. unfold blen. rewrite !uint_bytes_length, zeros_length.
    unfold ss_mode. rewrite B. unfold hsize, hdr_pad. fold (hsize hb bo c). rewrite PD. unfold hsize. lia.
  - unfold est, st_pack. change (nvals (s_fmt st)) with (ss_nvals st). rewrite NV. cbn [List.length Nat.eqb].
    rewrite LP. cbn [pack_u pack_unit usize]. rewrite padding_0. cbn [zeros repeat List.length Nat.add].
    rewrite pack_val_uint by exact C. unfold ss_mode. rewrite B. fold (hsize hb bo c) (hbig hb bo).
    fold (fitsb hb bo c x). destruct (fitsb hb bo c x) eqn:FX; cbn [andb]; [|reflexivity].
    cbn [rbind]. rewrite uint_bytes_length.
    rewrite pack_val_uint by exact D. fold (hsize hb bo d). fold (fitsb hb bo d y).
    destruct (fitsb hb bo d y); [|reflexivity]. cbn [rbind app]. rewrite app_nil_r. reflexivity.
Qed.

(** what [ahdr_ser] produces *)
Lemma ahdr_ser_ok : forall h, ahdr_wf h -> exists oh static, ahdr_ser h = Ok (oh, static).
Proof.
  intros [l|l bo d|bo c|bo c d] W; cbn [ahdr_ser ahdr_wf] in *; eauto. destruct W as [C D].
  destruct (two_ser bo c d C D) as (st & -> & _). cbn. eauto.
Qed.
Lemma ahdr_hdr_ok : forall h oh static, ahdr_wf h -> ahdr_ser h = Ok (oh, static) -> hdr_ok oh static = true.
Proof.
  intros [l|l bo d|bo c|bo c d] oh static W E; cbn [ahdr_ser ahdr_wf] in E, W.
  - injection E as <- <-. cbn. lia.
  - injection E as <- <-. unfold hdr_ok. destruct (0 <=? Z.of_nat l) eqn:Q; [|lia].
    cbn. unfold unsigned in W. destruct d; try discriminate W; reflexivity.
  - injection E as <- <-. unfold unsigned in W. destruct c; try discriminate W; reflexivity.
  - destruct W as [C D]. destruct (two_ser bo c d C D) as (st & S & B & A & F & L). rewrite S in E.
    injection E as <- <-. unfold hdr_ok. rewrite A, F.
    destruct (two_est bo c d st 0 0 C D B L) as (-> & _). reflexivity.
Qed.
(** the header serializer writes the header *)
Lemma ahdr_pack : forall h oh static count dsz, ahdr_wf h -> ahdr_ser h = Ok (oh, static) ->
  (hdr_count_ok hb h count -> hdr_size_ok hb h dsz ->
     exists hv, header_pack_values oh static count dsz = Ok hv /\ eost hb oh hv = Ok (hdr_bytes hb h count dsz)) /\
  osize hb oh = blen (hdr_bytes hb h count dsz).
Proof.
  intros [l|l bo d|bo c|bo c d] oh static count dsz W E; cbn [ahdr_ser ahdr_wf] in E, W.
  - injection E as <- <-. split; [|reflexivity]. intros -> _. unfold header_pack_values.
    destruct (0 <=? Z.of_nat l) eqn:Q; [|lia]. rewrite Z.eqb_refl. cbn. eauto.
  - injection E as <- <-. split.
    + intros CO SO. cbn in CO, SO. subst count. unfold header_pack_values.
      destruct (0 <=? Z.of_nat l) eqn:Q; [|lia]. rewrite Z.eqb_refl. cbn [negb].
      assert (onvals (Some (uint_ser bo d)) = 1%nat) as ->
        by (cbn [onvals]; unfold ss_nvals, nvals; cbn [s_fmt uint_ser]; rewrite unsigned_expand by exact W; reflexivity).
      cbn [Nat.eqb]. eexists. split; [reflexivity|]. cbn [eost]. rewrite uint_est by (exact W || exact SO). reflexivity.
    + cbn [osize hdr_bytes]. rewrite uint_size by exact W. unfold blen. now rewrite uint_bytes_length.
  - injection E as <- <-. split.
    + intros CO _. cbn in CO. unfold header_pack_values. cbn [Z.leb Z.compare].
      assert (onvals (Some (uint_ser bo c)) = 1%nat) as ->
        by (cbn [onvals]; unfold ss_nvals, nvals; cbn [s_fmt uint_ser]; rewrite unsigned_expand by exact W; reflexivity).
      cbn [Nat.eqb]. eexists. split; [reflexivity|]. cbn [eost]. rewrite uint_est by (exact W || exact CO). reflexivity.
    + cbn [osize hdr_bytes]. rewrite uint_size by exact W. unfold blen. now rewrite uint_bytes_length.
  - destruct W as [C D]. destruct (two_ser bo c d C D) as (st & S & B & A & F & L). rewrite S in E.
    injection E as <- <-. destruct (two_est bo c d st count dsz C D B L) as (NV & SZ & ES). split; [|exact SZ].
    intros CO SO. cbn in CO, SO. unfold header_pack_values. cbn [Z.leb Z.compare onvals]. rewrite NV. cbn [Nat.eqb].
    eexists. split; [reflexivity|]. cbn [eost]. rewrite ES.
    apply fitsb_spec in CO. apply fitsb_spec in SO. now rewrite CO, SO.
Qed.
(** ... and otherwise raises *)
Lemma ahdr_pack_err : forall h oh static count dsz, ahdr_wf h -> ahdr_ser h = Ok (oh, static) ->
  0 <= count -> 0 <= dsz -> ~ (hdr_count_ok hb h count /\ hdr_size_ok hb h dsz) ->
  (rdo hv <- header_pack_values oh static count dsz; eost hb oh hv)
  = Err (match h with
         | HStatic _ => ValueError
         | HStaticSize l _ _ => if count =? Z.of_nat l then StructError else ValueError
         | _ => StructError end).
Proof.
  intros [l|l bo d|bo c|bo c d] oh static count dsz W E C0 D0 N; cbn [ahdr_ser ahdr_wf] in E, W.
  - injection E as <- <-. unfold header_pack_values. destruct (0 <=? Z.of_nat l) eqn:Q; [|lia].
    destruct (count =? Z.of_nat l) eqn:R; [cbn in N; lia|]. reflexivity.
  - injection E as <- <-. unfold header_pack_values. destruct (0 <=? Z.of_nat l) eqn:Q; [|lia].
    destruct (count =? Z.of_nat l) eqn:R; [|reflexivity]. cbn [negb].
    assert (onvals (Some (uint_ser bo d)) = 1%nat) as ->
      by (cbn [onvals]; unfold ss_nvals, nvals; cbn [s_fmt uint_ser]; rewrite unsigned_expand by exact W; reflexivity).
    cbn [Nat.eqb rbind eost]. apply uint_est_big; [exact W|]. cbn in N. unfold fits in N. lia.
  - injection E as <- <-. unfold header_pack_values. cbn [Z.leb Z.compare].
    assert (onvals (Some (uint_ser bo c)) = 1%nat) as ->
      by (cbn [onvals]; unfold ss_nvals, nvals; cbn [s_fmt uint_ser]; rewrite unsigned_expand by exact W; reflexivity).
    cbn [Nat.eqb rbind eost]. apply uint_est_big; [exact W|]. cbn in N. unfold fits in N. lia.
  - destruct W as [C D]. destruct (two_ser bo c d C D) as (st & S & B & A & F & L). rewrite S in E.
    injection E as <- <-. destruct (two_est bo c d st count dsz C D B L) as (NV & SZ & ES).
    unfold header_pack_values. cbn [Z.leb Z.compare onvals]. rewrite NV. cbn [Nat.eqb rbind eost]. rewrite ES.
    destruct (fitsb hb bo c count && fitsb hb bo d dsz) eqn:Q; [|reflexivity].
    apply andb_prop in Q as [Q1 Q2]. apply fitsb_spec in Q1. apply fitsb_spec in Q2. cbn in N. tauto.
Qed.
(** reading a header back *)
Lemma ahdr_unpack : forall h oh static count dsz x, ahdr_wf h -> ahdr_ser h = Ok (oh, static) ->
  hdr_count_ok hb h count -> hdr_size_ok hb h dsz ->
  exists hv, dost hb oh (hdr_bytes hb h count dsz ++ x) = Ok hv /\
    header_unpack_values oh static hv = Ok (count, if has_size h then dsz else -1) /\
    adv (osize hb oh) (hdr_bytes hb h count dsz ++ x) = x.
Proof.
  intros h oh static count dsz x W E CO SO.
  destruct (ahdr_pack h oh static count dsz W E) as [P SZ]. destruct (P CO SO) as (hv & HP & EP).
  destruct (rt_header hb oh static count dsz hv _ x (ahdr_hdr_ok h oh static W E) HP EP) as (D & ds & U & CK).
  exists hv. split; [exact D|]. split.
  - rewrite U. f_equal. f_equal.
    unfold header_pack_values in HP. unfold header_unpack_values in U.
    destruct h; cbn [ahdr_ser ahdr_wf] in E, W.
    + injection E as <- <-. destruct (0 <=? Z.of_nat len) eqn:Q; [|lia]. cbn in U. injection U as _ <-. reflexivity.
    + injection E as <- <-. destruct (0 <=? Z.of_nat len) eqn:Q; [|lia].
      assert (O1 : onvals (Some (uint_ser bo dc)) = 1%nat)
        by (cbn [onvals]; unfold ss_nvals, nvals; cbn [s_fmt uint_ser]; rewrite unsigned_expand by exact W; reflexivity).
      rewrite O1 in *. cbn [Nat.eqb] in *. destruct (negb (count =? Z.of_nat len)); [discriminate|].
      injection HP as <-. cbn in U. injection U as _ <-. reflexivity.
    + injection E as <- <-. cbn [Z.leb Z.compare] in *.
      assert (O1 : onvals (Some (uint_ser bo cc)) = 1%nat)
        by (cbn [onvals]; unfold ss_nvals, nvals; cbn [s_fmt uint_ser]; rewrite unsigned_expand by exact W; reflexivity).
      rewrite O1 in *. cbn [Nat.eqb] in *. injection HP as <-. cbn in U. inversion U; reflexivity.
    + destruct W as [C D']. destruct (two_ser bo cc dc C D') as (st & S & B & A & F & L). rewrite S in E.
      injection E as <- <-. destruct (two_est bo cc dc st count dsz C D' B L) as (NV & _ & _).
      cbn [Z.leb Z.compare onvals] in *. rewrite NV in *. cbn [Nat.eqb] in *. injection HP as <-. cbn in U.
      inversion U; reflexivity.
  - rewrite SZ. unfold adv, blen. rewrite Nat2Z.id. apply skipn_app_len.
Qed.
End Hdr.

(** ** Unpacking one field from a given piece of input with each of the three methods *)
Definition src_of (md : umode) (b : bytes) : src * world :=
  match md with
  | UBuf => (SBuf b, cloud0)
  | UFrom => (SFrom b 0, cloud0)
  | URead => (SRead, W (fun _ => 0) (fun _ => None) [] b 0)
  end.
Definition field_decodes (hb : bool) (ct : nat -> option cdef) (md : umode) (n : nat) (x : ser) (o : pobj)
  (b : bytes) (vs : list value) (z : Z) : Prop :=
  fst (field_unpack hb ct n x o (fst (src_of md b)) (snd (src_of md b))) = Ok (vs, z).
(** [count] times in a row *)
Inductive items_decode (hb : bool) (ct : nat -> option cdef) (md : umode) (n : nat) (x : ser) (o : pobj)
  : nat -> bytes -> list value -> Z -> Prop :=
| ID_nil : forall b, items_decode hb ct md n x o 0 b [] 0
| ID_cons : forall c b vs z l z', field_decodes hb ct md n x o b vs z ->
    items_decode hb ct md n x o c (skipn (Z.to_nat z) b) l z' ->
    items_decode hb ct md n x o (S c) b (vs ++ l) (z + z').

(** [prepack] / [preunpack] of the item does not raise (only a Condition or Self as item can) *)
Definition prepares (packing : bool) (s : ser) (o : pobj) : Prop := is_ok (fst (prep packing s o cloud0)) = true.
(** every nested instance is of a class allowed for its field, when packing [vs] with [s] *)
Definition conforming (hb : bool) (ct : nat -> option cdef) (allow : nat -> nat -> bool) (n : nat) (s : ser) (o : pobj)
  (vs : list value) : Prop := penc hb ct allow n s o vs <> Err Unspecified.

Section Array.
Variable hb : bool.
Variable ct : nat -> option cdef.
Variable allow : nat -> nat -> bool.

Lemma prep_resolve : forall b s o w, fst (prep b s o w) = resolve b s o.
Proof.
  intros b s o w. destruct s; cbn; try reflexivity; unfold lift; try reflexivity.
Qed.
Lemma src_of_ok : forall md b, md_of (fst (src_of md b)) = md /\
  srcok (fst (src_of md b)) (snd (src_of md b)) /\ suffix (fst (src_of md b)) (snd (src_of md b)) = b.
Proof. intros [] b; cbn; repeat split; try lia. apply blen_nonneg. Qed.
Lemma decodes_pdec : forall md n x o b vs z, readable_field ct allow (p_cls o) md x ->
  field_decodes hb ct md n x o b vs z <-> pdec hb ct md n x o b = Ok (vs, z).
Proof.
  intros md n x o b vs z R. destruct (src_of_ok md b) as (M & K & S). unfold field_decodes.
  destruct (field_unpack_spec hb ct allow n x o (fst (src_of md b)) (snd (src_of md b)) ltac:(now rewrite M) K) as (A & _).
  rewrite A, M, S. reflexivity.
Qed.

Lemma array_item_healthy : forall c id h x st, healthy_field ct allow c (SArray id h x st) -> healthy_field ct allow c x.
Proof.
  intros c id h x st (T & C & H). exists T. split; [exact C|]. cbn in H. now apply andb_prop in H as [H _].
Qed.

Lemma enc_items_concat : forall n item o item' items bs, resolve true item o = Ok item' ->
  Forall2 (fun v b => penc hb ct allow n item o [v] = Ok b) items bs ->
  enc_items (enc hb ct allow n) item' o items = Ok (concat bs).
Proof.
  intros n item o item' items bs R F. induction F as [|v b items bs H F IH]; [reflexivity|].
  unfold penc in H. rewrite R in H. cbn [rbind] in H. cbn [enc_items concat]. now rewrite H, IH.
Qed.
Lemma penc_array : forall n id oh static item o items bs, prepares true item o ->
  Forall2 (fun v b => penc hb ct allow n item o [v] = Ok b) items bs ->
  penc hb ct allow (S n) (SArray id oh item static) o [VList items]
  = rdo hd <- (rdo hv <- header_pack_values oh static (Z.of_nat (List.length items)) (blen (concat bs)); eost hb oh hv);
    Ok (hd ++ concat bs).
Proof.
  intros n id oh static item o items bs P F. unfold prepares in P. rewrite prep_resolve in P.
  unfold penc. cbn [resolve rbind enc enc_step].
  destruct (resolve true item o) as [item'|] eqn:R; [|discriminate]. cbn [rbind nth0 py_iter].
  rewrite (enc_items_concat n item o item' items bs R F). cbn [rbind py_len].
  destruct (header_pack_values _ _ _ _); reflexivity.
Qed.
Lemma dec_items_iff : forall md n item o item' count b l z, readable_field ct allow (p_cls o) md item ->
  resolve false item o = Ok item' ->
  items_decode hb ct md n item o count b l z <-> dec_items (dec hb ct md n) item' o count b = Ok (l, z).
Proof.
  intros md n item o item' count b l z RF R. split.
  - induction 1 as [|c b vs z l z' H ID IH]; [reflexivity|].
    apply decodes_pdec in H; [|exact RF]. unfold pdec in H. rewrite R in H. cbn [rbind] in H. cbn [dec_items].
    unfold adv. now rewrite H; cbn [rbind]; rewrite IH.
  - revert b l z. induction count as [|c IH]; intros b l z H; cbn [dec_items] in H.
    + injection H as <- <-. constructor.
    + destruct (dec hb ct md n item' o b) as [[vs k]|] eqn:E; [|discriminate]. cbn [rbind] in H.
      destruct (dec_items (dec hb ct md n) item' o c (adv k b)) as [[l' k']|] eqn:E2; [|discriminate].
      cbn [rbind] in H. injection H as <- <-. constructor; [|now apply IH].
      apply decodes_pdec; [exact RF|]. unfold pdec. now rewrite R.
Qed.
End Array.

Lemma Forall2_impl' : forall A B (P Q : A -> B -> Prop) l l', (forall a b, P a b -> Q a b) ->
  Forall2 P l l' -> Forall2 Q l l'.
Proof. intros A B P Q l l' H. induction 1; constructor; auto. Qed.

(** C22 (and the layout of every other array with a general item type): the header holds the number of
    items and the number of bytes of the packed items, the items follow *)
Theorem C22_pack : forall hb ct allow n id h oh static item o items bs,
  ahdr_wf h -> ahdr_ser h = Ok (oh, static) ->
  healthy_field ct allow (p_cls o) (SArray id oh item static) -> prepares true item o ->
  Forall2 (fun v b => conforming hb ct allow n item o [v] /\ field_writes hb ct n item o [v] b) items bs ->
  hdr_count_ok hb h (Z.of_nat (List.length items)) -> hdr_size_ok hb h (blen (concat bs)) ->
  field_writes hb ct (S n) (SArray id oh item static) o [VList items]
    (hdr_bytes hb h (Z.of_nat (List.length items)) (blen (concat bs)) ++ concat bs).
Proof.
  intros hb ct allow n id h oh static item o items bs W E H P F CO SO.
  apply (penc_writes hb ct allow); [exact H|].
  assert (HI := array_item_healthy _ _ _ _ _ _ _ H).
  rewrite (penc_array hb ct allow n id oh static item o items bs P).
  - destruct (ahdr_pack hb h oh static (Z.of_nat (List.length items)) (blen (concat bs)) W E) as [A _].
    destruct (A CO SO) as (hv & -> & B). cbn [rbind]. rewrite B. reflexivity.
  - eapply Forall2_impl'; [|exact F]. intros v b [C D]. eapply writes_penc; eauto.
Qed.
Print Assumptions C22_pack.
(** otherwise an exception: ValueError for a wrong static length, struct.error for a count or data size
    that does not fit *)
Theorem C22_pack_error : forall hb ct allow n id h oh static item o items bs,
  ahdr_wf h -> ahdr_ser h = Ok (oh, static) ->
  healthy_field ct allow (p_cls o) (SArray id oh item static) -> prepares true item o ->
  Forall2 (fun v b => conforming hb ct allow n item o [v] /\ field_writes hb ct n item o [v] b) items bs ->
  ~ (hdr_count_ok hb h (Z.of_nat (List.length items)) /\ hdr_size_ok hb h (blen (concat bs))) ->
  field_refuses hb ct (S n) (SArray id oh item static) o [VList items]
    (match h with
     | HStatic _ => ValueError
     | HStaticSize l _ _ => if Nat.eqb (List.length items) l then StructError else ValueError
     | _ => StructError end).
Proof.
  intros hb ct allow n id h oh static item o items bs W E H P F N.
  assert (HI := array_item_healthy _ _ _ _ _ _ _ H).
  assert (Q := ahdr_pack_err hb h oh static (Z.of_nat (List.length items)) (blen (concat bs)) W E ltac:(lia)
                 (blen_nonneg _) N).
  assert (EQ : match h with
     | HStatic _ => ValueError
     | HStaticSize l _ _ => if Nat.eqb (List.length items) l then StructError else ValueError
     | _ => StructError end = match h with
         | HStatic _ => ValueError
         | HStaticSize l _ _ => if Z.of_nat (List.length items) =? Z.of_nat l then StructError else ValueError
         | _ => StructError end).
  { destruct h; try reflexivity. destruct (Nat.eqb _ _) eqn:A, (_ =? _) eqn:B; try reflexivity; lia. }
  rewrite EQ. apply (penc_refuses hb ct allow); [exact H| |].
  - destruct h; try discriminate. destruct (_ =? _); discriminate.
  - rewrite (penc_array hb ct allow n id oh static item o items bs P), Q; [reflexivity|].
    eapply Forall2_impl'; [|exact F]. intros v b [C D]. eapply writes_penc; eauto.
Qed.
Print Assumptions C22_pack_error.

(** unpacking: the count of the header decides how many items are read; if the header holds a data size
    and the items consumed any other number of bytes, ValueError *)
Theorem C22_unpack : forall hb ct allow n id h oh static item o s w count dsz rest l z,
  ahdr_wf h -> ahdr_ser h = Ok (oh, static) ->
  readable_field ct allow (p_cls o) (md_of s) (SArray id oh item static) -> prepares false item o -> srcok s w ->
  suffix s w = hdr_bytes hb h count dsz ++ rest -> hdr_count_ok hb h count -> hdr_size_ok hb h dsz ->
  items_decode hb ct (md_of s) n item o (Z.to_nat count) rest l z ->
  (has_size h = false \/ z = dsz ->
     field_reads hb ct (S n) (SArray id oh item static) o s w [VList l] (blen (hdr_bytes hb h count dsz) + z)) /\
  (has_size h = true -> z <> dsz -> field_rejects hb ct (S n) (SArray id oh item static) o s w ValueError).
Proof.
  intros hb ct allow n id h oh static item o s w count dsz rest l z W E R P K SU CO SO ID.
  assert (RI : readable_field ct allow (p_cls o) (md_of s) item).
  { destruct R as (A & B & C). split; [eapply array_item_healthy; eauto|]. split; [exact B|]. exact C. }
  unfold prepares in P. rewrite prep_resolve in P. destruct (resolve false item o) as [item'|] eqn:RE; [|discriminate].
  apply (dec_items_iff hb ct allow _ _ _ _ item') in ID; [|exact RI|exact RE].
  destruct (ahdr_unpack hb h oh static count dsz rest W E CO SO) as (hv & D & U & A).
  assert (PD : pdec hb ct (md_of s) (S n) (SArray id oh item static) o (suffix s w)
    = rdo _ <- check_data_size (if has_size h then dsz else -1) z; Ok ([VList l], osize hb oh + z)).
  { unfold pdec. cbn [resolve rbind dec dec_step]. rewrite SU, D. cbn [rbind]. rewrite U. cbn [rbind].
    rewrite RE. cbn [rbind]. rewrite A, ID. reflexivity. }
  destruct (ahdr_pack hb h oh static count dsz W E) as [_ OS]. rewrite OS in PD.
  split.
  - intros Q. apply (pdec_reads hb ct allow); [exact R|exact K|]. rewrite PD.
    assert (check_data_size (if has_size h then dsz else -1) z = Ok tt) as ->.
    { unfold check_data_size. destruct Q as [-> | ->]; [reflexivity|]. destruct (has_size h); [|reflexivity].
      rewrite Z.eqb_refl. cbn. now rewrite andb_false_r. }
    reflexivity.
  - intros HS NE. apply (pdec_rejects hb ct allow); [exact R|exact K|]. rewrite PD, HS.
    unfold check_data_size. assert (0 <= dsz) by (destruct h; try discriminate HS; cbn in SO; unfold fits in SO; lia).
    destruct (0 <=? dsz) eqn:Q1; [|lia]. destruct (dsz =? z) eqn:Q2; [lia|]. reflexivity.
Qed.
Print Assumptions C22_unpack.
(** conversely, whatever is accepted consists of [count] items occupying exactly the stored size *)
Theorem C22_unpack_sound : forall hb ct allow n id h oh static item o s w count dsz rest vs z,
  ahdr_wf h -> ahdr_ser h = Ok (oh, static) ->
  readable_field ct allow (p_cls o) (md_of s) (SArray id oh item static) -> srcok s w ->
  suffix s w = hdr_bytes hb h count dsz ++ rest -> hdr_count_ok hb h count -> hdr_size_ok hb h dsz ->
  fst (field_unpack hb ct (S n) (SArray id oh item static) o s w) = Ok (vs, z) ->
  exists l, vs = [VList l] /\
    items_decode hb ct (md_of s) n item o (Z.to_nat count) rest l (z - blen (hdr_bytes hb h count dsz)) /\
    (has_size h = true -> z = blen (hdr_bytes hb h count dsz) + dsz).
Proof.
  intros hb ct allow n id h oh static item o s w count dsz rest vs z W E R K SU CO SO F.
  assert (RI : readable_field ct allow (p_cls o) (md_of s) item).
  { destruct R as (A & B & C). split; [eapply array_item_healthy; eauto|]. split; [exact B|]. exact C. }
  apply (reads_pdec hb ct allow) in F; [|exact R|exact K].
  destruct (ahdr_unpack hb h oh static count dsz rest W E CO SO) as (hv & D & U & A).
  destruct (ahdr_pack hb h oh static count dsz W E) as [_ OS].
  unfold pdec in F. cbn [resolve rbind dec dec_step] in F. rewrite SU, D in F. cbn [rbind] in F. rewrite U in F.
  cbn [rbind] in F. destruct (resolve false item o) as [item'|] eqn:RE; [|discriminate]. cbn [rbind] in F.
  rewrite A in F. destruct (dec_items (dec hb ct (md_of s) n) item' o (Z.to_nat count) rest) as [[l k]|] eqn:DI; [|discriminate].
  cbn [rbind] in F. destruct (check_data_size _ k) eqn:CK; [|discriminate]. cbn [rbind] in F. injection F as <- <-.
  exists l. split; [reflexivity|]. rewrite OS. split.
  - replace (blen (hdr_bytes hb h count dsz) + k - blen (hdr_bytes hb h count dsz)) with k by lia.
    now apply (dec_items_iff hb ct allow _ _ _ _ item').
  - intros HS. rewrite HS in CK. unfold check_data_size in CK.
    assert (0 <= dsz) by (destruct h; try discriminate HS; cbn in SO; unfold fits in SO; lia).
    destruct (0 <=? dsz) eqn:Q1; [|lia]. destruct (dsz =? k) eqn:Q2; [lia|discriminate].
Qed.
Print Assumptions C22_unpack_sound.

Definition c22_ser : ser :=
  SArray 1 (Some (SS BO_DEFAULT [T None CB; T None CH] None)) (SDynChar 2 (uint_ser BO_DEFAULT CB)) (-1).
Example C22_nontrivial :
  let h := HDynSize BO_DEFAULT CB CH in
  let o := PO 0 false [] in
  let items := [VBytes [x41]; VBytes [x42; x43]] in
  ahdr_wf h /\ ahdr_ser h = Ok (Some (SS BO_DEFAULT [T None CB; T None CH] None), -1) /\
  (forall md, md <> UFrom -> readable_field no_classes Nat.eqb 0 md c22_ser) /\
  Forall2 (fun v b => conforming false no_classes Nat.eqb 1 (SDynChar 2 (uint_ser BO_DEFAULT CB)) o [v] /\
     field_writes false no_classes 1 (SDynChar 2 (uint_ser BO_DEFAULT CB)) o [v] b) items [[x01; x41]; [x02; x42; x43]] /\
  hdr_bytes false h 2 5 = [x02; x00; x05; x00] /\
  items_decode false no_classes UBuf 1 (SDynChar 2 (uint_ser BO_DEFAULT CB)) o 2 [x01; x41; x02; x42; x43; x00] items 5 /\
  fst (field_unpack false no_classes 2 c22_ser o (SBuf [x02; x00; x06; x00; x01; x41; x02; x42; x43; x00]) cloud0) = Err ValueError.
Proof.
  cbv zeta. split; [split; reflexivity|]. split; [reflexivity|]. split.
  { intros md _. split; [|split].
    - exists no_sets. split; [apply no_classes_ok|reflexivity].
    - intros c cd. discriminate.
    - reflexivity. }
  split.
  { assert (HF : forall s, leaf s = true -> healthy_field no_classes Nat.eqb 0 s)
      by (intros s L; exists no_sets; split; [apply no_classes_ok|now apply leaf_hc]).
    repeat constructor; try discriminate; apply (penc_writes false no_classes Nat.eqb);
      try (apply HF; reflexivity); reflexivity. }
  split; [reflexivity|]. split; [|reflexivity].
  change [VBytes [x41]; VBytes [x42; x43]] with ([VBytes [x41]] ++ [VBytes [x42; x43]] ++ []).
  apply (ID_cons _ _ _ _ _ _ 1 _ _ 2 _ 3); [reflexivity|]. cbn [skipn Z.to_nat Pos.to_nat Pos.iter_op Nat.add].
  apply (ID_cons _ _ _ _ _ _ 0 _ _ 3 _ 0); [reflexivity|]. constructor.
Qed.

(** ** C21 *)
(** basic item types: one struct specifier, one value (hint_types/arrays.py:105-118) *)
Definition basic_item (item : sspec) : bool :=
  match s_fmt item with [t] => Nat.eqb (nvals [t]) 1 | _ => false end && ss_wf item.

Lemma basic_mul : forall item n, basic_item item = true -> 1 <= n -> exists st,
  ss_mul item n = Ok (Some st) /\ s_bo st = s_bo item /\ ss_nvals st = Z.to_nat n /\
  s_act st = option_map (fun acts => List.concat (repeat acts (Z.to_nat n))) (s_act item) /\
  layout_eq (expand (s_fmt st)) (expand (repeat_fmt (s_fmt item) (Z.to_nat n))).
Proof.
  intros [bo f act] n B N. unfold basic_item in B. cbn [s_fmt] in B. apply andb_prop in B as [B W].
  destruct f as [|t [|]]; try discriminate. apply Nat.eqb_eq in B.
  assert (NV : nvals (repeat_fmt [t] (Z.to_nat n)) = Z.to_nat n) by (rewrite nvals_repeat, B; lia).
  destruct act as [acts|].
  - destruct (mul_action_layout bo [t] acts n eq_refl N) as (g & E & L). exists (SS bo g (Some (List.concat (repeat acts (Z.to_nat n))))).
    split; [exact E|]. split; [reflexivity|]. split; [|split; [reflexivity|exact L]].
    unfold ss_nvals, nvals. cbn [s_fmt]. rewrite (proj1 L). exact NV.
  - destruct (mul_layout bo [t] n eq_refl N) as (g & E & L). exists (SS bo g None).
    split; [exact E|]. split; [reflexivity|]. split; [|split; [reflexivity|exact L]].
    unfold ss_nvals, nvals. cbn [s_fmt]. rewrite (proj1 L). exact NV.
Qed.
Lemma basic_mul_wf : forall item n st, basic_item item = true -> 1 <= n -> ss_mul item n = Ok (Some st) -> ss_wf st = true.
Proof.
  intros item n st B N E. destruct (basic_mul item n B N) as (st' & E' & _ & NV & A & _). rewrite E in E'. injection E' as <-.
  unfold basic_item in B. apply andb_prop in B as [B W]. unfold ss_wf in *. rewrite A.
  destruct (s_act item) as [acts|]; [|reflexivity]. cbn [option_map]. rewrite NV. apply Nat.eqb_eq in W. apply Nat.eqb_eq.
  assert (ss_nvals item = 1%nat).
  { unfold ss_nvals. destruct (s_fmt item) as [|t [|]]; try discriminate. now apply Nat.eqb_eq. }
  generalize (Z.to_nat n) as k. induction k; [reflexivity|]. cbn [repeat List.concat]. rewrite app_length, IHk. lia.
Qed.

Lemma pack_S : forall hb ct n s, pack hb ct (S n) s = pack_step hb ct (pack hb ct n) s.
Proof. reflexivity. Qed.
Lemma unpack_S : forall hb ct n x, unpack hb ct (S n) x = unpack_step hb ct (unpack hb ct n) x.
Proof. reflexivity. Qed.

(** array[Header[n], basic]: any state, any class table, any of the three methods *)
Theorem C21_basic_pack : forall hb ct n len item k v l w, py_len v = Ok l -> l <> len ->
  fst (pack hb ct (S n) (SStaticArr len item) k [v] w) = Err ValueError.
Proof.
  intros hb ct n len item k v l w E N. rewrite pack_S. cbn [pack_step]. unfold bind, lift. cbn [nth0]. rewrite E.
  destruct (Nat.eqb l len) eqn:Q; [apply Nat.eqb_eq in Q; contradiction|]. reflexivity.
Qed.
Print Assumptions C21_basic_pack.
Theorem C21_basic_unpack : forall hb ct n len item s w vs w', basic_item item = true ->
  unpack hb ct (S n) (SStaticArr len item) s w = (Ok vs, w') -> exists l, vs = [VList l] /\ List.length l = len.
Proof.
  intros hb ct n len item s w vs w' B H. rewrite unpack_S in H. cbn [unpack_step] in H.
  apply bind_ok in H as (o & w1 & E & H). unfold lift in E. injection E as E <-.
  apply bind_ok in H as (us & w2 & T & H). cbn in H. injection H as <- <-. exists us. split; [reflexivity|].
  destruct (Z.of_nat len =? 0) eqn:Z0.
  - assert (ss_mul item (Z.of_nat len) = Ok None) as E' by (unfold ss_mul, ss_mul_impl; rewrite Z0; reflexivity).
    rewrite E' in E. injection E as <-. cbn in T. injection T as <- <-. cbn. lia.
  - destruct (basic_mul item (Z.of_nat len) B ltac:(lia)) as (st & E' & _ & NV & _). rewrite E' in E. injection E as <-.
    cbn [take_ostruct] in T. apply take_struct_len in T; [|eapply basic_mul_wf; eauto; lia]. rewrite T, NV. lia.
Qed.
Print Assumptions C21_basic_unpack.

(** any other item type *)
Lemma pack_array_static : forall hb ct n id h item len k items w, List.length items <> len ->
  is_ok (fst (pack hb ct (S n) (SArray id h item (Z.of_nat len)) k [VList items] w)) = false.
Proof.
  intros hb ct n id h item len k items w N. rewrite pack_S. cbn [pack_step].
  assert (HP : forall z, header_pack_values h (Z.of_nat len) (Z.of_nat (List.length items)) z = Err ValueError).
  { intros z. unfold header_pack_values. destruct (0 <=? Z.of_nat len) eqn:Q; [|lia].
    destruct (_ =? _) eqn:R; [lia|reflexivity]. }
  unfold bind, lift. cbn [nth0 py_len py_iter].
  destruct k; destruct (get_obj id w) as [[o|] w1]; try reflexivity; destruct (prep true item o w1) as [[i'|] w2]; try reflexivity;
    match goal with |- context [pack_items ?a ?b ?c ?d ?e ?f ?g] => destruct (pack_items a b c d e f g) as [[[bs z]|] w3] end;
    try reflexivity; rewrite HP; reflexivity.
Qed.
Theorem C21_pack : forall hb ct n id h item len o k items w, List.length items <> len ->
  is_ok (fst (field_pack hb ct n (SArray id h item (Z.of_nat len)) o k [VList items] w)) = false.
Proof.
  intros hb ct n id h item len o k items w N. unfold field_pack, bind. cbn [prep]. unfold bind, set_obj, ret.
  destruct n; [reflexivity|]. pose proof (pack_array_static hb ct n id h item len k items) as H.
  match goal with |- context [pack hb ct (S n) ?s k ?v ?w0] => specialize (H w0 N); destruct (pack hb ct (S n) s k v w0) as [[b|e] w2] end.
  - discriminate H.
  - reflexivity.
Qed.
Print Assumptions C21_pack.
(** the exception is ValueError when the items themselves can be packed *)
Theorem C21_pack_error : forall hb ct allow n id h oh static item o items bs len,
  (h = HStatic len \/ exists bo d, h = HStaticSize len bo d /\ unsigned d) -> ahdr_ser h = Ok (oh, static) ->
  healthy_field ct allow (p_cls o) (SArray id oh item static) -> prepares true item o ->
  Forall2 (fun v b => conforming hb ct allow n item o [v] /\ field_writes hb ct n item o [v] b) items bs ->
  List.length items <> len ->
  field_refuses hb ct (S n) (SArray id oh item static) o [VList items] ValueError.
Proof.
  intros hb ct allow n id h oh static item o items bs len HH E H P F N.
  assert (W : ahdr_wf h) by (destruct HH as [->|(bo & d & -> & U)]; [exact I|exact U]).
  assert (NN : ~ (hdr_count_ok hb h (Z.of_nat (List.length items)) /\ hdr_size_ok hb h (blen (concat bs)))).
  { destruct HH as [->|(bo & d & -> & U)]; cbn; lia. }
  pose proof (C22_pack_error hb ct allow n id h oh static item o items bs W E H P F NN) as R.
  destruct HH as [->|(bo & d & -> & U)]; [exact R|]. destruct (Nat.eqb (List.length items) len) eqn:Q; [lia|exact R].
Qed.
Print Assumptions C21_pack_error.

Lemma unpack_items_len : forall hb rec md, nvrec md rec -> forall item s count size w l z w',
  nvok md item = true -> num_values item = 1%nat -> md_of s = md ->
  unpack_items hb rec item s count size w = (Ok (l, z), w') -> List.length l = count.
Proof.
  intros hb rec md R item s count. induction count as [|c IH]; intros size w l z w' N V M H; cbn [unpack_items] in H.
  - cbn in H. injection H as <- _ _. reflexivity.
  - apply bind_ok in H as (vs & w1 & U & H). apply bind_ok in H as (z1 & w2 & _ & H).
    apply bind_ok in H as ([rest z2] & w3 & V2 & H). cbn in H. injection H as <- _ _. rewrite app_length.
    assert (M' : md_of (ssub s size) = md) by now rewrite md_ssub.
    rewrite (R _ _ _ _ _ N M' U), V, (IH _ _ _ _ _ N V M V2). reflexivity.
Qed.
Lemma unpack_array_len : forall hb ct n id h item static s w vs w', nvok (md_of s) item = true -> num_values item = 1%nat ->
  unpack hb ct (S n) (SArray id h item static) s w = (Ok vs, w') ->
  exists l hv w1 count ds, vs = [VList l] /\ take_ostruct hb h s w = (Ok hv, w1) /\
    header_unpack_values h static hv = Ok (count, ds) /\ List.length l = Z.to_nat count.
Proof.
  intros hb ct n id h item static s w vs w' N V H. rewrite unpack_S in H. cbn [unpack_step] in H.
  apply bind_ok in H as (hv & w1 & T & H). apply bind_ok in H as ([count ds] & w2 & U & H).
  unfold lift in U. injection U as U <-. apply bind_ok in H as (o & w3 & G & H).
  apply bind_ok in H as (i' & w4 & P & H). apply bind_ok in H as ([l z] & w5 & UI & H). bi H. bi H.
  cbn in H. injection H as <- _. exists l, hv, w1, count, ds.
  split; [reflexivity|]. split; [exact T|]. split; [exact U|].
  destruct (prep_nv _ _ _ _ _ _ N P) as [N1 V1].
  assert (R : nvrec (md_of s) (unpack hb ct n)).
  { intros xx s' w0 us w0' X M Y. rewrite <- M in X. eapply C31_unpack; eauto. }
  exact (unpack_items_len hb _ (md_of s) R i' s _ _ _ _ _ _ N1 ltac:(congruence) eq_refl UI).
Qed.
(** array[Header[n], T] and array[Header[n, uintN], T]: exactly [n] items, in any state and class table *)
Theorem C21_unpack : forall hb ct n id h item len s w vs w', nvok (md_of s) item = true -> num_values item = 1%nat ->
  unpack hb ct (S n) (SArray id h item (Z.of_nat len)) s w = (Ok vs, w') ->
  exists l, vs = [VList l] /\ List.length l = len.
Proof.
  intros hb ct n id h item len s w vs w' N V H.
  destruct (unpack_array_len hb ct n id h item _ s w vs w' N V H) as (l & hv & w1 & count & ds & -> & _ & U & L).
  exists l. split; [reflexivity|]. unfold header_unpack_values in U. destruct (0 <=? Z.of_nat len) eqn:Q; [|lia].
  assert (count = Z.of_nat len); [|lia].
  destruct (Nat.eqb (onvals h) 1).
  - destruct (nth0 hv) as [v|]; [|discriminate]. cbn in U. destruct (as_int v); [|discriminate]. now injection U as <-.
  - now injection U as <-.
Qed.
Print Assumptions C21_unpack.
Definition c21_ser : ser := SArray 1 None (SDynChar 2 (uint_ser BO_DEFAULT CB)) 2.
Example C21_nontrivial :
  nvok UBuf (SDynChar 2 (uint_ser BO_DEFAULT CB)) = true /\ basic_item (SS BO_LE [T (Some 3%nat) Cs] None) = true /\
  fst (field_unpack false no_classes 2 c21_ser (PO 0 true []) (SBuf [x01; x41; x00; x07]) cloud0)
  = Ok ([VList [VBytes [x41]; VBytes []]], 3) /\
  fst (field_pack false no_classes 2 c21_ser (PO 0 true []) KPack [VList [VBytes [x41]; VBytes [x42]]] cloud0)
  = Ok ([x01; x41; x01; x42], 4) /\
  fst (field_pack false no_classes 2 c21_ser (PO 0 true []) KPack [VList [VBytes [x41]]] cloud0) = Err ValueError /\
  fst (unpack false no_classes 1 (SStaticArr 2 (SS BO_LE [T None CH] None)) (SFrom [x07; x01; x00; x02; x00] 1) cloud0)
  = Ok [VList [VInt 1; VInt 2]].
Proof. repeat split; reflexivity. Qed.
(** C21 is false for items that have no value: array[Header[n], pad[m]] unpacks to the empty list, which
    cannot be packed, and neither can any other list be *)
Definition pad_array (len m : nat) : ser := SArray 1 None (SStruct (SS BO_DEFAULT [T (Some m) Cx] None)) (Z.of_nat len).
Theorem C21_pad_refuted :
  num_values (SStruct (SS BO_DEFAULT [T (Some 3%nat) Cx] None)) = 0%nat /\
  (exists b w, fst (field_unpack false no_classes 2 (pad_array 2 3) (PO 0 true []) (SBuf b) w) = Ok ([VList []], 6)) /\
  forall hb ct n o k items w,
    is_ok (fst (field_pack hb ct n (pad_array 2 3) o k [VList items] w)) = false.
Proof.
  split; [reflexivity|]. split; [exists [x00; x00; x00; x00; x00; x00], cloud0; reflexivity|].
  intros hb ct n o k items w. destruct items as [|v items]; [now apply C21_pack|].
  unfold field_pack, bind. cbn [prep pad_array]. unfold bind, set_obj, ret.
  destruct n as [|n]; [reflexivity|]. rewrite pack_S.
  destruct k; cbn [pack_step]; unfold bind, lift; cbn [nth0 py_iter get_obj w_obj]; unfold upd; cbn [Nat.eqb];
    cbn [prep]; unfold ret; cbn [pack_items]; unfold bind; destruct n as [|n]; try reflexivity; rewrite pack_S; reflexivity.
Qed.
Print Assumptions C21_pad_refuted.

(** ** C27: a list longer than its count header can express *)
Lemma put_ostruct_refuses : forall hb oh k hv w e, kok k w -> eost hb oh hv = Err e ->
  is_ok (fst (put_ostruct hb oh k hv w)) = false.
Proof.
  intros hb oh k hv w e K E. destruct (put_ostruct_spec hb no_classes false ltac:(discriminate) oh k hv w K) as [IO _]. rewrite E in IO.
  destruct k; cbn in IO.
  - destruct IO as [-> _]. reflexivity.
  - destruct IO as (_ & _ & e' & ->). reflexivity.
  - destruct IO as [-> _]. reflexivity.
Qed.
Theorem C27_array_count : forall hb ct n id h oh static item o k items w bo c,
  (h = HDyn bo c \/ exists d, h = HDynSize bo c d) -> ahdr_wf h -> ahdr_ser h = Ok (oh, static) -> kok k w ->
  256 ^ Z.of_nat (hsize hb bo c) <= Z.of_nat (List.length items) ->
  is_ok (fst (field_pack hb ct n (SArray id oh item static) o k [VList items] w)) = false.
Proof.
  intros hb ct n id h oh static item o k items w bo c HH WF E K L.
  assert (ERR : forall z, exists hv e, header_pack_values oh static (Z.of_nat (List.length items)) z = Ok hv /\ eost hb oh hv = Err e).
  { intros z. destruct HH as [->|(d & ->)]; cbn [ahdr_wf ahdr_ser] in WF, E.
    - injection E as <- <-. unfold header_pack_values. cbn [Z.leb Z.compare].
      assert (onvals (Some (uint_ser bo c)) = 1%nat) as ->
        by (cbn [onvals]; unfold ss_nvals, nvals; cbn [s_fmt uint_ser]; rewrite unsigned_expand by exact WF; reflexivity).
      cbn [Nat.eqb]. eexists. eexists. split; [reflexivity|]. cbn [eost]. now apply uint_est_big.
    - destruct WF as [C D]. destruct (two_ser bo c d C D) as (st & S & B & A & F & LE). rewrite S in E.
      injection E as <- <-. destruct (two_est hb bo c d st (Z.of_nat (List.length items)) z C D B LE) as (NV & _ & ES).
      unfold header_pack_values. cbn [Z.leb Z.compare onvals]. rewrite NV. cbn [Nat.eqb].
      eexists. eexists. split; [reflexivity|]. cbn [eost]. rewrite ES.
      destruct (fitsb hb bo c (Z.of_nat (List.length items))) eqn:Q; [apply fitsb_spec in Q; unfold fits in Q; lia|]. reflexivity. }
  unfold field_pack, bind. cbn [prep]. unfold bind, set_obj, ret.
  destruct n; [reflexivity|]. rewrite pack_S. cbn [pack_step]. set (w0 := W _ _ _ _ _).
  assert (NOK : forall k', (forall w', kok k' w') -> forall z w', exists hv, header_pack_values oh static (Z.of_nat (List.length items)) z = Ok hv /\
            is_ok (fst (put_ostruct hb oh k' hv w')) = false).
  { intros k' K' z w'. destruct (ERR z) as (hv & e & A & B). exists hv. split; [exact A|]. eapply put_ostruct_refuses; eauto. }
  unfold bind, lift. cbn [nth0 py_len py_iter].
  destruct k; destruct (get_obj id w0) as [[o'|] w1]; try reflexivity; destruct (prep true item o' w1) as [[i'|] w2]; try reflexivity;
    match goal with |- context [pack_items ?a ?b ?c ?d ?e ?f ?g] => destruct (pack_items a b c d e f g) as [[[bs z]|] w3] end;
    try reflexivity; cbn [fst snd];
    match goal with
    | |- context [KInto ?off] => destruct (NOK (KInto off) (fun _ => K) (z - osize hb oh) (snd (set_size id z w3))) as (hv & -> & X)
    | _ => destruct (NOK KPack (fun _ => I) (z - osize hb oh) w3) as (hv & -> & X)
    end.
  - destruct (put_ostruct hb oh KPack hv w3) as [[a|e] w4]; [discriminate X|reflexivity].
  - unfold set_size in *. cbn [snd] in X. destruct (put_ostruct hb oh (KInto off) hv _) as [[a|e] w4]; [discriminate X|reflexivity].
  - destruct (put_ostruct hb oh KPack hv w3) as [[a|e] w4]; [discriminate X|reflexivity].
Qed.
Print Assumptions C27_array_count.

(** ** C23: dynamic arrays of basic types *)
Lemma csize_calign : forall nat_ c, (csize nat_ c mod calign nat_ c = 0)%nat.
Proof. intros [] []; reflexivity. Qed.
Lemma basic_shift : forall m t, nvals [t] = 1%nat -> shift_ok m (calcsize m [t]) (expand [t]) = true.
Proof.
  intros m [k c] N. unfold nvals, calcsize, expand in *. cbn [flat_map] in *. rewrite app_nil_r in *.
  assert (V : forall u, expand_tok (T k c) = UAlign c :: repeat (UVal c) u -> nvals_u (expand_tok (T k c)) = 1%nat ->
     shift_ok m (size_u m 0 (expand_tok (T k c))) (expand_tok (T k c)) = true).
  { intros u -> H. cbn in H. destruct u as [|[|u]]; cbn in H; try discriminate.
    cbn [repeat size_u usize shift_ok forallb]. rewrite padding_0. cbn [Nat.add]. rewrite Nat.add_0_r.
    rewrite csize_calign. reflexivity. }
  destruct c; try (eapply V; [reflexivity|exact N]); try reflexivity.
  clear. cbn. generalize (size_u m 0 (repeat UPad (cnt (T k Cx)))) as z. induction (cnt (T k Cx)); [reflexivity|]. intros z. cbn. auto.
Qed.
Lemma shift_ok_add : forall m a b us, shift_ok m a us = true -> shift_ok m b us = true -> shift_ok m (a + b) us = true.
Proof.
  intros m a b us A B. unfold shift_ok in *. rewrite forallb_forall in *. intros u Hu. specialize (A u Hu). specialize (B u Hu).
  cbn beta in *. destruct u; try reflexivity. apply Nat.eqb_eq in A. apply Nat.eqb_eq in B.
  apply Nat.eqb_eq. pose proof (calign_pos (m_native m) c). rewrite Nat.add_mod, A, B by lia. apply Nat.mod_0_l. lia.
Qed.
Lemma pack_repeat : forall m t items bs off, nvals [t] = 1%nat -> shift_ok m off (expand [t]) = true ->
  Forall2 (fun v b => pack_u m 0 (expand [t]) [v] = (b, None)) items bs ->
  pack_u m off (expand (repeat_fmt [t] (List.length items))) items = (concat bs, None).
Proof.
  intros m t items bs off N S F. revert off S. induction F as [|v b items bs H F IH]; intros off S; [reflexivity|].
  unfold repeat_fmt in *. cbn [List.length repeat List.concat]. rewrite expand_app, pack_u_app.
  change (nvals_u (expand [t])) with (nvals [t]). rewrite N. cbn [skipn].
  rewrite <- (Nat.add_0_r off), pack_u_shift by exact S.
  assert (H1 : pack_u m 0 (expand [t]) (v :: items) = (b, None)).
  { assert (G : forall us off vs, nvals_u us = 1%nat -> forall v, pack_u m off us [v] = (b, None) -> pack_u m off us (v :: vs) = (b, None)); [|now apply G].
    clear. intros us. revert b. induction us as [|u us IH]; intros b off vs N v H; [discriminate N|].
    cbn [pack_u] in *. unfold nvals_u in N. destruct u; cbn [filter takes_value List.length] in N; cbn [pack_unit] in *.
    - destruct (pack_u m (off + _) us [v]) as [x e] eqn:E. injection H as <- ->. now rewrite (IH _ _ _ N _ E).
    - destruct (pack_u m (off + _) us [v]) as [x e] eqn:E. injection H as <- ->. now rewrite (IH _ _ _ N _ E).
    - injection N as N. assert (Q : forall us off vs, nvals_u us = 0%nat -> pack_u m off us vs = pack_u m off us []).
      { clear. induction us as [|u us IH]; intros off vs N; [reflexivity|]. unfold nvals_u in N.
        destruct u; cbn in N; try discriminate; cbn [pack_u pack_unit]; now rewrite IH. }
      destruct v; try discriminate. now rewrite (Q us _ vs).
    - injection N as N. assert (Q : forall us off vs, nvals_u us = 0%nat -> pack_u m off us vs = pack_u m off us []).
      { clear. induction us as [|u us IH]; intros off vs N; [reflexivity|]. unfold nvals_u in N.
        destruct u; cbn in N; try discriminate; cbn [pack_u pack_unit]; now rewrite IH. }
      destruct v; try discriminate. now rewrite (Q us _ vs).
    - injection N as N. assert (Q : forall us off vs, nvals_u us = 0%nat -> pack_u m off us vs = pack_u m off us []).
      { clear. induction us as [|u us IH]; intros off vs N; [reflexivity|]. unfold nvals_u in N.
        destruct u; cbn in N; try discriminate; cbn [pack_u pack_unit]; now rewrite IH. }
      destruct (pack_val m c v); [|discriminate]. cbn [rbind] in *. now rewrite (Q us _ vs). }
  rewrite H1. pose proof (pack_u_length _ _ _ _ _ H) as L. change (size_u m 0 (expand [t])) with (calcsize m [t]) in L.
  rewrite Nat.add_0_r, L, IH; [reflexivity|]. apply shift_ok_add; [exact S|]. now apply basic_shift.
Qed.
Lemma unpack_repeat : forall m t bs off rest, nvals [t] = 1%nat -> shift_ok m off (expand [t]) = true ->
  Forall (fun b => List.length b = calcsize m [t]) bs ->
  unpack_u m off (expand (repeat_fmt [t] (List.length bs))) (concat bs ++ rest)
  = concat (map (unpack_u m 0 (expand [t])) bs).
Proof.
  intros m t bs off rest N S F. revert off S. induction F as [|b bs H F IH]; intros off S; [reflexivity|].
  unfold repeat_fmt in *. cbn [List.length repeat List.concat map]. rewrite expand_app, unpack_u_app.
  assert (SZ : size_u m off (expand [t]) = calcsize m [t]).
  { unfold calcsize. rewrite <- (Nat.add_0_r off) at 1.
    assert (G : forall us o, shift_ok m off us = true -> size_u m (off + o) us = size_u m o us); [|now apply G].
    clear. induction us as [|u us IH]; intros o H; [reflexivity|]. cbn in H. apply andb_prop in H as [H1 H2].
    cbn [size_u]. rewrite usize_shift by (cbn; now rewrite H1). rewrite <- Nat.add_assoc, IH by exact H2. reflexivity. }
  rewrite SZ, <- app_assoc, <- H, skipn_app_len, IH.
  - f_equal. rewrite <- (Nat.add_0_r off), unpack_u_shift by exact S.
    assert (G : forall us o x y, List.length x = size_u m o us -> unpack_u m o us (x ++ y) = unpack_u m o us x).
    { clear. induction us as [|u us IH]; intros o x y H; [reflexivity|]. cbn [size_u] in H. cbn [unpack_u].
      assert (FN : firstn (usize m o u) (x ++ y) = firstn (usize m o u) x) by (rewrite firstn_app; replace (usize m o u - List.length x)%nat with 0%nat by lia; now rewrite app_nil_r).
      assert (SN : skipn (usize m o u) (x ++ y) = skipn (usize m o u) x ++ y) by (rewrite skipn_app; replace (usize m o u - List.length x)%nat with 0%nat by lia; reflexivity).
      rewrite FN, SN, IH by (rewrite skipn_length; lia). reflexivity. }
    apply G. exact H.
  - rewrite H. apply shift_ok_add; [exact S|]. now apply basic_shift.
Qed.

Lemma dyn_layout : forall bo c item n, unsigned c -> basic_item item = true -> s_bo item = bo -> 1 <= n ->
  exists st, dynarr_st (uint_ser bo c) item n = Ok st /\ s_bo st = bo /\ ss_nvals st = S (Z.to_nat n) /\
    layout_eq (expand (s_fmt st)) ([UAlign c; UVal c] ++ expand (repeat_fmt (s_fmt item) (Z.to_nat n))).
Proof.
  intros bo c item n C B BO N. destruct (basic_mul item n B N) as (st & E & SB & NV & A & L).
  unfold dynarr_st. destruct (n =? 0) eqn:Z0; [lia|]. rewrite E. cbn [rbind].
  assert (FO : foldable [T None c] (s_fmt st) = true).
  { unfold basic_item in B. apply andb_prop in B as [B _]. destruct item as [ibo f act]. cbn [s_fmt] in B.
    destruct f as [|t [|]]; try discriminate. destruct (mul_shape ibo t act n st N E) as (SF & SS1).
    unfold foldable. cbn [split_last]. destruct (s_fmt st) as [|t1 [|t2 r]]; try reflexivity.
    destruct (str_code (t_code t)) eqn:SC; [|destruct (SS1 eq_refl); discriminate].
    inversion SF as [|? ? S1 _]; subst. rewrite S1. cbn [t_code].
    destruct c; try discriminate; destruct (t_code t); try discriminate; reflexivity. }
  assert (exists st', ss_add (uint_ser bo c) st = Ok st' /\ s_bo st' = bo /\ s_fmt st' = fold_overlaps false [T None c] (s_fmt st)).
  { unfold ss_add. cbn [s_act uint_ser s_bo s_fmt]. destruct (s_act st).
    - eexists. split; [reflexivity|]. split; reflexivity.
    - rewrite SB, BO. assert (border_eqb bo bo = true) as -> by (destruct bo; reflexivity).
      eexists. split; [reflexivity|]. split; reflexivity. }
  destruct H as (st' & -> & SB' & SF'). exists st'. split; [reflexivity|]. split; [exact SB'|].
  assert (LL : layout_eq (expand (s_fmt st')) ([UAlign c; UVal c] ++ expand (repeat_fmt (s_fmt item) (Z.to_nat n)))).
  { rewrite SF'. eapply layout_eq_trans; [apply fold_layout; exact FO|].
    rewrite expand_app, unsigned_expand by exact C. now apply layout_eq_app_l. }
  split; [|exact LL].
  assert (NI : nvals (repeat_fmt (s_fmt item) (Z.to_nat n)) = Z.to_nat n).
  { rewrite nvals_repeat. unfold basic_item in B. apply andb_prop in B as [B _].
    destruct (s_fmt item) as [|t [|]]; try discriminate. apply Nat.eqb_eq in B. rewrite B. lia. }
  unfold ss_nvals, nvals. rewrite (proj1 LL), nvals_u_app.
  change (nvals_u (expand (repeat_fmt (s_fmt item) (Z.to_nat n)))) with (nvals (repeat_fmt (s_fmt item) (Z.to_nat n))). rewrite NI. reflexivity.
Qed.

(** the items start at a multiple of their alignment: always the case except with native alignment *)
Definition aligned (hb : bool) (bo : border) (c : code) (item : sspec) : Prop :=
  match s_fmt item with
  | [t] => (hsize hb bo c mod calign (m_native (mode_of hb bo)) (t_code t) = 0)%nat
  | _ => False
  end.
Lemma aligned_standard : forall hb bo c item, basic_item item = true -> bo <> BO_DEFAULT -> bo <> BO_NNAT ->
  aligned hb bo c item.
Proof.
  intros hb bo c item B N1 N2. unfold aligned, basic_item in *. apply andb_prop in B as [B _].
  destruct (s_fmt item) as [|t [|]]; try discriminate. cbn [hsize]. unfold calign. destruct bo; try congruence; cbn [mode_of m_native]; apply Nat.mod_1_r.
Qed.
Lemma aligned_shift : forall hb bo c item, aligned hb bo c item ->
  shift_ok (mode_of hb bo) (hsize hb bo c) (expand (s_fmt item)) = true.
Proof.
  intros hb bo c item A. unfold aligned in A. destruct (s_fmt item) as [|t [|]]; try contradiction.
  unfold expand. cbn [flat_map]. rewrite app_nil_r. unfold expand_tok, shift_ok. apply forallb_forall. intros u U.
  destruct u; try reflexivity. assert (c0 = t_code t); [|subst; now apply Nat.eqb_eq].
  destruct (t_code t); cbn in U; repeat (destruct U as [U|U]; [try discriminate U; try (injection U as <-; reflexivity)|]);
    try contradiction; apply repeat_spec in U; discriminate U.
Qed.

Lemma writes_est : forall hb ct item vs b, writes hb ct 1 (SStruct item) vs b -> est hb item vs = Ok b.
Proof. intros hb ct item vs b H. specialize (H KPack cloud0 I). cbv zeta in H. destruct H as [[H _] _]. exact H. Qed.

Theorem C23_pack : forall hb ct n id bo c item items bs, unsigned c -> basic_item item = true -> s_bo item = bo ->
  aligned hb bo c item -> Forall2 (fun v b => writes hb ct 1 (SStruct item) [v] b) items bs ->
  fits hb bo c (Z.of_nat (List.length items)) ->
  writes hb ct (S n) (SDynArr id (uint_ser bo c) item) [VList items]
    (uint_bytes (hbig hb bo) (hsize hb bo c) (Z.of_nat (List.length items)) ++ concat bs).
Proof.
  intros hb ct n id bo c item items bs C B BO AL F FI. apply leaf_writes; [reflexivity|].
  unfold lenc. cbn [enc enc_step nth0 rbind py_len].
  destruct items as [|v0 items'].
  - inversion F; subst. cbn [List.length concat]. unfold dynarr_st. cbn [Z.of_nat Z.eqb rbind py_iter].
    change (SS (s_bo (uint_ser (s_bo item) c)) (s_fmt (uint_ser (s_bo item) c)) None) with (uint_ser (s_bo item) c).
    assert (ss_nvals (uint_ser (s_bo item) c) = 1%nat) as ->
      by (unfold ss_nvals, nvals; cbn [s_fmt uint_ser]; rewrite unsigned_expand by exact C; reflexivity).
    cbn [Z.of_nat]. rewrite app_nil_r. change (Z.pos (Pos.of_succ_nat 0) - 1) with 0. now apply uint_est.
  - set (items := v0 :: items') in *. set (k := Z.of_nat (List.length items)).
    assert (K : 1 <= k) by (unfold k, items; cbn [List.length]; lia).
    destruct (dyn_layout bo c item k C B BO K) as (st & E & SB & NV & [LN LL]). rewrite E. cbn [rbind py_iter].
    unfold est, st_pack. change (nvals (s_fmt st)) with (ss_nvals st). rewrite NV.
    assert (KN : Z.to_nat k = List.length items) by (unfold k; lia). rewrite KN. cbn [List.length]. rewrite Nat.eqb_refl.
    destruct (LL (ss_mode hb st) O) as (_ & LP & _). rewrite LP, KN. unfold ss_mode. rewrite SB.
    replace (Z.of_nat (S (List.length items)) - 1) with k by (unfold k; lia).
    rewrite pack_u_app. cbn [pack_u pack_unit usize]. rewrite padding_0. cbn [zeros repeat List.length Nat.add].
    rewrite pack_val_uint by exact C. fold (hsize hb bo c) (hbig hb bo). fold (fitsb hb bo c k).
    apply fitsb_spec in FI. fold k in FI. rewrite FI. cbn [rbind app]. rewrite app_nil_r.
    change (nvals_u [UAlign c; UVal c]) with 1%nat. cbn [skipn].
    pose proof (aligned_shift hb bo c item AL) as SH. rewrite uint_bytes_length.
    assert (B' := B). unfold basic_item in B'. apply andb_prop in B' as [B1 _].
    destruct (s_fmt item) as [|t [|]] eqn:SF; try discriminate. apply Nat.eqb_eq in B1.
    rewrite (pack_repeat (mode_of hb bo) t items bs); [reflexivity|exact B1|exact SH|].
    eapply Forall2_impl'; [|exact F]. intros v b H. apply writes_est in H. unfold est in H.
    apply st_pack_inv in H as [_ H]. unfold ss_mode in H. rewrite BO, SF in H. exact H.
Qed.
Print Assumptions C23_pack.

Lemma apply_actions_repeat : forall acts vss l, Forall2 (fun vs v => List.length vs = 1%nat /\ apply_actions acts vs = Ok [v]) vss l ->
  List.length acts = 1%nat ->
  apply_actions (List.concat (repeat acts (List.length vss))) (concat vss) = Ok l.
Proof.
  intros acts vss l F N. induction F as [|vs v vss l [H1 H2] F IH]; [reflexivity|]. cbn [List.length repeat List.concat].
  rewrite apply_actions_app by congruence. rewrite H2. cbn [rbind]. rewrite IH. reflexivity.
Qed.
(** reading: the count, then every item as on its own *)
Theorem C23_unpack : forall hb ct n id bo c item s w bs l rest, unsigned c -> basic_item item = true -> s_bo item = bo ->
  srcok s w -> fits hb bo c (Z.of_nat (List.length bs)) ->
  Forall2 (fun b v => blen b = ss_size hb item /\ fst (unpack hb ct 1 (SStruct item) (SBuf b) cloud0) = Ok [v]) bs l ->
  suffix s w = uint_bytes (hbig hb bo) (hsize hb bo c) (Z.of_nat (List.length bs)) ++ concat bs ++ rest ->
  reads hb ct (S n) (SDynArr id (uint_ser bo c) item) s w [VList l]
    (Z.of_nat (hsize hb bo c) + blen (concat bs)).
Proof.
  intros hb ct n id bo c item s w bs l rest C B BO K FI F SU.
  apply leaf_reads; [reflexivity|reflexivity|exact K| |].
  2:{ rewrite SU, !blen_app. unfold blen at 2. rewrite uint_bytes_length. pose proof (blen_nonneg rest). lia. }
  unfold ldec. cbn [dec dec_step]. rewrite SU, uint_dst by assumption. cbn [rbind one as_int as_index].
  assert (ADV : adv (ss_size hb (uint_ser bo c)) (uint_bytes (hbig hb bo) (hsize hb bo c) (Z.of_nat (List.length bs)) ++ concat bs ++ rest)
                = concat bs ++ rest).
  { rewrite uint_size by exact C. unfold adv. rewrite Nat2Z.id.
    rewrite <- (uint_bytes_length (hbig hb bo) (hsize hb bo c) (Z.of_nat (List.length bs))) at 1. apply skipn_app_len. }
  rewrite ADV, uint_size by exact C.
  assert (B' := B). unfold basic_item in B'. apply andb_prop in B' as [B1 WF].
  destruct (s_fmt item) as [|t [|]] eqn:SF; try discriminate. apply Nat.eqb_eq in B1.
  assert (IT : Forall2 (fun b v => List.length b = calcsize (mode_of hb bo) [t] /\
            ss_act item (unpack_u (mode_of hb bo) 0 (expand [t]) b) = Ok [v]) bs l).
  { eapply Forall2_impl'; [|exact F]. intros b v [HL H]. cbn [unpack unpack_step] in H. unfold take_struct, bind, lift in H.
    cbn [fst snd] in H. pose proof (blen_nonneg b). rewrite <- HL, py_slice_nn in H by lia. rewrite Z.sub_0_r in H. cbn [Z.to_nat skipn] in H.
    unfold blen in H. rewrite Nat2Z.id, firstn_all in H. unfold ss_mode in H. rewrite BO, SF in H. unfold st_unpack in H.
    destruct (Nat.eqb (List.length b) (calcsize (mode_of hb bo) [t])) eqn:Q; [|discriminate].
    apply Nat.eqb_eq in Q. split; [exact Q|]. exact H. }
  clear F. destruct bs as [|b0 bs'].
  { inversion IT; subst. cbn. reflexivity. }
  set (bs := b0 :: bs') in *. set (k := Z.of_nat (List.length bs)).
  assert (KK : 1 <= k) by (unfold k, bs; cbn [List.length]; lia).
  destruct (basic_mul item k B KK) as (st & E & SB & NV & A & [LN LL]). rewrite E. cbn [rbind dost osize].
  assert (KN : Z.to_nat k = List.length bs) by (unfold k; lia).
  assert (LB : Forall (fun b => List.length b = calcsize (mode_of hb bo) [t]) bs).
  { clear -IT. induction IT as [|? ? ? ? [? _] ? IH]; constructor; auto. }
  assert (SZ : ss_size hb st = blen (concat bs)).
  { unfold ss_size, calcsize. destruct (LL (ss_mode hb st) O) as (LS & _ & _). rewrite LS, SF, KN.
    unfold ss_mode. rewrite SB, BO. clear -LB B1 t.
    assert (G : forall (bs : list bytes) off, shift_ok (mode_of hb bo) off (expand [t]) = true ->
       Forall (fun b => List.length b = calcsize (mode_of hb bo) [t]) bs ->
       size_u (mode_of hb bo) off (expand (repeat_fmt [t] (List.length bs))) = List.length (concat bs)).
    { clear bs LB bs' b0. intros bs. induction bs as [|b bs IH]; intros off S L; [reflexivity|]. inversion L as [|? ? L1 L2]; subst.
      unfold repeat_fmt in *. cbn [List.length repeat List.concat concat]. rewrite expand_app, app_length.
      assert (SA : forall a b o m, size_u m o (a ++ b) = (size_u m o a + size_u m (o + size_u m o a) b)%nat).
      { clear. induction a as [|u a IH]; intros b o m; cbn [app size_u]; [now rewrite Nat.add_0_r|]. rewrite IH, !Nat.add_assoc. reflexivity. }
      assert (SS : size_u (mode_of hb bo) off (expand [t]) = calcsize (mode_of hb bo) [t]).
      { unfold calcsize. rewrite <- (Nat.add_0_r off) at 1.
        assert (G : forall us o, shift_ok (mode_of hb bo) off us = true -> size_u (mode_of hb bo) (off + o) us = size_u (mode_of hb bo) o us); [|now apply G].
        clear. induction us as [|u us IH]; intros o H; [reflexivity|]. cbn in H. apply andb_prop in H as [H1 H2].
        cbn [size_u]. rewrite usize_shift by (cbn; now rewrite H1). rewrite <- Nat.add_assoc, IH by exact H2. reflexivity. }
      rewrite SA, SS, IH, L1; [reflexivity| |exact L2]. apply shift_ok_add; [exact S|]. now apply basic_shift. }
    unfold blen. rewrite G; [reflexivity| |exact LB].
    clear. unfold expand. cbn [flat_map]. rewrite app_nil_r. unfold shift_ok. apply forallb_forall. intros u _.
    destruct u; try reflexivity. apply Nat.eqb_eq. apply Nat.mod_0_l. pose proof (calign_pos (m_native (mode_of hb bo)) c). lia. }
  rewrite dst_exact by now symmetry. rewrite SZ.
  destruct (LL (ss_mode hb st) O) as (_ & _ & LU). rewrite LU, SF, KN. unfold ss_mode. rewrite SB, BO.
  rewrite <- (app_nil_r (concat bs)) at 1. rewrite unpack_repeat; [|exact B1| |exact LB].
  2:{ clear. unfold expand. cbn [flat_map]. rewrite app_nil_r. unfold shift_ok. apply forallb_forall. intros u _.
      destruct u; try reflexivity. apply Nat.eqb_eq. apply Nat.mod_0_l. pose proof (calign_pos (m_native (mode_of hb bo)) c). lia. }
  assert (ACT : ss_act st (concat (map (unpack_u (mode_of hb bo) 0 (expand [t])) bs)) = Ok l).
  { unfold ss_act in *. rewrite A. destruct (s_act item) as [acts|] eqn:AI; cbn [option_map]; try rewrite AI in IT.
    - rewrite KN, <- (map_length (unpack_u (mode_of hb bo) 0 (expand [t])) bs). apply apply_actions_repeat.
      + clear -IT B1. induction IT as [|b v bs l [_ H] IT IH]; [constructor|]. cbn [map]. constructor; [|exact IH].
        split; [|exact H]. rewrite unpack_u_len. exact B1.
      + unfold ss_wf in WF. rewrite AI in WF. apply Nat.eqb_eq in WF. rewrite WF. unfold ss_nvals. now rewrite SF.
    - f_equal. clear -IT. induction IT as [|b v bs l [_ H] IT IH]; [reflexivity|]. cbn [map concat]. rewrite IH. injection H as H.
      now rewrite H. }
  rewrite ACT. reflexivity.
Qed.
Print Assumptions C23_unpack.

(** C27 for these arrays *)
Theorem C27_dynarr_count : forall hb ct n id bo c item items, unsigned c -> basic_item item = true -> s_bo item = bo ->
  256 ^ Z.of_nat (hsize hb bo c) <= Z.of_nat (List.length items) ->
  refuses hb ct (S n) (SDynArr id (uint_ser bo c) item) [VList items] StructError.
Proof.
  intros hb ct n id bo c item items C B BO L. apply leaf_refuses; [reflexivity|discriminate|].
  unfold lenc. cbn [enc enc_step nth0 rbind py_len]. set (k := Z.of_nat (List.length items)) in *.
  assert (K : 1 <= k) by (assert (0 < 256 ^ Z.of_nat (hsize hb bo c)) by (apply Z.pow_pos_nonneg; lia); lia).
  destruct (dyn_layout bo c item k C B BO K) as (st & E & SB & NV & [LN LL]). rewrite E. cbn [rbind py_iter].
  unfold est, st_pack. change (nvals (s_fmt st)) with (ss_nvals st). rewrite NV.
  assert (KN : Z.to_nat k = List.length items) by (unfold k; lia). rewrite KN. cbn [List.length]. rewrite Nat.eqb_refl.
  destruct (LL (ss_mode hb st) O) as (_ & LP & _). rewrite LP, KN. unfold ss_mode. rewrite SB.
  replace (Z.of_nat (S (List.length items)) - 1) with k by (unfold k; lia).
  rewrite pack_u_app. cbn [pack_u pack_unit usize]. rewrite padding_0. cbn [zeros repeat List.length Nat.add].
  rewrite pack_val_uint by exact C. fold (hsize hb bo c) (hbig hb bo). fold (fitsb hb bo c k).
  destruct (fitsb hb bo c k) eqn:Q; [apply fitsb_spec in Q; unfold fits in Q; lia|]. reflexivity.
Qed.
Print Assumptions C27_dynarr_count.

Definition c23_item : sspec := SS BO_BE [T None CH] None.
Example C23_nontrivial : basic_item c23_item = true /\ aligned false BO_BE CB c23_item /\ fits false BO_BE CB 2 /\
  Forall2 (fun v b => writes false no_classes 1 (SStruct c23_item) [v] b) [VInt 1; VInt 515] [[x00; x01]; [x02; x03]] /\
  fst (pack false no_classes 1 (SDynArr 0 (uint_ser BO_BE CB) c23_item) KPack [VList [VInt 1; VInt 515]] cloud0)
  = Ok [x02; x00; x01; x02; x03] /\
  fst (unpack false no_classes 1 (SDynArr 0 (uint_ser BO_BE CB) c23_item) (SBuf [x02; x00; x01; x02; x03]) cloud0)
  = Ok [VList [VInt 1; VInt 515]].
Proof.
  split; [reflexivity|]. split; [reflexivity|]. split; [unfold fits; cbn; lia|]. split; [|split; reflexivity].
  constructor; [|constructor; [|constructor]]; apply leaf_writes; reflexivity.
Qed.
(** C23 is false with native alignment (the default byte order): the items are packed after padding that
    unpacking does not skip, so that different values are read back, without any error *)
Theorem C23_native_refuted :
  let x := SDynArr 0 (uint_ser BO_DEFAULT CB) (uint_ser BO_DEFAULT CH) in
  fst (pack false no_classes 1 x KPack [VList [VInt 5]] cloud0) = Ok [x01; x00; x05; x00] /\
  fst (unpack false no_classes 1 x (SBuf [x01; x00; x05; x00]) cloud0) = Ok [VList [VInt 1280]].
Proof. split; reflexivity. Qed.
Print Assumptions C23_native_refuted.
(** and next to any other field the array cannot be packed at all *)
Theorem C23_field_refuted : forall hb ct n id id' c item before after k vs w,
  is_ok (fst (pack hb ct n (SCompound id (before ++ SDynArr id' c item :: after)) k vs w)) = false /\
  forall o, is_ok (fst (pack hb ct n (SSpec id (before ++ SDynArr id' c item :: after) o) k vs w)) = false.
Proof. exact C31_dynarr_field_refuted. Qed.
Print Assumptions C23_field_refuted.
