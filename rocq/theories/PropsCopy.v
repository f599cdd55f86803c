(** Property C60: files of objects that were read from arbitrary bytes.  [read_all] and [write_all] (PropsRoundTrip.v) call
    [create_unpack_read] and [pack_write] on one stream, object after object. *)
From Verif Require Import Base Floats Value StructMod Format Ser Exec Pure BaseFacts SerFacts RefPack RefUnpack User Fuel DecFacts Sample
  Canon RoundTrip PropsRoundTrip Wire Hints HintFacts Surface SerShape Programs Accept AcceptProg PropsProgram PropsAccept WireSpec WireFacts Wires
  PropsWire PackSpec PropsPack ReadSpec ReadFacts Reads PropsReads LocalSpec Locals PropsLocal BackSpec Backs BackFits PropsBack SteadySpec Steadies PropsSteady.
Open Scope string_scope. Open Scope list_scope. Open Scope Z_scope.

Lemma enc_pack : forall hb ct allow n v w b, healthy ct allow -> conforms hb ct allow n v -> enc_obj hb ct allow n v = Ok b -> fst (Structured_pack hb ct n v w) = Ok b.
Proof.
  intros hb ct allow n v w b H CF E. assert (N : false = true -> no_rest ct) by discriminate.
  pose proof (user_pack hb ct allow false n v KPack w H N CF I) as [A _]. unfold Structured_pack. unfold do_pack in A. congruence.
Qed.
(** one object read: where the stream is then *)
Lemma read_once : forall hb idf fac prog l sl n c w, reading idf fac prog l sl URead -> 0 <= w_pos w ->
  w_data (snd (create_unpack_read hb (classes l) n c w)) = w_data w.
Proof.
  intros hb idf fac prog l sl n c w (_ & _ & _ & (allow & H) & HU) P.
  destruct (user_create hb (classes l) allow URead n c SRead w H HU eq_refl P) as (_ & _ & D & _). exact D.
Qed.
(** all objects that were read were read one by one *)
Lemma read_all_each : forall hb idf fac prog l sl n cs w vs, reading idf fac prog l sl URead -> 0 <= w_pos w -> fst (read_all hb (classes l) n cs w) = Ok vs ->
  Forall2 (fun c v => exists b k, parse hb URead sl (S n) c b = Some (v, k)) cs vs.
Proof.
  intros hb idf fac prog l sl n cs. induction cs as [|c cs IH]; intros w vs R P E; cbn [read_all] in E; [injection E as <-; constructor|].
  destruct (create_unpack_read hb (classes l) n c w) as [[v|e] w1] eqn:U; [|discriminate].
  assert (U1 : fst (create_unpack_read hb (classes l) n c w) = Ok v) by now rewrite U.
  destruct (C46_create_unpack_read _ _ _ _ _ _ _ _ _ _ R P U1) as (k & K & Q). rewrite U in Q. cbn [snd] in Q. pose proof (parse_pos _ _ _ _ _ _ _ _ K) as KP.
  destruct (read_all hb (classes l) n cs w1) as [[vs'|e] w2] eqn:A; [|discriminate]. injection E as <-. constructor; [eauto|].
  apply (IH w1); [exact R|pose proof (blen_nonneg (skipn (Z.to_nat (w_pos w)) (w_data w))); lia|now rewrite A].
Qed.
(** ** reading, writing and reading again *)
Lemma each_again : forall hb idf fac prog l sl P allow n', reading idf fac prog l sl URead -> steady_classes hb URead P sl -> healthy (classes l) allow ->
  forall n cs vs bs, Forall2 (fun c v => exists b k, parse hb URead sl n c b = Some (v, k)) cs vs -> Forall (fun c => P c = true) cs ->
  Forall (conforms hb (classes l) allow n') vs -> Forall2 (fun v b => enc_obj hb (classes l) allow n' v = Ok b) vs bs ->
  forall pre rest, exists N, forall m w, (N <= m)%nat -> w_data w = pre ++ List.concat bs ++ rest -> w_pos w = blen pre ->
    fst (read_all hb (classes l) m cs w) = Ok vs /\ w_pos (snd (read_all hb (classes l) m cs w)) = blen pre + blen (List.concat bs).
Proof.
  intros hb idf fac prog l sl P allow n' R SC H n cs vs bs F. revert bs. induction F as [|c v cs vs (b & k & K) F IH]; intros bs PC CF EN pre rest.
  - inversion EN; subst. exists 0%nat. intros m w _ _ Q. cbn. split; [reflexivity|]. rewrite Q. unfold blen. cbn. lia.
  - inversion EN as [|? y ? ys E1 E2]; subst. inversion PC; subst. inversion CF as [|? ? C1 C2]; subst. cbn [List.concat].
    destruct (once_again _ _ _ _ _ _ _ _ _ _ _ _ _ _ n' clean y R SC H2 K H C1 (enc_pack _ _ _ _ _ _ _ H C1 E1)) as [m M].
    destruct (C46_complete_read _ _ _ _ _ _ _ _ pre _ _ _ R (M (List.concat ys ++ rest))) as [N1 HN1].
    destruct (IH ys H3 C2 E2 (pre ++ y) rest) as [N2 HN2]. exists (Nat.max N1 N2). intros q w L D Q. cbn [read_all].
    destruct (HN1 q w ltac:(lia)) as [U1 U2]; [now rewrite D, <- app_assoc|exact Q|]. pose proof (read_once hb _ _ _ _ _ q c w R ltac:(rewrite Q; apply blen_nonneg)) as UD.
    destruct (create_unpack_read hb (classes l) q c w) as [r w1]. cbn [fst snd] in *. subst r. rewrite !blen_app in U2. pose proof (blen_nonneg (List.concat ys)). pose proof (blen_nonneg rest). pose proof (blen_nonneg y).
    destruct (HN2 q w1 ltac:(lia)) as [V1 V2]; [rewrite UD, D; now rewrite <- !app_assoc|rewrite blen_app; lia|].
    destruct (read_all hb (classes l) q cs w1) as [r w2]. cbn [fst snd] in *. subst r. cbn. rewrite V2, !blen_app. split; [reflexivity|lia].
Qed.
(** Objects that were read from whatever bytes, one after the other, and that could all be written, are read again from what was
    written; the stream is then where writing ended.  The classes may differ from object to object. *)
Theorem C60_copy : forall hb idf fac prog l sl P allow n cs u vs n' w w1, reading idf fac prog l sl URead -> steady_classes hb URead P sl -> healthy (classes l) allow ->
  Forall (fun c => P c = true) cs -> 0 <= w_pos u -> fst (read_all hb (classes l) n cs u) = Ok vs ->
  Forall (conforms hb (classes l) allow n') vs -> 0 <= w_pos w <= blen (w_data w) -> write_all hb (classes l) n' vs w = (Ok tt, w1) ->
  exists N, forall m w2, (N <= m)%nat -> w_data w2 = w_data w1 -> w_pos w2 = w_pos w ->
    fst (read_all hb (classes l) m cs w2) = Ok vs /\ w_pos (snd (read_all hb (classes l) m cs w2)) = w_pos w1.
Proof.
  intros hb idf fac prog l sl P allow n cs u vs n' w w1 R SC H PC PU E CF PW W.
  pose proof (read_all_each _ _ _ _ _ _ _ _ _ _ R PU E) as F.
  set (pre := firstn (Z.to_nat (w_pos w)) (w_data w)). set (rest := skipn (Z.to_nat (w_pos w)) (w_data w)).
  assert (D : w_data w = pre ++ rest) by (symmetry; apply firstn_skipn).
  assert (LP : w_pos w = blen pre) by (unfold pre, blen in *; rewrite firstn_length; lia).
  destruct (write_all_spec hb _ allow n' vs w w1 pre rest H CF D LP W) as (bs & EN & D1 & P1).
  destruct (each_again _ _ _ _ _ _ _ _ _ R SC H _ _ _ _ F PC CF EN pre (skipn (List.length (List.concat bs)) rest)) as [N HN].
  exists N. intros m w2 L D2 P2. rewrite P1. apply HN; [exact L|now rewrite D2|congruence].
Qed.
Print Assumptions C60_copy.

(** ** the bytes of an object that was read belong to no other object that was read *)
(** [v] was read by the method, with some stack, from some bytes *)
Definition was_read (hb : bool) (l : list cinfo) (md : umode) (c : nat) (v : value) : Prop := exists n w,
  match md with
  | UBuf => exists b, fst (create_unpack hb (classes l) n c b w) = Ok v
  | UFrom => exists b off, 0 <= off <= blen b /\ fst (create_unpack_from hb (classes l) n c b off w) = Ok v
  | URead => 0 <= w_pos w /\ fst (create_unpack_read hb (classes l) n c w) = Ok v
  end.
Lemma was_parsed : forall hb idf fac prog l sl md c v, reading idf fac prog l sl md -> was_read hb l md c v -> exists n b k, parse hb md sl n c b = Some (v, k).
Proof.
  intros hb idf fac prog l sl md c v R (n & w & H). destruct md.
  - destruct H as [b E]. destruct (C46_create_unpack _ _ _ _ _ _ _ _ _ _ _ R E) as [k K]. eauto.
  - destruct H as (b & off & OFF & E). destruct (C46_create_unpack_from _ _ _ _ _ _ _ _ _ _ _ _ R OFF E) as [k K]. eauto.
  - destruct H as [P E]. destruct (C46_create_unpack_read _ _ _ _ _ _ _ _ _ _ R P E) as (k & K & _). eauto.
Qed.
(** Neither are they the beginning of the bytes of another: where the bytes of one object end, and which object it is, can be told from the bytes alone. *)
Theorem C60_unique : forall hb md idf fac prog l sl P allow c v1 v2 m1 m2 w1 w2 y1 y2 r1 r2, reading idf fac prog l sl md -> steady_classes hb md P sl -> P c = true ->
  healthy (classes l) allow -> was_read hb l md c v1 -> was_read hb l md c v2 ->
  conforms hb (classes l) allow m1 v1 -> fst (Structured_pack hb (classes l) m1 v1 w1) = Ok y1 ->
  conforms hb (classes l) allow m2 v2 -> fst (Structured_pack hb (classes l) m2 v2 w2) = Ok y2 ->
  y1 ++ r1 = y2 ++ r2 -> v1 = v2 /\ y1 = y2 /\ r1 = r2.
Proof.
  intros hb md idf fac prog l sl P allow c v1 v2 m1 m2 w1 w2 y1 y2 r1 r2 R SC PC H E1 E2 C1 K1 C2 K2 Y.
  destruct (was_parsed _ _ _ _ _ _ _ _ _ R E1) as (n1 & b1 & k1 & F1). destruct (was_parsed _ _ _ _ _ _ _ _ _ R E2) as (n2 & b2 & k2 & F2).
  destruct (once_again _ _ _ _ _ _ _ _ _ _ _ _ _ _ _ _ _ R SC PC F1 H C1 K1) as [q1 Q1]. destruct (once_again _ _ _ _ _ _ _ _ _ _ _ _ _ _ _ _ _ R SC PC F2 H C2 K2) as [q2 Q2].
  specialize (Q1 r1). specialize (Q2 r2). rewrite Y in Q1.
  assert (V : v1 = v2 /\ blen y1 = blen y2).
  { destruct (reading_agree hb md idf fac prog l sl R q1) as [B1 A1]. destruct (reading_agree hb md idf fac prog l sl R q2) as [B2 A2].
    destruct (A1 c (y2 ++ r2) (Nat.max B1 B2) (v1, blen y1)) as [_ G1]. destruct (A2 c (y2 ++ r2) (Nat.max B1 B2) (v2, blen y2)) as [_ G2].
    specialize (G1 ltac:(lia) Q1). specialize (G2 ltac:(lia) Q2). cbv beta in G1, G2. rewrite G1 in G2. split; congruence. }
  destruct V as [-> L]. split; [reflexivity|].
  assert (y1 = y2) as ->; [|split; [reflexivity|now apply app_inv_head in Y]].
  apply (f_equal (firstn (List.length y1))) in Y. rewrite firstn_app, Nat.sub_diag, firstn_all in Y. cbn [firstn] in Y. rewrite app_nil_r in Y. unfold blen in L. apply Nat2Z.inj in L. rewrite L, firstn_app, Nat.sub_diag, firstn_all in Y. cbn [firstn] in Y. now rewrite app_nil_r in Y.
Qed.
Print Assumptions C60_unique.

(** ** copies byte by byte *)
Lemma write_all_ok : forall hb ct allow n vs bs w, healthy ct allow -> Forall (conforms hb ct allow n) vs ->
  Forall2 (fun v b => enc_obj hb ct allow n v = Ok b) vs bs -> 0 <= w_pos w -> fst (write_all hb ct n vs w) = Ok tt.
Proof.
  intros hb ct allow n vs bs w H CF F. revert w. induction F as [|v b vs bs E F IH]; intros w P; [reflexivity|]. inversion CF; subst. cbn [write_all].
  assert (N : false = true -> no_rest ct) by discriminate. pose proof (user_pack hb ct allow false n v KWrite w H N H2 P) as (A1 & _ & A3).
  change (do_pack hb ct n v KWrite w) with (Structured_pack_write hb ct n v w) in *. destruct (A3 b E) as [_ P1]. rewrite E in A1.
  destruct (Structured_pack_write hb ct n v w) as [r w1]. cbn [fst snd rmap] in *. subst r. apply IH; [assumption|]. pose proof (blen_nonneg b). lia.
Qed.
Lemma each_verbatim : forall hb idf fac prog l sl allow P n, reading idf fac prog l sl URead -> healthy (classes l) allow -> (forall d, allow d d = true) ->
  lossless_classes hb URead P sl -> settled_classes URead P sl -> forall cs u vs, Forall (fun c => P c = true) cs -> 0 <= w_pos u ->
  fst (read_all hb (classes l) n cs u) = Ok vs -> forallb no_nan vs = true ->
  exists bs rest N, skipn (Z.to_nat (w_pos u)) (w_data u) = List.concat bs ++ rest /\ w_pos (snd (read_all hb (classes l) n cs u)) = w_pos u + blen (List.concat bs) /\
    forall n', (N <= n')%nat -> Forall (conforms hb (classes l) allow n') vs /\ Forall2 (fun v b => enc_obj hb (classes l) allow n' v = Ok b) vs bs.
Proof.
  intros hb idf fac prog l sl allow P n R H AL LC ST cs. induction cs as [|c cs IH]; intros u vs PC PU E NN; cbn [read_all] in E |- *.
  - injection E as <-. exists [], (skipn (Z.to_nat (w_pos u)) (w_data u)), 0%nat. split; [reflexivity|]. split; [unfold blen; cbn; lia|]. intros n0 L0. split; constructor.
  - pose proof (read_once hb _ _ _ _ _ n c u R PU) as UD. destruct (create_unpack_read hb (classes l) n c u) as [[v|e] u1] eqn:U; [|discriminate].
    assert (U1 : fst (create_unpack_read hb (classes l) n c u) = Ok v) by now rewrite U. cbn [snd] in UD.
    destruct (C46_create_unpack_read _ _ _ _ _ _ _ _ _ _ R PU U1) as (k & K & Q). rewrite U in Q. cbn [snd] in Q. pose proof (parse_pos _ _ _ _ _ _ _ _ K) as KP.
    inversion PC as [|? ? PC1 PC2]; subst. destruct (read_all hb (classes l) n cs u1) as [[vs'|e] u2] eqn:A; [|discriminate]. injection E as <-. cbn [forallb] in NN. apply andb_prop in NN as [NV NN].
    set (b := skipn (Z.to_nat (w_pos u)) (w_data u)) in *.
    pose proof (parse_tight _ _ _ _ (lossless_notices hb URead P sl ltac:(discriminate) LC) _ _ _ _ _ PC1 K) as LE.
    destruct (parse_back hb URead sl P LC (distinct _ _ _ _ _ _ R) _ c b v k PC1 K LE NV) as (d & -> & W).
    destruct (parse_fits hb URead allow sl P AL LC ST (distinct _ _ _ _ _ _ R) _ c b _ k PC1 K) as (d' & V & F). assert (d' = d) as -> by congruence.
    pose proof R as (RN & CK & RG & _). destruct (C49_enough hb idf fac prog l sl allow _ _ c None d _ RN CK RG H W F) as [N1 EN1].
    destruct (IH u1 vs' PC2 ltac:(pose proof (blen_nonneg b); lia) ltac:(now rewrite A) NN) as (bs & rest & N2 & D2 & P2 & EN2). rewrite A in P2. cbn [snd] in P2.
    assert (T : b = firstn (Z.to_nat k) b ++ List.concat bs ++ rest).
    { rewrite <- D2, UD, Q, Z.min_l by lia. rewrite Z2Nat.inj_add by lia. rewrite <- skipn_skipn. fold b. symmetry. apply firstn_skipn. }
    exists (firstn (Z.to_nat k) b :: bs), rest, (Nat.max N1 N2). cbn [List.concat]. split; [rewrite <- app_assoc; exact T|]. split.
    + cbn [snd]. rewrite P2, Q, blen_app. unfold blen at 3. rewrite firstn_length. unfold blen in *. lia.
    + intros n' L. destruct (EN1 n' clean ltac:(lia)) as (C1 & E1 & _). destruct (EN2 n' ltac:(lia)) as [C2 E2]. split; constructor; auto. eapply pack_enc; eauto.
Qed.
(** Where every bit shows up in the values (C58), writing what was read writes the bytes that were read. *)
Theorem C60_verbatim : forall hb idf fac prog l sl allow P n cs u vs u', reading idf fac prog l sl URead -> healthy (classes l) allow -> (forall d, allow d d = true) ->
  lossless_classes hb URead P sl -> settled_classes URead P sl -> Forall (fun c => P c = true) cs -> 0 <= w_pos u ->
  read_all hb (classes l) n cs u = (Ok vs, u') -> forallb no_nan vs = true ->
  let taken := firstn (Z.to_nat (w_pos u' - w_pos u)) (skipn (Z.to_nat (w_pos u)) (w_data u)) in
  exists N, forall n' w pre rest, (N <= n')%nat -> w_data w = pre ++ rest -> w_pos w = blen pre ->
    fst (write_all hb (classes l) n' vs w) = Ok tt /\
    w_data (snd (write_all hb (classes l) n' vs w)) = pre ++ taken ++ skipn (List.length taken) rest /\
    w_pos (snd (write_all hb (classes l) n' vs w)) = blen (pre ++ taken).
Proof.
  intros hb idf fac prog l sl allow P n cs u vs u' R H AL LC ST PC PU E NN taken.
  destruct (each_verbatim _ _ _ _ _ _ _ _ _ R H AL LC ST cs u vs PC PU ltac:(now rewrite E) NN) as (bs & rest & N & D & Q & EN). rewrite E in Q. cbn [snd] in Q.
  assert (TK : taken = List.concat bs).
  { unfold taken. rewrite D, Q. replace (Z.to_nat (w_pos u + blen (List.concat bs) - w_pos u)) with (List.length (List.concat bs)) by (unfold blen; lia).
    rewrite firstn_app, Nat.sub_diag, firstn_all. cbn [firstn]. apply app_nil_r. }
  rewrite TK. exists N. intros n' w pre rest' L DW PW. destruct (EN n' L) as [CF F].
  pose proof (write_all_ok hb (classes l) allow n' vs bs w H CF F ltac:(rewrite PW; apply blen_nonneg)) as OK. split; [exact OK|].
  destruct (write_all hb (classes l) n' vs w) as [r w'] eqn:W. cbn [fst snd] in *. subst r.
  destruct (write_all_spec hb (classes l) allow n' vs w w' pre rest' H CF DW PW W) as (bs' & F' & D' & P').
  assert (bs' = bs) as ->. { clear -F F'. revert bs' F'. induction F as [|v b vs bs X F IH]; intros bs' F'; inversion F'; subst; [reflexivity|]. f_equal; [congruence|auto]. }
  split; [exact D'|]. now rewrite P', blen_app.
Qed.
Print Assumptions C60_verbatim.

(** ** examples *)
(** a file with a table, a row and a table, none of them the bytes that the library would write; written in the middle of another file *)
Definition row_bytes : bytes := [x09; xee; xee; x02; x68; x69; xee; xee; x07; x00; x00; x00; x01; xfc].
Definition row_again : bytes := [x01; x00; x00; x02; x68; x69; x00; x00; x07; x00; x00; x00; x00; xfe].
Definition steady_file : world := W (fun _ => 3) (fun _ => None) [] ([xcc] ++ steady_bytes ++ row_bytes ++ steady_bytes ++ [xaa]) 1.
Definition other_file : world := W (fun _ => 4) (fun _ => None) [] [x10; x11; x12; x13] 2.
Example C60_nontrivial :
  reading back_idf back_fac steady_prog steady_cls steady_stmts URead /\ healthy (classes steady_cls) Nat.eqb /\
  steady_classes false URead (fun _ => true) steady_stmts /\
  exists vs, fst (read_all false (classes steady_cls) 9 [1; 0; 1]%nat steady_file) = Ok vs /\ List.length vs = 3%nat /\
    Forall (conforms false (classes steady_cls) Nat.eqb 9) vs /\
    match write_all false (classes steady_cls) 9 vs other_file with
    | (Ok _, w) => w_data w = [x10; x11] ++ steady_again ++ row_again ++ steady_again /\
        match read_all false (classes steady_cls) 9 [1; 0; 1]%nat (W (fun _ => 8) (fun _ => None) [] (w_data w) 2) with
        | (Ok vs', w') => vs' = vs /\ w_pos w' = w_pos w
        | _ => False
        end
    | _ => False
    end.
Proof.
  split; [exact (steady_reading URead)|]. split; [exact (C42_healthy _ _ _ _ _ (steady_program UBuf))|].
  split; [apply steady_checked; [vm_compute; reflexivity|exact steady_answers]|].
  eexists. split; [vm_compute; reflexivity|]. split; [reflexivity|]. split; [repeat (apply Forall_cons; [unfold conforms; vm_compute; discriminate|]); apply Forall_nil|].
  vm_compute. repeat split.
Qed.
(** a file copied byte by byte *)
Definition back_file : world := W (fun _ => 3) (fun _ => None) [] ([xcc] ++ back_bytes ++ [x02; x00; x68; x69] ++ back_bytes ++ [xaa]) 1.
Example C60_verbatim_nontrivial :
  reading back_idf back_fac back_prog back_classes back_stmts URead /\ healthy (classes back_classes) Nat.eqb /\
  lossless_classes false URead (fun _ => true) back_stmts /\ settled_classes URead (fun _ => true) back_stmts /\
  match read_all false (classes back_classes) 9 [1; 2]%nat back_file with
  | (Ok vs, _) => forallb no_nan vs = true /\
      match write_all false (classes back_classes) 9 vs other_file with
      | (Ok _, w) => w_data w = [x10; x11] ++ back_bytes ++ [x02; x00; x68; x69] ++ back_bytes
      | _ => False
      end
  | _ => False
  end.
Proof.
  split; [exact (back_reading URead)|]. split; [exact (C42_healthy _ _ _ _ _ (back_program UBuf))|].
  assert (L : lossless_classes false URead (fun _ => true) back_stmts /\ settled_classes URead (fun _ => true) back_stmts)
    by (apply lossless_checked; [vm_compute; reflexivity|intros; now eapply back_answers; eauto]).
  split; [apply L|]. split; [apply L|]. vm_compute. split; reflexivity.
Qed.
(** Fields that read to the end are not [steady]: the bytes of one object can be the beginning of those of another (structured/serializers/strings.py:142-181). *)
Theorem C60_prefix_refuted : exists l, run (fun _ _ => 5%nat) (fun _ _ => 6%nat) [] 0 (single_prog (XChar KInf)) = Ok l /\
  exists v1 v2 y r, was_read false l UBuf 0 v1 /\ was_read false l UBuf 0 v2 /\ v1 <> v2 /\
    fst (Structured_pack false (classes l) 5 v1 clean) = Ok y /\ fst (Structured_pack false (classes l) 5 v2 clean) = Ok (y ++ r).
Proof.
  eexists. split; [vm_compute; reflexivity|]. eexists _, _, [x61], [x62]. split; [exists 5%nat, clean, [x61]; vm_compute; reflexivity|].
  split; [exists 5%nat, clean, [x61; x62]; vm_compute; reflexivity|]. split; [discriminate|]. split; vm_compute; reflexivity.
Qed.
Print Assumptions C60_prefix_refuted.
