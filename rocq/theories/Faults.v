(** Why the serializers of class statements fail to read: what FaultSpec.v says. *)
From Verif Require RoundTripMain.
From Verif Require Import Base Floats Value StructMod Format Ser Exec Pure BaseFacts StructFacts FormatFacts
  SerFacts Leaf Wire Field Fuel DecFacts RoundTrip Adding PropsAdd PropsBasic PropsStrings Hints HintFacts Surface SerShape Programs Accept AcceptProg
  WireSpec WireFacts Wires ReadSpec ReadFacts Reads FaultSpec.

(** ** what is compared *)
Definition err {A} (r : res A) : option exn := match r with Ok _ => None | Err e => Some e end.
(** The exception [p], unless the stack ends, is the one expected, unless none is determined. *)
Definition le (p q : option exn) : Prop := p = None \/ p = Some RecursionError \/ q = Some Unspecified \/ p = q.
Lemma le_refl : forall p, le p p.
Proof. unfold le. auto. Qed.
Lemma le_none : forall q, le None q.
Proof. unfold le. auto. Qed.
Lemma le_stack : forall q, le (Some RecursionError) q.
Proof. unfold le. auto. Qed.
Lemma le_any : forall p, le p (Some Unspecified).
Proof. unfold le. auto. Qed.
Lemma le_eq : forall p q, p = q -> le p q.
Proof. intros p q ->. apply le_refl. Qed.
Lemma le_trans : forall p q r, le p q -> le q r -> le p r.
Proof. unfold le. intros p q r [A|[A|[A|A]]] [E|[E|[E|E]]]; subst; auto; try discriminate. Qed.
Lemma le_seq : forall {A B} (r : res A) (f : A -> res B) q, le (err r) q -> (forall a, r = Ok a -> le (err (f a)) q) -> le (err (rbind r f)) q.
Proof. intros A B [a|e] f q H1 H2; [now apply H2|exact H1]. Qed.

(** ** a struct format at an offset of a run *)
Definition rlen (m : mode) (st : sspec) (off : nat) : nat := size_u m off (expand (s_fmt st)).
Definition rfault (m : mode) (st : sspec) (off : nat) (b : bytes) : option exn :=
  if (rlen m st off <=? List.length b)%nat then err (ss_act st (unpack_u m off (expand (s_fmt st)) b)) else Some StructError.
Lemma dst_fault : forall hb st b, err (dst hb st b) = rfault (ss_mode hb st) st 0 b.
Proof.
  intros hb st b. unfold dst, rfault, rlen, st_unpack, ss_size, calcsize. set (us := expand (s_fmt st)). set (m := ss_mode hb st).
  rewrite Nat2Z.id, firstn_length. destruct (size_u m 0 us <=? List.length b)%nat eqn:L.
  - replace (Nat.min (size_u m 0 us) (List.length b)) with (size_u m 0 us) by lia. rewrite Nat.eqb_refl. cbn [rbind].
    now rewrite unpack_u_firstn by lia.
  - destruct (Nat.eqb _ _) eqn:E; [lia|reflexivity].
Qed.
Lemma dst_plain : forall hb st b e, s_act st = None -> dst hb st b = Err e -> e = StructError.
Proof.
  intros hb st b e A E. pose proof (dst_fault hb st b) as H. rewrite E in H. cbn in H. unfold rfault in H.
  destruct (_ <=? _)%nat; [|congruence]. unfold ss_act in H. rewrite A in H. discriminate.
Qed.
Lemma rfault_rst : forall m st off b, rfault m st off b = None <-> rst m st off b <> None.
Proof.
  intros m st off b. unfold rfault, rst, rlen. destruct (_ <=? _)%nat; [|split; [discriminate|congruence]].
  destruct (ss_act st _); cbn; split; congruence.
Qed.
Lemma rst_len : forall m st off b vs off' k, rst m st off b = Some (vs, off', k) ->
  off' = (off + rlen m st off)%nat /\ k = Z.of_nat (rlen m st off) /\ (rlen m st off <=? List.length b)%nat = true.
Proof.
  intros m st off b vs off' k H. unfold rst in H. fold (rlen m st off) in H. destruct (_ <=? _)%nat; [|discriminate].
  destruct (opt _); [|discriminate]. injection H as _ <- <-. auto.
Qed.
Lemma rlen_glue : forall m x y off, rlen m (glue x y) off = (rlen m x off + rlen m y (off + rlen m x off))%nat.
Proof. intros. unfold rlen. change (s_fmt (glue x y)) with (s_fmt x ++ s_fmt y). now rewrite expand_app, size_u_app. Qed.
Lemma rfault_glue : forall m x y off b, ss_wf x = true -> ss_wf y = true -> (rlen m (glue x y) off <=? List.length b)%nat = true ->
  rfault m (glue x y) off b = or_else (rfault m x off b) (rfault m y (off + rlen m x off) (skipn (rlen m x off) b)).
Proof.
  intros m x y off b WX WY L. unfold rfault. rewrite L. rewrite rlen_glue in L. rewrite skipn_length.
  destruct (rlen m x off <=? List.length b)%nat eqn:L1; [|lia].
  destruct (rlen m y (off + rlen m x off) <=? List.length b - rlen m x off)%nat eqn:L2; [|lia].
  change (s_fmt (glue x y)) with (s_fmt x ++ s_fmt y). rewrite expand_app, unpack_u_app.
  rewrite (glue_act false BO_LE eq_refl x y) by (auto; unfold ss_nvals, nvals; apply unpack_u_length).
  unfold rlen. destruct (ss_act x _) as [v1|]; [|reflexivity]. cbn [rbind err or_else]. destruct (ss_act y _); reflexivity.
Qed.

(** ** a sequence of fields, each at its offset of the run *)
Section Seq.
Variable hb : bool.
Variable ct : nat -> option cdef.
Variable md : umode.
Variable bo : border.
Let m := mode_of hb bo.
Definition serr (n : nat) (s : ser) (o : pobj) (off : nat) (b : bytes) : option exn :=
  match s with
  | SNull => None
  | SStruct st => rfault m st off b
  | _ => err (pdec hb ct md n s o b)
  end.
Fixpoint sshort (l : list ser) (off : nat) (b : bytes) : bool :=
  match l with
  | SNull :: l' => sshort l' off b
  | SStruct st :: l' => if (rlen m st off <=? List.length b)%nat then sshort l' (off + rlen m st off) (skipn (rlen m st off) b) else true
  | _ => false
  end.
Lemma serr_pdec : forall n s o b, sbo bo s -> err (pdec hb ct md (S n) s o b) = serr (S n) s o 0 b.
Proof.
  intros n s o b B. destruct s; cbn [serr]; try reflexivity.
  unfold pdec. cbn [resolve rbind dec dec_step]. pose proof (dst_fault hb st b) as D. unfold ss_mode in D. cbn in B. rewrite B in D.
  fold m in D. rewrite <- D. destruct (dst hb st b); reflexivity.
Qed.
Lemma sread_serr : forall n s o off b, serr n s o off b = None <-> sread hb ct md bo n s o off b <> None.
Proof.
  intros n s o off b. destruct s; cbn [serr sread]; try (split; [intros _; discriminate|reflexivity]); try apply rfault_rst;
    (destruct (pdec _ _ _ _ _ _ _) as [[? ?]|]; cbn; split; congruence).
Qed.
Variable St : Type.
Variable give : list value -> St -> option St.
Variable at_obj : St -> pobj.
Hypothesis give_nil : forall st, give [] st = Some st.
Hypothesis give_app : forall a c st, give (a ++ c) st = odo st' <- give a st; give c st'.
Fixpoint gerr (n : nat) (l : list ser) (off : nat) (b : bytes) (st : St) : option exn :=
  match l with
  | [] => None
  | s :: l' =>
      if sshort l off b then Some StructError else
      match sread hb ct md bo n s (at_obj st) off b with
      | None => serr n s (at_obj st) off b
      | Some (vs, off', k) => match give vs st with
                              | None => Some Unspecified
                              | Some st' => gerr n l' off' (adv k b) st'
                              end
      end
  end.
Fixpoint perr (n : nat) (l : list ser) (b : bytes) (st : St) : option exn :=
  match l with
  | [] => None
  | s :: l' =>
      match pdec hb ct md n s (at_obj st) b with
      | Err e => Some e
      | Ok (vs, k) => match give vs st with
                      | None => Some Unspecified
                      | Some st' => perr n l' (adv k b) st'
                      end
      end
  end.
Lemma sshort_glue : forall x y r off b, sshort (SStruct (glue x y) :: r) off b = sshort (SStruct x :: SStruct y :: r) off b.
Proof.
  intros x y r off b. cbn [sshort]. rewrite rlen_glue, skipn_length.
  destruct (rlen m x off <=? List.length b)%nat eqn:L1.
  - destruct (_ <=? List.length b - _)%nat eqn:L2; destruct (_ + _ <=? List.length b)%nat eqn:L3; try lia.
    rewrite skipn_skipn. f_equal. lia.
  - destruct (_ + _ <=? List.length b)%nat eqn:L3; [lia|reflexivity].
Qed.
Lemma sshort_step : forall a c, Adding.step a c -> forall off b, sshort a off b = sshort c off b.
Proof.
  intros a c [q r|q x y r]; (induction q as [|s q IH]; intros off b; cbn [app]; [|destruct s; cbn [sshort]; rewrite ?IH; reflexivity]).
  - reflexivity.
  - symmetry. apply sshort_glue.
Qed.
Lemma short_gerr : forall n l off b st, sshort l off b = true -> gerr n l off b st = Some StructError.
Proof. intros n [|s l] off b st H; [discriminate|]. cbn [gerr]. now rewrite H. Qed.
(** the relation to what is expected: [le], or [ge] of Raising.v *)
Variable rl : option exn -> option exn -> Prop.
Hypothesis rl_refl : forall p, rl p p.
Hypothesis rl_any : forall p, rl p (Some Unspecified).
Hypothesis rl_trans : forall p q r, rl p q -> rl q r -> rl p r.
Lemma rl_eq : forall p q, p = q -> rl p q.
Proof using rl_refl. intros p q ->. apply rl_refl. Qed.
Lemma gerr_step : forall a c, Adding.step a c -> Forall (fun s => wf_field s = true) a -> forall n off b st,
  rl (gerr n c off b st) (gerr n a off b st).
Proof using give_nil give_app rl_refl rl_any rl_trans.
  intros a c [q r|q x y r] W n.
  - induction q as [|s q IH]; intros off b st; cbn [app] in *.
    + apply rl_eq. cbn [gerr sread sshort]. rewrite give_nil. change (adv 0 b) with b.
      destruct (sshort r off b) eqn:H; [now apply short_gerr|reflexivity].
    + inversion W; subst. cbn [gerr]. rewrite (sshort_step _ _ (step_null (s :: q) r) off b : sshort (s :: q ++ SNull :: r) off b = sshort (s :: q ++ r) off b).
      destruct (sshort _ off b); [apply rl_refl|]. destruct (sread _ _ _ _ n s _ off b) as [[[vs o'] k]|]; [|apply rl_refl].
      destruct (give vs st); [|apply rl_refl]. now apply IH.
  - induction q as [|s q IH]; intros off b st; cbn [app] in *.
    + inversion W as [|? ? WX W']; subst. inversion W' as [|? ? WY W'']; subst. cbn in WX, WY.
      change (gerr n (SStruct (glue x y) :: r) off b st) with
        (if sshort (SStruct (glue x y) :: r) off b then Some StructError else
         match rst m (glue x y) off b with
         | None => rfault m (glue x y) off b
         | Some (vs, off', k) => match give vs st with None => Some Unspecified | Some st' => gerr n r off' (adv k b) st' end
         end).
      rewrite sshort_glue.
      change (gerr n (SStruct x :: SStruct y :: r) off b st) with
        (if sshort (SStruct x :: SStruct y :: r) off b then Some StructError else
         match rst m x off b with
         | None => rfault m x off b
         | Some (vs, off', k) => match give vs st with None => Some Unspecified | Some st' =>
             if sshort (SStruct y :: r) off' (adv k b) then Some StructError else
             match rst m y off' (adv k b) with
             | None => rfault m y off' (adv k b)
             | Some (vs, off', k') => match give vs st' with None => Some Unspecified | Some st' => gerr n r off' (adv k' (adv k b)) st' end
             end end
         end).
      destruct (sshort (SStruct x :: SStruct y :: r) off b) eqn:SH; [apply rl_refl|].
      pose proof SH as SH'. cbn [sshort] in SH. destruct (rlen m x off <=? List.length b)%nat eqn:L1; [|discriminate].
      rewrite skipn_length in SH. destruct (rlen m y (off + rlen m x off) <=? List.length b - rlen m x off)%nat eqn:L2; [|discriminate].
      assert (L3 : (rlen m (glue x y) off <=? List.length b)%nat = true) by (rewrite rlen_glue; lia).
      rewrite (rst_glue m x y off b WX WY), (rfault_glue m x y off b WX WY L3).
      destruct (rst m x off b) as [[[v1 o1] k1]|] eqn:E1.
      2:{ apply rl_eq. destruct (rfault m x off b) eqn:R1; [reflexivity|]. apply rfault_rst in R1. congruence. }
      assert (N1 : rfault m x off b = None) by (apply rfault_rst; congruence). rewrite N1. cbn [or_else].
      destruct (rst_len _ _ _ _ _ _ _ E1) as (-> & -> & _). rewrite adv_nat.
      assert (SY : sshort (SStruct y :: r) (off + rlen m x off) (skipn (rlen m x off) b) = false) by (cbn [sshort]; now rewrite skipn_length, L2).
      rewrite SY.
      destruct (rst m y (off + rlen m x off) (skipn (rlen m x off) b)) as [[[v2 o2] k2]|] eqn:E2.
      2:{ destruct (give v1 st); [apply rl_refl|apply rl_any]. }
      rewrite give_app. destruct (give v1 st) as [s1|]; [|apply rl_any].
      destruct (give v2 s1) as [s2|]; [|apply rl_refl]. pose proof (rst_k _ _ _ _ _ _ _ E2) as K2.
      rewrite adv_app by lia. rewrite adv_nat. apply rl_refl.
    + inversion W; subst. cbn [gerr]. rewrite (sshort_step _ _ (step_glue (s :: q) x y r) off b : sshort (s :: q ++ SStruct x :: SStruct y :: r) off b = sshort (s :: q ++ SStruct (glue x y) :: r) off b).
      destruct (sshort _ off b); [apply rl_refl|]. destruct (sread _ _ _ _ n s _ off b) as [[[vs o'] k]|]; [|apply rl_refl].
      destruct (give vs st); [|apply rl_refl]. now apply IH.
Qed.
Lemma gerr_runs : forall l n off b st, Forall (fun s => wf_field s = true) l -> rl (gerr n (runs l) off b st) (gerr n l off b st).
Proof using give_nil give_app rl_refl rl_any rl_trans.
  intros l n off b st W. pose proof (runs_steps l) as S. revert W. induction S as [l|a b0 c H S IH]; intros W; [apply rl_refl|].
  eapply rl_trans; [apply IH; eapply step_wf; eauto|now apply gerr_step].
Qed.
Lemma gerr_alt : forall n l, alt l = true -> Forall (sbo bo) l -> Forall (fun s => s <> SNull) l -> forall off b st,
  (match l with SStruct _ :: _ => off = 0%nat | _ => True end) -> perr (S n) l b st = gerr (S n) l off b st.
Proof.
  intros n l. induction l as [|s l IH]; intros A B N off b st O; [reflexivity|]. cbn [gerr perr].
  inversion B as [|? ? B1 B2]; subst. inversion N as [|? ? N1 N2]; subst.
  assert (AL : alt l = true) by (destruct s; try exact A; destruct l as [|[] ?]; try exact A; reflexivity || discriminate A).
  assert (Q : sread hb ct md bo (S n) s (at_obj st) off b = odo (vs, k) <- opt (pdec hb ct md (S n) s (at_obj st) b);
              Some (vs, (if is_struct s then Z.to_nat k else 0)%nat, k)).
  { destruct s; try reflexivity; [congruence|]. subst off. rewrite <- (sread_pdec hb ct md bo n _ _ b B1). cbn [sread is_struct].
    unfold rst. destruct (_ <=? _)%nat; [|reflexivity]. destruct (opt _); [|reflexivity]. cbn [body]. now rewrite Nat2Z.id. }
  assert (SH : sshort (s :: l) off b = true -> err (pdec hb ct md (S n) s (at_obj st) b) = Some StructError).
  { intros H. rewrite (serr_pdec n s _ b B1). destruct s; try discriminate H; [congruence|]. subst off. cbn [sshort serr] in *. unfold rfault.
    destruct (_ <=? _)%nat; [|reflexivity]. exfalso. destruct l as [|s' l]; [discriminate H|]. inversion N2; subst. destruct s'; try discriminate H; [congruence|]. discriminate A. }
  destruct (sshort (s :: l) off b).
  { specialize (SH eq_refl). destruct (pdec _ _ _ _ _ _ _) as [[vs k]|e]; [discriminate SH|]. exact SH. }
  assert (R : err (pdec hb ct md (S n) s (at_obj st) b) = serr (S n) s (at_obj st) off b).
  { rewrite (serr_pdec n s _ b B1). destruct s; try reflexivity. now subst off. }
  rewrite Q, <- R. destruct (pdec _ _ _ _ _ _ _) as [[vs k]|e]; [|reflexivity]. cbn [opt].
  destruct (give vs st) as [st'|]; [|reflexivity].
  rewrite (IH AL B2 N2 (if is_struct s then Z.to_nat k else 0%nat)); [reflexivity|]. destruct l as [|[] l]; auto. destruct s; try reflexivity. discriminate A.
Qed.
Lemma gerr_parts : forall l n b st, Forall (field_ok bo) l -> Forall atom (runs l) ->
  rl (perr (S n) (runs l) b st) (gerr (S n) l 0 b st).
Proof using give_nil give_app rl_refl rl_any rl_trans.
  intros l n b st F AT. rewrite (gerr_alt n (runs l)) with (off := 0%nat).
  - apply gerr_runs. eapply Forall_impl; [|exact F]. intros s (_ & _ & _ & Q & _). exact Q.
  - apply runs_alt.
  - apply (runs_forall _ l (push_sbo bo)). eapply Forall_impl; [|exact F]. intros s (Q & _). exact Q.
  - eapply Forall_impl; [|exact AT]. intros s [_ Q]. exact Q.
  - destruct (runs l) as [|[] ?]; auto.
Qed.
Lemma perr_stack : forall l b st, perr 0 l b st = None \/ perr 0 l b st = err (match l with s :: _ => pdec hb ct md 0 s (at_obj st) b | [] => Err RecursionError end).
Proof. intros [|s l] b st; [now left|]. right. cbn [perr]. unfold pdec. destruct (resolve false s (at_obj st)); reflexivity. Qed.
End Seq.

(** ** fields of a fixed size *)
Lemma made_kind : forall x bo s, made bo x s -> match s with SStruct _ | SNull => structy x = true | _ => structy x = false end.
Proof.
  assert (C : forall bo c n s, counted bo c n s -> match s with SStruct _ | SNull => True | _ => False end).
  { intros bo c n s H. unfold counted in H. destruct (n =? 0); [now subst|]. destruct H as (t & -> & _). exact I. }
  induction x using hx_ind'; intros bo sr M; cbn [made structy] in *; try contradiction.
  - destruct M as [_ ->]. reflexivity.
  - apply C in M. now destruct sr.
  - apply C in M. now destruct sr.
  - destruct a; cbn [char_made] in M; try (destruct M as [_ [? ->]]; reflexivity); try (destruct M as [? ->]; reflexivity).
    + apply C in M. now destruct sr.
    + destruct b as [|? []]; try contradiction. destruct M as [? ->]. reflexivity.
  - destruct M as (i & -> & _). reflexivity.
  - destruct M as (_ & i & _ & M). destruct (structy x && Nat.eqb (vals x) 1); [|destruct M as [? ->]; reflexivity].
    destruct M as (st & _ & M). destruct n; [now subst|]. destruct M as [? ->]. reflexivity.
  - destruct M as (? & ? & ? & ? & ? & -> & _). reflexivity.
  - destruct M as (i & -> & _). reflexivity.
  - destruct M as (? & ? & -> & M & _). exact (IHx _ _ M).
  - destruct M as (? & ? & ? & -> & _). reflexivity.
  - destruct M as (? & ? & ? & ? & -> & _). reflexivity.
  - destruct M as (? & ->). reflexivity.
  - destruct M as (? & ->). reflexivity.
Qed.
Section Fixed.
Variable hb : bool.
Variable md : umode.
Variable rec : nat -> bytes -> option (value * Z).
Variable why : nat -> bytes -> option exn.
Variable o : pobj.
Lemma bare_struct : forall x bo st m off b, made bo x (SStruct st) -> exists vs,
  read hb md rec o m (bare x) off b = if (rlen m st off <=? List.length b)%nat then Some (vs, (off + rlen m st off)%nat, Z.of_nat (rlen m st off)) else None.
Proof.
  induction x using hx_ind'; intros bo st mo off b M; cbn [bare];
    try (pose proof (made_act _ _ _ M) as A; cbn iota in A; exists (unpack_u mo off (expand (s_fmt st)) b);
         rewrite <- (struct_read hb md rec o _ _ _ mo off b M); unfold rst, rlen; destruct (_ <=? _)%nat; [|reflexivity];
         unfold ss_act; rewrite A; reflexivity).
  cbn [made] in M. destruct M as (st0 & st' & Q & M & F & _). injection Q as <-. destruct (IHx bo st' mo off b M) as [vs E].
  exists vs. unfold rlen in *. now rewrite F.
Qed.
Lemma bare_null : forall x bo m off b, made bo x SNull -> read hb md rec o m (bare x) off b = Some ([], off, 0).
Proof.
  intros x bo m off b M. destruct x; try exact (null_read hb md rec o _ _ m off b M). cbn [made] in M. destruct M as (? & ? & Q & _). discriminate Q.
Qed.
Lemma struct_fault : forall x bo st m off b, made bo x (SStruct st) -> rfault m st off b = fault hb md rec why o m x off b.
Proof.
  assert (PL : forall x bo st m off b, made bo x (SStruct st) -> s_act st = None -> rfault m st off b = absent (read hb md rec o m x off b) StructError).
  { intros x bo st m off b M A. rewrite <- (struct_read hb md rec o _ _ _ m off b M). unfold rfault, rst, rlen. destruct (_ <=? _)%nat; [|reflexivity].
    unfold ss_act. rewrite A. reflexivity. }
  induction x using hx_ind'; intros bo st mo off b M; pose proof (made_kind _ _ _ M) as K; try discriminate K; pose proof (made_act _ _ _ M) as A; cbn iota in A.
  - now apply PL with (bo := bo).
  - now apply PL with (bo := bo).
  - now apply PL with (bo := bo).
  - destruct a; try discriminate K. exact (PL _ _ _ mo off b M A).
  - cbn [fault]. cbn [made] in M. destruct M as (st0 & st' & Q & M & F & B & NV & W & AC). injection Q as <-.
    rewrite <- (IHx bo st' mo off b M), <- (struct_read hb md rec o _ _ _ mo off b M). pose proof (made_act _ _ _ M) as MA. pose proof (made_wf _ _ _ M) as W'.
    unfold rfault, rst, rlen. rewrite F. destruct (_ <=? List.length b)%nat; [|reflexivity].
    assert (LEN : List.length (unpack_u mo off (expand (s_fmt st')) b) = 1%nat) by (rewrite unpack_u_length; unfold ss_nvals, nvals in NV; congruence).
    destruct (unpack_u mo off (expand (s_fmt st')) b) as [|v []]; try discriminate LEN. unfold ss_act. rewrite AC.
    destruct (s_act st') as [l|] eqn:SA.
    + destruct x; try discriminate MA. destruct (apply_actions l [v]); reflexivity.
    + cbn [apply_actions opt err or_else]. destruct x; try (destruct MA as [? MA]; discriminate MA); cbn [convert_fault first_fault]; destruct (a v); reflexivity.
Qed.
Lemma null_fault : forall x bo m off b, made bo x SNull -> fault hb md rec why o m x off b = None.
Proof.
  intros x bo m off b M. pose proof (made_kind _ _ _ M) as K. pose proof (null_read hb md rec o _ _ m off b M) as R. destruct x; try discriminate K; cbn [fault].
  - now rewrite R.
  - now rewrite R.
  - now rewrite R.
  - cbn [read] in R. now rewrite R.
  - cbn [made] in M. destruct M as (? & ? & Q & _). discriminate Q.
Qed.
Lemma short_cut : forall bo xs sers, all2 (made bo) xs sers -> forall off b,
  sshort hb bo sers off b = cut_off (read hb md rec o (mode_of hb bo)) xs off b.
Proof.
  intros bo xs. unfold cut_off. induction xs as [|x xs IH]; intros [|s sers] A off b; try contradiction; [reflexivity|]. destruct A as [A1 A2].
  pose proof (made_kind _ _ _ A1) as K. cbn [lead].
  destruct (match s with SStruct _ | SNull => true | _ => false end) eqn:Q.
  - assert (KS : structy x = true) by (destruct s; try discriminate Q; exact K). rewrite KS. cbn [map members_of].
    destruct s; try discriminate Q; cbn [sshort].
    + rewrite (bare_null x bo _ off b A1). rewrite (IH sers A2). change (adv 0 b) with b. destruct (members_of _ _ off b) as [[? ?]|]; reflexivity.
    + destruct (bare_struct x bo st (mode_of hb bo) off b A1) as [vs ->]. destruct (_ <=? _)%nat; [|reflexivity]. rewrite (IH sers A2), adv_nat.
      destruct (members_of _ _ _ _) as [[? ?]|]; reflexivity.
  - assert (KS : structy x = false) by (destruct s; try discriminate Q; exact K). rewrite KS. destruct s; try discriminate Q; reflexivity.
Qed.
End Fixed.

(** ** the two descriptions exclude each other and leave nothing out *)
Section Exclusive.
Variable hb : bool.
Variable md : umode.
Variable rec : nat -> bytes -> option (value * Z).
Variable why : nat -> bytes -> option exn.
Hypothesis EX : forall c b, why c b = None <-> rec c b <> None.
Lemma bare_read : forall o x m off b vs off' k, read hb md rec o m x off b = Some (vs, off', k) ->
  exists ws, read hb md rec o m (bare x) off b = Some (ws, off', k).
Proof.
  intros o. induction x using hx_ind'; intros mo off b vs off' k E; cbn [bare]; eauto. cbn [read] in E.
  destruct (read hb md rec o mo x off b) as [[[ws o1] k1]|] eqn:R; [|discriminate]. destruct (convert a x ws); [|discriminate]. injection E as <- <- <-. eauto.
Qed.
Lemma cut_read : forall o m l off b, members_of (read hb md rec o m) l off b <> None -> cut_off (read hb md rec o m) l off b = false.
Proof.
  intros o m l. unfold cut_off. induction l as [|x l IH]; intros off b H; [reflexivity|]. cbn [members_of lead] in *. destruct (structy x); [|reflexivity]. cbn [map members_of].
  destruct (read hb md rec o m x off b) as [[[vs o1] k1]|] eqn:R; [|congruence]. destruct (bare_read o x m off b _ _ _ R) as [ws ->].
  destruct (members_of _ l o1 (adv k1 b)) as [[rest k2]|] eqn:M; [|congruence]. specialize (IH o1 (adv k1 b)). rewrite M in IH.
  destruct (members_of _ (map bare (lead l)) o1 (adv k1 b)) as [[? ?]|]; [reflexivity|]. apply IH. discriminate.
Qed.
Lemma items_bare : forall o m x run n off b, items_of (read hb md rec o m x) run n off b <> None -> items_of (read hb md rec o m (bare x)) run n off b <> None.
Proof.
  intros o m x run n. induction n as [|n IH]; intros off b H; [discriminate|]. cbn [items_of] in *.
  destruct (read hb md rec o m x off b) as [[[vs o1] k1]|] eqn:R; [|congruence]. destruct (bare_read o x m off b _ _ _ R) as [ws ->].
  destruct (items_of _ run n (if run then o1 else 0%nat) (adv k1 b)) as [[rest k2]|] eqn:M; [|congruence]. specialize (IH (if run then o1 else 0%nat) (adv k1 b)). rewrite M in IH.
  destruct (items_of (read hb md rec o m (bare x)) run n _ _) as [[? ?]|]; [discriminate|]. intros _. apply IH; [discriminate|reflexivity].
Qed.
Lemma items_exact : forall f g run, (forall off b, g off b = None <-> f off b <> (None : option place)) -> forall n off b,
  items_fault f g run n off b = None <-> items_of f run n off b <> None.
Proof.
  intros f g run H. induction n as [|n IH]; intros off b; cbn [items_fault items_of]; [split; congruence|].
  specialize (H off b). destruct (f off b) as [[[vs o1] k1]|]; [|rewrite H; split; congruence]. rewrite IH.
  destruct (items_of f run n _ _) as [[? ?]|]; split; congruence.
Qed.
Lemma first_exact : forall a vs, first_fault a vs = None <-> omap (fun v => match a v with Ok x => Some x | Err _ => None end) vs <> None.
Proof.
  intros a. induction vs as [|v vs IH]; cbn [first_fault omap]; [split; congruence|]. destruct (a v); [|split; congruence]. rewrite IH.
  destruct (omap _ vs); split; congruence.
Qed.
Lemma pick_exact : forall f g d r m, (forall y, d = Some y -> g y = None <-> f y <> (None : option place)) ->
  (forall p, In p m -> g (snd p) = None <-> f (snd p) <> None) -> pick_fault g d r m = None <-> pick_of f d r m <> None.
Proof.
  intros f g d r m HD HM. induction m as [|[k y] m IH]; cbn [pick_fault pick_of].
  - destruct d as [y|]; [now apply HD|split; congruence].
  - destruct (key_eqb r k); [exact (HM (k, y) (or_introl eq_refl))|]. apply IH. intros p I. apply HM. now right.
Qed.
Lemma members_exact : forall o m l g, (forall x, In x l -> forall off b, g x off b = None <-> read hb md rec o m x off b <> None) -> forall off b,
  members_fault (read hb md rec o m) g l off b = None <-> members_of (read hb md rec o m) l off b <> None.
Proof.
  intros o m l g. induction l as [|x l IH]; intros H off b; [cbn; split; congruence|].
  pose proof (cut_read o m (x :: l) off b) as C. cbn [members_fault members_of] in *. destruct (cut_off _ (x :: l) off b).
  - split; [discriminate|]. intros Q. specialize (C Q). discriminate C.
  - specialize (H x (or_introl eq_refl) off b) as HX. destruct (read hb md rec o m x off b) as [[[vs o1] k1]|]; [|rewrite HX; split; congruence].
    rewrite IH by (intros y I; apply H; now right). destruct (members_of _ l o1 (adv k1 b)) as [[? ?]|]; split; congruence.
Qed.
Lemma absent_exact : forall {A} (r : option A) e, absent r e = None <-> r <> None.
Proof. intros A [a|] e; cbn; split; congruence. Qed.
Lemma or_else_none : forall p q, or_else p q = None <-> p = None /\ q = None.
Proof. intros [e|] q; cbn; split; try congruence; try tauto; intros [H _]; discriminate H. Qed.
Lemma block_none : forall r, block r <> None <-> r <> None.
Proof. intros [[? ?]|]; cbn; split; congruence. Qed.
Lemma body_none : forall r, body r <> None <-> r <> None.
Proof. intros [[[? ?] ?]|]; cbn; split; congruence. Qed.
Lemma cond_exact : forall o f, cond_fault o f = None <->
  match f o with Ok r => key_eqb r (VBool true) = true \/ key_eqb r (VBool false) = true | Err _ => False end.
Proof.
  intros o f. unfold cond_fault. destruct (f o) as [r|]; [|split; [discriminate|contradiction]].
  destruct (key_eqb r (VBool true)), (key_eqb r (VBool false)); cbn; split; auto; try discriminate. intros [Q|Q]; discriminate Q.
Qed.
Lemma ready_exact : forall o x, ready_fault o x = None <-> ready o x = true.
Proof.
  intros o x. destruct x; cbn [ready_fault ready]; try (split; reflexivity).
  - rewrite cond_exact. destruct (f o) as [r|]; [|split; [contradiction|discriminate]]. now rewrite Bool.orb_true_iff.
  - unfold self_fault. destruct (assoc "cls" (p_attrs o)); [split; discriminate|]. destruct (p_proxy o); split; congruence.
Qed.
Theorem fault_exact : forall o x m off b, fault hb md rec why o m x off b = None <-> read hb md rec o m x off b <> None.
Proof.
  intros o. induction x using hx_ind'; intros mo off b; cbn [fault read].
  - apply absent_exact.
  - apply absent_exact.
  - apply absent_exact.
  - apply absent_exact.
  - destruct (string_of hb md (machine hb) a 0 b) as [[[vs o1] k]|]; [|split; congruence]. destruct vs as [|v vs]; [split; congruence|].
    destruct v; try (split; congruence). destruct (cod_dec cd b0); cbn; split; congruence.
  - destruct (packed x).
    + destruct (match n with inl z => Some (z, 0) | inr c => _ end) as [[count k]|]; [|split; congruence].
      rewrite or_else_none, absent_exact, (items_exact _ _ true (fun off' b' => IHx mo off' b')).
      pose proof (items_bare o mo x true (Z.to_nat count) 0 (adv k b)) as IB.
      destruct (items_of (read hb md rec o mo x) true _ _ _) as [[vs k']|]; cbn [block]; split; try congruence; try tauto.
      intros _. split; [apply IB; discriminate|discriminate].
    + destruct (match n with inl z => Some (z, 0%nat, 0) | inr c => _ end) as [[[count off1] k]|]; [|destruct (negb _); split; congruence].
      destruct (match s with None => Some (None, 0) | Some c => _ end) as [[size k1]|]; [|destruct (negb _); split; congruence].
      rewrite or_else_none, ready_exact. destruct (ready o x); cbn [negb]; [|split; [intros [Q _]; discriminate Q|congruence]].
      pose proof (items_exact _ _ false (fun off' b' => IHx mo off' b') (Z.to_nat count) 0 (adv (k + k1) b)) as IE.
      destruct (items_of (read hb md rec o mo x) false _ _ _) as [[vs k2]|].
      * destruct size as [z|]; [destruct (z =? k2)|]; cbn; split; try congruence; try tauto; try (intros _; split; reflexivity). intros [_ Q]. discriminate Q.
      * split; [intros [_ Q]; now apply IE in Q|congruence].
  - rewrite (members_exact o (machine hb) l (fault hb md rec why o (machine hb))).
    + destruct (members_of _ l 0 b) as [[? ?]|]; cbn; split; congruence.
    + rewrite Forall_forall in H. intros x I off' b'. now apply H.
  - rewrite or_else_none, cond_exact. destruct (f o) as [r|]; [|split; [intros [[] _]|congruence]].
    destruct (key_eqb r (VBool true)).
    + rewrite IHx, block_none, body_none. tauto.
    + destruct (key_eqb r (VBool false)); cbn; split; try congruence; try tauto. intros [[Q|Q] _]; discriminate Q.
  - rewrite or_else_none, IHx. destruct (read hb md rec o mo x off b) as [[[vs o1] k]|]; [|tauto].
    assert (Q : convert_fault a x vs = None <-> convert a x vs <> None) by (destruct x; cbn [convert_fault convert]; try apply first_exact; split; congruence).
    rewrite Q. destruct (convert a x vs); split; try congruence; try tauto. intros _. split; discriminate.
  - destruct (f o) as [r|]; [|split; congruence]. destruct (hashable r); [|split; congruence]. rewrite block_none, body_none. apply pick_exact.
    + intros y ->. auto.
    + intros p I. match goal with F : Forall _ m |- _ => rewrite Forall_forall in F; now apply F end.
  - specialize (IHx (machine hb) 0%nat b). destruct (read hb md rec o (machine hb) x 0 b) as [[[rs ?] ?]|]; [|exact IHx]. destruct rs as [|r rs]; [split; congruence|].
    destruct (hashable r); [|split; congruence]. rewrite block_none, body_none. apply pick_exact.
    + intros y ->. auto.
    + intros p I. match goal with F : Forall _ m |- _ => rewrite Forall_forall in F; now apply F end.
  - rewrite EX, block_none. destruct (rec c b) as [[? ?]|]; split; congruence.
  - rewrite or_else_none, EX. unfold self_fault. destruct (assoc "cls" (p_attrs o)); [split; [intros [Q _]; discriminate Q|congruence]|].
    destruct (p_proxy o); [|split; [intros [Q _]; discriminate Q|congruence]]. rewrite block_none. destruct (rec (p_cls o) b) as [[? ?]|]; split; try congruence; try tauto.
    intros _. split; [reflexivity|discriminate].
  - split; congruence.
  - split; congruence.
Qed.
Lemma bare_obj : forall o o' m x off b, structy x = true -> read hb md rec o m (bare x) off b = read hb md rec o' m (bare x) off b.
Proof. intros o o' m. induction x using hx_ind'; intros off b SX; try discriminate SX; try reflexivity. exact (IHx off b SX). Qed.
Lemma fields_cut : forall (o : list (string * value) -> pobj) m o' l d off b,
  fields_read (fun d => read hb md rec (o d) m) l d off b <> None -> cut_off (read hb md rec o' m) (map snd l) off b = false.
Proof.
  intros o m o' l. unfold cut_off. induction l as [|[a x] l IH]; intros d off b H; [reflexivity|]. cbn [fields_read map snd lead] in *.
  destruct (structy x) eqn:SX; [|reflexivity]. cbn [map members_of].
  destruct (read hb md rec (o d) m x off b) as [[[vs o1] k1]|] eqn:R; [|congruence]. destruct (bare_read (o d) x m off b _ _ _ R) as [ws Q].
  rewrite (bare_obj o' (o d) m x off b SX), Q. destruct (match vs with [] => _ | _ => _ end) as [d'|]; [|congruence]. specialize (IH d' o1 (adv k1 b)).
  destruct (fields_read _ l d' o1 (adv k1 b)) as [[? ?]|]; [|congruence].
  destruct (members_of _ (map bare (lead (map snd l))) o1 (adv k1 b)) as [[? ?]|]; [reflexivity|]. apply IH. discriminate.
Qed.
Lemma fields_exact : forall (o : list (string * value) -> pobj) m l d off b,
  fields_fault (fun d => read hb md rec (o d) m) (fun d => fault hb md rec why (o d) m) l d off b = None <->
  fields_read (fun d => read hb md rec (o d) m) l d off b <> None.
Proof.
  intros o m l. induction l as [|[a x] l IH]; intros d off b; [cbn; split; congruence|].
  pose proof (fields_cut o m (o d) ((a, x) :: l) d off b) as C. cbn [fields_fault fields_read] in *. destruct (cut_off _ (map snd ((a, x) :: l)) off b).
  - split; [discriminate|]. intros Q. specialize (C Q). discriminate C.
  - clear C. pose proof (fault_exact (o d) x m off b) as HX. destruct (read hb md rec (o d) m x off b) as [[[vs o1] k1]|]; [|rewrite HX; split; congruence].
    destruct vs as [|v [|]], (takes x); try (split; congruence); rewrite IH; destruct (fields_read _ l _ o1 (adv k1 b)) as [[? ?]|]; split; congruence.
Qed.
End Exclusive.
Theorem parse_exact : forall hb md sl n c b, why_unread hb md sl n c b = None <-> parse hb md sl n c b <> None.
Proof.
  intros hb md sl. induction n as [|n IH]; intros c b; cbn [why_unread parse]; [split; congruence|].
  destruct (nth_error sl c) as [sc|]; [|split; congruence]. cbv zeta. rewrite (fields_exact hb md _ _ IH (fun d => PO c true d)).
  destruct (fields_read _ _ [] 0 b) as [[? ?]|]; split; congruence.
Qed.

(** ** strings *)
Section StringFaults.
Variable hb : bool.
Variable ct : nat -> option cdef.
Variable md : umode.
Lemma number_ok : forall bo c b cs, size_code c = true -> dst hb (SS bo [T None c] None) b = Ok cs ->
  exists z o' k, cs = [VInt z] /\ number_at (mode_of hb bo) c 0 b = Some (z, o', k) /\ ss_size hb (SS bo [T None c] None) = k /\ 0 <= z.
Proof.
  intros bo c b cs S E. pose proof (dst_number hb bo c b S) as D. rewrite E in D. cbn [rbind opt] in D.
  destruct (number_at (mode_of hb bo) c 0 b) as [[[z o'] k]|] eqn:NA; [|discriminate]. injection D as -> ->. exists z, o', k.
  repeat split; auto. exact (proj1 (number_pos _ _ _ _ _ _ _ NA)).
Qed.
Lemma net_plain : forall b e, dec_net hb b = Err e -> e = StructError.
Proof.
  intros b e E. pose proof (net_dec hb b) as N. rewrite E in N. cbn [opt] in N. unfold dec_net in E.
  destruct (dst hb net_short b) as [cs|e1] eqn:D1; cbn [rbind] in E.
  2:{ injection E as <-. exact (dst_plain hb net_short b e1 eq_refl D1). }
  destruct (number_ok BO_DEFAULT CB b cs eq_refl D1) as (z & o' & k & -> & _ & _ & Z0). cbn [nth0 rbind as_int as_index] in E.
  destruct (128 <=? z); [|discriminate]. destruct (dst hb net_long b) as [cs|e1] eqn:D2; cbn [rbind] in E.
  2:{ injection E as <-. exact (dst_plain hb net_long b e1 eq_refl D2). }
  exfalso. destruct (number_ok BO_DEFAULT CH b cs eq_refl D2) as (z2 & o2 & k2 & -> & NA & _ & _). unfold net_of in N.
  unfold number_at, at_ in NA. cbn [mode_of m_native m_big wsize] in NA. change ((2 - 0 mod 2) mod 2)%nat with 0%nat in NA. cbn [Nat.add] in NA.
  destruct b as [|x [|y b]]; cbn [List.length Nat.leb] in NA; try discriminate NA.
  destruct (zb x <? 128); discriminate N.
Qed.
Definition char_exn (a : carg) : exn := match a with KBytes _ => ValueError | _ => StructError end.
Lemma char_plain : forall a bo s o b n e, char_made bo a s -> dec_step hb ct md (dec hb ct md n) s o b = Err e -> e = char_exn a.
Proof.
  intros a bo s o b n e M E. destruct a; cbn [char_made char_exn] in *.
  - destruct M as [S [id ->]]. cbn [dec_step] in E. destruct (dst hb (SS bo [T None c] None) b) as [cs|e1] eqn:D; cbn [rbind] in E.
    2:{ injection E as <-. exact (dst_plain hb _ _ _ (eq_refl : s_act (SS _ _ None) = None) D). }
    destruct (number_ok bo c b cs S D) as (z & o' & k & -> & _ & _ & Z0). cbn [nth0 rbind as_int as_index] in E.
    assert (X : forall (k : Z) rest, (rdo oo <- ss_matmul single_char z; rdo vs <- dost hb oo rest; Ok (vs, k)) = Err e -> e = StructError).
    { intros k' rest Q. destruct (Z.eq_dec z 0) as [->|NZ]; [cbn in Q; discriminate Q|].
      destruct (matmul_char BO_DEFAULT Cs z ltac:(lia)) as (t & MM & _).
      change (SS BO_DEFAULT [T None Cs] None) with single_char in MM. rewrite MM in Q. cbn [rbind dost] in Q.
      destruct (dst hb (SS BO_DEFAULT [t] None) rest) as [vs|e1] eqn:D1; [discriminate|]. cbn [rbind] in Q. injection Q as <-. exact (dst_plain hb _ _ _ (eq_refl : s_act (SS _ _ None) = None) D1). }
    destruct md; [discriminate|now apply X in E|now apply X in E].
  - unfold counted in M. destruct (z =? 0); [subst s; discriminate E|]. destruct M as (t & -> & _). cbn [dec_step] in E.
    destruct (dst hb (SS bo [t] None) b) as [vs|e1] eqn:D; [discriminate|]. injection E as <-. exact (dst_plain hb _ _ _ (eq_refl : s_act (SS _ _ None) = None) D).
  - destruct b0 as [|t []]; try contradiction. destruct M as [id ->]. cbn [dec_step] in E. destruct (byte_find t b); [discriminate|]. now injection E as <-.
  - destruct M as [id ->]. discriminate E.
  - destruct M as [id ->]. cbn [dec_step] in E. destruct (dec_net hb b) as [[size count]|e1] eqn:D; cbn [rbind] in E.
    2:{ injection E as <-. exact (net_plain b e1 D). }
    destruct md; try discriminate E. destruct (dst hb (SS BO_DEFAULT [T (Some (Z.to_nat count)) Cs] None) (adv size b)) as [vs|e1] eqn:D1; [discriminate|].
    injection E as <-. exact (dst_plain hb _ _ _ (eq_refl : s_act (SS _ _ None) = None) D1).
Qed.
Lemma char_fault : forall a bo s o b n, char_made bo a s ->
  le (err (pdec hb ct md n s o b)) (absent (string_of hb md (mode_of hb bo) a 0 b) (char_exn a)).
Proof.
  intros a bo s o b n M. unfold pdec. rewrite (leaf_resolve o s (char_leaf _ _ _ M)). cbn [rbind]. destruct n as [|n]; [apply le_stack|].
  assert (AG : agree 0 1 (fun n => sread hb ct md bo n s o 0 b) (string_of hb md (mode_of hb bo) a 0 b)) by (apply char_read; [exact M|lia]).
  apply agree_pdec in AG; [|apply (made_field (XChar a)); exact M|lia].
  destruct (string_of hb md (mode_of hb bo) a 0 b) as [[[vs o'] k]|]; cbn [absent].
  - destruct (AG (S n) (vs, k)) as [_ Q]. specialize (Q ltac:(lia) eq_refl). unfold pdec in Q. rewrite (leaf_resolve o s (char_leaf _ _ _ M)) in Q. cbn [rbind] in Q.
    destruct (dec hb ct md (S n) s o b); [apply le_none|discriminate Q].
  - cbn [dec]. destruct (dec_step hb ct md (dec hb ct md n) s o b) as [r|e] eqn:E; [apply le_none|]. apply le_eq. cbn [err]. f_equal. eapply char_plain; eauto.
Qed.
End StringFaults.

(** ** arrays of fixed-size items *)
Lemma rfault_layout : forall m bo f g act off b, layout_eq (expand f) (expand g) -> rfault m (SS bo f act) off b = rfault m (SS bo g act) off b.
Proof.
  intros m bo f g act off b [_ H]. destruct (H m off) as (S & _ & U). unfold rfault, rlen. cbn [s_fmt]. rewrite S, U. reflexivity.
Qed.
Lemma rep_rfault : forall st k m off b, rfault m (rep st (S k)) off b = rfault m (glue st (rep st k)) off b.
Proof.
  intros st k m off b. unfold glue, rep. cbn [s_act s_fmt s_bo]. unfold repeat_fmt. cbn [repeat List.concat].
  destruct (s_act st) as [a|] eqn:E; cbn [option_map repeat List.concat]; [|reflexivity]. unfold acts_of. rewrite E. reflexivity.
Qed.
Lemma rep_rlen : forall st k m off, rlen m (rep st (S k)) off = rlen m (glue st (rep st k)) off.
Proof. reflexivity. Qed.
Lemma rep_zero : forall st m off, rlen m (rep st 0) off = 0%nat.
Proof. reflexivity. Qed.
Lemma mul_fault : forall hb st k oo b, repeatable (s_fmt st) = true -> ss_mul st (Z.of_nat k) = Ok oo ->
  err (dost hb oo b) = rfault (ss_mode hb st) (rep st k) 0 b.
Proof.
  intros hb st k oo b R E. destruct k as [|k].
  - unfold ss_mul, ss_mul_impl in E. cbn in E. injection E as <-. unfold rfault, rep, repeat_fmt. cbn. destruct (s_act st); reflexivity.
  - destruct st as [bo f act]. cbn [s_fmt] in R.
    assert (H : exists g, oo = Some (SS bo g (option_map (fun a => concat (repeat a (S k))) act)) /\
      layout_eq (expand g) (expand (repeat_fmt f (S k)))).
    { destruct act as [a|].
      - destruct (mul_action_layout bo f a (Z.of_nat (S k)) R ltac:(lia)) as (g & E' & L). rewrite Nat2Z.id in E', L. exists g. split; [|exact L]. rewrite E in E'. now injection E' as ->.
      - destruct (mul_layout bo f (Z.of_nat (S k)) R ltac:(lia)) as (g & E' & L). rewrite Nat2Z.id in L. exists g. split; [|exact L]. rewrite E in E'. now injection E' as ->. }
    destruct H as (g & -> & L). cbn [dost]. rewrite dst_fault. unfold rep. cbn [s_fmt s_bo s_act]. unfold ss_mode. cbn [s_bo].
    now rewrite (rfault_layout _ _ _ _ _ _ _ L).
Qed.
Section Packed.
Variable hb : bool.
Variable md : umode.
Variable rec : nat -> bytes -> option (value * Z).
Variable why : nat -> bytes -> option exn.
Variable o : pobj.
Variables (x : hx) (bo : border) (st : sspec) (m : mode).
Hypothesis MD : made bo x (SStruct st).
Lemma rep_short : forall k off b, absent (items_of (read hb md rec o m (bare x)) true k off b) StructError =
  if (rlen m (rep st k) off <=? List.length b)%nat then None else Some StructError.
Proof using MD why.
  induction k as [|k IH]; intros off b; [rewrite rep_zero; reflexivity|]. cbn [items_of]. rewrite rep_rlen, rlen_glue.
  destruct (bare_struct hb md rec o x bo st m off b MD) as [vs ->]. destruct (rlen m st off <=? List.length b)%nat eqn:L1.
  - specialize (IH (off + rlen m st off)%nat (skipn (rlen m st off) b)). rewrite skipn_length in IH. rewrite adv_nat.
    destruct (items_of _ true k _ _) as [[? ?]|]; cbn [absent] in *;
      destruct (_ <=? List.length b - _)%nat eqn:L2; try discriminate IH; destruct (_ + _ <=? List.length b)%nat eqn:L3; try reflexivity; lia.
  - destruct (_ + _ <=? List.length b)%nat eqn:L3; [lia|reflexivity].
Qed.
Lemma rep_fault : forall k off b, rfault m (rep st k) off b =
  or_else (absent (items_of (read hb md rec o m (bare x)) true k off b) StructError)
    (items_fault (read hb md rec o m x) (fault hb md rec why o m x) true k off b).
Proof using MD why.
  pose proof (made_wf _ _ _ MD) as W. induction k as [|k IH]; intros off b.
  - unfold rfault, rep, repeat_fmt. cbn. destruct (s_act st); reflexivity.
  - rewrite rep_short. destruct (rlen m (rep st (S k)) off <=? List.length b)%nat eqn:L; cbn [or_else].
    2:{ unfold rfault. now rewrite L. }
    rewrite rep_rfault, rfault_glue by (auto using rep_wf). rewrite rep_rlen, rlen_glue in L. cbn [items_fault].
    rewrite <- (struct_read hb md rec o _ _ _ m off b MD), <- (struct_fault hb md rec why o _ _ _ m off b MD).
    destruct (rst m st off b) as [[[vs o1] k1]|] eqn:R.
    + assert (N : rfault m st off b = None) by (apply rfault_rst; congruence). rewrite N. cbn [or_else]. destruct (rst_len _ _ _ _ _ _ _ R) as (-> & -> & _).
      rewrite IH, adv_nat, rep_short, skipn_length. destruct (_ <=? List.length b - _)%nat eqn:L2; [reflexivity|lia].
    + destruct (rfault m st off b) eqn:N; [reflexivity|]. apply rfault_rst in N. congruence.
Qed.
End Packed.

(** ** headers of arrays *)
Lemma head_fault : forall hb bo n sz b e, head_ok n sz = true ->
  let m := mode_of hb bo in let h := head_made bo n sz in
  (rdo hv <- dost hb h b; rdo p <- header_unpack_values h (match n with inl z => z | inr _ => -1 end) hv; Ok (p, osize hb h)) = Err e -> e = StructError.
Proof.
  intros hb bo n sz b e H m h E. pose proof (head_read hb bo n sz b H) as HR. cbv zeta in HR. fold m h in HR. rewrite E in HR. cbn [opt] in HR.
  destruct (dost hb h b) as [hv|e1] eqn:D; cbn [rbind] in E.
  2:{ injection E as <-. destruct h as [st|] eqn:HH; [|discriminate D]. cbn [dost] in D. apply (dst_plain hb st b e1); [|exact D].
      subst h. destruct n, sz; cbn [head_made] in HH; try discriminate HH; injection HH as <-; reflexivity. }
  exfalso. unfold head_ok in H. apply andb_prop in H as [H1 H2]. subst m h.
  destruct n as [z|c], sz as [d|]; cbn [head_made] in *.
  - cbn [dost] in D. destruct (number_ok hb bo d b hv H2 D) as (y & o' & k & _ & NA & _). change (adv 0 b) with b in HR. rewrite NA in HR. discriminate HR.
  - discriminate HR.
  - cbn [dost] in D. pose proof (rst_dst hb (SS bo (fold_overlaps false [T None c] [T None d]) None) b) as RD. rewrite D in RD. cbn [rbind opt] in RD.
    assert (FO : foldable [T None c] [T None d] = true) by (unfold foldable; reflexivity).
    unfold ss_mode in RD. cbn [s_bo] in RD. rewrite (rst_layout _ _ _ _ _ _ _ (fold_layout _ _ FO)) in RD.
    change (SS bo ([T None c] ++ [T None d]) None) with (glue (SS bo [T None c] None) (SS bo [T None d] None)) in RD.
    rewrite rst_glue in RD by reflexivity. rewrite (rst_number _ bo c 0 b H1) in RD.
    destruct (number_at (mode_of hb bo) c 0 b) as [[[x o'] k]|]; [|discriminate RD].
    rewrite (rst_number _ bo d o' (adv k b) H2) in RD. destruct (number_at (mode_of hb bo) d o' (adv k b)) as [[[y o2] k2]|]; [discriminate HR|discriminate RD].
  - cbn [dost] in D. destruct (number_ok hb bo c b hv H1 D) as (y & o' & k & _ & NA & _). rewrite NA in HR. discriminate HR.
Qed.

(** ** hint expressions *)
Lemma string_bytes : forall hb md m a off b v vs o' k, string_of hb md m a off b = Some (v :: vs, o', k) -> exists y, v = VBytes y.
Proof.
  intros hb md m a off b v vs o' k E. destruct a; cbn [string_of] in E.
  - destruct (number_at m c 0 b) as [[[z o1] j]|]; [|discriminate]. destruct (cut _ _ _); [|discriminate]. cbn [block] in E.
    destruct (_ && _); [discriminate E|]. injection E as <- _ _ _. eauto.
  - destruct (z =? 0); [discriminate E|]. unfold at_ in E. destruct (_ <=? _)%nat; [|discriminate]. injection E as <- _ _ _. eauto.
  - destruct b0 as [|t []]; try discriminate. destruct (until t b); [|discriminate]. injection E as <- _ _ _. eauto.
  - injection E as <- _ _ _. eauto.
  - destruct (net_of hb b) as [[z j]|]; [|discriminate]. destruct (cut _ _ _); [|discriminate]. injection E as <- _ _ _. eauto.
Qed.
Section Main.
Variable hb : bool.
Variable ct : nat -> option cdef.
Variable md : umode.
Variable TT : nat -> nat -> bool.
Variable rec : nat -> bytes -> option (value * Z).
Variable why : nat -> bytes -> option exn.
Variables L U : nat.
Hypothesis OB : forall c b, agree L U (fun n => opt (dcreate hb ct md n c b)) (rec c b).
Hypothesis EX : forall c b, why c b = None <-> rec c b <> None.
Hypothesis OF : forall c b n, (n < L)%nat -> le (err (dcreate hb ct md n c b)) (why c b).
Variable c : nat.
Variable o : pobj.
Definition faulted (x : hx) : Prop := forall bo s off b n, made bo x s -> hc ct TT c s = true -> (n < S L)%nat ->
  le (serr hb ct md bo n s o off b) (fault hb md rec why o (mode_of hb bo) x off b).
Lemma got : forall x bo s off b n p, made bo x s -> hc ct TT c s = true -> (n < S L)%nat ->
  sread hb ct md bo n s o off b = Some p -> read hb md rec o (mode_of hb bo) x off b = Some p.
Proof using OB.
  intros x bo s off b n p M H N E. destruct (all_shown hb ct md TT rec L U OB c o x bo s off b M H n p) as [P _]. auto.
Qed.
Lemma got_pdec : forall x bo s b n p, made bo x s -> hc ct TT c s = true -> (n < S L)%nat ->
  pdec hb ct md n s o b = Ok p -> body (read hb md rec o (mode_of hb bo) x 0 b) = Some p.
Proof using OB.
  intros x bo s b n p M H N E. pose proof (shown_pdec hb ct md TT rec L U OB c o x bo s b (all_shown hb ct md TT rec L U OB c o x) M H) as AG.
  destruct (AG n p) as [P _]. apply P; [exact N|]. now rewrite E.
Qed.
Lemma faulted_pdec : forall x bo s b n, faulted x -> made bo x s -> hc ct TT c s = true -> (n < S L)%nat ->
  le (err (pdec hb ct md n s o b)) (fault hb md rec why o (mode_of hb bo) x 0 b).
Proof.
  intros x bo s b n F M H N. destruct n as [|n].
  - destruct s; try (now apply (F bo _ 0%nat b 0%nat M H N)); apply le_stack.
  - rewrite (serr_pdec hb ct md bo n s o b) by (apply (made_field x); exact M). now apply F.
Qed.
Lemma le_got : forall p x m off b, le p (fault hb md rec why o m x off b) -> read hb md rec o m x off b <> None -> p = None \/ p = Some RecursionError.
Proof using EX.
  intros p x m off b H R. apply (fault_exact hb md rec why EX) in R. rewrite R in H. unfold le in H.
  destruct H as [H|[H|[H|H]]]; auto. discriminate H.
Qed.
Lemma fnode : forall bo s off b q n, (match s with SNull | SStruct _ => False | _ => True end) -> resolve false s o = Ok s ->
  (forall k, n = S k -> le (err (dec_step hb ct md (dec hb ct md k) s o b)) q) -> le (serr hb ct md bo n s o off b) q.
Proof.
  intros bo s off b q n K R H. assert (E : serr hb ct md bo n s o off b = err (dec hb ct md n s o b)).
  { unfold serr, pdec. rewrite R. destruct s; try contradiction; reflexivity. }
  rewrite E. destruct n as [|k]; [apply le_stack|]. cbn [dec]. now apply H.
Qed.
Lemma items_le : forall x bo i i' n, faulted x -> made bo x i -> hc ct TT c i = true -> (n < S L)%nat -> resolve false i o = Ok i' -> forall k b,
  le (err (dec_items (dec hb ct md n) i' o k b)) (items_fault (read hb md rec o (mode_of hb bo) x) (fault hb md rec why o (mode_of hb bo) x) false k 0 b).
Proof using OB EX OF.
  intros x bo i i' n F M H N R k. induction k as [|k IH]; intros b; [apply le_none|]. cbn [dec_items items_fault].
  pose proof (faulted_pdec x bo i b n F M H N) as FP. pose proof (fun p => got_pdec x bo i b n p M H N) as GP. unfold pdec in FP, GP. rewrite R in FP, GP. cbn [rbind] in FP, GP.
  destruct (dec hb ct md n i' o b) as [[vs z]|e]; cbn [rbind err] in *.
  - specialize (GP _ eq_refl). destruct (read hb md rec o (mode_of hb bo) x 0 b) as [[[vs' o'] z']|]; [|discriminate GP]. injection GP as -> ->.
    specialize (IH (adv z b)). destruct (dec_items _ i' o k (adv z b)) as [[rest z']|]; exact IH.
  - pose proof (le_got _ x _ 0 b FP) as LG. destruct (read hb md rec o (mode_of hb bo) x 0 b) as [[[vs' o'] z']|]; [|exact FP].
    destruct (LG ltac:(discriminate)) as [Q|Q]; [discriminate Q|]. rewrite Q. apply le_stack.
Qed.
Lemma items_got : forall x bo i i' n, made bo x i -> hc ct TT c i = true -> (n < S L)%nat -> resolve false i o = Ok i' -> forall k b p,
  dec_items (dec hb ct md n) i' o k b = Ok p -> items_of (read hb md rec o (mode_of hb bo) x) false k 0 b = Some p.
Proof using OB.
  intros x bo i i' n M H N R k b p E.
  pose proof (items_agree hb ct md o (S L) (U + height x) i i' (read hb md rec o (mode_of hb bo) x)) as IA.
  specialize (IA ltac:(intros b'; apply (shown_pdec hb ct md TT rec L U OB c o x bo i b' (all_shown hb ct md TT rec L U OB c o x) M H)) R k b n p).
  destruct IA as [P _]. apply P; [exact N|]. now rewrite E.
Qed.
Lemma ready_err : forall x bo s, made bo x s -> err (resolve false s o) = ready_fault o x.
Proof.
  assert (C : forall bo c n s, counted bo c n s -> err (resolve false s o) = None).
  { intros bo k n s H. unfold counted in H. destruct (n =? 0); [now subst|]. destruct H as (t & -> & _). reflexivity. }
  intros x bo s M. destruct x; cbn [made ready_fault] in *; try contradiction.
  - destruct M as [_ ->]. reflexivity.
  - eauto.
  - eauto.
  - destruct a; cbn [char_made] in M; try (destruct M as [_ [? ->]]; reflexivity); try (destruct M as [? ->]; reflexivity); [eauto|].
    destruct b as [|? []]; try contradiction. destruct M as [? ->]. reflexivity.
  - destruct M as (i & -> & _). reflexivity.
  - destruct M as (_ & i & _ & M). destruct (structy x && Nat.eqb (vals x) 1); [|destruct M as [? ->]; reflexivity].
    destruct M as (st & _ & M). destruct n; [now subst|]. destruct M as [? ->]. reflexivity.
  - destruct M as (? & ? & ? & ? & ? & -> & _). reflexivity.
  - destruct M as (i & -> & _). cbn [resolve]. unfold cond_fault. destruct (f o) as [r|]; [|reflexivity]. cbn [rbind]. unfold cond_branch.
    destruct (key_eqb r (VBool true)); [reflexivity|]. destruct (key_eqb r (VBool false)); [reflexivity|]. cbn [orb]. destruct (hashable r); reflexivity.
  - destruct M as (? & ? & -> & _). reflexivity.
  - destruct M as (? & ? & ? & -> & _). reflexivity.
  - destruct M as (? & ? & ? & ? & -> & _). reflexivity.
  - destruct M as (? & ->). reflexivity.
  - destruct M as (? & ->). cbn [resolve]. unfold self_class, self_fault. destruct (assoc "cls" (p_attrs o)); [reflexivity|]. destruct (p_proxy o); reflexivity.
Qed.

Lemma array_faulted : forall n sz x, faulted x -> faulted (XArray n sz x).
Proof using OB EX OF.
  intros n sz x SH bo s off b fu M H N. cbn [made] in M. destruct M as (HO & i & MI & M). cbn [fault]. rewrite packed_eq.
  destruct (structy x && Nat.eqb (vals x) 1) eqn:P.
  - destruct M as (st & -> & M). apply andb_prop in P as [_ P]. apply Nat.eqb_eq in P.
    destruct (single_tok _ _ _ MI P) as (t & F & _ & B). assert (RP : repeatable (s_fmt st) = true) by (rewrite F; reflexivity).
    assert (MU : forall k, exists oo, ss_mul st (Z.of_nat k) = Ok oo /\
      forall b, err (dost hb oo b) = or_else (absent (items_of (read hb md rec o (mode_of hb bo) (bare x)) true k 0 b) StructError)
        (items_fault (read hb md rec o (mode_of hb bo) x) (fault hb md rec why o (mode_of hb bo) x) true k 0 b)).
    { intros k. destruct (mul_ok st k RP) as [oo MO]. exists oo. split; [exact MO|]. intros b'. rewrite (mul_fault hb st k oo b' RP MO).
      unfold ss_mode. rewrite B. now apply rep_fault with (bo := bo). }
    destruct n as [z|d].
    + subst s. destruct (MU (Z.to_nat z)) as (oo & MO & EQ). apply fnode; [exact I|reflexivity|]. intros k _. cbn [dec_step]. rewrite MO. cbn [rbind].
      change (adv 0 b) with b. rewrite <- (EQ b). apply le_eq. destruct (dost hb oo b); reflexivity.
    + destruct M as [id ->]. pose proof HO as HO'. unfold head_ok in HO'. apply andb_prop in HO' as [SC _].
      apply fnode; [exact I|reflexivity|]. intros k _. cbn [dec_step].
      pose proof (dst_number hb bo d b SC) as D. pose proof (dst_plain hb (SS bo [T None d] None) b) as DP. set (cs := SS bo [T None d] None) in *.
      destruct (number_at (mode_of hb bo) d 0 b) as [[[z o'] j]|] eqn:NA.
      * destruct (dst hb cs b) as [vs|]; [|discriminate D]. cbn [rbind opt] in *. injection D as -> D. rewrite D. cbn [one rbind as_int as_index].
        destruct (number_pos _ _ _ _ _ _ _ NA) as [Z0 _]. destruct (MU (Z.to_nat z)) as (oo & MO & EQ). rewrite Z2Nat.id in MO by lia. rewrite MO. cbn [rbind].
        rewrite <- (EQ (adv j b)). apply le_eq. destruct (dost hb oo (adv j b)); reflexivity.
      * destruct (dst hb cs b) as [vs|e]; [discriminate D|]. cbn [rbind err]. rewrite (DP e eq_refl eq_refl). apply le_refl.
  - destruct M as [id ->]. cbn [hc] in H. apply andb_prop in H as [H _].
    apply fnode; [exact I|reflexivity|]. intros k EK. subst fu. cbn [dec_step].
    pose proof (head_read hb bo n sz b HO) as HR. pose proof (fun e => head_fault hb bo n sz b e HO) as HF. cbv zeta in HR, HF.
    set (h := head_made bo n sz) in *. set (static := match n with inl z => z | inr _ => -1 end) in *.
    match type of HR with _ = ?e => set (hd := e) in * end.
    match goal with |- le _ ?g => assert (E : g = match hd with None => Some StructError | Some (p, k) =>
      or_else (ready_fault o x) (match items_of (read hb md rec o (mode_of hb bo) x) false (Z.to_nat (fst p)) 0 (adv k b) with
        | None => items_fault (read hb md rec o (mode_of hb bo) x) (fault hb md rec why o (mode_of hb bo) x) false (Z.to_nat (fst p)) 0 (adv k b)
        | Some (_, k2) => err (check_data_size (snd p) k2) end) end) end.
    { subst hd. destruct (match n with inl z => Some (z, 0%nat, 0) | inr c => number_at (mode_of hb bo) c 0 b end) as [[[count off1] j]|]; [|reflexivity].
      destruct sz as [d|].
      - destruct (number_at (mode_of hb bo) d off1 (adv j b)) as [[[z o'] k1]|] eqn:NA; [|reflexivity]. cbn [fst snd].
        destruct (number_pos _ _ _ _ _ _ _ NA) as [Z0 _]. f_equal. destruct (items_of _ false _ 0 _) as [[vs k2]|]; [|reflexivity]. unfold check_data_size.
        destruct (0 <=? z) eqn:Q2; [|lia]. cbn [andb]. destruct (z =? k2); reflexivity.
      - cbn [fst snd]. destruct (items_of _ false _ 0 _) as [[vs k2]|]; reflexivity. }
    rewrite E. clear E.
    destruct (dost hb h b) as [hv|e] eqn:DH; cbn [rbind] in HR, HF |- *.
    2:{ cbn [opt] in HR. rewrite <- HR. cbn [err]. rewrite (HF e eq_refl). apply le_refl. }
    destruct (header_unpack_values h static hv) as [[count ds]|e] eqn:DV; cbn [rbind] in HR, HF |- *.
    2:{ cbn [opt] in HR. rewrite <- HR. cbn [err]. rewrite (HF e eq_refl). apply le_refl. }
    cbn [opt] in HR. rewrite <- HR. cbn [fst snd]. rewrite <- (ready_err x bo i MI).
    destruct (resolve false i o) as [i'|e] eqn:RI; cbn [rbind err or_else]; [|apply le_refl].
    pose proof (items_le x bo i i' k SH MI H ltac:(lia) RI (Z.to_nat count) (adv (osize hb h) b)) as IL.
    pose proof (items_got x bo i i' k MI H ltac:(lia) RI (Z.to_nat count) (adv (osize hb h) b)) as IG.
    pose proof (items_exact (read hb md rec o (mode_of hb bo) x) (fault hb md rec why o (mode_of hb bo) x) false (fun off' b' => fault_exact hb md rec why EX o x (mode_of hb bo) off' b') (Z.to_nat count) 0 (adv (osize hb h) b)) as IE.
    destruct (dec_items (dec hb ct md k) i' o (Z.to_nat count) (adv (osize hb h) b)) as [[vs z]|e]; cbn [rbind err] in *.
    + rewrite (IG _ eq_refl). apply le_eq. destruct (check_data_size ds z); reflexivity.
    + destruct (items_of _ false _ 0 _) as [[vs z]|]; [|exact IL]. destruct IE as [_ IE]. rewrite (IE ltac:(discriminate)) in IL.
      destruct IL as [Q|[Q|[Q|Q]]]; try discriminate Q. injection Q as ->. apply le_stack.
Qed.

(** sums of fields *)
Lemma gerr_zero : forall bo St give at_obj l off b (st : St), le (perr hb ct md St give at_obj 0 l b st) (gerr hb ct md bo St give at_obj 0 l off b st).
Proof.
  intros bo St give at_obj [|s l] off b st; [apply le_none|]. cbn [perr]. unfold pdec. destruct (resolve false s (at_obj st)) as [s'|e] eqn:R; cbn [rbind dec]; [apply le_stack|].
  cbn [gerr]. assert (SH : sshort hb bo (s :: l) off b = false) by (destruct s; try reflexivity; discriminate R). rewrite SH.
  assert (SE : serr hb ct md bo 0 s (at_obj st) off b = Some e) by (unfold serr, pdec; destruct s; try discriminate R; now rewrite R).
  pose proof (sread_serr hb ct md bo 0 s (at_obj st) off b) as Q. rewrite SE in *. destruct (sread _ _ _ _ _ _ _ _ _); [|apply le_refl].
  destruct Q as [_ Q]. discriminate (Q ltac:(discriminate)).
Qed.
Lemma sum_le : forall bo St give at_obj, (forall st, give [] st = Some st) ->
  (forall a c st, give (a ++ c) st = odo st' <- give a st; give c st') ->
  forall l n b (st : St), Forall (field_ok bo) l -> Forall atom (runs l) ->
  le (perr hb ct md St give at_obj n (runs l) b st) (gerr hb ct md bo St give at_obj n l 0 b st).
Proof.
  intros bo St give at_obj G1 G2 l n b st F A. destruct n as [|n]; [|apply gerr_parts with (rl := le); auto using le_refl, le_any; exact le_trans].
  eapply le_trans; [apply gerr_zero with (off := 0%nat)|]. apply gerr_runs with (rl := le); auto using le_refl, le_any; [exact le_trans|]. eapply Forall_impl; [|exact F]. intros s (_ & _ & _ & Q & _). exact Q.
Qed.
Lemma perr_subs : forall n l b acc, perr hb ct md (list value) gather (fun _ => o) n l b acc = err (dec_subs (dec hb ct md n) (Some o) o l b).
Proof.
  intros n. induction l as [|s l IH]; intros b acc; [reflexivity|]. cbn [perr dec_subs oresolve octx]. unfold pdec.
  destruct (resolve false s o) as [s'|]; [|reflexivity]. cbn [rbind]. destruct (dec hb ct md n s' o b) as [[vs k]|]; [|reflexivity].
  cbn [rbind gather]. unfold gather at 1. rewrite IH. destruct (dec_subs _ _ _ l _) as [[rest k']|]; reflexivity.
Qed.
Lemma members_le : forall bo xs, Forall faulted xs -> forall l,
  all2 (made bo) xs l -> forallb (hc ct TT c) l = true -> forall n off b acc, (n < S L)%nat ->
  le (gerr hb ct md bo (list value) gather (fun _ => o) n l off b acc)
     (members_fault (read hb md rec o (mode_of hb bo)) (fault hb md rec why o (mode_of hb bo)) xs off b).
Proof using OB EX OF.
  intros bo xs SH. induction SH as [|x xs SX SH IH]; intros [|s l] A HC n off b acc N; try contradiction; [apply le_none|].
  pose proof (short_cut hb md rec o bo (x :: xs) (s :: l) A off b) as SC.
  destruct A as [A1 A2]. cbn in HC. apply andb_prop in HC as [HC1 HC2]. cbn [gerr members_fault]. rewrite SC.
  destruct (cut_off _ (x :: xs) off b); [apply le_refl|].
  pose proof (SX bo s off b n A1 HC1 N) as LE. pose proof (fun p => got x bo s off b n p A1 HC1 N) as GO.
  destruct (sread hb ct md bo n s o off b) as [[[vs off'] k]|] eqn:E.
  - rewrite (GO _ eq_refl). unfold gather at 1. now apply IH.
  - pose proof (le_got _ x _ off b LE) as LG. pose proof (proj1 (sread_serr hb ct md bo n s o off b)) as SS. rewrite E in SS.
    destruct (read hb md rec o (mode_of hb bo) x off b) as [[[vs' o'] z']|]; [|exact LE].
    destruct (LG ltac:(discriminate)) as [Q|Q]; [now specialize (SS Q)|]. rewrite Q. apply le_stack.
Qed.
Lemma tuple_faulted : forall l, Forall faulted l -> faulted (XTuple l).
Proof using OB EX OF.
  intros l SH bo s off b n M H N. cbn [made] in M. destruct M as (fin & id & id' & sers & i & -> & SM & A). cbn [hc] in H. apply andb_prop in H as [H _].
  pose proof (all2_field _ _ _ A) as F.
  destruct (ssum_rel fin id' sers i) as (FL & R & OK); auto.
  { eapply Forall_impl; [|exact F]. intros s (_ & _ & Q & _). exact Q. }
  { apply forallb_forall. rewrite Forall_forall in F. intros s I. apply (F s I). }
  { eapply fields_lossless; eauto. }
  assert (HC : forallb (hc ct TT c) sers = true).
  { apply runs_back; [reflexivity|reflexivity|]. eapply rel_back; [reflexivity|exact R|]. now apply hc_parts. }
  cbn [fault]. apply fnode; [exact I|reflexivity|]. intros k EK. subst n. cbn [dec_step].
  assert (SUB : forall j, (j < S L)%nat -> le (err (dec_subs (dec hb ct md j) (Some o) o (parts i) b)) (members_fault (read hb md rec o (machine hb)) (fault hb md rec why o (machine hb)) l 0 b)).
  { intros j J. rewrite (rel_dec hb ct md j (Some o) o _ _ b R), <- (perr_subs j (runs sers) b []).
    eapply le_trans; [apply sum_le with (bo := BO_DEFAULT)|].
    - intros st. unfold gather. now rewrite app_nil_r.
    - intros a1 a2 st. unfold gather. now rewrite app_assoc.
    - exact F.
    - apply OK.
    - change (machine hb) with (mode_of hb BO_DEFAULT). now apply members_le. }
  assert (E : err (rdo i' <- resolve false i o; rdo (vs, k0) <- dec hb ct md k i' o b; Ok ([VTuple vs], k0)) = err (pdec hb ct md k i o b)).
  { unfold pdec. destruct (resolve false i o) as [i'|]; [|reflexivity]. cbn [rbind]. destruct (dec hb ct md k i' o b) as [[vs z]|]; reflexivity. }
  rewrite E. clear E. destruct (match i with SNull | SCompound _ _ => true | _ => false end) eqn:K.
  - destruct i; try discriminate K; unfold pdec; cbn [resolve parts].
    + destruct k; [apply le_stack|apply le_none].
    + destruct (existsb needs_pre subs) eqn:E; cbn [rbind]; (destruct k as [|k]; [apply le_stack|]); cbn [dec dec_step].
      * apply SUB. lia.
      * rewrite dec_subs_none by exact E. apply SUB. lia.
  - assert (P : parts i = [i]) by (destruct i; try reflexivity; try discriminate K; contradiction). specialize (SUB k ltac:(lia)). rewrite P in SUB.
    cbn [dec_subs oresolve octx] in SUB. unfold pdec. destruct (resolve false i o) as [i'|]; [|exact SUB]. cbn [rbind] in *.
    destruct (dec hb ct md k i' o b) as [[vs z]|]; exact SUB.
Qed.

(** unions *)
Lemma pick_le : forall m ms d ds b r n,
  all2 (fun p q => fst p = fst q /\ made BO_DEFAULT (snd p) (snd q)) m ms ->
  match d, ds with None, None => True | Some y, Some t => made BO_DEFAULT y t | _, _ => False end ->
  Forall (fun p => faulted (snd p)) m -> (forall x, d = Some x -> faulted x) ->
  forallb (fun p => hc ct TT c (snd p)) ms = true -> match ds with Some x => hc ct TT c x | None => true end = true -> (n < S L)%nat ->
  le (err (rdo s0 <- choose ms ds r; rdo x' <- resolve false s0 o; dec hb ct md n x' o b))
    (if hashable r then pick_fault (fun y => fault hb md rec why o (machine hb) y 0 b) d r m else Some TypeError).
Proof.
  intros m ms d ds b r n A D SM SD HM HD N. unfold choose. destruct (hashable r); [|apply le_refl].
  assert (ONE : forall x s, made BO_DEFAULT x s -> faulted x -> hc ct TT c s = true ->
    le (err (rdo x' <- resolve false s o; dec hb ct md n x' o b)) (fault hb md rec why o (machine hb) x 0 b)).
  { intros x s M SX HC. exact (faulted_pdec x BO_DEFAULT s b n SX M HC N). }
  revert ms A HM. induction SM as [|[k x] m SX SM IH]; intros [|[k' s] ms] A HM; try contradiction.
  - cbn [map_find pick_fault]. destruct d as [y|], ds as [t|]; try contradiction; [|apply le_refl]. cbn [rbind]. apply ONE; auto.
  - destruct A as [[A1 A2] A3]. cbn [fst snd] in *. subst k'. cbn in HM. apply andb_prop in HM as [HM1 HM2]. cbn [map_find pick_fault].
    destruct (key_eqb r k); [|now apply IH]. cbn [rbind]. now apply ONE.
Qed.
Theorem all_faulted : forall x, faulted x.
Proof using OB EX OF.
  induction x using hx_ind'.
  1-3: intros bo sr off b n' M H N; pose proof (made_kind _ _ _ M) as K; destruct sr; try discriminate K;
    cbn [serr]; [apply le_none|apply le_eq; now apply struct_fault with (bo := bo)].
  6: intros bo sr off b n' M H N; pose proof M as M0; cbn [made] in M; destruct M as (st & st' & -> & _); cbn [serr]; apply le_eq; now apply struct_fault with (bo := bo).
  - intros bo sr off b n M H N. pose proof (made_kind _ _ _ M) as K. cbn [made fault] in *.
    destruct sr; try (replace (string_of hb md (mode_of hb bo) a off b) with (string_of hb md (mode_of hb bo) a 0 b)
               by (destruct a; try reflexivity; discriminate K); exact (char_fault hb ct md a bo _ o b n M)); [apply le_none|].
    apply le_eq. exact (struct_fault hb md rec why o (XChar a) bo st (mode_of hb bo) off b M).
  - intros bo sr off b n M H N. cbn [made fault] in *. destruct M as (i & -> & M). apply fnode; [exact I|reflexivity|]. intros k _. cbn [dec_step].
    pose proof (char_fault hb ct md a BO_DEFAULT i o b k M) as CF. change (mode_of hb BO_DEFAULT) with (machine hb) in CF.
    assert (AG : agree (S k) 1 (fun n => sread hb ct md BO_DEFAULT n i o 0 b) (string_of hb md (machine hb) a 0 b)) by (apply (char_read hb ct md a BO_DEFAULT); [exact M|lia]).
    apply agree_pdec in AG; [|apply (made_field (XChar a)); exact M|lia].
    unfold pdec in CF, AG. rewrite (leaf_resolve o i (char_leaf _ _ _ M)) in CF, AG. cbn [rbind] in CF, AG.
    destruct (dec hb ct md k i o b) as [[vs z]|e] eqn:D; cbn [rbind err] in *.
    + destruct (AG k (vs, z)) as [P _]. rewrite D in P. specialize (P ltac:(lia) eq_refl).
      destruct (string_of hb md (machine hb) a 0 b) as [[[vs' o'] z']|] eqn:SO; [|discriminate P]. injection P as -> ->.
      destruct vs as [|v vs]; [apply le_refl|]. destruct (string_bytes _ _ _ _ _ _ _ _ _ _ SO) as [y ->]. cbn [nth0 rbind as_bytes].
      apply le_eq. destruct (cod_dec cd y); reflexivity.
    + destruct (string_of hb md (machine hb) a 0 b) as [[[vs o'] z]|]; [|exact CF]. cbn [absent] in CF.
      destruct CF as [Q|[Q|[Q|Q]]]; try discriminate Q. injection Q as ->. apply le_stack.
  - now apply array_faulted.
  - now apply tuple_faulted.
  - intros bo sr off b n M H N. cbn [made fault] in *. destruct M as (i & -> & M & LD). cbn [hc] in H. apply andb_prop in H as [H1 H2].
    cbn [serr]. unfold pdec. cbn [resolve]. unfold cond_fault. destruct (f o) as [r|]; [|apply le_refl]. cbn [rbind]. unfold cond_branch.
    destruct (key_eqb r (VBool true)); cbn [orb or_else].
    + cbn [rbind]. pose proof (faulted_pdec x bo i b n IHx M H1 N) as FP. unfold pdec in FP.
      assert (E : resolve false i o = Ok i) by (destruct i; try discriminate H2; reflexivity). rewrite E in FP. exact FP.
    + destruct (key_eqb r (VBool false)); cbn [or_else]; [|destruct (hashable r); apply le_refl]. cbn [rbind]. destruct n; [apply le_stack|apply le_none].
  - intros bo sr off b n M H2 N. cbn [made fault] in *. destruct M as (id' & ms & ds & -> & A & D). cbn [hc] in H2. apply andb_prop in H2 as [HC1 HC2].
    apply fnode; [exact I|reflexivity|]. intros k EK. subst n. cbn [dec_step]. destruct (f o) as [r|]; [|apply le_refl]. cbn [rbind]. apply pick_le with (ms := ms) (ds := ds); auto. lia.
  - intros bo sr off b n M H2 N. cbn [made fault] in *. destruct M as (id' & r & ms & ds & -> & MR & A & D). cbn [hc] in H2. apply andb_prop in H2 as [H2 HC2]. apply andb_prop in H2 as [LF HC1].
    apply fnode; [exact I|reflexivity|]. intros k EK. subst n. cbn [dec_step].
    pose proof (faulted_pdec x BO_DEFAULT r b k IHx MR (leaf_hc ct TT c r LF) ltac:(lia)) as FP.
    pose proof (fun p => got_pdec x BO_DEFAULT r b k p MR (leaf_hc ct TT c r LF) ltac:(lia)) as GP.
    pose proof (le_got _ x _ 0 b FP) as LG. change (mode_of hb BO_DEFAULT) with (machine hb) in *.
    unfold pdec in FP, GP, LG. rewrite (leaf_resolve o r LF) in FP, GP, LG. cbn [rbind] in FP, GP, LG.
    destruct (dec hb ct md k r o b) as [[rs z]|e]; cbn [rbind err] in *.
    + specialize (GP _ eq_refl). destruct (read hb md rec o (machine hb) x 0 b) as [[[rs' o'] z']|]; [|discriminate GP]. injection GP as -> ->.
      destruct rs as [|v rs]; [apply le_refl|]. cbn [nth0 rbind]. apply pick_le with (ms := ms) (ds := ds); auto. lia.
    + destruct (read hb md rec o (machine hb) x 0 b) as [[[rs o'] z]|]; [|exact FP]. destruct (LG ltac:(discriminate)) as [Q|Q]; [discriminate Q|]. rewrite Q. apply le_stack.
  - intros bo sr off b n M H N. cbn [made fault] in *. destruct M as (id & ->). apply fnode; [exact I|reflexivity|]. intros k EK. subst n. cbn [dec_step].
    pose proof (OF c0 b k ltac:(lia)) as Q. unfold dcreate in Q. destruct (dcreate_step _ _ _ _) as [[? ?]|]; exact Q.
  - intros bo sr off b n M H N. cbn [made fault] in *. destruct M as (id & ->). cbn [serr]. unfold pdec. cbn [resolve]. unfold self_class, self_fault.
    destruct (assoc "cls" (p_attrs o)); [apply le_refl|]. destruct (p_proxy o); [|apply le_refl]. cbn [rbind or_else]. destruct n as [|k]; [apply le_stack|]. cbn [dec dec_step].
    pose proof (OF (p_cls o) b k ltac:(lia)) as Q. unfold dcreate in Q. destruct (dcreate_step _ _ _ _) as [[? ?]|]; exact Q.
  - intros bo sr off b n M. contradiction.
  - intros bo sr off b n M. contradiction.
Qed.
End Main.

(** ** classes *)
Lemma fill_eq : forall hb ct md n c TT s b names, flat s -> hc ct TT c s = true -> let o := PO c true [] in
  (rdo x <- resolve false s o;
   match dfill (dec hb ct md (S n)) x o b names [] with (Err e, _) => Err e | (Ok k, d) => Ok (d, k) end)
  = match ofill hb ct md n o o (parts s) b names [] with
    | Err e => Err e | Ok ([], d, z) => Ok (d, z) | Ok _ => Err ValueError
    end.
Proof.
  intros hb ct md n c TT s b names F H o.
  destruct (match s with SNull | SCompound _ _ => true | _ => false end) eqn:K.
  - destruct s; try discriminate K.
    + cbn. unfold ofill. cbn. destruct names; reflexivity.
    + cbn [parts resolve]. destruct (existsb needs_pre subs) eqn:E; cbn [rbind dfill].
      * unfold ofill. destruct (dfill_subs _ _ _ subs _ _ _) as [[[nm z']|e] dd]; cbn [okfill]; [|reflexivity]. destruct nm; reflexivity.
      * cbn in H. pose proof (fill_none hb ct md n c o TT subs b names [] E H) as Q. fold o in Q. rewrite <- Q.
        destruct (dfill_subs _ _ _ subs _ _ _) as [[[nm z']|e] dd]; cbn [okfill]; [|reflexivity]. destruct nm; reflexivity.
  - assert (P : parts s = [s]) by (destruct s; try reflexivity; try discriminate K; contradiction). rewrite P.
    rewrite ofill_cons. change (PO (p_cls o) (p_proxy o) []) with o.
    destruct (resolve false s o) as [x|] eqn:R; [|reflexivity]. cbn [rbind].
    assert (X : is_compound x = false).
    { clear - R K F H. destruct s; cbn in R, K, F, H; try discriminate K; try contradiction; try (injection R as <-; reflexivity).
      destruct (cond o) as [v|]; [|discriminate]. cbn [rbind] in R. unfold cond_branch in R. apply andb_prop in H as [_ H].
      destruct (key_eqb v (VBool true)); [injection R as <-; destruct s; try discriminate H; reflexivity|].
      destruct (key_eqb v (VBool false)); [injection R as <-; reflexivity|]. destruct (hashable v); discriminate. }
    assert (DF : dfill (dec hb ct md (S n)) x o b names [] =
      match dec hb ct md (S n) x o b with
      | Err e => (Err e, [])
      | Ok (vs, k) => match assign names vs [] with
                      | (None, d') => (Err ValueError, d')
                      | (Some names', d') => (match names' with [] => Ok k | _ => Err ValueError end, d') end end)
      by (destruct x; try discriminate X; reflexivity).
    rewrite DF. destruct (dec hb ct md (S n) x o b) as [[vs k]|]; [|reflexivity]. cbn [rbind].
    destruct (assign names vs []) as [[nm|] dd]; [|reflexivity]. unfold ofill. cbn [dfill_subs okfill rbind].
    destruct nm; now rewrite ?Z.add_0_r.
Qed.
Lemma ofill_perr : forall hb ct md c px n ctx l b nm d,
  le (err (ofill hb ct md n (PO c px []) ctx l b nm d)) (perr hb ct md nmd put_all (seen c px) (S n) l b (nm, d)).
Proof.
  intros hb ct md c px n ctx. induction l as [|s l IH]; intros b nm d; [apply le_none|]. rewrite ofill_cons. cbn [perr]. unfold pdec, seen at 1. cbn [snd p_cls p_proxy].
  destruct (resolve false s (PO c px d)) as [s'|]; [|apply le_refl]. cbn [rbind].
  change (seen c px (nm, d)) with (PO c px d).
  destruct (dec hb ct md (S n) s' (PO c px d) b) as [[vs k]|]; [|apply le_refl]. cbn [rbind]. unfold put_all at 1. cbn [fst snd].
  destruct (assign nm vs d) as [[nm'|] d']; [|apply le_any]. specialize (IH (adv k b) nm' d').
  destruct (ofill _ _ _ _ _ _ _ _ _ _) as [[nd z]|]; exact IH.
Qed.
Section ClassFault.
Variable hb : bool.
Variable md : umode.
Variables (sl : list sclass) (l : list cinfo).
Hypothesis CR : classes_rel sl l.
Hypothesis RG : forallb regular_class sl = true.
Variable TT : nat -> nat -> bool.
Let ct := classes l.
Hypothesis HC : forall c cd, ct c = Some cd -> hc ct TT c (c_ser cd) = true.
Section One.
Variable rec : nat -> bytes -> option (value * Z).
Variable why : nat -> bytes -> option exn.
Variables L U : nat.
Hypothesis OB : forall c b, agree L U (fun n => opt (dcreate hb ct md n c b)) (rec c b).
Hypothesis EX : forall c b, why c b = None <-> rec c b <> None.
Hypothesis OF : forall c b n, (n < L)%nat -> le (err (dcreate hb ct md n c b)) (why c b).
Variable c : nat.
Variable bo : border.
Let f := fun d => read hb md rec (PO c true d) (mode_of hb bo).
Let g := fun d => fault hb md rec why (PO c true d) (mode_of hb bo).
(** the names that are left are those of the fields that are left, unless the values are out of step *)
Lemma fields_le : forall fl, lined fl -> forall sers, all2 (made bo) (map snd fl) sers -> forallb (hc ct TT c) sers = true ->
  forall n off b d, (n < S L)%nat ->
  le (gerr hb ct md bo nmd put_all (seen c true) n sers off b (names_of fl, d)) (fields_fault f g fl d off b).
Proof using OB EX OF.
  induction fl as [|[a x] fl IH]; intros LN [|s sers] A H n off b d N; try contradiction; [apply le_none|].
  pose proof (short_cut hb md rec (PO c true d) bo (map snd ((a, x) :: fl)) (s :: sers) A off b) as SC. cbn [map snd] in A, SC.
  destruct A as [A1 A2]. cbn in H. apply andb_prop in H as [H1 H2]. assert (LN' : lined fl) by (intros p I; apply LN; now right).
  cbn [gerr fields_fault map snd]. rewrite SC. fold (f d). destruct (cut_off _ (x :: map snd fl) off b); [apply le_refl|].
  change (seen c true (names_of ((a, x) :: fl), d)) with (PO c true d).
  pose proof (all_faulted hb ct md TT rec why L U OB EX OF c (PO c true d) x bo s off b n A1 H1 N) as LE.
  pose proof (fun p => got hb ct md TT rec L U OB c (PO c true d) x bo s off b n p A1 H1 N) as GO.
  change (fault hb md rec why (PO c true d) (mode_of hb bo) x off b) with (g d x off b) in LE.
  change (read hb md rec (PO c true d) (mode_of hb bo) x off b) with (f d x off b) in GO.
  destruct (sread hb ct md bo n s (PO c true d) off b) as [[[vs off'] k]|] eqn:E.
  - rewrite (GO _ eq_refl). unfold put_all at 1. cbn [fst snd]. destruct (padding x) eqn:P.
    + assert (TK : takes x = false) by (destruct x; try discriminate P; reflexivity). rewrite TK.
      destruct vs as [|v [|]]; try apply le_any. rewrite assign_nil.
      assert (NM : names_of ((a, x) :: fl) = names_of fl) by (unfold names_of; cbn [filter snd]; now rewrite P). rewrite NM. now apply IH.
    + assert (TK : takes x = true) by (destruct (LN (a, x) (or_introl eq_refl)) as [Q|Q]; cbn [snd] in Q; congruence). rewrite TK.
      assert (NM : names_of ((a, x) :: fl) = a :: names_of fl) by (unfold names_of; cbn [filter snd]; now rewrite P). rewrite NM.
      destruct vs as [|v [|]]; try apply le_any. cbn [assign]. rewrite assign_nil. now apply IH.
  - pose proof (le_got hb md rec why EX (PO c true d) _ x _ off b LE) as LG. pose proof (proj1 (sread_serr hb ct md bo n s (PO c true d) off b)) as SS. rewrite E in SS.
    change (read hb md rec (PO c true d) (mode_of hb bo) x off b) with (f d x off b) in LG.
    destruct (f d x off b) as [[[vs' o'] z']|]; [|exact LE].
    destruct (LG ltac:(discriminate)) as [Q|Q]; [now specialize (SS Q)|]. rewrite Q. apply le_stack.
Qed.
Lemma gread_cut : forall o' xs off b st, gread f xs off b st <> None -> cut_off (read hb md rec o' (mode_of hb bo)) xs off b = false.
Proof.
  intros o' xs. unfold cut_off. induction xs as [|x xs IH]; intros off b st H; [reflexivity|]. cbn [gread lead] in *.
  destruct (structy x) eqn:SX; [|reflexivity]. cbn [map members_of]. unfold f in H at 1.
  destruct (read hb md rec (PO c true (snd st)) (mode_of hb bo) x off b) as [[[vs o1] k1]|] eqn:R; [|congruence]. destruct (bare_read hb md rec _ x _ off b _ _ _ R) as [ws Q].
  rewrite (bare_obj hb md rec o' (PO c true (snd st)) _ x off b SX), Q. destruct (put_all vs st) as [st'|]; [|congruence]. specialize (IH o1 (adv k1 b) st').
  destruct (gread f xs o1 (adv k1 b) st') as [[? ?]|]; [|congruence].
  destruct (members_of _ (map bare (lead xs)) o1 (adv k1 b)) as [[? ?]|]; [reflexivity|]. apply IH. discriminate.
Qed.
Lemma gread_off : forall fl, within f fl -> lined fl -> forall off b d nm' d' k,
  gread f (map snd fl) off b (names_of fl, d) = Some ((nm', d'), k) -> nm' = [] \/ fields_fault f g fl d off b = Some Unspecified.
Proof.
  induction fl as [|[a x] fl IH]; intros W LN off b d nm' d' k E.
  - injection E as <- _ _. now left.
  - assert (W' : within f fl) by (intros p I; apply W; now right). assert (LN' : lined fl) by (intros p I; apply LN; now right).
    pose proof (gread_cut (PO c true d) (map snd ((a, x) :: fl)) off b (names_of ((a, x) :: fl), d) ltac:(rewrite E; discriminate)) as C.
    cbn [map gread snd fields_fault] in *. fold (f d) in C. rewrite C. destruct (f d x off b) as [[[vs off'] k1]|] eqn:F; [|discriminate].
    unfold put_all in E. cbn [fst snd] in E. destruct (padding x) eqn:P.
    + assert (TK : takes x = false) by (destruct x; try discriminate P; reflexivity). rewrite TK.
      destruct vs as [|v [|]]; try (now right). rewrite assign_nil in E.
      assert (NM : names_of ((a, x) :: fl) = names_of fl) by (unfold names_of; cbn [filter snd]; now rewrite P). rewrite NM in E.
      destruct (gread f (map snd fl) off' (adv k1 b) (names_of fl, d)) as [[[nm2 d2] k2]|] eqn:G; [|discriminate]. injection E as <- <- _. eauto.
    + assert (TK : takes x = true) by (destruct (LN (a, x) (or_introl eq_refl)) as [Q|Q]; cbn [snd] in Q; congruence). rewrite TK.
      assert (NM : names_of ((a, x) :: fl) = a :: names_of fl) by (unfold names_of; cbn [filter snd]; now rewrite P). rewrite NM in E.
      destruct vs as [|v [|]]; try (now right). cbn [assign] in E. rewrite assign_nil in E.
      destruct (gread f (map snd fl) off' (adv k1 b) (names_of fl, assoc_set a v d)) as [[[nm2 d2] k2]|] eqn:G; [|discriminate]. injection E as <- <- _. eauto.
Qed.
End One.

(** with no stack at all only the first serializer is prepared *)
Lemma create_zero : forall c cd b nm, ct c = Some cd -> flat (c_ser cd) -> forallb lone (parts (c_ser cd)) = true ->
  le (err (dcreate hb ct md 0 c b)) (perr hb ct md nmd put_all (seen c true) 0 (parts (c_ser cd)) b (nm, [])).
Proof.
  intros c cd b nm E F LO. unfold dcreate, dcreate_step. rewrite E.
  destruct (match c_ser cd with SNull | SCompound _ _ => true | _ => false end) eqn:K.
  - destruct (c_ser cd); try discriminate K; cbn [resolve rbind parts].
    + apply le_stack.
    + cbn [flat] in F. destruct subs as [|s0 subs]; [tauto|]. cbn [perr]. unfold pdec. change (seen c true (nm, [])) with (PO c true []).
      destruct (existsb needs_pre (s0 :: subs)); cbn [dfill dfill_subs option_map oresolve].
      * cbn [p_cls p_proxy]. destruct (resolve false s0 (PO c true [])); cbn [rbind]; [apply le_stack|apply le_refl].
      * apply le_stack.
  - assert (P : parts (c_ser cd) = [c_ser cd]) by (destruct (c_ser cd); try reflexivity; try discriminate K; contradiction). rewrite P in *.
    cbn [perr]. unfold pdec. change (seen c true (nm, [])) with (PO c true []).
    destruct (resolve false (c_ser cd) (PO c true [])) as [x|] eqn:R; [|apply le_refl]. cbn [rbind].
    cbn [forallb] in LO. rewrite Bool.andb_true_r in LO.
    assert (X : is_compound x = false).
    { clear - R K F LO. destruct (c_ser cd); cbn in R, K, F, LO; try discriminate K; try contradiction; try (injection R as <-; reflexivity).
      - destruct (cond (PO c true [])) as [v|]; [|discriminate]. cbn [rbind] in R. unfold cond_branch in R.
        destruct (key_eqb v (VBool true)); [injection R as <-; now destruct (is_compound s)|].
        destruct (key_eqb v (VBool false)); [injection R as <-; reflexivity|]. destruct (hashable v); discriminate. }
    destruct x; try discriminate X; apply le_stack.
Qed.
Lemma rel_zero : forall c p q b st, rel p q -> perr hb ct md nmd put_all (seen c true) 0 p b st = perr hb ct md nmd put_all (seen c true) 0 q b st.
Proof.
  intros c p q b st R. destruct R as [|a d p q S R]; [reflexivity|]. cbn [perr]. unfold pdec. pose proof (same_resolve false a d (seen c true st) S) as Q.
  destruct (resolve false a _), (resolve false d _); try contradiction; [reflexivity|]. now rewrite Q.
Qed.
Theorem create_le : forall L n c b, (n < L)%nat -> le (err (dcreate hb ct md n c b)) (why_unread hb md sl L c b).
Proof using CR RG HC.
  induction L as [|L IH]; intros n c b N; [lia|]. cbn [why_unread].
  destruct (parse_agree hb md sl l CR RG TT HC L) as [U OB].
  destruct (nth_error sl c) as [sc|] eqn:NS.
  2:{ assert (NI : nth_error l c = None) by (apply nth_error_None; destruct CR as [LEN _]; apply nth_error_None in NS; lia).
      unfold dcreate, dcreate_step, ct, classes. rewrite NI. apply le_refl. }
  destruct (nth_error l c) as [i|] eqn:NI.
  2:{ exfalso. apply nth_error_None in NI. destruct CR as [LEN _]. assert (c < List.length sl)%nat by (apply nth_error_Some; congruence). lia. }
  destruct (class_facts sl l CR RG TT HC c sc i NS NI) as (sers & AT & ND & A2 & HS & FL & RL & ATM & LN & RX).
  assert (CT : ct c = Some (ci_def i)) by (unfold ct, classes; now rewrite NI).
  assert (FO : Forall (field_ok (sc_bo sc)) sers) by (eapply all2_field; eauto).
  set (rec := parse hb md sl L) in *. set (why := why_unread hb md sl L) in *.
  assert (EX : forall c b, why c b = None <-> rec c b <> None) by (intros; apply parse_exact).
  cbv zeta. set (fl := fields_of (sc_anns sc)) in *.
  pose proof (fields_le rec why L U OB EX (fun c b n => IH n c b) c (sc_bo sc) fl LN sers A2 HS n 0 b [] N) as FLE.
  assert (SUM : le (perr hb ct md nmd put_all (seen c true) n (runs sers) b (names_of fl, []))
                   (gerr hb ct md (sc_bo sc) nmd put_all (seen c true) n sers 0 b (names_of fl, []))).
  { apply sum_le; auto using put_nil, put_app. }
  destruct n as [|n].
  { eapply le_trans; [|exact FLE]. eapply le_trans; [|exact SUM]. rewrite <- (rel_zero c _ _ b (names_of fl, []) RL). apply create_zero; auto.
    eapply rel_lone; [exact RL|]. apply runs_lone. clear -A2. revert sers A2. induction (map snd fl) as [|x xs IH]; intros [|s sers] A; try contradiction; [reflexivity|].
    destruct A as [A1 A2]. cbn. rewrite (made_lone _ _ _ A1). now apply IH. }
  pose proof (fill_eq hb ct md n c TT (c_ser (ci_def i)) b (c_attrs (ci_def i)) FL (HC c _ CT)) as FE. cbv zeta in FE.
  rewrite (rel_fill hb ct md n (PO c true []) (PO c true []) _ _ b _ [] RL), AT in FE. fold fl in FE.
  pose proof (ofill_perr hb ct md c true n (PO c true []) (runs sers) b (names_of fl) []) as OP.
  pose proof (ofill_pseq hb ct md c true n (PO c true []) (runs sers) b (names_of fl) []) as PS.
  unfold dcreate, dcreate_step. rewrite CT, AT. fold fl.
  set (dd := fun d => read hb md rec (PO c true d) (mode_of hb (sc_bo sc))) in *.
  destruct (ofill hb ct md n (PO c true []) (PO c true []) (runs sers) b (names_of fl) []) as [[[nm d] z]|e].
  2:{ cbn [err] in OP. assert (LE : le (Some e) (fields_fault dd (fun d => fault hb md rec why (PO c true d) (mode_of hb (sc_bo sc))) fl [] 0 b)).
      { eapply le_trans; [exact OP|]. eapply le_trans; [exact SUM|exact FLE]. }
      destruct (resolve false (c_ser (ci_def i)) (PO c true [])) as [x|e1]; cbn [rbind] in *; [|injection FE as ->; exact LE].
      destruct (dfill _ x _ b (names_of fl) []) as [[k|e1] d1]; [discriminate FE|]. injection FE as ->. exact LE. }
  cbn [opt] in PS.
  assert (W : within dd fl) by (eapply made_within; eauto).
  assert (AG : agree (S L) (U + top sl) (fun n => pseq hb ct md nmd put_all (seen c true) n (runs sers) b (names_of fl, []))
     (gread dd (map snd fl) 0 b (names_of fl, []))).
  { apply pseq_agree with (rec := rec) (L := L) (U := U) (bo := sc_bo sc); auto using put_nil, put_app.
    - pose proof (top_pos hb md sl l RG TT HC rec L U OB). lia.
    - apply (seq_agree hb md sl l RG TT HC rec L U OB); auto. intros x I. exact (top_bound hb md sl l RG TT HC rec L U OB c sc x NS I). }
  destruct (AG (S n) ((nm, d), z)) as [GR _]. specialize (GR N (eq_sym PS)).
  destruct nm as [|a nm].
  - destruct (resolve false (c_ser (ci_def i)) (PO c true [])) as [x|e1]; cbn [rbind] in *; [|discriminate FE].
    destruct (dfill _ x _ b (names_of fl) []) as [[k|e1] d1]; [|discriminate FE]. injection FE as -> ->.
    apply (gread_fields ct c dd fl W LN) in GR.
    destruct (fields_dict dd fl LN ND [] 0 b d z ltac:(intros ? _ []) GR) as (vs & LV & ->). cbn [app].
    rewrite RoundTripMain.get_attrs_zip by (auto using names_nodup). apply le_none.
  - destruct (gread_off rec why c (sc_bo sc) fl W LN 0 b [] _ _ _ GR) as [Q|Q]; [discriminate Q|].
    match goal with |- le _ ?q => assert (E : q = Some Unspecified) by exact Q; rewrite E end. apply le_any.
Qed.
End ClassFault.
