(** Facts about serializer addition ([sadd], [ssum] of Ser.v): what a sum of field serializers consists of,
    and that it encodes and decodes the fields one after the other. *)
From Verif Require Import Base Floats Value StructMod Format Ser Exec Pure BaseFacts StructFacts FormatFacts
  SerFacts Fuel DecFacts.

(** ** the parts of a sum *)
Definition parts (s : ser) : list ser :=
  match s with SNull => [] | SCompound _ l | SSpec _ l _ => l | _ => [s] end.
Definition atom (s : ser) : Prop := is_compound s = false /\ s <> SNull.
Definition flat (s : ser) : Prop :=
  match s with SCompound _ l => l <> [] /\ Forall atom l | SSpec _ _ _ => False | _ => True end.

(** formats and actions of adjacent struct fields simply written one after the other *)
Definition glue (x y : sspec) : sspec :=
  SS (s_bo x) (s_fmt x ++ s_fmt y)
     (match s_act x, s_act y with None, None => None | _, _ => Some (acts_of x ++ acts_of y) end).
(** the fields grouped: null serializers dropped, adjacent struct fields in one run *)
Definition push (p : list ser) (s : ser) : list ser :=
  match s with
  | SNull => p
  | SStruct y => match split_last p with
                 | Some (q, SStruct x) => q ++ [SStruct (glue x y)]
                 | _ => p ++ [s]
                 end
  | _ => p ++ [s]
  end.
Definition runs (l : list ser) : list ser := fold_left push l [].
(** nothing is lost when a struct field is joined to the run before it (see [foldable]) *)
Definition fits_after (p : list ser) (s : ser) : bool :=
  match s, split_last p with
  | SStruct y, Some (_, SStruct x) => foldable (s_fmt x) (s_fmt y)
  | _, _ => true
  end.
Fixpoint lossless_from (p : list ser) (l : list ser) : bool :=
  match l with [] => true | s :: l' => fits_after p s && lossless_from (push p s) l' end.
Definition lossless (l : list ser) : bool := lossless_from [] l.
Definition wf_field (s : ser) : bool := match s with SStruct st => ss_wf st | _ => true end.

(** ** equality up to the layout of formats *)
Definition last_code (f : fmt) : option code := option_map (fun p => t_code (snd p)) (split_last f).
Definition same_ss (x y : sspec) : Prop :=
  s_bo x = s_bo y /\ layout_eq (expand (s_fmt x)) (expand (s_fmt y)) /\
  s_act x = s_act y /\ last_code (s_fmt x) = last_code (s_fmt y).
Definition same_ser (a b : ser) : Prop :=
  a = b \/ exists x y, a = SStruct x /\ b = SStruct y /\ same_ss x y.

Lemma same_ser_refl : forall a, same_ser a a. Proof. now left. Qed.
Lemma same_ss_refl : forall x, same_ss x x. Proof. repeat split. Qed.

Lemma foldable_last : forall f f' g, last_code f = last_code f' -> foldable f g = foldable f' g.
Proof.
  intros f f' g H. unfold foldable, last_code in *. destruct g as [|t [|t' g]]; try reflexivity.
  destruct (split_last f) as [[? a]|], (split_last f') as [[? b]|]; cbn in *; try discriminate; [|reflexivity].
  now injection H as ->.
Qed.
Lemma last_code_app : forall f g, last_code (f ++ g) = match g with [] => last_code f | _ => last_code g end.
Proof.
  intros f g. destruct g as [|t g] using rev_ind; [now rewrite app_nil_r|].
  unfold last_code. rewrite app_assoc, !split_last_app. destruct g; reflexivity.
Qed.
Lemma last_code_fold : forall f g, foldable f g = true ->
  last_code (fold_overlaps false f g) = last_code (f ++ g).
Proof.
  intros f g H. unfold fold_overlaps. destruct (split_last f) as [[p t1]|] eqn:E; [|reflexivity].
  apply split_last_some in E as ->. destruct g as [|t2 g]; [reflexivity|].
  destruct (code_eqb (t_code t1) (t_code t2) && (false || negb (str_code (t_code t1)))) eqn:C; [|reflexivity].
  apply andb_prop in C as [C1 C2]. destruct g as [|t3 g].
  - apply code_eqb_eq in C1. rewrite !last_code_app. cbn. now rewrite C1.
  - unfold foldable in H. rewrite split_last_app, C1 in H. cbn in *. rewrite H in C2. discriminate.
Qed.

Lemma add_same : forall a a' b s, same_ss a a' -> ss_wf a' = true -> ss_wf b = true ->
  foldable (s_fmt a') (s_fmt b) = true -> ss_add a b = Ok s ->
  same_ss s (glue a' b) /\ ss_wf (glue a' b) = true.
Proof.
  intros a a' b s (B & L & A & K) WA WB F H.
  assert (NV : ss_nvals a = ss_nvals a') by exact (proj1 L).
  assert (F' : foldable (s_fmt a) (s_fmt b) = true) by (now rewrite (foldable_last _ _ _ K)).
  assert (WA' : ss_wf a = true) by (unfold ss_wf in *; now rewrite A, NV).
  assert (AO : acts_of a = acts_of a') by (unfold acts_of; now rewrite A, NV).
  destruct (add_acts a b s WA' WB F' H) as (WS & NS & ACT).
  pose proof (fold_layout _ _ F') as FL.
  assert (SF : s_fmt s = fold_overlaps false (s_fmt a) (s_fmt b) /\ s_bo s = s_bo a).
  { unfold ss_add in H. destruct (s_act a), (s_act b); try (injection H as <-; split; reflexivity).
    destruct (border_eqb _ _); [|discriminate]. injection H as <-. split; reflexivity. }
  destruct SF as [SF SB].
  assert (LL : layout_eq (expand (s_fmt s)) (expand (s_fmt a' ++ s_fmt b))).
  { rewrite SF. eapply layout_eq_trans; [exact FL|]. rewrite !expand_app. now apply layout_eq_app_r. }
  split; [split; [|split; [|split]]|].
  - cbn. congruence.
  - exact LL.
  - cbn. rewrite <- A, <- AO. unfold ss_add in H.
    destruct ACT as [(E1 & E2 & E3)|E].
    + now rewrite E1, E2, E3.
    + rewrite <- E. unfold acts_of at 1 2.
      destruct (s_act a), (s_act b); try (injection H as <-; reflexivity).
      destruct (border_eqb _ _); [|discriminate]. injection H as <-. reflexivity.
  - rewrite SF. cbn. rewrite last_code_fold by exact F'. rewrite !last_code_app.
    destruct (s_fmt b); [exact K|reflexivity].
  - unfold ss_wf, glue, ss_nvals; cbn. pose proof (acts_of_length _ WA) as P. pose proof (acts_of_length _ WB) as Q.
    unfold ss_nvals in P, Q.
    unfold nvals in *. rewrite expand_app, nvals_u_app.
    destruct (s_act a'), (s_act b); try reflexivity; rewrite app_length; lia.
Qed.

(** ** the parts of [a + b] *)
Section Sum.
Variable fin : nat -> bool.
Variable id : nat.

Definition rel (l p : list ser) : Prop := Forall2 same_ser l p.
Definition ok_parts (p : list ser) : Prop := Forall atom p /\ forallb wf_field p = true.

Lemma same_atom : forall a b, same_ser a b -> atom b -> atom a.
Proof. intros a b [->|(x & y & -> & -> & _)] H; [exact H|]. split; [reflexivity|discriminate]. Qed.
Lemma rel_atom : forall l p, rel l p -> Forall atom p -> Forall atom l.
Proof. induction 1; intros A; constructor; inversion A; subst; eauto using same_atom. Qed.
Lemma rel_app : forall a b c d, rel a b -> rel c d -> rel (a ++ c) (b ++ d).
Proof. intros. now apply Forall2_app. Qed.
Lemma rel_snoc : forall l a p, rel (l ++ [a]) p -> exists q b, p = q ++ [b] /\ rel l q /\ same_ser a b.
Proof.
  intros l a p H. apply Forall2_app_inv_l in H as (q & r & H1 & H2 & ->).
  inversion H2 as [|? b ? ? SB HN]; subst. inversion HN; subst. eauto.
Qed.

Lemma ok_snoc : forall p s, ok_parts p -> atom s -> wf_field s = true -> ok_parts (p ++ [s]).
Proof.
  intros p s [A W] AT F. split.
  - apply Forall_app. split; [exact A|]. constructor; [exact AT|constructor].
  - rewrite forallb_app, W. cbn. now rewrite F.
Qed.
Lemma push_ok : forall p s, ok_parts p -> is_compound s = false -> wf_field s = true -> ok_parts (push p s).
Proof.
  intros p s OP C F.
  assert (D : s = SNull \/ ok_parts (p ++ [s])).
  { destruct (match s with SNull => true | _ => false end) eqn:N; [left; destruct s; congruence|].
    right. apply ok_snoc; [exact OP| |exact F]. split; [exact C|]. intros ->. discriminate. }
  destruct D as [->|D]; [exact OP|].
  destruct s; cbn [push]; try exact D; try exact OP.
  destruct (split_last p) as [[q x]|] eqn:E; [|exact D].
  destruct x; try exact D.
  apply split_last_some in E as ->. destruct OP as [A W]. apply Forall_app in A as [A1 A2]. rewrite forallb_app in W.
  apply andb_prop in W as [W1 W2].
  apply ok_snoc; [split; assumption|split; [reflexivity|discriminate]|].
  cbn in *. unfold ss_wf, glue, ss_nvals in *; cbn. rewrite Bool.andb_true_r in W2.
  pose proof (acts_of_length _ W2) as P. pose proof (acts_of_length _ F) as Q.
  unfold ss_nvals, nvals in *. rewrite expand_app, nvals_u_app.
  destruct (s_act st0), (s_act st); try reflexivity; rewrite app_length; lia.
Qed.

Definition both_struct (a b : ser) : bool := match a, b with SStruct _, SStruct _ => true | _, _ => false end.
Lemma add2_shape : forall a b, a <> SNull -> b <> SNull -> both_struct a b = false ->
  add2 fin id a b = if is_final fin a then Err TypeError else Ok (SCompound id [a; b]).
Proof. intros a b A B S. destruct a; try congruence; destruct b; try congruence; try discriminate S; reflexivity. Qed.
(** joining one more atom to the last element *)
Lemma add2_rel : forall last s j before p, rel (rev (last :: before)) p -> ok_parts p -> atom last ->
  is_compound s = false -> wf_field s = true -> fits_after p s = true -> add2 fin id last s = Ok j ->
  if is_compound j then s <> SNull /\ push p s = p ++ [s] /\ rel (rev (s :: last :: before)) (push p s)
  else atom j /\ rel (rev (j :: before)) (push p s).
Proof.
  intros last s j before p R [A W] [AL1 AL2] C F FA H. cbn [rev] in R.
  destruct (rel_snoc _ _ _ R) as (q & b & -> & R1 & SB).
  assert (Step : forall x, x <> SNull -> push (q ++ [b]) x = (q ++ [b]) ++ [x] ->
            rel (rev (x :: last :: before)) (push (q ++ [b]) x)).
  { intros x X ->. cbn [rev]. apply rel_app; [exact R|repeat constructor]. }
  assert (NL : forall x, x <> SNull -> both_struct last x = false -> add2 fin id last x = Ok j -> is_compound j = true).
  { intros x X NS E. rewrite add2_shape in E by assumption. destruct (is_final fin last); [discriminate|].
    now injection E as <-. }
  assert (SL : forall x, b = SStruct x -> exists y, last = SStruct y /\ same_ss y x).
  { intros x ->. destruct SB as [->|(y & x' & -> & E & S)]; [exists x; split; [reflexivity|apply same_ss_refl]|].
    injection E as <-. eauto. }
  destruct (match s with SNull | SStruct _ => false | _ => true end) eqn:OT.
  { assert (NN : s <> SNull) by (intros ->; discriminate).
    assert (PU : push (q ++ [b]) s = (q ++ [b]) ++ [s]) by (destruct s; try discriminate OT; reflexivity).
    rewrite (NL s NN ltac:(destruct last; try reflexivity; destruct s; try reflexivity; discriminate OT) H).
    auto. }
  destruct s; try discriminate OT.
  - (* SNull *)
    assert (j = last) as -> by (destruct last; cbn in H; congruence). rewrite AL1.
    split; [split; assumption|]. exact R.
  - (* SStruct *)
    cbn [push fits_after] in *. rewrite split_last_app in *.
    destruct b eqn:Eb;
      try (assert (CJ : is_compound j = true);
           [apply (NL (SStruct st)); [discriminate| |exact H];
            destruct SB as [->|(? & ? & ? & ? & ?)]; [reflexivity|discriminate]|];
           rewrite CJ; split; [discriminate|]; split; [reflexivity|]; cbn [rev]; apply rel_app;
           [exact R|repeat constructor]).
    destruct (SL _ eq_refl) as (y & -> & SS). cbn [add2] in H.
    unfold Base.rmap in H. destruct (ss_add y st) as [z|] eqn:Z; [|discriminate]. injection H as <-. cbn.
    rewrite forallb_app in W. apply andb_prop in W as [_ W2]. cbn in W2, F. rewrite Bool.andb_true_r in W2.
    destruct (add_same _ _ _ _ SS W2 F FA Z) as [S2 _].
    split; [split; [reflexivity|discriminate]|]. cbn [rev]. apply rel_app; [exact R1|]. constructor; [|constructor].
    right. eauto.
Qed.

Lemma add_impl_rel : forall cands last before p s, rel (rev (last :: before)) p -> ok_parts p -> atom last ->
  Forall (fun s => is_compound s = false) cands -> forallb wf_field cands = true ->
  lossless_from p cands = true -> add_impl fin id last before cands = Ok s ->
  flat s /\ is_compound s = true /\ rel (parts s) (fold_left push cands p) /\ ok_parts (fold_left push cands p).
Proof.
  induction cands as [|c cs IH]; intros last before p s R OP AL NC W LO H; cbn [add_impl fold_left] in *.
  - injection H as <-. pose proof (rel_atom _ _ R (proj1 OP)). repeat split; try assumption; try apply OP.
    cbn [rev]. destruct (rev before); discriminate.
  - inversion NC as [|? ? N1 N2]; subst. apply andb_prop in W as [W1 W2]. apply andb_prop in LO as [L1 L2].
    destruct (add2 fin id last c) as [j|] eqn:E; [|discriminate]. cbn [rbind] in H.
    pose proof (add2_rel last c j before p R OP AL N1 W1 L1 E) as Q.
    pose proof (push_ok p c OP N1 W1) as OP'.
    destruct (is_compound j).
    + destruct Q as (CN & EP & Q). eapply IH; eauto. split; assumption.
    + destruct Q as (AJ & Q). eapply IH; eauto.
Qed.

(** the last compound handed to [sadd] is flat; [a + b] pushes the parts of [b] after those of [a] *)
Lemma sadd_rel : forall a b s p, flat a -> rel (parts a) p -> ok_parts p ->
  is_compound b = false -> wf_field b = true -> fits_after p b = true -> sadd fin id a b = Ok s ->
  flat s /\ rel (parts s) (push p b) /\ ok_parts (push p b).
Proof.
  intros a b s p FA R OP CB WB FI H.
  pose proof (push_ok p b OP CB WB) as OP'.
  destruct (is_compound a) eqn:CA.
  - destruct a as [| | | | | | | | | | | | | | | | |i l| ]; try discriminate CA; [|contradiction]. cbn [parts flat] in *.
    destruct FA as [NE AT].
    assert (SH : sadd fin id (SCompound i l) b =
              match rev l with [] => Err IndexError | x :: bf => add_impl fin id x bf [b] end).
    { destruct b; try discriminate CB; reflexivity. }
    rewrite SH in H. destruct (rev l) as [|x bf] eqn:RL; [discriminate|].
    assert (EL : l = rev (x :: bf)) by (rewrite <- RL; symmetry; apply rev_involutive).
    assert (AX : atom x). { rewrite EL in AT. cbn [rev] in AT. apply Forall_app in AT as [_ AT]. now inversion AT. }
    rewrite EL in R. destruct (add_impl_rel [b] x bf p s R OP AX ltac:(repeat constructor; exact CB)
             ltac:(cbn; now rewrite WB) ltac:(cbn; now rewrite FI) H) as (A & _ & B & C). auto.
  - destruct (match a with SNull => true | _ => false end) eqn:NA.
    + destruct a; try discriminate NA. cbn [parts] in R. inversion R; subst. cbn [sadd] in H.
      assert (s = b) as -> by (destruct b; congruence). split; [destruct b; try discriminate CB; exact I|].
      split; [|exact OP']. destruct b; cbn; try discriminate CB; repeat constructor.
    + assert (AA : atom a) by (split; [exact CA|destruct a; discriminate]).
      assert (PA : parts a = [a]) by (destruct a; try discriminate CA; try discriminate NA; reflexivity).
      assert (SH : sadd fin id a b = add2 fin id a b).
      { destruct a; try discriminate CA; try discriminate NA; destruct b; try discriminate CB; reflexivity. }
      rewrite SH in H. rewrite PA in R.
      assert (CJ : is_compound s = true -> s = SCompound id [a; b]).
      { intros CS. destruct (both_struct a b) eqn:BS.
        - destruct a; try discriminate BS. destruct b; try discriminate BS. cbn [add2] in H.
          unfold Base.rmap in H. destruct (ss_add st st0); [injection H as <-; discriminate CS|discriminate].
        - destruct (match b with SNull => true | _ => false end) eqn:NB.
          + destruct b; try discriminate NB. assert (s = a) as -> by (destruct a; cbn in H; congruence). congruence.
          + rewrite add2_shape in H; [|apply AA|destruct b; discriminate|exact BS].
            destruct (is_final fin a); congruence. }
      pose proof (add2_rel a b s [] p R OP AA CB WB FI H) as Q.
      destruct (is_compound s) eqn:CS.
      * rewrite (CJ eq_refl) in *. destruct Q as (BN & _ & Q). split; [|split; [exact Q|exact OP']].
        cbn. split; [discriminate|]. repeat constructor; try assumption; apply AA.
      * destruct Q as (AS & Q). split; [destruct s; try exact I; discriminate CS|].
        split; [|exact OP']. assert (PS : parts s = [s]) by (destruct s; try reflexivity; try discriminate CS; destruct AS; congruence).
        rewrite PS. exact Q.
Qed.

Lemma ssum_from_rel : forall l acc p s, flat acc -> rel (parts acc) p -> ok_parts p ->
  Forall (fun s => is_compound s = false) l -> forallb wf_field l = true -> lossless_from p l = true ->
  ssum_from fin id acc l = Ok s -> flat s /\ rel (parts s) (fold_left push l p) /\ ok_parts (fold_left push l p).
Proof.
  induction l as [|x l IH]; intros acc p s F R OP NC W LO H; cbn [ssum_from fold_left] in *.
  - injection H as <-. auto.
  - inversion NC as [|? ? N1 N2]; subst. apply andb_prop in W as [W1 W2]. apply andb_prop in LO as [L1 L2].
    destruct (sadd fin id acc x) as [a|] eqn:E; [|discriminate]. cbn [rbind] in H.
    destruct (sadd_rel _ _ _ _ F R OP N1 W1 L1 E) as (A & B & C). eapply IH; eauto.
Qed.
Theorem ssum_rel : forall l s, Forall (fun s => is_compound s = false) l -> forallb wf_field l = true ->
  lossless l = true -> ssum fin id l = Ok s -> flat s /\ rel (parts s) (runs l) /\ ok_parts (runs l).
Proof.
  intros. eapply ssum_from_rel; eauto; [exact I|constructor|split; [constructor|reflexivity]].
Qed.
End Sum.

(** ** [with_byte_order] of a sum *)
Section Bo.
Variable b : border.
Lemma split_last_map : forall {A B} (f : A -> B) l,
  split_last (map f l) = option_map (fun p => (map f (fst p), f (snd p))) (split_last l).
Proof.
  intros A B f l. destruct l as [|x l] using rev_ind; [reflexivity|].
  rewrite map_app. cbn [map]. now rewrite !split_last_app.
Qed.
Lemma glue_bo : forall x y, ss_with_bo b (glue x y) = glue (ss_with_bo b x) (ss_with_bo b y).
Proof. intros [? ? []] [? ? []]; reflexivity. Qed.
Lemma push_bo : forall p s, push (map (with_bo b) p) (with_bo b s) = map (with_bo b) (push p s).
Proof.
  intros p s. destruct s; cbn [push with_bo]; try reflexivity; try (rewrite map_app; reflexivity).
  rewrite split_last_map. destruct (split_last p) as [[q x]|]; cbn [option_map fst snd].
  - destruct x; cbn [with_bo]; rewrite map_app; cbn [map with_bo]; try reflexivity.
  - now rewrite map_app.
Qed.
Lemma runs_bo : forall l, runs (map (with_bo b) l) = map (with_bo b) (runs l).
Proof.
  intros l. unfold runs. change (@nil ser) with (map (with_bo b) []) at 1.
  generalize (@nil ser). induction l; intros p; cbn [map fold_left]; [reflexivity|]. rewrite push_bo. apply IHl.
Qed.
Lemma same_bo : forall x y, same_ser x y -> same_ser (with_bo b x) (with_bo b y).
Proof.
  intros x y [->|(a & c & -> & -> & S)]; [now left|]. right. cbn. eexists _, _. split; [reflexivity|].
  split; [reflexivity|]. destruct S as (_ & L & A & K). repeat split; try assumption; apply L.
Qed.
Lemma rel_bo : forall l p, rel l p -> rel (map (with_bo b) l) (map (with_bo b) p).
Proof. induction 1; constructor; auto using same_bo. Qed.
Lemma parts_bo : forall s, flat s -> parts (with_bo b s) = map (with_bo b) (parts s).
Proof. intros s F. destruct s; reflexivity. Qed.
Lemma atom_bo : forall s, atom s -> atom (with_bo b s).
Proof. intros s [A B]. split; [now rewrite wb_is_compound|]. destruct s; try discriminate; congruence. Qed.
Lemma flat_bo : forall s, flat s -> flat (with_bo b s).
Proof.
  intros s F. destruct s; try exact I; try contradiction. destruct F as [N A]. cbn. split; [destruct subs; [congruence|discriminate]|].
  clear N. induction A; cbn; constructor; auto using atom_bo.
Qed.
End Bo.

(** ** the runs are reached from the fields by dropping nulls and gluing neighbours *)
Inductive step : list ser -> list ser -> Prop :=
| step_null : forall q r, step (q ++ SNull :: r) (q ++ r)
| step_glue : forall q x y r, step (q ++ SStruct x :: SStruct y :: r) (q ++ SStruct (glue x y) :: r).
Inductive steps : list ser -> list ser -> Prop :=
| steps_refl : forall l, steps l l
| steps_more : forall a b c, step a b -> steps b c -> steps a c.

Lemma push_steps : forall p s r, steps (p ++ s :: r) (push p s ++ r).
Proof.
  intros p s r.
  assert (D : steps (p ++ s :: r) ((p ++ [s]) ++ r)) by (rewrite <- app_assoc; apply steps_refl).
  destruct s; cbn [push]; try exact D.
  - eapply steps_more; [apply step_null|apply steps_refl].
  - destruct (split_last p) as [[q x]|] eqn:E; [|exact D]. destruct x; try exact D.
    apply split_last_some in E as ->. rewrite <- !app_assoc. cbn [app].
    eapply steps_more; [apply step_glue|apply steps_refl].
Qed.
Lemma steps_trans : forall a b c, steps a b -> steps b c -> steps a c.
Proof. induction 1; intros; [assumption|]. eapply steps_more; eauto. Qed.
Lemma runs_steps_from : forall l p, steps (p ++ l) (fold_left push l p).
Proof.
  induction l; intros p; cbn [fold_left]; [rewrite app_nil_r; apply steps_refl|].
  eapply steps_trans; [apply push_steps|apply IHl].
Qed.
Lemma runs_steps : forall l, steps l (runs l).
Proof. intros l. apply (runs_steps_from l []). Qed.

(** ** gluing structs without alignment *)
Section Unaligned.
Variable hb : bool.
Variable bo : border.
Hypothesis UN : m_native (mode_of hb bo) = false.

Lemma usize_off : forall m u a b, m_native m = false -> usize m a u = usize m b u.
Proof.
  intros m u a b N. destruct u; try reflexivity. cbn. unfold padding, calign. rewrite N. now rewrite !Nat.mod_1_r.
Qed.
Lemma size_off : forall m us a b, m_native m = false -> size_u m a us = size_u m b us.
Proof.
  intros m us. induction us as [|u us IH]; intros a b N; [reflexivity|]. cbn [size_u].
  rewrite (usize_off m u a b N). f_equal. now apply IH.
Qed.
Lemma pack_off : forall m us a b vs, m_native m = false -> pack_u m a us vs = pack_u m b us vs.
Proof.
  intros m us. induction us as [|u us IH]; intros a b vs N; [reflexivity|]. cbn [pack_u].
  assert (E : pack_unit m a u vs = pack_unit m b u vs).
  { destruct u; cbn [pack_unit]; try reflexivity. now rewrite (usize_off m _ a b N). }
  rewrite E. destruct (pack_unit m b u vs) as [[x vs']|]; [|reflexivity].
  now rewrite (IH (a + List.length x)%nat (b + List.length x)%nat vs' N).
Qed.
Lemma unpack_off : forall m us a b x, m_native m = false -> unpack_u m a us x = unpack_u m b us x.
Proof.
  intros m us. induction us as [|u us IH]; intros a b x N; [reflexivity|]. cbn [unpack_u].
  rewrite (usize_off m u a b N). rewrite (IH (a + usize m b u)%nat (b + usize m b u)%nat _ N). reflexivity.
Qed.

Lemma pack_u_prefix : forall m us off v w, nvals_u us = List.length v ->
  pack_u m off us (v ++ w) = pack_u m off us v.
Proof.
  intros m us. induction us as [|u us IH]; intros off v w H; [reflexivity|]. cbn [pack_u].
  unfold nvals_u in *. destruct u; cbn in H |- *; try (now rewrite IH).
  - destruct v as [|[] v]; try discriminate H; try reflexivity. cbn. now rewrite IH by (cbn in H; lia).
  - destruct v as [|[] v]; try discriminate H; try reflexivity. cbn. now rewrite IH by (cbn in H; lia).
  - destruct v as [|y v]; try discriminate H. cbn. destruct (pack_val m c y); [|reflexivity]. cbn.
    now rewrite IH by (cbn in H; lia).
Qed.

Lemma glue_est : forall x y v1 v2, s_bo x = bo -> s_bo y = bo ->
  List.length v1 = ss_nvals x -> List.length v2 = ss_nvals y ->
  est hb (glue x y) (v1 ++ v2) = (rdo a <- est hb x v1; rdo c <- est hb y v2; Ok (a ++ c)).
Proof.
  intros x y v1 v2 BX BY L1 L2. unfold est, st_pack, ss_mode. cbn [glue s_bo s_fmt]. rewrite BX, BY.
  unfold ss_nvals, nvals in *. rewrite expand_app, nvals_u_app, app_length, L1, L2, !Nat.eqb_refl.
  rewrite pack_u_app, (pack_u_prefix _ _ _ v1 v2) by lia.
  destruct (pack_u (mode_of hb bo) 0 (expand (s_fmt x)) v1) as [a [e|]]; [reflexivity|].
  rewrite <- L1, skipn_app, skipn_all, Nat.sub_diag. cbn [skipn app rbind].
  rewrite (pack_off _ _ (0 + List.length a)%nat 0%nat v2 UN).
  destruct (pack_u (mode_of hb bo) 0 (expand (s_fmt y)) v2) as [c [e|]]; reflexivity.
Qed.

Lemma glue_size : forall x y, s_bo x = bo -> s_bo y = bo ->
  ss_size hb (glue x y) = ss_size hb x + ss_size hb y.
Proof.
  intros x y BX BY. unfold ss_size, ss_mode, calcsize. cbn [glue s_bo s_fmt]. rewrite BX, BY, expand_app, size_u_app.
  rewrite (size_off _ _ (0 + _)%nat 0%nat UN). lia.
Qed.
Lemma nn_size : forall st, 0 <= ss_size hb st. Proof. intros. unfold ss_size. lia. Qed.

Definition req {A} (r1 r2 : res A) : Prop := forall v, r1 = Ok v <-> r2 = Ok v.

Lemma glue_act : forall x y va vb, ss_wf x = true -> ss_wf y = true ->
  List.length va = ss_nvals x -> List.length vb = ss_nvals y ->
  ss_act (glue x y) (va ++ vb) = (rdo a <- ss_act x va; rdo c <- ss_act y vb; Ok (a ++ c)).
Proof.
  intros x y va vb WX WY LA LB. rewrite (ss_act_of x va LA), (ss_act_of y vb LB).
  unfold ss_act, glue; cbn. destruct (s_act x) eqn:EX, (s_act y) eqn:EY;
    try (apply apply_actions_app; rewrite acts_of_length by assumption; lia).
  unfold acts_of. rewrite EX, EY, !apply_noop by lia. reflexivity.
Qed.

Lemma glue_dst : forall x y b, s_bo x = bo -> s_bo y = bo -> ss_wf x = true -> ss_wf y = true ->
  req (rdo vs <- dst hb (glue x y) b; Ok (vs, ss_size hb (glue x y)))
      (rdo (v1, k1) <- (rdo vs <- dst hb x b; Ok (vs, ss_size hb x));
       rdo (v2, k2) <- (rdo vs <- dst hb y (adv k1 b); Ok (vs, ss_size hb y));
       Ok (v1 ++ v2, k1 + k2)).
Proof.
  intros x y b BX BY WX WY r. rewrite glue_size by assumption. unfold dst, st_unpack.
  rewrite glue_size by assumption. unfold ss_mode. cbn [glue s_bo s_fmt]. rewrite BX, BY.
  set (m := mode_of hb bo) in *.
  assert (SX : ss_size hb x = Z.of_nat (calcsize m (s_fmt x))) by (unfold ss_size, ss_mode; now rewrite BX).
  assert (SY : ss_size hb y = Z.of_nat (calcsize m (s_fmt y))) by (unfold ss_size, ss_mode; now rewrite BY).
  assert (SG : calcsize m (s_fmt x ++ s_fmt y) = (calcsize m (s_fmt x) + calcsize m (s_fmt y))%nat).
  { unfold calcsize. rewrite expand_app, size_u_app. now rewrite (size_off m _ (0 + _)%nat 0%nat UN). }
  rewrite SX, SY, SG. set (nx := calcsize m (s_fmt x)) in *. set (ny := calcsize m (s_fmt y)) in *.
  unfold adv. rewrite <- Nat2Z.inj_add, !Nat2Z.id.
  assert (LEN : Nat.eqb (List.length (firstn (nx + ny) b)) (nx + ny)
                = Nat.eqb (List.length (firstn nx b)) nx && Nat.eqb (List.length (firstn ny (skipn nx b))) ny).
  { rewrite !firstn_length, skipn_length. apply Bool.eq_iff_eq_true.
    rewrite Bool.andb_true_iff, !Nat.eqb_eq. lia. }
  rewrite LEN. destruct (Nat.eqb (List.length (firstn nx b)) nx) eqn:E1.
  2:{ cbn. split; discriminate. }
  destruct (Nat.eqb (List.length (firstn ny (skipn nx b))) ny) eqn:E2.
  2:{ cbn. destruct (ss_act x _); cbn; rewrite ?Nat2Z.id, ?E2; split; discriminate. }
  cbn [andb rbind]. rewrite expand_app, unpack_u_app. fold (calcsize m (s_fmt x)). fold nx.
  rewrite (unpack_off m (expand (s_fmt y)) (0 + nx)%nat 0%nat _ UN).
  assert (P1 : unpack_u m 0 (expand (s_fmt x)) (firstn (nx + ny) b) = unpack_u m 0 (expand (s_fmt x)) (firstn nx b)).
  { rewrite <- (unpack_u_firstn m (expand (s_fmt x)) 0 (firstn (nx + ny) b) nx) by (unfold nx, calcsize; lia).
    rewrite firstn_firstn. f_equal. f_equal. lia. }
  assert (P2 : skipn nx (firstn (nx + ny) b) = firstn ny (skipn nx b)).
  { rewrite firstn_skipn_comm. f_equal. }
  rewrite P1, P2. set (va := unpack_u m 0 (expand (s_fmt x)) (firstn nx b)).
  set (vb := unpack_u m 0 (expand (s_fmt y)) (firstn ny (skipn nx b))).
  rewrite (glue_act x y va vb WX WY) by apply unpack_u_length.
  destruct (ss_act x va) as [a|]; cbn; [|split; discriminate]. rewrite Nat2Z.id, E2. cbn [rbind]. fold vb.
  destruct (ss_act y vb) as [c|]; cbn; [|split; discriminate]. rewrite Nat2Z.inj_add. reflexivity.
Qed.

(** ** the fields of a class with byte order [bo]: encoding in runs is encoding one after the other *)
Variable ct : nat -> option cdef.
Variable allow : nat -> nat -> bool.

Definition good_field (s : ser) : Prop :=
  match s with
  | SStruct st => s_bo st = bo /\ ss_wf st = true
  | SCond _ inner d => List.length d = num_values inner
  | _ => True
  end.
Definition good (l : list ser) : Prop := Forall good_field l.
Definition total (l : list ser) : nat := fold_right (fun s n => num_values s + n)%nat 0%nat l.

Lemma glue_wf : forall x y, ss_wf x = true -> ss_wf y = true -> ss_wf (glue x y) = true.
Proof.
  intros x y WX WY. pose proof (acts_of_length _ WX) as P. pose proof (acts_of_length _ WY) as Q.
  unfold ss_wf, glue, ss_nvals, nvals in *; cbn. rewrite expand_app, nvals_u_app.
  destruct (s_act x), (s_act y); try reflexivity; rewrite app_length; lia.
Qed.
Lemma glue_nvals : forall x y, ss_nvals (glue x y) = (ss_nvals x + ss_nvals y)%nat.
Proof. intros. unfold ss_nvals, glue, nvals. cbn. now rewrite expand_app, nvals_u_app. Qed.
Lemma step_good : forall a c, step a c -> good a -> good c /\ total a = total c.
Proof.
  assert (TA : forall a c, total (a ++ c) = (total a + total c)%nat).
  { unfold total. induction a; intros; cbn [app fold_right]; [reflexivity|]. rewrite IHa. lia. }
  intros a c [q r|q x y r] G; unfold good in *; rewrite Forall_app in G; destruct G as [G1 G2]; rewrite !TA.
  - inversion G2; subst. split; [apply Forall_app; auto|reflexivity].
  - inversion G2 as [|? ? GX G3]; subst. inversion G3 as [|? ? GY G4]; subst. destruct GX as [BX WX], GY as [BY WY]. split.
    + apply Forall_app. split; [exact G1|]. constructor; [|exact G4]. cbn. split; [exact BX|now apply glue_wf].
    + unfold total. cbn [fold_right num_values]. rewrite glue_nvals. lia.
Qed.

Lemma resolve_nv : forall packing s o s', good_field s -> resolve packing s o = Ok s' -> num_values s' = num_values s.
Proof.
  intros packing s o s' G H. destruct s; cbn [resolve] in H; try (injection H as <-; reflexivity).
  - destruct (cond o) as [v|]; [|discriminate]. cbn [rbind] in H. unfold cond_branch in H.
    destruct (key_eqb v (VBool true)); [injection H as <-; reflexivity|].
    destruct (key_eqb v (VBool false)); [injection H as <-; exact G|]. destruct (hashable v); discriminate.
  - destruct (self_class packing o); [|discriminate]. injection H as <-. reflexivity.
  - destruct (existsb needs_pre subs); injection H as <-; reflexivity.
Qed.

Lemma step_enc : forall n o a c vs, step a c -> good a -> (total a <= List.length vs)%nat ->
  enc_subs (enc hb ct allow (S n)) (Some o) o a vs = enc_subs (enc hb ct allow (S n)) (Some o) o c vs.
Proof.
  assert (HD : forall n o s a c vs, good_field s ->
     (forall vs', (List.length vs - num_values s <= List.length vs')%nat ->
        enc_subs (enc hb ct allow (S n)) (Some o) o a vs' = enc_subs (enc hb ct allow (S n)) (Some o) o c vs') ->
     enc_subs (enc hb ct allow (S n)) (Some o) o (s :: a) vs = enc_subs (enc hb ct allow (S n)) (Some o) o (s :: c) vs).
  { intros n o s a c vs G H. cbn [enc_subs oresolve]. destruct (resolve true s o) as [s'|] eqn:R; [|reflexivity].
    cbn [rbind]. destruct (enc _ _ _ _ _ _ _); [|reflexivity]. cbn [rbind]. rewrite H; [reflexivity|].
    rewrite skipn_length, (resolve_nv _ _ _ _ G R). lia. }
  intros n o a c vs [q r|q x y r] G; revert vs; induction q as [|s q IH]; intros vs L.
  - cbn [app enc_subs oresolve resolve rbind enc enc_step num_values firstn skipn].
    destruct (enc_subs _ _ _ r vs); reflexivity.
  - inversion G; subst. cbn [app]. apply HD; [assumption|]. intros vs' L'. apply IH; [assumption|].
    cbn [app total fold_right] in L |- *. unfold total in *. lia.
  - cbn [app] in *. inversion G as [|? ? GX G3]; subst. inversion G3 as [|? ? GY G4]; subst. destruct GX as [BX WX], GY as [BY WY].
    cbn [enc_subs oresolve resolve rbind enc enc_step num_values octx].
    cbn [total fold_right num_values] in L. rewrite glue_nvals.
    assert (SP : firstn (ss_nvals x + ss_nvals y) vs
                 = firstn (ss_nvals x) vs ++ firstn (ss_nvals y) (skipn (ss_nvals x) vs)).
    { rewrite <- (firstn_skipn (ss_nvals x) vs) at 1. rewrite firstn_app, firstn_length.
      replace (ss_nvals x + ss_nvals y - Nat.min (ss_nvals x) (List.length vs))%nat with (ss_nvals y) by lia.
      f_equal. rewrite firstn_firstn. f_equal. lia. }
    rewrite SP. rewrite glue_est; try assumption; try (rewrite firstn_length; lia).
    2:{ rewrite firstn_length, skipn_length. lia. }
    destruct (est hb x _); [|reflexivity]. cbn [rbind]. destruct (est hb y _); [|reflexivity]. cbn [rbind].
    rewrite skipn_skipn. destruct (enc_subs _ _ _ r _); [|reflexivity]. cbn [rbind].
    now rewrite app_assoc.
  - inversion G; subst. cbn [app]. apply HD; [assumption|]. intros vs' L'. apply IH; [assumption|].
    cbn [app total fold_right] in L |- *. unfold total in *. lia.
Qed.

Lemma req_refl : forall A (r : res A), req r r. Proof. intros A r v. reflexivity. Qed.
Lemma req_trans : forall A (a b c : res A), req a b -> req b c -> req a c.
Proof. intros A a b c H1 H2 v. now rewrite (H1 v). Qed.
Lemma req_sym : forall A (a b : res A), req a b -> req b a.
Proof. intros A a b H v. symmetry. apply H. Qed.
Lemma req_bind : forall A B (a : res A) (f g : A -> res B), (forall x, req (f x) (g x)) -> req (rbind a f) (rbind a g).
Proof. intros A B [x|e] f g H; [apply H|apply req_refl]. Qed.

Lemma adv_adv : forall j k (b : bytes), 0 <= j -> 0 <= k -> adv k (adv j b) = adv (j + k) b.
Proof. intros j k b J K. unfold adv. rewrite skipn_skipn. f_equal. lia. Qed.

(** a glued struct in front of a continuation [g] of the values, the size and the remaining bytes *)
Lemma glue_req : forall C x y b (g : list value -> Z -> res C),
  s_bo x = bo -> s_bo y = bo -> ss_wf x = true -> ss_wf y = true ->
  req (rdo (vs, k) <- (rdo vs <- dst hb (glue x y) b; Ok (vs, ss_size hb (glue x y))); g vs k)
      (rdo (v1, k1) <- (rdo vs <- dst hb x b; Ok (vs, ss_size hb x));
       rdo (v2, k2) <- (rdo vs <- dst hb y (adv k1 b); Ok (vs, ss_size hb y));
       g (v1 ++ v2) (k1 + k2)).
Proof.
  intros C x y b g BX BY WX WY r. pose proof (glue_dst x y b BX BY WX WY) as H.
  destruct (dst hb x b) as [v1|] eqn:EX; cbn [rbind] in *.
  2:{ destruct (dst hb (glue x y) b) as [vs|]; cbn [rbind] in *; [|split; discriminate].
      destruct (H (vs, ss_size hb (glue x y))) as [Q _]. specialize (Q eq_refl). discriminate. }
  destruct (dst hb y (adv (ss_size hb x) b)) as [v2|] eqn:EY; cbn [rbind] in *.
  2:{ destruct (dst hb (glue x y) b) as [vs|]; cbn [rbind] in *; [|split; discriminate].
      destruct (H (vs, ss_size hb (glue x y))) as [Q _]. specialize (Q eq_refl). discriminate. }
  destruct (H (v1 ++ v2, ss_size hb x + ss_size hb y)) as [_ Q]. specialize (Q eq_refl).
  destruct (dst hb (glue x y) b) as [vs|]; cbn [rbind] in *; [|discriminate]. injection Q as -> ->. reflexivity.
Qed.

Lemma step_dec : forall md n o a c b, step a c -> good a ->
  req (dec_subs (dec hb ct md (S n)) (Some o) o a b) (dec_subs (dec hb ct md (S n)) (Some o) o c b).
Proof.
  assert (HD : forall md n o s a c b,
     (forall b', req (dec_subs (dec hb ct md (S n)) (Some o) o a b') (dec_subs (dec hb ct md (S n)) (Some o) o c b')) ->
     req (dec_subs (dec hb ct md (S n)) (Some o) o (s :: a) b) (dec_subs (dec hb ct md (S n)) (Some o) o (s :: c) b)).
  { intros md n o s a c b H. cbn [dec_subs]. apply req_bind. intros x'. apply req_bind. intros [vs k].
    specialize (H (adv k b)). intros r. destruct (dec_subs _ _ _ a _) as [[l1 z1]|], (dec_subs _ _ _ c _) as [[l2 z2]|];
      cbn [rbind] in *.
    - destruct (H (l1, z1)) as [Q _]. specialize (Q eq_refl). injection Q as -> ->. reflexivity.
    - destruct (H (l1, z1)) as [Q _]. specialize (Q eq_refl). discriminate.
    - destruct (H (l2, z2)) as [_ Q]. specialize (Q eq_refl). discriminate.
    - split; discriminate. }
  intros md n o a c b [q r|q x y r] G; revert b; induction q as [|s q IH]; intros b.
  - cbn [app dec_subs oresolve resolve rbind dec dec_step]. unfold adv. cbn [Z.to_nat skipn].
    destruct (dec_subs _ _ _ r b) as [[l z]|]; cbn; apply req_refl.
  - inversion G; subst. cbn [app]. apply HD. intros. now apply IH.
  - cbn [app] in *. inversion G as [|? ? GX G3]; subst. inversion G3 as [|? ? GY G4]; subst.
    destruct GX as [BX WX], GY as [BY WY]. cbn [dec_subs oresolve resolve rbind dec dec_step octx].
    apply req_sym.
    eapply req_trans; [apply (glue_req _ x y b (fun vs k =>
      rdo (rest, k') <- dec_subs (dec hb ct md (S n)) (Some o) o r (adv k b); Ok (vs ++ rest, k + k')) BX BY WX WY)|].
    destruct (dst hb x b) as [v1|]; cbn [rbind]; [|apply req_refl].
    destruct (dst hb y (adv (ss_size hb x) b)) as [v2|]; cbn [rbind]; [|apply req_refl].
    rewrite adv_adv by apply nn_size.
    destruct (dec_subs _ _ _ r _) as [[l z]|]; cbn [rbind]; [|apply req_refl].
    rewrite app_assoc, Z.add_assoc. apply req_refl.
  - inversion G; subst. cbn [app]. apply HD. intros. now apply IH.
Qed.

Lemma assign_app : forall v1 v2 names d,
  assign names (v1 ++ v2) d = match assign names v1 d with
                              | (Some names', d') => assign names' v2 d'
                              | (None, d') => (None, d')
                              end.
Proof.
  induction v1; intros v2 names d; cbn [app].
  - destruct names; reflexivity.
  - destruct names; cbn [assign]; [reflexivity|]. apply IHv1.
Qed.

(** the loop that fills an object, when it succeeds *)
Definition ofill (md : umode) (n : nat) (o ctx : pobj) (l : list ser) (b : bytes) (names : list string)
  (d : list (string * value)) : res (list string * list (string * value) * Z) :=
  okfill (dfill_subs (dec hb ct md (S n)) (Some o) ctx l b names d).
Lemma ofill_cons : forall md n o ctx s l b names d,
  ofill md n o ctx (s :: l) b names d =
  (rdo x' <- resolve false s (PO (p_cls o) (p_proxy o) d);
   rdo (vs, k) <- dec hb ct md (S n) x' (PO (p_cls o) (p_proxy o) d) b;
   match assign names vs d with
   | (None, _) => Err ValueError
   | (Some names', d') => rdo (nd, z) <- ofill md n o ctx l (adv k b) names' d'; Ok (nd, k + z)
   end).
Proof.
  intros. unfold ofill. cbn [dfill_subs option_map oresolve octx].
  destruct (resolve false s _); [|reflexivity]. cbn [rbind].
  destruct (dec hb ct md (S n) _ _ b) as [[vs k]|]; [|reflexivity].
  cbn [rbind]. destruct (assign names vs d) as [[nm|] d']; [|reflexivity].
  destruct (dfill_subs _ _ _ l _ _ _) as [[[nm2 z]|] d2]; reflexivity.
Qed.
Lemma req_add : forall A (r1 r2 : res (A * Z)) k, req r1 r2 ->
  req (rdo (nd, z) <- r1; Ok (nd, k + z)) (rdo (nd, z) <- r2; Ok (nd, k + z)).
Proof.
  intros A r1 r2 k H v. destruct r1 as [[a z]|], r2 as [[a' z']|]; cbn [rbind].
  - destruct (H (a, z)) as [Q _]. specialize (Q eq_refl). injection Q as -> ->. reflexivity.
  - destruct (H (a, z)) as [Q _]. specialize (Q eq_refl). discriminate.
  - destruct (H (a', z')) as [_ Q]. specialize (Q eq_refl). discriminate.
  - split; discriminate.
Qed.

Lemma step_fill : forall md n o ctx a c b names d, step a c -> good a ->
  req (ofill md n o ctx a b names d) (ofill md n o ctx c b names d).
Proof.
  assert (HD : forall md n o ctx s a c b names d,
     (forall b' names' d', req (ofill md n o ctx a b' names' d') (ofill md n o ctx c b' names' d')) ->
     req (ofill md n o ctx (s :: a) b names d) (ofill md n o ctx (s :: c) b names d)).
  { intros md n o ctx s a c b names d H. rewrite !ofill_cons. apply req_bind. intros x'. apply req_bind. intros [vs k].
    destruct (assign names vs d) as [[nm|] d']; [|apply req_refl]. apply req_add, H. }
  intros md n o ctx a c b names d [q r|q x y r] G; revert b names d; induction q as [|s q IH]; intros b names d.
  - cbn [app]. rewrite ofill_cons. cbn [resolve rbind dec dec_step].
    replace (assign names [] d) with (Some names, d) by (destruct names; reflexivity).
    unfold adv. cbn [Z.to_nat skipn]. destruct (ofill md n o ctx r b names d) as [[nd z]|]; apply req_refl.
  - inversion G; subst. cbn [app]. apply HD. intros. now apply IH.
  - cbn [app] in *. inversion G as [|? ? GX G3]; subst. inversion G3 as [|? ? GY G4]; subst.
    destruct GX as [BX WX], GY as [BY WY].
    rewrite !ofill_cons. cbn [resolve rbind dec dec_step].
    apply req_sym.
    eapply req_trans; [apply (glue_req _ x y b (fun vs k =>
      match assign names vs d with
      | (None, _) => Err ValueError
      | (Some names', d') => rdo (nd, z) <- ofill md n o ctx r (adv k b) names' d'; Ok (nd, k + z)
      end) BX BY WX WY)|].
    destruct (dst hb x b) as [v1|]; cbn [rbind]; [|apply req_refl].
    destruct (assign names v1 d) as [[nm|] d'] eqn:A1.
    2:{ destruct (dst hb y (adv (ss_size hb x) b)) as [v2|]; cbn [rbind].
        - rewrite assign_app, A1. apply req_refl.
        - split; discriminate. }
    rewrite ofill_cons. cbn [resolve rbind dec dec_step].
    destruct (dst hb y (adv (ss_size hb x) b)) as [v2|]; cbn [rbind]; [|apply req_refl].
    rewrite assign_app, A1. destruct (assign nm v2 d') as [[nm'|] d'']; cbn [rbind]; [|apply req_refl].
    rewrite adv_adv by apply nn_size.
    destruct (ofill md n o ctx r _ nm' d'') as [[nd z]|]; cbn [rbind]; [|apply req_refl].
    rewrite Z.add_assoc. apply req_refl.
  - inversion G; subst. cbn [app]. apply HD. intros. now apply IH.
Qed.

(** all steps together *)
Lemma steps_good : forall a c, steps a c -> good a -> good c /\ total a = total c.
Proof.
  induction 1; intros G; [auto|]. destruct (step_good _ _ H G) as [G' E]. destruct (IHsteps G') as [G'' E'].
  split; [exact G''|congruence].
Qed.
Lemma runs_enc : forall n o l vs, good l -> (total l <= List.length vs)%nat ->
  enc_subs (enc hb ct allow (S n)) (Some o) o (runs l) vs = enc_subs (enc hb ct allow (S n)) (Some o) o l vs.
Proof.
  intros n o l vs G L. pose proof (runs_steps l) as S. revert G L. induction S; intros G L; [reflexivity|].
  destruct (step_good _ _ H G) as [G' E]. rewrite (IHS G' ltac:(rewrite <- E; exact L)). symmetry. now apply step_enc.
Qed.
Lemma runs_dec : forall md n o l b, good l ->
  req (dec_subs (dec hb ct md (S n)) (Some o) o (runs l) b) (dec_subs (dec hb ct md (S n)) (Some o) o l b).
Proof.
  intros md n o l b G. pose proof (runs_steps l) as S. revert G. induction S; intros G; [apply req_refl|].
  destruct (step_good _ _ H G) as [G' E]. eapply req_trans; [apply IHS, G'|]. apply req_sym. now apply step_dec.
Qed.
Lemma runs_fill : forall md n o ctx l b names d, good l ->
  req (ofill md n o ctx (runs l) b names d) (ofill md n o ctx l b names d).
Proof.
  intros md n o ctx l b names d G. pose proof (runs_steps l) as S. revert G. induction S; intros G; [apply req_refl|].
  destruct (step_good _ _ H G) as [G' E]. eapply req_trans; [apply IHS, G'|]. apply req_sym. now apply step_fill.
Qed.
End Unaligned.

(** ** the serializer and its parts *)
Section Parts.
Variable hb : bool.
Variable ct : nat -> option cdef.
Variable allow : nat -> nat -> bool.

Lemma same_nv : forall a b, same_ser a b -> num_values a = num_values b.
Proof. intros a b [->|(x & y & -> & -> & _ & [N _] & _)]; [reflexivity|exact N]. Qed.
Lemma same_resolve : forall packing a b o, same_ser a b ->
  match resolve packing a o, resolve packing b o with
  | Ok a', Ok b' => same_ser a' b'
  | Err e, Err e' => e = e'
  | _, _ => False
  end.
Proof.
  intros packing a b o [->|(x & y & -> & -> & S)].
  - destruct (resolve packing b o); [now left|reflexivity].
  - cbn. right. eauto.
Qed.
Lemma same_enc : forall n a b o vs, same_ser a b -> enc hb ct allow n a o vs = enc hb ct allow n b o vs.
Proof.
  intros n a b o vs [->|(x & y & -> & -> & B & L & _ & _)]; [reflexivity|]. destruct n; [reflexivity|].
  cbn. unfold est, ss_mode. rewrite B. now apply (layout_st _ _ L).
Qed.
Lemma same_dec : forall md n a b o x, same_ser a b -> dec hb ct md n a o x = dec hb ct md n b o x.
Proof.
  intros md n a b o bs [->|(x & y & -> & -> & B & L & A & _)]; [reflexivity|]. destruct n; [reflexivity|].
  cbn. unfold dst, ss_mode, ss_act, ss_size, ss_mode. rewrite B, A.
  destruct (layout_st _ _ L) as [_ H]. destruct (H (mode_of hb (s_bo y))) as (C & _ & U & _). rewrite C, U. reflexivity.
Qed.
Lemma rel_enc : forall n pre o l p vs, rel l p ->
  enc_subs (enc hb ct allow n) pre o l vs = enc_subs (enc hb ct allow n) pre o p vs.
Proof.
  intros n pre o l p vs R. revert vs. induction R as [|a b l p S R IH]; intros vs; [reflexivity|]. cbn [enc_subs].
  assert (Q : match oresolve true pre a, oresolve true pre b with
              | Ok a', Ok b' => same_ser a' b' | Err e, Err e' => e = e' | _, _ => False end).
  { destruct pre; cbn; [now apply same_resolve|exact S]. }
  destruct (oresolve true pre a) as [a'|], (oresolve true pre b) as [b'|]; try contradiction; cbn [rbind].
  - rewrite (same_nv _ _ Q), (same_enc _ _ _ _ _ Q), IH. reflexivity.
  - now rewrite Q.
Qed.
Lemma rel_dec : forall md n pre o l p b, rel l p ->
  dec_subs (dec hb ct md n) pre o l b = dec_subs (dec hb ct md n) pre o p b.
Proof.
  intros md n pre o l p b R. revert b. induction R as [|a c l p S R IH]; intros b; [reflexivity|]. cbn [dec_subs].
  assert (Q : match oresolve false pre a, oresolve false pre c with
              | Ok a', Ok b' => same_ser a' b' | Err e, Err e' => e = e' | _, _ => False end).
  { destruct pre; cbn; [now apply same_resolve|exact S]. }
  destruct (oresolve false pre a) as [a'|], (oresolve false pre c) as [b'|]; try contradiction; cbn [rbind].
  - rewrite (same_dec _ _ _ _ _ _ Q). destruct (dec hb ct md n b' (octx pre o) b) as [[vs k]|]; [|reflexivity].
    cbn [rbind]. now rewrite IH.
  - now rewrite Q.
Qed.
Lemma rel_fill : forall md n o ctx l p b names d, rel l p ->
  ofill hb ct md n o ctx l b names d = ofill hb ct md n o ctx p b names d.
Proof.
  intros md n o ctx l p b names d R. revert b names d. induction R as [|a c l p S R IH]; intros b names d; [reflexivity|].
  rewrite !ofill_cons. pose proof (same_resolve false a c (PO (p_cls o) (p_proxy o) d) S) as Q.
  destruct (resolve false a _) as [a'|], (resolve false c _) as [b'|]; try contradiction; cbn [rbind].
  - rewrite (same_dec _ _ _ _ _ _ Q). destruct (dec hb ct md (Datatypes.S n) b' _ b) as [[vs k]|]; [|reflexivity].
    cbn [rbind]. destruct (assign names vs d) as [[nm|] d']; [|reflexivity]. now rewrite IH.
  - now rewrite Q.
Qed.

Lemma enc_subs_none : forall n o l vs, existsb needs_pre l = false ->
  enc_subs (enc hb ct allow n) None o l vs = enc_subs (enc hb ct allow n) (Some o) o l vs.
Proof.
  intros n o l. induction l as [|s l IH]; intros vs H; [reflexivity|]. cbn in H. apply Bool.orb_false_iff in H as [H1 H2].
  cbn [enc_subs oresolve octx]. assert (E : resolve true s o = Ok s) by (destruct s; try discriminate H1; reflexivity).
  rewrite E. cbn [rbind]. now rewrite IH.
Qed.
Lemma dec_subs_none : forall md n o l b, existsb needs_pre l = false ->
  dec_subs (dec hb ct md n) None o l b = dec_subs (dec hb ct md n) (Some o) o l b.
Proof.
  intros md n o l. induction l as [|s l IH]; intros b H; [reflexivity|]. cbn in H. apply Bool.orb_false_iff in H as [H1 H2].
  cbn [dec_subs oresolve octx]. assert (E : resolve false s o = Ok s) by (destruct s; try discriminate H1; reflexivity).
  rewrite E. cbn [rbind]. destruct (dec _ _ _ _ _ _ _) as [[vs k]|]; [|reflexivity]. cbn [rbind]. now rewrite IH.
Qed.

Lemma parts_enc : forall n s o vs, flat s -> (forall s', resolve true s o = Ok s' -> num_values s' = num_values s) ->
  List.length vs = num_values s ->
  rle (enc_subs (enc hb ct allow n) (Some o) o (parts s) vs)
      (rdo s' <- resolve true s o; enc hb ct allow (S n) s' o vs).
Proof.
  intros n s o vs F NV L.
  destruct (match s with SNull | SCompound _ _ => true | _ => false end) eqn:K.
  - destruct s; try discriminate K; [right; reflexivity|]. right. cbn [parts resolve].
    destruct (existsb needs_pre subs) eqn:E; cbn [rbind enc enc_step]; [reflexivity|].
    symmetry. now apply enc_subs_none.
  - assert (P : parts s = [s]) by (destruct s; try reflexivity; try discriminate K; contradiction). rewrite P.
    cbn [enc_subs oresolve octx]. destruct (resolve true s o) as [s'|] eqn:R; [|right; reflexivity]. cbn [rbind].
    rewrite (NV s' eq_refl), <- L, firstn_all.
    eapply rle_trans; [|apply enc_S].
    destruct (enc hb ct allow n s' o vs); cbn [rbind]; right; [now rewrite app_nil_r|reflexivity].
Qed.
Lemma parts_dec : forall md n s o b, flat s ->
  rle (dec_subs (dec hb ct md n) (Some o) o (parts s) b)
      (rdo s' <- resolve false s o; dec hb ct md (S n) s' o b).
Proof.
  intros md n s o b F.
  destruct (match s with SNull | SCompound _ _ => true | _ => false end) eqn:K.
  - destruct s; try discriminate K; [right; reflexivity|]. right. cbn [parts resolve].
    destruct (existsb needs_pre subs) eqn:E; cbn [rbind dec dec_step]; [reflexivity|].
    symmetry. now apply dec_subs_none.
  - assert (P : parts s = [s]) by (destruct s; try reflexivity; try discriminate K; contradiction). rewrite P.
    cbn [dec_subs oresolve octx]. destruct (resolve false s o) as [s'|] eqn:R; [|right; reflexivity]. cbn [rbind].
    eapply rle_trans; [|apply dec_S].
    destruct (dec hb ct md n s' o b) as [[vs k]|]; cbn [rbind]; right; [now rewrite app_nil_r, Z.add_0_r|reflexivity].
Qed.
End Parts.
