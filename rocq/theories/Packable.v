(** The instances that can be packed are those with a layout (WireSpec.v) that fit (PackSpec.v). *)
From Verif Require Import Base Floats Value StructMod Format Ser Exec Pure BaseFacts StructFacts FormatFacts
  SerFacts Leaf Wire Field Fuel DecFacts RoundTrip Adding PropsAdd PropsStrings Hints HintFacts Surface SerShape Programs Accept AcceptProg
  WireSpec WireFacts Wires PackSpec.

(** ** sums *)
(** a compound has at least two parts *)
Definition big (s : ser) : Prop := match s with SCompound _ l => (2 <= List.length l)%nat | SSpec _ _ _ => False | _ => True end.
Lemma add_impl_big : forall fin id cands last before s, (1 <= List.length before)%nat -> Forall (fun s => is_compound s = false) cands ->
  add_impl fin id last before cands = Ok s -> big s.
Proof.
  intros fin id. induction cands as [|c cs IH]; intros last before s L NC H; cbn [add_impl] in H.
  - injection H as <-. cbn [big]. cbn [rev]. rewrite app_length, rev_length. cbn. lia.
  - inversion NC; subst. destruct (add2 fin id last c) as [j|]; [|discriminate]. cbn [rbind] in H. destruct (is_compound j).
    + eapply (IH c (last :: before)); eauto. cbn. lia.
    + eapply (IH j before); eauto.
Qed.
Lemma sadd_big : forall fin id a b s, big a -> is_compound b = false -> sadd fin id a b = Ok s -> big s.
Proof.
  intros fin id a b s B C H.
  assert (A2 : is_compound a = false -> a <> SNull -> add2 fin id a b = Ok s -> big s).
  { intros CA NA Q. destruct (both_struct a b) eqn:BS.
    - destruct a; try discriminate BS. destruct b; try discriminate BS. cbn [add2] in Q. unfold Base.rmap in Q.
      destruct (ss_add st st0); [injection Q as <-; exact I|discriminate].
    - destruct (match b with SNull => true | _ => false end) eqn:NB.
      + destruct b; try discriminate NB. assert (s = a) as -> by (destruct a; cbn in Q; congruence). exact B.
      + rewrite add2_shape in Q; [|exact NA|destruct b; discriminate|exact BS].
        destruct (is_final fin a); [discriminate|]. injection Q as <-. cbn. lia. }
  destruct (is_compound a) eqn:CA.
  - destruct a; try discriminate CA; [|contradiction]. cbn [big] in B.
    assert (SH : sadd fin id (SCompound id0 subs) b = match rev subs with [] => Err IndexError | x :: bf => add_impl fin id x bf [b] end)
      by (destruct b; try discriminate C; reflexivity).
    rewrite SH in H. destruct (rev subs) as [|x bf] eqn:R; [discriminate|].
    apply (f_equal (@List.length ser)) in R. rewrite rev_length in R. cbn in R.
    eapply (add_impl_big fin id [b] x bf); eauto. lia.
  - destruct (match a with SNull => true | _ => false end) eqn:NA.
    + destruct a; try discriminate NA. assert (s = b) as -> by (destruct b; cbn in H; congruence). destruct b; try discriminate C; exact I.
    + apply A2; [reflexivity|destruct a; discriminate|]. rewrite <- H.
      destruct a; try discriminate CA; try discriminate NA; destruct b; try discriminate C; reflexivity.
Qed.
Lemma ssum_big : forall fin id l s, Forall (fun s => is_compound s = false) l -> ssum fin id l = Ok s -> big s.
Proof.
  intros fin id l s NC. unfold ssum. assert (G : forall acc, big acc -> ssum_from fin id acc l = Ok s -> big s).
  { induction NC as [|x l C NC IH]; intros acc B H; cbn [ssum_from] in H; [now injection H as <-|].
    destruct (sadd fin id acc x) as [a|] eqn:E; [|discriminate]. cbn [rbind] in H. eapply IH; [|exact H]. eapply sadd_big; eauto. }
  apply G. exact I.
Qed.
Lemma big_bo : forall bo s, big s -> big (with_bo bo s).
Proof. intros bo s B. destruct s; try exact I; try contradiction. cbn [with_bo big] in *. now rewrite map_length. Qed.

(** the shape of the runs *)
Definition plain_struct (s : ser) : bool := is_struct s || negb (real s).
Lemma push_real : forall l p, fold_left push l p = fold_left push (filter real l) p.
Proof.
  induction l as [|s l IH]; intros p; [reflexivity|]. cbn [filter]. destruct s; cbn [real fold_left]; rewrite IH; reflexivity.
Qed.
Lemma runs_real : forall l, runs l = runs (filter real l).
Proof. intros. apply push_real. Qed.
Lemma push_length : forall p s, (List.length p <= List.length (push p s))%nat.
Proof.
  intros p s. assert (D : (List.length p <= List.length (p ++ [s]))%nat) by (rewrite app_length; lia).
  destruct s; cbn [push]; try exact D; [lia|]. destruct (split_last p) as [[q x]|] eqn:E; [|exact D].
  destruct x; try exact D. apply split_last_some in E as ->. rewrite !app_length. cbn. lia.
Qed.
Lemma runs_structs : forall l x, forallb is_struct l = true -> exists y, fold_left push l [SStruct x] = [SStruct y].
Proof.
  induction l as [|s l IH]; intros x H; [now exists x|]. cbn in H. apply andb_prop in H as [H1 H2]. destruct s; try discriminate H1.
  cbn [fold_left push split_last app]. now apply IH.
Qed.
Lemma runs_many : forall l a, Forall (fun s => s <> SNull) l -> l <> [] -> forallb is_struct (a :: l) = false ->
  (2 <= List.length (fold_left push l [a]))%nat.
Proof.
  assert (M : forall l p, (2 <= List.length p)%nat -> (2 <= List.length (fold_left push l p))%nat).
  { induction l as [|s l IH]; intros p H; [exact H|]. cbn [fold_left]. apply IH. pose proof (push_length p s). lia. }
  induction l as [|s l IH]; intros a NN NE S; [congruence|]. inversion NN as [|? ? N1 N2]; subst. cbn [fold_left].
  destruct (both_struct a s) eqn:BS.
  - destruct a; try discriminate BS. destruct s; try discriminate BS. cbn [push split_last app]. apply IH; [exact N2| |exact S].
    intros ->. discriminate S.
  - apply M. destruct s; try congruence; try (cbn; lia). cbn [push split_last app]. destruct a; cbn; try lia. discriminate BS.
Qed.
(** serializers of fields and the hints they come from *)
Lemma null_made : forall x bo, made bo x SNull -> nothing x = true.
Proof.
  assert (C : forall bo c n, counted bo c n SNull -> (n =? 0) = true).
  { intros bo c n H. unfold counted in H. destruct (n =? 0); [reflexivity|]. destruct H as (t & E & _). discriminate. }
  intros x bo M. destruct x; cbn [made] in M; try contradiction; try (destruct M as (? & Q & _); discriminate Q); cbn [nothing]; eauto.
  - destruct M as [_ M]. discriminate.
  - destruct a; cbn [char_made] in M; eauto.
    + destruct M as [_ [? M]]. discriminate.
    + destruct b as [|? []]; try contradiction. destruct M; discriminate.
    + destruct M; discriminate.
    + destruct M; discriminate.
  - destruct M as (_ & i & _ & M). destruct (structy x && Nat.eqb (vals x) 1).
    + destruct M as (st & _ & M). destruct n; [discriminate|]. destruct M; discriminate.
    + destruct M; discriminate.
  - destruct M as (fin & i & i' & sers & j & Q & _). discriminate.
  - destruct M as (? & ? & Q & _). discriminate.
  - destruct M as (? & ? & ? & Q & _). discriminate.
  - destruct M as (? & ? & ? & ? & Q & _). discriminate.
  - destruct M as (? & Q). discriminate.
  - destruct M as (? & Q). discriminate.
Qed.
Lemma nothing_null : forall x bo s, made bo x s -> nothing x = true -> s = SNull.
Proof.
  intros x bo s M N. destruct x; try discriminate N; cbn [made nothing] in *; unfold counted in *.
  - now rewrite N in M.
  - now rewrite N in M.
  - destruct a; try discriminate N. cbn [char_made] in M. unfold counted in M. now rewrite N in M.
Qed.
Lemma nothing_real : forall x bo s, made bo x s -> negb (nothing x) = real s.
Proof.
  intros x bo s M. destruct (nothing x) eqn:N.
  - now rewrite (nothing_null _ _ _ M N).
  - destruct s; try reflexivity. apply null_made in M. congruence.
Qed.
Lemma structy_made : forall x bo s, made bo x s -> structy x || nothing x = plain_struct s.
Proof.
  assert (C : forall bo c n s, counted bo c n s -> plain_struct s = true).
  { intros bo c n s H. unfold counted in H. destruct (n =? 0); [now subst|]. destruct H as (t & -> & _). reflexivity. }
  induction x using hx_ind'; intros bo sr M; cbn [made structy nothing] in *; try contradiction.
  - destruct M as [_ ->]. reflexivity.
  - symmetry. eauto.
  - symmetry. eauto.
  - destruct a; cbn [char_made] in M; try (destruct M as [_ [? ->]]; reflexivity); try (destruct M as [? ->]; reflexivity).
    + symmetry. eauto.
    + destruct b as [|? []]; try contradiction. destruct M as [? ->]. reflexivity.
  - destruct M as (i & -> & _). reflexivity.
  - destruct M as (_ & i & _ & M). destruct (structy x && Nat.eqb (vals x) 1).
    + destruct M as (st & _ & M). destruct n; [now subst|]. destruct M as [? ->]. reflexivity.
    + destruct M as [? ->]. reflexivity.
  - destruct M as (? & ? & ? & ? & ? & -> & _). reflexivity.
  - destruct M as (? & -> & _). reflexivity.
  - destruct M as (st & st' & -> & M & _). pose proof (IHx _ _ M) as Q.
    destruct (nothing x) eqn:N; [pose proof (nothing_null _ _ _ M N); discriminate|]. rewrite Bool.orb_false_r in *. exact Q.
  - destruct M as (? & ? & ? & -> & _). reflexivity.
  - destruct M as (? & ? & ? & ? & -> & _). reflexivity.
  - destruct M as (? & ->). reflexivity.
  - destruct M as (? & ->). reflexivity.
Qed.
Lemma nothing_vals : forall x, nothing x = true -> vals x = 0%nat.
Proof. intros x N. destruct x; try discriminate N; cbn in *; [reflexivity|now rewrite N|]. destruct a; try discriminate N. now rewrite N. Qed.
Lemma rel_length : forall a b, rel a b -> List.length a = List.length b.
Proof. intros a b R. unfold rel in R. induction R as [|x y a b S R IH]; [reflexivity|]. cbn. now rewrite IH. Qed.
(** the three shapes of a sum *)
Section Shapes.
Variables (bo : border) (xs : list hx) (l : list ser) (s : ser).
Hypothesis M : all2 (made bo) xs l.
Hypothesis F : flat s.
Hypothesis RL : rel (parts s) (runs l).
Hypothesis AT : Forall atom (runs l).
Hypothesis B : big s.
Lemma filter_made : all2 (made bo) (filter (fun x => negb (nothing x)) xs) (filter real l).
Proof.
  clear F RL AT B. revert l M. induction xs as [|x xs' IH]; intros [|p l'] Q; try contradiction; [exact I|]. destruct Q as [Q1 Q2].
  cbn [filter]. rewrite (nothing_real _ _ _ Q1). destruct (real p); [split; [exact Q1|auto]|auto].
Qed.
Lemma structs_made : forallb (fun x => structy x || nothing x) xs = forallb plain_struct l.
Proof.
  clear F RL AT B. revert l M. induction xs as [|x xs' IH]; intros [|p l'] Q; try contradiction; [reflexivity|]. destruct Q as [Q1 Q2].
  cbn [forallb]. now rewrite (structy_made _ _ _ Q1), (IH _ Q2).
Qed.
Lemma filter_structs : forallb plain_struct l = forallb is_struct (filter real l).
Proof.
  clear. induction l as [|p l' IH]; [reflexivity|]. cbn [filter forallb]. rewrite IH. destruct p; reflexivity.
Qed.
Lemma real_nn : Forall (fun s => s <> SNull) (filter real l).
Proof. clear. apply Forall_forall. intros p I. apply filter_In in I as [_ R]. intros ->. discriminate R. Qed.
Lemma sum_none : filter real l = [] -> s = SNull.
Proof.
  intros E. assert (R : runs l = []) by (rewrite runs_real, E; reflexivity). rewrite R in RL. inversion RL as [Q|]. destruct s; try discriminate; [reflexivity| |contradiction].
  cbn [parts] in Q. subst subs. destruct F. congruence.
Qed.
Lemma sum_one : forall p, runs l = [p] -> same_ser s p /\ is_compound s = false.
Proof.
  intros p R. rewrite R in RL. clear - RL F B. inversion RL as [|a b q r SS TL HA HB]. subst. inversion TL. subst. symmetry in HA.
  destruct s; try discriminate HA; cbn [parts] in HA; try (injection HA as <-; split; [exact SS|reflexivity]); try contradiction.
  rewrite HA in B. cbn in B. lia.
Qed.
Lemma runs_one : forall p, filter real l = [p] -> runs l = [p].
Proof.
  intros p E. rewrite runs_real, E. pose proof real_nn as N. rewrite E in N. inversion N; subst. unfold runs. cbn [fold_left].
  destruct p; try reflexivity. congruence.
Qed.
Lemma sum_structs : forall p q r, filter real l = p :: q :: r -> forallb is_struct (filter real l) = true ->
  exists st, runs l = [SStruct st].
Proof.
  intros p q r E S. rewrite runs_real. rewrite E in *. cbn [forallb] in S. apply andb_prop in S as [S1 S2]. destruct p; try discriminate S1.
  unfold runs. cbn [fold_left]. exact (runs_structs (q :: r) st S2).
Qed.
Lemma sum_many : forall p q r, filter real l = p :: q :: r -> forallb is_struct (filter real l) = false ->
  exists id subs, s = SCompound id subs /\ rel subs (runs l).
Proof.
  intros p q r E S. pose proof real_nn as N. rewrite E in *. assert (L : (2 <= List.length (runs l))%nat).
  { rewrite runs_real, E. unfold runs. inversion N; subst. cbn [fold_left push].
    assert (P : push [] p = [p]) by (destruct p; try reflexivity; congruence). change (fold_left push r (push (push [] p) q)) with (fold_left push (q :: r) (push [] p)).
    rewrite P. apply runs_many; [assumption|discriminate|exact S]. }
  assert (LN : List.length (parts s) = List.length (runs l)) by exact (rel_length _ _ RL). destruct s; cbn [parts List.length] in LN; try lia; try contradiction; try (now exfalso; lia).
  exists id, subs. auto.
Qed.
End Shapes.
Lemma steps_sum : forall a c, Adding.steps a c -> list_sum (map num_values a) = list_sum (map num_values c).
Proof.
  intros a c ST. induction ST as [l|a b c H ST IH]; [reflexivity|]. rewrite <- IH. clear - H. destruct H as [q r|q x y r]; rewrite !map_app, !list_sum_app; f_equal.
  cbn [map list_sum fold_right num_values]. rewrite glue_nvals. lia.
Qed.
Lemma made_sum : forall bo xs l, all2 (made bo) xs l -> list_sum (map num_values l) = list_sum (map vals xs).
Proof.
  intros bo. induction xs as [|x xs IH]; intros [|s l] M; try contradiction; [reflexivity|]. destruct M as [M1 M2].
  cbn [map list_sum fold_right]. rewrite (made_nv _ _ _ M1). f_equal. exact (IH l M2).
Qed.

(** ** what can be packed fits *)
Section Must.
Variable hb : bool.
Variable ct : nat -> option cdef.
Variable allow : nat -> nat -> bool.
Variable fit : nat -> option border -> list (string * value) -> bool.
Variable N : nat.
Hypothesis OB : forall n c ov d b, (S n <= N)%nat -> enc_obj_step ct (enc hb ct allow n) c ov d = Ok b -> fit c ov d = true.
Variable o : pobj.
Local Notation fits := (fitting allow fit o).
Definition must (x : hx) : Prop := forall n bo s vs ch, (n <= N)%nat -> made bo x s -> fout hb ct allow bo n o s vs ch -> fits bo x vs = true.

Lemma nothing_fits : forall bo x vs, nothing x = true -> fits bo x vs = true.
Proof.
  clear OB.
  intros bo x vs H. destruct x; try discriminate H; cbn [nothing fitting] in *; try (now rewrite H).
  destruct a; try discriminate H. cbn. now rewrite H.
Qed.
Lemma struct_fits : forall x bo st vs, made bo x (SStruct st) -> List.length vs = vals x -> fits bo x vs = true.
Proof.
  clear OB.
  induction x using hx_ind'; intros bo st vs M L; cbn [made] in M; try contradiction; try (destruct M as (? & Q & _); discriminate Q); cbn [fitting vals] in *.
  - now rewrite L.
  - rewrite L. apply Bool.orb_true_r.
  - destruct (n =? 0); [reflexivity|]. now rewrite L.
  - destruct a; cbn [char_made] in M; try (destruct M as [_ [? Q]]; discriminate Q); try (destruct M as [? Q]; discriminate Q).
    + cbn. destruct (z =? 0); [reflexivity|]. now rewrite L.
    + destruct b as [|? []]; try contradiction. destruct M as [? Q]; discriminate Q.
  - destruct M as (_ & i & _ & M). destruct (structy x && Nat.eqb (vals x) 1).
    + destruct M as (st' & _ & M). destruct n; [discriminate|]. destruct M; discriminate.
    + destruct M; discriminate.
  - destruct M as (? & ? & ? & ? & ? & Q & _). discriminate.
  - destruct M as (s1 & st' & E & M & FM & BO & NV & W & _). injection E as <-. apply (IHx bo st' vs M). rewrite L.
    rewrite <- (made_nv _ _ _ M). cbn [num_values]. unfold ss_nvals in *. now rewrite <- FM, NV.
  - destruct M as (? & ? & ? & Q & _). discriminate.
  - destruct M as (? & ? & ? & ? & Q & _). discriminate.
  - destruct M; discriminate.
  - destruct M; discriminate.
Qed.
Lemma char_must : forall a bo n s vs ch, char_made bo a s -> fout hb ct allow bo n o s vs ch -> char_fits bo a vs = true.
Proof.
  clear OB.
  intros a bo n s vs ch M F. destruct a; cbn [char_made] in M.
  - destruct M as [S [id ->]]. cbn [fout] in F. destruct F as (b & P & ->). unfold penc in P. cbn [resolve rbind] in P.
    destruct n as [|n]; [discriminate|]. cbn [enc enc_step] in P. destruct vs as [|raw r]; [discriminate|]. cbn [nth0 rbind] in P.
    destruct (py_len raw) as [k|] eqn:PL; [|discriminate]. cbn [rbind] in P.
    destruct (dynchar_st _ _) as [st|] eqn:D; [|discriminate]. cbn [rbind] in P.
    destruct (dynchar_writes hb bo c st _ _ _ _ S D ltac:(lia) P) as (-> & N1 & rb & -> & _ & _).
    injection PL as <-. cbn. destruct rb; [cbn in N1; lia|reflexivity].
  - pose proof M as M'. unfold counted in M. cbn [char_fits]. destruct (z =? 0) eqn:Z0; [reflexivity|].
    destruct M as (t & -> & _). cbn [fout] in F. destruct F as [L _].
    pose proof (made_nv (XChar (KInt z)) bo _ M') as NV. cbn [num_values vals] in NV. rewrite Z0 in NV. rewrite L, NV. reflexivity.
  - destruct b as [|t []]; try contradiction. destruct M as [id ->]. cbn [fout] in F. destruct F as (b & P & ->). unfold penc in P. cbn [resolve rbind] in P.
    destruct n as [|n]; [discriminate|]. cbn [enc enc_step] in P. destruct vs as [|raw r]; [discriminate|]. reflexivity.
  - destruct M as [id ->]. cbn [fout] in F. destruct F as (b & P & ->). unfold penc in P. cbn [resolve rbind] in P.
    destruct n as [|n]; [discriminate|]. cbn [enc enc_step] in P. destruct vs as [|raw r]; [discriminate|]. reflexivity.
  - destruct M as [id ->]. cbn [fout] in F. destruct F as (b & P & ->). unfold penc in P. cbn [resolve rbind] in P.
    destruct n as [|n]; [discriminate|]. cbn [enc enc_step] in P. destruct vs as [|raw r]; [discriminate|]. cbn [nth0 rbind] in P.
    destruct (py_len raw) as [k|] eqn:PL; [|discriminate]. cbn [rbind] in P. unfold net_st in P.
    assert (DONE : forall c st mark, size_code c = true -> dynchar_st (SS BO_DEFAULT [T None c] None) (Z.of_nat k) = Ok st ->
      est hb st [VInt mark; raw] = Ok b -> char_fits bo KNet (raw :: r) = true).
    { intros c st mark SC D E. destruct (dynchar_writes hb BO_DEFAULT c st _ _ _ _ SC D ltac:(lia) E) as (_ & N1 & rb & -> & _ & _).
      injection PL as <-. cbn. destruct rb; [cbn in N1; lia|reflexivity]. }
    destruct (Z.of_nat k <? 128).
    + destruct (dynchar_st _ _) as [st|] eqn:D; [|discriminate]. cbn [rbind] in P. eapply (DONE CB st); eauto.
    + destruct (32767 <? Z.of_nat k); [discriminate|]. destruct (dynchar_st _ _) as [st|] eqn:D; [|discriminate]. cbn [rbind] in P. eapply (DONE CH st); eauto.
Qed.
(** sums *)
Lemma each_fo : forall bo n xs l vs chs, (n <= N)%nat -> all2 (made bo) xs l -> Forall must xs ->
  fo hb ct allow bo n o l vs chs -> each (fits bo) xs vs = true.
Proof.
  clear OB.
  intros bo n xs. induction xs as [|x xs IH]; intros [|s l] vs chs LE M SH F; try contradiction; [reflexivity|].
  inversion F as [|? ? ? c cs F1 F2]; subst. destruct M as [M1 M2]. inversion SH as [|? ? S1 S2]; subst. cbn [each].
  rewrite <- (made_nv _ _ _ M1). rewrite (S1 n bo s _ c LE M1 F1). cbn [andb]. eapply IH; eauto.
Qed.
Lemma alone_must : forall bo n xs l p vs b, (n <= N)%nat -> all2 (made bo) xs l -> Forall must xs -> filter real l = [p] ->
  penc hb ct allow n p o vs = Ok b -> alone (fits bo) xs vs = true.
Proof.
  clear OB.
  intros bo n. induction xs as [|x xs IH]; intros [|s l] p vs b LE M SH E P; try contradiction; [reflexivity|].
  destruct M as [M1 M2]. inversion SH as [|? ? S1 S2]; subst. cbn [alone filter] in *. pose proof (nothing_real _ _ _ M1) as NR.
  destruct (nothing x) eqn:NX; rewrite <- NR in E; cbn [negb] in E.
  - eapply IH; eauto.
  - injection E as -> E. destruct (made_field _ _ _ M1) as (SB & _). destruct (penc_fout hb ct allow bo n o p vs b SB P) as (ch & F & _).
    exact (S1 n bo p vs ch LE M1 F).
Qed.
Lemma same_penc : forall n a b vs, same_ser a b -> penc hb ct allow n a o vs = penc hb ct allow n b o vs.
Proof.
  clear OB.
  intros n a b vs S. unfold penc. pose proof (same_resolve true a b o S) as R.
  destruct (resolve true a o), (resolve true b o); try contradiction; cbn [rbind]; [now apply same_enc|congruence].
Qed.
Lemma compound_penc : forall n id subs l vs b, rel subs l -> penc hb ct allow n (SCompound id subs) o vs = Ok b ->
  exists k, n = S k /\ enc_subs (enc hb ct allow k) (Some o) o l vs = Ok b.
Proof.
  clear OB.
  intros n id subs l vs b R P. unfold penc in P. cbn [resolve rbind] in P. destruct n as [|n]; [destruct (existsb _ _); discriminate P|].
  exists n. split; [reflexivity|]. rewrite <- (rel_enc hb ct allow n (Some o) o _ _ vs R).
  destruct (existsb needs_pre subs) eqn:NP; cbn [enc enc_step] in P; [exact P|]. now rewrite <- enc_subs_none.
Qed.
Lemma sum_must : forall bo n xs l s vs b, (n <= N)%nat -> all2 (made bo) xs l -> Forall must xs ->
  flat s -> rel (parts s) (runs l) -> Forall atom (runs l) -> big s -> penc hb ct allow n s o vs = Ok b ->
  sum_fits (fits bo) xs vs = true.
Proof.
  clear OB.
  intros bo n xs l s vs b LE M SH F RL AT B P. unfold sum_fits.
  assert (FO : Forall (field_ok bo) l) by (eapply all2_field; eauto).
  assert (SB : Forall (sbo bo) l) by (eapply Forall_impl; [|exact FO]; intros ? (A & _); exact A).
  assert (CO : Forall cond_ok l) by (eapply Forall_impl; [|exact FO]; intros ? (_ & A & _); exact A).
  pose proof (filter_made bo xs l M) as FM. destruct (filter (fun x => negb (nothing x)) xs) as [|y1 [|y2 ys]] eqn:FX.
  - reflexivity.
  - destruct (filter real l) as [|p [|]] eqn:FL; try contradiction; [|destruct FM as [_ []]].
    destruct (sum_one l s F RL B p (runs_one l p FL)) as [SS _]. rewrite (same_penc n s p vs SS) in P. eapply alone_must; eauto.
  - destruct (filter real l) as [|p1 [|p2 ps]] eqn:FL; try contradiction; [destruct FM as [_ []]|].
    rewrite (structs_made bo xs l M), filter_structs.
    assert (ENC : forall k, (k <= N)%nat -> enc_subs (enc hb ct allow k) (Some o) o (runs l) vs = Ok b -> each (fits bo) xs vs = true).
    { intros k LK E. destruct (sum_fo hb ct allow bo k o l vs b SB CO AT E) as (chs & G & _). eapply each_fo; eauto. }
    destruct (forallb is_struct (filter real l)) eqn:ST.
    + destruct (sum_structs l p1 p2 ps FL ST) as [st R]. destruct (sum_one l s F RL B _ R) as [SS _].
      rewrite (same_penc n s _ vs SS) in P. unfold penc in P. cbn [resolve rbind] in P. destruct n as [|n]; [discriminate|]. cbn [enc enc_step] in P.
      assert (LN : List.length vs = ss_nvals st) by (unfold est in P; apply st_pack_inv in P as [P' _]; exact P').
      pose proof (steps_sum _ _ (runs_steps l)) as TS. rewrite R, (made_sum bo xs l M) in TS. cbn [map list_sum fold_right num_values] in TS.
      rewrite (ENC (S n)); [|exact LE|].
      * cbn. rewrite LN, TS. apply Nat.eqb_eq. lia.
      * rewrite R. cbn [enc_subs oresolve resolve rbind octx num_values enc enc_step]. rewrite <- LN, firstn_all, P. cbn. now rewrite app_nil_r.
    + cbn [negb orb]. rewrite Bool.andb_true_r.
      destruct (sum_many l s F RL B p1 p2 ps FL) as (id & subs & -> & RS); [rewrite FL in *; exact ST|].
      destruct (compound_penc n id subs (runs l) vs b RS P) as (k & -> & E). apply (ENC k); [lia|exact E].
Qed.
(** hint expressions *)
Lemma class_must : forall n id c vs bo ch, (n <= N)%nat -> fout hb ct allow bo n o (SStructd id c) vs ch -> class_fits allow fit c vs = true.
Proof.
  intros n id c vs bo ch LE F. cbn [fout] in F. destruct F as (b & P & ->). unfold penc in P. cbn [resolve rbind] in P.
  destruct n as [|n]; [discriminate|]. cbn [enc enc_step] in P. destruct vs as [|v [|]]; try discriminate. cbn [one rbind] in P.
  destruct v; try discriminate. cbn [class_fits]. destruct (allow c c0); [|discriminate]. cbn [andb]. exact (OB n c0 ov attrs b LE P).
Qed.
Lemma structy_decided : forall y, structy y = true -> decided o y = true.
Proof.
  clear OB. intros y S. destruct y; try reflexivity. discriminate S. Qed.
Lemma resolve_decided : forall y bo i i', made bo y i -> resolve true i o = Ok i' -> decided o y = true.
Proof.
  clear OB.
  intros y bo i i' M R. destruct y; try reflexivity. cbn [made] in M. destruct M as (j & -> & _). cbn [resolve] in R. cbn [decided].
  destruct (f o) as [r|]; [|discriminate]. cbn [rbind] in R. unfold cond_branch in R. destruct (key_eqb r (VBool true)); [reflexivity|].
  destruct (key_eqb r (VBool false)); [reflexivity|]. destruct (hashable r); discriminate.
Qed.
Lemma items_must : forall bo n x i, (n <= N)%nat -> made bo x i -> must x -> forall items bs i',
  resolve true i o = Ok i' -> enc_items (enc hb ct allow n) i' o items = Ok bs -> forallb (fun v => fits bo x [v]) items = true.
Proof.
  clear OB.
  intros bo n x i LE M SH items. induction items as [|v items IH]; intros bs i' RS E; [reflexivity|].
  cbn [enc_items] in E. destruct (enc hb ct allow n i' o [v]) as [b|] eqn:E1; [|discriminate]. cbn [rbind] in E.
  destruct (enc_items _ i' o items) as [b'|] eqn:E2; [|discriminate]. cbn [forallb]. rewrite (IH b' i' RS E2), Bool.andb_true_r.
  assert (P : penc hb ct allow n i o [v] = Ok b) by (unfold penc; now rewrite RS).
  destruct (made_field _ _ _ M) as (SB & _). destruct (penc_fout hb ct allow bo n o i [v] b SB P) as (ch & F & L).
  exact (SH n bo i [v] ch LE M F).
Qed.
Lemma array_must : forall n sz x, must x -> must (XArray n sz x).
Proof.
  clear OB.
  intros n sz x SH k bo s vs ch LE M F. cbn [made] in *. destruct M as (HO & i & MI & M). cbn [fitting].
  destruct (structy x && Nat.eqb (vals x) 1) eqn:PK.
  - apply andb_prop in PK as [SY VX]. apply Nat.eqb_eq in VX. destruct M as (st & -> & M). rewrite (structy_decided x SY). cbn [andb].
    assert (ALL : forall items, forallb (fun v => fits bo x [v]) items = true).
    { intros items. apply forallb_forall. intros v _. apply (struct_fits x bo st [v] MI). now rewrite VX. }
    destruct n as [z|c].
    + subst s. cbn [fout] in F. destruct F as (b & P & ->). unfold penc in P. cbn [resolve rbind] in P. destruct k as [|k]; [discriminate|].
      cbn [enc enc_step] in P. destruct vs as [|v r]; [discriminate|]. cbn [nth0 rbind] in *.
      destruct (py_iter v) as [items|] eqn:IT; [apply ALL|destruct (py_len v); [cbn in P; destruct (negb _); discriminate P|discriminate P]].
    + destruct M as [id ->]. cbn [fout] in F. destruct F as (b & P & ->). unfold penc in P. cbn [resolve rbind] in P. destruct k as [|k]; [discriminate|].
      cbn [enc enc_step] in P. destruct vs as [|v r]; [discriminate|]. cbn [nth0 rbind] in *.
      destruct (py_len v) as [l|] eqn:PL; [|discriminate]. cbn [rbind] in P. destruct (dynarr_st _ _ _) as [st'|] eqn:D; [|discriminate]. cbn [rbind] in P.
      destruct (py_iter v) as [items|] eqn:IT; [|discriminate]. apply ALL.
  - destruct M as [id ->]. cbn [fout] in F. destruct F as (b & P & ->). unfold penc in P. cbn [resolve rbind] in P. destruct k as [|k]; [discriminate|].
    cbn [enc enc_step] in P. destruct (resolve true i o) as [i'|] eqn:RS; [|discriminate]. cbn [rbind] in P.
    destruct vs as [|v r]; [discriminate|]. cbn [nth0 rbind] in *. destruct (py_iter v) as [items|] eqn:IT; [|discriminate]. cbn [rbind] in P.
    destruct (enc_items _ i' o items) as [bs|] eqn:EI; [|discriminate].
    rewrite (resolve_decided _ _ _ _ MI RS). cbn [andb]. eapply (items_must bo k x i); eauto. lia.
Qed.
Lemma tuple_sum : forall fin id l sers i, all2 (made BO_DEFAULT) l sers -> ssum fin id sers = Ok i ->
  flat i /\ rel (parts i) (runs sers) /\ Forall atom (runs sers) /\ big i.
Proof.
  clear OB.
  intros fin id l sers i A2 SM. assert (FO : Forall (field_ok BO_DEFAULT) sers) by (eapply all2_field; eauto).
  assert (NC : Forall (fun s => is_compound s = false) sers) by (eapply Forall_impl; [|exact FO]; intros ? (_ & _ & Q & _); exact Q).
  destruct (ssum_rel fin id sers i) as (FL & RL & AT & _); auto.
  { apply forallb_forall. rewrite Forall_forall in FO. intros y I. destruct (FO y I) as (_ & _ & _ & Q & _). exact Q. }
  { eapply fields_lossless; eauto. }
  split; [exact FL|]. split; [exact RL|]. split; [exact AT|]. eapply ssum_big; eauto.
Qed.
Lemma tuple_must : forall l, Forall must l -> must (XTuple l).
Proof.
  clear OB.
  intros l SH n bo s vs ch LE M F. cbn [made] in *. destruct M as (fin & id & id' & sers & i & -> & SM & A2).
  cbn [fout] in F. destruct F as (b & P & ->). unfold penc in P. cbn [resolve rbind] in P. destruct n as [|n]; [discriminate|].
  cbn [enc enc_step] in P. destruct vs as [|v [|]]; try discriminate. cbn [one rbind] in *.
  destruct (resolve true i o) as [i'|] eqn:RS; [|discriminate]. cbn [rbind] in P. cbn [fitting].
  destruct (py_iter v) as [items|]; [|discriminate]. cbn [rbind] in P.
  assert (P' : penc hb ct allow n i o items = Ok b) by (unfold penc; now rewrite RS).
  destruct (tuple_sum fin id' l sers i A2 SM) as (FL & RL & AT & B). apply (sum_must BO_DEFAULT n l sers i items b); auto; lia.
Qed.
Lemma enc_direct : forall y bo i n vs b, made bo y i -> enc hb ct allow n i o vs = Ok b -> direct y = true.
Proof.
  clear OB.
  intros y bo i n vs b M E. destruct y; try reflexivity; cbn [made] in M.
  - destruct M as (j & -> & _). destruct n; discriminate E.
  - destruct M as (j & ->). destruct n; discriminate E.
Qed.
Lemma cond_must : forall x f d, must x -> must (XCond x f d).
Proof.
  clear OB.
  intros x f d SH n bo s vs ch LE M F. cbn [made] in *. destruct M as (i & -> & M & LD).
  cbn [fout] in F. destruct F as (b & P & ->). unfold penc in P. cbn [resolve] in P. cbn [fitting].
  destruct (f o) as [r|]; [|discriminate]. cbn [rbind] in P. unfold cond_branch in P.
  destruct (key_eqb r (VBool true)); [|reflexivity]. cbn [rbind] in P. rewrite (enc_direct _ _ _ _ _ _ M P). cbn [andb].
  destruct (made_field _ _ _ M) as (SB & _ & NC & _). apply (enc_penc hb ct allow o n i vs b NC) in P.
  destruct (penc_fout hb ct allow bo n o i vs b SB P) as (ch & F & L). exact (SH n bo i vs ch LE M F).
Qed.
Lemma chosen_must : forall k m d ms ds s0 n vs b,
  all2 (fun p q => fst p = fst q /\ made BO_DEFAULT (snd p) (snd q)) m ms ->
  match d, ds with None, None => True | Some y, Some t => made BO_DEFAULT y t | _, _ => False end ->
  Forall (fun p => must (snd p)) m -> (forall y, d = Some y -> must y) ->
  choose ms ds k = Ok s0 -> (n <= N)%nat -> penc hb ct allow n s0 o vs = Ok b ->
  chosen (fun y => fits BO_DEFAULT y vs) d k m = true.
Proof.
  clear OB.
  intros k m d ms ds s0 n vs b A2 DD SM SD C LE P. unfold choose in C. destruct (hashable k); [|discriminate].
  assert (DONE : forall y s, made BO_DEFAULT y s -> must y -> penc hb ct allow n s o vs = Ok b -> fits BO_DEFAULT y vs = true).
  { intros y s M SH Q. destruct (made_field _ _ _ M) as (SB & _). destruct (penc_fout hb ct allow BO_DEFAULT n o s vs b SB Q) as (ch & F & L).
    exact (SH n BO_DEFAULT s vs ch LE M F). }
  revert ms A2 C. induction m as [|[k' y] m IH]; intros [|[k2 t] ms] A2 C; try contradiction; cbn [chosen map_find] in *.
  - destruct ds as [t|]; [|discriminate]. injection C as ->. destruct d as [y|]; [|contradiction]. eapply DONE; eauto.
  - destruct A2 as [[E M] A2]. cbn [fst snd] in *. subst k2. inversion SM; subst. cbn [snd] in *.
    destruct (key_eqb k k'); [injection C as ->; eapply DONE; eauto|]. eapply IH; eauto.
Qed.
Theorem expr_must : forall x, must x.
Proof.
  assert (ST : forall x n bo st vs ch, made bo x (SStruct st) -> fout hb ct allow bo n o (SStruct st) vs ch -> fits bo x vs = true).
  { intros x n bo st vs ch M F. cbn [fout] in F. apply (struct_fits x bo st vs M). rewrite <- (made_nv _ _ _ M). apply F. }
  induction x using hx_ind'.
  - intros n bo s vs ch LE M F. pose proof M as M'. cbn [made] in M. destruct M as [_ ->]. eapply ST; eauto.
  - intros k bo s vs ch LE M F. pose proof M as M'. cbn [made] in M. unfold counted in M. destruct (n =? 0) eqn:Z0; [now apply nothing_fits|].
    destruct M as (t & -> & _). eapply ST; eauto.
  - intros k bo s vs ch LE M F. pose proof M as M'. cbn [made] in M. unfold counted in M. destruct (n =? 0) eqn:Z0; [now apply nothing_fits|].
    destruct M as (t & -> & _). eapply ST; eauto.
  - intros n bo s vs ch LE M F. cbn [made] in M. cbn [fitting]. eapply char_must; eauto.
  - intros n bo s vs ch LE M F. cbn [made] in M. destruct M as (i & -> & M). cbn [fout] in F. destruct F as (b & P & ->).
    unfold penc in P. cbn [resolve rbind] in P. destruct n as [|n]; [discriminate|]. cbn [enc enc_step] in P.
    destruct vs as [|v r]; [discriminate|]. cbn [nth0 rbind] in P. destruct v; try discriminate. cbn [fitting].
    destruct (cod_enc _ _) as [y|]; [|discriminate]. cbn [rbind] in P.
    destruct (made_field (XChar a) BO_DEFAULT i M) as (SB & _ & NC & _).
    apply (enc_penc hb ct allow o n i [VBytes y] b NC) in P. destruct (penc_fout hb ct allow BO_DEFAULT n o i _ b SB P) as (ch & F & L).
    eapply char_must; eauto.
  - now apply array_must.
  - now apply tuple_must.
  - now apply cond_must.
  - intros n bo s vs ch LE M F. pose proof M as M'. cbn [made] in M. destruct M as (st & st' & -> & _). eapply ST; eauto.
  - intros n bo s vs ch LE M F. cbn [made] in *. destruct M as (i & ms & ds & -> & A2 & DD).
    cbn [fout] in F. destruct F as (b & P & ->). unfold penc in P. cbn [resolve rbind] in P. destruct n as [|n]; [discriminate|].
    cbn [enc enc_step] in P. cbn [fitting]. destruct (f o) as [r|]; [|discriminate]. cbn [rbind] in P.
    destruct (choose ms ds r) as [s0|] eqn:C; [|discriminate]. cbn [rbind] in P.
    change (penc hb ct allow n s0 o vs = Ok b) in P. apply (chosen_must r m d ms ds s0 n vs b); auto; lia.
  - intros n bo s vs ch LE M F. cbn [made] in *. destruct M as (i & ra' & ms & ds & -> & _ & A2 & DD).
    cbn [fout] in F. destruct F as (b & P & ->). unfold penc in P. cbn [resolve rbind] in P. destruct n as [|n]; [discriminate|].
    cbn [enc enc_step] in P. cbn [fitting]. destruct (f o) as [r|]; [|discriminate]. cbn [rbind] in P.
    destruct (choose ms ds r) as [s0|] eqn:C; [|discriminate]. cbn [rbind] in P.
    change (penc hb ct allow n s0 o vs = Ok b) in P. apply (chosen_must r m d ms ds s0 n vs b); auto; lia.
  - intros n bo s vs ch LE M F. cbn [made] in M. destruct M as [id ->]. exact (class_must n id c vs bo ch LE F).
  - intros n bo s vs ch LE M F. cbn [made] in M. destruct M as [id ->]. apply (class_must n id (p_cls o) vs bo ch LE). exact F.
  - intros n bo s vs ch LE M. contradiction.
  - intros n bo s vs ch LE M. contradiction.
Qed.
End Must.
Lemma get_values : forall l d,
  forallb (fun p => regular (snd p) && (padding (snd p) || takes (snd p)) && negb (String.eqb (fst p) "self")) l = true ->
  forall vs, get_attrs (filter (fun a => negb (String.eqb a "self")) (map fst (filter (fun p => negb (padding (snd p))) l))) d = Ok vs
    <-> field_values l d = Some vs.
Proof.
  intros l d. unfold get_attrs, field_values. induction l as [|[a x] l IH]; intros R vs; [cbn; split; congruence|].
  cbn [forallb fst snd] in R. apply andb_prop in R as [R1 R2]. apply andb_prop in R1 as [R1 R4]. apply andb_prop in R1 as [_ R3].
  specialize (IH R2). cbn [filter map fst snd] in *. destruct (padding x) eqn:PX.
  - assert (TK : takes x = false) by (destruct x; try discriminate PX; reflexivity). cbn [negb]. rewrite TK. apply IH.
  - cbn [orb] in R3. rewrite R3. cbn [negb map filter fst]. rewrite R4. cbn [rmapM omap fst].
    destruct (assoc a d) as [v|]; [|split; discriminate]. cbn [rbind].
    destruct (rmapM _ _) as [vs'|]; destruct (omap _ _) as [ws|]; cbn [rbind]; specialize (IH) ; split; intros Q; try discriminate;
      try (injection Q as <-); try (now rewrite (proj1 (IH _) eq_refl)); try (now rewrite (proj2 (IH _) eq_refl)).
    + pose proof (proj1 (IH _) eq_refl). congruence.
    + pose proof (proj1 (IH _) eq_refl). congruence.
    + pose proof (proj1 (IH _) eq_refl). congruence.
    + pose proof (proj2 (IH _) eq_refl). congruence.
Qed.
(** a class and the sum of its fields *)
Section Class.
Variables (sl : list sclass) (l : list cinfo).
Hypothesis CR : classes_rel sl l.
Hypothesis RG : forallb regular_class sl = true.
Let ct := classes l.
Lemma class_sum : forall c sc, nth_error sl c = Some sc -> exists i sers, nth_error l c = Some i /\
  forall ov, let bo := match ov with Some bo => bo | None => sc_bo sc end in let s := obj_ser (ci_def i) ov in
    ct c = Some (ci_def i) /\ c_attrs (ci_def i) = sc_attrs sc /\
    all2 (made bo) (map snd (fields_of (sc_anns sc))) (map (with_bo bo) sers) /\
    flat s /\ rel (parts s) (runs (map (with_bo bo) sers)) /\ Forall atom (runs (map (with_bo bo) sers)) /\ big s.
Proof.
  intros c sc NS. destruct CR as [LEN R].
  destruct (nth_error l c) as [i|] eqn:NI.
  2:{ apply nth_error_None in NI. assert (c < List.length sl)%nat by (apply nth_error_Some; congruence). lia. }
  destruct (R c sc i NS NI) as (_ & BO & _ & AT & fin & id & sers & s & SM & CS & A2). exists i, sers. split; [reflexivity|].
  intros ov bo so. assert (OS : so = with_bo bo s) by (unfold so, obj_ser, bo; rewrite CS; destruct ov; [apply with_bo_twice|reflexivity]).
  destruct (tuple_sum fin id _ sers s A2 SM) as (FL & RL & ATM & B). rewrite OS.
  split; [unfold ct, classes; now rewrite NI|]. split; [exact AT|]. split; [apply (all2_bo BO_DEFAULT bo _ _ A2)|].
  split; [now apply flat_bo|]. split; [rewrite (parts_bo bo s FL), runs_bo; now apply rel_bo|]. split; [|now apply big_bo].
  rewrite runs_bo. apply Forall_forall. intros y I. apply in_map_iff in I as (z & <- & I). apply atom_bo. rewrite Forall_forall in ATM. auto.
Qed.
Lemma class_values : forall c sc d, nth_error sl c = Some sc -> forall vs,
  get_attrs (sc_attrs sc) d = Ok vs <-> field_values (fields_of (sc_anns sc)) d = Some vs.
Proof.
  intros c sc d NS vs. assert (RC : regular_class sc = true) by (rewrite forallb_forall in RG; apply RG; eapply nth_error_In; eauto).
  rewrite <- (get_values _ d RC vs). unfold sc_attrs, fields_of. 
  assert (E : filter (fun p => serial (snd p) && negb (padding (snd p))) (sc_anns sc) =
              filter (fun p => negb (padding (snd p))) (filter (fun p => serial (snd p)) (sc_anns sc))).
  { clear. induction (sc_anns sc) as [|p a IH]; [reflexivity|]. cbn [filter].
    destruct (serial (snd p)); cbn [filter andb]; [|exact IH]. destruct (negb (padding (snd p))); [now rewrite IH|exact IH]. }
  now rewrite E.
Qed.
Variable hb : bool.
Variable allow : nat -> nat -> bool.
Lemma obj_must : forall N, (forall o x, must hb ct allow (packable allow sl N) N o x) ->
  forall n c ov d b, (n <= N)%nat -> enc_obj_step ct (enc hb ct allow n) c ov d = Ok b -> packable allow sl (S N) c ov d = true.
Proof.
  intros N SH n c ov d b LE E. cbn [packable]. unfold enc_obj_step in E.
  destruct (ct c) as [cd|] eqn:CT; [|discriminate].
  destruct (nth_error sl c) as [sc|] eqn:NS.
  2:{ apply nth_error_None in NS. destruct CR as [LEN _]. unfold ct, classes in CT. destruct (nth_error l c) eqn:NI; [|discriminate].
      assert (c < List.length l)%nat by (apply nth_error_Some; congruence). lia. }
  destruct (class_sum c sc NS) as (i & sers & NI & H). specialize (H ov). cbv zeta in H. destruct H as (CT' & AT & A2 & FL & RL & ATM & B).
  assert (cd = ci_def i) as -> by congruence.
  destruct (resolve true _ _) as [s'|] eqn:RS; [|discriminate]. cbn [rbind] in E.
  rewrite AT in E. destruct (get_attrs (sc_attrs sc) d) as [vs|] eqn:GA; [|discriminate]. cbn [rbind] in E.
  apply (class_values c sc d NS) in GA. rewrite GA.
  assert (P : penc hb ct allow n (obj_ser (ci_def i) ov) (PO c false d) vs = Ok b) by (unfold penc; now rewrite RS).
  eapply (sum_must hb ct allow (packable allow sl N) N (PO c false d) _ n); eauto. apply Forall_forall. intros x _. apply SH.
Qed.
Theorem all_must : forall N o x, must hb ct allow (packable allow sl N) N o x.
Proof.
  induction N as [|N IH]; intros o x; apply expr_must.
  - intros. lia.
  - intros n c ov d b LE E. apply (obj_must N IH n c ov d b); [lia|exact E].
Qed.
Theorem packed_fits : forall n c ov d b, enc_obj hb ct allow n (VObj c ov d) = Ok b -> packable allow sl (S n) c ov d = true.
Proof. intros n c ov d b E. eapply (obj_must n (all_must n)); [apply le_n|exact E]. Qed.
End Class.
