(** Programs of class statements: which of them make classes that can be packed and read back. *)
From Verif Require Import Base Floats Value StructMod Format Ser Exec Pure BaseFacts StructFacts FormatFacts
  SerFacts RefPack RefUnpack User DecFacts RoundTrip RoundTripMain Adding PropsAdd PropsFinal Hints HintFacts
  Surface SerShape.

(** ** induction on hint expressions *)
Section HxInd.
Variable P : hx -> Prop.
Hypothesis Hbasic : forall c, P (XBasic c).
Hypothesis Hpad : forall n, P (XPad n).
Hypothesis Hpascal : forall n, P (XPascal n).
Hypothesis Hchar : forall a, P (XChar a).
Hypothesis Hunicode : forall a cd, P (XUnicode a cd).
Hypothesis Harray : forall n s x, P x -> P (XArray n s x).
Hypothesis Htuple : forall l, Forall P l -> P (XTuple l).
Hypothesis Hcond : forall x f d, P x -> P (XCond x f d).
Hypothesis Has : forall a x, P x -> P (XAs a x).
Hypothesis Hback : forall id l f m d, Forall P l -> Forall (fun p => P (snd p)) m -> (forall x, d = Some x -> P x) ->
  P (XBack id l f m d).
Hypothesis Hahead : forall id l ra f m d, Forall P l -> P ra -> Forall (fun p => P (snd p)) m ->
  (forall x, d = Some x -> P x) -> P (XAhead id l ra f m d).
Hypothesis Hclass : forall c, P (XClass c).
Hypothesis Hself : P XSelf.
Hypothesis Hcv : forall x, P x -> P (XClassVar x).
Hypothesis Hplain : forall t, P (XPlain t).
Fixpoint hx_ind' (x : hx) : P x :=
  let fix go l : Forall P l := match l with [] => Forall_nil _ | y :: l' => Forall_cons y (hx_ind' y) (go l') end in
  let fix gom (m : list (value * hx)) : Forall (fun p => P (snd p)) m :=
    match m with [] => Forall_nil _ | (v, y) :: m' => Forall_cons (v, y) (hx_ind' y) (gom m') end in
  let god (d : option hx) : forall x, d = Some x -> P x :=
    match d with
    | None => fun x E => match E with eq_refl => I end
    | Some y => fun x E => match E in _ = o return match o with Some z => P z | None => True end with eq_refl => hx_ind' y end
    end in
  match x with
  | XBasic c => Hbasic c | XPad n => Hpad n | XPascal n => Hpascal n | XChar a => Hchar a
  | XUnicode a cd => Hunicode a cd | XArray n s y => Harray n s y (hx_ind' y) | XTuple l => Htuple l (go l)
  | XCond y f d => Hcond y f d (hx_ind' y) | XAs a y => Has a y (hx_ind' y)
  | XBack id l f m d => Hback id l f m d (go l) (gom m) (god d)
  | XAhead id l ra f m d => Hahead id l ra f m d (go l) (hx_ind' ra) (gom m) (god d)
  | XClass c => Hclass c | XSelf => Hself | XClassVar y => Hcv y (hx_ind' y) | XPlain t => Hplain t
  end.
End HxInd.

(** ** the fragment, on hint expressions *)
(** becomes (part of) a struct format *)
Fixpoint structy (x : hx) : bool :=
  match x with XBasic _ | XPad _ | XPascal _ | XChar (KInt _) => true | XAs _ y => structy y | _ => false end.
(** native size and alignment of the items of an array of a basic type *)
Fixpoint width (x : hx) : nat :=
  match x with
  | XBasic c => match c with Ch | CH | Ce => 2 | Ci | CI | Cf => 4 | Cq | CQ | Cd => 8 | _ => 1 end
  | XAs _ y => width y
  | _ => 1
  end%nat.
Fixpoint has_self (x : hx) : bool :=
  match x with
  | XSelf => true
  | XArray _ _ y | XCond y _ _ | XAs _ y => has_self y
  | XTuple l => existsb has_self l
  | XBack _ _ _ m d => existsb (fun p => has_self (snd p)) m || match d with Some y => has_self y | None => false end
  | XAhead _ _ ra _ m d =>
      has_self ra || existsb (fun p => has_self (snd p)) m || match d with Some y => has_self y | None => false end
  | _ => false
  end.
(** keeps the object it was prepared with *)
Definition keeps (x : hx) : bool :=
  match x with XArray _ _ _ | XTuple _ | XBack _ _ _ _ _ | XAhead _ _ _ _ _ _ => true | _ => false end.

Section Frag.
Variable md : umode.
Variable fin : nat -> bool.
(** reads to the end of the input *)
Fixpoint xfinal (x : hx) : bool :=
  match x with
  | XChar KInf | XUnicode KInf _ => true
  | XTuple l => existsb xfinal l
  | XCond y _ _ => xfinal y
  | XBack _ _ _ m _ | XAhead _ _ _ _ m _ => existsb (fun p => xfinal (snd p)) m
  | XClass d => fin d
  | _ => false
  end.
Definition carg_ok (a : carg) : bool := match md, a with UFrom, KBytes _ => false | _, _ => true end.
(** Left out, because the library does not handle them (see the refutations of C12-C32):
    terminated strings with [unpack_from]; dynamic arrays of basic types whose items are more strictly aligned
    than the count; [Self] inside an array, tuple or union that is an array item; tuples of several members
    that are not all basic types; conditions on arrays, tuples, unions, [Self]; read-ahead values that are not
    basic types; a default of a union that reads to the end. *)
Fixpoint frag (x : hx) : bool :=
  match x with
  | XChar a | XUnicode a _ => carg_ok a
  | XArray n _ y =>
      frag y && match n with inr c => negb (structy y) || Nat.leb (width y) (width (XBasic c)) | inl _ => true end
      && (negb (keeps y) || negb (has_self y))
  | XTuple l => forallb structy l || match l with
                                     | [y] => frag y && match y with XCond _ _ _ | XSelf => false | _ => true end
                                     | _ => false
                                     end
  | XAs _ y => frag y
  | XCond y _ _ => frag y && negb (keeps y) && match y with XCond _ _ _ | XSelf => false | _ => true end
  | XBack _ _ _ m d =>
      forallb (fun p => frag (snd p)) m && match d with Some y => frag y && negb (xfinal y) | None => true end
  | XAhead _ _ ra _ m d =>
      structy ra
      && forallb (fun p => frag (snd p)) m && match d with Some y => frag y && negb (xfinal y) | None => true end
  | _ => true
  end.
End Frag.

(** ** sums depend on [fin] only at the classes mentioned *)
Lemma final_ext : forall (f g : nat -> bool) k, (forall d, (d < k)%nat -> f d = g d) ->
  forall s, sall (refs k) s = true -> is_final f s = is_final g s.
Proof.
  intros f g k FG. induction s using ser_ind'; cbn [sall]; intros E; apply andb_prop in E as [E0 E]; cbn [is_final]; auto.
  - apply andb_prop in E as [E _]. rewrite forallb_forall in E. rewrite Forall_forall in H.
    clear E0. induction m as [|p m IH]; [reflexivity|]. cbn [existsb]. rewrite (H p (or_introl eq_refl) (E p (or_introl eq_refl))).
    f_equal. apply IH; [intros x I; apply H; now right|intros x I; apply E; now right].
  - apply andb_prop in E as [E _]. apply andb_prop in E as [_ E]. rewrite forallb_forall in E. rewrite Forall_forall in H.
    clear E0. induction m as [|p m IH]; [reflexivity|]. cbn [existsb]. rewrite (H p (or_introl eq_refl) (E p (or_introl eq_refl))).
    f_equal. apply IH; [intros x I; apply H; now right|intros x I; apply E; now right].
  - cbn in E0. apply Nat.ltb_lt in E0. auto.
  - clear E0. induction l as [|x l IH]; [reflexivity|]. cbn in E. apply andb_prop in E as [E1 E2]. inversion H; subst.
    destruct l; [auto|]. exact (IH H3 E2).
  - clear E0. induction l as [|x l IH]; [reflexivity|]. cbn in E. apply andb_prop in E as [E1 E2]. inversion H; subst.
    destruct l; [auto|]. exact (IH H3 E2).
Qed.
Lemma add2_ext : forall (f g : nat -> bool) id a b, is_final f a = is_final g a -> add2 f id a b = add2 g id a b.
Proof. intros f g id a b H. destruct a, b; cbn [add2]; rewrite ?H; reflexivity. Qed.
Section Ext.
Variables (f g : nat -> bool) (k : nat).
Hypothesis FG : forall d, (d < k)%nat -> f d = g d.
Lemma add_impl_ext : forall id cands last before, sall (refs k) last = true -> forallb (sall (refs k)) cands = true ->
  add_impl f id last before cands = add_impl g id last before cands.
Proof.
  induction cands as [|y cands IH]; intros last before L C; [reflexivity|]. cbn in C. apply andb_prop in C as [C1 C2].
  cbn [add_impl]. rewrite (add2_ext f g) by now apply (final_ext f g k FG).
  destruct (add2 g id last y) as [j|] eqn:Q; [|reflexivity]. cbn [rbind].
  destruct (is_compound j) eqn:CJ; [apply IH; assumption|]. apply IH; [|assumption].
  apply add2_cases in Q as [->|[->|[[st ->]| ->]]]; auto; discriminate.
Qed.
Lemma sadd_ext : forall id a b, sall (refs k) a = true -> sall (refs k) b = true -> sadd f id a b = sadd g id a b.
Proof.
  intros id a b A B.
  assert (BS : forallb (sall (refs k)) (match b with SCompound _ bs | SSpec _ bs _ => bs | _ => [b] end) = true).
  { destruct b; try (cbn [forallb]; rewrite B; reflexivity); cbn in B; exact B. }
  assert (COMP : forall subs, forallb (sall (refs k)) subs = true ->
    match rev subs with [] => Err IndexError | l :: bf => add_impl f id l bf (match b with SCompound _ bs | SSpec _ bs _ => bs | _ => [b] end) end
    = match rev subs with [] => Err IndexError | l :: bf => add_impl g id l bf (match b with SCompound _ bs | SSpec _ bs _ => bs | _ => [b] end) end).
  { intros subs S. destruct (rev subs) as [|y bf] eqn:R; [reflexivity|]. apply add_impl_ext; [|exact BS].
    rewrite forallb_forall in S. apply S. rewrite in_rev, R. now left. }
  pose proof (final_ext f g k FG a A) as FA.
  assert (AI : forall bs, forallb (sall (refs k)) bs = true ->
     (if is_final f a then Err TypeError else add_impl f id a [] bs) = (if is_final g a then Err TypeError else add_impl g id a [] bs)).
  { intros bs S. rewrite FA. destruct (is_final g a); [reflexivity|]. now apply add_impl_ext. }
  destruct a; try reflexivity; try (cbn in A; apply (COMP _ A));
    destruct b; try (apply AI; exact BS); apply add2_ext; exact FA.
Qed.
End Ext.
Lemma ssum_from_app : forall f id l x acc, ssum_from f id acc (l ++ [x]) = (rdo a <- ssum_from f id acc l; sadd f id a x).
Proof.
  induction l as [|y l IH]; intros x acc; cbn [app ssum_from rbind].
  - destruct (sadd f id acc x); reflexivity.
  - destruct (sadd f id acc y); [|reflexivity]. cbn [rbind]. apply IH.
Qed.
Lemma ssum_ext : forall f g k id l, (forall d, (d < k)%nat -> f d = g d) -> forallb (sall (refs k)) l = true ->
  Forall (fun x => is_compound x = false) l -> ssum f id l = ssum g id l.
Proof.
  intros f g k id l FG. induction l as [|x l IH] using rev_ind; intros R C; [reflexivity|].
  rewrite forallb_app in R. apply andb_prop in R as [R1 R2]. apply Forall_app in C as [C1 C2].
  unfold ssum in *. rewrite !ssum_from_app, IH by assumption. destruct (ssum_from g id SNull l) as [a|] eqn:E; [|reflexivity].
  cbn [rbind]. apply (sadd_ext f g k FG).
  - eapply (ssum_sall (refs k) g id l a); try reflexivity; assumption.
  - cbn in R2. now rewrite Bool.andb_true_r in R2.
Qed.

(** ** transforming hints *)
Lemma passes_app : forall fin spec idf chk p subs a1 a2 b,
  passes fin spec idf chk p subs (a1 ++ a2) b
  = (rdo r <- passes fin spec idf chk p subs a1 b; passes fin spec idf chk p subs a2 r).
Proof.
  induction a1 as [|a a1 IH]; intros a2 b; [reflexivity|]. cbn [app passes].
  destruct (pass fin spec idf chk p subs a b); [|reflexivity]. cbn [rbind]. apply IH.
Qed.
Lemma transform_more : forall fin spec idf p h a, metas a = [a] ->
  transform fin spec idf false p (mk_ann h [a])
  = (rdo r <- transform fin spec idf false p h; pass fin spec idf false p (gosub fin spec idf p 0 (hargs (hbase h))) a r).
Proof.
  intros fin spec idf p h a M. rewrite !transform_eq.
  assert (B : hbase (mk_ann h [a]) = hbase h) by (destruct h; reflexivity).
  assert (HM : hmeta (mk_ann h [a]) = hmeta h ++ [a]).
  { destruct h; cbn [mk_ann hmeta]; try (cbn [flat_map]; rewrite M; reflexivity).
    rewrite flat_map_app. cbn [flat_map]. now rewrite M. }
  rewrite B, HM. change (PNone :: hmeta h ++ [a]) with ((PNone :: hmeta h) ++ [a]). rewrite passes_app.
  destruct (passes fin spec idf false p (gosub fin spec idf p 0 (hargs (hbase h))) (PNone :: hmeta h) (hbase h)) as [r|]; [|reflexivity].
  cbn [rbind passes]. destruct (pass fin spec idf false p (gosub fin spec idf p 0 (hargs (hbase h))) a r); reflexivity.
Qed.
Lemma tr_plain : forall fin spec idf p t a s, is_decider s = false ->
  transform fin spec idf false p (PAnn (POther t a) [PSer s]) = Ok (PSer s).
Proof. intros. cbn. rewrite H. reflexivity. Qed.
Lemma tr_as : forall fin spec idf p t a st,
  transform fin spec idf false p (PAnn (POther t a) [PSerAs st])
  = Ok (PSer (SStruct (match s_act st with Some _ => st | None => mk_action (s_bo st) (s_fmt st) [a] end))).
Proof. reflexivity. Qed.
Lemma tr_union_ann : forall fin spec idf p hs s r, is_decider s = true ->
  transform fin spec idf false p (PAnn (PUnion hs) [PSer s]) = Ok r -> r = PSer s.
Proof.
  intros fin spec idf p hs s r D H. rewrite transform_eq in H. cbn [hbase hmeta hargs flat_map metas app passes] in H.
  unfold pass at 1 in H. cbn [step tr_tuple tr_seras tr_cond tr_union tr_self tr_structured tr_indexing tr_final rbind] in H.
  unfold step in H. cbn [rbind] in H. unfold pass in H. unfold step in H. cbn [tr_tuple tr_seras tr_cond rbind] in H.
  cbn [tr_union] in H. rewrite D in H. destruct hs as [|h0 hs]; [discriminate H|].
  destruct (gosub fin spec idf p 0 (h0 :: hs)) as [l|]; [|discriminate H]. cbn [rbind] in H.
  destruct (all_sers l); cbn in H; now injection H as <-.
Qed.
Lemma pass_cond : forall fin spec idf p subs f d r r', 
  match r with PSer _ | POther _ _ | PClassVar _ => True | _ => False end ->
  pass fin spec idf false p subs (PCond f d) r = Ok r' ->
  exists s, r = PSer s /\ r' = PSer (SCond f s d) /\ num_values s = List.length d.
Proof.
  intros fin spec idf p subs f d r r' K H. destruct r; try contradiction;
    unfold pass, step in H; cbn [tr_tuple tr_seras tr_cond rbind] in H.
  - destruct (Nat.eqb (num_values s) (List.length d)) eqn:N; cbn in H; [|discriminate H]. injection H as <-.
    apply Nat.eqb_eq in N. eauto.
  - discriminate H.
  - discriminate H.
Qed.
Lemma mapR_F2 : forall {A B} (f : A -> res B) l r, mapR f l = Ok r -> Forall2 (fun a b => f a = Ok b) l r.
Proof.
  intros A B f. induction l as [|a l IH]; intros r H; cbn [mapR] in H; [injection H as <-; constructor|].
  destruct (f a) as [b|] eqn:E; [|discriminate]. cbn [rbind] in H. destruct (mapR f l) as [bs|]; [|discriminate].
  injection H as <-. constructor; [exact E|auto].
Qed.
Lemma rmapM_F2 : forall {A B} (f : A -> res B) l r, rmapM f l = Ok r -> Forall2 (fun a b => f a = Ok b) l r.
Proof.
  intros A B f. induction l as [|a l IH]; intros r H; cbn [rmapM] in H; [injection H as <-; constructor|].
  destruct (f a) as [b|] eqn:E; [|discriminate]. cbn [rbind] in H. destruct (rmapM f l) as [bs|]; [|discriminate].
  injection H as <-. constructor; [exact E|auto].
Qed.

(** ** hints that become struct formats *)
Definition struct1 (w : nat) (s : ser) : Prop :=
  s = SNull \/ exists t act, s = SStruct (SS BO_DEFAULT [t] act) /\ (csize true (t_code t) <= w)%nat.
Lemma matmul_single : forall c n o, ss_matmul (SS BO_DEFAULT [T None c] None) n = Ok o ->
  o = None \/ exists m, o = Some (SS BO_DEFAULT [T m c] None).
Proof.
  intros c n o H. unfold ss_matmul, ss_mul_impl in H. destruct (n =? 0); [injection H as <-; auto|].
  destruct (n <? 0); [discriminate|]. destruct (n =? 1); [injection H as <-; eauto|].
  cbn in H. injection H as <-. right. generalize (Z.to_nat n - 1)%nat as m. intros m.
  assert (G : forall j q, exists q', fold_repeat true [T q c] [T None c] j = [T q' c]).
  { induction j as [|j IH]; intros q; cbn [fold_repeat]; [eauto|]. unfold fold_overlaps. cbn [split_last t_code].
    assert (code_eqb c c = true) as -> by (destruct c; reflexivity). cbn [andb orb app]. apply IH. }
  destruct (G m None) as [q ->]. eauto.
Qed.
Lemma transform_plain_o2s : forall f spec idf p t a o, transform f spec idf false p (PAnn (POther t a) [PSer (o2s o)]) = Ok (PSer (o2s o)).
Proof. intros. apply tr_plain. destruct o; reflexivity. Qed.
Lemma single_struct1 : forall c n o, ss_matmul (SS BO_DEFAULT [T None c] None) n = Ok o -> csize true c = 1%nat ->
  struct1 1 (o2s o).
Proof.
  intros c n o H C. apply matmul_single in H as [->|[m ->]]; [now left|right]. exists (T m c), None. split; [reflexivity|].
  cbn. lia.
Qed.
Lemma char_made : forall fac a h, char_create fac (carg_py a) = Ok h ->
  exists s, h = PAnn t_bytes [PSer s] /\
    match a with
    | KUint c => s = SDynChar (fac AkChar [basic c]) (SS BO_DEFAULT [T None c] None) /\ size_code c = true
    | KInt z => struct1 1 s
    | KBytes b => exists t, b = [t] /\ s = STerm (fac AkChar [PBytes b]) t
    | KInf => s = SConsume (fac AkChar [PInf])
    | KNet => s = SNet (fac AkChar [PNET])
    end.
Proof.
  intros fac a h H. destruct a; cbn [carg_py] in H; unfold char_create in H.
  - destruct c; cbn in H; try discriminate H; injection H as <-; eexists; (split; [reflexivity|split; reflexivity]).
  - cbn [size_type] in H. destruct (ss_matmul single_char z) as [o|] eqn:E; [|discriminate]. cbn [rbind] in H. injection H as <-.
    exists (o2s o). split; [reflexivity|]. eapply single_struct1; [exact E|reflexivity].
  - cbn [size_type] in H. destruct b as [|t [|? ?]]; try discriminate. injection H as <-. eexists. split; [reflexivity|eauto].
  - cbn in H. injection H as <-. eauto.
  - cbn in H. injection H as <-. eauto.
Qed.
Lemma structy_build : forall x k fk idf fac h, structy x = true -> build k fk idf fac x = Ok h ->
  exists s, struct1 (width x) s /\ forall f2 idf2 p, transform f2 no_spec idf2 false p h = Ok (PSer s).
Proof.
  intros x k fk idf fac. induction x using hx_ind'; intros h S B; try discriminate S; cbn [build] in B.
  - destruct (basic_code c) eqn:C; [|discriminate]. injection B as <-. eexists. split.
    + right. exists (T None c), None. split; [reflexivity|]. destruct c; try discriminate C; cbn; lia.
    + intros. destruct c; reflexivity.
  - unfold pad_getitem in B. destruct (ss_matmul (SS BO_DEFAULT [T None Cx] None) n) as [o|] eqn:E; [|discriminate]. cbn [rbind] in B.
    injection B as <-. exists (o2s o). split; [eapply single_struct1; [exact E|reflexivity]|]. intros. apply transform_plain_o2s.
  - unfold pascal_getitem in B. destruct (ss_matmul (SS BO_DEFAULT [T None Cp] None) n) as [o|] eqn:E; [|discriminate]. cbn [rbind] in B.
    injection B as <-. exists (o2s o). split; [eapply single_struct1; [exact E|reflexivity]|]. intros. apply transform_plain_o2s.
  - destruct a; try discriminate S. apply char_made in B as (s & -> & H). exists s. split; [exact H|].
    intros. apply tr_plain. destruct H as [->|(t & act & -> & _)]; reflexivity.
  - destruct (build k fk idf fac x) as [h0|]; [|discriminate]. cbn [rbind] in B.
    destruct (IHx h0 S eq_refl) as (s & S1 & TR). unfold serialize_as in B. rewrite TR in B. cbn [rbind] in B.
    destruct S1 as [->|(t & act & -> & W)]; [discriminate B|].
    destruct (Nat.eqb (ss_nvals (SS BO_DEFAULT [t] act)) 1); [|discriminate B]. cbn [rbind] in B. injection B as <-.
    eexists. split; [|intros; apply tr_as]. right. cbn [s_act s_bo s_fmt]. destruct act as [acts|].
    + exists t, (Some acts). split; [reflexivity|exact W].
    + eexists t, _. split; [reflexivity|exact W].
Qed.
Lemma ssum_structs : forall f id l s, Forall (fun s => s = SNull \/ exists st, s = SStruct st) l -> ssum f id l = Ok s ->
  s = SNull \/ exists st, s = SStruct st.
Proof.
  intros f id l s F E. unfold ssum in E. assert (A : SNull = SNull \/ exists st, SNull = SStruct st) by now left.
  revert A E. generalize SNull at 1 3 4 as acc. induction F as [|x l X F IH]; intros acc A E; cbn [ssum_from] in E; [injection E as <-; exact A|].
  destruct (sadd f id acc x) as [a|] eqn:Q; [|discriminate]. cbn [rbind] in E. apply (IH a); [|exact E].
  destruct A as [->|[sa ->]], X as [->|[sx ->]]; cbn in Q; try (injection Q as <-; eauto; fail).
  unfold Base.rmap in Q. destruct (ss_add sa sx); [|discriminate]. injection Q as <-. eauto.
Qed.
Lemma header_made : forall n s h,
  header_create (match n with inl z => PInt z | inr c => basic c end) (match s with Some c => basic c | None => PNone end) = Ok h ->
  exists cnt size, h = PHeader cnt size /\
    match n with inl z => cnt = inl z /\ 0 <= z
               | inr c => cnt = inr (SS BO_DEFAULT [T None c] None) /\ size_code c = true end /\
    match s with None => size = None
               | Some c => size = Some (SS BO_DEFAULT [T None c] None) /\ size_code c = true end.
Proof.
  intros n s h H.
  assert (SZ : forall c, size_type (basic c) = if size_code c then Some (SS BO_DEFAULT [T None c] None) else None)
    by (intros c; destruct c; reflexivity).
  assert (IT : forall c, is_tv (basic c) = false) by (intros; reflexivity).
  unfold header_create in H.
  assert (TV : (is_tv (match n with inl z => PInt z | inr c => basic c end) || is_tv (match s with Some c => basic c | None => PNone end)) = false)
    by (destruct n, s; reflexivity).
  rewrite TV in H.
  assert (S2 : forall cnt, match size_type (match s with Some c => basic c | None => PNone end), (match s with Some c => basic c | None => PNone end) with
    | Some st, _ => Ok (PHeader cnt (Some st)) | None, PNone => Ok (PHeader cnt None) | None, _ => Err TypeError end = Ok h ->
    exists size, h = PHeader cnt size /\ match s with None => size = None
               | Some c => size = Some (SS BO_DEFAULT [T None c] None) /\ size_code c = true end).
  { intros cnt Q. destruct s as [c|]; [|injection Q as <-; eauto]. rewrite SZ in Q. destruct (size_code c); [|discriminate Q].
    injection Q as <-. eauto. }
  destruct n as [z|c].
  - cbn [size_type] in H. destruct (z <? 0) eqn:L; [discriminate H|]. cbn [rbind] in H. apply S2 in H as (size & -> & Q).
    exists (inl z), size. split; [reflexivity|]. split; [|exact Q]. split; [reflexivity|lia].
  - rewrite SZ in H. destruct (size_code c) eqn:C; [|discriminate H]. cbn [rbind] in H. apply S2 in H as (size & -> & Q).
    exists (inr (SS BO_DEFAULT [T None c] None)), size. auto.
Qed.
Lemma pow_mod : forall a b, In a [1; 2; 4; 8]%nat -> In b [1; 2; 4; 8]%nat -> (b <= a)%nat -> (a mod b = 0)%nat.
Proof.
  intros a b A B L. cbn in A, B. repeat (destruct A as [<-|A]; [|]); try contradiction;
    repeat (destruct B as [<-|B]; [try reflexivity; lia|]); contradiction.
Qed.
Lemma csize_pow : forall c, In (csize true c) [1; 2; 4; 8]%nat.
Proof. intros c. destruct c; cbn; auto. Qed.
Lemma dyn_made : forall hb c t act, size_code c = true -> (csize true (t_code t) <= width (XBasic c))%nat ->
  dyn_all hb (SS BO_DEFAULT [T None c] None) (SS BO_DEFAULT [t] act) = true.
Proof.
  intros hb c t act C W. unfold dyn_all. cbn [s_bo border_eqb andb]. rewrite forallb_forall. intros bo _.
  unfold dynarr_ok, ss_with_bo. cbn [s_bo s_fmt s_act].
  assert (U : uint1 (SS bo [T None c] None) = true) by (destruct c; try discriminate C; reflexivity).
  rewrite U. assert (border_eqb bo bo = true) as -> by (destruct bo; reflexivity). cbn [andb].
  unfold shift_ok, ss_mode. cbn [s_bo]. set (m := mode_of hb bo).
  assert (SZ : calcsize m [T None c] = csize (m_native m) c).
  { unfold calcsize. assert (expand [T None c] = [UAlign c; UVal c]) as -> by (destruct c; try discriminate C; reflexivity).
    cbn [size_u usize]. unfold padding. rewrite Nat.mod_0_l by (unfold calign; destruct (m_native m), c; cbn; lia).
    rewrite Nat.sub_0_r, Nat.mod_same by (unfold calign; destruct (m_native m), c; cbn; lia). cbn. lia. }
  rewrite SZ. clear SZ.
  assert (K : Nat.eqb (csize (m_native m) c mod calign (m_native m) (t_code t)) 0 = true).
  { apply Nat.eqb_eq. unfold calign. destruct (m_native m); [|apply Nat.mod_1_r].
    assert (WC : width (XBasic c) = csize true c) by (destruct c; try discriminate C; reflexivity). rewrite WC in W.
    apply pow_mod; [apply csize_pow|apply csize_pow|exact W]. }
  unfold expand. cbn [flat_map]. rewrite app_nil_r. unfold expand_tok.
  assert (V : forall n, forallb (fun u => match u with UAlign c0 => Nat.eqb (csize (m_native m) c mod calign (m_native m) c0) 0 | _ => true end)
     (repeat (UVal (t_code t)) n) = true) by (induction n; auto).
  assert (P : forall n, forallb (fun u => match u with UAlign c0 => Nat.eqb (csize (m_native m) c mod calign (m_native m) c0) 0 | _ => true end)
     (repeat UPad n) = true) by (induction n; auto).
  destruct (t_code t) eqn:TC; cbn [forallb]; rewrite ?P, ?V, ?K; reflexivity.
Qed.

(** ** what the fragment gives *)
Definition plainx (x : hx) : bool := match x with XCond _ _ _ | XSelf => false | _ => true end.
Definition is_struct (s : ser) : bool := match s with SStruct _ => true | _ => false end.
Section Good.
Variables (hb : bool) (md : umode) (fin : nat -> bool).
(** the serializer [s] of the hint [x] in a program of [k] classes *)
Record good (x : hx) (k : nat) (s : ser) : Prop := Good {
  g_acc : forall c, (has_self x = true -> fin c = false) -> accepted md fin c s;
  g_wf : sall (wf1 hb md) s = true;
  g_comp : is_compound s = false;
  g_bo : bo_is BO_DEFAULT s;
  g_refs : sall (refs k) s = true;
  g_noself : has_self x = false -> sall noself s = true;
  g_own : keeps x = false -> own s = None;
  g_pre : keeps x = false -> plainx x = true -> needs_pre s = false;
  g_sized : plainx x = true -> sized s = true;
  g_fin : xfinal fin x = false -> is_final fin s = false;
  g_struct : structy x = false -> is_struct s = false }.
(** what a hint becomes *)
Definition turns (x : hx) (k : nat) (r : pyh) : Prop :=
  match r with
  | PSer s => good x k s
  | POther _ _ | PClassVar _ => keeps x = false
  | PTuple _ | PUnion _ => keeps x = true
  | _ => False
  end.

Lemma structy_frag : forall x, structy x = true ->
  frag md fin x = true /\ has_self x = false /\ keeps x = false /\ xfinal fin x = false /\ plainx x = true.
Proof.
  induction x using hx_ind'; intros S; try discriminate S; try (repeat split; reflexivity).
  - destruct a; try discriminate S. repeat split; try reflexivity. unfold frag, carg_ok. destruct md; reflexivity.
  - cbn in S. destruct (IHx S) as (A & B & _). repeat split; try reflexivity; assumption.
Qed.
Lemma leaf_good : forall x k s, leaf s = true -> sall (wf1 hb md) s = true -> bo_is BO_DEFAULT s ->
  (xfinal fin x = false -> is_final fin s = false) -> (structy x = false -> is_struct s = false) -> good x k s.
Proof.
  intros x k s L W B F S.
  assert (LP : forall P : ser -> bool, (forall y, leaf y = true -> sall (wf1 hb md) y = true -> P y = true) -> sall P s = true).
  { intros P H. clear B F S. induction s using ser_ind'; try discriminate L; pose proof (H _ L W) as H1; cbn [sall];
      rewrite H1; try reflexivity. cbn in L. cbn [sall] in W. apply andb_prop in W as [_ W]. cbn [andb]. apply IHs; assumption. }
  constructor; try assumption; intros.
  - apply AC_leaf; [exact L|]. apply LP. intros y LY WY. apply sall_here in WY. destruct y; try discriminate LY; try reflexivity.
    exact WY.
  - destruct s; try discriminate L; reflexivity.
  - apply LP. intros y LY _. destruct y; try discriminate LY; reflexivity.
  - apply LP. intros y LY _. destruct y; try discriminate LY; reflexivity.
  - destruct s; try discriminate L; reflexivity.
  - destruct s; try discriminate L; reflexivity.
  - clear -L. induction s using ser_ind'; try discriminate L; try reflexivity. cbn in *. auto.
Qed.
Lemma struct1_good : forall x k w s, structy x = true -> struct1 w s -> good x k s.
Proof.
  intros x k w s S [->|(t & act & -> & _)]; apply leaf_good; try reflexivity; intros; try reflexivity; congruence.
Qed.
Lemma char_good : forall fac a h, carg_ok md a = true -> char_create fac (carg_py a) = Ok h ->
  exists s, h = PAnn t_bytes [PSer s] /\ is_decider s = false /\ leaf s = true /\ sall (wf1 hb md) s = true /\
    bo_is BO_DEFAULT s /\ is_final fin s = match a with KInf => true | _ => false end /\
    (match a with KInt _ => False | _ => True end -> is_struct s = false) /\
    (match a with KInt _ => struct1 1 s | _ => True end).
Proof.
  intros fac a h C H. apply char_made in H as (s & -> & H). exists s. split; [reflexivity|]. destruct a.
  - destruct H as [-> H]. repeat split. destruct c; try discriminate H; reflexivity.
  - destruct H as [->|(t & act & -> & W)]; repeat split; try reflexivity; try contradiction.
    + now left.
    + right. eauto.
  - destruct H as (t & -> & ->). repeat split. unfold carg_ok in C. cbn. now destruct md.
  - subst s. repeat split.
  - subst s. repeat split.
Qed.
Lemma turns_keeps : forall x k r, turns x k r -> keeps x = false -> match r with PSer _ | POther _ _ | PClassVar _ => True | _ => False end.
Proof. intros x k r T K. destruct r; try contradiction; try exact I; cbn in T; congruence. Qed.

Lemma all_sers_F2 : forall {A} (P : A -> ser -> Prop) l hs sers,
  Forall2 (fun a r => match r with PSer s => P a s | _ => True end) l hs -> all_sers hs = Some sers -> Forall2 P l sers.
Proof.
  intros A P l hs sers F. revert sers. induction F as [|a r l hs H F IH]; intros sers E; [injection E as <-; constructor|].
  cbn in E. destruct r; try discriminate E. destruct (all_sers hs) as [ss|]; [|discriminate]. injection E as <-.
  constructor; [exact H|auto].
Qed.
Lemma gosub_F2 : forall f spec idf p l i r, gosub f spec idf p i l = Ok r ->
  Forall2 (fun h y => exists q, transform f spec idf false q h = Ok y) l r.
Proof.
  intros f spec idf p. induction l as [|h l IH]; intros i r H; cbn [gosub] in H; [injection H as <-; constructor|].
  destruct (transform f spec idf false (S i :: p) h) as [y|] eqn:E; [|discriminate]. cbn [rbind] in H.
  destruct (gosub f spec idf p (S i) l) as [ys|] eqn:G; [|discriminate]. injection H as <-. constructor; eauto.
Qed.
Lemma F2_comp : forall {A B C} (P : A -> B -> Prop) (Q : B -> C -> Prop) l m n, Forall2 P l m -> Forall2 Q m n ->
  Forall2 (fun a c => exists b, P a b /\ Q b c) l n.
Proof.
  intros A B C P Q l m n F. revert n. induction F; intros n G; inversion G; subst; constructor; eauto.
Qed.
Lemma F2_Forall_l : forall {A B} (P : A -> B -> Prop) (Q : A -> Prop) l m, Forall2 P l m -> Forall Q l ->
  Forall2 (fun a b => P a b /\ Q a) l m.
Proof. intros A B P Q l m F. induction F; intros G; inversion G; subst; constructor; auto. Qed.
Lemma F2_impl : forall {A B} (P Q : A -> B -> Prop) l m, Forall2 P l m -> (forall a b, P a b -> Q a b) -> Forall2 Q l m.
Proof. intros A B P Q l m F H. induction F; constructor; auto. Qed.
Lemma F2_in_r : forall {A B} (P : A -> B -> Prop) l m b, Forall2 P l m -> In b m -> exists a, In a l /\ P a b.
Proof.
  intros A B P l m b F. induction F as [|x y l m H F IH]; intros I; [contradiction|]. destruct I as [->|I].
  - exists x. split; [now left|exact H].
  - destruct (IH I) as (a & J & Q). exists a. split; [now right|exact Q].
Qed.

Variables (k : nat) (fk : nat -> bool) (idf : list nat -> nat) (fac : akind -> list pyh -> nat).
Hypothesis FK : forall d, (d < k)%nat -> fk d = fin d.
Definition built (x : hx) : Prop := forall h, frag md fin x = true -> build k fk idf fac x = Ok h ->
  is_tv h = false /\ is_alias h = false /\
  forall f2 idf2 p r, (forall d, (d < k)%nat -> f2 d = fin d) -> transform f2 no_spec idf2 false p h = Ok r -> turns x k r.

Lemma plain_built : forall x h0 s, h0 = t_bytes \/ h0 = t_str \/ h0 = t_list -> is_decider s = false -> good x k s ->
  is_tv (PAnn h0 [PSer s]) = false /\ is_alias (PAnn h0 [PSer s]) = false /\
  forall f2 idf2 p r, (forall d, (d < k)%nat -> f2 d = fin d) ->
    transform f2 no_spec idf2 false p (PAnn h0 [PSer s]) = Ok r -> turns x k r.
Proof.
  intros x h0 s T D G. repeat split. intros f2 idf2 p r _ E.
  destruct T as [->|[->| ->]]; unfold t_bytes, t_str, t_list in E; rewrite tr_plain in E by exact D; injection E as <-; exact G.
Qed.
Lemma built_ser : forall x h s f2 idf2 p, built x -> frag md fin x = true -> build k fk idf fac x = Ok h ->
  (forall d, (d < k)%nat -> f2 d = fin d) -> transform f2 no_spec idf2 false p h = Ok (PSer s) -> good x k s.
Proof. intros x h s f2 idf2 p B F E G T. destruct (B h F E) as (_ & _ & H). exact (H f2 idf2 p _ G T). Qed.

Lemma array_built : forall n sz x, built x -> built (XArray n sz x).
Proof.
  intros n sz x BX h F B. cbn [build] in B.
  destruct (header_create _ _) as [hd|] eqn:HD; [|discriminate]. cbn [rbind] in B.
  destruct (build k fk idf fac x) as [i|] eqn:BI; [|discriminate]. cbn [rbind] in B.
  cbn [frag] in F. apply andb_prop in F as [F FS]. apply andb_prop in F as [F FW].
  apply header_made in HD as (cnt & size & -> & HC & HS).
  destruct (BX i F BI) as (NT & NA & _). unfold array_create in B. cbn [is_alias] in B. rewrite NT in B. cbn [orb] in B.
  destruct (transform fk no_spec idf false [0; 0; fac AkArray [PHeader cnt size; i]]%nat i) as [it|] eqn:TI; [|discriminate].
  cbn [rbind] in B. destruct it; try discriminate B. pose proof (built_ser _ _ _ _ _ _ BX F BI FK TI) as G.
  rewrite (final_ext fk fin k FK _ (g_refs _ _ _ G)) in B.
  destruct (is_final fin s) eqn:NF; [discriminate|].
  destruct (match s, Nat.eqb (num_values s) 1 with SStruct _, true => true | _, _ => false end) eqn:K.
  - destruct s; try discriminate K. destruct (Nat.eqb (num_values (SStruct st)) 1); [|discriminate K].
    assert (SX : structy x = true) by (destruct (structy x) eqn:Q; [reflexivity|discriminate (g_struct _ _ _ G Q)]).
    destruct (structy_build x k fk idf fac i SX BI) as (s1 & S1 & T1). rewrite T1 in TI. injection TI as ->.
    destruct S1 as [S1|(t & act & S1 & W)]; [discriminate S1|]. injection S1 as ->.
    destruct n as [z|c].
    + destruct HC as [-> L]. injection B as <-. apply plain_built; auto.
      apply leaf_good; try reflexivity; intros; reflexivity.
    + destruct HC as [-> C]. injection B as <-. apply plain_built; auto.
      apply leaf_good; try reflexivity; try (intros; reflexivity).
      cbn [sall wf1]. rewrite Bool.andb_true_r. apply dyn_made; [exact C|]. rewrite SX in FW. cbn [negb orb] in FW.
      apply Nat.leb_le in FW. lia.
  - assert (GA : forall h z, hdr_ok h z = true -> good (XArray n sz x) k (SArray (fac AkArray [PHeader cnt size; i]) h s z)).
    { intros h0 z HO. constructor; try reflexivity; try (intros; discriminate); intros.
      - apply AC_array; [apply (g_acc _ _ _ G); exact H|]. intros RR. apply reads_rest_final in RR. congruence.
      - cbn [sall wf1]. rewrite HO, (g_wf _ _ _ G). rewrite Bool.andb_true_r. cbn [andb].
        destruct (own s) eqn:OW; [|reflexivity]. apply (g_noself _ _ _ G). destruct (keeps x) eqn:KX.
        + cbn in FS. now destruct (has_self x).
        + rewrite (g_own _ _ _ G KX) in OW. discriminate.
      - cbn [sall refs]. cbn [andb]. exact (g_refs _ _ _ G).
      - cbn [sall noself]. cbn [andb]. apply (g_noself _ _ _ G). exact H. }
    assert (BB : match cnt, size with
                | inl z, None => Ok (PAnn t_list [PSer (SArray (fac AkArray [PHeader cnt size; i]) None s z)])
                | inl z, Some d => Ok (PAnn t_list [PSer (SArray (fac AkArray [PHeader cnt size; i]) (Some d) s z)])
                | inr c, None => Ok (PAnn t_list [PSer (SArray (fac AkArray [PHeader cnt size; i]) (Some c) s (-1))])
                | inr c, Some d => rdo cd <- ss_add c d; Ok (PAnn t_list [PSer (SArray (fac AkArray [PHeader cnt size; i]) (Some cd) s (-1))])
                end = Ok h).
    { destruct s; try exact B. destruct (Nat.eqb (num_values (SStruct st)) 1); [discriminate K|exact B]. }
    clear B.
    destruct n as [z|c], sz as [d|].
    + destruct HC as [-> L], HS as [-> D]. injection BB as <-. apply plain_built; auto. apply GA.
      unfold hdr_ok. assert (0 <=? z = true) as -> by lia. destruct d; try discriminate D; reflexivity.
    + destruct HC as [-> L]. subst size. injection BB as <-. apply plain_built; auto. apply GA. cbn. lia.
    + destruct HC as [-> C], HS as [-> D].
      assert (A : exists cd, ss_add (SS BO_DEFAULT [T None c] None) (SS BO_DEFAULT [T None d] None) = Ok cd /\ hdr_ok (Some cd) (-1) = true).
      { destruct c; try discriminate C; destruct d; try discriminate D; (eexists; split; [reflexivity|reflexivity]). }
      destruct A as (cd & A & HO). rewrite A in BB. cbn [rbind] in BB. injection BB as <-. apply plain_built; auto.
    + destruct HC as [-> C]. subst size. injection BB as <-. apply plain_built; auto. apply GA.
      destruct c; try discriminate C; reflexivity.
Qed.
Lemma ssum_one : forall f id x s, ssum f id [x] = Ok s -> s = x.
Proof. intros f id x s H. unfold ssum in H. cbn in H. now injection H as <-. Qed.
Lemma tuple_built : forall l, Forall built l -> built (XTuple l).
Proof.
  intros l BL h F B. cbn [build] in B. destruct (mapR (build k fk idf fac) l) as [hs|] eqn:M; [|discriminate].
  cbn [rbind] in B. injection B as <-. apply mapR_F2 in M. repeat split. intros f2 idf2 p r FE T.
  rewrite transform_eq in T. cbn [hbase hargs hmeta passes] in T.
  assert (FR : Forall (fun x => frag md fin x = true) l).
  { cbn [frag] in F. apply Bool.orb_prop in F as [F|F].
    - rewrite Forall_forall. rewrite forallb_forall in F. intros x I. apply (structy_frag x (F x I)).
    - destruct l as [|y [|? ?]]; try discriminate F. apply andb_prop in F as [F _]. repeat constructor. exact F. }
  assert (AL : existsb (fun a => is_tv a || is_alias a) hs = false).
  { clear T F. induction M as [|x h l hs H M IH]; [reflexivity|]. inversion BL as [|? ? B1 B2]; subst.
    inversion FR as [|? ? R1 R2]; subst. cbn [existsb]. destruct (B1 h R1 H) as (-> & -> & _). cbn [orb]. now apply IH. }
  destruct hs as [|h0 hs].
  { unfold pass, step in T. cbn in T. injection T as <-. reflexivity. }
  unfold pass, step in T. cbn [tr_tuple rbind] in T. rewrite AL in T.
  destruct (gosub f2 no_spec idf2 p 0 (h0 :: hs)) as [ys|] eqn:GS; [|discriminate]. cbn [rbind] in T.
  apply gosub_F2 in GS. destruct (all_sers ys) as [sers|] eqn:AS.
  2:{ cbn in T. injection T as <-. reflexivity. }
  assert (G : Forall2 (fun x s => In x l /\ good x k s /\ (structy x = true -> struct1 (width x) s)) l sers).
  { apply all_sers_F2 with (hs := ys); [|exact AS]. 
    assert (IN : Forall (fun x => In x l) l) by (rewrite Forall_forall; auto).
    pose proof (F2_comp _ _ _ _ _ M GS) as C.
    pose proof (F2_Forall_l _ _ _ _ (F2_Forall_l _ _ _ _ (F2_Forall_l _ _ _ _ C BL) FR) IN) as C'.
    eapply F2_impl; [exact C'|]. intros x r0 ((((h & H & q & Q) & BX) & FX) & IX). destruct r0; try exact I.
    split; [exact IX|]. split.
    - eapply built_ser; eauto.
    - intros SX. destruct (structy_build x k fk idf fac h SX H) as (s1 & S1 & T1). rewrite T1 in Q. injection Q as ->. exact S1. }
  assert (RF : forallb (sall (refs k)) sers = true).
  { rewrite forallb_forall. intros s I. destruct (F2_in_r _ _ _ _ G I) as (x & _ & _ & GX & _). exact (g_refs _ _ _ GX). }
  assert (CP : Forall (fun x => is_compound x = false) sers).
  { rewrite Forall_forall. intros s I. destruct (F2_in_r _ _ _ _ G I) as (x & _ & _ & GX & _). exact (g_comp _ _ _ GX). }
  rewrite (ssum_ext f2 fin k _ sers FE RF CP) in T.
  destruct (ssum fin (idf2 (0%nat :: p)) sers) as [s|] eqn:SU; [|discriminate]. cbn in T. injection T as <-.
  cbn [turns].
  assert (SH : (sized s = true /\ is_compound s = false) /\ (existsb (xfinal fin) l = false -> is_final fin s = false)).
  { cbn [frag] in F. apply Bool.orb_prop in F as [F|F].
    - assert (S1 : Forall (fun s => s = SNull \/ exists st, s = SStruct st) sers).
      { rewrite Forall_forall. intros y I. destruct (F2_in_r _ _ _ _ G I) as (x & _ & IX & _ & SX). rewrite forallb_forall in F.
        destruct (SX (F x IX)) as [->|(t & act & -> & _)]; eauto. }
      destruct (ssum_structs _ _ _ _ S1 SU) as [->|[st ->]]; repeat split.
    - destruct l as [|y [|? ?]]; try discriminate F. apply andb_prop in F as [_ F]. inversion G as [|? s1 ? ? (_ & GY & _) G']; subst.
      inversion G'; subst. apply ssum_one in SU. subst s1. split; [split|].
      + apply (g_sized _ _ _ GY). destruct y; try reflexivity; discriminate F.
      + exact (g_comp _ _ _ GY).
      + cbn. rewrite Bool.orb_false_r. exact (g_fin _ _ _ GY). }
  destruct SH as [[SZ NC] NF].
  constructor; try reflexivity; try (intros; discriminate); intros.
  - apply AC_tuple with (i := idf2 (0%nat :: p)) (b := BO_DEFAULT) (l := sers); [| |exact SU].
    + intros y I. destruct (F2_in_r _ _ _ _ G I) as (x & IX & _ & GX & _). apply (g_acc _ _ _ GX). intros HS. apply H.
      cbn. apply existsb_exists. eauto.
    + rewrite Forall_forall. intros y I. destruct (F2_in_r _ _ _ _ G I) as (x & _ & _ & GX & _).
      split; [exact (g_comp _ _ _ GX)|exact (g_bo _ _ _ GX)].
  - cbn [sall wf1]. rewrite SZ, NC. cbn [andb negb]. eapply ssum_sall; try reflexivity; try exact SU; try exact CP.
    rewrite forallb_forall. intros y I. destruct (F2_in_r _ _ _ _ G I) as (x & _ & _ & GX & _). exact (g_wf _ _ _ GX).
  - cbn [sall refs andb]. eapply ssum_sall; try reflexivity; try exact SU; try exact CP; exact RF.
  - cbn [sall noself andb]. eapply ssum_sall; try reflexivity; try exact SU; try exact CP.
    rewrite forallb_forall. intros y I. destruct (F2_in_r _ _ _ _ G I) as (x & IX & _ & GX & _). apply (g_noself _ _ _ GX).
    destruct (has_self x) eqn:Q; [|reflexivity]. cbn in H. rewrite <- H. symmetry. apply existsb_exists. eauto.
  - cbn [sized]. exact SZ.
  - cbn [is_final]. apply NF. exact H.
Qed.
Lemma cond_built : forall x f d, built x -> built (XCond x f d).
Proof.
  intros x f d BX h F B. cbn [build] in B. destruct (build k fk idf fac x) as [h0|] eqn:BI; [|discriminate]. cbn [rbind] in B.
  injection B as <-. cbn [frag] in F. apply andb_prop in F as [F FP]. apply andb_prop in F as [F KX].
  apply Bool.negb_true_iff in KX. destruct (BX h0 F BI) as (_ & _ & TX).
  split; [destruct h0; reflexivity|]. split; [destruct h0; reflexivity|]. intros f2 idf2 p r FE T.
  rewrite transform_more in T by reflexivity. destruct (transform f2 no_spec idf2 false p h0) as [r0|] eqn:T0; [|discriminate].
  cbn [rbind] in T. pose proof (TX f2 idf2 p r0 FE T0) as TU. apply pass_cond in T as (s & -> & -> & _); [|exact (turns_keeps _ _ _ TU KX)].
  cbn [turns] in *. constructor; try reflexivity; try (intros; discriminate); intros.
  - apply AC_cond. now apply (g_acc _ _ _ TU).
  - cbn [sall wf1]. rewrite (g_wf _ _ _ TU), (g_pre _ _ _ TU KX); [reflexivity|]. destruct x; try reflexivity; discriminate FP.
  - exact (g_refs _ _ _ TU).
  - cbn [sall noself andb]. apply (g_noself _ _ _ TU). exact H.
  - cbn [is_final]. apply (g_fin _ _ _ TU). exact H.
Qed.
Lemma validate_tr : forall id h s, validate_serializer fk no_spec idf id h = Ok s ->
  transform fk no_spec idf false [0%nat; 0%nat; id] h = Ok (PSer s).
Proof.
  intros id h s V. unfold validate_serializer in V. destruct (transform fk no_spec idf false [0%nat; 0%nat; id] h) as [r|]; [|discriminate].
  cbn [rbind] in V. destruct r; try discriminate V. destruct (Nat.eqb _ 1); [|discriminate V]. injection V as <-. reflexivity.
Qed.
Lemma validated : forall id m d m1 d1 m2 d2, Forall (fun p => built (snd p)) m -> (forall x, d = Some x -> built x) ->
  forallb (fun p => frag md fin (snd p)) m = true -> (match d with Some y => frag md fin y && negb (xfinal fin y) | None => true end) = true ->
  mapR (fun p => rmap (pair (fst p)) (build k fk idf fac (snd p))) m = Ok m1 ->
  (match d with Some x => rmap Some (build k fk idf fac x) | None => Ok None end) = Ok d1 ->
  validate_map fk no_spec idf id m1 d1 = Ok (m2, d2) ->
  (forall key s, In (key, s) m2 -> exists e, In e m /\ good (snd e) k s) /\
  (forall s, d2 = Some s -> exists x, d = Some x /\ good x k s /\ is_final fin s = false).
Proof.
  intros id m d m1 d1 m2 d2 BM BD FM FD M1 D1 V. unfold validate_map in V.
  destruct (match d1 with None => Ok None | Some h => rmap Some (validate_serializer fk no_spec idf id h) end) as [d'|] eqn:VD; [|discriminate].
  cbn [rbind] in V. destruct (rmapM _ m1) as [m'|] eqn:VM; [|discriminate]. cbn [rbind] in V. injection V as <- <-.
  apply mapR_F2 in M1. apply rmapM_F2 in VM. split.
  - intros key s I. pose proof (F2_comp _ _ _ _ _ M1 VM) as C.
    destruct (F2_in_r _ _ _ _ C I) as (e & IE & e1 & Q1 & Q2). exists e. split; [exact IE|].
    unfold Base.rmap in Q1, Q2. destruct (build k fk idf fac (snd e)) as [h|] eqn:BH; [|discriminate]. injection Q1 as <-.
    cbn [fst snd] in Q2. destruct (validate_serializer fk no_spec idf id h) as [s'|] eqn:VS; [|discriminate]. injection Q2 as _ <-.
    apply validate_tr in VS.
    rewrite Forall_forall in BM. rewrite forallb_forall in FM. eapply built_ser; [exact (BM e IE)|exact (FM e IE)|exact BH|exact FK|exact VS].
  - intros s ->. destruct d1 as [h|]; [|discriminate VD]. unfold Base.rmap in VD. destruct (validate_serializer fk no_spec idf id h) as [s'|] eqn:VS; [|discriminate].
    injection VD as ->. destruct d as [x|]; [|discriminate D1]. unfold Base.rmap in D1.
    destruct (build k fk idf fac x) as [h'|] eqn:BH; [|discriminate]. injection D1 as ->. exists x. split; [reflexivity|].
    apply andb_prop in FD as [FD NF]. apply Bool.negb_true_iff in NF.
    apply validate_tr in VS.
    assert (G : good x k s) by (eapply built_ser; [exact (BD x eq_refl)|exact FD|exact BH|exact FK|exact VS]).
    split; [exact G|]. exact (g_fin _ _ _ G NF).
Qed.
Lemma members_self : forall m d (e : value * hx) c,
  (existsb (fun p => has_self (snd p)) m || match d with Some y => has_self y | None => false end = true -> fin c = false) ->
  In e m -> has_self (snd e) = true -> fin c = false.
Proof.
  intros m d e c H I S. apply H. apply Bool.orb_true_iff. left. apply existsb_exists. eauto.
Qed.
Lemma back_built : forall id l f m d, Forall (fun p => built (snd p)) m -> (forall x, d = Some x -> built x) -> built (XBack id l f m d).
Proof.
  intros id l f m d BM BD h F B. cbn [build] in B.
  destruct (mapR (build k fk idf fac) l) as [hs|]; [|discriminate]. cbn [rbind] in B.
  destruct (mapR (fun p => rmap (pair (fst p)) (build k fk idf fac (snd p))) m) as [m1|] eqn:M1; [|discriminate]. cbn [rbind] in B.
  destruct (match d with Some x => rmap Some (build k fk idf fac x) | None => Ok None end) as [d1|] eqn:D1; [|discriminate]. cbn [rbind] in B.
  unfold lookback in B. destruct (validate_map fk no_spec idf id m1 d1) as [[m2 d2]|] eqn:V; [|discriminate]. cbn [rbind] in B.
  injection B as <-. cbn [frag] in F. apply andb_prop in F as [FM FD].
  destruct (validated id m d m1 d1 m2 d2 BM BD FM FD M1 D1 V) as [GM GD].
  repeat split. intros f2 idf2 p r _ T. apply tr_union_ann in T; [|reflexivity]. subst r. cbn [turns].
  constructor; try reflexivity; try (intros; discriminate); intros.
  - apply AC_lookback.
    + intros key s I. destruct (GM key s I) as (e & IE & G). apply (g_acc _ _ _ G). cbn in H. eapply members_self; eauto.
    + intros s E. destruct (GD s E) as (x & -> & G & _). apply (g_acc _ _ _ G). intros HS. apply H. cbn. rewrite HS. apply Bool.orb_true_r.
    + intros s E RR. apply reads_rest_final in RR. destruct (GD s E) as (x & _ & _ & NF). congruence.
  - cbn [sall wf1 andb]. apply andb_true_intro. split.
    + rewrite forallb_forall. intros [key s] I. destruct (GM key s I) as (e & _ & G). exact (g_wf _ _ _ G).
    + destruct d2 as [s|]; [|reflexivity]. destruct (GD s eq_refl) as (x & _ & G & _). exact (g_wf _ _ _ G).
  - cbn [sall refs andb]. apply andb_true_intro. split.
    + rewrite forallb_forall. intros [key s] I. destruct (GM key s I) as (e & _ & G). exact (g_refs _ _ _ G).
    + destruct d2 as [s|]; [|reflexivity]. destruct (GD s eq_refl) as (x & _ & G & _). exact (g_refs _ _ _ G).
  - cbn [has_self] in H. apply Bool.orb_false_iff in H as [H1 H2]. cbn [sall noself andb]. apply andb_true_intro. split.
    + rewrite forallb_forall. intros [key s] I. destruct (GM key s I) as (e & IE & G). apply (g_noself _ _ _ G).
      destruct (has_self (snd e)) eqn:Q; [|reflexivity]. rewrite <- H1. symmetry. apply existsb_exists. eauto.
    + destruct d2 as [s|]; [|reflexivity]. destruct (GD s eq_refl) as (x & -> & G & _). exact (g_noself _ _ _ G H2).
  - cbn [is_final]. cbn [xfinal] in H. destruct (existsb (fun p0 => is_final fin (snd p0)) m2) eqn:Q; [|reflexivity].
    apply existsb_exists in Q as ([key s] & I & Q). destruct (GM key s I) as (e & IE & G).
    cbn [snd] in Q. rewrite (g_fin _ _ _ G) in Q; [discriminate|]. destruct (xfinal fin (snd e)) eqn:Q2; [|reflexivity].
    rewrite <- H. symmetry. apply existsb_exists. eauto.
Qed.
Lemma ahead_built : forall id l ra f m d, Forall (fun p => built (snd p)) m -> (forall x, d = Some x -> built x) ->
  built (XAhead id l ra f m d).
Proof.
  intros id l ra f m d BM BD h F B. cbn [build] in B.
  destruct (mapR (build k fk idf fac) l) as [hs|]; [|discriminate]. cbn [rbind] in B.
  destruct (build k fk idf fac ra) as [hr|] eqn:BR; [|discriminate]. cbn [rbind] in B.
  destruct (mapR (fun p => rmap (pair (fst p)) (build k fk idf fac (snd p))) m) as [m1|] eqn:M1; [|discriminate]. cbn [rbind] in B.
  destruct (match d with Some x => rmap Some (build k fk idf fac x) | None => Ok None end) as [d1|] eqn:D1; [|discriminate]. cbn [rbind] in B.
  unfold lookahead in B. destruct (validate_map fk no_spec idf id m1 d1) as [[m2 d2]|] eqn:V; [|discriminate]. cbn [rbind] in B.
  cbn [frag] in F. apply andb_prop in F as [F FD]. apply andb_prop in F as [SR FM].
  destruct (structy_build ra k fk idf fac hr SR BR) as (sr & S1 & TR). rewrite TR in B. cbn [rbind] in B.
  injection B as <-.
  destruct (structy_frag ra SR) as (_ & NSR & _).
  destruct (validated id m d m1 d1 m2 d2 BM BD FM FD M1 D1 V) as [GM GD].
  assert (LR : leaf sr = true /\ sall (pR md true) sr = true /\ sall (wf1 hb md) sr = true /\ sall (refs k) sr = true /\
    sall noself sr = true /\ match md, sr with URead, SUnicode _ _ => false | _, _ => true end = true).
  { destruct S1 as [->|(t & act & -> & _)]; repeat split; destruct md; reflexivity. }
  destruct LR as (LR & PR & WR & RR & NR & UR).
  repeat split. intros f2 idf2 p r _ T. apply tr_union_ann in T; [|reflexivity]. subst r. cbn [turns].
  constructor; try reflexivity; try (intros; discriminate); intros.
  - cbn [has_self] in H. rewrite NSR in H. cbn [orb] in H. apply AC_lookahead; [exact LR|exact PR| | |].
    + intros key s I. destruct (GM key s I) as (e & IE & G). apply (g_acc _ _ _ G). eapply members_self; eauto.
    + intros s E. destruct (GD s E) as (x & -> & G & _). apply (g_acc _ _ _ G). intros HS. apply H. rewrite HS. apply Bool.orb_true_r.
    + intros s E RX. apply reads_rest_final in RX. destruct (GD s E) as (x & _ & _ & NF). congruence.
  - cbn [sall wf1]. rewrite LR, PR, WR, UR. cbn [andb]. apply andb_true_intro. split.
    + rewrite forallb_forall. intros [key s] I. destruct (GM key s I) as (e & _ & G). exact (g_wf _ _ _ G).
    + destruct d2 as [s|]; [|reflexivity]. destruct (GD s eq_refl) as (x & _ & G & _). exact (g_wf _ _ _ G).
  - cbn [sall refs andb]. rewrite RR. cbn [andb]. apply andb_true_intro. split.
    + rewrite forallb_forall. intros [key s] I. destruct (GM key s I) as (e & _ & G). exact (g_refs _ _ _ G).
    + destruct d2 as [s|]; [|reflexivity]. destruct (GD s eq_refl) as (x & _ & G & _). exact (g_refs _ _ _ G).
  - cbn [has_self] in H. rewrite NSR in H. cbn [orb] in H. apply Bool.orb_false_iff in H as [H1 H2]. cbn [sall noself andb]. rewrite NR.
    cbn [andb]. apply andb_true_intro. split.
    + rewrite forallb_forall. intros [key s] I. destruct (GM key s I) as (e & IE & G). apply (g_noself _ _ _ G).
      destruct (has_self (snd e)) eqn:Q; [|reflexivity]. rewrite <- H1. symmetry. apply existsb_exists. eauto.
    + destruct d2 as [s|]; [|reflexivity]. destruct (GD s eq_refl) as (x & -> & G & _). exact (g_noself _ _ _ G H2).
  - cbn [is_final]. cbn [xfinal] in H. destruct (existsb (fun p0 => is_final fin (snd p0)) m2) eqn:Q; [|reflexivity].
    apply existsb_exists in Q as ([key s] & I & Q). destruct (GM key s I) as (e & IE & G).
    cbn [snd] in Q. rewrite (g_fin _ _ _ G) in Q; [discriminate|]. destruct (xfinal fin (snd e)) eqn:Q2; [|reflexivity].
    rewrite <- H. symmetry. apply existsb_exists. eauto.
Qed.
Lemma structy_built : forall x, structy x = true -> built x.
Proof.
  intros x S h _ B. destruct (structy_build x k fk idf fac h S B) as (s & S1 & T). split; [|split].
  - destruct h; try reflexivity. specialize (T fin idf []). discriminate T.
  - destruct h; try reflexivity; specialize (T fin idf []); discriminate T.
  - intros f2 idf2 p r _ T2. rewrite T in T2. injection T2 as <-. exact (struct1_good x k _ s S S1).
Qed.
Lemma build_good : forall x, built x.
Proof.
  induction x using hx_ind'; try (apply structy_built; reflexivity).
  - (* char *) destruct a as [c|z|b| |]; try (apply structy_built; reflexivity); intros h F B; cbn [build] in B; cbn [frag] in F;
      apply (char_good fac _ _ F) in B as (s & -> & D & L & W & BO & FN & IS & _); (apply plain_built; [auto|exact D|]);
      apply leaf_good; auto; intros; cbn in *; congruence.
  - (* unicode *) intros h F B. cbn [build] in B. cbn [frag] in F. unfold unicode_create in B.
    assert (is_tv (carg_py a) = false) as TV by (destruct a; reflexivity). rewrite TV in B.
    destruct (char_create fac (carg_py a)) as [h0|] eqn:C; [|discriminate]. cbn [rbind] in B.
    apply (char_good fac _ _ F) in C as (s & -> & D & L & W & BO & FN & IS & _).
    unfold t_bytes in B. rewrite tr_plain in B by exact D. cbn [rbind] in B. injection B as <-. apply plain_built; [auto|reflexivity|].
    apply leaf_good; try reflexivity; try (intros; reflexivity).
    + exact L.
    + cbn [sall wf1]. now rewrite L, W.
    + cbn [is_final]. rewrite FN. cbn [xfinal]. intros X. destruct a; congruence.
  - now apply array_built.
  - now apply tuple_built.
  - now apply cond_built.
  - (* SerializeAs *) intros h F B. destruct (structy x) eqn:S; [now apply (structy_built (XAs a x) S h F)|].
    cbn [build] in B. destruct (build k fk idf fac x) as [h0|] eqn:BI; [|discriminate]. cbn [rbind] in B.
    unfold serialize_as in B. destruct (transform fk no_spec idf false [] h0) as [r|] eqn:T; [|discriminate]. cbn [rbind] in B.
    destruct r; try discriminate B. destruct s; try discriminate B.
    exfalso. cbn [frag] in F. pose proof (built_ser _ _ _ _ _ _ IHx F BI FK T) as G. discriminate (g_struct _ _ _ G S).
  - now apply back_built.
  - now apply ahead_built.
  - intros h _ B. cbn [build] in B. destruct (Nat.ltb c k) eqn:LT; [|discriminate]. injection B as <-. repeat split.
    intros f2 idf2 p r _ T. cbn in T. injection T as <-. cbn [turns]. constructor; try reflexivity; intros; try reflexivity.
    + apply AC_structured.
    + cbn [sall refs]. now rewrite LT.
    + exact H.
  - intros h _ B. cbn [build] in B. injection B as <-. repeat split. intros f2 idf2 p r _ T. cbn in T. injection T as <-. cbn [turns].
    constructor; try reflexivity; intros; try reflexivity; try discriminate. apply AC_self. now apply H.
  - intros h _ B. cbn [build] in B. destruct (build k fk idf fac x); [|discriminate]. injection B as <-. repeat split.
    intros f2 idf2 p r _ T. cbn in T. injection T as <-. reflexivity.
  - intros h _ B. cbn [build] in B. injection B as <-. repeat split.
    intros f2 idf2 p r _ T. cbn in T. injection T as <-. reflexivity.
Qed.
End Good.
