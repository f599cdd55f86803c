(** Which hint expressions and class statements the library accepts: a check on the text of the program alone,
    and the proof that the factories and the class machinery of Hints.v agree with it. *)
From Verif Require Import Base Floats Value StructMod Format Ser Exec Pure BaseFacts StructFacts FormatFacts
  SerFacts RefPack RefUnpack User DecFacts RoundTrip RoundTripMain Adding PropsAdd PropsFinal Hints HintFacts
  Surface SerShape Programs.

(** ** the check, on hint expressions *)
(** becomes the empty serializer *)
Definition nothing (x : hx) : bool := match x with XPad n | XPascal n | XChar (KInt n) => n =? 0 | _ => false end.
(** padding that gets a name of its own in a class body *)
Definition padding (x : hx) : bool := match x with XPad n => 0 <? n | _ => false end.
(** how many values the field counts for *)
Fixpoint vals (x : hx) : nat :=
  match x with
  | XPad _ => 0
  | XPascal n | XChar (KInt n) => if (n =? 0)%Z then 0 else 1
  | XArray (inr _) _ y => if structy y && Nat.eqb (vals y) 1 then 0 else 1
  | XCond y _ _ => vals y
  | _ => 1
  end%nat.
(** is serialized at all *)
Fixpoint serial (x : hx) : bool :=
  match x with
  | XPlain _ | XClassVar _ => false
  | XTuple l => match l with [] => false | _ => forallb serial l end
  | _ => true
  end.
Section Check.
Variable k : nat.                 (* number of classes defined so far *)
Variable F : nat -> bool.         (* those that read to the end of the input *)
(** a field that reads to the end is followed by another one *)
Fixpoint crowded (l : list hx) : bool :=
  match l with
  | [] => false
  | x :: l' => xfinal F x && existsb (fun y => negb (nothing y)) l' || crowded l'
  end.
(** can be used as the hint of a field *)
Fixpoint use_ok (x : hx) : bool :=
  match x with
  | XTuple l => forallb use_ok l && (negb (forallb serial l) || negb (crowded l))
  | XCond y _ d => use_ok y && serial y && Nat.eqb (vals y) (List.length d)
  | XBack _ l _ _ _ | XAhead _ l _ _ _ _ => negb (match l with [] => true | _ => false end) && forallb use_ok l
  | _ => true
  end.
Definition carg_eval (a : carg) : bool :=
  match a with KUint c => size_code c | KInt z => 0 <=? z | KBytes b => Nat.eqb (List.length b) 1 | _ => true end.
(** the expression can be evaluated *)
Fixpoint eval_ok (x : hx) : bool :=
  match x with
  | XBasic c => basic_code c
  | XPad n | XPascal n => 0 <=? n
  | XChar a | XUnicode a _ => carg_eval a
  | XArray n s y =>
      match n with inl z => 0 <=? z | inr c => size_code c end
      && match s with Some c => size_code c | None => true end
      && (eval_ok y && use_ok y && serial y && negb (xfinal F y))
  | XTuple l => forallb eval_ok l
  | XCond y _ _ | XClassVar y => eval_ok y
  | XAs _ y => eval_ok y && structy y && Nat.eqb (vals y) 1
  | XBack _ l _ m d =>
      forallb eval_ok l
      && forallb (fun p => eval_ok (snd p) && use_ok (snd p) && serial (snd p) && Nat.eqb (vals (snd p)) 1) m
      && match d with Some y => eval_ok y && use_ok y && serial y && Nat.eqb (vals y) 1 | None => true end
  | XAhead _ l ra _ m d =>
      forallb eval_ok l && (eval_ok ra && use_ok ra && serial ra)
      && forallb (fun p => eval_ok (snd p) && use_ok (snd p) && serial (snd p) && Nat.eqb (vals (snd p)) 1) m
      && match d with Some y => eval_ok y && use_ok y && serial y && Nat.eqb (vals y) 1 | None => true end
  | XClass c => Nat.ltb c k
  | XSelf | XPlain _ => true
  end.
End Check.

(** ** the check depends on [F] only at the classes mentioned *)
Lemma existsb_ext_F : forall {A} (p q : A -> bool) l, Forall (fun x => p x = q x) l -> existsb p l = existsb q l.
Proof. intros A p q l H. induction H as [|x l E H IH]; cbn; [reflexivity|]. now rewrite E, IH. Qed.
Lemma forallb_ext_F : forall {A} (p q : A -> bool) l, Forall (fun x => p x = q x) l -> forallb p l = forallb q l.
Proof. intros A p q l H. induction H as [|x l E H IH]; cbn; [reflexivity|]. now rewrite E, IH. Qed.
Lemma forallb_F : forall {A} (p : A -> bool) l, forallb p l = true -> Forall (fun x => p x = true) l.
Proof. intros A p l H. rewrite forallb_forall in H. now apply Forall_forall. Qed.
Section CheckExt.
Variables (k : nat) (f g : nat -> bool).
Hypothesis FG : forall d, (d < k)%nat -> f d = g d.
Lemma xfinal_ext : forall x, eval_ok k f x = true -> xfinal f x = xfinal g x.
Proof.
  induction x using hx_ind'; intros E; cbn [xfinal eval_ok] in *; try reflexivity.
  - apply existsb_ext_F. apply forallb_F in E. rewrite Forall_forall in *. auto.
  - auto.
  - apply existsb_ext_F. apply andb_prop in E as [E _]. apply andb_prop in E as [_ E]. apply forallb_F in E.
    rewrite Forall_forall in *. intros p I. apply H0; [exact I|]. specialize (E p I). cbn in E.
    repeat (apply andb_prop in E as [E _]). exact E.
  - apply existsb_ext_F. apply andb_prop in E as [E _]. apply andb_prop in E as [_ E]. apply forallb_F in E.
    rewrite Forall_forall in *. intros p I. apply H0; [exact I|]. specialize (E p I). cbn in E.
    repeat (apply andb_prop in E as [E _]). exact E.
  - apply FG. now apply Nat.ltb_lt in E.
Qed.
Lemma crowded_ext : forall l, forallb (eval_ok k f) l = true -> crowded f l = crowded g l.
Proof.
  induction l as [|x l IH]; intros E; [reflexivity|]. cbn in E. apply andb_prop in E as [E1 E2]. cbn [crowded].
  now rewrite (xfinal_ext x E1), IH.
Qed.
Lemma use_ext : forall x, eval_ok k f x = true -> use_ok f x = use_ok g x.
Proof.
  induction x using hx_ind'; intros E; cbn [use_ok eval_ok] in *; try reflexivity.
  - rewrite (crowded_ext l E). f_equal. apply forallb_ext_F. apply forallb_F in E. rewrite Forall_forall in *. auto.
  - rewrite IHx by exact E. reflexivity.
  - f_equal. apply andb_prop in E as [E _]. apply andb_prop in E as [E _]. apply forallb_ext_F. apply forallb_F in E.
    rewrite Forall_forall in *. auto.
  - f_equal. apply andb_prop in E as [E _]. apply andb_prop in E as [E _]. apply andb_prop in E as [E _].
    apply forallb_ext_F. apply forallb_F in E. rewrite Forall_forall in *. auto.
Qed.
End CheckExt.

(** ** sums of fields *)
(** the serializer that a hint expression turns into, in full; [bo]: the byte order it was given.  Identities of
    objects and the order in which sums were made are left open. *)
Section All2.
Context {A B : Type} (R : A -> B -> Prop).
Fixpoint all2 (l : list A) (m : list B) : Prop :=
  match l, m with [], [] => True | a :: l', b :: m' => R a b /\ all2 l' m' | _, _ => False end.
End All2.
Definition counted (bo : border) (c : code) (n : Z) (s : ser) : Prop :=
  if n =? 0 then s = SNull
  else exists t, s = SStruct (SS bo [t] None) /\ t_code t = c /\ Z.of_nat (cnt t) = n /\ (n = 1 -> t_cnt t = None).
Definition char_made (bo : border) (a : carg) (s : ser) : Prop :=
  match a with
  | KUint c => size_code c = true /\ exists id, s = SDynChar id (SS bo [T None c] None)
  | KInt n => counted bo Cs n s
  | KBytes [t] => exists id, s = STerm id t
  | KBytes _ => False
  | KInf => exists id, s = SConsume id
  | KNet => exists id, s = SNet id
  end.
Definition head_ok (n : Z + code) (sz : option code) : bool :=
  match n with inl z => 0 <=? z | inr c => size_code c end && match sz with Some c => size_code c | None => true end.
Definition head_made (bo : border) (n : Z + code) (sz : option code) : option sspec :=
  match n, sz with
  | inl _, None => None
  | inl _, Some d => Some (SS bo [T None d] None)
  | inr c, None => Some (SS bo [T None c] None)
  | inr c, Some d => Some (SS bo (fold_overlaps false [T None c] [T None d]) None)
  end.
Fixpoint made (bo : border) (x : hx) (s : ser) {struct x} : Prop :=
  match x with
  | XBasic c => basic_code c = true /\ s = SStruct (SS bo [T None c] None)
  | XPad n => counted bo Cx n s
  | XPascal n => counted bo Cp n s
  | XChar a => char_made bo a s
  | XUnicode a cd => exists i, s = SUnicode i cd /\ char_made BO_DEFAULT a i
  | XArray n sz y => head_ok n sz = true /\ exists i, made bo y i /\
      if structy y && Nat.eqb (vals y) 1
      then exists st, i = SStruct st /\
             match n with
             | inl z => s = SStaticArr (Z.to_nat z) st
             | inr c => exists id, s = SDynArr id (SS bo [T None c] None) st
             end
      else exists id, s = SArray id (head_made bo n sz) i (match n with inl z => z | inr _ => -1 end)
  | XTuple l => exists fin id id' sers i, s = STuple id i /\ ssum fin id' sers = Ok i /\ all2 (made BO_DEFAULT) l sers
  | XCond y f d => exists i, s = SCond f i d /\ made bo y i /\ List.length d = num_values i
  | XAs a y => exists st st', s = SStruct st /\ made bo y (SStruct st') /\
      s_fmt st = s_fmt st' /\ s_bo st = bo /\ ss_nvals st = 1%nat /\ ss_wf st = true /\
      s_act st = Some (match s_act st' with Some l => l | None => [a] end)
  | XBack _ _ f m d => exists id ms ds, s = SLookback id f ms ds /\
      all2 (fun p q => fst p = fst q /\ made BO_DEFAULT (snd p) (snd q)) m ms /\
      match d, ds with None, None => True | Some y, Some t => made BO_DEFAULT y t | _, _ => False end
  | XAhead _ _ ra f m d => exists id r ms ds, s = SLookahead id r f ms ds /\ made BO_DEFAULT ra r /\
      all2 (fun p q => fst p = fst q /\ made BO_DEFAULT (snd p) (snd q)) m ms /\
      match d, ds with None, None => True | Some y, Some t => made BO_DEFAULT y t | _, _ => False end
  | XClass c => exists id, s = SStructd id c
  | XSelf => exists id, s = SSelf id
  | XClassVar _ | XPlain _ => False
  end.
Definition traits (k : nat) (f : nat -> bool) (x : hx) (s : ser) : Prop :=
  num_values s = vals x /\ is_final f s = xfinal f x /\ is_compound s = false /\ bo_is BO_DEFAULT s /\
  match s with SNull => nothing x = true | _ => nothing x = false end /\
  ser_ispad s = padding x /\ match s with SStruct _ => structy x = true | SNull => True | _ => structy x = false end /\
  sall (refs k) s = true.
Definition fits (k : nat) (f : nat -> bool) (x : hx) (s : ser) : Prop := traits k f x s /\ made BO_DEFAULT x s.
Lemma all2_F2 : forall {A B} (R : A -> B -> Prop) l m, all2 R l m <-> Forall2 R l m.
Proof.
  intros A B R. induction l as [|a l IH]; intros [|b m]; cbn; split; intros H; try constructor; try inversion H; subst; try tauto; now apply IH.
Qed.
Lemma made_wf : forall x bo st, made bo x (SStruct st) -> ss_wf st = true.
Proof.
  assert (C : forall bo c n st, counted bo c n (SStruct st) -> ss_wf st = true).
  { intros bo c n st H. unfold counted in H. destruct (n =? 0); [discriminate|]. destruct H as (t & E & _). injection E as ->. reflexivity. }
  induction x using hx_ind'; intros bo st M; cbn [made] in M; try contradiction; try (destruct M as (? & Q & _); discriminate Q); eauto.
  - destruct M as [_ M]. injection M as ->. reflexivity.
  - destruct a; cbn [char_made] in M; eauto; try (destruct M as [_ [? M]]; discriminate); try (destruct M; discriminate). destruct b as [|? []]; try contradiction. destruct M; discriminate.
  - destruct M as (_ & i & _ & M). destruct (structy x && Nat.eqb (vals x) 1).
    + destruct M as (? & _ & M). destruct n; [discriminate|]. destruct M; discriminate.
    + destruct M; discriminate.
  - destruct M as (? & ? & ? & ? & ? & Q & _). discriminate Q.
  - destruct M as (st0 & ? & Q & _ & _ & _ & _ & W & _). injection Q as ->. exact W.
  - destruct M as (? & ? & ? & Q & _). discriminate Q.
  - destruct M as (? & ? & ? & ? & Q & _). discriminate Q.
  - destruct M as (? & Q). discriminate Q.
  - destruct M as (? & Q). discriminate Q.
Qed.
Lemma fits_made : forall k f l sers, Forall2 (fits k f) l sers -> all2 (made BO_DEFAULT) l sers.
Proof. intros k f l sers F. apply all2_F2. induction F as [|x s l sers [_ M] F IH]; constructor; auto. Qed.
Lemma blocked_crowded : forall k f l sers, Forall2 (fits k f) l sers -> forall b,
  blocked f b sers = b && existsb (fun y => negb (nothing y)) l || crowded f l.
Proof.
  intros k f l sers H. induction H as [|x s l sers [(_ & FX & _ & _ & N & _) _] H IH]; intros b; [now destruct b|].
  cbn [crowded existsb].
  assert (C : s = SNull \/ (s <> SNull /\ nothing x = false)) by (destruct s; [now left|..]; right; (split; [discriminate|exact N])).
  destruct C as [->|[NS NX]].
  - cbn [blocked]. rewrite IH, N. cbn [negb orb]. cbn [is_final] in FX. rewrite <- FX. reflexivity.
  - assert (B : blocked f b (s :: sers) = b || blocked f (is_final f s) sers) by (destruct s; try reflexivity; congruence).
    rewrite B, IH, NX, FX. cbn [negb orb]. rewrite Bool.andb_true_r. reflexivity.
Qed.
Lemma endf_exists : forall k f l sers, Forall2 (fits k f) l sers -> forall b, blocked f b sers = false ->
  endf f b sers = b || existsb (xfinal f) l.
Proof.
  intros k f l sers H. induction H as [|x s l sers [(_ & FX & _ & _ & N & _) _] H IH]; intros b B; [cbn; now rewrite Bool.orb_false_r|].
  cbn [existsb].
  assert (C : s = SNull \/ s <> SNull) by (destruct s; [now left|..]; right; discriminate).
  destruct C as [->|NS].
  - cbn [endf]. cbn [blocked] in B. rewrite (IH b B). cbn [is_final] in FX. rewrite <- FX. reflexivity.
  - assert (E : blocked f b (s :: sers) = b || blocked f (is_final f s) sers) by (destruct s; try reflexivity; congruence).
    assert (Q : endf f b (s :: sers) = endf f (is_final f s) sers) by (destruct s; try reflexivity; congruence).
    rewrite E in B. apply Bool.orb_false_elim in B as [-> B]. rewrite Q, (IH _ B), FX. reflexivity.
Qed.
Lemma sum_fits : forall k f id l sers, Forall2 (fits k f) l sers ->
  if crowded f l then ssum f id sers = Err TypeError
  else exists s, ssum f id sers = Ok s /\ is_final f s = existsb (xfinal f) l /\ sall (refs k) s = true.
Proof.
  intros k f id l sers H.
  assert (I : Forall (item_ok BO_DEFAULT) sers).
  { clear -H. induction H as [|x s l sers [(_ & _ & C & B & _) _] H IH]; constructor; auto. split; assumption. }
  pose proof (sum_from_final f id BO_DEFAULT sers SNull ltac:(split; [reflexivity|exact Logic.I]) I) as S. cbn [is_final] in S.
  pose proof (blocked_crowded k f l sers H false) as BC. cbn [andb orb] in BC. rewrite BC in S. unfold ssum.
  destruct (crowded f l) eqn:C; [exact S|]. destruct S as (s & E & FS). exists s. split; [exact E|]. split.
  - rewrite FS. exact (endf_exists k f l sers H false BC).
  - eapply (ssum_sall (refs k) f id sers s); try reflexivity; [| |exact E].
    + clear -H. induction H as [|x s l sers Q H IH]; [reflexivity|]. cbn. rewrite IH. destruct Q as [(_ & _ & _ & _ & _ & _ & _ & ->) _]. reflexivity.
    + clear -I. induction I as [|s l [C _] I IH]; constructor; auto.
Qed.

(** ** building and transforming *)
Section Judge.
Variables (k : nat) (fk : nat -> bool) (idf : list nat -> nat) (fac : akind -> list pyh -> nat).
Definition agrees (f2 : nat -> bool) : Prop := forall d, (d < k)%nat -> f2 d = fk d.
(** a hint that is not serialized stays what it is, and takes no condition *)
Definition stays (f2 : nat -> bool) (idf2 : list nat -> nat) (p : list nat) (h r : pyh) : Prop :=
  match r with PSer _ => False | _ => True end /\
  forall f d, pass f2 no_spec idf2 false p (gosub f2 no_spec idf2 p 0 (hargs (hbase h))) (PCond f d) r = Err TypeError.
Definition judged (x : hx) (h : pyh) : Prop :=
  is_tv h = false /\ is_alias h = false /\ eval_fwd h = h /\
  (match h with PClassVar _ => True | _ => False end <-> match x with XClassVar _ => True | _ => False end) /\
  forall f2 idf2 p, agrees f2 ->
    if use_ok f2 x then
      exists r, transform f2 no_spec idf2 false p h = Ok r /\
        if serial x then exists s, r = PSer s /\ fits k f2 x s else stays f2 idf2 p h r
    else exists e, transform f2 no_spec idf2 false p h = Err e.
Definition verdict (x : hx) : Prop :=
  if eval_ok k fk x then exists h, build k fk idf fac x = Ok h /\ judged x h
  else exists e, build k fk idf fac x = Err e.

(** a factory result *)
Lemma ann_judged : forall x t a s, is_decider s = false -> use_ok fk x = true -> (forall f2, use_ok f2 x = use_ok fk x) ->
  serial x = true -> match x with XClassVar _ => False | _ => True end -> (forall f2, agrees f2 -> fits k f2 x s) ->
  judged x (PAnn (POther t a) [PSer s]).
Proof.
  intros x t a s D U UE SX NC G. split; [reflexivity|]. split; [reflexivity|]. split; [reflexivity|].
  split; [destruct x; tauto|]. intros f2 idf2 p AG. rewrite UE, U, SX. exists (PSer s). split; [now apply tr_plain|].
  exists s. split; [reflexivity|auto].
Qed.
Lemma matmul_spec : forall c n,
  if n <? 0 then ss_matmul (SS BO_DEFAULT [T None c] None) n = Err ValueError
  else if n =? 0 then ss_matmul (SS BO_DEFAULT [T None c] None) n = Ok None
  else exists m, ss_matmul (SS BO_DEFAULT [T None c] None) n = Ok (Some (SS BO_DEFAULT [T m c] None)) /\ cnt (T m c) = Z.to_nat n /\ (n = 1 -> m = None).
Proof.
  intros c n. destruct (n =? 0) eqn:Z0.
  { apply Z.eqb_eq in Z0. subst n. reflexivity. }
  destruct (n <? 0) eqn:N0; [unfold ss_matmul, ss_mul_impl; now rewrite Z0, N0|].
  destruct (matmul_char BO_DEFAULT c n ltac:(lia)) as ([m c'] & E & _ & C & K). cbn in C. subst c'. exists m. split; [exact E|]. split; [exact K|].
  intros ->. cbn in E. congruence.
Qed.
Lemma nvals_pads : forall m, nvals [T m Cx] = 0%nat.
Proof.
  intros m. unfold nvals, nvals_u, expand. cbn [flat_map expand_tok t_code]. rewrite app_nil_r. generalize (cnt (T m Cx)) as q.
  induction q as [|q IH]; [reflexivity|exact IH].
Qed.
(** a repeated specifier: pad, pascal, char *)
Lemma counted_judged : forall x t a c n, use_ok fk x = true -> (forall f2, use_ok f2 x = use_ok fk x) ->
  serial x = true -> structy x = true -> match x with XClassVar _ => False | _ => True end ->
  (forall f2, xfinal f2 x = false) -> nothing x = (n =? 0) ->
  vals x = (if n =? 0 then 0%nat else nvals [T None c]) ->
  (c = Cs \/ c = Cp \/ c = Cx) -> (0 <= n -> padding x = (negb (n =? 0) && code_eqb c Cx)) ->
  (forall s, counted BO_DEFAULT c n s -> made BO_DEFAULT x s) ->
  if 0 <=? n
  then exists h, (rdo o <- ss_matmul (SS BO_DEFAULT [T None c] None) n; Ok (PAnn (POther t a) [PSer (o2s o)])) = Ok h /\ judged x h
  else exists e, (rdo o <- ss_matmul (SS BO_DEFAULT [T None c] None) n; Ok (PAnn (POther t a) [PSer (o2s o)])) = Err e.
Proof.
  intros x t a c n U UE SX SY NC NF NO V CC PD MD. pose proof (matmul_spec c n) as M. destruct (0 <=? n) eqn:L.
  - assert (N0 : n <? 0 = false) by (apply Z.leb_le in L; apply Z.ltb_ge; exact L). rewrite N0 in M.
    apply Z.leb_le in L. specialize (PD L). destruct (n =? 0) eqn:Z0.
    + rewrite M. cbn [rbind o2s]. eexists. split; [reflexivity|]. apply ann_judged; auto.
      intros f2 _. split; [|apply MD; unfold counted; now rewrite Z0].
      unfold traits. cbn [num_values is_final is_compound bo_is ser_ispad sall refs andb].
      rewrite V, NF, NO, PD. cbn. repeat split; auto.
    + destruct M as (m & M & CN & C1). rewrite M. cbn [rbind o2s]. eexists. split; [reflexivity|]. apply ann_judged; auto.
      intros f2 _. split; [|apply MD; unfold counted; rewrite Z0; eexists; split; [reflexivity|split; [reflexivity|split; [rewrite CN; apply Z2Nat.id; exact L|exact C1]]]].
      unfold traits. cbn [num_values is_final is_compound bo_is ser_ispad sall refs andb].
      rewrite V, NF, NO, PD, SY. cbn [s_bo negb andb]. unfold ss_nvals.
      destruct CC as [->|[->| ->]]; cbn [s_fmt]; rewrite ?nvals_pads; cbn; repeat split; auto.
  - assert (N0 : n <? 0 = true) by (apply Z.leb_gt in L; apply Z.ltb_lt; exact L). rewrite N0 in M. rewrite M. cbn. eauto.
Qed.
Lemma basic_verdict : forall c, verdict (XBasic c).
Proof.
  intros c. unfold verdict. cbn [eval_ok build]. destruct (basic_code c) eqn:B; [|eauto].
  eexists. split; [reflexivity|]. unfold basic. 
  assert (forall t a, judged (XBasic c) (PAnn (POther t a) [PSer (SStruct (SS BO_DEFAULT [T None c] None))])).
  { intros t a. apply ann_judged; auto. intros f2 _. split; [|split; [exact B|reflexivity]]. unfold traits. destruct c; try discriminate B; cbn; repeat split; auto. }
  destruct c; apply H.
Qed.
Lemma pad_verdict : forall n, verdict (XPad n).
Proof.
  intros n. unfold verdict. cbn [eval_ok build]. unfold pad_getitem. apply (counted_judged (XPad n)); auto; try reflexivity.
  - cbn. now destruct (n =? 0).
  - intros L. cbn [padding code_eqb]. rewrite Bool.andb_true_r. destruct (n =? 0) eqn:E.
    + apply Z.eqb_eq in E. now subst n.
    + apply Z.eqb_neq in E. cbn. apply Z.ltb_lt. lia.
Qed.
Lemma pascal_verdict : forall n, verdict (XPascal n).
Proof.
  intros n. unfold verdict. cbn [eval_ok build]. unfold pascal_getitem. apply (counted_judged (XPascal n)); auto; try reflexivity.
  intros L. cbn. now destruct (n =? 0).
Qed.
(** [char[a]] *)
Lemma char_verdict : forall a, verdict (XChar a).
Proof.
  intros a. unfold verdict. cbn [eval_ok build]. destruct a; cbn [carg_eval carg_py]; unfold char_create.
  - assert (SZ : size_type (basic c) = if size_code c then Some (SS BO_DEFAULT [T None c] None) else None) by (destruct c; reflexivity).
    rewrite SZ. destruct (size_code c) eqn:S.
    + eexists. split; [reflexivity|]. apply ann_judged; auto. intros f2 _. split; [|cbn; eauto]. cbn. repeat split; auto.
    + exists TypeError. destruct c; reflexivity.
  - cbn [size_type]. apply (counted_judged (XChar (KInt z))); auto; try reflexivity.
    intros L. cbn. now destruct (z =? 0).
  - cbn [size_type]. destruct b as [|b0 [|b1 b]]; cbn; eauto. eexists. split; [reflexivity|]. apply ann_judged; auto.
    intros f2 _. split; [|cbn; eauto]. cbn. repeat split; auto.
  - cbn [size_type]. eexists. split; [reflexivity|]. apply ann_judged; auto. intros f2 _. split; [|cbn; eauto]. cbn. repeat split; auto.
  - cbn [size_type]. eexists. split; [reflexivity|]. apply ann_judged; auto. intros f2 _. split; [|cbn; eauto]. cbn. repeat split; auto.
Qed.
Lemma unicode_verdict : forall a cd, verdict (XUnicode a cd).
Proof.
  intros a cd. pose proof (char_verdict a) as V. unfold verdict in *. cbn [eval_ok build] in *. unfold unicode_create.
  assert (TV : is_tv (carg_py a) = false) by (destruct a; try reflexivity; destruct c; reflexivity). rewrite TV.
  destruct (carg_eval a) eqn:CE.
  - destruct V as (h & -> & J). cbn [rbind]. destruct J as (_ & _ & _ & _ & J).
    specialize (J fk idf [] (fun _ _ => eq_refl)). cbn [use_ok serial] in J. destruct J as (r & -> & s & -> & FT). cbn [rbind].
    eexists. split; [reflexivity|]. apply ann_judged; auto. intros f2 AG. destruct FT as [(_ & FI & _ & _ & _ & _ & _ & RF) MD].
    split; [|cbn; eauto]. unfold traits. cbn [num_values is_final is_compound bo_is ser_ispad sall refs andb nothing padding structy vals].
    repeat split; auto. transitivity (is_final fk s); [|rewrite FI; destruct a; reflexivity].
    apply (final_ext f2 fk k); auto.
  - destruct V as (e & ->). cbn. eauto.
Qed.
(** [Header[n, s]] *)
Lemma header_eval : forall n s,
  if match n with inl z => 0 <=? z | inr c => size_code c end && match s with Some c => size_code c | None => true end
  then exists cnt size, header_create (match n with inl z => PInt z | inr c => basic c end) (match s with Some c => basic c | None => PNone end)
         = Ok (PHeader cnt size) /\
       match n with inl z => cnt = inl z | inr c => cnt = inr (SS BO_DEFAULT [T None c] None) end /\
       match s with None => size = None | Some c => size = Some (SS BO_DEFAULT [T None c] None) end
  else exists e, header_create (match n with inl z => PInt z | inr c => basic c end) (match s with Some c => basic c | None => PNone end) = Err e.
Proof.
  intros n s.
  assert (SZ : forall c, size_type (basic c) = if size_code c then Some (SS BO_DEFAULT [T None c] None) else None)
    by (intros c; destruct c; reflexivity).
  assert (TV : (is_tv (match n with inl z => PInt z | inr c => basic c end) || is_tv (match s with Some c => basic c | None => PNone end)) = false)
    by (destruct n, s; reflexivity).
  unfold header_create. rewrite TV.
  assert (S2 : forall cnt, let r := match size_type (match s with Some c => basic c | None => PNone end), (match s with Some c => basic c | None => PNone end) with
    | Some st, _ => Ok (PHeader cnt (Some st)) | None, PNone => Ok (PHeader cnt None) | None, _ => Err TypeError end in
    if match s with Some c => size_code c | None => true end
    then exists size, r = Ok (PHeader cnt size) /\ match s with None => size = None | Some c => size = Some (SS BO_DEFAULT [T None c] None) end
    else exists e, r = Err e).
  { intros cnt r. unfold r. destruct s as [c|]; [|exists None; split; reflexivity]. rewrite SZ.
    destruct (size_code c); [eexists; split; reflexivity|]. exists TypeError. reflexivity. }
  destruct n as [z|c].
  - cbn [size_type]. destruct (0 <=? z) eqn:L.
    + assert (z <? 0 = false) as -> by (apply Z.leb_le in L; now apply Z.ltb_ge). cbn [rbind andb]. specialize (S2 (inl z)). cbn zeta in S2.
      destruct (match s with Some c => size_code c | None => true end); [|exact S2]. destruct S2 as (size & E & Q). eauto.
    + assert (z <? 0 = true) as -> by (apply Z.leb_gt in L; now apply Z.ltb_lt). cbn. eauto.
  - rewrite SZ. destruct (size_code c); [|exists TypeError; reflexivity]. cbn [rbind andb]. specialize (S2 (inr (SS BO_DEFAULT [T None c] None))). cbn zeta in S2.
    destruct (match s with Some c => size_code c | None => true end); [|exact S2]. destruct S2 as (size & E & Q). eauto.
Qed.
Lemma array_built : forall n sz cnt size y i, judged y i -> head_ok n sz = true ->
  match n with inl z => cnt = inl z | inr c => cnt = inr (SS BO_DEFAULT [T None c] None) end ->
  match sz with None => size = None | Some c => size = Some (SS BO_DEFAULT [T None c] None) end ->
  if use_ok fk y && serial y && negb (xfinal fk y)
  then exists h, array_create fk no_spec idf fac (PHeader cnt size) i = Ok h /\ judged (XArray n sz y) h
  else exists e, array_create fk no_spec idf fac (PHeader cnt size) i = Err e.
Proof.
  intros n sz cnt size y i (TV & _ & _ & _ & J) HO HC HS. unfold array_create. cbn [is_alias]. rewrite TV. cbn [orb].
  set (id := fac AkArray [PHeader cnt size; i]). specialize (J fk idf [0; 0; id]%nat (fun _ _ => eq_refl)).
  destruct (use_ok fk y) eqn:U; [|destruct J as (e & ->); cbn; eauto]. destruct J as (r & -> & J). cbn [rbind andb].
  destruct (serial y) eqn:SY.
  2:{ destruct J as (NS & _). destruct r; try contradiction; cbn; eauto. }
  destruct J as (s & -> & ((NV & FI & CO & BO & NO & PD & ST & RF) & MD)). cbn [andb]. rewrite FI. destruct (xfinal fk y); [cbn; eauto|].
  cbn [negb].
  assert (ARR : forall h z, (structy y && Nat.eqb (vals y) 1)%bool = false -> h = head_made BO_DEFAULT n sz ->
    z = match n with inl z => z | inr _ => -1 end -> judged (XArray n sz y) (PAnn t_list [PSer (SArray id h s z)])).
  { intros h z Q -> ->. apply ann_judged; auto. intros f2 _.
    split; [|cbn [made]; split; [exact HO|]; exists s; split; [exact MD|]; rewrite Q; eauto]. unfold traits. cbn [num_values is_final is_compound bo_is ser_ispad sall refs andb nothing padding structy vals xfinal].
    rewrite Q, RF. destruct n; repeat split; auto. }
  assert (C : (exists st, s = SStruct st /\ Nat.eqb (num_values s) 1 = true /\ (structy y && Nat.eqb (vals y) 1)%bool = true) \/
    (match s, Nat.eqb (num_values s) 1 with SStruct _, true => true | _, _ => false end = false /\ (structy y && Nat.eqb (vals y) 1)%bool = false)).
  { rewrite <- NV. destruct s; try (right; split; [reflexivity|]; rewrite ?ST; reflexivity).
    - right. split; [reflexivity|]. apply Bool.andb_false_r.
    - destruct (Nat.eqb (num_values (SStruct st)) 1) eqn:Q; [|right; split; [reflexivity|apply Bool.andb_false_r]].
      left. exists st. rewrite ST. auto. }
  destruct C as [(st & -> & Q & K)|[Q K]].
  - rewrite Q. destruct n as [z|c]; subst cnt.
    + eexists. split; [reflexivity|]. apply ann_judged; auto. intros f2 _.
      split; [|cbn [made]; split; [exact HO|]; exists (SStruct st); split; [exact MD|]; rewrite K; eauto]. unfold traits. cbn. repeat split; auto.
    + eexists. split; [reflexivity|]. apply ann_judged; auto. intros f2 _.
      split; [|cbn [made]; split; [exact HO|]; exists (SStruct st); split; [exact MD|]; rewrite K; eauto]. unfold traits.
      cbn [num_values is_final is_compound bo_is ser_ispad sall refs andb nothing padding structy vals xfinal]. rewrite K. repeat split; auto.
  - assert (E : forall (A B : res pyh), match s, Nat.eqb (num_values s) 1 with SStruct _, true => A | _, _ => B end = B).
    { intros A B. destruct s; try reflexivity. destruct (Nat.eqb (num_values (SStruct st)) 1); [discriminate Q|reflexivity]. }
    set (R := match cnt, size with
              | inl z, None => Ok (PAnn t_list [PSer (SArray id None s z)])
              | inl z, Some d => Ok (PAnn t_list [PSer (SArray id (Some d) s z)])
              | inr c, None => Ok (PAnn t_list [PSer (SArray id (Some c) s (-1))])
              | inr c, Some d => rdo cd <- ss_add c d; Ok (PAnn t_list [PSer (SArray id (Some cd) s (-1))])
              end).
    assert (GOAL : exists h, R = Ok h /\ judged (XArray n sz y) h).
    { unfold R. destruct n as [z|c], sz as [d|]; subst cnt size; cbn [ss_add s_act s_bo border_eqb rbind]; eauto. }
    clearbody R. clear ARR HC HS. destruct s; try exact GOAL. destruct (Nat.eqb (num_values (SStruct st)) 1); [discriminate Q|exact GOAL].
Qed.
Lemma array_verdict : forall n s y, verdict y -> verdict (XArray n s y).
Proof.
  intros n sz y V. unfold verdict in *. cbn [eval_ok build]. pose proof (header_eval n sz) as H.
  destruct (match n with inl z => 0 <=? z | inr c => size_code c end && match sz with Some c => size_code c | None => true end) eqn:HO;
    [|destruct H as (e & ->); cbn; eauto]. fold (head_ok n sz) in HO.
  destruct H as (cnt & size & -> & HC & HS). cbn [rbind andb]. destruct (eval_ok k fk y) eqn:EV; [|destruct V as (e & ->); cbn; eauto].
  destruct V as (i & -> & J). cbn [rbind andb]. exact (array_built n sz cnt size y i J HO HC HS).
Qed.
Lemma structy_use : forall f2 y, structy y = true -> use_ok f2 y = true.
Proof. intros f2 y H. destruct y; try discriminate H; reflexivity. Qed.
Lemma as_verdict : forall a y, verdict y -> verdict (XAs a y).
Proof.
  intros a y V. unfold verdict in *. cbn [eval_ok build]. destruct (eval_ok k fk y) eqn:EV; [|destruct V as (e & ->); cbn; eauto].
  destruct V as (h & -> & (_ & _ & _ & _ & J)). cbn [rbind andb]. unfold serialize_as. specialize (J fk idf [] (fun _ _ => eq_refl)).
  destruct (use_ok fk y) eqn:U.
  2:{ destruct J as (e & ->). destruct (structy y) eqn:SY; [rewrite (structy_use fk y SY) in U; discriminate U|]. cbn. eauto. }
  destruct J as (r & -> & J). cbn [rbind]. destruct (serial y) eqn:SR.
  2:{ destruct J as (NS & _). assert (structy y = false) as -> by (destruct y; try discriminate SR; reflexivity). cbn [andb].
      destruct r; try contradiction; cbn; eauto. }
  destruct J as (s & -> & ((NV & FI & CO & BO & NO & PD & ST & RF) & MD)). rewrite <- NV.
  destruct s; try (rewrite ST; cbn; eauto; fail).
  - cbn. rewrite Bool.andb_false_r. eauto.
  - rewrite ST. cbn [num_values andb]. destruct (Nat.eqb (ss_nvals st) 1) eqn:N1; [|cbn; eauto]. cbn [rbind].
    apply Nat.eqb_eq in N1. cbn in BO.
    eexists. split; [reflexivity|]. split; [reflexivity|]. split; [reflexivity|]. split; [reflexivity|]. split; [tauto|].
    intros f2 idf2 p AG. cbn [use_ok serial]. rewrite tr_as. eexists. split; [reflexivity|]. eexists. split; [reflexivity|].
    split.
    2:{ cbn [made]. eexists _, st. split; [reflexivity|]. split; [exact MD|].
        pose proof (made_wf _ _ _ MD) as W.
        destruct (s_act st) eqn:AC; [repeat split; auto|]. cbn [mk_action s_fmt s_bo]. repeat split; auto.
        - unfold ss_wf, mk_action. cbn. unfold ss_nvals in *. cbn. rewrite N1. reflexivity.
        - unfold ss_nvals in N1. cbn [s_act mk_action List.length]. rewrite N1. reflexivity. }
    unfold traits. cbn [is_final is_compound sall refs andb nothing padding structy vals xfinal num_values]. 
    assert (NVV : forall st', s_fmt st' = s_fmt st -> s_bo st' = s_bo st -> ss_nvals st' = 1%nat /\ s_bo st' = BO_DEFAULT /\
       ser_ispad (SStruct st') = false).
    { intros st' E1 E2. unfold ser_ispad, ss_nvals in *. rewrite E1, E2, N1. auto. }
    destruct (NVV (match s_act st with Some _ => st | None => mk_action (s_bo st) (s_fmt st) [a] end)) as (A & B & C);
      [destruct (s_act st); reflexivity|destruct (s_act st); reflexivity|]. rewrite A. repeat split; auto.
Qed.
Lemma class_verdict : forall c, verdict (XClass c).
Proof.
  intros c. unfold verdict. cbn [eval_ok build]. destruct (Nat.ltb c k) eqn:L; [|eauto]. eexists. split; [reflexivity|].
  split; [reflexivity|]. split; [reflexivity|]. split; [reflexivity|]. split; [tauto|]. intros f2 idf2 p _. cbn [use_ok serial].
  eexists. split; [reflexivity|]. eexists. split; [reflexivity|]. split; [|cbn; eauto].
  unfold traits. cbn [num_values is_final is_compound bo_is ser_ispad sall refs nothing padding structy vals xfinal].
  rewrite L. repeat split; auto.
Qed.
Lemma self_verdict : verdict XSelf.
Proof.
  unfold verdict. cbn [eval_ok build]. eexists. split; [reflexivity|].
  split; [reflexivity|]. split; [reflexivity|]. split; [reflexivity|]. split; [tauto|]. intros f2 idf2 p _. cbn [use_ok serial].
  eexists. split; [reflexivity|]. eexists. split; [reflexivity|]. split; [|cbn; eauto]. repeat split; auto.
Qed.
Lemma plain_verdict : forall t, verdict (XPlain t).
Proof.
  intros t. unfold verdict. cbn [eval_ok build]. eexists. split; [reflexivity|].
  split; [reflexivity|]. split; [reflexivity|]. split; [reflexivity|]. split; [tauto|]. intros f2 idf2 p _. cbn [use_ok serial].
  eexists. split; [reflexivity|]. split; [exact I|]. intros. reflexivity.
Qed.
Lemma classvar_verdict : forall y, verdict y -> verdict (XClassVar y).
Proof.
  intros y V. unfold verdict in *. cbn [eval_ok build]. destruct (eval_ok k fk y); [|destruct V as (e & ->); cbn; eauto].
  destruct V as (h & -> & _). cbn [rbind]. eexists. split; [reflexivity|].
  split; [reflexivity|]. split; [reflexivity|]. split; [reflexivity|]. split; [tauto|]. intros f2 idf2 p _. cbn [use_ok serial].
  eexists. split; [reflexivity|]. split; [exact I|]. intros. reflexivity.
Qed.
Lemma cond_verdict : forall y f d, verdict y -> verdict (XCond y f d).
Proof.
  intros y f d V. unfold verdict in *. cbn [eval_ok build]. destruct (eval_ok k fk y); [|destruct V as (e & ->); cbn; eauto].
  destruct V as (h & -> & (TV & AL & FW & CV & J)). cbn [rbind]. eexists. split; [reflexivity|].
  split; [destruct h; reflexivity|]. split; [destruct h; reflexivity|]. split; [destruct h; reflexivity|].
  split; [destruct h; cbn; tauto|]. intros f2 idf2 p AG. cbn [use_ok serial]. rewrite transform_more by reflexivity.
  specialize (J f2 idf2 p AG). destruct (use_ok f2 y); [|destruct J as (e & ->); cbn; eauto].
  destruct J as (r & -> & J). cbn [rbind andb]. destruct (serial y).
  2:{ destruct J as (_ & J). cbn [andb]. rewrite J. eauto. }
  destruct J as (s & -> & ((NV & FI & CO & BO & NO & PD & ST & RF) & MD)). rewrite <- NV. cbn [andb].
  unfold pass, step. cbn [tr_tuple tr_seras tr_cond rbind]. destruct (Nat.eqb (num_values s) (List.length d)) eqn:LD; [|cbn; eauto].
  eexists. split; [reflexivity|]. eexists. split; [reflexivity|].
  split; [|cbn [made]; apply Nat.eqb_eq in LD; eauto]. unfold traits. cbn [num_values is_final is_compound bo_is ser_ispad sall refs andb nothing padding structy vals xfinal].
  repeat split; auto.
Qed.

(** lists of hints *)
Lemma map_verdict : forall l, Forall verdict l ->
  if forallb (eval_ok k fk) l then exists hs, mapR (build k fk idf fac) l = Ok hs /\ Forall2 judged l hs
  else exists e, mapR (build k fk idf fac) l = Err e.
Proof.
  induction l as [|x l IH]; intros F; [exists []; split; [reflexivity|constructor]|]. inversion F as [|? ? V FL]; subst. specialize (IH FL).
  unfold verdict in V. cbn [forallb mapR]. destruct (eval_ok k fk x); [|destruct V as (e & ->); cbn; eauto].
  destruct V as (h & -> & J). cbn [rbind andb]. destruct (forallb (eval_ok k fk) l); [|destruct IH as (e & ->); cbn; eauto].
  destruct IH as (hs & -> & JS). cbn [rbind]. eauto.
Qed.
Definition turned (f2 : nat -> bool) (x : hx) (r : pyh) : Prop :=
  if serial x then exists s, r = PSer s /\ fits k f2 x s else match r with PSer _ => False | _ => True end.
Lemma gosub_judged : forall f2 idf2 p l hs, agrees f2 -> Forall2 judged l hs -> forall i,
  if forallb (use_ok f2) l then exists rs, gosub f2 no_spec idf2 p i hs = Ok rs /\ Forall2 (turned f2) l rs
  else exists e, gosub f2 no_spec idf2 p i hs = Err e.
Proof.
  intros f2 idf2 p l hs AG F. induction F as [|x h l hs J F IH]; intros i; [exists []; split; [reflexivity|constructor]|].
  destruct J as (_ & _ & _ & _ & J). specialize (J f2 idf2 (S i :: p) AG). cbn [forallb gosub].
  destruct (use_ok f2 x); [|destruct J as (e & ->); cbn; eauto]. destruct J as (r & -> & J). cbn [rbind andb].
  specialize (IH (S i)). destruct (forallb (use_ok f2) l); [|destruct IH as (e & ->); cbn; eauto].
  destruct IH as (rs & -> & T). cbn [rbind]. eexists. split; [reflexivity|]. constructor; [|exact T].
  unfold turned. destruct (serial x); [exact J|]. exact (proj1 J).
Qed.
Lemma all_sers_turned : forall f2 l rs, Forall2 (turned f2) l rs ->
  if forallb serial l then exists sers, all_sers rs = Some sers /\ Forall2 (fits k f2) l sers else all_sers rs = None.
Proof.
  intros f2 l rs F. induction F as [|x r l rs T F IH]; [exists []; split; [reflexivity|constructor]|]. unfold turned in T. cbn [forallb].
  destruct (serial x).
  - destruct T as (s & -> & FT). cbn [all_sers andb]. destruct (forallb serial l); [|rewrite IH; reflexivity].
    destruct IH as (sers & -> & FS). cbn [option_map]. eauto.
  - cbn [andb]. destruct r; try contradiction; reflexivity.
Qed.
Lemma judged_open : forall l hs, Forall2 judged l hs -> existsb (fun a => is_tv a || is_alias a) hs = false.
Proof. intros l hs F. induction F as [|x h l hs (A & B & _) F IH]; [reflexivity|]. cbn [existsb]. now rewrite A, B, IH. Qed.
Lemma tuple_judged : forall l hs, Forall2 judged l hs -> judged (XTuple l) (PTuple hs).
Proof.
  intros l hs J. split; [reflexivity|]. split; [reflexivity|]. split; [reflexivity|]. split; [tauto|].
  intros f2 idf2 p AG. rewrite transform_eq. cbn [hbase hargs hmeta passes use_ok].
  pose proof (gosub_judged f2 idf2 p l hs AG J 0) as G. pose proof (judged_open l hs J) as OP.
  destruct l as [|x l].
  { inversion J; subst. cbn [forallb andb crowded negb orb serial]. eexists. split; [reflexivity|]. split; [exact I|]. intros. reflexivity. }
  destruct hs as [|h0 hs]; [inversion J|]. set (L := x :: l) in *. set (HS := h0 :: hs) in *.
  destruct (forallb (use_ok f2) L).
  2:{ destruct G as (e & G). cbn [andb]. exists e. unfold pass, step. cbn [rbind tr_tuple]. unfold HS at 1. fold HS. rewrite OP, G. reflexivity. }
  destruct G as (rs & G & T). cbn [andb]. pose proof (all_sers_turned f2 L rs T) as AS.
  assert (SE : serial (XTuple L) = forallb serial L) by reflexivity. rewrite SE. destruct (forallb serial L).
  - destruct AS as (sers & AS & FS). cbn [negb orb]. pose proof (sum_fits k f2 (idf2 (0 :: p)%nat) L sers FS) as SU.
    unfold pass, step. cbn [rbind tr_tuple]. unfold HS at 1. fold HS. rewrite OP, G. cbn [rbind]. rewrite AS.
    destruct (crowded f2 L); cbn [negb].
    + rewrite SU. cbn. eauto.
    + destruct SU as (s & SUM & FI & RF). rewrite SUM. cbn. eexists. split; [reflexivity|]. eexists. split; [reflexivity|].
      split.
      2:{ cbn [made]. exists f2. eexists _, _, sers, s. split; [reflexivity|]. split; [exact SUM|]. exact (fits_made k f2 L sers FS). }
      unfold traits. cbn [num_values is_final is_compound bo_is ser_ispad sall refs andb nothing padding structy vals]. repeat split; auto.
  - cbn [negb orb].
    assert (TT : tr_tuple f2 idf2 p (gosub f2 no_spec idf2 p 0 HS) (PTuple HS) = Ok None).
    { cbn [tr_tuple]. unfold HS at 1. fold HS. rewrite OP, G. cbn [rbind]. now rewrite AS. }
    exists (PTuple HS). unfold pass, step. cbn [rbind]. rewrite TT. split; [reflexivity|]. split; [exact I|].
    intros f d. cbn [hbase hargs]. unfold pass, step. cbn [rbind]. rewrite TT. reflexivity.
Qed.
Lemma tuple_verdict : forall l, Forall verdict l -> verdict (XTuple l).
Proof.
  intros l V. unfold verdict. cbn [eval_ok build]. pose proof (map_verdict l V) as M.
  destruct (forallb (eval_ok k fk) l); [|destruct M as (e & ->); cbn; eauto]. destruct M as (hs & -> & J). cbn [rbind].
  eexists. split; [reflexivity|]. now apply tuple_judged.
Qed.

(** unions *)
Lemma member_judged : forall id y h, judged y h ->
  if use_ok fk y && serial y && Nat.eqb (vals y) 1
  then exists s, validate_serializer fk no_spec idf id h = Ok s /\ fits k fk y s
  else exists e, validate_serializer fk no_spec idf id h = Err e.
Proof.
  intros id y h (_ & _ & _ & _ & J). unfold validate_serializer. specialize (J fk idf [0; 0; id]%nat (fun _ _ => eq_refl)).
  destruct (use_ok fk y); [|destruct J as (e & ->); cbn; eauto]. destruct J as (r & -> & J). cbn [rbind andb].
  destruct (serial y).
  - destruct J as (s & -> & FT). cbn [andb]. rewrite <- (proj1 (proj1 FT)). destruct (Nat.eqb (num_values s) 1); eauto.
  - destruct J as (NS & _). cbn [andb]. destruct r; try contradiction; eauto.
Qed.
Definition member_ok (y : hx) : bool := eval_ok k fk y && use_ok fk y && serial y && Nat.eqb (vals y) 1.
Lemma members_verdict : forall id m, Forall (fun p => verdict (snd p)) m ->
  (exists m', mapR (fun p => rmap (pair (fst p)) (build k fk idf fac (snd p))) m = Ok m' /\
     if forallb (fun p => member_ok (snd p)) m
     then exists ms, rmapM (fun e => rmap (pair (fst e)) (validate_serializer fk no_spec idf id (snd e))) m' = Ok ms /\
            Forall2 (fun (p : value * hx) (q : value * ser) => fst p = fst q /\ fits k fk (snd p) (snd q)) m ms
     else exists e, rmapM (fun e => rmap (pair (fst e)) (validate_serializer fk no_spec idf id (snd e))) m' = Err e) \/
  ((exists e, mapR (fun p => rmap (pair (fst p)) (build k fk idf fac (snd p))) m = Err e) /\
   forallb (fun p => member_ok (snd p)) m = false).
Proof.
  intros id. induction m as [|[v y] m IH]; intros F.
  { left. exists []. split; [reflexivity|]. cbn. exists []. split; [reflexivity|constructor]. }
  inversion F as [|? ? V FM]; subst. cbn [snd] in V. specialize (IH FM). cbn [mapR forallb snd fst]. unfold member_ok at 1 3. unfold verdict in V.
  destruct (eval_ok k fk y); [|destruct V as (e & ->); cbn; right; eauto].
  destruct V as (h & -> & J). cbn [rmap rbind]. pose proof (member_judged id y h J) as MJ.
  destruct IH as [(m' & -> & IH)|[(e & ->) IH]].
  - left. exists ((v, h) :: m'). split; [reflexivity|]. cbn [rmapM fst snd andb].
    destruct (use_ok fk y && serial y && Nat.eqb (vals y) 1); cbn [andb].
    + destruct MJ as (s & -> & FT). cbn [rmap rbind]. destruct (forallb (fun p => member_ok (snd p)) m).
      * destruct IH as (ms & -> & FS). cbn [rbind]. eexists. split; [reflexivity|]. constructor; [cbn; auto|exact FS].
      * destruct IH as (e & ->). cbn. eauto.
    + destruct MJ as (e & ->). cbn. eauto.
  - right. split; [cbn; eauto|]. rewrite IH. apply Bool.andb_false_r.
Qed.
Lemma default_verdict : forall id d, (forall y, d = Some y -> verdict y) ->
  (exists d', (match d with Some x => rmap Some (build k fk idf fac x) | None => Ok None end) = Ok d' /\
     if match d with Some y => member_ok y | None => true end
     then exists ds, (match d' with None => Ok None | Some h => rmap Some (validate_serializer fk no_spec idf id h) end) = Ok ds /\
       match d, ds with None, None => True | Some y, Some s => fits k fk y s | _, _ => False end
     else exists e, (match d' with None => Ok None | Some h => rmap Some (validate_serializer fk no_spec idf id h) end) = Err e) \/
  ((exists e, (match d with Some x => rmap Some (build k fk idf fac x) | None => Ok None end) = Err e) /\
   match d with Some y => member_ok y | None => true end = false).
Proof.
  intros id [y|] H.
  - specialize (H y eq_refl). unfold verdict in H. unfold member_ok. destruct (eval_ok k fk y); [|destruct H as (e & ->); cbn; right; eauto].
    destruct H as (h & -> & J). left. exists (Some h). split; [reflexivity|]. pose proof (member_judged id y h J) as MJ. cbn [andb].
    destruct (use_ok fk y && serial y && Nat.eqb (vals y) 1).
    + destruct MJ as (s & -> & FT). exists (Some s). split; [reflexivity|exact FT].
    + destruct MJ as (e & ->). cbn. eauto.
  - left. exists None. split; [reflexivity|]. exists None. split; [reflexivity|exact I].
Qed.
Lemma union_judged : forall x l hs u, Forall2 judged l hs -> is_decider u = true ->
  (forall f2, use_ok f2 x = negb (match l with [] => true | _ => false end) && forallb (use_ok f2) l) ->
  serial x = true -> match x with XClassVar _ => False | _ => True end ->
  (forall f2, agrees f2 -> fits k f2 x (u)) -> judged x (PAnn (PUnion hs) [PSer u]).
Proof.
  intros x l hs u J D U SX NC FT. split; [reflexivity|]. split; [reflexivity|]. split; [reflexivity|]. split; [destruct x; tauto|].
  intros f2 idf2 p AG. rewrite U, SX, transform_eq. cbn [hbase hargs hmeta flat_map metas app passes].
  pose proof (gosub_judged f2 idf2 p l hs AG J 0) as G. set (subs := gosub f2 no_spec idf2 p 0 hs) in *.
  assert (P1 : pass f2 no_spec idf2 false p subs PNone (PUnion hs) = Ok (PUnion hs)) by reflexivity. rewrite P1. cbn [rbind].
  unfold pass, step. cbn [rbind tr_tuple tr_seras tr_cond tr_union]. rewrite D.
  destruct l as [|y l]; [inversion J; subst; cbn; eauto|]. destruct hs as [|h0 hs]; [inversion J|]. cbn [negb andb].
  destruct (forallb (use_ok f2) (y :: l)).
  - destruct G as (rs & -> & T). cbn [rbind]. exists (PSer u). split; [|exists u; split; [reflexivity|auto]].
    destruct (all_sers rs); reflexivity.
  - destruct G as (e & ->). cbn. eauto.
Qed.
Lemma members_final : forall f2 m ms, agrees f2 -> forallb (fun p => member_ok (snd p)) m = true ->
  Forall2 (fun (p : value * hx) (q : value * ser) => fst p = fst q /\ fits k fk (snd p) (snd q)) m ms ->
  existsb (fun q => is_final f2 (snd q)) ms = existsb (fun p => xfinal f2 (snd p)) m /\
  forallb (fun q => sall (refs k) (snd q)) ms = true.
Proof.
  intros f2 m ms AG E F. induction F as [|p q m ms (_ & FT) F IH]; [split; reflexivity|]. cbn [forallb] in E. apply andb_prop in E as [E1 E2].
  destruct (IH E2) as [A B]. destruct FT as [(_ & FI & _ & _ & _ & _ & _ & RF) _]. cbn [existsb forallb]. rewrite A, B, RF. split; [|reflexivity].
  f_equal. unfold member_ok in E1. apply andb_prop in E1 as [E1 _]. apply andb_prop in E1 as [E1 _]. apply andb_prop in E1 as [E1 _].
  rewrite (final_ext f2 fk k AG) by exact RF. rewrite FI. apply (xfinal_ext k fk f2); [|exact E1]. intros d L. symmetry. now apply AG.
Qed.
Lemma members_made : forall m ms,
  Forall2 (fun (p : value * hx) (q : value * ser) => fst p = fst q /\ fits k fk (snd p) (snd q)) m ms ->
  all2 (fun p q => fst p = fst q /\ made BO_DEFAULT (snd p) (snd q)) m ms.
Proof. intros m ms F. apply all2_F2. induction F as [|p q m ms [E [_ MD]] F IH]; constructor; auto. Qed.
Lemma back_verdict : forall id l f m d, Forall verdict l -> Forall (fun p => verdict (snd p)) m -> (forall x, d = Some x -> verdict x) ->
  verdict (XBack id l f m d).
Proof.
  intros id l f m d VL VM VD. unfold verdict. cbn [eval_ok build]. pose proof (map_verdict l VL) as ML.
  destruct (forallb (eval_ok k fk) l); [|destruct ML as (e & ->); cbn; eauto]. destruct ML as (hs & -> & J). cbn [rbind andb].
  change (forallb (fun p => eval_ok k fk (snd p) && use_ok fk (snd p) && serial (snd p) && Nat.eqb (vals (snd p)) 1) m)
    with (forallb (fun p => member_ok (snd p)) m).
  change (match d with Some y => eval_ok k fk y && use_ok fk y && serial y && Nat.eqb (vals y) 1 | None => true end)
    with (match d with Some y => member_ok y | None => true end).
  destruct (members_verdict id m VM) as [(m' & -> & MV)|[(e & ->) MV]].
  2:{ rewrite MV. cbn. eauto. }
  cbn [rbind]. destruct (default_verdict id d VD) as [(d' & -> & DV)|[(e & ->) DV]].
  2:{ rewrite DV, Bool.andb_false_r. cbn. eauto. }
  cbn [rbind]. unfold lookback, validate_map. destruct (match d with Some y => member_ok y | None => true end).
  2:{ rewrite Bool.andb_false_r. destruct DV as (e & ->). cbn. eauto. }
  destruct DV as (ds & -> & FD). cbn [rbind]. rewrite Bool.andb_true_r.
  destruct (forallb (fun p => member_ok (snd p)) m) eqn:MO; [|destruct MV as (e & ->); cbn; eauto].
  destruct MV as (ms & -> & FM). cbn [rbind]. eexists. split; [reflexivity|].
  apply (union_judged _ l); auto. intros f2 AG. destruct (members_final f2 m ms AG MO FM) as [FI RF].
  split; [|cbn [made]; eexists _, ms, ds; split; [reflexivity|]; split; [now apply members_made|destruct d, ds; try contradiction; auto; apply FD]].
  unfold traits. cbn [num_values is_final is_compound bo_is ser_ispad sall refs andb nothing padding structy vals xfinal].
  repeat split; auto. rewrite RF. cbn [andb]. destruct d, ds; try contradiction; auto. apply FD.
Qed.
Lemma ahead_verdict : forall id l ra f m d, Forall verdict l -> verdict ra -> Forall (fun p => verdict (snd p)) m -> (forall x, d = Some x -> verdict x) ->
  verdict (XAhead id l ra f m d).
Proof.
  intros id l ra f m d VL VR VM VD. unfold verdict. cbn [eval_ok build]. pose proof (map_verdict l VL) as ML.
  destruct (forallb (eval_ok k fk) l); [|destruct ML as (e & ->); cbn; eauto]. destruct ML as (hs & -> & J). cbn [rbind andb].
  unfold verdict in VR. destruct (eval_ok k fk ra); [|destruct VR as (e & ->); cbn; eauto].
  destruct VR as (hr & -> & (_ & _ & _ & _ & JR)). cbn [rbind].
  change (forallb (fun p => eval_ok k fk (snd p) && use_ok fk (snd p) && serial (snd p) && Nat.eqb (vals (snd p)) 1) m)
    with (forallb (fun p => member_ok (snd p)) m).
  change (match d with Some y => eval_ok k fk y && use_ok fk y && serial y && Nat.eqb (vals y) 1 | None => true end)
    with (match d with Some y => member_ok y | None => true end).
  destruct (members_verdict id m VM) as [(m' & -> & MV)|[(e & ->) MV]].
  2:{ rewrite MV, Bool.andb_false_r. cbn. eauto. }
  cbn [rbind]. destruct (default_verdict id d VD) as [(d' & -> & DV)|[(e & ->) DV]].
  2:{ rewrite DV, Bool.andb_false_r. cbn. eauto. }
  cbn [rbind]. unfold lookahead, validate_map. destruct (match d with Some y => member_ok y | None => true end).
  2:{ rewrite Bool.andb_false_r. destruct DV as (e & ->). cbn. eauto. }
  destruct DV as (ds & -> & FD). cbn [rbind]. rewrite Bool.andb_true_r.
  destruct (forallb (fun p => member_ok (snd p)) m) eqn:MO; [|rewrite Bool.andb_false_r; destruct MV as (e & ->); cbn; eauto].
  destruct MV as (ms & -> & FM). cbn [rbind]. rewrite Bool.andb_true_r.
  specialize (JR fk idf [0; 0; id]%nat (fun _ _ => eq_refl)). destruct (use_ok fk ra); [|destruct JR as (e & ->); cbn; eauto].
  destruct JR as (r & -> & JR). cbn [rbind andb]. destruct (serial ra).
  2:{ destruct JR as (NS & _). destruct r; try contradiction; cbn; eauto. }
  destruct JR as (sr & -> & FR). cbn [rbind].
  eexists. split; [reflexivity|].
  apply (union_judged _ l); auto. intros f2 AG. destruct (members_final f2 m ms AG MO FM) as [FI RF].
  split; [|cbn [made]; eexists _, sr, ms, ds; split; [reflexivity|]; split; [exact (proj2 FR)|];
    split; [now apply members_made|destruct d, ds; try contradiction; auto; apply FD]].
  unfold traits. cbn [num_values is_final is_compound bo_is ser_ispad sall refs andb nothing padding structy vals xfinal].
  repeat split; auto. rewrite RF. destruct FR as [(_ & _ & _ & _ & _ & _ & _ & ->) _]. cbn [andb]. destruct d, ds; try contradiction; auto. apply FD.
Qed.
(** an expression evaluates exactly if the check says so, and then turns into a field exactly if the check says so *)
Theorem every_verdict : forall x, verdict x.
Proof.
  induction x using hx_ind'; auto using basic_verdict, pad_verdict, pascal_verdict, char_verdict, unicode_verdict, array_verdict,
    tuple_verdict, cond_verdict, as_verdict, back_verdict, ahead_verdict, class_verdict, self_verdict, classvar_verdict, plain_verdict.
Qed.
End Judge.
