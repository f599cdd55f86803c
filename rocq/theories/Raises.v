(** Which exceptions reading can raise.  First, read off the class statements, the exceptions that a hint adds to
    struct.error, ValueError and RecursionError; then the facts about the stateless decoder of Pure.v behind
    PropsRaises.v. *)
From Verif Require Import Base Floats Value StructMod Format Ser Exec Pure BaseFacts StructFacts FormatFacts SerFacts RefUnpack RoundTrip DecFacts
  Hints HintFacts Surface SerShape Programs Accept AcceptProg.
Open Scope string_scope. Open Scope list_scope. Open Scope Z_scope.

(** ** the exceptions of a hint expression *)
Section Any.
Context {A : Type} (P : A -> Prop).
Fixpoint any (l : list A) : Prop := match l with [] => False | a :: l' => P a \/ any l' end.
End Any.
(** the exceptions that are possible with every class: the bytes are too short (or the buffer is), the data is
    wrong (an unterminated string, a size or a key that does not match), the stack is too small *)
Definition usual (e : exn) : Prop := e = StructError \/ e = ValueError \/ e = RecursionError.
Definition yes_no (r : value) : bool := key_eqb r (VBool true) || key_eqb r (VBool false).
Definition cond_or_self (x : hx) : bool := match x with XCond _ _ _ | XSelf => true | _ => false end.
Section Extra.
(** the objects that conditions and deciders may get; the method; whether [Self] cannot be resolved: the object
    exists already, or a field is called cls *)
Variables (K : pobj -> Prop) (md : umode) (lost : Prop).
(** a string that can come out as no value at all: char[0], and char[uintN] in unpack_from and unpack_read *)
Definition hollow (a : carg) : Prop :=
  match a with KInt n => n = 0 | KUint _ => md <> UBuf | _ => False end.
(** a read-ahead hint that may give no value; one whose value cannot be looked up in the dictionary *)
Definition empty_key (x : hx) : Prop :=
  match x with
  | XPad _ => True
  | XPascal n => n = 0
  | XChar a => hollow a
  | XBack _ _ _ _ _ | XAhead _ _ _ _ _ _ => True
  | _ => False
  end.
Fixpoint odd_key (x : hx) : Prop :=
  match x with
  | XArray _ _ _ | XTuple _ | XClass _ => True
  | XAs a y => match y with XAs _ _ => odd_key y | _ => exists v r, a v = Ok r /\ hashable r = false end
  | XBack _ _ _ _ _ | XAhead _ _ _ _ _ _ => True
  | _ => False
  end.
Fixpoint extra (x : hx) (e : exn) {struct x} : Prop :=
  match x with
  | XUnicode a cd => (exists b, cod_dec cd b = Err e) \/ (e = IndexError /\ hollow a)
  | XArray _ _ y => extra y e
  | XTuple l => any (fun y => extra y e) l
  | XCond y f _ =>
      (exists o, K o /\ f o = Err e) \/
      (exists o r, K o /\ f o = Ok r /\ yes_no r = false /\ e = if hashable r then KeyError else TypeError) \/
      (e = NotImplementedError /\ cond_or_self y = true) \/ extra y e
  | XAs a y => match y with XAs _ _ => extra y e | _ => exists v, a v = Err e end
  | XBack _ _ f m d =>
      (exists o, K o /\ f o = Err e) \/ (e = TypeError /\ exists o r, K o /\ f o = Ok r /\ hashable r = false) \/
      any (fun p => extra (snd p) e) m \/ match d with Some y => extra y e | None => False end
  | XAhead _ _ ra _ m d =>
      extra ra e \/ (e = IndexError /\ empty_key ra) \/ (e = TypeError /\ odd_key ra) \/
      (e = NotImplementedError /\ cond_or_self ra = true) \/
      any (fun p => extra (snd p) e) m \/ match d with Some y => extra y e | None => False end
  | XSelf => e = AttributeError /\ lost
  | _ => False
  end.
End Extra.
(** a field of class [sc] when an instance is created from bytes, the callables on any object *)
Definition class_extra (md : umode) (sc : sclass) (e : exn) : Prop :=
  any (fun p => extra (fun _ => True) md (In "cls" (sc_attrs sc)) (snd p) e) (fields_of (sc_anns sc)).
(** ... and in an instance that exists already *)
Definition refill_extra (md : umode) (sc : sclass) (e : exn) : Prop :=
  any (fun p => extra (fun _ => True) md True (snd p) e) (fields_of (sc_anns sc)).
Definition prog_extra (md : umode) (sl : list sclass) (e : exn) : Prop := any (fun sc => class_extra md sc e) sl.
Lemma any_in : forall {A} (P : A -> Prop) l a, In a l -> P a -> any P l.
Proof. intros A P l a I H. induction l as [|b l IH]; [destruct I|]. destruct I as [->|I]; [now left|right; auto]. Qed.
Lemma any_ex : forall {A} (P : A -> Prop) l, any P l -> exists a, In a l /\ P a.
Proof. intros A P l. induction l as [|b l IH]; [intros []|]. intros [H|H]; [exists b; cbn; auto|]. destruct (IH H) as (a & I & Q). exists a. cbn. auto. Qed.

(** ** serializers *)
Section Errs.
Variables (hb : bool) (ct : nat -> option cdef) (md : umode).
(** the exceptions allowed *)
Variable U : exn -> Prop.
Hypothesis US : forall e, usual e -> U e.
Definition errs {A} (r : res A) : Prop := forall e, r = Err e -> U e.
Lemma errs_ok : forall {A} (a : A), errs (Ok a). Proof. intros A a e E. discriminate. Qed.
Lemma errs_err : forall {A} e, U e -> errs (@Err A e). Proof. intros A e H e' E. injection E as <-. exact H. Qed.
Lemma errs_cast : forall {A B} e, errs (@Err A e) -> errs (@Err B e). Proof. intros A B e H. apply errs_err. now apply H. Qed.
Lemma errs_bind : forall {A B} (r : res A) (f : A -> res B), errs r -> (forall a, r = Ok a -> errs (f a)) -> errs (rbind r f).
Proof. intros A B [a|e] f H F; cbn; [now apply F|]. intros e' E. injection E as <-. now apply H. Qed.
Lemma errs_rmap : forall {A B} (f : A -> B) r, errs r -> errs (rmap f r).
Proof. intros A B f [a|e] H e' E; cbn in E; [discriminate|]. injection E as <-. now apply H. Qed.
Lemma U_struct : U StructError. Proof. apply US. now left. Qed.
Lemma U_value : U ValueError. Proof. apply US. right. now left. Qed.
Lemma U_rec : U RecursionError. Proof. apply US. right. now right. Qed.
Hint Resolve errs_ok errs_err U_struct U_value U_rec : errs.

Definition acts_in (st : sspec) : Prop := match s_act st with Some l => Forall (fun a : action => forall v, errs (a v)) l | None => True end.
(** an object in which Self can be resolved *)
Definition okself (o : pobj) : Prop := p_proxy o = true /\ assoc "cls" (p_attrs o) = None /\ ct (p_cls o) <> None.
Definition texty (s : ser) : Prop :=
  match s with
  | SNull => U IndexError
  | SStruct st => exists t, s_fmt st = [t] /\ t_code t = Cs /\ s_act st = None
  | SDynChar _ st => uint1 st = true /\ (md = UBuf \/ U IndexError)
  | SConsume _ | STerm _ _ | SNet _ => True
  | _ => False
  end.
Definition heady (s : ser) : Prop :=
  match s with
  | SNull => U IndexError
  | SStruct st => ss_wf st = true /\ (ss_nvals st = 0%nat -> U IndexError) /\
      match s_act st with Some l => Forall (fun a : action => forall v r, a v = Ok r -> hashable r = false -> U TypeError) l | None => True end
  | SDynChar _ _ => md = UBuf \/ U IndexError
  | SConsume _ | STerm _ _ | SNet _ | SUnicode _ _ | SCond _ _ _ | SSelf _ => True
  | SStaticArr _ _ | SDynArr _ _ _ | SArray _ _ _ _ | STuple _ _ | SStructd _ _ => U TypeError
  | _ => U IndexError /\ U TypeError
  end.
Definition header_in (h : option sspec) (static : Z) : Prop :=
  match h with
  | None => 0 <= static
  | Some st => s_act st = None /\ forallb (fun t => match int_code (t_code t) with Some _ => true | None => false end) (s_fmt st) = true /\
      (1 <= ss_nvals st)%nat
  end.
(** a serializer that has been prepared: neither a condition nor Self is met by unpack itself *)
Definition calm (s : ser) : Prop :=
  match s with
  | SCond _ _ _ | SSelf _ => U NotImplementedError
  | SCompound _ subs => existsb needs_pre subs = false \/ U NotImplementedError
  | _ => True
  end.
Section Tame.
(** the objects met *)
Variable K : pobj -> Prop.
Fixpoint tame (s : ser) : Prop :=
  match s with
  | SNull | SSkip _ | SConsume _ | STerm _ _ | SNet _ => True
  | SStruct st => acts_in st
  | SDynChar _ st => uint1 st = true
  | SUnicode x cd => texty x /\ forall b, errs (cod_dec cd b)
  | SStaticArr _ st => acts_in st
  | SDynArr _ c st => uint1 c = true /\ acts_in st
  | SArray _ h x static => header_in h static /\ tame x
  | STuple _ x => tame x
  | SCond f x d => (forall o, K o -> errs (rdo v <- f o; cond_branch x d v)) /\ (calm x /\ is_compound x = false) /\ tame x
  | SLookback _ f m d =>
      (forall o, K o -> errs (f o)) /\ (forall o r, K o -> f o = Ok r -> hashable r = false -> U TypeError) /\
      (fix go l := match l with [] => True | p :: l' => tame (snd p) /\ go l' end) m /\
      match d with Some x => tame x | None => True end
  | SLookahead _ ra f m d =>
      tame ra /\ calm ra /\ heady ra /\
      (fix go l := match l with [] => True | p :: l' => tame (snd p) /\ go l' end) m /\
      match d with Some x => tame x | None => True end
  | SStructd _ c => ct c <> None \/ U AttributeError
  | SSelf _ => (forall o, K o -> okself o) \/ U AttributeError
  | SCompound _ subs => (fix go l := match l with [] => True | x :: l' => tame x /\ go l' end) subs
  | SSpec _ subs o => False
  end.
Lemma go_forall : forall l, (fix go l := match l with [] => True | x :: l' => tame x /\ go l' end) l <-> Forall tame l.
Proof. intros l. induction l as [|x l IH]; split; intros H; [constructor|exact I| |]; [destruct H; constructor; tauto|inversion H; subst; tauto]. Qed.
Lemma gom_forall : forall l, (fix go l := match l with [] => True | p :: l' => tame (snd p) /\ go l' end) l
  <-> Forall (fun p : value * ser => tame (snd p)) l.
Proof. intros l. induction l as [|x l IH]; split; intros H; [constructor|exact I| |]; [destruct H; constructor; tauto|inversion H; subst; tauto]. Qed.
(** ... after preparation *)
Definition poised (s : ser) : Prop :=
  match s with SSpec _ subs o => K o /\ Forall tame subs | _ => tame s end.
Lemma tame_poised : forall s, tame s -> poised s.
Proof. intros s T. destruct s; try exact T. contradiction. Qed.
End Tame.
Lemma tame_mono : forall (K K' : pobj -> Prop) s, (forall o, K' o -> K o) -> tame K s -> tame K' s.
Proof.
  intros K K' s H. induction s using ser_ind'; cbn [tame]; auto; try tauto.
  - intros (A & B & C). auto.
  - intros (A & B & C & D). apply gom_forall in C. split; [auto|]. split; [eauto|]. split; [|destruct d; auto].
    apply gom_forall. rewrite Forall_forall in *. auto.
  - intros (A & B & C & D & E). apply gom_forall in D. split; [auto|]. split; [exact B|]. split; [exact C|]. split; [|destruct d; auto].
    apply gom_forall. rewrite Forall_forall in *. auto.
  - intros [A|A]; auto.
  - intros T. apply go_forall in T. apply go_forall. rewrite Forall_forall in *. auto.
Qed.

(** *** struct formats *)
Lemma apply_errs : forall acts vs, Forall (fun a : action => forall v, errs (a v)) acts -> errs (apply_actions acts vs).
Proof.
  intros acts vs F. revert vs. induction F as [|a acts H F IH]; intros vs; [apply errs_ok|]. destruct vs as [|v vs]; [apply errs_ok|]. cbn [apply_actions].
  apply errs_bind; [apply H|]. intros x _. apply errs_bind; [apply IH|]. intros xs _. apply errs_ok.
Qed.
Lemma dst_errs : forall st b, acts_in st -> errs (dst hb st b).
Proof.
  intros st b A. unfold dst. apply errs_bind; [unfold st_unpack; destruct (Nat.eqb _ _); auto with errs|]. intros vs _. unfold ss_act, acts_in in *.
  destruct (s_act st); [now apply apply_errs|apply errs_ok].
Qed.
Lemma dost_errs : forall o b, match o with Some st => acts_in st | None => True end -> errs (dost hb o b).
Proof. intros [st|] b A; [now apply dst_errs|apply errs_ok]. Qed.
Lemma noop_in : forall n, Forall (fun a : action => forall v, errs (a v)) (repeat noop_action n).
Proof. intros n. apply Forall_forall. intros a I. apply repeat_spec in I as ->. intros v. apply errs_ok. Qed.
Lemma mk_in : forall bo f acts, Forall (fun a : action => forall v, errs (a v)) acts -> acts_in (mk_action bo f acts).
Proof. intros bo f acts F. unfold acts_in, mk_action. cbn [s_act]. apply Forall_app. split; [exact F|apply noop_in]. Qed.
Lemma mul_in : forall st n o, acts_in st -> ss_mul st n = Ok o -> match o with Some st' => acts_in st' | None => True end.
Proof.
  intros st n o A E. unfold ss_mul, ss_mul_impl in E. destruct (n =? 0); [cbn in E; injection E as <-; exact I|]. destruct (n <? 0); [discriminate|].
  assert (R : forall acts k, Forall (fun a : action => forall v, errs (a v)) acts -> Forall (fun a : action => forall v, errs (a v)) (concat (repeat acts k))).
  { intros acts k F. induction k as [|k IH]; [constructor|]. cbn. apply Forall_app. auto. }
  unfold acts_in in *. destruct (s_act st) as [acts|] eqn:S; destruct (n =? 1); cbn in E; rewrite ?S in E; injection E as <-; cbn [s_act]; auto.
  now rewrite S.
Qed.
Lemma mul_errs : forall st n, errs (ss_mul st n).
Proof.
  intros st n. unfold ss_mul. apply errs_bind; [|intros; apply errs_ok]. unfold ss_mul_impl. destruct (n =? 0); [apply errs_ok|].
  destruct (n <? 0); [auto with errs|]. destruct (n =? 1); apply errs_ok.
Qed.
Lemma matmul_errs : forall st n, errs (ss_matmul st n).
Proof.
  intros st n. unfold ss_matmul, ss_mul_impl. destruct (n =? 0); [apply errs_ok|]. destruct (n <? 0); [auto with errs|]. destruct (n =? 1); apply errs_ok.
Qed.
Lemma add_in : forall a b c, acts_in a -> acts_in b -> ss_add a b = Ok c -> acts_in c.
Proof.
  intros a b c A B E. unfold ss_add in E. unfold acts_in in A, B. destruct (s_act a) as [x|], (s_act b) as [y|].
  - injection E as <-. apply mk_in. now apply Forall_app.
  - injection E as <-. now apply mk_in.
  - injection E as <-. apply mk_in. apply Forall_app. split; [apply noop_in|exact B].
  - destruct (border_eqb _ _); [|discriminate]. injection E as <-. exact I.
Qed.
Lemma dst_vals : forall st b vs, s_act st = None -> dst hb st b = Ok vs ->
  exists m off y, vs = unpack_u m off (expand (s_fmt st)) y.
Proof.
  intros st b vs A E. unfold dst, st_unpack, ss_act in E. rewrite A in E. destruct (Nat.eqb _ _); [|discriminate]. cbn in E. injection E as <-. eauto.
Qed.
Definition is_int (v : value) : Prop := match v with VInt _ => True | _ => False end.
Lemma ints_u : forall m us off b, forallb (fun u => match u with UVal c => match int_code c with Some _ => true | None => false end | UAlign _ => true | _ => false end) us = true ->
  Forall is_int (unpack_u m off us b).
Proof.
  intros m. induction us as [|u us IH]; intros off b H; [constructor|]. cbn in H. apply andb_prop in H as [H1 H2]. cbn [unpack_u]. destruct u; try discriminate H1; auto.
  constructor; [|now apply IH]. unfold unpack_val. destruct (int_code c); [exact I|discriminate].
Qed.
Lemma ints_expand : forall f, forallb (fun t => match int_code (t_code t) with Some _ => true | None => false end) f = true ->
  forallb (fun u => match u with UVal c => match int_code c with Some _ => true | None => false end | UAlign _ => true | _ => false end) (expand f) = true.
Proof.
  induction f as [|t f IH]; intros H; [reflexivity|]. cbn in H. apply andb_prop in H as [H1 H2]. unfold expand. cbn [flat_map]. rewrite forallb_app. fold (expand f). rewrite IH by exact H2.
  rewrite Bool.andb_true_r. unfold expand_tok. destruct (t_code t) eqn:C; try discriminate H1; cbn [forallb andb]; induction (cnt t); cbn; auto.
Qed.
Lemma dst_ints : forall st b vs, s_act st = None -> forallb (fun t => match int_code (t_code t) with Some _ => true | None => false end) (s_fmt st) = true ->
  dst hb st b = Ok vs -> Forall is_int vs /\ List.length vs = ss_nvals st.
Proof.
  intros st b vs A F E. destruct (dst_vals st b vs A E) as (m & off & y & ->). split; [apply ints_u, ints_expand, F|apply unpack_u_length].
Qed.
Lemma as_int_errs : forall v, is_int v -> errs (as_int v).
Proof. intros v H. destruct v; try contradiction. apply errs_ok. Qed.
Lemma hash_u : forall m us off b, Forall (fun v => hashable v = true) (unpack_u m off us b).
Proof.
  intros m. induction us as [|u us IH]; intros off b; [constructor|]. cbn [unpack_u]. destruct u; auto; constructor; auto.
  unfold unpack_val. destruct (int_code c); [reflexivity|]. destruct c; reflexivity.
Qed.
Lemma apply_hash : forall acts vs ws, Forall (fun a : action => forall v r, a v = Ok r -> hashable r = false -> U TypeError) acts ->
  apply_actions acts vs = Ok ws -> Forall (fun w => hashable w = false -> U TypeError) ws.
Proof.
  intros acts vs ws F. revert vs ws. induction F as [|a acts H F IH]; intros vs ws E; [injection E as <-; constructor|].
  destruct vs as [|v vs]; [injection E as <-; constructor|]. cbn [apply_actions] in E. destruct (a v) as [x|] eqn:Q; [|discriminate]. cbn [rbind] in E.
  destruct (apply_actions acts vs) as [xs|] eqn:Q2; [|discriminate]. injection E as <-. constructor; [eapply H; eauto|eauto].
Qed.
Lemma uint_ints : forall st, uint1 st = true -> s_act st = None /\ forallb (fun t => match int_code (t_code t) with Some _ => true | None => false end) (s_fmt st) = true /\
  ss_nvals st = 1%nat.
Proof.
  intros st H. destruct (uint1_ints st H) as (A & _ & N). split; [exact A|]. split; [|exact N]. unfold uint1 in H. destruct (s_fmt st) as [|t []]; try discriminate.
  destruct (s_act st); [discriminate|]. cbn. destruct (int_code (t_code t)); [reflexivity|]. rewrite Bool.andb_false_r in H. discriminate.
Qed.
(** the number of a counted string *)
Lemma count_errs : forall {A} st b (f : Z -> res A), uint1 st = true -> (forall z, errs (f z)) ->
  errs (rdo cs <- dst hb st b; rdo cv <- nth0 cs; rdo count <- as_int cv; f count).
Proof.
  intros A st b f H F. destruct (uint_ints st H) as (AC & IN & NV). apply errs_bind; [apply dst_errs; unfold acts_in; now rewrite AC|].
  intros cs E. destruct (dst_ints st b cs AC IN E) as [G L]. rewrite NV in L. destruct cs as [|c []]; try discriminate L. cbn [nth0 rbind].
  inversion G; subst. apply errs_bind; [now apply as_int_errs|]. auto.
Qed.
Lemma net_errs : forall b, errs (dec_net hb b).
Proof.
  intros b. unfold dec_net. apply (count_errs net_short); [reflexivity|]. intros z. destruct (128 <=? z); [|apply errs_ok].
  apply (count_errs net_long); [reflexivity|]. intros z'. apply errs_bind; [unfold net_decode; destruct (_ <? _); auto with errs|]. intros; apply errs_ok.
Qed.
Lemma single_in : forall n o, ss_matmul single_char n = Ok o -> match o with Some st => acts_in st | None => True end.
Proof.
  intros n o E. unfold ss_matmul, ss_mul_impl in E. destruct (n =? 0); [injection E as <-; exact I|]. destruct (n <? 0); [discriminate|].
  destruct (n =? 1); injection E as <-; exact I.
Qed.

(** *** first values *)
(** the values of a text: one bytes object, or none when IndexError is allowed *)
Definition bytes_first (vs : list value) : Prop := match vs with VBytes _ :: _ => True | [] => U IndexError | _ => False end.
Lemma bytes_errs : forall {A} vs (f : bytes -> res A), bytes_first vs -> (forall y, errs (f y)) -> errs (rdo v <- nth0 vs; rdo y <- as_bytes v; f y).
Proof. intros A [|[] vs] f B F; cbn in *; try contradiction; auto with errs. Qed.
Lemma str_first : forall m off t y, t_code t = Cs -> exists z, unpack_u m off (expand [t]) y = [VBytes z].
Proof. intros m off t y C. unfold expand. cbn [flat_map]. unfold expand_tok. rewrite C. cbn. eauto. Qed.
Lemma single_str : forall n st, ss_matmul single_char n = Ok (Some st) -> exists t, s_fmt st = [t] /\ t_code t = Cs /\ s_act st = None.
Proof.
  intros n st E. unfold ss_matmul, ss_mul_impl in E. destruct (n =? 0); [discriminate|]. destruct (n <? 0); [discriminate|].
  destruct (n =? 1); injection E as <-; [eexists; repeat split|]. cbn [s_act single_char s_fmt]. generalize (Z.to_nat n - 1)%nat. intros k. clear.
  assert (H : forall acc, (exists c, acc = [T c Cs]) -> exists t, fold_repeat true acc [T None Cs] k = [t] /\ t_code t = Cs /\ @None (list action) = None).
  { induction k as [|k IH]; intros acc (c & ->); [exists (T c Cs); auto|]. cbn [fold_repeat]. apply IH. cbn. eauto. }
  apply H. eauto.
Qed.
Lemma dyn_first : forall i st n ctx b vs k, md = UBuf \/ U IndexError -> dec hb ct md n (SDynChar i st) ctx b = Ok (vs, k) -> bytes_first vs.
Proof.
  intros i st [|n] ctx b vs k H E; [discriminate|]. cbn [dec dec_step] in E.
  destruct (dst hb st b) as [cs|]; [|discriminate]. cbn [rbind] in E. destruct (nth0 cs) as [cv|]; [|discriminate]. cbn [rbind] in E.
  destruct (as_int cv) as [z|]; [|discriminate]. cbn [rbind] in E.
  assert (Q : forall rest kk, (rdo o <- ss_matmul single_char z; rdo vs <- dost hb o rest; Ok (vs, kk)) = Ok (vs, k) -> U IndexError -> bytes_first vs).
  { intros rest kk G UI. destruct (ss_matmul single_char z) as [[st'|]|] eqn:M; [| |discriminate]; cbn [rbind dost] in G.
    - destruct (single_str z st' M) as (t & F & C & A). destruct (dst hb st' rest) as [ws|] eqn:D; [|discriminate]. cbn in G. injection G as <- _.
      destruct (dst_vals st' rest ws A D) as (m & off & y & ->). rewrite F. destruct (str_first m off t y C) as (zz & ->). exact I.
    - injection G as <- _. exact UI. }
  destruct md; [injection E as <- _; exact I| |]; (destruct H as [H|H]; [discriminate|eapply Q; eauto]).
Qed.
Lemma net_first : forall i n ctx b vs k, dec hb ct md n (SNet i) ctx b = Ok (vs, k) -> bytes_first vs.
Proof.
  intros i [|n] ctx b vs k E; [discriminate|]. cbn [dec dec_step] in E. destruct (dec_net hb b) as [[z c]|]; [|discriminate]. cbn [rbind] in E.
  destruct md; [injection E as <- _; exact I| |injection E as <- _; exact I].
  destruct (dst hb _ _) as [ws|] eqn:D; [|discriminate]. cbn in E. injection E as <- _.
  destruct (dst_vals (SS BO_DEFAULT [T (Some (Z.to_nat c)) Cs] None) _ ws eq_refl D) as (m & off & y & ->). destruct (str_first m off (T (Some (Z.to_nat c)) Cs) y eq_refl) as (zz & Q). cbn [s_fmt]. rewrite Q. exact I.
Qed.
Lemma texty_first : forall x n ctx b vs k, texty x -> dec hb ct md n x ctx b = Ok (vs, k) -> bytes_first vs.
Proof.
  intros x n ctx b vs k T E. destruct n as [|n]; [discriminate|]. destruct x; try contradiction; cbn [texty] in T.
  - cbn in E. injection E as <- _. exact T.
  - destruct T as (t & F & C & A). cbn [dec dec_step] in E. destruct (dst hb st b) as [ws|] eqn:D; [|discriminate]. cbn in E. injection E as <- _.
    destruct (dst_vals st b ws A D) as (m & off & y & ->). rewrite F. destruct (str_first m off t y C) as (zz & ->). exact I.
  - destruct T as [_ T]. eapply dyn_first; eauto.
  - cbn in E. injection E as <- _. exact I.
  - cbn in E. destruct (byte_find t b); [|discriminate]. injection E as <- _. exact I.
  - eapply net_first; eauto.
Qed.
Definition key_first (vs : list value) : Prop := match vs with v :: _ => hashable v = false -> U TypeError | [] => U IndexError end.
Lemma bytes_key : forall vs, bytes_first vs -> key_first vs.
Proof. intros [|[] vs]; cbn; intros; try contradiction; auto; discriminate. Qed.
Lemma act_len : forall st vs ws, ss_act st vs = Ok ws -> ss_wf st = true -> List.length vs = ss_nvals st -> List.length ws = ss_nvals st.
Proof.
  intros st vs ws E W L. unfold ss_act in E. destruct (s_act st) as [acts|] eqn:A; [|congruence]. unfold ss_wf in W. rewrite A in W. apply Nat.eqb_eq in W.
  rewrite <- W in *. clear W A. revert vs ws E L. induction acts as [|a acts IH]; intros vs ws E L; [now injection E as <-|].
  destruct vs as [|v vs]; [discriminate|]. cbn [apply_actions] in E. destruct (a v); [|discriminate]. cbn [rbind] in E.
  destruct (apply_actions acts vs) eqn:Q; [|discriminate]. injection E as <-. cbn. f_equal. eapply IH; eauto.
Qed.
Lemma heady_first : forall x n ctx b vs k, heady x -> dec hb ct md n x ctx b = Ok (vs, k) -> key_first vs.
Proof.
  intros x n ctx b vs k H E. destruct n as [|n]; [discriminate|].
  assert (ANY : U IndexError /\ U TypeError -> key_first vs) by (intros []; destruct vs; cbn; auto).
  destruct x; cbn [heady] in H; try discriminate E; try (now apply ANY).
  - cbn in E. injection E as <- _. exact H.
  - destruct H as (W & NV & A). cbn [dec dec_step] in E. destruct (dst hb st b) as [ws|] eqn:D; [|discriminate]. cbn in E. injection E as <- _.
    unfold dst, st_unpack in D. destruct (Nat.eqb _ _); [|discriminate]. cbn [rbind] in D.
    pose proof (act_len _ _ _ D W (unpack_u_length _ _ _ _)) as L. destruct ws as [|w ws]; [cbn in *; now apply NV|]. cbn.
    unfold ss_act in D. destruct (s_act st) as [acts|].
    + pose proof (apply_hash _ _ _ A D) as Q. now inversion Q.
    + injection D as D. match type of D with unpack_u ?m ?o ?u ?y = _ => pose proof (hash_u m u o y) as Q end. rewrite D in Q. inversion Q; subst. congruence.
  - apply bytes_key. eapply dyn_first; eauto.
  - cbn in E. injection E as <- _. cbn. discriminate.
  - cbn in E. destruct (byte_find t b); [|discriminate]. injection E as <- _. cbn. discriminate.
  - apply bytes_key. eapply net_first; eauto.
  - cbn [dec dec_step] in E. destruct (dec hb ct md n x ctx b) as [[ws z]|]; [|discriminate]. cbn [rbind] in E. destruct (nth0 ws) as [v|]; [|discriminate]. cbn [rbind] in E.
    destruct (as_bytes v) as [yy|]; [|discriminate]. cbn [rbind] in E. destruct (cod_dec _ yy); [|discriminate]. injection E as <- _. cbn. discriminate.
  - cbn [dec dec_step] in E. destruct (ss_mul item _) as [oo|]; [|discriminate]. cbn [rbind] in E. destruct (dost hb oo b); [|discriminate]. injection E as <- _. cbn. auto.
  - cbn [dec dec_step] in E. repeat (match type of E with rbind ?r _ = _ => destruct r; [|discriminate]; cbn [rbind] in E end). injection E as <- _. cbn. auto.
  - cbn [dec dec_step] in E. repeat (match type of E with rbind ?r _ = _ => destruct r; [|discriminate]; cbn [rbind] in E | (let (_, _) := ?p in _) = _ => destruct p end). injection E as <- _. cbn. auto.
  - cbn [dec dec_step] in E. repeat (match type of E with rbind ?r _ = _ => destruct r; [|discriminate]; cbn [rbind] in E | (let (_, _) := ?p in _) = _ => destruct p end). injection E as <- _. cbn. auto.
  - cbn [dec dec_step] in E. repeat (match type of E with rbind ?r _ = _ => destruct r; [|discriminate]; cbn [rbind] in E | (let (_, _) := ?p in _) = _ => destruct p end). injection E as <- _. cbn. auto.
Qed.

(** *** preparation *)
Lemma resolve_errs : forall (K : pobj -> Prop) x o, tame K x -> K o -> errs (resolve false x o).
Proof.
  intros K x o T O. destruct x; try apply errs_ok; cbn [resolve].
  - exact (proj1 T o O).
  - apply errs_bind; [|intros; apply errs_ok]. cbn in T. unfold self_class. destruct T as [T|T].
    + destruct (T o O) as (P & A & _). rewrite A, P. apply errs_ok.
    + destruct (assoc "cls" (p_attrs o)); [auto with errs|]. destruct (p_proxy o); auto with errs.
Qed.
Lemma resolve_poised : forall (K : pobj -> Prop) x o x', tame K x -> K o -> resolve false x o = Ok x' -> poised K x' /\ calm x'.
Proof.
  intros K x o x' T O E. destruct x; cbn [resolve] in E; try (injection E as <-; split; [exact T|exact I]); try contradiction.
  - destruct T as (_ & [C _] & T). match type of E with rbind ?q _ = _ => destruct q as [v|]; [|discriminate] end. cbn [rbind] in E. unfold cond_branch in E.
    destruct (key_eqb v (VBool true)); [injection E as <-; auto using tame_poised|]. destruct (key_eqb v (VBool false)); [injection E as <-; split; exact I|].
    destruct (hashable v); discriminate.
  - unfold self_class in E. cbn in T. destruct (assoc "cls" (p_attrs o)) eqn:A; [discriminate|]. destruct (p_proxy o) eqn:P; [|discriminate]. cbn in E. injection E as <-.
    split; [|exact I]. cbn. destruct T as [T|T]; [left; now destruct (T o O) as (_ & _ & Q)|now right].
  - destruct (existsb needs_pre subs) eqn:N; injection E as <-; (split; [|cbn; auto]); cbn; [split; [exact O|now apply go_forall]|exact T].
Qed.
Lemma choose_errs : forall m d r, (hashable r = false -> U TypeError) -> errs (choose m d r).
Proof. intros m d r H. unfold choose. destruct (hashable r); [|auto with errs]. destruct (map_find r m); [apply errs_ok|]. destruct d; auto with errs. Qed.
Lemma choose_tame : forall K m d r s, Forall (fun p : value * ser => tame K (snd p)) m -> match d with Some x => tame K x | None => True end ->
  choose m d r = Ok s -> tame K s.
Proof.
  intros K m d r s M D E. unfold choose in E. destruct (hashable r); [|discriminate]. destruct (map_find r m) as [y|] eqn:F.
  - injection E as <-. clear D. induction M as [|[k y'] m H M IH]; [discriminate|]. cbn in F. destruct (key_eqb r k); [injection F as <-; exact H|auto].
  - destruct d; [|discriminate]. injection E as <-. exact D.
Qed.
Lemma np_tame : forall K K' s, needs_pre s = false -> tame K s -> tame K' s.
Proof. intros K K' s N T. destruct s; try discriminate N; exact T. Qed.

(** *** dictionaries *)
Lemma assoc_set_none : forall a b v (d : list (string * value)), a <> b -> assoc a d = None -> assoc a (assoc_set b v d) = None.
Proof. intros a b v d N H. rewrite assoc_set_eq. destruct (String.eqb_spec a b); [contradiction|exact H]. Qed.
Lemma assoc_set_some : forall a b v (d : list (string * value)), a = b \/ assoc a d <> None -> assoc a (assoc_set b v d) <> None.
Proof. intros a b v d H. rewrite assoc_set_eq. destruct (String.eqb_spec a b); [discriminate|]. destruct H; [contradiction|assumption]. Qed.
Lemma assign_facts : forall vs names d names' d', assign names vs d = (Some names', d') ->
  exists pre, names = pre ++ names' /\ (forall a, In a pre \/ assoc a d <> None -> assoc a d' <> None) /\
    (~ In "cls" names -> assoc "cls" d = None -> assoc "cls" d' = None).
Proof.
  induction vs as [|v vs IH]; intros names d names' d' E.
  - cbn in E. destruct names; injection E as <- <-; (exists []; repeat split; auto; intros a [[]|H]; exact H).
  - destruct names as [|a names]; [discriminate|]. cbn [assign] in E. destruct (IH _ _ _ _ E) as (pre & -> & H & K). exists (a :: pre). repeat split.
    + intros x [[->|I]|G]; apply H; [right; apply assoc_set_some; now left|now left|right; apply assoc_set_some; now right].
    + intros N D. apply K; [intros I; apply N; now right|]. apply assoc_set_none; [|exact D]. intros Q. apply N. left. congruence.
Qed.

(** *** the decoder *)
(** the sub-serializers that are filled one after the other *)
Definition units (s : ser) : list ser := match s with SCompound _ l => l | _ => [s] end.
Definition nospec (s : ser) : Prop := match s with SSpec _ _ _ => False | _ => True end.
Section Steps.
(** [steps l b st b' st']: the serializers [l] have read up to [b'] from [b]; [st]: the names that are left and the
    attributes set so far *)
Variables (px : bool) (n c : nat).
Inductive steps : list ser -> bytes -> list string * list (string * value) -> bytes -> list string * list (string * value) -> Prop :=
| Steps0 : forall b st, steps [] b st b st
| Steps1 : forall x x' l b vs k names d names' d' b' st', resolve false x (PO c px d) = Ok x' -> dec hb ct md n x' (PO c px d) b = Ok (vs, k) ->
    assign names vs d = (Some names', d') -> steps l (adv k b) (names', d') b' st' -> steps (x :: l) b (names, d) b' st'.
Lemma steps_app : forall l l' b st b1 st1 b2 st2, steps l b st b1 st1 -> steps l' b1 st1 b2 st2 -> steps (l ++ l') b st b2 st2.
Proof. intros l l' b st b1 st1 b2 st2 H H'. induction H; cbn [app]; [exact H'|]. econstructor; eauto. Qed.
End Steps.
(** the object while the serializers behind [l] are at work *)
Definition met (px : bool) (c : nat) (st0 : list string * list (string * value)) (l : list ser) (o : pobj) : Prop :=
  exists n b b' st, steps px n c l b st0 b' st /\ o = PO c px (snd st).
Definition class_tame (px : bool) (c : nat) (st0 : list string * list (string * value)) (s : ser) : Prop :=
  nospec s /\ forall l1 x l2, units s = l1 ++ x :: l2 -> tame (met px c st0 l1) x.
Hypothesis CT : forall c cd, ct c = Some cd -> class_tame true c (c_attrs cd, []) (c_ser cd).
Definition dec_ok (n : nat) : Prop := forall (K : pobj -> Prop) x ctx b, poised K x -> calm x -> K ctx -> errs (dec hb ct md n x ctx b).
Section Step.
Variable n : nat.
Hypothesis IH : dec_ok n.
Lemma items_errs : forall (K : pobj -> Prop) item ctx c b, poised K item -> calm item -> K ctx -> errs (dec_items (dec hb ct md n) item ctx c b).
Proof.
  intros K item ctx c. induction c as [|c IC]; intros b T C O; [apply errs_ok|]. cbn [dec_items]. apply errs_bind; [eapply IH; eauto|].
  intros [vs k] _. apply errs_bind; [now apply IC|]. intros [rest k'] _. apply errs_ok.
Qed.
Lemma oresolve_errs : forall (K : pobj -> Prop) pre x, tame K x -> match pre with Some o => K o | None => True end -> errs (oresolve false pre x).
Proof. intros K [o|] x T O; [eapply resolve_errs; eauto|apply errs_ok]. Qed.
Lemma oresolve_poised : forall (K : pobj -> Prop) pre x x', tame K x -> match pre with Some o => K o | None => calm x end -> oresolve false pre x = Ok x' -> poised K x' /\ calm x'.
Proof. intros K [o|] x x' T O E; [eapply resolve_poised; eauto|]. cbn in E. injection E as <-. auto using tame_poised. Qed.
Definition pre_ok (K : pobj -> Prop) (pre : option pobj) (ctx : pobj) (subs : list ser) : Prop :=
  match pre with Some o => K o | None => Forall calm subs /\ K ctx end.
Lemma subs_errs : forall K pre ctx subs b, Forall (tame K) subs -> pre_ok K pre ctx subs -> errs (dec_subs (dec hb ct md n) pre ctx subs b).
Proof.
  intros K pre ctx subs. induction subs as [|x subs IS]; intros b T P; [apply errs_ok|]. inversion T; subst. cbn [dec_subs].
  assert (P2 : match pre with Some o => K o | None => calm x end) by (destruct pre; [exact P|destruct P as [P _]; now inversion P]).
  apply errs_bind. { eapply (oresolve_errs K); eauto. destruct pre; [exact P|exact I]. }
  intros x' E. destruct (oresolve_poised K pre x x' H1 P2 E) as [T' C']. apply errs_bind.
  - eapply (IH K); eauto. destruct pre; [exact P|exact (proj2 P)].
  - intros [vs k] _. apply errs_bind; [|intros [rest k'] _; apply errs_ok]. apply IS; [assumption|]. destruct pre; [exact P|]. destruct P as [P Q]. inversion P. split; assumption.
Qed.
Lemma compound_calm : forall id subs, calm (SCompound id subs) -> Forall calm subs.
Proof.
  intros id subs CA. cbn [calm] in CA. apply Forall_forall. intros y I. destruct CA as [CA|CA].
  - assert (Q : needs_pre y = false).
    { destruct (needs_pre y) eqn:Q; [|reflexivity]. rewrite <- CA. symmetry. apply existsb_exists. eauto. }
    destruct y; try discriminate Q; exact Logic.I.
  - destruct y; cbn; auto.
Qed.
(** with the object in view *)
Lemma fill_some : forall px c st0 ctx a0 subs done b0 b names d, steps px n c done b0 st0 b (names, d) ->
  (forall l1 x l2, done ++ subs = l1 ++ x :: l2 -> tame (met px c st0 l1) x) ->
  errs (fst (dfill_subs (dec hb ct md n) (Some (PO c px a0)) ctx subs b names d)).
Proof.
  intros px c st0 ctx a0. induction subs as [|x subs IS]; intros done b0 b names d ST T; [apply errs_ok|]. cbn [dfill_subs option_map p_cls p_proxy oresolve octx].
  pose proof (T done x subs eq_refl) as TX.
  assert (O : met px c st0 done (PO c px d)) by (exists n, b0, b, (names, d); auto).
  pose proof (resolve_errs _ x _ TX O) as E1.
  destruct (resolve false x (PO c px d)) as [x'|] eqn:R; [|exact (errs_cast _ E1)]. cbn [rbind].
  destruct (resolve_poised _ x _ x' TX O R) as [T' C']. pose proof (IH _ x' _ b T' C' O) as E2.
  destruct (dec hb ct md n x' (PO c px d) b) as [[vs k]|e] eqn:D; [|exact (errs_cast _ E2)].
  destruct (assign names vs d) as [[names'|] d'] eqn:A; [|cbn [fst]; auto with errs].
  assert (ST' : steps px n c (done ++ [x]) b0 st0 (adv k b) (names', d')).
  { eapply steps_app; [exact ST|]. econstructor; eauto. constructor. }
  assert (T2 : forall l1 y l2, (done ++ [x]) ++ subs = l1 ++ y :: l2 -> tame (met px c st0 l1) y) by (intros l1 y l2; rewrite <- app_assoc; apply T).
  specialize (IS (done ++ [x]) b0 (adv k b) names' d' ST' T2).
  destruct (dfill_subs (dec hb ct md n) (Some (PO c px a0)) ctx subs (adv k b) names' d') as [r d'']. cbn [fst] in *. now apply errs_rmap.
Qed.
(** no serializer looks at the object *)
Lemma fill_none : forall (K : pobj -> Prop) ctx subs b names d, Forall (tame K) subs -> Forall calm subs -> K ctx ->
  errs (fst (dfill_subs (dec hb ct md n) None ctx subs b names d)).
Proof.
  intros K ctx subs. induction subs as [|x subs IS]; intros b names d T C O; [apply errs_ok|]. inversion T; subst. inversion C; subst. cbn [dfill_subs option_map oresolve rbind octx].
  pose proof (IH K x ctx b (tame_poised _ _ H1) H3 O) as E. destruct (dec hb ct md n x ctx b) as [[vs k]|e]; [|exact (errs_cast _ E)].
  destruct (assign names vs d) as [[names'|] d']; [|cbn [fst]; auto with errs].
  specialize (IS (adv k b) names' d' H2 H4 O). destruct (dfill_subs (dec hb ct md n) None ctx subs (adv k b) names' d') as [r d'']. cbn [fst] in *. now apply errs_rmap.
Qed.
Lemma fill_errs : forall px c names d s x b, class_tame px c (names, d) s -> resolve false s (PO c px d) = Ok x ->
  errs (fst (dfill (dec hb ct md n) x (PO c px d) b names d)).
Proof.
  intros px c names d s x b [NS T] R.
  assert (O : met px c (names, d) [] (PO c px d)) by (exists n, b, b, (names, d); split; [constructor|reflexivity]).
  assert (FIN : forall (names' : list string) (k : Z), errs (match names' with [] => Ok k | _ => Err ValueError end)) by (intros [|? ?] k; auto with errs).
  assert (LEAF : is_compound x = false -> tame (met px c (names, d) []) s -> errs (fst (dfill (dec hb ct md n) x (PO c px d) b names d))).
  { intros NC TS. destruct (resolve_poised _ s _ x TS O R) as [T' C']. pose proof (IH _ x (PO c px d) b T' C' O) as E.
    assert (F : dfill (dec hb ct md n) x (PO c px d) b names d = match dec hb ct md n x (PO c px d) b with
      | Err e => (Err e, d)
      | Ok (vs, k) => match assign names vs d with
                      | (None, d') => (Err ValueError, d')
                      | (Some names', d') => (match names' with [] => Ok k | _ => Err ValueError end, d')
                      end end) by (destruct x; try discriminate NC; reflexivity).
    rewrite F. destruct (dec hb ct md n x (PO c px d) b) as [[vs k]|e]; [|exact (errs_cast _ E)].
    destruct (assign names vs d) as [[names'|] d']; cbn [fst]; auto with errs. }
  destruct (match s with SCompound _ _ => true | _ => false end) eqn:SC.
  - destruct s; try discriminate SC. cbn [units] in T. cbn [resolve] in R. destruct (existsb needs_pre subs) eqn:NP; injection R as <-; cbn [dfill].
    + pose proof (fill_some px c (names, d) (PO c px d) d subs [] b b names d (Steps0 _ _ _ _ _) T) as E.
      destruct (dfill_subs (dec hb ct md n) (Some (PO c px d)) (PO c px d) subs b names d) as [[[names' k]|e] d']; cbn [fst] in *; [apply FIN|exact (errs_cast _ E)].
    + assert (A : Forall (tame (fun _ => True)) subs /\ Forall calm subs).
      { split; [|apply (compound_calm id); now left]. apply Forall_forall. intros y I. pose proof I as J. apply in_split in I as (l1 & l2 & I). specialize (T l1 y l2 I).
        apply (np_tame (met px c (names, d) l1)); [|exact T]. destruct (needs_pre y) eqn:Q; [|reflexivity]. rewrite <- NP. symmetry. apply existsb_exists. eauto. }
      pose proof (fill_none (fun _ => True) (PO c px d) subs b names d (proj1 A) (proj2 A) I) as E.
      destruct (dfill_subs (dec hb ct md n) None (PO c px d) subs b names d) as [[[names' k]|e] d']; cbn [fst] in *; [apply FIN|exact (errs_cast _ E)].
  - assert (TS : tame (met px c (names, d) []) s) by (apply (T [] s []); destruct s; try discriminate SC; reflexivity).
    apply LEAF; [|exact TS].
    destruct s; try discriminate SC; try contradiction; cbn [resolve] in R; try (injection R as <-; reflexivity).
    + destruct TS as (_ & [_ C] & _). match type of R with rbind ?q _ = _ => destruct q as [v|]; [|discriminate] end. cbn [rbind] in R. unfold cond_branch in R.
      destruct (key_eqb v (VBool true)); [injection R as <-; exact C|]. destruct (key_eqb v (VBool false)); [injection R as <-; reflexivity|].
      destruct (hashable v); discriminate.
    + destruct (self_class _) as [y|]; [|discriminate]. injection R as <-. reflexivity.
Qed.
Lemma class_resolve : forall px c names d s, class_tame px c (names, d) s -> errs (resolve false s (PO c px d)).
Proof.
  intros px c names d s [NS T].
  assert (O : met px c (names, d) [] (PO c px d)) by (exists n, [], [], (names, d); split; [constructor|reflexivity]).
  destruct (match s with SCompound _ _ => true | _ => false end) eqn:SC.
  - destruct s; try discriminate SC. apply errs_ok.
  - apply (resolve_errs (met px c (names, d) [])); [|exact O]. apply (T [] s []). destruct s; try discriminate SC; reflexivity.
Qed.
(** once all names are used up, every attribute has a value *)
Definition covers (names : list string) (names' : list string) (d d' : list (string * value)) : Prop :=
  exists pre, names = pre ++ names' /\ forall a, In a pre \/ assoc a d <> None -> assoc a d' <> None.
Lemma covers_trans : forall n1 n2 n3 d1 d2 d3, covers n1 n2 d1 d2 -> covers n2 n3 d2 d3 -> covers n1 n3 d1 d3.
Proof.
  intros n1 n2 n3 d1 d2 d3 (p & -> & A) (q & -> & B). exists (p ++ q). split; [now rewrite app_assoc|]. intros a [I|I].
  - apply in_app_or in I as [I|I]; apply B; [right; apply A; now left|now left].
  - apply B. right. apply A. now right.
Qed.
Lemma covers_assign : forall vs names d names' d', assign names vs d = (Some names', d') -> covers names names' d d'.
Proof. intros vs names d names' d' E. destruct (assign_facts _ _ _ _ _ E) as (pre & Q & A & _). exists pre. auto. Qed.
Lemma fill_subs_covers : forall pre ctx subs b names d names' k d', dfill_subs (dec hb ct md n) pre ctx subs b names d = (Ok (names', k), d') ->
  covers names names' d d'.
Proof.
  intros pre ctx subs. induction subs as [|x subs IS]; intros b names d names' k d' E.
  - cbn in E. injection E as <- _ <-. exists []. split; [reflexivity|]. intros a [[]|H]; exact H.
  - cbn [dfill_subs] in E. match type of E with match ?q with _ => _ end = _ => destruct q as [[vs k0]|]; [|discriminate] end.
    destruct (assign names vs d) as [[names1|] d1] eqn:A; [|discriminate].
    destruct (dfill_subs (dec hb ct md n) pre ctx subs (adv k0 b) names1 d1) as [[[n2 k2]|] d2] eqn:Q; [|discriminate]. cbn in E. injection E as <- _ <-.
    eapply covers_trans; [eapply covers_assign; eauto|eapply IS; eauto].
Qed.
Lemma fill_covers : forall x ctx b names d k d', dfill (dec hb ct md n) x ctx b names d = (Ok k, d') -> covers names [] d d'.
Proof.
  intros x ctx b names d k d' E.
  assert (LEAF : (match dec hb ct md n x ctx b with
      | Err e => (Err e, d)
      | Ok (vs, k) => match assign names vs d with
                      | (None, d') => (Err ValueError, d')
                      | (Some names', d') => (match names' with [] => Ok k | _ => Err ValueError end, d')
                      end end) = (Ok k, d') -> covers names [] d d').
  { intros Q. destruct (dec hb ct md n x ctx b) as [[vs k0]|e]; [|discriminate]. destruct (assign names vs d) as [[names'|] d1] eqn:A; [|discriminate].
    destruct names'; [|discriminate]. injection Q as _ <-. eapply covers_assign; eauto. }
  destruct x; try (now apply LEAF); cbn [dfill] in E; clear LEAF;
    (match type of E with match ?q with _ => _ end = _ => destruct q as [[[names' k0]|] d1] eqn:Q; [|discriminate] end;
     destruct names'; [|discriminate]; injection E as _ <-; eapply fill_subs_covers; eauto).
Qed.
Lemma attrs_errs : forall names (d : list (string * value)), (forall a, In a names -> assoc a d <> None) -> errs (get_attrs names d).
Proof.
  intros names d. unfold get_attrs. induction names as [|a names IN]; intros H; [apply errs_ok|]. cbn [rmapM].
  destruct (assoc a d) eqn:Q; [|destruct (H a (or_introl eq_refl) Q)]. cbn [rbind]. apply errs_bind; [apply IN; intros; apply H; now right|]. intros; apply errs_ok.
Qed.
Lemma create_errs : forall c b, ct c <> None \/ U AttributeError -> errs (dcreate_step ct (dec hb ct md n) c b).
Proof.
  intros c b H. unfold dcreate_step. destruct (ct c) as [cd|] eqn:C; [|destruct H; [contradiction|auto with errs]].
  pose proof (CT c cd C) as T. apply errs_bind; [eapply class_resolve; eauto|]. intros x E.
  pose proof (fill_errs true c (c_attrs cd) [] (c_ser cd) x b T E) as F.
  pose proof (fill_covers x (PO c true []) b (c_attrs cd) []) as FC.
  destruct (dfill (dec hb ct md n) x (PO c true []) b (c_attrs cd) []) as [[k|e] d]; [|exact (errs_cast _ F)].
  apply errs_rmap, attrs_errs. destruct (FC k d eq_refl) as (pre & Q & A). intros a I. apply A. left. rewrite Q, app_nil_r in I. exact I.
Qed.
Lemma header_errs : forall h static b, header_in h static ->
  errs (rdo hv <- dost hb h b; header_unpack_values h static hv).
Proof.
  intros h static b H. destruct h as [st|]; cbn [header_in dost onvals] in *.
  - destruct H as (A & F & N). apply errs_bind; [apply dst_errs; unfold acts_in; now rewrite A|]. intros hv E.
    destruct (dst_ints st b hv A F E) as [I L]. unfold header_unpack_values. cbn [onvals].
    assert (ONE : forall {B} (f : Z -> B), errs (rdo v <- nth0 hv; rdo z <- as_int v; Ok (f z))).
    { intros B f. destruct hv as [|v hv]; [cbn in L; lia|]. cbn [nth0 rbind]. inversion I; subst. apply errs_bind; [now apply as_int_errs|]. intros; apply errs_ok. }
    destruct (0 <=? static); [destruct (Nat.eqb _ 1); [apply ONE|apply errs_ok]|]. destruct (Nat.eqb (ss_nvals st) 2); [|apply ONE].
    destruct hv as [|a [|b0 []]]; auto with errs. inversion I as [|? ? I1 I2]; subst. inversion I2; subst.
    apply errs_bind; [now apply as_int_errs|]. intros. apply errs_bind; [now apply as_int_errs|]. intros; apply errs_ok.
  - cbn [rbind]. unfold header_unpack_values. cbn [onvals]. destruct (0 <=? static) eqn:Q; [apply errs_ok|lia].
Qed.
Lemma step_errs : dec_ok (S n).
Proof.
  intros K x ctx b T C O. cbn [dec]. destruct x; cbn [dec_step]; cbn [poised] in T.
  - apply errs_ok.
  - apply errs_bind; [now apply dst_errs|]. intros; apply errs_ok.
  - apply errs_ok.
  - cbn [tame] in T. apply (count_errs st b); [exact T|]. intros z. destruct md; [apply errs_ok| |];
      (apply errs_bind; [apply matmul_errs|]; intros o M; apply errs_bind; [apply dost_errs; eapply single_in; eauto|]; intros; apply errs_ok).
  - apply errs_ok.
  - destruct (byte_find t b); auto with errs.
  - apply errs_bind; [apply net_errs|]. intros [size count] _. destruct md; try apply errs_ok. apply errs_bind; [now apply dst_errs|]. intros; apply errs_ok.
  - destruct T as [T D]. apply errs_bind.
    + apply (IH K); [|destruct x; try contradiction; exact I|exact O].
      destruct x; try contradiction; try exact I; cbn [poised tame texty] in *; [destruct T as (t & _ & _ & A); unfold acts_in; now rewrite A|exact (proj1 T)].
    + intros [vs k] E. apply (bytes_errs vs (fun y => rdo t <- cod_dec cd y; Ok ([VStr (rstrip_nul t)], k))); [eapply texty_first; eauto|].
      intros y. apply errs_bind; [apply D|]. intros; apply errs_ok.
  - apply errs_bind; [apply mul_errs|]. intros o M. apply errs_bind; [apply dost_errs; eapply mul_in; eauto|]. intros; apply errs_ok.
  - destruct T as [T A]. destruct (uint_ints cnt T) as (AC & IN & NV). apply errs_bind; [apply dst_errs; unfold acts_in; now rewrite AC|].
    intros cs E. destruct (dst_ints cnt b cs AC IN E) as [G L]. rewrite NV in L. destruct cs as [|v []]; try discriminate L. cbn [one rbind]. inversion G; subst.
    apply errs_bind; [now apply as_int_errs|]. intros z _. apply errs_bind; [apply mul_errs|]. intros o M.
    apply errs_bind; [apply dost_errs; eapply mul_in; eauto|]. intros; apply errs_ok.
  - destruct T as [H T]. pose proof (header_errs hdr static b H) as E. destruct (dost hb hdr b) as [hv|e]; [|exact (errs_cast _ E)]. cbn [rbind] in *.
    apply errs_bind; [exact E|]. intros [count size] _. apply errs_bind; [eapply resolve_errs; eauto|]. intros item' R.
    destruct (resolve_poised K _ _ _ T O R) as [T' C']. apply errs_bind; [eapply items_errs; eauto|]. intros [items k] _.
    apply errs_bind; [unfold check_data_size; destruct (_ && _); auto with errs|]. intros; apply errs_ok.
  - cbn [tame] in T. apply errs_bind; [eapply resolve_errs; eauto|]. intros x' R. destruct (resolve_poised K _ _ _ T O R) as [T' C'].
    apply errs_bind; [eapply IH; eauto|]. intros [vs k] _; apply errs_ok.
  - now apply errs_err.
  - destruct T as (F & HK & M & D). apply gom_forall in M. apply errs_bind; [now apply F|]. intros r R. apply errs_bind; [apply choose_errs; eapply HK; eauto|].
    intros s0 S. pose proof (choose_tame K _ _ _ _ M D S) as T0. apply errs_bind; [eapply resolve_errs; eauto|]. intros x' RX.
    destruct (resolve_poised K _ _ _ T0 O RX) as [T' C']. eapply IH; eauto.
  - destruct T as (TR & CR & HR & M & D). apply gom_forall in M. apply errs_bind; [eapply (IH K); eauto using tame_poised|]. intros [rs k] R.
    pose proof (heady_first _ _ _ _ _ _ HR R) as HK. apply errs_bind; [destruct rs; cbn in *; auto with errs|]. intros r N.
    apply errs_bind; [apply choose_errs; destruct rs; [discriminate|]; injection N as <-; exact HK|].
    intros s0 S. pose proof (choose_tame K _ _ _ _ M D S) as T0. apply errs_bind; [eapply resolve_errs; eauto|]. intros x' RX.
    destruct (resolve_poised K _ _ _ T0 O RX) as [T' C']. eapply IH; eauto.
  - apply errs_bind; [now apply create_errs|]. intros [v k] _; apply errs_ok.
  - now apply errs_err.
  - cbn [tame] in T. apply go_forall in T. apply (subs_errs K); [exact T|]. split; [now apply (compound_calm id)|exact O].
  - destruct T as [OO T]. now apply (subs_errs K).
Qed.
End Step.
Theorem dec_errs : forall n, dec_ok n.
Proof. induction n as [|n IH]; [intros K x ctx b _ _ _; cbn; auto with errs|now apply step_errs]. Qed.
Theorem dcreate_errs : forall n c b, ct c <> None -> errs (dcreate hb ct md n c b).
Proof. intros n c b H. unfold dcreate. apply create_errs; [apply dec_errs|now left]. Qed.
Theorem drefill_errs : forall n c ov d b cd, ct c = Some cd -> class_tame false c (c_attrs cd, d) (obj_ser cd ov) ->
  errs (fst (drefill_step ct (dec hb ct md n) c ov d b)).
Proof.
  intros n c ov d b cd C T. unfold drefill_step. rewrite C. pose proof (class_resolve n _ _ _ _ _ T) as E.
  destruct (resolve false (obj_ser cd ov) (PO c false d)) as [x|e] eqn:R; [|exact (errs_cast _ E)].
  exact (fill_errs n (dec_errs n) false c (c_attrs cd) d (obj_ser cd ov) x b T R).
Qed.
(** a serializer that is tame for a larger set of objects *)
Lemma class_tame_all : forall (K : pobj -> Prop) px c st0 s, tame K s -> (forall l o, met px c st0 l o -> K o) -> class_tame px c st0 s.
Proof.
  intros K px c st0 s T H. split; [destruct s; try exact I; contradiction|]. intros l1 x l2 E. apply (tame_mono K); [apply H|].
  destruct s; cbn [units] in E; try (destruct l1 as [|? []]; cbn in E; [injection E as <- _; exact T|discriminate|discriminate]).
  cbn [tame] in T. apply go_forall in T. rewrite E in T. apply Forall_app in T as [_ T]. now inversion T.
Qed.
Lemma steps_nocls : forall px n c l b st b' st', steps px n c l b st b' st' -> ~ In "cls" (fst st) -> assoc "cls" (snd st) = None ->
  ~ In "cls" (fst st') /\ assoc "cls" (snd st') = None.
Proof.
  intros px n c l b st b' st' H. induction H; intros N D; [auto|]. cbn [fst snd] in *. destruct (assign_facts _ _ _ _ _ H1) as (pre & -> & _ & K).
  apply IHsteps; cbn [fst snd]; [|auto]. intros I. apply N. apply in_or_app. now right.
Qed.
Lemma met_self : forall c names l o, ct c <> None -> ~ In "cls" names -> met true c (names, []) l o -> okself o.
Proof.
  intros c names l o C N (n & b & b' & st & ST & ->). destruct (steps_nocls _ _ _ _ _ _ _ _ ST N eq_refl) as [_ A]. repeat split; [exact A|exact C].
Qed.

(** *** sums and byte orders *)
Lemma acts_bo : forall bo st, acts_in (ss_with_bo bo st) <-> acts_in st. Proof. intros. reflexivity. Qed.
Lemma tame_bo : forall bo K s, tame K s -> tame K (with_bo bo s).
Proof.
  intros bo K. induction s using ser_ind'; cbn [with_bo]; auto; intros T.
  - destruct T as [H T]. split; [|auto]. destruct h; [exact H|exact H].
  - destruct T as (F & [C N] & T). split; [|split; [split|auto]].
    + intros o KO e E. apply (F o KO e). destruct (f o) as [v|]; [|exact E]. cbn [rbind] in *. unfold cond_branch in *.
      destruct (key_eqb v (VBool true)); [discriminate|]. destruct (key_eqb v (VBool false)); [discriminate|]. destruct (hashable v); exact E.
    + destruct s; try discriminate N; exact C.
    + now rewrite wb_is_compound.
  - cbn [tame] in *. apply go_forall in T. apply go_forall. rewrite Forall_forall in *. intros y I. apply in_map_iff in I as (z & <- & I). auto.
  - contradiction.
Qed.
Lemma add2_tame : forall K fin id a b c, tame K a -> tame K b -> add2 fin id a b = Ok c -> tame K c.
Proof.
  intros K fin id a b c A B E.
  assert (COMP : (if is_final fin a then Err TypeError else Ok (SCompound id [a; b])) = Ok c -> tame K c).
  { intros Q. destruct (is_final fin a); [discriminate|]. injection Q as <-. cbn. auto. }
  destruct a; try (injection E as <-; exact B); destruct b; try (injection E as <-; exact A); try (now apply COMP).
  cbn [add2] in E. destruct (ss_add st st0) eqn:Q; [|discriminate]. injection E as <-. exact (add_in st st0 _ A B Q).
Qed.
Lemma add_impl_tame : forall K fin id cands last before c, Forall (tame K) cands -> tame K last -> Forall (tame K) before ->
  add_impl fin id last before cands = Ok c -> tame K c.
Proof.
  intros K fin id. induction cands as [|x cands IH]; intros last before c F L B E.
  - cbn [add_impl] in E. injection E as <-. cbn [tame]. apply go_forall. change (Forall (tame K) (rev (last :: before))). apply Forall_rev. now constructor.
  - cbn [add_impl] in E. destruct (add2 fin id last x) as [j|] eqn:A; [|discriminate]. cbn [rbind] in E. inversion F; subst.
    destruct (is_compound j).
    + eapply (IH x (last :: before)); eauto.
    + apply (IH j before); auto. exact (add2_tame K fin id last x j L H1 A).
Qed.
Lemma sadd_tame : forall K fin id a b c, tame K a -> tame K b -> sadd fin id a b = Ok c -> tame K c.
Proof.
  intros K fin id a b c A B E.
  assert (BS : Forall (tame K) (match b with SCompound _ bs | SSpec _ bs _ => bs | _ => [b] end)).
  { destruct b; try (constructor; [exact B|constructor]); [now apply go_forall|contradiction]. }
  assert (AC : forall subs, Forall (tame K) subs -> match rev subs with [] => Err IndexError
     | l :: bf => add_impl fin id l bf (match b with SCompound _ bs | SSpec _ bs _ => bs | _ => [b] end) end = Ok c -> tame K c).
  { intros subs F Q. apply Forall_rev in F. destruct (rev subs) as [|l bf]; [discriminate|]. inversion F; subst. apply (add_impl_tame K fin id _ l bf c BS); assumption. }
  assert (SIMPLE : match b with SCompound _ bs | SSpec _ bs _ => if is_final fin a then Err TypeError else add_impl fin id a [] bs | _ => add2 fin id a b end = Ok c -> tame K c).
  { intros Q. destruct b; try (exact (add2_tame K fin id _ _ _ A B Q)); (destruct (is_final fin a); [discriminate|]; exact (add_impl_tame K fin id _ _ _ _ BS A (Forall_nil _) Q)). }
  destruct a; try (now apply SIMPLE).
  - injection E as <-. exact B.
  - apply (AC subs); [now apply go_forall|exact E].
Qed.
Lemma ssum_tame : forall K fin id l s, Forall (tame K) l -> ssum fin id l = Ok s -> tame K s.
Proof.
  intros K fin id l s F. unfold ssum. assert (Z : tame K SNull) by exact I. revert Z. generalize SNull. revert s. induction F as [|x l T F IH]; intros s acc A E.
  - injection E as <-. exact A.
  - cbn [ssum_from] in E. destruct (sadd fin id acc x) as [a|] eqn:Q; [|discriminate]. cbn [rbind] in E. apply (IH s a); [|exact E]. exact (sadd_tame K fin id acc x a A T Q).
Qed.

(** *** hint expressions *)
Lemma counted_shape : forall bo c n s, counted bo c n s -> s = SNull /\ n = 0 \/ exists t, s = SStruct (SS bo [t] None) /\ t_code t = c /\ n <> 0.
Proof. intros bo c n s H. unfold counted in H. destruct (Z.eqb_spec n 0); [auto|]. destruct H as (t & -> & C & _). right. eauto. Qed.
Lemma size_int : forall c, size_code c = true -> int_code c = Some false.
Proof. intros c H. destruct c; try discriminate H; reflexivity. Qed.
Lemma size_uint1 : forall bo c, size_code c = true -> uint1 (SS bo [T None c] None) = true.
Proof. intros bo c H. unfold uint1. cbn. now rewrite (size_int c H). Qed.
Lemma char_tame : forall K bo a s, char_made bo a s -> tame K s.
Proof.
  intros K bo a s H. destruct a; cbn [char_made] in H.
  - destruct H as (S & id & ->). cbn [tame]. now apply size_uint1.
  - destruct (counted_shape _ _ _ _ H) as [[-> _]|(t & -> & _)]; exact I.
  - destruct b as [|t []]; try contradiction. destruct H as (id & ->). exact I.
  - destruct H as (id & ->). exact I.
  - destruct H as (id & ->). exact I.
Qed.
Lemma char_texty : forall bo a s, char_made bo a s -> (hollow md a -> U IndexError) -> texty s.
Proof.
  intros bo a s H X. destruct a; cbn [char_made hollow] in *.
  - destruct H as (S & id & ->). cbn [texty]. split; [now apply size_uint1|]. destruct md; [now left| |]; right; now apply X.
  - destruct (counted_shape _ _ _ _ H) as [[-> Z]|(t & -> & C & _)]; [exact (X Z)|]. cbn. eauto.
  - destruct b as [|t []]; try contradiction. destruct H as (id & ->). exact I.
  - destruct H as (id & ->). exact I.
  - destruct H as (id & ->). exact I.
Qed.
Lemma made_calm : forall bo x s, made bo x s -> cond_or_self x = true \/ calm s.
Proof.
  intros bo x s M. destruct x; cbn [made cond_or_self] in *; auto; right; try contradiction.
  - destruct M as [_ ->]. exact I.
  - destruct (counted_shape _ _ _ _ M) as [[-> _]|(t & -> & _)]; exact I.
  - destruct (counted_shape _ _ _ _ M) as [[-> _]|(t & -> & _)]; exact I.
  - destruct a; cbn [char_made] in M; [destruct M as (_ & ? & ->)|destruct (counted_shape _ _ _ _ M) as [[-> _]|(t & -> & _)]|destruct b as [|? []]; try contradiction; destruct M as (? & ->)|destruct M as (? & ->)|destruct M as (? & ->)]; exact I.
  - destruct M as (i & -> & _). exact I.
  - destruct M as (_ & i & _ & M). destruct (structy x && Nat.eqb (vals x) 1); [destruct M as (st & _ & M); destruct n; [subst s|destruct M as (? & ->)]; exact I|destruct M as (? & ->); exact I].
  - destruct M as (? & ? & ? & ? & ? & -> & _). exact I.
  - destruct M as (? & ? & -> & _). exact I.
  - destruct M as (? & ? & ? & -> & _). exact I.
  - destruct M as (? & ? & ? & ? & -> & _). exact I.
  - destruct M as (? & ->). exact I.
Qed.
Lemma made_single : forall bo x s, made bo x s -> is_compound s = false.
Proof.
  intros bo x s M. destruct x; cbn [made] in *; try contradiction.
  - destruct M as [_ ->]. reflexivity.
  - destruct (counted_shape _ _ _ _ M) as [[-> _]|(t & -> & _)]; reflexivity.
  - destruct (counted_shape _ _ _ _ M) as [[-> _]|(t & -> & _)]; reflexivity.
  - destruct a; cbn [char_made] in M; [destruct M as (_ & ? & ->)|destruct (counted_shape _ _ _ _ M) as [[-> _]|(t & -> & _)]|destruct b as [|? []]; try contradiction; destruct M as (? & ->)|destruct M as (? & ->)|destruct M as (? & ->)]; reflexivity.
  - destruct M as (i & -> & _). reflexivity.
  - destruct M as (_ & i & _ & M). destruct (structy x && Nat.eqb (vals x) 1); [destruct M as (st & _ & M); destruct n; [subst s|destruct M as (? & ->)]; reflexivity|destruct M as (? & ->); reflexivity].
  - destruct M as (? & ? & ? & ? & ? & -> & _). reflexivity.
  - destruct M as (? & -> & _). reflexivity.
  - destruct M as (? & ? & -> & _). reflexivity.
  - destruct M as (? & ? & ? & -> & _). reflexivity.
  - destruct M as (? & ? & ? & ? & -> & _). reflexivity.
  - destruct M as (? & ->). reflexivity.
  - destruct M as (? & ->). reflexivity.
Qed.
(** the actions of a hint: the innermost conversion *)
Lemma made_act : forall x bo st, made bo x (SStruct st) ->
  match x with
  | XAs a y => match y with XAs _ _ => True | _ => s_act st = Some [a] end
  | _ => s_act st = None
  end.
Proof.
  intros x bo st M.
  assert (PLAIN : forall y bo st, made bo y (SStruct st) -> match y with XAs _ _ => True | _ => s_act st = None end).
  { clear. intros y bo st M. destruct y; cbn [made] in M; try exact I; try contradiction; try (destruct M as (? & Q & _); discriminate Q).
    - destruct M as [_ Q]. injection Q as ->. reflexivity.
    - destruct (counted_shape _ _ _ _ M) as [[Q _]|(t & Q & _)]; [discriminate|]. injection Q as ->. reflexivity.
    - destruct (counted_shape _ _ _ _ M) as [[Q _]|(t & Q & _)]; [discriminate|]. injection Q as ->. reflexivity.
    - destruct a; cbn [char_made] in M; [destruct M as (_ & ? & Q); discriminate|destruct (counted_shape _ _ _ _ M) as [[Q _]|(t & Q & _)]; [discriminate|injection Q as ->; reflexivity]|destruct b as [|? []]; try contradiction; destruct M as (? & Q); discriminate|destruct M as (? & Q); discriminate|destruct M as (? & Q); discriminate].
    - destruct M as (_ & i & _ & M). destruct (structy y && Nat.eqb (vals y) 1); [destruct M as (? & _ & M); destruct n; [discriminate|destruct M; discriminate]|destruct M; discriminate].
    - destruct M as (? & ? & ? & ? & ? & Q & _). discriminate.
    - destruct M as (? & ? & ? & Q & _). discriminate.
    - destruct M as (? & ? & ? & ? & Q & _). discriminate.
    - destruct M as (? & Q). discriminate.
    - destruct M as (? & Q). discriminate. }
  pose proof (PLAIN x bo st M) as P. destruct x; try exact P. cbn [made] in M. destruct M as (st0 & st' & Q & MY & _ & _ & _ & _ & A). injection Q as <-.
  pose proof (PLAIN x bo st' MY) as PY. destruct x; try exact I; rewrite PY in A; exact A.
Qed.
Lemma made_heady : forall x bo s, made bo x s -> (empty_key md x -> U IndexError) -> (odd_key x -> U TypeError) -> heady s.
Proof.
  assert (ST : forall bo t, (nvals [t] = 0%nat -> U IndexError) -> heady (SStruct (SS bo [t] None))) by (intros bo t H; cbn; auto).
  assert (ONE : forall c, basic_code c = true -> nvals [T None c] <> 0%nat) by (intros c H; destruct c; try discriminate H; discriminate).
  assert (STR : forall t, t_code t = Cs \/ t_code t = Cp -> nvals [t] <> 0%nat).
  { intros t [H|H]; unfold nvals, expand; cbn [flat_map]; unfold expand_tok; rewrite H; discriminate. }
  induction x using hx_ind'; intros bo sr M E O; cbn [made empty_key odd_key] in *; try contradiction.
  - destruct M as [B ->]. apply ST. intros N. destruct (ONE _ B N).
  - destruct (counted_shape _ _ _ _ M) as [[-> _]|(t & -> & _)]; [now apply E|]. apply ST. auto.
  - destruct (counted_shape _ _ _ _ M) as [[-> Z]|(t & -> & C & _)]; [now apply E|]. apply ST. intros N. destruct (STR t (or_intror C) N).
  - destruct a; cbn [char_made hollow] in *.
    + destruct M as (_ & id & ->). cbn. destruct md; [now left| |]; right; now apply E.
    + destruct (counted_shape _ _ _ _ M) as [[-> Z]|(t & -> & C & _)]; [now apply E|]. apply ST. intros N. destruct (STR t (or_introl C) N).
    + destruct b as [|? []]; try contradiction. destruct M as (? & ->). exact I.
    + destruct M as (? & ->). exact I.
    + destruct M as (? & ->). exact I.
  - destruct M as (i & -> & _). exact I.
  - destruct M as (_ & i & _ & M). destruct (structy x && Nat.eqb (vals x) 1); [destruct M as (st & _ & M); destruct n; [subst sr|destruct M as (? & ->)]; cbn; auto|destruct M as (? & ->); cbn; auto].
  - destruct M as (? & ? & ? & ? & ? & -> & _). cbn. auto.
  - destruct M as (i & -> & _). exact I.
  - destruct M as (st & st' & -> & MY & _ & _ & NV & W & A). cbn. split; [exact W|]. split; [congruence|].
    pose proof (made_act x bo st' MY) as Q.
    assert (BASE : s_act st' = None -> (exists v r, a v = Ok r /\ hashable r = false) -> U TypeError -> True) by auto. clear BASE.
    destruct x; try (rewrite Q in A; rewrite A; repeat constructor; intros v r V HR; apply O; exists v, r; auto).
    assert (HY : heady (SStruct st')) by (eapply IHx; eauto; intros []). destruct HY as (_ & _ & HY). rewrite A.
    destruct (s_act st') as [l|] eqn:SA; [exact HY|].
    (* a conversion always has its actions *)
    clear - SA MY. cbn [made] in MY. destruct MY as (? & ? & QQ & _ & _ & _ & _ & _ & B). injection QQ as <-. rewrite SA in B. discriminate.
  - destruct M as (? & ? & ? & -> & _). cbn. auto.
  - destruct M as (? & ? & ? & ? & -> & _). cbn. auto.
  - destruct M as (? & ->). cbn. auto.
  - destruct M as (? & ->). exact I.
Qed.
(** the classes mentioned exist *)
Fixpoint defined (x : hx) : bool :=
  match x with
  | XArray _ _ y | XCond y _ _ | XAs _ y => defined y
  | XTuple l => forallb defined l
  | XBack _ _ _ m d => forallb (fun p => defined (snd p)) m && match d with Some y => defined y | None => true end
  | XAhead _ _ ra _ m d => defined ra && forallb (fun p => defined (snd p)) m && match d with Some y => defined y | None => true end
  | XClass c => match ct c with Some _ => true | None => false end
  | _ => true
  end.
Lemma acts_of_made : forall x bo st, made bo x (SStruct st) -> forall K lost, (forall e, extra K md lost x e -> U e) -> acts_in st.
Proof.
  induction x using hx_ind'; intros bo st M K lost X; pose proof (made_act _ _ _ M) as Q; try (unfold acts_in; now rewrite Q).
  cbn [made] in M. destruct M as (st0 & st' & Z & MY & _ & _ & _ & _ & A). injection Z as <-. unfold acts_in.
  destruct x; try (rewrite Q; repeat constructor; intros v e E; apply X; cbn; eauto).
  rewrite A. assert (HY : acts_in st') by (eapply IHx; eauto). unfold acts_in in HY. destruct (s_act st') as [l|] eqn:SA; [exact HY|].
  clear - SA MY. cbn [made] in MY. destruct MY as (? & ? & QQ & _ & _ & _ & _ & _ & B). injection QQ as <-. rewrite SA in B. discriminate.
Qed.
Lemma header_made : forall bo n sz, head_ok n sz = true -> header_in (head_made bo n sz) (match n with inl z => z | inr _ => -1 end).
Proof.
  intros bo n sz H. unfold head_ok in H. apply andb_prop in H as [H1 H2]. destruct n as [z|c], sz as [d|]; cbn [head_made header_in].
  - cbn. rewrite (size_int d H2). destruct d; try discriminate H2; cbn; auto.
  - lia.
  - cbn. destruct c; try discriminate H1; destruct d; try discriminate H2; cbn; auto with arith.
  - cbn. rewrite (size_int c H1). destruct c; try discriminate H1; cbn; auto.
Qed.
Lemma made_tame : forall (K : pobj -> Prop) (lost : Prop), (forall o, K o -> okself o) \/ lost ->
  forall x bo s, made bo x s -> defined x = true -> (forall e, extra K md lost x e -> U e) -> tame K s.
Proof.
  intros K lost LOST. induction x using hx_ind'; intros bo sr M D X; cbn [made defined extra] in *; try contradiction.
  - destruct M as [_ ->]. exact I.
  - destruct (counted_shape _ _ _ _ M) as [[-> _]|(t & -> & _)]; exact I.
  - destruct (counted_shape _ _ _ _ M) as [[-> _]|(t & -> & _)]; exact I.
  - eapply char_tame; eauto.
  - destruct M as (i & -> & M). cbn. split; [eapply char_texty; eauto|]. intros b e E. apply X. left. eauto.
  - destruct M as (HO & i & M & Q). assert (TI : tame K i) by (eapply IHx; eauto). destruct (structy x && Nat.eqb (vals x) 1).
    + destruct Q as (st & -> & Q). destruct n as [z|c]; [subst sr; exact TI|]. destruct Q as (id & ->). cbn [tame]. split; [|exact TI].
      unfold head_ok in HO. apply andb_prop in HO as [HO _]. now apply size_uint1.
    + destruct Q as (id & ->). cbn [tame]. split; [now apply header_made|exact TI].
  - destruct M as (fin & id & id' & sers & i & -> & SU & A). cbn. eapply ssum_tame; [|exact SU]. apply all2_F2 in A.
    assert (XS : forall y, In y l -> forall e, extra K md lost y e -> U e).
    { intros y I e E. apply X. eapply any_in; eauto. }
    assert (DS : forall y, In y l -> defined y = true) by (intros y I; rewrite forallb_forall in D; auto).
    clear - A H XS DS. induction A as [|x s l sers MX A IH]; [constructor|]. inversion H; subst. constructor.
    + eapply H2; [exact MX|apply DS; now left|apply XS; now left].
    + apply IH; auto; intros y I; [apply XS|apply DS]; now right.
  - destruct M as (i & -> & M & _). cbn. assert (TI : tame K i) by (eapply IHx; eauto; intros e E; apply X; auto). split; [|split; [split|exact TI]].
    + intros o KO. apply errs_bind; [intros e E; apply X; left; eauto|]. intros r R. unfold cond_branch.
      destruct (key_eqb r (VBool true)) eqn:KT; [apply errs_ok|]. destruct (key_eqb r (VBool false)) eqn:KF; [apply errs_ok|].
      assert (Q : forall e, e = (if hashable r then KeyError else TypeError) -> U e).
      { intros e E. apply X. right. left. exists o, r. unfold yes_no. rewrite KT, KF. auto. }
      destruct (hashable r); apply errs_err; now apply Q.
    + destruct (made_calm bo x i M) as [CS|C]; [|exact C].
      assert (UN : U NotImplementedError) by (apply X; right; right; left; auto). destruct i; cbn; auto.
    + eapply made_single; eauto.
  - destruct M as (st & st' & -> & MY & F & B & NV & W & A). eapply (acts_of_made (XAs a x) bo st); [cbn [made]; exists st, st'; auto 10|exact X].
  - destruct M as (iid & ms & ds & -> & AM & AD). apply andb_prop in D as [DM DD]. cbn [tame].
    split; [intros o KO e E; apply X; left; eauto|]. split; [intros o r KO R HR; apply X; right; left; split; [reflexivity|]; exists o, r; auto|]. split.
    + apply gom_forall. apply all2_F2 in AM.
      assert (XS : forall p, In p m -> forall e, extra K md lost (snd p) e -> U e).
      { intros p I e E. apply X. right. right. left. eapply any_in; eauto. }
      rewrite forallb_forall in DM. clear - AM H0 XS DM. rename H0 into H.
      induction AM as [|p q m ms [_ MX] AM IH]; [constructor|]. inversion H; subst. constructor.
      * eapply H2; [exact MX|apply DM; now left|apply XS; now left].
      * apply IH; auto; intros y I; [apply DM|apply XS]; now right.
    + destruct d as [y|], ds as [t|]; try contradiction; [|exact I]. apply (H1 y eq_refl BO_DEFAULT); auto.
  - destruct M as (iid & r & ms & ds & -> & MR & AM & AD). apply andb_prop in D as [D DD]. apply andb_prop in D as [DR DM]. cbn [tame].
    split; [eapply IHx; eauto; intros e E; apply X; auto|]. split.
    { destruct (made_calm _ x r MR) as [CS|C]; [|exact C]. assert (UN : U NotImplementedError) by (apply X; do 3 right; left; auto). destruct r; cbn; auto. }
    split; [exact (made_heady _ _ _ MR (fun Z => X _ (or_intror (or_introl (conj eq_refl Z)))) (fun Z => X _ (or_intror (or_intror (or_introl (conj eq_refl Z))))))|]. split.
    + apply gom_forall. apply all2_F2 in AM.
      assert (XS : forall p, In p m -> forall e, extra K md lost (snd p) e -> U e).
      { intros p I e E. apply X. do 4 right. left. eapply any_in; eauto. }
      rewrite forallb_forall in DM. clear - AM H0 XS DM. rename H0 into H.
      induction AM as [|p q m ms [_ MX] AM IH]; [constructor|]. inversion H; subst. constructor.
      * eapply H2; [exact MX|apply DM; now left|apply XS; now left].
      * apply IH; auto; intros y I; [apply DM|apply XS]; now right.
    + destruct d as [y|], ds as [t|]; try contradiction; [|exact I]. apply (H1 y eq_refl BO_DEFAULT t AD DD). intros e E. apply X. do 5 right. exact E.
  - destruct M as (id & ->). cbn. left. destruct (ct c); [discriminate|discriminate D].
  - destruct M as (id & ->). cbn. destruct LOST as [Q|Q]; [now left|right]. apply X. auto.
Qed.
End Errs.
