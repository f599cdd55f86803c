(** Property C54: why packing fails, read off the class statements (WhySpec.v). *)
From Verif Require Import Base Floats Value StructMod Format Ser Exec Pure BaseFacts SerFacts RefPack User DecFacts Sample Fuel
  Wire Hints HintFacts Surface SerShape Programs Accept AcceptProg PropsProgram PropsAccept WireSpec WireFacts Wires PropsWire
  PackSpec Packable Packing PropsPack WhySpec Whys Reasons Raises.
Open Scope string_scope. Open Scope list_scope. Open Scope Z_scope.

(** Every exception that [pack] raises has a reason in the class statement and the instance: an attribute is missing,
    or the first field that fails is one whose hint expression does not take the value, and then the exception is the one
    that WhySpec.v gives for that.  All the fields in front of it have a layout. *)
Theorem C54_pack : forall hb idf fac prog l sl allow n c ov d w e,
  run idf fac [] 0 prog = Ok l -> check_prog [] 0 prog = Some sl -> forallb regular_class sl = true ->
  healthy (classes l) allow -> conforms hb (classes l) allow n (VObj c ov d) ->
  fst (Structured_pack hb (classes l) n (VObj c ov d) w) = Err e -> e <> RecursionError ->
  why_not hb sl (S n) c ov d e.
Proof.
  intros hb idf fac prog l sl allow n c ov d w e R CK RG H CF E NR.
  pose proof (prog_rel idf fac prog [] [] 0 nothing_defined) as P. rewrite CK in P.
  destruct P as (l' & Q & CR). assert (l' = l) as -> by congruence.
  destruct (user_pack hb (classes l) allow false n (VObj c ov d) KPack w H) as [X _]; [discriminate|exact CF|exact I|].
  unfold Structured_pack, do_pack in *. rewrite X in E.
  destruct (why_complete hb allow sl l CR RG n c ov d e E) as [[Z|Z]|W]; [contradiction| |exact W]. subst e. contradiction.
Qed.
Print Assumptions C54_pack.
(** [pack_write] raises what [pack] raises. *)
Theorem C54_pack_write : forall hb idf fac prog l sl allow n c ov d w e,
  run idf fac [] 0 prog = Ok l -> check_prog [] 0 prog = Some sl -> forallb regular_class sl = true ->
  healthy (classes l) allow -> conforms hb (classes l) allow n (VObj c ov d) -> 0 <= w_pos w ->
  fst (Structured_pack_write hb (classes l) n (VObj c ov d) w) = Err e -> e <> RecursionError ->
  why_not hb sl (S n) c ov d e.
Proof.
  intros hb idf fac prog l sl allow n c ov d w e R CK RG H CF PO E NR.
  pose proof (prog_rel idf fac prog [] [] 0 nothing_defined) as P. rewrite CK in P.
  destruct P as (l' & Q & CR). assert (l' = l) as -> by congruence.
  pose proof (user_pack hb (classes l) allow false n (VObj c ov d) KWrite w H ltac:(discriminate) CF PO) as [X _].
  unfold Structured_pack_write, do_pack in *. rewrite X in E.
  destruct (enc_obj hb (classes l) allow n (VObj c ov d)) as [b|e'] eqn:EN; cbn in E; [discriminate|]. injection E as ->.
  destruct (why_complete hb allow sl l CR RG n c ov d e EN) as [[Z|Z]|W]; [contradiction| |exact W]. subst e. contradiction.
Qed.
Print Assumptions C54_pack_write.
(** For the programs of C42 nothing is left to assume about the class objects. *)
Theorem C54_program : forall hb md idf fac prog l sl n c ov d w e,
  program md idf fac prog l -> check_prog [] 0 prog = Some sl -> forallb regular_class sl = true ->
  conforms hb (classes l) Nat.eqb n (VObj c ov d) ->
  fst (Structured_pack hb (classes l) n (VObj c ov d) w) = Err e -> e <> RecursionError ->
  why_not hb sl (S n) c ov d e.
Proof.
  intros hb md idf fac prog l sl n c ov d w e P CK RG CF E NR.
  eapply C54_pack; eauto; [exact (pr_run _ _ _ _ _ P)|exact (C42_healthy _ _ _ _ _ P)].
Qed.
Print Assumptions C54_program.
(** And they are reasons: [pack] raises an exception exactly when there is one. *)
Theorem C54_exact : forall hb idf fac prog l sl allow n c ov d w,
  run idf fac [] 0 prog = Ok l -> check_prog [] 0 prog = Some sl -> forallb regular_class sl = true ->
  healthy (classes l) allow -> conforms hb (classes l) allow n (VObj c ov d) ->
  fst (Structured_pack hb (classes l) n (VObj c ov d) w) <> Err RecursionError ->
  ((exists e, fst (Structured_pack hb (classes l) n (VObj c ov d) w) = Err e) <-> exists e, why_not hb sl (S n) c ov d e).
Proof.
  intros hb idf fac prog l sl allow n c ov d w R CK RG H CF NR. split.
  - intros [e E]. exists e. eapply C54_pack; eauto. congruence.
  - intros [e Y]. destruct (fst (Structured_pack hb (classes l) n (VObj c ov d) w)) as [b|e'] eqn:E; [|eauto]. exfalso.
    assert (NR' : fst (Structured_pack hb (classes l) n (VObj c ov d) w) <> Err RecursionError) by congruence.
    destruct (proj1 (C49_pack hb idf fac prog l sl allow n c ov d w b R CK RG H CF NR') E) as [W F].
    exact (why_sound hb allow sl RG (S n) c ov d e b W F Y).
Qed.
Print Assumptions C54_exact.
(** The same said of the specifications alone: an instance with a layout that can be packed has no reason to fail, and
    an instance to which no reason applies is packed by [pack], whatever the earlier state. *)
Theorem C54_no_reason : forall hb md idf fac prog l sl n c ov d w,
  program md idf fac prog l -> check_prog [] 0 prog = Some sl -> forallb regular_class sl = true ->
  conforms hb (classes l) Nat.eqb n (VObj c ov d) ->
  fst (Structured_pack hb (classes l) n (VObj c ov d) w) <> Err RecursionError ->
  ((forall e, ~ why_not hb sl (S n) c ov d e) <->
   exists b, fst (Structured_pack hb (classes l) n (VObj c ov d) w) = Ok b /\ wire hb sl (S n) c ov d = Some b).
Proof.
  intros hb md idf fac prog l sl n c ov d w P CK RG CF NR. split.
  - intros NO. destruct (fst (Structured_pack hb (classes l) n (VObj c ov d) w)) as [b|e] eqn:E.
    + exists b. split; [reflexivity|]. eapply C44_program; eauto.
    + exfalso. apply (NO e). eapply C54_program; eauto. congruence.
  - intros (b & E & W) e Y. destruct (proj1 (C49_program hb md idf fac prog l sl n c ov d w b P CK RG CF NR) E) as [_ F].
    exact (why_sound hb Nat.eqb sl RG (S n) c ov d e b W F Y).
Qed.
Print Assumptions C54_no_reason.
(** [pack_into] fails only if there is a reason for [pack] to fail or the buffer ends too early; and if there is a reason
    it does fail. *)
Theorem C54_pack_into : forall hb idf fac prog l sl allow n c ov d w off,
  run idf fac [] 0 prog = Ok l -> check_prog [] 0 prog = Some sl -> forallb regular_class sl = true ->
  healthy (classes l) allow -> conforms hb (classes l) allow n (VObj c ov d) -> 0 <= off ->
  fst (Structured_pack hb (classes l) n (VObj c ov d) w) <> Err RecursionError ->
  (forall e, fst (Structured_pack_into hb (classes l) n (VObj c ov d) off w) = Err e ->
    (exists e', why_not hb sl (S n) c ov d e') \/
    exists b, wire hb sl (S n) c ov d = Some b /\ blen (w_buf w) < off + blen b) /\
  ((exists e', why_not hb sl (S n) c ov d e') -> exists e, fst (Structured_pack_into hb (classes l) n (VObj c ov d) off w) = Err e).
Proof.
  intros hb idf fac prog l sl allow n c ov d w off R CK RG H CF OFF NR.
  pose proof (C54_exact hb idf fac prog l sl allow n c ov d w R CK RG H CF NR) as X.
  pose proof (fun b => C44_pack hb idf fac prog l sl allow n c ov d w b R CK RG H CF) as Y.
  pose proof (user_pack hb (classes l) allow false n (VObj c ov d) (KInto off) w H ltac:(discriminate) CF OFF) as (_ & _ & U).
  destruct (user_pack hb (classes l) allow false n (VObj c ov d) KPack w H) as [Z _]; [discriminate|exact CF|exact I|].
  unfold Structured_pack, Structured_pack_into, do_pack in *. rewrite <- Z in U.
  match type of U with match ?q with _ => _ end => destruct q as [b|e0] end; split.
  - intros e E. destruct (Z.le_gt_cases (off + blen b) (blen (w_buf w))) as [L|L]; [|right; exists b; split; [apply Y; reflexivity|exact L]].
    destruct U as (_ & U & _). destruct (U L) as [Q _]. congruence.
  - intros E. destruct (proj2 X E) as [e Q]. discriminate.
  - intros e E. left. apply X. eauto.
  - intros _. exact U.
Qed.
Print Assumptions C54_pack_into.

(** ** the kinds of exceptions *)
(** a float16 or float32 field *)
Fixpoint narrows (x : hx) : Prop :=
  match x with
  | XBasic c => narrow_float c = true
  | XArray _ _ y | XCond y _ _ | XAs _ y => narrows y
  | XTuple l => any narrows l
  | XBack _ _ _ m d | XAhead _ _ _ _ m d =>
      any (fun p => narrows (snd p)) m \/ match d with Some y => narrows y | None => False end
  | _ => False
  end.
(** a codec, a condition or a decider of the program's own that raises [e] *)
Fixpoint thrown (x : hx) (e : exn) : Prop :=
  match x with
  | XUnicode _ cd => exists s, cod_enc cd s = Err e
  | XCond y f _ => (exists o, f o = Err e) \/ thrown y e
  | XArray _ _ y | XAs _ y => thrown y e
  | XTuple l => any (fun y => thrown y e) l
  | XBack _ _ f m d | XAhead _ _ _ f m d =>
      (exists o, f o = Err e) \/ any (fun p => thrown (snd p) e) m \/ match d with Some y => thrown y e | None => False end
  | _ => False
  end.
(** a condition on the object, on any field *)
Fixpoint conditional (x : hx) : Prop :=
  match x with
  | XCond _ _ _ => True
  | XArray _ _ y | XAs _ y => conditional y
  | XTuple l => any conditional l
  | XBack _ _ _ m d | XAhead _ _ _ _ m d =>
      any (fun p => conditional (snd p)) m \/ match d with Some y => conditional y | None => False end
  | _ => False
  end.
Definition kind (P : (hx -> Prop) -> Prop) (e : exn) : Prop :=
  In e [StructError; ValueError; TypeError; IndexError; AttributeError] \/
  (e = OverflowError /\ P narrows) \/ (In e [KeyError; NotImplementedError] /\ P conditional) \/ P (fun x => thrown x e).
Definition in_class (sc : sclass) (Q : hx -> Prop) : Prop := any (fun p => Q (snd p)) (fields_of (sc_anns sc)).
Definition in_prog (sl : list sclass) (Q : hx -> Prop) : Prop := any (fun sc => in_class sc Q) sl.

Lemma kind_mono : forall (P P' : (hx -> Prop) -> Prop) e, (forall Q, P Q -> P' Q) -> kind P e -> kind P' e.
Proof. intros P P' e H [K|[[A K]|[[A K]|K]]]; [left; exact K|right; left|right; right; left|right; right; right]; auto. Qed.
Ltac std := left; cbn; tauto.
Lemma char_kind : forall P bo a v e, char_why bo a v e -> kind P e.
Proof.
  intros P bo a v e H. destruct a as [n|c|t| |]; destruct v as [w|]; cbn [char_why] in H;
    try (destruct (py_len w) as [k|e0]; [destruct (Nat.eqb k 0); [|destruct (negb _) || destruct (_ <? _)]|]); 
    repeat match goal with H : _ /\ _ |- _ => destruct H end; subst; std.
Qed.
Lemma pick_or : forall w d (none : Prop) k m (R : Prop), pick_why w d none k m ->
  (forall y, d = Some y \/ In y (map snd m) -> w y -> R) -> (none -> R) -> R.
Proof.
  intros w d none k m R. induction m as [|[k' y] m IH]; intros H K N; cbn [pick_why] in H.
  - destruct d as [y|]; [apply (K y); auto|auto].
  - destruct (key_eqb k k'); [apply (K y); cbn; auto|]. apply IH; [exact H| |exact N]. intros z [D|I]; apply K; cbn; auto.
Qed.
Lemma many_kind : forall P o x e, too_many o x e -> kind P e.
Proof.
  intros P o. induction x using hx_ind'; intros e T; cbn [too_many] in T; try contradiction; try (subst; std); try (destruct T as [_ ->]; std); eauto.
  - destruct a; try contradiction. destruct T as [_ ->]. std.
  - destruct (f o); [|contradiction]. destruct T. eauto.
  - destruct (f o); [|contradiction]. apply (pick_or _ _ _ _ _ _ T); [|contradiction]. rewrite Forall_forall in H0.
    intros y [D|I]; [subst; eauto|]. apply in_map_iff in I. destruct I as (p & <- & I). eauto.
  - destruct (f o); [|contradiction]. apply (pick_or _ _ _ _ _ _ T); [|contradiction]. rewrite Forall_forall in H0.
    intros y [D|I]; [subst; eauto|]. apply in_map_iff in I. destruct I as (p & <- & I). eauto.
Qed.
Lemma cond_kind : forall (P : (hx -> Prop) -> Prop) o f e, cond_why o f e -> P conditional -> ((exists o, f o = Err e) -> P (fun x => thrown x e)) -> kind P e.
Proof.
  intros P o f e H C T. unfold cond_why in H. destruct (f o) as [r|e'] eqn:F.
  - destruct H as (_ & _ & ->). destruct (hashable r); [|std]. right; right; left. cbn; auto.
  - subst e'. right; right; right. apply T. eauto.
Qed.
Section Kinds.
Variables (hb : bool) (rec : nat -> option border -> list (string * value) -> option bytes).
Variable wo : nat -> option border -> list (string * value) -> exn -> Prop.
Variables (o : pobj) (e : exn) (P : (hx -> Prop) -> Prop).
Hypothesis WO : forall c ov d, wo c ov d e -> kind P e.
(** all of [x] is in the program *)
Definition within (x : hx) : Prop := forall Q : hx -> Prop, Q x -> P Q.
Lemma kind_within : forall x, (narrows x -> P narrows) -> (conditional x -> P conditional) -> (thrown x e -> P (fun x => thrown x e)) ->
  kind (fun Q => Q x) e -> kind P e.
Proof. intros x A B C [K|[[E K]|[[E K]|K]]]; [left; exact K|right; left|right; right; left|right; right; right]; auto. Qed.
Definition held (x : hx) : Prop := (narrows x -> P narrows) /\ (conditional x -> P conditional) /\ (thrown x e -> P (fun x => thrown x e)).
Lemma members_kind : forall f w few l vs, members_why f w few l vs e -> (forall x v, In x l -> w x v e -> kind P e) -> kind P e.
Proof.
  intros f w few l. induction l as [|x l IH]; intros vs H K; cbn [members_why] in H; [contradiction|].
  destruct H as [H|[_ H]]; [apply (K x _ (or_introl eq_refl) H)|]. apply (IH _ H). intros y v I. apply K. now right.
Qed.
Lemma items_kind : forall f w l, items_why f w l e -> (forall v, w v e -> kind P e) -> kind P e.
Proof. intros f w l. induction l as [|x l IH]; intros H K; cbn [items_why] in H; [contradiction|]. destruct H as [H|[_ H]]; eauto. Qed.
Lemma pick_kind : forall w d none k m, pick_why w d none k m -> (forall y, w y -> d = Some y \/ In y (map snd m) -> kind P e) -> (none -> kind P e) -> kind P e.
Proof.
  intros w d none k m. induction m as [|[k' y] m IH]; intros H K N; cbn [pick_why] in H.
  - destruct d as [y|]; [apply (K y H); auto|auto].
  - destruct (key_eqb k k'); [apply (K y H); cbn; auto|]. apply IH; [exact H| |exact N]. intros z Z [D|I]; apply (K z Z); cbn; auto.
Qed.
Lemma held_in : forall (l : list hx) x, (any narrows l -> P narrows) -> (any conditional l -> P conditional) -> (any (fun x => thrown x e) l -> P (fun x => thrown x e)) ->
  In x l -> held x.
Proof. intros l x A B C I. split; [|split]; intros Z; [apply A|apply B|apply C]; eapply any_in; eauto. Qed.
Definition kinds (x : hx) : Prop := forall bo v, held x -> why hb rec wo o bo x v e -> kind P e.
Lemma chosen_kind : forall bo m d k v, Forall (fun p => kinds (snd p)) m -> (forall y, d = Some y -> kinds y) ->
  (any (fun p => narrows (snd p)) m \/ match d with Some y => narrows y | None => False end -> P narrows) ->
  (any (fun p => conditional (snd p)) m \/ match d with Some y => conditional y | None => False end -> P conditional) ->
  (any (fun p => thrown (snd p) e) m \/ match d with Some y => thrown y e | None => False end -> P (fun x => thrown x e)) ->
  pick_why (fun y => why hb rec wo o bo y v e \/ surplus o y v e) d (e = ValueError) k m -> kind P e.
Proof.
  intros bo m d k v FM FD A B C W. apply (pick_kind _ _ _ _ _ W); [|intros ->; std].
  intros y [Y|(_ & _ & Y)] I; [|apply (many_kind _ _ _ _ Y)]. destruct I as [->|I].
  - apply (FD y eq_refl bo v); [|exact Y]. repeat split; auto.
  - apply in_map_iff in I. destruct I as (p & <- & I). rewrite Forall_forall in FM. apply (FM p I bo v); [|exact Y].
    split; [|split]; intros Z; [apply A|apply B|apply C]; left; apply (any_in _ _ _ I Z).
Qed.
Theorem expr_kind : forall x, kinds x.
Proof.
  induction x using hx_ind'; intros bo v (HA & HB & HC) W; cbn [why narrows conditional thrown] in *.
  - unfold scalar_why in W. destruct v as [w|]; [|rewrite W; std]. destruct W as [_ ->].
    destruct (narrow_float c) eqn:N; [|std]. destruct (as_float w); [|std]. right; left. auto.
  - contradiction.
  - destruct W as (_ & _ & ->). std.
  - apply (char_kind _ _ _ _ _ W).
  - destruct v as [w|]; [|rewrite W; std]. destruct w; try (rewrite W; std).
    destruct (cod_enc _ _) eqn:E; [apply (char_kind _ _ _ _ _ W)|]. rewrite W in *. right; right; right. apply HC. eauto.
  - assert (HX : held x) by (repeat split; auto).
    destruct W as [W|W].
    + destruct x; try contradiction. cbn [narrows conditional thrown] in *. apply (cond_kind _ _ _ _ W); [auto|]. intros Z. apply HC. now left.
    + destruct v as [w|]; [|rewrite W; std]. destruct (py_iter w); [|rewrite W; std]. destruct W as [W|[W|W]].
      * apply (items_kind _ _ _ W). intros i [I|(_ & _ & I)]; [apply (IHx _ _ HX I)|apply (many_kind _ _ _ _ I)].
      * destruct n; destruct W as [_ ->]; std.
      * match type of W with match ?z with _ => _ end => destruct z end; [|contradiction]. destruct W as (_ & -> & _). std.
  - destruct v as [w|]; [|rewrite W; std]. destruct (py_iter w) as [items|].
    + destruct W as [W|(_ & W)].
      2:{ unfold left_over in W. destruct (members_of l) as [|x [|y r]]; [contradiction|apply (many_kind _ _ _ _ W)|destruct W as [_ ->]; std]. }
      apply (members_kind _ _ _ _ _ W). intros x u I [Z|(_ & _ & ->)]; [|std].
      rewrite Forall_forall in H. apply (H x I BO_DEFAULT u); [|exact Z]. apply (held_in l); auto.
    + destruct W as [->|(y & f & z & I & W)]; [std|].
      destruct (held_in l _ HA HB HC I) as (A & B & C). cbn [narrows conditional thrown] in *. apply (cond_kind _ _ _ _ W); auto.
  - destruct W as [W|W]; [apply (cond_kind _ _ _ _ W); auto|].
    destruct (f o); [|contradiction]. destruct W as (_ & [W|[-> _]]).
    + apply (IHx bo v); [|exact W]. repeat split; auto.
    + right; right; left. cbn; auto.
  - apply (IHx bo v); [|exact W]. repeat split; auto.
  - destruct (f o) as [r|e0] eqn:F; [|rewrite W in *; right; right; right; apply HC; eauto].
    destruct (hashable r); [|rewrite W; std]. apply (chosen_kind _ _ _ _ _ H0 H1 HA HB) in W; auto.
  - destruct (f o) as [r|e0] eqn:F; [|rewrite W in *; right; right; right; apply HC; eauto].
    destruct (hashable r); [|rewrite W; std]. apply (chosen_kind _ _ _ _ _ H0 H1 HA HB) in W; auto.
  - destruct v as [w|]; [|rewrite W; std]. destruct w; try (rewrite W; std). apply (WO _ _ _ W).
  - destruct v as [w|]; [|rewrite W; std]. destruct w; try (rewrite W; std). apply (WO _ _ _ W).
  - contradiction.
  - contradiction.
Qed.
End Kinds.
Lemma why_kind : forall hb sl n c ov d e, why_not hb sl n c ov d e -> kind (in_prog sl) e.
Proof.
  intros hb sl n. induction n as [|n IH]; intros c ov d e W; cbn [why_not] in W; [contradiction|].
  destruct (nth_error sl c) as [sc|] eqn:SC; [|subst; std].
  destruct W as [[-> _]|W]; [std|].
  assert (K : forall x, In x (map snd (fields_of (sc_anns sc))) -> held e (in_prog sl) x).
  { intros x I. apply in_map_iff in I. destruct I as (p & <- & I).
    split; [|split]; intros Z; apply (any_in _ _ sc (nth_error_In _ _ SC)); apply (any_in _ _ p I Z). }
  clear SC. revert K W. generalize (map snd (fields_of (sc_anns sc))) at 2 as sv. intros sv. generalize (fields_of (sc_anns sc)) as l. induction l as [|[a x] l IHl]; intros K W; cbn [fields_why] in W; [contradiction|].
  destruct W as [[W|(_ & _ & ->)]|[_ W]]; [|std|].
  - apply (expr_kind hb _ _ _ e (in_prog sl) (fun c ov d => IH c ov d e) x _ _ (K x (or_introl eq_refl)) W).
  - apply IHl; [|exact W]. intros y I. apply K. now right.
Qed.
(** An exception of [pack] is struct.error, ValueError, TypeError, IndexError or AttributeError; or OverflowError, if the
    program has a float16 or float32 field; or KeyError or NotImplementedError, if the program has a condition; or what a
    codec, a condition or a decider of the program raises. *)
Theorem C54_kinds : forall hb md idf fac prog l sl n c ov d w e,
  program md idf fac prog l -> check_prog [] 0 prog = Some sl -> forallb regular_class sl = true ->
  conforms hb (classes l) Nat.eqb n (VObj c ov d) ->
  fst (Structured_pack hb (classes l) n (VObj c ov d) w) = Err e -> e <> RecursionError -> kind (in_prog sl) e.
Proof. intros hb md idf fac prog l sl n c ov d w e P CK RG CF E NR. eapply why_kind, C54_program; eauto. Qed.
Print Assumptions C54_kinds.

(** ** examples *)
(** the tree of nodes with another value for one attribute *)
Definition set_attr (a : string) (v : value) (o : value) : value :=
  match o with
  | VObj c ov d => VObj c ov (map (fun p => if String.eqb (fst p) a then (a, v) else p) d)
  | _ => o
  end.
Definition drop_attr (a : string) (o : value) : value :=
  match o with VObj c ov d => VObj c ov (filter (fun p => negb (String.eqb (fst p) a)) d) | _ => o end.
Definition bad_objs : list (value * exn) :=
  [(set_attr "kind" (VInt 256) tree, StructError);             (* out of range for uint8 *)
   (set_attr "kind" (VStr [65]) tree, StructError);            (* not an integer *)
   (set_attr "name" (VStr []) tree, StructError);              (* an empty string with a length *)
   (set_attr "name" (VStr [300]) tree, UserError 1);           (* not in latin-1: the exception of the codec *)
   (set_attr "name" (VInt 1) tree, TypeError);                 (* not a string *)
   (set_attr "payload" (VInt 1) tree, AttributeError);         (* kind is 1: a Point is wanted *)
   (set_attr "pts" (VList [point 1 2; point 1 40000]) tree, StructError);   (* the second item *)
   (set_attr "kids" (VInt 3) tree, TypeError);                 (* not iterable *)
   (set_attr "kids" (VList [leaf_node; drop_attr "name" leaf_node]) tree, AttributeError);
   (set_attr "kids" (VList [leaf_node; set_attr "payload" (VStr [65]) leaf_node]) tree, StructError);
   (set_attr "pair" (VTuple [VInt 1]) tree, StructError);      (* too few values *)
   (set_attr "pair" (VTuple [VInt 1; VInt 2; VInt 3]) tree, StructError);   (* too many *)
   (drop_attr "opt" tree, AttributeError);
   (set_attr "body" (VObj 1 None [("kind", VInt 2)]) header_obj, ValueError);   (* no member for kind 2 *)
   (set_attr "body" (point 1 2) header_obj, AttributeError)].   (* the decider finds no kind *)
(** All of them meet the hypotheses of C54_program, and raise that exception. *)
Example C54_nontrivial :
  program UBuf sample_idf sample_fac sample_prog sample_classes /\
  check_prog [] 0 sample_prog = Some sample_stmts /\ forallb regular_class sample_stmts = true /\
  Forall (fun p => conforms false (classes sample_classes) Nat.eqb 10 (fst p) /\
    fst (Structured_pack false (classes sample_classes) 10 (fst p) dirty) = Err (snd p) /\ snd p <> RecursionError) bad_objs.
Proof.
  split; [exact (sample_program UBuf)|]. split; [vm_compute; reflexivity|]. split; [vm_compute; reflexivity|].
  repeat (constructor; [split; [unfold conforms; vm_compute; congruence|split; [vm_compute; reflexivity|cbn; discriminate]]|]). constructor.
Qed.
(** The reason in two of them: the key 2 is none of the keys of the union, and the second of [kids] lacks a name. *)
Example C54_reasons :
  (match set_attr "kids" (VList [leaf_node; drop_attr "name" leaf_node]) tree with
   | VObj c ov d => why_not false sample_stmts 11 c ov d AttributeError | _ => False end) /\
  (match set_attr "body" (VObj 1 None [("kind", VInt 2)]) header_obj with
   | VObj c ov d => why_not false sample_stmts 11 c ov d ValueError | _ => False end).
Proof.
  destruct C54_nontrivial as (P & CK & RG & F).
  split; (eapply (C54_program false UBuf sample_idf sample_fac sample_prog sample_classes sample_stmts 10 _ _ _ dirty); [exact P|exact CK|exact RG| | |discriminate]).
  - unfold conforms; vm_compute; congruence.
  - vm_compute; reflexivity.
  - unfold conforms; vm_compute; congruence.
  - vm_compute; reflexivity.
Qed.
(** An overflow and a condition: a float32 in a byte order of its own, with a number that is too large for it, and a
    condition that is neither True nor False. *)
Definition float_prog : list stmt :=
  [Stmt [("f", XBasic Cf)] None BO_BE STRICT false;
   Stmt [("f", XCond (XBasic CB) (fun _ => Ok (VInt 2)) [VInt 0])] None BO_DEFAULT STRICT false].
Example C54_kinds_met : exists l sl, run odd_idf odd_fac [] 0 float_prog = Ok l /\ check_prog [] 0 float_prog = Some sl /\
  forallb regular_class sl = true /\ conforms false (classes l) Nat.eqb 5 (VObj 0 None [("f", VInt (2 ^ 200))]) /\
  fst (Structured_pack false (classes l) 5 (VObj 0 None [("f", VInt (2 ^ 200))]) clean) = Err OverflowError /\
  fst (Structured_pack false (classes l) 5 (VObj 1 None [("f", VInt 1)]) clean) = Err KeyError.
Proof.
  eexists _, _. split; [vm_compute; reflexivity|]. split; [vm_compute; reflexivity|]. split; [vm_compute; reflexivity|].
  split; [unfold conforms; vm_compute; congruence|]. split; vm_compute; reflexivity.
Qed.
