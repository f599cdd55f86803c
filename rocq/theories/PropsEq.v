(** C37: [Structured.__eq__] *)
From Verif Require Import Base Floats Value StructMod Format Ser Exec Pure BaseFacts StructFacts RoundTripMain
  User Canon PropsRoundTrip Sample Equality.

Arguments num_eqb : simpl never.
Arguments Z.pow : simpl never.
Arguments Z.mul : simpl never.
(** induction over values *)
Section ValueInd.
Variable P : value -> Prop.
Hypothesis HNone : P VNone.
Hypothesis HInt : forall z, P (VInt z).
Hypothesis HBool : forall b, P (VBool b).
Hypothesis HFloat : forall b, P (VFloat b).
Hypothesis HBytes : forall b, P (VBytes b).
Hypothesis HStr : forall s, P (VStr s).
Hypothesis HList : forall l, Forall P l -> P (VList l).
Hypothesis HTuple : forall l, Forall P l -> P (VTuple l).
Hypothesis HObj : forall c ov d, Forall (fun kv => P (snd kv)) d -> P (VObj c ov d).
Hypothesis HWrap : forall t v, P v -> P (VWrap t v).
Hypothesis HGen : P VGen.
Fixpoint value_ind' (v : value) : P v :=
  match v with
  | VNone => HNone | VInt z => HInt z | VBool b => HBool b | VFloat b => HFloat b | VBytes b => HBytes b | VStr s => HStr s
  | VList l => HList l ((fix go l : Forall P l := match l with [] => Forall_nil _ | x :: l' => Forall_cons x (value_ind' x) (go l') end) l)
  | VTuple l => HTuple l ((fix go l : Forall P l := match l with [] => Forall_nil _ | x :: l' => Forall_cons x (value_ind' x) (go l') end) l)
  | VObj c ov d => HObj c ov d ((fix go d : Forall (fun kv => P (snd kv)) d :=
      match d with [] => Forall_nil _ | (k, x) :: d' => Forall_cons (k, x) (value_ind' x) (go d') end) d)
  | VWrap t v => HWrap t v (value_ind' v)
  | VGen => HGen
  end.
End ValueInd.

Section Eq.
Variable ct : nat -> option cdef.
Notation py_eq := (py_eq ct).

(** the loops of [py_eq] *)
Fixpoint leq (l m : list value) : res bool :=
  match l, m with x :: l', y :: m' => rdo b <- py_eq x y; if b then leq l' m' else Ok false | _, _ => Ok true end.
Fixpoint teq (l m : list value) : res bool :=
  match l, m with
  | x :: l', y :: m' => rdo b <- py_eq x y; if b then teq l' m' else Ok false
  | [], [] => Ok true | _, _ => Ok false
  end.
Fixpoint aeq (l : list string) (d d' : list (string * value)) : res bool :=
  match l with
  | [] => Ok true
  | a :: l' => rdo b <- (match assoc a d with
                         | None => Err AttributeError
                         | Some x => match assoc a d' with Some y => py_eq x y | None => Err AttributeError end
                         end);
               if b then aeq l' d d' else Ok false
  end.
Lemma py_eq_list : forall l m, py_eq (VList l) (VList m) = if Nat.eqb (List.length l) (List.length m) then leq l m else Ok false.
Proof.
  intros l m. cbn [Equality.py_eq num_of]. destruct (Nat.eqb _ _); [|reflexivity]. revert m.
  induction l as [|x l IH]; intros [|y m]; reflexivity.
Qed.
Lemma py_eq_tuple : forall l m, py_eq (VTuple l) (VTuple m) = teq l m.
Proof.
  intros l m. cbn [Equality.py_eq num_of]. revert m.
  induction l as [|x l IH]; intros [|y m]; reflexivity.
Qed.
Lemma py_eq_obj : forall c o d c' o' d', py_eq (VObj c o d) (VObj c' o' d') =
  if Nat.eqb c c' then match ct c with None => Err AttributeError | Some cd => aeq (c_attrs cd) d d' end else Ok false.
Proof.
  intros c o d c' o' d'. cbn [Equality.py_eq num_of]. destruct (Nat.eqb c c'); [|reflexivity]. destruct (ct c) as [cd|]; [|reflexivity].
  induction (c_attrs cd) as [|a l IH]; [reflexivity|]. cbn [aeq]. rewrite IH.
  assert (L : (fix look (d : list (string * value)) := match d with
                | [] => Err AttributeError
                | (k, x) :: d0 => if String.eqb a k then match assoc a d' with Some y => py_eq x y | None => Err AttributeError end else look d0
                end) d
              = match assoc a d with None => Err AttributeError
                | Some x => match assoc a d' with Some y => py_eq x y | None => Err AttributeError end end).
  { clear IH. induction d as [|[k x] d IH]; [reflexivity|]. cbn [assoc]. destruct (String.eqb a k); [reflexivity|exact IH]. }
  rewrite L. reflexivity.
Qed.

(** ** equal iff same class and equal serialized attributes *)
Theorem C37_iff : forall c o d c' o' d' cd, ct c = Some cd ->
  py_eq (VObj c o d) (VObj c' o' d') = Ok true <->
  c = c' /\ forall a, In a (c_attrs cd) ->
    exists x y, assoc a d = Some x /\ assoc a d' = Some y /\ py_eq x y = Ok true.
Proof.
  intros c o d c' o' d' cd E. rewrite py_eq_obj, E. destruct (Nat.eqb_spec c c') as [->|N]; [|split; [discriminate|intros [? _]; contradiction]].
  assert (A : forall l, aeq l d d' = Ok true <-> forall a, In a l -> exists x y, assoc a d = Some x /\ assoc a d' = Some y /\ py_eq x y = Ok true).
  { induction l as [|a l IH]; cbn [aeq]; [split; [contradiction|reflexivity]|]. split.
    - destruct (assoc a d) as [x|] eqn:X; [|discriminate]. destruct (assoc a d') as [y|] eqn:Y; [|discriminate].
      destruct (py_eq x y) as [[]|] eqn:Q; cbn [rbind]; intros H; try discriminate.
      intros b [<-|I]; [eauto|]. apply IH; auto.
    - intros H. destruct (H a (or_introl eq_refl)) as (x & y & X & Y & Q). rewrite X, Y, Q. cbn [rbind]. apply IH.
      intros b I. apply H. now right. }
  rewrite A. tauto.
Qed.
Theorem C37_other_class : forall c o d c' o' d', c <> c' -> py_eq (VObj c o d) (VObj c' o' d') = Ok false.
Proof. intros. rewrite py_eq_obj. now rewrite (proj2 (Nat.eqb_neq c c')). Qed.
Theorem C37_not_an_instance : forall c o d v, match v with VObj _ _ _ => False | _ => True end ->
  py_eq (VObj c o d) v = Ok false /\ py_eq v (VObj c o d) = Ok false.
Proof. intros c o d v H. destruct v; try contradiction; split; reflexivity. Qed.
(** attributes that are not serialized, and the byte order of the instance, do not matter *)
Theorem C37_ignores : forall c o1 d1 o2 d2 o1' d1' o2' d2' cd, ct c = Some cd ->
  (forall a, In a (c_attrs cd) -> assoc a d1 = assoc a d1' /\ assoc a d2 = assoc a d2') ->
  py_eq (VObj c o1 d1) (VObj c o2 d2) = py_eq (VObj c o1' d1') (VObj c o2' d2').
Proof.
  intros c o1 d1 o2 d2 o1' d1' o2' d2' cd E H. rewrite !py_eq_obj, E, !Nat.eqb_refl.
  induction (c_attrs cd) as [|a l IH]; [reflexivity|]. cbn [aeq]. destruct (H a (or_introl eq_refl)) as [-> ->].
  rewrite IH; [reflexivity|]. intros b I. apply H. now right.
Qed.

(** ** symmetric, also in its errors *)
Lemma num_sym : forall a b, num_eqb a b = num_eqb b a.
Proof. intros [x|x|] [y|y|]; cbn; try reflexivity; [apply Z.eqb_sym|destruct x, y; reflexivity]. Qed.
Lemma list_eqb_sym : forall {A} (f : A -> A -> bool) l m, (forall a b, f a b = f b a) -> list_eqb f l m = list_eqb f m l.
Proof. intros A f l m H. revert m. induction l as [|x l IH]; intros [|y m]; cbn; try reflexivity. now rewrite H, IH. Qed.
Lemma byte_sym : forall a b, Byte.eqb a b = Byte.eqb b a.
Proof. intros a b. destruct (Byte.eqb a b) eqn:E; destruct (Byte.eqb b a) eqn:F; auto.
  - apply Byte.byte_dec_bl in E. subst. rewrite Byte.byte_dec_lb in F; congruence.
  - apply Byte.byte_dec_bl in F. subst. rewrite Byte.byte_dec_lb in E; congruence. Qed.
Theorem C37_symmetric : forall v w, py_eq v w = py_eq w v.
Proof.
  induction v using value_ind'; intros w.
  all: try (destruct w; cbn [Equality.py_eq num_of]; first [now (f_equal; apply num_sym) | reflexivity]).
  - destruct w; cbn; try reflexivity. f_equal. apply list_eqb_sym, byte_sym.
  - destruct w; cbn; try reflexivity. f_equal. apply list_eqb_sym, Z.eqb_sym.
  - destruct w; try reflexivity. rewrite !py_eq_list, Nat.eqb_sym. destruct (Nat.eqb _ _); [|reflexivity].
    revert l0. induction H as [|x l Hx _ IH]; intros [|y m]; cbn; try reflexivity. rewrite Hx, IH. reflexivity.
  - destruct w; try reflexivity. rewrite !py_eq_tuple.
    revert l0. induction H as [|x l Hx _ IH]; intros [|y m]; cbn; try reflexivity. rewrite Hx, IH. reflexivity.
  - destruct w; try reflexivity. rewrite !py_eq_obj, Nat.eqb_sym. destruct (Nat.eqb_spec c0 c) as [->|]; [|reflexivity].
    destruct (ct c) as [cd|]; [|reflexivity]. induction (c_attrs cd) as [|a l IH]; [reflexivity|]. cbn [aeq]. rewrite IH.
    destruct (assoc a d) as [x|] eqn:X; destruct (assoc a attrs) as [y|]; try reflexivity.
    assert (Hx : forall w, py_eq x w = py_eq w x).
    { clear -H X. induction H as [|[k z] d Hz _ IH]; cbn in X; [discriminate|]. destruct (String.eqb a k); [injection X as <-; exact Hz|auto]. }
    now rewrite Hx.
  - destruct w; try reflexivity. cbn. rewrite IHv, Nat.eqb_sym. reflexivity.
Qed.

(** ** reflexive, where no NaN is involved *)
Fixpoint settled (v : value) : Prop :=
  match v with
  | VFloat b => float_num b <> NaN
  | VList l | VTuple l => (fix go l := match l with [] => True | x :: l' => settled x /\ go l' end) l
  | VObj c _ d => (exists cd, ct c = Some cd /\ forall a, In a (c_attrs cd) -> assoc a d <> None) /\
                  (fix go d := match d with [] => True | (_, x) :: d' => settled x /\ go d' end) d
  | VWrap _ v => settled v
  | VGen => False
  | _ => True
  end.
Lemma num_refl : forall a, a <> NaN -> num_eqb a a = true.
Proof. intros [x|x|] H; cbn; [apply Z.eqb_refl|destruct x; reflexivity|congruence]. Qed.
Lemma list_eqb_refl : forall {A} (f : A -> A -> bool) l, (forall a, f a a = true) -> list_eqb f l l = true.
Proof. intros A f l H. induction l; cbn; [reflexivity|]. now rewrite H, IHl. Qed.
Theorem C37_reflexive : forall v, settled v -> py_eq v v = Ok true.
Proof.
  induction v using value_ind'; intros S.
  all: try (cbn [Equality.py_eq num_of]; f_equal; apply num_refl; first [exact S | discriminate]).
  - cbn. f_equal. apply list_eqb_refl. intros a. now apply Byte.byte_dec_lb.
  - cbn. f_equal. apply list_eqb_refl, Z.eqb_refl.
  - rewrite py_eq_list, Nat.eqb_refl. cbn [settled] in S. induction H as [|x l Hx _ IH]; cbn in *; [reflexivity|].
    destruct S as [S1 S2]. rewrite (Hx S1). cbn. auto.
  - rewrite py_eq_tuple. cbn [settled] in S. induction H as [|x l Hx _ IH]; cbn in *; [reflexivity|].
    destruct S as [S1 S2]. rewrite (Hx S1). cbn. auto.
  - cbn [settled] in S. destruct S as [(cd & E & A) S]. apply (C37_iff c ov d c ov d cd E). split; [reflexivity|]. intros a I.
    specialize (A a I). destruct (assoc a d) as [x|] eqn:X; [|contradiction]. exists x, x. split; [reflexivity|]. split; [reflexivity|].
    clear -H S X. induction H as [|[k z] d Hz _ IH]; cbn in X; [discriminate|]. cbn in S, Hz. destruct S as [S1 S2].
    destruct (String.eqb a k); [injection X as <-; auto|auto].
  - cbn. cbn in S. rewrite (IHv S). cbn. now rewrite Nat.eqb_refl.
  - contradiction.
Qed.

(** ** transitive *)
Lemma num_trans : forall a b c, num_eqb a b = true -> num_eqb b c = true -> num_eqb a c = true.
Proof.
  intros [x|x|] [y|y|] [z|z|]; cbn; try discriminate; intros H1 H2.
  - apply Z.eqb_eq in H1, H2. apply Z.eqb_eq. congruence.
  - apply Bool.eqb_prop in H1, H2. subst. destruct z; reflexivity.
Qed.
Lemma list_eqb_eq : forall {A} (f : A -> A -> bool) l m, (forall a b, f a b = true -> a = b) -> list_eqb f l m = true -> l = m.
Proof.
  intros A f l m H. revert m. induction l as [|x l IH]; intros [|y m]; cbn; try discriminate; [reflexivity|].
  intros E. apply andb_prop in E. destruct E as [E1 E2]. f_equal; auto.
Qed.
Lemma py_eq_num : forall u a v, num_of u = Some a ->
  py_eq u v = match num_of v with Some b => Ok (num_eqb a b) | None => Ok false end.
Proof. intros u a v E. destruct u; try discriminate E; destruct v; cbn [Equality.py_eq num_of] in *; injection E as <-; reflexivity. Qed.
Lemma num_case : forall u a v w, num_of u = Some a -> py_eq u v = Ok true -> py_eq v w = Ok true -> py_eq u w = Ok true.
Proof.
  intros u a v w E E1 E2. rewrite (py_eq_num u a v E) in E1. destruct (num_of v) as [b|] eqn:V; [|discriminate].
  rewrite (py_eq_num v b w V) in E2. rewrite (py_eq_num u a w E). destruct (num_of w) as [c|]; [|discriminate].
  injection E1 as E1. injection E2 as E2. f_equal. exact (num_trans _ _ _ E1 E2).
Qed.
Theorem C37_transitive : forall u v w, py_eq u v = Ok true -> py_eq v w = Ok true -> py_eq u w = Ok true.
Proof.
  induction u using value_ind'; intros v w E1 E2.
  - destruct v; try discriminate. exact E2.
  - eapply num_case; [reflexivity|exact E1|exact E2].
  - eapply num_case; [reflexivity|exact E1|exact E2].
  - eapply num_case; [reflexivity|exact E1|exact E2].
  - destruct v; try discriminate. cbn in E1. injection E1 as E1. apply list_eqb_eq in E1; [|intros; now apply Byte.byte_dec_bl]. subst. exact E2.
  - destruct v; try discriminate. cbn in E1. injection E1 as E1. apply list_eqb_eq in E1; [|intros a b0 Q; now apply Z.eqb_eq]. subst. exact E2.
  - destruct v; try discriminate. destruct w; try discriminate. rewrite py_eq_list in *.
    destruct (Nat.eqb_spec (List.length l) (List.length l0)) as [L1|]; [|discriminate].
    destruct (Nat.eqb_spec (List.length l0) (List.length l1)) as [L2|]; [|discriminate]. rewrite L1, L2, Nat.eqb_refl.
    revert l0 l1 L1 L2 E1 E2. induction H as [|x l Hx _ IH]; intros m n L1 L2 E1 E2; [reflexivity|].
    destruct m as [|y m]; [discriminate L1|]. destruct n as [|z n]; [discriminate L2|]. injection L1 as L1. injection L2 as L2. cbn in *.
    destruct (py_eq x y) as [[]|] eqn:Q1; cbn in E1; try discriminate. destruct (py_eq y z) as [[]|] eqn:Q2; cbn in E2; try discriminate.
    rewrite (Hx _ _ Q1 Q2). cbn. eapply IH; eauto.
  - destruct v; try discriminate. destruct w; try discriminate. rewrite py_eq_tuple in *.
    revert l0 l1 E1 E2. induction H as [|x l Hx _ IH]; intros m n E1 E2; destruct m as [|y m]; try discriminate; destruct n as [|z n]; try discriminate; [reflexivity|].
    cbn in *. destruct (py_eq x y) as [[]|] eqn:Q1; cbn in E1; try discriminate. destruct (py_eq y z) as [[]|] eqn:Q2; cbn in E2; try discriminate.
    rewrite (Hx _ _ Q1 Q2). cbn. eapply IH; eauto.
  - destruct v; try discriminate. destruct w; try discriminate. rewrite py_eq_obj in *.
    destruct (Nat.eqb_spec c c0) as [->|]; [|discriminate]. destruct (Nat.eqb_spec c0 c1) as [->|]; [|discriminate].
    destruct (ct c1) as [cd|]; [|discriminate]. induction (c_attrs cd) as [|a l IH]; [reflexivity|]. cbn [aeq] in *.
    destruct (assoc a d) as [x|] eqn:X; [|discriminate]. destruct (assoc a attrs) as [y|]; [|discriminate]. destruct (assoc a attrs0) as [z|]; [|discriminate].
    destruct (py_eq x y) as [[]|] eqn:Q1; cbn [rbind] in E1; try discriminate. destruct (py_eq y z) as [[]|] eqn:Q2; cbn [rbind] in E2; try discriminate.
    assert (Hx : py_eq x z = Ok true).
    { clear -H X Q1 Q2. induction H as [|[k u] d Hu _ IH]; cbn in X; [discriminate|]. destruct (String.eqb a k); [injection X as <-; eapply Hu; eauto|auto]. }
    rewrite Hx. cbn [rbind]. auto.
  - destruct v; try discriminate. destruct w; try discriminate. cbn in *.
    destruct (py_eq u v) as [[]|] eqn:Q1; cbn in E1; try discriminate; [|rewrite andb_false_r in E1; discriminate].
    destruct (py_eq v w) as [[]|] eqn:Q2; cbn in E2; try discriminate; [|rewrite andb_false_r in E2; discriminate].
    rewrite (IHu _ _ Q1 Q2). cbn. destruct (Nat.eqb_spec t tag) as [->|]; [|discriminate]. exact E2.
  - destruct v; discriminate.
Qed.
(** ** floats are equal if they are the same bits, or both zero; a NaN equals nothing *)
Definition nan_bits_of (b : Z) : Prop := 2047 * 2 ^ 52 < b mod 2 ^ 63.
Definition mag (e m : Z) : Z := if e =? 0 then m else (2 ^ 52 + m) * 2 ^ (e - 1).
Lemma mag_lt : forall e m e' m', 0 <= m < 2 ^ 52 -> 0 <= m' < 2 ^ 52 -> 0 <= e < e' -> mag e m < mag e' m'.
Proof.
  intros e m e' m' M M' E. unfold mag. rewrite (proj2 (Z.eqb_neq e' 0)) by lia.
  assert (G : 2 ^ 52 * 2 ^ (e' - 1) <= (2 ^ 52 + m') * 2 ^ (e' - 1)) by (apply Z.mul_le_mono_nonneg_r; [apply Z.pow_nonneg; lia|lia]).
  destruct (Z.eqb_spec e 0) as [->|N].
  - assert (1 <= 2 ^ (e' - 1)) by (change 1 with (2 ^ 0); apply Z.pow_le_mono_r; lia). nia.
  - assert (L : (2 ^ 52 + m) * 2 ^ (e - 1) < 2 ^ 53 * 2 ^ (e - 1)) by (apply Z.mul_lt_mono_pos_r; [apply Z.pow_pos_nonneg; lia|lia]).
    rewrite <- Z.pow_add_r in L by lia. rewrite <- (Z.pow_add_r 2 52 (e' - 1)) in G by lia.
    assert (2 ^ (53 + (e - 1)) <= 2 ^ (52 + (e' - 1))) by (apply Z.pow_le_mono_r; lia). lia.
Qed.
Lemma mag_inj : forall e m e' m', 0 <= e -> 0 <= e' -> 0 <= m < 2 ^ 52 -> 0 <= m' < 2 ^ 52 -> mag e m = mag e' m' -> e = e' /\ m = m'.
Proof.
  intros e m e' m' E E' M M' Q. destruct (Z.lt_trichotomy e e') as [L|[->|L]].
  - pose proof (mag_lt e m e' m' M M' (conj E L)). lia.
  - split; [reflexivity|]. unfold mag in Q. destruct (Z.eqb_spec e' 0) as [->|N]; [exact Q|].
    apply Z.mul_reg_r in Q; [lia|apply Z.pow_nonzero; lia].
  - pose proof (mag_lt e' m' e m M' M (conj E' L)). lia.
Qed.
Lemma mag_pos : forall e m, 0 <= e -> 0 <= m -> 0 <= mag e m /\ (mag e m = 0 -> e = 0 /\ m = 0).
Proof.
  intros e m E M. unfold mag. destruct (Z.eqb_spec e 0) as [->|N]; [lia|].
  assert (0 < 2 ^ (e - 1)) by (apply Z.pow_pos_nonneg; lia). nia.
Qed.
Lemma float_parts : forall b, 0 <= b < 2 ^ 64 -> exists s e m, (s = 0 \/ s = 1) /\ 0 <= e < 2048 /\ 0 <= m < 2 ^ 52 /\
  b = s * 2 ^ 63 + e * 2 ^ 52 + m /\ b mod 2 ^ 63 = e * 2 ^ 52 + m /\
  float_num b = if e =? 2047 then (if m =? 0 then Inf (negb (s =? 0)) else NaN) else Fin (if s =? 0 then mag e m else - mag e m).
Proof.
  intros b R. exists (b / 2 ^ 63), ((b / 2 ^ 52) mod 2 ^ 11), (b mod 2 ^ 52).
  assert (S : b / 2 ^ 63 = 0 \/ b / 2 ^ 63 = 1).
  { assert (0 <= b / 2 ^ 63 < 2) by (split; [apply Z.div_pos; lia|apply Z.div_lt_upper_bound; lia]). lia. }
  pose proof (Z.mod_pos_bound b (2 ^ 52) eq_refl) as M. pose proof (Z.mod_pos_bound (b / 2 ^ 52) (2 ^ 11) eq_refl) as E.
  assert (Q : b mod 2 ^ 63 = (b / 2 ^ 52) mod 2 ^ 11 * 2 ^ 52 + b mod 2 ^ 52).
  { change (2 ^ 63) with (2 ^ 52 * 2 ^ 11). rewrite Z.rem_mul_r by lia. ring. }
  split; [exact S|]. split; [exact E|]. split; [exact M|]. split; [|split; [exact Q|]].
  - rewrite <- Z.add_assoc, <- Q. pose proof (Z.div_mod b (2 ^ 63)). lia.
  - unfold float_num, mag. destruct ((b / 2 ^ 52) mod 2 ^ 11 =? 2047); [reflexivity|].
    destruct ((b / 2 ^ 52) mod 2 ^ 11 =? 0); destruct (b / 2 ^ 63 =? 0); reflexivity.
Qed.
Theorem C37_floats : forall a b, 0 <= a < 2 ^ 64 -> 0 <= b < 2 ^ 64 ->
  (py_eq (VFloat a) (VFloat b) = Ok true <->
   ~ nan_bits_of a /\ ~ nan_bits_of b /\ (a = b \/ a mod 2 ^ 63 = 0 /\ b mod 2 ^ 63 = 0)).
Proof.
  intros a b RA RB. destruct (float_parts a RA) as (s & e & m & S & E & M & -> & QA & FA).
  destruct (float_parts b RB) as (s' & e' & m' & S' & E' & M' & -> & QB & FB).
  cbn [Equality.py_eq num_of]. rewrite FA, FB. unfold nan_bits_of. rewrite QA, QB.
  assert (SGN : forall x y : Z, (x = 0 \/ x = 1) -> (y = 0 \/ y = 1) -> Bool.eqb (negb (x =? 0)) (negb (y =? 0)) = true <-> x = y).
  { intros x y [-> | ->] [-> | ->]; cbn; split; congruence. }
  destruct (Z.eqb_spec e 2047) as [->|NE]; [destruct (Z.eqb_spec m 0) as [->|NM]|].
  - destruct (Z.eqb_spec e' 2047) as [->|NE']; [destruct (Z.eqb_spec m' 0) as [->|NM']|].
    + unfold num_eqb. split.
      * intros Q. injection Q as Q. apply SGN in Q; auto. subst. lia.
      * intros (_ & _ & [Q|Q]); [|lia]. f_equal. apply SGN; auto; lia.
    + unfold num_eqb. split; [discriminate|]. lia.
    + unfold num_eqb. split; [discriminate|]. lia.
  - unfold num_eqb. split; [discriminate|]. lia.
  - destruct (Z.eqb_spec e' 2047) as [->|NE'].
    + destruct (m' =? 0) eqn:M0; unfold num_eqb; (split; [discriminate|]); lia.
    + unfold num_eqb. destruct (mag_pos e m) as [P Z0]; [lia..|]. destruct (mag_pos e' m') as [P' Z0']; [lia..|]. split.
      * intros Q. injection Q as Q. apply Z.eqb_eq in Q. split; [lia|]. split; [lia|].
        destruct S as [-> | ->], S' as [-> | ->]; cbn [Z.eqb] in Q.
        -- destruct (mag_inj e m e' m') as [-> ->]; [lia..|]. now left.
        -- right. assert (mag e m = 0 /\ mag e' m' = 0) as [H1 H2] by lia. apply Z0 in H1. apply Z0' in H2. lia.
        -- right. assert (mag e m = 0 /\ mag e' m' = 0) as [H1 H2] by lia. apply Z0 in H1. apply Z0' in H2. lia.
        -- destruct (mag_inj e m e' m') as [-> ->]; [lia..|]. now left.
      * intros (_ & _ & [Q|[Q1 Q2]]); f_equal; apply Z.eqb_eq.
        -- assert (s = s' /\ e = e' /\ m = m') as (-> & -> & ->) by (clear -Q S S' E E' M M'; lia). reflexivity.
        -- assert (e = 0 /\ m = 0 /\ e' = 0 /\ m' = 0) as (-> & -> & -> & ->) by (clear -Q1 Q2 E E' M M'; lia).
           destruct S as [-> | ->], S' as [-> | ->]; reflexivity.
Qed.
(** integers, bytes and strings are equal if they are the same; numbers compare across types *)
Theorem C37_same : forall z y a b s t, (py_eq (VInt z) (VInt y) = Ok true <-> z = y) /\
  (py_eq (VBytes a) (VBytes b) = Ok true <-> a = b) /\ (py_eq (VStr s) (VStr t) = Ok true <-> s = t).
Proof.
  intros z y a b s t. split; [|split].
  - cbn [Equality.py_eq num_of]. unfold num_eqb. split.
    + intros H. injection H as H. apply Z.eqb_eq in H. apply Z.mul_reg_r in H; [exact H|]. apply Z.pow_nonzero; lia.
    + intros ->. f_equal. apply Z.eqb_refl.
  - cbn. split; [|intros ->; f_equal; apply list_eqb_refl; intros; now apply Byte.byte_dec_lb].
    intros H. injection H as H. eapply list_eqb_eq; [|exact H]. intros x0 y0. apply Byte.byte_dec_bl.
  - cbn. split; [|intros ->; f_equal; apply list_eqb_refl, Z.eqb_refl].
    intros H. injection H as H. eapply list_eqb_eq; [|exact H]. intros x0 y0. apply Z.eqb_eq.
Qed.
(** an integer equals the float of the same value *)
Theorem C37_int_float : forall z s e m, (s = 0 \/ s = 1) -> 0 <= e < 2047 -> 0 <= m < 2 ^ 52 ->
  (py_eq (VInt z) (VFloat (s * 2 ^ 63 + e * 2 ^ 52 + m)) = Ok true <->
   z * 2 ^ 1074 = (if s =? 0 then 1 else -1) * (if e =? 0 then m else (2 ^ 52 + m) * 2 ^ (e - 1))).
Proof.
  intros z s e m S E M. assert (R : 0 <= s * 2 ^ 63 + e * 2 ^ 52 + m < 2 ^ 64) by lia.
  destruct (float_parts _ R) as (s' & e' & m' & S' & E' & M' & Q & _ & F).
  assert (s = s' /\ e = e' /\ m = m') as (<- & <- & <-) by (clear -Q S S' E E' M M'; lia).
  cbn [Equality.py_eq num_of]. rewrite F. rewrite (proj2 (Z.eqb_neq e 2047)) by lia. unfold num_eqb. fold (mag e m). split.
  - intros H. injection H as H. apply Z.eqb_eq in H. rewrite H. destruct (s =? 0); lia.
  - intros H. f_equal. apply Z.eqb_eq. rewrite H. destruct (s =? 0); lia.
Qed.
End Eq.

(** ** Reading back what was packed gives an equal object *)
Theorem C37_round_trip : forall hb ct allow NC n m c d w w' b,
  healthy ct allow -> reads_back hb ct UBuf NC ->
  canonical hb ct allow UBuf n (VObj c None d) -> conforms hb ct allow n (VObj c None d) -> (n <= m)%nat ->
  settled ct (VObj c None d) ->
  fst (Structured_pack hb ct n (VObj c None d) w) = Ok b ->
  exists v, fst (create_unpack hb ct m c b w') = Ok v /\ py_eq ct v (VObj c None d) = Ok true.
Proof.
  intros hb ct allow NC n m c d w w' b H RB CN CF NM S PK. exists (VObj c None d). split.
  - eapply C01_round_trip; eauto.
  - now apply C37_reflexive.
Qed.
(** a copy with another byte order is equal to the original *)
Lemma get_attrs_zip : forall l d vs, get_attrs l d = Ok vs -> forall a, In a l -> assoc a (zipw l vs) = assoc a d.
Proof.
  induction l as [|b l IH]; intros d vs E a I; [contradiction|]. unfold get_attrs in *. cbn [rmapM] in E.
  destruct (assoc b d) as [x|] eqn:X; cbn [rbind] in E; [|discriminate].
  destruct (rmapM _ l) as [ys|] eqn:Y; cbn [rbind] in E; [|discriminate]. injection E as <-. cbn [zipw assoc].
  destruct (String.eqb_spec a b) as [->|N]; [congruence|]. destruct I as [->|I]; [contradiction|]. eapply IH; eauto.
Qed.
Theorem C37_byte_order : forall ct bo v v', settled ct v -> Structured_with_byte_order ct bo v = Ok v' -> py_eq ct v' v = Ok true.
Proof.
  intros ct bo v v' S E. destruct v; try discriminate. cbn [Structured_with_byte_order] in E.
  destruct (ct c) as [cd|] eqn:C; [|discriminate]. destruct (border_eqb _ _); [injection E as <-; now apply C37_reflexive|].
  destruct (get_attrs _ _) as [vs|] eqn:G; cbn [rbind] in E; [|discriminate]. injection E as <-.
  rewrite <- (C37_reflexive ct _ S). apply (C37_ignores ct c _ _ _ _ _ _ _ _ cd C). intros a I. split; [|reflexivity].
  eapply get_attrs_zip; eauto.
Qed.
Print Assumptions C37_iff.
Print Assumptions C37_other_class.
Print Assumptions C37_not_an_instance.
Print Assumptions C37_ignores.
Print Assumptions C37_symmetric.
Print Assumptions C37_reflexive.
Print Assumptions C37_transitive.
Print Assumptions C37_floats.
Print Assumptions C37_same.
Print Assumptions C37_int_float.
Print Assumptions C37_round_trip.
Print Assumptions C37_byte_order.

(** ** Cases meeting the hypotheses *)
Example C37_met : settled table tree /\ settled table blob /\ settled table (msg data) /\
  (exists v, Structured_with_byte_order table BO_BE tree = Ok v /\ v <> tree) /\
  py_eq table (point 1 2) (VObj 0 (Some BO_BE) [("y", VFloat 4611686018427387904); ("z", VNone); ("x", VBool true)]%string) = Ok true /\
  py_eq table (point 1 2) (point 1 3) = Ok false /\ py_eq table (point 1 2) ping = Ok false.
Proof.
  split; [|split; [|split; [|split]]].
  1, 2, 3: cbn; repeat split; try (eexists; split; [reflexivity|]; cbn; intros a; repeat (intros [<-|I]; [discriminate|]; revert I || (intros [<-|I]; [discriminate|])); intuition congruence).
  - eexists. split; [reflexivity|discriminate].
  - repeat split; vm_compute; reflexivity.
Qed.

(** ** A NaN is not equal to itself: neither is an object holding one, nor what is read back from it. *)
Definition nan_bits : Z := 9221120237041090560.
Definition eq_table (c : nat) : option cdef :=
  match c with O => Some (CD ["x"]%string (SStruct (SS BO_LE [T None Cd] None)) BO_LE false) | _ => None end.
Definition one_float (b : Z) : value := VObj 0 None [("x"%string, VFloat b)].
Theorem C37_nan_refuted :
  py_eq eq_table (one_float nan_bits) (one_float nan_bits) = Ok false /\
  exists b, fst (Structured_pack false eq_table 5 (one_float nan_bits) clean) = Ok b /\
    fst (create_unpack false eq_table 5 0 b clean) = Ok (one_float nan_bits).
Proof. split; [vm_compute; reflexivity|]. eexists. split; vm_compute; reflexivity. Qed.
(** ** Equal objects need not pack to equal bytes: 0.0 and -0.0, or a copy with another byte order. *)
Theorem C37_zero_refuted :
  py_eq eq_table (one_float 0) (one_float (2 ^ 63)) = Ok true /\
  fst (Structured_pack false eq_table 5 (one_float 0) clean) <> fst (Structured_pack false eq_table 5 (one_float (2 ^ 63)) clean).
Proof. split; vm_compute; [reflexivity|discriminate]. Qed.
Theorem C37_order_refuted : exists v, Structured_with_byte_order table BO_BE (point 1 2) = Ok v /\
  py_eq table v (point 1 2) = Ok true /\
  fst (Structured_pack false table 5 v clean) <> fst (Structured_pack false table 5 (point 1 2) clean).
Proof. eexists. split; [reflexivity|]. split; vm_compute; [reflexivity|discriminate]. Qed.
Print Assumptions C37_nan_refuted.
Print Assumptions C37_zero_refuted.
Print Assumptions C37_order_refuted.
