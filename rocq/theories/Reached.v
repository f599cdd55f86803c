(** The objects that conditions and deciders get to see while bytes are being read, read off the class statements, and
    the exceptions that are possible with them. *)
From Verif Require Import Base Floats Value StructMod Format Ser Exec Pure BaseFacts StructFacts FormatFacts SerFacts RefUnpack RoundTrip DecFacts Wire Field
  Adding Hints HintFacts Surface SerShape Programs Accept AcceptProg WireSpec WireFacts Wires ReadSpec ReadFacts Reads Raises.
Open Scope string_scope. Open Scope list_scope. Open Scope Z_scope.

(** ** the objects *)
(** values go to the attributes in order *)
Fixpoint deal (names : list string) (vs : list value) (d : list (string * value)) {struct vs} : option (list string * list (string * value)) :=
  match vs, names with
  | [], _ => Some (names, d)
  | v :: vs', a :: names' => deal names' vs' (assoc_set a v d)
  | _, [] => None
  end.
Section Reaches.
Variables (hb : bool) (md : umode) (sl : list sclass) (n : nat) (c : nat) (px : bool) (bo : border) (attrs : list string) (d0 : list (string * value)).
(** the fields [xs] have been read: the offset in the run, the bytes that are left, the attributes without a value,
    the attributes of the object *)
Inductive reaches : list hx -> nat -> bytes -> list string -> list (string * value) -> Prop :=
| Reach0 : forall b, reaches [] 0 b attrs d0
| Reach1 : forall xs x off b names d vs off' k names' d', reaches xs off b names d ->
    read hb md (parse hb md sl n) (PO c px d) (mode_of hb bo) x off b = Some (vs, off', k) -> deal names vs d = Some (names', d') ->
    reaches (xs ++ [x]) off' (adv k b) names' d'.
End Reaches.
(** the object behind the fields [xs] of class number [c]; [px]: it is only being created *)
Definition reached (hb : bool) (md : umode) (sl : list sclass) (c : nat) (px : bool) (bo : border) (attrs : list string) (d0 : list (string * value))
  (xs : list hx) (o : pobj) : Prop :=
  exists n off b names d, reaches hb md sl n c px bo attrs d0 xs off b names d /\ o = PO c px d.
(** the exceptions that the hints of a class add, the callables on the objects that they get *)
Definition class_adds (hb : bool) (md : umode) (sl : list sclass) (c : nat) (sc : sclass) (e : exn) : Prop :=
  exists xs x ys, map snd (fields_of (sc_anns sc)) = xs ++ x :: ys /\
    extra (reached hb md sl c true (sc_bo sc) (sc_attrs sc) [] xs) md (In "cls" (sc_attrs sc)) x e.
Definition prog_adds (hb : bool) (md : umode) (sl : list sclass) (e : exn) : Prop :=
  exists c sc, nth_error sl c = Some sc /\ class_adds hb md sl c sc e.
(** ... in an instance that exists already, whose attributes are [d0] *)
Definition refill_adds (hb : bool) (md : umode) (sl : list sclass) (c : nat) (sc : sclass) (bo : border) (d0 : list (string * value)) (e : exn) : Prop :=
  exists xs x ys, map snd (fields_of (sc_anns sc)) = xs ++ x :: ys /\
    extra (reached hb md sl c false bo (sc_attrs sc) d0 xs) md True x e.

(** ** runs *)
Lemma put_deal : forall vs names d, put_all vs (names, d) = deal names vs d.
Proof.
  induction vs as [|v vs IH]; intros names d; [rewrite put_nil; destruct names; reflexivity|]. unfold put_all. cbn [fst snd]. destruct names as [|a names]; [reflexivity|].
  cbn [assign deal]. rewrite <- IH. reflexivity.
Qed.
(** a serializer that is no struct keeps its place in the runs *)
Lemma push_other : forall p s, is_struct s = false -> s <> SNull -> push p s = p ++ [s].
Proof. intros p s S N. destruct s; try reflexivity; [congruence|discriminate]. Qed.
Lemma snoc_split : forall {A} (p q : list A) x y r, p ++ x :: q = r ++ [y] -> q = [] /\ p = r /\ x = y \/ exists q', q = q' ++ [y] /\ p ++ x :: q' = r.
Proof.
  intros A p q x y r E. destruct q as [|z q] using rev_ind.
  - apply app_inj_tail in E as [-> ->]. auto.
  - right. exists q. rewrite app_comm_cons, app_assoc in E. apply app_inj_tail in E as [E ->]. auto.
Qed.
Lemma runs_place : forall l p x q, runs l = p ++ x :: q -> is_struct x = false -> exists l1 l2, l = l1 ++ x :: l2 /\ runs l1 = p.
Proof.
  intros l. induction l as [|s l IH] using rev_ind; intros p x q E NS; [destruct p; discriminate E|].
  unfold runs in E. rewrite fold_left_app in E. cbn [fold_left] in E. fold (runs l) in E.
  assert (UP : forall q', runs l = p ++ x :: q' -> exists l1 l2, l ++ [s] = l1 ++ x :: l2 /\ runs l1 = p).
  { intros q' Q. destruct (IH p x q' Q NS) as (l1 & l2 & -> & R). exists l1, (l2 ++ [s]). rewrite <- app_assoc. auto. }
  destruct s; cbn [push] in E; try (symmetry in E; apply snoc_split in E as [(-> & -> & <-)|(q' & -> & Q)]; [exists l, []; auto|eapply UP; eauto]).
  - eapply UP; eauto.
  - destruct (split_last (runs l)) as [[q0 y]|] eqn:SL.
    + apply split_last_some in SL. destruct y; try (symmetry in E; apply snoc_split in E as [(-> & _ & ->)|(q' & -> & Q)]; [discriminate NS|eapply UP; rewrite Q; reflexivity]).
      symmetry in E. apply snoc_split in E as [(-> & _ & ->)|(q' & -> & Q)]; [discriminate NS|]. apply (UP (q' ++ [SStruct st0])). rewrite SL, <- Q, <- app_assoc. reflexivity.
    + symmetry in E. apply snoc_split in E as [(-> & _ & ->)|(q' & -> & Q)]; [discriminate NS|eapply UP; rewrite Q; reflexivity].
Qed.

(** ** what is read before a serializer gets to work *)
Lemma gread_reaches : forall hb md sl n c px bo attrs d0 xs pre off b names d names' d' k,
  reaches hb md sl n c px bo attrs d0 pre off b names d ->
  gread (fun d => read hb md (parse hb md sl n) (PO c px d) (mode_of hb bo)) xs off b (names, d) = Some ((names', d'), k) ->
  exists off' b', reaches hb md sl n c px bo attrs d0 (pre ++ xs) off' b' names' d'.
Proof.
  intros hb md sl n c px bo attrs d0. induction xs as [|x xs IH]; intros pre off b names d names' d' k R E.
  - injection E as <- <- _. rewrite app_nil_r. eauto.
  - cbn [gread] in E. cbn [snd] in E. destruct (read hb md (parse hb md sl n) (PO c px d) (mode_of hb bo) x off b) as [[[vs off1] k1]|] eqn:RX; [|discriminate].
    rewrite put_deal in E. destruct (deal names vs d) as [[nm1 d1]|] eqn:DL; [|discriminate].
    destruct (gread _ xs off1 (adv k1 b) (nm1, d1)) as [[[nm2 d2] k2]|] eqn:G; [|discriminate]. injection E as <- <- _.
    destruct (IH (pre ++ [x]) off1 (adv k1 b) nm1 d1 nm2 d2 k2) as (off' & b' & Q); [econstructor; eauto|exact G|].
    rewrite <- app_assoc in Q. eauto.
Qed.
Section Class.
Variables (hb : bool) (md : umode) (sl : list sclass) (l : list cinfo).
Hypothesis CR : classes_rel sl l.
Hypothesis RG : forallb regular_class sl = true.
Variable TT : nat -> nat -> bool.
Let ct := classes l.
Hypothesis HC : forall c cd, ct c = Some cd -> hc ct TT c (c_ser cd) = true.
Lemma steps_pseq : forall px n c p b st b' st', steps hb ct md px n c p b st b' st' -> exists k, pseq hb ct md nmd put_all (seen c px) n p b st = Some (st', k).
Proof.
  intros px n c p b st b' st' H. induction H as [b st|x x' p b vs k names d names' d' b' st' R D A H [k' IH]]; [eexists; reflexivity|].
  cbn [pseq]. unfold pdec, seen. cbn [snd]. rewrite R. cbn [rbind]. rewrite D. cbn [opt]. unfold put_all at 1. cbn [fst snd]. rewrite A.
  unfold seen in IH. rewrite IH. eauto.
Qed.
Lemma met_reached : forall c px bo attrs d0 xs sers p o, all2 (made bo) xs sers -> forallb (hc ct TT c) sers = true -> Forall (field_ok bo) sers ->
  Forall atom (runs sers) -> rel p (runs sers) -> met hb ct md px c (attrs, d0) p o -> reached hb md sl c px bo attrs d0 xs o.
Proof.
  intros c px bo attrs d0 xs sers p o A H F AT RL (n & b & b' & [names d] & ST & ->). cbn [snd].
  assert (N : exists m, steps hb ct md px (S m) c p b (attrs, d0) b' (names, d)).
  { destruct n as [|m]; [|eauto]. exists 0%nat. inversion ST; subst; [constructor|]. discriminate. }
  destruct N as (m & ST'). destruct (steps_pseq _ _ _ _ _ _ _ _ ST') as (k & P).
  rewrite <- (ofill_pseq hb ct md c px m (PO c px [])) in P. rewrite (rel_fill hb ct md m _ _ _ _ _ _ _ RL), ofill_pseq in P.
  rewrite <- (gseq_parts hb ct md bo nmd put_all (seen c px) put_nil put_app sers m b (attrs, d0) F AT) in P.
  destruct (parse_agree hb md sl l CR RG TT HC (S m)) as (B & AG).
  pose proof (seq_agree hb md sl l RG TT HC (parse hb md sl (S m)) (S m) B AG c px bo xs (fold_right (fun y n => Nat.max (height y) n) 1%nat xs) (fun x I => fold_max height xs x I)
    sers A H 0%nat b (attrs, d0) (S m) ((names, d), k)) as [G _]. specialize (G (Nat.lt_succ_diag_r _) P).
  destruct (gread_reaches hb md sl (S m) c px bo attrs d0 xs [] 0%nat b attrs d0 names d k (Reach0 _ _ _ _ _ _ _ _ _ b) G) as (off' & b2 & R).
  exists (S m), off', b2, names, d. auto.
Qed.
(** the serializer of a class, with what each field gets to see *)
Variable U : exn -> Prop.
Hypothesis US : forall e, usual e -> U e.
Lemma all2_split : forall bo xs l1 s l2, all2 (made bo) xs (l1 ++ s :: l2) -> exists xs1 x xs2, xs = xs1 ++ x :: xs2 /\ all2 (made bo) xs1 l1 /\ made bo x s.
Proof.
  intros bo xs l1. revert xs. induction l1 as [|y l1 IH]; intros [|x xs] s l2 A; try contradiction; destruct A as [A1 A2].
  - exists [], x, xs. repeat split; assumption.
  - destruct (IH xs s l2 A2) as (xs1 & x' & xs2 & -> & B & C). exists (x :: xs1), x', xs2. repeat split; assumption.
Qed.
Lemma fields_class_tame : forall c px bo attrs d0 xs sers s, all2 (made bo) xs sers -> forallb (hc ct TT c) sers = true -> Forall (field_ok bo) sers ->
  Forall atom (runs sers) -> flat s -> rel (parts s) (runs sers) -> tame ct md U (fun _ => False) s ->
  (forall xs1 x xs2 y, xs = xs1 ++ x :: xs2 -> made bo x y -> tame ct md U (reached hb md sl c px bo attrs d0 xs1) y) ->
  class_tame hb ct md U px c (attrs, d0) s.
Proof.
  intros c px bo attrs d0 xs sers s A H F AT FL RL TF TX. split; [destruct s; try exact I; contradiction|]. intros l1 u l2 E.
  assert (TU : tame ct md U (fun _ => False) u).
  { destruct s; cbn [units] in E; try (destruct l1 as [|? []]; cbn in E; [injection E as <- _; exact TF|discriminate|discriminate]).
    cbn [tame] in TF. apply go_forall in TF. rewrite E in TF. apply Forall_app in TF as [_ TF]. now inversion TF. }
  destruct (is_struct u) eqn:SU; [destruct u; try discriminate SU; exact TU|].
  destruct (match s with SNull => true | _ => false end) eqn:SN.
  { destruct s; try discriminate SN. cbn [units] in E. destruct l1 as [|? []]; cbn in E; [injection E as <- _; exact I|discriminate|discriminate]. }
  assert (P : parts s = l1 ++ u :: l2) by (destruct s; try discriminate SN; try contradiction; exact E).
  rewrite P in RL. apply Forall2_app_inv_l in RL as (p & q & R1 & R2 & RS). inversion R2 as [|? u' ? q' SS R3]; subst.
  assert (u' = u) as -> by (destruct SS as [->|(a & b & -> & _)]; [reflexivity|discriminate SU]).
  destruct (runs_place sers p u q' RS SU) as (s1 & s2 & -> & RP). destruct (all2_split bo xs s1 u s2 A) as (xs1 & x & xs2 & EX & AX & MX).
  apply (tame_mono _ _ _ (reached hb md sl c px bo attrs d0 xs1)); [|eapply TX; eauto].
  intros o M. apply (met_reached c px bo attrs d0 xs1 s1 l1 o); auto.
  - rewrite forallb_app in H. now apply andb_prop in H as [H _].
  - now apply Forall_app in F as [F _].
  - rewrite RP. rewrite RS in AT. now apply Forall_app in AT as [AT _].
  - rewrite RP. exact R1.
Qed.
End Class.

(** ** more objects, more exceptions *)
Lemma extra_impl : forall (K K' : pobj -> Prop) md (P Q : Prop) x e, (forall o, K o -> K' o) -> (P -> Q) -> extra K md P x e -> extra K' md Q x e.
Proof.
  intros K K' md P Q x e KK PQ. induction x using hx_ind'; cbn [extra]; auto; try tauto.
  - intros A. apply any_ex in A as (y & I & A). rewrite Forall_forall in H. apply (any_in _ l y I). auto.
  - intros [(o & A & B)|[(o & r & A & B)|[A|A]]]; [left; eauto|right; left; exists o, r; auto|auto|auto].
  - destruct x; auto.
  - intros [(o & A & B)|[(E & o & r & A & B)|[A|A]]].
    + left. eauto.
    + right. left. split; [exact E|]. exists o, r. auto.
    + right. right. left. apply any_ex in A as (p & I & A). rewrite Forall_forall in H0. apply (any_in _ m p I). auto.
    + right. right. right. destruct d; [|exact A]. auto.
  - intros [A|[A|[A|[A|[A|A]]]]]; auto.
    + do 4 right. left. apply any_ex in A as (p & I & A). rewrite Forall_forall in H0. apply (any_in _ m p I). auto.
    + do 5 right. destruct d; [|exact A]. auto.
Qed.
Lemma deal_facts : forall vs names d names' d', deal names vs d = Some (names', d') -> exists pre, names = pre ++ names' /\
  (forall a, ~ In a pre -> assoc a d' = assoc a d).
Proof.
  induction vs as [|v vs IH]; intros names d names' d' E.
  - exists []. destruct names; injection E as <- <-; auto.
  - destruct names as [|a names]; [discriminate|]. cbn [deal] in E. destruct (IH _ _ _ _ E) as (pre & -> & H). exists (a :: pre). split; [reflexivity|].
    intros b N. rewrite H by (intros I; apply N; now right). rewrite assoc_set_eq. destruct (String.eqb_spec b a) as [->|]; [|reflexivity]. exfalso. apply N. now left.
Qed.
(** an attribute that the class does not have is not set *)
Lemma reaches_other : forall hb md sl n c px bo attrs d0 xs off b names d, reaches hb md sl n c px bo attrs d0 xs off b names d ->
  incl names attrs /\ forall a, ~ In a attrs -> assoc a d = assoc a d0.
Proof.
  intros hb md sl n c px bo attrs d0 xs off b names d H. induction H as [|xs x off b names d vs off' k names' d' H [IH1 IH2] R D]; [split; [apply incl_refl|reflexivity]|].
  destruct (deal_facts _ _ _ _ _ D) as (pre & -> & F). split.
  - intros a I. apply IH1. apply in_or_app. now right.
  - intros a N. rewrite <- IH2 by exact N. apply F. intros I. apply N, IH1. apply in_or_app. now left.
Qed.
Lemma reached_self : forall hb md sl ct c bo attrs xs o, ct c <> None -> ~ In "cls" attrs -> reached hb md sl c true bo attrs [] xs o -> okself ct o.
Proof.
  intros hb md sl ct c bo attrs xs o C N (n & off & b & names & d & R & ->). destruct (reaches_other _ _ _ _ _ _ _ _ _ _ _ _ _ _ R) as [_ Q].
  repeat split; [|exact C]. cbn [p_attrs]. now rewrite Q.
Qed.
(** what has been set stays *)
Lemma reaches_keeps : forall hb md sl n c px bo attrs d0 xs ys off' b' names' d', reaches hb md sl n c px bo attrs d0 (xs ++ ys) off' b' names' d' ->
  exists off b names d, reaches hb md sl n c px bo attrs d0 xs off b names d /\ incl names' names /\ forall a, ~ In a names -> assoc a d' = assoc a d.
Proof.
  intros hb md sl n c px bo attrs d0 xs ys. induction ys as [|y ys IH] using rev_ind; intros off' b' names' d' H.
  - rewrite app_nil_r in H. exists off', b', names', d'. split; [exact H|]. split; [apply incl_refl|reflexivity].
  - rewrite app_assoc in H. inversion H as [? Q|zs z off1 b1 nm1 d1 vs off2 k nm2 d2 H1 RX DL E]; subst; [destruct (xs ++ ys); discriminate Q|].
    apply app_inj_tail in E as [-> ->]. destruct (IH _ _ _ _ H1) as (off & b & names & d & R & IN & K). exists off, b, names, d. split; [exact R|].
    destruct (deal_facts _ _ _ _ _ DL) as (pre & -> & F). split.
    + intros a I. apply IN, in_or_app. now right.
    + intros a N. rewrite <- K by exact N. apply F. intros I. apply N, IN, in_or_app. now left.
Qed.
(** the first field, a number, is in view *)
Lemma reached_first : forall hb md sl c px bo a attrs d0 k xs o, ~ In a attrs -> reached hb md sl c px bo (a :: attrs) d0 (XBasic k :: xs) o ->
  exists b, assoc a (p_attrs o) = Some (scalar_of (mode_of hb bo) k b).
Proof.
  intros hb md sl c px bo a attrs d0 k xs o N (n & off & b & names & d & H & ->). change (XBasic k :: xs) with ([XBasic k] ++ xs) in H.
  destruct (reaches_keeps _ _ _ _ _ _ _ _ _ _ _ _ _ _ _ H) as (off1 & b1 & nm1 & d1 & R1 & _ & K). cbn [p_attrs].
  inversion R1 as [|zs z off2 b2 nm2 d2 vs off3 k2 nm3 d3 R0 RX DL E]; subst. destruct zs; [|destruct zs; discriminate E]. cbn in E. injection E as E. subst z.
  inversion R0 as [|zs' z' ? ? ? ? ? ? ? ? ? ? ? ? E]; subst; [|destruct zs'; discriminate E]. cbn [read] in RX. unfold at_ in RX.
  destruct (_ <=? _)%nat in RX; [|discriminate]. injection RX as <- _ _. cbn [deal] in DL. injection DL as <- <-.
  rewrite K by exact N. rewrite assoc_set_eq, String.eqb_refl. eauto.
Qed.
