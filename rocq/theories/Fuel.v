(** The recursion limit: a result other than RecursionError does not depend on the limit. *)
From Verif Require Import Base Floats Value StructMod Format Ser Exec Pure.

(** [a] is [b], unless [a] ran out of fuel *)
Definition rle {A} (a b : res A) : Prop := a = Err RecursionError \/ a = b.
Lemma rle_refl : forall A (a : res A), rle a a. Proof. now right. Qed.
Lemma rle_ok : forall A (a : res A) b x, rle a b -> a = Ok x -> b = Ok x.
Proof. intros A a b x [E|E] H; congruence. Qed.
Lemma rle_bind : forall A B (a a' : res A) (f f' : A -> res B), rle a a' -> (forall x, rle (f x) (f' x)) ->
  rle (rbind a f) (rbind a' f').
Proof. intros A B a a' f f' [->| ->] F; [now left|]. destruct a'; cbn; [apply F|apply rle_refl]. Qed.
Lemma rle_trans : forall A (a b c : res A), rle a b -> rle b c -> rle a c.
Proof. intros A a b c [->| ->] H; [now left|exact H]. Qed.
Lemma rle_rmap : forall A B (f : A -> B) (a a' : res A), rle a a' -> rle (Base.rmap f a) (Base.rmap f a').
Proof. intros A B f a a' [->| ->]; [now left|apply rle_refl]. Qed.
(** with attributes *)
Definition ple {A D} (a b : res A * D) : Prop := fst a = Err RecursionError \/ a = b.

Ltac rle_go tac :=
  repeat first
    [ apply rle_refl
    | tac
    | apply rle_rmap
    | apply rle_bind; [|intros]
    | match goal with
      | |- rle (match ?x with _ => _ end) (match ?x with _ => _ end) => destruct x
      | |- rle (if ?x then _ else _) (if ?x then _ else _) => destruct x
      end ].

Section Fuel.
Variable hb : bool.
Variable ct : nat -> option cdef.
Variable allow : nat -> nat -> bool.

Section Enc.
Variables r1 r2 : ser -> pobj -> list value -> res bytes.
Hypothesis R : forall s c vs, rle (r1 s c vs) (r2 s c vs).
Lemma enc_items_le : forall item ctx items, rle (enc_items r1 item ctx items) (enc_items r2 item ctx items).
Proof. induction items; cbn; rle_go ltac:(first [apply R|apply IHitems]). Qed.
Lemma enc_subs_le : forall pre ctx subs vs, rle (enc_subs r1 pre ctx subs vs) (enc_subs r2 pre ctx subs vs).
Proof. induction subs; intros vs; cbn [enc_subs]; rle_go ltac:(first [apply R|apply IHsubs]). Qed.
Lemma enc_obj_step_le : forall c ov d, rle (enc_obj_step ct r1 c ov d) (enc_obj_step ct r2 c ov d).
Proof. intros. unfold enc_obj_step. rle_go ltac:(apply R). Qed.
Lemma enc_step_le : forall s ctx vs, rle (enc_step hb ct allow r1 s ctx vs) (enc_step hb ct allow r2 s ctx vs).
Proof.
  intros s ctx vs. destruct s; cbn [enc_step];
    rle_go ltac:(first [apply R|apply enc_items_le|apply enc_subs_le|apply enc_obj_step_le]).
Qed.
End Enc.
Lemma enc_S : forall n s ctx vs, rle (enc hb ct allow n s ctx vs) (enc hb ct allow (S n) s ctx vs).
Proof.
  induction n as [|n IH]; intros; [now left|].
  change (enc hb ct allow (S (S n)) s ctx vs) with (enc_step hb ct allow (enc hb ct allow (S n)) s ctx vs).
  cbn [enc]. apply enc_step_le. exact IH.
Qed.
Lemma enc_le : forall n m s ctx vs, (n <= m)%nat -> rle (enc hb ct allow n s ctx vs) (enc hb ct allow m s ctx vs).
Proof. intros n m s ctx vs H. induction H; [apply rle_refl|]. eapply rle_trans; [exact IHle|apply enc_S]. Qed.
Lemma enc_obj_le : forall n m v, (n <= m)%nat -> rle (enc_obj hb ct allow n v) (enc_obj hb ct allow m v).
Proof. intros n m v H. destruct v; try apply rle_refl. cbn. apply enc_obj_step_le. intros. now apply enc_le. Qed.

Section Dec.
Variable md : umode.
Variables r1 r2 : ser -> pobj -> bytes -> res (list value * Z).
Hypothesis R : forall s c b, rle (r1 s c b) (r2 s c b).
Lemma dec_items_le : forall item ctx n b, rle (dec_items r1 item ctx n b) (dec_items r2 item ctx n b).
Proof. induction n; intros b; cbn [dec_items]; rle_go ltac:(first [apply R|apply IHn]). Qed.
Lemma dec_subs_le : forall pre ctx subs b, rle (dec_subs r1 pre ctx subs b) (dec_subs r2 pre ctx subs b).
Proof. induction subs; intros b; cbn [dec_subs]; rle_go ltac:(first [apply R|apply IHsubs]). Qed.
Lemma dfill_subs_le : forall pre ctx subs b names d,
  ple (dfill_subs r1 pre ctx subs b names d) (dfill_subs r2 pre ctx subs b names d).
Proof.
  induction subs as [|x subs IH]; intros b names d; [now right|]. cbn [dfill_subs]. cbv zeta.
  destruct (oresolve false _ x) as [x'|]; [|now right]. cbn [rbind].
  destruct (R x' (octx (option_map (fun o => PO (p_cls o) (p_proxy o) d) pre) ctx) b) as [-> | ->]; [now left|].
  destruct (r2 _ _ _) as [[vs k]|]; [|now right]. destruct (assign names vs d) as [[names'|] d']; [|now right].
  destruct (IH (adv k b) names' d') as [E| ->]; [|now right].
  destruct (dfill_subs r1 pre ctx subs (adv k b) names' d') as [r d'']. cbn in E. subst r. now left.
Qed.
Lemma dfill_le : forall x ctx b names d, ple (dfill r1 x ctx b names d) (dfill r2 x ctx b names d).
Proof.
  intros x ctx b names d.
  assert (G : forall pre subs, ple
     match dfill_subs r1 pre ctx subs b names d with
      | (Err e, d') => (Err e, d')
      | (Ok (names', k), d') => (match names' with [] => Ok k | _ => Err ValueError end, d')
      end
     match dfill_subs r2 pre ctx subs b names d with
      | (Err e, d') => (Err e, d')
      | (Ok (names', k), d') => (match names' with [] => Ok k | _ => Err ValueError end, d')
      end).
  { intros pre subs. destruct (dfill_subs_le pre ctx subs b names d) as [E| ->]; [|now right].
    destruct (dfill_subs r1 pre ctx subs b names d) as [r d']. cbn in E. subst r. now left. }
  destruct x; cbn [dfill]; try apply G;
    (match goal with |- context [r1 ?x] => destruct (R x ctx b) as [-> | ->]; [now left|now right] end).
Qed.
Lemma dcreate_step_le : forall c b, rle (dcreate_step ct r1 c b) (dcreate_step ct r2 c b).
Proof.
  intros c b. unfold dcreate_step. destruct (ct c) as [cd|]; [|apply rle_refl].
  apply rle_bind; [apply rle_refl|]. intros x.
  destruct (dfill_le x (PO c true []) b (c_attrs cd) []) as [E| ->]; [|apply rle_refl].
  destruct (dfill r1 _ _ _ _ _) as [r d]. cbn in E. subst r. now left.
Qed.
Lemma drefill_step_le : forall c ov d b, ple (drefill_step ct r1 c ov d b) (drefill_step ct r2 c ov d b).
Proof.
  intros c ov d b. unfold drefill_step. destruct (ct c) as [cd|]; [|now right].
  destruct (resolve _ _ _); [|now right]. apply dfill_le.
Qed.
Lemma dec_step_le : forall x ctx b, rle (dec_step hb ct md r1 x ctx b) (dec_step hb ct md r2 x ctx b).
Proof.
  intros x ctx b. destruct x; cbn [dec_step];
    rle_go ltac:(first [apply R|apply dec_items_le|apply dec_subs_le|apply dcreate_step_le]).
Qed.
End Dec.
Lemma dec_S : forall md n x ctx b, rle (dec hb ct md n x ctx b) (dec hb ct md (S n) x ctx b).
Proof.
  induction n as [|n IH]; intros; [now left|].
  change (dec hb ct md (S (S n)) x ctx b) with (dec_step hb ct md (dec hb ct md (S n)) x ctx b).
  cbn [dec]. apply dec_step_le. exact IH.
Qed.
Lemma dec_le : forall md n m x ctx b, (n <= m)%nat -> rle (dec hb ct md n x ctx b) (dec hb ct md m x ctx b).
Proof. intros md n m x ctx b H. induction H; [apply rle_refl|]. eapply rle_trans; [exact IHle|apply dec_S]. Qed.
Lemma dcreate_le : forall md n m c b, (n <= m)%nat -> rle (dcreate hb ct md n c b) (dcreate hb ct md m c b).
Proof. intros md n m c b H. apply dcreate_step_le. intros. now apply dec_le. Qed.
End Fuel.
