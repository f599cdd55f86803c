(** What the pack methods raise is a reason of WhySpec.v. *)
From Verif Require Import Base Floats Value StructMod Format Ser Exec Pure BaseFacts StructFacts FormatFacts
  SerFacts Leaf Wire Field Fuel DecFacts RoundTrip Adding PropsAdd PropsStrings Hints HintFacts Surface SerShape Programs Accept AcceptProg
  WireSpec WireFacts Wires PackSpec Packable WhySpec.

(** ** sums: the first field that fails *)
Definition total (l : list ser) : nat := list_sum (map num_values l).
Lemma total_step : forall a c, Adding.step a c -> total a = total c.
Proof.
  intros a c S. unfold total. destruct S as [q r|q x y r]; rewrite !map_app, !list_sum_app; cbn [map list_sum fold_right num_values]; [reflexivity|].
  rewrite glue_nvals. change (fold_right Nat.add 0%nat) with list_sum. lia.
Qed.
Lemma total_steps : forall a c, Adding.steps a c -> total a = total c.
Proof. intros a c S. induction S as [|x y z H S IH]; [reflexivity|]. rewrite <- IH. now apply total_step. Qed.
Section Fe.
Variable hb : bool.
Variable ct : nat -> option cdef.
Variable allow : nat -> nat -> bool.
Variable bo : border.
Variable n : nat.
Variable o : pobj.
(** too few values in all *)
Variable few : Prop.
Notation fout := (fout hb ct allow bo n o).
Notation fo := (fo hb ct allow bo n o).
Notation penc := (penc hb ct allow n).
Inductive fe : list ser -> list value -> exn -> Prop :=
| fe_here : forall s l vs e, penc s o (firstn (num_values s) vs) = Err e -> fe (s :: l) vs e
| fe_later : forall s l vs e, (exists c, fout s (firstn (num_values s) vs) c) \/ (is_struct s = true /\ few) ->
    fe l (skipn (num_values s) vs) e -> fe (s :: l) vs e.
Lemma est_short : forall st vs, List.length vs <> ss_nvals st -> est hb st vs = Err StructError.
Proof. intros st vs L. unfold est, st_pack. change (nvals (s_fmt st)) with (ss_nvals st). destruct (Nat.eqb_spec (List.length vs) (ss_nvals st)); [contradiction|reflexivity]. Qed.
Lemma pack_err_off : forall m us a b vs, snd (pack_u m a us vs) = snd (pack_u m b us vs).
Proof.
  intros m. induction us as [|u us IH]; intros a b vs; [reflexivity|]. cbn [pack_u].
  assert (G : forall x y v, snd (let (bs, e) := pack_u m (a + List.length x) us v in (x ++ bs, e)) = snd (let (bs, e) := pack_u m (b + List.length y) us v in (y ++ bs, e))).
  { intros x y v. specialize (IH (a + List.length x)%nat (b + List.length y)%nat v). destruct (pack_u m (a + _) us v), (pack_u m (b + _) us v). exact IH. }
  destruct u; cbn [pack_unit].
  - apply G.
  - apply G.
  - destruct vs as [|[] vs]; try reflexivity. apply G.
  - destruct vs as [|[] vs]; try reflexivity. apply G.
  - destruct vs as [|v vs]; [reflexivity|]. destruct (pack_val m c v); [|reflexivity]. cbn [rbind]. apply G.
Qed.
Lemma glue_err : forall x y v1 v2 e, s_bo x = bo -> s_bo y = bo -> List.length v1 = ss_nvals x -> List.length v2 = ss_nvals y ->
  est hb (glue x y) (v1 ++ v2) = Err e -> est hb x v1 = Err e \/ (exists a, est hb x v1 = Ok a) /\ est hb y v2 = Err e.
Proof.
  intros x y v1 v2 e BX BY L1 L2 E. unfold est, st_pack, ss_mode in *. cbn [glue s_bo s_fmt] in E. rewrite BX, BY in *.
  unfold ss_nvals, nvals in *. rewrite expand_app, nvals_u_app, app_length, L1, L2, !Nat.eqb_refl in *.
  rewrite pack_u_app, (pack_u_prefix false BO_LE eq_refl _ _ _ v1 v2) in E by lia. rewrite <- L1 in E.
  destruct (pack_u (mode_of hb bo) 0 (expand (s_fmt x)) v1) as [p [e1|]] eqn:P1; [injection E as <-; now left|]. right. split; [eauto|].
  rewrite skipn_app, skipn_all, Nat.sub_diag in E. cbn [app skipn] in E.
  pose proof (pack_err_off (mode_of hb bo) (expand (s_fmt y)) (0 + List.length p) 0 v2) as Q.
  destruct (pack_u _ (0 + List.length p) _ v2) as [z [e2|]]; [|discriminate]. injection E as <-. cbn [snd] in Q. destruct (pack_u _ 0 _ v2) as [z' e3]. cbn [snd] in Q. now subst e3.
Qed.
Lemma fe_step : forall a c vs e, Adding.step a c -> Forall (sbo bo) a -> (List.length vs < total c -> few)%nat -> fe c vs e -> fe a vs e.
Proof.
  intros a c vs e S. assert (PE : n <> 0%nat -> forall st v, penc (SStruct st) o v = est hb st v).
  { intros N0 st v. unfold Field.penc. cbn [resolve rbind]. destruct n; [congruence|]. reflexivity. }
  revert vs e. destruct S as [q r|q x y r].
  - induction q as [|s q IH]; intros vs e B FW F; cbn [app] in *.
    + apply fe_later; [left; exists []; reflexivity|]. exact F.
    + inversion B; subst. inversion F; subst; [now apply fe_here|]. apply fe_later; [assumption|]. apply IH; auto. intros L. apply FW.
      unfold total in *. cbn [map list_sum fold_right]. change (fold_right Nat.add 0%nat) with list_sum. rewrite skipn_length in L. lia.
  - induction q as [|s q IH]; intros vs e B FW F; cbn [app] in *.
    + inversion B as [|? ? BX B2]; subst. inversion B2 as [|? ? BY B3]; subst. cbn [sbo] in *.
      assert (GN : num_values (SStruct (glue x y)) = (ss_nvals x + ss_nvals y)%nat) by (cbn [num_values]; apply glue_nvals).
      inversion F as [? ? ? ? P|? ? ? ? P G]; subst; rewrite GN in *.
      * destruct (Nat.eq_dec n 0) as [Z|N0]; [apply fe_here; unfold Field.penc in *; cbn [resolve rbind] in *; rewrite Z in *; exact P|]. specialize (PE N0).
        rewrite PE in P. destruct (Nat.lt_ge_cases (List.length vs) (ss_nvals x)) as [L|L].
        { assert (e = StructError) as ->. { rewrite est_short in P; [now injection P|]. rewrite firstn_length, glue_nvals. lia. }
          apply fe_here. rewrite PE. apply est_short. rewrite firstn_length. cbn [num_values]. lia. }
        destruct (Nat.lt_ge_cases (List.length vs) (ss_nvals x + ss_nvals y)) as [L2|L2].
        { assert (e = StructError) as ->. { rewrite est_short in P; [now injection P|]. rewrite firstn_length, glue_nvals. lia. }
          apply fe_later.
          - right. split; [reflexivity|]. apply FW. unfold total. cbn [map list_sum fold_right]. rewrite GN. lia.
          - apply fe_here. rewrite PE. apply est_short. rewrite firstn_length, skipn_length. cbn [num_values]. lia. }
        assert (V : firstn (ss_nvals x + ss_nvals y) vs = firstn (ss_nvals x) vs ++ firstn (ss_nvals y) (skipn (ss_nvals x) vs)).
        { rewrite <- (firstn_skipn (ss_nvals x) vs) at 1. rewrite firstn_app, firstn_length.
          replace (ss_nvals x + ss_nvals y - Nat.min (ss_nvals x) (List.length vs))%nat with (ss_nvals y) by lia.
          rewrite firstn_firstn. f_equal. f_equal. lia. }
        rewrite V in P. destruct (glue_err x y (firstn (ss_nvals x) vs) (firstn (ss_nvals y) (skipn (ss_nvals x) vs)) e BX BY ltac:(rewrite firstn_length; lia) ltac:(rewrite firstn_length, skipn_length; lia) P) as [E1|[[a E1] E2]].
        -- apply fe_here. rewrite PE. exact E1.
        -- apply fe_later; [|apply fe_here; rewrite PE; exact E2]. left. destruct (est_fout hb ct allow bo n o x _ a BX E1) as (chs & G & _). exists chs. exact G.
      * rewrite <- skipn_skipn' in G. destruct P as [[c P]|[_ FF]].
        -- assert (FO : fo [SStruct (glue x y)] vs (c ++ [])) by (constructor; [cbn [num_values]; rewrite glue_nvals; exact P|constructor]).
           pose proof (fo_step hb ct allow bo n o _ _ vs _ (step_glue [] x y []) FO) as G2. inversion G2 as [|? ? ? c1 cs1 G3 G4]; subst. inversion G4 as [|? ? ? c2 cs2 G5 G6]; subst.
           apply fe_later; [left; eauto|]. apply fe_later; [left; eauto|]. exact G.
        -- apply fe_later; [right; auto|]. apply fe_later; [right; auto|]. exact G.
    + inversion B; subst. inversion F; subst; [now apply fe_here|]. apply fe_later; [assumption|]. apply IH; auto. intros L. apply FW.
      unfold total in *. cbn [map list_sum fold_right]. change (fold_right Nat.add 0%nat) with list_sum. rewrite skipn_length in L. lia.
Qed.
Lemma step_sbo : forall a c, Adding.step a c -> Forall (sbo bo) a -> Forall (sbo bo) c.
Proof.
  intros a c S F. destruct S as [q r|q x y r]; apply Forall_app in F as [F1 F2]; apply Forall_app; (split; [exact F1|]).
  - now inversion F2.
  - inversion F2 as [|? ? A B]; subst. inversion B; subst. constructor; [exact A|assumption].
Qed.
Lemma fe_steps : forall a c vs e, Adding.steps a c -> Forall (sbo bo) a -> (List.length vs < total c -> few)%nat -> fe c vs e -> fe a vs e.
Proof.
  intros a c vs e S. induction S as [l|a b c H S IH]; intros B FW F; [exact F|].
  pose proof (total_steps _ _ S) as TS.
  apply (fe_step a b); [exact H|exact B|rewrite TS; exact FW|]. apply IH; auto. eapply step_sbo; eauto.
Qed.
Lemma runs_fe : forall p vs e, Forall (sbo bo) p -> Forall cond_ok p ->
  enc_subs (enc hb ct allow n) (Some o) o p vs = Err e -> fe p vs e.
Proof.
  induction p as [|s p IH]; intros vs e B C E; [discriminate|]. inversion B; subst. inversion C; subst. cbn [enc_subs oresolve octx] in E.
  assert (PE : penc s o (firstn (num_values s) vs) = rdo s' <- resolve true s o; enc hb ct allow n s' o (firstn (num_values s') vs)).
  { unfold Field.penc. destruct (resolve true s o) as [s'|] eqn:R; [|reflexivity]. cbn [rbind]. now rewrite (resolve_nv' _ _ _ _ H3 R). }
  destruct (resolve true s o) as [s'|] eqn:R; cbn [rbind] in *; [|apply fe_here; congruence].
  destruct (enc hb ct allow n s' o (firstn (num_values s') vs)) as [b1|] eqn:E1; cbn [rbind] in E; [|apply fe_here; congruence].
  destruct (enc_subs _ _ _ p _) as [b2|] eqn:E2; cbn [rbind] in E; [discriminate|]. injection E as <-.
  apply fe_later; [left; destruct (penc_fout hb ct allow bo n o s _ b1 H1 PE) as (c & F & _); eauto|].
  apply IH; auto. rewrite <- (resolve_nv' _ _ _ _ H3 R). exact E2.
Qed.
Theorem sum_fe : forall l vs e, Forall (sbo bo) l -> Forall cond_ok l -> (List.length vs < total l -> few)%nat ->
  enc_subs (enc hb ct allow n) (Some o) o (runs l) vs = Err e -> fe l vs e.
Proof.
  intros l vs e B C FW E. apply (fe_steps l (runs l)); auto; [apply runs_steps| |].
  - now rewrite <- (total_steps _ _ (runs_steps l)).
  - apply runs_fe; [exact (runs_forall (sbo bo) l (push_sbo bo) B)|exact (runs_forall cond_ok l push_cond C)|exact E].
Qed.
End Fe.

(** ** what is to be shown of every hint expression *)
Definition hard (e : exn) : Prop := e = RecursionError \/ e = Unspecified.
Lemma vals_cases : forall x, regular x = true ->
  vals x = (if takes x then 1 else 0)%nat \/ exists c sz y, x = XArray (inr c) sz y /\ packed y = true.
Proof.
  intros x R. destruct x; cbn [vals takes]; try (left; reflexivity).
  - left. destruct (n =? 0); reflexivity.
  - left. destruct a; try reflexivity. destruct (z =? 0); reflexivity.
  - destruct n as [z|c]; [left; reflexivity|]. rewrite <- packed_eq. destruct (packed x) eqn:P; [|left; reflexivity]. right. eauto.
  - left. cbn [regular] in R. apply andb_prop in R as [_ R]. now apply Nat.eqb_eq in R.
Qed.
Lemma vals_le : forall x, regular x = true -> (vals x <= if takes x then 1 else 0)%nat.
Proof.
  intros x R. destruct (vals_cases x R) as [->|(c & sz & y & -> & P)]; [lia|]. cbn [vals takes]. rewrite <- packed_eq, P. lia.
Qed.
Lemma total_takers : forall bo xs l, all2 (made bo) xs l -> forallb regular xs = true -> (total l <= takers xs)%nat.
Proof.
  intros bo xs. induction xs as [|x xs IH]; intros [|s l] M R; try contradiction; [reflexivity|].
  destruct M as [M1 M2]. cbn [forallb] in R. apply andb_prop in R as [R1 R2]. specialize (IH l M2 R2). pose proof (vals_le x R1).
  unfold total, takers in *. cbn [map list_sum fold_right filter]. change (fold_right Nat.add 0%nat) with list_sum. rewrite (made_nv _ _ _ M1).
  destruct (takes x); cbn [List.length]; lia.
Qed.
Lemma why_none : forall hb rec wo o x bo v e, takes x = false -> why hb rec wo o bo x v e -> why hb rec wo o bo x None e.
Proof.
  intros hb rec wo o. induction x using hx_ind'; intros bo v e T W; try discriminate T; cbn [why takes] in *.
  - exact W.
  - destruct W as [N _]. destruct (n =? 0) eqn:Z0; [lia|discriminate].
  - destruct a; try discriminate. cbn [char_why] in *. destruct (z =? 0) eqn:Z0; [|discriminate]. destruct v; [|exact W]. destruct W as (A & _). lia.
  - destruct W as [W|W]; [now left|]. right. destruct (f o) as [r|]; [|exact W]. destruct W as [W1 [W2|W2]]; split; eauto.
Qed.

(** a sum that is a single struct serializer is made of such *)
Definition structs (s : ser) : Prop := is_struct s = true \/ s = SNull.
Lemma steps_structs : forall a c, Adding.steps a c -> Forall structs c -> Forall structs a.
Proof.
  intros a c S. induction S as [l|a b c H S IH]; intros C; [exact C|]. specialize (IH C). clear - H IH.
  destruct H as [q r|q x y r]; apply Forall_app in IH as [A B]; apply Forall_app; (split; [exact A|]).
  - constructor; [now right|exact B].
  - inversion B; subst. constructor; [now left|]. constructor; [now left|assumption].
Qed.
Lemma structs_takers : forall bo xs l, all2 (made bo) xs l -> forallb regular xs = true -> Forall structs l -> total l = takers xs.
Proof.
  intros bo xs. induction xs as [|x xs IH]; intros [|s l] M R F; try contradiction; [reflexivity|].
  destruct M as [M1 M2]. cbn [forallb] in R. apply andb_prop in R as [R1 R2]. inversion F as [|? ? F1 F2]; subst. specialize (IH l M2 R2 F2).
  assert (V : vals x = (if takes x then 1 else 0)%nat).
  { destruct (vals_cases x R1) as [V|(c & sz & y & -> & P)]; [exact V|]. exfalso. cbn [made] in M1. destruct M1 as (_ & i & _ & M1).
    rewrite <- packed_eq, P in M1. destruct M1 as (st & _ & id & ->). destruct F1; discriminate. }
  unfold total, takers in *. cbn [map list_sum fold_right filter]. change (fold_right Nat.add 0%nat) with list_sum.
  rewrite (made_nv _ _ _ M1), V, IH. destruct (takes x); reflexivity.
Qed.

Section Blame.
Variable hb : bool.
Variable ct : nat -> option cdef.
Variable allow : nat -> nat -> bool.
Variable rec : nat -> option border -> list (string * value) -> option bytes.
Variable wo : nat -> option border -> list (string * value) -> exn -> Prop.
Variable N : nat.
Variable o : pobj.
Notation shown := (shown hb ct allow rec N o).
Notation why := (why hb rec wo o).
Notation penc := (penc hb ct allow).
(** more values than the expression takes *)
Definition extra (x : hx) (vs : list value) (e : exn) : Prop :=
  ((if takes x then 1 else 0) < List.length vs)%nat /\ too_many o x e.
Definition blamed (x : hx) : Prop := forall n bo s vs e, (n <= N)%nat -> made bo x s -> regular x = true ->
  penc n s o vs = Err e -> hard e \/ why bo x (hd_error vs) e \/ extra x vs e.

Lemma members_fe : forall (sv : list hx) few bo n xs l vs e, (Exists uncounted xs -> several sv) -> (n <= N)%nat -> all2 (made bo) xs l -> Forall shown xs -> Forall blamed xs ->
  forallb regular xs = true -> fe hb ct allow bo n o few l vs e ->
  hard e \/ members_why (chunks hb rec o (mode_of hb bo)) (slot sv (why bo)) few xs vs e.
Proof.
  intros sv few bo n xs. induction xs as [|x xs IH]; intros [|s l] vs e HS LE M S B R F; try contradiction; [inversion F|].
  destruct M as [M1 M2]. inversion S as [|? ? S1 S2]; subst. inversion B as [|? ? B1 B2]; subst.
  cbn [forallb] in R. apply andb_prop in R as [R1 R2]. cbn [members_why]. pose proof (made_nv _ _ _ M1) as NV.
  inversion F as [? ? ? ? P|? ? ? ? P G]; subst.
  - destruct (vals_cases x R1) as [V|(c & sz & y & -> & PK)].
    + destruct (B1 n bo s _ e LE M1 R1 P) as [H|[W|[L _]]]; [now left| |].
      * right. left. left. rewrite NV, V in W. destruct (takes x) eqn:TK.
        -- rewrite hd_first in W by auto. exact W.
        -- eapply why_none; eauto.
      * exfalso. assert (Q : (List.length (firstn (num_values s) vs) <= num_values s)%nat) by (rewrite firstn_length; lia). rewrite NV, V in Q. rewrite NV, V in L. lia.
    + cbn [made] in M1. destruct M1 as (_ & i & _ & M1). pose proof PK as PK'. rewrite packed_eq in PK. rewrite PK in M1.
      destruct M1 as (st & _ & id & ->). cbn [num_values firstn] in P. unfold Field.penc in P. cbn [resolve rbind] in P. destruct n as [|n].
      * left. left. cbn in P. now injection P.
      * cbn in P. injection P as <-. right. left. right. split; [apply HS; left; exact PK'|]. split; [exact PK'|reflexivity].
  - assert (V : vals x = (if takes x then 1 else 0)%nat).
    { destruct P as [[c P]|[P _]]; [exact (regular_vals hb ct allow o x bo s n vs c M1 R1 P)|].
      destruct (vals_cases x R1) as [V|(c & sz & y & -> & PK)]; [exact V|]. exfalso. cbn [made] in M1. destruct M1 as (_ & i & _ & M1).
      rewrite <- packed_eq, PK in M1. destruct M1 as (st & _ & id & ->). discriminate. }
    rewrite NV, V in G. destruct (IH l _ e (fun z => HS (Exists_cons_tl _ z)) LE M2 S2 B2 R2 G) as [H|H]; [now left|]. right. right. split.
    + destruct P as [[c P]|[_ P]]; [left|now right]. pose proof (S1 n bo s _ c LE M1 R1 P) as C. rewrite NV, V in C.
      destruct (takes x) eqn:TK.
      * rewrite hd_first in C by auto. rewrite C. discriminate.
      * rewrite (takes_none hb rec o _ x _ TK) in C. rewrite C. discriminate.
    + destruct (takes x); [|exact H]. replace (tl vs) with (skipn 1 vs) by (now destruct vs). exact H.
Qed.
Lemma null_takers : forall bo xs l, all2 (made bo) xs l -> Forall (fun s => is_struct s = false) l -> filter real l = [] -> takers xs = 0%nat.
Proof.
  intros bo xs. induction xs as [|x xs IH]; intros [|s l] M NS F; try contradiction; [reflexivity|].
  destruct M as [M1 M2]. inversion NS; subst. cbn [filter] in F. destruct s; try discriminate F.
  destruct (made_null _ _ M1) as [TK _]. unfold takers in *. cbn [filter]. rewrite TK. eapply IH; eauto.
Qed.
Lemma single_blame : forall sv few bo n xs l s e vs, (n <= N)%nat -> all2 (made bo) xs l -> Forall blamed xs -> forallb regular xs = true ->
  Forall (fun s => is_struct s = false) l -> filter real l = [s] -> penc n s o vs = Err e ->
  hard e \/ members_why (chunks hb rec o (mode_of hb bo)) (slot sv (why bo)) few xs vs e \/
  ((takers xs < List.length vs)%nat /\ left_over o xs e).
Proof.
  intros sv few bo n xs. induction xs as [|x xs IH]; intros [|t l] s e vs LE M B R NS F P; try contradiction; [discriminate F|].
  destruct M as [M1 M2]. inversion B as [|? ? B1 B2]; subst. inversion NS as [|? ? NS1 NS2]; subst.
  pose proof (nothing_real _ _ _ M1) as NR.
  cbn [forallb] in R. apply andb_prop in R as [R1 R2]. cbn [filter] in F. destruct (real t) eqn:RT.
  - injection F as -> F. destruct (B1 n bo s vs e LE M1 R1 P) as [H|[W|[L E]]]; [now left| |].
    + right. left. cbn [members_why]. left. left. destruct (takes x) eqn:TK; [exact W|]. eapply why_none; eauto.
    + right. right. pose proof (null_takers _ _ _ M2 NS2 F) as Z. pose proof (filter_made bo xs l M2) as FM. rewrite F in FM.
      unfold takers, left_over, members_of in *. cbn [filter]. rewrite NR. destruct (filter (fun x => negb (nothing x)) xs); [|contradiction].
      split; [|exact E]. destruct (takes x); cbn [List.length]; lia.
  - destruct t; try discriminate RT. destruct (made_null _ _ M1) as [TK C]. unfold takers. cbn [members_why filter]. rewrite TK, C.
    destruct (IH l s e vs LE M2 B2 R2 NS2 F P) as [H|[H|[H1 H2]]]; [now left| |].
    + right. left. right. split; [left; discriminate|exact H].
    + right. right. split; [exact H1|]. unfold left_over, members_of in *. cbn [filter forallb]. rewrite NR.
      pose proof (filter_made bo xs l M2) as FM. rewrite F in FM.
      destruct (filter (fun x => negb (nothing x)) xs) as [|y [|z r]]; [contradiction|exact H2|destruct FM as [_ FM]; contradiction].
Qed.
Lemma struct_many : forall x bo st, made bo x (SStruct st) -> too_many o x StructError.
Proof.
  assert (C : forall bo c n st, counted bo c n (SStruct st) -> n <> 0) by (intros bo c n st M; unfold counted in M; destruct (n =? 0) eqn:Z0; [discriminate|lia]).
  induction x using hx_ind'; intros bo st M; cbn [made too_many] in *; try contradiction; try reflexivity; eauto.
  - destruct a; cbn [char_made] in M; eauto.
    + destruct M as [_ [id Q]]; discriminate.
    + destruct b as [|? []]; try contradiction. destruct M as [id Q]; discriminate.
    + destruct M as [id Q]; discriminate.
    + destruct M as [id Q]; discriminate.
  - destruct M as (i & Q & _); discriminate.
  - destruct M as (_ & i & _ & M). destruct (structy x && Nat.eqb (vals x) 1).
    + destruct M as (st' & _ & M). destruct n; [discriminate|destruct M; discriminate].
    + destruct M; discriminate.
  - destruct M as (? & ? & ? & ? & ? & Q & _). discriminate.
  - destruct M as (? & Q & _). discriminate.
  - destruct M as (? & st' & _ & M & _). eauto.
  - destruct M as (? & ? & ? & Q & _). discriminate.
  - destruct M as (? & ? & ? & ? & Q & _). discriminate.
  - destruct M; discriminate.
  - destruct M; discriminate.
Qed.
Lemma all2_len : forall {A B} (P : A -> B -> Prop) a b, all2 P a b -> List.length a = List.length b.
Proof. intros A B P a. induction a as [|x a IH]; intros [|y b] H; try contradiction; [reflexivity|]. destruct H as [_ H]. cbn. now rewrite (IH b H). Qed.
Lemma uncounted_made : forall bo xs l, all2 (made bo) xs l -> Forall structs l -> Exists uncounted xs -> False.
Proof.
  intros bo xs. induction xs as [|x xs IH]; intros [|s l] M F X; try contradiction; [inversion X|]. destruct M as [M1 M2]. inversion F as [|? ? F1 F2]; subst.
  inversion X as [? ? U|? ? U]; subst; [|eauto]. destruct x; try contradiction. destruct n; [contradiction|]. cbn [uncounted made] in *.
  destruct M1 as (_ & i & _ & M1). rewrite <- packed_eq, U in M1. destruct M1 as (st & _ & id & ->). destruct F1; discriminate.
Qed.
Lemma sum_blame : forall bo n xs l s vs e, (n <= N)%nat -> all2 (made bo) xs l -> Forall shown xs -> Forall blamed xs -> forallb regular xs = true ->
  flat s -> rel (parts s) (runs l) -> big s -> penc n s o vs = Err e ->
  hard e \/ members_why (chunks hb rec o (mode_of hb bo)) (slot xs (why bo)) (List.length vs < takers xs)%nat xs vs e \/
  ((takers xs < List.length vs)%nat /\ left_over o xs e).
Proof.
  intros bo n xs l s vs e LE M SH BL R F RL BG P.
  assert (FO : Forall (field_ok bo) l) by (eapply all2_field; eauto).
  assert (SB : Forall (sbo bo) l) by (eapply Forall_impl; [|exact FO]; intros ? (A & _); exact A).
  assert (CO : Forall cond_ok l) by (eapply Forall_impl; [|exact FO]; intros ? (_ & A & _); exact A).
  pose proof (total_takers _ _ _ M R) as TT. pose proof (filter_made bo xs l M) as FM.
  assert (ENC : forall n', (n' <= N)%nat -> (Exists uncounted xs -> several xs) -> enc_subs (enc hb ct allow n') (Some o) o (runs l) vs = Err e ->
    hard e \/ members_why (chunks hb rec o (mode_of hb bo)) (slot xs (why bo)) (List.length vs < takers xs)%nat xs vs e).
  { intros n' LE' SV E. eapply members_fe; eauto. eapply sum_fe; eauto. lia. }
  destruct (match s with SCompound _ _ => true | _ => false end) eqn:K.
  - destruct s; try discriminate K. unfold Field.penc in P. cbn [resolve rbind] in P.
    destruct n as [|n]; [left; left; destruct (existsb _ _); cbn in P; now injection P|].
    assert (SV : several xs).
    { unfold several, members_of. rewrite (all2_len _ _ _ FM). cbn [big] in BG. pose proof (rel_length _ _ RL) as RLN. cbn [parts] in RLN. rewrite RLN, runs_real in BG.
      pose proof (real_nn l) as NN. destruct (filter real l) as [|p [|q r]]; cbn [List.length]; [cbn in BG; lia| |lia].
      inversion NN; subst. unfold runs in BG. cbn [fold_left] in BG. destruct p; cbn in BG; try lia. }
    assert (Q : enc_subs (enc hb ct allow n) (Some o) o (runs l) vs = Err e).
    { rewrite <- (rel_enc hb ct allow n (Some o) o _ _ vs RL). cbn [parts].
      destruct (existsb needs_pre subs) eqn:NP; cbn [rbind enc enc_step] in P; [exact P|]. now rewrite <- enc_subs_none. }
    destruct (ENC n ltac:(lia) (fun _ => SV) Q); tauto.
  - destruct s; try discriminate K; try contradiction;
      try (match type of RL with rel (parts ?s) _ =>
             pose proof (rel_single s (runs l) eq_refl RL) as RS; destruct (runs_single l s eq_refl ltac:(discriminate) RS) as [A B];
             eapply single_blame; eauto end).
    + unfold Field.penc in P. cbn [resolve rbind] in P. destruct n; cbn in P; [|discriminate]. left. left. now injection P.
    + unfold Field.penc in P. cbn [resolve rbind] in P. destruct n as [|n]; [left; left; cbn in P; now injection P|]. cbn [enc enc_step] in P.
      cbn [parts] in RL. inversion RL as [|? y ? l' H1 H2 E1 E2]; subst. inversion H2; subst. 
      assert (Y : exists st', y = SStruct st' /\ ss_nvals st' = ss_nvals st).
      { destruct H1 as [<-|(a & b & Q & -> & NVQ)]; [eauto|]. injection Q as ->. exists b. split; [reflexivity|].
        unfold ss_nvals, nvals. destruct NVQ as (_ & LY & _). now rewrite (proj1 LY). }
      destruct Y as (st' & -> & NV).
      assert (TL : total l = ss_nvals st).
      { rewrite (total_steps _ _ (runs_steps l)), <- E2. unfold total. cbn [map list_sum fold_right num_values]. lia. }
      assert (STS : Forall structs l).
      { eapply steps_structs; [apply runs_steps|]. rewrite <- E2. constructor; [now left|constructor]. }
      assert (TK : total l = takers xs) by (eapply structs_takers; eauto).
      destruct (Nat.lt_ge_cases (takers xs) (List.length vs)) as [L|L].
      * right. right. split; [exact L|]. rewrite est_short in P by lia. injection P as <-. unfold left_over, members_of.
        destruct (filter (fun x => negb (nothing x)) xs) as [|x [|y r]] eqn:FX.
        -- destruct (filter real l) eqn:FR; [|contradiction]. rewrite runs_real, FR in E2. discriminate.
        -- destruct (filter real l) as [|p [|q r]] eqn:FR; try contradiction; [|destruct FM as [_ FM]; contradiction]. destruct FM as [FM _].
           assert (IP : In p l) by (apply (filter_In real p l); rewrite FR; now left).
           rewrite Forall_forall in STS. destruct (STS p IP) as [ST|ST]; [|subst p; assert (Z : In SNull (filter real l)) by (rewrite FR; now left); apply filter_In in Z as [_ Z]; discriminate Z].
           destruct p; try discriminate ST. eapply struct_many; eauto.
        -- split; [|reflexivity]. rewrite (structs_made bo xs l M). rewrite forallb_forall. rewrite Forall_forall in STS.
           intros p I. destruct (STS p I) as [ST|ST]; [destruct p; try discriminate ST|subst p]; reflexivity.
      * assert (Q : enc_subs (enc hb ct allow (S n)) (Some o) o (runs l) vs = Err e).
        { rewrite <- (rel_enc hb ct allow (S n) (Some o) o _ _ vs RL). cbn [parts enc_subs oresolve resolve rbind octx num_values enc enc_step].
          rewrite firstn_all2 by lia. rewrite P. reflexivity. }
        destruct (ENC (S n) LE (fun X => False_ind _ (uncounted_made _ _ _ M STS X)) Q); tauto.
Qed.
End Blame.

(** ** single tokens *)
Lemma pack_val_why : forall hb bo c v e, basic_code c = true -> pack_val (mode_of hb bo) c v = Err e -> scalar_why (mode_of hb bo) c (Some v) e.
Proof.
  intros hb bo c v e S P. set (m := mode_of hb bo) in *. cbn [scalar_why]. destruct (int_code c) as [sg|] eqn:I.
  - unfold pack_val in P. rewrite I in P.
    assert (W1 : csize (m_native m) c = wsize c) by (destruct c; try discriminate S; try discriminate I; reflexivity).
    rewrite W1 in P. assert (NF : narrow_float c = false) by (destruct c; try discriminate I; reflexivity). rewrite NF.
    destruct (as_index v) as [z|] eqn:A.
    + destruct (in_range sg (wsize c) z) eqn:R; [discriminate|]. injection P as <-. split; [|reflexivity].
      assert (Q : ((least c <=? z) && (z <=? greatest c))%bool = false).
      { unfold in_range in R. destruct c; try discriminate S; try discriminate I; injection I as <-; cbn [wsize least greatest] in *;
        match type of R with context [2 ^ ?e] => let k := eval vm_compute in (2 ^ e) in change (2 ^ e) with k in R end; lia. }
      destruct c; try discriminate S; try discriminate I; unfold scalar; rewrite A, Q; reflexivity.
    + injection P as <-. split; [|reflexivity]. destruct c; try discriminate S; try discriminate I; unfold scalar; rewrite A; reflexivity.
  - destruct c; try discriminate S; try discriminate I; unfold pack_val in P; unfold scalar; cbn [int_code narrow_float] in *.
    + discriminate P.
    + destruct (as_float v) as [z|]; [|injection P as <-; auto]. destruct (narrow 5 10 z); [discriminate|injection P as <-; auto].
    + destruct (as_float v) as [z|]; [|injection P as <-; auto]. destruct (narrow 8 23 z); [discriminate|].
      destruct (m_native m); [discriminate|]. injection P as <-; auto.
    + destruct (as_float v); [discriminate|]. injection P as <-. auto.
Qed.
Lemma est_err : forall hb st t vs e, s_fmt st = [t] -> est hb st vs = Err e ->
  (List.length vs <> nvals [t] /\ e = StructError) \/ (List.length vs = nvals [t] /\ snd (pack_u (ss_mode hb st) 0 (expand_tok t) vs) = Some e).
Proof.
  intros hb st t vs e F E. unfold est, st_pack in E. rewrite F in E.
  destruct (Nat.eqb_spec (List.length vs) (nvals [t])) as [L|L]; [|left; split; [exact L|now injection E]]. right. split; [exact L|].
  unfold expand in E. cbn [flat_map] in E. rewrite app_nil_r in E. destruct (pack_u _ 0 (expand_tok t) vs) as [b [e'|]]; [|discriminate]. now injection E as <-.
Qed.
(** the number in front of an array or string *)
Lemma num_err : forall hb bo c z r e, size_code c = true -> 0 <= z ->
  snd (pack_u (mode_of hb bo) 0 (expand_tok (T None c)) (VInt z :: r)) = Some e -> greatest c < z /\ e = StructError.
Proof.
  intros hb bo c z r e S Z0 P. set (m := mode_of hb bo) in *.
  assert (X : expand_tok (T None c) = [UAlign c; UVal c]) by (destruct c; try discriminate S; reflexivity).
  rewrite X in P. cbn [pack_u pack_unit] in P. destruct (pack_val m c (VInt z)) as [b|e'] eqn:V; cbn [rbind] in P; [discriminate|]. injection P as <-.
  assert (B : basic_code c = true) by (destruct c; try discriminate S; reflexivity).
  destruct (pack_val_why hb bo c (VInt z) e' B V) as [A ->]. split; [|destruct c; try discriminate S; reflexivity].
  destruct (Z.lt_ge_cases (greatest c) z) as [L|L]; [exact L|]. exfalso. destruct c; try discriminate S; cbn in A, L; 
    (destruct (z <=? _) eqn:Q in A; [|lia]); (destruct (0 <=? z) eqn:Q' in A; [|lia]); discriminate A.
Qed.

Section Exprs.
Variable hb : bool.
Variable ct : nat -> option cdef.
Variable allow : nat -> nat -> bool.
Variable rec : nat -> option border -> list (string * value) -> option bytes.
Variable wo : nat -> option border -> list (string * value) -> exn -> Prop.
Variable N : nat.
Hypothesis OB : forall n c ov d b, (S n <= N)%nat -> enc_obj_step ct (enc hb ct allow n) c ov d = Ok b -> rec c ov d = Some b.
Hypothesis OW : forall n c ov d e, (S n <= N)%nat -> enc_obj_step ct (enc hb ct allow n) c ov d = Err e -> hard e \/ wo c ov d e.
Variable o : pobj.
Notation shown := (shown hb ct allow rec N o).
Notation blamed := (blamed hb ct allow rec wo N o).
Notation why := (why hb rec wo o).
Notation penc := (penc hb ct allow).
Notation extra := (extra o).
Notation enc := (enc hb ct allow).

Lemma counted_nz : forall bo c n st, counted bo c n (SStruct st) -> n <> 0 /\ exists t, s_fmt st = [t] /\ s_bo st = bo /\ expand_tok t = expand_tok (T (Some (Z.to_nat n)) c).
Proof.
  intros bo c n st M. unfold counted in M. destruct (n =? 0) eqn:Z0; [discriminate|]. destruct M as (t & E & TC & CN & _). injection E as ->.
  split; [lia|]. exists t. split; [reflexivity|]. split; [reflexivity|]. apply (f_equal Z.to_nat) in CN. rewrite Nat2Z.id in CN.
  unfold expand_tok. cbn [t_code]. rewrite TC, CN. reflexivity.
Qed.
Lemma nvals1 : forall t, nvals [t] = nvals_u (expand_tok t).
Proof. intros t. unfold nvals, expand. cbn [flat_map]. now rewrite app_nil_r. Qed.
Lemma struct_takes : forall y b s, made b y (SStruct s) -> takes y = false -> vals y = 0%nat.
Proof.
  induction y using hx_ind'; intros b sr M T; try discriminate T; cbn [takes vals made] in *; try reflexivity.
  - destruct (n =? 0); [reflexivity|discriminate].
  - destruct a; try discriminate. destruct (z =? 0); [reflexivity|discriminate].
  - destruct M as (? & Q & _). discriminate Q.
Qed.
Lemma struct_blame : forall x bo st vs e, made bo x (SStruct st) -> est hb st vs = Err e ->
  why bo x (hd_error vs) e \/ (((if takes x then 1 else 0) < List.length vs)%nat /\ e = StructError /\ too_many o x StructError).
Proof.
  intros x bo st vs e M0 E0. enough (G : why bo x (hd_error vs) e \/ (((if takes x then 1 else 0) < List.length vs)%nat /\ e = StructError)).
  { destruct G as [G|[G1 G2]]; [now left|right]. split; [exact G1|]. split; [exact G2|]. eapply struct_many; eauto. }
  revert x bo st vs e M0 E0.
  induction x using hx_ind'; intros bo st vs e M E; cbn [made] in M; try contradiction; try (destruct M as (? & Q & _); discriminate Q).
  - destruct M as [A E1]. injection E1 as ->.
    assert (X : expand_tok (T None c) = [UAlign c; UVal c]) by (destruct c; try discriminate A; reflexivity).
    assert (NV : nvals [T None c] = 1%nat) by (rewrite nvals1, X; reflexivity).
    destruct (est_err hb (SS bo [T None c] None) (T None c) vs e eq_refl E) as [[L ->]|[L P]]; rewrite NV in L.
    + destruct vs as [|v [|w r]]; [left; reflexivity|exfalso; apply L; reflexivity|]. right. split; [cbn [takes List.length]; lia|reflexivity].
    + destruct vs as [|v [|w r]]; try discriminate. left. cbn [why hd_error]. rewrite X in P. cbn [pack_u pack_unit] in P.
      unfold ss_mode in P. cbn [s_bo] in P. destruct (pack_val _ c v) as [b|e'] eqn:V; cbn [rbind] in P; [discriminate|]. injection P as <-. now apply pack_val_why.
  - destruct (counted_nz _ _ _ _ M) as (NZ & t & F & BO & X). change (expand_tok (T (Some (Z.to_nat n)) Cx)) with (repeat UPad (Z.to_nat n)) in X.
    destruct (est_err hb _ _ vs e F E) as [[L ->]|[L P]]; rewrite nvals1, X, nvals_pads in L.
    + right. split; [|reflexivity]. cbn [takes]. lia.
    + unfold ss_mode in P. rewrite X, pads in P. discriminate.
  - destruct (counted_nz _ _ _ _ M) as (NZ & t & F & BO & X). change (expand_tok (T (Some (Z.to_nat n)) Cp)) with [UPas (Z.to_nat n)] in X.
    destruct (est_err hb _ _ vs e F E) as [[L ->]|[L P]]; rewrite nvals1, X in L; cbn in L.
    + destruct vs as [|v [|w r]]; [left; cbn; auto|exfalso; apply L; reflexivity|]. right. split; [cbn [takes List.length]; destruct (n =? 0); cbn; lia|reflexivity].
    + destruct vs as [|v [|w r]]; try discriminate. rewrite X in P. left. cbn [why hd_error]. split; [exact NZ|].
      destruct v; try discriminate P; injection P as <-; auto.
  - destruct a; try (destruct M as [_ [? Q]]; discriminate Q); try (destruct M as [? Q]; discriminate Q); cbn [char_made] in M.
    2:{ destruct b as [|? []]; try contradiction. destruct M as [? Q]; discriminate Q. }
    destruct (counted_nz _ _ _ _ M) as (NZ & t & F & BO & X). change (expand_tok (T (Some (Z.to_nat z)) Cs)) with [UStr (Z.to_nat z)] in X.
    destruct (est_err hb _ _ vs e F E) as [[L ->]|[L P]]; rewrite nvals1, X in L; cbn in L.
    + destruct vs as [|v [|w r]]; [left; cbn; auto|exfalso; apply L; reflexivity|]. right. split; [cbn [takes List.length]; destruct (z =? 0); cbn; lia|reflexivity].
    + destruct vs as [|v [|w r]]; try discriminate. rewrite X in P. left. cbn [why hd_error char_why]. split; [exact NZ|].
      destruct v; try discriminate P; injection P as <-; auto.
  - destruct M as (_ & i & _ & M). destruct (structy x && Nat.eqb (vals x) 1).
    + destruct M as (st' & _ & M). destruct n; [discriminate|]. destruct M; discriminate.
    + destruct M; discriminate.
  - destruct M as (? & ? & ? & ? & ? & Q & _). discriminate.
  - destruct M as (s1 & st' & Q & M & FM & BO & NV & W & _). injection Q as <-.
    destruct (made_field _ _ _ M) as (B & _). cbn [sbo] in B.
    assert (E' : est hb st' vs = Err e) by (unfold est, ss_mode in *; rewrite <- FM, B, <- BO; exact E).
    assert (V : vals x = 1%nat) by (rewrite <- (made_nv _ _ _ M); cbn [num_values]; unfold ss_nvals in *; now rewrite <- FM).
    assert (TK : takes x = true) by (destruct (takes x) eqn:TK; [reflexivity|]; rewrite (struct_takes x bo st' M TK) in V; discriminate).
    destruct (IHx bo st' vs e M E') as [H|[L T]]; [left; exact H|right]. rewrite TK in L. split; [exact L|exact T].
  - destruct M as (? & ? & ? & Q & _). discriminate.
  - destruct M as (? & ? & ? & ? & Q & _). discriminate.
  - destruct M; discriminate.
  - destruct M; discriminate.
Qed.

(** strings behind a length *)
Lemma dynchar_fails : forall bo c n mark raw e, size_code c = true -> 0 <= n -> 0 <= mark ->
  (rdo st <- dynchar_st (SS bo [T None c] None) n; est hb st [VInt mark; raw]) = Err e ->
  if n =? 0 then e = StructError
  else if negb (border_eqb bo BO_DEFAULT) then e = ValueError
  else (greatest c < mark \/ is_bytes raw = false) /\ e = StructError.
Proof.
  intros bo c n mark raw e S N0 M0 E. unfold dynchar_st in E. change single_char with (SS BO_DEFAULT [T None Cs] None) in E.
  assert (NC : nvals_u (expand_tok (T None c)) = 1%nat) by (destruct c; try discriminate S; reflexivity).
  destruct (n =? 0) eqn:NZ.
  { apply Z.eqb_eq in NZ as ->. cbn [ss_matmul] in E. assert (Q : ss_matmul (SS BO_DEFAULT [T None Cs] None) 0 = Ok None) by reflexivity. rewrite Q in E. cbn [rbind] in E.
    rewrite est_short in E; [now injection E|]. unfold ss_nvals. cbn [s_fmt]. rewrite nvals1, NC. discriminate. }
  assert (N1 : 1 <= n) by lia. destruct (matmul_char BO_DEFAULT Cs n N1) as (t & M & X & TC & CN). rewrite M in E. cbn [rbind] in E.
  unfold ss_add in E. cbn [s_act s_bo s_fmt] in E. destruct (border_eqb bo BO_DEFAULT) eqn:B; cbn [negb]; [|cbn in E; now injection E].
  assert (BO : bo = BO_DEFAULT) by (destruct bo; try discriminate; reflexivity). subst bo.
  assert (FO : fold_overlaps false [T None c] [t] = [T None c; t]).
  { unfold fold_overlaps. cbn [split_last]. rewrite TC. destruct c; try discriminate S; reflexivity. }
  rewrite FO in E. cbn [rbind] in E. 
  assert (XT : expand_tok t = [UStr (Z.to_nat n)]) by (unfold expand_tok; now rewrite TC, CN).
  assert (NV : nvals [T None c; t] = 2%nat) by (rewrite nvals_cons, nvals1, NC, XT; reflexivity).
  unfold est, st_pack, ss_mode in E. cbn [s_fmt s_bo] in E. rewrite NV in E. cbn [List.length Nat.eqb] in E.
  change (expand [T None c; t]) with (expand_tok (T None c) ++ expand_tok t ++ []) in E. rewrite pack_u_app, XT, NC in E. cbn [skipn app] in E.
  pose proof (num_err hb BO_DEFAULT c mark [raw]) as NE.
  destruct (pack_u (mode_of hb BO_DEFAULT) 0 (expand_tok (T None c)) [VInt mark; raw]) as [b [e1|]] eqn:P.
  - injection E as <-. destruct (NE e1 S M0 eq_refl) as [A ->]. auto.
  - split.
    + right. destruct raw; try reflexivity. cbn in E. discriminate.
    + destruct raw; cbn in E; try (now injection E). discriminate.
Qed.
Lemma char_blame : forall a bo n s vs e, char_made bo a s -> penc n s o vs = Err e ->
  hard e \/ char_why bo a (hd_error vs) e \/
  match a with KInt z => ((if (z =? 0)%Z then 0 else 1) < List.length vs)%nat /\ e = StructError | _ => False end.
Proof.
  intros a bo n s vs e M P. destruct n as [|n].
  { left. unfold Field.penc in P. destruct a; cbn [char_made] in M.
    - destruct M as [_ [id ->]]. cbn in P. left. now injection P.
    - unfold counted in M. destruct (z =? 0); [subst s|destruct M as (t & -> & _)]; cbn in P; left; now injection P.
    - destruct b as [|? []]; try contradiction. destruct M as [id ->]. cbn in P. left. now injection P.
    - destruct M as [id ->]. cbn in P. left. now injection P.
    - destruct M as [id ->]. cbn in P. left. now injection P. }
  right. destruct a; cbn [char_made] in M.
  - left. destruct M as [S [id ->]]. unfold Field.penc in P. cbn [resolve rbind Pure.enc enc_step] in P.
    destruct vs as [|raw r]; cbn [nth0 rbind hd_error char_why] in *; [now injection P|].
    destruct (py_len raw) as [k|e'] eqn:PL; cbn [rbind] in P; [|injection P as <-; destruct raw; try discriminate PL; now injection PL].
    pose proof (dynchar_fails bo c (Z.of_nat k) (Z.of_nat k) raw e S ltac:(lia) ltac:(lia) P) as H.
    replace (Nat.eqb k 0) with (Z.of_nat k =? 0) by (destruct k; reflexivity). exact H.
  - unfold counted in M. destruct (z =? 0) eqn:Z0.
    + subst s. cbn in P. discriminate.
    + assert (C : made bo (XChar (KInt z)) s) by (cbn [made char_made]; unfold counted; now rewrite Z0). destruct M as (t & -> & _).
      unfold Field.penc in P. cbn [resolve rbind Pure.enc enc_step] in P. destruct (struct_blame _ _ _ _ _ C P) as [H|(L & H & _)]; [now left|right].
      cbn [takes] in L. rewrite Z0 in L. split; [exact L|exact H].
  - left. destruct b as [|t []]; try contradiction. destruct M as [id ->]. unfold Field.penc in P. cbn [resolve rbind Pure.enc enc_step] in P.
    destruct vs as [|raw r]; cbn [nth0 rbind hd_error char_why] in *; [now injection P|].
    destruct raw; cbn [as_bytes rbind is_bytes] in *; try (injection P as <-; split; reflexivity). exfalso.
    change single_char with (SS BO_DEFAULT [T None Cs] None) in P.
    assert (N1 : 1 <= blen (b ++ [t])) by (rewrite blen_app; pose proof (blen_nonneg b); cbn; lia).
    destruct (matmul_char BO_DEFAULT Cs _ N1) as (tt & MM & X & TC & CN). rewrite MM in P. cbn [rbind eost] in P.
    unfold est, st_pack, nvals in P. cbn [s_fmt] in P. rewrite X in P.
    change (expand [T (Some (Z.to_nat (blen (b ++ [t])))) Cs]) with [UStr (Z.to_nat (blen (b ++ [t])))] in P. cbn in P. discriminate.
  - left. destruct M as [id ->]. unfold Field.penc in P. cbn [resolve rbind Pure.enc enc_step] in P.
    destruct vs as [|raw r]; cbn [nth0 rbind hd_error char_why] in *; [now injection P|].
    destruct raw; cbn [as_bytes is_bytes] in *; try (injection P as <-; split; reflexivity). discriminate.
  - left. destruct M as [id ->]. unfold Field.penc in P. cbn [resolve rbind Pure.enc enc_step] in P.
    destruct vs as [|raw r]; cbn [nth0 rbind hd_error char_why] in *; [now injection P|].
    destruct (py_len raw) as [k|e'] eqn:PL; cbn [rbind] in P; [|injection P as <-; destruct raw; try discriminate PL; now injection PL].
    replace (Nat.eqb k 0) with (Z.of_nat k =? 0) by (destruct k; reflexivity). unfold net_st in P.
    destruct (Z.of_nat k <? 128) eqn:Q.
    + pose proof (dynchar_fails BO_DEFAULT CB (Z.of_nat k) (Z.of_nat k) raw e eq_refl ltac:(lia) ltac:(lia)) as H. 
      destruct (dynchar_st net_short (Z.of_nat k)) as [st|e1] eqn:D; cbn [rbind] in P; unfold net_short in D; rewrite D in H; specialize (H P);
        (destruct (Z.of_nat k =? 0); [exact H|]); cbn [negb border_eqb] in H; (destruct (32767 <? Z.of_nat k) eqn:Q2; [lia|]);
        destruct H as [[H|H] ->]; auto; cbn [greatest] in H; lia.
    + assert (K0 : (Z.of_nat k =? 0) = false) by lia. rewrite K0. destruct (32767 <? Z.of_nat k) eqn:Q2; [cbn in P; now injection P|].
      assert (MK : 0 <= net_mark (Z.of_nat k) <= 65535) by (pose proof (net_mark_ok (Z.of_nat k) ltac:(lia)); lia).
      pose proof (dynchar_fails BO_DEFAULT CH (Z.of_nat k) (net_mark (Z.of_nat k)) raw e eq_refl ltac:(lia) ltac:(lia)) as H. rewrite K0 in H.
      destruct (dynchar_st net_long (Z.of_nat k)) as [st|e1] eqn:D; cbn [rbind] in P; unfold net_long in D; rewrite D in H; specialize (H P);
        cbn [negb border_eqb] in H; destruct H as [[H|H] ->]; auto; cbn [greatest] in H; lia.
Qed.
(** arrays of scalars and strings of a fixed size *)
Notation iw x bo := (items_why (fun i => chunks hb rec o (mode_of hb bo) x (Some i)) (fun i e => why bo x (Some i) e \/ surplus o x (Some i) e)).
Lemma toks_blame : forall x bo st t, made bo x (SStruct st) -> s_fmt st = [t] -> nvals_u (expand_tok t) = 1%nat -> s_bo st = bo -> forall items off e,
  snd (pack_u (mode_of hb bo) off (expand (repeat_fmt [t] (List.length items))) items) = Some e -> iw x bo items e.
Proof.
  intros x bo st t M FM NV BO. induction items as [|v items IH]; intros off e H; [discriminate|].
  unfold repeat_fmt in *. cbn [List.length repeat List.concat app] in H.
  change (expand (t :: ?f)) with (expand_tok t ++ expand f) in H. rewrite pack_u_app, NV in H. cbn [skipn] in H.
  assert (PX : pack_u (mode_of hb bo) off (expand_tok t) (v :: items) = pack_u (mode_of hb bo) off (expand_tok t) [v]).
  { change (v :: items) with ([v] ++ items). apply (pack_u_prefix false BO_LE eq_refl). now rewrite NV. }
  rewrite PX in H. cbn [items_why]. 
  assert (NV1 : nvals [t] = 1%nat) by (now rewrite nvals1).
  assert (ES : est hb st [v] = match pack_u (mode_of hb bo) 0 (expand_tok t) [v] with (b, None) => Ok b | (_, Some e) => Err e end).
  { unfold est, st_pack, ss_mode. rewrite FM, BO, NV1. cbn [List.length Nat.eqb]. unfold expand. cbn [flat_map]. now rewrite app_nil_r. }
  destruct (pack_u (mode_of hb bo) off (expand_tok t) [v]) as [b [e1|]] eqn:P.
  - cbn [snd] in H. injection H as ->. left. pose proof (pack_err_off (mode_of hb bo) (expand_tok t) off 0 [v]) as Q. rewrite P in Q. cbn [snd] in Q.
    assert (E1 : est hb st [v] = Err e) by (rewrite ES; destruct (pack_u _ 0 (expand_tok t) [v]) as [b' [e2|]]; [now injection Q as ->|discriminate]).
    destruct (struct_blame x bo st [v] e M E1) as [W|[L _]]; [now left|]. exfalso.
    destruct (takes x) eqn:TK; [cbn in L; lia|]. pose proof (struct_takes x bo st M TK) as V. pose proof (made_nv _ _ _ M) as NQ.
    cbn [num_values] in NQ. unfold ss_nvals in NQ. rewrite FM, NV1 in NQ. congruence.
  - destruct (pack_u (mode_of hb bo) (off + List.length b) _ items) as [y e2] eqn:P2. cbn [snd] in H. subst e2. right. split; [|eapply IH; rewrite P2; reflexivity].
    destruct (pack_tok _ _ _ _ _ P) as (b0 & P0 & _).
    assert (F : fout hb ct allow bo 0 o (SStruct st) [v] [Atom (csize true (t_code t)) b0]).
    { cbn [fout]. unfold ss_nvals. rewrite FM. split; [now rewrite NV1|]. cbn [tchunks]. unfold tchunk. now rewrite P0. }
    rewrite (struct_chunks hb ct allow rec N OB o x bo st [v] _ 0 M F : chunks hb rec o (mode_of hb bo) x (Some v) = _). discriminate.
Qed.
Lemma mul_some : forall st t k, s_fmt st = [t] -> exists st', ss_mul st (Z.of_nat (S k)) = Ok (Some st') /\ s_bo st' = s_bo st /\
  layout_eq (expand (s_fmt st')) (expand (repeat_fmt [t] (S k))).
Proof.
  intros [bo f act] t k F. cbn [s_fmt s_bo] in *. subst f.
  assert (H : exists st', ss_mul (SS bo [t] act) (Z.of_nat (S k)) = Ok (Some st')).
  { destruct act as [acts|].
    - destruct (mul_action_layout bo [t] acts (Z.of_nat (S k)) eq_refl ltac:(lia)) as (g & E' & _). eauto.
    - destruct (mul_layout bo [t] (Z.of_nat (S k)) eq_refl ltac:(lia)) as (g & E' & _). eauto. }
  destruct H as [st' E]. exists st'. split; [exact E|]. destruct (mul_inv (SS bo [t] act) (Z.of_nat (S k)) st' ltac:(lia) eq_refl E) as [A B].
  split; [exact A|]. rewrite Nat2Z.id in B. exact B.
Qed.
Lemma rep_nvals : forall t k, nvals_u (expand_tok t) = 1%nat -> nvals (repeat_fmt [t] k) = k.
Proof. intros t k NV. rewrite nvals_repeat, nvals1, NV. lia. Qed.
Lemma static_blame : forall x bo st t items e, made bo x (SStruct st) -> s_fmt st = [t] -> nvals_u (expand_tok t) = 1%nat -> s_bo st = bo ->
  (rdo oo <- ss_mul st (Z.of_nat (List.length items)); eost hb oo items) = Err e -> iw x bo items e.
Proof.
  intros x bo st t items e M FM NV BO E. destruct items as [|v items]; [cbn in E; discriminate|].
  destruct (mul_some st t (List.length items) FM) as (st' & MU & SB & LY). cbn [List.length] in E. rewrite MU in E. cbn [rbind eost] in E.
  unfold est, ss_mode in E. rewrite SB, BO in E. destruct (layout_st _ _ LY) as [_ H]. destruct (H (mode_of hb bo)) as (_ & P & _). rewrite P in E. clear H P.
  unfold st_pack in E. rewrite rep_nvals in E by exact NV. cbn [List.length] in E. rewrite Nat.eqb_refl in E.
  destruct (pack_u _ 0 _ (v :: items)) as [b [e1|]] eqn:Q; [|discriminate]. injection E as ->.
  eapply toks_blame; eauto. cbn [List.length]. rewrite Q. reflexivity.
Qed.
Lemma dynarr_ok : forall bo c st t k, size_code c = true -> s_fmt st = [t] -> s_bo st = bo ->
  exists st', dynarr_st (SS bo [T None c] None) st (Z.of_nat k) = Ok st' /\ s_bo st' = bo /\
    layout_eq (expand (s_fmt st')) (expand (T None c :: repeat_fmt [t] k)).
Proof.
  intros bo c st t k S FM BO. unfold dynarr_st. destruct k as [|k].
  - eexists. split; [reflexivity|]. split; [reflexivity|apply layout_eq_refl].
  - destruct (Z.of_nat (Datatypes.S k) =? 0) eqn:K0; [discriminate K0|]. destruct (mul_some st t k FM) as (s1 & MU & SB & LY). rewrite MU. cbn [rbind].
    assert (FO : foldable [T None c] (s_fmt s1) = true).
    { destruct st as [bo' f act]. cbn [s_fmt] in FM. subst f. destruct (mul_shape bo' t act (Z.of_nat (Datatypes.S k)) s1 ltac:(lia) MU) as (SF & SS1).
      unfold foldable. cbn [split_last]. destruct (s_fmt s1) as [|t1 [|t2 r]]; try reflexivity.
      destruct (str_code (t_code t)) eqn:SC; [|destruct (SS1 eq_refl); discriminate].
      inversion SF as [|? ? S1 _]; subst. rewrite S1. cbn [t_code].
      destruct c; try discriminate S; destruct (t_code t); try discriminate SC; reflexivity. }
    assert (ST : exists st', ss_add (SS bo [T None c] None) s1 = Ok st' /\ s_bo st' = bo /\ s_fmt st' = fold_overlaps false [T None c] (s_fmt s1)).
    { unfold ss_add. cbn [s_act s_bo s_fmt]. destruct (s_act s1); [eexists; split; [reflexivity|auto]|].
      rewrite SB, BO. assert (EQ : border_eqb bo bo = true) by (destruct bo; reflexivity). rewrite EQ. eexists. split; [reflexivity|auto]. }
    destruct ST as (st' & E & B & F). exists st'. split; [exact E|]. split; [exact B|]. rewrite F.
    eapply layout_eq_trans; [apply fold_layout; exact FO|].
    change (T None c :: repeat_fmt [t] (Datatypes.S k)) with ([T None c] ++ repeat_fmt [t] (Datatypes.S k)).
    rewrite !expand_app. apply layout_eq_app_l. exact LY.
Qed.
Lemma dyn_blame : forall x bo c st t items e, size_code c = true -> made bo x (SStruct st) -> s_fmt st = [t] -> nvals_u (expand_tok t) = 1%nat -> s_bo st = bo ->
  (rdo st' <- dynarr_st (SS bo [T None c] None) st (Z.of_nat (List.length items)); est hb st' (VInt (Z.of_nat (ss_nvals st') - 1) :: items)) = Err e ->
  (greatest c < Z.of_nat (List.length items) /\ e = StructError) \/ iw x bo items e.
Proof.
  intros x bo c st t items e S M FM NV BO E. destruct (dynarr_ok bo c st t (List.length items) S FM BO) as (st' & D & SB & LY). rewrite D in E. cbn [rbind] in E.
  assert (NC : nvals_u (expand_tok (T None c)) = 1%nat) by (destruct c; try discriminate S; reflexivity).
  assert (NF : nvals (T None c :: repeat_fmt [t] (List.length items)) = Datatypes.S (List.length items)) by (rewrite nvals_cons, NC, rep_nvals by exact NV; lia).
  assert (NS : ss_nvals st' = Datatypes.S (List.length items)) by (unfold ss_nvals, nvals; rewrite (proj1 LY); exact NF).
  rewrite NS in E. replace (Z.of_nat (Datatypes.S (List.length items)) - 1) with (Z.of_nat (List.length items)) in E by lia.
  unfold est, ss_mode in E. rewrite SB in E. destruct (layout_st _ _ LY) as [_ H]. destruct (H (mode_of hb bo)) as (_ & P & _). rewrite P in E. clear H P.
  unfold st_pack in E. rewrite NF in E. cbn [List.length] in E. rewrite Nat.eqb_refl in E.
  change (expand (T None c :: ?f)) with (expand_tok (T None c) ++ expand f) in E. rewrite pack_u_app, NC in E. cbn [skipn] in E.
  pose proof (num_err hb bo c (Z.of_nat (List.length items)) items) as NE.
  destruct (pack_u _ 0 (expand_tok (T None c)) _) as [b [e1|]].
  - injection E as ->. left. apply NE; [exact S|lia|reflexivity].
  - right. destruct (pack_u _ _ _ items) as [y [e2|]] eqn:Q; [|discriminate]. injection E as ->. eapply toks_blame; eauto. rewrite Q. reflexivity.
Qed.
Lemma number_size : forall bo c z e, size_code c = true -> 0 <= z -> est hb (SS bo [T None c] None) [VInt z] = Err e -> greatest c < z /\ e = StructError.
Proof.
  intros bo c z e S Z0 E. destruct (est_err hb (SS bo [T None c] None) (T None c) [VInt z] e eq_refl E) as [[L _]|[_ P]].
  - exfalso. apply L. destruct c; try discriminate S; reflexivity.
  - eapply num_err; eauto.
Qed.
Lemma header_blame : forall bo n sz count size e, head_ok n sz = true -> 0 <= count -> 0 <= size ->
  (rdo hv <- header_pack_values (head_made bo n sz) (match n with inl z => z | inr _ => -1 end) count size; eost hb (head_made bo n sz) hv) = Err e ->
  match n with inl z => count <> z /\ e = ValueError | inr c => greatest c < count /\ e = StructError end \/
  match sz with None => False | Some c => e = StructError /\ greatest c < size end.
Proof.
  intros bo n sz count size e HO C0 S0 E. unfold head_ok in HO. apply andb_prop in HO as [HN HS].
  assert (O1 : forall c, size_code c = true -> nvals [T None c] = 1%nat) by (intros c Q; destruct c; try discriminate Q; reflexivity).
  unfold header_pack_values in E. destruct n as [z|c]; cbn [head_made] in *.
  - rewrite HN in E. destruct (count =? z) eqn:Q; cbn [negb] in E; [|left; cbn in E; injection E as <-; split; [lia|reflexivity]].
    destruct sz as [d|].
    + cbn [onvals] in E. unfold ss_nvals in E. cbn [s_fmt] in E. rewrite (O1 d HS) in E. cbn [Nat.eqb rbind eost] in E.
      right. destruct (number_size bo d _ _ HS S0 E) as [A B]. auto.
    + cbn in E. discriminate.
  - change (0 <=? -1) with false in E. cbv beta iota in E. destruct sz as [d|].
    + assert (LY : layout_eq (expand (fold_overlaps false [T None c] [T None d])) (expand [T None c; T None d])) by (apply (fold_layout [T None c] [T None d]); reflexivity).
      assert (NV2 : nvals [T None c; T None d] = 2%nat) by (destruct c, d; try discriminate HN; try discriminate HS; reflexivity).
      assert (NV : nvals (fold_overlaps false [T None c] [T None d]) = 2%nat) by (unfold nvals; rewrite (proj1 LY); exact NV2).
      cbn [onvals] in E. unfold ss_nvals in E. cbn [s_fmt] in E. rewrite NV in E. cbn [Nat.eqb rbind eost] in E.
      unfold est, ss_mode in E. cbn [s_fmt s_bo] in E. destruct (layout_st _ _ LY) as [_ H]. destruct (H (mode_of hb bo)) as (_ & P & _). rewrite P in E. clear H P.
      unfold st_pack in E. rewrite NV2 in E. cbn [List.length Nat.eqb] in E.
      assert (NC : nvals_u (expand_tok (T None c)) = 1%nat) by (destruct c; try discriminate HN; reflexivity).
      change (expand [T None c; T None d]) with (expand_tok (T None c) ++ expand_tok (T None d) ++ []) in E. rewrite app_nil_r, pack_u_app, NC in E. cbn [skipn] in E.
      pose proof (num_err hb bo c count [VInt size]) as NE. pose proof (num_err hb bo d size []) as ND.
      destruct (pack_u _ 0 (expand_tok (T None c)) _) as [b [e1|]].
      * injection E as ->. left. apply NE; auto.
      * right. rewrite (surjective_pairing (pack_u _ (0 + List.length b) _ _)) in E.
        rewrite (pack_err_off _ _ (0 + List.length b)%nat 0%nat) in E.
        destruct (snd (pack_u _ 0 (expand_tok (T None d)) _)) as [e2|]; [|discriminate]. injection E as ->.
        destruct (ND e HS S0 eq_refl). auto.
    + cbn [onvals] in E. unfold ss_nvals in E. cbn [s_fmt] in E. rewrite (O1 c HN) in E. cbn [Nat.eqb rbind eost] in E.
      left. exact (number_size bo c _ _ HN C0 E).
Qed.
Lemma enc_items_blame : forall bo n x i, (n <= N)%nat -> made bo x i -> regular x = true -> shown x -> blamed x -> forall items e i',
  resolve true i o = Ok i' -> enc_items (enc n) i' o items = Err e -> hard e \/ iw x bo items e.
Proof.
  intros bo n x i LE M R SH BL items. induction items as [|v items IH]; intros e i' RS E; [discriminate|].
  cbn [enc_items items_why] in *. destruct (enc n i' o [v]) as [b|e1] eqn:E1; cbn [rbind] in E.
  - destruct (enc_items _ i' o items) as [b'|e2] eqn:E2; cbn [rbind] in E; [discriminate|]. injection E as ->.
    destruct (IH e i' RS E2) as [H|H]; [now left|]. right. right. split; [|exact H].
    assert (P : penc n i o [v] = Ok b) by (unfold Field.penc; now rewrite RS).
    destruct (made_field _ _ _ M) as (SB & _). destruct (penc_fout hb ct allow bo n o i [v] b SB P) as (ch & F & L).
    rewrite (SH n bo i [v] ch LE M R F : chunks hb rec o (mode_of hb bo) x (Some v) = _). discriminate.
  - injection E as ->. assert (P : penc n i o [v] = Err e) by (unfold Field.penc; now rewrite RS).
    destruct (BL n bo i [v] e LE M R P) as [H|[H|[L H]]]; [now left|right; left; now left|].
    right. left. right. unfold surplus. destruct (takes x); [cbn in L; lia|]. split; [reflexivity|]. split; [discriminate|].
    exact H.
Qed.
Lemma resolve_cond : forall x bo i e, made bo x i -> resolve true i o = Err e -> match x with XCond _ f _ => cond_why o f e | _ => False end.
Proof.
  intros x bo i e M R. destruct i; cbn [resolve rbind] in R; try discriminate R.
  - destruct x; cbn [made] in M; try contradiction.
    all: try (unfold counted in M; destruct (_ =? 0); [discriminate M|destruct M as (? & Q & _); discriminate Q]).
    + destruct M; discriminate.
    + destruct a; cbn [char_made] in M; try (destruct M as [_ [? Q]]; discriminate Q); try (destruct M as [? Q]; discriminate Q).
      * unfold counted in M; destruct (_ =? 0); [discriminate M|destruct M as (? & Q & _); discriminate Q].
      * destruct b as [|? []]; try contradiction. destruct M as [? Q]; discriminate Q.
    + destruct M as (? & Q & _); discriminate Q.
    + destruct M as (_ & j & _ & M). destruct (structy x && Nat.eqb (vals x) 1).
      * destruct M as (st & _ & M). destruct n; [discriminate|]. destruct M; discriminate.
      * destruct M; discriminate.
    + destruct M as (? & ? & ? & ? & ? & Q & _). discriminate.
    + destruct M as (j & Q & _). injection Q as -> _ _. unfold cond_why. match type of R with context [rbind (?g o) _] => destruct (g o) as [r|e'] end; cbn [rbind] in R; [|now injection R].
      unfold cond_branch in R. destruct (key_eqb r (VBool true)); [discriminate|]. destruct (key_eqb r (VBool false)); [discriminate|].
      split; [reflexivity|]. split; [reflexivity|]. destruct (hashable r); now injection R.
    + destruct M as (? & ? & Q & _). discriminate.
    + destruct M as (? & ? & ? & Q & _). discriminate.
    + destruct M as (? & ? & ? & ? & Q & _). discriminate.
    + destruct M; discriminate.
    + destruct M; discriminate.
Qed.
Lemma array_blame : forall n sz x, shown x -> blamed x -> blamed (XArray n sz x).
Proof.
  intros n sz x SH BL k bo s vs e LE M R P. cbn [made regular] in *. destruct M as (HO & i & MI & M). cbn [WhySpec.why].
  destruct k as [|k].
  { left. left. unfold Field.penc in P. destruct (structy x && Nat.eqb (vals x) 1).
    - destruct M as (st & _ & M). destruct n; [subst s|destruct M as [id ->]]; cbn in P; now injection P.
    - destruct M as [id ->]. cbn in P. now injection P. }
  destruct (structy x && Nat.eqb (vals x) 1) eqn:PK.
  - pose proof PK as PK'. rewrite <- packed_eq in PK'. apply andb_prop in PK as [SY VX]. apply Nat.eqb_eq in VX. destruct M as (st & -> & M).
    destruct (single_tok x bo st MI VX) as (t & FM & NV & BO). right. left.
    pose proof HO as HO'. unfold head_ok in HO'. apply andb_prop in HO' as [HN HS]. destruct n as [z|c].
    + subst s. unfold Field.penc in P. cbn [resolve rbind Pure.enc enc_step] in P. destruct vs as [|v r]; cbn [nth0 rbind hd_error] in *; [right; now injection P|].
      right. destruct (py_iter v) as [items|e'] eqn:IT.
      2:{ destruct v; try discriminate IT; cbn in P; now injection P. }
      rewrite (py_len_iter _ _ IT) in P. cbn [rbind] in P. destruct (Nat.eqb (List.length items) (Z.to_nat z)) eqn:LN; cbn [negb] in P.
      * apply Nat.eqb_eq in LN. rewrite <- LN in P. left. eapply static_blame; eauto.
      * right. left. injection P as <-. split; [|reflexivity]. intros Q. subst z. rewrite Nat2Z.id, Nat.eqb_refl in LN. discriminate.
    + destruct M as [id ->]. unfold Field.penc in P. cbn [resolve rbind Pure.enc enc_step] in P. destruct vs as [|v r]; cbn [nth0 rbind hd_error] in *; [right; now injection P|].
      right. destruct (py_iter v) as [items|e'] eqn:IT.
      2:{ destruct v; try discriminate IT; cbn in P; now injection P. }
      rewrite (py_len_iter _ _ IT) in P. cbn [rbind] in P. destruct (dyn_blame x bo c st t items e HN MI FM NV BO P) as [H|H]; auto.
  - destruct M as [id ->]. unfold Field.penc in P. cbn [resolve rbind Pure.enc enc_step] in P.
    destruct (resolve true i o) as [i'|e1] eqn:RS; cbn [rbind] in P.
    2:{ right. left. left. injection P as ->. exact (resolve_cond x bo i e MI RS). }
    destruct vs as [|v r]; cbn [nth0 rbind hd_error] in *; [right; left; right; now injection P|].
    destruct (py_iter v) as [items|e'] eqn:IT; cbn [rbind] in P.
    2:{ right; left; right. destruct v; try discriminate IT; injection IT as <-; now injection P. }
    destruct (enc_items (enc k) i' o items) as [bs|e1] eqn:EI; cbn [rbind] in P.
    2:{ injection P as ->. destruct (enc_items_blame bo k x i ltac:(lia) MI R SH BL items e i' RS EI) as [H|H]; [now left|]. right. left. right. now left. }
    rewrite (py_len_iter _ _ IT) in P. cbn [rbind] in P. right. left. right. right.
    assert (P' : (rdo hv <- header_pack_values (head_made bo n sz) (match n with inl z => z | inr _ => -1 end) (Z.of_nat (List.length items)) (blen bs); eost hb (head_made bo n sz) hv) = Err e).
    { destruct (header_pack_values _ _ _ _) as [hv|]; cbn [rbind] in *; [|exact P]. destruct (eost hb _ hv); cbn [rbind] in *; [discriminate|exact P]. }
    destruct (header_blame bo n sz (Z.of_nat (List.length items)) (blen bs) e HO ltac:(lia) (blen_nonneg bs) P') as [H|H]; [now left|right].
    destruct sz as [d|]; [|exact H]. destruct H as [-> H]. split; [now rewrite packed_eq|]. split; [reflexivity|].
    destruct (items_shown hb ct allow rec N o bo k x i ltac:(lia) MI R SH items bs i' RS EI) as (ls & A & <-). exists ls. auto.
Qed.
Lemma enc_penc_err : forall n s vs e, is_compound s = false -> enc n s o vs = Err e ->
  penc n s o vs = Err e \/ hard e \/ (e = NotImplementedError /\ match s with SCond _ _ _ | SSelf _ => True | _ => False end).
Proof.
  intros n s vs e C E. unfold Field.penc. destruct n as [|n]; [right; left; left; cbn in E; now injection E|].
  destruct s; try discriminate C; cbn [resolve rbind]; try (left; exact E); right; right; cbn in E; injection E as <-; auto.
Qed.
Lemma unicode_blame : forall a cd, blamed (XUnicode a cd).
Proof.
  intros a cd n bo s vs e LE M R P. cbn [made] in M. destruct M as (i & -> & M).
  unfold Field.penc in P. cbn [resolve rbind] in P. destruct n as [|n]; [left; left; cbn in P; now injection P|]. cbn [Pure.enc enc_step] in P.
  cbn [WhySpec.why]. destruct vs as [|v r]; cbn [nth0 rbind hd_error] in *; [right; left; now injection P|].
  destruct v; try (right; left; now injection P). destruct (cod_enc cd s) as [y|e'] eqn:CE; cbn [rbind] in P; [|right; left; now injection P].
  destruct n as [|n]; [left; left; cbn in P; now injection P|].
  destruct (made_field (XChar a) BO_DEFAULT i M) as (_ & _ & NC & _).
  destruct (enc_penc_err (S n) i [VBytes y] e NC P) as [Q|[H|[-> H]]]; [|now left|].
  - destruct (char_blame a BO_DEFAULT (S n) i [VBytes y] e M Q) as [H|[H|H]]; [now left|right; left; exact H|].
    exfalso. destruct a; try contradiction. cbn [List.length] in H. destruct H as [L _]. destruct (z =? 0) eqn:Z0; [|lia].
    cbn [char_made] in M. unfold counted in M. rewrite Z0 in M. subst i. cbn in P. discriminate.
  - exfalso. destruct a; cbn [char_made] in M.
    + destruct M as [_ [id ->]]. exact H.
    + unfold counted in M. destruct (z =? 0); [now subst i|]. destruct M as (t & -> & _). exact H.
    + destruct b as [|? []]; try contradiction. destruct M as [id ->]. exact H.
    + destruct M as [id ->]. exact H.
    + destruct M as [id ->]. exact H.
Qed.
Lemma tuple_blame : forall l, Forall shown l -> Forall blamed l -> blamed (XTuple l).
Proof.
  intros l SH BL n bo s vs e LE M R P. cbn [made regular] in *. destruct M as (fin & id & id' & sers & i & -> & SM & A2).
  unfold Field.penc in P. cbn [resolve rbind] in P. destruct n as [|n]; [left; left; cbn in P; now injection P|].
  cbn [Pure.enc enc_step WhySpec.why] in *. destruct vs as [|v [|w r]]; cbn [one rbind hd_error] in *; [right; left; now injection P| |].
  2:{ right. right. split; [cbn; lia|]. now injection P. }
  assert (FO : Forall (field_ok BO_DEFAULT) sers) by (eapply all2_field; eauto).
  destruct (ssum_rel fin id' sers i) as (FL & RL & AT & _); auto.
  { eapply Forall_impl; [|exact FO]. intros ? (_ & _ & Q & _). exact Q. }
  { apply forallb_forall. rewrite Forall_forall in FO. intros y I. destruct (FO y I) as (_ & _ & _ & Q & _). exact Q. }
  { eapply fields_lossless; eauto. }
  assert (BG : big i) by (eapply ssum_big; [|exact SM]; eapply Forall_impl; [|exact FO]; intros ? (_ & _ & Q & _); exact Q).
  assert (P' : forall items, py_iter v = Ok items -> penc n i o items = Err e).
  { intros items IT. unfold Field.penc. destruct (resolve true i o); cbn [rbind] in *; [now rewrite IT in P|exact P]. }
  destruct (py_iter v) as [items|e'] eqn:IT.
  - destruct (sum_blame hb ct allow rec wo N o BO_DEFAULT n l sers i items e ltac:(lia) A2 SH BL R FL RL BG (P' items eq_refl)) as [H|[H|H]]; [now left| |];
      right; left; [left; exact H|right; exact H].
  - destruct (resolve true i o) as [i'|e1] eqn:RS; cbn [rbind] in P.
    + right. left. left. injection P as <-. destruct v; try discriminate IT; now injection IT.
    + injection P as ->. right. left. right.
      assert (Q : i <> SNull /\ is_struct i = false /\ parts i = [i]) by (destruct i; cbn in RS; try discriminate RS; repeat split; try discriminate; destruct (existsb _ _); discriminate RS).
      destruct Q as (Q1 & Q2 & Q3). rewrite Q3 in RL. pose proof (rel_single i (runs sers) Q2 RL) as RR. destruct (runs_single sers i Q2 Q1 RR) as [_ F].
      assert (IN : In i sers) by (apply (filter_In real i sers); rewrite F; now left).
      assert (G : exists x, In x l /\ made BO_DEFAULT x i).
      { clear - A2 IN. revert sers A2 IN. induction l as [|x l IH]; intros [|s sers] A2 IN; try contradiction. destruct A2 as [A1 A2].
        destruct IN as [->|IN]; [exists x; split; [now left|exact A1]|]. destruct (IH sers A2 IN) as (y & I & Y). exists y. split; [now right|exact Y]. }
      destruct G as (x & I & X). pose proof (resolve_cond x BO_DEFAULT i e X RS) as W. destruct x; try contradiction. eauto.
Qed.
Lemma structured_kind : forall x bo i, made bo x i -> match i with SCond _ _ _ | SSelf _ => True | _ => False end ->
  match x with XCond _ _ _ | XSelf => True | _ => False end.
Proof.
  assert (C : forall bo c n i, counted bo c n i -> match i with SCond _ _ _ | SSelf _ => True | _ => False end -> False).
  { intros bo c n i M H. unfold counted in M. destruct (n =? 0); [now subst i|]. destruct M as (t & -> & _). exact H. }
  intros x bo i M H. destruct x; cbn [made] in M; try exact I; eauto.
  - destruct M as [_ ->]. exact H.
  - destruct a; cbn [char_made] in M; eauto.
    + destruct M as [_ [id ->]]. exact H.
    + destruct b as [|? []]; try contradiction. destruct M as [id ->]. exact H.
    + destruct M as [id ->]. exact H.
    + destruct M as [id ->]. exact H.
  - destruct M as (j & -> & _). exact H.
  - destruct M as (_ & j & _ & M). destruct (structy x && Nat.eqb (vals x) 1).
    + destruct M as (st & _ & M). destruct n; [subst i|destruct M as [id ->]]; exact H.
    + destruct M as [id ->]. exact H.
  - destruct M as (? & ? & ? & ? & ? & -> & _). exact H.
  - destruct M as (? & ? & -> & _). exact H.
  - destruct M as (? & ? & ? & -> & _). exact H.
  - destruct M as (? & ? & ? & ? & -> & _). exact H.
  - destruct M as [id ->]. exact H.
Qed.
Lemma cond_blame : forall x f d, blamed x -> blamed (XCond x f d).
Proof.
  intros x f d BL n bo s vs e LE M R P. cbn [made regular] in *. apply andb_prop in R as [R _]. destruct M as (i & -> & M & LD).
  cbn [WhySpec.why]. destruct (resolve true (SCond f i d) o) as [s'|e1] eqn:RS.
  2:{ right. left. left. unfold Field.penc in P. rewrite RS in P. injection P as ->.
      exact (resolve_cond (XCond x f d) bo (SCond f i d) e (ex_intro _ i (conj eq_refl (conj M LD))) RS). }
  unfold Field.penc in P. rewrite RS in P. cbn [rbind resolve] in *. destruct (f o) as [r|] eqn:FOR; [|discriminate]. cbn [rbind] in RS. unfold cond_branch in RS.
  destruct (key_eqb r (VBool true)) eqn:KT.
  - injection RS as <-. destruct (made_field _ _ _ M) as (_ & _ & NC & _). destruct (enc_penc_err n i vs e NC P) as [Q|[H|[-> H]]]; [|now left|].
    + destruct (BL n bo i vs e LE M R Q) as [H|[H|[L H]]]; [now left|right; left; right; split; [reflexivity|now left]|]. right. right. split; [exact L|]. cbn [too_many]. rewrite FOR. split; [exact KT|exact H].
    + right. left. right. split; [reflexivity|]. right. split; [reflexivity|]. exact (structured_kind x bo i M H).
  - destruct (key_eqb r (VBool false)); [|destruct (hashable r); discriminate RS]. injection RS as <-.
    destruct n; cbn in P; [|discriminate]. left. left. now injection P.
Qed.
Lemma pick_blame : forall k m d ms ds n vs e,
  all2 (fun p q => fst p = fst q /\ made BO_DEFAULT (snd p) (snd q)) m ms ->
  match d, ds with None, None => True | Some y, Some t => made BO_DEFAULT y t | _, _ => False end ->
  Forall (fun p => blamed (snd p)) m -> (forall y, d = Some y -> blamed y) ->
  forallb (fun p => regular (snd p)) m = true -> match d with Some y => regular y | None => true end = true -> (n <= N)%nat ->
  (rdo s0 <- choose ms ds k; rdo s' <- resolve true s0 o; enc n s' o vs) = Err e ->
  hard e \/ (if hashable k then pick_why (fun y => why BO_DEFAULT y (hd_error vs) e \/ surplus o y (hd_error vs) e) d (e = ValueError) k m else e = TypeError) \/
  ((1 < List.length vs)%nat /\ pick_why (fun y => too_many o y e) d False k m).
Proof.
  intros k m d ms ds n vs e A2 DD SM SD RM RD LE C. unfold choose in C. destruct (hashable k); [|right; left; cbn in C; now injection C].
  assert (DONE : forall y s, made BO_DEFAULT y s -> regular y = true -> blamed y -> penc n s o vs = Err e ->
    hard e \/ (why BO_DEFAULT y (hd_error vs) e \/ surplus o y (hd_error vs) e) \/ ((1 < List.length vs)%nat /\ too_many o y e)).
  { intros y s M R BL Q. destruct (BL n BO_DEFAULT s vs e LE M R Q) as [H|[H|[L H]]]; [now left|right; left; now left|]. right.
    destruct (takes y) eqn:TY.
    - right. split; [exact L|exact H].
    - left. right. split; [exact TY|]. split; [|exact H]. destruct vs; [cbn in L; lia|discriminate]. }
  revert ms A2 C. induction m as [|[k' y] m IH]; intros [|[k2 t] ms] A2 C; try contradiction; cbn [pick_why map_find] in *.
  - destruct ds as [t|]; destruct d as [y|]; try contradiction; cbn [rbind] in C; [|right; left; now injection C]. eapply DONE; eauto.
  - destruct A2 as [[E M] A2]. cbn [fst snd] in *. subst k2. inversion SM; subst. apply andb_prop in RM as [R1 R2]. cbn [snd] in *.
    destruct (key_eqb k k'); [cbn [rbind] in C; eapply DONE; eauto|]. eapply IH; eauto.
Qed.
Lemma class_blame : forall n id c vs e x bo, (x = XSelf \/ exists c, x = XClass c) -> (n <= N)%nat -> enc n (SStructd id c) o vs = Err e ->
  hard e \/ why bo x (hd_error vs) e \/ extra x vs e.
Proof.
  intros n id c vs e x bo X LE P. destruct n as [|n]; [left; left; cbn in P; now injection P|]. cbn [Pure.enc enc_step] in P.
  assert (WX : why bo x (hd_error vs) e = match hd_error vs with None => e = TypeError | Some (VObj c ov a) => wo c ov a e | Some _ => e = AttributeError end) by (destruct X as [->|[c' ->]]; reflexivity).
  assert (TX : takes x = true) by (destruct X as [->|[c' ->]]; reflexivity). rewrite WX.
  destruct vs as [|v [|w r]]; cbn [one rbind hd_error] in *; [right; left; now injection P| |].
  2:{ right. right. unfold extra. rewrite TX. split; [cbn; lia|]. injection P as <-. destruct X as [->|[c' ->]]; reflexivity. }
  destruct v; try (right; left; now injection P). destruct (allow c c0); [|left; right; now injection P].
  destruct (OW n c0 ov attrs e LE P); auto.
Qed.
Theorem expr_blame : forall x, blamed x.
Proof.
  assert (ST : forall x bo st n vs e, made bo x (SStruct st) -> penc n (SStruct st) o vs = Err e -> hard e \/ why bo x (hd_error vs) e \/ extra x vs e).
  { intros x bo st n vs e M P. unfold Field.penc in P. cbn [resolve rbind] in P. destruct n as [|n]; [left; left; cbn in P; now injection P|]. cbn [Pure.enc enc_step] in P.
    destruct (struct_blame x bo st vs e M P) as [H|(L & -> & H)]; [right; left; exact H|right; right]. split; [exact L|exact H]. }
  assert (NU : forall n vs e, penc n SNull o vs = Err e -> hard e).
  { intros n vs e P. unfold Field.penc in P. cbn [resolve rbind] in P. destruct n; cbn in P; [|discriminate]. left. now injection P. }
  assert (SH : forall x, shown x) by (intros x; apply expr_shown; exact OB).
  induction x using hx_ind'.
  - intros n bo s vs e LE M R P. pose proof M as M'. cbn [made] in M. destruct M as [_ ->]. eapply ST; eauto.
  - intros k bo s vs e LE M R P. pose proof M as M'. cbn [made] in M. unfold counted in M. destruct (n =? 0) eqn:Z0; [subst s; left; eauto|].
    destruct M as (t & -> & _). eapply ST; eauto.
  - intros k bo s vs e LE M R P. pose proof M as M'. cbn [made] in M. unfold counted in M. destruct (n =? 0) eqn:Z0; [subst s; left; eauto|].
    destruct M as (t & -> & _). eapply ST; eauto.
  - intros n bo s vs e LE M R P. cbn [made] in M. destruct (char_blame a bo n s vs e M P) as [H|[H|H]]; [now left|right; left; exact H|].
    right. right. destruct a; try contradiction. unfold extra. cbn [takes]. destruct H as [L ->]. cbn [too_many].
    destruct (z =? 0) eqn:Z0; [subst; exfalso|split; [exact L|split; [lia|reflexivity]]].
    cbn [char_made] in M. unfold counted in M. rewrite Z0 in M. subst s. apply NU in P. destruct P; discriminate.
  - apply unicode_blame.
  - apply array_blame; auto.
  - apply tuple_blame; auto. apply Forall_forall. auto.
  - now apply cond_blame.
  - intros n bo s vs e LE M R P. pose proof M as M'. cbn [made] in M. destruct M as (st & st' & -> & _). eapply ST; eauto.
  - intros n bo s vs e LE M R P. cbn [made regular] in *. apply andb_prop in R as [RM RD]. destruct M as (i & ms & ds & -> & A2 & DD).
    unfold Field.penc in P. cbn [resolve rbind] in P. destruct n as [|n]; [left; left; cbn in P; now injection P|].
    cbn [Pure.enc enc_step WhySpec.why] in *. destruct (f o) as [r|e1] eqn:FOR; cbn [rbind] in P; [|right; left; now injection P].
    assert (LE' : (n <= N)%nat) by lia. unfold extra. cbn [takes too_many]. rewrite FOR. exact (pick_blame r m d ms ds n vs e A2 DD H0 H1 RM RD LE' P).
  - intros n bo s vs e LE M R P. cbn [made regular] in *. apply andb_prop in R as [RM RD]. destruct M as (i & ra' & ms & ds & -> & _ & A2 & DD).
    unfold Field.penc in P. cbn [resolve rbind] in P. destruct n as [|n]; [left; left; cbn in P; now injection P|].
    cbn [Pure.enc enc_step WhySpec.why] in *. destruct (f o) as [r|e1] eqn:FOR; cbn [rbind] in P; [|right; left; now injection P].
    assert (LE' : (n <= N)%nat) by lia. unfold extra. cbn [takes too_many]. rewrite FOR. exact (pick_blame r m d ms ds n vs e A2 DD H0 H1 RM RD LE' P).
  - intros n bo s vs e LE M R P. cbn [made] in M. destruct M as [id ->]. unfold Field.penc in P. cbn [resolve rbind] in P. eapply class_blame; eauto.
  - intros n bo s vs e LE M R P. cbn [made] in M. destruct M as [id ->]. unfold Field.penc in P. cbn [resolve rbind self_class] in P. eapply class_blame; eauto.
  - intros n bo s vs e LE M. contradiction.
  - intros n bo s vs e LE M. contradiction.
Qed.
End Exprs.

(** ** classes *)
Lemma get_attrs_err : forall names d e, get_attrs names d = Err e -> e = AttributeError /\ exists a, In a names /\ assoc a d = None.
Proof.
  intros names d e. unfold get_attrs. induction names as [|a names IH]; intros H; [discriminate|]. cbn [rmapM] in H.
  destruct (assoc a d) as [v|] eqn:A; cbn [rbind] in H.
  - destruct (rmapM _ names) as [vs|e'] eqn:R; cbn [rbind] in H; [discriminate|]. injection H as ->. destruct (IH eq_refl) as (-> & b & I & B).
    split; [reflexivity|]. exists b. split; [now right|exact B].
  - injection H as <-. split; [reflexivity|]. exists a. split; [now left|exact A].
Qed.
Lemma fields_members_why : forall f w (few : Prop) l d vs e,
  forallb (fun p => regular (snd p) && (padding (snd p) || takes (snd p)) && negb (String.eqb (fst p) "self")) l = true ->
  get_attrs (filter (fun a => negb (String.eqb a "self")) (map fst (filter (fun p => negb (padding (snd p))) l))) d = Ok vs ->
  (few -> False) -> members_why f w few (map snd l) vs e -> fields_why f w l d e.
Proof.
  intros f w few l d. unfold get_attrs. induction l as [|[a x] l IH]; intros vs e R G NF M; [contradiction|].
  cbn [forallb fst snd] in R. apply andb_prop in R as [R1 R2]. apply andb_prop in R1 as [R1 R4]. apply andb_prop in R1 as [_ R3].
  cbn [filter map fst snd] in *. destruct (padding x) eqn:PX.
  - assert (TK : takes x = false) by (destruct x; try discriminate PX; reflexivity). cbn [negb] in G.
    cbn [fields_why members_why] in *. rewrite TK in *. destruct M as [M|[[M1|M1] M2]]; [now left| |contradiction]. right. split; [exact M1|eauto].
  - cbn [orb] in R3. cbn [negb map filter fst] in G. rewrite R4 in G. cbn [rmapM] in G.
    destruct (assoc a d) as [v|] eqn:A; [|discriminate]. cbn [rbind] in G.
    destruct (rmapM _ _) as [vs'|] eqn:Q; [|discriminate]. injection G as <-.
    cbn [fields_why members_why] in *. rewrite R3, A in *. cbn [hd_error tl] in M. destruct M as [M|[[M1|M1] M2]]; [now left| |contradiction].
    right. split; [exact M1|]. now apply (IH vs').
Qed.
Lemma attrs_takers : forall l d vs,
  forallb (fun p => regular (snd p) && (padding (snd p) || takes (snd p)) && negb (String.eqb (fst p) "self")) l = true ->
  get_attrs (filter (fun a => negb (String.eqb a "self")) (map fst (filter (fun p => negb (padding (snd p))) l))) d = Ok vs ->
  List.length vs = takers (map snd l).
Proof.
  intros l d. unfold get_attrs, takers. induction l as [|[a x] l IH]; intros vs R G; [injection G as <-; reflexivity|].
  cbn [forallb fst snd] in R. apply andb_prop in R as [R1 R2]. apply andb_prop in R1 as [R1 R4]. apply andb_prop in R1 as [_ R3].
  cbn [filter map fst snd] in *. destruct (padding x) eqn:PX.
  - assert (TK : takes x = false) by (destruct x; try discriminate PX; reflexivity). cbn [negb] in G. rewrite TK. eauto.
  - cbn [orb] in R3. cbn [negb map filter fst] in G. rewrite R4 in G. cbn [rmapM] in G.
    destruct (assoc a d) as [v|] eqn:A; [|discriminate]. cbn [rbind] in G.
    destruct (rmapM _ _) as [vs'|] eqn:Q; [|discriminate]. injection G as <-. rewrite R3. cbn [List.length]. f_equal. eauto.
Qed.
Lemma cond_fields : forall hb rec wo o bo sv l sers i d e, all2 (made bo) (map snd l) sers -> Forall (fun s => is_struct s = false) sers -> filter real sers = [i] ->
  resolve true i o = Err e -> fields_why (chunks hb rec o (mode_of hb bo)) (slot sv (why hb rec wo o bo)) l d e.
Proof.
  intros hb rec wo o bo sv l. induction l as [|[a x] l IH]; intros [|s sers] i d e M NS F RS; try contradiction; [discriminate F|].
  cbn [map snd] in M. destruct M as [M1 M2]. inversion NS; subst. cbn [filter] in F. cbn [fields_why]. destruct (real s) eqn:RL.
  - injection F as -> F. left. left. pose proof (resolve_cond o x bo i e M1 RS) as W. destruct x; try contradiction. left. exact W.
  - destruct s; try discriminate RL. destruct (made_null _ _ M1) as [TK C]. right. split; [rewrite C; discriminate|]. eapply IH; eauto.
Qed.
Section Classes.
Variable hb : bool.
Variable allow : nat -> nat -> bool.
Variables (sl : list sclass) (l : list cinfo).
Hypothesis CR : classes_rel sl l.
Hypothesis RG : forallb regular_class sl = true.
Let ct := classes l.
Lemma obj_why : forall N, (forall o x, blamed hb ct allow (wire hb sl N) (why_not hb sl N) N o x) ->
  forall n c ov d e, (n <= N)%nat -> enc_obj_step ct (enc hb ct allow n) c ov d = Err e -> hard e \/ why_not hb sl (S N) c ov d e.
Proof.
  intros N BL n c ov d e LE E. destruct CR as [LEN R]. unfold enc_obj_step, ct, classes in E. cbn [why_not].
  destruct (nth_error l c) as [i|] eqn:NI; cbn [option_map] in E.
  2:{ assert (NS : nth_error sl c = None) by (apply nth_error_None in NI; apply nth_error_None; lia). rewrite NS. right. now injection E. }
  destruct (nth_error sl c) as [sc|] eqn:NS.
  2:{ apply nth_error_None in NS. assert (c < List.length l)%nat by (apply nth_error_Some; congruence). lia. }
  destruct (R c sc i NS NI) as (_ & BO & _ & AT & fin & id & sers & s & SM & CS & A2).
  set (bo := match ov with Some bo => bo | None => sc_bo sc end).
  assert (OS : obj_ser (ci_def i) ov = with_bo bo s) by (unfold obj_ser, bo; rewrite CS; destruct ov; [apply with_bo_twice|reflexivity]).
  rewrite OS, AT in E.
  assert (FO : Forall (field_ok BO_DEFAULT) sers) by (eapply all2_field; eauto).
  destruct (ssum_rel fin id sers s) as (FL & RL & ATM & _); auto.
  { eapply Forall_impl; [|exact FO]. intros ? (_ & _ & Q & _). exact Q. }
  { apply forallb_forall. rewrite Forall_forall in FO. intros y I. destruct (FO y I) as (_ & _ & _ & Q & _). exact Q. }
  { eapply fields_lossless; eauto. }
  assert (RC : regular_class sc = true) by (rewrite forallb_forall in RG; apply RG; eapply nth_error_In; eauto).
  assert (RX : forallb regular (map snd (fields_of (sc_anns sc))) = true).
  { rewrite forallb_map. unfold regular_class in RC. rewrite forallb_forall in *. intros p I. specialize (RC p I).
    apply andb_prop in RC as [RC _]. now apply andb_prop in RC as [RC _]. }
  assert (RB : rel (parts (with_bo bo s)) (runs (map (with_bo bo) sers))) by (rewrite (parts_bo bo s FL), runs_bo; now apply rel_bo).
  pose proof (all2_bo BO_DEFAULT bo _ _ A2) as AB.
  assert (NM : sc_attrs sc = filter (fun a => negb (String.eqb a "self")) (map fst (filter (fun p => negb (padding (snd p))) (fields_of (sc_anns sc))))).
  { unfold sc_attrs, fields_of. do 2 f_equal. clear. induction (sc_anns sc) as [|p a IH]; [reflexivity|]. cbn [filter].
    destruct (serial (snd p)); cbn [filter andb]; [|exact IH]. destruct (negb (padding (snd p))); [now rewrite IH|exact IH]. }
  destruct (get_attrs (sc_attrs sc) d) as [vs|e1] eqn:GA.
  - assert (P : penc hb ct allow n (with_bo bo s) (PO c false d) vs = Err e) by (unfold penc; destruct (resolve true (with_bo bo s) (PO c false d)); exact E).
    destruct (sum_blame hb ct allow (wire hb sl N) (why_not hb sl N) N (PO c false d) bo n _ (map (with_bo bo) sers) (with_bo bo s) vs e LE AB) as [H|[H|[L _]]]; auto.
    { apply Forall_forall. intros x _. apply (all_shown hb allow sl l CR RG). }
    { apply Forall_forall. intros x _. apply BL. }
    { now apply flat_bo. }
    { apply big_bo. eapply ssum_big; [|exact SM]. eapply Forall_impl; [|exact FO]. intros ? (_ & _ & Q & _). exact Q. }
    + right. right. rewrite NM in GA. eapply fields_members_why; [exact RC|exact GA| |exact H]. rewrite (attrs_takers _ _ _ RC GA). lia.
    + exfalso. rewrite NM in GA. rewrite (attrs_takers _ _ _ RC GA) in L. lia.
  - right. destruct (resolve true (with_bo bo s) (PO c false d)) as [s'|e2] eqn:RS; cbn [rbind] in E.
    + left. injection E as ->. exact (get_attrs_err _ _ _ GA).
    + right. injection E as ->. set (w := with_bo bo s) in *.
      assert (Q : w <> SNull /\ is_struct w = false /\ parts w = [w]) by (destruct w; cbn in RS; try discriminate RS; repeat split; try discriminate; destruct (existsb _ _); discriminate RS).
      destruct Q as (Q1 & Q2 & Q3). rewrite Q3 in RB. pose proof (rel_single w _ Q2 RB) as RR. destruct (runs_single _ w Q2 Q1 RR) as [NN F].
      eapply cond_fields; eauto.
Qed.
Theorem all_blamed : forall N o x, blamed hb ct allow (wire hb sl N) (why_not hb sl N) N o x.
Proof.
  assert (OB : forall N n c ov d b, (S n <= N)%nat -> enc_obj_step ct (enc hb ct allow n) c ov d = Ok b -> wire hb sl N c ov d = Some b).
  { intros [|N] n c ov d b LE E; [lia|]. eapply (obj_wire hb allow sl l CR RG N (all_shown hb allow sl l CR RG N)); [|exact E]. lia. }
  induction N as [|N IH]; intros o x; apply expr_blame.
  - apply OB.
  - intros. lia.
  - apply OB.
  - intros n c ov d e LE E. apply (obj_why N IH n c ov d e); [lia|exact E].
Qed.
Theorem why_complete : forall n c ov d e, enc_obj hb ct allow n (VObj c ov d) = Err e -> hard e \/ why_not hb sl (S n) c ov d e.
Proof. intros n c ov d e E. eapply (obj_why n (all_blamed n)); [apply le_n|exact E]. Qed.
End Classes.
