(** The classes of a program in the fragment. *)
From Verif Require Import Base Floats Value StructMod Format Ser Exec Pure BaseFacts StructFacts FormatFacts
  SerFacts RefPack RefUnpack User DecFacts RoundTrip RoundTripMain Adding PropsAdd PropsFinal PropsRoundTrip Hints HintFacts
  Surface SerShape Programs.

(** final classes of a program *)
Definition fin_of (l : list cinfo) (c : nat) : bool := efin (env_of l) c.
(** class [c] has a field with [Self], possibly inherited *)
Inductive selfy (prog : list stmt) : nat -> Prop :=
| SY_own : forall c s a x, nth_error prog c = Some s -> In (a, x) (st_body s) -> has_self x = true -> selfy prog c
| SY_base : forall c s b, nth_error prog c = Some s -> st_base s = Some b -> selfy prog b -> selfy prog c.

Lemma assoc_set_in : forall {A} a (v : A) d b w, In (b, w) (assoc_set a v d) -> w = v \/ In (b, w) d.
Proof.
  intros A a v. induction d as [|[k x] d IH]; intros b w I; cbn in I.
  - destruct I as [E|[]]. injection E as _ <-. now left.
  - destruct (String.eqb a k); destruct I as [E|I].
    + injection E as _ <-. now left.
    + right. now right.
    + right. now left.
    + destruct (IH b w I); [now left|right; now right].
Qed.
Lemma dict_update_in : forall {A} (e d : list (string * A)) b w, In (b, w) (dict_update d e) -> In (b, w) d \/ exists a, In (a, w) e.
Proof.
  intros A. unfold dict_update. induction e as [|[a v] e IH]; intros d b w I; cbn in I; [now left|].
  apply IH in I as [I|[a' I]]; [|right; exists a'; now right]. apply assoc_set_in in I as [->|I]; [|now left].
  right. exists a. now left.
Qed.
Lemma hints_in : forall mro a h, In (a, h) (get_type_hints mro) -> exists D b h0, In D mro /\ In (b, h0) D /\ h = eval_fwd h0.
Proof.
  intros mro a h I. unfold get_type_hints in I. apply in_map_iff in I as ([b h0] & E & I). cbn in E. injection E as E0 <-. clear E0 a.
  assert (G : forall (L : list dict) (d : dict) b h0, In (b, h0) (fold_left dict_update L d) -> In (b, h0) d \/ exists D a', In D L /\ In (a', h0) D).
  { induction L as [|D L IH]; intros d b1 h1 J; cbn in J; [now left|]. apply IH in J as [J|(D' & a' & J1 & J2)].
    - apply dict_update_in in J as [J|[a' J]]; [now left|]. right. exists D, a'. split; [now left|exact J].
    - right. exists D', a'. split; [now right|exact J2]. }
  apply G in I as [[]|(D & a' & I1 & I2)]. exists D, a', h0. rewrite in_rev. auto.
Qed.
Lemma class_body_in : forall fin spec idf body k d d' k', class_body fin spec idf k body d = Ok (d', k') ->
  forall a h, In (a, h) d' -> (exists b, In (b, h) body) \/ In (a, h) d.
Proof.
  intros fin spec idf. induction body as [|[n h0] body IH]; intros k d d' k' E a h I; cbn [class_body] in E.
  - injection E as <- <-. now right.
  - assert (STEP : forall n' k1, class_body fin spec idf k1 body (assoc_set n' h0 d) = Ok (d', k') ->
      (exists b, In (b, h) ((n, h0) :: body)) \/ In (a, h) d).
    { intros n' k1 Q. destruct (IH _ _ _ _ Q a h I) as [[b J]|J]; [left; exists b; now right|].
      apply assoc_set_in in J as [->|J]; [left; exists n; now left|now right]. }
    destruct (String.eqb n "_"); [|eauto]. destruct (ispad fin spec idf h0) as [b|]; [|discriminate]. cbn [rbind] in E.
    destruct b; eauto.
Qed.
Lemma filter_in : forall env spec idf hints i l s, filter_typehints env spec idf i hints = Ok l -> In s (map snd l) ->
  exists a h p, In (a, h) hints /\ transform (efin env) spec idf false p h = Ok (PSer s) /\ match h with PClassVar _ => False | _ => True end.
Proof.
  intros env spec idf. induction hints as [|[a h] hints IH]; intros i l s E I; cbn [filter_typehints] in E; [injection E as <-; contradiction|].
  destruct (match h with PClassVar _ => Ok PNone | _ => transform (efin env) spec idf false [i] h end) as [x|] eqn:T; [|discriminate].
  cbn [rbind] in E. destruct (filter_typehints env spec idf (S i) hints) as [r|] eqn:R; [|discriminate]. cbn [rbind] in E. injection E as <-.
  assert (REST : In s (map snd r) -> exists a0 h0 p, In (a0, h0) ((a, h) :: hints) /\
     transform (efin env) spec idf false p h0 = Ok (PSer s) /\ match h0 with PClassVar _ => False | _ => True end).
  { intros J. destruct (IH _ _ _ R J) as (a0 & h0 & p & J1 & J2). exists a0, h0, p. split; [now right|exact J2]. }
  destruct x; try (now apply REST). cbn in I. destruct I as [->|I]; [|now apply REST].
  exists a, h, [i]. split; [now left|]. destruct h; try (split; [exact T|exact Logic.I]). discriminate T.
Qed.
Lemma run_prefix : forall idf fac prog l k l', run idf fac l k prog = Ok l' ->
  exists ext, l' = l ++ ext /\ List.length ext = List.length prog.
Proof.
  intros idf fac. induction prog as [|s prog IH]; intros l k l' E; cbn [run] in E.
  - injection E as <-. exists []. split; [now rewrite app_nil_r|reflexivity].
  - destruct (class_stmt idf fac l k s) as [[i k']|]; [|discriminate]. cbn [rbind] in E.
    destruct (IH _ _ _ E) as (ext & -> & L). exists (i :: ext). rewrite <- app_assoc. split; [reflexivity|cbn; now rewrite L].
Qed.

Section Program.
Variables (hb : bool) (md : umode) (idf : nat -> list nat -> nat) (fac : akind -> list pyh -> nat).
Variables (prog : list stmt) (L : list cinfo).
Let fin := fin_of L.
Definition in_fragment : Prop := forall s a x, In s prog -> In (a, x) (st_body s) -> frag md (fin_of L) x = true.
Hypothesis FRAG : in_fragment.
(** an annotation of class [c], own or inherited *)
Definition okh (c : nat) (h : pyh) : Prop :=
  (exists x k fk f, (k <= c)%nat /\ frag md fin x = true /\ (has_self x = true -> selfy prog c) /\
     (forall d, (d < k)%nat -> fk d = fin d) /\ build k fk f fac x = Ok (eval_fwd h)) \/
  exists y, h = PClassVar y.
(** the fields of class [c] *)
Definition field (c : nat) (s : ser) : Prop := exists x, good hb md fin x c s /\ (has_self x = true -> selfy prog c).
Definition made (c : nat) (i : cinfo) : Prop :=
  (forall D a h, In D (ci_mro i) -> In (a, h) D -> okh c h) /\
  exists id l bo s, Forall (field c) l /\ ssum fin id l = Ok s /\ c_ser (ci_def i) = with_bo bo s /\
    c_final (ci_def i) = is_final fin s.

Lemma good_mono : forall x k k' s, (k <= k')%nat -> good hb md fin x k s -> good hb md fin x k' s.
Proof. intros x k k' s LE [G1 G2 G3 G4 G5 G6 G7 G8 G9 G10 G11]. constructor; try assumption. eapply refs_mono; eauto. Qed.
Lemma okh_ser : forall c h f2 idf2 p s, okh c h -> match eval_fwd h with PClassVar _ => False | _ => True end ->
  (forall d, (d < c)%nat -> f2 d = fin d) -> transform f2 no_spec idf2 false p (eval_fwd h) = Ok (PSer s) -> field c s.
Proof.
  intros c h f2 idf2 p s [(x & k & fk & f & KC & FX & SX & FE & B)|(y & ->)] NV F2 T; [|contradiction].
  exists x. split; [|exact SX]. apply good_mono with (k := k); [exact KC|].
  eapply built_ser; [apply build_good|exact FX|exact B| |exact T].
  - exact FE.
  - intros d D. apply F2. lia.
Qed.
Lemma okh_more : forall b c s h, okh b h -> (b <= c)%nat -> nth_error prog c = Some s -> st_base s = Some b -> okh c h.
Proof.
  intros b c s h [(x & k & fk & f & KC & FX & SX & FE & B)|Y] BC N SB; [|now right].
  left. exists x, k, fk, f. repeat split; try assumption; [lia|]. intros HS. eapply SY_base; eauto.
Qed.
Lemma field_facts : forall c l, Forall (field c) l ->
  forallb (sall (refs c)) l = true /\ Forall (fun x => is_compound x = false) l /\ forallb (sall (wf1 hb md)) l = true.
Proof.
  intros c l F. rewrite Forall_forall in F. repeat split.
  - rewrite forallb_forall. intros s I. destruct (F s I) as (x & G & _). exact (g_refs _ _ _ _ _ _ G).
  - rewrite Forall_forall. intros s I. destruct (F s I) as (x & G & _). exact (g_comp _ _ _ _ _ _ G).
  - rewrite forallb_forall. intros s I. destruct (F s I) as (x & G & _). exact (g_wf _ _ _ _ _ _ G).
Qed.
Lemma built_not_fwd : forall x k fk f h, frag md fin x = true -> (forall d, (d < k)%nat -> fk d = fin d) ->
  build k fk f fac x = Ok h -> eval_fwd h = h.
Proof.
  intros x k fk f h F FE B. destruct (build_good hb md fin k fk f fac FE x h F B) as (_ & _ & T).
  destruct h; try reflexivity. exfalso. exact (T fin f [] (PFwd h) (fun _ _ => eq_refl) eq_refl).
Qed.
Lemma stmt_made : forall l k s i k' ext, L = l ++ i :: ext -> nth_error prog (List.length l) = Some s ->
  (forall c j, nth_error l c = Some j -> made c j) ->
  class_stmt idf fac l k s = Ok (i, k') -> made (List.length l) i.
Proof.
  intros l k s i k' ext EL N INV E. set (c := List.length l) in *.
  assert (FE : forall d, (d < c)%nat -> efin (env_of l) d = fin d).
  { intros d D. unfold fin, fin_of, efin, env_of. rewrite EL, nth_error_app1 by exact D. reflexivity. }
  unfold class_stmt in E. fold c in E. destruct (eval_body idf fac l s) as [body|] eqn:EB; [|discriminate]. cbn [rbind] in E.
  destruct (class_body (efin (env_of l)) no_spec (idf c) k body []) as [[d kk]|] eqn:CB; [|discriminate]. cbn [rbind] in E.
  destruct (define (env_of l) no_spec (idf c) fac 0 d (match st_base s with Some b => [(b, None)] | None => [] end) [] (st_bo s) (st_mode s))
    as [i'|] eqn:DF; [|discriminate]. cbn [rbind] in E. injection E as -> <-.
  (* own annotations *)
  assert (OWN : forall a h, In (a, h) d -> okh c h).
  { intros a h I. destruct (class_body_in _ _ _ _ _ _ _ _ CB a h I) as [[b J]|[]].
    unfold eval_body in EB. apply rmapM_F2 in EB. destruct (F2_in_r _ _ _ _ EB J) as ([n x] & IX & Q). cbn [fst snd] in Q.
    fold c in Q. unfold Base.rmap in Q. destruct (build c (efin (env_of l)) (idf c) fac x) as [h0|] eqn:B; [|discriminate].
    injection Q as _ <-. left. exists x, c, (efin (env_of l)), (idf c).
    assert (FX : frag md fin x = true) by (eapply FRAG; [eapply nth_error_In; exact N|exact IX]).
    split; [lia|]. split; [exact FX|]. split; [intros HS; eapply SY_own; eauto|]. split; [exact FE|]. rewrite B. f_equal.
    destruct (st_future s); [reflexivity|]. symmetry. exact (built_not_fwd x c _ _ h0 FX FE B). }
  unfold define in DF.
  (* the base class *)
  assert (BASE : exists mro, (forall D a h, In D mro -> In (a, h) D -> okh c h) /\
    (rdo hints <- filter_typehints (env_of l) no_spec (idf c) 0 (get_type_hints (d :: mro));
     rdo s0 <- ssum (efin (env_of l)) (idf c []) (map snd hints);
     Ok (CInfo d (d :: mro) [] [] (CD (attrs_of hints) (with_bo (st_bo s) s0) (st_bo s) (is_final (efin (env_of l)) (with_bo (st_bo s) s0))))) = Ok i).
  { destruct (st_base s) as [b|] eqn:SB.
    - destruct (env_of l b) as [ib|] eqn:EN; [|discriminate]. cbn [rbind] in DF.
      destruct (match st_mode s with STRICT => if border_eqb (c_bo (ci_def ib)) (st_bo s) then Ok tt else Err ValueError | OVERRIDE => Ok tt end) as [u|];
        [|discriminate]. cbn [rbind] in DF. exists (ci_mro ib). split; [|exact DF].
      intros D a h ID IH. unfold env_of in EN. eapply okh_more; [exact (proj1 (INV b ib EN) D a h ID IH)| |exact N|exact SB].
      assert (b < List.length l)%nat by (apply nth_error_Some; congruence). unfold c. lia.
    - cbn [rbind] in DF. exists [structured_ann]. split; [|exact DF]. intros D a h [<-|[]] IH. right.
      unfold structured_ann in IH. cbn in IH. repeat (destruct IH as [IH|IH]; [injection IH as _ <-; eauto|]). contradiction. }
  destruct BASE as (mro & MRO & DEF). clear DF.
  assert (ALL : forall D a h, In D (d :: mro) -> In (a, h) D -> okh c h)
    by (intros D a h [<-|ID] IH; [eapply OWN; exact IH|eapply MRO; eauto]).
  destruct (filter_typehints (env_of l) no_spec (idf c) 0 (get_type_hints (d :: mro))) as [hints|] eqn:FH; [|discriminate].
  cbn [rbind] in DEF. destruct (ssum (efin (env_of l)) (idf c []) (map snd hints)) as [s0|] eqn:SU; [|discriminate].
  cbn [rbind] in DEF. injection DEF as <-.
  assert (FL : Forall (field c) (map snd hints)).
  { rewrite Forall_forall. intros x I. destruct (filter_in _ _ _ _ _ _ _ FH I) as (a & h & p & IH & T & NV).
    apply hints_in in IH as (D & b & h0 & ID & I0 & ->). eapply okh_ser; eauto. }
  destruct (field_facts c _ FL) as (RF & CP & _).
  rewrite (ssum_ext (efin (env_of l)) fin c _ _ FE RF CP) in SU.
  split; [exact ALL|]. exists (idf c []), (map snd hints), (st_bo s), s0. split; [exact FL|]. split; [exact SU|]. split; [reflexivity|].
  cbn [ci_def c_final]. rewrite wb_final. apply (final_ext _ _ c FE).
  eapply ssum_sall; try reflexivity; try exact SU; assumption.
Qed.
Lemma run_made : forall rest pre l k, prog = pre ++ rest -> List.length pre = List.length l ->
  (forall c j, nth_error l c = Some j -> made c j) -> run idf fac l k rest = Ok L ->
  forall c j, nth_error L c = Some j -> made c j.
Proof.
  induction rest as [|s rest IH]; intros pre l k EP LP INV E; cbn [run] in E.
  - assert (EL : l = L) by congruence. intros c j N. apply INV. now rewrite EL.
  - destruct (class_stmt idf fac l k s) as [[i k']|] eqn:CS; [|discriminate]. cbn [rbind] in E.
    apply (IH (pre ++ [s]) (l ++ [i]) k').
    + now rewrite <- app_assoc.
    + rewrite !app_length. cbn. lia.
    + intros c j N. destruct (Nat.lt_ge_cases c (List.length l)) as [LT|GE].
      * rewrite nth_error_app1 in N by exact LT. auto.
      * rewrite nth_error_app2 in N by exact GE. destruct (c - List.length l)%nat as [|m] eqn:M; [|now destruct m]. injection N as <-.
        assert (c = List.length l) as -> by lia. destruct (run_prefix _ _ _ _ _ _ E) as (ext & EX & _).
        eapply stmt_made; [rewrite EX, <- app_assoc; reflexivity| |exact INV|exact CS].
        rewrite EP, nth_error_app2 by lia. replace (List.length l - List.length pre)%nat with 0%nat by lia. reflexivity.
    + exact E.
Qed.
Variable k0 : nat.
Hypothesis RUN : run idf fac [] k0 prog = Ok L.
Hypothesis SELF : forall c, selfy prog c -> fin_of L c = false.
Lemma program_class : forall c cd, classes L c = Some cd ->
  exists id l bo s, Forall (field c) l /\ ssum fin id l = Ok s /\ c_ser cd = with_bo bo s /\ fin c = is_final fin s.
Proof.
  intros c cd C. unfold classes in C. destruct (nth_error L c) as [i|] eqn:N; [|discriminate]. injection C as <-.
  assert (M : made c i) by (eapply (run_made prog [] [] k0); try reflexivity; try exact RUN; try exact N; intros d j Q; destruct d; discriminate Q).
  destruct M as (_ & id & l & bo & s & F & S & CS & CF). exists id, l, bo, s. repeat split; try assumption.
  unfold fin at 1, fin_of, efin, env_of. now rewrite N, CF.
Qed.
Lemma field_accepted : forall c s, field c s -> accepted md fin c s.
Proof. intros c s (x & G & S). apply (g_acc _ _ _ _ _ _ G). intros H. apply SELF. auto. Qed.
Lemma program_accepted : accepted_program md fin (classes L).
Proof.
  intros c cd C. destruct (program_class c cd C) as (id & l & bo & s & F & S & CS & CF). exists l, bo, id, BO_DEFAULT, s.
  rewrite Forall_forall in F. repeat split; try assumption.
  - rewrite Forall_forall. intros x I. destruct (F x I) as (y & G & _). split; [exact (g_comp _ _ _ _ _ _ G)|exact (g_bo _ _ _ _ _ _ G)].
  - rewrite Forall_forall. intros x I. apply field_accepted. auto.
  - intros FC. apply reads_rest_final. rewrite CS, wb_final. congruence.
  - intros R. apply reads_rest_final in R. rewrite CS, wb_final in R. congruence.
Qed.
Lemma program_wf : forall c cd, classes L c = Some cd -> sall (wf1 hb md) (c_ser cd) = true /\ sall (refs c) (c_ser cd) = true.
Proof.
  intros c cd C. destruct (program_class c cd C) as (id & l & bo & s & F & S & CS & _). rewrite CS.
  destruct (field_facts c l F) as (RF & CP & W). split.
  - apply wf1_bo. eapply ssum_sall; try reflexivity; try exact S; assumption.
  - apply refs_bo. eapply ssum_sall; try reflexivity; try exact S; assumption.
Qed.
Lemma program_reads_back : reads_back hb (classes L) md (fun d => negb (fin d)).
Proof.
  split.
  - intros c cd C. eapply wf1_hu. exact (proj1 (program_wf c cd C)).
  - intros c cd C. split; [apply wf1_pT; exact (proj1 (program_wf c cd C))|].
    destruct (program_class c cd C) as (id & l & bo & s & F & S & CS & CF). rewrite CS.
    assert (E : ends fin c s).
    { apply ends_sum_ends. eapply ssum_ends; [|exact S]. rewrite Forall_forall in *. intros x I. split.
      - eapply accepted_ends. apply field_accepted. auto.
      - destruct (F x I) as (y & G & _). exact (g_comp _ _ _ _ _ _ G). }
    split; [apply tail_bo; exact (proj1 E)|]. intros NC. apply pN_bo. apply (proj2 E). rewrite <- CF.
    now destruct (fin c).
Qed.
Lemma program_healthy : forall birth cbirth,
  (forall c cd, classes L c = Some cd -> sized (c_ser cd) = true) ->
  (forall c cd, classes L c = Some cd -> ordered birth cbirth (c_ser cd) = true /\ older birth cbirth (cbirth c) (c_ser cd) = true) ->
  healthy (classes L) Nat.eqb.
Proof.
  intros birth cbirth SZ OR. exists (by_birth birth cbirth). split.
  - intros c cd C. destruct (OR c cd C) as [O1 O2]. split.
    + eapply wf1_hc; [|exact (proj1 (program_wf c cd C))|exact O1]. intros d. unfold csized. destruct (classes L d) eqn:D; [|reflexivity].
      eapply SZ; exact D.
    + intros id H. apply Bool.orb_prop in H as [H|H].
      * unfold by_birth. apply Nat.ltb_lt. eapply owns_older; eauto.
      * destruct (sets_older _ _ _ _ _ _ O2 H) as [LT|[_ B]]; [unfold by_birth; now apply Nat.ltb_lt|exact B].
  - intros d c A _. apply Nat.eqb_eq in A. subst. unfold csized. destruct (classes L c) as [cd|] eqn:C; [|auto].
    split; [eapply SZ; exact C|auto].
Qed.
End Program.
