(** Property C47: the constructor.  The generated [__init__] takes one value per serialized attribute, by position or by
    name; what [create_unpack*] and [with_byte_order] return is what that constructor makes. *)
From Coq Require Import Permutation.
From Verif Require Import Base Floats Value StructMod Format Ser Exec Equality PropsEq RoundTripMain Hints HintFacts PropsInherit Surface Sample
  Programs PropsProgram Init.
Open Scope string_scope. Open Scope list_scope. Open Scope Z_scope.

(** ** specification of a call: the positional arguments are the values of the first attributes, the keyword arguments
    are the remaining attributes with their values, in any order *)
Definition bound (names : list string) (pos : list value) (kw : env) (vs : list value) : Prop :=
  List.length vs = List.length names /\ exists rest, vs = pos ++ rest /\
  Permutation kw (zipw (skipn (List.length pos) names) rest).
(** the class has the generated constructor with these attributes *)
Definition generates (chain : list idecl) (attrs : list string) : Prop :=
  exists d rest, chain = d :: rest /\ i_init d = true /\ i_attrs d = attrs.

Lemma has_In : forall k l, has k l = true <-> In k l.
Proof.
  intros k. induction l as [|x l IH]; [cbn; split; [discriminate|contradiction]|]. cbn. rewrite orb_true_iff, IH, String.eqb_eq. intuition.
Qed.
Lemma has_nIn : forall k l, has k l = false <-> ~ In k l.
Proof. intros k l. rewrite <- has_In. destruct (has k l); split; congruence. Qed.
Lemma uniq_NoDup : forall l, uniq l = true <-> NoDup l.
Proof.
  induction l as [|x l IH]; [cbn; split; [constructor|reflexivity]|]. cbn. rewrite andb_true_iff, negb_true_iff, has_nIn, IH. split.
  - intros [A B]. now constructor.
  - intros H. now inversion H.
Qed.
Lemma assoc_in : forall {A} k (v : A) l, assoc k l = Some v -> In (k, v) l.
Proof.
  intros A k v. induction l as [|[k' a] l IH]; [discriminate|]. cbn. destruct (String.eqb_spec k k').
  - intros H. injection H as ->. subst. now left.
  - intros H. right. auto.
Qed.
Lemma in_assoc : forall {A} k (v : A) l, NoDup (map fst l) -> In (k, v) l -> assoc k l = Some v.
Proof.
  intros A k v. induction l as [|[k' a] l IH]; [contradiction|]. intros ND [E|I].
  - injection E as -> ->. cbn. now rewrite String.eqb_refl.
  - inversion ND as [|? ? N1 N2]; subst. cbn. destruct (String.eqb_spec k k') as [->|].
    + exfalso. apply N1. apply (in_map fst) in I. exact I.
    + auto.
Qed.
Lemma keys_zipw : forall (l : list string) (vs : list value), List.length vs = List.length l -> map fst (zipw l vs) = l.
Proof. induction l as [|a l IH]; intros [|v vs] L; try discriminate; [reflexivity|]. cbn. f_equal. apply IH. now injection L. Qed.

Lemma bind_ok : forall ps pos rest kw, List.length (pos ++ rest) = List.length ps ->
  (forall p, In p (firstn (List.length pos) ps) -> ~ In p (map fst kw)) ->
  (forall p v, In (p, v) (zipw (skipn (List.length pos) ps) rest) -> assoc p kw = Some v) ->
  bind_params ps pos kw = Ok (zipw ps (pos ++ rest)).
Proof.
  induction ps as [|p ps IH]; intros pos rest kw L D Q.
  - destruct pos; [|discriminate]. destruct rest; [reflexivity|discriminate].
  - destruct pos as [|v pos]; cbn [app] in *.
    + destruct rest as [|v rest]; [discriminate|]. cbn [bind_params]. rewrite (Q p v) by (now left).
      pose proof (IH [] rest kw) as H. cbn [app] in H. rewrite H; [reflexivity|now injection L|intros q []|].
      intros q u I. apply Q. now right.
    + cbn [bind_params]. destruct (has p (map fst kw)) eqn:E.
      * exfalso. apply has_In in E. apply (D p); [now left|exact E].
      * rewrite (IH pos rest kw); [reflexivity|now injection L|intros q I; apply D; now right|exact Q].
Qed.
Lemma bind_inv : forall ps pos kw r, bind_params ps pos kw = Ok r ->
  exists rest, r = zipw ps (pos ++ rest) /\ List.length (pos ++ rest) = List.length ps /\
  (forall p, In p (firstn (List.length pos) ps) -> ~ In p (map fst kw)) /\
  (forall p v, In (p, v) (zipw (skipn (List.length pos) ps) rest) -> In (p, v) kw).
Proof.
  induction ps as [|p ps IH]; intros pos kw r E.
  - destruct pos; [|discriminate]. injection E as <-. exists []. repeat split; intros; contradiction.
  - destruct pos as [|v pos]; cbn [bind_params] in E.
    + destruct (assoc p kw) as [v|] eqn:A; [|discriminate]. destruct (bind_params ps [] kw) as [r'|] eqn:B; [|discriminate].
      injection E as <-. destruct (IH _ _ _ B) as (rest & -> & L & D & Q). exists (v :: rest). cbn [app] in *.
      repeat split; [cbn; now rewrite L|intros q []|].
      intros q u I. cbn in I. destruct I as [I|I]; [injection I as <- <-; now apply assoc_in|now apply Q].
    + destruct (has p (map fst kw)) eqn:A; [discriminate|]. destruct (bind_params ps pos kw) as [r'|] eqn:B; [|discriminate].
      injection E as <-. destruct (IH _ _ _ B) as (rest & -> & L & D & Q). exists rest. cbn [app].
      repeat split; [cbn; now rewrite L| |exact Q].
      intros q [<-|I]; [now apply has_nIn|now apply D].
Qed.
Lemma bind_err : forall ps pos kw e, bind_params ps pos kw = Err e -> e = TypeError.
Proof.
  induction ps as [|p ps IH]; intros pos kw e E.
  - destruct pos; [discriminate|]. now injection E as <-.
  - destruct pos as [|v pos]; cbn [bind_params] in E.
    + destruct (assoc p kw) as [v|]; [|now injection E as <-]. destruct (bind_params ps [] kw) eqn:B; [discriminate|].
      injection E as <-. eauto.
    + destruct (has p (map fst kw)); [now injection E as <-|]. destruct (bind_params ps pos kw) eqn:B; [discriminate|].
      injection E as <-. eauto.
Qed.
Lemma firstn_skipn_NoDup : forall (l : list string) k, NoDup l -> forall p, In p (firstn k l) -> ~ In p (skipn k l).
Proof.
  intros l k ND p A B. rewrite <- (firstn_skipn k l) in ND. apply in_split in A. destruct A as (a & b & E). rewrite E in ND.
  rewrite <- app_assoc in ND. cbn in ND. apply NoDup_remove_2 in ND. apply ND. rewrite !in_app_iff. auto.
Qed.
Lemma skipn_NoDup : forall (l : list string) k, NoDup l -> NoDup (skipn k l).
Proof. induction l as [|a l IH]; intros [|k] H; cbn; auto. inversion H; auto. Qed.
Lemma skipn_In : forall (l : list string) k x, In x (skipn k l) -> In x l.
Proof. induction l as [|a l IH]; intros [|k] x H; cbn in *; auto. right. eauto. Qed.
Lemma skipn_len : forall (names : list string) (pos rest : list value), List.length (pos ++ rest) = List.length names ->
  List.length rest = List.length (skipn (List.length pos) names).
Proof. intros names pos rest L. rewrite skipn_length, <- L, app_length. lia. Qed.

Lemma call_ok : forall names pos kw vs, NoDup names -> bound names pos kw vs -> bind_call names pos kw = Ok (zipw names vs).
Proof.
  intros names pos kw vs ND (L & rest & -> & P). pose proof (skipn_len names pos rest L) as LR.
  assert (K : Permutation (map fst kw) (skipn (List.length pos) names)).
  { rewrite <- (keys_zipw _ _ LR). now apply Permutation_map. }
  assert (U : NoDup (map fst kw)).
  { eapply Permutation_NoDup; [apply Permutation_sym; exact K|]. now apply skipn_NoDup. }
  unfold bind_call. rewrite (proj2 (uniq_NoDup _) U). cbn [negb].
  assert (F : forallb (fun k => has k names) (map fst kw) = true).
  { apply forallb_forall. intros k I. apply has_In. apply (skipn_In _ (List.length pos)). eapply Permutation_in; eauto. }
  rewrite F. cbn [negb]. apply bind_ok; [exact L| |].
  - intros p I J. apply (firstn_skipn_NoDup names _ ND p I). eapply Permutation_in; eauto.
  - intros p v I. apply in_assoc; [exact U|]. eapply Permutation_in; [apply Permutation_sym; exact P|exact I].
Qed.
Lemma call_inv : forall names pos kw r, NoDup names -> bind_call names pos kw = Ok r ->
  exists vs, r = zipw names vs /\ bound names pos kw vs.
Proof.
  intros names pos kw r ND E. unfold bind_call in E.
  destruct (uniq (map fst kw)) eqn:U; [|discriminate]. destruct (forallb _ _) eqn:F; [|discriminate]. cbn [negb] in E.
  destruct (bind_inv _ _ _ _ E) as (rest & -> & L & D & Q). exists (pos ++ rest). split; [reflexivity|]. split; [exact L|].
  exists rest. split; [reflexivity|]. pose proof (skipn_len names pos rest L) as LR.
  apply uniq_NoDup in U. apply NoDup_Permutation.
  - eapply NoDup_map_inv; exact U.
  - eapply NoDup_map_inv. rewrite keys_zipw by exact LR. now apply skipn_NoDup.
  - intros [p v]. split; [|apply Q]. intros I.
    assert (M : In p names). { rewrite forallb_forall in F. apply has_In, F. apply (in_map fst) in I. exact I. }
    rewrite <- (firstn_skipn (List.length pos) names), in_app_iff in M. destruct M as [M|M].
    + exfalso. apply (D p M). apply (in_map fst) in I. exact I.
    + rewrite <- (keys_zipw _ _ LR) in M. apply in_map_iff in M. destruct M as ([q u] & EQ & J). cbn in EQ. subst q.
      pose proof (Q _ _ J) as J'. assert (v = u) as ->; [|exact J].
      pose proof (in_assoc _ _ _ U I) as A1. pose proof (in_assoc _ _ _ U J') as A2. congruence.
Qed.
Lemma call_err : forall names pos kw e, bind_call names pos kw = Err e -> e = TypeError.
Proof.
  intros names pos kw e E. unfold bind_call in E. destruct (negb _); [now injection E as <-|]. destruct (negb _); [now injection E as <-|].
  eapply bind_err; eauto.
Qed.
Lemma bound_self : forall names pos kw vs, bound names pos kw vs -> bound ("self" :: names) (VNone :: pos) kw (VNone :: vs).
Proof. intros names pos kw vs (L & rest & -> & P). split; [cbn; now rewrite L|]. exists rest. split; [reflexivity|exact P]. Qed.
Lemma self_bound : forall names pos kw vs, bound ("self" :: names) (VNone :: pos) kw vs -> exists ws, vs = VNone :: ws /\ bound names pos kw ws.
Proof.
  intros names pos kw vs (L & rest & -> & P). exists (pos ++ rest). split; [reflexivity|]. split; [now injection L|]. exists rest. split; [reflexivity|exact P].
Qed.
Lemma set_fresh : forall {A} k (v : A) d, ~ In k (map fst d) -> assoc_set k v d = d ++ [(k, v)].
Proof.
  intros A k v. induction d as [|[k' a] d IH]; [reflexivity|]. cbn. intros N. destruct (String.eqb_spec k k') as [->|].
  - exfalso. apply N. now left.
  - rewrite IH; [reflexivity|]. intros I. apply N. now right.
Qed.
Lemma body_ok : forall locals l vs d, List.length vs = List.length l -> NoDup (map fst d ++ l) ->
  (forall a v, In (a, v) (zipw l vs) -> assoc a locals = Some v) -> run_body l locals d = Ok (d ++ zipw l vs).
Proof.
  intros locals. induction l as [|a l IH]; intros [|v vs] d L ND Q; try discriminate.
  - cbn. now rewrite app_nil_r.
  - cbn [run_body zipw]. rewrite (Q a v) by now left. rewrite set_fresh.
    2:{ apply NoDup_remove_2 in ND. intros I. apply ND. rewrite in_app_iff. now left. }
    rewrite (IH vs); [now rewrite <- app_assoc|now injection L| |intros b u I; apply Q; now right].
    rewrite map_app, <- app_assoc. exact ND.
Qed.
Lemma filter_same : forall l, ~ In "self" l -> filter (fun a => negb (String.eqb a "self")) l = l.
Proof.
  induction l as [|a l IH]; [reflexivity|]. intros N. cbn. destruct (String.eqb_spec a "self") as [->|].
  - exfalso. apply N. now left.
  - cbn. rewrite IH; [reflexivity|]. intros I. apply N. now right.
Qed.
Lemma gen_ok : forall attrs post pos kw vs, NoDup ("self" :: attrs) -> bound attrs pos kw vs ->
  gen_init attrs post pos kw = post (zipw attrs vs).
Proof.
  intros attrs post pos kw vs ND B. unfold gen_init, init_params, body_lines.
  rewrite (call_ok _ _ _ _ ND (bound_self _ _ _ _ B)). cbn [rbind]. inversion ND as [|? ? NS NA]; subst.
  cbn [filter String.eqb Ascii.eqb Bool.eqb negb]. rewrite filter_same by exact NS. destruct B as (L & _).
  rewrite (body_ok _ attrs vs []); [reflexivity|exact L|exact NA|].
  intros a v I. apply in_assoc; [|right; exact I]. cbn [zipw map fst]. now rewrite keys_zipw by exact L.
Qed.
Lemma gen_err : forall attrs post pos kw, NoDup ("self" :: attrs) -> (forall vs, ~ bound attrs pos kw vs) ->
  gen_init attrs post pos kw = Err TypeError.
Proof.
  intros attrs post pos kw ND NB. unfold gen_init, init_params. destruct (bind_call _ _ _) as [r|e] eqn:E.
  - exfalso. destruct (call_inv _ _ _ _ ND E) as (vs & _ & B). destruct (self_bound _ _ _ _ B) as (ws & _ & W). now apply (NB ws).
  - apply call_err in E. now subst.
Qed.
Lemma construct_gen : forall chain attrs pos kw, generates chain attrs -> construct chain pos kw = gen_init attrs (find_post chain) pos kw.
Proof. intros chain attrs pos kw (d & rest & -> & I & A). unfold construct. cbn [find_init]. now rewrite I, A. Qed.
Lemma all_positional : forall names vs, List.length vs = List.length names -> bound names vs [] vs.
Proof.
  intros names vs L. split; [exact L|]. exists []. split; [now rewrite app_nil_r|]. rewrite L, skipn_all. constructor.
Qed.
Lemma too_many_or_few : forall names vs ws, bound names vs [] ws -> List.length vs = List.length names.
Proof.
  intros names vs ws (L & rest & -> & P). apply Permutation_nil in P. pose proof (skipn_len _ _ _ L) as R.
  destruct rest as [|x rest]; [now rewrite app_nil_r in L|].
  destruct (skipn (List.length vs) names); [discriminate R|discriminate P].
Qed.

(** ** calls of the class *)
(** A call that gives every attribute a value, by position, then by name, makes the object with those values, in the order
    of the annotations, and hands it to [__post_init__]. *)
Theorem C47_init : forall chain attrs pos kw vs,
  generates chain attrs -> NoDup ("self" :: attrs) -> bound attrs pos kw vs ->
  construct chain pos kw = find_post chain (zipw attrs vs).
Proof. intros chain attrs pos kw vs G ND B. rewrite (construct_gen _ _ _ _ G). now apply gen_ok. Qed.
Print Assumptions C47_init.
(** Any other call raises [TypeError]. *)
Theorem C47_rejects : forall chain attrs pos kw,
  generates chain attrs -> NoDup ("self" :: attrs) -> (forall vs, ~ bound attrs pos kw vs) ->
  construct chain pos kw = Err TypeError.
Proof. intros chain attrs pos kw G ND B. rewrite (construct_gen _ _ _ _ G). now apply gen_err. Qed.
Print Assumptions C47_rejects.

(** ** which constructor, which [__post_init__] *)
(** the most derived class with a property *)
Definition nearest (P : idecl -> Prop) (chain : list idecl) (d : idecl) : Prop :=
  exists pre rest, chain = pre ++ d :: rest /\ P d /\ Forall (fun i => ~ P i) pre.
Definition constructs (d : idecl) : Prop := i_init d = true \/ i_own d <> None.
Definition posts (d : idecl) : Prop := i_post d <> None.
Definition post_is (chain : list idecl) (post : env -> res env) : Prop :=
  (exists d, nearest posts chain d /\ i_post d = Some post) \/ (Forall (fun i => ~ posts i) chain /\ post = Ok).
Lemma post_found : forall chain post, post_is chain post -> find_post chain = post.
Proof.
  intros chain post [(d & (pre & rest & -> & _ & F) & E)|[F ->]].
  - induction F as [|i pre N F IH]; cbn; [now rewrite E|]. unfold posts in N. destruct (i_post i); [exfalso; apply N; discriminate|exact IH].
  - induction F as [|i chain N F IH]; [reflexivity|]. cbn. unfold posts in N. destruct (i_post i); [exfalso; apply N; discriminate|exact IH].
Qed.
Lemma init_found : forall chain d, nearest constructs chain d -> find_init chain = find_init [d].
Proof.
  intros chain d (pre & rest & -> & C & F). induction F as [|i pre N F IH].
  - cbn. unfold constructs in C. destruct (i_init d); [reflexivity|]. destruct (i_own d); [reflexivity|]. exfalso. destruct C as [C|C]; congruence.
  - cbn [app find_init]. unfold constructs in N. destruct (i_init i); [exfalso; apply N; now left|].
    destruct (i_own i); [exfalso; apply N; right; discriminate|]. exact IH.
Qed.
(** The constructor is that of the most derived class that has one: the generated one unless the class says [init=False],
    then its own; without any, that of [object], which takes no arguments.  After a generated one, the [__post_init__] of
    the most derived class that has one runs, also when the two come from different classes. *)
Theorem C47_which : forall chain pos kw,
  (forall d vs post, nearest constructs chain d -> i_init d = true -> post_is chain post -> NoDup ("self" :: i_attrs d) ->
     bound (i_attrs d) pos kw vs -> construct chain pos kw = post (zipw (i_attrs d) vs)) /\
  (forall d, nearest constructs chain d -> i_init d = true -> NoDup ("self" :: i_attrs d) ->
     (forall vs, ~ bound (i_attrs d) pos kw vs) -> construct chain pos kw = Err TypeError) /\
  (forall d f, nearest constructs chain d -> i_init d = false -> i_own d = Some f -> construct chain pos kw = f pos kw) /\
  (Forall (fun i => ~ constructs i) chain ->
     construct chain pos kw = if Nat.eqb (List.length pos + List.length kw) 0 then Ok [] else Err TypeError).
Proof.
  intros chain pos kw. unfold construct. split; [|split; [|split]].
  - intros d vs post N I P ND B. rewrite (init_found _ _ N). cbn. rewrite I, (post_found _ _ P). now apply gen_ok.
  - intros d N I ND B. rewrite (init_found _ _ N). cbn. rewrite I. now apply gen_err.
  - intros d f N I O. rewrite (init_found _ _ N). cbn. now rewrite I, O.
  - intros F. assert (E : find_init chain = ObjectInit).
    { induction F as [|i chain N F IH]; [reflexivity|]. cbn. unfold constructs in N. destruct (i_init i); [exfalso; apply N; now left|].
      destruct (i_own i); [exfalso; apply N; right; discriminate|exact IH]. }
    rewrite E. destruct pos, kw; reflexivity.
Qed.
Print Assumptions C47_which.
(** The values are determined by the call. *)
Theorem C47_unique : forall names pos kw vs ws, NoDup names -> bound names pos kw vs -> bound names pos kw ws -> vs = ws.
Proof.
  intros names pos kw vs ws ND A B. pose proof (call_ok _ _ _ _ ND A) as E. rewrite (call_ok _ _ _ _ ND B) in E. injection E as E.
  destruct A as (L & _). destruct B as (M & _). clear - L M E. revert vs ws L M E.
  induction names as [|a names IH]; intros [|v vs] [|w ws] L M E; try discriminate; [reflexivity|].
  cbn in E. injection E as -> E. f_equal. apply IH; [now injection L|now injection M|exact E].
Qed.
Print Assumptions C47_unique.
(** The order of keyword arguments does not matter. *)
Theorem C47_keyword_order : forall chain attrs pos kw kw',
  generates chain attrs -> NoDup ("self" :: attrs) -> Permutation kw kw' ->
  construct chain pos kw' = construct chain pos kw.
Proof.
  intros chain attrs pos kw kw' G ND P.
  assert (T : forall k k', Permutation k k' -> forall vs, bound attrs pos k vs -> bound attrs pos k' vs).
  { intros k k' Q vs (L & rest & E & R). split; [exact L|]. exists rest. split; [exact E|]. eapply Permutation_trans; [apply Permutation_sym; exact Q|exact R]. }
  rewrite !(construct_gen _ _ _ _ G). unfold gen_init, init_params.
  destruct (bind_call ("self" :: attrs) (VNone :: pos) kw) as [r|e] eqn:E.
  - destruct (call_inv _ _ _ _ ND E) as (vs & -> & B). destruct (self_bound _ _ _ _ B) as (ws & -> & W).
    rewrite (call_ok _ _ _ _ ND (bound_self _ _ _ _ (T _ _ P _ W))). reflexivity.
  - destruct (bind_call ("self" :: attrs) (VNone :: pos) kw') as [r|e'] eqn:E'.
    + destruct (call_inv _ _ _ _ ND E') as (vs & -> & B). destruct (self_bound _ _ _ _ B) as (ws & -> & W).
      rewrite (call_ok _ _ _ _ ND (bound_self _ _ _ _ (T _ _ (Permutation_sym P) _ W))) in E. discriminate.
    + apply call_err in E, E'. now subst.
Qed.
Print Assumptions C47_keyword_order.
(** Attribute names of class statements: distinct, and none is [self]. *)
Theorem C47_parameters : forall idf fac prog l c cd, run idf fac [] 0 prog = Ok l -> classes l c = Some cd ->
  NoDup ("self" :: c_attrs cd).
Proof.
  intros idf fac prog l c cd R. revert R. generalize 0%nat as k.
  assert (G : forall prog l0 k, (forall i, In i l0 -> NoDup ("self" :: c_attrs (ci_def i))) -> run idf fac l0 k prog = Ok l ->
    forall i, In i l -> NoDup ("self" :: c_attrs (ci_def i))).
  { clear. induction prog as [|s prog IH]; intros l0 k H R; cbn [run] in R; [injection R as <-; exact H|].
    destruct (class_stmt idf fac l0 k s) as [[i k']|] eqn:CS; [|discriminate]. cbn [rbind] in R. refine (IH _ _ _ R).
    intros j J. apply in_app_iff in J. destruct J as [J|[<-|[]]]; [now apply H|].
    unfold class_stmt in CS. destruct (eval_body _ _ _ _) as [body|]; [|discriminate]. cbn [rbind] in CS.
    destruct (class_body _ _ _ _ _ _) as [[d k2]|]; [|discriminate]. cbn [rbind] in CS.
    destruct (define _ _ _ _ _ _ _ _ _ _) as [i'|] eqn:D; [|discriminate]. cbn [rbind] in CS. injection CS as -> <-.
    destruct (define_attrs _ _ _ _ _ _ _ _ _ _ _ D) as (A & _). rewrite A. unfold hint_attrs. constructor.
    - intros X. apply filter_In in X. destruct X as [_ X]. rewrite andb_true_iff in X. unfold not_self in X. cbn in X. intuition discriminate.
    - apply NoDup_filter, hints_nodup. }
  intros k R CL. unfold classes in CL. destruct (nth_error l c) as [i|] eqn:NE; [|discriminate]. injection CL as <-.
  apply (G prog [] k (fun i H => match H with end) R). eapply nth_error_In; eauto.
Qed.
Print Assumptions C47_parameters.

(** ** the library's own calls of the constructor *)
Section Calls.
Variables (hb : bool) (ct : nat -> option cdef).
Lemma attrs_len : forall names d vs, get_attrs names d = Ok vs -> List.length vs = List.length names.
Proof.
  unfold get_attrs. induction names as [|a names IH]; intros d vs E; cbn [rmapM] in E; [injection E as <-; reflexivity|].
  destruct (assoc a d); [|discriminate]. cbn [rbind] in E. destruct (rmapM _ names) as [ws|] eqn:R; [|discriminate]. injection E as <-.
  cbn. f_equal. eapply IH. exact R.
Qed.
Lemma attrs_nth : forall names d vs a v, get_attrs names d = Ok vs -> In (a, v) (zipw names vs) -> assoc a d = Some v.
Proof.
  unfold get_attrs. induction names as [|b names IH]; intros d vs a v E I; cbn [rmapM] in E; [injection E as <-; contradiction|].
  destruct (assoc b d) as [u|] eqn:A; [|discriminate]. cbn [rbind] in E. destruct (rmapM _ names) as [ws|] eqn:R; [|discriminate]. injection E as <-.
  destruct I as [I|I]; [injection I as <- <-; exact A|]. eapply IH; eauto.
Qed.
(** what the constructor of [chain] does with one value for each attribute, where Exec.v has the object itself *)
Definition then_construct (chain : list idecl) (attrs : list string) (r : res value) : res value :=
  match r with
  | Ok (VObj c ov d) => rdo vs <- get_attrs attrs d; rmap (VObj c ov) (construct chain vs [])
  | r => r
  end.
Lemma calling_step : forall chain n c s w cd, ct c = Some cd -> NoDup (c_attrs cd) ->
  create_calling hb ct chain n c s w =
  (then_construct chain (c_attrs cd) (fst (create_step hb ct (unpack hb ct n) c s w)), snd (create_step hb ct (unpack hb ct n) c s w)).
Proof.
  intros chain n c s w cd E ND. unfold create_calling, create_step. rewrite E.
  destruct (prep false (c_ser cd) (PO c true []) w) as [[x|e] w']; [|reflexivity].
  destruct (fill hb (unpack hb ct n) x s (c_attrs cd) [] w') as [[[[]|e] d] w'']; [|reflexivity].
  cbn [fst snd]. destruct (get_attrs (c_attrs cd) d) as [vs|e] eqn:GA; [|reflexivity]. cbn [rmap rbind then_construct].
  rewrite get_attrs_zip; [reflexivity|exact ND|eapply attrs_len; eauto].
Qed.
(** [create_unpack], [create_unpack_from] and [create_unpack_read] return the object with the values read, after
    [__post_init__] (whose exceptions come out); the bytes consumed do not depend on the constructor. *)
Theorem C47_create : forall chain n c s w cd, ct c = Some cd -> generates chain (c_attrs cd) -> NoDup ("self" :: c_attrs cd) ->
  create_calling hb ct chain n c s w =
  (match fst (create_step hb ct (unpack hb ct n) c s w) with
   | Ok (VObj c' ov d) => rmap (VObj c' ov) (find_post chain d)
   | r => r
   end, snd (create_step hb ct (unpack hb ct n) c s w)).
Proof.
  intros chain n c s w cd E G ND. inversion ND as [|? ? NS NA]; subst. rewrite (calling_step _ _ _ _ _ _ E NA).
  f_equal. unfold create_step. rewrite E. destruct (prep false (c_ser cd) (PO c true []) w) as [[x|e] w']; [|reflexivity].
  destruct (fill hb (unpack hb ct n) x s (c_attrs cd) [] w') as [[[[]|e] d] w'']; [|reflexivity]. cbn [fst].
  destruct (get_attrs (c_attrs cd) d) as [vs|e] eqn:GA; [|reflexivity]. pose proof (attrs_len _ _ _ GA) as L.
  cbn [rmap rbind then_construct]. rewrite get_attrs_zip by assumption. cbn [rbind].
  now rewrite (C47_init _ _ _ _ _ G ND (all_positional _ _ L)).
Qed.
(** Without a [__post_init__] of its own, that is the object of Exec.v, about which the other properties speak. *)
Theorem C47_create_default : forall chain n c s w cd, ct c = Some cd -> generates chain (c_attrs cd) -> NoDup ("self" :: c_attrs cd) ->
  (forall i, In i chain -> i_post i = None) ->
  create_calling hb ct chain n c s w = create_step hb ct (unpack hb ct n) c s w.
Proof.
  intros chain n c s w cd E G ND NP. rewrite (C47_create _ _ _ _ _ _ E G ND).
  assert (FP : forall d, find_post chain d = Ok d).
  { clear - NP. induction chain as [|i chain IH]; [reflexivity|]. intros d. cbn. rewrite (NP i) by now left. apply IH. intros j J. apply NP. now right. }
  destruct (create_step hb ct (unpack hb ct n) c s w) as [[v|e] w']; [|reflexivity]. cbn [fst snd]. f_equal.
  destruct v; try reflexivity. now rewrite FP.
Qed.
(** An [__init__] of the user's ([init=False]) that accepts one value for each serialized attribute, and sets them, can be
    used just the same. *)
Theorem C47_compatible_init : forall chain f n c s w cd, ct c = Some cd -> NoDup (c_attrs cd) -> find_init chain = Own f ->
  (forall vs, List.length vs = List.length (c_attrs cd) -> f vs [] = Ok (zipw (c_attrs cd) vs)) ->
  create_calling hb ct chain n c s w = create_step hb ct (unpack hb ct n) c s w.
Proof.
  intros chain f n c s w cd E ND F H. rewrite (calling_step _ _ _ _ _ _ E ND).
  unfold create_step. rewrite E. destruct (prep false (c_ser cd) (PO c true []) w) as [[x|e] w']; [|reflexivity].
  destruct (fill hb (unpack hb ct n) x s (c_attrs cd) [] w') as [[[[]|e] d] w'']; [|reflexivity]. cbn [fst snd]. f_equal.
  destruct (get_attrs (c_attrs cd) d) as [vs|e] eqn:GA; [|reflexivity]. pose proof (attrs_len _ _ _ GA) as L.
  cbn [rmap rbind then_construct]. rewrite get_attrs_zip by assumption. cbn [rbind]. unfold construct. rewrite F, H by exact L. reflexivity.
Qed.
(** A generated [__init__] inherited by an [init=False] class with another number of attributes cannot: no
    [create_unpack*] of that class ever returns, whatever the bytes; what could be read is lost in a [TypeError]. *)
Theorem C47_inherited_init : forall chain attrs n c s w cd, ct c = Some cd -> NoDup (c_attrs cd) -> find_init chain = Generated attrs ->
  NoDup ("self" :: attrs) -> List.length attrs <> List.length (c_attrs cd) ->
  fst (create_calling hb ct chain n c s w) =
  match fst (create_step hb ct (unpack hb ct n) c s w) with Ok _ => Err TypeError | Err e => Err e end.
Proof.
  intros chain attrs n c s w cd E ND F NA NE. rewrite (calling_step _ _ _ _ _ _ E ND). cbn [fst].
  unfold create_step. rewrite E. destruct (prep false (c_ser cd) (PO c true []) w) as [[x|e] w']; [|reflexivity].
  destruct (fill hb (unpack hb ct n) x s (c_attrs cd) [] w') as [[[[]|e] d] w'']; [|reflexivity]. cbn [fst].
  destruct (get_attrs (c_attrs cd) d) as [vs|e] eqn:GA; [|reflexivity]. pose proof (attrs_len _ _ _ GA) as L.
  cbn [rmap rbind then_construct]. rewrite get_attrs_zip by assumption. cbn [rbind]. unfold construct. rewrite F.
  rewrite gen_err; [reflexivity|exact NA|]. intros ws B. apply too_many_or_few in B. congruence.
Qed.
(** [with_byte_order] makes its new object with the constructor too. *)
Theorem C47_with_byte_order : forall chain bo c ov d cd, ct c = Some cd -> generates chain (c_attrs cd) -> NoDup ("self" :: c_attrs cd) ->
  with_byte_order_calling ct chain bo (VObj c ov d) =
  if border_eqb bo (match ov with Some b => b | None => c_bo cd end) then Ok (VObj c ov d)
  else match Structured_with_byte_order ct bo (VObj c ov d) with
       | Ok (VObj c' ov' d') => rmap (VObj c' ov') (find_post chain d')
       | r => r
       end.
Proof.
  intros chain bo c ov d cd E G ND. unfold with_byte_order_calling, Structured_with_byte_order. rewrite E.
  destruct (border_eqb bo _); [reflexivity|]. destruct (get_attrs (c_attrs cd) d) as [vs|e] eqn:GA; [|reflexivity]. cbn [rbind].
  now rewrite (C47_init _ _ _ _ _ G ND (all_positional _ _ (attrs_len _ _ _ GA))).
Qed.
(** Calling the class with the attributes of an instance makes an instance equal to it, if each of the attributes equals
    itself (a NaN does not). *)
Theorem C47_rebuild : forall chain c ov d cd vs, ct c = Some cd -> generates chain (c_attrs cd) -> NoDup ("self" :: c_attrs cd) ->
  (forall i, In i chain -> i_post i = None) -> get_attrs (c_attrs cd) d = Ok vs ->
  exists d', construct chain vs [] = Ok d' /\ get_attrs (c_attrs cd) d' = Ok vs /\
  (py_eq ct (VObj c ov d) (VObj c None d') = Ok true <-> forall v, In v vs -> py_eq ct v v = Ok true).
Proof.
  intros chain c ov d cd vs E G ND NP GA. pose proof (attrs_len _ _ _ GA) as L. exists (zipw (c_attrs cd) vs).
  assert (FP : forall d, find_post chain d = Ok d).
  { clear - NP. induction chain as [|i chain IH]; [reflexivity|]. intros d. cbn. rewrite (NP i) by now left. apply IH. intros j J. apply NP. now right. }
  inversion ND as [|? ? NS NA]; subst.
  split; [rewrite (C47_init _ _ _ _ _ G ND (all_positional _ _ L)); apply FP|]. split; [now apply get_attrs_zip|].
  rewrite (C37_iff ct _ _ _ _ _ _ _ E).
  assert (Z : forall a v, In (a, v) (zipw (c_attrs cd) vs) -> assoc a (zipw (c_attrs cd) vs) = Some v).
  { intros a v I. apply in_assoc; [|exact I]. now rewrite keys_zipw. }
  split.
  - intros [_ H] v I. assert (exists a, In (a, v) (zipw (c_attrs cd) vs)) as [a J].
    { clear - L I. revert vs L I. induction (c_attrs cd) as [|a l IH]; intros [|u us] L I; try discriminate; [contradiction|].
      destruct I as [->|I]; [exists a; now left|]. destruct (IH us) as [b B]; [now injection L|exact I|]. exists b. now right. }
    destruct (H a) as (x & y & X & Y & Q).
    { rewrite <- (keys_zipw (c_attrs cd) vs L). apply (in_map fst) in J. exact J. }
    rewrite (Z _ _ J) in Y. rewrite (attrs_nth _ _ _ _ _ GA J) in X. congruence.
  - intros H. split; [reflexivity|]. intros a I. rewrite <- (keys_zipw (c_attrs cd) vs L) in I. apply in_map_iff in I.
    destruct I as ([b v] & EQ & J). cbn in EQ. subst b. exists v, v. split; [eapply attrs_nth; eauto|]. split; [now apply Z|].
    apply H. clear - J. revert vs J. induction (c_attrs cd) as [|b l IH]; intros [|u us] J; try contradiction.
    destruct J as [J|J]; [injection J as _ ->; now left|right; eauto].
Qed.
End Calls.
Print Assumptions C47_create.
Print Assumptions C47_create_default.
Print Assumptions C47_compatible_init.
Print Assumptions C47_inherited_init.
Print Assumptions C47_with_byte_order.
Print Assumptions C47_rebuild.

(** ** the hypotheses are met: class 0 ([x], [y], two shorts) and class 2 ([x], [y], [z], padding, [color]) of the sample program *)
Definition point_chain (post : option (env -> res env)) : list idecl := [ID true ["x"; "y"] None post].
Definition add_norm (d : env) : res env :=
  match assoc "x" d, assoc "y" d with
  | Some (VInt x), Some (VInt y) => Ok (assoc_set "norm" (VInt (x * x + y * y)) d)
  | _, _ => Err ValueError
  end.
Definition w0 : world := W (fun _ => 0) (fun _ => None) [] [] 0.
Example C47_met :
  generates (point_chain (Some add_norm)) (c_attrs Point) /\ NoDup ("self" :: c_attrs Point) /\ classes sample_classes 0 = Some Point /\
  bound ["x"; "y"] [VInt 3] [("y", VInt 4)] [VInt 3; VInt 4] /\
  bound ["x"; "y"] [] [("y", VInt 4); ("x", VInt 3)] [VInt 3; VInt 4] /\
  construct (point_chain (Some add_norm)) [VInt 3] [("y", VInt 4)] = Ok [("x", VInt 3); ("y", VInt 4); ("norm", VInt 25)] /\
  construct (point_chain None) [] [("y", VInt 4); ("x", VInt 3)] = Ok [("x", VInt 3); ("y", VInt 4)] /\
  construct (point_chain None) [VInt 3] [] = Err TypeError /\
  construct (point_chain None) [VInt 3; VInt 4; VInt 5] [] = Err TypeError /\
  construct (point_chain None) [VInt 3; VInt 4] [("x", VInt 5)] = Err TypeError /\
  construct (point_chain None) [VInt 3; VInt 4] [("self", VInt 5)] = Err TypeError /\
  construct (point_chain None) [VInt 3; VInt 4] [("z", VInt 5)] = Err TypeError /\
  fst (create_calling false (classes sample_classes) (point_chain (Some add_norm)) 3 0 (SBuf [x03; x00; x04; x00]) w0) =
    Ok (VObj 0 None [("x", VInt 3); ("y", VInt 4); ("norm", VInt 25)]).
Proof.
  split; [exists (ID true ["x"; "y"] None (Some add_norm)), []; repeat split|].
  split; [change (NoDup ["self"; "x"; "y"]); repeat constructor; cbn; intuition discriminate|].
  split; [reflexivity|].
  split; [split; [reflexivity|]; exists [VInt 4]; split; [reflexivity|apply Permutation_refl]|].
  split; [split; [reflexivity|]; exists [VInt 3; VInt 4]; split; [reflexivity|apply perm_swap]|].
  repeat split; vm_compute; reflexivity.
Qed.
(** a class with [init=False] between a class with a [__post_init__] and a class with a generated constructor *)
Example C47_which_met :
  let base := ID true ["x"; "y"] None None in let mid := ID false ["x"; "y"] None None in let top := ID false ["x"; "y"] None (Some add_norm) in
  nearest constructs [top; mid; base] base /\ post_is [top; mid; base] add_norm /\
  construct [top; mid; base] [VInt 3; VInt 4] [] = Ok [("x", VInt 3); ("y", VInt 4); ("norm", VInt 25)] /\
  construct [top; mid] [] [] = Ok [] /\ construct [top; mid] [VInt 3] [] = Err TypeError.
Proof.
  cbv zeta. split.
  { exists [ID false ["x"; "y"] None (Some add_norm); ID false ["x"; "y"] None None], []. split; [reflexivity|]. split; [now left|].
    repeat constructor; intros [H|H]; cbn in H; congruence. }
  split; [left; eexists; split; [exists [], [ID false ["x"; "y"] None None; ID true ["x"; "y"] None None]; split; [reflexivity|]; split; [discriminate|constructor]|reflexivity]|].
  repeat split; vm_compute; reflexivity.
Qed.
(** a user's [__init__] with a default for the last value is compatible; so is one that takes anything *)
Definition default_y (pos : list value) (kw : env) : res env :=
  match pos, kw with
  | [x], [] => Ok [("x", x); ("y", VInt 0)]
  | [x; y], [] => Ok [("x", x); ("y", y)]
  | _, _ => Err TypeError
  end.
Example C47_compatible_met :
  find_init [ID false ["x"; "y"] (Some default_y) None] = Own default_y /\
  (forall vs, List.length vs = List.length (c_attrs Point) -> default_y vs [] = Ok (zipw (c_attrs Point) vs)) /\
  construct [ID false ["x"; "y"] (Some default_y) None] [VInt 7] [] = Ok [("x", VInt 7); ("y", VInt 0)].
Proof.
  split; [reflexivity|]. split; [|reflexivity]. intros [|x [|y [|z vs]]] L; try discriminate. reflexivity.
Qed.

(** ** two things one might expect that do not hold *)
(** "A class statement that is accepted can be read": not with [init=False] on a class that adds an attribute and does not
    define [__init__]; the [__init__] of the base class is found. *)
Definition inherited_chain : list idecl := [ID false ["x"; "y"; "z"; "color"] None None; ID true ["x"; "y"] None None].
Theorem C47_inherited_init_refuted :
  ~ (forall idf fac prog l c cd chain n b, run idf fac [] 0 prog = Ok l -> classes l c = Some cd ->
       (exists i rest, chain = i :: rest /\ i_attrs i = c_attrs cd) ->
       forall v, fst (create_unpack false (classes l) n c b w0) = Ok v ->
       exists v', fst (create_calling false (classes l) chain n c (SBuf b) w0) = Ok v').
Proof.
  intros H.
  assert (CL : exists cd, classes sample_classes 2 = Some cd /\ c_attrs cd = ["x"; "y"; "z"; "color"]).
  { eexists. split; [vm_compute; reflexivity|reflexivity]. }
  destruct CL as (cd & CL & AT).
  specialize (H _ _ _ _ 2%nat cd inherited_chain 3%nat [x03; x00; x04; x00; x05; x00; x00; x00; x01] sample_ran CL).
  assert (G : exists i rest, inherited_chain = i :: rest /\ i_attrs i = c_attrs cd).
  { exists (ID false ["x"; "y"; "z"; "color"] None None), [ID true ["x"; "y"] None None]. split; [reflexivity|]. now rewrite AT. }
  specialize (H G). clear - H.
  assert (E : exists v, fst (create_unpack false (classes sample_classes) 3 2 [x03; x00; x04; x00; x05; x00; x00; x00; x01] w0) = Ok v).
  { eexists. vm_compute. reflexivity. }
  destruct E as (v & E). destruct (H v E) as (v' & H'). vm_compute in H'. discriminate.
Qed.
(** "An [__init__] written in the class body is the constructor": not without [init=False]; the generated one replaces it. *)
Theorem C47_own_init_refuted :
  ~ (forall attrs f post rest pos kw, construct (ID true attrs (Some f) post :: rest) pos kw = f pos kw).
Proof. intros H. specialize (H ["x"; "y"] default_y None [] [VInt 7] []). vm_compute in H. discriminate. Qed.
Print Assumptions C47_inherited_init_refuted.
Print Assumptions C47_own_init_refuted.
