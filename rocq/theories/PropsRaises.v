(** Property C52: which exceptions reading arbitrary bytes can raise, read off the class statements ([extra] in
    Raises.v). *)
From Verif Require Import Base Floats Value StructMod Format Ser Exec Pure BaseFacts SerFacts RefPack RefUnpack User DecFacts Sample
  RoundTrip PropsRoundTrip Hints HintFacts Surface SerShape Programs ProgramFacts Accept AcceptProg PropsProgram PropsAccept WireSpec Wires PropsWire ReadSpec Reads
  PropsReads Adding Raises Reached.
Open Scope string_scope. Open Scope list_scope. Open Scope Z_scope.

(** ** programs *)
(** a program that runs, of classes inside the fragment of Pure.v *)
Definition readable (idf : nat -> list nat -> nat) (fac : akind -> list pyh -> nat) (prog : list stmt) (l : list cinfo)
  (sl : list sclass) (md : umode) : Prop :=
  run idf fac [] 0 prog = Ok l /\ check_prog [] 0 prog = Some sl /\
  (exists allow, healthy (classes l) allow) /\ classes_hu (classes l) md.

Lemma defined_more : forall ct ct' x, (forall c, ct c <> None -> ct' c <> None) -> defined ct x = true -> defined ct' x = true.
Proof.
  intros ct ct' x H. induction x using hx_ind'; cbn [defined]; auto; intros D.
  - rewrite forallb_forall in *. rewrite Forall_forall in *. auto.
  - apply andb_prop in D as [D1 D2]. apply andb_true_intro. split.
    + rewrite forallb_forall in *. rewrite Forall_forall in *. auto.
    + destruct d; auto.
  - apply andb_prop in D as [D D2]. apply andb_prop in D as [D0 D1]. apply andb_true_intro. split; [apply andb_true_intro; split|].
    + auto.
    + rewrite forallb_forall in *. rewrite Forall_forall in *. auto.
    + destruct d; auto.
  - destruct (ct c) eqn:E; [|discriminate]. specialize (H c). destruct (ct' c); [reflexivity|]. exfalso. apply H; congruence.
Qed.
Definition below (k : nat) (c : nat) : option cdef := if Nat.ltb c k then Some (CD [] SNull BO_LE false) else None.
Lemma eval_defined : forall k F x, eval_ok k F x = true -> defined (below k) x = true.
Proof.
  intros k F x. induction x using hx_ind'; cbn [eval_ok defined]; auto; intros E.
  - apply IHx. apply andb_prop in E as [_ E]. repeat (apply andb_prop in E as [E _]). exact E.
  - rewrite forallb_forall in *. rewrite Forall_forall in *. auto.
  - apply IHx. repeat (apply andb_prop in E as [E _]). exact E.
  - apply andb_prop in E as [E E2]. apply andb_prop in E as [_ E1]. apply andb_true_intro. split.
    + rewrite forallb_forall in *. rewrite Forall_forall in *. intros p I. apply H0; [exact I|]. specialize (E1 p I). repeat (apply andb_prop in E1 as [E1 _]). exact E1.
    + destruct d as [y|]; [|reflexivity]. apply (H1 y eq_refl). repeat (apply andb_prop in E2 as [E2 _]). exact E2.
  - apply andb_prop in E as [E E2]. apply andb_prop in E as [E E1]. apply andb_prop in E as [_ E0]. apply andb_true_intro. split; [apply andb_true_intro; split|].
    + apply IHx. repeat (apply andb_prop in E0 as [E0 _]). exact E0.
    + rewrite forallb_forall in *. rewrite Forall_forall in *. intros p I. apply H0; [exact I|]. specialize (E1 p I). repeat (apply andb_prop in E1 as [E1 _]). exact E1.
    + destruct d as [y|]; [|reflexivity]. apply (H1 y eq_refl). repeat (apply andb_prop in E2 as [E2 _]). exact E2.
  - unfold below. now rewrite E.
Qed.
Definition all_defined (k : nat) (d : list (string * hx)) : Prop := forall p, In p d -> defined (below k) (snd p) = true.
Lemma put_defined : forall k a x d, all_defined k d -> defined (below k) x = true -> all_defined k (put a x d).
Proof.
  intros k a x d D X [b y] I. rewrite put_set in I. apply assoc_set_in in I as [->|I]; [exact X|exact (D (b, y) I)].
Qed.
Lemma body_defined : forall k F fut n body d d' n', all_defined k body -> all_defined k d -> body_check F fut n body d = Some (d', n') -> all_defined k d'.
Proof.
  intros k F fut n body. revert n. induction body as [|[a x] body IH]; intros n d d' n' B D E; [injection E as <- _; exact D|].
  assert (B' : all_defined k body) by (intros p I; apply B; now right). assert (X : defined (below k) x = true) by (exact (B (a, x) (or_introl eq_refl))).
  cbn [body_check] in E. destruct (String.eqb a "_" && negb fut).
  - destruct (use_ok F x); [|discriminate]. destruct (padding x); eapply IH; try exact E; auto using put_defined.
  - eapply IH; try exact E; auto using put_defined.
Qed.
Lemma update_defined : forall k e d, all_defined k d -> all_defined k e -> all_defined k (fold_left (fun d kv => put (fst kv) (snd kv) d) e d).
Proof.
  intros k e. induction e as [|[a x] e IH]; intros d D E; [exact D|]. cbn [fold_left]. apply IH; [|intros p I; apply E; now right].
  apply put_defined; [exact D|]. exact (E (a, x) (or_introl eq_refl)).
Qed.
Lemma defined_mono : forall k k' d, (k <= k')%nat -> all_defined k d -> all_defined k' d.
Proof.
  intros k k' d L D p I. apply (defined_more (below k)); [|now apply D]. intros c. unfold below. destruct (Nat.ltb_spec c k), (Nat.ltb_spec c k'); try congruence; lia.
Qed.
Lemma prog_defined : forall prog l n sl, (forall sc, In sc l -> all_defined (List.length l) (sc_anns sc)) -> check_prog l n prog = Some sl ->
  forall sc, In sc sl -> all_defined (List.length sl) (sc_anns sc).
Proof.
  induction prog as [|s prog IH]; intros l n sl H E; [injection E as <-; exact H|]. cbn [check_prog] in E.
  destruct (check_stmt l n s) as [[c n']|] eqn:C; [|discriminate]. eapply IH; [|exact E]. clear IH E.
  unfold check_stmt in C. destruct (forallb _ (st_body s)) eqn:B; [|discriminate].
  destruct (body_check _ _ _ _ _) as [[d k']|] eqn:BC; [|discriminate].
  assert (BD : all_defined (List.length l) (st_body s)).
  { intros p I. rewrite forallb_forall in B. eapply eval_defined. exact (B p I). }
  pose proof (body_defined _ _ _ _ _ _ _ _ BD (fun p (I : In p []) => match I with end) BC) as DD.
  assert (INH : forall inh, (match st_base s with
      | None => Some own_anns
      | Some b => match nth_error l b with
                  | Some c => match st_mode s with STRICT => if border_eqb (sc_bo c) (st_bo s) then Some (sc_anns c) else None | OVERRIDE => Some (sc_anns c) end
                  | None => None
                  end
      end) = Some inh -> all_defined (List.length l) inh).
  { intros inh Q. destruct (st_base s) as [b|].
    - destruct (nth_error l b) as [c0|] eqn:N; [|discriminate]. apply nth_error_In in N.
      destruct (st_mode s); [destruct (border_eqb _ _); [|discriminate]|]; injection Q as <-; auto.
    - injection Q as <-. intros p I. cbn in I. repeat (destruct I as [<-|I]; [reflexivity|]). destruct I. }
  destruct (match st_base s with None => Some own_anns | Some _ => _ end) as [inh|]; [|discriminate]. specialize (INH inh eq_refl).
  destruct (_ && _); [|discriminate]. injection C as <- _. rewrite app_length. cbn [List.length].
  intros sc I. apply (defined_mono (List.length l)); [lia|]. apply in_app_or in I as [I|[<-|[]]]; [auto|]. cbn [sc_anns]. apply update_defined; assumption.
Qed.
Section Program.
Variables (hb : bool) (md : umode) (idf : nat -> list nat -> nat) (fac : akind -> list pyh -> nat) (prog : list stmt) (l : list cinfo) (sl : list sclass).
Hypothesis R : readable idf fac prog l sl md.
Variable U : exn -> Prop.
Hypothesis US : forall e, usual e -> U e.
Hypothesis UP : forall e, prog_extra md sl e -> U e.
Lemma program_rel : classes_rel sl l.
Proof.
  destruct R as (RU & CK & _). pose proof (prog_rel idf fac prog [] [] 0 nothing_defined) as P. rewrite CK in P.
  destruct P as (l' & Q & CR). assert (l' = l) as -> by congruence. exact CR.
Qed.
Lemma class_found : forall c cd, classes l c = Some cd -> exists sc, nth_error sl c = Some sc /\ In sc sl /\ c_attrs cd = sc_attrs sc /\ made_from sc cd.
Proof.
  intros c cd C. unfold classes in C. destruct (nth_error l c) as [i|] eqn:N; [|discriminate]. injection C as <-. destruct program_rel as [L CR].
  destruct (nth_error sl c) as [sc|] eqn:M.
  - exists sc. destruct (CR c sc i M N) as (_ & _ & _ & A & F). split; [reflexivity|]. split; [now apply nth_error_In in M|]. split; assumption.
  - apply nth_error_None in M. assert (c < List.length l)%nat by (apply nth_error_Some; congruence). lia.
Qed.
Lemma fields_defined : forall sc p, In sc sl -> In p (fields_of (sc_anns sc)) -> defined (classes l) (snd p) = true.
Proof.
  intros sc p I IP. destruct R as (_ & CK & _). pose proof (prog_defined prog [] 0 sl (fun sc (F : In sc []) => match F with end) CK sc I p) as Q.
  unfold fields_of in IP. apply filter_In in IP as [IP _]. apply (defined_more (below (List.length sl))); [|now apply Q].
  intros c. unfold below, classes. destruct (Nat.ltb_spec c (List.length sl)); [|congruence]. intros _. destruct program_rel as [L _].
  assert (N : nth_error l c <> None) by (apply nth_error_Some; lia). destruct (nth_error l c); [discriminate|contradiction].
Qed.
Lemma fields_tame : forall (K : pobj -> Prop) (lost : Prop) sc cd, In sc sl -> made_from sc cd -> (forall o, K o -> okself (classes l) o) \/ lost ->
  (forall p e, In p (fields_of (sc_anns sc)) -> extra K md lost (snd p) e -> U e) -> tame (classes l) md U K (c_ser cd).
Proof.
  intros K lost sc cd I (fin & id & sers & s & SU & -> & A) LO X. apply tame_bo. eapply ssum_tame; [|exact SU].
  pose proof (fun p => fields_defined sc p I) as D.
  apply all2_F2 in A. revert A X D. generalize (fields_of (sc_anns sc)). intros fs. revert sers SU. intros sers _. revert sers.
  induction fs as [|p fs IH]; intros sers A X D; inversion A; subst; constructor.
  - eapply (made_tame (classes l) md U K lost LO); [eassumption|apply D; now left|]. intros e. apply X. now left.
  - apply IH; [assumption| |]; intros; [eapply X|apply D]; eauto; now right.
Qed.
Lemma classes_tame : forall c cd, classes l c = Some cd -> class_tame hb (classes l) md U true c (c_attrs cd, []) (c_ser cd).
Proof.
  intros c cd C. destruct (class_found c cd C) as (sc & _ & I & A & M). destruct (in_dec string_dec "cls" (c_attrs cd)) as [IC|NC].
  - apply (class_tame_all hb (classes l) md U (fun _ => True)); [|auto]. apply (fields_tame _ True sc cd I M); [auto|]. intros p e IP E. apply UP. apply (any_in _ sl sc I).
    unfold class_extra. apply (any_in _ _ p IP). eapply extra_impl; [| |exact E]; [auto|]. now rewrite <- A.
  - apply (class_tame_all hb (classes l) md U (okself (classes l))).
    + apply (fields_tame _ False sc cd I M); [auto|]. intros p e IP E. apply UP. apply (any_in _ sl sc I).
      unfold class_extra. apply (any_in _ _ p IP). eapply extra_impl; [| |exact E]; [auto|intros []].
    + intros q o. apply met_self; [congruence|exact NC].
Qed.
Lemma create_raises : forall n c s w e, (c < List.length sl)%nat -> md_of s = md -> srcok s w ->
  fst (create_step hb (classes l) (unpack hb (classes l) n) c s w) = Err e -> U e.
Proof.
  intros n c s w e LT M OK E. destruct R as (_ & _ & (allow & H) & HU). destruct (user_create hb (classes l) allow md n c s w H HU M OK) as [A _].
  rewrite A in E. eapply (dcreate_errs hb (classes l) md U US classes_tame n c (suffix s w)).
  - unfold classes. destruct program_rel as [L _]. assert (N : nth_error l c <> None) by (apply nth_error_Some; lia). destruct (nth_error l c); [discriminate|contradiction].
  - destruct (dcreate hb (classes l) md n c (suffix s w)); cbn in E; [discriminate|]. injection E as ->. reflexivity.
Qed.
Lemma refill_raises : forall n c sc ov d s w e, nth_error sl c = Some sc -> (forall e, refill_extra md sc e -> U e) -> md_of s = md -> srcok s w ->
  fst (fst (Structured_unpack hb (classes l) n c ov d s w)) = Err e -> U e.
Proof.
  intros n c sc ov d s w e SC UR M OK E. destruct R as (_ & _ & (allow & H) & HU).
  destruct (user_refill hb (classes l) allow md n c ov d s w H HU M OK) as [A _]. rewrite A in E.
  assert (CL : exists cd, classes l c = Some cd).
  { unfold classes. destruct program_rel as [L _]. assert (LT : (c < List.length sl)%nat) by (apply nth_error_Some; congruence).
    assert (N : nth_error l c <> None) by (apply nth_error_Some; lia). destruct (nth_error l c); [cbn; eauto|contradiction]. }
  destruct CL as (cd & C). destruct (class_found c cd C) as (sc' & SC' & I & AT & MF). assert (sc' = sc) as -> by congruence.
  eapply (drefill_errs hb (classes l) md U US classes_tame n c ov d (suffix s w) cd C).
  - apply (class_tame_all hb (classes l) md U (fun _ => True)); [|auto]. assert (T : tame (classes l) md U (fun _ => True) (c_ser cd)).
    { apply (fields_tame _ True sc cd I MF); [auto|]. intros p e0 IP E0. apply UR. apply (any_in _ _ p IP). exact E0. }
    unfold obj_ser. destruct ov; [now apply tame_bo|exact T].
  - destruct (fst (drefill_step _ _ c ov d (suffix s w))); cbn in E; [discriminate|]. injection E as ->. reflexivity.
Qed.
End Program.

(** ** the exceptions of reading *)
(** Whatever the bytes: create_unpack raises struct.error, ValueError or RecursionError, or what a hint of the program
    adds to them. *)
Theorem C52_create_unpack : forall hb idf fac prog l sl n c b w e, readable idf fac prog l sl UBuf -> (c < List.length sl)%nat ->
  fst (create_unpack hb (classes l) n c b w) = Err e -> usual e \/ prog_extra UBuf sl e.
Proof.
  intros hb idf fac prog l sl n c b w e R LT E.
  exact (create_raises hb UBuf idf fac prog l sl R (fun e => usual e \/ prog_extra UBuf sl e) (fun _ H => or_introl H) (fun _ H => or_intror H) n c (SBuf b) w e LT eq_refl I E).
Qed.
Print Assumptions C52_create_unpack.
Theorem C52_create_unpack_from : forall hb idf fac prog l sl n c b off w e, readable idf fac prog l sl UFrom -> (c < List.length sl)%nat ->
  0 <= off <= blen b ->
  fst (create_unpack_from hb (classes l) n c b off w) = Err e -> usual e \/ prog_extra UFrom sl e.
Proof.
  intros hb idf fac prog l sl n c b off w e R LT OFF E.
  exact (create_raises hb UFrom idf fac prog l sl R (fun e => usual e \/ prog_extra UFrom sl e) (fun _ H => or_introl H) (fun _ H => or_intror H) n c (SFrom b off) w e LT eq_refl OFF E).
Qed.
Print Assumptions C52_create_unpack_from.
Theorem C52_create_unpack_read : forall hb idf fac prog l sl n c w e, readable idf fac prog l sl URead -> (c < List.length sl)%nat ->
  0 <= w_pos w ->
  fst (create_unpack_read hb (classes l) n c w) = Err e -> usual e \/ prog_extra URead sl e.
Proof.
  intros hb idf fac prog l sl n c w e R LT POS E.
  exact (create_raises hb URead idf fac prog l sl R (fun e => usual e \/ prog_extra URead sl e) (fun _ H => or_introl H) (fun _ H => or_intror H) n c SRead w e LT eq_refl POS E).
Qed.
Print Assumptions C52_create_unpack_read.
(** Unpacking into an existing instance: also what the hints of its own class add when there is an object. *)
Theorem C52_unpack : forall hb md idf fac prog l sl n c sc ov d s w e, readable idf fac prog l sl md -> nth_error sl c = Some sc ->
  md_of s = md -> srcok s w ->
  fst (fst (Structured_unpack hb (classes l) n c ov d s w)) = Err e -> usual e \/ prog_extra md sl e \/ refill_extra md sc e.
Proof.
  intros hb md idf fac prog l sl n c sc ov d s w e R SC M OK E.
  exact (refill_raises hb md idf fac prog l sl R (fun e => usual e \/ prog_extra md sl e \/ refill_extra md sc e) (fun _ H => or_introl H)
    (fun e H => or_intror (or_introl H)) n c sc ov d s w e SC (fun e H => or_intror (or_intror H)) M OK E).
Qed.
Print Assumptions C52_unpack.

(** ** the callables on the objects that they get *)
Section Sharp.
Variables (hb : bool) (md : umode) (idf : nat -> list nat -> nat) (fac : akind -> list pyh -> nat) (prog : list stmt) (l : list cinfo) (sl : list sclass).
Hypothesis R : reading idf fac prog l sl md.
Variable U : exn -> Prop.
Hypothesis US : forall e, usual e -> U e.
Hypothesis UP : forall e, prog_adds hb md sl e -> U e.
Lemma sharp_readable : readable idf fac prog l sl md.
Proof. destruct R as (A & B & _ & C & D). repeat split; assumption. Qed.
(** one class, in byte order [bo], from the attributes [d0] *)
Lemma sharp_class : forall c cd sc px bo d0 ov (lost : Prop), classes l c = Some cd -> nth_error sl c = Some sc ->
  match ov with Some b => bo = b | None => bo = sc_bo sc end ->
  (forall xs o, reached hb md sl c px bo (sc_attrs sc) d0 xs o -> okself (classes l) o) \/ lost ->
  (forall xs x ys e, map snd (fields_of (sc_anns sc)) = xs ++ x :: ys -> extra (reached hb md sl c px bo (sc_attrs sc) d0 xs) md lost x e -> U e) ->
  class_tame hb (classes l) md U px c (c_attrs cd, d0) (obj_ser cd ov).
Proof.
  intros c cd sc px bo d0 ov lost C SC BO LO X. destruct (class_found md idf fac prog l sl sharp_readable c cd C) as (sc' & SC' & I & AT & MF).
  assert (sc' = sc) as -> by congruence. clear SC'.
  pose proof (program_rel md idf fac prog l sl sharp_readable) as CR. destruct R as (_ & _ & RG & (allow & TT & CO) & _).
  assert (HC : forall c cd, classes l c = Some cd -> hc (classes l) TT c (c_ser cd) = true) by (intros c0 cd0 E; destruct CO as [CO _]; apply (CO c0 cd0 E)).
  destruct (nth_error l c) as [i|] eqn:NI; [|unfold classes in C; rewrite NI in C; discriminate].
  assert (cd = ci_def i) as -> by (unfold classes in C; rewrite NI in C; now injection C).
  destruct (class_facts sl l CR RG TT HC c sc i SC NI) as (sers & _ & _ & A2 & HS & FL & RL & ATM & _).
  assert (D : forall x, In x (map snd (fields_of (sc_anns sc))) -> defined (classes l) x = true).
  { intros x IX. apply in_map_iff in IX as (p & <- & IP). exact (fields_defined md idf fac prog l sl sharp_readable sc p I IP). }
  assert (TF : tame (classes l) md U (fun _ => False) (c_ser (ci_def i))).
  { apply (fields_tame md idf fac prog l sl sharp_readable U (fun _ => False) lost sc (ci_def i) I MF); [left; intros ? []|]. intros p e IP E.
    assert (IX : In (snd p) (map snd (fields_of (sc_anns sc)))) by (now apply in_map). apply in_split in IX as (xs & ys & Q).
    apply (X xs (snd p) ys e Q). eapply extra_impl; [| |exact E]; [intros ? []|auto]. }
  assert (TX : forall xs1 x xs2 b y, map snd (fields_of (sc_anns sc)) = xs1 ++ x :: xs2 -> made b x y ->
     tame (classes l) md U (reached hb md sl c px bo (sc_attrs sc) d0 xs1) y).
  { intros xs1 x xs2 b y E M. eapply (made_tame (classes l) md U _ lost).
    - destruct LO as [LO|LO]; [left; intros o; apply LO|now right].
    - exact M.
    - apply D. rewrite E. apply in_or_app. right. now left.
    - intros e. exact (X xs1 x xs2 e E). }
  rewrite AT. unfold obj_ser. destruct ov as [b|]; subst bo.
  - apply (fields_class_tame hb md sl l CR RG TT HC U) with (bo := b) (xs := map snd (fields_of (sc_anns sc))) (sers := map (with_bo b) sers).
    + eapply all2_bo; eauto.
    + apply forallb_forall. intros y IY. apply in_map_iff in IY as (z & <- & IZ). rewrite forallb_forall in HS. specialize (HS z IZ). now apply wb_hc.
    + eapply all2_field. eapply all2_bo; eauto.
    + rewrite runs_bo. apply Forall_forall. intros y IY. apply in_map_iff in IY as (z & <- & IZ). apply atom_bo. rewrite Forall_forall in ATM. auto.
    + now apply flat_bo.
    + rewrite (parts_bo b _ FL), runs_bo. now apply rel_bo.
    + now apply tame_bo.
    + intros xs1 x xs2 y E M. eapply TX; eauto.
  - apply (fields_class_tame hb md sl l CR RG TT HC U) with (bo := sc_bo sc) (xs := map snd (fields_of (sc_anns sc))) (sers := sers); auto.
    + eapply all2_field; eauto.
    + intros xs1 x xs2 y E M. eapply TX; eauto.
Qed.
Lemma sharp_classes : forall c cd, classes l c = Some cd -> class_tame hb (classes l) md U true c (c_attrs cd, []) (c_ser cd).
Proof.
  intros c cd C. destruct (class_found md idf fac prog l sl sharp_readable c cd C) as (sc & SC & I & AT & MF).
  apply (sharp_class c cd sc true (sc_bo sc) [] None (In "cls" (sc_attrs sc)) C SC eq_refl).
  - destruct (in_dec string_dec "cls" (sc_attrs sc)) as [IC|NC]; [now right|left]. intros xs o. apply reached_self; [congruence|exact NC].
  - intros xs x ys e E X. apply UP. exists c, sc. split; [exact SC|]. exists xs, x, ys. auto.
Qed.
Lemma sharp_create : forall n c s w e, (c < List.length sl)%nat -> md_of s = md -> srcok s w ->
  fst (create_step hb (classes l) (unpack hb (classes l) n) c s w) = Err e -> U e.
Proof.
  intros n c s w e LT M OK E. destruct R as (_ & _ & _ & (allow & H) & HU). destruct (user_create hb (classes l) allow md n c s w H HU M OK) as [A _].
  rewrite A in E. eapply (dcreate_errs hb (classes l) md U US sharp_classes n c (suffix s w)).
  - unfold classes. destruct (program_rel md idf fac prog l sl sharp_readable) as [L _]. assert (N : nth_error l c <> None) by (apply nth_error_Some; lia).
    destruct (nth_error l c); [discriminate|contradiction].
  - destruct (dcreate hb (classes l) md n c (suffix s w)); cbn in E; [discriminate|]. injection E as ->. reflexivity.
Qed.
Lemma sharp_refill : forall n c sc ov d s w e, nth_error sl c = Some sc ->
  (forall e, refill_adds hb md sl c sc (match ov with Some b => b | None => sc_bo sc end) d e -> U e) -> md_of s = md -> srcok s w ->
  fst (fst (Structured_unpack hb (classes l) n c ov d s w)) = Err e -> U e.
Proof.
  intros n c sc ov d s w e SC UR M OK E. destruct R as (_ & _ & _ & (allow & H) & HU).
  destruct (user_refill hb (classes l) allow md n c ov d s w H HU M OK) as [A _]. rewrite A in E.
  assert (CL : exists cd, classes l c = Some cd).
  { unfold classes. destruct (program_rel md idf fac prog l sl sharp_readable) as [L _]. assert (LT : (c < List.length sl)%nat) by (apply nth_error_Some; congruence).
    assert (N : nth_error l c <> None) by (apply nth_error_Some; lia). destruct (nth_error l c); [cbn; eauto|contradiction]. }
  destruct CL as (cd & C).
  eapply (drefill_errs hb (classes l) md U US sharp_classes n c ov d (suffix s w) cd C).
  - apply (sharp_class c cd sc false (match ov with Some b => b | None => sc_bo sc end) d ov True C SC); [destruct ov; reflexivity|now right|].
    intros xs x ys e0 EX X. apply UR. exists xs, x, ys. auto.
  - destruct (fst (drefill_step _ _ c ov d (suffix s w))); cbn in E; [discriminate|]. injection E as ->. reflexivity.
Qed.
End Sharp.
(** For regular classes the conditions and deciders need only be taken on the objects that they get: [reached] in
    Reached.v says what has been read, out of some bytes, before the field. *)
Theorem C52_create_reached : forall hb md idf fac prog l sl n c s w e, reading idf fac prog l sl md -> (c < List.length sl)%nat -> md_of s = md -> srcok s w ->
  fst (create_step hb (classes l) (unpack hb (classes l) n) c s w) = Err e -> usual e \/ prog_adds hb md sl e.
Proof.
  intros hb md idf fac prog l sl n c s w e R LT M OK E.
  exact (sharp_create hb md idf fac prog l sl R (fun e => usual e \/ prog_adds hb md sl e) (fun _ H => or_introl H) (fun _ H => or_intror H) n c s w e LT M OK E).
Qed.
Print Assumptions C52_create_reached.
Theorem C52_unpack_reached : forall hb md idf fac prog l sl n c sc ov d s w e, reading idf fac prog l sl md -> nth_error sl c = Some sc -> md_of s = md -> srcok s w ->
  fst (fst (Structured_unpack hb (classes l) n c ov d s w)) = Err e ->
  usual e \/ prog_adds hb md sl e \/ refill_adds hb md sl c sc (match ov with Some b => b | None => sc_bo sc end) d e.
Proof.
  intros hb md idf fac prog l sl n c sc ov d s w e R SC M OK E.
  exact (sharp_refill hb md idf fac prog l sl R (fun e => usual e \/ prog_adds hb md sl e \/ refill_adds hb md sl c sc (match ov with Some b => b | None => sc_bo sc end) d e)
    (fun _ H => or_introl H) (fun _ H => or_intror (or_introl H)) n c sc ov d s w e SC (fun _ H => or_intror (or_intror H)) M OK E).
Qed.
Print Assumptions C52_unpack_reached.

(** ** classes without callables, Self and unicode *)
Fixpoint simple (x : hx) : bool :=
  match x with
  | XBasic _ | XPad _ | XPascal _ | XChar _ | XClass _ | XClassVar _ | XPlain _ => true
  | XArray _ _ y => simple y
  | XTuple l => forallb simple l
  | _ => false
  end.
Lemma simple_extra : forall K md lost x e, simple x = true -> ~ extra K md lost x e.
Proof.
  intros K md lost x e. induction x using hx_ind'; cbn [simple extra]; try discriminate; auto.
  intros S A. apply any_ex in A as (y & I & A). rewrite forallb_forall in S. rewrite Forall_forall in H. exact (H y I (S y I) A).
Qed.
Lemma simple_prog : forall md sl e, forallb (fun sc => forallb (fun p => simple (snd p)) (fields_of (sc_anns sc))) sl = true -> ~ prog_extra md sl e.
Proof.
  intros md sl e S A. apply any_ex in A as (sc & I & A). apply any_ex in A as (p & J & A). rewrite forallb_forall in S. specialize (S sc I).
  rewrite forallb_forall in S. exact (simple_extra _ _ _ _ _ (S p J) A).
Qed.
(** Numbers, byte strings, paddings, arrays, tuples and nested classes: only the three, with all methods. *)
Theorem C52_simple : forall hb md idf fac prog l sl n c s w e, readable idf fac prog l sl md ->
  forallb (fun sc => forallb (fun p => simple (snd p)) (fields_of (sc_anns sc))) sl = true ->
  (c < List.length sl)%nat -> md_of s = md -> srcok s w ->
  fst (create_step hb (classes l) (unpack hb (classes l) n) c s w) = Err e \/
  (exists ov d, fst (fst (Structured_unpack hb (classes l) n c ov d s w)) = Err e) -> usual e.
Proof.
  intros hb md idf fac prog l sl n c s w e R S LT M OK E.
  assert (P : forall e, prog_extra md sl e -> usual e) by (intros e0 A; destruct (simple_prog md sl e0 S A)).
  destruct E as [E|(ov & d & E)].
  - exact (create_raises hb md idf fac prog l sl R usual (fun _ H => H) P n c s w e LT M OK E).
  - destruct (nth_error sl c) as [sc|] eqn:N; [|apply nth_error_None in N; lia].
    refine (refill_raises hb md idf fac prog l sl R usual (fun _ H => H) P n c sc ov d s w e N _ M OK E).
    intros e0 A. apply any_ex in A as (p & J & A). rewrite forallb_forall in S. specialize (S sc (nth_error_In _ _ N)). rewrite forallb_forall in S.
    destruct (simple_extra _ _ _ _ _ (S p J) A).
Qed.
Print Assumptions C52_simple.

(** ** the three exceptions are not all *)
Definition odd_prog : list stmt :=
  [ Stmt [("text", XUnicode (KUint CB) latin1)] None BO_DEFAULT STRICT false;
    Stmt [("kind", XBasic CB); ("opt", XCond (XBasic CB) (fld "kind") [VInt 0])] None BO_DEFAULT STRICT false;
    Stmt [("kind", XArray (inr CB) None (XBasic CB)); ("body", XBack 4 [XBasic CB] (fld "kind") [(VInt 0, XBasic CB)] None)] None BO_DEFAULT STRICT false;
    Stmt [("kids", XArray (inr CB) None XSelf)] None BO_DEFAULT STRICT false;
    Stmt [("cls", XBasic CB); ("kids", XArray (inr CB) None XSelf)] None BO_DEFAULT STRICT false ].
Definition odd_run := run (fun _ _ => 5%nat) (fun _ _ => 6%nat) [] 0 odd_prog.
Definition odd_classes : list cinfo := match odd_run with Ok l => l | Err _ => [] end.
Definition odd_stmts : list sclass := match check_prog [] 0 odd_prog with Some sl => sl | None => [] end.
Lemma odd_readable : forall md, readable (fun _ _ => 5%nat) (fun _ _ => 6%nat) odd_prog odd_classes odd_stmts md.
Proof.
  intros md. assert (P : program md (fun _ _ => 5%nat) (fun _ _ => 6%nat) odd_prog odd_classes).
  { constructor.
    - vm_compute. reflexivity.
    - apply frag_check. destruct md; vm_compute; reflexivity.
    - intros c _. do 5 (destruct c as [|c]; [vm_compute; reflexivity|]). destruct c; reflexivity.
    - apply (class_check odd_classes 5 (fun _ cd => sized (c_ser cd))); vm_compute; reflexivity.
    - exists (fun _ => 0%nat), (fun _ => 1%nat). intros c cd C. apply andb_prop.
      refine (class_check odd_classes 5 (fun _ cd => ordered (fun _ => 0%nat) (fun _ => 1%nat) (c_ser cd) && older (fun _ => 0%nat) (fun _ => 1%nat) 1 (c_ser cd)) _ _ c cd C);
        vm_compute; reflexivity. }
  split; [exact (pr_run _ _ _ _ _ P)|]. split; [vm_compute; reflexivity|]. split; [exists Nat.eqb; exact (C42_healthy _ _ _ _ _ P)|].
  exact (proj1 (C42_reads_back false _ _ _ _ _ P)).
Qed.
(** An empty counted string is no value in unpack_from and unpack_read, and unicode takes the first of no values
    (serializers/strings.py); a condition that answers neither yes nor no is looked up in a dictionary of the two
    (serializers/conditional.py); a key must be hashable; Self cannot be resolved in an instance that exists already,
    nor behind a field called cls (serializers/self.py). *)
Theorem C52_only_usual_refuted : exists idf fac prog l sl, (forall md, readable idf fac prog l sl md) /\
  fst (create_unpack_from false (classes l) 5 0 [x00] 0 clean) = Err IndexError /\
  fst (create_unpack_read false (classes l) 5 0 (W (fun _ => 0) (fun _ => None) [] [x00] 0)) = Err IndexError /\
  fst (create_unpack false (classes l) 5 0 [x00] clean) = Ok (VObj 0 None [("text", VStr [])]) /\
  fst (create_unpack false (classes l) 5 1 [x02; x00] clean) = Err KeyError /\
  fst (create_unpack false (classes l) 5 2 [x00; x00] clean) = Err TypeError /\
  fst (fst (Structured_unpack false (classes l) 5 3 None [] (SBuf [x00]) clean)) = Err AttributeError /\
  fst (create_unpack false (classes l) 5 4 [x00; x00] clean) = Err AttributeError.
Proof.
  exists (fun _ _ => 5%nat), (fun _ _ => 6%nat), odd_prog, odd_classes, odd_stmts. split; [exact odd_readable|].
  repeat split; vm_compute; reflexivity.
Qed.
Print Assumptions C52_only_usual_refuted.

(** ** examples *)
(** the program of C42; the three exceptions and one of the others *)
Example C52_nontrivial :
  (forall md, readable sample_idf sample_fac sample_prog sample_classes sample_stmts md) /\
  fst (create_unpack false (classes sample_classes) 4 3 [x01; x00] dirty) = Err StructError /\
  fst (create_unpack false (classes sample_classes) 4 3 [x01; x00; x00; x00; x02; x00; x03; x00; x00; x00; x09;
    x01; x00; x02; x00; x03; x00; x00; x00; x07; x09; x05; x06; x00; x68; x69] dirty) = Err ValueError /\
  fst (create_unpack false (classes sample_classes) 0 3 header_bytes dirty) = Err RecursionError /\
  fst (fst (Structured_unpack false (classes sample_classes) 4 1 None [] (SBuf [x00; x00; x00; x00; x00; x00; x00; x00; x00; x00; x00; x00]) dirty)) = Err AttributeError.
Proof.
  split.
  - intros md. destruct (C46_program md _ _ _ _ sample_stmts (sample_program md)) as (A & B & _ & C); [vm_compute; reflexivity|vm_compute; reflexivity|].
    split; [exact A|]. split; [exact B|exact C].
  - repeat split; vm_compute; reflexivity.
Qed.
Example C52_extra_example : forall K e, extra K UFrom False (XUnicode (KUint CB) latin1) e <-> e = IndexError \/ exists b, cod_dec latin1 b = Err e.
Proof. intros K e. cbn. split; [intros [H|[H _]]; auto|intros [->|H]; [right; split; [reflexivity|discriminate]|auto]]. Qed.
(** create_unpack of the four classes, with any bytes: the three *)
Example C52_sample_usual : forall hb n c b w e, (c < 4)%nat -> fst (create_unpack hb (classes sample_classes) n c b w) = Err e -> usual e.
Proof.
  intros hb n c b w e LT E.
  assert (R : reading sample_idf sample_fac sample_prog sample_classes sample_stmts UBuf).
  { apply C46_program; [apply sample_program|vm_compute; reflexivity|vm_compute; reflexivity]. }
  destruct (C52_create_reached hb UBuf _ _ _ _ _ n c (SBuf b) w e R) as [H|H]; [exact LT|reflexivity|exact I|exact E|exact H|]. exfalso. clear -H.
  destruct H as (c & sc & N & xs & x & ys & Q & X). revert X. generalize sample_stmts at 1. intros sl X.
  assert (KIND : forall bo attrs xs o, reached hb UBuf sl 1 true bo ("kind" :: attrs) [] (XBasic CB :: xs) o -> ~ In "kind" attrs -> exists z, fld "kind" o = Ok (VInt z)).
  { intros bo attrs zs o K N0. apply reached_first in K as (b & K); [|exact N0]. unfold fld. rewrite K. cbn. eauto. }
  assert (S : sample_stmts = ltac:(let v := eval cbv -[fld fld_is fld2 latin1] in sample_stmts in exact v)) by (vm_compute; reflexivity).
  rewrite S in N. clear S.
  destruct c as [|[|[|[|c]]]]; [| | | |destruct c; discriminate N]; cbn [nth_error] in N; injection N as <-; cbn -[fld fld_is fld2 latin1] in Q;
    repeat (destruct xs as [|? xs]; cbn [app] in Q; [injection Q as <- _|injection Q as <- Q]); try (destruct xs; discriminate Q);
    cbn [extra any snd] in X; try contradiction.
  all: try (destruct X as [[bb X]|[_ X]]; [discriminate X|cbn in X; congruence]).
  - destruct X as [(o & K & F)|[(o & r & K & F & Y & _)|[[_ X]|[]]]]; [| |discriminate X]; apply KIND in K as (z & K); try (cbv; intuition discriminate);
      unfold fld_is in F; rewrite K in F; cbn [rbind] in F; [discriminate F|]. injection F as <-. unfold yes_no in Y. destruct (key_eqb (VInt z) (VInt 1)); discriminate Y.
  - destruct X as [(o & K & F)|[(_ & o & r & K & F & Y)|[[|[|[]]]|[]]]]; try contradiction; apply KIND in K as (z & K); try (cbv; intuition discriminate);
      rewrite K in F; [discriminate F|]. injection F as <-. discriminate Y.
  - destruct X as [_ X]. cbv in X. intuition discriminate.
  - intuition.
  - destruct X as [v X]. discriminate X.
  - destruct X as [v X]. discriminate X.
  - cbn in X. intuition discriminate.
Qed.
(** an object that its condition gets *)
Example C52_reached_example : forall hb, reached hb UBuf sample_stmts 1 true BO_DEFAULT ["kind"; "name"; "opt"; "payload"; "pts"; "kids"; "pair"] []
  [XBasic CB; XUnicode (KUint CB) latin1] (PO 1 true [("kind", VInt 1); ("name", VStr [104; 105])]).
Proof.
  intros hb. exists 0%nat, 0%nat, [x09], ["opt"; "payload"; "pts"; "kids"; "pair"], [("kind", VInt 1); ("name", VStr [104; 105])]. split; [|reflexivity].
  change [XBasic CB; XUnicode (KUint CB) latin1] with (([] ++ [XBasic CB]) ++ [XUnicode (KUint CB) latin1]).
  change [x09] with (adv 3 (adv 1 [x01; x02; x68; x69; x09])). eapply Reach1 with (vs := [VStr [104; 105]]).
  - eapply Reach1 with (vs := [VInt 1]); [apply Reach0| |reflexivity]. destruct hb; vm_compute; reflexivity.
  - destruct hb; vm_compute; reflexivity.
  - reflexivity.
Qed.
