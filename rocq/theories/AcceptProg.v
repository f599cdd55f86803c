(** The check of Accept.v on whole programs of class statements, and its agreement with what Python does. *)
From Verif Require Import Base Floats Value StructMod Format Ser Exec Pure BaseFacts StructFacts FormatFacts
  SerFacts RefPack RefUnpack User DecFacts RoundTrip RoundTripMain Adding PropsAdd PropsFinal Hints HintFacts
  Surface SerShape Programs Accept.

(** ** the check, on class statements *)
(** what is known of a class from its text: its annotations (inherited ones first), its byte order, and whether
    it reads to the end of the input *)
Record sclass := SC { sc_anns : list (string * hx); sc_bo : border; sc_rest : bool }.
Definition reads_on (l : list sclass) (c : nat) : bool := match nth_error l c with Some s => sc_rest s | None => false end.
(** a dictionary assignment keeps the position of an existing key *)
Fixpoint put {A} (a : string) (v : A) (d : list (string * A)) : list (string * A) :=
  match d with
  | [] => [(a, v)]
  | (b, w) :: d' => if String.eqb a b then (a, v) :: d' else (b, w) :: put a v d'
  end.
(** the annotations of a body: each padding called [_] gets a name of its own, unless evaluation is postponed *)
Fixpoint body_check (F : nat -> bool) (future : bool) (k : nat) (body d : list (string * hx)) : option (list (string * hx) * nat) :=
  match body with
  | [] => Some (d, k)
  | (a, x) :: body' =>
      if String.eqb a "_" && negb future then
        if use_ok F x then
          if padding x then body_check F future (S k) body' (put (pad_name k) x d) else body_check F future k body' (put a x d)
        else None
      else body_check F future k body' (put a x d)
  end.
(** annotations of Structured itself *)
Definition own_anns : list (string * hx) :=
  map (fun a => (a, XClassVar (XPlain 0))) ["serializer"; "attrs"; "_attrgetter"; "byte_order"]%string.
Definition fields_of (anns : list (string * hx)) : list (string * hx) := filter (fun p => serial (snd p)) anns.
Definition check_stmt (l : list sclass) (k : nat) (s : stmt) : option (sclass * nat) :=
  let F := reads_on l in
  if forallb (fun p => eval_ok (List.length l) F (snd p)) (st_body s) then
    match body_check F (st_future s) k (st_body s) [],
          match st_base s with
          | None => Some own_anns
          | Some b => match nth_error l b with
                      | Some c => match st_mode s with
                                  | STRICT => if border_eqb (sc_bo c) (st_bo s) then Some (sc_anns c) else None
                                  | OVERRIDE => Some (sc_anns c)
                                  end
                      | None => None
                      end
          end with
    | Some (d, k'), Some inherited =>
        let anns := fold_left (fun d kv => put (fst kv) (snd kv) d) d inherited in
        let fields := map snd (fields_of anns) in
        if forallb (fun p => use_ok F (snd p)) anns && negb (crowded F fields)
        then Some (SC anns (st_bo s) (existsb (xfinal F) fields), k')
        else None
    | _, _ => None
    end
  else None.
Fixpoint check_prog (l : list sclass) (k : nat) (prog : list stmt) : option (list sclass) :=
  match prog with
  | [] => Some l
  | s :: prog' => match check_stmt l k s with Some (c, k') => check_prog (l ++ [c]) k' prog' | None => None end
  end.
(** the attributes of an instance *)
Definition sc_attrs (c : sclass) : list string :=
  filter (fun a => negb (String.eqb a "self")) (map fst (filter (fun p => serial (snd p) && negb (padding (snd p))) (sc_anns c))).

(** ** agreement *)
Lemma put_set : forall {A} a (v : A) d, put a v d = assoc_set a v d.
Proof. intros A a v. induction d as [|[b w] d IH]; [reflexivity|]. cbn. now rewrite IH. Qed.
Lemma put_update : forall {A} (e d : list (string * A)), fold_left (fun d kv => put (fst kv) (snd kv) d) e d = dict_update d e.
Proof.
  intros A. unfold dict_update. induction e as [|[a v] e IH]; intros d; [reflexivity|]. cbn [fold_left fst snd]. now rewrite put_set, IH.
Qed.
Section Everywhere.
Variables (f g : nat -> bool).
Hypothesis FG : forall d, f d = g d.
Lemma xfinal_all : forall x, xfinal f x = xfinal g x.
Proof.
  induction x using hx_ind'; cbn [xfinal]; auto.
  - now apply existsb_ext_F.
  - now apply existsb_ext_F.
  - now apply existsb_ext_F.
Qed.
Lemma crowded_all : forall l, crowded f l = crowded g l.
Proof. induction l as [|x l IH]; [reflexivity|]. cbn [crowded]. now rewrite (xfinal_all x), IH. Qed.
Lemma use_all : forall x, use_ok f x = use_ok g x.
Proof.
  induction x using hx_ind'; cbn [use_ok]; auto.
  - rewrite crowded_all. f_equal. now apply forallb_ext_F.
  - now rewrite IHx.
  - f_equal. now apply forallb_ext_F.
  - f_equal. now apply forallb_ext_F.
Qed.
Lemma eval_all : forall k x, eval_ok k f x = eval_ok k g x.
Proof.
  intros k. induction x using hx_ind'; cbn [eval_ok]; auto.
  - now rewrite IHx, use_all, xfinal_all.
  - now apply forallb_ext_F.
  - now rewrite IHx.
  - f_equal; [f_equal|].
    + now apply forallb_ext_F.
    + apply forallb_ext_F. rewrite Forall_forall in *. intros p I. now rewrite (H0 p I), use_all.
    + destruct d; [|reflexivity]. now rewrite (H1 h eq_refl), use_all.
  - f_equal; [f_equal; [f_equal|]|].
    + now apply forallb_ext_F.
    + now rewrite IHx, use_all.
    + apply forallb_ext_F. rewrite Forall_forall in *. intros p I. now rewrite (H0 p I), use_all.
    + destruct d; [|reflexivity]. now rewrite (H1 h eq_refl), use_all.
Qed.
End Everywhere.
Lemma fits_mono : forall k k' f x s, (k <= k')%nat -> fits k f x s -> fits k' f x s.
Proof. intros k k' f x s L ((A & B & C & D & E & F & G & H) & M). split; [|exact M]. repeat split; auto. eapply refs_mono; eauto. Qed.
Lemma judged_mono : forall k k' f f' x h, (k <= k')%nat -> (forall d, (d < k)%nat -> f' d = f d) -> judged k f x h -> judged k' f' x h.
Proof.
  intros k k' f f' x h L E (A & B & C & D & J). repeat (split; [assumption|]). intros f2 idf2 p AG.
  assert (AG' : agrees k f f2) by (intros d Q; rewrite AG by lia; now apply E). specialize (J f2 idf2 p AG').
  destruct (use_ok f2 x); [|exact J]. destruct J as (r & T & J). exists r. split; [exact T|]. destruct (serial x); [|exact J].
  destruct J as (s & Q & FT). exists s. split; [exact Q|]. eapply fits_mono; eauto.
Qed.

(** what a class statement needs to know of a hint; also true of hints with type variables, which are not
    serialized *)
Definition held (k : nat) (fk : nat -> bool) (x : hx) (h : pyh) : Prop :=
  eval_fwd h = h /\
  (match h with PClassVar _ => True | _ => False end <-> match x with XClassVar _ => True | _ => False end) /\
  forall f2 idf2 p, agrees k fk f2 ->
    if use_ok f2 x then
      exists r, transform f2 no_spec idf2 false p h = Ok r /\
        if serial x then exists s, r = PSer s /\ fits k f2 x s else match r with PSer _ => False | _ => True end
    else exists e, transform f2 no_spec idf2 false p h = Err e.
Lemma judged_held : forall k fk x h, judged k fk x h -> held k fk x h.
Proof.
  intros k fk x h (_ & _ & A & B & J). split; [exact A|]. split; [exact B|]. intros f2 idf2 p AG. specialize (J f2 idf2 p AG).
  destruct (use_ok f2 x); [|exact J]. destruct J as (r & T & J). exists r. split; [exact T|]. destruct (serial x); [exact J|exact (proj1 J)].
Qed.
Lemma held_mono : forall k k' f f' x h, (k <= k')%nat -> (forall d, (d < k)%nat -> f' d = f d) -> held k f x h -> held k' f' x h.
Proof.
  intros k k' f f' x h L E (C & D & J). repeat (split; [assumption|]). intros f2 idf2 p AG.
  assert (AG' : agrees k f f2) by (intros d Q; rewrite AG by lia; now apply E). specialize (J f2 idf2 p AG').
  destruct (use_ok f2 x); [|exact J]. destruct J as (r & T & J). exists r. split; [exact T|]. destruct (serial x); [|exact J].
  destruct J as (s & Q & FT). exists s. split; [exact Q|]. eapply fits_mono; eauto.
Qed.

(** dictionaries of hint expressions against dictionaries of hints *)
Definition dict_rel (R : hx -> pyh -> Prop) (d : list (string * hx)) (e : dict) : Prop :=
  Forall2 (fun p q => fst p = fst q /\ R (snd p) (snd q)) d e.
Lemma rel_put : forall R a x h d e, dict_rel R d e -> R x h -> dict_rel R (assoc_set a x d) (assoc_set a h e).
Proof.
  intros R a x h d e F RX. induction F as [|[b y] [b' g] d e [E RY] F IH]; cbn in *; [constructor; [cbn; auto|constructor]|]. subst b'.
  destruct (String.eqb a b); constructor; cbn; auto.
Qed.
Lemma rel_update : forall R e e', dict_rel R e e' -> forall d d', dict_rel R d d' -> dict_rel R (dict_update d e) (dict_update d' e').
Proof.
  unfold dict_update. intros R e e' F. induction F as [|[a x] [b h] e e' [E RX] F IH]; intros d d' D; cbn in *; [exact D|]. subst b.
  apply IH. now apply rel_put.
Qed.
Lemma map_set : forall {A B} (g : A -> B) a v d, map (fun kv => (fst kv, g (snd kv))) (assoc_set a v d)
  = assoc_set a (g v) (map (fun kv => (fst kv, g (snd kv))) d).
Proof. intros A B g a v. induction d as [|[b w] d IH]; [reflexivity|]. cbn. destruct (String.eqb a b); cbn; [reflexivity|]. now rewrite IH. Qed.
Lemma map_update : forall {A B} (g : A -> B) e d, map (fun kv => (fst kv, g (snd kv))) (dict_update d e)
  = dict_update (map (fun kv => (fst kv, g (snd kv))) d) (map (fun kv => (fst kv, g (snd kv))) e).
Proof.
  unfold dict_update. intros A B g. induction e as [|[a v] e IH]; intros d; [reflexivity|]. cbn. rewrite IH. now rewrite map_set.
Qed.
Lemma hints_cons : forall d mro, get_type_hints (d :: mro)
  = dict_update (get_type_hints mro) (map (fun kv => (fst kv, eval_fwd (snd kv))) d).
Proof. intros. unfold get_type_hints. cbn [rev]. rewrite fold_left_app. cbn [fold_left]. apply map_update. Qed.

Section Stmt.
Variables (idf : nat -> list nat -> nat) (fac : akind -> list pyh -> nat).
(** the serializer of a class is the sum of those of its fields, in the byte order of the class *)
Definition made_from (c : sclass) (cd : cdef) : Prop :=
  exists fin id sers s, ssum fin id sers = Ok s /\ c_ser cd = with_bo (sc_bo c) s /\
    all2 (made BO_DEFAULT) (map snd (fields_of (sc_anns c))) sers.
(** what is known of a class, and the class *)
Definition class_rel (j : nat) (F : nat -> bool) (c : sclass) (i : cinfo) : Prop :=
  dict_rel (held j F) (sc_anns c) (get_type_hints (ci_mro i)) /\
  c_bo (ci_def i) = sc_bo c /\ c_final (ci_def i) = sc_rest c /\ c_attrs (ci_def i) = sc_attrs c /\ made_from c (ci_def i).
Definition classes_rel (sl : list sclass) (l : list cinfo) : Prop :=
  List.length sl = List.length l /\
  forall j c i, nth_error sl j = Some c -> nth_error l j = Some i -> class_rel j (reads_on sl) c i.
Lemma fin_rel : forall sl l, classes_rel sl l -> forall d, efin (env_of l) d = reads_on sl d.
Proof.
  intros sl l [L R] d. unfold efin, env_of, reads_on. destruct (nth_error sl d) as [c|] eqn:S, (nth_error l d) as [i|] eqn:E; auto.
  - now destruct (R d c i S E) as (_ & _ & -> & _).
  - apply nth_error_None in E. assert (d < List.length sl)%nat by (apply nth_error_Some; congruence). lia.
  - apply nth_error_None in S. assert (d < List.length l)%nat by (apply nth_error_Some; congruence). lia.
Qed.

Section One.
Variables (sl : list sclass) (l : list cinfo).
Hypothesis CR : classes_rel sl l.
Let K := List.length l.
Let F := efin (env_of l).
Lemma body_eval : forall s body0, (forall p, In p body0 -> True) ->
  let run := rmapM (fun p => rmap (fun h => (fst p, if st_future s then PFwd h else h)) (build K F (idf K) fac (snd p))) body0 in
  if forallb (fun p => eval_ok K F (snd p)) body0
  then exists body, run = Ok body /\
     Forall2 (fun (p : string * hx) q => fst p = fst q /\ exists h, held K F (snd p) h /\ snd q = if st_future s then PFwd h else h) body0 body
  else exists e, run = Err e.
Proof.
  intros s. induction body0 as [|[a x] b IH]; intros _; [exists []; split; [reflexivity|constructor]|]. cbn [forallb rmapM fst snd].
  pose proof (every_verdict K F (idf K) fac x) as V. unfold verdict in V. destruct (eval_ok K F x); [|destruct V as (e & ->); cbn; eauto].
  destruct V as (h & -> & J). apply judged_held in J. cbn [rmap rbind andb]. specialize (IH (fun _ _ => Logic.I)). cbn zeta in IH.
  destruct (forallb (fun p => eval_ok K F (snd p)) b); [|destruct IH as (e & ->); cbn; eauto].
  destruct IH as (body & -> & FB). cbn [rbind]. eexists. split; [reflexivity|]. constructor; [|exact FB]. cbn. eauto.
Qed.
(** the class body *)
Definition own_rel (fut : bool) (x : hx) (q : pyh) : Prop := exists h, held K F x h /\ q = if fut then PFwd h else h.
Lemma body_rel : forall fut body0 body,
  Forall2 (fun (p : string * hx) q => fst p = fst q /\ own_rel fut (snd p) (snd q)) body0 body ->
  forall k d0 d, dict_rel (own_rel fut) d0 d ->
  match body_check F fut k body0 d0 with
  | Some (d0', k') => exists d', class_body F no_spec (idf K) k body d = Ok (d', k') /\ dict_rel (own_rel fut) d0' d'
  | None => exists e, class_body F no_spec (idf K) k body d = Err e
  end.
Proof.
  intros fut body0 body FB. induction FB as [|[a x] [b q] body0 body [E OR] FB IH]; intros k d0 d D; cbn [fst snd] in *; [cbn; eauto|].
  subst b. cbn [body_check class_body]. destruct (String.eqb a "_") eqn:A.
  - cbn [andb]. destruct OR as (h & J & ->). destruct fut; cbn [negb].
    + assert (P : ispad F no_spec (idf K) (PFwd h) = Ok false) by reflexivity. rewrite P. cbn [rbind].
      rewrite put_set. apply IH. apply rel_put; [exact D|]. exists h. auto.
    + pose proof J as J0. destruct J as (_ & _ & J). specialize (J F (idf K) [] (fun _ _ => eq_refl)). unfold ispad.
      destruct (use_ok F x); [|destruct J as (e & ->); cbn; eauto]. destruct J as (r & -> & J). cbn [rbind].
      assert (OR : own_rel false x h) by (exists h; auto).
      assert (P : match r with PSer s => ser_ispad s | _ => false end = padding x).
      { destruct (serial x) eqn:SX.
        - destruct J as (s & -> & [(_ & _ & _ & _ & _ & P & _) _]). exact P.
        - assert (padding x = false) as -> by (destruct x; try discriminate SX; reflexivity).
          destruct r; try reflexivity; contradiction. }
      rewrite P. destruct (padding x); rewrite put_set; apply IH; now apply rel_put.
  - cbn [andb]. rewrite put_set. apply IH. now apply rel_put.
Qed.
(** the fields of the class *)
Lemma filter_rel : forall anns hints, dict_rel (held K F) anns hints -> forall i,
  if forallb (fun p => use_ok F (snd p)) anns
  then exists fl, filter_typehints (env_of l) no_spec (idf K) i hints = Ok fl /\
     Forall2 (fun (p : string * hx) (q : string * ser) => fst p = fst q /\ fits K F (snd p) (snd q)) (fields_of anns) fl
  else exists e, filter_typehints (env_of l) no_spec (idf K) i hints = Err e.
Proof.
  intros anns hints D. induction D as [|[a x] [b h] anns hints [E J] D IH]; intros i; cbn [fst snd] in *.
  { exists []. split; [reflexivity|constructor]. }
  subst b. cbn [forallb filter_typehints fields_of filter snd].
  destruct J as (_ & CV & J). specialize (J F (idf K) [i] (fun _ _ => eq_refl)). specialize (IH (S i)).
  assert (T : if use_ok F x then exists r, (match h with PClassVar _ => Ok PNone | _ => transform (efin (env_of l)) no_spec (idf K) false [i] h end) = Ok r /\
       if serial x then exists s, r = PSer s /\ fits K F x s else match r with PSer _ => False | _ => True end
     else exists e, (match h with PClassVar _ => Ok PNone | _ => transform (efin (env_of l)) no_spec (idf K) false [i] h end) = Err e).
  { destruct (match h with PClassVar _ => true | _ => false end) eqn:HC.
    - destruct h; try discriminate HC. destruct CV as [CV _]. destruct x; try (exfalso; exact (CV Logic.I)). cbn. eexists. split; [reflexivity|exact Logic.I].
    - assert (TE : (match h with PClassVar _ => Ok PNone | _ => transform (efin (env_of l)) no_spec (idf K) false [i] h end)
         = transform F no_spec (idf K) false [i] h) by (destruct h; try reflexivity; discriminate HC).
      rewrite TE. exact J. }
  destruct (use_ok F x); [|destruct T as (e & ->); cbn; eauto]. destruct T as (r & -> & T). cbn [rbind andb].
  destruct (forallb (fun p => use_ok F (snd p)) anns); [|destruct IH as (e & ->); cbn; eauto].
  destruct IH as (fl & -> & FF). cbn [rbind]. destruct (serial x).
  - destruct T as (s & -> & FT). eexists. split; [reflexivity|]. constructor; [cbn; auto|exact FF].
  - assert (E : match r with PSer s => (a, s) :: fl | _ => fl end = fl) by (destruct r; try reflexivity; contradiction).
    rewrite E. exists fl. split; [reflexivity|exact FF].
Qed.
Lemma attrs_rel : forall anns fl, NoDup (keys anns) ->
  Forall2 (fun (p : string * hx) (q : string * ser) => fst p = fst q /\ fits K F (snd p) (snd q)) (fields_of anns) fl ->
  forall bo r, attrs_of fl = sc_attrs (SC anns bo r).
Proof.
  intros anns fl ND FF bo r. unfold attrs_of, sc_attrs. cbn [sc_anns].
  assert (KS : map fst (filter (fun kv => negb (ser_ispad (snd kv))) fl)
             = map fst (filter (fun p => serial (snd p) && negb (padding (snd p))) anns)).
  { assert (G : filter (fun p => serial (snd p) && negb (padding (snd p))) anns
              = filter (fun p => negb (padding (snd p))) (fields_of anns)).
    { unfold fields_of. clear. induction anns as [|p anns IH]; [reflexivity|]. cbn. destruct (serial (snd p)); cbn; [|exact IH].
      destruct (padding (snd p)); cbn; now rewrite IH. }
    rewrite G. clear -FF. induction FF as [|p q x y [E [(_ & _ & _ & _ & _ & P & _) _]] FF IH]; [reflexivity|]. cbn. rewrite P.
    destruct (padding (snd p)); cbn; [exact IH|]. now rewrite E, IH. }
  assert (NF : NoDup (map fst (filter (fun kv => negb (ser_ispad (snd kv))) fl))).
  { rewrite KS. clear -ND. unfold keys in ND. induction anns as [|p anns IH]; [constructor|]. cbn in *. inversion ND; subst.
    destruct (serial (snd p) && negb (padding (snd p))); [|auto]. cbn. constructor; [|auto]. intros I. apply H1.
    apply in_map_iff in I as (q & <- & I). apply filter_In in I as [I _]. now apply in_map. }
  rewrite <- KS. pose proof (update_keys _ [("self"%string, SNull)] NF) as U. unfold keys in U. rewrite U. cbn [map fst app tl].
  apply filter_ext. intros a. unfold mem. cbn. destruct (String.eqb a "self"); reflexivity.
Qed.
Lemma body_nodup : forall fut body k d d' k', NoDup (keys d) -> body_check F fut k body d = Some (d', k') -> NoDup (keys d').
Proof.
  intros fut. induction body as [|[a x] body IH]; intros k d d' k' ND E; cbn [body_check] in E; [now injection E as <- _|].
  rewrite !put_set in E. destruct (String.eqb a "_" && negb fut).
  - destruct (use_ok F x); [|discriminate]. destruct (padding x); eapply IH; try exact E; now apply set_nodup.
  - eapply IH; try exact E; now apply set_nodup.
Qed.
Lemma own_held : dict_rel (held K F) own_anns (get_type_hints [structured_ann]).
Proof.
  assert (CVJ : held K F (XClassVar (XPlain 0)) (PClassVar PNone)).
  { split; [reflexivity|]. split; [tauto|]. intros f2 idf2 p _. cbn [use_ok serial].
    eexists. split; [reflexivity|exact Logic.I]. }
  repeat (apply Forall2_cons; [split; [reflexivity|exact CVJ]|]). constructor.
Qed.
Lemma finish_rel : forall d0 d inh mro bo tv sup, dict_rel (fun x q => held K F x (eval_fwd q)) d0 d ->
  dict_rel (held K F) inh (get_type_hints mro) ->
  let anns := dict_update inh d0 in let fields := map snd (fields_of anns) in
  let r := (rdo hints <- filter_typehints (env_of l) no_spec (idf K) 0 (get_type_hints (d :: mro));
            rdo s0 <- ssum F (idf K []) (map snd hints);
            Ok (CInfo d (d :: mro) tv sup (CD (attrs_of hints) (with_bo bo s0) bo (is_final F (with_bo bo s0))))) in
  if forallb (fun p => use_ok F (snd p)) anns && negb (crowded F fields)
  then exists i, r = Ok i /\ class_rel K F (SC anns bo (existsb (xfinal F) fields)) i /\ ci_ann i = d /\ ci_mro i = d :: mro /\
         ci_tvars i = tv /\ ci_supers i = sup
  else exists e, r = Err e.
Proof.
  intros d0 d inh mro bo tv sup DR IR anns fields r.
  assert (AR : dict_rel (held K F) anns (get_type_hints (d :: mro))).
  { rewrite hints_cons. apply rel_update; [|exact IR]. clear -DR. induction DR as [|p q d0 d [E J] DR IH]; [constructor|].
    cbn. constructor; [|exact IH]. cbn. split; [exact E|exact J]. }
  assert (ND : NoDup (keys anns)).
  { unfold keys. assert (map fst anns = map fst (get_type_hints (d :: mro))) as ->; [|apply hints_nodup].
    clear -AR. induction AR as [|p q x y [E _] AR IH]; [reflexivity|]. cbn. now rewrite E, IH. }
  pose proof (filter_rel anns _ AR 0) as FR. unfold r. fold F in FR |- *.
  destruct (forallb (fun p => use_ok F (snd p)) anns); [|destruct FR as (e & ->); cbn; eauto]. destruct FR as (fl & -> & FF). cbn [rbind andb].
  assert (SF : Forall2 (fits K F) fields (map snd fl)).
  { unfold fields. clear -FF. induction FF as [|p q x y [_ FT] FF IH]; constructor; auto. }
  pose proof (sum_fits K F (idf K []) fields (map snd fl) SF) as SU.
  destruct (crowded F fields); cbn [negb]; [rewrite SU; cbn; eauto|]. destruct SU as (s0 & SUM & FI & _). rewrite SUM. cbn [rbind].
  eexists. split; [reflexivity|]. split; [|repeat split]. split; [exact AR|]. cbn [ci_def c_bo c_final c_attrs sc_bo sc_rest].
  split; [reflexivity|]. split; [now rewrite wb_final|]. split; [now apply attrs_rel|].
  eexists _, _, _, s0. split; [exact SUM|]. split; [reflexivity|]. exact (fits_made K F fields _ SF).
Qed.
Lemma stmt_rel : forall s k,
  match check_stmt sl k s with
  | Some (c, k') => exists i, class_stmt idf fac l k s = Ok (i, k') /\ class_rel K F c i
  | None => exists e, class_stmt idf fac l k s = Err e
  end.
Proof.
  intros s k. destruct CR as [LEN REL]. pose proof (fin_rel sl l CR) as FE.
  assert (FE' : forall d, reads_on sl d = F d) by (intros d; symmetry; apply FE).
  unfold check_stmt, class_stmt. fold K. rewrite LEN. fold K.
  assert (EV : forallb (fun p => eval_ok K (reads_on sl) (snd p)) (st_body s) = forallb (fun p : string * hx => eval_ok K F (snd p)) (st_body s)).
  { apply forallb_ext_F. rewrite Forall_forall. intros p _. now apply eval_all. }
  rewrite EV. pose proof (body_eval s (st_body s) (fun _ _ => Logic.I)) as B. cbn zeta in B. unfold eval_body. fold K. fold F.
  destruct (forallb (fun p => eval_ok K F (snd p)) (st_body s)); [|destruct B as (e & ->); cbn; eauto].
  destruct B as (body & -> & FB). cbn [rbind].
  assert (BC : body_check (reads_on sl) (st_future s) k (st_body s) [] = body_check F (st_future s) k (st_body s) []).
  { clear -FE'. generalize (@nil (string * hx)), k. induction (st_body s) as [|[a x] b IH]; intros d k0; [reflexivity|].
    cbn [body_check]. rewrite (use_all _ _ FE' x), !IH. reflexivity. }
  rewrite BC. pose proof (body_rel (st_future s) (st_body s) body FB k [] [] ltac:(constructor)) as BR.
  pose proof (body_nodup (st_future s) (st_body s) k []) as BN.
  destruct (body_check F (st_future s) k (st_body s) []) as [[d0 k']|]; [|destruct BR as (e & ->); cbn; eauto].
  destruct BR as (d & -> & DR). cbn [rbind]. specialize (BN d0 k' ltac:(constructor) eq_refl).
  unfold define.
  (* the rest, given the inherited hints *)
  assert (DH : dict_rel (fun x q => held K F x (eval_fwd q)) d0 d).
  { clear -DR. induction DR as [|p q d0 d [E (h & J & Q)] DR IH]; [constructor|]. constructor; [|exact IH]. split; [exact E|].
    rewrite Q. destruct (st_future s); [exact J|]. rewrite (proj1 J). exact J. }
  pose proof (fun inh mro => finish_rel d0 d inh mro (st_bo s) [] [] DH) as REST.
  assert (CE : forall anns, (forallb (fun p => use_ok (reads_on sl) (snd p)) anns && negb (crowded (reads_on sl) (map snd (fields_of anns))))
             = (forallb (fun p : string * hx => use_ok F (snd p)) anns && negb (crowded F (map snd (fields_of anns))))).
  { intros anns. rewrite (crowded_all _ _ FE'). f_equal. apply forallb_ext_F. rewrite Forall_forall. intros p _. now apply use_all. }
  assert (XE : forall fl, existsb (xfinal (reads_on sl)) fl = existsb (xfinal F) fl).
  { intros fl. apply existsb_ext_F. rewrite Forall_forall. intros p _. now apply xfinal_all. }
  destruct (st_base s) as [b|].
  - change (env_of l b) with (nth_error l b). destruct (nth_error sl b) as [c|] eqn:NS.
    2:{ assert (nth_error l b = None) as -> by (apply nth_error_None; apply nth_error_None in NS; lia). cbn. eauto. }
    assert (BL : (b < List.length sl)%nat) by (apply nth_error_Some; congruence).
    destruct (nth_error l b) as [i|] eqn:NL; [|apply nth_error_None in NL; lia]. cbn [rbind].
    destruct (REL b c i NS NL) as (DJ & BO & FI & AT & _).
    assert (IR : dict_rel (held K F) (sc_anns c) (get_type_hints (ci_mro i))).
    { clear -DJ FE' BL LEN. induction DJ as [|p q x y [E J] DJ IH]; constructor; auto. split; [exact E|].
      eapply held_mono; [| |exact J]; [unfold K; lia|]. intros d _. symmetry. apply FE'. }
    pose proof (REST (sc_anns c) (ci_mro i) IR) as R. cbn zeta in R. clear REST.
    rewrite BO. rewrite <- put_update in R.
    assert (FIN : forall o, (o = Some (sc_anns c) ->
      match (if forallb (fun p => use_ok (reads_on sl) (snd p)) (fold_left (fun d kv => put (fst kv) (snd kv) d) d0 (sc_anns c)) &&
                negb (crowded (reads_on sl) (map snd (fields_of (fold_left (fun d kv => put (fst kv) (snd kv) d) d0 (sc_anns c)))))
             then Some (SC (fold_left (fun d kv => put (fst kv) (snd kv) d) d0 (sc_anns c)) (st_bo s)
                        (existsb (xfinal (reads_on sl)) (map snd (fields_of (fold_left (fun d kv => put (fst kv) (snd kv) d) d0 (sc_anns c))))), k')
             else None) with
      | Some (c0, k'0) => exists i0, (rdo i1 <- (rdo hints <- filter_typehints (env_of l) no_spec (idf K) 0 (get_type_hints (d :: ci_mro i));
              rdo s0 <- ssum F (idf K []) (map snd hints);
              Ok (CInfo d (d :: ci_mro i) [] [] (CD (attrs_of hints) (with_bo (st_bo s) s0) (st_bo s) (is_final F (with_bo (st_bo s) s0))))); Ok (i1, k')) = Ok (i0, k'0)
           /\ class_rel K F c0 i0
      | None => exists e, (rdo i1 <- (rdo hints <- filter_typehints (env_of l) no_spec (idf K) 0 (get_type_hints (d :: ci_mro i));
              rdo s0 <- ssum F (idf K []) (map snd hints);
              Ok (CInfo d (d :: ci_mro i) [] [] (CD (attrs_of hints) (with_bo (st_bo s) s0) (st_bo s) (is_final F (with_bo (st_bo s) s0))))); Ok (i1, k')) = Err e
      end)).
    { intros o _. rewrite CE, XE. clear CE XE.
      match type of R with if ?c then _ else _ => destruct c end.
      - destruct R as (i0 & -> & R & _). cbn [rbind]. eauto.
      - destruct R as (e & ->). cbn. eauto. }
    specialize (FIN (Some (sc_anns c)) eq_refl).
    destruct (st_mode s); cbn [rbind].
    + destruct (border_eqb (sc_bo c) (st_bo s)); [|cbn; eauto]. cbn [rbind]. exact FIN.
    + exact FIN.
  - cbn [rbind].
    pose proof own_held as IR.
    pose proof (REST own_anns [structured_ann] IR) as R. cbn zeta in R. clear REST. rewrite <- put_update in R.
    rewrite CE, XE. clear CE XE. cbv zeta. cbn [rbind]. fold F.
    match type of R with if ?c then _ else _ => destruct c end.
    + destruct R as (i0 & E & R & _). exists i0. split; [|exact R]. transitivity (rdo i1 <- Ok i0; Ok (i1, k')); [|reflexivity]. rewrite <- E. reflexivity.
    + destruct R as (e & E). exists e. transitivity (rdo i1 <- (Err e : res cinfo); Ok (i1, k')); [|reflexivity]. rewrite <- E. reflexivity.
Qed.
End One.
Lemma rel_snoc : forall sl l c i, classes_rel sl l -> class_rel (List.length l) (efin (env_of l)) c i ->
  classes_rel (sl ++ [c]) (l ++ [i]).
Proof.
  intros sl l c i CR R. destruct CR as [LEN REL]. split; [rewrite !app_length; cbn; lia|].
  assert (EXT : forall d, (d < List.length l)%nat -> reads_on (sl ++ [c]) d = reads_on sl d).
  { intros d Q. unfold reads_on. rewrite nth_error_app1 by lia. reflexivity. }
  intros j c0 i0 NS NL. destruct (Nat.lt_ge_cases j (List.length l)) as [Q|Q].
  - rewrite nth_error_app1 in NS by lia. rewrite nth_error_app1 in NL by lia. destruct (REL j c0 i0 NS NL) as (A & B & C & D & M).
    split; [|auto]. clear -A EXT Q. induction A as [|p q x y [E J] A IH]; constructor; auto. split; [exact E|].
    eapply held_mono; [| |exact J]; [lia|]. intros d L. apply EXT. lia.
  - rewrite nth_error_app2 in NS by lia. rewrite nth_error_app2 in NL by lia.
    assert (j = List.length l) as ->.
    { destruct (j - List.length l)%nat as [|n] eqn:E; [lia|]. cbn in NL. destruct n; discriminate NL. }
    rewrite LEN, Nat.sub_diag in NS. rewrite Nat.sub_diag in NL. cbn in NS, NL. injection NS as <-. injection NL as <-.
    destruct R as (A & B & C & D & M). split; [|auto].
    assert (FE : forall d, efin (env_of l) d = reads_on sl d) by (apply fin_rel; split; assumption). clear -A EXT FE.
    induction A as [|p q x y [E J] A IH]; constructor; auto. split; [exact E|].
    eapply held_mono; [| |exact J]; [lia|]. intros d L. rewrite EXT by lia. symmetry. apply FE.
Qed.
Lemma prog_rel : forall prog sl l k, classes_rel sl l ->
  match check_prog sl k prog with
  | Some sl' => exists l', run idf fac l k prog = Ok l' /\ classes_rel sl' l'
  | None => exists e, run idf fac l k prog = Err e
  end.
Proof.
  induction prog as [|s prog IH]; intros sl l k CR; cbn [check_prog run]; [eauto|].
  pose proof (stmt_rel sl l CR s k) as S. destruct (check_stmt sl k s) as [[c k']|]; [|destruct S as (e & ->); cbn; eauto].
  destruct S as (i & -> & R). cbn [rbind]. apply IH. now apply rel_snoc.
Qed.
End Stmt.
