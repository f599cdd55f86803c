(** Programs with generic classes: class statements over type variables, [class D(C[args])], and the text of the
    class that the specialization amounts to.  The lemmas show that the class machinery of Hints.v makes the class
    of that text. *)
From Verif Require Import Base Floats Value StructMod Format Ser Exec Pure BaseFacts StructFacts FormatFacts
  SerFacts RefPack RefUnpack User DecFacts RoundTrip RoundTripMain Adding PropsAdd PropsFinal Hints HintFacts
  Surface SerShape Programs Accept AcceptProg.

(** ** The programs *)
(** Hints with type variables:
    - [GX x]: a hint without type variables             - [GVar t]: the type variable itself
    - [GChar t]: char[T]                                - [GUnicode t cd]: unicode[T, encoding]
    - [GArray n s x]: array[Header[n, s], x], each of the three possibly a type variable
    and [GTuple l]: tuple[l].  Simplification: type variables elsewhere (inside nested tuples, under Condition, as
    arguments of another generic class, in aliases as items of an array) are not written; see C35 for what the
    library does with them. *)
Inductive gi :=
| GX (x : hx)
| GVar (t : nat)
| GChar (t : nat)
| GUnicode (t : nat) (cd : codec)
| GArray (n : (Z + code) + nat) (s : option (code + nat)) (x : hx + nat).
Inductive gx := GI (g : gi) | GTuple (l : list gi).
(** argument of a generic class: a hint without type variables, or something only [char[T]], [unicode[T]] or
    [Header[T]] can use *)
Inductive garg := AX (x : hx) | AC (a : carg).
(** a class statement; the base class may be written [C[args]]; [gs_tvars]: the arguments of [Generic[...]] *)
Record gstmt := GS {
  gs_body : list (string * gx); gs_base : option (nat * option (list garg)); gs_tvars : list nat;
  gs_bo : border; gs_mode : bomode; gs_future : bool }.

Section GRun.
Variable idf : nat -> list nat -> nat.
Variable fac : akind -> list pyh -> nat.
(** recursion limit for the specialization of generic classes *)
Variable n : nat.

Section GBuild.
Variable k : nat.
Variable fin : nat -> bool.
Let idk := idf k.
(** evaluation of the hints through the factories (hint_types/strings.py:60-84, 145-177, arrays.py:54-137) *)
Definition gn_py (n : (Z + code) + nat) : pyh :=
  match n with inl (inl z) => PInt z | inl (inr c) => basic c | inr t => PTVar t end.
Definition gs_py (s : option (code + nat)) : pyh :=
  match s with None => PNone | Some (inl c) => basic c | Some (inr t) => PTVar t end.
Definition gitem (x : hx + nat) : res pyh := match x with inl x => build k fin idk fac x | inr t => Ok (PTVar t) end.
Definition gi_build (g : gi) : res pyh :=
  match g with
  | GX x => build k fin idk fac x
  | GVar t => Ok (PTVar t)
  | GChar t => char_create fac (PTVar t)
  | GUnicode t cd => unicode_create fin no_spec idk fac (PTVar t) (PCodec cd)
  | GArray n s x =>
      rdo h <- header_create (gn_py n) (gs_py s);
      rdo i <- gitem x;
      array_create fin no_spec idk fac h i
  end.
Definition gx_build (g : gx) : res pyh :=
  match g with GI g => gi_build g | GTuple l => rdo hs <- rmapM gi_build l; Ok (PTuple hs) end.
Definition garg_py (a : garg) : res pyh := match a with AX x => build k fin idk fac x | AC a => Ok (carg_py a) end.
End GBuild.

(** structured.py:170-195, 344-419 as in Surface.v.  [C[args]] with the wrong number of arguments is a TypeError of
    typing; the order of errors is not modelled. *)
Definition gclass_stmt (l : list cinfo) (k : nat) (s : gstmt) : res (cinfo * nat) :=
  let K := List.length l in
  let fin := efin (env_of l) in
  rdo body <- rmapM (fun p => rmap (fun h => (fst p, if gs_future s then PFwd h else h)) (gx_build K fin (snd p))) (gs_body s);
  rdo (d, k') <- class_body fin no_spec (idf K) k body [];
  rdo bases <- (match gs_base s with
                | None => Ok []
                | Some (b, None) => Ok [(b, None)]
                | Some (b, Some args) =>
                    match env_of l b with
                    | None => Err AttributeError
                    | Some i =>
                        if negb (Nat.eqb (List.length args) 0) && Nat.eqb (List.length args) (List.length (ci_tvars i))
                        then rdo hs <- rmapM (garg_py K fin) args; Ok [(b, Some hs)]
                        else Err TypeError
                    end
                end);
  rdo i <- define (env_of l) no_spec (idf K) fac n d bases (gs_tvars s) (gs_bo s) (gs_mode s);
  Ok (i, k').
Fixpoint grun (l : list cinfo) (k : nat) (prog : list gstmt) : res (list cinfo) :=
  match prog with
  | [] => Ok l
  | s :: prog' => rdo (i, k') <- gclass_stmt l k s; grun (l ++ [i]) k' prog'
  end.
End GRun.

(** ** The text the specialization amounts to *)
Definition gopen (g : gi) : bool := match g with GX _ => false | _ => true end.
Definition gxopen (g : gx) : bool := match g with GI g => gopen g | GTuple _ => true end.
(** without arguments, a hint with type variables is a type like any other: not serialized *)
Definition close (g : gx) : hx := match g with GI (GX x) => x | _ => XPlain 0 end.
(** what can be used as length, size, element *)
Definition as_hint (a : garg) : option hx := match a with AX x => Some x | AC _ => None end.
Definition as_carg (a : garg) : option carg := match a with AX (XBasic c) => Some (KUint c) | AX _ => None | AC a => Some a end.
Definition as_count (a : garg) : option (Z + code) :=
  match a with AX (XBasic c) => Some (inr c) | AC (KInt z) => Some (inl z) | _ => None end.
Definition as_code (a : garg) : option code := match a with AX (XBasic c) => Some c | _ => None end.
Definition obind {A B} (o : option A) (f : A -> option B) : option B := match o with Some a => f a | None => None end.
Section Subst.
Variable m : list (nat * garg).
Fixpoint garg_of (t : nat) (m : list (nat * garg)) : option garg :=
  match m with [] => None | (u, a) :: m' => if Nat.eqb t u then Some a else garg_of t m' end.
Definition gsub (g : gi) : option hx :=
  match g with
  | GX x => Some x
  | GVar t => obind (garg_of t m) as_hint
  | GChar t => option_map XChar (obind (garg_of t m) as_carg)
  | GUnicode t cd => option_map (fun a => XUnicode a cd) (obind (garg_of t m) as_carg)
  | GArray n s x =>
      obind (match n with inl n => Some n | inr t => obind (garg_of t m) as_count end) (fun n' =>
      obind (match s with
             | None => Some None
             | Some (inl c) => Some (Some c)
             | Some (inr t) => option_map Some (obind (garg_of t m) as_code)
             end) (fun s' =>
      obind (match x with inl x => Some x | inr t => obind (garg_of t m) as_hint end) (fun x' =>
      Some (XArray n' s' x'))))
  end.
Fixpoint gsubs (l : list gi) : option (list hx) :=
  match l with [] => Some [] | g :: l' => obind (gsub g) (fun x => option_map (cons x) (gsubs l')) end.
Definition gxsub (g : gx) : option hx := match g with GI g => gsub g | GTuple l => option_map XTuple (gsubs l) end.
End Subst.

(** what is known of a class from the text: as a class without type variables, its type variables, and its own
    annotations *)
Record gclass := GC { gc_sc : sclass; gc_tvars : list nat; gc_own : list (string * gx) }.
Section GCheck.
Variable k : nat.
Variable F : nat -> bool.
Definition gvarish (n : (Z + code) + nat) (s : option (code + nat)) : bool :=
  match n, s with inr _, _ | _, Some (inr _) => true | _, _ => false end.
(** the hint can be evaluated, and there is a type variable in it (in a tuple: directly among the arguments) *)
Definition geval (g : gi) : bool :=
  match g with
  | GX x => eval_ok k F x
  | GArray n s x =>
      match x with inl x => eval_ok k F x | inr _ => true end &&
      (gvarish n s ||
       match n, s, x with
       | inl n, None, inr _ => head_ok n None
       | inl n, Some (inl c), inr _ => head_ok n (Some c)
       | _, _, _ => false
       end)
  | _ => true
  end.
Definition gxeval (g : gx) : bool := match g with GI g => geval g | GTuple l => forallb geval l && existsb gopen l end.
Definition garg_ok (a : garg) : bool :=
  match a with
  | AX (XClassVar _) => false
  | AX x => eval_ok k F x
  | AC (KUint _) => false
  | AC _ => true
  end.
Fixpoint gbody_check (future : bool) (j : nat) (body d : list (string * gx)) : option (list (string * gx) * nat) :=
  match body with
  | [] => Some (d, j)
  | (a, g) :: body' =>
      if String.eqb a "_" && negb future then
        if use_ok F (close g) then
          if padding (close g) then gbody_check future (S j) body' (put (pad_name j) g d) else gbody_check future j body' (put a g d)
        else None
      else gbody_check future j body' (put a g d)
  end.
Definition closed_dict (d : list (string * gx)) : list (string * hx) := map (fun p => (fst p, close (snd p))) d.
(** the annotations of [C] that change in [C[args]] *)
Fixpoint special (m : list (nat * garg)) (own : list (string * gx)) (anns : list (string * hx)) : option (list (string * hx)) :=
  match anns with
  | [] => Some []
  | (a, _) :: anns' =>
      obind (special m own anns') (fun r =>
      match assoc a own with
      | None => Some r
      | Some g =>
          if gxopen g then obind (gxsub m g) (fun x => if eval_ok k F x then Some ((a, x) :: r) else None)
          else if use_ok F (close g) then Some r else None
      end)
  end.
End GCheck.
Definition gcheck_stmt (l : list gclass) (k : nat) (s : gstmt) : option (gclass * nat) :=
  let K := List.length l in
  let F := reads_on (map gc_sc l) in
  let finish inherited own d k' :=
    let anns := fold_left (fun d kv => put (fst kv) (snd kv) d) own inherited in
    let fields := map snd (fields_of anns) in
    if forallb (fun p => use_ok F (snd p)) anns && negb (crowded F fields)
    then Some (GC (SC anns (gs_bo s) (existsb (xfinal F) fields)) (gs_tvars s) d, k')
    else None in
  let base_of b :=
    obind (nth_error l b) (fun g =>
    match gs_mode s with STRICT => if border_eqb (sc_bo (gc_sc g)) (gs_bo s) then Some g else None | OVERRIDE => Some g end) in
  if forallb (fun p => gxeval K F (snd p)) (gs_body s) then
    obind (gbody_check F (gs_future s) k (gs_body s) []) (fun '(d, k') =>
    match gs_base s with
    | None => finish own_anns (closed_dict d) d k'
    | Some (b, None) => obind (base_of b) (fun g => finish (sc_anns (gc_sc g)) (closed_dict d) d k')
    | Some (b, Some args) =>
        obind (base_of b) (fun g =>
        match gs_tvars s with
        | [] =>
            if negb (Nat.eqb (List.length args) 0) && Nat.eqb (List.length args) (List.length (gc_tvars g)) && forallb (garg_ok K F) args
            then obind (special K F (zipw (gc_tvars g) args) (gc_own g) (sc_anns (gc_sc g))) (fun sp =>
                 finish (sc_anns (gc_sc g)) (fold_left (fun d kv => put (fst kv) (snd kv) d) sp (closed_dict d)) d k')
            else None
        | _ => None
        end)
    end)
  else None.
Fixpoint gcheck_prog (l : list gclass) (k : nat) (prog : list gstmt) : option (list gclass) :=
  match prog with
  | [] => Some l
  | s :: prog' => obind (gcheck_stmt l k s) (fun '(c, k') => gcheck_prog (l ++ [c]) k' prog')
  end.
(** the class statement without type variables that makes the same class *)
Definition flat (c : sclass) : stmt := Stmt (sc_anns c) None (sc_bo c) STRICT true.

(** ** hints without type variables are transformed alike with and without the check for type variables *)
Definition calm (h : pyh) : bool := negb (is_tv h || is_alias h).
Definition shutb (b : pyh) : bool :=
  match b with
  | PTVar _ | PAlias _ _ | PGenAlias _ _ _ | PGen _ _ => false
  | PTuple args => negb (existsb (fun a => is_tv a || is_alias a) args)
  | _ => true
  end.
Definition shut (h : pyh) : bool := shutb (hbase h) && forallb calm (hmeta h).
Lemma shutb_calm : forall b, shutb b = true -> is_tv b = false /\ is_alias b = false.
Proof. destruct b; cbn; auto; discriminate. Qed.
Section Shut.
Variables (fin : nat -> bool) (idf : list nat -> nat).
Lemma step_shut : forall f b r, shutb b = true -> (forall x, f b = Ok (Some x) -> shutb x = true) -> step f b = Ok r -> shutb r = true.
Proof.
  intros f b r S H E. unfold step in E. destruct (f b) as [[x|]|] eqn:Q; cbn in E; try discriminate; injection E as <-; auto.
Qed.
Lemma pass_shut : forall p subs ann b, shutb b = true -> calm ann = true ->
  pass fin no_spec idf true p subs ann b = pass fin no_spec idf false p subs ann b /\
  forall r, pass fin no_spec idf false p subs ann b = Ok r -> shutb r = true.
Proof.
  intros p subs ann b S C. split.
  - unfold pass, step, tr_check. destruct (shutb_calm b S) as [-> ->]. apply Bool.negb_true_iff in C. rewrite C. reflexivity.
  - unfold pass. cbn [rbind]. intros r.
    destruct (step (tr_tuple fin idf p subs) b) as [b1|] eqn:E1; cbn [rbind]; [|discriminate].
    assert (S1 : shutb b1 = true).
    { eapply step_shut; [exact S| |exact E1]. intros x Q. unfold tr_tuple in Q. destruct b; try discriminate Q. destruct args as [|a args]; [discriminate Q|].
      cbn [shutb] in S. apply Bool.negb_true_iff in S. rewrite S in Q. destruct subs as [hs|]; cbn in Q; [|discriminate].
      destruct (all_sers hs); [|discriminate]. destruct (ssum _ _ _); cbn in Q; [|discriminate]. now injection Q as <-. }
    destruct (step (fun b => tr_seras b ann) b1) as [b2|] eqn:E2; cbn [rbind]; [|discriminate].
    assert (S2 : shutb b2 = true).
    { eapply step_shut; [exact S1| |exact E2]. intros x Q. unfold tr_seras in Q. destruct ann; try discriminate Q. now injection Q as <-. }
    destruct (step (fun b => tr_cond b ann) b2) as [b3|] eqn:E3; cbn [rbind]; [|discriminate].
    assert (S3 : shutb b3 = true).
    { eapply step_shut; [exact S2| |exact E3]. intros x Q. unfold tr_cond in Q. destruct ann; try discriminate Q. destruct b2; try discriminate Q.
      destruct (Nat.eqb _ _); [|discriminate]. now injection Q as <-. }
    destruct (step (fun b => tr_union subs b ann) b3) as [b4|] eqn:E4; cbn [rbind]; [|discriminate].
    assert (S4 : shutb b4 = true).
    { eapply step_shut; [exact S3| |exact E4]. intros x Q. unfold tr_union in Q. destruct ann; try discriminate Q. destruct (is_decider s); [|discriminate].
      destruct b3; try discriminate Q. destruct args; [discriminate Q|]. destruct subs as [hs|]; cbn in Q; [|discriminate].
      destruct (all_sers hs); [|discriminate]. now injection Q as <-. }
    destruct (step (tr_self idf p) b4) as [b5|] eqn:E5; cbn [rbind]; [|discriminate].
    assert (S5 : shutb b5 = true).
    { eapply step_shut; [exact S4| |exact E5]. intros x Q. unfold tr_self in Q. destruct b4; try discriminate Q. now injection Q as <-. }
    destruct (step (tr_structured no_spec idf p) b5) as [b6|] eqn:E6; cbn [rbind]; [|discriminate].
    assert (S6 : shutb b6 = true).
    { eapply step_shut; [exact S5| |exact E6]. intros x Q. unfold tr_structured in Q. destruct b5; try discriminate Q. now injection Q as <-. discriminate S5. }
    destruct (step (fun b => tr_indexing b ann) b6) as [b7|] eqn:E7; cbn [rbind]; [|discriminate].
    assert (S7 : shutb b7 = true).
    { eapply step_shut; [exact S6| |exact E7]. intros x Q. unfold tr_indexing in Q. destruct b6, ann; discriminate Q. }
    intros E8. eapply step_shut; [exact S7| |exact E8]. intros x Q. unfold tr_final in Q. destruct ann; try discriminate Q. now injection Q as <-.
Qed.
Lemma passes_shut : forall p subs anns b, shutb b = true -> forallb calm anns = true ->
  passes fin no_spec idf true p subs anns b = passes fin no_spec idf false p subs anns b /\
  forall r, passes fin no_spec idf false p subs anns b = Ok r -> shutb r = true.
Proof.
  intros p subs. induction anns as [|a anns IH]; intros b S C; [split; [reflexivity|]; cbn; congruence|]. cbn [forallb] in C.
  apply andb_prop in C as [C1 C2]. destruct (pass_shut p subs a b S C1) as [E R]. cbn [passes]. rewrite E.
  destruct (pass fin no_spec idf false p subs a b) as [b'|]; cbn [rbind]; [|split; [reflexivity|discriminate]]. apply IH; auto.
Qed.
Lemma transform_shut : forall p h, shut h = true ->
  transform fin no_spec idf true p h = transform fin no_spec idf false p h /\
  forall r, transform fin no_spec idf false p h = Ok r -> is_tv r = false /\ is_alias r = false.
Proof.
  intros p h S. apply andb_prop in S as [S1 S2]. rewrite !transform_eq.
  destruct (passes_shut p (gosub fin no_spec idf p 0 (hargs (hbase h))) (PNone :: hmeta h) (hbase h) S1 S2) as [E R].
  split; [exact E|]. intros r Q. apply shutb_calm. auto.
Qed.
End Shut.

(** what is built is of that kind *)
Lemma build_calm : forall k F idf fac x h, build k F idf fac x = Ok h -> judged k F x h.
Proof.
  intros k F idf fac x h B. pose proof (every_verdict k F idf fac x) as V. unfold verdict in V.
  destruct (eval_ok k F x); [|destruct V as (e & V); congruence]. destruct V as (h' & V & J). congruence.
Qed.
Lemma build_eval : forall k F idf fac x h, build k F idf fac x = Ok h -> eval_ok k F x = true.
Proof.
  intros k F idf fac x h B. pose proof (every_verdict k F idf fac x) as V. unfold verdict in V.
  destruct (eval_ok k F x); [reflexivity|destruct V as (e & V); congruence].
Qed.
Lemma char_shut : forall fac a h, char_create fac (carg_py a) = Ok h -> shut h = true.
Proof.
  intros fac a h H. unfold char_create in H. destruct (size_type (carg_py a)); [now injection H as <-|].
  destruct a; cbn [carg_py] in H.
  - destruct c; discriminate H.
  - destruct (ss_matmul single_char z); cbn in H; [|discriminate]. now injection H as <-.
  - destruct b as [|? [|? ?]]; try discriminate H. now injection H as <-.
  - now injection H as <-.
  - now injection H as <-.
Qed.
Lemma array_shut : forall F idf fac cnt size i h, is_tv i = false -> array_create F no_spec idf fac (PHeader cnt size) i = Ok h -> shut h = true.
Proof.
  intros F idf fac cnt size i h T H. unfold array_create in H. cbn [is_alias orb] in H. rewrite T in H.
  destruct (transform _ _ _ _ _ i) as [r|]; cbn [rbind] in H; [|discriminate]. destruct r; try discriminate H.
  destruct (is_final F s); [discriminate|].
  assert (C : forall (A B C D : res pyh), (forall x, A = Ok x -> shut x = true) -> (forall x, B = Ok x -> shut x = true) ->
     match s, Nat.eqb (num_values s) 1 with SStruct _, true => A | _, _ => B end = Ok h -> shut h = true).
  { intros A B _ _ HA HB. destruct s; auto. destruct (Nat.eqb (num_values (SStruct st)) 1); auto. }
  assert (B : forall x, match cnt, size with
                | inl z, None => Ok (PAnn t_list [PSer (SArray (fac AkArray [PHeader cnt size; i]) None s z)])
                | inl z, Some d => Ok (PAnn t_list [PSer (SArray (fac AkArray [PHeader cnt size; i]) (Some d) s z)])
                | inr c, None => Ok (PAnn t_list [PSer (SArray (fac AkArray [PHeader cnt size; i]) (Some c) s (-1))])
                | inr c, Some d => rdo cd <- ss_add c d; Ok (PAnn t_list [PSer (SArray (fac AkArray [PHeader cnt size; i]) (Some cd) s (-1))])
                end = Ok x -> shut x = true).
  { intros x Q. destruct cnt, size; try (now injection Q as <-). destruct (ss_add s0 s1); cbn in Q; [|discriminate]. now injection Q as <-. }
  destruct s; try (exact (B h H)). destruct (Nat.eqb (num_values (SStruct st)) 1); [|exact (B h H)].
  destruct cnt; now injection H as <-.
Qed.
Lemma build_shut : forall k F idf fac x h, build k F idf fac x = Ok h -> shut h = true.
Proof.
  intros k F idf fac. induction x using hx_ind'; intros h B.
  - cbn [build] in B. destruct (basic_code c) eqn:C; [|discriminate]. injection B as <-. destruct c; try discriminate C; reflexivity.
  - cbn [build] in B. unfold pad_getitem in B. destruct (ss_matmul _ _); cbn in B; [|discriminate]. now injection B as <-.
  - cbn [build] in B. unfold pascal_getitem in B. destruct (ss_matmul _ _); cbn in B; [|discriminate]. now injection B as <-.
  - exact (char_shut fac a h B).
  - cbn [build] in B. unfold unicode_create in B. destruct (is_tv (carg_py a)) eqn:T; [destruct a; cbn in T; try discriminate T; destruct c; discriminate T|].
    destruct (char_create fac (carg_py a)); cbn [rbind] in B; [|discriminate]. destruct (transform _ _ _ _ _ _) as [[]|]; cbn [rbind] in B; try discriminate B.
    now injection B as <-.
  - pose proof (build_eval _ _ _ _ _ _ B) as E. cbn [eval_ok] in E. apply andb_prop in E as [E _]. pose proof (header_eval n s) as H. rewrite E in H.
    destruct H as (cnt & size & H & _). cbn [build] in B. rewrite H in B. cbn [rbind] in B. destruct (build k F idf fac x) as [i|] eqn:BX; cbn [rbind] in B; [|discriminate].
    eapply array_shut; [|exact B]. exact (proj1 (build_calm _ _ _ _ _ _ BX)).
  - cbn [build] in B. destruct (mapR (build k F idf fac) l) as [hs|] eqn:M; cbn [rbind] in B; [|discriminate]. injection B as <-.
    unfold shut. cbn [hbase hmeta forallb shutb]. rewrite Bool.andb_true_r. apply Bool.negb_true_iff. apply mapR_F2 in M. clear H.
    induction M as [|x h l hs Q M IH]; [reflexivity|]. cbn [existsb]. destruct (build_calm _ _ _ _ _ _ Q) as (-> & -> & _). exact IH.
  - cbn [build] in B. destruct (build k F idf fac x) as [i|] eqn:BX; cbn [rbind] in B; [|discriminate]. injection B as <-. specialize (IHx i eq_refl).
    unfold shut in *. apply andb_prop in IHx as [S1 S2]. destruct (build_calm _ _ _ _ _ _ BX) as (TV & AL & _).
    destruct i; cbn [mk_ann hbase hmeta] in *; try (rewrite S1; reflexivity); rewrite ?S1; cbn.
    rewrite flat_map_app. cbn. rewrite forallb_app, S2. reflexivity.
  - cbn [build] in B. destruct (build k F idf fac x) as [i|]; cbn [rbind] in B; [|discriminate]. unfold serialize_as in B.
    destruct (transform _ _ _ _ _ _) as [[]|]; cbn [rbind] in B; try discriminate B. destruct s; try discriminate B.
    destruct (Nat.eqb _ _); cbn [rbind] in B; [|discriminate]. now injection B as <-.
  - cbn [build] in B. destruct (mapR (build k F idf fac) l); cbn [rbind] in B; [|discriminate].
    destruct (mapR (fun p => rmap (pair (fst p)) (build k F idf fac (snd p))) m); cbn [rbind] in B; [|discriminate].
    destruct (match d with Some x => rmap Some (build k F idf fac x) | None => Ok None end); cbn [rbind] in B; [|discriminate].
    unfold lookback in B. destruct (validate_map _ _ _ _ _ _) as [[]|]; cbn [rbind] in B; [|discriminate]. now injection B as <-.
  - cbn [build] in B. destruct (mapR (build k F idf fac) l); cbn [rbind] in B; [|discriminate].
    destruct (build k F idf fac x); cbn [rbind] in B; [|discriminate].
    destruct (mapR (fun p => rmap (pair (fst p)) (build k F idf fac (snd p))) m); cbn [rbind] in B; [|discriminate].
    destruct (match d with Some x => rmap Some (build k F idf fac x) | None => Ok None end); cbn [rbind] in B; [|discriminate].
    unfold lookahead in B. destruct (validate_map _ _ _ _ _ _) as [[]|]; cbn [rbind] in B; [|discriminate].
    destruct (transform _ _ _ _ _ _) as [[]|]; cbn [rbind] in B; try discriminate B. now injection B as <-.
  - cbn [build] in B. destruct (Nat.ltb c k); [|discriminate]. now injection B as <-.
  - cbn [build] in B. now injection B as <-.
  - cbn [build] in B. destruct (build k F idf fac x); cbn [rbind] in B; [|discriminate]. now injection B as <-.
  - cbn [build] in B. now injection B as <-.
Qed.

(** ** what was built for a hint with type variables *)
Definition ghead (n : (Z + code) + nat) (s : option (code + nat)) (h : pyh) : Prop :=
  if gvarish n s then h = PAlias AkHeader [gn_py n; gs_py s]
  else exists cnt size, h = PHeader cnt size /\ header_create (gn_py n) (gs_py s) = Ok h.
Definition grel (k : nat) (F : nat -> bool) (g : gi) (h : pyh) : Prop :=
  match g with
  | GX x => judged k F x h /\ shut h = true
  | GVar t => h = PTVar t
  | GChar t => h = PAlias AkChar [PTVar t]
  | GUnicode t cd => h = PAlias AkUnicode [PTVar t; PCodec cd]
  | GArray n s x => exists hd i, h = PAlias AkArray [hd; i] /\ ghead n s hd /\
                      match x with inl x => judged k F x i | inr t => i = PTVar t end
  end.
Definition gxrel (k : nat) (F : nat -> bool) (g : gx) (h : pyh) : Prop :=
  match g with
  | GI g => grel k F g h
  | GTuple l => exists hs, h = PTuple hs /\ Forall2 (grel k F) l hs /\ existsb gopen l = true
  end.
Lemma grel_mono : forall k k' F F' g h, (k <= k')%nat -> (forall d, (d < k)%nat -> F' d = F d) -> grel k F g h -> grel k' F' g h.
Proof.
  intros k k' F F' g h L E G. destruct g; cbn in *; auto.
  - destruct G as [J S]. split; [eapply judged_mono; eauto|exact S].
  - destruct G as (hd & i & -> & H & I). exists hd, i. repeat (split; auto). destruct x; [eapply judged_mono; eauto|exact I].
Qed.
Lemma gxrel_mono : forall k k' F F' g h, (k <= k')%nat -> (forall d, (d < k)%nat -> F' d = F d) -> gxrel k F g h -> gxrel k' F' g h.
Proof.
  intros k k' F F' g h L E G. destruct g as [g|l]; [eapply grel_mono; eauto|]. destruct G as (hs & -> & G & O). exists hs. split; [reflexivity|].
  split; [|exact O]. clear O. induction G; constructor; auto. eapply grel_mono; eauto.
Qed.
Lemma grel_open : forall k F g h, grel k F g h -> (is_tv h || is_alias h) = gopen g.
Proof.
  intros k F g h G. destruct g; cbn in *; subst; auto.
  - destruct G as [(-> & -> & _) _]. reflexivity.
  - destruct G as (hd & i & -> & _). reflexivity.
Qed.
Lemma rels_open : forall k F l hs, Forall2 (grel k F) l hs -> existsb (fun a => is_tv a || is_alias a) hs = existsb gopen l.
Proof. intros k F l hs G. induction G as [|g h l hs G GS IH]; [reflexivity|]. cbn [existsb]. now rewrite (grel_open k F g h G), IH. Qed.

Section GEval.
Variables (idf : nat -> list nat -> nat) (fac : akind -> list pyh -> nat).
Variables (K : nat) (F : nat -> bool).
Lemma head_built : forall n s, match n, s with
    | inl n, None => head_ok n None | inl n, Some (inl c) => head_ok n (Some c) | _, _ => gvarish n s end = true ->
  exists h, header_create (gn_py n) (gs_py s) = Ok h /\ ghead n s h /\ is_alias h = gvarish n s.
Proof.
  intros n s H. unfold ghead. destruct (gvarish n s) eqn:V.
  - exists (PAlias AkHeader [gn_py n; gs_py s]). split; [|auto]. unfold header_create.
    assert (is_tv (gn_py n) || is_tv (gs_py s) = true) as ->; [|reflexivity].
    destruct n as [[|]|], s as [[|]|]; cbn in V; try discriminate V; cbn [gn_py gs_py is_tv orb]; auto; destruct c; auto.
  - destruct n as [n|]; [|discriminate V].
    assert (E : exists s', head_ok n s' = true /\ gs_py s = match s' with Some c => basic c | None => PNone end).
    { destruct s as [[c|]|]; [exists (Some c)|discriminate V|exists None]; auto. }
    destruct E as (s' & HO & ->). pose proof (header_eval n s') as Q. unfold head_ok in HO. rewrite HO in Q.
    assert (gn_py (inl n) = match n with inl z => PInt z | inr c => basic c end) as -> by (destruct n; reflexivity).
    destruct Q as (cnt & size & Q & _). rewrite Q. exists (PHeader cnt size). split; [reflexivity|]. split; [|reflexivity]. exists cnt, size. auto.
Qed.
Lemma gi_built : forall g, geval K F g = true -> exists h, gi_build idf fac K F g = Ok h /\ grel K F g h.
Proof.
  intros g E. destruct g; cbn [geval gi_build grel] in *.
  - pose proof (every_verdict K F (idf K) fac x) as V. unfold verdict in V. rewrite E in V. destruct V as (h & B & J). rewrite B.
    exists h. split; [reflexivity|]. split; [exact J|eapply build_shut; eauto].
  - eauto.
  - eexists. split; reflexivity.
  - eexists. split; reflexivity.
  - apply andb_prop in E as [E1 E2].
    assert (HB : exists h, header_create (gn_py n) (gs_py s) = Ok h /\ ghead n s h /\ (is_alias h || match x with inr _ => true | _ => false end) = true).
    { destruct (gvarish n s) eqn:V.
      - destruct (head_built n s) as (h & A & B & C); [destruct n, s as [[|]|]; cbn in *; auto; discriminate|]. exists h. rewrite C, V. auto.
      - cbn [orb] in E2. destruct n as [n|]; [|discriminate V]. destruct x as [|t]; [destruct s as [[|]|]; discriminate E2|].
        destruct (head_built (inl n) s) as (h & A & B & C); [destruct s as [[|]|]; cbn in *; auto; discriminate|]. exists h.
        split; [exact A|]. split; [exact B|]. apply Bool.orb_true_r. }
    destruct HB as (h & -> & G & O). cbn [rbind].
    assert (IB : exists i, gitem idf fac K F x = Ok i /\ (match x with inl x => judged K F x i | inr t => i = PTVar t end) /\
       (is_alias h || is_tv i = true)).
    { destruct x as [x|t]; cbn [gitem].
      - pose proof (every_verdict K F (idf K) fac x) as V. unfold verdict in V. rewrite E1 in V. destruct V as (i & B & J). rewrite B.
        exists i. split; [reflexivity|]. split; [exact J|]. rewrite Bool.orb_false_r in O. now rewrite O.
      - exists (PTVar t). split; [reflexivity|]. split; [reflexivity|]. apply Bool.orb_true_r. }
    destruct IB as (i & -> & J & P). cbn [rbind]. unfold array_create. rewrite P. eauto 8.
Qed.
Lemma gx_built : forall g, gxeval K F g = true -> exists h, gx_build idf fac K F g = Ok h /\ gxrel K F g h.
Proof.
  intros [g|l] E; cbn [gxeval gx_build gxrel] in *; [now apply gi_built|]. apply andb_prop in E as [E O].
  assert (B : exists hs, rmapM (gi_build idf fac K F) l = Ok hs /\ Forall2 (grel K F) l hs).
  { clear O. induction l as [|g l IH]; [exists []; split; [reflexivity|constructor]|]. cbn in E. apply andb_prop in E as [E1 E2].
    destruct (gi_built g E1) as (h & B & G). destruct (IH E2) as (hs & BS & GS). cbn. rewrite B. cbn [rbind]. rewrite BS. cbn [rbind]. eauto. }
  destruct B as (hs & -> & G). cbn [rbind]. eauto 6.
Qed.
(** as a class statement sees it *)
Lemma gx_held : forall g h, gxrel K F g h -> held K F (close g) h.
Proof.
  assert (OP : forall h, eval_fwd h = h -> match h with PClassVar _ => False | _ => True end ->
    (forall f2 idf2 p, exists r, transform f2 no_spec idf2 false p h = Ok r /\ match r with PSer _ => False | _ => True end) ->
    held K F (XPlain 0) h).
  { intros h E C T. split; [exact E|]. split; [destruct h; tauto|]. intros f2 idf2 p _. exact (T f2 idf2 p). }
  intros g h G. destruct g as [g|l].
  - destruct g; cbn [gxrel grel close] in *; try (subst h; apply OP; auto; intros; eexists; split; [reflexivity|exact I]).
    + now apply judged_held.
    + destruct G as (hd & i & -> & _). apply OP; auto. intros; eexists; split; [reflexivity|exact I].
  - destruct G as (hs & -> & G & O). cbn [close]. rewrite <- (rels_open _ _ _ _ G) in O.
    apply OP; auto. intros f2 idf2 p. rewrite transform_eq. cbn [hbase hargs hmeta passes]. unfold pass, step. cbn [rbind].
    unfold tr_tuple. destruct hs as [|h hs]; [discriminate O|]. rewrite O. cbn. eexists. split; [reflexivity|exact I].
Qed.

(** ** substitution *)
Variable L : nat.
Definition arel (a : garg) (h : pyh) : Prop :=
  match a with
  | AX x => judged K F x h /\ (forall c, x = XBasic c -> h = basic c)
  | AC a => h = carg_py a /\ match a with KUint _ => False | _ => True end
  end.
Lemma args_built : forall args, forallb (garg_ok K F) args = true ->
  exists hs, rmapM (garg_py idf fac K F) args = Ok hs /\ Forall2 arel args hs.
Proof.
  induction args as [|a args IH]; intros E; [exists []; split; [reflexivity|constructor]|]. cbn in E. apply andb_prop in E as [E1 E2].
  destruct (IH E2) as (hs & BS & GS).
  assert (B : exists h, garg_py idf fac K F a = Ok h /\ arel a h).
  { destruct a as [x|a].
    - assert (EV : eval_ok K F x = true) by (destruct x; auto; discriminate E1). cbn [garg_py arel].
      pose proof (every_verdict K F (idf K) fac x) as V. unfold verdict in V. rewrite EV in V. destruct V as (h & B & J). exists h. split; [exact B|].
      split; [exact J|]. intros c ->. cbn [build] in B. destruct (basic_code c); [congruence|discriminate].
    - cbn. eexists. split; [reflexivity|]. split; [reflexivity|]. destruct a; try exact I. discriminate E1. }
  destruct B as (h & B & A). cbn. rewrite B. cbn [rbind]. rewrite BS. cbn [rbind]. eauto.
Qed.
Section Map.
Variables (m : list (nat * garg)) (pm : list (nat * pyh)).
Hypothesis MR : Forall2 (fun a b => fst a = fst b /\ arel (snd a) (snd b)) m pm.
Lemma arg_found : forall t a, garg_of t m = Some a -> exists h, tassoc t pm = Some h /\ arel a h.
Proof.
  intros t a. clear -MR. induction MR as [|[u x] [v y] m0 pm0 [E R] MR0 IH]; cbn; [discriminate|]. cbn in E, R. subst v.
  destruct (Nat.eqb t u); [intros [= ->]; eauto|exact (IH MR0)].
Qed.
Lemma arel_calm : forall a h, arel a h -> is_tv h = false /\ is_alias h = false.
Proof.
  intros [x|a] h A; cbn in A.
  - destruct A as ((A & B & _) & _). auto.
  - destruct A as [-> B]. destruct a; try contradiction; auto.
Qed.
Notation resolve := (resolve_alias F no_spec (idf K) fac).
(** one argument of an alias *)
Definition rarg (n : nat) (a : pyh) : res pyh :=
  let a' := match a with PTVar t => match tassoc t pm with Some x => x | None => a end | _ => a end in
  if is_alias a' then resolve n pm a' else Ok a'.
Lemma resolve_eq : forall n k args, resolve (S n) pm (PAlias k args)
  = rdo l <- rmapM (rarg n) args;
    if existsb (fun a => is_tv a || is_alias a) l then Ok (PAlias k l) else getitem F no_spec (idf K) fac k l.
Proof. reflexivity. Qed.
Lemma rarg_var : forall n t a, garg_of t m = Some a -> exists h, rarg n (PTVar t) = Ok h /\ tassoc t pm = Some h /\ arel a h.
Proof.
  intros n t a E. destruct (arg_found t a E) as (h & T & A). exists h. unfold rarg. rewrite T. destruct (arel_calm a h A) as [_ ->]. auto.
Qed.
Lemma as_carg_py : forall a h c, arel a h -> as_carg a = Some c -> h = carg_py c.
Proof.
  intros [x|a] h c A E; cbn in *.
  - destruct x; try discriminate E. injection E as <-. now apply A.
  - injection E as <-. apply A.
Qed.
Lemma char_sub : forall t x, option_map XChar (obind (garg_of t m) as_carg) = Some x -> eval_ok K F x = true ->
  exists a h r, garg_of t m = Some a /\ arel a h /\ tassoc t pm = Some h /\ (is_tv h || is_alias h) = false /\ char_create fac h = Ok r /\ judged K F x r.
Proof.
  intros t x E V. destruct (garg_of t m) as [a|] eqn:G; [|discriminate E]. cbn [obind] in E. destruct (as_carg a) as [c|] eqn:C; [|discriminate E].
  injection E as <-. destruct (arg_found t a G) as (h & T & A). pose proof (as_carg_py a h c A C) as ->.
  pose proof (every_verdict K F (idf K) fac (XChar c)) as W. unfold verdict in W. rewrite V in W. destruct W as (r & B & J).
  destruct (arel_calm a _ A) as [T1 T2]. exists a, (carg_py c), r. rewrite T1, T2. auto 8.
Qed.
Lemma item_sub : forall k0 F0, (k0 <= K)%nat -> (forall d, (d < k0)%nat -> F d = F0 d) ->
  forall g h x n, grel k0 F0 g h -> gsub m g = Some x -> eval_ok K F x = true -> (2 <= n)%nat ->
  exists r, rarg n h = Ok r /\ judged K F x r.
Proof.
  intros k0 F0 LE FE g h x n G E V N. destruct n as [|[|n]]; try lia. destruct g; cbn [grel gsub] in *.
  - injection E as <-. destruct G as [J _]. exists h. unfold rarg. pose proof J as (T & A & _).
    assert (match h with PTVar t => match tassoc t pm with Some y => y | None => h end | _ => h end = h) as -> by (destruct h; try reflexivity; discriminate T).
    rewrite A. split; [reflexivity|]. eapply judged_mono; eauto.
  - subst h. destruct (garg_of t m) as [a|] eqn:GA; [|discriminate E]. destruct a as [y|]; [|discriminate E]. injection E as <-.
    destruct (rarg_var (S (S n)) t _ GA) as (r & R & _ & A). exists r. split; [exact R|apply A].
  - subst h. destruct (char_sub t x E V) as (a & h & r & GA & A & T & C & B & J). exists r. split; [|exact J].
    unfold rarg. cbn [is_alias]. rewrite resolve_eq. destruct (rarg_var (S n) t a GA) as (h' & R & T' & _). rewrite T in T'. injection T' as <-.
    cbn [rmapM]. rewrite R. cbn [rbind existsb]. rewrite C. exact B.
  - subst h. destruct (garg_of t m) as [a|] eqn:GA; [|discriminate E]. cbn [obind] in E. destruct (as_carg a) as [c|] eqn:C; [|discriminate E].
    injection E as <-. destruct (rarg_var (S n) t a GA) as (h & R & T & A). pose proof (as_carg_py a h c A C) as ->.
    pose proof (every_verdict K F (idf K) fac (XUnicode c cd)) as W. unfold verdict in W. rewrite V in W. destruct W as (r & B & J).
    exists r. split; [|exact J]. unfold rarg at 1. cbn [is_alias]. rewrite resolve_eq. cbn [rmapM]. rewrite R. cbn [rbind existsb].
    destruct (arel_calm a _ A) as [T1 T2]. unfold rarg. cbn [is_alias rbind existsb is_tv orb]. rewrite T1, T2. exact B.
  - destruct G as (hd & i & -> & GH & GI0).
    set (no := match n0 with inl n0 => Some n0 | inr t => obind (garg_of t m) as_count end) in E. destruct no as [n'|] eqn:EN; [|discriminate E]. cbn [obind] in E.
    set (so := match s with None => Some None | Some (inl c) => Some (Some c) | Some (inr t) => option_map Some (obind (garg_of t m) as_code) end) in E.
    destruct so as [s'|] eqn:ES; [|discriminate E]. cbn [obind] in E.
    set (xo := match x0 with inl x1 => Some x1 | inr t => obind (garg_of t m) as_hint end) in E. destruct xo as [y|] eqn:EX; [|discriminate E].
    cbn [obind] in E. injection E as <-. subst no so xo. cbn [eval_ok] in V. apply andb_prop in V as [V1 V2]. apply andb_prop in V2 as [V2 VF].
    apply andb_prop in V2 as [V2 VS]. apply andb_prop in V2 as [VE VU].
    (* the item *)
    assert (IT : exists i', rarg (S n) i = Ok i' /\ judged K F y i').
    { destruct x0 as [x0|t].
      - injection EX as <-. exists i. unfold rarg. pose proof GI0 as (T & A & _).
        assert (match i with PTVar t => match tassoc t pm with Some y => y | None => i end | _ => i end = i) as -> by (destruct i; try reflexivity; discriminate T).
        rewrite A. split; [reflexivity|]. eapply judged_mono; eauto.
      - subst i. destruct (garg_of t m) as [a|] eqn:GA; [|discriminate EX]. destruct a; [|discriminate EX]. injection EX as ->.
        destruct (rarg_var (S n) t _ GA) as (r & R & _ & A). exists r. split; [exact R|apply A]. }
    destruct IT as (i' & RI & JI).
    (* the header *)
    assert (NP : exists n1, rarg n (gn_py n0) = Ok n1 /\ n1 = gn_py (inl n') /\ (is_tv n1 || is_alias n1) = false).
    { destruct n0 as [n0|t].
      - injection EN as ->. exists (gn_py (inl n')). destruct n' as [z|c]; [auto|]. destruct c; auto.
      - destruct (garg_of t m) as [a|] eqn:GA; [|discriminate EN]. cbn [obind] in EN. destruct (rarg_var n t a GA) as (r & R & _ & A).
        exists r. destruct (arel_calm a r A) as [T1 T2]. rewrite T1, T2. split; [exact R|]. split; [|reflexivity].
        destruct a as [[]|[]]; try discriminate EN; injection EN as <-; cbn in *; now apply A. }
    assert (SP : exists s1, rarg n (gs_py s) = Ok s1 /\ s1 = gs_py (option_map inl s') /\ (is_tv s1 || is_alias s1) = false).
    { destruct s as [[c|t]|].
      - injection ES as <-. exists (basic c). destruct c; auto.
      - destruct (garg_of t m) as [a|] eqn:GA; [|discriminate ES]. cbn [obind] in ES. destruct (rarg_var n t a GA) as (r & R & _ & A).
        exists r. destruct (arel_calm a r A) as [T1 T2]. rewrite T1, T2. split; [exact R|]. split; [|reflexivity].
        destruct a as [[]|]; try discriminate ES; injection ES as <-; cbn in *; now apply A.
      - injection ES as <-. exists PNone. auto. }
    pose proof (header_eval n' s') as HE. rewrite V1 in HE. destruct HE as (cnt & size & HC & C1 & C2).
    assert (HN : gn_py (inl n') = match n' with inl z => PInt z | inr c => basic c end) by (destruct n'; reflexivity).
    assert (HS : gs_py (option_map inl s') = match s' with Some c => basic c | None => PNone end) by (destruct s'; reflexivity).
    assert (HR : rarg (S n) hd = Ok (PHeader cnt size)).
    { unfold ghead in GH. destruct (gvarish n0 s) eqn:GV.
      - subst hd. unfold rarg at 1. cbn [is_alias]. rewrite resolve_eq. cbn [rmapM].
        destruct NP as (n1 & -> & -> & O1), SP as (s1 & -> & -> & O2). cbn [rbind existsb]. rewrite O1, O2. cbn [orb getitem]. rewrite HN, HS. exact HC.
      - destruct GH as (cnt' & size' & -> & HC'). destruct n0 as [n0|]; [|discriminate GV]. injection EN as ->.
        assert (gs_py s = gs_py (option_map inl s')) as Q.
        { destruct s as [[c|]|]; [|discriminate GV|]; injection ES as <-; reflexivity. }
        rewrite Q, HN, HS in HC'. unfold rarg. cbn [is_alias]. congruence. }
    pose proof (array_built K F (idf K) fac n' s' cnt size y i' JI V1 C1 C2) as AB. rewrite VU, VS, VF in AB. cbn [andb] in AB.
    destruct AB as (r & B & J). exists r. split; [|exact J]. unfold rarg at 1. cbn [is_alias]. rewrite resolve_eq. cbn [rmapM]. rewrite HR. cbn [rbind].
    rewrite RI. cbn [rbind existsb is_tv is_alias orb]. destruct JI as (T & A & _). rewrite T, A. cbn [orb getitem]. exact B.
Qed.
End Map.
Section Fields.
Variables (m : list (nat * garg)) (pm : list (nat * pyh)).
Hypothesis MR : Forall2 (fun a b => fst a = fst b /\ arel (snd a) (snd b)) m pm.
Variables (k0 : nat) (F0 : nat -> bool).
Hypothesis LE : (k0 <= K)%nat.
Hypothesis FE : forall d, (d < k0)%nat -> F d = F0 d.
Notation resolve := (resolve_alias F no_spec (idf K) fac).
(** what happens to one annotation *)
Definition respec (n : nat) (h : pyh) : res (option pyh) :=
  rdo u <- transform F no_spec (idf K) true [] h;
  match u with
  | PTVar t => Ok (tassoc t pm)
  | PAlias _ _ | PGenAlias _ _ _ => rmap Some (resolve n pm u)
  | _ => Ok None
  end.
Lemma respec_alias : forall n k args, respec n (PAlias k args) = rmap Some (resolve n pm (PAlias k args)).
Proof. reflexivity. Qed.
Lemma alias_arg : forall n k args, resolve n pm (PAlias k args) = rarg pm n (PAlias k args).
Proof. reflexivity. Qed.
Lemma field_open : forall g h x n, gxrel k0 F0 g h -> gxopen g = true -> gxsub m g = Some x -> eval_ok K F x = true -> (3 <= n)%nat ->
  exists r, respec n h = Ok (Some r) /\ judged K F x r.
Proof.
  intros g h x n G O E V N. destruct g as [g|l].
  - cbn [gxrel gxopen gxsub] in *. destruct (item_sub m pm MR k0 F0 LE FE g h x n G E V ltac:(lia)) as (r & R & J). exists r. split; [|exact J].
    destruct g; cbn [grel] in G; try discriminate O.
    + subst h. cbn [gsub] in E. destruct (garg_of t m) as [a|] eqn:GA; [|discriminate E]. destruct (arg_found m pm MR t a GA) as (h & T & A).
      transitivity (Ok (tassoc t pm)); [reflexivity|]. unfold rarg in R. rewrite T in *. destruct (arel_calm a h A) as [_ Q]. rewrite Q in R. congruence.
    + subst h. rewrite respec_alias, alias_arg, R. reflexivity.
    + subst h. rewrite respec_alias, alias_arg, R. reflexivity.
    + destruct G as (hd & i & -> & _). rewrite respec_alias, alias_arg, R. reflexivity.
  - destruct G as (hs & -> & G & OP). cbn [gxsub] in E. destruct (gsubs m l) as [xs|] eqn:GS; [|discriminate E]. injection E as <-.
    rewrite <- (rels_open _ _ _ _ G) in OP. cbn [eval_ok] in V.
    assert (RS : exists rs, rmapM (rarg pm (pred n)) hs = Ok rs /\ Forall2 (judged K F) xs rs).
    { clear OP O. revert xs GS V. induction G as [|g h l hs G GG IH]; intros xs GS V; cbn [gsubs] in GS; [injection GS as <-; exists []; split; [reflexivity|constructor]|].
      destruct (gsub m g) as [x|] eqn:GX0; [|discriminate GS]. cbn [obind] in GS. destruct (gsubs m l) as [ys|]; [|discriminate GS]. injection GS as <-.
      cbn [forallb] in V. apply andb_prop in V as [V1 V2]. destruct (IH ys eq_refl V2) as (rs & RS & JS).
      destruct (item_sub m pm MR k0 F0 LE FE g h x (pred n) G GX0 V1 ltac:(lia)) as (r & R & J). exists (r :: rs). cbn [rmapM]. rewrite R. cbn [rbind].
      rewrite RS. split; [reflexivity|constructor; auto]. }
    destruct RS as (rs & RS & JS). exists (PTuple rs). split; [|now apply tuple_judged].
    assert (T : transform F no_spec (idf K) true [] (PTuple hs) = Ok (PAlias AkTuple hs)).
    { rewrite transform_eq. cbn [hbase hargs hmeta passes]. unfold pass, step, tr_check. cbn [rbind is_tv is_alias orb].
      unfold tr_tuple. destruct hs as [|h hs]; [discriminate OP|]. rewrite OP. reflexivity. }
    unfold respec. rewrite T. cbn [rbind]. destruct n as [|n]; [lia|]. rewrite resolve_eq. cbn [pred] in RS. rewrite RS. cbn [rbind].
    assert (existsb (fun a => is_tv a || is_alias a) rs = false) as ->; [|reflexivity].
    clear -JS. induction JS as [|x r xs rs (T & A & _) JS IH]; [reflexivity|]. cbn. now rewrite T, A.
Qed.
Lemma field_closed : forall g h n, gxrel k0 F0 g h -> gxopen g = false -> use_ok F (close g) = true -> respec n h = Ok None.
Proof.
  intros g h n G O U. destruct g as [g|]; [|discriminate O]. destruct g; try discriminate O. cbn [gxrel grel close] in *. destruct G as [J S].
  destruct (transform_shut F (idf K) [] h S) as [E Q]. unfold respec. rewrite E. destruct J as (_ & _ & _ & _ & J).
  specialize (J F (idf K) [] FE). rewrite U in J. destruct J as (r & T & _). rewrite T. cbn [rbind].
  destruct (Q r T) as [A B]. destruct r; try reflexivity; discriminate.
Qed.
Section Own.
Variables (own : list (string * gx)) (ann : dict).
Hypothesis OR : Forall2 (fun p q => fst p = fst q /\ gxrel k0 F0 (snd p) (eval_fwd (snd q))) own ann.
Lemma own_found : forall a, match assoc a own, assoc a ann with
  | Some g, Some h => gxrel k0 F0 g (eval_fwd h) | None, None => True | _, _ => False end.
Proof.
  intros a. clear -OR. induction OR as [|[b g] [c h] o n [E R] R0 IH]; cbn; [exact Logic.I|]. cbn in E, R. subst c. destruct (String.eqb a b); [exact R|exact (IH R0)].
Qed.
(** lines 448-456 *)
Definition own_go (n : nat) := fix go (l : dict) : res dict :=
  match l with
  | [] => Ok []
  | (a, h) :: l' =>
      rdo x <- (match assoc a ann with
                | None => Ok None
                | Some _ => respec n h
                end);
      rdo r <- go l';
      Ok (match x with Some y => (a, y) :: r | None => r end)
  end.
Lemma own_special : forall n, (3 <= n)%nat -> forall (anns : list (string * hx)) (hints : dict), map fst anns = map fst hints ->
  (forall a h, In (a, h) hints -> match assoc a ann with Some h' => h = eval_fwd h' | None => True end) ->
  forall sp, special K F m own anns = Some sp ->
  exists r, own_go n hints = Ok r /\ dict_rel (judged K F) sp r.
Proof.
  intros n N. induction anns as [|[a x] anns IH]; intros hints KE H sp E; destruct hints as [|[b h] hints]; try discriminate KE.
  { injection E as <-. exists []. split; [reflexivity|constructor]. }
  cbn in KE. injection KE as <- KE. cbn [special] in E. destruct (special K F m own anns) as [r0|]; [|discriminate E]. cbn [obind] in E.
  destruct (IH hints KE (fun c g I => H c g (or_intror I)) r0 eq_refl) as (r & R & D). cbn [own_go].
  pose proof (own_found a) as OF. pose proof (H a h (or_introl eq_refl)) as HH.
  destruct (assoc a own) as [g|], (assoc a ann) as [h'|]; try contradiction.
  - subst h. destruct (gxopen g) eqn:O.
    + destruct (gxsub m g) as [y|] eqn:GS; [|discriminate E]. cbn [obind] in E. destruct (eval_ok K F y) eqn:EV; [|discriminate E]. injection E as <-.
      destruct (field_open g (eval_fwd h') y n OF O GS EV N) as (q & -> & J). cbn [rbind]. rewrite R. cbn [rbind]. eexists. split; [reflexivity|].
      constructor; [cbn; auto|exact D].
    + destruct (use_ok F (close g)) eqn:U; [|discriminate E]. injection E as <-. rewrite (field_closed g _ n OF O U). cbn [rbind]. rewrite R. cbn [rbind]. eauto.
  - injection E as <-. cbn [rbind]. rewrite R. cbn [rbind]. eauto.
Qed.
End Own.
End Fields.
End GEval.

(** ** the check depends on the values of [F] only *)
Section GEverywhere.
Variables (f g : nat -> bool).
Hypothesis FG : forall d, f d = g d.
Lemma geval_all : forall k x, geval k f x = geval k g x.
Proof. intros k []; cbn; auto; [now apply eval_all|]. destruct x; [|reflexivity]. now rewrite (eval_all f g FG). Qed.
Lemma gxeval_all : forall k x, gxeval k f x = gxeval k g x.
Proof. intros k []; cbn; [apply geval_all|]. f_equal. apply forallb_ext_F. rewrite Forall_forall. intros x _. apply geval_all. Qed.
Lemma garg_all : forall k a, garg_ok k f a = garg_ok k g a.
Proof. intros k [x|a]; cbn; [|reflexivity]. destruct x; auto; now apply eval_all. Qed.
Lemma gbody_all : forall fut body j d, gbody_check f fut j body d = gbody_check g fut j body d.
Proof. intros fut. induction body as [|[a x] b IH]; intros j d; [reflexivity|]. cbn. now rewrite (use_all f g FG), !IH. Qed.
Lemma special_all : forall k m own anns, special k f m own anns = special k g m own anns.
Proof.
  intros k m own. induction anns as [|[a x] b IH]; [reflexivity|]. cbn [special]. rewrite IH. destruct (special k g m own b); [|reflexivity]. cbn [obind].
  destruct (assoc a own) as [y|]; [|reflexivity]. rewrite (use_all f g FG). destruct (gxopen y); [|reflexivity]. destruct (gxsub m y); [|reflexivity].
  cbn [obind]. now rewrite (eval_all f g FG).
Qed.
End GEverywhere.

Section GStmt.
Variables (idf : nat -> list nat -> nat) (fac : akind -> list pyh -> nat) (n : nat).
Hypothesis N : (4 <= n)%nat.
(** what has to be known of a class to specialize it *)
Definition own_gen (k : nat) (F : nat -> bool) (own : list (string * gx)) (ann : dict) : Prop :=
  Forall2 (fun p q => fst p = fst q /\ gxrel k F (snd p) (eval_fwd (snd q))) own ann.
Definition ginfo (j : nat) (F : nat -> bool) (g : gclass) (i : cinfo) : Prop :=
  ci_tvars i = gc_tvars g /\
  (gc_tvars g <> [] -> ci_supers i = [] /\ (exists mro, ci_mro i = ci_ann i :: mro) /\ NoDup (keys (ci_ann i)) /\ own_gen j F (gc_own g) (ci_ann i)).
Lemma ginfo_mono : forall k k' F F' g i, (k <= k')%nat -> (forall d, (d < k)%nat -> F' d = F d) -> ginfo k F g i -> ginfo k' F' g i.
Proof.
  intros k k' F F' g i L E [T G]. split; [exact T|]. intros Q. destruct (G Q) as (A & B & C & D). repeat (split; [assumption|]).
  clear -D L E. induction D as [|p q o a [X Y] D IH]; constructor; auto. split; [exact X|eapply gxrel_mono; eauto].
Qed.
Section GOne.
Variables (gl : list gclass) (l : list cinfo).
Hypothesis CR : classes_rel (map gc_sc gl) l.
Hypothesis GR : forall j g i, nth_error gl j = Some g -> nth_error l j = Some i -> ginfo j (reads_on (map gc_sc gl)) g i.
Let K := List.length l.
Let F := efin (env_of l).
Definition gown (fut : bool) (g : gx) (q : pyh) : Prop := exists h, gxrel K F g h /\ q = if fut then PFwd h else h.
Definition gdict (fut : bool) : list (string * gx) -> dict -> Prop := Forall2 (fun p q => fst p = fst q /\ gown fut (snd p) (snd q)).
Lemma gbody_eval : forall fut body0, forallb (fun p => gxeval K F (snd p)) body0 = true ->
  exists body, rmapM (fun p => rmap (fun h => (fst p, if fut : bool then PFwd h else h)) (gx_build idf fac K F (snd p))) body0 = Ok body /\ gdict fut body0 body.
Proof.
  intros fut. induction body0 as [|[a g] b IH]; intros E; [exists []; split; [reflexivity|constructor]|]. cbn in E. apply andb_prop in E as [E1 E2].
  destruct (gx_built idf fac K F g E1) as (h & B & G). destruct (IH E2) as (body & BS & D). cbn [rmapM fst snd]. rewrite B. cbn [rmap rbind]. rewrite BS.
  cbn [rbind]. eexists. split; [reflexivity|]. constructor; [|exact D]. cbn. split; [reflexivity|]. exists h. auto.
Qed.
Lemma gput : forall fut a g q d e, gdict fut d e -> gown fut g q -> gdict fut (put a g d) (assoc_set a q e).
Proof.
  intros fut a g q d e D G. rewrite put_set. induction D as [|[b y] [b' h] d e [E RY] D IH]; cbn in *; [constructor; [cbn; auto|constructor]|]. subst b'.
  destruct (String.eqb a b); constructor; cbn; auto.
Qed.
Lemma gbody_rel : forall fut body0 body, gdict fut body0 body -> forall k d0 d d1 k', gdict fut d0 d ->
  gbody_check F fut k body0 d0 = Some (d1, k') ->
  exists d', class_body F no_spec (idf K) k body d = Ok (d', k') /\ gdict fut d1 d'.
Proof.
  intros fut body0 body B. induction B as [|[a g] [b q] body0 body [E OR] B IH]; intros k d0 d d1 k' D C; cbn [fst snd] in *.
  { injection C as <- <-. exists d. auto. }
  subst b. cbn [gbody_check class_body] in *. destruct (String.eqb a "_") eqn:A.
  - destruct OR as (h & G & ->). destruct fut; cbn [negb andb] in C.
    + change (ispad F no_spec (idf K) (PFwd h)) with (Ok false). cbn [rbind]. eapply IH; [|exact C]. apply gput; [exact D|]. exists h. auto.
    + pose proof (gx_held idf fac K F g h G) as (_ & _ & J). specialize (J F (idf K) [] (fun _ _ => eq_refl)). unfold ispad.
      destruct (use_ok F (close g)); [|discriminate C]. destruct J as (r & -> & J). cbn [rbind].
      assert (OR : gown false g h) by (exists h; auto).
      assert (P : match r with PSer s => ser_ispad s | _ => false end = padding (close g)).
      { destruct (serial (close g)) eqn:SX.
        - destruct J as (s & -> & [(_ & _ & _ & _ & _ & P & _) _]). exact P.
        - assert (padding (close g) = false) as -> by (destruct (close g); try discriminate SX; reflexivity).
          destruct r; try reflexivity; contradiction. }
      rewrite P. destruct (padding (close g)); (eapply IH; [|exact C]); now apply gput.
  - cbn [andb] in C. eapply IH; [|exact C]. now apply gput.
Qed.
Lemma gdict_held : forall fut d0 d, gdict fut d0 d -> dict_rel (fun x q => held K F x (eval_fwd q)) (closed_dict d0) d.
Proof.
  intros fut d0 d D. induction D as [|p q d0 d [E (h & G & Q)] D IH]; [constructor|]. cbn. constructor; [|exact IH]. cbn. split; [exact E|].
  pose proof (gx_held idf fac K F _ _ G) as H. rewrite Q. destruct fut; [exact H|]. rewrite (proj1 H). exact H.
Qed.
Lemma gdict_own : forall fut d0 d, gdict fut d0 d -> own_gen K F d0 d.
Proof.
  intros fut d0 d D. induction D as [|p q d0 d [E (h & G & Q)] D IH]; [constructor|]. constructor; [|exact IH]. split; [exact E|].
  rewrite Q. destruct fut; [exact G|]. rewrite (proj1 (gx_held idf fac K F _ _ G)). exact G.
Qed.
Lemma gbody_nodup : forall fut body k d d' k', NoDup (keys d) -> gbody_check F fut k body d = Some (d', k') -> NoDup (keys d').
Proof.
  intros fut. induction body as [|[a x] body IH]; intros k d d' k' ND E; cbn [gbody_check] in E; [now injection E as <- _|].
  rewrite !put_set in E. destruct (String.eqb a "_" && negb fut).
  - destruct (use_ok F (close x)); [|discriminate]. destruct (padding (close x)); eapply IH; try exact E; now apply set_nodup.
  - eapply IH; try exact E; now apply set_nodup.
Qed.
Lemma forall2_keys : forall {A B} (R : A -> B -> Prop) d e, Forall2 (fun p q => fst p = fst q /\ R (snd p) (snd q)) d e -> keys d = keys e.
Proof. intros A B R d e D. induction D as [|p q d e [E _] D IH]; [reflexivity|]. unfold keys in *. cbn. now rewrite E, IH. Qed.
(** the specialized annotations *)
Lemma spec_special : forall b g i args hs sp, nth_error gl b = Some g -> nth_error l b = Some i ->
  negb (Nat.eqb (List.length args) 0) && Nat.eqb (List.length args) (List.length (gc_tvars g)) = true ->
  Forall2 (arel K F) args hs ->
  special K F (zipw (gc_tvars g) args) (gc_own g) (sc_anns (gc_sc g)) = Some sp ->
  exists r, spec_hints (env_of l) no_spec (idf K) fac n b hs = Ok r /\ dict_rel (judged K F) sp r.
Proof.
  intros b g i args hs sp NG NL LEN A SP. apply andb_prop in LEN as [L0 L1]. apply Bool.negb_true_iff in L0. apply Nat.eqb_neq in L0. apply Nat.eqb_eq in L1.
  assert (BL : (b < K)%nat) by (apply nth_error_Some; congruence).
  destruct (GR b g i NG NL) as [TV GI0]. destruct GI0 as (SU & (mro & MRO) & ND & OG); [destruct (gc_tvars g); [cbn in L1; congruence|discriminate]|].
  assert (CI : class_rel b (reads_on (map gc_sc gl)) (gc_sc g) i).
  { destruct CR as [_ R]. apply R; [now apply map_nth_error|exact NL]. }
  pose proof (fin_rel idf _ _ CR) as FE. fold F in FE.
  destruct n as [|n']; [lia|]. cbn [spec_hints]. change (env_of l b) with (nth_error l b). rewrite NL. cbn zeta. rewrite TV.
  set (m := zipw (gc_tvars g) args) in *. set (pm := zipw (gc_tvars g) hs).
  assert (MR : Forall2 (fun a b => fst a = fst b /\ arel K F (snd a) (snd b)) m pm).
  { subst m pm. clear -A. revert A. generalize (gc_tvars g). intros tv A. revert tv. induction A as [|x y args hs X A IH]; intros [|t tv]; cbn; constructor; auto. }
  assert (NE : exists q qs, pm = q :: qs).
  { subst pm. destruct (gc_tvars g) as [|t tv]; [cbn in L1; congruence|]. destruct A; [cbn in L0; congruence|]. cbn. eauto. }
  assert (KE : map fst (sc_anns (gc_sc g)) = map fst (get_type_hints (ci_mro i))).
  { destruct CI as (D & _). exact (forall2_keys _ _ _ D). }
  destruct (own_special idf fac K F m pm MR b (reads_on (map gc_sc gl)) ltac:(lia) (fun d _ => FE d) (gc_own g) (ci_ann i) OG n' ltac:(lia)
    (sc_anns (gc_sc g)) (get_type_hints (ci_mro i)) KE) with (sp := sp) as (r & R & D); [|exact SP|].
  { intros a h I. rewrite MRO in I. pose proof (hints_nodup (ci_ann i :: mro)) as HN.
    assert (AS : assoc a (get_type_hints (ci_ann i :: mro)) = Some h).
    { clear -I HN. induction (get_type_hints (ci_ann i :: mro)) as [|[c k] t IH]; [contradiction|]. cbn in HN. inversion HN; subst. cbn.
      destruct I as [[= -> ->]|I]; [now rewrite String.eqb_refl|]. destruct (String.eqb_spec a c) as [->|]; [|auto].
      exfalso. apply H1. now apply (in_map fst) in I. }
    rewrite hints_cons_assoc in AS by exact ND. destruct (assoc a (ci_ann i)); [congruence|exact Logic.I]. }
  destruct NE as (q & qs & NE). rewrite NE. rewrite <- NE. rewrite SU. cbn [rmapM].
  assert (SK : NoDup (keys r)).
  { rewrite <- (forall2_keys _ _ _ D). clear -SP KE. assert (NS : NoDup (keys (sc_anns (gc_sc g)))) by (unfold keys; rewrite KE; apply hints_nodup).
    clear KE. revert sp SP NS. generalize (sc_anns (gc_sc g)), (gc_own g). intros anns own.
    enough (G : forall sp, special K F m own anns = Some sp -> NoDup (keys anns) -> NoDup (keys sp) /\ incl (keys sp) (keys anns)) by (intros; now apply G).
    induction anns as [|[a x] anns IH]; intros sp E ND; cbn [special] in E; [injection E as <-; split; [constructor|apply incl_refl]|].
    destruct (special K F m own anns) as [r|]; [|discriminate E]. cbn [obind] in E. cbn in ND. inversion ND; subst. destruct (IH r eq_refl H2) as [A B].
    destruct (assoc a own) as [g0|].
    - destruct (gxopen g0); [destruct (gxsub m g0) as [y|]; [|discriminate E]; cbn [obind] in E; destruct (eval_ok K F y); [|discriminate E]
       |destruct (use_ok F (close g0)); [|discriminate E]]; injection E as <-; cbn.
      + split; [constructor; [intros I; apply H1, B, I|exact A]|]. intros c [->|I]; [now left|right; now apply B].
      + split; [exact A|now apply incl_tl].
    - injection E as <-. cbn. split; [exact A|now apply incl_tl]. }
  assert (DU : dict_update [] r = r).
  { symmetry. apply dict_ext; [exact SK| |].
    - rewrite update_keys by exact SK. cbn. assert (forall (z : list string), filter (fun _ => true) z = z) as Q; [|now rewrite Q].
      induction z as [|c z IHz]; [reflexivity|]. cbn. now rewrite IHz.
    - intros a _. rewrite update_assoc by exact SK. destruct (assoc a r); reflexivity. }
  exists r. split; [|exact D].
  transitivity (rdo own <- own_go idf fac K F pm (ci_ann i) n' (get_type_hints (ci_mro i)); Ok (dict_update [] own)); [reflexivity|].
  rewrite R. cbn [rbind]. now rewrite DU.
Qed.
Lemma dict_judged_held : forall k f sp r, dict_rel (judged k f) sp r -> dict_rel (fun x q => held k f x (eval_fwd q)) sp r.
Proof.
  intros k f sp r D. induction D as [|p q sp r [E J] D IH]; constructor; auto. split; [exact E|]. apply judged_held in J. now rewrite (proj1 J).
Qed.
Lemma gstmt_rel : forall s k c k', gcheck_stmt gl k s = Some (c, k') ->
  exists i, gclass_stmt idf fac n l k s = Ok (i, k') /\ class_rel K F (gc_sc c) i /\ ginfo K F c i.
Proof.
  intros s k c k' E. pose proof CR as [LEN REL]. pose proof (fin_rel idf _ _ CR) as FE. fold F in FE.
  assert (FE' : forall d, reads_on (map gc_sc gl) d = F d) by (intros d; symmetry; apply FE).
  rewrite map_length in LEN. unfold gcheck_stmt in E. cbv zeta in E. rewrite LEN in E. fold K in E.
  assert (EV : forallb (fun p => gxeval K (reads_on (map gc_sc gl)) (snd p)) (gs_body s) = forallb (fun p : string * gx => gxeval K F (snd p)) (gs_body s)).
  { apply forallb_ext_F. rewrite Forall_forall. intros p _. now apply gxeval_all. }
  rewrite EV in E. clear EV. destruct (forallb (fun p => gxeval K F (snd p)) (gs_body s)) eqn:EB; [|discriminate E].
  destruct (gbody_eval (gs_future s) (gs_body s) EB) as (body & BE & BD). rewrite (gbody_all _ _ FE') in E.
  destruct (gbody_check F (gs_future s) k (gs_body s) []) as [[d0 k1]|] eqn:GB; [|discriminate E]. cbn [obind] in E.
  destruct (gbody_rel (gs_future s) (gs_body s) body BD k [] [] d0 k1 ltac:(constructor) GB) as (d & CB & DD).
  pose proof (gbody_nodup _ _ _ [] _ _ ltac:(constructor) GB) as ND.
  unfold gclass_stmt. cbv zeta. fold K F. rewrite BE. cbn [rbind]. rewrite CB. cbn [rbind].
  assert (CE : forall anns, (forallb (fun p => use_ok (reads_on (map gc_sc gl)) (snd p)) anns && negb (crowded (reads_on (map gc_sc gl)) (map snd (fields_of anns))))
             = (forallb (fun p : string * hx => use_ok F (snd p)) anns && negb (crowded F (map snd (fields_of anns))))).
  { intros anns. rewrite (crowded_all _ _ FE'). f_equal. apply forallb_ext_F. rewrite Forall_forall. intros p _. now apply use_all. }
  assert (XE : forall fl, existsb (xfinal (reads_on (map gc_sc gl))) fl = existsb (xfinal F) fl).
  { intros fl. apply existsb_ext_F. rewrite Forall_forall. intros p _. now apply xfinal_all. }
  (* the class, given its annotations and the inherited ones *)
  assert (FIN : forall inh own0 own mro sup,
    dict_rel (held K F) inh (get_type_hints mro) -> dict_rel (fun x q => held K F x (eval_fwd q)) own0 own ->
    (gs_tvars s <> [] -> sup = [] /\ own = d) ->
    (let anns := fold_left (fun d kv => put (fst kv) (snd kv) d) own0 inh in
     let fields := map snd (fields_of anns) in
     if forallb (fun p => use_ok (reads_on (map gc_sc gl)) (snd p)) anns && negb (crowded (reads_on (map gc_sc gl)) fields)
     then Some (GC (SC anns (gs_bo s) (existsb (xfinal (reads_on (map gc_sc gl))) fields)) (gs_tvars s) d0, k1) else None) = Some (c, k') ->
    exists i, (rdo hints <- filter_typehints (env_of l) no_spec (idf K) 0 (get_type_hints (own :: mro));
               rdo s0 <- ssum F (idf K []) (map snd hints);
               Ok (CInfo own (own :: mro) (gs_tvars s) sup (CD (attrs_of hints) (with_bo (gs_bo s) s0) (gs_bo s) (is_final F (with_bo (gs_bo s) s0))))) = Ok i
      /\ k1 = k' /\ class_rel K F (gc_sc c) i /\ ginfo K F c i).
  { intros inh own0 own mro sup IR DR TVS Q. cbv zeta in Q. rewrite CE, XE in Q. clear E.
    pose proof (finish_rel idf l own0 own inh mro (gs_bo s) (gs_tvars s) sup DR IR) as R. cbn zeta in R. rewrite <- put_update in R. fold F in R. fold K in R.
    match type of R with if ?c then _ else _ => destruct c end; [|discriminate Q].
    injection Q as <- <-. destruct R as (i & Q & R & RA & RM & RT & RS). exists i. split; [exact Q|]. split; [reflexivity|].
    cbn [gc_sc]. split; [exact R|]. split; [exact RT|]. cbn [gc_tvars gc_own]. intros T. destruct (TVS T) as [-> ->]. rewrite RA, RM, RS.
    split; [reflexivity|]. split; [eauto|]. split; [|eapply gdict_own; eauto]. rewrite <- (forall2_keys _ _ _ DD). exact ND. }
  pose proof (gdict_held _ _ _ DD) as DH. unfold define.
  assert (BASE : forall b g, obind (nth_error gl b) (fun g =>
      match gs_mode s with STRICT => if border_eqb (sc_bo (gc_sc g)) (gs_bo s) then Some g else None | OVERRIDE => Some g end) = Some g ->
    exists i, nth_error gl b = Some g /\ nth_error l b = Some i /\ dict_rel (held K F) (sc_anns (gc_sc g)) (get_type_hints (ci_mro i)) /\
      ci_tvars i = gc_tvars g /\
      match gs_mode s with STRICT => if border_eqb (c_bo (ci_def i)) (gs_bo s) then Ok tt else Err ValueError | _ => Ok tt end = Ok tt).
  { intros b g Q. destruct (nth_error gl b) as [g'|] eqn:NG; [|discriminate Q]. cbn [obind] in Q.
    assert (g' = g) as -> by (destruct (gs_mode s); [destruct (border_eqb _ _); [|discriminate Q]|]; now injection Q as <-).
    assert (BL : (b < List.length gl)%nat) by (apply nth_error_Some; congruence).
    destruct (nth_error l b) as [i|] eqn:NL; [|apply nth_error_None in NL; lia]. exists i.
    destruct (REL b (gc_sc g) i ltac:(now apply map_nth_error) NL) as (DJ & BO & _).
    split; [reflexivity|]. split; [reflexivity|]. split; [|split].
    - clear -DJ FE' BL LEN. induction DJ as [|p q x y [E J] DJ IH]; constructor; auto. split; [exact E|].
      eapply held_mono; [| |exact J]; [unfold K; lia|]. intros d _. symmetry. apply FE'.
    - apply (GR b g i NG NL).
    - rewrite BO. destruct (gs_mode s); [|reflexivity]. destruct (border_eqb _ _); [reflexivity|discriminate Q]. }
  destruct (gs_base s) as [[b [args|]]|].
  - destruct (obind (nth_error gl b) _) as [g|] eqn:BA; [|discriminate E]. cbn [obind] in E. destruct (BASE b g BA) as (i & NG & NL & IR & TV & MO).
    destruct (gs_tvars s) eqn:TS; [|discriminate E].
    destruct (negb (Nat.eqb (List.length args) 0) && Nat.eqb (List.length args) (List.length (gc_tvars g))) eqn:AL; [|discriminate E]. cbn [andb] in E.
    assert (AO : forallb (garg_ok K (reads_on (map gc_sc gl))) args = forallb (garg_ok K F) args).
    { apply forallb_ext_F. rewrite Forall_forall. intros a _. now apply garg_all. }
    rewrite AO in E. clear AO. destruct (forallb (garg_ok K F) args) eqn:AO; [|discriminate E].
    rewrite (special_all _ _ FE') in E. destruct (special K F (zipw (gc_tvars g) args) (gc_own g) (sc_anns (gc_sc g))) as [sp|] eqn:SP; [|discriminate E].
    cbn [obind] in E. destruct (args_built idf fac K F args AO) as (hs & AB & AR).
    destruct (spec_special b g i args hs sp NG NL AL AR SP) as (r & SH & DR).
    change (env_of l b) with (nth_error l b). rewrite NL, TV, AL, AB. cbn [rbind]. change (env_of l b) with (nth_error l b). rewrite NL. cbn [rbind].
    rewrite MO. cbn [rbind]. rewrite SH. cbn [rbind]. fold F.
    destruct (FIN (sc_anns (gc_sc g)) (fold_left (fun d kv => put (fst kv) (snd kv) d) sp (closed_dict d0)) (dict_update d r) (ci_mro i) [(b, hs)] IR) as (i' & RU & <- & CC & GI0).
    + rewrite put_update. apply rel_update; [now apply dict_judged_held|exact DH].
    + intros []. reflexivity.
    + exact E.
    + exists i'. split; [|auto]. transitivity (rdo i1 <- Ok i'; Ok (i1, k1)); [|reflexivity]. rewrite <- RU. reflexivity.
  - destruct (obind (nth_error gl b) _) as [g|] eqn:BA; [|discriminate E]. cbn [obind] in E. destruct (BASE b g BA) as (i & NG & NL & IR & TV & MO).
    cbn [rbind]. change (env_of l b) with (nth_error l b). rewrite NL. cbn [rbind]. rewrite MO. cbn [rbind]. fold F.
    destruct (FIN (sc_anns (gc_sc g)) (closed_dict d0) d (ci_mro i) [] IR DH ltac:(auto) E) as (i' & RU & <- & CC & GI0).
    exists i'. split; [|auto]. transitivity (rdo i1 <- Ok i'; Ok (i1, k1)); [|reflexivity]. rewrite <- RU. reflexivity.
  - cbn [rbind]. fold F. destruct (FIN own_anns (closed_dict d0) d [structured_ann] [] (own_held idf l) DH ltac:(auto) E) as (i' & RU & <- & CC & GI0).
    exists i'. split; [|auto]. transitivity (rdo i1 <- Ok i'; Ok (i1, k1)); [|reflexivity]. rewrite <- RU. reflexivity.
Qed.
End GOne.
Lemma gprog_rel : forall prog gl l k gl', classes_rel (map gc_sc gl) l ->
  (forall j g i, nth_error gl j = Some g -> nth_error l j = Some i -> ginfo j (reads_on (map gc_sc gl)) g i) ->
  gcheck_prog gl k prog = Some gl' ->
  exists l', grun idf fac n l k prog = Ok l' /\ classes_rel (map gc_sc gl') l'.
Proof.
  induction prog as [|s prog IH]; intros gl l k gl' CR GR E; cbn [gcheck_prog grun] in *; [injection E as <-; eauto|].
  destruct (gcheck_stmt gl k s) as [[c k']|] eqn:CS; [|discriminate E]. cbn [obind] in E.
  destruct (gstmt_rel gl l CR GR s k c k' CS) as (i & -> & R & GI0). cbn [rbind]. eapply IH; [| |exact E].
  - rewrite map_app. now apply rel_snoc.
  - pose proof CR as [LEN _]. rewrite map_length in LEN. pose proof (fin_rel idf _ _ CR) as FE.
    intros j g i0 NG NL. rewrite map_app. cbn [map].
    assert (EXT : forall d, (d < List.length l)%nat -> reads_on (map gc_sc gl ++ [gc_sc c]) d = reads_on (map gc_sc gl) d).
    { intros d Q. unfold reads_on. rewrite nth_error_app1 by (rewrite map_length; lia). reflexivity. }
    destruct (Nat.lt_ge_cases j (List.length l)) as [Q|Q].
    + rewrite nth_error_app1 in NG by lia. rewrite nth_error_app1 in NL by lia. eapply ginfo_mono; [| |exact (GR j g i0 NG NL)]; [lia|].
      intros d Q2. apply EXT. lia.
    + rewrite nth_error_app2 in NG by lia. rewrite nth_error_app2 in NL by lia.
      assert (j = List.length l) as ->.
      { destruct (j - List.length l)%nat as [|x] eqn:JE; [lia|]. cbn in NL. destruct x; discriminate NL. }
      rewrite LEN, Nat.sub_diag in NG. rewrite Nat.sub_diag in NL. cbn in NG, NL. injection NG as <-. injection NL as <-.
      eapply ginfo_mono; [| |exact GI0]; [lia|]. intros d Q2. rewrite EXT by lia. symmetry. apply FE.
Qed.
End GStmt.

(** ** writing out the specializations: [flat] *)
Section EvalMono.
Variables (k k' : nat) (f g : nat -> bool).
Hypothesis L : (k <= k')%nat.
Hypothesis FG : forall d, (d < k)%nat -> f d = g d.
Lemma eval_mono : forall x, eval_ok k f x = true -> eval_ok k' g x = true.
Proof.
  assert (MP : forall m : list (value * hx), Forall (fun p => eval_ok k f (snd p) = true -> eval_ok k' g (snd p) = true) m ->
    forallb (fun p => eval_ok k f (snd p) && use_ok f (snd p) && serial (snd p) && Nat.eqb (vals (snd p)) 1) m = true ->
    forallb (fun p => eval_ok k' g (snd p) && use_ok g (snd p) && serial (snd p) && Nat.eqb (vals (snd p)) 1) m = true).
  { intros m H E. rewrite forallb_forall in *. rewrite Forall_forall in H. intros p I. specialize (E p I). specialize (H p I).
    apply andb_prop in E as [E E4]. apply andb_prop in E as [E E3]. apply andb_prop in E as [E1 E2].
    rewrite (use_ext k f g FG) in E2 by exact E1. now rewrite (H E1), E2, E3, E4. }
  assert (DP : forall d : option hx, (forall y, d = Some y -> eval_ok k f y = true -> eval_ok k' g y = true) ->
    match d with Some y => eval_ok k f y && use_ok f y && serial y && Nat.eqb (vals y) 1 | None => true end = true ->
    match d with Some y => eval_ok k' g y && use_ok g y && serial y && Nat.eqb (vals y) 1 | None => true end = true).
  { intros [y|] H E; [|reflexivity]. apply andb_prop in E as [E E4]. apply andb_prop in E as [E E3]. apply andb_prop in E as [E1 E2].
    rewrite (use_ext k f g FG) in E2 by exact E1. now rewrite (H y eq_refl E1), E2, E3, E4. }
  assert (LP : forall l, Forall (fun x => eval_ok k f x = true -> eval_ok k' g x = true) l -> forallb (eval_ok k f) l = true -> forallb (eval_ok k' g) l = true).
  { intros l H E. rewrite forallb_forall in *. rewrite Forall_forall in H. auto. }
  induction x using hx_ind'; intros E; cbn [eval_ok] in *; auto.
  - apply andb_prop in E as [E E1]. rewrite E. cbn [andb]. apply andb_prop in E1 as [E1 E4]. apply andb_prop in E1 as [E1 E3]. apply andb_prop in E1 as [E1 E2].
    rewrite (use_ext k f g FG) in E2 by exact E1. rewrite (xfinal_ext k f g FG) in E4 by exact E1. now rewrite (IHx E1), E2, E3, E4.
  - apply andb_prop in E as [E E2]. apply andb_prop in E as [E E1]. now rewrite (IHx E), E1, E2.
  - apply andb_prop in E as [E E2]. apply andb_prop in E as [E E1]. rewrite (LP _ H E), (MP _ H0 E1). now apply DP.
  - apply andb_prop in E as [E E3]. apply andb_prop in E as [E E2]. apply andb_prop in E as [E E1].
    apply andb_prop in E1 as [E1 E5]. apply andb_prop in E1 as [E1 E4]. rewrite (use_ext k f g FG) in E4 by exact E1.
    rewrite (LP _ H E), (MP _ H0 E2), (IHx E1), E4, E5. now apply DP.
  - apply Nat.ltb_lt in E. apply Nat.ltb_lt. lia.
Qed.
End EvalMono.
Definition evals (k : nat) (F : nat -> bool) (d : list (string * hx)) : Prop := Forall (fun p => eval_ok k F (snd p) = true) d.
Lemma set_all : forall {A} (P : A -> Prop) a v d, P v -> Forall (fun p => P (snd p)) d -> Forall (fun p => P (snd p)) (assoc_set a v d).
Proof.
  intros A P a v d V D. induction D as [|[b w] d W D IH]; cbn; [constructor; [exact V|constructor]|].
  destruct (String.eqb a b); constructor; auto.
Qed.
Lemma update_all : forall {A} (P : A -> Prop) e d, Forall (fun p => P (snd p)) e -> Forall (fun p => P (snd p)) d -> Forall (fun p => P (snd p)) (dict_update d e).
Proof.
  unfold dict_update. intros A P e. induction e as [|[a v] e IH]; intros d E D; [exact D|]. inversion E; subst. cbn. apply IH; [assumption|]. now apply set_all.
Qed.
Definition whole (k : nat) (F : nat -> bool) (c : sclass) : Prop :=
  (exists more, keys (sc_anns c) = keys own_anns ++ more) /\ NoDup (keys (sc_anns c)) /\ evals k F (sc_anns c).
Lemma whole_mono : forall k k' f g c, (k <= k')%nat -> (forall d, (d < k)%nat -> f d = g d) -> whole k f c -> whole k' g c.
Proof.
  intros k k' f g c L FG (A & B & E). split; [exact A|]. split; [exact B|]. unfold evals in *. rewrite Forall_forall in *. intros p I. eapply eval_mono; eauto.
Qed.
Lemma update_prefix : forall {A} (e d : list (string * A)) pre, (exists more, keys d = pre ++ more) -> exists more, keys (dict_update d e) = pre ++ more.
Proof.
  unfold dict_update. intros A. induction e as [|[a v] e IH]; intros d pre (more & M); [cbn; eauto|]. cbn. apply IH. rewrite keys_set, M.
  destruct (mem a d); [eauto|]. rewrite <- app_assoc. eauto.
Qed.
(** the check of the expanded statement *)
Lemma body_future : forall F k body d, body_check F true k body d = Some (dict_update d body, k).
Proof.
  unfold dict_update. intros F k. induction body as [|[a x] body IH]; intros d; [reflexivity|]. cbn. rewrite Bool.andb_false_r. now rewrite put_set, IH.
Qed.
Lemma filter_true : forall (z : list string), filter (fun _ => true) z = z.
Proof. induction z as [|c z IH]; [reflexivity|]. cbn. now rewrite IH. Qed.
Lemma update_nil : forall {A} (r : list (string * A)), NoDup (keys r) -> dict_update [] r = r.
Proof.
  intros A r N. symmetry. apply dict_ext; [exact N| |].
  - rewrite update_keys by exact N. cbn. now rewrite filter_true.
  - intros a _. rewrite update_assoc by exact N. destruct (assoc a r); reflexivity.
Qed.
Lemma update_own : forall {A} (d r : list (string * A)) more, NoDup (keys r) -> keys r = keys d ++ more -> dict_update d r = r.
Proof.
  intros A d r more N M. symmetry. apply dict_ext; [exact N| |].
  - rewrite update_keys by exact N. rewrite M. f_equal. rewrite filter_app.
    assert (filter (fun a => negb (mem a d)) (keys d) = []) as ->.
    { assert (G : forall e, incl e (keys d) -> filter (fun a => negb (mem a d)) e = []); [|apply G, incl_refl].
      induction e as [|a e IH]; intros I; [reflexivity|]. cbn. unfold mem at 1. destruct (assoc a d) eqn:Q.
      - cbn. apply IH. intros b J. apply I. now right.
      - exfalso. apply assoc_In in Q. apply Q, I. now left. }
    cbn. assert (G : forall e, (forall a, In a e -> ~ In a (keys d)) -> filter (fun a => negb (mem a d)) e = e).
    { induction e as [|a e IH]; intros I; [reflexivity|]. cbn. unfold mem at 1.
      rewrite (proj2 (assoc_In a d) (I a (or_introl eq_refl))). cbn. f_equal. apply IH. intros b J. apply I. now right. }
    symmetry. apply G. intros a I J. rewrite M in N. clear -N I J. induction (keys d) as [|b t IH]; [contradiction|]. cbn in N. inversion N; subst.
    destruct J as [->|J]; [apply H1, in_or_app; now right|auto].
  - intros a I. rewrite update_assoc by exact N. destruct (assoc a r) eqn:Q; [reflexivity|]. apply assoc_In in Q. contradiction.
Qed.
Lemma flat_check : forall sl k c, whole (List.length sl) (reads_on sl) c ->
  forallb (fun p => use_ok (reads_on sl) (snd p)) (sc_anns c) && negb (crowded (reads_on sl) (map snd (fields_of (sc_anns c)))) = true ->
  sc_rest c = existsb (xfinal (reads_on sl)) (map snd (fields_of (sc_anns c))) ->
  check_stmt sl k (flat c) = Some (c, k).
Proof.
  intros sl k c ((more & M) & N & E) U R. unfold check_stmt, flat. cbn [st_body st_base st_bo st_mode st_future].
  assert (forallb (fun p => eval_ok (List.length sl) (reads_on sl) (snd p)) (sc_anns c) = true) as ->.
  { rewrite forallb_forall. unfold evals in E. rewrite Forall_forall in E. exact E. }
  rewrite body_future, (update_nil _ N), put_update, (update_own own_anns _ more N M), U, <- R. now destruct c.
Qed.
Lemma gbody_forall : forall (P : gx -> Prop) F fut body k d d' k', Forall (fun p => P (snd p)) body -> Forall (fun p => P (snd p)) d ->
  gbody_check F fut k body d = Some (d', k') -> Forall (fun p => P (snd p)) d'.
Proof.
  intros P F fut. induction body as [|[a g] body IH]; intros k d d' k' B D E; cbn [gbody_check] in E; [injection E as <- _; exact D|].
  inversion B; subst. rewrite !put_set in E. destruct (String.eqb a "_" && negb fut).
  - destruct (use_ok F (close g)); [|discriminate]. destruct (padding (close g)); eapply IH; try exact E; auto; now apply set_all.
  - eapply IH; try exact E; auto; now apply set_all.
Qed.
Lemma special_evals : forall k F m own anns sp, special k F m own anns = Some sp -> evals k F sp.
Proof.
  intros k F m own. induction anns as [|[a x] anns IH]; intros sp E; cbn [special] in E; [injection E as <-; constructor|].
  destruct (special k F m own anns) as [r|]; [|discriminate E]. cbn [obind] in E. specialize (IH r eq_refl). destruct (assoc a own) as [g|].
  - destruct (gxopen g).
    + destruct (gxsub m g) as [y|]; [|discriminate E]. cbn [obind] in E. destruct (eval_ok k F y) eqn:V; [|discriminate E]. injection E as <-. now constructor.
    + destruct (use_ok F (close g)); [|discriminate E]. now injection E as <-.
  - now injection E as <-.
Qed.
Lemma gstmt_whole : forall gl k s c k', (forall j g, nth_error gl j = Some g -> whole j (reads_on (map gc_sc gl)) (gc_sc g)) ->
  gcheck_stmt gl k s = Some (c, k') ->
  whole (List.length gl) (reads_on (map gc_sc gl)) (gc_sc c) /\ check_stmt (map gc_sc gl) 0 (flat (gc_sc c)) = Some (gc_sc c, 0%nat).
Proof.
  intros gl k s c k' W E. set (F := reads_on (map gc_sc gl)) in *. set (K := List.length gl) in *.
  assert (FIN : forall inh own d k1,
    (exists more, keys inh = keys own_anns ++ more) -> NoDup (keys inh) -> evals K F inh -> evals K F own ->
    (let anns := fold_left (fun d kv => put (fst kv) (snd kv) d) own inh in
     let fields := map snd (fields_of anns) in
     if forallb (fun p => use_ok F (snd p)) anns && negb (crowded F fields)
     then Some (GC (SC anns (gs_bo s) (existsb (xfinal F) fields)) (gs_tvars s) d, k1) else None) = Some (c, k') ->
    whole K F (gc_sc c) /\ check_stmt (map gc_sc gl) 0 (flat (gc_sc c)) = Some (gc_sc c, 0%nat)).
  { intros inh own d k1 P N I O Q. cbv zeta in Q. rewrite put_update in Q.
    destruct (forallb (fun p => use_ok F (snd p)) (dict_update inh own) && negb (crowded F (map snd (fields_of (dict_update inh own))))) eqn:U; [|discriminate Q].
    injection Q as <- <-. cbn [gc_sc].
    assert (WH : whole K F (SC (dict_update inh own) (gs_bo s) (existsb (xfinal F) (map snd (fields_of (dict_update inh own)))))).
    { split; [now apply update_prefix|]. split; [now apply update_nodup|]. now apply (update_all (fun x => eval_ok K F x = true)). }
    split; [exact WH|]. apply flat_check; [rewrite map_length; exact WH|exact U|reflexivity]. }
  unfold gcheck_stmt in E. fold F K in E. cbv zeta in E.
  destruct (forallb (fun p => gxeval K F (snd p)) (gs_body s)) eqn:EB; [|discriminate E].
  destruct (gbody_check F (gs_future s) k (gs_body s) []) as [[d0 k1]|] eqn:GB; [|discriminate E]. cbn [obind] in E.
  assert (CE : evals K F (closed_dict d0)).
  { pose proof (gbody_forall (fun g => gxeval K F g = true) F _ _ _ [] _ _ (forallb_F _ _ EB) ltac:(constructor) GB) as D.
    unfold evals, closed_dict. rewrite Forall_map. eapply Forall_impl; [|exact D]. intros [a g] G. cbn in *. destruct g as [g|]; [|reflexivity].
    destruct g; try reflexivity. exact G. }
  assert (OWN : whole K F (SC own_anns BO_DEFAULT false)).
  { split; [exists []; symmetry; apply app_nil_r|]. split; [|repeat constructor]. cbn. repeat constructor; cbn; intuition discriminate. }
  assert (BASE : forall b g, obind (nth_error gl b) (fun g =>
      match gs_mode s with STRICT => if border_eqb (sc_bo (gc_sc g)) (gs_bo s) then Some g else None | OVERRIDE => Some g end) = Some g ->
    whole K F (gc_sc g)).
  { intros b g Q. destruct (nth_error gl b) as [g'|] eqn:NG; [|discriminate Q]. cbn [obind] in Q.
    assert (g' = g) as -> by (destruct (gs_mode s); [destruct (border_eqb _ _); [|discriminate Q]|]; now injection Q as <-).
    assert (BL : (b < List.length gl)%nat) by (apply nth_error_Some; congruence).
    eapply whole_mono; [| |exact (W b g NG)]; [unfold K; lia|reflexivity]. }
  destruct (gs_base s) as [[b [args|]]|].
  - destruct (obind (nth_error gl b) _) as [g|] eqn:BA; [|discriminate E]. cbn [obind] in E. destruct (BASE b g BA) as (P & N & I).
    destruct (gs_tvars s) eqn:TS; [|discriminate E].
    destruct (negb (Nat.eqb (List.length args) 0) && Nat.eqb (List.length args) (List.length (gc_tvars g)) && forallb (garg_ok K F) args); [|discriminate E].
    destruct (special K F (zipw (gc_tvars g) args) (gc_own g) (sc_anns (gc_sc g))) as [sp|] eqn:SP; [|discriminate E]. cbn [obind] in E.
    eapply FIN; [exact P|exact N|exact I| |exact E]. rewrite put_update. apply (update_all (fun x => eval_ok K F x = true)); [|exact CE].
    exact (special_evals _ _ _ _ _ _ SP).
  - destruct (obind (nth_error gl b) _) as [g|] eqn:BA; [|discriminate E]. cbn [obind] in E. destruct (BASE b g BA) as (P & N & I).
    eapply FIN; [exact P|exact N|exact I|exact CE|exact E].
  - destruct OWN as (P & N & I). eapply FIN; [exact P|exact N|exact I|exact CE|exact E].
Qed.
Lemma flat_prog : forall prog gl k gl', (forall j g, nth_error gl j = Some g -> whole j (reads_on (map gc_sc gl)) (gc_sc g)) ->
  gcheck_prog gl k prog = Some gl' ->
  exists more, map gc_sc gl' = map gc_sc gl ++ more /\ check_prog (map gc_sc gl) 0 (map flat more) = Some (map gc_sc gl').
Proof.
  induction prog as [|s prog IH]; intros gl k gl' W E; cbn [gcheck_prog] in E.
  { injection E as <-. exists []. rewrite app_nil_r. split; reflexivity. }
  destruct (gcheck_stmt gl k s) as [[c k']|] eqn:CS; [|discriminate E]. cbn [obind] in E.
  destruct (gstmt_whole gl k s c k' W CS) as [WC FC].
  destruct (IH (gl ++ [c]) k' gl') as (more & M & C); [|exact E|].
  - intros j g NG. rewrite map_app. cbn [map].
    assert (EXT : forall d, (d < List.length gl)%nat -> reads_on (map gc_sc gl) d = reads_on (map gc_sc gl ++ [gc_sc c]) d).
    { intros d Q. unfold reads_on. rewrite nth_error_app1 by (rewrite map_length; lia). reflexivity. }
    destruct (Nat.lt_ge_cases j (List.length gl)) as [Q|Q].
    + rewrite nth_error_app1 in NG by lia. eapply whole_mono; [| |exact (W j g NG)]; [lia|]. intros d Q2. apply EXT. lia.
    + rewrite nth_error_app2 in NG by lia. destruct (j - List.length gl)%nat as [|x] eqn:JE; [|cbn in NG; destruct x; discriminate NG].
      cbn in NG. injection NG as <-. assert (j = List.length gl) as -> by lia. eapply whole_mono; [| |exact WC]; [lia|]. intros d Q2. now apply EXT.
  - exists (gc_sc c :: more). rewrite map_app in M, C. cbn [map] in M, C. split; [rewrite M, <- app_assoc; reflexivity|].
    cbn [map check_prog]. rewrite FC. exact C.
Qed.
