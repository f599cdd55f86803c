(** Property C40: which class statements are accepted. *)
From Verif Require Import Base Floats Value StructMod Format Ser Exec Pure BaseFacts SerFacts User DecFacts PropsFinal
  Hints HintFacts Surface SerShape Programs Accept AcceptProg PropsProgram.

(** ** programs *)
Lemma nothing_defined : classes_rel [] [].
Proof. split; [reflexivity|]. intros j c i N. destruct j; discriminate N. Qed.
(** Executing class statements succeeds exactly if the text passes the check of AcceptProg.v: counts are not
    negative, terminators are single bytes, lengths and sizes are unsigned types, array items and union members
    are serialized, members and SerializeAs types have one value, conditions have as many defaults as the hint
    has values, names of classes are those of earlier statements, the byte order is that of the base class or
    overridden, and nothing follows a field that reads to the end, neither in a class, nor in a tuple, nor in
    an array.  It does not depend on which serializer objects are shared. *)
Theorem C40_accepted : forall idf fac prog,
  (exists l, run idf fac [] 0 prog = Ok l) <-> (exists sl, check_prog [] 0 prog = Some sl).
Proof.
  intros idf fac prog. pose proof (prog_rel idf fac prog [] [] 0) as H.
  specialize (H nothing_defined).
  destruct (check_prog [] 0 prog) as [sl|].
  - destruct H as (l & -> & _). split; eauto.
  - destruct H as (e & ->). split; intros [x Q]; discriminate Q.
Qed.
Print Assumptions C40_accepted.

(** The classes then have the byte order of their statement, the attributes the text shows (serialized
    annotations that are not padding, inherited ones first, redefined ones in place, none called self), and are
    restricted to the last position exactly if a field reads to the end. *)
Theorem C40_classes : forall idf fac prog l, run idf fac [] 0 prog = Ok l ->
  exists sl, check_prog [] 0 prog = Some sl /\
    Forall2 (fun c i => c_attrs (ci_def i) = sc_attrs c /\ c_bo (ci_def i) = sc_bo c /\ c_final (ci_def i) = sc_rest c) sl l.
Proof.
  intros idf fac prog l E. pose proof (prog_rel idf fac prog [] [] 0) as H.
  specialize (H nothing_defined).
  destruct (check_prog [] 0 prog) as [sl|]; [|destruct H as (e & Q); congruence].
  destruct H as (l' & Q & LEN & R). assert (l' = l) as -> by congruence. exists sl. split; [reflexivity|]. clear -LEN R.
  assert (G : forall a b : list _, List.length a = List.length b ->
    (forall j c i, nth_error a j = Some c -> nth_error b j = Some i ->
      c_attrs (ci_def i) = sc_attrs c /\ c_bo (ci_def i) = sc_bo c /\ c_final (ci_def i) = sc_rest c) ->
    Forall2 (fun c i => c_attrs (ci_def i) = sc_attrs c /\ c_bo (ci_def i) = sc_bo c /\ c_final (ci_def i) = sc_rest c) a b).
  { induction a as [|c a IH]; intros [|i b] L P; try discriminate L; constructor.
    - exact (P 0%nat c i eq_refl eq_refl).
    - apply IH; [now injection L|]. intros j c0 i0 N1 N2. exact (P (S j) c0 i0 N1 N2). }
  apply G; [exact LEN|]. intros j c i N1 N2. destruct (R j c i N1 N2) as (_ & A & B & C & _). auto.
Qed.
Print Assumptions C40_classes.

(** ** the factories, on any argument *)
(** what [char] can be given *)
Inductive char_arg : pyh -> Prop :=
| CA_uint : forall c, In c [CB; CH; CI; CQ] -> char_arg (basic c)
| CA_count : forall z, 0 <= z -> char_arg (PInt z)
| CA_term : forall t, char_arg (PBytes [t])
| CA_net : char_arg PNET
| CA_inf : char_arg PInf
| CA_var : forall t, char_arg (PTVar t).
Definition bad_value (c : pyh) : Prop := (exists z, c = PInt z /\ z < 0) \/ (exists b, c = PBytes b /\ List.length b <> 1%nat).
(** [basic c] is compared with [in]: the object itself *)
Definition is_basic (c : pyh) : Prop := forall st, size_type c = Some st -> exists k, In k [CB; CH; CI; CQ] /\ c = basic k.
Theorem C40_char : forall fac c, is_basic c ->
  match char_create fac c with
  | Ok _ => char_arg c
  | Err e => ~ char_arg c /\ (bad_value c -> e = ValueError) /\ (~ bad_value c -> e = TypeError)
  end.
Proof.
  intros fac c IB. unfold char_create. destruct (size_type c) as [st|] eqn:S.
  { destruct (IB st S) as (k & I & ->). now constructor. }
  assert (NB : forall k, In k [CB; CH; CI; CQ] -> basic k <> c).
  { intros k I E. subst c. cbn in I. repeat (destruct I as [<-|I]; [discriminate S|]). contradiction. }
  assert (NO : match c with PInt _ | PNET | PTVar _ | PBytes _ | PInf => False | _ => True end ->
    ~ char_arg c /\ (bad_value c -> TypeError = ValueError) /\ (~ bad_value c -> TypeError = TypeError)).
  { intros N. split; [|split; [|auto]].
    - intros H. destruct H; try contradiction. now apply (NB c).
    - intros [(z & -> & _)|(b & -> & _)]; contradiction. }
  destruct c; try (apply NO; exact I); try constructor.
  - unfold ss_matmul, ss_mul_impl. destruct (z =? 0) eqn:Z0; [apply Z.eqb_eq in Z0; cbn; constructor; lia|].
    destruct (z <? 0) eqn:L.
    + cbn. apply Z.ltb_lt in L. split; [intros H; inversion H; lia|]. split; [auto|]. intros H. exfalso. apply H. left. eauto.
    + apply Z.ltb_ge in L. destruct (z =? 1); cbn; constructor; exact L.
  - destruct b as [|b0 [|b1 b]]; try constructor.
    + intros H. inversion H.
    + split; [auto|]. intros H. exfalso. apply H. right. exists []. split; [reflexivity|discriminate].
    + intros H. inversion H.
    + split; [auto|]. intros H. exfalso. apply H. right. eexists. split; [reflexivity|cbn; lia].
Qed.
Print Assumptions C40_char.

(** what [Header] can be given *)
Definition header_count (l : pyh) : Prop := (exists c, In c [CB; CH; CI; CQ] /\ l = basic c) \/ exists z, l = PInt z /\ 0 <= z.
Definition header_size (s : pyh) : Prop := (exists c, In c [CB; CH; CI; CQ] /\ s = basic c) \/ s = PNone.
Theorem C40_header : forall l s, is_basic l -> is_basic s -> is_tv l = false -> is_tv s = false ->
  match header_create l s with
  | Ok _ => header_count l /\ header_size s
  | Err e => ~ (header_count l /\ header_size s) /\ (e = ValueError <-> exists z, l = PInt z /\ z < 0) /\ (e = ValueError \/ e = TypeError)
  end.
Proof.
  intros l s IL IS TL TS. unfold header_create. rewrite TL, TS. cbn [orb].
  assert (SZ : forall x, size_type x = None -> forall c, In c [CB; CH; CI; CQ] -> x <> basic c).
  { intros x N c I ->. cbn in I. repeat (destruct I as [<-|I]; [discriminate N|]). contradiction. }
  assert (LS : match size_type s with
               | Some st => exists c, In c [CB; CH; CI; CQ] /\ s = basic c
               | None => (s = PNone \/ ((forall A (a b : A), match s with PNone => a | _ => b end = b) /\ ~ header_size s)) end).
  { destruct (size_type s) as [st|] eqn:S; [exact (IS st S)|].
    destruct s; try (now left); right; (split; [reflexivity|]); (intros [(c0 & I & E)|E]; [exact (SZ _ S c0 I E)|discriminate E]). }
  assert (FIN : forall cnt, header_count l ->
    match match size_type s, s with
          | Some st, _ => Ok (PHeader cnt (Some st)) | None, PNone => Ok (PHeader cnt None) | None, _ => Err TypeError end with
    | Ok _ => header_count l /\ header_size s
    | Err e => ~ (header_count l /\ header_size s) /\ (e = ValueError <-> exists z, l = PInt z /\ z < 0) /\ (e = ValueError \/ e = TypeError)
    end).
  { intros cnt HL. destruct (size_type s) as [st|].
    - split; [exact HL|now left].
    - destruct LS as [->|[E N]]; [split; [exact HL|now right]|]. rewrite E. split; [tauto|]. split; [|auto]. split; [discriminate|].
      intros (z & -> & Q). exfalso. destruct HL as [(c & I & B)|(z' & B & C)]; [|injection B as <-; lia].
      discriminate B. }
  destruct (size_type l) as [st|] eqn:S.
  - destruct (IL st S) as (c & I & ->). cbn [rbind]. apply FIN. left. eauto.
  - assert (NL : (exists z, l = PInt z) \/ ((forall A (g : Z -> A) (b : A), match l with PInt z => g z | _ => b end = b) /\ forall z, l <> PInt z)).
    { destruct l; try (right; split; [reflexivity|discriminate]). left. eauto. }
    destruct NL as [(z & ->)|[E N]].
    + destruct (z <? 0) eqn:L.
      * cbn [rbind]. apply Z.ltb_lt in L. split; [intros [[(c & _ & B)|(z' & B & C)] _]; [discriminate B|injection B as <-; lia]|].
        split; [|auto]. split; eauto.
      * cbn [rbind]. apply FIN. right. exists z. apply Z.ltb_ge in L. auto.
    + assert (EQ : match l with PInt z => if z <? 0 then Err ValueError else Ok (inl z) | _ => @Err (Z + sspec) TypeError end = Err TypeError) by apply E.
      match goal with |- match (rdo _ <- ?x; _) with _ => _ end => assert (X : x = Err TypeError) by exact EQ; rewrite X end.
      cbn [rbind]. split; [intros [[(c & I & B)|(z & B & _)] _]; [exact (SZ _ S c I B)|exact (N z B)]|].
      split; [|auto]. split; [discriminate|]. intros (z & B & _). exfalso. exact (N z B).
Qed.
Print Assumptions C40_header.

(** ** hints that must be indexed *)
(** [x: array] instead of [x: array[...]], alone or inside Annotated *)
Definition bare (h : pyh) : Prop := hbase h = PUnindexed \/ In PUnindexed (hmeta h).
Lemma pass_bare_ann : forall fin spec idf chk p subs b, exists e, pass fin spec idf chk p subs PUnindexed b = Err e.
Proof.
  intros. unfold pass. destruct (if chk then step (fun b0 => tr_check b0 PUnindexed) b else Ok b) as [b0|e]; [|eexists; reflexivity].
  cbn [rbind]. destruct (step (tr_tuple fin idf p subs) b0) as [b1|e]; [|eexists; reflexivity]. cbn [rbind]. unfold step at 1. cbn [tr_seras rbind].
  unfold step at 1. cbn [tr_cond rbind]. unfold step at 1. cbn [tr_union rbind].
  destruct (step (tr_self idf p) b1) as [b2|e]; [|eexists; reflexivity]. cbn [rbind].
  destruct (step (tr_structured spec idf p) b2) as [b3|e]; [|eexists; reflexivity]. cbn [rbind]. exists TypeError. unfold step, tr_indexing.
  destruct b3; reflexivity.
Qed.
Lemma passes_bare : forall fin spec idf chk p subs anns b, In PUnindexed anns -> exists e, passes fin spec idf chk p subs anns b = Err e.
Proof.
  intros fin spec idf chk p subs. induction anns as [|a anns IH]; intros b I; [contradiction|]. cbn [passes]. destruct I as [->|I].
  - destruct (pass_bare_ann fin spec idf chk p subs b) as (e & ->). cbn. eauto.
  - destruct (pass fin spec idf chk p subs a b) as [b'|e]; [|eexists; reflexivity]. cbn [rbind]. now apply IH.
Qed.
Lemma transform_bare : forall fin spec idf p h, bare h -> exists e, transform fin spec idf false p h = Err e.
Proof.
  intros fin spec idf p h B. rewrite transform_eq. destruct B as [B|B].
  - rewrite B. cbn [passes]. exists TypeError. reflexivity.
  - apply passes_bare. now right.
Qed.
(** no class has such an annotation, own or inherited *)
Theorem C40_bare : forall env spec idf fac n body bases tvars bo mode i,
  define env spec idf fac n body bases tvars bo mode = Ok i ->
  forall a h, In (a, h) (get_type_hints (ci_mro i)) -> ~ bare h.
Proof.
  intros env spec idf fac n body bases tvars bo mode i D a h I B.
  assert (G : forall hints j fl, filter_typehints env spec idf j hints = Ok fl -> In (a, h) hints -> False).
  { induction hints as [|[b g] hints IH]; intros j fl E J; [contradiction|]. cbn [filter_typehints] in E.
    destruct (match g with PClassVar _ => Ok PNone | _ => transform (efin env) spec idf false [j] g end) as [x|] eqn:T; [|discriminate].
    cbn [rbind] in E. destruct (filter_typehints env spec idf (S j) hints) as [r|] eqn:R; [|discriminate].
    destruct J as [J|J]; [|eapply IH; eauto]. injection J as -> ->.
    destruct (transform_bare (efin env) spec idf [j] h B) as (e & Q).
    destruct (match h with PClassVar _ => true | _ => false end) eqn:HC.
    - destruct h; try discriminate HC. destruct B as [B|[]]; discriminate B.
    - assert (TE : transform (efin env) spec idf false [j] h = Ok x) by (destruct h; try exact T; discriminate HC). congruence. }
  unfold define in D. destruct bases as [|[c args] [|? ?]]; [| |discriminate D].
  - cbn [rbind] in D. cbv zeta in D.
    match type of D with rbind ?m _ = _ => destruct m as [fl|] eqn:FL; [|discriminate D] end. cbn [rbind] in D.
    match type of D with rbind ?m _ = _ => destruct m; [|discriminate D] end. cbn [rbind] in D. injection D as <-. eapply G; eauto.
  - destruct (env c) as [ib|]; [|discriminate D]. cbn [rbind] in D.
    match type of D with rbind ?m _ = _ => destruct m; [|discriminate D] end. cbn [rbind] in D.
    match type of D with rbind ?m _ = _ => destruct m as [own|]; [|discriminate D] end. cbn [rbind] in D. cbv zeta in D.
    match type of D with rbind ?m _ = _ => destruct m as [fl|] eqn:FL; [|discriminate D] end. cbn [rbind] in D.
    match type of D with rbind ?m _ = _ => destruct m; [|discriminate D] end. cbn [rbind] in D. injection D as <-. eapply G; eauto.
Qed.
Print Assumptions C40_bare.

(** ** a field that holds one value does not always count as one *)
(** Every hint for one value can be made conditional with one default, and can be a union member: false for
    arrays of basic types with a count header (arrays.py:238: num_values is 0); they are only accepted with no
    default, as if they were padding. *)
Definition counted_array : hx := XArray (inr CB) None (XBasic CH).
Theorem C40_array_default_refuted : forall idf fac f v,
  is_ok (run idf fac [] 0 [Stmt [("x", counted_array)] None BO_DEFAULT STRICT false]%string) = true /\
  run idf fac [] 0 [Stmt [("x", XCond counted_array f [v])] None BO_DEFAULT STRICT false]%string = Err ValueError /\
  run idf fac [] 0 [Stmt [("x", XBack 1 [counted_array] f [(v, counted_array)] None)] None BO_DEFAULT STRICT false]%string = Err ValueError /\
  is_ok (run idf fac [] 0 [Stmt [("x", XCond counted_array f [])] None BO_DEFAULT STRICT false]%string) = true.
Proof.
  intros idf fac f v. repeat split; vm_compute; reflexivity.
Qed.
Print Assumptions C40_array_default_refuted.

(** ** examples *)
Definition rejected (prog : list stmt) : Prop := check_prog [] 0 prog = None.
Definition one (x : hx) : list stmt := [Stmt [("x", x)] None BO_DEFAULT STRICT false]%string.
Example C40_nontrivial :
  (exists sl, check_prog [] 0 sample_prog = Some sl /\ map sc_rest sl = [false; false; false; true] /\
     map sc_attrs sl = [["x"; "y"]; ["kind"; "name"; "opt"; "payload"; "pts"; "kids"; "pair"]; ["x"; "y"; "z"; "color"];
       ["x"; "y"; "z"; "color"; "origin"; "body"; "rest"]]%string) /\
  rejected (one (XPad (-1))) /\ rejected (one (XChar (KBytes [x00; x00]))) /\ rejected (one (XChar (KUint Cf))) /\
  rejected (one (XArray (inl (-3)) None (XBasic CB))) /\ rejected (one (XArray (inl 3) (Some Cb) (XBasic CB))) /\
  rejected (one (XArray (inl 3) None (XChar KInf))) /\ rejected (one (XArray (inl 3) None (XPlain 1))) /\
  rejected (one (XTuple [XTuple [XChar KInf]; XBasic CB])) /\ rejected (one (XClass 0)) /\
  rejected (one (XCond (XBasic CB) (fun _ => Ok VNone) [])) /\ rejected (one (XAs (fun v => Ok v) (XPad 2))) /\
  rejected [Stmt [("x", XChar KInf); ("y", XBasic CB)] None BO_DEFAULT STRICT false]%string /\
  rejected [Stmt [("x", XChar KInf)] None BO_LE STRICT false; Stmt [("y", XPlain 1)] (Some 0%nat) BO_BE STRICT false]%string /\
  (exists sl, check_prog [] 0 [Stmt [("x", XChar KInf)] None BO_LE STRICT false;
     Stmt [("y", XPlain 1)] (Some 0%nat) BO_BE OVERRIDE false]%string = Some sl) /\
  (exists sl, check_prog [] 0 [Stmt [("x", XTuple [XChar KInf; XPad 0])] None BO_LE STRICT false]%string = Some sl) /\
  is_basic PNET /\ is_basic (PInt (-2)) /\ (forall k, In k [CB; CH; CI; CQ] -> is_basic (basic k)).
Proof.
  split; [eexists; split; [reflexivity|split; reflexivity]|].
  repeat (split; [reflexivity|]). split; [eexists; reflexivity|]. split; [eexists; reflexivity|].
  split; [intros st E; discriminate E|]. split; [intros st E; discriminate E|]. intros k I st _. eauto.
Qed.
