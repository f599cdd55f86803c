(** Property C41: format strings.  The serializers of structs.py keep a string; what they do with it is what Format.v
    does with the list of counted specifiers the string denotes. *)
From Verif Require Import Base Floats Value StructMod Format BaseFacts StructFacts FormatFacts PropsStruct FormatStr.
Open Scope string_scope. Open Scope list_scope. Open Scope Z_scope.

(** ** the classes of structs.py, with the format string *)
(** structs.py:92-115, 212-238: [self.format] and [self.actions] (None for StructSerializer) *)
Record sstr := SQ { q_format : string; q_act : option (list action) }.
(** number of values and acceptance by struct.Struct: of the format without the byte order *)
Definition q_fmt (s : string) : option fmt := parse (snd (split_byte_order s)).
(** structs.py:109-115 (None: struct.error) *)
Definition q_struct (f : string) (bo : border) : option sstr :=
  let s := (bo_value bo ++ f)%string in
  match q_fmt s with Some _ => Some (SQ s None) | None => None end.
(** structs.py:227-238 *)
Definition q_action (f : string) (bo : border) (acts : list action) : option sstr :=
  let s := (bo_value bo ++ f)%string in
  match q_fmt s with
  | Some g => Some (SQ s (Some (acts ++ repeat noop_action (nvals g - List.length acts))))
  | None => None
  end.
(** [type(self)(fmt, byte_order)] *)
Definition q_same (a : sstr) (f : string) (bo : border) : option sstr :=
  match q_act a with None => q_struct f bo | Some _ => q_action f bo [] end.
Definition q_nvals (a : sstr) : nat := match q_fmt (q_format a) with Some g => nvals g | None => O end.
(** structs.py:120-125, 259-263 *)
Definition q_with_bo (bo : border) (a : sstr) : option sstr :=
  let (old, f) := split_byte_order (q_format a) in
  if border_eqb old bo then Some a
  else match q_same a f bo with
       | Some r => Some (match q_act a with None => r | Some acts => SQ (q_format r) (Some acts) end)
       | None => None
       end.
(** structs.py:156-170, 275-299; [None]: struct.error, [Some (Err _)]: the ValueError of line 162 *)
Definition q_add (a b : sstr) : option (res sstr) :=
  let (bo, l) := split_byte_order (q_format a) in
  let (bo2, r) := split_byte_order (q_format b) in
  let f := fold_str false l r in
  match q_act a, q_act b with
  | None, None => if border_eqb bo bo2 then option_map (@Ok sstr) (q_struct f bo) else Some (Err ValueError)
  | None, Some ab => option_map (@Ok sstr) (q_action f bo (repeat noop_action (q_nvals a) ++ ab))
  | Some aa, Some ab => option_map (@Ok sstr) (q_action f bo (aa ++ ab))
  | Some aa, None => option_map (@Ok sstr) (q_action f bo aa)
  end.
(** structs.py:187-200; the result is None for the NullSerializer *)
Definition q_mul_impl (cs : bool) (a : sstr) (n : Z) : option (res (option sstr)) :=
  if n =? 0 then Some (Ok None)
  else if n <? 0 then Some (Err ValueError)
  else if n =? 1 then Some (Ok (Some a))
  else
    let (bo, f) := split_byte_order (q_format a) in
    option_map (fun r => Ok (Some r)) (q_same a (fold_repeat_str cs f f (Z.to_nat n - 1)) bo).
(** structs.py:172-178, 301-304 *)
Definition q_mul (a : sstr) (n : Z) : option (res (option sstr)) :=
  option_map (fun r => rdo o <- r;
     Ok (match o, q_act a with
         | Some s, Some acts => Some (SQ (q_format s) (Some (concat (repeat acts (Z.to_nat n)))))
         | _, _ => o
         end)) (q_mul_impl false a n).
(** structs.py:180-185 *)
Definition q_matmul (a : sstr) (n : Z) : option (res (option sstr)) := q_mul_impl true a n.

(** ** the specification: the string denotes the byte order and the counted specifiers *)
(** [s] is the serializer Format.v works with *)
Definition denotes (q : sstr) (s : sspec) : Prop :=
  exists body, q_format q = (bo_value (s_bo s) ++ body)%string /\ no_space body = true /\
               parse body = Some (s_fmt s) /\ q_act q = s_act s.

Lemma denotes_split : forall q s, denotes q s -> exists body,
  split_byte_order (q_format q) = (s_bo s, body) /\ no_space body = true /\ parse body = Some (s_fmt s) /\
  q_act q = s_act s.
Proof.
  intros q s (body & E & N & P & A). exists body. rewrite E. split; [|auto]. eapply split_byte_order_spec; eauto.
Qed.
Lemma q_fmt_app : forall bo f g, parse f = Some g -> q_fmt (bo_value bo ++ f) = Some g.
Proof. intros bo f g P. unfold q_fmt. rewrite (split_byte_order_spec bo f g P). exact P. Qed.
Lemma denotes_struct : forall bo f g, no_space f = true -> parse f = Some g ->
  exists q, q_struct f bo = Some q /\ denotes q (SS bo g None).
Proof.
  intros bo f g N P. unfold q_struct. rewrite (q_fmt_app bo f g P). eexists. split; [reflexivity|].
  exists f. auto.
Qed.
Lemma denotes_action : forall bo f g acts, no_space f = true -> parse f = Some g ->
  exists q, q_action f bo acts = Some q /\ denotes q (mk_action bo g acts).
Proof.
  intros bo f g acts N P. unfold q_action. rewrite (q_fmt_app bo f g P). eexists. split; [reflexivity|].
  exists f. auto.
Qed.

(** ** C41 *)
(** the string written for a list of counted specifiers denotes it, in every byte order *)
Theorem C41_written : forall bo f, exists q, q_struct (print f) bo = Some q /\ denotes q (SS bo f None).
Proof. intros bo f. apply denotes_struct; [apply no_space_print|apply parse_print]. Qed.
Print Assumptions C41_written.

(** any two format strings the struct module accepts, spaces and leading zeros included: the joined string is accepted
    and has the layout of the concatenation, under the condition of C10 *)
Theorem C41_join_layout : forall s1 s2 f1 f2, parse s1 = Some f1 -> parse s2 = Some f2 -> foldable f1 f2 = true ->
  exists g, parse (fold_str false s1 s2) = Some g /\ same_struct g (f1 ++ f2).
Proof.
  intros s1 s2 f1 f2 P1 P2 F. destruct (fold_str_any false s1 s2 f1 f2 P1 P2) as [E|E]; eexists; (split; [exact E|]).
  - apply layout_st. now apply fold_layout.
  - apply layout_st. apply layout_eq_refl.
Qed.
Print Assumptions C41_join_layout.
(** the joined string is always accepted *)
Theorem C41_join_accepted : forall cs s1 s2, parse s1 <> None -> parse s2 <> None -> parse (fold_str cs s1 s2) <> None.
Proof.
  intros cs s1 s2 P1 P2. destruct (parse s1) as [f1|] eqn:E1; [|congruence]. destruct (parse s2) as [f2|] eqn:E2; [|congruence].
  destruct (fold_str_any cs s1 s2 f1 f2 E1 E2) as [E|E]; congruence.
Qed.
Print Assumptions C41_join_accepted.

(** the operations on serializers are those of Format.v *)
Theorem C41_with_byte_order : forall q s bo, denotes q s ->
  exists q', q_with_bo bo q = Some q' /\ denotes q' (ss_with_bo bo s).
Proof.
  intros q s bo D. destruct (denotes_split _ _ D) as (body & SP & N & P & A). unfold q_with_bo. rewrite SP.
  destruct (border_eqb (s_bo s) bo) eqn:B.
  - assert (s_bo s = bo) as <- by (destruct (s_bo s), bo; cbn in B; congruence).
    exists q. split; [reflexivity|]. destruct s; exact D.
  - unfold q_same. rewrite A. destruct (s_act s) as [acts|] eqn:SA.
    + destruct (denotes_action bo body _ [] N P) as (r & -> & R). eexists. split; [reflexivity|].
      destruct R as (b' & E & N' & P' & _). exists b'. cbn in *. rewrite SA. auto.
    + destruct (denotes_struct bo body _ N P) as (r & -> & R). exists r. split; [reflexivity|].
      unfold ss_with_bo. now rewrite SA.
Qed.
Print Assumptions C41_with_byte_order.
Theorem C41_add : forall qa qb a b, denotes qa a -> denotes qb b ->
  match ss_add a b with
  | Ok s => exists q, q_add qa qb = Some (Ok q) /\ denotes q s
  | Err e => q_add qa qb = Some (Err e)
  end.
Proof.
  intros qa qb a b DA DB. destruct (denotes_split _ _ DA) as (la & SA & NA & PA & AA).
  destruct (denotes_split _ _ DB) as (lb & SB & NB & PB & AB).
  destruct (fold_str_exact false la lb _ _ NA NB PA PB) as [PF NF].
  unfold q_add, ss_add. rewrite SA, SB, AA, AB.
  assert (NV : q_nvals qa = ss_nvals a) by (unfold q_nvals, q_fmt; rewrite SA; cbn [snd]; now rewrite PA).
  rewrite NV. destruct (s_act a) as [aa|], (s_act b) as [ab|].
  - destruct (denotes_action (s_bo a) _ _ (aa ++ ab) NF PF) as (q & -> & D). exists q. now split.
  - destruct (denotes_action (s_bo a) _ _ aa NF PF) as (q & -> & D). exists q. now split.
  - destruct (denotes_action (s_bo a) _ _ (repeat noop_action (ss_nvals a) ++ ab) NF PF) as (q & -> & D). exists q. now split.
  - destruct (border_eqb (s_bo a) (s_bo b)); [|reflexivity].
    destruct (denotes_struct (s_bo a) _ _ NF PF) as (q & -> & D). exists q. now split.
Qed.
Print Assumptions C41_add.

(** related results of a repetition *)
Definition same_result (o : option (res (option sstr))) (r : res (option sspec)) : Prop :=
  match r with
  | Err e => o = Some (Err e)
  | Ok None => o = Some (Ok None)
  | Ok (Some s) => exists q, o = Some (Ok (Some q)) /\ denotes q s
  end.
Lemma mul_impl : forall cs q s n, denotes q s -> same_result (q_mul_impl cs q n) (ss_mul_impl cs s n).
Proof.
  intros cs q s n D. destruct (denotes_split _ _ D) as (l & SP & N & P & A).
  unfold q_mul_impl, ss_mul_impl. destruct (n =? 0); [reflexivity|]. destruct (n <? 0); [reflexivity|].
  destruct (n =? 1); [now exists q|]. rewrite SP.
  destruct (fold_repeat_str_exact cs l _ N P (Z.to_nat n - 1) l _ N P) as [PF NF].
  unfold q_same. rewrite A. cbn [same_result]. destruct (s_act s).
  - destruct (denotes_action (s_bo s) _ _ [] NF PF) as (r & -> & R). exists r. now split.
  - destruct (denotes_struct (s_bo s) _ _ NF PF) as (r & -> & R). exists r. now split.
Qed.
Theorem C41_matmul : forall q s n, denotes q s -> same_result (q_matmul q n) (ss_matmul s n).
Proof. intros. now apply mul_impl. Qed.
Print Assumptions C41_matmul.
Theorem C41_mul : forall q s n, denotes q s -> same_result (q_mul q n) (ss_mul s n).
Proof.
  intros q s n D. pose proof (mul_impl false q s n D) as M. unfold q_mul, ss_mul.
  destruct (denotes_split _ _ D) as (l & _ & _ & _ & A). rewrite A.
  destruct (ss_mul_impl false s n) as [[r|]|e]; cbn in M |- *.
  - destruct M as (q' & -> & R). cbn. destruct (s_act s) as [acts|]; [|now exists q'].
    eexists. split; [reflexivity|]. destruct R as (b' & E & N' & P' & _). exists b'. auto.
  - rewrite M. reflexivity.
  - rewrite M. reflexivity.
Qed.
Print Assumptions C41_mul.

(** [format.endswith('x')] (structured.py:52) says that the last counted specifier is 'x' *)
Fixpoint last_char (s : string) : option ascii :=
  match s with
  | EmptyString => None
  | String a EmptyString => Some a
  | String _ s' => last_char s'
  end.
Lemma last_char_app : forall p a, last_char (p ++ String a "") = Some a.
Proof.
  induction p as [|b p IH]; intros a; [reflexivity|]. cbn [append last_char]. rewrite IH. destruct p; reflexivity.
Qed.
Theorem C41_ends_in_x : forall q s, denotes q s ->
  (last_char (q_format q) = Some "x"%char <-> exists f t, s_fmt s = f ++ [t] /\ t_code t = Cx).
Proof.
  intros q s (body & E & N & P & _). rewrite E. destruct (s_fmt s) as [|t0 f0] eqn:F.
  - apply parse_nothing in P as ->; [|exact N]. rewrite str_app_nil. split.
    + destruct (s_bo s); discriminate.
    + intros (f & t & X & _). destruct f; discriminate.
  - pose proof P as P'. unfold parse in P'. destruct (scan None body) as [[g [|]]|] eqn:S; try discriminate. injection P' as ->.
    assert (X : t0 :: f0 <> []) by discriminate. pose proof (re_end_some _ _ _ N S X) as RE.
    destruct (re_end body) as [[[p d] a]|] eqn:R; [clear RE|congruence].
    destruct (parse_end _ _ _ _ _ R P) as (f1 & c & C & _ & EQ).
    destruct (re_end_spec _ _ _ _ R) as (_ & _ & _ & t & T & EB).
    assert (t = EmptyString) as ->.
    { destruct T as [-> | ->]; [reflexivity|]. exfalso. rewrite EB, !no_space_app in N.
      apply andb_prop in N as [_ N]. apply andb_prop in N as [_ N]. cbn in N. now rewrite andb_false_r in N. }
    rewrite EB, <- !str_app_assoc, last_char_app. rewrite EQ. split.
    + intros H. injection H as ->. cbn in C. injection C as <-. exists f1, (tok_of d Cx). now split.
    + intros (f & t & Y & Z0). apply app_inj_tail in Y as [_ <-]. cbn in Z0. subst c. apply letter_code in C. cbn in C. now subst a.
Qed.
Print Assumptions C41_ends_in_x.

(** spaces: '2h 3h' is joined to another format as written; without the condition of C10 the two levels differ, the
    string level keeping what Format.v drops *)
Example C41_nontrivial :
  parse " 2h 03I?" = Some [T (Some 2%nat) Ch; T (Some 3%nat) CI; T None Cbool] /\
  parse "2" = None /\ parse "2 h" = None /\
  fold_str false "xh2I" "3I" = "xh5I" /\ fold_str false "xh2I" "3Ih" = "xh5I" /\ fold_str false "xh2I " "3Ih" = "xh2I 3Ih" /\
  fold_str false "s" "s" = "ss" /\ fold_str true "s" "12s" = "13s" /\
  q_add (SQ "<h" None) (SQ "<h" None) = Some (Ok (SQ "<2h" None)) /\
  q_add (SQ "<h" None) (SQ "h" None) = Some (Err ValueError) /\
  q_mul (SQ ">10s" None) 3 = Some (Ok (Some (SQ ">10s10s10s" None))) /\
  q_matmul (SQ "x" None) 12 = Some (Ok (Some (SQ "12x" None))) /\
  denotes (SQ ">2HB" None) (SS BO_BE [T (Some 2%nat) CH; T None CB] None).
Proof. repeat split; try reflexivity. now exists "2HB". Qed.
