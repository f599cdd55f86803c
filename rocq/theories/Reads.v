(** What the serializers of class statements read is what ReadSpec.v describes. *)
From Verif Require RoundTripMain.
From Verif Require Import Base Floats Value StructMod Format Ser Exec Pure BaseFacts StructFacts FormatFacts
  SerFacts Leaf Wire Field Fuel DecFacts RoundTrip Adding PropsAdd PropsBasic PropsStrings Hints HintFacts Surface SerShape Programs Accept AcceptProg
  WireSpec WireFacts Wires ReadSpec ReadFacts.

Lemma agree_case : forall {A B} L U (F : nat -> option A) g (K : nat -> A -> option B) k,
  agree L U F g -> (forall a, agree L U (fun n => K n a) (k a)) ->
  agree L U (fun n => match F n with Some a => K n a | None => None end) (match g with Some a => k a | None => None end).
Proof. intros A B L U F g K k. apply agree_bind. Qed.
Lemma rst_k : forall m st off b vs o' k, rst m st off b = Some (vs, o', k) -> 0 <= k.
Proof.
  intros m st off b vs o' k H. unfold rst in H. destruct (_ <=? _)%nat; [|discriminate]. destruct (opt _); [|discriminate]. injection H as <- <- <-. lia.
Qed.
Lemma opt_bind : forall {A B} (r : res A) (f : A -> res B), opt (rbind r f) = odo a <- opt r; opt (f a).
Proof. intros A B [a|e] f; reflexivity. Qed.
Lemma adv_app : forall j k (b : bytes), 0 <= j -> 0 <= k -> adv (j + k) b = adv k (adv j b).
Proof. intros j k b J K. unfold adv. rewrite skipn_skipn. f_equal. lia. Qed.

(** ** a sequence of fields, each at its offset of the run *)
Section Seq.
Variable hb : bool.
Variable ct : nat -> option cdef.
Variable md : umode.
Variable bo : border.
Let m := mode_of hb bo.
Definition sread (n : nat) (s : ser) (o : pobj) (off : nat) (b : bytes) : option place :=
  match s with
  | SNull => Some ([], off, 0)
  | SStruct st => rst m st off b
  | _ => block (opt (pdec hb ct md n s o b))
  end.
Lemma sread_pdec : forall n s o b, sbo bo s -> body (sread (S n) s o 0 b) = opt (pdec hb ct md (S n) s o b).
Proof.
  intros n s o b B. destruct s; cbn [sread]; try (destruct (opt _) as [[? ?]|]; reflexivity); try reflexivity.
  unfold pdec. cbn [resolve rbind dec dec_step]. rewrite rst_dst. unfold ss_mode. cbn in B. rewrite B. reflexivity.
Qed.
Lemma agree_pdec : forall L U s o b g, sbo bo s -> (1 <= U)%nat -> agree L U (fun n => sread n s o 0 b) g ->
  agree L U (fun n => opt (pdec hb ct md n s o b)) (body g).
Proof.
  intros L U s o b g B U1 H n r. split; intros N E.
  - destruct n as [|n].
    { unfold pdec in E. destruct (resolve false s o); discriminate E. }
    rewrite <- (sread_pdec n s o b B) in E. destruct (sread (S n) s o 0 b) as [p|] eqn:Q; [|discriminate].
    destruct (H (S n) p) as [P _]. now rewrite (P N Q).
  - destruct n as [|n]; [lia|]. destruct g as [p|]; [|discriminate]. destruct (H (S n) p) as [_ P].
    rewrite <- (sread_pdec n s o b B). now rewrite (P N eq_refl).
Qed.

Variable St : Type.
Variable give : list value -> St -> option St.
Variable at_obj : St -> pobj.
Hypothesis give_nil : forall st, give [] st = Some st.
Hypothesis give_app : forall a c st, give (a ++ c) st = odo st' <- give a st; give c st'.
Fixpoint gseq (n : nat) (l : list ser) (off : nat) (b : bytes) (st : St) : option (St * Z) :=
  match l with
  | [] => Some (st, 0)
  | s :: l' =>
      odo (vs, off', k) <- sread n s (at_obj st) off b;
      odo st' <- give vs st;
      odo (st'', k') <- gseq n l' off' (adv k b) st';
      Some (st'', k + k')
  end.
Fixpoint pseq (n : nat) (l : list ser) (b : bytes) (st : St) : option (St * Z) :=
  match l with
  | [] => Some (st, 0)
  | s :: l' =>
      odo (vs, k) <- opt (pdec hb ct md n s (at_obj st) b);
      odo st' <- give vs st;
      odo (st'', k') <- pseq n l' (adv k b) st';
      Some (st'', k + k')
  end.
Lemma gseq_step : forall a c, Adding.step a c -> Forall (fun s => wf_field s = true) a -> forall n off b st,
  gseq n a off b st = gseq n c off b st.
Proof using give_nil give_app.
  intros a c [q r|q x y r] W n; induction q as [|s q IH]; intros off b st; cbn [app] in *.
  - cbn [gseq sread]. rewrite give_nil. change (adv 0 b) with b. destruct (gseq n r off b st) as [[? ?]|]; reflexivity.
  - inversion W; subst. cbn [gseq]. destruct (sread n s _ off b) as [[[vs o'] k]|]; [|reflexivity].
    destruct (give vs st); [|reflexivity]. now rewrite IH.
  - inversion W as [|? ? WX W']; subst. inversion W' as [|? ? WY W'']; subst. cbn [gseq sread]. rewrite (rst_glue m x y off b WX WY).
    destruct (rst m x off b) as [[[v1 o1] k1]|] eqn:E1; [|reflexivity]. pose proof (rst_k _ _ _ _ _ _ _ E1) as K1.
    destruct (rst m y o1 (adv k1 b)) as [[[v2 o2] k2]|] eqn:E2.
    2:{ destruct (give v1 st); reflexivity. }
    pose proof (rst_k _ _ _ _ _ _ _ E2) as K2. rewrite give_app. destruct (give v1 st) as [s1|]; [|reflexivity].
    destruct (give v2 s1) as [s2|]; [|reflexivity]. rewrite adv_app by assumption. destruct (gseq n r o2 _ s2) as [[? ?]|]; [|reflexivity].
    now rewrite Z.add_assoc.
  - inversion W; subst. cbn [gseq]. destruct (sread n s _ off b) as [[[vs o'] k]|]; [|reflexivity].
    destruct (give vs st); [|reflexivity]. now rewrite IH.
Qed.
Lemma step_wf : forall a c, Adding.step a c -> Forall (fun s => wf_field s = true) a -> Forall (fun s => wf_field s = true) c.
Proof.
  intros a c [q r|q x y r] W; apply Forall_app in W as [W1 W2]; apply Forall_app; (split; [exact W1|]).
  - now inversion W2.
  - inversion W2 as [|? ? WX W']; subst. inversion W' as [|? ? WY W'']; subst. constructor; [|exact W'']. cbn in *. now apply (glue_wf false BO_LE).
Qed.
Lemma gseq_runs : forall l n off b st, Forall (fun s => wf_field s = true) l -> gseq n l off b st = gseq n (runs l) off b st.
Proof using give_nil give_app.
  intros l n off b st W. pose proof (runs_steps l) as S. revert W. induction S; intros W; [reflexivity|].
  rewrite (gseq_step a b0 H W). apply IHS. eapply step_wf; eauto.
Qed.
Lemma gseq_alt : forall n l, alt l = true -> Forall (sbo bo) l -> Forall (fun s => s <> SNull) l -> forall off b st,
  (match l with SStruct _ :: _ => off = 0%nat | _ => True end) -> gseq (S n) l off b st = pseq (S n) l b st.
Proof.
  intros n l. induction l as [|s l IH]; intros A B N off b st O; [reflexivity|]. cbn [gseq pseq].
  inversion B as [|? ? B1 B2]; subst. inversion N as [|? ? N1 N2]; subst.
  assert (AL : alt l = true) by (destruct s; try exact A; destruct l as [|[] ?]; try exact A; reflexivity || discriminate A).
  assert (Q : sread (S n) s (at_obj st) off b = odo (vs, k) <- opt (pdec hb ct md (S n) s (at_obj st) b);
              Some (vs, (if is_struct s then Z.to_nat k else 0)%nat, k)).
  { destruct s; try reflexivity; [congruence|]. subst off. rewrite <- (sread_pdec n _ _ b B1). cbn [sread is_struct].
    unfold rst. destruct (_ <=? _)%nat; [|reflexivity]. destruct (opt _); [|reflexivity]. cbn [body]. now rewrite Nat2Z.id. }
  rewrite Q. destruct (opt _) as [[vs k]|]; [|reflexivity]. destruct (give vs st) as [st'|]; [|reflexivity].
  rewrite IH; auto. destruct l as [|[] l]; auto. destruct s; try reflexivity. discriminate A.
Qed.
Lemma gseq_parts : forall l n b st, Forall (field_ok bo) l -> Forall atom (runs l) ->
  gseq (S n) l 0 b st = pseq (S n) (runs l) b st.
Proof using give_nil give_app.
  intros l n b st F AT. rewrite gseq_runs.
  - apply gseq_alt.
    + apply runs_alt.
    + apply (runs_forall _ l (push_sbo bo)). eapply Forall_impl; [|exact F]. intros s (Q & _). exact Q.
    + eapply Forall_impl; [|exact AT]. intros s [_ Q]. exact Q.
    + destruct (runs l) as [|[] ?]; auto.
  - eapply Forall_impl; [|exact F]. intros s (_ & _ & _ & Q & _). exact Q.
Qed.
End Seq.

(** ** strings *)
Section Strings.
Variable hb : bool.
Variable ct : nat -> option cdef.
Variable md : umode.
Lemma until_find : forall t b, until t b = option_map (fun i => firstn i b) (byte_find t b) /\
  forall i, byte_find t b = Some i -> blen (firstn i b) = Z.of_nat i.
Proof.
  intros t. induction b as [|x b [IH1 IH2]]; [split; [reflexivity|discriminate]|]. cbn [until byte_find].
  destruct (Byte.eqb x t); [split; [reflexivity|intros i E; injection E as <-; reflexivity]|]. rewrite IH1.
  destruct (byte_find t b) as [j|]; cbn [option_map]; [|split; [reflexivity|discriminate]]. split; [reflexivity|].
  intros i E. injection E as <-. cbn [firstn]. unfold blen in *. cbn [List.length]. specialize (IH2 j eq_refl). lia.
Qed.
Lemma str_rst : forall m bo t n off b, t_code t = Cs -> cnt t = n ->
  rst m (SS bo [t] None) off b = at_ m 1 n off b (fun y => [VBytes y]).
Proof.
  intros m bo t n off b C N. unfold rst, at_. cbn [s_fmt].
  assert (X : expand [t] = [UStr n]) by (unfold expand, expand_tok; cbn [flat_map]; rewrite C, N; reflexivity). rewrite X.
  cbn [size_u usize unpack_u]. rewrite mod1. replace (if m_native m then 0%nat else 0%nat) with 0%nat by (now destruct (m_native m)).
  rewrite Nat.add_0_r. cbn [Nat.add]. destruct (n <=? List.length b)%nat; [|reflexivity].
  unfold ss_act. cbn [s_act opt skipn]. do 3 f_equal. lia.
Qed.
Lemma dst_str : forall t n b, t_code t = Cs -> cnt t = n -> opt (dst hb (SS BO_DEFAULT [t] None) b) = odo s <- cut false (Z.of_nat n) b; Some [VBytes s].
Proof.
  intros t n b C N. pose proof (rst_dst hb (SS BO_DEFAULT [t] None) b) as H. rewrite (str_rst _ _ t n _ _ C N) in H. unfold at_ in H.
  rewrite mod1 in H. replace (if m_native _ then 0%nat else 0%nat) with 0%nat in H by (now destruct (m_native _)). cbn [Nat.add skipn] in H.
  unfold cut, blen. cbn [orb]. rewrite Nat2Z.id.
  assert (Q : (Z.of_nat n <=? Z.of_nat (List.length b)) = (n <=? List.length b)%nat) by lia. rewrite Q.
  destruct (n <=? List.length b)%nat; cbn [body] in H; destruct (dst _ _ _); cbn in *; congruence.
Qed.
(** a number in front *)
Lemma dst_number : forall bo c b, size_code c = true ->
  opt (rdo vs <- dst hb (SS bo [T None c] None) b; Ok (vs, ss_size hb (SS bo [T None c] None))) =
  odo (z, _, k) <- number_at (mode_of hb bo) c 0 b; Some ([VInt z], k).
Proof.
  intros bo c b S. rewrite rst_dst. unfold ss_mode. cbn [s_bo]. rewrite rst_number by exact S.
  destruct (number_at _ _ _ _) as [[[z o'] k]|]; reflexivity.
Qed.
Lemma net_dec : forall b, opt (dec_net hb b) = odo (n, k) <- net_of hb b; Some (k, n).
Proof.
  intros b. unfold dec_net, net_of.
  destruct b as [|x b]; [reflexivity|].
  assert (D1 : dst hb net_short (x :: b) = Ok [VInt (zb x)]).
  { pose proof (dst_number BO_DEFAULT CB (x :: b) eq_refl) as D. unfold number_at, at_ in D. cbn [mode_of m_native m_big wsize] in D.
    change (1 - 0 mod 1)%nat with 1%nat in D. change (1 mod 1)%nat with 0%nat in D. cbn [Nat.add List.length Nat.leb firstn skipn] in D.
    unfold net_short. destruct (dst _ _ _); [|discriminate]. injection D as D. rewrite D.
    unfold uint_of. destruct hb; cbn [rev app digits]; now rewrite Z.mul_0_r, Z.add_0_r. }
  rewrite D1. cbn [rbind nth0 as_int as_index]. rewrite Z.leb_antisym. destruct (zb x <? 128); [reflexivity|]. cbn [negb].
  destruct b as [|y b].
  - pose proof (dst_number BO_DEFAULT CH [x] eq_refl) as D. unfold number_at, at_ in D. cbn [mode_of m_native m_big wsize] in D.
    change (2 - 0 mod 2)%nat with 2%nat in D. change (2 mod 2)%nat with 0%nat in D. cbn [Nat.add List.length Nat.leb firstn skipn] in D.
    unfold net_long. revert D. generalize (dst hb (SS BO_DEFAULT [T None CH] None) [x]). intros [?|?] D; [exfalso; revert D; cbn; discriminate|reflexivity].
  - assert (D2 : dst hb net_long (x :: y :: b) = Ok [VInt (uint_of hb [x; y])]).
    { pose proof (dst_number BO_DEFAULT CH (x :: y :: b) eq_refl) as D. unfold number_at, at_ in D. cbn [mode_of m_native m_big wsize] in D.
      change (2 - 0 mod 2)%nat with 2%nat in D. change (2 mod 2)%nat with 0%nat in D. cbn [Nat.add List.length Nat.leb firstn skipn] in D.
      unfold net_long. revert D. generalize (dst hb (SS BO_DEFAULT [T None CH] None) (x :: y :: b)). intros [vs|e] D; [|exfalso; revert D; cbn; discriminate]. cbn [rbind opt] in D. injection D as D. now rewrite D. }
    rewrite D2. cbn [rbind nth0 as_int as_index]. unfold net_decode.
    assert (R : 0 <= uint_of hb [x; y] < 65536).
    { pose proof (zb_range x). pose proof (zb_range y). unfold uint_of. destruct hb; cbn [rev app digits]; lia. }
    set (u := uint_of hb [x; y]) in *. clearbody u.
    assert (E : Z.lor (Z.land u 127) (Z.land (Z.shiftr u 1) 65408) = u mod 128 + 128 * (u / 256)).
    { rewrite land_high, Z.shiftr_div_pow2 by lia. change 127 with (Z.ones 7). rewrite Z.land_ones by lia. change (2 ^ 1) with 2.
      change (2 ^ 7) with 128. rewrite Z.div_div by lia. change (2 * 128) with 256.
      assert (0 <= u / 256 < 256) by (split; [apply Z.div_pos; lia|apply Z.div_lt_upper_bound; lia]).
      rewrite (Z.mod_small (u / 256)) by lia. pose proof (Z.mod_pos_bound u 128 ltac:(lia)).
      change (u / 256 * 128) with (u / 256 * 2 ^ 7). rewrite lor_disjoint by (change (2 ^ 7) with 128; lia). change (2 ^ 7) with 128. lia. }
    rewrite E. assert (0 <= u / 256 < 256) by (split; [apply Z.div_pos; lia|apply Z.div_lt_upper_bound; lia]).
    pose proof (Z.mod_pos_bound u 128 ltac:(lia)). destruct (32767 <? _) eqn:Q; [lia|]. reflexivity.
Qed.
Lemma net_pos : forall b n k, net_of hb b = Some (n, k) -> 0 <= n.
Proof.
  intros b n k H. unfold net_of in H. destruct b as [|x b]; [discriminate|]. pose proof (zb_range x).
  destruct (zb x <? 128); [injection H as <- <-; lia|]. destruct b as [|y b]; [discriminate|]. inversion H as [[N K]]. clear H N K n k.
  change (0 <= uint_of hb [x; y] mod 128 + 128 * (uint_of hb [x; y] / 256)).
  pose proof (zb_range y). pose proof (Z.mod_pos_bound (uint_of hb [x; y]) 128 ltac:(lia)).
  assert (0 <= uint_of hb [x; y] / 256); [|lia]. apply Z.div_pos; [|lia]. unfold uint_of. destruct hb; cbn [rev app digits]; lia.
Qed.
Lemma body_block : forall r, body (block r) = r.
Proof. intros [[vs k]|]; reflexivity. Qed.
Lemma block_body : forall r, block (body (block r)) = block r.
Proof. intros. now rewrite body_block. Qed.
Lemma char_read : forall a bo s o off b L U, char_made bo a s -> (1 <= U)%nat ->
  agree L U (fun n => sread hb ct md bo n s o off b) (string_of hb md (mode_of hb bo) a off b).
Proof.
  intros a bo s o off b L U M U1.
  assert (LEAF : forall g, (match s with SNull | SStruct _ => False | _ => True end) -> resolve false s o = Ok s ->
    (forall n, opt (dec_step hb ct md (dec hb ct md n) s o b) = g) -> agree L U (fun n => sread hb ct md bo n s o off b) (block g)).
  { intros g K R H. assert (E : forall n, sread hb ct md bo n s o off b = block (opt (dec hb ct md n s o b))).
    { intros n. unfold sread, pdec. rewrite R. cbn [rbind]. destruct s; try reflexivity; contradiction. }
    apply agree_same; [intros n; rewrite E; cbn [dec]; now rewrite H|rewrite E; reflexivity|exact U1]. }
  destruct a; cbn [char_made string_of] in *.
  - destruct M as [S [id ->]].
    match goal with |- agree _ _ _ ?g => assert (E : g = block (body g)) end.
    { destruct (number_at _ _ _ _) as [[[z o'] k]|]; [|reflexivity]. destruct (cut _ _ _); reflexivity. }
    rewrite E. apply LEAF; [exact I|reflexivity|]. clear E. intros n. cbn [dec_step].
    pose proof (dst_number bo c b S) as D. set (st := SS bo [T None c] None) in *.
    destruct (number_at (mode_of hb bo) c 0 b) as [[[z o'] k]|] eqn:NA.
    + destruct (dst hb st b) as [cs|]; [|discriminate]. cbn [rbind opt] in *. injection D as -> D. rewrite D.
      cbn [nth0 rbind as_int as_index]. destruct (number_pos _ _ _ _ _ _ _ NA) as [Z0 K0].
      assert (STR : opt (rdo oo <- ss_matmul single_char z; rdo vs <- dost hb oo (adv k b); Ok (vs, k + z)) =
        odo s <- cut false z (adv k b); Some (if z =? 0 then [] else [VBytes s], k + z)).
      { destruct (Z.eq_dec z 0) as [->|NZ].
        - cbn. unfold cut. cbn [orb]. pose proof (blen_nonneg (adv k b)). destruct (0 <=? blen (adv k b)) eqn:Q; [|lia]. reflexivity.
        - destruct (z =? 0) eqn:Q; [lia|]. destruct (matmul_char BO_DEFAULT Cs z ltac:(lia)) as (t & MM & _ & TC & CN).
          change (SS BO_DEFAULT [T None Cs] None) with single_char in MM. rewrite MM. cbn [rbind dost].
          rewrite opt_bind, (dst_str t (Z.to_nat z) _ TC CN). rewrite Z2Nat.id by lia. destruct (cut false z (adv k b)); reflexivity. }
      destruct md; [|rewrite STR|rewrite STR]; cbn [negb andb orb cut]; try (destruct (cut _ _ _); reflexivity).
    + destruct (dst hb st b) as [cs|]; [discriminate|reflexivity].
  - unfold counted in M. destruct (z =? 0) eqn:Z0.
    + subst s. exact (agree_const _ _ _).
    + destruct M as (t & -> & TC & CN & _). cbn [sread]. rewrite (str_rst _ _ t (Z.to_nat z)) by (auto; lia). apply agree_const.
  - destruct b0 as [|t []]; try contradiction. destruct M as [id ->].
    match goal with |- agree _ _ _ ?g => assert (E : g = block (body g)) by (destruct (until t b); reflexivity) end.
    rewrite E. apply LEAF; [exact I|reflexivity|]. clear E. intros n. cbn [dec_step]. destruct (until_find t b) as [E1 E2]. rewrite E1.
    destruct (byte_find t b) as [i|]; cbn [option_map]; [|reflexivity]. rewrite (E2 i eq_refl). reflexivity.
  - destruct M as [id ->]. apply LEAF; [exact I|reflexivity|]. reflexivity.
  - destruct M as [id ->].
    match goal with |- agree _ _ _ ?g => assert (E : g = block (body g)) end.
    { destruct (net_of hb b) as [[z k]|]; [|reflexivity]. destruct (cut _ _ _); reflexivity. }
    rewrite E. apply LEAF; [exact I|reflexivity|]. clear E. intros n. cbn [dec_step]. rewrite opt_bind, net_dec.
    destruct (net_of hb b) as [[z k]|] eqn:NO; [|reflexivity]. pose proof (net_pos _ _ _ NO) as P. destruct md; cbn [cut orb]; try reflexivity.
    rewrite opt_bind, (dst_str (T (Some (Z.to_nat z)) Cs) (Z.to_nat z)) by reflexivity. rewrite Z2Nat.id by exact P.
    destruct (cut false z (adv k b)); reflexivity.
Qed.
End Strings.

(** ** struct formats *)
Lemma pad_units : forall m n off b, size_u m off (repeat UPad n) = n /\ unpack_u m off (repeat UPad n) b = [].
Proof. intros m n. induction n as [|n IH]; intros off b; [split; reflexivity|]. cbn. destruct (IH (off + 1)%nat (skipn 1 b)) as [E1 E2]. rewrite E1. split; [reflexivity|exact E2]. Qed.
Lemma gap1 : forall m off, (if m_native m then (1 - off mod 1) mod 1 else 0)%nat = 0%nat.
Proof. intros m off. rewrite mod1. now destruct (m_native m). Qed.
Lemma pad_rst : forall m bo t n off b, t_code t = Cx -> cnt t = n -> rst m (SS bo [t] None) off b = at_ m 1 n off b (fun _ => []).
Proof.
  intros m bo t n off b C N. unfold rst, at_. cbn [s_fmt].
  assert (X : expand [t] = repeat UPad n) by (unfold expand, expand_tok; cbn [flat_map]; rewrite C, N; now rewrite app_nil_r). rewrite X, gap1.
  destruct (pad_units m n off b) as [E1 E2]. rewrite E1, E2. cbn [Nat.add]. destruct (n <=? List.length b)%nat; [|reflexivity].
  cbn. do 3 f_equal. lia.
Qed.
Lemma pascal_eq : forall b, pas_unpack b = pascal_of b.
Proof.
  intros [|x r]; [reflexivity|]. cbn. destruct (Nat.min_spec (Z.to_nat (zb x)) (List.length r)) as [[H ->]|[H ->]]; [reflexivity|].
  now rewrite firstn_all, firstn_all2 by exact H.
Qed.
Lemma pas_rst : forall m bo t n off b, t_code t = Cp -> cnt t = n ->
  rst m (SS bo [t] None) off b = at_ m 1 n off b (fun y => [VBytes (pascal_of y)]).
Proof.
  intros m bo t n off b C N. unfold rst, at_. cbn [s_fmt].
  assert (X : expand [t] = [UPas n]) by (unfold expand, expand_tok; cbn [flat_map]; rewrite C, N; reflexivity). rewrite X, gap1.
  cbn [size_u usize unpack_u]. rewrite Nat.add_0_r. cbn [Nat.add]. destruct (n <=? List.length b)%nat; [|reflexivity].
  unfold ss_act. cbn [s_act opt skipn]. rewrite pascal_eq. do 3 f_equal. lia.
Qed.
Lemma made_act : forall x bo st, made bo x (SStruct st) -> match x with XAs _ _ => exists l, s_act st = Some l | _ => s_act st = None end.
Proof.
  assert (C : forall bo c n st, counted bo c n (SStruct st) -> s_act st = None).
  { intros bo c n st H. unfold counted in H. destruct (n =? 0); [discriminate|]. destruct H as (t & E & _). injection E as ->. reflexivity. }
  intros x bo st M. destruct x; cbn [made] in M; try contradiction; try (destruct M as (? & Q & _); discriminate Q); eauto.
  - destruct M as [_ M]. injection M as ->. reflexivity.
  - destruct a; cbn [char_made] in M; eauto; try (destruct M as [_ [? M]]; discriminate); try (destruct M; discriminate). destruct b as [|? []]; try contradiction. destruct M; discriminate.
  - destruct M as (_ & i & _ & M). destruct (structy x && Nat.eqb (vals x) 1).
    + destruct M as (? & _ & M). destruct n; [discriminate|]. destruct M; discriminate.
    + destruct M; discriminate.
  - destruct M as (? & ? & ? & ? & ? & Q & _). discriminate Q.
  - destruct M as (st0 & st' & Q & _ & _ & _ & _ & _ & A). injection Q as ->. eauto.
  - destruct M as (? & ? & ? & Q & _). discriminate Q.
  - destruct M as (? & ? & ? & ? & Q & _). discriminate Q.
  - destruct M as (? & Q). discriminate Q.
  - destruct M as (? & Q). discriminate Q.
Qed.
Lemma struct_read : forall hb md rec o x bo st m off b, made bo x (SStruct st) -> rst m st off b = read hb md rec o m x off b.
Proof.
  intros hb md rec o. induction x using hx_ind'; intros bo st mo off b M; cbn [made read] in *; try contradiction; try (destruct M as (? & Q & _); discriminate Q).
  - destruct M as [N Q]. injection Q as ->. apply rst_num. unfold num_code. now rewrite N.
  - unfold counted in M. destruct (n =? 0); [discriminate|]. destruct M as (t & Q & C & K & _). injection Q as ->. apply pad_rst; [exact C|lia].
  - unfold counted in M. destruct (n =? 0); [discriminate|]. destruct M as (t & Q & C & K & _). injection Q as ->. apply pas_rst; [exact C|lia].
  - destruct a; cbn [char_made string_of] in *; try (destruct M as [_ [? M]]; discriminate); try (destruct M; discriminate).
    + unfold counted in M. destruct (z =? 0); [discriminate|]. destruct M as (t & Q & C & K & _). injection Q as ->. apply (str_rst (fun _ => None)); [exact C|lia].
    + destruct b0 as [|? []]; try contradiction. destruct M; discriminate.
  - destruct M as (_ & i & _ & M). destruct (structy x && Nat.eqb (vals x) 1).
    + destruct M as (? & _ & M). destruct n; [discriminate|]. destruct M; discriminate.
    + destruct M; discriminate.
  - destruct M as (? & ? & ? & ? & ? & Q & _). discriminate Q.
  - destruct M as (st0 & st' & Q & M & F & B & NV & W & A). injection Q as <-.
    rewrite <- (IHx bo st' mo off b M). pose proof (made_act _ _ _ M) as MA. pose proof (made_wf _ _ _ M) as W'.
    unfold rst. rewrite F. destruct (_ <=? List.length b)%nat; [|reflexivity].
    assert (LEN : List.length (unpack_u mo off (expand (s_fmt st')) b) = 1%nat) by (rewrite unpack_u_length; unfold ss_nvals, nvals in NV; congruence).
    destruct (unpack_u mo off (expand (s_fmt st')) b) as [|v []]; try discriminate LEN. unfold ss_act. rewrite A.
    destruct (s_act st') as [l|] eqn:SA.
    + destruct x; try discriminate MA. cbn [convert]. destruct (apply_actions l [v]); reflexivity.
    + cbn [apply_actions opt]. destruct x; try (destruct MA as [? MA]; discriminate MA); cbn [convert omap]; destruct (a v); reflexivity.
  - destruct M as (? & ? & ? & Q & _). discriminate Q.
  - destruct M as (? & ? & ? & ? & Q & _). discriminate Q.
  - destruct M as (? & Q). discriminate Q.
  - destruct M as (? & Q). discriminate Q.
Qed.
Lemma null_read : forall hb md rec o x bo m off b, made bo x SNull -> read hb md rec o m x off b = Some ([], off, 0).
Proof.
  assert (C : forall bo c n, counted bo c n SNull -> (n =? 0) = true).
  { intros bo c n H. unfold counted in H. destruct (n =? 0); [reflexivity|]. destruct H as (t & E & _). discriminate. }
  intros hb md rec o x bo m off b M. destruct x; cbn [made read] in *; try contradiction; try (destruct M as (? & Q & _); discriminate Q).
  - destruct M as [_ M]. discriminate.
  - apply C in M. now rewrite M.
  - apply C in M. now rewrite M.
  - destruct a; cbn [char_made string_of] in *; try (destruct M as [_ [? M]]; discriminate); try (destruct M; discriminate).
    + apply C in M. now rewrite M.
    + destruct b0 as [|? []]; try contradiction. destruct M; discriminate.
  - destruct M as (_ & i & _ & M). destruct (structy x && Nat.eqb (vals x) 1).
    + destruct M as (? & _ & M). destruct n; [discriminate|]. destruct M; discriminate.
    + destruct M; discriminate.
  - destruct M as (? & ? & ? & ? & ? & Q & _). discriminate Q.
  - destruct M as (? & ? & Q & _). discriminate Q.
  - destruct M as (? & ? & ? & Q & _). discriminate Q.
  - destruct M as (? & ? & ? & ? & Q & _). discriminate Q.
  - destruct M as (? & Q). discriminate Q.
  - destruct M as (? & Q). discriminate Q.
Qed.
Lemma strip_eq : forall t, rstrip_nul t = strip t.
Proof.
  intros t. apply (stripped_unique t); [apply rstrip_spec|]. clear. induction t as [|c t (k & E & N)].
  - exists 0%nat. split; [reflexivity|]. intros u H. exact (app_cons_not_nil _ _ _ H).
  - cbn [strip]. destruct (strip t) as [|x r] eqn:ST.
    + destruct (Z.eqb_spec c 0) as [->|NC].
      * exists (S k). split; [cbn [app repeat] in *; now rewrite E at 1|]. intros u H. exact (app_cons_not_nil _ _ _ H).
      * exists k. split; [cbn [app] in *; now rewrite E at 1|]. intros [|y [|]] H; injection H as H; subst; try congruence; discriminate.
    + exists k. split; [cbn [app] in *; now rewrite E at 1|]. intros [|y u] H; [discriminate H|]. injection H as -> H. exact (N u H).
Qed.

(** ** headers of arrays *)
Lemma head_read : forall hb bo n sz b, head_ok n sz = true ->
  let m := mode_of hb bo in let h := head_made bo n sz in
  opt (rdo hv <- dost hb h b; rdo p <- header_unpack_values h (match n with inl z => z | inr _ => -1 end) hv; Ok (p, osize hb h)) =
  odo (count, off1, k) <- (match n with inl z => Some (z, 0%nat, 0) | inr c => number_at m c 0 b end);
  odo (size, k1) <- (match sz with None => Some (None, 0) | Some c => odo (z, _, k1) <- number_at m c off1 (adv k b); Some (Some z, k1) end);
  Some ((count, match size with Some z => z | None => -1 end), k + k1).
Proof.
  intros hb bo n sz b H m h. subst m h. unfold head_ok in H. apply andb_prop in H as [H1 H2].
  assert (N1 : forall c, size_code c = true -> onvals (Some (SS bo [T None c] None)) = 1%nat) by (intros c S; destruct c; try discriminate S; reflexivity).
  destruct n as [z|c], sz as [d|]; cbn [head_made].
  - apply Z.leb_le in H1. pose proof (dst_number hb bo d b H2) as D. cbn [dost osize].
    change (adv 0 b) with b. unfold header_unpack_values. rewrite (N1 d H2). destruct (0 <=? z) eqn:Q; [|lia]. cbn [Nat.eqb].
    rewrite opt_bind in D. rewrite opt_bind. destruct (number_at (mode_of hb bo) d 0 b) as [[[x o'] k]|]; destruct (opt (dst hb _ b)) as [vs|]; try discriminate D; [|reflexivity].
    cbn [opt rbind] in *. injection D as -> ->. reflexivity.
  - apply Z.leb_le in H1. cbn. unfold header_unpack_values. destruct (0 <=? z) eqn:Q; [|lia]. reflexivity.
  - pose proof (rst_dst hb (SS bo (fold_overlaps false [T None c] [T None d]) None) b) as D.
    assert (FO : foldable [T None c] [T None d] = true) by (unfold foldable; reflexivity).
    unfold ss_mode in D. cbn [s_bo] in D. rewrite (rst_layout _ _ _ _ _ _ _ (fold_layout _ _ FO)) in D.
    change (SS bo ([T None c] ++ [T None d]) None) with (glue (SS bo [T None c] None) (SS bo [T None d] None)) in D.
    rewrite rst_glue in D by reflexivity. rewrite (rst_number _ bo c 0 b H1) in D. cbn [dost osize].
    assert (N2 : onvals (Some (SS bo (fold_overlaps false [T None c] [T None d]) None)) = 2%nat).
    { destruct c; try discriminate H1; destruct d; try discriminate H2; reflexivity. }
    unfold header_unpack_values. rewrite N2. cbn [Z.leb Nat.eqb].
    rewrite opt_bind in D. rewrite opt_bind. set (st := SS bo (fold_overlaps _ _ _) None) in *.
    destruct (number_at (mode_of hb bo) c 0 b) as [[[x o'] k]|].
    + rewrite (rst_number _ bo d o' (adv k b) H2) in D. destruct (number_at (mode_of hb bo) d o' (adv k b)) as [[[y o2] k2]|];
        destruct (opt (dst hb st b)) as [vs|]; try discriminate D; [|reflexivity]. cbn in D. injection D as -> ->. reflexivity.
    + destruct (opt (dst hb st b)) as [vs|]; [discriminate D|reflexivity].
  - pose proof (dst_number hb bo c b H1) as D. cbn [dost osize]. unfold header_unpack_values. rewrite (N1 c H1). cbn [Z.leb Nat.eqb].
    rewrite opt_bind in D. rewrite opt_bind. destruct (number_at (mode_of hb bo) c 0 b) as [[[x o'] k]|]; destruct (opt (dst hb _ b)) as [vs|]; try discriminate D; [|reflexivity].
    cbn [opt rbind] in *. injection D as -> ->. cbn. now rewrite Z.add_0_r.
Qed.

(** ** hint expressions *)
Fixpoint height (x : hx) : nat :=
  match x with
  | XArray _ _ y => S (height y)
  | XTuple l => S (S (fold_right (fun y n => Nat.max (height y) n) 1%nat l))
  | XCond y _ _ | XAs _ y => height y
  | XBack _ _ _ m d => S (Nat.max (fold_right (fun p n => Nat.max (height (snd p)) n) 1%nat m) (match d with Some y => height y | None => 1%nat end))
  | XAhead _ _ ra _ m d =>
      S (Nat.max (height ra) (Nat.max (fold_right (fun p n => Nat.max (height (snd p)) n) 1%nat m) (match d with Some y => height y | None => 1%nat end)))
  | _ => 2%nat
  end.
Lemma height_pos : forall x, (1 <= height x)%nat.
Proof. induction x using hx_ind'; cbn [height]; lia. Qed.
Lemma push_back : forall P : ser -> bool, (forall st, P (SStruct st) = true) -> P SNull = true ->
  forall p s, forallb P (push p s) = true -> forallb P p = true /\ P s = true.
Proof.
  intros P PS PN p s H. assert (D : forallb P (p ++ [s]) = true -> forallb P p = true /\ P s = true).
  { rewrite forallb_app. cbn. rewrite Bool.andb_true_r. apply andb_prop. }
  destruct s; cbn [push] in H; auto. destruct (split_last p) as [[q x]|] eqn:E; auto.
  destruct x; auto. apply split_last_some in E as ->. rewrite forallb_app in *. cbn in *. rewrite PS in *. auto.
Qed.
Lemma runs_back : forall P : ser -> bool, (forall st, P (SStruct st) = true) -> P SNull = true ->
  forall l, forallb P (runs l) = true -> forallb P l = true.
Proof.
  intros P PS PN l. unfold runs. assert (G : forall p, forallb P (fold_left push l p) = true -> forallb P p = true /\ forallb P l = true).
  { induction l as [|s l IH]; intros p H; [auto|]. cbn [fold_left] in H. apply IH in H as [H1 H2]. apply (push_back P PS PN) in H1 as [H1 H3].
    cbn. now rewrite H3. }
  intros H. now apply G in H.
Qed.
Lemma rel_back : forall P : ser -> bool, (forall st, P (SStruct st) = true) -> forall l p, rel l p -> forallb P l = true -> forallb P p = true.
Proof.
  intros P PS l p R. induction R as [|a c l p S R IH]; intros H; [reflexivity|]. cbn in *. apply andb_prop in H as [H1 H2]. rewrite (IH H2), Bool.andb_true_r.
  destruct S as [->|(x & y & -> & -> & _)]; [exact H1|apply PS].
Qed.
Lemma fold_max : forall {A} (f : A -> nat) l x, In x l -> (f x <= fold_right (fun y n => Nat.max (f y) n) 1 l)%nat.
Proof. intros A f. induction l as [|y l IH]; intros x []; cbn [fold_right]; [subst; lia|]. specialize (IH x H). lia. Qed.

Section Main.
Variable hb : bool.
Variable ct : nat -> option cdef.
Variable md : umode.
Variable TT : nat -> nat -> bool.
Variable rec : nat -> bytes -> option (value * Z).
Variables L U : nat.
Hypothesis OB : forall c b, agree L U (fun n => opt (dcreate hb ct md n c b)) (rec c b).
Variable c : nat.
Variable o : pobj.
Definition shown (x : hx) : Prop := forall bo s off b, made bo x s -> hc ct TT c s = true ->
  agree (S L) (U + height x) (fun n => sread hb ct md bo n s o off b) (read hb md rec o (mode_of hb bo) x off b).

Lemma agree_block : forall L' U' F g, agree L' U' F g -> agree L' U' (fun n => block (F n)) (block g).
Proof. intros L' U' F g H. unfold block. apply (agree_bind L' U' F g (fun _ p => let (vs, k) := p in Some (vs, 0%nat, k)) (fun p => let (vs, k) := p in Some (vs, 0%nat, k)) H). intros a. apply agree_const. Qed.
Lemma node : forall L' U' bo s off b g, (match s with SNull | SStruct _ => False | _ => True end) -> resolve false s o = Ok s ->
  agree L' U' (fun n => opt (dec_step hb ct md (dec hb ct md n) s o b)) g ->
  agree (S L') (S U') (fun n => sread hb ct md bo n s o off b) (block g).
Proof.
  intros L' U' bo s off b g K R H. apply agree_ext with (F := fun n => block (match n with O => None | S k => opt (dec_step hb ct md (dec hb ct md k) s o b) end)).
  { intros n. unfold sread, pdec. rewrite R. cbn [rbind]. destruct s; try contradiction; destruct n; reflexivity. }
  apply agree_block. now apply agree_step.
Qed.
Lemma items_agree : forall L' U' i i' f, (forall b, agree L' U' (fun n => opt (pdec hb ct md n i o b)) (body (f 0%nat b))) ->
  resolve false i o = Ok i' -> forall k b,
  agree L' U' (fun n => opt (dec_items (dec hb ct md n) i' o k b)) (items_of f false k 0 b).
Proof.
  intros L' U' i i' f H R k. induction k as [|k IH]; intros b; [exact (agree_const _ _ _)|]. cbn [dec_items items_of].
  apply agree_ext with (F := fun n => obind (opt (pdec hb ct md n i o b))
    (fun p => obind (opt (dec_items (dec hb ct md n) i' o k (adv (snd p) b))) (fun q => Some (fst p ++ fst q, snd p + snd q)))).
  { intros n. unfold pdec. rewrite R. cbn [rbind]. destruct (dec hb ct md n i' o b) as [[vs z]|]; [|reflexivity]. cbn [rbind opt obind fst snd].
    destruct (dec_items _ _ _ _ _) as [[rest z']|]; reflexivity. }
  match goal with |- agree _ _ _ ?g => assert (E : g = obind (body (f 0%nat b)) (fun p => obind (items_of f false k 0 (adv (snd p) b)) (fun q => Some (fst p ++ fst q, snd p + snd q)))) end.
  { destruct (f 0%nat b) as [[[vs o'] z]|]; [|reflexivity]. cbn [body obind fst snd]. destruct (items_of f false k 0 _) as [[rest z']|]; reflexivity. }
  rewrite E. apply agree_bind; [apply H|]. intros p. apply agree_bind; [apply IH|]. intros q. apply agree_const.
Qed.
Lemma shown_pdec : forall x bo s b, shown x -> made bo x s -> hc ct TT c s = true ->
  agree (S L) (U + height x) (fun n => opt (pdec hb ct md n s o b)) (body (read hb md rec o (mode_of hb bo) x 0 b)).
Proof.
  intros x bo s b SH M H. apply agree_pdec with (bo := bo).
  - apply made_field in M. apply M.
  - pose proof (height_pos x). lia.
  - now apply SH.
Qed.
Lemma ready_resolve : forall x bo s, made bo x s -> ready o x = match resolve false s o with Ok _ => true | Err _ => false end.
Proof.
  assert (C : forall bo c n s, counted bo c n s -> match resolve false s o with Ok _ => true | Err _ => false end = true).
  { intros bo k n s H. unfold counted in H. destruct (n =? 0); [now subst|]. destruct H as (t & -> & _). reflexivity. }
  intros x bo s M. destruct x; cbn [made ready] in *; try contradiction.
  - destruct M as [_ ->]. reflexivity.
  - symmetry. eauto.
  - symmetry. eauto.
  - destruct a; cbn [char_made] in M; try (destruct M as [_ [? ->]]; reflexivity); try (destruct M as [? ->]; reflexivity); [symmetry; eauto|].
    destruct b as [|? []]; try contradiction. destruct M as [? ->]. reflexivity.
  - destruct M as (i & -> & _). reflexivity.
  - destruct M as (_ & i & _ & M). destruct (structy x && Nat.eqb (vals x) 1); [|destruct M as [? ->]; reflexivity].
    destruct M as (st & _ & M). destruct n; [now subst|]. destruct M as [? ->]. reflexivity.
  - destruct M as (? & ? & ? & ? & ? & -> & _). reflexivity.
  - destruct M as (i & -> & _). cbn [resolve]. destruct (f o) as [r|]; [|reflexivity]. cbn [rbind]. unfold cond_branch.
    destruct (key_eqb r (VBool true)); [reflexivity|]. destruct (key_eqb r (VBool false)); [reflexivity|]. destruct (hashable r); reflexivity.
  - destruct M as (? & ? & -> & _). reflexivity.
  - destruct M as (? & ? & ? & -> & _). reflexivity.
  - destruct M as (? & ? & ? & ? & -> & _). reflexivity.
  - destruct M as (? & ->). reflexivity.
  - destruct M as (? & ->). cbn [resolve]. unfold self_class. destruct (assoc "cls" (p_attrs o)); [reflexivity|]. destruct (p_proxy o); reflexivity.
Qed.

Lemma array_shown : forall n sz x, shown x -> shown (XArray n sz x).
Proof.
  intros n sz x SH bo s off b M H. cbn [made] in M. destruct M as (HO & i & MI & M). cbn [read height]. rewrite packed_eq.
  destruct (structy x && Nat.eqb (vals x) 1) eqn:P.
  - destruct M as (st & -> & M). apply andb_prop in P as [_ P]. apply Nat.eqb_eq in P.
    destruct (single_tok _ _ _ MI P) as (t & F & _ & B). assert (RP : repeatable (s_fmt st) = true) by (rewrite F; reflexivity).
    pose proof (made_wf _ _ _ MI) as W.
    assert (IT : forall k b, items_of (read hb md rec o (mode_of hb bo) x) true k 0 b = body (rst (mode_of hb bo) (rep st k) 0 b)).
    { intros k b'. apply rst_items; [exact W|]. intros off' b''. now apply struct_read with (bo := bo). }
    assert (MU : forall k, exists oo, ss_mul st (Z.of_nat k) = Ok oo /\
      forall b, opt (rdo vs <- dost hb oo b; Ok (vs, osize hb oo)) = items_of (read hb md rec o (mode_of hb bo) x) true k 0 b).
    { intros k. destruct (mul_ok st k RP) as [oo MO]. exists oo. split; [exact MO|]. intros b'. rewrite (mul_rst hb st k oo b' RP MO), IT.
      unfold ss_mode. now rewrite B. }
    destruct n as [z|d].
    + subst s. destruct (MU (Z.to_nat z)) as (oo & MO & EQ).
      match goal with |- agree _ _ _ ?g => assert (E : g = block (body g)) end.
      { destruct (items_of _ true _ 0 _) as [[? ?]|]; reflexivity. }
      rewrite E. apply agree_weak with (L := S L) (U := S U); [lia|pose proof (height_pos x); lia|]. apply node; [exact I|reflexivity|]. clear E.
      cbn [dec_step]. rewrite MO. cbn [rbind]. change (adv 0 b) with b. rewrite <- (EQ b).
      destruct (dost hb oo b); cbn [rbind opt]; cbn; exact (agree_const _ _ _).
    + destruct M as [id ->]. pose proof HO as HO'. unfold head_ok in HO'. apply andb_prop in HO' as [SC _].
      match goal with |- agree _ _ _ ?g => assert (E : g = block (body g)) end.
      { destruct (number_at _ _ _ _) as [[[z o'] k]|]; [|reflexivity]. destruct (items_of _ true _ 0 _) as [[? ?]|]; reflexivity. }
      rewrite E. apply agree_weak with (L := S L) (U := S U); [lia|pose proof (height_pos x); lia|]. apply node; [exact I|reflexivity|]. clear E.
      cbn [dec_step]. pose proof (dst_number hb bo d b SC) as D. set (cs := SS bo [T None d] None) in *.
      destruct (number_at (mode_of hb bo) d 0 b) as [[[z o'] k]|] eqn:NA.
      * destruct (dst hb cs b) as [vs|]; [|discriminate D]. cbn [rbind opt] in *. injection D as -> D. rewrite D. cbn [one rbind as_int as_index].
        destruct (number_pos _ _ _ _ _ _ _ NA) as [Z0 _]. destruct (MU (Z.to_nat z)) as (oo & MO & EQ). rewrite Z2Nat.id in MO by lia. rewrite MO. cbn [rbind].
        rewrite <- (EQ (adv k b)). destruct (dost hb oo (adv k b)); cbn; exact (agree_const _ _ _).
      * destruct (dst hb cs b) as [vs|]; [discriminate D|]. exact (agree_const _ _ _).
  - destruct M as [id ->]. cbn [hc] in H. apply andb_prop in H as [H _].
    rewrite (ready_resolve x bo i MI).
    pose proof (head_read hb bo n sz b HO) as HR. cbv zeta in HR.
    set (h := head_made bo n sz) in *. set (static := match n with inl z => z | inr _ => -1 end) in *.
    match type of HR with _ = ?e => set (hd := e) in * end.
    match goal with |- agree _ _ _ ?g => assert (E : g = block (if match resolve false i o with Ok _ => true | Err _ => false end then
        odo (p, k) <- hd; odo (vs, k2) <- items_of (read hb md rec o (mode_of hb bo) x) false (Z.to_nat (fst p)) 0 (adv k b);
        if (snd p =? -1) || (snd p =? k2) then Some ([VList vs], k + k2) else None else None)) end.
    { destruct (resolve false i o); [|reflexivity]. cbn [negb]. subst hd.
      destruct (match n with inl z => Some (z, 0%nat, 0) | inr c => number_at (mode_of hb bo) c 0 b end) as [[[count off1] k]|]; [|reflexivity].
      destruct sz as [d|].
      - destruct (number_at (mode_of hb bo) d off1 (adv k b)) as [[[z o'] k1]|] eqn:NA; [|reflexivity]. cbn [fst snd].
        destruct (number_pos _ _ _ _ _ _ _ NA) as [Z0 _].
        destruct (items_of _ false _ 0 _) as [[vs k2]|]; [|reflexivity]. destruct (z =? -1) eqn:Q; [lia|]. cbn [orb]. destruct (z =? k2); reflexivity.
      - cbn [fst snd]. destruct (items_of _ false _ 0 _) as [[vs k2]|]; reflexivity. }
    rewrite E. clear E. apply agree_weak with (L := S (S L)) (U := S (U + height x)); [lia|lia|]. apply node; [exact I|reflexivity|].
    cbn [dec_step].
    apply agree_ext with (F := fun n => obind (opt (rdo hv <- dost hb h b; rdo p <- header_unpack_values h static hv; Ok (p, osize hb h)))
      (fun q => match resolve false i o with Err _ => None | Ok i' =>
         obind (opt (dec_items (dec hb ct md n) i' o (Z.to_nat (fst (fst q))) (adv (snd q) b)))
           (fun r => match check_data_size (snd (fst q)) (snd r) with Ok _ => Some ([VList (fst r)], snd q + snd r) | Err _ => None end) end)).
    { intros k. destruct (dost hb h b) as [hv|]; [|reflexivity]. cbn [rbind opt obind]. destruct (header_unpack_values h static hv) as [[count ds]|]; [|reflexivity].
      cbn [rbind opt obind fst snd]. destruct (resolve false i o) as [i'|]; [|reflexivity]. cbn [rbind].
      destruct (dec_items _ _ _ _ _) as [[vs z]|]; [|reflexivity]. cbn [rbind opt obind fst snd]. destruct (check_data_size ds z); reflexivity. }
    rewrite HR. destruct hd as [[[count ds] k]|] eqn:HD; [|destruct (resolve false i o); exact (agree_const _ _ _)]. cbn [obind fst snd].
    destruct (resolve false i o) as [i'|] eqn:RI; [|exact (agree_const _ _ _)].
    match goal with |- agree _ _ _ ?g => assert (E : g = obind (items_of (read hb md rec o (mode_of hb bo) x) false (Z.to_nat count) 0 (adv k b))
      (fun r => match check_data_size ds (snd r) with Ok _ => Some ([VList (fst r)], k + snd r) | Err _ => None end)) end.
    { destruct (items_of _ false _ 0 _) as [[vs k2]|]; [|reflexivity]. cbn [obind fst snd]. unfold check_data_size.
      assert (DS : ds = -1 \/ 0 <= ds).
      { clear - HD. subst hd. destruct (match n with inl z => Some (z, 0%nat, 0) | inr c => number_at (mode_of hb bo) c 0 b end) as [[[? off1] j]|]; [|discriminate].
        destruct sz as [d|]; [|injection HD as _ <- _; now left]. destruct (number_at _ d off1 (adv j b)) as [[[? ?] ?]|] eqn:NA; [|discriminate].
        injection HD as _ <- _. right. exact (proj1 (number_pos _ _ _ _ _ _ _ NA)). }
      destruct DS as [->|DS]; [reflexivity|]. destruct (ds =? -1) eqn:Q1; [lia|]. destruct (0 <=? ds) eqn:Q2; [|lia]. cbn [orb andb].
      destruct (ds =? k2); reflexivity. }
    rewrite E. apply agree_bind.
    + apply items_agree with (i := i); [|exact RI]. intros b'. now apply shown_pdec.
    + intros a. apply agree_const.
Qed.

(** sums of fields *)
Lemma pseq_agree : forall bo St give at_obj, (forall st, give [] st = Some st) ->
  (forall a c st, give (a ++ c) st = odo st' <- give a st; give c st') ->
  forall l b st L' U' (g : option (St * Z)), Forall (field_ok bo) l -> Forall atom (runs l) -> (1 <= U')%nat ->
  agree L' U' (fun n => gseq hb ct md bo St give at_obj n l 0 b st) g ->
  agree L' U' (fun n => pseq hb ct md St give at_obj n (runs l) b st) g.
Proof.
  intros bo St give at_obj G1 G2 l b st L' U' g F A U1 H n r. destruct (H n r) as [P Q]. split; intros N E.
  - apply P; [exact N|]. destruct n as [|n]; [|now rewrite (gseq_parts hb ct md bo St give at_obj G1 G2)].
    rewrite (gseq_runs hb ct md bo St give at_obj G1 G2).
    + destruct (runs l) as [|s l']; [exact E|]. cbn [pseq] in E. unfold pdec in E. destruct (resolve false s _); discriminate E.
    + eapply Forall_impl; [|exact F]. intros s (_ & _ & _ & W & _). exact W.
  - destruct n as [|n]; [lia|]. rewrite <- (gseq_parts hb ct md bo St give at_obj G1 G2) by assumption. now apply Q.
Qed.
Definition gather (vs acc : list value) : option (list value) := Some (acc ++ vs).
Lemma pseq_subs : forall n l b acc, pseq hb ct md (list value) gather (fun _ => o) n l b acc =
  odo (vs, k) <- opt (dec_subs (dec hb ct md n) (Some o) o l b); Some (acc ++ vs, k).
Proof.
  intros n. induction l as [|s l IH]; intros b acc; [cbn; now rewrite app_nil_r|]. cbn [pseq dec_subs oresolve octx]. unfold pdec.
  destruct (resolve false s o) as [s'|]; [|reflexivity]. cbn [rbind]. destruct (dec hb ct md n s' o b) as [[vs k]|]; [|reflexivity].
  cbn [rbind opt gather]. unfold gather at 1. rewrite IH. destruct (dec_subs _ _ _ l _) as [[rest k']|]; [|reflexivity]. cbn. now rewrite app_assoc.
Qed.
Lemma members_agree : forall bo xs H, (forall x, In x xs -> (height x <= H)%nat) -> Forall shown xs -> forall l,
  all2 (made bo) xs l -> forallb (hc ct TT c) l = true -> forall off b acc,
  agree (S L) (U + H) (fun n => gseq hb ct md bo (list value) gather (fun _ => o) n l off b acc)
    (odo (vs, k) <- members_of (read hb md rec o (mode_of hb bo)) xs off b; Some (acc ++ vs, k)).
Proof.
  intros bo xs H LE SH. induction SH as [|x xs SX SH IH]; intros [|s l] A HC off b acc; try contradiction.
  - cbn. rewrite app_nil_r. apply agree_const.
  - destruct A as [A1 A2]. cbn in HC. apply andb_prop in HC as [HC1 HC2]. cbn [gseq members_of].
    apply agree_ext with (F := fun n => obind (sread hb ct md bo n s o off b) (fun p => obind (gseq hb ct md bo (list value) gather (fun _ => o) n l (snd (fst p)) (adv (snd p) b) (acc ++ fst (fst p)))
        (fun q => Some (fst q, snd p + snd q)))).
    { intros n. destruct (sread hb ct md bo n s o off b) as [[[vs off'] k]|]; [|reflexivity]. cbn [obind fst snd gather]. unfold gather at 2.
      destruct (gseq _ _ _ _ _ _ _ _ _ _ _ _) as [[? ?]|]; reflexivity. }
    match goal with |- agree _ _ _ ?g => assert (E : g = obind (read hb md rec o (mode_of hb bo) x off b) (fun p => obind
       (odo (vs, k) <- members_of (read hb md rec o (mode_of hb bo)) xs (snd (fst p)) (adv (snd p) b); Some ((acc ++ fst (fst p)) ++ vs, k)) (fun q => Some (fst q, snd p + snd q)))) end.
    { destruct (read hb md rec o (mode_of hb bo) x off b) as [[[vs off'] k]|]; [|reflexivity]. cbn [obind fst snd].
      destruct (members_of _ xs off' (adv k b)) as [[rest k']|]; [|reflexivity]. cbn [obind fst snd]. now rewrite app_assoc. }
    rewrite E. apply agree_bind.
    + apply agree_weak with (L := S L) (U := (U + height x)%nat); [lia|pose proof (LE x (or_introl eq_refl)); lia|]. now apply SX.
    + intros p. apply agree_bind; [|intros q; apply agree_const]. apply IH; auto. intros y Y. apply LE. now right.
Qed.
Lemma sum_pdec : forall i b L' U' g, flat i ->
  agree L' U' (fun n => opt (dec_subs (dec hb ct md n) (Some o) o (parts i) b)) g ->
  agree L' (S U') (fun n => opt (pdec hb ct md n i o b)) g.
Proof.
  intros i b L' U' g F H. destruct (match i with SNull | SCompound _ _ => true | _ => false end) eqn:K.
  - apply agree_weak with (L := S L') (U := S U'); [lia|lia|].
    apply agree_ext with (F := fun n => match n with O => None | S k => opt (dec_subs (dec hb ct md k) (Some o) o (parts i) b) end); [|now apply agree_step].
    intros n. unfold pdec. destruct i; try discriminate K; [destruct n; reflexivity|]. cbn [resolve parts].
    destruct (existsb needs_pre subs) eqn:E; destruct n as [|n]; cbn [rbind dec dec_step]; try reflexivity. now rewrite dec_subs_none.
  - apply agree_weak with (L := L') (U := U'); [lia|lia|].
    assert (P : parts i = [i]) by (destruct i; try reflexivity; try discriminate K; contradiction). rewrite P in H.
    eapply agree_ext; [|exact H]. intros n. cbn [dec_subs oresolve octx]. unfold pdec. destruct (resolve false i o) as [i'|]; [|reflexivity]. cbn [rbind].
    destruct (dec hb ct md n i' o b) as [[vs k]|]; [|reflexivity]. cbn [rbind opt]. now rewrite app_nil_r, Z.add_0_r.
Qed.
Lemma hc_parts : forall i, flat i -> hc ct TT c i = true -> forallb (hc ct TT c) (parts i) = true.
Proof. intros i F H. destruct i; cbn [parts forallb]; try (now rewrite H); try reflexivity; try contradiction. exact H. Qed.
Lemma tuple_shown : forall l, Forall shown l -> shown (XTuple l).
Proof.
  intros l SH bo s off b M H. cbn [made] in M. destruct M as (fin & id & id' & sers & i & -> & SM & A). cbn [hc] in H. apply andb_prop in H as [H _].
  pose proof (all2_field _ _ _ A) as F.
  destruct (ssum_rel fin id' sers i) as (FL & R & OK); auto.
  { eapply Forall_impl; [|exact F]. intros s (_ & _ & Q & _). exact Q. }
  { apply forallb_forall. rewrite Forall_forall in F. intros s I. apply (F s I). }
  { eapply fields_lossless; eauto. }
  assert (HC : forallb (hc ct TT c) sers = true).
  { apply runs_back; [reflexivity|reflexivity|]. eapply rel_back; [reflexivity|exact R|]. now apply hc_parts. }
  cbn [read height]. set (HH := fold_right (fun y n => Nat.max (height y) n) 1%nat l).
  match goal with |- agree _ _ _ ?g => assert (E : g = block (obind (members_of (read hb md rec o (machine hb)) l 0 b) (fun p => Some ([VTuple (fst p)], snd p)))) end.
  { destruct (members_of _ l 0 b) as [[vs k]|]; reflexivity. }
  rewrite E. clear E. apply agree_weak with (L := S (S L)) (U := S (S (U + HH))); [lia|lia|]. apply node; [exact I|reflexivity|].
  cbn [dec_step]. apply agree_ext with (F := fun n => obind (opt (pdec hb ct md n i o b)) (fun p => Some ([VTuple (fst p)], snd p))).
  { intros n. unfold pdec. destruct (resolve false i o) as [i'|]; [|reflexivity]. cbn [rbind]. destruct (dec hb ct md n i' o b) as [[vs k]|]; reflexivity. }
  apply agree_bind; [|intros p; apply agree_const]. apply sum_pdec; [exact FL|].
  apply agree_ext with (F := fun n => pseq hb ct md (list value) gather (fun _ => o) n (runs sers) b []).
  { intros n. rewrite pseq_subs, (rel_dec hb ct md n (Some o) o _ _ b R). destruct (dec_subs _ _ _ _ _) as [[vs k]|]; reflexivity. }
  apply pseq_agree with (bo := BO_DEFAULT); auto.
  - intros st. unfold gather. now rewrite app_nil_r.
  - intros a1 a2 st. unfold gather. now rewrite app_assoc.
  - apply OK.
  - unfold HH. pose proof SH. clear. induction l; cbn [fold_right]; lia.
  - assert (G : members_of (read hb md rec o (machine hb)) l 0 b =
      odo (vs, k) <- members_of (read hb md rec o (mode_of hb BO_DEFAULT)) l 0 b; Some ([] ++ vs, k)).
    { change (machine hb) with (mode_of hb BO_DEFAULT). destruct (members_of _ l 0 b) as [[? ?]|]; reflexivity. }
    rewrite G. apply members_agree; auto. intros x I. now apply (fold_max height).
Qed.

(** unions *)
Lemma pick_agree : forall m ms d ds b H r,
  all2 (fun p q => fst p = fst q /\ made BO_DEFAULT (snd p) (snd q)) m ms ->
  match d, ds with None, None => True | Some y, Some t => made BO_DEFAULT y t | _, _ => False end ->
  Forall (fun p => shown (snd p)) m -> (forall x, d = Some x -> shown x) ->
  forallb (fun p => hc ct TT c (snd p)) ms = true -> match ds with Some x => hc ct TT c x | None => true end = true ->
  (forall p, In p m -> (height (snd p) <= H)%nat) -> (forall x, d = Some x -> (height x <= H)%nat) ->
  agree (S L) (U + H) (fun n => opt (rdo s0 <- choose ms ds r; rdo x' <- resolve false s0 o; dec hb ct md n x' o b))
    (if hashable r then body (pick_of (fun y => read hb md rec o (machine hb) y 0 b) d r m) else None).
Proof.
  intros m ms d ds b H r A D SM SD HM HD LM LD. unfold choose. destruct (hashable r); [|exact (agree_const _ _ _)].
  assert (ONE : forall x s, made BO_DEFAULT x s -> shown x -> hc ct TT c s = true -> (height x <= H)%nat ->
    agree (S L) (U + H) (fun n => opt (rdo x' <- resolve false s o; dec hb ct md n x' o b)) (body (read hb md rec o (machine hb) x 0 b))).
  { intros x s M SX HC LE. apply agree_weak with (L := S L) (U := (U + height x)%nat); [lia|lia|]. now apply (shown_pdec x BO_DEFAULT s b). }
  revert ms A HM. induction SM as [|[k x] m SX SM IH]; intros [|[k' s] ms] A HM; try contradiction.
  - cbn [map_find pick_of]. destruct d as [y|], ds as [t|]; try contradiction; [|exact (agree_const _ _ _)]. cbn [rbind]. apply ONE; auto.
  - destruct A as [[A1 A2] A3]. cbn [fst snd] in *. subst k'. cbn in HM. apply andb_prop in HM as [HM1 HM2]. cbn [map_find pick_of].
    destruct (key_eqb r k); [|apply IH; auto; intros p I; apply LM; now right]. cbn [rbind]. apply ONE; auto. exact (LM (k, x) (or_introl eq_refl)).
Qed.
Lemma leaf_hc : forall s, leaf s = true -> hc ct TT c s = true.
Proof. intros s H. destruct s; try discriminate H; try reflexivity. exact H. Qed.
Lemma leaf_resolve : forall s, leaf s = true -> resolve false s o = Ok s.
Proof. intros s H. destruct s; try discriminate H; reflexivity. Qed.
Lemma char_leaf : forall bo a s, char_made bo a s -> leaf s = true.
Proof.
  intros bo a s M. destruct a; cbn [char_made] in M; try (destruct M as [_ [? ->]]; reflexivity); try (destruct M as [? ->]; reflexivity).
  - unfold counted in M. destruct (z =? 0); [now subst|]. destruct M as (t & -> & _). reflexivity.
  - destruct b as [|? []]; try contradiction. destruct M as [? ->]. reflexivity.
Qed.

Theorem all_shown : forall x, shown x.
Proof.
  induction x using hx_ind'.
  1-3,9: intros bo sr off b M H; pose proof M as M0; cbn [made] in M.
  - destruct M as [_ ->]. cbn [sread]. rewrite (struct_read hb md rec o _ _ _ (mode_of hb bo) off b M0). apply agree_const.
  - destruct sr; try (unfold counted in M; destruct (n =? 0); [discriminate M|destruct M as (? & M & _); discriminate M]);
      cbn [sread]; [rewrite (null_read hb md rec o _ _ (mode_of hb bo) off b M0)|rewrite (struct_read hb md rec o _ _ _ (mode_of hb bo) off b M0)]; apply agree_const.
  - destruct sr; try (unfold counted in M; destruct (n =? 0); [discriminate M|destruct M as (? & M & _); discriminate M]);
      cbn [sread]; [rewrite (null_read hb md rec o _ _ (mode_of hb bo) off b M0)|rewrite (struct_read hb md rec o _ _ _ (mode_of hb bo) off b M0)]; apply agree_const.
  - destruct M as (st & st' & -> & _). cbn [sread]. rewrite (struct_read hb md rec o _ _ _ (mode_of hb bo) off b M0). apply agree_const.
  - intros bo sr off b M H. cbn [made read height] in *. apply char_read; [exact M|lia].
  - intros bo sr off b M H. cbn [made read height] in *. destruct M as (i & -> & M).
    match goal with |- agree _ _ _ ?g => assert (E : g = block (obind (body (string_of hb md (machine hb) a 0 b)) (fun p => opt (
      rdo v <- nth0 (fst p); rdo y <- as_bytes v; rdo t <- cod_dec cd y; Ok ([VStr (rstrip_nul t)], snd p))))) end.
    { destruct (string_of hb md (machine hb) a 0 b) as [[[vs o'] k]|] eqn:SO; [|reflexivity]. cbn [body obind fst snd].
      destruct vs as [|v vs]; [reflexivity|]. cbn [nth0 rbind]. destruct v; try reflexivity; cbn [as_bytes rbind].
      destruct (cod_dec cd b0); [|reflexivity]. cbn [rbind opt block]. now rewrite strip_eq. }
    rewrite E. clear E. apply agree_weak with (L := S L) (U := S (S U)); [lia|lia|]. apply node; [exact I|reflexivity|].
    cbn [dec_step]. apply agree_ext with (F := fun n => obind (opt (pdec hb ct md n i o b)) (fun p => opt (
      rdo v <- nth0 (fst p); rdo y <- as_bytes v; rdo t <- cod_dec cd y; Ok ([VStr (rstrip_nul t)], snd p)))).
    { intros n. unfold pdec. rewrite (leaf_resolve i (char_leaf _ _ _ M)). cbn [rbind]. destruct (dec hb ct md n i o b) as [[vs k]|]; reflexivity. }
    apply agree_bind; [|intros p; apply agree_const]. apply agree_pdec with (bo := BO_DEFAULT); [|lia|].
    + assert (MX : made BO_DEFAULT (XChar a) i) by exact M. apply made_field in MX. apply MX.
    + change (machine hb) with (mode_of hb BO_DEFAULT). apply char_read; [exact M|lia].
  - now apply array_shown.
  - now apply tuple_shown.
  - intros bo sr off b M H. cbn [made read height] in *. destruct M as (i & -> & M & LD). cbn [hc] in H. apply andb_prop in H as [H1 H2].
    cbn [sread]. unfold pdec. cbn [resolve]. destruct (f o) as [r|]; [|exact (agree_const _ _ _)]. cbn [rbind]. unfold cond_branch.
    destruct (key_eqb r (VBool true)).
    + cbn [rbind]. apply agree_block.
      apply agree_ext with (F := fun n => opt (pdec hb ct md n i o b)); [|now apply shown_pdec].
      intros n. unfold pdec. assert (E : resolve false i o = Ok i) by (destruct i; try discriminate H2; reflexivity). now rewrite E.
    + destruct (key_eqb r (VBool false)); [|destruct (hashable r); exact (agree_const _ _ _)]. cbn [rbind].
      apply agree_same; [reflexivity|reflexivity|pose proof (height_pos x); lia].
  - intros bo sr off b M H2. cbn [made read height] in *. destruct M as (id' & ms & ds & -> & A & D). cbn [hc] in H2. apply andb_prop in H2 as [HC1 HC2].
    match goal with |- agree _ _ _ ?g => assert (E : g = block (match f o with Err _ => None | Ok r => if hashable r then body (pick_of (fun y => read hb md rec o (machine hb) y 0 b) d r m) else None end)) end.
    { destruct (f o) as [r|]; [|reflexivity]. destruct (hashable r); reflexivity. }
    rewrite E. clear E. rewrite Nat.add_succ_r. eapply agree_weak with (L := S (S L)); [lia|apply Nat.le_refl|]. apply node; [exact I|reflexivity|]. cbn [dec_step].
    destruct (f o) as [r|]; [|exact (agree_const _ _ _)]. cbn [rbind]. apply pick_agree; auto.
    + intros p I. apply (fold_max (fun p => height (snd p))) in I. lia.
    + intros x ->. lia.
  - intros bo sr off b M H2. cbn [made read height] in *. destruct M as (id' & r & ms & ds & -> & MR & A & D). cbn [hc] in H2. apply andb_prop in H2 as [H2 HC2]. apply andb_prop in H2 as [LF HC1].
    match goal with |- agree _ _ _ ?g => assert (E : g = block (obind (body (read hb md rec o (machine hb) x 0 b)) (fun p => match fst p with [] => None | v :: _ => if hashable v then body (pick_of (fun y => read hb md rec o (machine hb) y 0 b) d v m) else None end))) end.
    { destruct (read hb md rec o (machine hb) x 0 b) as [[[rs ?] ?]|]; [|reflexivity]. cbn [body obind fst]. destruct rs as [|v]; [reflexivity|]. destruct (hashable v); reflexivity. }
    rewrite E. clear E. rewrite Nat.add_succ_r. eapply agree_weak with (L := S (S L)); [lia|apply Nat.le_refl|]. apply node; [exact I|reflexivity|]. cbn [dec_step].
    apply agree_ext with (F := fun n => obind (opt (pdec hb ct md n r o b)) (fun p => opt (rdo v <- nth0 (fst p);
       rdo s0 <- choose ms ds v; rdo x' <- resolve false s0 o; dec hb ct md n x' o b))).
    { intros n. unfold pdec. rewrite (leaf_resolve r LF). cbn [rbind]. destruct (dec hb ct md n r o b) as [[rs k]|]; reflexivity. }
    apply agree_bind.
    + apply agree_weak with (L := S L) (U := (U + height x)%nat); [lia|lia|]. apply (shown_pdec x BO_DEFAULT); auto using leaf_hc.
    + intros [rs k]. cbn [fst]. destruct rs as [|v rs]; [exact (agree_const _ _ _)|]. cbn [nth0 rbind]. apply pick_agree; auto.
      * intros p I. apply (fold_max (fun p => height (snd p))) in I. lia.
      * intros y ->. lia.
  - intros bo sr off b M H. cbn [made read height] in *. destruct M as (id & ->).
    apply agree_weak with (L := S L) (U := S U); [lia|lia|]. apply node; [exact I|reflexivity|]. cbn [dec_step].
    apply agree_ext with (F := fun n => obind (opt (dcreate hb ct md n c0 b)) (fun p : value * Z => let (v, k) := p in Some ([v], k))).
    { intros n. unfold dcreate. destruct (dcreate_step _ _ _ _) as [[? ?]|]; reflexivity. }
    apply (agree_bind L U _ _ (fun _ (p : value * Z) => let (v, k) := p in Some ([v], k)) (fun p : value * Z => let (v, k) := p in Some ([v], k)) (OB c0 b)). intros a. apply agree_const.
  - intros bo sr off b M H. cbn [made read height] in *. destruct M as (id & ->). cbn [sread]. unfold pdec. cbn [resolve]. unfold self_class.
    destruct (assoc "cls" (p_attrs o)); [exact (agree_const _ _ _)|]. destruct (p_proxy o); [|exact (agree_const _ _ _)]. cbn [rbind].
    apply agree_weak with (L := S L) (U := S U); [lia|lia|].
    apply agree_block.
    apply agree_ext with (F := fun n => match n with O => None | S k => obind (opt (dcreate hb ct md k (p_cls o) b)) (fun p : value * Z => let (v, z) := p in Some ([v], z)) end).
    { intros [|n]; [reflexivity|]. cbn [dec dec_step]. unfold dcreate. destruct (dcreate_step _ _ _ _) as [[? ?]|]; reflexivity. }
    apply agree_step.
    apply (agree_bind L U _ _ (fun _ (p : value * Z) => let (v, k) := p in Some ([v], k)) (fun p : value * Z => let (v, k) := p in Some ([v], k)) (OB (p_cls o) b)). intros a. apply agree_const.
  - intros bo sr off b M. contradiction.
  - intros bo sr off b M. contradiction.
Qed.
End Main.

(** ** values of a field *)
Section Caps.
Variable hb : bool.
Variable md : umode.
Variable rec : nat -> bytes -> option (value * Z).
Variable o : pobj.
Definition cap (x : hx) : nat := if takes x then 1%nat else 0%nat.
Definition capped (x : hx) : Prop := forall bo s m off b vs off' k, made bo x s -> regular x = true ->
  read hb md rec o m x off b = Some (vs, off', k) -> (List.length vs <= cap x)%nat.
Lemma at_len : forall m w n off b f vs off' k j, at_ m w n off b f = Some (vs, off', k) -> (forall x, List.length (f x) = j) -> List.length vs = j.
Proof. intros m w n off b f vs off' k j E H. unfold at_ in E. destruct (_ <=? _)%nat; [|discriminate]. injection E as <- _ _. apply H. Qed.
Lemma block_one : forall r vs off' k, block r = Some (vs, off', k) -> (forall vs k, r = Some (vs, k) -> (List.length vs <= 1)%nat) -> (List.length vs <= 1)%nat.
Proof. intros r vs off' k E H. destruct r as [[ws j]|]; [|discriminate]. injection E as <- _ _. eauto. Qed.
Lemma string_len : forall m a off b vs off' k, string_of hb md m a off b = Some (vs, off', k) -> (List.length vs <= cap (XChar a))%nat.
Proof.
  intros m a off b vs off' k E. destruct a; cbn [string_of cap takes] in *.
  - destruct (number_at m c 0 b) as [[[z o'] j]|]; [|discriminate]. destruct (cut _ _ _); [|discriminate].
    eapply block_one; [exact E|]. intros ws i Q. injection Q as <- _. destruct (_ && _); cbn; lia.
  - unfold cap. cbn [takes]. destruct (z =? 0); [injection E as <- _ _; cbn; lia|]. cbn [negb]. rewrite (at_len _ _ _ _ _ _ _ _ _ 1%nat E (fun _ => eq_refl)). lia.
  - destruct b0 as [|t []]; try discriminate. destruct (until t b); [|discriminate]. injection E as <- _ _. cbn. lia.
  - injection E as <- _ _. cbn. lia.
  - destruct (net_of hb b) as [[z j]|]; [|discriminate]. destruct (cut _ _ _); [|discriminate]. injection E as <- _ _. cbn. lia.
Qed.
Lemma pick_len : forall m ms d ds b r vs off' k,
  all2 (fun p q => fst p = fst q /\ made BO_DEFAULT (snd p) (snd q)) m ms ->
  match d, ds with None, None => True | Some y, Some t => made BO_DEFAULT y t | _, _ => False end ->
  Forall (fun p => capped (snd p)) m -> (forall x, d = Some x -> capped x) ->
  forallb (fun p => regular (snd p)) m = true -> match d with Some y => regular y | None => true end = true ->
  pick_of (fun y => read hb md rec o (machine hb) y 0 b) d r m = Some (vs, off', k) -> (List.length vs <= 1)%nat.
Proof.
  intros m ms d ds b r vs off' k A D CM CD RM RD E.
  assert (ONE : forall x s, made BO_DEFAULT x s -> capped x -> regular x = true -> read hb md rec o (machine hb) x 0 b = Some (vs, off', k) -> (List.length vs <= 1)%nat).
  { intros x s M C R Q. specialize (C _ _ _ _ _ _ _ _ M R Q). unfold cap in C. destruct (takes x); lia. }
  revert ms A RM E. induction CM as [|[k' x] m CX CM IH]; intros [|[k2 s] ms] A RM E; try contradiction.
  - cbn in E. destruct d as [y|], ds as [t|]; try contradiction; [|discriminate]. eapply ONE; eauto.
  - destruct A as [[A1 A2] A3]. cbn in RM. apply andb_prop in RM as [RM1 RM2]. cbn [pick_of] in E.
    destruct (key_eqb r k'); [eapply ONE; eauto|eauto].
Qed.
Lemma omap_len : forall {A B} (f : A -> option B) l r, omap f l = Some r -> List.length r = List.length l.
Proof.
  intros A B f. induction l as [|a l IH]; intros r E; cbn in E; [now injection E as <-|]. destruct (f a); [|discriminate].
  destruct (omap f l) as [r'|]; [|discriminate]. injection E as <-. cbn. now rewrite (IH r' eq_refl).
Qed.
Theorem all_capped : forall x, capped x.
Proof.
  induction x using hx_ind'; intros bo sr mo off b vs off' k M R E; cbn [made read regular] in *; try contradiction.
  - rewrite (at_len _ _ _ _ _ _ _ _ _ 1%nat E (fun _ => eq_refl)). reflexivity.
  - destruct (n =? 0); [injection E as <- _ _; cbn; lia|]. rewrite (at_len _ _ _ _ _ _ _ _ _ 0%nat E (fun _ => eq_refl)). lia.
  - unfold cap. cbn [takes]. destruct (n =? 0); [injection E as <- _ _; cbn; lia|]. rewrite (at_len _ _ _ _ _ _ _ _ _ 1%nat E (fun _ => eq_refl)). cbn. lia.
  - now apply string_len in E.
  - destruct (string_of hb md (machine hb) a 0 b) as [[[ws ?] ?]|]; [|discriminate]. destruct ws as [|v ws]; [discriminate|].
    destruct v; try discriminate. destruct (cod_dec cd b0); [|discriminate]. injection E as <- _ _. cbn. lia.
  - unfold cap. cbn [takes]. destruct (packed x).
    + destruct n as [z|d]; [|destruct (number_at mo d 0 b) as [[[? ?] ?]|]; [|discriminate]];
        (destruct (items_of _ true _ 0 _) as [[ws ?]|]; [|discriminate]); injection E as <- _ _; cbn; lia.
    + destruct (negb (ready o x)); [discriminate|].
      destruct n as [z|d]; [|destruct (number_at mo d 0 b) as [[[? ?] ?]|]; [|discriminate]];
        (destruct s as [d'|]; [match type of E with context [number_at mo d' ?x ?y] => destruct (number_at mo d' x y) as [[[? ?] ?]|]; [|discriminate] end|]);
        (destruct (items_of _ false _ 0 _) as [[ws ?]|]; [|discriminate]);
        try (match type of E with context [?a =? ?b] => destruct (a =? b); [|discriminate] end); injection E as <- _ _; cbn; lia.
  - destruct (members_of _ l 0 b) as [[ws ?]|]; [|discriminate]. injection E as <- _ _. cbn. lia.
  - apply andb_prop in R as [R1 R2]. destruct M as (i & -> & MI & LD). unfold cap. cbn [takes]. destruct (f o) as [r|]; [|discriminate].
    destruct (key_eqb r (VBool true)).
    + destruct (read hb md rec o mo x 0 b) as [[[ws ?] ?]|] eqn:RX; [|discriminate]. injection E as <- _ _. exact (IHx _ _ _ _ _ _ _ _ MI R1 RX).
    + destruct (key_eqb r (VBool false)); [|discriminate]. injection E as <- _ _. rewrite LD, (made_nv _ _ _ MI). apply Nat.eqb_eq in R2. lia.
  - destruct M as (st & st' & -> & MI & _). destruct (read hb md rec o mo x off b) as [[[ws ?] ?]|] eqn:RX; [|discriminate].
    destruct (convert a x ws) as [us|] eqn:CV; [|discriminate]. injection E as <- _ _. specialize (IHx _ _ _ _ _ _ _ _ MI R RX).
    assert (LL : List.length us = List.length ws).
    { destruct x; cbn [convert] in CV; try (now apply omap_len in CV). now injection CV as <-. }
    rewrite LL. unfold cap in *. cbn [takes]. destruct (takes x); lia.
  - destruct M as (id' & ms & ds & -> & A & D). apply andb_prop in R as [R1 R2]. destruct (f o) as [r|]; [|discriminate]. destruct (hashable r); [|discriminate].
    destruct (pick_of _ d r m) as [[[ws ?] ?]|] eqn:PK; [|discriminate]. injection E as <- _ _. eapply pick_len; eauto.
  - destruct M as (id' & r & ms & ds & -> & MR & A & D). apply andb_prop in R as [R1 R2].
    destruct (read hb md rec o (machine hb) x 0 b) as [[[rs ?] ?]|]; [|discriminate]. destruct rs as [|v rs]; [discriminate|]. destruct (hashable v); [|discriminate].
    destruct (pick_of _ d v m) as [[[ws ?] ?]|] eqn:PK; [|discriminate]. injection E as <- _ _. eapply pick_len; eauto.
  - destruct (rec c b) as [[v j]|]; [|discriminate]. injection E as <- _ _. cbn. lia.
  - destruct (assoc "cls" (p_attrs o)); [discriminate|]. destruct (p_proxy o); [|discriminate]. destruct (rec (p_cls o) b) as [[v j]|]; [|discriminate].
    injection E as <- _ _. cbn. lia.
Qed.
End Caps.

(** ** classes *)
Definition names_of (l : list (string * hx)) : list string := map fst (filter (fun p => negb (padding (snd p))) l).
Lemma attrs_names : forall sc, regular_class sc = true -> sc_attrs sc = names_of (fields_of (sc_anns sc)).
Proof.
  intros sc R. unfold sc_attrs, names_of, regular_class, fields_of in *. induction (sc_anns sc) as [|[a x] l IH]; [reflexivity|].
  cbn [filter fst snd] in *. destruct (serial x); cbn [andb]; [|exact (IH R)]. cbn [forallb fst snd filter] in *. apply andb_prop in R as [R1 R2].
  apply andb_prop in R1 as [_ NS]. destruct (negb (padding x)); cbn [map filter fst]; [|exact (IH R2)]. rewrite NS. f_equal. exact (IH R2).
Qed.
Definition nmd : Type := list string * list (string * value).
Definition put_all (vs : list value) (st : nmd) : option nmd :=
  match assign (fst st) vs (snd st) with (Some nm, d') => Some (nm, d') | (None, _) => None end.
Lemma assign_nil : forall nm d, assign nm [] d = (Some nm, d).
Proof. intros [|a nm] d; reflexivity. Qed.
Lemma put_nil : forall st, put_all [] st = Some st.
Proof. intros [[|a nm] d]; reflexivity. Qed.
Lemma put_app : forall a b st, put_all (a ++ b) st = odo st' <- put_all a st; put_all b st'.
Proof. intros a b [nm d]. unfold put_all. cbn [fst snd]. rewrite assign_app. destruct (assign nm a d) as [[nm'|] d']; reflexivity. Qed.
Section ClassRead.
Variable hb : bool.
Variable ct : nat -> option cdef.
Variable md : umode.
Variable c : nat.
Variable px : bool.
Definition seen (st : nmd) : pobj := PO c px (snd st).
Lemma ofill_pseq : forall n ctx l b nm d,
  opt (ofill hb ct md n (PO c px []) ctx l b nm d) = pseq hb ct md nmd put_all seen (S n) l b (nm, d).
Proof.
  intros n ctx. induction l as [|s l IH]; intros b nm d; [reflexivity|]. rewrite ofill_cons. cbn [pseq]. unfold pdec, seen. cbn [snd p_cls p_proxy].
  destruct (resolve false s (PO c px d)) as [s'|]; [|reflexivity]. cbn [rbind].
  destruct (dec hb ct md (S n) s' (PO c px d) b) as [[vs k]|]; [|reflexivity]. cbn [rbind opt]. unfold put_all at 1. cbn [fst snd].
  destruct (assign nm vs d) as [[nm'|] d']; [|reflexivity]. rewrite <- IH. destruct (ofill _ _ _ _ _ _ _ _ _ _) as [[nd z]|]; reflexivity.
Qed.
Variable f : list (string * value) -> hx -> nat -> bytes -> option place.
Fixpoint gread (l : list hx) (off : nat) (b : bytes) (st : nmd) : option (nmd * Z) :=
  match l with
  | [] => Some (st, 0)
  | x :: l' =>
      odo (vs, off', k) <- f (snd st) x off b;
      odo st' <- put_all vs st;
      odo (st'', k') <- gread l' off' (adv k b) st';
      Some (st'', k + k')
  end.
Definition within (l : list (string * hx)) : Prop :=
  forall p, In p l -> forall d off b vs off' k, f d (snd p) off b = Some (vs, off', k) -> (List.length vs <= cap (snd p))%nat.
Definition lined (l : list (string * hx)) : Prop := forall p, In p l -> padding (snd p) = true \/ takes (snd p) = true.
Lemma names_cap : forall a x l, (padding x = true \/ takes x = true) -> List.length (names_of ((a, x) :: l)) = (cap x + List.length (names_of l))%nat.
Proof.
  intros a x l H. unfold names_of, cap. cbn [filter snd]. destruct (padding x) eqn:P; cbn [negb].
  - assert (TK : takes x = false) by (destruct x; try discriminate P; reflexivity). now rewrite TK.
  - destruct H as [H|H]; [discriminate|]. rewrite H. reflexivity.
Qed.
Lemma assign_count : forall vs nm d nm' d', assign nm vs d = (Some nm', d') -> List.length nm = (List.length vs + List.length nm')%nat.
Proof.
  induction vs as [|v vs IH]; intros nm d nm' d' E; [rewrite assign_nil in E; now injection E as <- _|]. destruct nm as [|a nm]; [discriminate|]. cbn [assign] in E.
  apply IH in E. cbn. lia.
Qed.
Lemma gread_left : forall l, within l -> lined l -> forall off b nm d nm' d' k,
  gread (map snd l) off b (nm, d) = Some ((nm', d'), k) -> (List.length nm <= List.length (names_of l) + List.length nm')%nat.
Proof.
  induction l as [|[a x] l IH]; intros W LN off b nm d nm' d' k E.
  - injection E as <- _ _. cbn. lia.
  - cbn [map gread snd] in E. destruct (f d x off b) as [[[vs off'] k1]|] eqn:F; [|discriminate]. unfold put_all in E. cbn [fst snd] in E.
    destruct (assign nm vs d) as [[nm1|] d1] eqn:A; [|discriminate]. destruct (gread (map snd l) off' (adv k1 b) (nm1, d1)) as [[[nm2 d2] k2]|] eqn:G; [|discriminate].
    injection E as <- <- _. apply assign_count in A. pose proof (W (a, x) (or_introl eq_refl) _ _ _ _ _ _ F) as C. cbn [snd] in C.
    rewrite (names_cap a x l (LN (a, x) (or_introl eq_refl))).
    assert (Q : (List.length nm1 <= List.length (names_of l) + List.length nm2)%nat).
    { eapply IH; [| |exact G]; intros p I; [apply W|apply LN]; now right. }
    lia.
Qed.
Lemma gread_fields : forall l, within l -> lined l -> forall off b d d' k,
  gread (map snd l) off b (names_of l, d) = Some (([], d'), k) <-> fields_read f l d off b = Some (d', k).
Proof.
  induction l as [|[a x] l IH]; intros W LN off b d d' k.
  - cbn. split; intros E; injection E as <- <-; reflexivity.
  - assert (W' : within l) by (intros p I; apply W; now right). assert (LN' : lined l) by (intros p I; apply LN; now right).
    cbn [map gread snd fields_read]. destruct (f d x off b) as [[[vs off'] k1]|] eqn:F; [|split; discriminate].
    pose proof (W (a, x) (or_introl eq_refl) _ _ _ _ _ _ F) as C. cbn [snd] in C. unfold put_all. cbn [fst snd].
    destruct (padding x) eqn:P.
    + assert (TK : takes x = false) by (destruct x; try discriminate P; reflexivity). unfold cap in C. rewrite TK in *.
      destruct vs as [|v vs]; [|cbn in C; lia]. rewrite assign_nil.
      assert (NM : names_of ((a, x) :: l) = names_of l) by (unfold names_of; cbn [filter snd]; now rewrite P). rewrite NM.
      specialize (IH W' LN' off' (adv k1 b) d).
      destruct (gread (map snd l) off' (adv k1 b) (names_of l, d)) as [[[nm2 d2] k2]|] eqn:G, (fields_read f l d off' (adv k1 b)) as [[d3 k3]|] eqn:FR.
      * split; intros E; [injection E as -> -> <-|injection E as -> <-].
        -- destruct (IH d' k2) as [Q _]. specialize (Q eq_refl). injection Q as -> ->. reflexivity.
        -- destruct (IH d' k3) as [_ Q]. specialize (Q eq_refl). injection Q as -> -> ->. reflexivity.
      * split; [|discriminate]. intros E. injection E as -> -> <-. destruct (IH d' k2) as [Q _]. discriminate (Q eq_refl).
      * split; [discriminate|]. intros E. injection E as -> <-. destruct (IH d' k3) as [_ Q]. discriminate (Q eq_refl).
      * split; discriminate.
    + assert (TK : takes x = true) by (destruct (LN (a, x) (or_introl eq_refl)) as [Q|Q]; cbn [snd] in Q; congruence). unfold cap in C. rewrite TK in *.
      assert (NM : names_of ((a, x) :: l) = a :: names_of l) by (unfold names_of; cbn [filter snd]; now rewrite P). rewrite NM.
      destruct vs as [|v [|]]; [|cbn [assign]; rewrite assign_nil|cbn in C; lia].
      * rewrite assign_nil. split; [|discriminate]. intros E. destruct (gread (map snd l) off' (adv k1 b) (a :: names_of l, d)) as [[[nm2 d2] k2]|] eqn:G; [|discriminate].
        injection E as -> _ _. apply gread_left in G; auto. cbn in G. lia.
      * specialize (IH W' LN' off' (adv k1 b) (assoc_set a v d)).
        destruct (gread (map snd l) off' (adv k1 b) (names_of l, assoc_set a v d)) as [[[nm2 d2] k2]|] eqn:G, (fields_read f l (assoc_set a v d) off' (adv k1 b)) as [[d3 k3]|] eqn:FR.
        -- split; intros E; [injection E as -> -> <-|injection E as -> <-].
           ++ destruct (IH d' k2) as [Q _]. specialize (Q eq_refl). injection Q as -> ->. reflexivity.
           ++ destruct (IH d' k3) as [_ Q]. specialize (Q eq_refl). injection Q as -> -> ->. reflexivity.
        -- split; [|discriminate]. intros E. injection E as -> -> <-. destruct (IH d' k2) as [Q _]. discriminate (Q eq_refl).
        -- split; [discriminate|]. intros E. injection E as -> <-. destruct (IH d' k3) as [_ Q]. discriminate (Q eq_refl).
        -- split; discriminate.
Qed.
End ClassRead.

Lemma set_fresh : forall a (v : value) d, ~ In a (map fst d) -> assoc_set a v d = d ++ [(a, v)].
Proof.
  intros a v. induction d as [|[b w] d IH]; intros N; [reflexivity|]. cbn in N. cbn [assoc_set app].
  destruct (String.eqb_spec a b) as [->|NE]; [exfalso; auto|]. rewrite IH; auto.
Qed.
Lemma fields_dict : forall f l, lined l -> NoDup (map fst l) -> forall d off b d' k, (forall a, In a (map fst l) -> ~ In a (map fst d)) ->
  fields_read f l d off b = Some (d', k) -> exists vs, List.length vs = List.length (names_of l) /\ d' = d ++ zipw (names_of l) vs.
Proof.
  intros f. induction l as [|[a x] l IH]; intros LN ND d off b d' k FR E.
  - injection E as <- _. exists []. split; [reflexivity|]. cbn. now rewrite app_nil_r.
  - cbn [map fst] in *. inversion ND as [|? ? NI ND']; subst. cbn [fields_read] in E.
    destruct (f d x off b) as [[[vs off'] k1]|]; [|discriminate]. assert (LN' : lined l) by (intros p I; apply LN; now right).
    destruct (takes x) eqn:TK.
    + destruct vs as [|v []]; try discriminate. destruct (fields_read f l (assoc_set a v d) off' (adv k1 b)) as [[d2 k2]|] eqn:FE; [|discriminate].
      injection E as <- _. rewrite set_fresh in FE by (apply FR; now left).
      assert (FR' : forall a', In a' (map fst l) -> ~ In a' (map fst (d ++ [(a, v)]))).
      { intros a' I. rewrite map_app, in_app_iff. cbn. intros [Q|[Q|[]]]; [exact (FR a' (or_intror I) Q)|congruence]. }
      destruct (IH LN' ND' _ _ _ _ _ FR' FE) as (vs & LL & ->).
      assert (P : padding x = false) by (destruct (padding x) eqn:P; [|reflexivity]; destruct x; try discriminate P; discriminate TK).
      unfold names_of. cbn [filter snd]. rewrite P. cbn [negb map fst]. exists (v :: vs). split; [cbn; now rewrite LL|]. cbn. now rewrite <- app_assoc.
    + destruct vs as [|v []]; try discriminate. destruct (fields_read f l d off' (adv k1 b)) as [[d2 k2]|] eqn:FE; [|discriminate]. injection E as <- _.
      destruct (IH LN' ND' _ _ _ _ _ (fun a' I => FR a' (or_intror I)) FE) as (vs & LL & ->).
      assert (P : padding x = true) by (destruct (LN (a, x) (or_introl eq_refl)) as [Q|Q]; cbn in Q; congruence).
      exists vs. unfold names_of. cbn [filter snd]. rewrite P. auto.
Qed.
Lemma names_nodup : forall l, NoDup (map fst l) -> NoDup (names_of l).
Proof.
  unfold names_of. induction l as [|[a x] l IH]; intros ND; [constructor|]. cbn [map fst] in ND. inversion ND as [|? ? NI ND']; subst. cbn [filter snd].
  destruct (negb (padding x)); [|auto]. cbn [map fst]. constructor; [|auto]. intros I. apply NI. apply in_map_iff in I as (p & E & I).
  apply in_map_iff. exists p. split; [exact E|]. now apply filter_In in I.
Qed.
Lemma filter_nodup : forall {B} (g : string * B -> bool) l, NoDup (map fst l) -> NoDup (map fst (filter g l)).
Proof.
  intros B g. induction l as [|[a x] l IH]; intros ND; [constructor|]. cbn [map fst] in ND. inversion ND as [|? ? NI ND']; subst. cbn [filter].
  destruct (g (a, x)); [|auto]. cbn [map fst]. constructor; [|auto]. intros I. apply NI. apply in_map_iff in I as (p & E & I).
  apply in_map_iff. exists p. split; [exact E|]. now apply filter_In in I.
Qed.

(** the serializer of a class at fuel 0 *)
Definition lone (s : ser) : bool := match s with SCond _ i _ => negb (is_compound i) | _ => true end.
Lemma made_lone : forall x bo s, made bo x s -> lone s = true.
Proof.
  intros x bo s M. destruct s; try reflexivity. cbn. destruct x; cbn [made] in M; try contradiction; try (destruct M; discriminate).
  - unfold counted in M. match type of M with if ?q then _ else _ => destruct q end; [discriminate|]. destruct M as (? & ? & _). discriminate.
  - unfold counted in M. match type of M with if ?q then _ else _ => destruct q end; [discriminate|]. destruct M as (? & ? & _). discriminate.
  - destruct a; cbn [char_made] in M; try contradiction; try (destruct M as [_ [? M]]; discriminate); try (destruct M; discriminate).
    + unfold counted in M. match type of M with if ?q then _ else _ => destruct q end; [discriminate|]. destruct M as (? & ? & _). discriminate.
    + destruct b as [|? []]; try contradiction. destruct M; discriminate.
  - destruct M as (? & ? & _). discriminate.
  - destruct M as (_ & i & _ & M). destruct (structy x && Nat.eqb (vals x) 1).
    + destruct M as (? & _ & M). destruct n; [discriminate|]. destruct M; discriminate.
    + destruct M; discriminate.
  - destruct M as (? & ? & ? & ? & ? & Q & _). discriminate Q.
  - destruct M as (i & E & M & _). injection E as _ -> _. destruct (made_field _ _ _ M) as (_ & _ & Q & _). now rewrite Q.
  - destruct M as (? & ? & Q & _). discriminate Q.
  - destruct M as (? & ? & ? & Q & _). discriminate Q.
  - destruct M as (? & ? & ? & ? & Q & _). discriminate Q.
Qed.
Lemma runs_lone : forall l, forallb lone l = true -> forallb lone (runs l) = true.
Proof.
  intros l. unfold runs. assert (G : forall p, forallb lone p = true -> forallb lone l = true -> forallb lone (fold_left push l p) = true).
  { induction l as [|s l IH]; intros p HP H; [exact HP|]. cbn in H. apply andb_prop in H as [H1 H2]. cbn [fold_left]. apply IH; [|exact H2].
    assert (D : forallb lone (p ++ [s]) = true) by (rewrite forallb_app, HP; cbn; now rewrite H1).
    destruct s; cbn [push]; try exact D; [exact HP|]. destruct (split_last p) as [[q x]|] eqn:E; [|exact D]. destruct x; try exact D.
    apply split_last_some in E as ->. rewrite forallb_app in HP. apply andb_prop in HP as [HP _]. now rewrite forallb_app, HP. }
  intros H. now apply G.
Qed.
Lemma rel_lone : forall l p, rel l p -> forallb lone p = true -> forallb lone l = true.
Proof.
  intros l p R. induction R as [|a c l p S R IH]; intros H; [reflexivity|]. cbn in *. apply andb_prop in H as [H1 H2]. rewrite (IH H2), Bool.andb_true_r.
  destruct S as [->|(x & y & -> & -> & _)]; [exact H1|reflexivity].
Qed.
Definition top (sl : list sclass) : nat :=
  fold_right (fun sc n => Nat.max (fold_right (fun p n => Nat.max (height (snd p)) n) 1%nat (fields_of (sc_anns sc))) n) 1%nat sl.
Section Depth.
Variable hb : bool.
Variable md : umode.
Variables (sl : list sclass) (l : list cinfo).
Hypothesis CR : classes_rel sl l.
Hypothesis RG : forallb regular_class sl = true.
Variable TT : nat -> nat -> bool.
Let ct := classes l.
Hypothesis HC : forall c cd, ct c = Some cd -> hc ct TT c (c_ser cd) = true.
Section OneClass.
Variable rec : nat -> bytes -> option (value * Z).
Variables L U : nat.
Hypothesis OB : forall c b, agree L U (fun n => opt (dcreate hb ct md n c b)) (rec c b).
Lemma seq_agree : forall c px bo xs H, (forall x, In x xs -> (height x <= H)%nat) -> forall sers,
  all2 (made bo) xs sers -> forallb (hc ct TT c) sers = true -> forall off b st,
  agree (S L) (U + H) (fun n => gseq hb ct md bo nmd put_all (seen c px) n sers off b st)
    (gread (fun d => read hb md rec (PO c px d) (mode_of hb bo)) xs off b st).
Proof.
  intros c px bo xs H. induction xs as [|x xs IH]; intros LE [|s sers] A F off b st; try contradiction; [exact (agree_const _ _ _)|].
  destruct A as [A1 A2]. cbn in F. apply andb_prop in F as [F1 F2]. cbn [gseq gread].
  apply agree_ext with (F := fun n => obind (sread hb ct md bo n s (seen c px st) off b) (fun p => obind (put_all (fst (fst p)) st) (fun st' =>
    obind (gseq hb ct md bo nmd put_all (seen c px) n sers (snd (fst p)) (adv (snd p) b) st') (fun q => Some (fst q, snd p + snd q))))).
  { intros n. destruct (sread _ _ _ _ _ _ _ _ _) as [[[vs off'] k]|]; [|reflexivity]. cbn [obind fst snd]. destruct (put_all vs st) as [st'|]; [|reflexivity].
    cbn [obind]. destruct (gseq _ _ _ _ _ _ _ _ _ _ _ _) as [[? ?]|]; reflexivity. }
  match goal with |- agree _ _ _ ?g => assert (E : g = obind (read hb md rec (seen c px st) (mode_of hb bo) x off b) (fun p => obind (put_all (fst (fst p)) st) (fun st' =>
    obind (gread (fun d => read hb md rec (PO c px d) (mode_of hb bo)) xs (snd (fst p)) (adv (snd p) b) st') (fun q => Some (fst q, snd p + snd q))))) end.
  { unfold seen. destruct (read _ _ _ _ _ _ _ _) as [[[vs off'] k]|]; [|reflexivity]. cbn [obind fst snd]. destruct (put_all vs st) as [st'|]; [|reflexivity].
    cbn [obind]. destruct (gread _ _ _ _ _) as [[? ?]|]; reflexivity. }
  rewrite E. apply agree_bind.
  - apply agree_weak with (L := S L) (U := (U + height x)%nat); [lia|pose proof (LE x (or_introl eq_refl)); lia|].
    exact (all_shown hb ct md TT rec L U OB c (seen c px st) x bo s off b A1 F1).
  - intros p. apply agree_bind; [apply agree_const|]. intros st'. apply agree_bind; [|intros q; apply agree_const]. apply IH; auto. intros y I. apply LE. now right.
Qed.
Lemma class_facts : forall c sc i, nth_error sl c = Some sc -> nth_error l c = Some i ->
  let bo := sc_bo sc in
  exists sers, c_attrs (ci_def i) = names_of (fields_of (sc_anns sc)) /\ NoDup (map fst (fields_of (sc_anns sc))) /\
    all2 (made bo) (map snd (fields_of (sc_anns sc))) sers /\ forallb (hc ct TT c) sers = true /\
    flat (c_ser (ci_def i)) /\ rel (parts (c_ser (ci_def i))) (runs sers) /\ Forall atom (runs sers) /\
    lined (fields_of (sc_anns sc)) /\ forallb (fun p => regular (snd p)) (fields_of (sc_anns sc)) = true.
Proof.
  intros c sc i NS NI bo. destruct CR as [LEN R]. destruct (R c sc i NS NI) as (DR & BO & _ & AT & fin & id & sers & s & SM & CS & A2).
  assert (RC : regular_class sc = true) by (rewrite forallb_forall in RG; apply RG; eapply nth_error_In; eauto).
  assert (FO : Forall (field_ok BO_DEFAULT) sers) by (eapply all2_field; eauto).
  destruct (ssum_rel fin id sers s) as (FL & RL & ATM & _); auto.
  { eapply Forall_impl; [|exact FO]. intros ? (_ & _ & Q & _). exact Q. }
  { apply forallb_forall. rewrite Forall_forall in FO. intros y I. destruct (FO y I) as (_ & _ & _ & Q & _). exact Q. }
  { eapply fields_lossless; eauto. }
  assert (F2 : flat (with_bo bo s)) by (now apply flat_bo).
  assert (R2 : rel (parts (with_bo bo s)) (runs (map (with_bo bo) sers))) by (rewrite (parts_bo bo s FL), runs_bo; now apply rel_bo).
  exists (map (with_bo bo) sers). rewrite CS. fold bo. repeat match goal with |- _ /\ _ => split end.
  - rewrite AT. now apply attrs_names.
  - apply filter_nodup. assert (E : map fst (sc_anns sc) = map fst (get_type_hints (ci_mro i))).
    { clear -DR. induction DR as [|p q x y [E _] DR IH]; [reflexivity|]. cbn. now rewrite E, IH. }
    rewrite E. apply hints_nodup.
  - now apply all2_bo with (bo := BO_DEFAULT).
  - apply runs_back; [reflexivity|reflexivity|]. eapply rel_back; [reflexivity|exact R2|]. apply hc_parts; [exact F2|]. unfold bo. rewrite <- CS. apply HC.
    unfold ct, classes. now rewrite NI.
  - exact F2.
  - exact R2.
  - rewrite runs_bo. apply Forall_forall. intros y I. apply in_map_iff in I as (z & <- & I). apply atom_bo. rewrite Forall_forall in ATM. auto.
  - unfold regular_class in RC. rewrite forallb_forall in RC. intros p I. specialize (RC p I). apply andb_prop in RC as [RC _]. apply andb_prop in RC as [_ RC].
    now apply Bool.orb_true_iff in RC.
  - unfold regular_class in RC. rewrite forallb_forall in *. intros p I. specialize (RC p I). apply andb_prop in RC as [RC _]. now apply andb_prop in RC as [RC _].
Qed.
Lemma made_within : forall c px sc bo sers, all2 (made bo) (map snd (fields_of (sc_anns sc))) sers ->
  forallb (fun p => regular (snd p)) (fields_of (sc_anns sc)) = true ->
  within (fun d => read hb md rec (PO c px d) (mode_of hb bo)) (fields_of (sc_anns sc)).
Proof.
  intros c px sc bo sers. generalize (fields_of (sc_anns sc)) as fl. intros fl. revert sers.
  induction fl as [|q fl IH]; intros [|s sers] A R p I; try contradiction. destruct A as [A1 A2]. cbn in R. apply andb_prop in R as [R1 R2].
  destruct I as [<-|I]; [|exact (IH sers A2 R2 p I)]. intros d off b vs off' k E. exact (all_capped hb md rec (PO c px d) (snd q) bo s _ _ _ _ _ _ A1 R1 E).
Qed.
Lemma dcreate_0 : forall c cd b, ct c = Some cd -> flat (c_ser cd) -> forallb lone (parts (c_ser cd)) = true -> opt (dcreate hb ct md 0 c b) = None.
Proof.
  intros c cd b E F LO. unfold dcreate, dcreate_step. rewrite E. destruct (resolve false (c_ser cd) (PO c true [])) as [x|] eqn:R; [|reflexivity]. cbn [rbind].
  assert (X : exists e d, dfill (dec hb ct md 0) x (PO c true []) b (c_attrs cd) [] = (Err e, d)).
  { destruct (is_compound x) eqn:CX; [|destruct x; try discriminate CX; eexists _, _; reflexivity].
    assert (K : exists i subs, subs <> [] /\ (x = SCompound i subs \/ x = SSpec i subs (PO c true []))).
    { destruct (c_ser cd) as [| | | | | | | | | | | |f i dv| | | |i|i l1|i l1 o1]; cbn [resolve parts forallb lone flat] in *; try (injection R as <-; discriminate CX); try contradiction.
      - destruct (f (PO c true [])) as [v|]; [|discriminate]. cbn [rbind] in R. unfold cond_branch in R. rewrite Bool.andb_true_r in LO.
        destruct (key_eqb v (VBool true)); [injection R as <-; rewrite CX in LO; discriminate|].
        destruct (key_eqb v (VBool false)); [injection R as <-; discriminate CX|]. destruct (hashable v); discriminate.
      - injection R as <-. exists i, l1. split; [tauto|]. destruct (existsb needs_pre l1); auto. }
    destruct K as (i & subs & N & [-> | ->]); (destruct subs as [|s0 subs]; [congruence|]); cbn [dfill dfill_subs option_map oresolve].
    - eexists _, _. reflexivity.
    - destruct (resolve false s0 _); eexists _, _; reflexivity. }
  destruct X as (e & d & ->). reflexivity.
Qed.
Definition named (c : nat) (attrs : list string) (p : nmd * Z) : option (value * Z) :=
  match p with
  | (([], d), k) => odo vs <- opt (get_attrs attrs d); Some (VObj c None (zipw attrs vs), k)
  | _ => None
  end.
Lemma dcreate_pseq : forall n c cd b, ct c = Some cd -> flat (c_ser cd) ->
  opt (dcreate hb ct md (S n) c b) = odo p <- pseq hb ct md nmd put_all (seen c true) (S n) (parts (c_ser cd)) b (c_attrs cd, []); named c (c_attrs cd) p.
Proof.
  intros n c cd b E F. rewrite <- (ofill_pseq hb ct md c true n (PO c true [])).
  pose proof (parts_fill hb ct md n c (PO c true []) TT (c_ser cd) b (c_attrs cd) F (HC c cd E)) as P.
  unfold dcreate, dcreate_step. rewrite E. specialize (fun d' z => P d' z eq_refl).
  destruct (resolve false (c_ser cd) (PO c true [])) as [x|]; cbn [rbind] in *.
  - destruct (dfill (dec hb ct md (S n)) x (PO c true []) b (c_attrs cd) []) as [[k|e] d] eqn:Q.
    + destruct (P d k) as [P1 _]. rewrite (P1 eq_refl). cbn [opt named]. destruct (get_attrs (c_attrs cd) d); reflexivity.
    + destruct (ofill hb ct md n (PO c true []) (PO c true []) (parts (c_ser cd)) b (c_attrs cd) []) as [[[nm d'] k]|]; [|reflexivity].
      destruct nm as [|a nm]; [|reflexivity]. destruct (P d' k) as [_ P2]. specialize (P2 eq_refl). discriminate P2.
  - destruct (ofill hb ct md n (PO c true []) (PO c true []) (parts (c_ser cd)) b (c_attrs cd) []) as [[[nm d'] k]|]; [|reflexivity].
    destruct nm as [|a nm]; [|reflexivity]. destruct (P d' k) as [_ P2]. specialize (P2 eq_refl). discriminate P2.
Qed.
Definition object_read (c : nat) (b : bytes) : option (value * Z) :=
  odo sc <- nth_error sl c;
  let m := mode_of hb (sc_bo sc) in
  odo (d, k) <- fields_read (fun d => read hb md rec (PO c true d) m) (fields_of (sc_anns sc)) [] 0 b;
  Some (VObj c None d, k).
Lemma top_bound : forall c sc x, nth_error sl c = Some sc -> In x (map snd (fields_of (sc_anns sc))) -> (height x <= top sl)%nat.
Proof.
  unfold top. intros c sc x NS. apply nth_error_In in NS. revert NS. generalize sl as l'. induction l' as [|s l' IH]; intros I J; [contradiction|]. cbn [fold_right].
  destruct I as [->|I]; [|specialize (IH I J); lia].
  assert (G : forall q n, In x (map snd q) -> (height x <= fold_right (fun (p : string * hx) n => Nat.max (height (snd p)) n) n q)%nat).
  { clear. intros q n. induction q as [|p q IH]; intros H; [contradiction|]. cbn. destruct H as [<-|H]; [lia|]. specialize (IH H). lia. }
  specialize (G _ 1%nat J). lia.
Qed.
Lemma top_pos : (1 <= top sl)%nat.
Proof. unfold top. generalize sl as l0. induction l0 as [|s l0 IH]; cbn [fold_right]; lia. Qed.
Lemma class_step : forall c b, agree (S L) (U + top sl) (fun n => opt (dcreate hb ct md n c b)) (object_read c b).
Proof.
  intros c b. unfold object_read. destruct (nth_error sl c) as [sc|] eqn:NS.
  2:{ assert (NI : nth_error l c = None) by (apply nth_error_None; destruct CR as [LEN _]; apply nth_error_None in NS; lia).
      apply agree_ext with (F := fun _ => None); [|apply agree_const]. intros n. unfold dcreate, dcreate_step, ct, classes. now rewrite NI. }
  destruct (nth_error l c) as [i|] eqn:NI.
  2:{ exfalso. apply nth_error_None in NI. destruct CR as [LEN _]. assert (c < List.length sl)%nat by (apply nth_error_Some; congruence). lia. }
  destruct (class_facts c sc i NS NI) as (sers & AT & ND & A2 & HS & FL & RL & ATM & LN & RX).
  assert (CT : ct c = Some (ci_def i)) by (unfold ct, classes; now rewrite NI).
  assert (FO : Forall (field_ok (sc_bo sc)) sers) by (eapply all2_field; eauto).
  set (g := fun d => read hb md rec (PO c true d) (mode_of hb (sc_bo sc))). set (fl := fields_of (sc_anns sc)) in *.
  assert (W : within g fl) by (eapply made_within; eauto).
  assert (E : (odo (d, k) <- fields_read g fl [] 0 b; Some (VObj c None d, k)) = obind (gread g (map snd fl) 0 b (names_of fl, [])) (named c (names_of fl))).
  { pose proof (gread_fields ct c g fl W LN 0 b []) as G. destruct (fields_read g fl [] 0 b) as [[d k]|] eqn:FR.
    - destruct (G d k) as [_ G2]. rewrite (G2 eq_refl). cbn [obind named].
      destruct (fields_dict g fl LN ND [] 0 b d k ltac:(intros ? _ []) FR) as (vs & LV & ->). cbn [app].
      rewrite RoundTripMain.get_attrs_zip by (auto using names_nodup). reflexivity.
    - destruct (gread g (map snd fl) 0 b (names_of fl, [])) as [[[nm d] k]|]; [|reflexivity]. destruct nm as [|a nm]; [|reflexivity].
      destruct (G d k) as [G1 _]. specialize (G1 eq_refl). discriminate G1. }
  cbn zeta. rewrite E. clear E.
  apply agree_ext with (F := fun n => match n with O => None | S _ => obind (pseq hb ct md nmd put_all (seen c true) n (runs sers) b (names_of fl, [])) (named c (names_of fl)) end).
  { intros [|n].
    - symmetry. eapply dcreate_0; eauto. eapply rel_lone; [exact RL|]. apply runs_lone. clear -A2. revert sers A2. induction (map snd fl) as [|x xs IH]; intros [|s sers] A; try contradiction; [reflexivity|].
      destruct A as [A1 A2]. cbn. rewrite (made_lone _ _ _ A1). now apply IH.
    - rewrite (dcreate_pseq n c (ci_def i) b CT FL), AT, <- !(ofill_pseq hb ct md c true n (PO c true [])). now rewrite (rel_fill hb ct md n (PO c true []) (PO c true []) _ _ b (names_of fl) [] RL). }
  assert (A : agree (S L) (U + top sl) (fun n => obind (pseq hb ct md nmd put_all (seen c true) n (runs sers) b (names_of fl, [])) (named c (names_of fl))) (obind (gread g (map snd fl) 0 b (names_of fl, [])) (named c (names_of fl)))).
  { apply agree_bind; [|intros p; apply agree_const]. apply pseq_agree with (rec := rec) (L := L) (U := U) (bo := sc_bo sc); auto using put_nil, put_app.
    - pose proof top_pos. lia.
    - apply seq_agree; auto. intros x I. eapply top_bound; eauto. }
  intros n r. destruct (A n r) as [P Q]. split; intros N H.
  - destruct n; [discriminate H|]. auto.
  - destruct n; [pose proof top_pos; lia|]. auto.
Qed.
End OneClass.
Lemma parse_step : forall n c b, parse hb md sl (S n) c b = object_read (parse hb md sl n) c b.
Proof. reflexivity. Qed.
Theorem parse_agree : forall n, exists B, forall c b, agree n B (fun k => opt (dcreate hb ct md k c b)) (parse hb md sl n c b).
Proof.
  induction n as [|n [B IH]].
  - exists 0%nat. intros c b k r. split; intros H E; [lia|discriminate E].
  - exists (B + top sl)%nat. intros c b. rewrite parse_step. now apply class_step.
Qed.
End Depth.
