(** Joining and repeating struct formats preserves their layout. *)
From Verif Require Import Base Floats Value StructMod Format BaseFacts StructFacts.
From Coq Require Import ZifyBool ZifyNat.

Lemma expand_app : forall f g, expand (f ++ g) = expand f ++ expand g.
Proof. intros. unfold expand. apply flat_map_app. Qed.

Lemma split_last_some : forall {A} (l : list A) p x, split_last l = Some (p, x) -> l = p ++ [x].
Proof.
  induction l as [|a l IH]; intros p x H; [discriminate|].
  cbn in H. destruct l as [|b l].
  - now injection H as <- <-.
  - destruct (split_last (b :: l)) as [[p' x']|] eqn:E; [|discriminate].
    injection H as <- <-. rewrite (IH _ _ eq_refl). reflexivity.
Qed.
Lemma split_last_app : forall {A} (p : list A) x, split_last (p ++ [x]) = Some (p, x).
Proof.
  induction p; intros x; [reflexivity|].
  cbn. rewrite IHp. destruct (p ++ [x]) eqn:E; [|reflexivity].
  destruct p; discriminate.
Qed.
Lemma split_last_none : forall {A} (l : list A), split_last l = None -> l = [].
Proof.
  intros A l H. destruct l as [|a l'] using rev_ind; [reflexivity|].
  rewrite split_last_app in H. discriminate.
Qed.

(** two equal adjacent specifiers, merged *)
Lemma merge_layout : forall t1 t2 us, t_code t1 = t_code t2 -> str_code (t_code t1) = false ->
  layout_eq (expand_tok (T (Some (cnt t1 + cnt t2)%nat) (t_code t1)) ++ us)
            (expand_tok t1 ++ expand_tok t2 ++ us).
Proof.
  intros [n1 c1] [n2 c2] us E S. cbn in E, S. subst c2. cbn [t_code].
  assert (V : forall c, layout_eq
      ((UAlign c :: repeat (UVal c) (cnt (T n1 c) + cnt (T n2 c))) ++ us)
      ((UAlign c :: repeat (UVal c) (cnt (T n1 c))) ++ (UAlign c :: repeat (UVal c) (cnt (T n2 c))) ++ us)).
  { intros c. rewrite repeat_app. cbn [app].
    rewrite <- app_assoc. apply layout_eq_sym. apply (layout_merge c). }
  destruct c1; try discriminate; try apply V.
  unfold expand_tok. cbn. rewrite repeat_app, <- app_assoc. apply layout_eq_refl.
Qed.

(** no information is lost by [fold_overlaps f g]: nothing after a merged first specifier of g *)
Definition foldable (f g : fmt) : bool :=
  match g with
  | [] | [_] => true
  | t2 :: _ => match split_last f with
               | Some (_, t1) => negb (code_eqb (t_code t1) (t_code t2)) || str_code (t_code t1)
               | None => true
               end
  end.

Lemma fold_layout : forall f g, foldable f g = true ->
  layout_eq (expand (fold_overlaps false f g)) (expand (f ++ g)).
Proof.
  intros f g H. unfold fold_overlaps.
  destruct (split_last f) as [[p t1]|] eqn:E; [|apply layout_eq_refl].
  apply split_last_some in E as ->.
  destruct g as [|t2 g]; [apply layout_eq_refl|].
  destruct (code_eqb (t_code t1) (t_code t2) && (false || negb (str_code (t_code t1)))) eqn:C;
    [|apply layout_eq_refl].
  apply andb_prop in C as [C1 C2]. apply code_eqb_eq in C1.
  destruct g as [|t3 g].
  - rewrite <- app_assoc, !expand_app. apply layout_eq_app_l.
    unfold expand; cbn [flat_map app]. rewrite !app_nil_r.
    pose proof (merge_layout t1 t2 [] C1) as M. rewrite !app_nil_r in M.
    apply M. destruct (str_code (t_code t1)); [discriminate|reflexivity].
  - unfold foldable in H. rewrite split_last_app in H.
    apply code_eqb_eq in C1. rewrite C1 in H. cbn in *.
    destruct (str_code (t_code t1)); discriminate.
Qed.

(** sequencing *)
Lemma pack_u_app : forall m a b off vs,
  pack_u m off (a ++ b) vs =
  match pack_u m off a vs with
  | (x, Some e) => (x, Some e)
  | (x, None) => let (y, e) := pack_u m (off + List.length x) b (skipn (nvals_u a) vs) in (x ++ y, e)
  end.
Proof.
  induction a; intros b off vs; cbn [app].
  - cbn. rewrite Nat.add_0_r. destruct (pack_u m off b vs). reflexivity.
  - cbn [pack_u].
    destruct (pack_unit m off a vs) as [[x vs']|] eqn:E; [|reflexivity].
    rewrite IHa. destruct (pack_u m (off + List.length x) a0 vs') as [y [e|]] eqn:E2; [reflexivity|].
    rewrite app_length, Nat.add_assoc.
    replace (skipn (nvals_u a0) vs') with (skipn (nvals_u (a :: a0)) vs).
    + destruct (pack_u _ _ b _). now rewrite app_assoc.
    + unfold nvals_u. destruct a; cbn in *.
      * now injection E as <- <-.
      * now injection E as <- <-.
      * destruct vs as [|[] ?]; try discriminate. now injection E as <- <-.
      * destruct vs as [|[] ?]; try discriminate. now injection E as <- <-.
      * destruct vs; [discriminate|]. destruct (pack_val m c v); [|discriminate]. now injection E as <- <-.
Qed.

Lemma unpack_u_app : forall m a b off x,
  unpack_u m off (a ++ b) x =
  unpack_u m off a x ++ unpack_u m (off + size_u m off a) b (skipn (size_u m off a) x).
Proof.
  induction a; intros b off x; cbn [app].
  - cbn. now rewrite Nat.add_0_r.
  - cbn [unpack_u size_u]. rewrite IHa, Nat.add_assoc, skipn_skipn.
    destruct a; reflexivity.
Qed.

Lemma layout_eq_app_r : forall a b p, layout_eq a b -> layout_eq (a ++ p) (b ++ p).
Proof.
  intros a b p [N H]. split; [rewrite !nvals_u_app; congruence|].
  intros m off. destruct (H m off) as (S & P & U). repeat split.
  - rewrite !size_u_app, S. reflexivity.
  - intros vs. rewrite !pack_u_app, P, N. reflexivity.
  - intros x. rewrite !unpack_u_app, U, S. reflexivity.
Qed.

(** the format repeated n times *)
Definition repeat_fmt (f : fmt) (n : nat) : fmt := List.concat (repeat f n).

(** a format whose repetition never drops anything: one specifier, or ends that do not merge *)
Definition repeatable (f : fmt) : bool := foldable f f.

Lemma fold_last_code : forall acc f, f <> [] -> repeatable f = true ->
  option_map (fun p => t_code (snd p)) (split_last acc) = option_map (fun p => t_code (snd p)) (split_last f) ->
  option_map (fun p => t_code (snd p)) (split_last (fold_overlaps false acc f))
  = option_map (fun p => t_code (snd p)) (split_last f).
Proof.
  intros acc f NE R E. unfold fold_overlaps.
  destruct (split_last f) as [[p t]|] eqn:F; [|apply split_last_none in F; contradiction].
  apply split_last_some in F as ->.
  destruct (split_last acc) as [[pa ta]|] eqn:A; [|discriminate].
  cbn in E. injection E as E.
  assert (X : option_map (fun q => t_code (snd q)) (split_last (acc ++ p ++ [t])) = Some (t_code t)).
  { rewrite app_assoc, split_last_app. reflexivity. }
  destruct (p ++ [t]) as [|t2 g] eqn:P; [destruct p; discriminate|].
  destruct (_ && _) eqn:C.
  - rewrite split_last_app. cbn. now rewrite E.
  - rewrite X. reflexivity.
Qed.

Lemma fold_repeat_layout : forall f, repeatable f = true -> forall n acc,
  option_map (fun p => t_code (snd p)) (split_last acc) = option_map (fun p => t_code (snd p)) (split_last f) ->
  layout_eq (expand (fold_repeat false acc f n)) (expand (acc ++ repeat_fmt f n)).
Proof.
  intros f R n. induction n; intros acc E.
  - cbn. rewrite app_nil_r. apply layout_eq_refl.
  - cbn [fold_repeat].
    destruct f as [|t f0] eqn:F.
    + assert (repeat_fmt [] (S n) = []) as ->.
      { unfold repeat_fmt. clear. induction n; cbn in *; auto. }
      assert (fold_overlaps false acc [] = acc) as ->.
      { unfold fold_overlaps. destruct (split_last acc) as [[? ?]|]; now rewrite app_nil_r. }
      eapply layout_eq_trans; [apply IHn; assumption|].
      assert (repeat_fmt [] n = []) as ->.
      { unfold repeat_fmt. clear. induction n; cbn in *; auto. }
      apply layout_eq_refl.
    + rewrite <- F in *. assert (f <> []) by (rewrite F; discriminate).
      eapply layout_eq_trans; [apply IHn; now apply fold_last_code|].
      unfold repeat_fmt. cbn [repeat List.concat]. rewrite app_assoc, !expand_app.
      apply layout_eq_app_r. rewrite <- expand_app. apply fold_layout.
      unfold repeatable, foldable in R |- *. rewrite F in R |- *.
      destruct f0; [reflexivity|]. rewrite <- F in *.
      destruct (split_last acc) as [[pa ta]|], (split_last f) as [[pf tf]|]; cbn in E; try discriminate; try reflexivity.
      injection E as ->. exact R.
Qed.

(** [st * n] for [n >= 1] *)
Lemma mul_layout : forall bo f n, repeatable f = true -> 1 <= n ->
  exists g, ss_mul (SS bo f None) n = Ok (Some (SS bo g None)) /\
            layout_eq (expand g) (expand (repeat_fmt f (Z.to_nat n))).
Proof.
  intros bo f n R Hn. unfold ss_mul, ss_mul_impl.
  destruct (n =? 0) eqn:Z0; [lia|]. destruct (n <? 0) eqn:ZN; [lia|].
  destruct (n =? 1) eqn:Z1.
  - cbn. exists f. split; [reflexivity|]. assert (n = 1) by lia. subst n.
    unfold repeat_fmt. change (Z.to_nat 1) with 1%nat. cbn [repeat List.concat]. rewrite app_nil_r. apply layout_eq_refl.
  - cbn. eexists. split; [reflexivity|].
    eapply layout_eq_trans; [apply fold_repeat_layout; auto|].
    unfold repeat_fmt. replace (Z.to_nat n) with (S (Z.to_nat n - 1)) at 2 by lia.
    cbn. apply layout_eq_refl.
Qed.

(** [st @ n]: a single counted specifier *)
Lemma fold_repeat_single : forall c n k, fold_repeat true [T (Some (S n)) c] [T None c] k
  = [T (Some (S n + k)%nat) c].
Proof.
  intros c n k. revert n. induction k; intros n; cbn [fold_repeat].
  - now rewrite Nat.add_0_r.
  - unfold fold_overlaps. cbn [split_last t_code].
    assert (code_eqb c c = true) as -> by now apply code_eqb_eq.
    cbn [andb orb app cnt t_cnt]. replace (S n + 1)%nat with (S (S n)) by lia.
    rewrite IHk. f_equal. f_equal. f_equal. lia.
Qed.

Lemma matmul_single : forall bo c n, 2 <= n ->
  ss_matmul (SS bo [T None c] None) n = Ok (Some (SS bo [T (Some (Z.to_nat n)) c] None)).
Proof.
  intros bo c n H. unfold ss_matmul, ss_mul_impl.
  destruct (n =? 0) eqn:Z0; [lia|]. destruct (n <? 0) eqn:ZN; [lia|]. destruct (n =? 1) eqn:Z1; [lia|].
  cbn [s_fmt s_bo s_act]. do 3 f_equal.
  replace (Z.to_nat n - 1)%nat with (S (Z.to_nat n - 2)) by lia. cbn [fold_repeat].
  unfold fold_overlaps . cbn [split_last t_code].
  assert (code_eqb c c = true) as -> by now apply code_eqb_eq.
  cbn [andb orb app cnt t_cnt]. change (1 + 1)%nat with 2%nat.
  rewrite fold_repeat_single. f_equal. f_equal. f_equal. lia.
Qed.

(** always the layout of one counted specifier *)
Lemma matmul_char : forall bo c n, 1 <= n -> exists t,
  ss_matmul (SS bo [T None c] None) n = Ok (Some (SS bo [t] None)) /\
  expand [t] = expand [T (Some (Z.to_nat n)) c] /\ t_code t = c /\ cnt t = Z.to_nat n.
Proof.
  intros bo c n H. destruct (Z.eq_dec n 1) as [->|].
  - exists (T None c). repeat split.
  - eexists. split; [apply matmul_single; lia|]. repeat split.
Qed.

(** ** actions *)
Definition ss_wf (s : sspec) : bool :=
  match s_act s with None => true | Some acts => Nat.eqb (List.length acts) (ss_nvals s) end.

(** the action of value number i, [noop_action] for plain serializers *)
Definition acts_of (s : sspec) : list action :=
  match s_act s with None => repeat noop_action (ss_nvals s) | Some acts => acts end.

Lemma apply_actions_app : forall a1 a2 v1 v2, List.length a1 = List.length v1 ->
  apply_actions (a1 ++ a2) (v1 ++ v2) =
  (rdo x <- apply_actions a1 v1; rdo y <- apply_actions a2 v2; Ok (x ++ y)).
Proof.
  induction a1; intros a2 [|v v1] v2 H; try discriminate; cbn.
  - destruct (apply_actions a2 v2); reflexivity.
  - destruct (a v); [|reflexivity]. cbn. rewrite IHa1 by (cbn in H; lia).
    destruct (apply_actions a1 v1); [|reflexivity]. cbn.
    destruct (apply_actions a2 v2); reflexivity.
Qed.

Lemma apply_noop : forall vs n, (List.length vs <= n)%nat -> apply_actions (repeat noop_action n) vs = Ok vs.
Proof.
  induction vs; intros [|n] H; cbn in *; try lia; [reflexivity | reflexivity |].
  rewrite IHvs by lia. reflexivity.
Qed.

Lemma ss_act_of : forall s vs, List.length vs = ss_nvals s -> ss_act s vs = apply_actions (acts_of s) vs.
Proof.
  intros s vs H. unfold ss_act, acts_of. destruct (s_act s); [reflexivity|].
  rewrite apply_noop by lia. reflexivity.
Qed.

Lemma acts_of_length : forall s, ss_wf s = true -> List.length (acts_of s) = ss_nvals s.
Proof.
  intros s H. unfold acts_of, ss_wf in *. destruct (s_act s); [lia | apply repeat_length].
Qed.

Lemma mk_action_exact : forall bo f acts, List.length acts = nvals f -> mk_action bo f acts = SS bo f (Some acts).
Proof.
  intros bo f acts H. unfold mk_action. rewrite H, Nat.sub_diag. cbn. now rewrite app_nil_r.
Qed.

(** joining keeps every action attached to its own value *)
Lemma add_acts : forall a b s, ss_wf a = true -> ss_wf b = true ->
  foldable (s_fmt a) (s_fmt b) = true -> ss_add a b = Ok s ->
  ss_wf s = true /\ ss_nvals s = (ss_nvals a + ss_nvals b)%nat /\
  (s_act s = None /\ s_act a = None /\ s_act b = None \/ acts_of s = acts_of a ++ acts_of b).
Proof.
  intros a b s WA WB F H.
  destruct (fold_layout _ _ F) as [N _]. rewrite expand_app, nvals_u_app in N.
  fold (nvals (fold_overlaps false (s_fmt a) (s_fmt b))) in N.
  fold (nvals (s_fmt a)) (nvals (s_fmt b)) in N.
  pose proof (acts_of_length _ WA) as LA. pose proof (acts_of_length _ WB) as LB.
  unfold ss_nvals in *. unfold ss_add in H.
  destruct (s_act a) as [aa|] eqn:EA, (s_act b) as [ab|] eqn:EB.
  - assert (LL : List.length (aa ++ ab) = nvals (fold_overlaps false (s_fmt a) (s_fmt b))).
    { unfold acts_of in LA, LB. rewrite EA in LA. rewrite EB in LB. rewrite app_length. lia. }
    rewrite mk_action_exact in H by exact LL. injection H as <-. cbn.
    unfold ss_wf, ss_nvals; cbn. repeat split; try lia.
    right. unfold acts_of. rewrite EA, EB. reflexivity.
  - injection H as <-. unfold acts_of in LA. rewrite EA in LA.
    unfold ss_wf, ss_nvals, acts_of, mk_action; cbn. rewrite EA, EB, N, LA, app_length, repeat_length.
    repeat split; try lia. right. do 2 f_equal. unfold ss_nvals. lia.
  - assert (LL : List.length (repeat noop_action (nvals (s_fmt a)) ++ ab) = nvals (fold_overlaps false (s_fmt a) (s_fmt b))).
    { unfold acts_of in LB. rewrite EB in LB. rewrite app_length, repeat_length. lia. }
    unfold ss_nvals in H. rewrite mk_action_exact in H by exact LL. injection H as <-. cbn.
    unfold ss_wf, ss_nvals; cbn. repeat split; try lia.
    right. unfold acts_of. rewrite EA, EB. reflexivity.
  - destruct (border_eqb _ _); [|discriminate]. injection H as <-. cbn.
    unfold ss_wf, ss_nvals; cbn. repeat split; try lia. left. auto.
Qed.

Lemma add_act_values : forall a b s va vb, ss_wf a = true -> ss_wf b = true ->
  foldable (s_fmt a) (s_fmt b) = true -> ss_add a b = Ok s ->
  List.length va = ss_nvals a -> List.length vb = ss_nvals b ->
  ss_act s (va ++ vb) = (rdo x <- ss_act a va; rdo y <- ss_act b vb; Ok (x ++ y)).
Proof.
  intros a b s va vb WA WB F H La Lb.
  destruct (add_acts a b s WA WB F H) as (WS & NS & [(E1 & E2 & E3)|E]).
  - unfold ss_act. rewrite E1, E2, E3. reflexivity.
  - rewrite !ss_act_of; try assumption; [|rewrite app_length; lia].
    rewrite E. apply apply_actions_app. rewrite acts_of_length by assumption. lia.
Qed.

Lemma nvals_repeat : forall f n, nvals (repeat_fmt f n) = (n * nvals f)%nat.
Proof.
  intros f n. unfold repeat_fmt. induction n; [reflexivity|].
  cbn [repeat List.concat]. unfold nvals in *. rewrite expand_app, nvals_u_app, IHn. reflexivity.
Qed.

(** [st * n] for an action serializer: the actions are repeated with the values *)
Lemma mul_action_layout : forall bo f acts n, repeatable f = true -> 1 <= n ->
  exists g, ss_mul (SS bo f (Some acts)) n =
              Ok (Some (SS bo g (Some (List.concat (repeat acts (Z.to_nat n)))))) /\
            layout_eq (expand g) (expand (repeat_fmt f (Z.to_nat n))).
Proof.
  intros bo f acts n R Hn.
  destruct (mul_layout bo f n R Hn) as (g & E & L). exists g. split; [|exact L].
  unfold ss_mul, ss_mul_impl in *.
  destruct (n =? 0) eqn:Z0; [lia|]. destruct (n <? 0) eqn:ZN; [lia|]. destruct (n =? 1) eqn:Z1.
  - cbn in E |- *. now injection E as <-.
  - cbn in E |- *. now injection E as <-.
Qed.
