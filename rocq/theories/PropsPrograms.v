(** Properties C03, C06, C07 and C38 for programs of class statements (PropsProgram.v): what they ask of the serializers is derived from the statements. *)
From Verif Require Import Base Floats Value StructMod Format Ser Exec Pure BaseFacts SerFacts RefPack RefUnpack User Fuel DecFacts Sample
  Canon RoundTrip PropsRoundTrip PropsIO Wire Hints HintFacts Surface SerShape Programs ProgramFacts PropsProgram.
Open Scope string_scope. Open Scope list_scope. Open Scope Z_scope.

(** the three packing methods agree *)
Theorem C03_program : forall hb md idf fac prog l n v w, program md idf fac prog l -> conforms hb (classes l) Nat.eqb n v ->
  match fst (Structured_pack hb (classes l) n v w) with
  | Err e => (0 <= w_pos w <= blen (w_data w) -> fst (Structured_pack_write hb (classes l) n v w) = Err e) /\
      forall off, 0 <= off -> is_ok (fst (Structured_pack_into hb (classes l) n v off w)) = false
  | Ok b =>
      (forall pre rest, w_data w = pre ++ rest -> w_pos w = blen pre ->
        fst (Structured_pack_write hb (classes l) n v w) = Ok [] /\
        w_data (snd (Structured_pack_write hb (classes l) n v w)) = pre ++ b ++ skipn (List.length b) rest /\
        w_pos (snd (Structured_pack_write hb (classes l) n v w)) = blen (pre ++ b)) /\
      (forall pre old rest, w_buf w = pre ++ old ++ rest -> List.length old = List.length b ->
        fst (Structured_pack_into hb (classes l) n v (blen pre) w) = Ok [] /\
        w_buf (snd (Structured_pack_into hb (classes l) n v (blen pre) w)) = pre ++ b ++ rest)
  end.
Proof.
  intros hb md idf fac prog l n v w P CF. pose proof (C42_healthy _ _ _ _ _ P) as H.
  destruct (fst (Structured_pack hb (classes l) n v w)) as [b|e] eqn:E; split.
  - intros pre rest D Q. pose proof (C03_pack_write_agrees hb (classes l) Nat.eqb n v w H CF) as A. cbv zeta in A. rewrite E in A.
    destruct A as (A1 & _ & A2 & A3); [rewrite Q, D, blen_app; pose proof (blen_nonneg pre); pose proof (blen_nonneg rest); lia|].
    split; [exact A1|]. rewrite A2, A3, Q, D, blen_app. unfold blen at 1 2. rewrite !Nat2Z.id, firstn_app_len, skipn_app, skipn_all2 by lia. cbn [app].
    split; [|reflexivity]. do 3 f_equal. lia.
  - intros pre old rest D L. pose proof (C03_pack_into_agrees hb (classes l) Nat.eqb n v (blen pre) w H CF (blen_nonneg pre)) as A. cbv zeta in A. rewrite E in A.
    destruct A as (A1 & _ & _ & A3); [rewrite D, !blen_app; pose proof (blen_nonneg rest); unfold blen in *; lia|].
    split; [exact A1|]. rewrite A3, D. unfold blen at 1 2. rewrite !Nat2Z.id, firstn_app_len. do 2 f_equal. rewrite app_assoc, <- L, <- app_length. apply skipn_app_len.
  - intros Q. pose proof (C03_pack_write_agrees hb (classes l) Nat.eqb n v w H CF Q) as A. cbv zeta in A. now rewrite E in A.
  - intros off Q. pose proof (C03_pack_into_agrees hb (classes l) Nat.eqb n v off w H CF Q) as A. cbv zeta in A. now rewrite E in A.
Qed.
Print Assumptions C03_program.
(** the size reported after a call is the number of bytes *)
Theorem C06_program : forall hb md idf fac prog l n c ov d k w, program md idf fac prog l -> conforms hb (classes l) Nat.eqb n (VObj c ov d) -> kok k w ->
  is_ok (fst (do_pack hb (classes l) n (VObj c ov d) k w)) = true ->
  exists b, fst (Structured_pack hb (classes l) n (VObj c ov d) w) = Ok b /\
    fst (obj_size hb (classes l) c ov (snd (do_pack hb (classes l) n (VObj c ov d) k w))) = Ok (blen b).
Proof.
  intros hb md idf fac prog l n c ov d k w P CF K. apply (C06_size_after_packing hb (classes l) Nat.eqb); auto; [exact (C42_healthy _ _ _ _ _ P)|].
  destruct P as [_ _ _ Z _]. unfold csized. destruct (classes l c) eqn:C; [eapply Z; exact C|reflexivity].
Qed.
Print Assumptions C06_program.
Theorem C06_program_read : forall hb idf fac prog l n c w v, program URead idf fac prog l -> 0 <= w_pos w <= blen (w_data w) ->
  fst (create_unpack_read hb (classes l) n c w) = Ok v ->
  let w' := snd (create_unpack_read hb (classes l) n c w) in
  exists k, fst (obj_size hb (classes l) c None w') = Ok k /\ 0 <= k /\ (w_pos w + k <= blen (w_data w) -> w_pos w' = w_pos w + k).
Proof.
  intros hb idf fac prog l n c w v P. apply (C06_size_after_read hb (classes l) Nat.eqb); [exact (C42_healthy _ _ _ _ _ P)|exact (proj1 (C42_reads_back hb _ _ _ _ _ P))|].
  destruct P as [_ _ _ Z _]. unfold csized. destruct (classes l c) eqn:C; [eapply Z; exact C|reflexivity].
Qed.
Print Assumptions C06_program_read.
(** objects of any classes that do not read to the end, written one after the other into the middle of any stream, are read back *)
Theorem C07_program : forall hb idf fac prog l n m vs w w1 w2, program URead idf fac prog l ->
  Forall (canonical hb (classes l) Nat.eqb URead n) vs -> Forall (conforms hb (classes l) Nat.eqb n) vs -> (n <= m)%nat ->
  Forall (fun v => fin_of l (PropsRoundTrip.class_of v) = false) vs -> 0 <= w_pos w <= blen (w_data w) ->
  write_all hb (classes l) n vs w = (Ok tt, w1) -> w_data w2 = w_data w1 -> w_pos w2 = w_pos w ->
  fst (read_all hb (classes l) m (map PropsRoundTrip.class_of vs) w2) = Ok vs /\ w_pos (snd (read_all hb (classes l) m (map PropsRoundTrip.class_of vs) w2)) = w_pos w1.
Proof.
  intros hb idf fac prog l n m vs w w1 w2 P CN CF NM FV.
  apply (C07_stream_of_objects hb (classes l) Nat.eqb (fun d => negb (fin_of l d))); auto; [exact (C42_healthy _ _ _ _ _ P)|exact (C42_reads_back hb _ _ _ _ _ P)|].
  eapply Forall_impl; [|exact FV]. intros v E. cbv beta in E |- *. now rewrite E.
Qed.
Print Assumptions C07_program.
(** two instances never share their bytes, nor does one begin with the other *)
Theorem C38_program : forall hb idf fac prog l n c d1 d2 w1 w2 b rest, program UBuf idf fac prog l -> fin_of l c = false ->
  canonical hb (classes l) Nat.eqb UBuf n (VObj c None d1) -> conforms hb (classes l) Nat.eqb n (VObj c None d1) ->
  canonical hb (classes l) Nat.eqb UBuf n (VObj c None d2) -> conforms hb (classes l) Nat.eqb n (VObj c None d2) ->
  fst (Structured_pack hb (classes l) n (VObj c None d1) w1) = Ok b -> fst (Structured_pack hb (classes l) n (VObj c None d2) w2) = Ok (b ++ rest) ->
  d1 = d2 /\ rest = [].
Proof.
  intros hb idf fac prog l n c d1 d2 w1 w2 b rest P F. apply (C38_unambiguous hb (classes l) Nat.eqb (fun d => negb (fin_of l d)));
    [exact (C42_healthy _ _ _ _ _ P)|exact (C42_reads_back hb _ _ _ _ _ P)|now rewrite F].
Qed.
Print Assumptions C38_program.
(** The hypotheses are met: a forest of the tree of C42_nontrivial, written over the middle of a stream and read back; and packed into the middle of a buffer. *)
Example programs_nontrivial :
  (forall md, program md sample_idf sample_fac sample_prog sample_classes) /\ fin_of sample_classes (PropsRoundTrip.class_of tree) = false /\
  (forall md, Forall (canonical false (classes sample_classes) Nat.eqb md 10) [tree; tree]) /\
  Forall (conforms false (classes sample_classes) Nat.eqb 10) [tree; tree] /\
  match fst (Structured_pack false (classes sample_classes) 10 tree dirty), write_all false (classes sample_classes) 10 [tree; tree] (W (fun _ => 4) (fun _ => None) [] [x10; x11; x12] 2) with
  | Ok b, (Ok _, w1) => w_data w1 = [x10; x11] ++ b ++ b /\
      fst (obj_size false (classes sample_classes) 1 None (snd (do_pack false (classes sample_classes) 10 tree KPack dirty))) = Ok (blen b) /\
      fst (read_all false (classes sample_classes) 10 [1; 1]%nat (W (fun _ => 5) (fun _ => None) [] (w_data w1) 2)) = Ok [tree; tree]
  | _, _ => False
  end.
Proof.
  destruct C42_nontrivial as (P & F & _ & C & CF & _). split; [exact P|]. split; [exact F|]. split; [intros md; repeat (apply Forall_cons; [apply C|]); apply Forall_nil|].
  split; [repeat (apply Forall_cons; [exact CF|]); apply Forall_nil|]. vm_compute. repeat split.
Qed.
