(** C42: what the fragment leaves out is not read back.  Each program below runs without error; an instance with values
    of the annotated types does not survive packing and unpacking.  (Other parts of the fragment:
    [C17_unpack_from_size_refuted], [C23_native_refuted], [C24_array_refuted], [C14_union_default_refuted].) *)
From Verif Require Import Base Floats Value StructMod Format Ser Exec Pure BaseFacts SerFacts User Sample
  Hints HintFacts Surface Programs PropsProgram.
Open Scope string_scope. Open Scope list_scope. Open Scope Z_scope.

Definition some_idf (k : nat) (p : list nat) : nat := (1000 + 100 * k + fold_right (fun x n => x + 7 * n) 0 p)%nat.
Definition some_fac (k : akind) (a : list pyh) : nat := match k with AkChar => 1 | AkArray => 2 | _ => 3 end%nat.
(** the classes after running a program, if it runs *)
Definition after_run {A} (prog : list stmt) (f : (nat -> option cdef) -> A) : option A :=
  match run some_idf some_fac [] 0 prog with Ok l => Some (f (classes l)) | Err _ => None end.
Definition one_class (body : list (string * hx)) := [Stmt body None BO_DEFAULT STRICT false].
(** pack, then [create_unpack] of the bytes *)
Definition trip (v : value) (ct : nat -> option cdef) : res bytes * res value :=
  let r := fst (Structured_pack false ct 9 v clean) in
  (r, rdo b <- r; match v with VObj c _ _ => fst (create_unpack false ct 9 c b clean) | _ => Err TypeError end).

(** class A: t: tuple[char[uint8], uint8]; n: uint8.  Packing is right; reading gives a generator that was never
    started instead of the tuple (tuples.py:58-67), and, as it has consumed nothing, [n] is read from the start. *)
Theorem C42_tuple_refuted :
  after_run (one_class [("t", XTuple [XChar (KUint CB); XBasic CB]); ("n", XBasic CB)])
    (trip (VObj 0 None [("t", VTuple [VBytes [x61; x62]; VInt 7]); ("n", VInt 9)]))
  = Some (Ok [x02; x61; x62; x07; x09], Ok (VObj 0 None [("t", VGen); ("n", VInt 2)])).
Proof. vm_compute. reflexivity. Qed.
Print Assumptions C42_tuple_refuted.

(** class A: k: uint8; l: array[Header[uint8], Annotated[Union[uint8, Self], LookbackDecider(k, 0: uint8, 1: Self)]].
    The items share one union serializer, and an inner object replaces the object it decides by (unions.py:70-76,
    arrays.py:111, 125, 141, 154, 167): after the first item the key of the inner object is used. *)
Definition shared_union : list stmt := one_class
  [("k", XBasic CB); ("l", XArray (inr CB) None (XBack 0 [XBasic CB; XSelf] (fld "k") [(VInt 0, XBasic CB); (VInt 1, XSelf)] None))].
Definition shared_leaf : value := VObj 0 None [("k", VInt 0); ("l", VList [VInt 5])].
Theorem C42_shared_union_refuted :
  (* one item is fine *)
  after_run shared_union (trip (VObj 0 None [("k", VInt 1); ("l", VList [shared_leaf])]))
  = Some (Ok [x01; x01; x00; x01; x05], Ok (VObj 0 None [("k", VInt 1); ("l", VList [shared_leaf])])) /\
  (* two cannot be packed *)
  after_run shared_union (trip (VObj 0 None [("k", VInt 1); ("l", VList [shared_leaf; shared_leaf])]))
  = Some (Err StructError, Err StructError) /\
  (* and the bytes of two are read as something else, without error *)
  after_run shared_union (fun ct => fst (create_unpack false ct 9 0 [x01; x02; x00; x01; x05; x00; x01; x05] clean))
  = Some (Ok (VObj 0 None [("k", VInt 1); ("l", VList [shared_leaf; VInt 0])])).
Proof. repeat split; vm_compute; reflexivity. Qed.
Print Assumptions C42_shared_union_refuted.

(** a condition on a conditional type: prepack returns the inner ConditionalSerializer unprepared, whose methods are
    not implemented (conditional.py:66-70, api.py:98-149) *)
Theorem C42_condition_refuted :
  after_run (one_class [("n", XBasic CB); ("t", XCond (XCond (XBasic CB) (fld_is "n" 1) [VInt 0]) (fld_is "n" 1) [VInt 0])])
    (fun ct => (fst (trip (VObj 0 None [("n", VInt 1); ("t", VInt 3)]) ct), fst (create_unpack false ct 9 0 [x01; x03] clean)))
  = Some (Err NotImplementedError, Err NotImplementedError).
Proof. vm_compute. reflexivity. Qed.
Print Assumptions C42_condition_refuted.
