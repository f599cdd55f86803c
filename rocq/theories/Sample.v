(** A table of classes used to show that the hypotheses of the theorems are met by ordinary programs.
    Nothing here is about the repository; the classes are the following (host is little endian).

    class Point(Structured):                      # class 0
        x: int16
        y: int16
    class Node(Structured):                       # class 1
        kind: uint8
        name: unicode[uint8, latin1]
        opt: Annotated[uint32, Condition(lambda o: o.kind == 1, 7)]
        payload: uint16 | Point | bytes, by LookbackDecider(lambda o: o.kind, {0: uint16, 1: Point}, char[uint8])
        pts: array[Header[uint8, uint16], Point]
        kids: array[Header[uint8], Self]
        pair: tuple[int8, uint16]
    class Blob(Structured, byte_order=LE):        # class 2
        magic: char[4]
        count: uint32
        vals: array[Header[3], int16]
        text: char[b'\0']
        rest: char[math.inf]
    class Msg(Structured, byte_order=LE):         # class 3
        body: Ping | Data, by LookaheadDecider(uint8, lambda o: o.body.tag, {1: Ping, 2: Data})
        crc: uint32
    class Ping(Structured, byte_order=LE):        # class 4
        tag: uint8
        seq: uint16
    class Data(Structured, byte_order=LE):        # class 5
        tag: uint8
        vals: array[Header[uint8], Ping]
        net: char[NET]                                                                              *)
From Verif Require Import Base Floats Value StructMod Format Ser Exec.
Open Scope string_scope. Open Scope list_scope. Open Scope Z_scope.

(** a codec: code points below 256 *)
Fixpoint latin1_enc (s : list Z) : res bytes :=
  match s with
  | [] => Ok []
  | c :: s' => if (0 <=? c) && (c <? 256) then rmap (cons (bz c)) (latin1_enc s') else Err (UserError 1)
  end.
Definition latin1 : codec := Codec latin1_enc (fun b => Ok (map zb b)).

Definition fld (a : string) : decider := fun o =>
  match assoc a (p_attrs o) with Some v => Ok v | None => Err AttributeError end.
Definition fld_is (a : string) (z : Z) : decider := fun o =>
  rdo v <- fld a o; Ok (VBool (key_eqb v (VInt z))).
(** lambda o: getattr(o.a, b) *)
Definition fld2 (a b : string) : decider := fun o =>
  rdo v <- fld a o;
  match v with
  | VObj _ _ d => match assoc b d with Some v => Ok v | None => Err AttributeError end
  | _ => Err AttributeError
  end.

Definition st1 (bo : border) (c : code) : sspec := SS bo [T None c] None.
Definition sU8 := st1 BO_DEFAULT CB.
Definition sU16 := st1 BO_DEFAULT CH.

Definition Point : cdef := CD ["x"; "y"] (SStruct (SS BO_DEFAULT [T (Some 2%nat) Ch] None)) BO_DEFAULT false.

Definition Node : cdef := CD ["kind"; "name"; "opt"; "payload"; "pts"; "kids"; "pair"]
  (SCompound 10
     [ SStruct sU8;
       SUnicode (SDynChar 11 sU8) latin1;
       SCond (fld_is "kind" 1) (SStruct (st1 BO_DEFAULT CI)) [VInt 7];
       SLookback 12 (fld "kind") [(VInt 0, SStruct sU16); (VInt 1, SStructd 13 0)] (Some (SDynChar 11 sU8));
       SArray 15 (Some (SS BO_DEFAULT [T None CB; T None CH] None)) (SStructd 16 0) (-1);
       SArray 17 (Some sU8) (SSelf 18) (-1);
       STuple 19 (SStruct (SS BO_DEFAULT [T None Cb; T None CH] None)) ])
  BO_DEFAULT false.

Definition Blob : cdef := CD ["magic"; "count"; "vals"; "text"; "rest"]
  (SCompound 30
     [ SStruct (SS BO_LE [T (Some 4%nat) Cs; T None CI] None);
       SStaticArr 3 (st1 BO_LE Ch);
       STerm 31 x00;
       SConsume 32 ]) BO_LE true.

Definition Msg : cdef := CD ["body"; "crc"]
  (SCompound 40
     [ SLookahead 41 (SStruct (st1 BO_LE CB)) (fld2 "body" "tag")
         [(VInt 1, SStructd 42 4); (VInt 2, SStructd 43 5)] None;
       SStruct (st1 BO_LE CI) ]) BO_LE false.
Definition Ping : cdef := CD ["tag"; "seq"] (SStruct (SS BO_LE [T None CB; T None CH] None)) BO_LE false.
Definition Data : cdef := CD ["tag"; "vals"; "net"]
  (SCompound 44 [ SStruct (st1 BO_LE CB); SArray 45 (Some (st1 BO_LE CB)) (SStructd 47 4) (-1); SNet 46 ]) BO_LE false.

Definition table (c : nat) : option cdef :=
  match c with
  | 0 => Some Point | 1 => Some Node | 2 => Some Blob | 3 => Some Msg | 4 => Some Ping | 5 => Some Data
  | _ => None
  end%nat.
(** which serializer objects store the partial object while an instance is processed *)
Definition table_T (c id : nat) : bool :=
  match c with
  | 1 => existsb (Nat.eqb id) [12; 15; 17; 19]
  | 3 => Nat.eqb id 41 || Nat.eqb id 45
  | 5 => Nat.eqb id 45
  | _ => false
  end%nat.

Definition point (x y : Z) : value := VObj 0 None [("x", VInt x); ("y", VInt y)].
Definition leaf_node : value := VObj 1 None
  [ ("kind", VInt 0); ("name", VStr [65]); ("opt", VInt 7); ("payload", VInt 513);
    ("pts", VList []); ("kids", VList []); ("pair", VTuple [VInt (-1); VInt 2]) ].
Definition tree : value := VObj 1 None
  [ ("kind", VInt 1); ("name", VStr [72; 105; 255]); ("opt", VInt 99); ("payload", point 3 (-4));
    ("pts", VList [point 1 2; point 5 6]); ("kids", VList [leaf_node; leaf_node]);
    ("pair", VTuple [VInt 7; VInt 8]) ].
Definition blob : value := VObj 2 None
  [ ("magic", VBytes [x61; x62; x63; x64]); ("count", VInt 70000);
    ("vals", VList [VInt 1; VInt (-2); VInt 3]); ("text", VBytes [x68; x69]);
    ("rest", VBytes [x00; xff; x00]) ].
Definition ping : value := VObj 4 None [("tag", VInt 1); ("seq", VInt 500)].
Definition data : value := VObj 5 None
  [("tag", VInt 2); ("vals", VList [ping; ping]); ("net", VBytes (repeat x41 130))].
Definition msg (body : value) : value := VObj 3 None [("body", body); ("crc", VInt 305419896)].

(** a world in which every mutable field holds garbage left over from other calls *)
Definition dirty : world :=
  W (fun _ => 12345) (fun i => if Nat.even i then None else Some (PO 0 true [("kind", VNone)]))
    [x01; x02] [x09; x09; x09] 1.
Definition clean : world := W (fun _ => 0) (fun _ => None) [] [] 0.

(** the samples pack and unpack (tests, not proofs) *)
Example sample_tree : fst (Structured_pack false table 20 tree dirty) = Ok
  [x01; x03; x48; x69; xff; x63; x00; x00; x00; x03; x00; xfc; xff;
   x02; x00; x08; x00; x01; x00; x02; x00; x05; x00; x06; x00;
   x02; x00; x01; x41; x01; x02; x00; x00; x00; x00; x00; xff; x00; x02; x00;
       x00; x01; x41; x01; x02; x00; x00; x00; x00; x00; xff; x00; x02; x00;
   x07; x00; x08; x00].
Proof. vm_compute. reflexivity. Qed.
Example sample_tree_back :
  (rdo b <- fst (Structured_pack false table 20 tree dirty); fst (create_unpack false table 20 1 b dirty)) = Ok tree.
Proof. vm_compute. reflexivity. Qed.
Example sample_blob_back :
  (rdo b <- fst (Structured_pack false table 20 blob dirty); fst (create_unpack false table 20 2 b dirty)) = Ok blob.
Proof. vm_compute. reflexivity. Qed.
Example sample_msg_back :
  (rdo b <- fst (Structured_pack false table 20 (msg data) dirty);
   fst (create_unpack false table 20 3 b dirty)) = Ok (msg data).
Proof. vm_compute. reflexivity. Qed.
