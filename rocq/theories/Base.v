(** Common ground: exceptions as values, bytes, Python slicing, integer encoding.
    Everything here is Python / CPython platform behaviour, not code of the repository. *)
From Coq Require Export String Ascii.
From Coq Require Export ZArith NArith Lia Bool List.
From Coq Require Export Init.Byte Strings.Byte.
Export ListNotations.
Open Scope Z_scope.
Open Scope list_scope.

(** The exception classes the library (or the [struct] module) raises.
    [RecursionError] is the out-of-fuel value: CPython raises it when the recursion limit is hit.
    [UserError] is whatever a user supplied callable (decider, condition, action, codec) raises.
    [Unspecified] is not an exception: the model never raises it.  The stateless semantics of Pure.v uses
    it for values it does not speak about. *)
Inductive exn :=
| StructError | ValueError | TypeError | IndexError | KeyError | AttributeError
| OverflowError | NotImplementedError | RecursionError | UserError (tag : nat)
| Unspecified.

Inductive res (A : Type) := Ok (a : A) | Err (e : exn).
Arguments Ok {A} a.
Arguments Err {A} e.

Definition rbind {A B} (r : res A) (f : A -> res B) : res B :=
  match r with Ok a => f a | Err e => Err e end.
Definition rmap {A B} (f : A -> B) (r : res A) : res B :=
  match r with Ok a => Ok (f a) | Err e => Err e end.
Definition is_ok {A} (r : res A) : bool := match r with Ok _ => true | Err _ => false end.

Notation "'rdo' x <- r ; k" := (rbind r (fun x => k))
  (at level 200, x pattern, r at level 100, k at level 200).

Fixpoint rmapM {A B} (f : A -> res B) (l : list A) : res (list B) :=
  match l with
  | [] => Ok []
  | a :: l' => rdo b <- f a; rdo bs <- rmapM f l'; Ok (b :: bs)
  end.

(** ** Bytes *)
Notation bytes := (list byte).

Definition zb (b : byte) : Z := Z.of_N (Byte.to_N b).
Definition bz (z : Z) : byte :=
  match Byte.of_N (Z.to_N (z mod 256)) with Some b => b | None => x00 end.

Definition blen (b : bytes) : Z := Z.of_nat (List.length b).
Definition zeros (n : nat) : bytes := repeat x00 n.

(** little endian two's complement encoding of the low [8*n] bits *)
Fixpoint le_enc (n : nat) (z : Z) : bytes :=
  match n with
  | O => []
  | S k => bz z :: le_enc k (z / 256)
  end.
Fixpoint le_dec (l : bytes) : Z :=
  match l with
  | [] => 0
  | b :: r => zb b + 256 * le_dec r
  end.
Definition int_enc (big : bool) (n : nat) (z : Z) : bytes :=
  if big then rev (le_enc n z) else le_enc n z.
Definition int_dec (big : bool) (l : bytes) : Z :=
  le_dec (if big then rev l else l).
(** reinterpret an unsigned [8*n]-bit number as signed *)
Definition to_signed (n : nat) (u : Z) : Z :=
  if u <? 2 ^ (8 * Z.of_nat n - 1) then u else u - 2 ^ (8 * Z.of_nat n).

(** ** Python sequence indexing / slicing *)
Definition norm_idx (len i : Z) : Z :=
  if i <? 0 then Z.max 0 (i + len) else Z.min i len.
(** [l[a:b]] *)
Definition py_slice {A} (l : list A) (a b : Z) : list A :=
  let n := Z.of_nat (List.length l) in
  let a' := norm_idx n a in
  let b' := norm_idx n b in
  firstn (Z.to_nat (b' - a')) (skipn (Z.to_nat a') l).
(** [l[a:]] *)
Definition py_from {A} (l : list A) (a : Z) : list A :=
  skipn (Z.to_nat (norm_idx (Z.of_nat (List.length l)) a)) l.
(** [l[i]], [None] is IndexError *)
Definition py_index {A} (l : list A) (i : Z) : option A :=
  let n := Z.of_nat (List.length l) in
  let j := if i <? 0 then i + n else i in
  if (j <? 0) || (n <=? j) then None else nth_error l (Z.to_nat j).
(** [bytearray] slice assignment [l[a:b] = d] (may change the length) *)
Definition py_splice {A} (l : list A) (a b : Z) (d : list A) : list A :=
  let n := Z.of_nat (List.length l) in
  let a' := norm_idx n a in
  let b' := Z.max a' (norm_idx n b) in
  firstn (Z.to_nat a') l ++ d ++ skipn (Z.to_nat b') l.
(** overwrite a region of a fixed size buffer, [off] in range (C level memcpy) *)
Definition overwrite {A} (l : list A) (off : Z) (d : list A) : list A :=
  firstn (Z.to_nat off) l ++ d ++ skipn (Z.to_nat off + List.length d) l.

Fixpoint zipw {A B} (l : list A) (m : list B) : list (A * B) :=
  match l, m with
  | a :: l', b :: m' => (a, b) :: zipw l' m'
  | _, _ => []
  end.
