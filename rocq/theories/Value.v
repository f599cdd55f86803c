(** Python values flowing through the library, and byte orders. *)
From Verif Require Import Base Floats.

(** structured/base_types.py:15-27, enum [ByteOrder] (LE/BE are aliases) *)
Inductive border := BO_DEFAULT | BO_LE | BO_BE | BO_NSTD | BO_NNAT | BO_NET.
Definition border_eqb (a b : border) : bool :=
  match a, b with
  | BO_DEFAULT, BO_DEFAULT | BO_LE, BO_LE | BO_BE, BO_BE
  | BO_NSTD, BO_NSTD | BO_NNAT, BO_NNAT | BO_NET, BO_NET => true
  | _, _ => false
  end.

(** Python objects.  [VFloat] holds the binary64 bit pattern.  [VStr] is a list of code points.
    [VObj c ov attrs] is an instance of the Structured class number [c]; [ov] is the byte order set on
    the instance by [Structured.with_byte_order] (structured/structured.py:212-219), [attrs] its
    attribute dict.  [VWrap t v] is an instance of a user class [t] with [__index__]/[__float__]
    returning the number [v].  [VGen] is a suspended generator object (opaque). *)
Inductive value :=
| VNone
| VInt (z : Z)
| VBool (b : bool)
| VFloat (bits : Z)
| VBytes (b : bytes)
| VStr (s : list Z)
| VList (l : list value)
| VTuple (l : list value)
| VObj (c : nat) (ov : option border) (attrs : list (string * value))
| VWrap (tag : nat) (v : value)
| VGen.

(** [bool(v)] *)
Definition truthy (v : value) : bool :=
  match v with
  | VNone => false
  | VInt z => negb (z =? 0)
  | VBool b => b
  | VFloat b => negb (b mod 2 ^ 63 =? 0)
  | VBytes b => match b with [] => false | _ => true end
  | VStr s => match s with [] => false | _ => true end
  | VList l | VTuple l => match l with [] => false | _ => true end
  | VObj _ _ _ | VWrap _ _ | VGen => true
  end.

(** [operator.index(v)] *)
Fixpoint as_index (v : value) : option Z :=
  match v with
  | VInt z => Some z
  | VBool b => Some (if b then 1 else 0)
  | VWrap _ w => as_index w
  | _ => None
  end.

(** C [PyFloat_AsDouble] *)
Fixpoint as_float (v : value) : option Z :=
  match v with
  | VFloat b => Some b
  | VInt z => double_of_int z
  | VBool b => double_of_int (if b then 1 else 0)
  | VWrap _ w => as_float w
  | _ => None
  end.

(** [len(v)]; TypeError when there is no [__len__] *)
Definition py_len (v : value) : res nat :=
  match v with
  | VBytes b => Ok (List.length b)
  | VStr s => Ok (List.length s)
  | VList l | VTuple l => Ok (List.length l)
  | _ => Err TypeError
  end.

(** iterate a value ([*v], [for x in v]) *)
Definition py_iter (v : value) : res (list value) :=
  match v with
  | VList l | VTuple l => Ok l
  | VBytes b => Ok (map (fun x => VInt (zb x)) b)
  | VStr s => Ok (map (fun c => VStr [c]) s)
  | _ => Err TypeError
  end.

(** equality used for dictionary lookup of decision values (structured/serializers/unions.py:78-88):
    ints and bools compare numerically; [None] when the key is unhashable (TypeError).
    Simplification: floats, objects and wrapped values only match by representation, tuples are not
    looked into. *)
Definition hashable (v : value) : bool :=
  match v with VList _ | VTuple _ => false | VObj _ _ _ => false | _ => true end.
Fixpoint list_eqb {A} (eqb : A -> A -> bool) (l m : list A) : bool :=
  match l, m with
  | [], [] => true
  | a :: l', b :: m' => eqb a b && list_eqb eqb l' m'
  | _, _ => false
  end.
Definition key_eqb (a b : value) : bool :=
  match as_index a, as_index b with
  | Some x, Some y =>
      match a, b with
      | VWrap t _, VWrap u _ => Nat.eqb t u && (x =? y)
      | VWrap _ _, _ | _, VWrap _ _ => false
      | _, _ => x =? y
      end
  | _, _ =>
      match a, b with
      | VNone, VNone => true
      | VFloat x, VFloat y => x =? y
      | VBytes x, VBytes y => list_eqb Byte.eqb x y
      | VStr x, VStr y => list_eqb Z.eqb x y
      | _, _ => false
      end
  end.

(** attribute dict lookup *)
Fixpoint assoc {A} (k : string) (l : list (string * A)) : option A :=
  match l with
  | [] => None
  | (k', a) :: l' => if String.eqb k k' then Some a else assoc k l'
  end.
(** dict assignment, keeps the position of an existing key *)
Fixpoint assoc_set {A} (k : string) (a : A) (l : list (string * A)) : list (string * A) :=
  match l with
  | [] => [(k, a)]
  | (k', a') :: l' => if String.eqb k k' then (k, a) :: l' else (k', a') :: assoc_set k a l'
  end.
