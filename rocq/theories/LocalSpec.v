(** Which class statements give readers that look only at the bytes they use, and that notice the end of the bytes.
    Locals.v proves that they do. *)
From Verif Require Import Base Floats Value StructMod Format Ser Exec Pure Wire Hints Surface Programs Accept AcceptProg WireSpec.

Section Expressions.
Variable md : umode.
(** The bytes cannot end before the field does.  [unpack] takes what is left for a counted string or a .NET string, and
    [unpack_read] for a .NET string (structured/serializers/strings.py:107-116,309-319,335-359).  [P]: the classes known to be so;
    [self]: the class at hand is *)
Definition tight_string (a : carg) : bool :=
  match a, md with KUint _, UBuf | KNet, UBuf | KNet, URead => false | _, _ => true end.
Fixpoint tight (P : nat -> bool) (self : bool) (x : hx) : bool :=
  match x with
  | XChar a | XUnicode a _ => tight_string a
  | XArray _ _ y | XCond y _ _ | XAs _ y => tight P self y
  | XTuple l => forallb (tight P self) l
  | XBack _ _ _ m d | XAhead _ _ _ _ m d => forallb (fun p => tight P self (snd p)) m && match d with Some y => tight P self y | None => true end
  | XClass c => P c
  | XSelf => self
  | _ => true
  end.
(** Nothing reads to the end.  [ahead]: unions that read their key ahead are allowed; they look at bytes that the member
    need not use (structured/serializers/unions.py:209-232). *)
Variable P : nat -> bool.
Variable ahead : bool.
Fixpoint closed (x : hx) : bool :=
  match x with
  | XChar KInf | XUnicode KInf _ => false
  | XArray _ _ y | XCond y _ _ | XAs _ y => closed y
  | XTuple l => forallb closed l
  | XBack _ _ _ m d => forallb (fun p => closed (snd p)) m && match d with Some y => closed y | None => true end
  | XAhead _ _ ra _ m d =>
      ahead && tight (fun _ => false) false ra && closed ra && forallb (fun p => closed (snd p)) m && match d with Some y => closed y | None => true end
  | XClass c => P c
  | _ => true
  end.
End Expressions.
(** the fields of the classes of [P] are so, and their classes are in [P] *)
Definition within_classes (ok : hx -> bool) (P : nat -> bool) (sl : list sclass) : Prop :=
  forall c sc, nth_error sl c = Some sc -> P c = true -> forallb (fun p => ok (snd p)) (fields_of (sc_anns sc)) = true.
(** no read-to-end fields *)
Definition closes (md : umode) (ahead : bool) (P : nat -> bool) (sl : list sclass) : Prop := within_classes (closed md P ahead) P sl.
(** the end of the bytes is noticed *)
Definition notices (md : umode) (P : nat -> bool) (sl : list sclass) : Prop := within_classes (tight md P true) P sl.

(** The three methods read the same.  An empty counted string is no value for unpack_from and unpack_read (C18): as a
    field that is noticed, in a tuple or an array it is not. *)
Fixpoint surface (x : hx) : bool :=
  match x with
  | XChar (KUint _) => true
  | XCond y _ _ | XAs _ y => surface y
  | XBack _ _ _ m d | XAhead _ _ _ _ m d => existsb (fun p => surface (snd p)) m || match d with Some y => surface y | None => false end
  | _ => false
  end.
Section Even.
(** the method that has read the bytes *)
Variable md : umode.
Variable P : nat -> bool.
Definition even_string (a : carg) : bool := match a, md with KUint _, UBuf => false | _, _ => true end.
Fixpoint even (x : hx) : bool :=
  match x with
  | XChar a | XUnicode a _ => even_string a
  | XArray _ _ y => negb (surface y) && even y
  | XTuple l => forallb (fun y => negb (surface y) && even y) l
  | XCond y _ _ | XAs _ y => even y
  | XBack _ _ _ m d => forallb (fun p => even (snd p)) m && match d with Some y => even y | None => true end
  | XAhead _ _ ra _ m d =>
      tight md (fun _ => false) false ra && even ra && forallb (fun p => even (snd p)) m && match d with Some y => even y | None => true end
  | XClass c => P c
  | _ => true
  end.
End Even.
Definition evens (md : umode) (P : nat -> bool) (sl : list sclass) : Prop := within_classes (even md P) P sl.
