(** Which class statements lose nothing when reading: every bit of the bytes shows up in the values (on hint expressions; C36 has
    it on serializers).  Backs.v proves that the layout (WireSpec.v) of what was read (ReadSpec.v) is the bytes read. *)
From Verif Require Import Base Floats Value StructMod Format Ser Exec Pure Wire Hints Surface Programs Accept AcceptProg WireSpec PackSpec ReadSpec LocalSpec.
Open Scope list_scope. Open Scope Z_scope.

(** no gap in front of a field of alignment [w] *)
Definition flush (aligned : bool) (w off : nat) : bool := if aligned then ((w - off mod w) mod w =? 0)%nat else true.
Definition here (r : option nat) : bool := match r with Some _ => true | None => false end.

Section Bits.
Variable md : umode.
Variable P : nat -> bool.
(** there is a value for every item: an empty counted string is none, except for [unpack] (C18) *)
Definition single (y : hx) : bool := match md with UBuf => true | _ => negb (surface y) end.
(** The offset of the next field in the run, if all is well.  Left out: booleans (any byte that is not zero is True), paddings,
    Pascal strings, .NET strings (two forms of a length), text (trailing NULs are dropped), conversions, and unions that read their key ahead (the
    writer asks the decider instead).  [aligned]: native order. *)
Fixpoint bits (aligned : bool) (x : hx) (off : nat) {struct x} : option nat :=
  match x with
  | XBasic c => match c with
                | Cbool => None
                | _ => if basic_code c && flush aligned (wsize c) off then Some (off + wsize c)%nat else None
                end
  | XChar (KInt n) => if 0 <? n then Some (off + Z.to_nat n)%nat else None
  | XChar (KUint c) => if size_code c then Some 0%nat else None
  | XChar (KBytes _) | XChar KInf => Some 0%nat
  | XArray n sz y =>
      let h := match n with inr c => wsize c | inl _ => 0%nat end in
      if match n with inl z => 0 <=? z | inr c => size_code c end
         && match sz with None => true | Some c => size_code c && flush aligned (wsize c) h end
         && single y && negb (packed y && negb (flush aligned (width y) h)) && here (bits aligned y 0)
      then Some 0%nat else None
  | XTuple l =>
      if (fix go l off := match l with
                          | [] => true
                          | y :: l' => single y && match bits true y off with Some off' => go l' off' | None => false end
                          end) l 0%nat
      then Some 0%nat else None
  | XCond y _ d => if Nat.eqb (List.length d) 1 && here (bits aligned y 0) then Some 0%nat else None
  | XBack _ _ _ m d =>
      if forallb (fun p => here (bits true (snd p) 0)) m && match d with Some y => here (bits true y 0) | None => true end
      then Some 0%nat else None
  | XClass c => if P c then Some 0%nat else None
  | XSelf => Some 0%nat
  | _ => None
  end.
(** the fields of a class *)
Fixpoint bits_fields (aligned : bool) (l : list (string * hx)) (off : nat) : bool :=
  match l with
  | [] => true
  | p :: l' => match bits aligned (snd p) off with Some off' => bits_fields aligned l' off' | None => false end
  end.
End Bits.
(** Conditions and deciders answer from the fields read before them: with more fields known they answer the same. *)
Definition answers (f : decider) : Prop := forall c px px' d d' r,
  (forall a v, assoc a d = Some v -> assoc a d' = Some v) -> f (PO c px d) = Ok r -> f (PO c px' d') = Ok r.
Fixpoint answering (x : hx) : Prop :=
  match x with
  | XArray _ _ y | XAs _ y => answering y
  | XTuple l => (fix go l := match l with [] => True | y :: l' => answering y /\ go l' end) l
  | XCond y f _ => answers f /\ answering y
  | XBack _ _ f m d | XAhead _ _ _ f m d =>
      answers f /\ (fix go m := match m with [] => True | p :: m' => answering (snd p) /\ go m' end) m /\
      match d with Some y => answering y | None => True end
  | _ => True
  end.
(** the classes of [P] lose nothing, and their fields have classes of [P] *)
Definition lossless_classes (hb : bool) (md : umode) (P : nat -> bool) (sl : list sclass) : Prop :=
  forall c sc, nth_error sl c = Some sc -> P c = true ->
    bits_fields md P (m_native (mode_of hb (sc_bo sc))) (fields_of (sc_anns sc)) 0 = true /\
    Forall (fun p => answering (snd p)) (fields_of (sc_anns sc)).
(** no NaN anywhere inside a value: of a narrow one the payload is lost (C43) *)
Fixpoint no_nan (v : value) : bool :=
  match v with
  | VFloat b => negb (is_nan b)
  | VList l | VTuple l => forallb no_nan l
  | VObj _ _ d => forallb (fun kv => no_nan (snd kv)) d
  | _ => true
  end.

(** ** what was read can be written *)
Section Settled.
Variable md : umode.
(** several fields in a row count as one value each *)
Definition apart (l : list hx) : bool := (List.length l <=? 1)%nat || forallb (fun y => Nat.eqb (vals y) 1) l.
(** Left out, though the bytes are all in the values: counted strings for [unpack] (an empty one is read and cannot be written)
    and in classes of another byte order, conditions on conditions or on Self, and counted arrays of fixed-size items beside other fields (C31). *)
Fixpoint settled (bo : border) (x : hx) : bool :=
  match x with
  | XChar (KUint _) => border_eqb bo BO_DEFAULT && match md with UBuf => false | _ => true end
  | XArray _ _ y => settled bo y
  | XTuple l => apart l && forallb (settled BO_DEFAULT) l
  | XCond y _ _ => direct y && settled bo y
  | XBack _ _ _ m d => forallb (fun p => settled BO_DEFAULT (snd p)) m && match d with Some y => settled BO_DEFAULT y | None => true end
  | _ => true
  end.
Definition settled_classes (P : nat -> bool) (sl : list sclass) : Prop :=
  forall c sc, nth_error sl c = Some sc -> P c = true ->
    apart (map snd (fields_of (sc_anns sc))) = true /\ forallb (fun p => settled (sc_bo sc) (snd p)) (fields_of (sc_anns sc)) = true.
End Settled.
