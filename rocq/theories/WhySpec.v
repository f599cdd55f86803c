(** Why packing fails, read off the class statement: for every hint expression and every value the exceptions
    that packing the value can raise, and what has to be wrong with the value.  No serializers, sums, struct formats
    or mutable state; Whys.v proves that the pack methods raise nothing else.  File names without a directory are those
    of structured/serializers. *)
From Verif Require Import Base Floats Value StructMod Format Ser Wire Hints Surface Programs Accept AcceptProg WireSpec.

(** ** scalars and strings *)
(** the formats struct narrows floats for: hint_types/basic_types.py:35-36 *)
Definition narrow_float (c : code) : bool := match c with Ce | Cf => true | _ => false end.
(** a number out of range: OverflowError for the short floats, otherwise struct.error; struct.error for a value of
    the wrong type or no value at all.  struct.Struct.pack, which StructSerializer inherits (structs.py:92-126) *)
Definition scalar_why (m : mode) (c : code) (v : option value) (e : exn) : Prop :=
  match v with
  | None => e = StructError
  | Some w => scalar m c w = None /\
      e = if narrow_float c then match as_float w with Some _ => OverflowError | None => StructError end else StructError
  end.
(** [isinstance(v, bytes)] *)
Definition is_bytes (v : value) : bool := match v with VBytes _ => true | _ => false end.
(** strings of bytes: [char[n]] structs.py:92-126; [char[uintN]] strings.py:61-81; [char[b'.']] strings.py:196-208 (always
    with the simplification of Exec.v for a list); [char[math.inf]] strings.py:154-156 (a value that is not bytes: Exec.v);
    [char[NET]] strings.py:269-287 *)
Definition char_why (bo : border) (a : carg) (v : option value) (e : exn) : Prop :=
  match a, v with
  | KInt n, None => n <> 0 /\ e = StructError
  | KInt n, Some w => n <> 0 /\ is_bytes w = false /\ e = StructError
  | _, None => e = IndexError
  | KUint c, Some w =>
      match py_len w with
      | Err _ => e = TypeError
      | Ok k =>
          (** empty; a class of another byte order; too long, or not bytes *)
          if Nat.eqb k 0 then e = StructError
          else if negb (border_eqb bo BO_DEFAULT) then e = ValueError
          else (greatest c < Z.of_nat k \/ is_bytes w = false) /\ e = StructError
      end
  | KBytes _, Some w | KInf, Some w => is_bytes w = false /\ e = TypeError
  | KNet, Some w =>
      match py_len w with
      | Err _ => e = TypeError
      | Ok k =>
          if Nat.eqb k 0 then e = StructError
          else if 32767 <? Z.of_nat k then e = ValueError
          else is_bytes w = false /\ e = StructError
      end
  end.
(** ** one after the other *)
Section Members.
Variables (f : hx -> option value -> option (list chunk)) (w : hx -> option value -> exn -> Prop).
(** api.py:267-287, 386-398: members in order, each with its own values.  [few]: there are fewer values than members; then the members of a fixed size before the one to blame need not be
    right *)
Variable few : Prop.
Fixpoint members_why (l : list hx) (vs : list value) (e : exn) : Prop :=
  match l with
  | [] => False
  | x :: l' =>
      w x (if takes x then hd_error vs else None) e \/
      ((f x (if takes x then hd_error vs else None) <> None \/ few) /\ members_why l' (if takes x then tl vs else vs) e)
  end.
(** the first field that fails: structured.py:262-264 *)
Fixpoint fields_why (l : list (string * hx)) (d : list (string * value)) (e : exn) : Prop :=
  match l with
  | [] => False
  | (a, x) :: l' =>
      w x (if takes x then assoc a d else None) e \/
      (f x (if takes x then assoc a d else None) <> None /\ fields_why l' d e)
  end.
End Members.
Section Items.
Variables (f : value -> option (list chunk)) (w : value -> exn -> Prop).
(** the first item that fails: arrays.py:112-114 *)
Fixpoint items_why (l : list value) (e : exn) : Prop :=
  match l with [] => False | i :: l' => w i e \/ (f i <> None /\ items_why l' e) end.
End Items.
(** the member of a union: unions.py:78-93 *)
Section Pick.
Variables (w : hx -> Prop) (d : option hx) (none : Prop).
Fixpoint pick_why (k : value) (m : list (value * hx)) : Prop :=
  match m with
  | [] => match d with Some y => w y | None => none end
  | (k', y) :: m' => if key_eqb k k' then w y else pick_why k m'
  end.
End Pick.

(** Members that are something at all; an array with a count that the library counts as no value (C31): among several
    members it gets none, arrays.py:226-238, api.py:267-287. *)
Definition members_of (l : list hx) : list hx := filter (fun x => negb (nothing x)) l.
Definition several (l : list hx) : Prop := (2 <= List.length (members_of l))%nat.
Definition uncounted (x : hx) : Prop := match x with XArray (inr _) _ y => packed y = true | _ => False end.
Definition slot (l : list hx) (w : hx -> option value -> exn -> Prop) (x : hx) (v : option value) (e : exn) : Prop :=
  w x v e \/ (several l /\ uncounted x /\ e = IndexError).

(** ** hint expressions *)
Section Why.
Variable hb : bool.
Variable rec : nat -> option border -> list (string * value) -> option bytes.
Variable why_obj : nat -> option border -> list (string * value) -> exn -> Prop.
Variable o : pobj.
(** the condition on the object: conditional.py:66-67, a dictionary with keys True and False *)
Definition cond_why (f : pobj -> res value) (e : exn) : Prop :=
  match f o with
  | Err e' => e = e'
  | Ok r => key_eqb r (VBool true) = false /\ key_eqb r (VBool false) = false /\ e = if hashable r then KeyError else TypeError
  end.
(** members that take a value (WireSpec.v [takes]) *)
Definition takers (l : list hx) : nat := List.length (filter takes l).
(** More values than the field takes: struct.error of struct.Struct.pack, or TypeError for the methods with one parameter
    (tuples.py:43, structured.py:51 of the serializers).  The other methods look at the first value only. *)
Fixpoint too_many (x : hx) (e : exn) : Prop :=
  match x with
  | XBasic _ => e = StructError
  | XPad n | XPascal n | XChar (KInt n) => n <> 0 /\ e = StructError
  | XTuple _ | XClass _ | XSelf => e = TypeError
  | XCond y f _ => match f o with Ok r => key_eqb r (VBool true) = true /\ too_many y e | Err _ => False end
  | XAs _ y => too_many y e
  | XBack _ _ f m d | XAhead _ _ _ f m d =>
      match f o with Ok r => pick_why (fun y => too_many y e) d False r m | Err _ => False end
  | _ => False
  end.
(** a value for a field that takes none *)
Definition surplus (x : hx) (v : option value) (e : exn) : Prop := takes x = false /\ v <> None /\ too_many x e.
(** more values than the members of a tuple take: for a single member as above, for several only if all of them are
    of a fixed size (one struct format) *)
Definition left_over (l : list hx) (e : exn) : Prop :=
  match members_of l with
  | [] => False
  | [x] => too_many x e
  | _ => forallb (fun x => structy x || nothing x) l = true /\ e = StructError
  end.
(** strings of text: strings.py:379-380; arrays: arrays.py:55-76, 108-118, 196-204, 247-261; tuples: tuples.py:43-44;
    conditions: conditional.py:66-67 (the serializer under a condition is not prepared itself, so a condition or the class
    itself there is api.py:92-98, NotImplementedError); unions: unions.py:78-93, 134-138, 193-198; classes:
    structured.py:51-54 of the serializers, self.py:24-25 *)
Fixpoint why (bo : border) (x : hx) (v : option value) (e : exn) {struct x} : Prop :=
  match x with
  | XBasic c => scalar_why (mode_of hb bo) c v e
  | XPad _ => False
  | XPascal n => n <> 0 /\ match v with Some w => is_bytes w = false | None => True end /\ e = StructError
  | XChar a => char_why bo a v e
  | XUnicode a cd =>
      match v with
      | None => e = IndexError
      | Some (VStr s) => match cod_enc cd s with
                         | Err e' => e = e'
                         | Ok b => char_why BO_DEFAULT a (Some (VBytes b)) e
                         end
      | Some _ => e = TypeError
      end
  | XArray n sz y =>
      (** the condition on the items, also without any *)
      (match y with XCond _ f _ => cond_why f e | _ => False end) \/
      match v with
      | None => e = IndexError
      | Some w =>
          match py_iter w with
          | Err _ => e = TypeError
          | Ok items =>
              let m := mode_of hb bo in let count := Z.of_nat (List.length items) in
              items_why (fun i => chunks hb rec o m y (Some i)) (fun i e => why bo y (Some i) e \/ surplus y (Some i) e) items e \/
              match n with
              | inl z => count <> z /\ e = ValueError
              | inr c => greatest c < count /\ e = StructError
              end \/
              match sz with
              | None => False
              | Some c => packed y = false /\ e = StructError /\
                  exists ls, omap (fun i => chunks hb rec o m y (Some i)) items = Some ls /\
                    greatest c < blen (concat (map (lay (m_native m) 0) ls))
              end
          end
      end
  | XTuple l =>
      match v with
      | None => e = TypeError
      | Some w =>
          match py_iter w with
          | Err _ => e = TypeError \/ exists y f z, In (XCond y f z) l /\ cond_why f e
          | Ok items =>
              members_why (chunks hb rec o (machine hb)) (slot l (why BO_DEFAULT)) (List.length items < takers l)%nat l items e \/
              ((takers l < List.length items)%nat /\ left_over l e)
          end
      end
  | XCond y f _ =>
      cond_why f e \/
      match f o with
      | Ok r => key_eqb r (VBool true) = true /\
          (why bo y v e \/ (e = NotImplementedError /\ match y with XCond _ _ _ | XSelf => True | _ => False end))
      | Err _ => False
      end
  | XAs _ y => why bo y v e
  | XBack _ _ f m d | XAhead _ _ _ f m d =>
      match f o with
      | Err e' => e = e'
      | Ok r =>
          if hashable r then pick_why (fun y => why BO_DEFAULT y v e \/ surplus y v e) d (e = ValueError) r m
          else e = TypeError
      end
  | XClass _ | XSelf =>
      match v with
      | None => e = TypeError
      | Some (VObj c ov a) => why_obj c ov a e
      | Some _ => e = AttributeError
      end
  | XClassVar _ | XPlain _ => False
  end.
End Why.

(** ** classes *)
(** An attribute of a field is missing, or the first field that fails does so; [n] bounds the depth of objects in
    objects.  structured.py:222-226, 262-264; utils.py [attrgetter] *)
Fixpoint why_not (hb : bool) (sl : list sclass) (n : nat) (c : nat) (ov : option border) (d : list (string * value)) (e : exn)
  : Prop :=
  match n with
  | O => False
  | S n' =>
      match nth_error sl c with
      | None => e = AttributeError
      | Some sc =>
          let bo := match ov with Some bo => bo | None => sc_bo sc end in
          (e = AttributeError /\ exists a, In a (sc_attrs sc) /\ assoc a d = None) \/
          fields_why (chunks hb (wire hb sl n') (PO c false d) (mode_of hb bo)) (slot (map snd (fields_of (sc_anns sc))) (why hb (wire hb sl n') (why_not hb sl n') (PO c false d) bo))
            (fields_of (sc_anns sc)) d e
      end
  end.
