(** Why reading fails, read off the class statement: the exception that reading the bytes raises, if any.  The counterpart
    of WhySpec.v for arbitrary bytes, next to ReadSpec.v, which says what is read otherwise.  No serializers, sums, struct
    formats or mutable state; Faults.v proves that this is what create_unpack, create_unpack_from and create_unpack_read
    raise.  File names without a directory are those of structured/serializers.

    [Some Unspecified] stands for some exception that is not determined here: after an empty counted string, which is no
    value for unpack_from and unpack_read (C18), the values and the attributes of an object are out of step. *)
From Verif Require Import Base Floats Value StructMod Format Ser Exec Pure Wire Hints Surface Programs Accept AcceptProg WireSpec ReadSpec.

(** ** runs *)
(** A run of fixed-size fields is unpacked by one struct format (structs.py:127-145; runs are added up: structs.py:156-176, 275-300), so that all of its
    bytes have to be there before anything is converted. *)
Fixpoint bare (x : hx) : hx := match x with XAs _ y => bare y | _ => x end.
Fixpoint lead (l : list hx) : list hx :=
  match l with x :: l' => if structy x then x :: lead l' else [] | [] => [] end.
Section Runs.
(** what a field reads, and why it does not *)
Variable f : hx -> nat -> bytes -> option place.
Variable g : hx -> nat -> bytes -> option exn.
(** the bytes end within the run that starts here *)
Definition cut_off (l : list hx) (off : nat) (b : bytes) : bool :=
  match members_of f (map bare (lead l)) off b with None => true | Some _ => false end.
(** the first member that fails: api.py:302-324 *)
Fixpoint members_fault (l : list hx) (off : nat) (b : bytes) : option exn :=
  match l with
  | [] => None
  | x :: l' =>
      if cut_off l off b then Some StructError
      else match f x off b with
           | None => g x off b
           | Some (_, off', k) => members_fault l' off' (adv k b)
           end
  end.
End Runs.
Section Repeat.
Variable f : nat -> bytes -> option place.
Variable g : nat -> bytes -> option exn.
(** the first item that fails: arrays.py:137-174 *)
Fixpoint items_fault (run : bool) (n : nat) (off : nat) (b : bytes) : option exn :=
  match n with
  | O => None
  | S n' => match f off b with
            | None => g off b
            | Some (_, off', k) => items_fault run n' (if run then off' else 0%nat) (adv k b)
            end
  end.
End Repeat.
(** the member of a union: unions.py:78-93 *)
Section Pick.
Variables (g : hx -> option exn) (d : option hx).
Fixpoint pick_fault (k : value) (m : list (value * hx)) : option exn :=
  match m with
  | [] => match d with Some y => g y | None => Some ValueError end
  | (k', y) :: m' => if key_eqb k k' then g y else pick_fault k m'
  end.
End Pick.
(** the conversion of SerializeAs fails: structs.py:240-258; of nested ones the innermost is the only one *)
Fixpoint first_fault (a : action) (vs : list value) : option exn :=
  match vs with [] => None | v :: vs' => match a v with Err e => Some e | Ok _ => first_fault a vs' end end.
Definition convert_fault (a : action) (y : hx) (vs : list value) : option exn :=
  match y with XAs _ _ => None | _ => first_fault a vs end.
Definition absent {A} (r : option A) (e : exn) : option exn := match r with None => Some e | Some _ => None end.
Definition or_else (p q : option exn) : option exn := match p with Some e => Some e | None => q end.

(** ** hint expressions *)
Section Faults.
Variable hb : bool.
Variable md : umode.
Variable rec : nat -> bytes -> option (value * Z).
(** why an instance of class number [c] is not read *)
Variable why : nat -> bytes -> option exn.
Variable o : pobj.
(** conditional.py:66-70, a dictionary with keys True and False *)
Definition cond_fault (f : pobj -> res value) : option exn :=
  match f o with
  | Err e => Some e
  | Ok r => if key_eqb r (VBool true) || key_eqb r (VBool false) then None
            else Some (if hashable r then KeyError else TypeError)
  end.
(** self.py:27-28, with the simplification of [self_class] in Exec.v for a field called cls *)
Definition self_fault : option exn :=
  match assoc "cls" (p_attrs o), p_proxy o with None, true => None | _, _ => Some AttributeError end.
(** preparing the item of an array: arrays.py:104-106, 141, 153, 165 *)
Definition ready_fault (x : hx) : option exn :=
  match x with XCond _ f _ => cond_fault f | XSelf => self_fault | _ => None end.
(** scalars and strings: structs.py:127-145 (too short), strings.py:107-141, 170-181, 220-250 (no terminator: ValueError),
    303-355, 390-401; arrays: arrays.py:94-98, 137-174, 216-224, 273-300; tuples.py:54-67; unions.py:78-93, 150-166,
    212-232; structured.py:66-82 of the serializers *)
Fixpoint fault (m : mode) (x : hx) (off : nat) (b : bytes) {struct x} : option exn :=
  match x with
  | XBasic _ | XPad _ | XPascal _ => absent (read hb md rec o m x off b) StructError
  | XChar a => absent (string_of hb md m a off b) (match a with KBytes _ => ValueError | _ => StructError end)
  | XUnicode a cd =>
      match string_of hb md (machine hb) a 0 b with
      | None => Some (match a with KBytes _ => ValueError | _ => StructError end)
      | Some (VBytes y :: _, _, _) => match cod_dec cd y with Ok _ => None | Err e => Some e end
      | Some _ => Some IndexError
      end
  | XArray n sz y =>
      if packed y then
        match (match n with
               | inl z => Some (z, 0)
               | inr c => odo (z, _, k) <- number_at m c 0 b; Some (z, k)
               end) with
        | None => Some StructError
        | Some (count, k) =>
            or_else (absent (items_of (read hb md rec o m (bare y)) true (Z.to_nat count) 0 (adv k b)) StructError)
                    (items_fault (read hb md rec o m y) (fault m y) true (Z.to_nat count) 0 (adv k b))
        end
      else
        match (odo (count, off1, k) <- (match n with
                                        | inl z => Some (z, 0%nat, 0)
                                        | inr c => number_at m c 0 b
                                        end);
               odo (size, k1) <- (match sz with
                                  | None => Some (None, 0)
                                  | Some c => odo (z, _, k1) <- number_at m c off1 (adv k b); Some (Some z, k1)
                                  end);
               Some (count, size, k + k1)) with
        | None => Some StructError
        | Some (count, size, k) =>
            or_else (ready_fault y)
              (match items_of (read hb md rec o m y) false (Z.to_nat count) 0 (adv k b) with
               | None => items_fault (read hb md rec o m y) (fault m y) false (Z.to_nat count) 0 (adv k b)
               | Some (_, k2) =>
                   match size with Some z => if z =? k2 then None else Some ValueError | None => None end
               end)
        end
  | XTuple l => members_fault (read hb md rec o (machine hb)) (fault (machine hb)) l 0 b
  | XCond y f _ =>
      or_else (cond_fault f)
        (match f o with
         | Ok r => if key_eqb r (VBool true) then fault m y 0 b else None
         | Err _ => None
         end)
  | XAs a y =>
      or_else (fault m y off b)
        (match read hb md rec o m y off b with Some (vs, _, _) => convert_fault a y vs | None => None end)
  | XBack _ _ f mm d =>
      match f o with
      | Err e => Some e
      | Ok r => if hashable r then pick_fault (fun y => fault (machine hb) y 0 b) d r mm else Some TypeError
      end
  | XAhead _ _ ra _ mm d =>
      match read hb md rec o (machine hb) ra 0 b with
      | None => fault (machine hb) ra 0 b
      | Some (r :: _, _, _) =>
          if hashable r then pick_fault (fun y => fault (machine hb) y 0 b) d r mm else Some TypeError
      | Some ([], _, _) => Some IndexError
      end
  | XClass c => why c b
  | XSelf => or_else self_fault (why (p_cls o) b)
  | XClassVar _ | XPlain _ => Some Unspecified
  end.
End Faults.

(** ** classes *)
Section Fields.
Variable f : list (string * value) -> hx -> nat -> bytes -> option place.
Variable g : list (string * value) -> hx -> nat -> bytes -> option exn.
(** the first field that fails: structured/structured.py:282-327 *)
Fixpoint fields_fault (l : list (string * hx)) (d : list (string * value)) (off : nat) (b : bytes) : option exn :=
  match l with
  | [] => None
  | (a, x) :: l' =>
      if cut_off (f d) (map snd l) off b then Some StructError
      else match f d x off b with
           | None => g d x off b
           | Some (vs, off', k) =>
               match vs, takes x with
               | [v], true => fields_fault l' (assoc_set a v d) off' (adv k b)
               | [], false => fields_fault l' d off' (adv k b)
               | _, _ => Some Unspecified
               end
           end
  end.
End Fields.
(** [n] bounds the depth of objects in objects *)
Fixpoint why_unread (hb : bool) (md : umode) (sl : list sclass) (n : nat) (c : nat) (b : bytes) : option exn :=
  match n with
  | O => Some RecursionError
  | S n' =>
      match nth_error sl c with
      | None => Some AttributeError
      | Some sc =>
          let m := mode_of hb (sc_bo sc) in
          let o d := PO c true d in
          fields_fault (fun d => read hb md (parse hb md sl n') (o d) m)
            (fun d => fault hb md (parse hb md sl n') (why_unread hb md sl n') (o d) m)
            (fields_of (sc_anns sc)) [] 0 b
      end
  end.

(** ** when the exception is determined *)
(** the hint has one value, or none if it takes none, however it is read *)
Fixpoint instep (md : umode) (x : hx) : bool :=
  match x with
  | XChar (KUint _) => match md with UBuf => true | _ => false end
  | XCond y _ d => instep md y && Nat.eqb (List.length d) (if takes y then 1 else 0)
  | XAs _ y => instep md y && takes y
  | XBack _ _ _ m d | XAhead _ _ _ _ m d =>
      forallb (fun p => instep md (snd p) && takes (snd p)) m
      && match d with Some y => instep md y && takes y | None => true end
  | _ => true
  end.
(** the functions in the hint raise known exceptions only *)
Section AllP.
Context {A : Type} (P : A -> Prop).
Fixpoint every (l : list A) : Prop := match l with [] => True | a :: l' => P a /\ every l' end.
End AllP.
Fixpoint known (x : hx) : Prop :=
  match x with
  | XUnicode _ cd => forall b, cod_dec cd b <> Err Unspecified
  | XArray _ _ y => known y
  | XTuple l => every known l
  | XCond y f _ => known y /\ forall o, f o <> Err Unspecified
  | XAs a y => known y /\ forall v, a v <> Err Unspecified
  | XBack _ _ f m d =>
      (forall o, f o <> Err Unspecified) /\ every (fun p => known (snd p)) m /\ match d with Some y => known y | None => True end
  | XAhead _ _ ra _ m d =>
      known ra /\ every (fun p => known (snd p)) m /\ match d with Some y => known y | None => True end
  | XClassVar _ | XPlain _ => False
  | _ => True
  end.
Definition determined (md : umode) (sl : list sclass) : Prop :=
  every (fun sc => every (fun p => instep md (snd p) = true /\ known (snd p)) (fields_of (sc_anns sc))) sl.
