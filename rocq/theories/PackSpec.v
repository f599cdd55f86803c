(** Which instances can be packed, read off the class statement.  Having a layout at all (WireSpec.v) is not
    enough: this file lists the instances with a layout that the library cannot write. *)
From Verif Require Import Base Floats Value StructMod Format Ser Wire Hints Surface Programs Accept AcceptProg WireSpec.

(** ** strings *)
Definition full (v : value) : bool := match v with VBytes [] => false | _ => true end.
(** A string with a length in front cannot be empty, and its length is never in the byte order of a class
    ([vs]: the values handed to the field). *)
Definition char_fits (bo : border) (a : carg) (vs : list value) : bool :=
  match a with
  | KInt n => (n =? 0) || Nat.eqb (List.length vs) 1
  | KUint _ => border_eqb bo BO_DEFAULT && match vs with v :: _ => full v | [] => false end
  | KNet => match vs with v :: _ => full v | [] => false end
  | KBytes _ | KInf => match vs with _ :: _ => true | [] => false end
  end.

Section Sums.
Variable f : hx -> list value -> bool.
(** every member gets as many values as the library counts for it *)
Fixpoint each (l : list hx) (vs : list value) : bool :=
  match l with [] => true | x :: l' => f x (firstn (vals x) vs) && each l' (skipn (vals x) vs) end.
(** the first member that is anything at all *)
Fixpoint alone (l : list hx) (vs : list value) : bool :=
  match l with [] => true | x :: l' => if nothing x then alone l' vs else f x vs end.
(** A single member gets all of the values; several members their share each; values left over are an error when
    all members are of a fixed size. *)
Definition sum_fits (l : list hx) (vs : list value) : bool :=
  match filter (fun x => negb (nothing x)) l with
  | [] => true
  | [_] => alone l vs
  | _ => each l vs && (negb (forallb (fun x => structy x || nothing x) l) || Nat.eqb (List.length vs) (list_sum (map vals l)))
  end.
End Sums.
Section Choice.
Variables (f : hx -> bool) (d : option hx).
Fixpoint chosen (k : value) (m : list (value * hx)) : bool :=
  match m with
  | [] => match d with Some y => f y | None => false end
  | (k', y) :: m' => if key_eqb k k' then f y else chosen k m'
  end.
End Choice.

Section Fitting.
(** may a field of class [d] hold an instance of class [c]? *)
Variable allow : nat -> nat -> bool.
Variable rec : nat -> option border -> list (string * value) -> bool.
Variable o : pobj.
(** a condition on the items of an array is evaluated also when there are none *)
Definition decided (y : hx) : bool :=
  match y with
  | XCond _ f _ => match f o with Ok r => key_eqb r (VBool true) || key_eqb r (VBool false) | Err _ => false end
  | _ => true
  end.
(** a condition on a field that itself depends on the object cannot be met *)
Definition direct (y : hx) : bool := match y with XCond _ _ _ | XSelf => false | _ => true end.
Definition class_fits (k : nat) (vs : list value) : bool :=
  match vs with [VObj c ov a] => allow k c && rec c ov a | _ => false end.
Fixpoint fitting (bo : border) (x : hx) (vs : list value) {struct x} : bool :=
  match x with
  | XBasic _ => Nat.eqb (List.length vs) 1
  | XPad n => (n =? 0) || Nat.eqb (List.length vs) 0
  | XPascal n => (n =? 0) || Nat.eqb (List.length vs) 1
  | XChar a => char_fits bo a vs
  | XUnicode a cd =>
      match vs with
      | VStr s :: _ => match cod_enc cd s with Ok b => char_fits BO_DEFAULT a [VBytes b] | Err _ => false end
      | _ => false
      end
  | XArray _ _ y =>
      match vs with
      | w :: _ => decided y && match py_iter w with Ok items => forallb (fun i => fitting bo y [i]) items | Err _ => false end
      | [] => false
      end
  | XTuple l =>
      match vs with
      | [w] => match py_iter w with Ok items => sum_fits (fitting BO_DEFAULT) l items | Err _ => false end
      | _ => false
      end
  | XCond y f _ =>
      match f o with
      | Ok r => if key_eqb r (VBool true) then direct y && fitting bo y vs else true
      | Err _ => false
      end
  | XAs _ y => fitting bo y vs
  | XBack _ _ f m d | XAhead _ _ _ f m d =>
      match f o with Ok r => chosen (fun y => fitting BO_DEFAULT y vs) d r m | Err _ => false end
  | XClass k => class_fits k vs
  | XSelf => class_fits (p_cls o) vs
  | XClassVar _ | XPlain _ => false
  end.
End Fitting.

(** ** classes *)
Definition field_values (l : list (string * hx)) (d : list (string * value)) : option (list value) :=
  omap (fun p => assoc (fst p) d) (filter (fun p => takes (snd p)) l).
(** [n] bounds the depth of objects in objects *)
Fixpoint packable (allow : nat -> nat -> bool) (sl : list sclass) (n : nat) (c : nat) (ov : option border)
  (d : list (string * value)) : bool :=
  match n with
  | O => false
  | S n' =>
      match nth_error sl c with
      | None => false
      | Some sc =>
          let bo := match ov with Some bo => bo | None => sc_bo sc end in
          match field_values (fields_of (sc_anns sc)) d with
          | Some vs => sum_fits (fitting allow (packable allow sl n') (PO c false d) bo) (map snd (fields_of (sc_anns sc))) vs
          | None => false
          end
      end
  end.
