(** Classes whose instances all have the same size, and that size, read off the class statement.  Sizes.v proves that
    every instance is packed to that many bytes and read from that many bytes. *)
From Verif Require Import Base Floats Value StructMod Format Ser Wire Hints Surface Programs Accept AcceptProg WireSpec.

(** ** extents *)
(** [Cell w n]: [n] bytes that start at a multiple of [w] when alignment is on, counted from the start of the run;
    [Room n]: [n] bytes that are never aligned and end a run *)
Inductive extent := Cell (w n : nat) | Room (n : nat).
Definition gap (aligned : bool) (w off : nat) : nat := if aligned then ((w - off mod w) mod w)%nat else 0%nat.
(** the number of bytes from offset [off] of a run *)
Fixpoint span (aligned : bool) (off : nat) (l : list extent) : nat :=
  match l with
  | [] => 0
  | Cell w n :: l' => gap aligned w off + n + span aligned (off + gap aligned w off + n) l'
  | Room n :: l' => n + span aligned 0 l'
  end.

(** ** hint expressions *)
(** the size that all members have *)
Fixpoint agreed (l : list nat) : option nat :=
  match l with
  | [] => None
  | [n] => Some n
  | n :: l' => odo k <- agreed l'; if Nat.eqb n k then Some n else None
  end.
(** the size of an array without a count is its number of items, a header for the size in bytes, if any, and the items:
    one run when they are laid out together *)
Definition header (sz : option code) : nat := match sz with None => 0 | Some c => wsize c end.
Section Extents.
(** the size of the instances of a class in a field *)
Variable rec : nat -> option nat.
(** Conditional fields, strings with a length or a terminator, arrays with a count and [Self] have no size of their own;
    a union has one when its members agree. *)
Fixpoint extents (al : bool) (x : hx) {struct x} : option (list extent) :=
  match x with
  | XBasic c => Some [Cell (wsize c) (wsize c)]
  | XPad n | XChar (KInt n) => Some (if n =? 0 then [] else [Cell 1 (Z.to_nat n)])
  | XPascal n => if n <? 0 then None else Some (if n =? 0 then [] else [Cell 1 (Z.to_nat n)])
  | XUnicode (KInt n) _ => Some [Room (Z.to_nat n)]
  | XArray (inl z) sz y =>
      odo es <- extents al y;
      Some [Room (if packed y then span al 0 (concat (repeat es (Z.to_nat z)))
                  else header sz + Z.to_nat z * span al 0 es)]
  | XTuple l => odo es <- omap (extents true) l; Some [Room (span true 0 (concat es))]
  | XAs _ y => extents al y
  | XBack _ _ _ m d | XAhead _ _ _ _ m d =>
      odo ms <- omap (fun p => extents true (snd p)) m;
      odo ds <- (match d with None => Some [] | Some y => odo es <- extents true y; Some [es] end);
      odo n <- agreed (map (span true 0) (ms ++ ds));
      Some [Room n]
  | XClass k => odo n <- rec k; Some [Room n]
  | _ => None
  end.
End Extents.

(** ** classes *)
Definition aligns (bo : border) : bool := match bo with BO_DEFAULT | BO_NNAT => true | _ => false end.
(** [n] bounds the depth of classes in classes.  [marks]: the instances in the fields may have a byte order of their own
    (structured/structured.py:212-219), so that the alignment must make no difference; otherwise they have that of their
    class. *)
Fixpoint class_size (marks : bool) (sl : list sclass) (n : nat) (al : bool) (c : nat) : option nat :=
  match n with
  | O => None
  | S n' =>
      odo sc <- nth_error sl c;
      odo es <- omap (extents (fun k =>
                  odo sk <- nth_error sl k;
                  odo s <- class_size marks sl n' (aligns (sc_bo sk)) k;
                  odo t <- (if marks then class_size marks sl n' (negb (aligns (sc_bo sk))) k else Some s);
                  if Nat.eqb s t then Some s else None) al) (map snd (fields_of (sc_anns sc)));
      Some (span al 0 (concat es))
  end.
(** no instance in the value has a byte order of its own *)
Fixpoint unmarked (v : value) : bool :=
  match v with
  | VList l | VTuple l => forallb unmarked l
  | VObj _ ov a => match ov with None => true | Some _ => false end && forallb (fun p => unmarked (snd p)) a
  | _ => true
  end.
