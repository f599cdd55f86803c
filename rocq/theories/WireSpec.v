(** The bytes of an instance, read off the class statement: a description of the wire format on hint expressions
    and annotations, without serializers, sums, struct formats or mutable state.  Wires.v proves that this is
    what the pack methods write. *)
From Verif Require Import Base Floats Value StructMod Format Ser Wire Hints Surface Programs Accept AcceptProg.

(** ** layout *)
(** Fields of a fixed size are laid out together and may be aligned: an [Atom w b] starts at a multiple of [w]
    when alignment is on, counted from the start of the run.  Everything else is a [Block]: never aligned, and
    the next run starts after it. *)
Inductive chunk := Atom (w : nat) (b : bytes) | Block (b : bytes).
Fixpoint lay (aligned : bool) (off : nat) (l : list chunk) : bytes :=
  match l with
  | [] => []
  | Atom w b :: l' =>
      let gap := if aligned then ((w - off mod w) mod w)%nat else 0%nat in
      zeros gap ++ b ++ lay aligned (off + gap + List.length b) l'
  | Block b :: l' => b ++ lay aligned 0 l'
  end.

Notation "'odo' p <- m ; e" := (match m with Some p => e | None => None end) (at level 200, p pattern, right associativity).

(** ** scalars *)
Definition wsize (c : code) : nat :=
  match c with Ch | CH | Ce => 2 | Ci | CI | Cf => 4 | Cq | CQ | Cd => 8 | _ => 1 end.
(** least and greatest integer *)
Definition least (c : code) : Z :=
  match c with Cb => -128 | Ch => -32768 | Ci => -2147483648 | Cq => -9223372036854775808 | _ => 0 end.
Definition greatest (c : code) : Z :=
  match c with
  | Cb => 127 | CB => 255 | Ch => 32767 | CH => 65535 | Ci => 2147483647 | CI => 4294967295
  | Cq => 9223372036854775807 | CQ => 18446744073709551615 | _ => 0
  end.
(** integers in two's complement; floats as the nearest value of their format (C43), out of range ones only as
    float32 in native order, which become an infinity *)
Definition scalar (m : mode) (c : code) (v : value) : option bytes :=
  match c with
  | Cbool => Some [if truthy v then x01 else x00]
  | Cd => odo f <- as_float v; Some (uint_bytes (m_big m) 8 f)
  | Cf => odo f <- as_float v;
          match narrow 8 23 f with
          | Some b => Some (uint_bytes (m_big m) 4 b)
          | None => if m_native m then Some (uint_bytes (m_big m) 4 (f / 2 ^ 63 * 2 ^ 31 + 255 * 2 ^ 23)) else None
          end
  | Ce => odo f <- as_float v; odo b <- narrow 5 10 f; Some (uint_bytes (m_big m) 2 b)
  | _ => odo z <- as_index v;
         if (least c <=? z) && (z <=? greatest c) then Some (uint_bytes (m_big m) (wsize c) z) else None
  end.
Definition number (m : mode) (c : code) (n : Z) : option (list chunk) :=
  if n <=? greatest c then Some [Atom (wsize c) (uint_bytes (m_big m) (wsize c) n)] else None.

(** ** strings *)
(** exactly [n] bytes: cut off, or filled with zeros *)
Definition fixed (n : nat) (b : bytes) : bytes := firstn n b ++ zeros (n - List.length b).
(** a length byte, at most 255, and [n - 1] bytes *)
Definition pascal (n : nat) (b : bytes) : bytes :=
  bz (Z.min 255 (Z.of_nat (Nat.min (n - 1) (List.length b)))) :: fixed (n - 1) b.
(** .NET length: one byte, or two in the order of the machine with bit 7 of the low one set *)
Definition net_length (big : bool) (n : Z) : option bytes :=
  if n <? 128 then Some [bz n]
  else if n <=? 32767 then Some (uint_bytes big 2 (128 + n mod 128 + 256 * (n / 128)))
  else None.
Definition string_chunks (hb : bool) (m : mode) (a : carg) (b : bytes) : option (list chunk) :=
  match a with
  | KInt n => Some (if n =? 0 then [] else [Atom 1 (fixed (Z.to_nat n) b)])
  | KUint c => odo l <- number m c (blen b); Some [Block (lay false 0 l ++ b)]
  | KBytes t => Some [Block (b ++ t)]
  | KInf => Some [Block b]
  | KNet => odo l <- net_length hb (blen b); Some [Block (l ++ b)]
  end.

(** ** hint expressions *)
(** a value belongs to the field *)
Fixpoint takes (x : hx) : bool :=
  match x with
  | XPad _ => false
  | XPascal n | XChar (KInt n) => negb (n =? 0)
  | XCond y _ _ => takes y
  | _ => true
  end.
(** items of an array that are laid out together *)
Definition packed (y : hx) : bool := structy y && takes y.

Section OMap.
Context {A B : Type} (f : A -> option B).
Fixpoint omap (l : list A) : option (list B) :=
  match l with [] => Some [] | a :: l' => odo b <- f a; odo bs <- omap l'; Some (b :: bs) end.
End OMap.
Section Members.
(** members of a tuple take their values from the left; values left over are ignored *)
Variable f : hx -> option value -> option (list chunk).
Fixpoint members (l : list hx) (vs : list value) : option (list chunk) :=
  match l with
  | [] => Some []
  | x :: l' =>
      odo c <- f x (if takes x then hd_error vs else None);
      odo cs <- members l' (if takes x then tl vs else vs);
      Some (c ++ cs)
  end.
(** fields of a class take the attribute of their name *)
Fixpoint fields (l : list (string * hx)) (d : list (string * value)) : option (list chunk) :=
  match l with
  | [] => Some []
  | (a, x) :: l' =>
      odo c <- (if takes x then odo v <- assoc a d; f x (Some v) else f x None);
      odo cs <- fields l' d;
      Some (c ++ cs)
  end.
End Members.
Section Pick.
(** the member of a union: the first one with the key, or the default *)
Variables (f : hx -> option (list chunk)) (d : option hx).
Fixpoint pick (k : value) (m : list (value * hx)) : option (list chunk) :=
  match m with
  | [] => odo y <- d; f y
  | (k', y) :: m' => if key_eqb k k' then f y else pick k m'
  end.
End Pick.

Section Chunks.
Variable hb : bool.
(** bytes of an instance of class number [c] with its own byte order, if any, and its attributes *)
Variable rec : nat -> option border -> list (string * value) -> option bytes.
(** the object the field belongs to *)
Variable o : pobj.
(** the order of the machine with its alignment: inside tuples, unions and encoded strings the byte order of the
    class has no effect *)
Definition machine : mode := Mode true hb.
Fixpoint chunks (m : mode) (x : hx) (v : option value) {struct x} : option (list chunk) :=
  match x with
  | XBasic c => odo w <- v; odo b <- scalar m c w; Some [Atom (wsize c) b]
  | XPad n => Some (if n =? 0 then [] else [Atom 1 (zeros (Z.to_nat n))])
  | XPascal n => if n =? 0 then Some []
                 else match v with Some (VBytes b) => Some [Atom 1 (pascal (Z.to_nat n) b)] | _ => None end
  | XChar (KInt 0) => Some []
  | XChar a => match v with Some (VBytes b) => string_chunks hb m a b | _ => None end
  | XUnicode a cd =>
      match v with
      | Some (VStr s) =>
          match cod_enc cd s with
          | Ok b => odo l <- string_chunks hb machine a b; Some [Block (lay true 0 l)]
          | Err _ => None
          end
      | _ => None
      end
  | XArray n sz y =>
      odo w <- v;
      match py_iter w with
      | Err _ => None
      | Ok items =>
          odo ls <- omap (fun i => chunks m y (Some i)) items;
          let count := Z.of_nat (List.length items) in
          odo h <- (match n with
                    | inl z => if count =? z then Some [] else None
                    | inr c => number m c count
                    end);
          if packed y then Some [Block (lay (m_native m) 0 (h ++ concat ls))]
          else
            let body := concat (map (lay (m_native m) 0) ls) in
            odo h' <- (match sz with None => Some [] | Some c => number m c (blen body) end);
            Some [Block (lay (m_native m) 0 (h ++ h') ++ body)]
      end
  | XTuple l =>
      odo w <- v;
      match py_iter w with
      | Err _ => None
      | Ok items => odo cs <- members (chunks machine) l items; Some [Block (lay true 0 cs)]
      end
  | XCond y f _ =>
      match f o with
      | Err _ => None
      | Ok r =>
          if key_eqb r (VBool true) then odo cs <- chunks m y v; Some [Block (lay (m_native m) 0 cs)]
          else if key_eqb r (VBool false) then Some [Block []]
          else None
      end
  | XAs _ y => chunks m y v
  | XBack _ _ f mm d | XAhead _ _ _ f mm d =>
      match f o with
      | Err _ => None
      | Ok r => if hashable r then odo cs <- pick (fun y => chunks machine y v) d r mm; Some [Block (lay true 0 cs)]
                else None
      end
  | XClass _ | XSelf =>
      match v with Some (VObj c ov a) => odo b <- rec c ov a; Some [Block b] | _ => None end
  | XClassVar _ | XPlain _ => None
  end.
End Chunks.

(** ** classes *)
(** [n] bounds the depth of objects in objects *)
Fixpoint wire (hb : bool) (sl : list sclass) (n : nat) (c : nat) (ov : option border) (d : list (string * value))
  : option bytes :=
  match n with
  | O => None
  | S n' =>
      odo sc <- nth_error sl c;
      let m := mode_of hb (match ov with Some bo => bo | None => sc_bo sc end) in
      odo cs <- fields (chunks hb (wire hb sl n') (PO c false d) m) (fields_of (sc_anns sc)) d;
      Some (lay (m_native m) 0 cs)
  end.

(** ** classes for which the attributes and the values line up *)
(** an array with a count of scalars or strings of a fixed size is counted as no value by the library (C31) *)
Fixpoint regular (x : hx) : bool :=
  match x with
  | XArray _ _ y | XAs _ y => regular y
  | XTuple l => forallb regular l
  | XCond y _ _ => regular y && Nat.eqb (vals y) (if takes y then 1 else 0)
  | XBack _ _ _ m d | XAhead _ _ _ _ m d =>
      forallb (fun p => regular (snd p)) m && match d with Some y => regular y | None => true end
  | _ => true
  end.
Definition regular_class (c : sclass) : bool :=
  forallb (fun p => regular (snd p) && (padding (snd p) || takes (snd p)) && negb (String.eqb (fst p) "self"))
          (fields_of (sc_anns c)).
