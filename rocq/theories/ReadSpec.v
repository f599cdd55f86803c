(** What the bytes of an instance mean, read off the class statement: the reading counterpart of WireSpec.v, on
    arbitrary bytes.  Without serializers, sums, struct formats or mutable state.  Reads.v proves that this is what
    create_unpack, create_unpack_from and create_unpack_read return. *)
From Verif Require Import Base Floats Value StructMod Format Ser Exec Pure Wire Hints Surface Programs Accept AcceptProg WireSpec.

(** ** numbers *)
(** base 256, the first digit the least or the most significant *)
Fixpoint digits (b : bytes) : Z := match b with [] => 0 | x :: b' => zb x + 256 * digits b' end.
Definition uint_of (big : bool) (b : bytes) : Z := digits (if big then rev b else b).
Definition sint_of (big : bool) (b : bytes) : Z :=
  let u := uint_of big b in if 2 * u <? 256 ^ blen b then u else u - 256 ^ blen b.
Definition scalar_of (m : mode) (c : code) (b : bytes) : value :=
  match c with
  | Cbool => VBool (negb (uint_of (m_big m) b =? 0))
  | Cd => VFloat (uint_of (m_big m) b)
  | Cf => VFloat (widen 8 23 (uint_of (m_big m) b))
  | Ce => VFloat (widen 5 10 (uint_of (m_big m) b))
  | Cb | Ch | Ci | Cq => VInt (sint_of (m_big m) b)
  | _ => VInt (uint_of (m_big m) b)
  end.

(** ** places *)
(** A field is read at offset [off] of its run, from the bytes [b].  The result: the values (one, or none for
    paddings), the offset of the next field in the run, and the number of bytes used. *)
Definition place : Type := list value * nat * Z.
(** [n] bytes at a multiple of [w] *)
Definition at_ (m : mode) (w n off : nat) (b : bytes) (f : bytes -> list value) : option place :=
  let gap := if m_native m then ((w - off mod w) mod w)%nat else 0%nat in
  if (gap + n <=? List.length b)%nat then Some (f (firstn n (skipn gap b)), (off + gap + n)%nat, Z.of_nat (gap + n)) else None.
(** what follows is the start of a run *)
Definition block (r : option (list value * Z)) : option place := odo (vs, k) <- r; Some (vs, 0%nat, k).
Definition body (r : option place) : option (list value * Z) := odo (vs, _, k) <- r; Some (vs, k).
(** an unsigned number: its value, the offset after it, the bytes it uses *)
Definition number_at (m : mode) (c : code) (off : nat) (b : bytes) : option (Z * nat * Z) :=
  match at_ m (wsize c) (wsize c) off b (fun x => [VInt (uint_of (m_big m) x)]) with
  | Some ([VInt z], off', k) => Some (z, off', k)
  | _ => None
  end.

(** ** strings *)
(** at most 255 bytes, as many as the length byte says *)
Definition pascal_of (b : bytes) : bytes :=
  match b with [] => [] | x :: r => firstn (Z.to_nat (zb x)) r end.
(** the bytes before the first [t] *)
Fixpoint until (t : byte) (b : bytes) : option bytes :=
  match b with [] => None | x :: b' => if Byte.eqb x t then Some [] else odo r <- until t b'; Some (x :: r) end.
(** [n] bytes; when there are fewer, the rest of a bytes object, or of a stream after a .NET length, is taken *)
Definition cut (short : bool) (n : Z) (b : bytes) : option bytes :=
  if short || (n <=? blen b) then Some (firstn (Z.to_nat n) b) else None.
Definition net_of (hb : bool) (b : bytes) : option (Z * Z) :=
  match b with
  | [] => None
  | x :: _ =>
      if zb x <? 128 then Some (zb x, 1)
      else match b with
           | x :: y :: _ => let u := uint_of hb [x; y] in Some (u mod 128 + 128 * (u / 256), 2)
           | _ => None
           end
  end.
(** An empty counted string is no value for unpack_from and unpack_read (C18). *)
Definition string_of (hb : bool) (md : umode) (m : mode) (a : carg) (off : nat) (b : bytes) : option place :=
  match a with
  | KInt n => if n =? 0 then Some ([], off, 0) else at_ m 1 (Z.to_nat n) off b (fun x => [VBytes x])
  | KUint c =>
      odo (n, _, k) <- number_at m c 0 b;
      let buf := match md with UBuf => true | _ => false end in
      odo s <- cut buf n (adv k b);
      block (Some (if negb buf && (n =? 0) then [] else [VBytes s], k + n))
  | KBytes t => match t with
                | [x] => odo s <- until x b; block (Some ([VBytes s], blen s + 1))
                | _ => None
                end
  | KInf => block (Some ([VBytes b], blen b))
  | KNet =>
      odo (n, k) <- net_of hb b;
      odo s <- cut (match md with UFrom => false | _ => true end) n (adv k b);
      block (Some ([VBytes s], k + n))
  end.
(** trailing NUL characters are dropped *)
Fixpoint strip (s : list Z) : list Z :=
  match s with
  | [] => []
  | c :: s' => match strip s' with [] => if c =? 0 then [] else [c] | r => c :: r end
  end.

(** ** hint expressions *)
Section Repeat.
(** [n] items; [run]: laid out together *)
Variable f : nat -> bytes -> option place.
Fixpoint items_of (run : bool) (n : nat) (off : nat) (b : bytes) : option (list value * Z) :=
  match n with
  | O => Some ([], 0)
  | S n' =>
      odo (vs, off', k) <- f off b;
      odo (rest, k') <- items_of run n' (if run then off' else 0%nat) (adv k b);
      Some (vs ++ rest, k + k')
  end.
End Repeat.
Section Members.
Variable f : hx -> nat -> bytes -> option place.
Fixpoint members_of (l : list hx) (off : nat) (b : bytes) : option (list value * Z) :=
  match l with
  | [] => Some ([], 0)
  | x :: l' =>
      odo (vs, off', k) <- f x off b;
      odo (rest, k') <- members_of l' off' (adv k b);
      Some (vs ++ rest, k + k')
  end.
End Members.
Section Pick.
Variables (f : hx -> option place) (d : option hx).
Fixpoint pick_of (k : value) (m : list (value * hx)) : option place :=
  match m with
  | [] => odo y <- d; f y
  | (k', y) :: m' => if key_eqb k k' then f y else pick_of k m'
  end.
End Pick.
(** the conversion of SerializeAs: of nested ones, the innermost *)
Definition convert (a : action) (y : hx) (vs : list value) : option (list value) :=
  match y with
  | XAs _ _ => Some vs
  | _ => omap (fun v => match a v with Ok x => Some x | Err _ => None end) vs
  end.

Section Reading.
Variable hb : bool.
Variable md : umode.
(** an instance of class number [c] at the start of the bytes, and the number of bytes *)
Variable rec : nat -> bytes -> option (value * Z).
(** the object as far as it has been read *)
Variable o : pobj.
(** the item of an array is prepared also when there are none: its condition is evaluated, and Self is looked up *)
Definition ready (x : hx) : bool :=
  match x with
  | XCond _ f _ => match f o with Ok r => key_eqb r (VBool true) || key_eqb r (VBool false) | Err _ => false end
  | XSelf => match assoc "cls" (p_attrs o) with Some _ => false | None => p_proxy o end
  | _ => true
  end.
Fixpoint read (m : mode) (x : hx) (off : nat) (b : bytes) {struct x} : option place :=
  match x with
  | XBasic c => at_ m (wsize c) (wsize c) off b (fun y => [scalar_of m c y])
  | XPad n => if n =? 0 then Some ([], off, 0) else at_ m 1 (Z.to_nat n) off b (fun _ => [])
  | XPascal n => if n =? 0 then Some ([], off, 0) else at_ m 1 (Z.to_nat n) off b (fun y => [VBytes (pascal_of y)])
  | XChar a => string_of hb md m a off b
  | XUnicode a cd =>
      odo (vs, _, k) <- string_of hb md (machine hb) a 0 b;
      match vs with
      | VBytes y :: _ => match cod_dec cd y with Ok t => block (Some ([VStr (strip t)], k)) | Err _ => None end
      | _ => None
      end
  | XArray n sz y =>
      if packed y then
        odo (count, k) <- (match n with
                           | inl z => Some (z, 0)
                           | inr c => odo (z, _, k) <- number_at m c 0 b; Some (z, k)
                           end);
        odo (vs, k') <- items_of (read m y) true (Z.to_nat count) 0 (adv k b);
        block (Some ([VList vs], k + k'))
      else
        if negb (ready y) then None else
        odo (count, off1, k) <- (match n with
                                 | inl z => Some (z, 0%nat, 0)
                                 | inr c => number_at m c 0 b
                                 end);
        odo (size, k1) <- (match sz with
                           | None => Some (None, 0)
                           | Some c => odo (z, _, k1) <- number_at m c off1 (adv k b); Some (Some z, k1)
                           end);
        odo (vs, k2) <- items_of (read m y) false (Z.to_nat count) 0 (adv (k + k1) b);
        if match size with Some z => z =? k2 | None => true end
        then block (Some ([VList vs], k + k1 + k2)) else None
  | XTuple l => odo (vs, k) <- members_of (read (machine hb)) l 0 b; block (Some ([VTuple vs], k))
  | XCond y f d =>
      match f o with
      | Err _ => None
      | Ok r =>
          if key_eqb r (VBool true) then block (body (read m y 0 b))
          else if key_eqb r (VBool false) then block (Some (d, 0))
          else None
      end
  | XAs a y => odo (vs, off', k) <- read m y off b; odo ws <- convert a y vs; Some (ws, off', k)
  | XBack _ _ f mm d =>
      match f o with
      | Err _ => None
      | Ok r => if hashable r then block (body (pick_of (fun y => read (machine hb) y 0 b) d r mm)) else None
      end
  | XAhead _ _ ra _ mm d =>
      odo (rs, _, _) <- read (machine hb) ra 0 b;
      match rs with
      | r :: _ => if hashable r then block (body (pick_of (fun y => read (machine hb) y 0 b) d r mm)) else None
      | [] => None
      end
  | XClass c => block (odo (v, k) <- rec c b; Some ([v], k))
  | XSelf =>
      (* a field called cls hides the class; simplification: see [self_class] in Exec.v *)
      match assoc "cls" (p_attrs o), p_proxy o with
      | None, true => block (odo (v, k) <- rec (p_cls o) b; Some ([v], k))
      | _, _ => None
      end
  | XClassVar _ | XPlain _ => None
  end.
End Reading.

(** ** classes *)
Section Fields.
Variable f : list (string * value) -> hx -> nat -> bytes -> option place.
(** each field is read with the fields before it in view *)
Fixpoint fields_read (l : list (string * hx)) (d : list (string * value)) (off : nat) (b : bytes)
  : option (list (string * value) * Z) :=
  match l with
  | [] => Some (d, 0)
  | (a, x) :: l' =>
      odo (vs, off', k) <- f d x off b;
      odo d' <- (match vs, takes x with
                 | [v], true => Some (assoc_set a v d)
                 | [], false => Some d
                 | _, _ => None
                 end);
      odo (d'', k') <- fields_read l' d' off' (adv k b);
      Some (d'', k + k')
  end.
End Fields.
(** [n] bounds the depth of objects in objects *)
Fixpoint parse (hb : bool) (md : umode) (sl : list sclass) (n : nat) (c : nat) (b : bytes) : option (value * Z) :=
  match n with
  | O => None
  | S n' =>
      odo sc <- nth_error sl c;
      let m := mode_of hb (sc_bo sc) in
      odo (d, k) <- fields_read (fun d => read hb md (parse hb md sl n') (PO c true d) m) (fields_of (sc_anns sc)) [] 0 b;
      Some (VObj c None d, k)
  end.
