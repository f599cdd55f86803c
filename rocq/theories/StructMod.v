(** Model of CPython's [struct] module (platform layer, trusted).
    Format strings are lists of counted specifiers, byte order given separately. *)
From Verif Require Import Base Floats Value.

(** Specifiers ([n], [N], [P] are not supported by the library's hints and not modelled). *)
Inductive code := Cx | Cc | Cb | CB | Cbool | Ch | CH | Ci | CI | Cl | CL | Cq | CQ
                | Ce | Cf | Cd | Cs | Cp.
Definition code_eqb (a b : code) : bool :=
  match a, b with
  | Cx, Cx | Cc, Cc | Cb, Cb | CB, CB | Cbool, Cbool | Ch, Ch | CH, CH | Ci, Ci | CI, CI
  | Cl, Cl | CL, CL | Cq, Cq | CQ, CQ | Ce, Ce | Cf, Cf | Cd, Cd | Cs, Cs | Cp, Cp => true
  | _, _ => false
  end.

(** one counted specifier; [None] = no digits written (count 1) *)
Record tok := T { t_cnt : option nat; t_code : code }.
Definition cnt (t : tok) : nat := match t_cnt t with Some n => n | None => 1%nat end.
Definition fmt := list tok.

(** [m_native]: native sizes and alignment ('' and '@'); [m_big]: big endian *)
Record mode := Mode { m_native : bool; m_big : bool }.
(** [host_big]: byte order of the machine *)
Definition mode_of (host_big : bool) (bo : border) : mode :=
  match bo with
  | BO_DEFAULT | BO_NNAT => Mode true host_big
  | BO_NSTD => Mode false host_big
  | BO_LE => Mode false false
  | BO_BE | BO_NET => Mode false true
  end.

(** sizes: standard, and native on LP64 *)
Definition csize (native : bool) (c : code) : nat :=
  match c with
  | Cx | Cc | Cb | CB | Cbool | Cs | Cp => 1
  | Ch | CH | Ce => 2
  | Ci | CI | Cf => 4
  | Cl | CL => if native then 8 else 4
  | Cq | CQ | Cd => 8
  end%nat.
(** native alignment equals native size; 1 otherwise *)
Definition calign (native : bool) (c : code) : nat :=
  if native then csize true c else 1%nat.

(** bytes inserted before a specifier at offset [off] *)
Definition padding (m : mode) (off : nat) (c : code) : nat :=
  let a := calign (m_native m) c in
  ((a - off mod a) mod a)%nat.

(** signedness of integer specifiers *)
Definition int_code (c : code) : option bool :=
  match c with
  | Cb | Ch | Ci | Cl | Cq => Some true
  | CB | CH | CI | CL | CQ => Some false
  | _ => None
  end.
Definition in_range (signed : bool) (n : nat) (z : Z) : bool :=
  let w := 8 * Z.of_nat n in
  if signed then (- 2 ^ (w - 1) <=? z) && (z <? 2 ^ (w - 1))
  else (0 <=? z) && (z <? 2 ^ w).

(** pack one value of a fixed size specifier (not x, s, p) *)
Definition pack_val (m : mode) (c : code) (v : value) : res bytes :=
  let n := csize (m_native m) c in
  match int_code c with
  | Some sg =>
      match as_index v with
      | None => Err StructError                                (* required argument is not an integer *)
      | Some z => if in_range sg n z then Ok (int_enc (m_big m) n z) else Err StructError
      end
  | None =>
      match c with
      | Cc => match v with VBytes [b] => Ok [b] | _ => Err StructError end
      | Cbool => Ok [if truthy v then x01 else x00]
      | Cd => match as_float v with Some b => Ok (int_enc (m_big m) 8 b) | None => Err StructError end
      | Cf => match as_float v with
              | None => Err StructError
              | Some b => match narrow 8 23 b with
                          | Some f => Ok (int_enc (m_big m) 4 f)
                          | None => if m_native m                 (* native: C cast gives an infinity *)
                                    then Ok (int_enc (m_big m) 4 (b / 2 ^ 63 * 2 ^ 31 + 255 * 2 ^ 23))
                                    else Err OverflowError
                          end
              end
      | Ce => match as_float v with
              | None => Err StructError
              | Some b => match narrow 5 10 b with
                          | Some f => Ok (int_enc (m_big m) 2 f)
                          | None => Err OverflowError
                          end
              end
      | _ => Err StructError
      end
  end.

(** unpack one value from exactly [csize] bytes.
    Note: in native mode '?' on a byte other than 0/1 is compiler dependent in CPython (C [_Bool]);
    the model says True. *)
Definition unpack_val (m : mode) (c : code) (b : bytes) : value :=
  let n := csize (m_native m) c in
  match int_code c with
  | Some sg => let u := int_dec (m_big m) b in VInt (if sg then to_signed n u else u)
  | None =>
      match c with
      | Cc => VBytes b
      | Cbool => VBool (existsb (fun x => negb (Byte.eqb x x00)) b)
      | Cd => VFloat (int_dec (m_big m) b)
      | Cf => VFloat (widen 8 23 (int_dec (m_big m) b))
      | Ce => VFloat (widen 5 10 (int_dec (m_big m) b))
      | _ => VNone
      end
  end.

(** 's' with count n: copy at most n bytes, zero fill *)
Definition str_fit (n : nat) (b : bytes) : bytes := firstn n b ++ zeros (n - List.length b).
(** 'p' with count n: length byte, then at most n-1 bytes, zero fill ('0p' is empty) *)
Definition pas_pack (n : nat) (b : bytes) : bytes :=
  match n with
  | O => []
  | S k => bz (Z.min 255 (Z.of_nat (Nat.min k (List.length b)))) :: str_fit k b
  end.
Definition pas_unpack (b : bytes) : bytes :=
  match b with
  | [] => []
  | x :: r => firstn (Nat.min (Z.to_nat (zb x)) (List.length r)) r
  end.

(** A format expanded into primitive steps. *)
Inductive unit_ := UAlign (c : code) | UPad | UStr (n : nat) | UPas (n : nat) | UVal (c : code).
Definition expand_tok (t : tok) : list unit_ :=
  match t_code t with
  | Cx => repeat UPad (cnt t)
  | Cs => [UStr (cnt t)]
  | Cp => [UPas (cnt t)]
  | c => UAlign c :: repeat (UVal c) (cnt t)
  end.
Definition expand (f : fmt) : list unit_ := flat_map expand_tok f.

Definition takes_value (u : unit_) : bool :=
  match u with UAlign _ | UPad => false | _ => true end.
(** number of values *)
Definition nvals_u (us : list unit_) : nat := List.length (filter takes_value us).
Definition nvals (f : fmt) : nat := nvals_u (expand f).

Definition usize (m : mode) (off : nat) (u : unit_) : nat :=
  match u with
  | UAlign c => padding m off c
  | UPad => 1
  | UStr n | UPas n => n
  | UVal c => csize (m_native m) c
  end%nat.
Fixpoint size_u (m : mode) (off : nat) (us : list unit_) : nat :=
  match us with
  | [] => 0
  | u :: us' => usize m off u + size_u m (off + usize m off u) us'
  end%nat.
(** [struct.calcsize] *)
Definition calcsize (m : mode) (f : fmt) : nat := size_u m 0 (expand f).

(** pack one unit from the argument list: bytes and remaining arguments *)
Definition pack_unit (m : mode) (off : nat) (u : unit_) (vs : list value) : res (bytes * list value) :=
  match u with
  | UAlign _ | UPad => Ok (zeros (usize m off u), vs)
  | UStr n => match vs with
              | VBytes b :: vs' => Ok (str_fit n b, vs')
              | _ => Err StructError
              end
  | UPas n => match vs with
              | VBytes b :: vs' => Ok (pas_pack n b, vs')
              | _ => Err StructError
              end
  | UVal c => match vs with
              | v :: vs' => rdo b <- pack_val m c v; Ok (b, vs')
              | [] => Err StructError
              end
  end.
(** bytes written before the first failing unit, and the error if any *)
Fixpoint pack_u (m : mode) (off : nat) (us : list unit_) (vs : list value) : bytes * option exn :=
  match us with
  | [] => ([], None)
  | u :: us' =>
      match pack_unit m off u vs with
      | Err e => ([], Some e)
      | Ok (b, vs') =>
          let (bs, e) := pack_u m (off + List.length b) us' vs' in (b ++ bs, e)
      end
  end.

Fixpoint unpack_u (m : mode) (off : nat) (us : list unit_) (b : bytes) : list value :=
  match us with
  | [] => []
  | u :: us' =>
      let n := usize m off u in
      let rest := unpack_u m (off + n) us' (skipn n b) in
      match u with
      | UAlign _ | UPad => rest
      | UStr _ => VBytes (firstn n b) :: rest
      | UPas _ => VBytes (pas_unpack (firstn n b)) :: rest
      | UVal c => unpack_val m c (firstn n b) :: rest
      end
  end.

(** [struct.Struct.pack]: argument count is checked first *)
Definition st_pack (m : mode) (f : fmt) (vs : list value) : res bytes :=
  if Nat.eqb (List.length vs) (nvals f) then
    match pack_u m 0 (expand f) vs with
    | (b, None) => Ok b
    | (_, Some e) => Err e
    end
  else Err StructError.

(** [struct.Struct.unpack]: the buffer must have exactly the right size *)
Definition st_unpack (m : mode) (f : fmt) (b : bytes) : res (list value) :=
  if Nat.eqb (List.length b) (calcsize m f) then Ok (unpack_u m 0 (expand f) b) else Err StructError.

(** offset handling shared by [pack_into] and [unpack_from]: negative offsets count from the end *)
Definition st_offset (buflen off size : Z) : option Z :=
  if off <? 0 then
    if 0 <? off + size then None
    else if off + buflen <? 0 then None
    else Some (off + buflen)
  else if buflen - off <? size then None
  else Some off.

(** [struct.Struct.unpack_from] *)
Definition st_unpack_from (m : mode) (f : fmt) (buf : bytes) (off : Z) : res (list value) :=
  let n := calcsize m f in
  match st_offset (blen buf) off (Z.of_nat n) with
  | None => Err StructError
  | Some o => Ok (unpack_u m 0 (expand f) (firstn n (skipn (Z.to_nat o) buf)))
  end.

(** [struct.Struct.pack_into]: new buffer contents and error if any.  The region is zeroed first, so an
    error in the middle leaves the packed prefix followed by zeros. *)
Definition st_pack_into (m : mode) (f : fmt) (buf : bytes) (off : Z) (vs : list value)
  : bytes * option exn :=
  if Nat.eqb (List.length vs) (nvals f) then
    let n := calcsize m f in
    match st_offset (blen buf) off (Z.of_nat n) with
    | None => (buf, Some StructError)
    | Some o =>
        match pack_u m 0 (expand f) vs with
        | (b, e) => (overwrite buf o (b ++ zeros (n - List.length b)), e)
        end
    end
  else (buf, Some StructError).

Arguments nvals : simpl never.
Arguments calcsize : simpl never.
Arguments expand : simpl never.
Arguments st_pack : simpl never.
Arguments st_unpack : simpl never.
Arguments st_unpack_from : simpl never.
Arguments st_pack_into : simpl never.
