(** Bit level model of the float conversions performed by CPython's [struct] module.
    A Python float is represented by its IEEE-754 binary64 bit pattern, a number in [0, 2^64). *)
From Verif Require Import Base.

(** round [m / 2^s] to nearest, ties to even ([s >= 1]) *)
Definition rne (m s : Z) : Z :=
  let q := m / 2 ^ s in
  let r := m mod 2 ^ s in
  let h := 2 ^ (s - 1) in
  if (h <? r) || ((r =? h) && Z.odd q) then q + 1 else q.

Definition bias (eb : Z) : Z := 2 ^ (eb - 1) - 1.

(** NaN payloads ([p <> 0] out of [mb] bits).  CPython up to 3.13 converts binary32 with a C cast, which
    makes a signalling NaN quiet (top payload bit set), and maps every binary16 NaN to the one with only
    the quiet bit set ([PyFloat_Pack2], [PyFloat_Unpack2]). *)
Definition nan_payload (mb p : Z) : Z :=
  if mb =? 10 then 2 ^ (mb - 1) else if p <? 2 ^ (mb - 1) then p + 2 ^ (mb - 1) else p.

(** binary64 -> format with [eb] exponent and [mb] mantissa bits ([eb < 11], [mb < 52]).
    [None] means the rounded value overflows the target format (input finite). *)
Definition narrow (eb mb : Z) (b : Z) : option Z :=
  let s := b / 2 ^ 63 in
  let e := (b / 2 ^ 52) mod 2 ^ 11 in
  let m := b mod 2 ^ 52 in
  let sgn := s * 2 ^ (eb + mb) in
  let einf := (2 ^ eb - 1) * 2 ^ mb in
  if e =? 2047 then
    if m =? 0 then Some (sgn + einf)                              (* infinity *)
    else Some (sgn + einf + nan_payload mb (m / 2 ^ (52 - mb)))   (* NaN, payload truncated *)
  else if e =? 0 then Some sgn                                    (* zero or binary64 subnormal *)
  else
    let M := 2 ^ 52 + m in                                        (* value = M * 2^(e-1075) *)
    let E := e - 1075 in
    let lead := E + 52 in
    let q := Z.max (lead - mb) (1 - bias eb - mb) in              (* exponent of the quantum *)
    let R := rne M (q - E) in
    let be := Z.max (lead + bias eb) 1 in
    let r := (be - 1) * 2 ^ mb + R in
    if einf <=? r then None else Some (sgn + r).

(** format -> binary64, exact except for NaN payloads *)
Definition widen (eb mb : Z) (b : Z) : Z :=
  let s := b / 2 ^ (eb + mb) in
  let e := (b / 2 ^ mb) mod 2 ^ eb in
  let m := b mod 2 ^ mb in
  let sgn := s * 2 ^ 63 in
  if e =? 2 ^ eb - 1 then
    sgn + 2047 * 2 ^ 52 + (if m =? 0 then 0 else nan_payload mb m * 2 ^ (52 - mb))
  else if e =? 0 then
    if m =? 0 then sgn
    else let k := Z.log2 m in
         sgn + (k + 1 - bias eb - mb + 1023) * 2 ^ 52 + (m - 2 ^ k) * 2 ^ (52 - k)
  else sgn + (e - bias eb + 1023) * 2 ^ 52 + m * 2 ^ (52 - mb).

(** [float(int)]: correctly rounded; [None] is OverflowError *)
Definition double_of_int (z : Z) : option Z :=
  if z =? 0 then Some 0
  else
    let sgn := if z <? 0 then 2 ^ 63 else 0 in
    let a := Z.abs z in
    let k := Z.log2 a in
    let R := if k <=? 52 then a * 2 ^ (52 - k) else rne a (k - 52) in
    let r := (k + 1023 - 1) * 2 ^ 52 + R in
    if 2047 * 2 ^ 52 <=? r then None else Some (sgn + r).

Definition is_nan (b : Z) : bool :=
  ((b / 2 ^ 52) mod 2 ^ 11 =? 2047) && negb (b mod 2 ^ 52 =? 0).
