(** [==] of Python values, and [Structured.__eq__] *)
From Verif Require Import Base Floats Value StructMod Format Ser Exec.

(** Numbers compare by their exact value; in units of 2^-1074, of which every finite binary64 is a multiple *)
Inductive num := Fin (z : Z) | Inf (neg : bool) | NaN.
Definition float_num (b : Z) : num :=
  let s := b / 2 ^ 63 in
  let e := (b / 2 ^ 52) mod 2 ^ 11 in
  let m := b mod 2 ^ 52 in
  let sgn x := if s =? 0 then x else - x in
  if e =? 2047 then (if m =? 0 then Inf (negb (s =? 0)) else NaN)
  else if e =? 0 then Fin (sgn m) else Fin (sgn ((2 ^ 52 + m) * 2 ^ (e - 1))).
Definition num_of (v : value) : option num :=
  match v with
  | VInt z => Some (Fin (z * 2 ^ 1074))
  | VBool b => Some (Fin (if b then 2 ^ 1074 else 0))
  | VFloat b => Some (float_num b)
  | _ => None
  end.
Definition num_eqb (a b : num) : bool :=
  match a, b with Fin x, Fin y => x =? y | Inf x, Inf y => Bool.eqb x y | _, _ => false end.

Section Eq.
Variable ct : nat -> option cdef.

(** [v == w].  Lists compare their lengths first, tuples last.  Instances: structured.py:337-342, which
    raises AttributeError for a missing attribute and stops at the first difference; with different
    classes both sides give NotImplemented and Python falls back to identity.
    Simplifications: values have no identity, so a NaN or a generator never equals anything
    (Python's containers compare identical elements as equal); numbers wrapped in a user class compare by class
    and number; user classes do not override [__eq__] of Structured. *)
Fixpoint py_eq (v w : value) : res bool :=
  match num_of v, num_of w with
  | Some a, Some b => Ok (num_eqb a b)
  | _, _ =>
      match v, w with
      | VNone, VNone => Ok true
      | VBytes a, VBytes b => Ok (list_eqb Byte.eqb a b)
      | VStr a, VStr b => Ok (list_eqb Z.eqb a b)
      | VList l, VList m =>
          if Nat.eqb (List.length l) (List.length m) then
            (fix go l m := match l, m with
                           | x :: l', y :: m' => rdo b <- py_eq x y; if b then go l' m' else Ok false
                           | _, _ => Ok true
                           end) l m
          else Ok false
      | VTuple l, VTuple m =>
          (fix go l m := match l, m with
                         | x :: l', y :: m' => rdo b <- py_eq x y; if b then go l' m' else Ok false
                         | [], [] => Ok true
                         | _, _ => Ok false
                         end) l m
      | VObj c _ d, VObj c' _ d' =>
          if Nat.eqb c c' then
            match ct c with
            | None => Err AttributeError
            | Some cd =>
                (fix all l := match l with
                              | [] => Ok true
                              | a :: l' =>
                                  rdo b <- (fix look d := match d with
                                                          | [] => Err AttributeError
                                                          | (k, x) :: d0 =>
                                                              if String.eqb a k
                                                              then match assoc a d' with
                                                                   | Some y => py_eq x y
                                                                   | None => Err AttributeError
                                                                   end
                                                              else look d0
                                                          end) d;
                                  if b then all l' else Ok false
                              end) (c_attrs cd)
            end
          else Ok false
      | VWrap t a, VWrap u b => rdo e <- py_eq a b; Ok (Nat.eqb t u && e)
      | _, _ => Ok false
      end
  end.
End Eq.
