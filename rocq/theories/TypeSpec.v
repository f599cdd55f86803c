(** The values that a field can have after reading, given its annotation: a type system for hint expressions, without
    bytes, serializers or state.  Typed.v proves that whatever is read has these types. *)
From Verif Require Import Base Floats Value StructMod Format Ser Exec Pure Wire Hints Surface Programs Accept AcceptProg WireSpec.

(** ** scalars and strings *)
(** [bool], integers in the range of the type, floats that the format has *)
Definition basic_value (c : code) (v : value) : Prop :=
  match c with
  | Cbool => exists b, v = VBool b
  | Cd => exists f, v = VFloat f /\ 0 <= f < 2 ^ 64
  | Cf => exists u, v = VFloat (widen 8 23 u) /\ 0 <= u < 2 ^ 32
  | Ce => exists u, v = VFloat (widen 5 10 u) /\ 0 <= u < 2 ^ 16
  | _ => exists z, v = VInt z /\ least c <= z <= greatest c
  end.
(** the strings of [char[a]] *)
Definition char_bytes (a : carg) (b : bytes) : Prop :=
  match a with
  | KInt n => blen b = n /\ n <> 0
  | KUint c => blen b <= greatest c
  | KBytes t => exists x, t = [x] /\ ~ In x b
  | KInf => True
  | KNet => blen b <= 32767
  end.
(** [char[0]] has no value, nor has an empty counted string that is read from an offset or a stream *)
Definition char_none (md : umode) (a : carg) : bool :=
  match a with KInt n => n =? 0 | KUint _ => match md with UBuf => false | _ => true end | _ => false end.
(** [s] is [t] without the NUL characters at its end *)
Definition trimmed (t s : list Z) : Prop :=
  (exists k, t = s ++ repeat 0 k) /\ forall s' c, s = s' ++ [c] -> c <> 0.
(** the member of a union for a key: the first one with the key, or the default *)
Fixpoint member_for (k : value) (m : list (value * hx)) (d : option hx) : option hx :=
  match m with [] => d | (k', y) :: m' => if key_eqb k k' then Some y else member_for k m' d end.
(** numbers of items that the header of an array allows *)
Definition count_ok (n : Z + code) (k : nat) : Prop :=
  match n with inl z => Z.of_nat k = z | inr c => Z.of_nat k <= greatest c end.
(** what calling the annotated type does to the value read *)
Definition converted (a : action) (y : hx) (v w : value) : Prop :=
  match y with XAs _ _ => w = v | _ => a v = Ok w end.

Section Types.
Variable md : umode.
Variable sl : list sclass.
(** [typed o x vs]: in the object [o] (as far as it has been read) a field annotated [x] has the values [vs]: one, or
    none.  [each_typed]: the items of an array; [all_typed]: the members of a tuple; [fields_typed c px l d d']: reading
    the fields [l] of an object of class [c] takes the attributes [d] to [d'] ([px]: as part of creating it);
    [instance]: the objects of a class. *)
Inductive typed : pobj -> hx -> list value -> Prop :=
| T_basic : forall o c v, basic_value c v -> typed o (XBasic c) [v]
| T_pad : forall o n, typed o (XPad n) []
| T_pascal : forall o n b, 0 < n -> blen b < n -> blen b <= 255 -> typed o (XPascal n) [VBytes b]
| T_pascal_none : forall o, typed o (XPascal 0) []
| T_char : forall o a b, char_bytes a b -> typed o (XChar a) [VBytes b]
| T_char_none : forall o a, char_none md a = true -> typed o (XChar a) []
| T_unicode : forall o a cd b t s, char_bytes a b -> cod_dec cd b = Ok t -> trimmed t s -> typed o (XUnicode a cd) [VStr s]
| T_array : forall o n sz y k vs, count_ok n k -> each_typed o y k vs -> typed o (XArray n sz y) [VList vs]
| T_tuple : forall o l vs, all_typed o l vs -> typed o (XTuple l) [VTuple vs]
| T_cond_true : forall o y f d r vs, f o = Ok r -> key_eqb r (VBool true) = true -> typed o y vs -> typed o (XCond y f d) vs
| T_cond_false : forall o y f d r, f o = Ok r -> key_eqb r (VBool false) = true -> typed o (XCond y f d) d
| T_as : forall o a y vs ws, typed o y vs -> Forall2 (converted a y) vs ws -> typed o (XAs a y) ws
| T_back : forall o id l f m d r y vs, f o = Ok r -> member_for r m d = Some y -> typed o y vs -> typed o (XBack id l f m d) vs
| T_ahead : forall o id l ra f m d r rs y vs, typed o ra (r :: rs) -> member_for r m d = Some y -> typed o y vs ->
    typed o (XAhead id l ra f m d) vs
| T_class : forall o c v, instance c v -> typed o (XClass c) [v]
| T_self : forall o v, instance (p_cls o) v -> typed o XSelf [v]
with each_typed : pobj -> hx -> nat -> list value -> Prop :=
| E_nil : forall o y, each_typed o y 0 []
| E_cons : forall o y k vs ws, typed o y vs -> each_typed o y k ws -> each_typed o y (S k) (vs ++ ws)
with all_typed : pobj -> list hx -> list value -> Prop :=
| A_nil : forall o, all_typed o [] []
| A_cons : forall o y l vs ws, typed o y vs -> all_typed o l ws -> all_typed o (y :: l) (vs ++ ws)
with fields_typed : nat -> bool -> list (string * hx) -> list (string * value) -> list (string * value) -> Prop :=
| F_nil : forall c px d, fields_typed c px [] d d
| F_value : forall c px a x l d v d', takes x = true -> typed (PO c px d) x [v] -> fields_typed c px l (assoc_set a v d) d' ->
    fields_typed c px ((a, x) :: l) d d'
| F_none : forall c px a x l d d', takes x = false -> typed (PO c px d) x [] -> fields_typed c px l d d' ->
    fields_typed c px ((a, x) :: l) d d'
with instance : nat -> value -> Prop :=
| I_object : forall c sc d, nth_error sl c = Some sc -> fields_typed c true (fields_of (sc_anns sc)) [] d ->
    instance c (VObj c None d).
End Types.

(** annotations that always have a value *)
Fixpoint sure (md : umode) (x : hx) : bool :=
  match x with
  | XBasic _ | XArray _ _ _ | XTuple _ | XUnicode _ _ | XClass _ | XSelf => true
  | XPascal n => negb (n =? 0)
  | XChar a => negb (char_none md a)
  | XCond y _ d => sure md y && Nat.eqb (List.length d) 1
  | XAs _ y => sure md y
  | XBack _ _ _ m d | XAhead _ _ _ _ m d =>
      forallb (fun p => sure md (snd p)) m && match d with Some y => sure md y | None => true end
  | XPad _ | XClassVar _ | XPlain _ => false
  end.
