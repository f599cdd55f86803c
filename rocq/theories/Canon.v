(** Which attribute values are canonical for a class: the values that a reader of the bytes can be
    expected to get back.  This is the specification used for the round trip theorems; it is a typing
    judgement over the serializers of Ser.v:
    - integers in the range of their type, floats representable in it, char[n] of exactly n bytes, ...
      ([canon_fmt], StructFacts.v);
    - a list / tuple of canonical items for arrays / tuples;
    - no terminator inside a terminated string;
    - text whose encoding decodes to itself up to trailing NULs;
    - a skipped conditional field holds its default;
    - conditions and deciders say the same about the object being packed and about the part of it that
      has been read when their field is reached;
    - nested instances are of the declared class, without an instance byte order, and their attributes
      are exactly the serialized ones. *)
From Verif Require Import Base Floats Value StructMod Format Ser Exec Pure BaseFacts StructFacts.

Section Canon.
Variable hb : bool.
Variable ct : nat -> option cdef.
Variable allow : nat -> nat -> bool.
Variable md : umode.

(** values of a struct; with actions: the results of the actions on raw values that pack the same *)
Definition canon_st (st : sspec) (vs : list value) : Prop :=
  match s_act st with
  | None => canon_fmt (ss_mode hb st) (s_fmt st) vs = true
  | Some acts => exists raw, canon_fmt (ss_mode hb st) (s_fmt st) raw = true /\
                   est hb st vs = est hb st raw /\ apply_actions acts raw = Ok vs
  end.
Definition canon_ost (o : res (option sspec)) (vs : list value) : Prop :=
  match o with
  | Ok (Some st) => canon_st st vs
  | Ok None => vs = []
  | Err _ => False
  end.

Section Step.
(** one level down: canonical, encoding, decoding; [rec1]: two levels down (the compound of a nested class
    is a level of its own) *)
Variable rec : ser -> pobj -> pobj -> list value -> Prop.
Variable rec1 : ser -> pobj -> pobj -> list value -> Prop.
Variable prec : ser -> pobj -> list value -> res bytes.
Variable drec : ser -> pobj -> bytes -> res (list value * Z).

(** [pc]: the object being packed; [uc]: the partial object at that point of unpacking *)
Definition canon_in (s : ser) (pc uc : pobj) (vs : list value) : Prop :=
  exists s', resolve true s pc = Ok s' /\ resolve false s uc = Ok s' /\ rec s' pc uc vs.

(** the fields of a class: [d] holds the attributes read so far *)
Fixpoint canon_fields (c : nat) (pre : bool) (pc : pobj) (subs : list ser) (names : list string)
  (vals : list value) (d : list (string * value)) : Prop :=
  match subs with
  | [] => names = [] /\ vals = []
  | x :: subs' =>
      let uc := PO c true (if pre then d else []) in
      exists x', resolve true x pc = Ok x' /\ resolve false x uc = Ok x' /\
        let k := num_values x' in
        (k <= List.length vals)%nat /\ rec1 x' pc uc (firstn k vals) /\
        canon_fields c pre pc subs' (skipn k names) (skipn k vals)
          (d ++ zipw (firstn k names) (firstn k vals))
  end.

Definition canon_obj (c : nat) (d : list (string * value)) : Prop :=
  exists cd vals, ct c = Some cd /\ NoDup (c_attrs cd) /\ List.length vals = List.length (c_attrs cd) /\
    d = zipw (c_attrs cd) vals /\
    match c_ser cd with
    | SCompound _ subs => canon_fields c (existsb needs_pre subs) (PO c false d) subs (c_attrs cd) vals []
    | s => canon_in s (PO c false d) (PO c true []) vals
    end.

(** the bytes read back from a fixed-size or variable-size byte string that was given [b] *)
Definition str_back (inner : ser) (pc uc : pobj) (b b' : bytes) : Prop :=
  match inner with
  | SStruct (SS _ [Verif.StructMod.T n Cs] None) =>
      b' = str_fit (cnt (Verif.StructMod.T n Cs)) b
  | _ => b' = b /\ rec inner pc uc [VBytes b]
  end.

Definition canon_step (s : ser) (pc uc : pobj) (vs : list value) : Prop :=
  match s with
  | SNull => vs = []
  | SSkip d => vs = d
  | SStruct st => canon_st st vs
  | SDynChar _ _ | SConsume _ => exists b, vs = [VBytes b]
  | STerm _ t => exists b, vs = [VBytes b] /\ ~ In t b
  | SNet _ => exists b, vs = [VBytes b] /\ (hb = false \/ blen b < 128)
  | SUnicode inner cd =>
      exists s b b' t, vs = [VStr s] /\ cod_enc cd s = Ok b /\ str_back inner pc uc b b' /\
        cod_dec cd b' = Ok t /\ rstrip_nul t = s
  | SStaticArr n item => exists items, vs = [VList items] /\ canon_ost (ss_mul item (Z.of_nat n)) items
  | SDynArr _ c item =>
      exists items, vs = [VList items] /\ canon_ost (ss_mul item (Z.of_nat (List.length items))) items
  | SArray _ _ item _ =>
      exists items, vs = [VList items] /\
        exists item', resolve true item pc = Ok item' /\ resolve false item uc = Ok item' /\
          Forall (fun v => rec item' pc uc [v]) items
  | STuple _ inner => exists items, vs = [VTuple items] /\ canon_in inner pc uc items
  | SCond _ _ _ | SSelf _ => False
  | SLookback _ f m d =>
      exists r r' s0, f pc = Ok r /\ choose m d r = Ok s0 /\ f uc = Ok r' /\ choose m d r' = Ok s0 /\
        canon_in s0 pc uc vs
  | SLookahead _ ra f m d =>
      exists r s0 s', f pc = Ok r /\ choose m d r = Ok s0 /\
        resolve true s0 pc = Ok s' /\ resolve false s0 uc = Ok s' /\ rec s' pc uc vs /\
        (* reading ahead at the encoding of the chosen branch leads to that branch *)
        forall b, prec s' pc vs = Ok b ->
          exists rs k r', drec ra uc b = Ok (rs, k) /\ k <= blen b /\ nth0 rs = Ok r' /\ choose m d r' = Ok s0
  | SStructd _ c => exists d, vs = [VObj c None d] /\ canon_obj c d
  | SCompound _ _ | SSpec _ _ _ => False
  end.
End Step.

Fixpoint canon (n : nat) (s : ser) (pc uc : pobj) (vs : list value) : Prop :=
  match n with
  | O => False
  | S n' => canon_step (canon n') match n' with O => fun _ _ _ _ => False | S n'' => canon n'' end
              (enc hb ct allow n') (dec hb ct md n') s pc uc vs
  end.
Definition canon_pred (n : nat) : ser -> pobj -> pobj -> list value -> Prop :=
  match n with O => fun _ _ _ _ => False | S m => canon m end.

(** a canonical instance; [n] bounds the nesting depth *)
Definition canonical (n : nat) (v : value) : Prop :=
  match v with VObj c None d => canon_obj (canon n) (canon_pred n) c d | _ => False end.
End Canon.
