(** Every serializer class of structured/serializers as one syntax tree, with the operations that
    configure and combine serializers (num_values, get_final, with_byte_order, +). *)
From Verif Require Import Base Floats Value StructMod Format.

(** The object handed to deciders and conditions: a Structured instance ([p_proxy = false]) or the
    [_Proxy] used while unpacking (structured/structured.py:467-484).  By-value snapshot. *)
Record pobj := PO { p_cls : nat; p_proxy : bool; p_attrs : list (string * value) }.

(** user callables *)
Definition decider := pobj -> res value.
(** structured/hint_types/strings.py:87-110, 158-172: encoder / decoder pair *)
Record codec := Codec { cod_enc : list Z -> res bytes; cod_dec : bytes -> res (list Z) }.

(** Serializer objects.  A [nat] argument named [id] is the object identity under which the mutable
    fields ([size], [_partial_object]) of that object are found in the world (Exec.v).
    Simplification: the copy made by [with_byte_order] keeps the identity of the original, i.e. the
    two share their mutable fields (more sharing than in Python).
    - [SNull]: api.py:198-230                 - [SStruct]: structs.py:92-315
    - [SSkip]: conditional.py:73-98           - [SDynChar]: strings.py:44-140
    - [SConsume]: strings.py:143-181          - [STerm]: strings.py:184-251
    - [SNet]: strings.py:254-346              - [SUnicode]: strings.py:362-399
    - [SStaticArr]: arrays.py:177-223         - [SDynArr]: arrays.py:226-295
    - [SArray]: arrays.py:33-174 ([hdr = None] is the NullSerializer header, [static] is -1 if dynamic)
    - [STuple]: tuples.py:26-67               - [SCond]: conditional.py:38-70
    - [SLookback]: unions.py:32-166           - [SLookahead]: unions.py:32-92, 169-232
    - [SStructd]: serializers/structured.py:36-81
    - [SSelf]: self.py:21-28 ([id] is used for the StructuredSerializer it creates)
    - [SCompound]: api.py:233-366             - [SSpec]: api.py:369-407 *)
Inductive ser :=
| SNull
| SStruct (st : sspec)
| SSkip (vals : list value)
| SDynChar (id : nat) (st : sspec)
| SConsume (id : nat)
| STerm (id : nat) (t : byte)
| SNet (id : nat)
| SUnicode (inner : ser) (cd : codec)
| SStaticArr (count : nat) (item : sspec)
| SDynArr (id : nat) (cnt item : sspec)
| SArray (id : nat) (hdr : option sspec) (item : ser) (static : Z)
| STuple (id : nat) (inner : ser)
| SCond (cond : decider) (inner : ser) (defaults : list value)
| SLookback (id : nat) (dec : decider) (rmap : list (value * ser)) (dflt : option ser)
| SLookahead (id : nat) (ra : ser) (dec : decider) (rmap : list (value * ser)) (dflt : option ser)
| SStructd (id : nat) (cls : nat)
| SSelf (id : nat)
| SCompound (id : nat) (subs : list ser)
| SSpec (id : nat) (subs : list ser) (ctx : pobj).

(** class attribute / instance attribute [num_values] of each class; sum for compounds (api.py:241) *)
Fixpoint num_values (s : ser) : nat :=
  match s with
  | SNull => 0
  | SStruct st => ss_nvals st
  | SSkip vals => List.length vals
  | SDynArr _ _ _ => 0                                          (* arrays.py:238 *)
  | SCond _ inner _ => num_values inner                         (* conditional.py:50 *)
  | SCompound _ subs | SSpec _ subs _ => fold_right (fun s n => num_values s + n) 0 subs
  | _ => 1
  end%nat.

Definition is_compound (s : ser) : bool :=
  match s with SCompound _ _ | SSpec _ _ _ => true | _ => false end.

(** api.py:246-250: does the class override [prepack] / [preunpack]? *)
Definition needs_pre (s : ser) : bool :=
  match s with
  | SArray _ _ _ _ | STuple _ _ | SCond _ _ _ | SLookback _ _ _ _ | SLookahead _ _ _ _ _
  | SSelf _ | SCompound _ _ | SSpec _ _ _ => true
  | _ => false
  end.

(** [is_final]: api.py:161-171, 252-253 (last sub-serializer), strings.py:151-152, 372-373,
    tuples.py:32-33, conditional.py:58-59, unions.py:56-59 (the default is not looked at),
    serializers/structured.py:48-49.  [fin c] is [cls.serializer.is_final()] of class number [c]. *)
Fixpoint is_final (fin : nat -> bool) (s : ser) : bool :=
  match s with
  | SConsume _ => true
  | SUnicode inner _ | STuple _ inner | SCond _ inner _ => is_final fin inner
  | SLookback _ _ m _ | SLookahead _ _ _ m _ => existsb (fun p => is_final fin (snd p)) m
  | SStructd _ c => fin c
  | SCompound _ subs | SSpec _ subs _ =>
      (fix go l := match l with
                   | [] => false
                   | [x] => is_final fin x
                   | _ :: l' => go l'
                   end) subs
  | _ => false
  end.

(** [with_byte_order]: structs.py:120-125, 259-263; strings.py:58-59; arrays.py:48-53, 193-194,
    241-245; conditional.py:61-64; api.py:324-328; not overridden (api.py:152-159: returns self) for
    Null, Skip, ConsumingChar, TerminatedChar, NETChar, Unicode, Tuple, unions, Structured, Self. *)
Fixpoint with_bo (bo : border) (s : ser) : ser :=
  match s with
  | SStruct st => SStruct (ss_with_bo bo st)
  | SDynChar id st => SDynChar id (ss_with_bo bo st)
  | SStaticArr n item => SStaticArr n (ss_with_bo bo item)
  | SDynArr id c item => SDynArr id (ss_with_bo bo c) (ss_with_bo bo item)
  | SArray id h item st => SArray id (option_map (ss_with_bo bo) h) (with_bo bo item) st
  | SCond f inner d => SCond f (with_bo bo inner) d
  | SCompound id subs | SSpec id subs _ => SCompound id (map (with_bo bo) subs)
  | _ => s
  end.

(** [a + b] for two non-compound serializers: api.py:173-192, 224-230 (Null), structs.py:156-170 and
    275-299 (joined formats); [id] identifies a newly created CompoundSerializer.
    Null + x = x; x + Null: [NotImplemented], then [Null.__radd__] gives x. *)
Definition add2 (fin : nat -> bool) (id : nat) (a b : ser) : res ser :=
  match a, b with
  | SNull, _ => Ok b
  | SStruct x, SStruct y => rmap SStruct (ss_add x y)
  | _, SNull => Ok a
  | _, _ => if is_final fin a then Err TypeError else Ok (SCompound id [a; b])
  end.

(** api.py:342-354 [_add_impl]: serializers held in reverse, [rev] in the end *)
Fixpoint add_impl (fin : nat -> bool) (id : nat) (last : ser) (before : list ser) (cands : list ser)
  : res ser :=
  match cands with
  | [] => Ok (SCompound id (rev (last :: before)))
  | c :: cs =>
      rdo j <- add2 fin id last c;
      if is_compound j then add_impl fin id c (last :: before) cs
      else add_impl fin id j before cs
  end.

(** [a + b] in full: api.py:173-192, 224-230, 330-366.  An empty compound has no last element: IndexError. *)
Definition sadd (fin : nat -> bool) (id : nat) (a b : ser) : res ser :=
  match a, b with
  | SNull, _ => Ok b
  | (SCompound _ subs | SSpec _ subs _), _ =>
      match rev subs with
      | [] => Err IndexError
      | l :: bf => add_impl fin id l bf (match b with SCompound _ bs | SSpec _ bs _ => bs | _ => [b] end)
      end
  | _, (SCompound _ bs | SSpec _ bs _) =>
      if is_final fin a then Err TypeError else add_impl fin id a [] bs
  | _, _ => add2 fin id a b
  end.

(** [sum(serializers, NullSerializer())]: structured.py:402-404, tuples.py:29-30 *)
Fixpoint ssum_from (fin : nat -> bool) (id : nat) (acc : ser) (l : list ser) : res ser :=
  match l with
  | [] => Ok acc
  | s :: l' => rdo a <- sadd fin id acc s; ssum_from fin id a l'
  end.
Definition ssum (fin : nat -> bool) (id : nat) (l : list ser) : res ser := ssum_from fin id SNull l.
