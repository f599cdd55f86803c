(** Programs: sequences of class statements as a user writes them, and what Python makes of them with the
    factories and the class machinery of Hints.v. *)
From Verif Require Import Base Floats Value StructMod Format Ser Exec Hints.

(** argument of [char[...]] and [unicode[...]] *)
Inductive carg := KUint (c : code) | KInt (z : Z) | KBytes (b : bytes) | KInf | KNet.

(** Hint expressions without type variables:
    - [XBasic c]: uint8, float32, ... by their struct code    - [XPad n], [XPascal n]: pad[n], pascal[n]
    - [XChar a]: char[a]                                      - [XUnicode a cd]: unicode[a, encoding]
    - [XArray n s x]: array[Header[n, s], x], [n] a number or a basic type
    - [XTuple l]: tuple[l]                                    - [XCond x f d]: Annotated[x, Condition(f, *d)]
    - [XAs a x]: Annotated[T, SerializeAs(x)], [a] is what calling T does
    - [XBack id l f m d]: Annotated[Union[l], LookbackDecider(f, m, d)]
    - [XAhead id l ra f m d]: Annotated[Union[l], LookaheadDecider(ra, f, m, d)]
    - [XClass c]: the class number [c] of the program         - [XSelf]: typing.Self
    - [XClassVar x]: ClassVar[x]                              - [XPlain t]: any other type. *)
Inductive hx :=
| XBasic (c : code)
| XPad (n : Z)
| XPascal (n : Z)
| XChar (a : carg)
| XUnicode (a : carg) (cd : codec)
| XArray (n : Z + code) (s : option code) (x : hx)
| XTuple (l : list hx)
| XCond (x : hx) (f : decider) (d : list value)
| XAs (a : action) (x : hx)
| XBack (id : nat) (l : list hx) (f : decider) (m : list (value * hx)) (d : option hx)
| XAhead (id : nat) (l : list hx) (ra : hx) (f : decider) (m : list (value * hx)) (d : option hx)
| XClass (c : nat)
| XSelf
| XClassVar (x : hx)
| XPlain (t : nat).

(** no class of a program without type variables is specialized *)
Definition no_spec (c : nat) (args : list pyh) : res nat := Err TypeError.
Definition carg_py (a : carg) : pyh :=
  match a with
  | KUint c => basic c | KInt z => PInt z | KBytes b => PBytes b | KInf => PInf | KNet => PNET
  end.
(** hint_types/basic_types.py:26-37: the struct codes that have a name *)
Definition basic_code (c : code) : bool :=
  match c with Cbool | Cb | CB | Ch | CH | Ci | CI | Cq | CQ | Ce | Cf | Cd => true | _ => false end.

(** [[f(a) for a in l]] ([rmapM] of Base.v, in a form that may be nested in a recursive definition) *)
Section MapR.
Context {A B : Type} (f : A -> res B).
Fixpoint mapR (l : list A) : res (list B) :=
  match l with [] => Ok [] | a :: l' => rdo b <- f a; rdo bs <- mapR l'; Ok (b :: bs) end.
End MapR.

Section Build.
(** [k]: number of classes defined so far *)
Variable k : nat.
Variable fin : nat -> bool.
Variable idf : list nat -> nat.
Variable fac : akind -> list pyh -> nat.

(** evaluation of a hint expression: hint_types/*.py through the factories of Hints.v; an unknown name is a
    NameError, here AttributeError *)
Fixpoint build (x : hx) : res pyh :=
  match x with
  | XBasic c => if basic_code c then Ok (basic c) else Err AttributeError
  | XPad n => pad_getitem n
  | XPascal n => pascal_getitem n
  | XChar a => char_create fac (carg_py a)
  | XUnicode a cd => unicode_create fin no_spec idf fac (carg_py a) (PCodec cd)
  | XArray n s x =>
      rdo h <- header_create (match n with inl z => PInt z | inr c => basic c end)
                             (match s with Some c => basic c | None => PNone end);
      rdo i <- build x;
      array_create fin no_spec idf fac h i
  | XTuple l => rdo hs <- mapR build l; Ok (PTuple hs)
  | XCond x f d => rdo h <- build x; Ok (mk_ann h [PCond f d])
  | XAs a x => rdo h <- build x; rdo s <- serialize_as fin no_spec idf h; Ok (PAnn (POther 100 a) [s])
  | XBack id l f m d =>
      rdo hs <- mapR build l;
      rdo m' <- mapR (fun p => rmap (pair (fst p)) (build (snd p))) m;
      rdo d' <- (match d with Some x => rmap Some (build x) | None => Ok None end);
      rdo u <- lookback fin no_spec idf id f m' d';
      Ok (PAnn (PUnion hs) [u])
  | XAhead id l ra f m d =>
      rdo hs <- mapR build l;
      rdo r <- build ra;
      rdo m' <- mapR (fun p => rmap (pair (fst p)) (build (snd p))) m;
      rdo d' <- (match d with Some x => rmap Some (build x) | None => Ok None end);
      rdo u <- lookahead fin no_spec idf id r f m' d';
      Ok (PAnn (PUnion hs) [u])
  | XClass c => if Nat.ltb c k then Ok (PClass c) else Err AttributeError
  | XSelf => Ok PSelf
  | XClassVar x => rdo h <- build x; Ok (PClassVar h)
  | XPlain t => Ok (POther t (fun v => Ok v))
  end.
End Build.

(** A class statement: the annotations of the body in order, the Structured base class if any, the byte order
    and its mode, and whether [from __future__ import annotations] is in effect. *)
Record stmt := Stmt {
  st_body : list (string * hx); st_base : option nat; st_bo : border; st_mode : bomode; st_future : bool }.

Section Run.
(** identities of the serializer objects made while class number [k] is defined, and by the factories *)
Variable idf : nat -> list nat -> nat.
Variable fac : akind -> list pyh -> nat.

Definition env_of (l : list cinfo) (c : nat) : option cinfo := nth_error l c.
(** the annotations are evaluated in order (with postponed evaluation: stored as strings, and evaluated by
    get_type_hints at the end of the class statement; the order of errors is not modelled) *)
Definition eval_body (l : list cinfo) (s : stmt) : res (list (string * pyh)) :=
  rmapM (fun p => rmap (fun h => (fst p, if st_future s then PFwd h else h))
                    (build (List.length l) (efin (env_of l)) (idf (List.length l)) fac (snd p))) (st_body s).
(** structured.py:170-195 (the body), 344-419 (the class); [k]: the next padding name *)
Definition class_stmt (l : list cinfo) (k : nat) (s : stmt) : res (cinfo * nat) :=
  let f := idf (List.length l) in
  rdo body <- eval_body l s;
  rdo (d, k') <- class_body (efin (env_of l)) no_spec f k body [];
  rdo i <- define (env_of l) no_spec f fac O d (match st_base s with Some b => [(b, None)] | None => [] end) []
             (st_bo s) (st_mode s);
  Ok (i, k').
Fixpoint run (l : list cinfo) (k : nat) (prog : list stmt) : res (list cinfo) :=
  match prog with
  | [] => Ok l
  | s :: prog' => rdo (i, k') <- class_stmt l k s; run (l ++ [i]) k' prog'
  end.
End Run.
(** the class table of a program *)
Definition classes (l : list cinfo) (c : nat) : option cdef := option_map ci_def (nth_error l c).
