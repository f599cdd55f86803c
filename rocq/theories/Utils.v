(** utils.py: the strict [zip] of Python >= 3.10 and its replacement for Python 3.9, [attrgetter], and the unpacking
    methods of [Structured] as they run on Python 3.9. *)
From Verif Require Import Base Floats Value StructMod Format Ser Exec.

(** ** zip *)
Section Zip.
Context {A : Type}.
(** Iterators over finite sequences are the lists of the items to come; several iterables: the first and the others. *)

(** one item of each iterator, from left to right, until one has none: the row if there is one, and the iterators
    afterwards (the items taken from those on the left are gone) *)
Fixpoint pull (its : list (list A)) : option (list A) * list (list A) :=
  match its with
  | [] => (Some [], [])
  | [] :: r => (None, [] :: r)
  | (a :: l) :: r => match pull r with
                     | (Some row, r') => (Some (a :: row), l :: r')
                     | (None, r') => (None, l :: r')
                     end
  end.
(** platform: [zip(first, *rest)]; the rows, and the iterators afterwards *)
Fixpoint zip_loop (first : list A) (rest : list (list A)) : list (list A) * list (list A) :=
  match first with
  | [] => ([], [] :: rest)
  | a :: l => match pull rest with
              | (Some row, rest') => let (rows, its) := zip_loop l rest' in ((a :: row) :: rows, its)
              | (None, rest') => ([], l :: rest')
              end
  end.
Definition exhausted (l : list A) : bool := match l with [] => true | _ => false end.
(** platform: [zip(first, *rest, strict=True)] of Python >= 3.10 (utils.py:49-50).  When the first iterator is exhausted the others
    must be exhausted too; when another one is, the first has given one more item. *)
Fixpoint zip_strict (first : list A) (rest : list (list A)) : list (list A) * option exn :=
  match first with
  | [] => ([], if forallb exhausted rest then None else Some ValueError)
  | a :: l => match pull rest with
              | (Some row, rest') => let (rows, e) := zip_strict l rest' in ((a :: row) :: rows, e)
              | (None, _) => ([], Some ValueError)
              end
  end.
(** utils.py:33-48: [zips(first, *rest, strict=strict)] of Python 3.9.  The [next] calls after the loop meet the
    iterators as the loop leaves them. *)
Definition zips (strict : bool) (first : list A) (rest : list (list A)) : list (list A) * option exn :=
  let (rows, its) := zip_loop first rest in
  (rows, if strict then if forallb exhausted its then None else Some ValueError else None).
End Zip.

(** ** attrgetter *)
(** [str.split('.')] *)
Fixpoint split_dots (s : string) : list string :=
  match s with
  | EmptyString => [EmptyString]
  | String c s' =>
      if Ascii.eqb c "."%char then EmptyString :: split_dots s'
      else match split_dots s' with
           | x :: l => String c x :: l
           | [] => [String c EmptyString]
           end
  end.
(** [getattr(value, name)].  Simplification: only Structured objects have attributes, and those are the instance
    attributes. *)
Definition getattr_value (v : value) (a : string) : res value :=
  match v with
  | VObj _ _ d => match assoc a d with Some x => Ok x | None => Err AttributeError end
  | _ => Err AttributeError
  end.
Fixpoint getattr_path (v : value) (p : list string) : res value :=
  match p with [] => Ok v | a :: p' => rdo x <- getattr_value v a; getattr_path x p' end.
(** platform: [operator.attrgetter( *names)(v)]: names may be dotted; one name gives the value, more give a tuple *)
Definition operator_attrgetter (names : list string) (v : value) : res value :=
  match names with
  | [] => Err TypeError
  | [a] => getattr_path v (split_dots a)
  | _ => rdo vs <- rmapM (fun a => getattr_path v (split_dots a)) names; Ok (VTuple vs)
  end.
(** utils.py:53-64; the result is used as [*getter(v)] (structured.py:216, 264, 272, 281), so iterated *)
Definition attrgetter (names : list string) (v : value) : res (list value) :=
  match names with
  | [] => Ok []
  | [_] => rdo x <- operator_attrgetter names v; Ok [x]
  | _ => rdo t <- operator_attrgetter names v; py_iter t
  end.

(** ** Unpacking on Python 3.9 *)
Section Exec39.
Variable hb : bool.
Variable ct : nat -> option cdef.

Section Step.
Variable rec : ser -> src -> M (list value).
(** structured.py:228-260 and 478-481 with the [zips] of Python 3.9: as [fill] of Exec.v, but when the values end the
    name already taken from [attrs] is not seen by the check at the end (utils.py:38-47) *)
Definition fill39 (x : ser) (s : src) (names : list string) (d : list (string * value)) (w : world)
  : res unit * list (string * value) * world :=
  let finish names' d' w' :=
    match names' with [] | [_] => (Ok tt, d', w') | _ => (Err ValueError, d', w') end in
  match x with
  | SCompound id subs =>
      match fill_subs hb rec None subs s 0 names d w with
      | (Err e, d', w') => (Err e, d', w')
      | (Ok (names', size), d', w') => finish names' d' (snd (set_size id size w'))
      end
  | SSpec id subs o =>
      match fill_subs hb rec (Some o) subs s 0 names d w with
      | (Err e, d', w') => (Err e, d', w')
      | (Ok (names', size), d', w') => finish names' d' (snd (set_size id size w'))
      end
  | _ =>
      match rec x s w with
      | (Err e, w') => (Err e, d, w')
      | (Ok vs, w') =>
          match assign names vs d with
          | (None, d') => (Err ValueError, d', w')
          | (Some names', d') => finish names' d' w'
          end
      end
  end.
(** structured.py:284-327 and 483-484: [cls( *proxy)] asks the proxy for every attribute.
    Simplification: a missing attribute called "cls" is missing (the proxy has one of its own, structured.py:476) *)
Definition create_step39 (c : nat) (s : src) : M value := fun w =>
  match ct c with
  | None => (Err AttributeError, w)
  | Some cd =>
      match prep false (c_ser cd) (PO c true []) w with
      | (Err e, w') => (Err e, w')
      | (Ok x, w') =>
          match fill39 x s (c_attrs cd) [] w' with
          | (Err e, _, w'') => (Err e, w'')
          | (Ok tt, d, w'') =>
              (rmap (fun vs => VObj c None (zipw (c_attrs cd) vs)) (get_attrs (c_attrs cd) d), w'')
          end
      end
  end.
(** structured.py:228-260 *)
Definition refill_step39 (c : nat) (ov : option border) (d : list (string * value)) (s : src) (w : world)
  : res unit * list (string * value) * world :=
  match ct c with
  | None => (Err AttributeError, d, w)
  | Some cd =>
      match prep false (obj_ser cd ov) (PO c false d) w with
      | (Err e, w') => (Err e, d, w')
      | (Ok x, w') => fill39 x s (c_attrs cd) d w'
      end
  end.
(** serializers/structured.py:66-81; the other serializers do not use [zips] *)
Definition unpack_step39 (x : ser) (s : src) : M (list value) :=
  match x with
  | SStructd id c =>
      mdo v <- create_step39 c s;
      mdo z <- obj_size hb ct c None;
      set_size id z;; ret [v]
  | _ => unpack_step hb ct rec x s
  end.
End Step.
Fixpoint unpack39 (n : nat) (x : ser) (s : src) : M (list value) :=
  match n with
  | O => raise RecursionError
  | S n' => unpack_step39 (unpack39 n') x s
  end.
(** structured.py:284-327 *)
Definition create39 (n : nat) (c : nat) (s : src) : M value := create_step39 (unpack39 n) c s.
(** structured.py:228-260 *)
Definition Structured_unpack39 (n : nat) (c : nat) (ov : option border) (d : list (string * value)) (s : src) :=
  refill_step39 (unpack39 n) c ov d s.
End Exec39.
