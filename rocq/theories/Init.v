(** The constructor of a Structured class: the generated [__init__] (structured.py:120-167), where it is installed
    (structured.py:344-348, 405-414), [__post_init__] (structured.py:207-210), and the places in the library that call the
    constructor: [create_unpack*] (structured.py:284-328 through [_Proxy], 467-484) and [with_byte_order]
    (structured.py:212-219).

    Exec.v builds the object directly ([VObj c None (zipw names values)]); PropsInit.v shows when that is what calling
    the class gives.

    Simplifications: the annotation text in the generated signature is not modelled (structured.py has
    [from __future__ import annotations], which [exec] inherits, so the text is never evaluated); [__new__] is
    [object.__new__]; instance attributes are a dict ([__slots__] and descriptors are not modelled). *)
From Verif Require Import Base Floats Value StructMod Format Ser Exec.
Open Scope string_scope. Open Scope list_scope. Open Scope Z_scope.

Notation env := (list (string * value)).

(** ** calling a function whose parameters are all positional-or-keyword, without defaults (which is what the
    [def __init__(self, a, b, ...)] line of structured.py:155-156 makes): parameters in order, arguments left over or
    missing raise [TypeError] *)
Fixpoint has (k : string) (l : list string) : bool :=
  match l with [] => false | x :: l' => String.eqb k x || has k l' end.
Fixpoint uniq (l : list string) : bool :=
  match l with [] => true | x :: l' => negb (has x l') && uniq l' end.
Fixpoint bind_params (params : list string) (pos : list value) (kw : env) : res env :=
  match params, pos with
  | [], [] => Ok []
  | [], _ :: _ => Err TypeError                                (* takes n positional arguments but m were given *)
  | p :: ps, v :: vs =>
      if has p (map fst kw) then Err TypeError                 (* got multiple values for argument *)
      else rdo r <- bind_params ps vs kw; Ok ((p, v) :: r)
  | p :: ps, [] =>
      match assoc p kw with
      | None => Err TypeError                                  (* missing required positional argument *)
      | Some v => rdo r <- bind_params ps [] kw; Ok ((p, v) :: r)
      end
  end.
Definition bind_call (params : list string) (pos : list value) (kw : env) : res env :=
  if negb (uniq (map fst kw)) then Err TypeError               (* got multiple values for keyword argument *)
  else if negb (forallb (fun k => has k params) (map fst kw)) then Err TypeError   (* unexpected keyword argument *)
  else bind_params params pos kw.

(** ** the generated function.  structured.py:394-399: parameters are ['self'] and then the attributes;
    structured.py:157-158: the body assigns every parameter but [self] to the attribute of the same name, in order,
    and then calls [__post_init__] *)
Definition init_params (attrs : list string) : list string := "self" :: attrs.
Definition body_lines (params : list string) : list string := filter (fun a => negb (String.eqb a "self")) params.
Fixpoint run_body (lines : list string) (locals : env) (d : env) : res env :=
  match lines with
  | [] => Ok d
  | a :: rest =>
      match assoc a locals with
      | None => Err TypeError                                  (* not reached: every line names a parameter *)
      | Some v => run_body rest locals (assoc_set a v d)
      end
  end.
(** [post] is the [__post_init__] found on the instance: from the attributes set so far to the attributes it leaves *)
Definition gen_init (attrs : list string) (post : env -> res env) (pos : list value) (kw : env) : res env :=
  rdo locals <- bind_call (init_params attrs) (VNone :: pos) kw;     (* the first argument is the instance itself *)
  rdo d <- run_body (body_lines (init_params attrs)) locals [];
  post d.

(** ** which function runs.  One record for a class and each of its bases, most derived first (single inheritance):
    [i_init] the [init] keyword of the class statement (348), [i_attrs] its [attrs] (401),
    [i_own] an [__init__] in the class body (or put there by a decorator such as [dataclass] on an [init=False] class), [i_post] a [__post_init__] in the class body *)
Definition user_init := list value -> env -> res env.
Record idecl := ID { i_init : bool; i_attrs : list string; i_own : option user_init; i_post : option (env -> res env) }.
Inductive ctor := Generated (attrs : list string) | Own (f : user_init) | ObjectInit.
(** [type(obj).__init__]: structured.py:405-414 installs the generated function on the class itself after the class
    body has run, so it hides one written in the body *)
Fixpoint find_init (chain : list idecl) : ctor :=
  match chain with
  | [] => ObjectInit
  | d :: rest =>
      if i_init d then Generated (i_attrs d)
      else match i_own d with Some f => Own f | None => find_init rest end
  end.
(** [self.__post_init__]; the one of [Structured] does nothing (structured.py:207-210) *)
Fixpoint find_post (chain : list idecl) : env -> res env :=
  match chain with
  | [] => Ok
  | d :: rest => match i_post d with Some f => f | None => find_post rest end
  end.
(** [cls( *pos, **kw)] *)
Definition construct (chain : list idecl) (pos : list value) (kw : env) : res env :=
  match find_init chain with
  | Generated attrs => gen_init attrs (find_post chain) pos kw
  | Own f => f pos kw
  | ObjectInit => match pos, kw with [], [] => Ok [] | _, _ => Err TypeError end
  end.

(** ** the library's calls.  structured.py:292-328: the proxy is filled, then [cls( *proxy)], which reads the attributes
    back from the proxy in order (483-484).  Nested Structured fields are created the same way by their own classes;
    here they keep the generated constructor and the default [__post_init__] (as in Exec.v): the chain given is that of
    the class itself. *)
Section Calls.
Variable hb : bool.
Variable ct : nat -> option cdef.
Definition create_calling (chain : list idecl) (n : nat) (c : nat) (s : src) : M value := fun w =>
  match ct c with
  | None => (Err AttributeError, w)
  | Some cd =>
      match prep false (c_ser cd) (PO c true []) w with
      | (Err e, w') => (Err e, w')
      | (Ok x, w') =>
          match fill hb (unpack hb ct n) x s (c_attrs cd) [] w' with
          | (Err e, _, w'') => (Err e, w'')
          | (Ok tt, d, w'') =>
              (rdo vs <- get_attrs (c_attrs cd) d; rmap (VObj c None) (construct chain vs []), w'')
          end
      end
  end.
(** structured.py:212-219: [type(self)( *type(self)._attrgetter(self))], then the two instance attributes *)
Definition with_byte_order_calling (chain : list idecl) (bo : border) (v : value) : res value :=
  match v with
  | VObj c ov d =>
      match ct c with
      | None => Err AttributeError
      | Some cd =>
          if border_eqb bo (match ov with Some b => b | None => c_bo cd end) then Ok v
          else rdo vs <- get_attrs (c_attrs cd) d;
               rmap (VObj c (Some bo)) (construct chain vs [])
      end
  | _ => Err AttributeError
  end.
End Calls.
