(** From type hints to classes: the hint factories ([char], [unicode], [Header], [array], [pad], ...), the
    transformation of a hint into a serializer ([annotated.transform]), generic specialization and
    [Structured.__init_subclass__].  Python's [typing] objects are data here. *)
From Coq Require Import DecimalString.
From Verif Require Import Base Floats Value StructMod Format Ser Exec.

(** The factories which produce a [StructuredAlias] when given type variables (utils.py:67-80) *)
Inductive akind := AkChar | AkUnicode | AkHeader | AkArray | AkTuple.

(** Objects found as hints, as metadata of [Annotated], or as arguments of factories.
    - [PSer]: an instance of a Serializer class       - [PAnn]: [typing.Annotated[base, metadata...]]
    - [PClass]: a Structured class (by number)        - [PGen]: [C[args]], C a generic Structured class
    - [PSelf]: [typing.Self]                          - [PTuple]: [tuple[args]]
    - [PTupleVar]: [tuple[x, ...]]                    - [PUnion]: [Union[args]]
    - [PTVar]: a TypeVar                              - [PAlias]: StructuredAlias(char/.../Tuple, args)
    - [PGenAlias c sa args]: StructuredAlias(C[sa], args) (serializers/structured.py:109)
    - [PClassVar]: [ClassVar[h]]                      - [PUnindexed]: a class derived from requires_indexing
    - [PFwd]: a string annotation that evaluates to the hint (from __future__ import annotations)
    - [PCond]: a [Condition] object                   - [PSerAs]: a [SerializeAs] object, its [serializer]
    - [PInt], [PBytes], [PInf] (math.inf), [PNET], [PCodec] (encoding): arguments of char and unicode
    - [PHeader]: a [Header] instance
    - [POther tag a]: any other class or object; called with one argument it behaves as [a].
    [Annotated] is kept flat by [typing]: build it with [mk_ann]. *)
Inductive pyh :=
| PNone
| PSer (s : ser)
| PAnn (b : pyh) (meta : list pyh)
| PClass (c : nat)
| PGen (c : nat) (args : list pyh)
| PSelf
| PTuple (args : list pyh)
| PTupleVar (a : pyh)
| PUnion (args : list pyh)
| PTVar (t : nat)
| PAlias (k : akind) (args : list pyh)
| PGenAlias (c : nat) (sa : list pyh) (args : list pyh)
| PClassVar (h : pyh)
| PFwd (h : pyh)
| PUnindexed
| PCond (f : decider) (defaults : list value)
| PSerAs (st : sspec)
| PInt (z : Z)
| PBytes (b : bytes)
| PInf
| PNET
| PCodec (cd : codec)
| PHeader (count : Z + sspec) (size : option sspec)
| POther (tag : nat) (a : action).

(** builtin classes *)
Definition t_int : pyh := POther 0 (fun v => Ok v).
Definition t_bytes : pyh := POther 1 (fun v => Ok v).
Definition t_str : pyh := POther 2 (fun v => Ok v).
Definition t_list : pyh := POther 3 (fun v => Ok v).
Definition t_none : pyh := POther 4 (fun v => Ok v).
Definition t_bool : pyh := POther 5 (fun v => Ok v).
Definition t_float : pyh := POther 6 (fun v => Ok v).

(** [typing]: [Annotated[Annotated[b, m], n]] is [Annotated[b, m, n]] *)
Definition mk_ann (b : pyh) (meta : list pyh) : pyh :=
  match b with PAnn b' m' => PAnn b' (m' ++ meta) | _ => PAnn b meta end.

(** hint_types/basic_types.py:26-37: [Annotated[int, StructSerializer('H')]] etc. *)
Definition basic (c : code) : pyh :=
  PAnn (match c with Cbool => t_bool | Ce | Cf | Cd => t_float | _ => t_int end)
       [PSer (SStruct (SS BO_DEFAULT [T None c] None))].
(** hint_types/basic_types.py:40: membership in [_SizeTypes] *)
Definition size_code (c : code) : bool := match c with CB | CH | CI | CQ => true | _ => false end.
Definition size_type (h : pyh) : option sspec :=
  match h with
  | PAnn (POther O _) [PSer (SStruct (SS BO_DEFAULT [T None c] None as st))] => if size_code c then Some st else None
  | _ => None
  end.

Definition is_tv (h : pyh) : bool := match h with PTVar _ => true | _ => false end.
Definition is_alias (h : pyh) : bool := match h with PAlias _ _ | PGenAlias _ _ _ => true | _ => false end.
Definition as_ser (h : pyh) : option ser := match h with PSer s => Some s | _ => None end.
Fixpoint all_sers (l : list pyh) : option (list ser) :=
  match l with
  | [] => Some []
  | PSer s :: l' => option_map (cons s) (all_sers l')
  | _ :: _ => None
  end.
Definition o2s (o : option sspec) : ser := match o with Some st => SStruct st | None => SNull end.

(** [typing]: substitute in the arguments of a generic class; opaque inside other objects *)
Fixpoint tassoc (t : nat) (m : list (nat * pyh)) : option pyh :=
  match m with [] => None | (u, h) :: m' => if Nat.eqb t u then Some h else tassoc t m' end.
Fixpoint ty_subst (m : list (nat * pyh)) (h : pyh) : pyh :=
  match h with
  | PTVar t => match tassoc t m with Some x => x | None => h end
  | PGen c args => PGen c (map (ty_subst m) args)
  | PTuple args => PTuple (map (ty_subst m) args)
  | PUnion args => PUnion (map (ty_subst m) args)
  | PTupleVar a => PTupleVar (ty_subst m a)
  | PAnn b meta => mk_ann (ty_subst m b) meta
  | _ => h
  end.
(** [typing]: [__parameters__], the type variables in order of first appearance *)
Fixpoint ty_vars (h : pyh) : list nat :=
  match h with
  | PTVar t => [t]
  | PGen _ args | PTuple args | PUnion args => flat_map ty_vars args
  | PTupleVar a | PAnn a _ => ty_vars a
  | _ => []
  end.
Fixpoint uniq (l : list nat) : list nat :=
  match l with [] => [] | t :: l' => t :: filter (fun u => negb (Nat.eqb u t)) (uniq l') end.
Definition ty_params (args : list pyh) : list nat := uniq (flat_map ty_vars args).
(** [typing]: [C[sa][args]]; too few or too many arguments: TypeError *)
Definition gen_getitem (c : nat) (sa args : list pyh) : res pyh :=
  let ps := ty_params sa in
  if Nat.eqb (List.length ps) (List.length args)
  then Ok (PGen c (map (ty_subst (zipw ps args)) sa)) else Err TypeError.

(** ** annotated.transform *)
(** type_checking.py:148-157 [flatten_Annotated] *)
Fixpoint metas (m : pyh) : list pyh :=
  match m with PAnn _ ms => flat_map metas ms | _ => [m] end.

(** [callable(x)] of a hint used as an action by SerializeAs (serialize_as.py:41) *)
Definition act_of (h : pyh) : action := match h with POther _ a => a | _ => fun _ => Err TypeError end.

Section Transform.
(** [cls.serializer.is_final()] of the classes defined so far; the class created for a fully specialized
    generic hint (serializers/structured.py:88-105, including its cache); the identity of the
    serializer object created for the hint at a path: arbitrary, so shared objects are covered. *)
Variable fin : nat -> bool.
Variable spec : nat -> list pyh -> res nat.
Variable idf : list nat -> nat.

(** the registered transforms, each [base -> annotation -> new base, or None] *)
(** hint_types/tuples.py:10-17; [subs]: the transformed arguments *)
Definition tr_tuple (p : list nat) (subs : res (list pyh)) (base : pyh) : res (option pyh) :=
  match base with
  | PTuple ((_ :: _) as args) =>
      if existsb (fun a => is_tv a || is_alias a) args then Ok (Some (PAlias AkTuple args))
      else rdo hs <- subs;
           match all_sers hs with
           | Some l => rdo s <- ssum fin (idf (0 :: p)%nat) l; Ok (Some (PSer (STuple (idf p) s)))
           | None => Ok None
           end
  | _ => Ok None
  end.
(** hint_types/serialize_as.py:34-41 *)
Definition tr_seras (base ann : pyh) : res (option pyh) :=
  match ann with
  | PSerAs st => Ok (Some (PSer (SStruct (match s_act st with
                                          | Some _ => st
                                          | None => mk_action (s_bo st) (s_fmt st) [act_of base]
                                          end))))
  | _ => Ok None
  end.
(** hint_types/condition.py:39-47, serializers/conditional.py:45-56 *)
Definition tr_cond (base ann : pyh) : res (option pyh) :=
  match ann with
  | PCond f d => match base with
                 | PSer s => if Nat.eqb (num_values s) (List.length d)
                             then Ok (Some (PSer (SCond f s d))) else Err ValueError
                 | _ => Err TypeError
                 end
  | _ => Ok None
  end.
(** serializers/unions.py:94-102 *)
Definition is_decider (s : ser) : bool :=
  match s with SLookback _ _ _ _ | SLookahead _ _ _ _ _ => true | _ => false end.
Definition tr_union (subs : res (list pyh)) (base ann : pyh) : res (option pyh) :=
  match ann with
  | PSer s =>
      if is_decider s then
        match base with
        | PUnion (_ :: _) => rdo hs <- subs;
                             Ok (match all_sers hs with Some _ => Some ann | None => None end)
        | _ => Err TypeError
        end
      else Ok None
  | _ => Ok None
  end.
(** serializers/self.py:30-33 *)
Definition tr_self (p : list nat) (base : pyh) : res (option pyh) :=
  match base with PSelf => Ok (Some (PSer (SSelf (idf p)))) | _ => Ok None end.
(** serializers/structured.py:83-109: only the arguments themselves are checked for type variables *)
Definition tr_structured (p : list nat) (base : pyh) : res (option pyh) :=
  match base with
  | PClass c => Ok (Some (PSer (SStructd (idf p) c)))
  | PGen c args =>
      if existsb is_tv args then Ok (Some (PGenAlias c args args))
      else rdo k <- spec c args; Ok (Some (PSer (SStructd (idf p) k)))
  | _ => Ok None
  end.
(** base_types.py:42-46 *)
Definition tr_indexing (base ann : pyh) : res (option pyh) :=
  match base, ann with PUnindexed, _ | _, PUnindexed => Err TypeError | _, _ => Ok None end.
(** structured.py:56-58 *)
Definition tr_final (ann : pyh) : res (option pyh) :=
  match ann with PSer _ => Ok (Some ann) | _ => Ok None end.
(** structured.py:442-446 [alias_tvar_check] *)
Definition tr_check (base ann : pyh) : res (option pyh) :=
  Ok (if is_tv base || is_alias base then Some base else if is_tv ann || is_alias ann then Some ann else None).

Definition step (f : pyh -> res (option pyh)) (base : pyh) : res pyh :=
  rdo o <- f base; Ok (match o with Some b => b | None => base end).
(** type_checking.py:159-167: one annotation, the transforms in reverse order of registration
    ([chk]: with the check of [with_final], 173-174, which therefore comes first) *)
Definition pass (chk : bool) (p : list nat) (subs : res (list pyh)) (ann base : pyh) : res pyh :=
  rdo b0 <- (if chk then step (fun b => tr_check b ann) base else Ok base);
  rdo b1 <- step (tr_tuple p subs) b0;
  rdo b2 <- step (fun b => tr_seras b ann) b1;
  rdo b3 <- step (fun b => tr_cond b ann) b2;
  rdo b4 <- step (fun b => tr_union subs b ann) b3;
  rdo b5 <- step (tr_self p) b4;
  rdo b6 <- step (tr_structured p) b5;
  rdo b7 <- step (fun b => tr_indexing b ann) b6;
  step (fun _ => tr_final ann) b7.
Fixpoint passes (chk : bool) (p : list nat) (subs : res (list pyh)) (anns : list pyh) (base : pyh) : res pyh :=
  match anns with
  | [] => Ok base
  | a :: anns' => rdo b <- pass chk p subs a base; passes chk p subs anns' b
  end.

(** type_checking.py:159-167 [transform]; the arguments of a tuple or union are transformed when the
    respective transform looks at them *)
Fixpoint transform (chk : bool) (p : list nat) (h : pyh) : res pyh :=
  match h with
  | PAnn b meta =>
      passes chk p (match b with
                    | PTuple args | PUnion args =>
                        (fix go i l := match l with
                                       | [] => Ok []
                                       | x :: l' => rdo y <- transform false (S i :: p) x;
                                                    rdo ys <- go (S i) l'; Ok (y :: ys)
                                       end) O args
                    | _ => Ok []
                    end) (PNone :: flat_map metas meta) b
  | PTuple args | PUnion args =>
      passes chk p ((fix go i l := match l with
                                   | [] => Ok []
                                   | x :: l' => rdo y <- transform false (S i :: p) x;
                                                rdo ys <- go (S i) l'; Ok (y :: ys)
                                   end) O args) [PNone] h
  | _ => passes chk p (Ok []) [PNone] h
  end.

(** ** The factories.  [fac] is the identity of the serializer object made for given arguments (the
    factories are cached, so it is a function of the arguments); the item of an array gets a path of its
    own. *)
Variable fac : akind -> list pyh -> nat.

(** hint_types/basic_types.py:44-73, [pad[n]] and [pascal[n]] *)
Definition pad_getitem (n : Z) : res pyh :=
  rdo o <- ss_matmul (SS BO_DEFAULT [T None Cx] None) n; Ok (PAnn t_none [PSer (o2s o)]).
Definition pascal_getitem (n : Z) : res pyh :=
  rdo o <- ss_matmul (SS BO_DEFAULT [T None Cp] None) n; Ok (PAnn t_bytes [PSer (o2s o)]).
(** hint_types/strings.py:60-84, serializers/strings.py:190-194 *)
Definition char_create (c : pyh) : res pyh :=
  let id := fac AkChar [c] in
  match size_type c with
  | Some st => Ok (PAnn t_bytes [PSer (SDynChar id st)])
  | None =>
      match c with
      | PInt z => rdo o <- ss_matmul single_char z; Ok (PAnn t_bytes [PSer (o2s o)])
      | PNET => Ok (PAnn t_bytes [PSer (SNet id)])
      | PTVar _ => Ok (PAlias AkChar [c])
      | PBytes b => match b with [t] => Ok (PAnn t_bytes [PSer (STerm id t)]) | _ => Err ValueError end
      | PInf => Ok (PAnn t_bytes [PSer (SConsume id)])
      | _ => Err TypeError
      end
  end.
(** hint_types/strings.py:145-177 *)
Definition unicode_create (c enc : pyh) : res pyh :=
  if is_tv c then Ok (PAlias AkUnicode [c; enc])
  else match enc with
       | PCodec cd =>
           rdo h <- char_create c;
           rdo s <- transform false [] h;
           match s with PSer s => Ok (PAnn t_str [PSer (SUnicode s cd)]) | _ => Err TypeError end
       | _ => Err TypeError
       end.
(** hint_types/arrays.py:54-80 *)
Definition header_create (l s : pyh) : res pyh :=
  if is_tv l || is_tv s then Ok (PAlias AkHeader [l; s])
  else
    rdo count <- (match size_type l, l with
                  | Some st, _ => Ok (inr st)
                  | None, PInt z => if z <? 0 then Err ValueError else Ok (inl z)
                  | None, _ => Err TypeError
                  end);
    match size_type s, s with
    | Some st, _ => Ok (PHeader count (Some st))
    | None, PNone => Ok (PHeader count None)
    | None, _ => Err TypeError
    end.
(** hint_types/arrays.py:86-137 *)
Definition array_create (h item : pyh) : res pyh :=
  let id := fac AkArray [h; item] in
  if is_alias h || is_tv item then Ok (PAlias AkArray [h; item])
  else match h with
  | PHeader count size =>
      rdo it <- transform false [0; 0; id]%nat item;
      match it with
      | PSer s =>
          if is_final fin s then Err TypeError
          else
            match s, Nat.eqb (num_values s) 1 with
            | SStruct st, true =>
                match count with
                | inl z => Ok (PAnn t_list [PSer (SStaticArr (Z.to_nat z) st)])
                | inr c => Ok (PAnn t_list [PSer (SDynArr id c st)])
                end
            | _, _ =>
                match count, size with
                | inl z, None => Ok (PAnn t_list [PSer (SArray id None s z)])
                | inl z, Some d => Ok (PAnn t_list [PSer (SArray id (Some d) s z)])
                | inr c, None => Ok (PAnn t_list [PSer (SArray id (Some c) s (-1))])
                | inr c, Some d => rdo cd <- ss_add c d; Ok (PAnn t_list [PSer (SArray id (Some cd) s (-1))])
                end
            end
      | _ => Err TypeError
      end
  | _ => Err TypeError
  end.
(** hint_types/serialize_as.py:19-32 *)
Definition serialize_as (h : pyh) : res pyh :=
  rdo s <- transform false [] h;
  match s with
  | PSer (SStruct st) => if Nat.eqb (ss_nvals st) 1 then Ok (PSerAs st) else Err TypeError
  | _ => Err TypeError
  end.
Definition with_factory (a : action) (h : pyh) : res pyh :=
  match h with
  | PSerAs st => Ok (PSerAs (mk_action (s_bo st) (s_fmt st) [a]))
  | _ => Err AttributeError
  end.
(** serializers/unions.py:61-68 *)
Definition validate_serializer (id : nat) (h : pyh) : res ser :=
  rdo s <- transform false [0; 0; id]%nat h;
  match s with
  | PSer s => if Nat.eqb (num_values s) 1 then Ok s else Err ValueError
  | _ => Err TypeError
  end.
(** serializers/unions.py:42-54, 115-128, 176-191: the default is validated first *)
Definition validate_map (id : nat) (m : list (value * pyh)) (d : option pyh) : res (list (value * ser) * option ser) :=
  rdo d' <- (match d with None => Ok None | Some h => rmap Some (validate_serializer id h) end);
  rdo m' <- rmapM (fun e => rmap (pair (fst e)) (validate_serializer id (snd e))) m;
  Ok (m', d').
Definition lookback (id : nat) (f : decider) (m : list (value * pyh)) (d : option pyh) : res pyh :=
  rdo (m', d') <- validate_map id m d; Ok (PSer (SLookback id f m' d')).
Definition lookahead (id : nat) (ra : pyh) (f : decider) (m : list (value * pyh)) (d : option pyh) : res pyh :=
  rdo (m', d') <- validate_map id m d;
  rdo r <- transform false [0; 0; id]%nat ra;
  match r with PSer r => Ok (PSer (SLookahead id r f m' d')) | _ => Err TypeError end.

(** [self.cls[resolved]] in utils.py:102 *)
Definition getitem (k : akind) (args : list pyh) : res pyh :=
  match k, args with
  | AkChar, [c] => char_create c
  | AkUnicode, [c; e] => unicode_create c e
  | AkHeader, [l; s] => header_create l s
  | AkArray, [h; i] => array_create h i
  | AkTuple, _ => Ok (PTuple args)
  | _, _ => Err TypeError
  end.

(** ** Generics *)
(** utils.py:82-102 [StructuredAlias.resolve]; [n]: recursion limit.  An argument that was just
    substituted is resolved again with the same map when it is an alias. *)
Fixpoint resolve_alias (n : nat) (m : list (nat * pyh)) (h : pyh) : res pyh :=
  match n with
  | O => Err RecursionError
  | S n' =>
      let args0 := match h with PAlias _ args | PGenAlias _ _ args => args | _ => [] end in
      rdo args <- rmapM (fun a =>
                           let a' := match a with
                                     | PTVar t => match tassoc t m with Some x => x | None => a end
                                     | _ => a
                                     end in
                           if is_alias a' then resolve_alias n' m a' else Ok a') args0;
      let open := existsb (fun a => is_tv a || is_alias a) args in
      match h with
      | PAlias k _ => if open then Ok (PAlias k args) else getitem k args
      | PGenAlias c sa _ => if open then Ok (PGenAlias c sa args) else gen_getitem c sa args
      | _ => Err AttributeError
      end
  end.
End Transform.

(** ** Dictionaries (insertion order kept) *)
Definition dict := list (string * pyh).
(** [d.update(e)] *)
Definition dict_update {A} (d e : list (string * A)) : list (string * A) :=
  fold_left (fun d kv => assoc_set (fst kv) (snd kv) d) e d.
(** [typing.get_type_hints(cls, include_extras=True)]: annotations of the classes of the MRO, last to
    first; string annotations are evaluated *)
Definition eval_fwd (h : pyh) : pyh := match h with PFwd x => x | _ => h end.
Definition get_type_hints (mro : list dict) : dict :=
  map (fun kv => (fst kv, eval_fwd (snd kv))) (fold_left dict_update (rev mro) []).

(** structured.py:46-53 *)
Definition ends_in_x (f : fmt) : bool :=
  match split_last f with Some (_, t) => code_eqb (t_code t) Cx | None => false end.
Definition ser_ispad (s : ser) : bool :=
  match s with SStruct st => Nat.eqb (ss_nvals st) 0 && ends_in_x (s_fmt st) | _ => false end.

(** structured.py:170-182 [MetaDict]: the annotations of a class body, given in order; [k] is the next
    value of the counter *)
Definition pad_name (k : nat) : string :=
  (NilEmpty.string_of_uint (Nat.to_uint k) ++ "_pad_")%string.
Definition ispad (fin : nat -> bool) (spec : nat -> list pyh -> res nat) (idf : list nat -> nat) (h : pyh) : res bool :=
  rdo s <- transform fin spec idf false [] h;
  Ok (match s with PSer s => ser_ispad s | _ => false end).
Fixpoint class_body (fin : nat -> bool) (spec : nat -> list pyh -> res nat) (idf : list nat -> nat)
  (k : nat) (body : list (string * pyh)) (d : dict) : res (dict * nat) :=
  match body with
  | [] => Ok (d, k)
  | (a, h) :: body' =>
      if String.eqb a "_" then
        rdo b <- ispad fin spec idf h;
        if b then class_body fin spec idf (S k) body' (assoc_set (pad_name k) h d)
        else class_body fin spec idf k body' (assoc_set a h d)
      else class_body fin spec idf k body' (assoc_set a h d)
  end.

(** structured.py:202-205: the annotations of [Structured] itself *)
Definition structured_ann : dict :=
  [("serializer", PClassVar PNone); ("attrs", PClassVar PNone); ("_attrgetter", PClassVar PNone);
   ("byte_order", PClassVar PNone)]%string.

(** What the library can find out about a class: own annotations, annotations along the MRO (own first),
    arguments of [Generic[...]], generic Structured bases with their arguments, byte order, and the
    result of the definition. *)
Record cinfo := CInfo {
  ci_ann : dict; ci_mro : list dict; ci_tvars : list nat; ci_supers : list (nat * list pyh); ci_def : cdef }.

Section Define.
Variable env : nat -> option cinfo.
Variable spec : nat -> list pyh -> res nat.
Variable idf : list nat -> nat.
Variable fac : akind -> list pyh -> nat.
Definition efin (c : nat) : bool := match env c with Some i => c_final (ci_def i) | None => false end.

(** structured.py:421-464 [_get_specialization_hints]; [n]: recursion limit *)
Fixpoint spec_hints (n : nat) (c : nat) (args : list pyh) : res dict :=
  match n with
  | O => Err RecursionError
  | S n' =>
      match env c with
      | None => Err AttributeError
      | Some i =>
          let m := zipw (ci_tvars i) args in
          match m with
          | [] => Err TypeError                                             (* 437-438 *)
          | _ =>
              rdo own <-
                (fix go l := match l with
                 | [] => Ok []
                 | (a, h) :: l' =>
                     rdo x <- (match assoc a (ci_ann i) with
                               | None => Ok None
                               | Some _ =>
                                   rdo u <- transform efin spec idf true [] h;
                                   match u with
                                   | PTVar t => Ok (tassoc t m)
                                   | PAlias _ _ | PGenAlias _ _ _ => rmap Some (resolve_alias efin spec idf fac n' m u)
                                   | _ => Ok None
                                   end
                               end);
                     rdo r <- go l';
                     Ok (match x with Some y => (a, y) :: r | None => r end)
                 end) (get_type_hints (ci_mro i));                          (* 448-456 *)
              rdo supers <-
                rmapM (fun s => spec_hints n' (fst s)
                                  (map (fun a => match a with
                                                 | PTVar t => match tassoc t m with Some x => x | None => a end
                                                 | _ => a
                                                 end) (snd s))) (ci_supers i);   (* 459-463 *)
              Ok (dict_update (fold_left dict_update (rev supers) []) own)  (* 464 *)
          end
      end
  end.

(** structured.py:78-94 *)
Fixpoint filter_typehints (i : nat) (hints : dict) : res (list (string * ser)) :=
  match hints with
  | [] => Ok []
  | (a, h) :: hints' =>
      rdo x <- (match h with PClassVar _ => Ok PNone | _ => transform efin spec idf false [i] h end);
      rdo r <- filter_typehints (S i) hints';
      Ok (match x with PSer s => (a, s) :: r | _ => r end)
  end.

(** structured.py:394-401: [init_vars] starts with 'self', which is cut off again *)
Definition attrs_of (hints : list (string * ser)) : list string :=
  let vars := filter (fun kv => negb (ser_ispad (snd kv))) hints in
  tl (map fst (dict_update [("self"%string, SNull)] vars)).

Inductive bomode := STRICT | OVERRIDE.

(** structured.py:344-419 [__init_subclass__].  [body]: annotations of the class body; [bases]: the Structured
    base classes, each with its arguments if written as [C[args]]; [tvars]: arguments of [Generic[...]].
    Simplifications: other base classes have no annotations; the text of the generated __init__ is
    not modelled (120-167, 405-414); [n]: recursion limit for generic specialization. *)
Definition define (n : nat) (body : dict) (bases : list (nat * option (list pyh))) (tvars : list nat)
  (bo : border) (mode : bomode) : res cinfo :=
  match bases with
  | _ :: _ :: _ => Err TypeError                                            (* 105-113 *)
  | _ =>
      rdo base <- (match bases with
                   | (c, args) :: _ => match env c with
                                       | Some i => Ok (Some (c, args, i))
                                       | None => Err AttributeError
                                       end
                   | [] => Ok None
                   end);
      rdo _ <- (match base, mode with
                | Some (_, _, i), STRICT => if border_eqb (c_bo (ci_def i)) bo then Ok tt else Err ValueError
                | _, _ => Ok tt
                end);                                                       (* 365-375 *)
      rdo own <- (match base with
                  | Some (c, Some args, _) => rdo s <- spec_hints n c args; Ok (dict_update body s)
                  | _ => Ok body
                  end);                                                     (* 377-387 *)
      let mro := own :: (match base with Some (_, _, i) => ci_mro i | None => [structured_ann] end) in
      rdo hints <- filter_typehints O (get_type_hints mro);
      rdo s <- ssum efin (idf []) (map snd hints);
      let s' := with_bo bo s in
      Ok (CInfo own mro tvars (match base with Some (c, Some args, _) => [(c, args)] | _ => [] end)
             (CD (attrs_of hints) s' bo (is_final efin s')))                (* 415-419 *)
  end.
End Define.
