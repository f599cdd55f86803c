(** Execution of the six (un)packing methods of every serializer and of [Structured], as a state
    machine over all mutable fields, the target buffer and the file-like object. *)
From Verif Require Import Base Floats Value StructMod Format Ser.

(** Mutable state.  [w_size id] / [w_obj id] are the attributes [size] / [_partial_object] (tuples.py:
    [_partial_obj]) of serializer object [id]; [None] = attribute not set.  [w_buf] is the bytearray
    given to [pack_into]; [w_data]/[w_pos] the contents and position of a BytesIO-like object. *)
Record world := W {
  w_size : nat -> Z; w_obj : nat -> option pobj; w_buf : bytes; w_data : bytes; w_pos : Z }.

Definition M (A : Type) := world -> res A * world.
Definition ret {A} (a : A) : M A := fun w => (Ok a, w).
Definition raise {A} (e : exn) : M A := fun w => (Err e, w).
Definition lift {A} (r : res A) : M A := fun w => (r, w).
Definition bind {A B} (m : M A) (f : A -> M B) : M B :=
  fun w => match m w with (Ok a, w') => f a w' | (Err e, w') => (Err e, w') end.
Notation "'mdo' x <- m ; k" := (bind m (fun x => k))
  (at level 200, x pattern, m at level 100, k at level 200).
Notation "m ;; k" := (bind m (fun _ => k)) (at level 199, right associativity).

Definition upd {A} (f : nat -> A) (i : nat) (a : A) : nat -> A :=
  fun j => if Nat.eqb j i then a else f j.
Definition set_size (i : nat) (z : Z) : M unit :=
  fun w => (Ok tt, W (upd (w_size w) i z) (w_obj w) (w_buf w) (w_data w) (w_pos w)).
Definition set_obj (i : nat) (o : pobj) : M unit :=
  fun w => (Ok tt, W (w_size w) (upd (w_obj w) i (Some o)) (w_buf w) (w_data w) (w_pos w)).
Definition get_obj (i : nat) : M pobj :=
  fun w => match w_obj w i with Some o => (Ok o, w) | None => (Err AttributeError, w) end.
Definition set_buf (b : bytes) : M unit :=
  fun w => (Ok tt, W (w_size w) (w_obj w) b (w_data w) (w_pos w)).

(** ** BytesIO (platform): read(n), read(), tell/seek, write *)
Definition io_read (n : Z) : M bytes := fun w =>
  let rest := skipn (Z.to_nat (w_pos w)) (w_data w) in
  let b := if n <? 0 then rest else firstn (Z.to_nat n) rest in
  (Ok b, W (w_size w) (w_obj w) (w_buf w) (w_data w) (w_pos w + blen b)).
Definition io_read_all : M bytes := io_read (-1).
Definition io_tell : M Z := fun w => (Ok (w_pos w), w).
Definition io_seek (p : Z) : M unit := fun w =>
  (Ok tt, W (w_size w) (w_obj w) (w_buf w) (w_data w) (Z.max 0 p)).
Definition io_write (b : bytes) : M unit := fun w =>
  let pad := zeros (Z.to_nat (w_pos w - blen (w_data w))) in
  (Ok tt, W (w_size w) (w_obj w) (w_buf w)
            (match b with [] => w_data w | _ => overwrite (w_data w ++ pad) (w_pos w) b end)
            (w_pos w + blen b)).

(** which method is being executed *)
Inductive sink := KPack | KInto (off : Z) | KWrite.
Inductive src := SBuf (b : bytes) | SFrom (b : bytes) (off : Z) | SRead.

(** the argument passed on to the next sub-serializer once [size] bytes are done:
    [buffer[size:]], [offset + size], or the stream itself *)
Definition ksub (k : sink) (size : Z) : sink :=
  match k with KInto off => KInto (off + size) | _ => k end.
Definition ssub (s : src) (size : Z) : src :=
  match s with
  | SBuf b => SBuf (py_from b size)
  | SFrom b off => SFrom b (off + size)
  | SRead => SRead
  end.

Definition nth0 (vs : list value) : res value :=
  match vs with v :: _ => Ok v | [] => Err IndexError end.
Definition one (vs : list value) (e : exn) : res value :=
  match vs with [v] => Ok v | _ => Err e end.
Definition as_int (v : value) : res Z :=
  match as_index v with Some z => Ok z | None => Err TypeError end.
Definition as_bytes (v : value) : res bytes :=
  match v with VBytes b => Ok b | _ => Err TypeError end.

(** A Structured class after creation (structured/structured.py:415-419). [c_final] caches
    [cls.serializer.is_final()]. *)
Record cdef := CD { c_attrs : list string; c_ser : ser; c_bo : border; c_final : bool }.

Section Exec.
(** byte order of the machine, and the table of defined classes *)
Variable hb : bool.
Variable ct : nat -> option cdef.

Definition ss_mode (st : sspec) : mode := mode_of hb (s_bo st).
(** [struct.Struct.size] *)
Definition ss_size (st : sspec) : Z := Z.of_nat (calcsize (ss_mode st) (s_fmt st)).
Definition fin_of (c : nat) : bool := match ct c with Some cd => c_final cd | None => false end.

(** attribute [size] of a serializer: instance attribute, property of the inner serializer
    (strings.py:375-377, tuples.py:35-37, arrays.py:189-191), or missing (Conditional, Self). *)
Fixpoint get_size (s : ser) : M Z :=
  match s with
  | SNull | SSkip _ => ret 0
  | SStruct st => ret (ss_size st)
  | SUnicode inner _ => get_size inner
  | STuple _ inner => get_size inner
  | SStaticArr n item =>
      lift (rdo o <- ss_mul item (Z.of_nat n);
            Ok (match o with Some st => ss_size st | None => 0 end))
  | SCond _ _ _ | SSelf _ => raise AttributeError
  | SDynChar id _ | SConsume id | STerm id _ | SNet id | SDynArr id _ _ | SArray id _ _ _
  | SLookback id _ _ _ | SLookahead id _ _ _ _ | SStructd id _ | SCompound id _ | SSpec id _ _ =>
      fun w => (Ok (w_size w id), w)
  end.

(** StructSerializer packing: inherited [struct.Struct.pack] / [pack_into], structs.py:141-144 *)
Definition put_struct (st : sspec) (k : sink) (vs : list value) : M bytes :=
  match k with
  | KPack => lift (st_pack (ss_mode st) (s_fmt st) vs)
  | KInto off => fun w =>
      let (buf', e) := st_pack_into (ss_mode st) (s_fmt st) (w_buf w) off vs in
      (match e with None => Ok [] | Some e => Err e end,
       W (w_size w) (w_obj w) buf' (w_data w) (w_pos w))
  | KWrite => mdo b <- lift (st_pack (ss_mode st) (s_fmt st) vs); io_write b;; ret []
  end.
(** NullSerializer standing in for a struct (results of [* 0]): api.py:204-222 *)
Definition put_ostruct (o : option sspec) (k : sink) (vs : list value) : M bytes :=
  match o with Some st => put_struct st k vs | None => ret [] end.

(** StructSerializer unpacking: structs.py:127-139, [struct.Struct.unpack_from], actions 240-257 *)
Definition take_struct (st : sspec) (s : src) : M (list value) :=
  mdo vs <- (match s with
             | SBuf b => lift (st_unpack (ss_mode st) (s_fmt st) (py_slice b 0 (ss_size st)))
             | SFrom b off => lift (st_unpack_from (ss_mode st) (s_fmt st) b off)
             | SRead => mdo b <- io_read (ss_size st); lift (st_unpack (ss_mode st) (s_fmt st) b)
             end);
  lift (ss_act st vs).
Definition take_ostruct (o : option sspec) (s : src) : M (list value) :=
  match o with Some st => take_struct st s | None => ret [] end.
Definition osize (o : option sspec) : Z := match o with Some st => ss_size st | None => 0 end.
Definition onvals (o : option sspec) : nat := match o with Some st => ss_nvals st | None => 0%nat end.

(** a finished byte string goes to the sink: returned by [pack], written by [pack_write] *)
Definition emit (k : sink) (b : bytes) : M bytes :=
  match k with KWrite => io_write b;; ret [] | _ => ret b end.

(** ** prepack / preunpack *)
(** conditional.py:46-49, 66-70: the condition's result is a key of the dict {True:…, False:…} *)
Definition cond_branch (inner : ser) (d : list value) (v : value) : res ser :=
  if key_eqb v (VBool true) then Ok inner
  else if key_eqb v (VBool false) then Ok (SSkip d)
  else if hashable v then Err KeyError else Err TypeError.

(** class found by SelfSerializer: [type(partial_object)] when packing (self.py:24-25),
    [partial_object.cls] when unpacking (self.py:27-28): that attribute exists on a [_Proxy] until a
    field called "cls" overwrites it; Structured instances have it only as a field.
    Simplification: any attribute called "cls" makes the lookup raise.  In the code its value is used in place
    of the class, which fails later, at the first use, unless the value is itself a Structured object. *)
Definition self_class (packing : bool) (o : pobj) : res nat :=
  if packing then Ok (p_cls o)
  else match assoc "cls" (p_attrs o) with
       | Some _ => Err AttributeError
       | None => if p_proxy o then Ok (p_cls o) else Err AttributeError
       end.

(** api.py:255-265 (Compound), 383-384 (specialized), arrays.py:100-106, unions.py:70-76,
    tuples.py:39-41 and 54-56, conditional.py:66-70, self.py:24-28; default: returns self. *)
Definition prep (packing : bool) (s : ser) (o : pobj) : M ser :=
  match s with
  | SArray id _ _ _ | STuple id _ | SLookback id _ _ _ | SLookahead id _ _ _ _ =>
      set_obj id o;; ret s
  | SCond f inner d => lift (rdo v <- f o; cond_branch inner d v)
  | SSelf id => lift (rdo c <- self_class packing o; Ok (SStructd id c))
  | SCompound id subs => ret (if existsb needs_pre subs then SSpec id subs o else s)
  | _ => ret s
  end.

(** ** unions *)
(** dict lookup of the decision: unions.py:78-88 *)
Fixpoint map_find (k : value) (m : list (value * ser)) : option ser :=
  match m with
  | [] => None
  | (k', s) :: m' => if key_eqb k k' then Some s else map_find k m'
  end.
Definition choose (m : list (value * ser)) (d : option ser) (k : value) : res ser :=
  if hashable k then
    match map_find k m, d with
    | Some s, _ => Ok s
    | None, Some s => Ok s
    | None, None => Err ValueError
    end
  else Err TypeError.

(** ** strings *)
(** strings.py:61-76 [_st_count_data] *)
Definition dynchar_st (st : sspec) (count : Z) : res sspec :=
  rdo o <- ss_matmul single_char count;
  match o with None => Ok st | Some c => ss_add st c end.
(** strings.py:265-266 *)
Definition net_short : sspec := SS BO_DEFAULT [T None CB] None.
Definition net_long : sspec := SS BO_DEFAULT [T None CH] None.
(** strings.py:269-283 *)
Definition net_mark (count : Z) : Z :=
  Z.lor (Z.lor 128 (Z.land count 127)) (Z.shiftl (Z.land count 65408) 1).
Definition net_st (count : Z) : res (sspec * Z) :=
  if count <? 128 then rdo st <- dynchar_st net_short count; Ok (st, count)
  else if 32767 <? count then Err ValueError
  else rdo st <- dynchar_st net_long count; Ok (st, net_mark count).
(** strings.py:302-307 *)
Definition net_decode (c : Z) : res Z :=
  let count := Z.lor (Z.land c 127) (Z.land (Z.shiftr c 1) 65408) in
  if 32767 <? count then Err ValueError else Ok count.

(** strings.py:224-231: the while loop of [unpack_from]; [fuel] bounds the number of steps *)
Fixpoint term_scan (fuel : nat) (b : bytes) (t : byte) (i : Z) : res Z :=
  match fuel with
  | O => Err ValueError
  | S f => match py_index b i with
           | None => Err ValueError                             (* IndexError -> 'unterminated string.' *)
           | Some x => if Byte.eqb x t then Ok i else term_scan f b t (i + 1)
           end
  end.
(** [chunk.find(terminator)] *)
Fixpoint byte_find (t : byte) (b : bytes) : option nat :=
  match b with
  | [] => None
  | x :: b' => if Byte.eqb x t then Some O else option_map S (byte_find t b')
  end.
(** strings.py:233-251: read 256 byte chunks until the terminator is found, then seek back *)
Fixpoint term_read (fuel : nat) (t : byte) (start size : Z) (out : bytes) : M (bytes * Z) :=
  match fuel with
  | O => raise ValueError
  | S f =>
      mdo chunk <- io_read 256;
      match chunk with
      | [] => raise ValueError
      | _ => match byte_find t chunk with
             | None => term_read f t start (size + 256) (out ++ chunk)
             | Some i =>
                 io_seek (start + (size + Z.of_nat i + 1));;
                 ret (out ++ firstn i chunk, size + Z.of_nat i + 1)
             end
      end
  end.

(** [str.rstrip('\0')] (strings.py:391-399) *)
Fixpoint drop_nul (l : list Z) : list Z :=
  match l with 0 :: l' => drop_nul l' | _ => l end.
Definition rstrip_nul (l : list Z) : list Z := rev (drop_nul (rev l)).

(** ** arrays *)
(** arrays.py:55-76 *)
Definition header_pack_values (h : option sspec) (static : Z) (count data_size : Z) : res (list value) :=
  if 0 <=? static then
    if negb (count =? static) then Err ValueError
    else Ok (if Nat.eqb (onvals h) 1 then [VInt data_size] else [])
  else Ok (if Nat.eqb (onvals h) 2 then [VInt count; VInt data_size] else [VInt count]).
(** arrays.py:78-92 *)
Definition header_unpack_values (h : option sspec) (static : Z) (hv : list value) : res (Z * Z) :=
  if 0 <=? static then
    if Nat.eqb (onvals h) 1 then rdo v <- nth0 hv; rdo z <- as_int v; Ok (static, z)
    else Ok (static, -1)
  else
    if Nat.eqb (onvals h) 2 then
      match hv with
      | [a; b] => rdo x <- as_int a; rdo y <- as_int b; Ok (x, y)
      | _ => Err ValueError
      end
    else rdo v <- nth0 hv; rdo z <- as_int v; Ok (z, -1).
(** arrays.py:94-98 *)
Definition check_data_size (expected actual : Z) : res unit :=
  if (0 <=? expected) && negb (expected =? actual) then Err ValueError else Ok tt.

(** arrays.py:247-257 [_packer] *)
Definition dynarr_st (c item : sspec) (count : Z) : res sspec :=
  if count =? 0 then Ok (SS (s_bo c) (s_fmt c) None)
  else rdo o <- ss_mul item count;
       match o with Some st => ss_add c st | None => Ok c end.

(** ** packing *)
Section PackStep.
Variable rec : ser -> sink -> list value -> M bytes.

(** arrays.py:112-114 / 126-128: the item loop; returns the bytes and the running size *)
Fixpoint pack_items (item : ser) (k : sink) (items : list value) (size : Z) : M (bytes * Z) :=
  match items with
  | [] => ret ([], size)
  | v :: vs =>
      mdo b <- rec item (ksub k size) [v];
      mdo z <- get_size item;
      mdo (bs, size') <- pack_items item k vs (size + z);
      ret (b ++ bs, size')
  end.

(** api.py:267-300 and 386-398: [pre] is [Some partial_object] for the specialized compound *)
Fixpoint pack_subs (pre : option pobj) (subs : list ser) (k : sink) (vs : list value) (size : Z)
  : M (bytes * Z) :=
  match subs with
  | [] => ret ([], size)
  | s :: subs' =>
      mdo s' <- (match pre with Some o => prep true s o | None => ret s end);
      let n := num_values s' in
      mdo b <- rec s' (ksub k size) (firstn n vs);
      mdo z <- get_size s';
      mdo (bs, size') <- pack_subs pre subs' k (skipn n vs) (size + z);
      ret (b ++ bs, size')
  end.

(** utils.py:53-64 [attrgetter] *)
Definition get_attrs (names : list string) (d : list (string * value)) : res (list value) :=
  rmapM (fun a => match assoc a d with Some v => Ok v | None => Err AttributeError end) names.

(** the serializer of an instance: class attribute, or the instance attribute set by
    [Structured.with_byte_order] (structured.py:212-219) *)
Definition obj_ser (cd : cdef) (ov : option border) : ser :=
  match ov with None => c_ser cd | Some bo => with_bo bo (c_ser cd) end.

(** structured.py:222-226, 262-281: [Structured.pack] / [pack_into] / [pack_write] of an instance *)
Definition obj_pack_step (c : nat) (ov : option border) (d : list (string * value)) (k : sink) : M bytes :=
  match ct c with
  | None => raise AttributeError
  | Some cd =>
      mdo s <- prep true (obj_ser cd ov) (PO c false d);
      mdo vs <- lift (get_attrs (c_attrs cd) d);
      rec s k vs
  end.
Definition obj_size (c : nat) (ov : option border) : M Z :=
  match ct c with None => raise AttributeError | Some cd => get_size (obj_ser cd ov) end.

Definition pack_step (s : ser) (k : sink) (vs : list value) : M bytes :=
  match s with
  | SNull => ret []                                             (* api.py:204-213 *)
  | SSkip _ => ret []                                           (* conditional.py:80-89 *)
  | SStruct st => put_struct st k vs
  | SDynChar id st =>                                           (* strings.py:61-105 *)
      mdo raw <- lift (nth0 vs);
      mdo n <- lift (py_len raw);
      let count := Z.of_nat n in
      mdo st' <- lift (dynchar_st st count);
      set_size id (ss_size st');;
      put_struct st' k [VInt count; raw]
  | SConsume id =>                                              (* strings.py:154-168 *)
      (* simplification: a value that is not bytes raises TypeError at once *)
      mdo v <- lift (nth0 vs);
      mdo b <- lift (as_bytes v);
      set_size id (blen b);;
      match k with
      | KInto off => fun w => (mdo _ <- set_buf (py_splice (w_buf w) off (off + blen b) b); ret []) w
      | _ => emit k b
      end
  | STerm id t =>                                               (* strings.py:196-218 *)
      (* [raw_data[-1] != self.terminator] compares an int with bytes: always true.  Simplification: a value that is
         not bytes raises TypeError; a list does so only after [raw_data +=] has extended it, as struct.error *)
      mdo v <- lift (nth0 vs);
      mdo raw <- lift (as_bytes v);
      let data := raw ++ [t] in
      set_size id (blen data);;
      mdo o <- lift (ss_matmul single_char (blen data));
      put_ostruct o k [VBytes data]
  | SNet id =>                                                  (* strings.py:269-300 *)
      mdo raw <- lift (nth0 vs);
      mdo n <- lift (py_len raw);
      mdo (st, mark) <- lift (net_st (Z.of_nat n));
      set_size id (ss_size st);;
      match k with
      | KWrite => mdo b <- put_struct st KPack [VInt mark; raw]; emit KWrite b
      | _ => put_struct st k [VInt mark; raw]
      end
  | SUnicode inner cd =>                                        (* strings.py:379-388 *)
      mdo v <- lift (nth0 vs);
      match v with
      | VStr s => mdo b <- lift (cod_enc cd s); rec inner k [VBytes b]
      | _ => raise TypeError
      end
  | SStaticArr n item =>                                        (* arrays.py:196-214 *)
      mdo v <- lift (nth0 vs);
      mdo l <- lift (py_len v);
      if negb (Nat.eqb l n) then raise ValueError
      else
        mdo items <- lift (py_iter v);
        mdo o <- lift (ss_mul item (Z.of_nat n));
        put_ostruct o k items
  | SDynArr id c item =>                                        (* arrays.py:247-271 *)
      mdo v <- lift (nth0 vs);
      mdo l <- lift (py_len v);
      mdo st <- lift (dynarr_st c item (Z.of_nat l));
      set_size id (ss_size st);;
      mdo items <- lift (py_iter v);
      put_struct st k (VInt (Z.of_nat (ss_nvals st) - 1) :: items)
  | SArray id h item static =>
      let hs := osize h in
      match k with
      | KInto off =>                                            (* arrays.py:120-131 *)
          mdo v <- lift (nth0 vs);
          mdo o <- get_obj id;
          mdo item' <- prep true item o;
          mdo items <- lift (py_iter v);
          mdo (_, size) <- pack_items item' k items hs;
          mdo l <- lift (py_len v);
          mdo hv <- lift (header_pack_values h static (Z.of_nat l) (size - hs));
          set_size id size;;
          put_ostruct h k hv
      | _ =>                                                    (* arrays.py:108-118, 133-135 *)
          mdo o <- get_obj id;
          mdo item' <- prep true item o;
          mdo v <- lift (nth0 vs);
          mdo items <- lift (py_iter v);
          mdo (bs, size) <- pack_items item' KPack items hs;
          mdo l <- lift (py_len v);
          mdo hv <- lift (header_pack_values h static (Z.of_nat l) (size - hs));
          mdo hb <- put_ostruct h KPack hv;
          set_size id size;;
          emit k (hb ++ bs)
      end
  | STuple id inner =>                                          (* tuples.py:43-52 *)
      mdo v <- lift (one vs TypeError);
      mdo o <- get_obj id;
      mdo inner' <- prep true inner o;
      mdo items <- lift (py_iter v);
      rec inner' k items
  | SCond _ _ _ | SSelf _ => raise NotImplementedError          (* api.py:98, 112, 120 *)
  | SLookback id dec m d                                        (* unions.py:130-148 *)
  | SLookahead id _ dec m d =>                                  (* unions.py:193-210 *)
      mdo o <- get_obj id;
      mdo r <- lift (dec o);
      mdo s0 <- lift (choose m d r);
      mdo s' <- prep true s0 o;
      mdo b <- rec s' k vs;
      mdo z <- get_size s';
      set_size id z;; ret b
  | SStructd id _ =>                                            (* serializers/structured.py:51-64 *)
      mdo v <- lift (one vs TypeError);
      match v with
      | VObj c ov d =>
          mdo b <- obj_pack_step c ov d k;
          mdo z <- obj_size c ov;
          set_size id z;; ret b
      | _ => raise AttributeError
      end
  | SCompound id subs =>
      mdo (b, size) <- pack_subs None subs k vs 0;
      set_size id size;; ret b
  | SSpec id subs o =>
      mdo (b, size) <- pack_subs (Some o) subs k vs 0;
      set_size id size;; ret b
  end.
End PackStep.

(** [n] bounds the depth of nested calls (Python's recursion limit) *)
Fixpoint pack (n : nat) (s : ser) (k : sink) (vs : list value) : M bytes :=
  match n with
  | O => raise RecursionError
  | S n' => pack_step (pack n') s k vs
  end.

(** ** unpacking *)
Section UnpackStep.
Variable rec : ser -> src -> M (list value).

(** arrays.py:142-145, 155-158, 168-171 *)
Fixpoint unpack_items (item : ser) (s : src) (count : nat) (size : Z) : M (list value * Z) :=
  match count with
  | O => ret ([], size)
  | S c =>
      mdo vs <- rec item (ssub s size);
      mdo z <- get_size item;
      mdo (rest, size') <- unpack_items item s c (size + z);
      ret (vs ++ rest, size')
  end.

(** api.py:302-322 and 400-407, driven to the end by [tuple(...)] or [items.extend(...)] *)
Fixpoint unpack_subs (pre : option pobj) (subs : list ser) (s : src) (size : Z) : M (list value * Z) :=
  match subs with
  | [] => ret ([], size)
  | x :: subs' =>
      mdo x' <- (match pre with Some o => prep false x o | None => ret x end);
      mdo vs <- rec x' (ssub s size);
      mdo z <- get_size x';
      mdo (rest, size') <- unpack_subs pre subs' s (size + z);
      ret (vs ++ rest, size')
  end.

(** [for attr, value in zips(attrs, values, strict=True): setattr(...)] on the values produced by one
    sub-serializer: the names left and the updated dict; [None] = more values than names *)
Fixpoint assign (names : list string) (vs : list value) (d : list (string * value))
  : option (list string) * list (string * value) :=
  match vs with
  | [] => (Some names, d)
  | v :: vs' => match names with
                | [] => (None, d)
                | a :: names' => assign names' vs' (assoc_set a v d)
                end
  end.

(** the same loop interleaved with the generator of a compound (api.py:302-322, 400-407): attributes
    assigned so far are visible to the preunpack of the following sub-serializers.  Returns the final
    attribute dict also when an exception escapes. *)
Fixpoint fill_subs (pre : option pobj) (subs : list ser) (s : src) (size : Z)
  (names : list string) (d : list (string * value)) (w : world)
  : res (list string * Z) * list (string * value) * world :=
  match subs with
  | [] => (Ok (names, size), d, w)
  | x :: subs' =>
      match (mdo x' <- (match pre with
                        | Some o => prep false x (PO (p_cls o) (p_proxy o) d)
                        | None => ret x
                        end);
             mdo vs <- rec x' (ssub s size);
             ret (x', vs)) w with
      | (Err e, w') => (Err e, d, w')
      | (Ok (x', vs), w') =>
          match assign names vs d with
          | (None, d') => (Err ValueError, d', w')
          | (Some names', d') =>
              match get_size x' w' with
              | (Err e, w'') => (Err e, d', w'')
              | (Ok z, w'') => fill_subs pre subs' s (size + z) names' d' w''
              end
          end
      end
  end.

(** structured.py:228-260 (existing object) and 478-481 ([_Proxy.__call__]), starting from the
    serializer returned by [preunpack] *)
Definition fill (x : ser) (s : src) (names : list string) (d : list (string * value)) (w : world)
  : res unit * list (string * value) * world :=
  let finish names' d' w' :=
    match names' with [] => (Ok tt, d', w') | _ => (Err ValueError, d', w') end in
  match x with
  | SCompound id subs =>
      match fill_subs None subs s 0 names d w with
      | (Err e, d', w') => (Err e, d', w')
      | (Ok (names', size), d', w') => finish names' d' (snd (set_size id size w'))
      end
  | SSpec id subs o =>
      match fill_subs (Some o) subs s 0 names d w with
      | (Err e, d', w') => (Err e, d', w')
      | (Ok (names', size), d', w') => finish names' d' (snd (set_size id size w'))
      end
  | _ =>
      match rec x s w with
      | (Err e, w') => (Err e, d, w')
      | (Ok vs, w') =>
          match assign names vs d with
          | (None, d') => (Err ValueError, d', w')
          | (Some names', d') => finish names' d' w'
          end
      end
  end.

(** structured.py:284-327: [create_unpack] / [create_unpack_from] / [create_unpack_read].
    [cls( *proxy)] runs the generated __init__ (structured.py:157-158): it stores the attributes in
    order.  Simplification: a user defined __post_init__ / __init__ is not modelled. *)
Definition create_step (c : nat) (s : src) : M value := fun w =>
  match ct c with
  | None => (Err AttributeError, w)
  | Some cd =>
      match prep false (c_ser cd) (PO c true []) w with
      | (Err e, w') => (Err e, w')
      | (Ok x, w') =>
          match fill x s (c_attrs cd) [] w' with
          | (Err e, _, w'') => (Err e, w'')
          | (Ok tt, d, w'') =>
              (rmap (fun vs => VObj c None (zipw (c_attrs cd) vs)) (get_attrs (c_attrs cd) d), w'')
          end
      end
  end.

(** structured.py:228-260: [obj.unpack] / [unpack_from] / [unpack_read] on an existing instance with
    attributes [d]; the resulting attributes are returned in every case *)
Definition refill_step (c : nat) (ov : option border) (d : list (string * value)) (s : src) (w : world)
  : res unit * list (string * value) * world :=
  match ct c with
  | None => (Err AttributeError, d, w)
  | Some cd =>
      match prep false (obj_ser cd ov) (PO c false d) w with
      | (Err e, w') => (Err e, d, w')
      | (Ok x, w') => fill x s (c_attrs cd) d w'
      end
  end.

Definition unpack_step (x : ser) (s : src) : M (list value) :=
  match x with
  | SNull => ret []                                             (* api.py:215-222 *)
  | SSkip vals => ret vals                                      (* conditional.py:91-98 *)
  | SStruct st => take_struct st s
  | SDynChar id st =>                                           (* strings.py:107-140 *)
      mdo cs <- take_struct st s;
      mdo cv <- lift (nth0 cs);
      mdo count <- lift (as_int cv);
      let size := ss_size st + count in
      set_size id size;;
      match s with
      | SBuf b => ret [VBytes (py_slice b (ss_size st) size)]
      | _ =>
          mdo o <- lift (ss_matmul single_char count);
          take_ostruct o (ssub s (ss_size st))
      end
  | SConsume id =>                                              (* strings.py:170-181 *)
      match s with
      | SBuf b => set_size id (blen b);; ret [VBytes b]
      | SFrom b off => set_size id (blen b - off);; ret [VBytes (py_from b off)]
      | SRead => mdo b <- io_read_all; set_size id (blen b);; ret [VBytes b]
      end
  | STerm id t =>
      match s with
      | SBuf b =>                                               (* strings.py:220-221: offset 0 *)
          mdo e <- lift (term_scan (S (2 * List.length b)) b t 0);
          set_size id (e + 1);; ret [VBytes (py_slice b 0 e)]
      | SFrom b off =>                                          (* strings.py:223-231 *)
          mdo e <- lift (term_scan (S (2 * List.length b)) b t off);
          set_size id (e + 1);; ret [VBytes (py_slice b off e)]
      | SRead =>                                                (* strings.py:233-251 *)
          mdo start <- io_tell;
          fun w => (mdo (out, size) <- term_read (S (List.length (w_data w))) t start 0 [];
                    set_size id size;; ret [VBytes out]) w
      end
  | SNet id =>
      match s with
      | SRead =>                                                (* strings.py:335-346 *)
          mdo p <- io_tell;
          mdo cs <- take_struct net_short s;
          mdo cv <- lift (nth0 cs);
          mdo c0 <- lift (as_int cv);
          mdo (size, count) <-
            (if 128 <=? c0 then
               io_seek p;;
               mdo cs' <- take_struct net_long s;
               mdo cv' <- lift (nth0 cs');
               mdo c1 <- lift (as_int cv');
               mdo count <- lift (net_decode c1);
               ret (ss_size net_long, count)
             else ret (ss_size net_short, c0));
          set_size id (size + count);;
          mdo b <- io_read count; ret [VBytes b]
      | _ =>                                                    (* strings.py:309-333 *)
          mdo cs <- take_struct net_short s;
          mdo cv <- lift (nth0 cs);
          mdo c0 <- lift (as_int cv);
          mdo (size, count) <-
            (if 128 <=? c0 then
               mdo cs' <- take_struct net_long s;
               mdo cv' <- lift (nth0 cs');
               mdo c1 <- lift (as_int cv');
               mdo count <- lift (net_decode c1);
               ret (ss_size net_long, count)
             else ret (ss_size net_short, c0));
          set_size id (size + count);;
          match s with
          | SBuf b => ret [VBytes (py_slice b size (size + count))]
          | _ => take_struct (SS BO_DEFAULT [T (Some (Z.to_nat count)) Cs] None) (ssub s size)
          end
      end
  | SUnicode inner cd =>                                        (* strings.py:390-399 *)
      mdo vs <- rec inner s;
      mdo v <- lift (nth0 vs);
      mdo b <- lift (as_bytes v);
      mdo t <- lift (cod_dec cd b);
      ret [VStr (rstrip_nul t)]
  | SStaticArr n item =>                                        (* arrays.py:216-223 *)
      mdo o <- lift (ss_mul item (Z.of_nat n));
      mdo vs <- take_ostruct o s;
      ret [VList vs]
  | SDynArr id c item =>                                        (* arrays.py:273-295 *)
      mdo cs <- take_struct c s;
      mdo cv <- lift (one cs ValueError);
      mdo count <- lift (as_int cv);
      let size := ss_size c in
      mdo o <- lift (ss_mul item count);
      mdo vs <- take_ostruct o (ssub s size);
      set_size id (size + osize o);;
      ret [VList vs]
  | SArray id h item static =>                                  (* arrays.py:137-174 *)
      mdo hv <- take_ostruct h s;
      mdo (count, data_size) <- lift (header_unpack_values h static hv);
      let hs := osize h in
      mdo o <- get_obj id;
      mdo item' <- prep false item o;
      mdo (items, size) <- unpack_items item' s (Z.to_nat count) hs;
      lift (check_data_size data_size (size - hs));;
      set_size id size;;
      ret [VList items]
  | STuple id inner =>                                          (* tuples.py:58-67 *)
      mdo o <- get_obj id;
      mdo inner' <- prep false inner o;
      (* unpack of a compound is a generator function: nothing runs, the generator is the value *)
      if is_compound inner' then ret [VGen]
      else mdo vs <- rec inner' s; ret [VTuple vs]
  | SCond _ _ _ | SSelf _ => raise NotImplementedError          (* api.py:130, 140, 149 *)
  | SLookback id dec m d =>                                     (* unions.py:130-132, 150-166 *)
      mdo o <- get_obj id;
      mdo r <- lift (dec o);
      mdo s0 <- lift (choose m d r);
      mdo x' <- prep false s0 o;
      mdo vs <- rec x' s;
      mdo z <- get_size x';
      set_size id z;; ret vs
  | SLookahead id ra _ m d =>                                   (* unions.py:212-232 *)
      mdo rs <- rec ra s;
      mdo r <- lift (nth0 rs);
      (match s with
       | SRead => mdo z <- get_size ra; mdo p <- io_tell; io_seek (p - z)
       | _ => ret tt
       end);;
      mdo s0 <- lift (choose m d r);
      mdo o <- get_obj id;
      mdo x' <- prep false s0 o;
      mdo vs <- rec x' s;
      mdo z <- get_size x';
      set_size id z;; ret vs
  | SStructd id c =>                                            (* serializers/structured.py:66-81 *)
      mdo v <- create_step c s;
      mdo z <- obj_size c None;
      set_size id z;; ret [v]
  | SCompound id subs =>
      mdo (vs, size) <- unpack_subs None subs s 0;
      set_size id size;; ret vs
  | SSpec id subs o =>
      mdo (vs, size) <- unpack_subs (Some o) subs s 0;
      set_size id size;; ret vs
  end.
End UnpackStep.

Fixpoint unpack (n : nat) (x : ser) (s : src) : M (list value) :=
  match n with
  | O => raise RecursionError
  | S n' => unpack_step (unpack n') x s
  end.

(** ** The public methods of [Structured] (recursion budget [n]) *)
(** structured.py:262-264 *)
Definition Structured_pack (n : nat) (v : value) : M bytes :=
  match v with VObj c ov d => obj_pack_step (pack n) c ov d KPack | _ => raise AttributeError end.
(** structured.py:274-281 *)
Definition Structured_pack_into (n : nat) (v : value) (off : Z) : M bytes :=
  match v with VObj c ov d => obj_pack_step (pack n) c ov d (KInto off) | _ => raise AttributeError end.
(** structured.py:266-272 *)
Definition Structured_pack_write (n : nat) (v : value) : M bytes :=
  match v with VObj c ov d => obj_pack_step (pack n) c ov d KWrite | _ => raise AttributeError end.
(** structured.py:292-302 *)
Definition create_unpack (n : nat) (c : nat) (b : bytes) : M value := create_step (unpack n) c (SBuf b).
(** structured.py:304-315 *)
Definition create_unpack_from (n : nat) (c : nat) (b : bytes) (off : Z) : M value :=
  create_step (unpack n) c (SFrom b off).
(** structured.py:317-327 *)
Definition create_unpack_read (n : nat) (c : nat) : M value := create_step (unpack n) c SRead.
(** structured.py:228-260 *)
Definition Structured_unpack (n : nat) (c : nat) (ov : option border) (d : list (string * value)) (s : src)
  := refill_step (unpack n) c ov d s.
(** structured.py:212-219 *)
Definition Structured_with_byte_order (bo : border) (v : value) : res value :=
  match v with
  | VObj c ov d =>
      match ct c with
      | None => Err AttributeError
      | Some cd =>
          if border_eqb bo (match ov with Some b => b | None => c_bo cd end) then Ok v
          else rdo vs <- get_attrs (c_attrs cd) d;
               Ok (VObj c (Some bo) (zipw (c_attrs cd) vs))
      end
  | _ => Err AttributeError
  end.
End Exec.
