(** A stateless semantics of the serializers: [enc] gives the bytes, [dec] the values, of a serializer in
    the context of a partial object, without any of the mutable fields, buffers and streams of Exec.v.
    RefPack.v and RefUnpack.v proves that the six methods of Exec.v compute exactly this, from every state.
    The definitions follow the Python methods cited in Exec.v line by line. *)
From Verif Require Import Base Floats Value StructMod Format Ser Exec.

(** which of unpack / unpack_from / unpack_read: they differ on truncated or empty strings *)
Inductive umode := UBuf | UFrom | URead.

Section Pure.
Variable hb : bool.
Variable ct : nat -> option cdef.
(** [allow d c]: may a field declared as class [d] hold an instance of class [c]? *)
Variable allow : nat -> nat -> bool.

(** [prepack] / [preunpack] without the assignment of [_partial_object] *)
Definition resolve (packing : bool) (s : ser) (o : pobj) : res ser :=
  match s with
  | SCond f inner d => rdo v <- f o; cond_branch inner d v
  | SSelf id => rdo c <- self_class packing o; Ok (SStructd id c)
  | SCompound id subs => Ok (if existsb needs_pre subs then SSpec id subs o else s)
  | _ => Ok s
  end.

Definition est (st : sspec) (vs : list value) : res bytes := st_pack (ss_mode hb st) (s_fmt st) vs.
Definition eost (o : option sspec) (vs : list value) : res bytes :=
  match o with Some st => est st vs | None => Ok [] end.

Section EncStep.
Variable rec : ser -> pobj -> list value -> res bytes.

Fixpoint enc_items (item : ser) (ctx : pobj) (items : list value) : res bytes :=
  match items with
  | [] => Ok []
  | v :: vs => rdo b <- rec item ctx [v]; rdo bs <- enc_items item ctx vs; Ok (b ++ bs)
  end.

Definition octx (pre : option pobj) (ctx : pobj) : pobj := match pre with Some o => o | None => ctx end.
Definition oresolve (packing : bool) (pre : option pobj) (s : ser) : res ser :=
  match pre with Some o => resolve packing s o | None => Ok s end.

Fixpoint enc_subs (pre : option pobj) (ctx : pobj) (subs : list ser) (vs : list value) : res bytes :=
  match subs with
  | [] => Ok []
  | s :: subs' =>
      rdo s' <- oresolve true pre s;
      rdo b <- rec s' (octx pre ctx) (firstn (num_values s') vs);
      rdo bs <- enc_subs pre ctx subs' (skipn (num_values s') vs);
      Ok (b ++ bs)
  end.

Definition enc_obj_step (c : nat) (ov : option border) (d : list (string * value)) : res bytes :=
  match ct c with
  | None => Err AttributeError
  | Some cd =>
      rdo s <- resolve true (obj_ser cd ov) (PO c false d);
      rdo vs <- get_attrs (c_attrs cd) d;
      rec s (PO c false d) vs
  end.

Definition enc_step (s : ser) (ctx : pobj) (vs : list value) : res bytes :=
  match s with
  | SNull | SSkip _ => Ok []
  | SStruct st => est st vs
  | SDynChar _ st =>
      rdo raw <- nth0 vs; rdo n <- py_len raw;
      rdo st' <- dynchar_st st (Z.of_nat n); est st' [VInt (Z.of_nat n); raw]
  | SConsume _ => rdo v <- nth0 vs; as_bytes v
  | STerm _ t =>
      rdo v <- nth0 vs; rdo raw <- as_bytes v;
      rdo o <- ss_matmul single_char (blen (raw ++ [t])); eost o [VBytes (raw ++ [t])]
  | SNet _ =>
      rdo raw <- nth0 vs; rdo n <- py_len raw;
      rdo (st, mark) <- net_st (Z.of_nat n); est st [VInt mark; raw]
  | SUnicode inner cd =>
      rdo v <- nth0 vs;
      match v with
      | VStr s => rdo b <- cod_enc cd s; rec inner ctx [VBytes b]
      | _ => Err TypeError
      end
  | SStaticArr n item =>
      rdo v <- nth0 vs; rdo l <- py_len v;
      if negb (Nat.eqb l n) then Err ValueError
      else rdo items <- py_iter v; rdo o <- ss_mul item (Z.of_nat n); eost o items
  | SDynArr _ c item =>
      rdo v <- nth0 vs; rdo l <- py_len v;
      rdo st <- dynarr_st c item (Z.of_nat l);
      rdo items <- py_iter v;
      est st (VInt (Z.of_nat (ss_nvals st) - 1) :: items)
  | SArray _ h item static =>
      rdo item' <- resolve true item ctx;
      rdo v <- nth0 vs; rdo items <- py_iter v;
      rdo bs <- enc_items item' ctx items;
      rdo l <- py_len v;
      rdo hv <- header_pack_values h static (Z.of_nat l) (blen bs);
      rdo hd <- eost h hv;
      Ok (hd ++ bs)
  | STuple _ inner =>
      rdo v <- one vs TypeError;
      rdo inner' <- resolve true inner ctx;
      rdo items <- py_iter v;
      rec inner' ctx items
  | SCond _ _ _ | SSelf _ => Err NotImplementedError
  | SLookback _ f m d | SLookahead _ _ f m d =>
      rdo r <- f ctx; rdo s0 <- choose m d r; rdo s' <- resolve true s0 ctx; rec s' ctx vs
  | SStructd _ d =>
      rdo v <- one vs TypeError;
      match v with
      | VObj c ov a => if allow d c then enc_obj_step c ov a else Err Unspecified
      | _ => Err AttributeError
      end
  | SCompound _ subs => enc_subs None ctx subs vs
  | SSpec _ subs o => enc_subs (Some o) ctx subs vs
  end.
End EncStep.

Fixpoint enc (n : nat) (s : ser) (ctx : pobj) (vs : list value) : res bytes :=
  match n with O => Err RecursionError | S n' => enc_step (enc n') s ctx vs end.

Definition enc_obj (n : nat) (v : value) : res bytes :=
  match v with VObj c ov d => enc_obj_step (enc n) c ov d | _ => Err AttributeError end.

(** ** decoding: the values and the number of bytes the serializer reports as its [size] *)
Definition dst (st : sspec) (b : bytes) : res (list value) :=
  rdo vs <- st_unpack (ss_mode hb st) (s_fmt st) (firstn (Z.to_nat (ss_size hb st)) b); ss_act st vs.
Definition dost (o : option sspec) (b : bytes) : res (list value) :=
  match o with Some st => dst st b | None => Ok [] end.
(** drop [k] bytes *)
Definition adv (k : Z) (b : bytes) : bytes := skipn (Z.to_nat k) b.

Section DecStep.
Variable md : umode.
Variable rec : ser -> pobj -> bytes -> res (list value * Z).

Fixpoint dec_items (item : ser) (ctx : pobj) (count : nat) (b : bytes) : res (list value * Z) :=
  match count with
  | O => Ok ([], 0)
  | S c =>
      rdo (vs, k) <- rec item ctx b;
      rdo (rest, k') <- dec_items item ctx c (adv k b);
      Ok (vs ++ rest, k + k')
  end.

Fixpoint dec_subs (pre : option pobj) (ctx : pobj) (subs : list ser) (b : bytes) : res (list value * Z) :=
  match subs with
  | [] => Ok ([], 0)
  | x :: subs' =>
      rdo x' <- oresolve false pre x;
      rdo (vs, k) <- rec x' (octx pre ctx) b;
      rdo (rest, k') <- dec_subs pre ctx subs' (adv k b);
      Ok (vs ++ rest, k + k')
  end.

(** attributes are assigned as they are produced; the dict is returned also on failure *)
Fixpoint dfill_subs (pre : option pobj) (ctx : pobj) (subs : list ser) (b : bytes)
  (names : list string) (d : list (string * value)) : res (list string * Z) * list (string * value) :=
  match subs with
  | [] => (Ok (names, 0), d)
  | x :: subs' =>
      let pre' := option_map (fun o => PO (p_cls o) (p_proxy o) d) pre in
      match (rdo x' <- oresolve false pre' x; rec x' (octx pre' ctx) b) with
      | Err e => (Err e, d)
      | Ok (vs, k) =>
          match assign names vs d with
          | (None, d') => (Err ValueError, d')
          | (Some names', d') =>
              let (r, d'') := dfill_subs pre ctx subs' (adv k b) names' d' in
              (rmap (fun p => (fst p, k + snd p)) r, d'')
          end
      end
  end.

Definition dfill (x : ser) (ctx : pobj) (b : bytes) (names : list string) (d : list (string * value))
  : res Z * list (string * value) :=
  let finish names' d' k := (match names' with [] => Ok k | _ => Err ValueError end, d') in
  match x with
  | SCompound _ subs =>
      match dfill_subs None ctx subs b names d with
      | (Err e, d') => (Err e, d')
      | (Ok (names', k), d') => finish names' d' k
      end
  | SSpec _ subs o =>
      match dfill_subs (Some o) ctx subs b names d with
      | (Err e, d') => (Err e, d')
      | (Ok (names', k), d') => finish names' d' k
      end
  | _ =>
      match rec x ctx b with
      | Err e => (Err e, d)
      | Ok (vs, k) =>
          match assign names vs d with
          | (None, d') => (Err ValueError, d')
          | (Some names', d') => finish names' d' k
          end
      end
  end.

Definition dcreate_step (c : nat) (b : bytes) : res (value * Z) :=
  match ct c with
  | None => Err AttributeError
  | Some cd =>
      rdo x <- resolve false (c_ser cd) (PO c true []);
      match dfill x (PO c true []) b (c_attrs cd) [] with
      | (Err e, _) => Err e
      | (Ok k, d) => rmap (fun vs => (VObj c None (zipw (c_attrs cd) vs), k)) (get_attrs (c_attrs cd) d)
      end
  end.

Definition drefill_step (c : nat) (ov : option border) (d : list (string * value)) (b : bytes)
  : res Z * list (string * value) :=
  match ct c with
  | None => (Err AttributeError, d)
  | Some cd =>
      match resolve false (obj_ser cd ov) (PO c false d) with
      | Err e => (Err e, d)
      | Ok x => dfill x (PO c false d) b (c_attrs cd) d
      end
  end.

Definition dec_net (b : bytes) : res (Z * Z) :=
  rdo cs <- dst net_short b; rdo cv <- nth0 cs; rdo c0 <- as_int cv;
  if 128 <=? c0 then
    rdo cs' <- dst net_long b; rdo cv' <- nth0 cs'; rdo c1 <- as_int cv';
    rdo count <- net_decode c1; Ok (ss_size hb net_long, count)
  else Ok (ss_size hb net_short, c0).

Definition dec_step (x : ser) (ctx : pobj) (b : bytes) : res (list value * Z) :=
  match x with
  | SNull => Ok ([], 0)
  | SSkip vals => Ok (vals, 0)
  | SStruct st => rdo vs <- dst st b; Ok (vs, ss_size hb st)
  | SDynChar _ st =>
      rdo cs <- dst st b; rdo cv <- nth0 cs; rdo count <- as_int cv;
      let rest := adv (ss_size hb st) b in
      let k := ss_size hb st + count in
      match md with
      | UBuf => Ok ([VBytes (firstn (Z.to_nat count) rest)], k)
      | _ => rdo o <- ss_matmul single_char count; rdo vs <- dost o rest; Ok (vs, k)
      end
  | SConsume _ => Ok ([VBytes b], blen b)
  | STerm _ t =>
      match byte_find t b with
      | None => Err ValueError
      | Some i => Ok ([VBytes (firstn i b)], Z.of_nat i + 1)
      end
  | SNet _ =>
      rdo (size, count) <- dec_net b;
      let rest := adv size b in
      match md with
      | UFrom => rdo vs <- dst (SS BO_DEFAULT [T (Some (Z.to_nat count)) Cs] None) rest;
                 Ok (vs, size + count)
      | _ => Ok ([VBytes (firstn (Z.to_nat count) rest)], size + count)
      end
  | SUnicode inner cd =>
      rdo (vs, k) <- rec inner ctx b;
      rdo v <- nth0 vs; rdo y <- as_bytes v; rdo t <- cod_dec cd y;
      Ok ([VStr (rstrip_nul t)], k)
  | SStaticArr n item =>
      rdo o <- ss_mul item (Z.of_nat n); rdo vs <- dost o b; Ok ([VList vs], osize hb o)
  | SDynArr _ c item =>
      rdo cs <- dst c b; rdo cv <- one cs ValueError; rdo count <- as_int cv;
      rdo o <- ss_mul item count;
      rdo vs <- dost o (adv (ss_size hb c) b);
      Ok ([VList vs], ss_size hb c + osize hb o)
  | SArray _ h item static =>
      rdo hv <- dost h b;
      rdo (count, data_size) <- header_unpack_values h static hv;
      rdo item' <- resolve false item ctx;
      rdo (items, k) <- dec_items item' ctx (Z.to_nat count) (adv (osize hb h) b);
      rdo _ <- check_data_size data_size k;
      Ok ([VList items], osize hb h + k)
  | STuple _ inner =>
      rdo inner' <- resolve false inner ctx;
      rdo (vs, k) <- rec inner' ctx b; Ok ([VTuple vs], k)
  | SCond _ _ _ | SSelf _ => Err NotImplementedError
  | SLookback _ f m d =>
      rdo r <- f ctx; rdo s0 <- choose m d r; rdo x' <- resolve false s0 ctx; rec x' ctx b
  | SLookahead _ ra _ m d =>
      rdo (rs, _) <- rec ra ctx b; rdo r <- nth0 rs;
      rdo s0 <- choose m d r; rdo x' <- resolve false s0 ctx; rec x' ctx b
  | SStructd _ c => rdo (v, k) <- dcreate_step c b; Ok ([v], k)
  | SCompound _ subs => dec_subs None ctx subs b
  | SSpec _ subs o => dec_subs (Some o) ctx subs b
  end.
End DecStep.

Fixpoint dec (md : umode) (n : nat) (x : ser) (ctx : pobj) (b : bytes) : res (list value * Z) :=
  match n with O => Err RecursionError | S n' => dec_step md (dec md n') x ctx b end.

Definition dcreate (md : umode) (n c : nat) (b : bytes) : res (value * Z) := dcreate_step (dec md n) c b.

(** ** Which definitions the refinement covers *)
(** no object dependent part: no [_partial_object], no nested class *)
Fixpoint leaf (s : ser) : bool :=
  match s with
  | SNull | SStruct _ | SDynChar _ _ | SConsume _ | STerm _ _ | SNet _ | SStaticArr _ _
  | SDynArr _ _ _ => true
  | SUnicode inner _ => leaf inner
  | _ => false
  end.

(** has an attribute [size] *)
Fixpoint sized (s : ser) : bool :=
  match s with
  | SCond _ _ _ | SSelf _ => false
  | SUnicode inner _ | STuple _ inner => sized inner
  | _ => true
  end.
Definition csized (c : nat) : bool :=
  match ct c with Some cd => sized (c_ser cd) | None => true end.

(** [s] stores the partial object given to prepack / preunpack in the object with this identity *)
Definition own (s : ser) : option nat :=
  match s with
  | SArray id _ _ _ | STuple id _ | SLookback id _ _ _ | SLookahead id _ _ _ _ => Some id
  | _ => None
  end.
Definition owns (s : ser) (id : nat) : bool :=
  match own s with Some i => Nat.eqb i id | None => false end.

(** [T d id]: packing or unpacking an instance of class [d] may assign [_partial_object] of [id] *)
Variable T : nat -> nat -> bool.

(** running [s], found in class [c], may assign [_partial_object] of [id] *)
Fixpoint sets (c : nat) (s : ser) (id : nat) : bool :=
  match s with
  | SUnicode inner _ | SCond _ inner _ => sets c inner id
  | SArray _ _ x _ | STuple _ x => owns x id || sets c x id
  | SLookback _ _ m d | SLookahead _ _ _ m d =>
      existsb (fun p => owns (snd p) id || sets c (snd p) id) m
      || match d with Some x => owns x id || sets c x id | None => false end
  | SStructd _ d => T d id
  | SSelf _ => T c id
  | SCompound _ subs | SSpec _ subs _ => existsb (fun x => owns x id || sets c x id) subs
  | _ => false
  end.

(** the fragment: conditions wrap simple serializers, read-ahead serializers are leaves, tuple members
    and nested classes have a size, and an array item's stored object is not overwritten by the items. *)
Fixpoint hc (c : nat) (s : ser) : bool :=
  match s with
  | SUnicode inner _ => leaf inner
  | SArray _ _ x _ => hc c x && match own x with Some i => negb (sets c x i) | None => true end
  | STuple _ x => hc c x && sized x
  | SCond _ x _ => hc c x && negb (needs_pre x)
  | SLookback _ _ m d =>
      forallb (fun p => hc c (snd p)) m && match d with Some x => hc c x | None => true end
  | SLookahead _ ra _ m d =>
      leaf ra && forallb (fun p => hc c (snd p)) m && match d with Some x => hc c x | None => true end
  | SStructd _ d => csized d
  | SSelf _ => csized c
  | SCompound _ subs => forallb (hc c) subs
  | SSpec _ subs o => Nat.eqb (p_cls o) c && forallb (hc c) subs
  | _ => true
  end.

(** no read-to-end string (for [pack_into] a too small buffer is then an error) *)
Fixpoint nocons (s : ser) : bool :=
  match s with
  | SConsume _ => false
  | SUnicode x _ | SArray _ _ x _ | STuple _ x | SCond _ x _ => nocons x
  | SLookback _ _ m d | SLookahead _ _ _ m d =>
      forallb (fun p => nocons (snd p)) m && match d with Some x => nocons x | None => true end
  | SCompound _ subs | SSpec _ subs _ => forallb nocons subs
  | _ => true
  end.

(** header of a counted string: one unsigned integer *)
Definition uint1 (st : sspec) : bool :=
  match s_fmt st, s_act st with
  | [t], None => Nat.eqb (cnt t) 1 && match int_code (t_code t) with Some false => true | _ => false end
  | _, _ => false
  end.

(** additionally for the unpack methods: counts are unsigned, tuples are not compounds (their unpack is
    broken), terminated strings are not used with [unpack_from] (broken), and the read-ahead serializer
    of a stream is not a NET string *)
Fixpoint hu (md : umode) (s : ser) : bool :=
  match s with
  | SDynChar _ st => uint1 st
  | STerm _ _ => match md with UFrom => false | _ => true end
  | SUnicode x _ | SArray _ _ x _ | SCond _ x _ => hu md x
  | STuple _ x => hu md x && negb (is_compound x)
  | SLookback _ _ m d =>
      forallb (fun p => hu md (snd p)) m && match d with Some x => hu md x | None => true end
  | SLookahead _ ra _ m d =>
      hu md ra && match md with
                  | URead => match ra with SNet _ | SUnicode _ _ => false | _ => true end
                  | _ => true
                  end
      && forallb (fun p => hu md (snd p)) m && match d with Some x => hu md x | None => true end
  | SCompound _ subs | SSpec _ subs _ => forallb (hu md) subs
  | _ => true
  end.

(** a table of classes inside the fragment, with the certificate [T] *)
Definition classes_ok : Prop :=
  (forall c cd, ct c = Some cd ->
     hc c (c_ser cd) = true /\
     forall id, owns (c_ser cd) id || sets c (c_ser cd) id = true -> T c id = true) /\
  (forall d c, allow d c = true -> csized d = true ->
     csized c = true /\ forall id, T c id = true -> T d id = true).
Definition classes_nocons : Prop := forall c cd, ct c = Some cd -> nocons (c_ser cd) = true.
Definition classes_hu (md : umode) : Prop := forall c cd, ct c = Some cd -> hu md (c_ser cd) = true.
End Pure.
