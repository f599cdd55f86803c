(** [StructSerializer] / [StructActionSerializer] as data: formats are joined, repeated and
    re-byte-ordered here.  Models structured/serializers/structs.py. *)
From Verif Require Import Base Floats Value StructMod.

(** structs.py:62-80 [fold_overlaps], on tokens (the string/regex level version is in FormatStr.v, where
    it is proved equal to this one on printed formats).
    [_re_end] (line 58) finds the last counted specifier of format1; [_re_start] (line 59) the first
    one of format2.  [_re_start] ends in a lazy group without an anchor, so [epilogue] is always ''
    and everything after the first specifier of format2 is dropped when the two are merged. *)
Definition str_code (c : code) : bool := match c with Cs | Cp => true | _ => false end.
Fixpoint split_last {A} (l : list A) : option (list A * A) :=
  match l with
  | [] => None
  | [a] => Some ([], a)
  | a :: l' => match split_last l' with Some (p, x) => Some (a :: p, x) | None => None end
  end.
Definition fold_overlaps (combine_strings : bool) (f1 f2 : fmt) : fmt :=
  match split_last f1, f2 with
  | Some (prelude, t1), t2 :: _ =>
      if code_eqb (t_code t1) (t_code t2) && (combine_strings || negb (str_code (t_code t1)))
      then prelude ++ [T (Some (cnt t1 + cnt t2)%nat) (t_code t1)]
      else f1 ++ f2
  | _, _ => f1 ++ f2
  end.

(** structs.py:197-199: [reduce(fold_overlaps, repeat(fmt, n))] for [n >= 1] *)
Fixpoint fold_repeat (cs : bool) (acc f : fmt) (n : nat) : fmt :=
  match n with O => acc | S k => fold_repeat cs (fold_overlaps cs acc f) f k end.

(** A user callable used as an action ([SerializeAs] type or factory). *)
Definition action := value -> res value.
(** structs.py:37-41 *)
Definition noop_action : action := fun v => Ok v.

(** structs.py:92-115 / 212-238: one object for both classes; [s_act = Some] is the Action class.
    The byte order specifier is kept apart from the format ([_split_format], lines 83-107). *)
Record sspec := SS { s_bo : border; s_fmt : fmt; s_act : option (list action) }.

(** structs.py:227-238: missing actions are filled with [noop_action] *)
Definition mk_action (bo : border) (f : fmt) (acts : list action) : sspec :=
  SS bo f (Some (acts ++ repeat noop_action (nvals f - List.length acts))).

(** structs.py:44-54 [compute_num_values]: number of values unpacked from a zeroed buffer *)
Definition ss_nvals (s : sspec) : nat := nvals (s_fmt s).

(** structs.py:120-125, 259-263.  An Action serializer keeps its actions. *)
Definition ss_with_bo (bo : border) (s : sspec) : sspec := SS bo (s_fmt s) (s_act s).

(** structs.py:156-170 [StructSerializer.__add__], 275-286 and 288-299 for the Action class.
    Python's binary operator protocol: Action is a subclass of Struct overriding [__radd__], so
    Struct + Action calls [Action.__radd__] first.  The Action variants do not compare byte orders. *)
Definition ss_add (a b : sspec) : res sspec :=
  let f := fold_overlaps false (s_fmt a) (s_fmt b) in
  match s_act a, s_act b with
  | None, None => if border_eqb (s_bo a) (s_bo b) then Ok (SS (s_bo a) f None) else Err ValueError
  | None, Some ab => Ok (mk_action (s_bo a) f (repeat noop_action (ss_nvals a) ++ ab))
  | Some aa, Some ab => Ok (mk_action (s_bo a) f (aa ++ ab))
  | Some aa, None => Ok (mk_action (s_bo a) f aa)
  end.

(** structs.py:187-200 [_mul_impl]; [None] is the NullSerializer returned for 0.  [type(self)(fmt, bo)]
    makes an Action serializer with only noop actions. *)
Definition ss_mul_impl (cs : bool) (a : sspec) (n : Z) : res (option sspec) :=
  if n =? 0 then Ok None
  else if n <? 0 then Err ValueError
  else if n =? 1 then Ok (Some a)
  else
    let f := fold_repeat cs (s_fmt a) (s_fmt a) (Z.to_nat n - 1) in
    Ok (Some (match s_act a with
              | None => SS (s_bo a) f None
              | Some _ => mk_action (s_bo a) f []
              end)).
(** structs.py:172-178 and 301-304 ([__mul__]: actions are repeated) *)
Definition ss_mul (a : sspec) (n : Z) : res (option sspec) :=
  rdo o <- ss_mul_impl false a n;
  Ok (match o, s_act a with
      | Some s, Some acts => Some (SS (s_bo s) (s_fmt s) (Some (concat (repeat acts (Z.to_nat n)))))
      | _, _ => o
      end).
(** structs.py:180-185 [__matmul__] *)
Definition ss_matmul (a : sspec) (n : Z) : res (option sspec) := ss_mul_impl true a n.

(** structs.py:240-257: apply the actions ([zip] stops at the shorter) *)
Fixpoint apply_actions (acts : list action) (vs : list value) : res (list value) :=
  match acts, vs with
  | a :: acts', v :: vs' => rdo x <- a v; rdo xs <- apply_actions acts' vs'; Ok (x :: xs)
  | _, _ => Ok []
  end.
Definition ss_act (s : sspec) (vs : list value) : res (list value) :=
  match s_act s with None => Ok vs | Some acts => apply_actions acts vs end.

(** strings.py:36 [_single_char] *)
Definition single_char : sspec := SS BO_DEFAULT [T None Cs] None.
