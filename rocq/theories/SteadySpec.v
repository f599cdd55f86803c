(** Which class statements read what they have written: when something is read, from whatever bytes, and the layout (WireSpec.v) of
    it exists, then reading that layout (ReadSpec.v) gives the same again.  Wider than BackSpec.v: bytes may be lost, values may not.
    Steadies.v proves it. *)
From Verif Require Import Base Floats Value StructMod Format Ser Exec Pure Wire Hints Surface Programs Accept AcceptProg WireSpec PackSpec ReadSpec LocalSpec BackSpec.
Open Scope list_scope. Open Scope Z_scope.

Section Steady.
Variable hb : bool.
Variable md : umode.
Variable P : nat -> bool.
(** Left out: fields that read to the end (what follows would be read too), conversions, unions that read their key ahead, .NET strings on big-endian
    machines (the marked byte does not come first), counted text for [unpack_from] and [unpack_read] (it may become empty when its NULs are dropped; that has a
    layout, though it is not packed, C18), and counted arrays of scalars that are aligned after their count (C22: the reader starts anew). *)
Definition steady_text (a : carg) : bool :=
  match a with
  | KInt n => 0 <? n
  | KUint c => size_code c && match md with UBuf => true | _ => false end
  | KBytes _ => true
  | KNet => negb hb
  | KInf => false
  end.
Fixpoint steady (aligned : bool) (x : hx) {struct x} : bool :=
  match x with
  | XBasic c => basic_code c
  | XPad n | XPascal n | XChar (KInt n) => 0 <=? n
  | XChar (KUint c) => size_code c
  | XChar (KBytes _) => true
  | XChar KNet => negb hb
  | XUnicode a _ => steady_text a
  | XArray n sz y =>
      let h := match n with inr c => wsize c | inl _ => 0%nat end in
      match n with inl _ => true | inr c => size_code c end && match sz with None => true | Some c => size_code c end
      && takes y && single md y && negb (packed y && negb (flush aligned (width y) h)) && steady aligned y
  | XTuple l => forallb (fun y => steady true y && (negb (takes y) || single md y)) l
  | XCond y _ d => Nat.eqb (List.length d) (if takes y then 1 else 0) && steady aligned y
  | XBack _ _ _ m d =>
      forallb (fun p => takes (snd p) && steady true (snd p)) m && match d with Some y => takes y && steady true y | None => true end
  | XClass c => P c
  | XSelf => true
  | _ => false
  end.
End Steady.
(** What is known of the encoding: a text that was decoded, with its trailing NULs dropped, is decoded from its encoding, up to trailing NULs; of a
    text of a fixed size after the encoding was cut or filled; and the terminator does not show up in the encoding. *)
Definition returns (a : carg) (cd : codec) : Prop := forall y t e,
  (forall n, a = KInt n -> List.length y = Z.to_nat n) -> (forall x, a = KBytes [x] -> ~ In x y) ->
  cod_dec cd y = Ok t -> cod_enc cd (strip t) = Ok e ->
  (forall x, a = KBytes [x] -> ~ In x e) /\
  exists t', cod_dec cd (match a with KInt n => fixed (Z.to_nat n) e | _ => e end) = Ok t' /\ strip t' = strip t.
Fixpoint returning (x : hx) : Prop :=
  match x with
  | XUnicode a cd => returns a cd
  | XArray _ _ y | XAs _ y | XCond y _ _ => returning y
  | XTuple l => (fix go l := match l with [] => True | y :: l' => returning y /\ go l' end) l
  | XBack _ _ _ m d | XAhead _ _ _ _ m d =>
      (fix go m := match m with [] => True | p :: m' => returning (snd p) /\ go m' end) m /\
      match d with Some y => returning y | None => True end
  | _ => True
  end.
Definition steady_classes (hb : bool) (md : umode) (P : nat -> bool) (sl : list sclass) : Prop :=
  forall c sc, nth_error sl c = Some sc -> P c = true ->
    forallb (fun p => steady hb md P (m_native (mode_of hb (sc_bo sc))) (snd p)) (fields_of (sc_anns sc)) = true /\
    Forall (fun p => answering (snd p) /\ returning (snd p)) (fields_of (sc_anns sc)).
