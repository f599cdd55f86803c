(** Format strings as strings: what the struct module reads in them, and the functions of structs.py which take them
    apart with regular expressions and put them together again.  The rest of the development works with lists of
    counted specifiers (Format.v); here the two are related. *)
From Coq Require Import DecimalString DecimalNat.
From Verif Require Import Base Floats Value StructMod Format.
Open Scope string_scope. Open Scope list_scope.

Definition is_digit (a : ascii) : bool :=
  match a with "0" | "1" | "2" | "3" | "4" | "5" | "6" | "7" | "8" | "9" => true | _ => false end%char.
(** C [isspace], used by the struct module (platform) *)
Definition is_space (a : ascii) : bool :=
  match a with " " | "009" | "010" | "011" | "012" | "013" => true | _ => false end%char.
Definition newline : ascii := "010"%char.
(** the letters of Format specifiers (platform); 'n', 'N' and 'P' are not modelled *)
Definition code_of (a : ascii) : option code :=
  match a with
  | "x" => Some Cx | "c" => Some Cc | "b" => Some Cb | "B" => Some CB | "?" => Some Cbool
  | "h" => Some Ch | "H" => Some CH | "i" => Some Ci | "I" => Some CI | "l" => Some Cl | "L" => Some CL
  | "q" => Some Cq | "Q" => Some CQ | "e" => Some Ce | "f" => Some Cf | "d" => Some Cd
  | "s" => Some Cs | "p" => Some Cp
  | _ => None
  end%char.
Definition letter (c : code) : ascii :=
  match c with
  | Cx => "x" | Cc => "c" | Cb => "b" | CB => "B" | Cbool => "?"
  | Ch => "h" | CH => "H" | Ci => "i" | CI => "I" | Cl => "l" | CL => "L"
  | Cq => "q" | CQ => "Q" | Ce => "e" | Cf => "f" | Cd => "d" | Cs => "s" | Cp => "p"
  end%char.
(** structs.py:57 [_struct_chars] *)
Definition struct_chars : string := "xcbB?hHiIlLqQnNefdspP".
Fixpoint in_str (a : ascii) (s : string) : bool :=
  match s with EmptyString => false | String b s' => Ascii.eqb a b || in_str a s' end.
Definition struct_char (a : ascii) : bool := in_str a struct_chars.

(** Python's [int] on a string of ASCII digits, and [str] of a natural number (platform) *)
Definition int_of (s : string) : nat :=
  match NilEmpty.uint_of_string s with Some u => Nat.of_uint u | None => O end.
Definition str_of (n : nat) : string := NilEmpty.string_of_uint (Nat.to_uint n).

(** ** the struct module reading a format (platform): counts, then a letter; spaces between specifiers.
    [acc] are the digits read so far *)
Definition snoc (acc : option string) (a : ascii) : option string :=
  Some (match acc with Some d => d ++ String a "" | None => String a "" end)%string.
Fixpoint scan (acc : option string) (s : string) : option (fmt * option string) :=
  match s with
  | EmptyString => Some ([], acc)
  | String a s' =>
      if is_digit a then scan (snoc acc a) s'
      else match code_of a with
           | Some c => match scan None s' with
                       | Some (f, acc') => Some (T (option_map int_of acc) c :: f, acc')
                       | None => None
                       end
           | None => if is_space a then match acc with None => scan None s' | Some _ => None end else None
           end
  end.
Definition parse (s : string) : option fmt :=
  match scan None s with Some (f, None) => Some f | _ => None end.

(** what the library writes *)
Definition print_tok (t : tok) : string :=
  ((match t_cnt t with Some n => str_of n | None => "" end) ++ String (letter (t_code t)) "")%string.
Fixpoint print (f : fmt) : string :=
  match f with [] => EmptyString | t :: f' => (print_tok t ++ print f')%string end.

(** ** structs.py *)
Fixpoint span_digits (s : string) : string * string :=
  match s with
  | String a s' => if is_digit a then let (d, r) := span_digits s' in (String a d, r) else (EmptyString, s)
  | EmptyString => (EmptyString, EmptyString)
  end.
(** structs.py:59 [_re_start]: digits, one of the characters, then a lazy group of anything.  The digits are matched greedily, giving some back never
    helps as no digit is among the characters; nothing comes after the lazy group, so it is always empty.
    [\d] is taken to be the ASCII digits (the struct module refuses the others). *)
Definition re_start (s : string) : option (string * ascii * string) :=
  let (d, r) := span_digits s in
  match r with
  | String c _ => if struct_char c then Some (d, c, EmptyString) else None
  | EmptyString => None
  end.
(** structs.py:58 [_re_end]: the shortest first group after which the rest (digits, one of the characters, [$]) matches;
    [.] does not match a newline; [$] matches at the end and before a newline at the end *)
Definition re_tail (s : string) : option (string * ascii) :=
  let (d, r) := span_digits s in
  match r with
  | String c EmptyString => if struct_char c then Some (d, c) else None
  | String c (String a EmptyString) => if struct_char c && Ascii.eqb a newline then Some (d, c) else None
  | _ => None
  end.
Fixpoint re_end (s : string) : option (string * string * ascii) :=
  match re_tail s with
  | Some (d, c) => Some (EmptyString, d, c)
  | None =>
      match s with
      | EmptyString => None
      | String a s' =>
          if Ascii.eqb a newline then None
          else match re_end s' with Some (p, d, c) => Some (String a p, d, c) | None => None end
      end
  end.
Definition is_s_or_p (a : ascii) : bool := match a with "s" | "p" => true | _ => false end%char.
(** structs.py:77-78 *)
Definition count_of (d : string) : nat := match d with EmptyString => 1%nat | _ => int_of d end.
(** structs.py:62-80 [fold_overlaps] *)
Definition fold_str (combine_strings : bool) (s1 s2 : string) : string :=
  match re_start s2, re_end s1 with
  | Some (d2, o2, epilogue), Some (prelude, d1, o1) =>
      if Ascii.eqb o1 o2 && (combine_strings || negb (is_s_or_p o1))
      then (prelude ++ str_of (count_of d1 + count_of d2) ++ String o1 "" ++ epilogue)%string
      else (s1 ++ s2)%string
  | _, _ => (s1 ++ s2)%string
  end.
(** structs.py:197-199 [reduce(fold_overlaps, repeat(fmt, n))], n >= 1 *)
Fixpoint fold_repeat_str (cs : bool) (acc f : string) (n : nat) : string :=
  match n with O => acc | S k => fold_repeat_str cs (fold_str cs acc f) f k end.

(** base_types.py:15-27: the values of [ByteOrder] *)
Definition bo_value (b : border) : string :=
  match b with
  | BO_DEFAULT => "" | BO_LE => "<" | BO_BE => ">" | BO_NSTD => "=" | BO_NNAT => "@" | BO_NET => "!"
  end.
Definition bo_of_char (a : ascii) : option border :=
  match a with
  | "<" => Some BO_LE | ">" => Some BO_BE | "=" => Some BO_NSTD | "@" => Some BO_NNAT | "!" => Some BO_NET
  | _ => None
  end%char.
(** structs.py:83-89 [split_byte_order] *)
Definition split_byte_order (s : string) : border * string :=
  match s with
  | String a s' => match bo_of_char a with Some b => (b, s') | None => (BO_DEFAULT, s) end
  | EmptyString => (BO_DEFAULT, s)
  end.

(** ** facts *)
Lemma struct_char_code : forall a c, code_of a = Some c -> struct_char a = true.
Proof. intros [[] [] [] [] [] [] [] []] c H; try discriminate H; reflexivity. Qed.
Lemma struct_char_digit : forall a, struct_char a = true -> is_digit a = false.
Proof. intros [[] [] [] [] [] [] [] []] H; try discriminate H; reflexivity. Qed.
Lemma struct_char_space : forall a, struct_char a = true -> is_space a = false.
Proof. intros [[] [] [] [] [] [] [] []] H; try discriminate H; reflexivity. Qed.
Lemma code_letter : forall c, code_of (letter c) = Some c.
Proof. destruct c; reflexivity. Qed.
Lemma letter_code : forall a c, code_of a = Some c -> letter c = a.
Proof. intros [[] [] [] [] [] [] [] []] c H; try discriminate H; injection H as <-; reflexivity. Qed.
Lemma letter_eqb : forall c d, Ascii.eqb (letter c) (letter d) = code_eqb c d.
Proof. destruct c, d; reflexivity. Qed.
Lemma letter_sp : forall c, is_s_or_p (letter c) = str_code c.
Proof. destruct c; reflexivity. Qed.
Lemma str_app_assoc : forall a b c : string, ((a ++ b) ++ c = a ++ b ++ c)%string.
Proof. induction a; intros; cbn; [reflexivity|now rewrite IHa]. Qed.
Lemma str_app_nil : forall a : string, (a ++ "" = a)%string.
Proof. induction a; cbn; [reflexivity|now rewrite IHa]. Qed.

Lemma scan_app : forall s acc r, scan acc (s ++ r) =
  match scan acc s with
  | Some (f, acc') => match scan acc' r with Some (g, acc'') => Some (f ++ g, acc'') | None => None end
  | None => None
  end.
Proof.
  induction s as [|a s IH]; intros acc r; cbn.
  - destruct (scan acc r) as [[g q]|]; reflexivity.
  - destruct (is_digit a); [apply IH|]. destruct (code_of a) as [c|].
    + rewrite IH. destruct (scan None s) as [[f q]|]; [|reflexivity]. destruct (scan q r) as [[g q']|]; reflexivity.
    + destruct (is_space a); [|reflexivity]. destruct acc; [reflexivity|apply IH].
Qed.
Lemma parse_app : forall s r f g, parse s = Some f -> parse r = Some g -> parse (s ++ r) = Some (f ++ g).
Proof.
  intros s r f g S R. unfold parse in *. rewrite scan_app. destruct (scan None s) as [[f0 [|]]|]; try discriminate.
  injection S as <-. destruct (scan None r) as [[g0 [|]]|]; try discriminate. injection R as <-. reflexivity.
Qed.

(** digits only *)
Fixpoint digits (s : string) : bool :=
  match s with EmptyString => true | String a s' => is_digit a && digits s' end.
Fixpoint no_space (s : string) : bool :=
  match s with EmptyString => true | String a s' => negb (is_space a) && no_space s' end.
Lemma no_space_app : forall a b, no_space (a ++ b) = no_space a && no_space b.
Proof. induction a; intros; cbn; [reflexivity|]. rewrite IHa. apply andb_assoc. Qed.
Lemma digits_no_space : forall s, digits s = true -> no_space s = true.
Proof.
  induction s as [|a s IH]; cbn; [reflexivity|]. intros H. apply andb_prop in H as [A B]. rewrite IH by exact B.
  rewrite andb_true_r. destruct a as [[] [] [] [] [] [] [] []]; try discriminate A; reflexivity.
Qed.
Definition addd (acc : option string) (d : string) : option string :=
  match d with EmptyString => acc | _ => Some (match acc with Some x => x ++ d | None => d end)%string end.
Lemma scan_digits : forall d acc r, digits d = true -> scan acc (d ++ r) = scan (addd acc d) r.
Proof.
  induction d as [|a d IH]; intros acc r H; [reflexivity|]. cbn in H. apply andb_prop in H as [A B].
  cbn [append scan]. rewrite A. rewrite IH by exact B. f_equal. unfold addd, snoc.
  destruct d as [|b d].
  - destruct acc as [x|]; reflexivity.
  - destruct acc as [x|]; [|reflexivity]. f_equal. now rewrite str_app_assoc.
Qed.

(** the specifier with digits [d] *)
Definition tok_of (d : string) (c : code) : tok := T (match d with EmptyString => None | _ => Some (int_of d) end) c.
Lemma tok_of_cnt : forall d c, cnt (tok_of d c) = count_of d.
Proof. intros [|a d] c; reflexivity. Qed.
Lemma scan_tok : forall d a c r, digits d = true -> code_of a = Some c ->
  scan None (d ++ String a r) =
  match scan None r with Some (f, acc) => Some (tok_of d c :: f, acc) | None => None end.
Proof.
  intros d a c r D C. rewrite scan_digits by exact D. cbn.
  rewrite (struct_char_digit a) by (eapply struct_char_code; exact C). rewrite C.
  destruct (scan None r) as [[f acc]|]; [|reflexivity]. unfold tok_of. now destruct d.
Qed.
Lemma scan_tok_inv : forall d a r f acc, digits d = true -> struct_char a = true ->
  scan None (d ++ String a r) = Some (f, acc) -> exists c f', code_of a = Some c /\
    f = tok_of d c :: f' /\ scan None r = Some (f', acc).
Proof.
  intros d a r f acc D A H. rewrite scan_digits in H by exact D. cbn in H. rewrite (struct_char_digit a A) in H.
  destruct (code_of a) as [c|] eqn:C.
  - destruct (scan None r) as [[f' acc']|]; [|discriminate]. injection H as <- <-.
    exists c, f'. split; [reflexivity|]. split; [|reflexivity]. unfold tok_of. now destruct d.
  - rewrite (struct_char_space a A) in H. discriminate.
Qed.

Lemma span_spec : forall s, let (d, r) := span_digits s in
  s = (d ++ r)%string /\ digits d = true /\ match r with String a _ => is_digit a = false | EmptyString => True end.
Proof.
  induction s as [|a s IH]; cbn; [auto|]. destruct (is_digit a) eqn:A; [|cbn; auto].
  destruct (span_digits s) as [d r]. destruct IH as (E & D & N). cbn. rewrite A, D, <- E. auto.
Qed.

Lemma re_start_spec : forall s d a e, re_start s = Some (d, a, e) ->
  e = EmptyString /\ digits d = true /\ struct_char a = true /\ exists r, s = (d ++ String a r)%string.
Proof.
  intros s d a e H. unfold re_start in H. pose proof (span_spec s) as S. destruct (span_digits s) as [d0 r].
  destruct S as (E & D & _). destruct r as [|c r]; [discriminate|]. destruct (struct_char c) eqn:C; [|discriminate].
  injection H as <- <- <-. split; [reflexivity|]. split; [exact D|]. split; [exact C|]. now exists r.
Qed.
Definition tail_ok (t : string) : Prop := t = EmptyString \/ t = String newline EmptyString.
Lemma re_tail_spec : forall s d a, re_tail s = Some (d, a) ->
  digits d = true /\ struct_char a = true /\ exists t, tail_ok t /\ s = (d ++ String a t)%string.
Proof.
  intros s d a H. unfold re_tail in H. pose proof (span_spec s) as S. destruct (span_digits s) as [d0 r].
  destruct S as (E & D & _). destruct r as [|c [|x [|y r]]]; try discriminate.
  - destruct (struct_char c) eqn:C; [|discriminate]. injection H as <- <-.
    split; [exact D|]. split; [exact C|]. exists EmptyString. split; [now left|exact E].
  - destruct (struct_char c) eqn:C; [|discriminate]. cbn in H. destruct (Ascii.eqb x newline) eqn:X; [|discriminate].
    injection H as <- <-. apply Ascii.eqb_eq in X as ->. split; [exact D|]. split; [exact C|].
    exists (String newline EmptyString). split; [now right|exact E].
Qed.
(** does not end in a digit *)
Definition clear_end (p : string) : Prop :=
  p = EmptyString \/ exists q x, p = (q ++ String x EmptyString)%string /\ is_digit x = false.
Lemma re_end_spec : forall s p d a, re_end s = Some (p, d, a) ->
  clear_end p /\ digits d = true /\ struct_char a = true /\ exists t, tail_ok t /\ s = (p ++ d ++ String a t)%string.
Proof.
  induction s as [|x s IH]; intros p d a H; cbn [re_end] in H.
  - discriminate.
  - destruct (re_tail (String x s)) as [[d0 c]|] eqn:RT.
    + injection H as <- <- <-. apply re_tail_spec in RT as (A & B & t & C & E). split; [now left|].
      split; [exact A|]. split; [exact B|]. exists t. split; [exact C|exact E].
    + destruct (Ascii.eqb x newline); [discriminate|]. destruct (re_end s) as [[[p0 d0] c]|] eqn:RE; [|discriminate].
      injection H as <- <- <-. destruct (IH _ _ _ eq_refl) as (CE & D & A & t & T & E). split; [right|].
      * destruct CE as [->|(q & y & -> & Y)].
        -- exists EmptyString, x. split; [reflexivity|]. destruct (is_digit x) eqn:X; [|reflexivity]. exfalso.
           assert (RT' : re_tail s = Some (d0, c)).
           { destruct s as [|y s]; cbn [re_end] in RE; [discriminate|].
             destruct (re_tail (String y s)) as [[d1 c1]|]; [injection RE as -> ->; reflexivity|].
             destruct (Ascii.eqb y newline); [discriminate|]. destruct (re_end s) as [[[]]|]; discriminate. }
           clear -RT RT' X. unfold re_tail in *. cbn [span_digits] in RT. rewrite X in RT.
           destruct (span_digits s) as [d1 r]. destruct r as [|z [|z' [|]]]; try discriminate.
           ++ destruct (struct_char z); discriminate.
           ++ destruct (struct_char z && Ascii.eqb z' newline); discriminate.
        -- exists (String x q), y. split; [reflexivity|exact Y].
      * split; [exact D|]. split; [exact A|]. exists t. split; [exact T|]. cbn. now rewrite E.
Qed.
Lemma clear_scan : forall p f acc, clear_end p -> scan None p = Some (f, acc) -> acc = None.
Proof.
  intros p f acc [->|(q & x & -> & X)] H; [cbn in H; congruence|]. rewrite scan_app in H.
  destruct (scan None q) as [[g acc0]|]; [|discriminate]. cbn in H. rewrite X in H.
  destruct (code_of x); [injection H as <- <-; reflexivity|]. destruct (is_space x); [|discriminate].
  destruct acc0; [discriminate|]. now injection H as <- <-.
Qed.
Lemma parse_end : forall s p d a f, re_end s = Some (p, d, a) -> parse s = Some f ->
  exists f0 c, code_of a = Some c /\ parse p = Some f0 /\ f = f0 ++ [tok_of d c].
Proof.
  intros s p d a f RE H. destruct (re_end_spec _ _ _ _ RE) as (CE & D & A & t & T & ->). unfold parse in *.
  rewrite scan_app in H. destruct (scan None p) as [[f0 acc]|] eqn:SP; [|discriminate].
  rewrite (clear_scan _ _ _ CE SP) in *.
  destruct (scan None (d ++ String a t)) as [[g acc']|] eqn:SD; [|discriminate].
  destruct (scan_tok_inv _ _ _ _ _ D A SD) as (c & f' & C & -> & ST). exists f0, c.
  destruct acc'; [discriminate|]. injection H as <-. split; [exact C|]. split; [reflexivity|].
  destruct T as [-> | ->]; cbn in ST; injection ST as <-; reflexivity.
Qed.
Lemma parse_start : forall s d a e f, re_start s = Some (d, a, e) -> parse s = Some f ->
  exists f' c, code_of a = Some c /\ f = tok_of d c :: f'.
Proof.
  intros s d a e f RS H. destruct (re_start_spec _ _ _ _ RS) as (_ & D & A & r & ->). unfold parse in H.
  destruct (scan None (d ++ String a r)) as [[g acc]|] eqn:SD; [|discriminate].
  destruct (scan_tok_inv _ _ _ _ _ D A SD) as (c & f' & C & -> & _). destruct acc; [discriminate|].
  injection H as <-. now exists f', c.
Qed.

Lemma digits_str : forall u, digits (NilEmpty.string_of_uint u) = true.
Proof. induction u; cbn; auto. Qed.
Lemma str_of_digits : forall n, digits (str_of n) = true.
Proof. intros. apply digits_str. Qed.
Lemma str_of_nonempty : forall n, str_of n <> EmptyString.
Proof.
  intros n H. unfold str_of in H. pose proof (DecimalNat.Unsigned.of_to n) as O.
  destruct (Nat.to_uint n) eqn:E; try discriminate H. cbn in O. subst n. discriminate E.
Qed.
Lemma int_of_str_of : forall n, int_of (str_of n) = n.
Proof. intros n. unfold int_of, str_of. rewrite NilEmpty.usu. apply DecimalNat.Unsigned.of_to. Qed.
Lemma tok_of_str_of : forall n c, tok_of (str_of n) c = T (Some n) c.
Proof.
  intros n c. unfold tok_of. pose proof (str_of_nonempty n). rewrite int_of_str_of.
  destruct (str_of n); [congruence|reflexivity].
Qed.

(** reading what was written *)
Lemma parse_print_tok : forall t, parse (print_tok t) = Some [t].
Proof.
  intros [[n|] c]; unfold print_tok, parse; cbn [t_cnt t_code].
  - rewrite (scan_tok (str_of n) (letter c) c) by (apply str_of_digits || apply code_letter). cbn.
    now rewrite tok_of_str_of.
  - destruct c; reflexivity.
Qed.
Lemma parse_print : forall f, parse (print f) = Some f.
Proof.
  induction f as [|t f IH]; [reflexivity|]. cbn [print].
  now rewrite (parse_app _ _ _ _ (parse_print_tok t) IH).
Qed.
Lemma letter_no_space : forall c, is_space (letter c) = false.
Proof. destruct c; reflexivity. Qed.
Lemma no_space_print : forall f, no_space (print f) = true.
Proof.
  induction f as [|[[n|] c] f IH]; [reflexivity| |]; cbn; unfold print_tok; cbn [t_cnt t_code].
  - rewrite !no_space_app, (digits_no_space _ (str_of_digits n)). cbn. now rewrite letter_no_space, IH.
  - cbn. now rewrite letter_no_space, IH.
Qed.

(** a format without spaces begins and ends with a specifier, unless it is empty *)
Lemma scan_nothing : forall s acc acc', no_space s = true -> scan acc s = Some ([], acc') ->
  digits s = true /\ acc' = addd acc s.
Proof.
  induction s as [|a s IH]; intros acc acc' N H; cbn in H; [injection H as <-; auto|].
  cbn in N. apply andb_prop in N as [NA N]. destruct (is_digit a) eqn:A.
  - apply IH in H as [D ->]; [|exact N]. cbn. rewrite A. split; [exact D|]. unfold addd, snoc.
    destruct s; [destruct acc; reflexivity|]. destruct acc; [f_equal; now rewrite str_app_assoc|reflexivity].
  - destruct (code_of a); [destruct (scan None s) as [[]|]; discriminate|]. destruct (is_space a); discriminate.
Qed.
Lemma parse_nothing : forall s, no_space s = true -> parse s = Some [] -> s = EmptyString.
Proof.
  intros s N H. unfold parse in H. destruct (scan None s) as [[f [|]]|] eqn:S; try discriminate. injection H as ->.
  apply scan_nothing in S as [_ E]; [|exact N]. destruct s; [reflexivity|discriminate E].
Qed.
Lemma re_start_some : forall s t f, no_space s = true -> parse s = Some (t :: f) -> exists d a, re_start s = Some (d, a, EmptyString).
Proof.
  intros s t f N H. unfold parse in H. unfold re_start. pose proof (span_spec s) as SP.
  destruct (span_digits s) as [d r]. destruct SP as (-> & D & X). rewrite scan_digits in H by exact D.
  destruct r as [|a r]; [cbn in H; destruct (addd None d); discriminate|].
  cbn in H. rewrite X in H. destruct (code_of a) as [c|] eqn:C.
  - rewrite (struct_char_code a c C). now exists d, a.
  - rewrite no_space_app in N. apply andb_prop in N as [_ N]. cbn in N. destruct (is_space a); discriminate.
Qed.
Lemma re_end_some : forall s acc f, no_space s = true -> scan acc s = Some (f, None) -> f <> [] -> re_end s <> None.
Proof.
  induction s as [|a s IH]; intros acc f N H F; [cbn in H; congruence|]. cbn [re_end].
  destruct (re_tail (String a s)) as [[d c]|] eqn:RT; [discriminate|].
  cbn in N. apply andb_prop in N as [NA N].
  assert (NN : Ascii.eqb a newline = false).
  { destruct (Ascii.eqb a newline) eqn:E; [|reflexivity]. apply Ascii.eqb_eq in E as ->. discriminate NA. }
  rewrite NN. cbn [scan] in H. destruct (is_digit a) eqn:A.
  - pose proof (IH _ _ N H F). destruct (re_end s) as [[[]]|]; congruence.
  - destruct (code_of a) as [c|] eqn:C; [|destruct (is_space a); discriminate].
    destruct (scan None s) as [[f' acc']|] eqn:S; [|discriminate]. injection H as <- ->.
    destruct f' as [|t f'].
    + apply scan_nothing in S as [_ E]; [|exact N]. destruct s; [|discriminate E].
      unfold re_tail in RT. cbn [span_digits] in RT. rewrite A, (struct_char_code a c C) in RT. discriminate.
    + assert (X : t :: f' <> []) by discriminate. pose proof (IH _ _ N S X). destruct (re_end s) as [[[]]|]; congruence.
Qed.

Lemma split_last_snoc : forall {A} (l : list A) x, split_last (l ++ [x]) = Some (l, x).
Proof.
  induction l as [|a l IH]; intros x; [reflexivity|]. cbn. rewrite IH. destruct l; reflexivity.
Qed.
(** when the regular expressions match and the two specifiers are merged, the result is that of Format.v *)
Lemma fold_merge : forall cs p d1 o1 d2 o2 f0 c1 c2 f2, code_of o1 = Some c1 -> code_of o2 = Some c2 ->
  parse p = Some f0 ->
  parse (if Ascii.eqb o1 o2 && (cs || negb (is_s_or_p o1))
         then p ++ str_of (count_of d1 + count_of d2) ++ String o1 "" ++ EmptyString else "")%string
  = Some (if Ascii.eqb o1 o2 && (cs || negb (is_s_or_p o1))
          then fold_overlaps cs (f0 ++ [tok_of d1 c1]) (tok_of d2 c2 :: f2) else []).
Proof.
  intros cs p d1 o1 d2 o2 f0 c1 c2 f2 C1 C2 P. apply letter_code in C1, C2. subst o1 o2.
  destruct (Ascii.eqb (letter c1) (letter c2) && (cs || negb (is_s_or_p (letter c1)))) eqn:E; [|reflexivity].
  unfold fold_overlaps. rewrite split_last_snoc. cbn [tok_of t_code].
  rewrite letter_eqb, letter_sp in E. rewrite E. rewrite !tok_of_cnt.
  apply parse_app; [exact P|]. cbn [append]. unfold parse.
  rewrite (scan_tok _ (letter c1) c1) by (apply str_of_digits || apply code_letter). cbn. now rewrite tok_of_str_of.
Qed.

(** formats without spaces: [fold_overlaps] on strings is [fold_overlaps] of Format.v *)
Lemma fold_str_exact : forall cs s1 s2 f1 f2, no_space s1 = true -> no_space s2 = true ->
  parse s1 = Some f1 -> parse s2 = Some f2 ->
  parse (fold_str cs s1 s2) = Some (fold_overlaps cs f1 f2) /\ no_space (fold_str cs s1 s2) = true.
Proof.
  intros cs s1 s2 f1 f2 N1 N2 P1 P2.
  assert (CAT : parse (s1 ++ s2)%string = Some (f1 ++ f2) /\ no_space (s1 ++ s2)%string = true)
    by (split; [now apply parse_app|now rewrite no_space_app, N1, N2]).
  unfold fold_str. destruct f2 as [|t2 f2].
  { apply parse_nothing in P2; [|exact N2]. subst s2. cbn [re_start span_digits].
    destruct f1 as [|t1 f1]; [exact CAT|]. unfold fold_overlaps. destruct (split_last (t1 :: f1)) as [[]|]; exact CAT. }
  destruct f1 as [|t1 f1].
  { apply parse_nothing in P1; [|exact N1]. subst s1. cbn [re_end re_tail span_digits].
    destruct (re_start s2) as [[[]]|]; exact CAT. }
  destruct (re_start_some _ _ _ N2 P2) as (d2 & o2 & R2). rewrite R2.
  destruct (re_end s1) as [[[p d1] o1]|] eqn:R1.
  2:{ exfalso. unfold parse in P1. destruct (scan None s1) as [[g [|]]|] eqn:S; try discriminate. injection P1 as ->.
      assert (X : t1 :: f1 <> []) by discriminate. exact (re_end_some _ _ _ N1 S X R1). }
  destruct (parse_end _ _ _ _ _ R1 P1) as (f0 & c1 & C1 & P0 & E1).
  destruct (parse_start _ _ _ _ _ R2 P2) as (f2' & c2 & C2 & E2). rewrite E1, E2 in *.
  pose proof (fold_merge cs p d1 o1 d2 o2 f0 c1 c2 f2' C1 C2 P0) as FM.
  destruct (re_end_spec _ _ _ _ R1) as (_ & _ & _ & t & _ & ES).
  destruct (Ascii.eqb o1 o2 && (cs || negb (is_s_or_p o1))) eqn:E.
  - split; [exact FM|]. rewrite ES, !no_space_app in N1. rewrite !no_space_app.
    apply andb_prop in N1 as [-> N1]. apply andb_prop in N1 as [_ N1].
    rewrite (digits_no_space _ (str_of_digits _)). cbn in N1 |- *. apply andb_prop in N1 as [-> _]. reflexivity.
  - split; [|exact (proj2 CAT)]. rewrite (proj1 CAT). unfold fold_overlaps. rewrite split_last_snoc. cbn [tok_of t_code].
    apply letter_code in C1, C2. subst o1 o2. rewrite letter_eqb, letter_sp in E. now rewrite E.
Qed.
(** any formats: that, or their concatenation *)
Lemma fold_str_any : forall cs s1 s2 f1 f2, parse s1 = Some f1 -> parse s2 = Some f2 ->
  parse (fold_str cs s1 s2) = Some (fold_overlaps cs f1 f2) \/ parse (fold_str cs s1 s2) = Some (f1 ++ f2).
Proof.
  intros cs s1 s2 f1 f2 P1 P2.
  assert (CAT : parse (s1 ++ s2)%string = Some (f1 ++ f2)) by now apply parse_app.
  unfold fold_str. destruct (re_start s2) as [[[d2 o2] e]|] eqn:R2; [|now right].
  destruct (re_end s1) as [[[p d1] o1]|] eqn:R1; [|now right].
  destruct (parse_end _ _ _ _ _ R1 P1) as (f0 & c1 & C1 & P0 & ->).
  destruct (parse_start _ _ _ _ _ R2 P2) as (f2' & c2 & C2 & ->).
  destruct (re_start_spec _ _ _ _ R2) as (-> & _).
  pose proof (fold_merge cs p d1 o1 d2 o2 f0 c1 c2 f2' C1 C2 P0) as FM.
  destruct (Ascii.eqb o1 o2 && (cs || negb (is_s_or_p o1))); [left; exact FM|now right].
Qed.
Lemma fold_repeat_str_exact : forall cs s f, no_space s = true -> parse s = Some f ->
  forall n acc g, no_space acc = true -> parse acc = Some g ->
  parse (fold_repeat_str cs acc s n) = Some (fold_repeat cs g f n) /\ no_space (fold_repeat_str cs acc s n) = true.
Proof.
  intros cs s f N P. induction n as [|n IH]; intros acc g NA PA; [now split|]. cbn.
  destruct (fold_str_exact cs acc s g f NA N PA P) as [A B]. now apply IH.
Qed.
(** the byte order is recovered *)
Lemma split_byte_order_spec : forall b s f, parse s = Some f -> split_byte_order (bo_value b ++ s) = (b, s).
Proof.
  intros b s f P. destruct b; try reflexivity. cbn. destruct s as [|a s]; [reflexivity|]. cbn.
  destruct (bo_of_char a) eqn:E; [|reflexivity]. exfalso. unfold parse in P. cbn in P.
  destruct a as [[] [] [] [] [] [] [] []]; discriminate E || discriminate P.
Qed.
