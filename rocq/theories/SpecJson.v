(** * The JSON grammar (RFC 8259) over UTF-8 bytes (RFC 3629) *)

From Coq Require Import ZArith Bool List.
Import ListNotations.
Local Open Scope Z_scope.

(** ** Characters *)

Definition byte (b : Z) : Prop := 0 <= b < 256.

(** RFC 8259 section 2: ws *)
Definition white (b : Z) : bool := (b =? 32) || (b =? 9) || (b =? 10) || (b =? 13).
Definition ws (s : list Z) : Prop := Forall (fun b => white b = true) s.
Definition digit (b : Z) : bool := (48 <=? b) && (b <=? 57).
Definition hex (b : Z) : bool :=
  digit b || ((97 <=? b) && (b <=? 102)) || ((65 <=? b) && (b <=? 70)).
(** RFC 8259 section 7: the characters after a backslash other than u *)
Definition escapes : list Z := [34; 92; 47; 98; 102; 110; 114; 116].

Definition between (a b x : Z) : bool := (a <=? x) && (x <=? b).
(** RFC 3629 section 4: UTF8-tail, UTF8-2, UTF8-3 and UTF8-4 *)
Definition trail (b : Z) : bool := between 128 191 b.
Definition rfc_char (m : list Z) : bool :=
  match m with
  | [a; b] => between 194 223 a && trail b
  | [a; b; c] =>
      (((a =? 224) && between 160 191 b) || (between 225 236 a && trail b) ||
       ((a =? 237) && between 128 159 b) || (between 238 239 a && trail b)) && trail c
  | [a; b; c; d] =>
      (((a =? 240) && between 144 191 b) || (between 241 243 a && trail b) ||
       ((a =? 244) && between 128 143 b)) && trail c && trail d
  | _ => false
  end.

(** What the validator takes for a character instead: overlong forms too, but
    not U+10FFFF. *)
Definition lax_point (cp : Z) : bool :=
  (128 <=? cp) && (cp <? 0x10FFFF) && negb (between 0xD800 0xDFFF cp).
Definition lax_char (m : list Z) : bool :=
  match m with
  | [a; b] => between 192 223 a && trail b && lax_point ((a - 192) * 64 + (b - 128))
  | [a; b; c] =>
      between 224 239 a && trail b && trail c &&
      lax_point (((a - 224) * 64 + (b - 128)) * 64 + (c - 128))
  | [a; b; c; d] =>
      between 240 247 a && trail b && trail c && trail d &&
      lax_point ((((a - 240) * 64 + (b - 128)) * 64 + (c - 128)) * 64 + (d - 128))
  | _ => false
  end.

(** ** The grammar.  [char]: which byte sequences are characters beyond ASCII;
    [broken]: whether a string may also end in an unfinished escape. *)
Section Grammar.
Variable char : list Z -> bool.
Variable broken : bool.

Inductive chars : list Z -> Prop :=
  | chars_nil : chars []
  | chars_plain b s : 32 <= b <= 127 -> b <> 34 -> b <> 92 -> chars s -> chars (b :: s)
  | chars_char m s : char m = true -> chars s -> chars (m ++ s)
  | chars_esc e s : In e escapes -> chars s -> chars (92 :: e :: s)
  | chars_uni a b c d s :
      hex a = true -> hex b = true -> hex c = true -> hex d = true ->
      chars s -> chars (92 :: 117 :: a :: b :: c :: d :: s).

(** a string after its opening quote *)
Inductive str_tail : list Z -> Prop :=
  | tail_quote s : chars s -> str_tail (s ++ [34])
  | tail_esc s : broken = true -> chars s -> str_tail (s ++ [92])
  | tail_uni s h :
      broken = true -> chars s -> Forall (fun b => hex b = true) h -> (length h < 4)%nat ->
      str_tail (s ++ 92 :: 117 :: h).

Definition digits (s : list Z) : Prop := s <> [] /\ Forall (fun b => digit b = true) s.
Inductive integer : list Z -> Prop :=
  | int_zero : integer [48]
  | int_pos s : digits s -> hd 0 s <> 48 -> integer s.
Inductive fraction : list Z -> Prop :=
  | frac_none : fraction []
  | frac_some s : digits s -> fraction (46 :: s).
Inductive exponent : list Z -> Prop :=
  | exp_none : exponent []
  | exp_some e s : e = 101 \/ e = 69 -> digits s -> exponent (e :: s)
  | exp_sign e g s : e = 101 \/ e = 69 -> g = 43 \/ g = 45 -> digits s -> exponent (e :: g :: s).
Inductive number : list Z -> Prop :=
  | number_pos i f e : integer i -> fraction f -> exponent e -> number (i ++ f ++ e)
  | number_neg i f e : integer i -> fraction f -> exponent e -> number (45 :: i ++ f ++ e).

Definition lit_true : list Z := [116; 114; 117; 101].
Definition lit_false : list Z := [102; 97; 108; 115; 101].
Definition lit_null : list Z := [110; 117; 108; 108].

(** [value n v]: v is a value in which at most n arrays, objects and scalars lie
    inside one another *)
Inductive value : nat -> list Z -> Prop :=
  | v_lit n l : In l [lit_true; lit_false; lit_null] -> value (S n) l
  | v_num n s : number s -> value (S n) s
  | v_str n s : str_tail s -> value (S n) (34 :: s)
  | v_arr0 n w : ws w -> value (S n) (91 :: w ++ [93])
  | v_arr n es : elements n es -> value (S n) (91 :: es ++ [93])
  | v_obj0 n w : ws w -> value (S n) (123 :: w ++ [125])
  | v_obj n ms : members n ms -> value (S n) (123 :: ms ++ [125])
with elements : nat -> list Z -> Prop :=
  | e_one n w1 v w2 : ws w1 -> value n v -> ws w2 -> elements n (w1 ++ v ++ w2)
  | e_more n w1 v w2 es :
      ws w1 -> value n v -> ws w2 -> elements n es -> elements n (w1 ++ v ++ w2 ++ 44 :: es)
with members : nat -> list Z -> Prop :=
  | m_one n w1 k w2 w3 v w4 :
      ws w1 -> str_tail k -> ws w2 -> ws w3 -> value n v -> ws w4 ->
      members n (w1 ++ 34 :: k ++ w2 ++ 58 :: w3 ++ v ++ w4)
  | m_more n w1 k w2 w3 v w4 ms :
      ws w1 -> str_tail k -> ws w2 -> ws w3 -> value n v -> ws w4 -> members n ms ->
      members n (w1 ++ 34 :: k ++ w2 ++ 58 :: w3 ++ v ++ w4 ++ 44 :: ms).

Definition text (n : nat) (s : list Z) : Prop :=
  exists w1 v w2, s = w1 ++ v ++ w2 /\ ws w1 /\ value n v /\ ws w2.
End Grammar.

Scheme value_ind3 := Induction for value Sort Prop
  with elements_ind3 := Induction for elements Sort Prop
  with members_ind3 := Induction for members Sort Prop.
Combined Scheme value_mutind from value_ind3, elements_ind3, members_ind3.

(** RFC 8259 texts of UTF-8, nested at most n deep *)
Definition rfc_json (n : nat) (s : list Z) : Prop := text rfc_char false n s.
(** what the validator takes *)
Definition lax_json (n : nat) (s : list Z) : Prop := text lax_char true n s.

(** ** Conditions on plain texts *)

(** every backslash begins an escape of RFC 8259 *)
Inductive escapes_ok : list Z -> Prop :=
  | esc_nil : escapes_ok []
  | esc_other b s : b <> 92 -> escapes_ok s -> escapes_ok (b :: s)
  | esc_short e s : In e escapes -> escapes_ok s -> escapes_ok (92 :: e :: s)
  | esc_uni a b c d s :
      hex a = true -> hex b = true -> hex c = true -> hex d = true ->
      escapes_ok s -> escapes_ok (92 :: 117 :: a :: b :: c :: d :: s).

(** a text of UTF-8 *)
Inductive utf8_text : list Z -> Prop :=
  | utf8_nil : utf8_text []
  | utf8_ascii b s : 0 <= b <= 127 -> utf8_text s -> utf8_text (b :: s)
  | utf8_more m s : rfc_char m = true -> utf8_text s -> utf8_text (m ++ s).

(** the character U+10FFFF does not occur *)
Definition no_10FFFF (s : list Z) : Prop :=
  forall a b, s <> a ++ [244; 143; 191; 191] ++ b.

(** ** What RFC 3629 says in terms of code points *)
Definition scalar (cp : Z) : Prop := 0 <= cp <= 0x10FFFF /\ ~ 0xD800 <= cp <= 0xDFFF.
Definition utf8 (cp : Z) : list Z :=
  if cp <? 0x80 then [cp]
  else if cp <? 0x800 then [192 + cp / 64; 128 + cp mod 64]
  else if cp <? 0x10000 then [224 + cp / 4096; 128 + cp / 64 mod 64; 128 + cp mod 64]
  else [240 + cp / 262144; 128 + cp / 4096 mod 64; 128 + cp / 64 mod 64; 128 + cp mod 64].

(** ** The meaning of strings (RFC 8259 section 7) *)

Definition hexval (b : Z) : Z := if digit b then b - 48 else if 97 <=? b then b - 87 else b - 55.
(** the 16 bit unit of an escape with the four digits a b c d *)
Definition unit16 (a b c d : Z) : Z := ((hexval a * 16 + hexval b) * 16 + hexval c) * 16 + hexval d.
Definition escape_value (e : Z) : Z :=
  if e =? 98 then 8 else if e =? 102 then 12 else if e =? 110 then 10
  else if e =? 114 then 13 else if e =? 116 then 9 else e.
(** the surrogate pair of a supplementary character *)
Definition high_unit (cp : Z) : Z := 0xD800 + (cp - 0x10000) / 1024.
Definition low_unit (cp : Z) : Z := 0xDC00 + (cp - 0x10000) mod 1024.
Definition supplementary (cp : Z) : Prop := 0x10000 <= cp <= 0x10FFFF.

(** [decodes ok s t]: s, the text between the quotes, stands for the bytes t;
    [ok]: the supplementary characters that s may have as a pair of escapes *)
Inductive decodes (ok : Z -> Prop) : list Z -> list Z -> Prop :=
  | dec_nil : decodes ok [] []
  | dec_plain b s t :
      32 <= b <= 127 -> b <> 34 -> b <> 92 -> decodes ok s t -> decodes ok (b :: s) (b :: t)
  | dec_char m s t : rfc_char m = true -> decodes ok s t -> decodes ok (m ++ s) (m ++ t)
  | dec_esc e s t : In e escapes -> decodes ok s t -> decodes ok (92 :: e :: s) (escape_value e :: t)
  | dec_uni a b c d s t :
      hex a = true -> hex b = true -> hex c = true -> hex d = true ->
      between 0xD800 0xDFFF (unit16 a b c d) = false ->
      decodes ok s t -> decodes ok (92 :: 117 :: a :: b :: c :: d :: s) (utf8 (unit16 a b c d) ++ t)
  | dec_pair cp a b c d a' b' c' d' s t :
      hex a = true -> hex b = true -> hex c = true -> hex d = true ->
      hex a' = true -> hex b' = true -> hex c' = true -> hex d' = true ->
      supplementary cp -> ok cp ->
      unit16 a b c d = high_unit cp -> unit16 a' b' c' d' = low_unit cp ->
      decodes ok s t ->
      decodes ok (92 :: 117 :: a :: b :: c :: d :: 92 :: 117 :: a' :: b' :: c' :: d' :: s) (utf8 cp ++ t).

(** a text of which at most n bytes are stored, with its terminating zero *)
Definition text_into (full dst : list Z) : list Z :=
  if (length full <? length dst)%nat then full ++ 0 :: skipn (S (length full)) dst
  else if (0 <? length dst)%nat then firstn (length dst - 1) full ++ [0]
  else dst.
