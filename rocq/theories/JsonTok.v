(** * JSON tokens and strings of tg.c *)

From Coq Require Import ZArith Bool List.
From Verif Require Import Json Bytes Writer.
Import ListNotations.
Local Open Scope Z_scope.

(** ** Tokens *)

(** tg.c:7088-7097 struct json: info, raw, end and len.  A position is
    represented by the bytes from it up to [end], which all tokens of a text
    share.  [JNone] = { 0 }.  len = 0 for arrays and objects. *)
Inductive json := JNone | J (info : Z) (raw : list Z) (len : nat).

(** tg.c:7089 enum iflags *)
Definition IESC : Z := 1.
(** tg.c:7089 enum iflags *)
Definition ISIGN : Z := 8.

(** tg.c:7099-7103 strtoksa *)
Definition strtoksa : list Z := [
   0;0;0;0;0;0;0;0;0;0;0;0;0;0;0;0;0;0;0;0;0;0;0;0;0;0;0;0;0;0;0;0;
   0;0;1;0;0;0;0;0;0;0;0;0;0;0;0;0;0;0;0;0;0;0;0;0;0;0;0;0;0;0;0;0;
   0;0;0;0;0;0;0;0;0;0;0;0;0;0;0;0;0;0;0;0;0;0;0;0;0;0;0;0;1;0;0;0;
   0;0;0;0;0;0;0;0;0;0;0;0;0;0;0;0;0;0;0;0;0;0;0;0;0;0;0;0;0;0;0;0;
   0;0;0;0;0;0;0;0;0;0;0;0;0;0;0;0;0;0;0;0;0;0;0;0;0;0;0;0;0;0;0;0;
   0;0;0;0;0;0;0;0;0;0;0;0;0;0;0;0;0;0;0;0;0;0;0;0;0;0;0;0;0;0;0;0;
   0;0;0;0;0;0;0;0;0;0;0;0;0;0;0;0;0;0;0;0;0;0;0;0;0;0;0;0;0;0;0;0;
   0;0;0;0;0;0;0;0;0;0;0;0;0;0;0;0;0;0;0;0;0;0;0;0;0;0;0;0;0;0;0;0].

(** tg.c:7110-7130, the loop of count_string from raw[i] on *)
Fixpoint count_string_loop (s : list Z) (i : nat) (info : Z) (e : bool) : nat * Z :=
  match s with
  | [] => (i, info)
  | b :: r =>
      if tok strtoksa b =? 0 then count_string_loop r (S i) info false
      else if b =? 34 then
        if negb e then (S i, info) else count_string_loop r (S i) info false
      else if b =? 92 then count_string_loop r (S i) (Z.lor info IESC) (negb e)
      else count_string_loop r (S i) info e
  end.
(** tg.c:7105-7133 count_string *)
Definition count_string (raw : list Z) : nat * Z := count_string_loop (tl raw) 1 0 false.

(** tg.c:7135-7139 take_string *)
Definition take_string (raw : list Z) : json :=
  let (i, info) := count_string raw in J info raw i.

(** tg.c:7141-7147 numtoks *)
Definition numtoks : list Z := [
   0;0;0;0;0;0;0;0;0;0;0;0;0;0;0;0;0;0;0;0;0;0;0;0;0;0;0;0;0;0;0;0;
   0;0;0;0;0;0;0;0;0;0;0;1;0;1;3;0;1;1;1;1;1;1;1;1;1;1;0;0;0;0;0;0;
   0;0;0;0;0;5;0;0;0;0;0;0;0;0;0;0;0;0;0;0;0;0;0;0;0;0;0;0;0;0;0;0;
   0;0;0;0;0;5;0;0;0;0;0;0;0;0;0;0;0;0;0;0;0;0;0;0;0;0;0;0;0;0;0;0;
   0;0;0;0;0;0;0;0;0;0;0;0;0;0;0;0;0;0;0;0;0;0;0;0;0;0;0;0;0;0;0;0;
   0;0;0;0;0;0;0;0;0;0;0;0;0;0;0;0;0;0;0;0;0;0;0;0;0;0;0;0;0;0;0;0;
   0;0;0;0;0;0;0;0;0;0;0;0;0;0;0;0;0;0;0;0;0;0;0;0;0;0;0;0;0;0;0;0;
   0;0;0;0;0;0;0;0;0;0;0;0;0;0;0;0;0;0;0;0;0;0;0;0;0;0;0;0;0;0;0;0].

(** tg.c:7153-7156, the loop of take_number from raw[i] on *)
Fixpoint take_number_loop (s : list Z) (i : nat) (info : Z) : nat * Z :=
  match s with
  | [] => (i, info)
  | b :: r =>
      if tok numtoks b =? 0 then (i, info)
      else take_number_loop r (S i) (Z.lor info (tok numtoks b - 1))
  end.
(** tg.c:7149-7159 take_number *)
Definition take_number (raw : list Z) : json :=
  let info := match raw with b :: _ => if b =? 45 then ISIGN else 0 | [] => 0 end in
  let (i, info) := take_number_loop (tl raw) 1 info in J info raw i.

(** tg.c:7161-7166 nesttoks *)
Definition nesttoks : list Z := [
   0;0;0;0;0;0;0;0;0;0;0;0;0;0;0;0;0;0;0;0;0;0;0;0;0;0;0;0;0;0;0;0;
   0;0;1;0;0;0;0;0;0;0;0;0;0;0;0;0;0;0;0;0;0;0;0;0;0;0;0;0;0;0;0;0;
   0;0;0;0;0;0;0;0;0;0;0;0;0;0;0;0;0;0;0;0;0;0;0;0;0;0;0;4;0;2;0;0;
   0;0;0;0;0;0;0;0;0;0;0;0;0;0;0;0;0;0;0;0;0;0;0;0;0;0;0;4;0;2;0;0;
   0;0;0;0;0;0;0;0;0;0;0;0;0;0;0;0;0;0;0;0;0;0;0;0;0;0;0;0;0;0;0;0;
   0;0;0;0;0;0;0;0;0;0;0;0;0;0;0;0;0;0;0;0;0;0;0;0;0;0;0;0;0;0;0;0;
   0;0;0;0;0;0;0;0;0;0;0;0;0;0;0;0;0;0;0;0;0;0;0;0;0;0;0;0;0;0;0;0;
   0;0;0;0;0;0;0;0;0;0;0;0;0;0;0;0;0;0;0;0;0;0;0;0;0;0;0;0;0;0;0;0].

(** tg.c:7190-7194, the loop over the backslashes before the quote.  [pre]: the
    bytes raw[j], raw[j-1], ..., raw[0]. *)
Fixpoint count_back (pre : list Z) (e : bool) : bool :=
  match pre with
  | b :: ((_ :: _) as pre') => if b =? 92 then count_back pre' (negb e) else e
  | _ => e
  end.
(** tg.c:7183-7198, the loop over a string in count_nested.  [pre]: the bytes
    before raw[i], last first; [s]: those from raw[i] on.  Gives i. *)
Fixpoint nested_string (pre s : list Z) : list Z * list Z :=
  match s with
  | [] => (pre, [])
  | b :: r =>
      if b =? 34 then
        match pre with
        | 92 :: pre' => if count_back pre' true then nested_string (b :: pre) r else (b :: pre, r)
        | _ => (b :: pre, r)
        end
      else nested_string (b :: pre) r
  end.
(** tg.c:7174-7200, the outer loop of count_nested *)
Fixpoint nested_loop (fuel : nat) (pre s : list Z) (depth : Z) : option nat :=
  if depth =? 0 then Some (length pre)
  else match fuel with
  | O => None
  | S fuel' =>
      match s with
      | [] => Some (length pre)
      | b :: r =>
          let kind := tok nesttoks b in
          if kind =? 0 then nested_loop fuel' (b :: pre) r depth
          else if negb (kind - 1 =? 0) then nested_loop fuel' (b :: pre) r (depth + (kind - 3))
          else let (pre', s') := nested_string (b :: pre) r in nested_loop fuel' pre' s' depth
      end
  end.
(** tg.c:7168-7202 count_nested.  Out of fuel (never): 0. *)
Definition count_nested (raw : list Z) : nat :=
  match raw with
  | [] => 1
  | b :: r => match nested_loop (S (length r)) [b] r 1 with Some i => i | None => 0 end
  end.

(** tg.c:7204-7207 take_literal *)
Definition take_literal (raw : list Z) (litlen : nat) : json :=
  J 0 raw (if (length raw <? litlen)%nat then length raw else litlen).

(** tg.c:7209-7224 peek_any *)
Fixpoint peek_any (raw : list Z) : json :=
  match raw with
  | [] => JNone
  | b :: r =>
      if (b =? 125) || (b =? 93) then JNone
      else if (b =? 123) || (b =? 91) then J 0 raw 0
      else if b =? 34 then take_string raw
      else if b =? 110 then take_literal raw 4
      else if b =? 116 then take_literal raw 4
      else if b =? 102 then take_literal raw 5
      else if (b =? 45) || is_digit b then take_number raw
      else peek_any r
  end.

(** tg.c:7226-7231 json_first *)
Definition json_first (j : json) : json :=
  match j with
  | JNone => JNone
  | J _ raw _ =>
      match raw with
      | [] => JNone
      | b :: r => if negb (b =? 123) && negb (b =? 91) then JNone else peek_any r
      end
  end.
(** tg.c:7233-7239 json_next.  Simplification: a position after the end, which
    tokens made here never give, counts as the end. *)
Definition json_next (j : json) : json :=
  match j with
  | JNone => JNone
  | J _ raw len =>
      match raw with
      | [] => JNone
      | _ :: _ => peek_any (skipn (if (len =? 0)%nat then count_nested raw else len) raw)
      end
  end.
(** tg.c:7241-7247 json_parsen *)
Definition json_parsen (s : list Z) : json :=
  match s with
  | [] => JNone
  | b :: _ => if (b =? 91) || (b =? 123) then J 0 s 0 else peek_any s
  end.
(** tg.c:7253-7255 json_exists *)
Definition json_exists (j : json) : bool := match j with JNone => false | J _ _ _ => true end.
(** tg.c:7257-7259 json_raw; NULL is represented by the empty text *)
Definition json_raw (j : json) : list Z := match j with JNone => [] | J _ raw _ => raw end.
(** tg.c:7261-7265 json_raw_length *)
Definition json_raw_length (j : json) : nat :=
  match j with
  | JNone => 0
  | J _ raw len =>
      if negb (len =? 0)%nat then len
      else match raw with [] => 0 | _ :: _ => count_nested raw end
  end.

(** tg.c:7267-7272 typetoks *)
Definition typetoks : list Z := [
   0;0;0;0;0;0;0;0;0;0;0;0;0;0;0;0;0;0;0;0;0;0;0;0;0;0;0;0;0;0;0;0;
   0;0;3;0;0;0;0;0;0;0;0;0;0;2;0;0;2;2;2;2;2;2;2;2;2;2;0;0;0;0;0;0;
   0;0;0;0;0;0;0;0;0;0;0;0;0;0;0;0;0;0;0;0;0;0;0;0;0;0;0;5;0;0;0;0;
   0;0;0;0;0;0;1;0;0;0;0;0;0;0;0;0;0;0;0;0;4;0;0;0;0;0;0;6;0;0;0;0;
   0;0;0;0;0;0;0;0;0;0;0;0;0;0;0;0;0;0;0;0;0;0;0;0;0;0;0;0;0;0;0;0;
   0;0;0;0;0;0;0;0;0;0;0;0;0;0;0;0;0;0;0;0;0;0;0;0;0;0;0;0;0;0;0;0;
   0;0;0;0;0;0;0;0;0;0;0;0;0;0;0;0;0;0;0;0;0;0;0;0;0;0;0;0;0;0;0;0;
   0;0;0;0;0;0;0;0;0;0;0;0;0;0;0;0;0;0;0;0;0;0;0;0;0;0;0;0;0;0;0;0].

(** enum json_type, tg.c:6749-6757 *)
Definition JSON_NULL : Z := 0.
(** tg.c:6749-6757 enum json_type *)
Definition JSON_FALSE : Z := 1.
(** tg.c:6749-6757 enum json_type *)
Definition JSON_NUMBER : Z := 2.
(** tg.c:6749-6757 enum json_type *)
Definition JSON_STRING : Z := 3.
(** tg.c:6749-6757 enum json_type *)
Definition JSON_TRUE : Z := 4.
(** tg.c:6749-6757 enum json_type *)
Definition JSON_ARRAY : Z := 5.
(** tg.c:6749-6757 enum json_type *)
Definition JSON_OBJECT : Z := 6.
(** tg.c:7274-7276 json_type *)
Definition json_type (j : json) : Z :=
  match json_raw j with b :: _ => tok typetoks b | [] => JSON_NULL end.
(** tg.c:7278-7280 json_ensure *)
Definition json_ensure (j : json) : json :=
  match j with JNone => JNone | J info raw _ => J info raw (json_raw_length j) end.

(** ** Strings *)

(** tg.c:7291-7296 hextoks *)
Definition json_hextoks : list Z := [
   0;0;0;0;0;0;0;0;0;0;0;0;0;0;0;0;0;0;0;0;0;0;0;0;0;0;0;0;0;0;0;0;
   0;0;0;0;0;0;0;0;0;0;0;0;0;0;0;0;0;1;2;3;4;5;6;7;8;9;0;0;0;0;0;0;
   0;10;11;12;13;14;15;0;0;0;0;0;0;0;0;0;0;0;0;0;0;0;0;0;0;0;0;0;0;0;0;0;
   0;10;11;12;13;14;15;0;0;0;0;0;0;0;0;0;0;0;0;0;0;0;0;0;0;0;0;0;0;0;0;0;
   0;0;0;0;0;0;0;0;0;0;0;0;0;0;0;0;0;0;0;0;0;0;0;0;0;0;0;0;0;0;0;0;
   0;0;0;0;0;0;0;0;0;0;0;0;0;0;0;0;0;0;0;0;0;0;0;0;0;0;0;0;0;0;0;0;
   0;0;0;0;0;0;0;0;0;0;0;0;0;0;0;0;0;0;0;0;0;0;0;0;0;0;0;0;0;0;0;0;
   0;0;0;0;0;0;0;0;0;0;0;0;0;0;0;0;0;0;0;0;0;0;0;0;0;0;0;0;0;0;0;0].

(** tg.c:7298-7301 decode_hex; the text has at least four bytes *)
Definition decode_hex (s : list Z) : Z :=
  let h i := tok json_hextoks (nth i s 0) in
  Z.lor (Z.lor (Z.lor (Z.shiftl (h 0%nat) 12) (Z.shiftl (h 1%nat) 8)) (Z.shiftl (h 2%nat) 4)) (h 3%nat).
(** tg.c:7303-7305 is_surrogate *)
Definition is_surrogate (cp : Z) : bool := (55296 <? cp) && (cp <? 57344).
(** tg.c:7307-7311 decode_codepoint *)
Definition decode_codepoint (cp1 cp2 : Z) : Z :=
  if (55296 <? cp1) && (cp1 <? 56320) && (56320 <? cp2) && (cp2 <? 57344)
  then Z.lor (Z.shiftl (cp1 - 55296) 10) ((cp2 - 56320) + 65536)
  else 65533.
(** tg.c:7313-7335 encode_codepoint: the bytes stored *)
Definition encode_codepoint (cp : Z) : list Z :=
  if cp <? 128 then [cp]
  else if cp <? 2048 then [Z.lor 192 (Z.shiftr cp 6); Z.lor 128 (Z.land cp 63)]
  else
    let cp := if (1114111 <? cp) || is_surrogate cp then 65533 else cp in
    if cp <? 65536 then
      [Z.lor 224 (Z.shiftr cp 12); Z.lor 128 (Z.land (Z.shiftr cp 6) 63); Z.lor 128 (Z.land cp 63)]
    else
      [Z.lor 240 (Z.shiftr cp 18); Z.lor 128 (Z.land (Z.shiftr cp 12) 63);
       Z.lor 128 (Z.land (Z.shiftr cp 6) 63); Z.lor 128 (Z.land cp 63)].

(** tg.c:7337-7384 for_each_utf8: the bytes ch for which f runs.  [None] = out of
    fuel (never). *)
Fixpoint unescape (fuel : nat) (s : list Z) : option (list Z) :=
  match fuel with
  | O => None
  | S fuel' =>
      let out bs r := option_map (app bs) (unescape fuel' r) in
      match s with
      | [] => Some []
      | b :: r =>
          if negb (b =? 92) then out [b] r
          else match r with
          | [] => Some []
          | c :: r =>
              if c =? 92 then out [92] r
              else if c =? 47 then out [47] r
              else if c =? 98 then out [8] r
              else if c =? 102 then out [12] r
              else if c =? 110 then out [10] r
              else if c =? 114 then out [13] r
              else if c =? 116 then out [9] r
              else if c =? 34 then out [34] r
              else if c =? 117 then
                if (length r <? 4)%nat then Some []
                else
                  let cp := decode_hex r in
                  let r := skipn 4 r in
                  if is_surrogate cp && (6 <=? length r)%nat && (nth 0 r 0 =? 92) && (nth 1 r 0 =? 117)
                  then out (encode_codepoint (decode_codepoint cp (decode_hex (skipn 2 r)))) (skipn 6 r)
                  else out (encode_codepoint cp) r
              else unescape fuel' r
          end
      end
  end.

(** tg.c:7282-7289 strcmpn, whether it gives 0; strncmp stops where both have a
    NUL *)
Fixpoint strncmp_eq (a b : list Z) (n : nat) : bool :=
  match n with
  | O => true
  | S n => match a, b with
           | x :: a, y :: b => (x =? y) && ((x =? 0) || strncmp_eq a b n)
           | _, _ => false
           end
  end.
(** tg.c:7282-7289 strcmpn *)
Definition strcmpn_eq (a : list Z) (alen : nat) (b : list Z) (blen : nat) : bool :=
  strncmp_eq a b (if (alen <? blen)%nat then alen else blen) && (alen =? blen)%nat.

(** tg.c:7386-7392 json_raw_comparen, whether it gives 0 *)
Definition json_raw_comparen_eq (j : json) (str : list Z) : bool :=
  strcmpn_eq (json_raw j) (json_raw_length j) str (length str).

(** tg.c:7420-7421: the bytes between the quotes *)
Definition string_inner (j : json) : list Z :=
  let rlen := json_raw_length j in
  firstn (if (rlen <? 2)%nat then 0 else rlen - 2) (tl (json_raw j)).
(** tg.c:7404, 7422, 7758-7760 *)
Definition json_string_is_escaped (j : json) : bool :=
  match j with JNone => false | J info _ _ => negb (Z.land info IESC =? 0) end.

(** tg.c:7427-7438: the comparison of the unescaped bytes with the zero
    terminated str, whether it gives 0 *)
Fixpoint cmp_loop (chs str : list Z) : bool :=
  match chs with
  | [] => match str with [] => true | x :: _ => x =? 0 end
  | ch :: chs =>
      match str with
      | [] => false
      | x :: str => if (x =? 0) || negb (ch =? x) then false else cmp_loop chs str
      end
  end.
(** tg.c:7413-7440 json_string_comparen, 7442-7445 json_string_compare: whether
    the result is 0.  [str] without its terminating zero. *)
Definition json_string_compare_eq (j : json) (str : list Z) : bool :=
  if negb (json_type j =? JSON_STRING) then json_raw_comparen_eq j str
  else if negb (json_string_is_escaped j) then
    strcmpn_eq (tl (json_raw j)) (length (string_inner j)) str (length str)
  else match unescape (S (length (string_inner j))) (string_inner j) with
       | Some chs => cmp_loop chs str
       | None => false
       end.

(** tg.c:7398-7411 json_string_length *)
Definition json_string_length (j : json) : nat :=
  let len := json_raw_length j in
  if negb (json_type j =? JSON_STRING) then len
  else if negb (json_string_is_escaped j) then (if (len <? 2)%nat then 0 else len - 2)%nat
  else match unescape (S (length (string_inner j))) (string_inner j) with
       | Some chs => length chs
       | None => 0%nat
       end.

(** tg.c:7457-7471, the two ways of copying: the caller's buffer of n bytes and
    the count returned.  [None] = a store outside the buffer. *)
Definition put (dst : list Z) (i : nat) (bs : list Z) : option (list Z) :=
  if (i + length bs <=? length dst)%nat then Some (store dst i bs) else None.
(** tg.c:7457-7471, the copy of the decoded characters *)
Fixpoint copy_loop (chs : list Z) (count : nat) (dst : list Z) : option (nat * list Z) :=
  match chs with
  | [] => Some (count, dst)
  | ch :: chs =>
      if (count <? length dst)%nat then
        match put dst count [ch] with Some dst => copy_loop chs (S count) dst | None => None end
      else copy_loop chs (S count) dst
  end.
(** tg.c:7447-7472 json_string_copy *)
Definition json_string_copy (j : json) (dst : list Z) : option (nat * list Z) :=
  let n := length dst in
  let isstr := json_type j =? JSON_STRING in
  let body := if isstr then string_inner j else firstn (json_raw_length j) (json_raw j) in
  if negb (isstr && json_string_is_escaped j) then
    let len := length body in
    if (n =? 0)%nat then Some (len, dst)
    else
      let m := if (n - 1 <? len)%nat then (n - 1)%nat else len in
      match put dst 0 (firstn m body) with
      | Some dst => match put dst m [0] with Some dst => Some (len, dst) | None => None end
      | None => None
      end
  else
    match unescape (S (length body)) body with
    | None => None
    | Some chs =>
        match copy_loop chs 0 dst with
        | None => None
        | Some (count, dst) =>
            if (count <? n)%nat then
              match put dst count [0] with Some dst => Some (count, dst) | None => None end
            else if (0 <? n)%nat then
              match put dst (n - 1) [0] with Some dst => Some (count, dst) | None => None end
            else Some (count, dst)
        end
    end.

(** ** Arrays and objects *)

(** tg.c:7478-7481, 7489-7493: the loop over the children, as a list.  [None] =
    out of fuel. *)
Fixpoint children (fuel : nat) (j : json) : option (list json) :=
  match fuel with
  | O => None
  | S fuel => if json_exists j then option_map (cons j) (children fuel (json_next j)) else Some []
  end.
(** tg.c:7474-7484 json_array_count *)
Definition json_array_count (j : json) : option nat :=
  if json_type j =? JSON_ARRAY
  then option_map (@length json) (children (S (length (json_raw j))) (json_first j)) else Some 0%nat.
(** tg.c:7488-7493, the loop of json_array_get *)
Fixpoint array_get_loop (j : json) (index : nat) : json :=
  if json_exists j then
    match index with O => j | S index => array_get_loop (json_next j) index end
  else JNone.
(** tg.c:7486-7496 json_array_get *)
Definition json_array_get (j : json) (index : nat) : json :=
  if json_type j =? JSON_ARRAY then array_get_loop (json_first j) index else JNone.
(** tg.c:7502-7507, the loop of json_object_getn *)
Fixpoint object_get_loop (fuel : nat) (j : json) (key : list Z) : option json :=
  match fuel with
  | O => None
  | S fuel =>
      if json_exists j then
        if json_string_compare_eq j key then Some (json_next j)
        else object_get_loop fuel (json_next (json_next j)) key
      else Some JNone
  end.
(** tg.c:7512-7514 json_object_getn, json_object_get *)
Definition json_object_get (j : json) (key : list Z) : option json :=
  if json_type j =? JSON_OBJECT
  then object_get_loop (S (length (json_raw j))) (json_first j) key else Some JNone.

(** ** Escaping *)

(** tg.c:7645-7649 struct jesc_buf: [je_dst] is the caller's buffer, [je_pos] the
    offset of esc in it *)
Record jesc := Je { je_dst : list Z; je_pos : nat; je_len : nat; je_count : nat }.
(** tg.c:7651-7657 jesc_append.  [None] = a store outside the buffer. *)
Definition jesc_append (ch : Z) (b : jesc) : option jesc :=
  if (1 <? je_len b)%nat then
    match put (je_dst b) (je_pos b) [ch] with
    | Some dst => Some (Je dst (S (je_pos b)) (je_len b - 1) (S (je_count b)))
    | None => None
    end
  else Some (Je (je_dst b) (je_pos b) (je_len b) (S (je_count b))).
(** several calls of tg.c:7651 jesc_append *)
Fixpoint jesc_appends (chs : list Z) (b : jesc) : option jesc :=
  match chs with
  | [] => Some b
  | ch :: chs => match jesc_append ch b with Some b => jesc_appends chs b | None => None end
  end.
(** tg.c:7663 hexchars *)
Definition hexchars : list Z := [48;49;50;51;52;53;54;55;56;57;97;98;99;100;101;102].
(** tg.c:7665-7670 jesc_append_ux: the bytes appended *)
Definition escape_ux (x : Z) : list Z :=
  let h k := tok hexchars (Z.land (Z.shiftr x k) 15) in [92; 117; h 12; h 8; h 4; h 0].
(** tg.c:7678-7708, one round of the loop of json_escapen: the bytes appended and
    the number of bytes taken *)
Definition escape_step (s : list Z) : list Z * nat :=
  match s with
  | [] => ([], 1%nat)
  | c :: _ =>
      if c <? 32 then
        (if c =? 10 then [92; 110] else if c =? 8 then [92; 98] else if c =? 12 then [92; 102]
         else if c =? 13 then [92; 114] else if c =? 9 then [92; 116] else escape_ux c, 1%nat)
      else if (c =? 62) || (c =? 60) || (c =? 38) then (escape_ux c, 1%nat)
      else if c =? 92 then ([92; 92], 1%nat)
      else if c =? 34 then ([92; 34], 1%nat)
      else if 127 <? c then
        match vutf8 s with
        | (O, _) => (encode_codepoint 0xfffd, 1%nat)
        | (n, cp) => (encode_codepoint cp, n)
        end
      else ([c], 1%nat)
  end.
(** tg.c:7677-7709, the loop of json_escapen *)
Fixpoint escape_loop (fuel : nat) (s : list Z) (b : jesc) : option jesc :=
  match s with
  | [] => Some b
  | _ :: _ =>
      match fuel with
      | O => None
      | S fuel =>
          let (chs, n) := escape_step s in
          match jesc_appends chs b with
          | Some b => escape_loop fuel (skipn n s) b
          | None => None
          end
      end
  end.
(** tg.c:7672-7717 json_escapen: the count returned and the buffer *)
Definition json_escapen (s : list Z) (dst : list Z) : option (nat * list Z) :=
  match jesc_append 34 (Je dst 0 (length dst) 0) with
  | None => None
  | Some b =>
      match escape_loop (length s) s b with
      | None => None
      | Some b =>
          match jesc_append 34 b with
          | None => None
          | Some b =>
              if (0 <? je_len b)%nat then
                match put (je_dst b) (je_pos b) [0] with
                | Some dst => Some (je_count b, dst)
                | None => None
                end
              else Some (je_count b, je_dst b)
          end
      end
  end.
