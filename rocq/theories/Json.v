(** * The JSON validator of tg.c (json.c as included there) *)

From Coq Require Import ZArith Bool List.
Import ListNotations.
Local Open Scope Z_scope.

(** A position i in the text data[0..dlen) is represented by the bytes from i on.
    The validating functions return the next position, or -(i+1) where they
    fail: [VBad].  [VOob]: a read outside the text.  [VNoFuel]: the bound of a
    model loop ran out (never happens).  Simplification: after an array that is
    not closed tg.c:6981-6988 fails with a position one beyond the end, here at the
    end; the position of a failure is not used by tg.c. *)
Inductive vres :=
  | VOk (rest : list Z) | VBad (rest : list Z) | VOob | VNoFuel.

(** "return -(i+1)" of a result, as tg.c:6882 does; twice gives i back *)
Definition vneg (x : vres) : vres :=
  match x with
  | VOk s => VBad s
  | VBad s => VOk s
  | VOob => VOob
  | VNoFuel => VNoFuel
  end.
(** "if ((i = f(...)) < 0) return i;", as in tg.c:6982 *)
Definition vbind (x : vres) (f : list Z -> vres) : vres :=
  match x with VOk s => f s | x => x end.

(** case ' ': case '\t': case '\n': case '\r', as in tg.c:6951 *)
Definition is_ws (b : Z) : bool := (b =? 32) || (b =? 9) || (b =? 10) || (b =? 13).
(** >= '0' && <= '9', as in tg.c:6891 *)
Definition is_digit (b : Z) : bool := (48 <=? b) && (b <=? 57).
(** tg.c:6822-6824 hexadecimal digits *)
Definition is_hex (b : Z) : bool :=
  is_digit b || ((97 <=? b) && (b <=? 102)) || ((65 <=? b) && (b <=? 70)).

(** table[byte], as in tg.c:6865 *)
Definition tok (table : list Z) (b : Z) : Z := nth (Z.to_nat b) table 0.

(** tg.c:6849-6861 strtoksu *)
Definition strtoksu : list Z := [
   6;6;6;6;6;6;6;6;6;6;6;6;6;6;6;6;6;6;6;6;6;6;6;6;6;6;6;6;6;6;6;6;
   0;0;1;0;0;0;0;0;0;0;0;0;0;0;0;0;0;0;0;0;0;0;0;0;0;0;0;0;0;0;0;0;
   0;0;0;0;0;0;0;0;0;0;0;0;0;0;0;0;0;0;0;0;0;0;0;0;0;0;0;0;2;0;0;0;
   0;0;0;0;0;0;0;0;0;0;0;0;0;0;0;0;0;0;0;0;0;0;0;0;0;0;0;0;0;0;0;0;
   6;6;6;6;6;6;6;6;6;6;6;6;6;6;6;6;6;6;6;6;6;6;6;6;6;6;6;6;6;6;6;6;
   6;6;6;6;6;6;6;6;6;6;6;6;6;6;6;6;6;6;6;6;6;6;6;6;6;6;6;6;6;6;6;6;
   3;3;3;3;3;3;3;3;3;3;3;3;3;3;3;3;3;3;3;3;3;3;3;3;3;3;3;3;3;3;3;3;
   4;4;4;4;4;4;4;4;4;4;4;4;4;4;4;4;5;5;5;5;5;5;5;5;6;6;6;6;6;6;6;6].

(** tg.c:6780-6809 vutf8: number of bytes (0 = fail) and code point.  The tests
    len < k are the patterns with fewer than k bytes; an empty text, which no
    caller passes, counts as a failure. *)
Definition vutf8 (data : list Z) : nat * Z :=
  let check (n : nat) (cp : Z) :=
    if cp <? 128 then (0%nat, 0)
    else if 0x10FFFF <=? cp then (0%nat, 0)
    else if (0xD800 <=? cp) && (cp <=? 0xDFFF) then (0%nat, 0)
    else (n, cp) in
  match data with
  | [] => (0%nat, 0)
  | d0 :: r =>
      if Z.shiftr d0 4 =? 14 then
        match r with
        | d1 :: d2 :: _ =>
            if negb (Z.lor (Z.shiftr d1 6) (Z.shiftl (Z.shiftr d2 6) 2) =? 10) then (0%nat, 0)
            else check 3%nat (Z.lor (Z.lor (Z.shiftl (Z.land d0 15) 12)
                                           (Z.shiftl (Z.land d1 63) 6)) (Z.land d2 63))
        | _ => (0%nat, 0)
        end
      else if Z.shiftr d0 3 =? 30 then
        match r with
        | d1 :: d2 :: d3 :: _ =>
            if negb (Z.lor (Z.lor (Z.shiftr d1 6) (Z.shiftl (Z.shiftr d2 6) 2))
                           (Z.shiftl (Z.shiftr d3 6) 4) =? 42) then (0%nat, 0)
            else check 4%nat (Z.lor (Z.lor (Z.shiftl (Z.land d0 7) 18) (Z.shiftl (Z.land d1 63) 12))
                                    (Z.lor (Z.shiftl (Z.land d2 63) 6) (Z.land d3 63)))
        | _ => (0%nat, 0)
        end
      else if Z.shiftr d0 5 =? 6 then
        match r with
        | d1 :: _ =>
            if negb (Z.shiftr d1 6 =? 2) then (0%nat, 0)
            else check 2%nat (Z.lor (Z.shiftl (Z.land d0 31) 6) (Z.land d1 63))
        | _ => (0%nat, 0)
        end
      else (0%nat, 0)
  end.

(** tg.c:6819-6826, the loop over the digits of a \u escape *)
Fixpoint vhex (n : nat) (s : list Z) : vres :=
  match n with
  | O => VOk s
  | S n' =>
      match s with
      | [] => VBad []
      | b :: r => if is_hex b then vhex n' r else VBad s
      end
  end.

(** tg.c:6811-6829 vesc; the text starts at the backslash *)
Definition vesc (s : list Z) : vres :=
  match s with
  | [] => VOob
  | _ :: [] => VBad []
  | _ :: (b :: r) as s1 =>
      if (b =? 34) || (b =? 92) || (b =? 47) || (b =? 98) || (b =? 102) || (b =? 110) ||
         (b =? 114) || (b =? 116) then VOk r
      else if b =? 117 then vhex 4 r
      else VBad (b :: r)
  end.

(** tg.c:6863-6883 vstring; the text starts after the quote.  A failing vesc
    leaves i negative, and -(i+1) is then the position where it failed. *)
Fixpoint vstring (fuel : nat) (s : list Z) : vres :=
  match fuel with
  | O => VNoFuel
  | S fuel' =>
      match s with
      | [] => VBad []
      | b :: r =>
          if tok strtoksu b =? 0 then vstring fuel' r
          else if b =? 34 then VOk r
          else if 127 <? b then
            match fst (vutf8 s) with
            | O => VBad s
            | n => vstring fuel' (skipn n s)
            end
          else if b =? 92 then
            match vesc s with
            | VOk s' => vstring fuel' s'
            | x => vneg x
            end
          else VBad s
      end
  end.

(** tg.c:6897-6900, 6909-6912, 6923-6926: the loops over digits *)
Fixpoint skip_digits (s : list Z) : list Z :=
  match s with
  | b :: r => if is_digit b then skip_digits r else s
  | [] => []
  end.
(** tg.c:6890-6891, 6906-6907, 6920-6921: a digit must follow *)
Definition need_digit (s : list Z) : vres :=
  match s with
  | [] => VBad []
  | b :: _ => if is_digit b then VOk s else VBad s
  end.
(** tg.c:6885-6929 vnumber; the text starts at the first character *)
Definition vnumber (s : list Z) : vres :=
  vbind (match s with
         | [] => VOob
         | b :: r => if b =? 45 then need_digit r else VOk s
         end) (fun s =>
  vbind (match s with
         | [] => VOob
         | b :: r => if b =? 48 then VOk r else VOk (skip_digits s)
         end) (fun s =>
  match s with
  | [] => VOk []
  | b :: r =>
      vbind (if b =? 46 then vbind (need_digit r) (fun s => VOk (skip_digits s)) else VOk s) (fun s =>
      match s with
      | [] => VOk []
      | b :: r =>
          if (b =? 101) || (b =? 69) then
            match r with
            | [] => VBad []
            | c :: r' =>
                let s := if (c =? 43) || (c =? 45) then r' else r in
                vbind (need_digit s) (fun s => VOk (skip_digits s))
            end
          else VOk s
      end)
  end)).

(** tg.c:6931-6944 vnull, vtrue, vfalse: the bytes that must follow the first *)
Definition vliteral (lit : list Z) (s : list Z) : vres :=
  if list_eq_dec Z.eq_dec (firstn (length lit) s) lit then VOk (skipn (length lit) s) else VBad s.

(** tg.c:6946-6957 vcolon *)
Fixpoint vcolon (s : list Z) : vres :=
  match s with
  | [] => VBad []
  | b :: r => if is_ws b then vcolon r else if b =? 58 then VOk r else VBad s
  end.
(** tg.c:6959-6971 vcomma *)
Fixpoint vcomma (close : Z) (s : list Z) : vres :=
  match s with
  | [] => VBad []
  | b :: r =>
      if is_ws b then vcomma close r
      else if b =? 44 then VOk s
      else if b =? close then VOk s else VBad s
  end.

(** the loops over white space, e.g. tg.c:7011-7017 *)
Fixpoint skip_ws (s : list Z) : list Z :=
  match s with
  | b :: r => if is_ws b then skip_ws r else s
  | [] => []
  end.

(** tg.c:6981-6985, the inner loop of varray; [elem] is vany at depth+1 *)
Fixpoint varray_items (elem : list Z -> vres) (fuel : nat) (s : list Z) : vres :=
  match s with
  | [] => VBad []
  | _ :: _ =>
      match fuel with
      | O => VNoFuel
      | S fuel' =>
          vbind (elem s) (fun s =>
          vbind (vcomma 93 s) (fun s =>
          match s with
          | [] => VOob
          | b :: r => if b =? 93 then VOk r else varray_items elem fuel' r
          end))
      end
  end.
(** tg.c:6975-6989 varray *)
Definition varray (elem : list Z -> vres) (s : list Z) : vres :=
  match skip_ws s with
  | [] => VBad []
  | b :: r => if b =? 93 then VOk r else varray_items elem (S (length s)) (b :: r)
  end.

(** tg.c:6991-6997 vkey; the first token is found as vstring does *)
Definition vkey (s : list Z) : vres := vstring (S (length s)) s.

(** tg.c:7004-7018, from the label key on; the text starts at the quote *)
Fixpoint vobject_items (elem : list Z -> vres) (fuel : nat) (s : list Z) : vres :=
  match fuel with
  | O => VNoFuel
  | S fuel' =>
      vbind (vkey (tl s)) (fun s =>
      vbind (vcolon s) (fun s =>
      vbind (elem s) (fun s =>
      vbind (vcomma 125 s) (fun s =>
      match s with
      | [] => VOob
      | b :: r =>
          if b =? 125 then VOk r
          else match skip_ws r with
               | [] => VBad []
               | b :: r' => if b =? 34 then vobject_items elem fuel' (b :: r') else VBad (b :: r')
               end
      end))))
  end.
(** tg.c:6999-7026 vobject *)
Definition vobject (elem : list Z -> vres) (s : list Z) : vres :=
  match skip_ws s with
  | [] => VBad []
  | b :: r =>
      if b =? 34 then vobject_items elem (S (length s)) (b :: r)
      else if b =? 125 then VOk r
      else VBad (b :: r)
  end.

(** tg.c:6717-6720 JSON_MAXDEPTH *)
Definition JSON_MAXDEPTH : nat := 1024.

(** tg.c:7028-7046 vany; [dfuel] bounds the recursion of the model *)
Fixpoint vany (dfuel : nat) (depth : nat) (s : list Z) : vres :=
  match dfuel with
  | O => VNoFuel
  | S dfuel' =>
      if (JSON_MAXDEPTH <? depth)%nat then VBad s
      else
        match skip_ws s with
        | [] => VBad []
        | b :: r =>
            if b =? 123 then vobject (vany dfuel' (S depth)) r
            else if b =? 91 then varray (vany dfuel' (S depth)) r
            else if b =? 34 then vstring (S (length r)) r
            else if b =? 116 then vliteral [114; 117; 101] r
            else if b =? 102 then vliteral [97; 108; 115; 101] r
            else if b =? 110 then vliteral [117; 108; 108] r
            else if (b =? 45) || is_digit b then vnumber (b :: r)
            else VBad (b :: r)
        end
  end.

(** tg.c:7048-7064 vpayload *)
Definition vpayload (s : list Z) : vres :=
  match skip_ws s with
  | [] => VBad []
  | b :: r =>
      vbind (vany (JSON_MAXDEPTH + 1) 1 (b :: r)) (fun s =>
      match skip_ws s with
      | [] => VOk []
      | b :: r => VBad (b :: r)
      end)
  end.

(** tg.c:7080-7082 json_validn_ex, json_validn.  The position returned for valid
    text is its length, which is then not 0.  Simplification: len below 2^63.
    [None] = a read outside the text. *)
Definition json_validn (s : list Z) : option bool :=
  match vpayload s with
  | VOk _ => Some true
  | VBad _ => Some false
  | VOob | VNoFuel => None
  end.
