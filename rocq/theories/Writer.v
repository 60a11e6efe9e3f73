(** * The bounded writer of tg.c *)

From Coq Require Import ZArith Bool List.
From Verif Require Import F64 Geo Bytes.
Import ListNotations.
Local Open Scope Z_scope.

(** tg.c:8702-8706 struct writer.  [w_dst] is the caller's buffer, of exactly n
    bytes, so n is its length. *)
Record writer := Wr { w_dst : list Z; w_count : nat }.
(** tg.c:8704 wr->n *)
Definition w_n (w : writer) : nat := length (w_dst w).

(** buffer with the bytes [bs] stored at offset [i], as in tg.c:8723 *)
Definition store (dst : list Z) (i : nat) (bs : list Z) : list Z :=
  firstn i dst ++ bs ++ skipn (i + length bs) dst.

(** Writing code: [None] is a store outside the buffer, the reading of a NULL
    pointer, or a signed overflow.  (tg.c:8702-8757.) *)
Definition W := writer -> option writer.
(** statement sequencing in the writing code, tg.c:8702 onwards *)
Definition wseq (a b : W) : W := fun w => match a w with Some w' => b w' | None => None end.
(** statement sequencing (C ";"), no line of tg.c:8702 onwards in particular *)
Notation "a ;; b" := (wseq a b) (at level 61, right associativity).
(** no statement (an empty branch such as tg.c:8722) *)
Definition wskip : W := fun w => Some w.
(** undefined behaviour, no line of tg.c:8702 onwards in particular *)
Definition wundef : W := fun _ => None.
(** a loop over a list of statements, e.g. tg.c:8733-8735 *)
Definition wloop (l : list W) : W := fold_right wseq wskip l.

(** tg.c:8721-8726 write_byte, 8728-8730 write_char; the argument is converted
    to uint8_t *)
Definition write_byte (b : Z) : W := fun w =>
  Some (Wr (if (w_count w <? w_n w)%nat then store (w_dst w) (w_count w) [b mod 256]
            else w_dst w) (S (w_count w))).

(** memcpy(wr->dst+wr->count, ..., k); wr->count += k, as in tg.c:13975 *)
Definition write_memcpy (bs : list Z) : W := fun w =>
  if (w_count w + length bs <=? w_n w)%nat
  then Some (Wr (store (w_dst w) (w_count w) bs) (w_count w + length bs))
  else None.

(** wr->count += k without storing, tg.c:14026 *)
Definition write_skip (k : nat) : W := fun w => Some (Wr (w_dst w) (w_count w + k)).

(** tg.c:8732-8736 write_uint32le, 8738-8742 write_uint64le, 8744-8746
    write_doublele: the bytes x>>(8i) truncated *)
Definition write_le (k : nat) (x : Z) : W := wloop (map write_byte (le_bytes k x)).
(** tg.c:8732-8736 write_uint32le *)
Definition write_uint32le (x : Z) : W := write_le 4 x.
(** tg.c:8744-8746 write_doublele *)
Definition write_doublele (x : f64) : W := write_le 8 x.

(** tg.c:8748-8751 write_string, 8753-8757 write_stringn *)
Definition write_string (s : list Z) : W := wloop (map write_byte s).

(** tg.c:8713-8719 write_nullterm *)
Definition write_nullterm : W := fun w =>
  if (w_count w <? w_n w)%nat then Some (Wr (store (w_dst w) (w_count w) [0]) (w_count w))
  else if (0 <? w_n w)%nat then Some (Wr (store (w_dst w) (w_n w - 1) [0]) (w_count w))
  else Some w.
