(** * Growing arrays of tg.c: byte buffers and vectors *)

From Coq Require Import ZArith Bool List.
Import ListNotations.
Local Open Scope Z_scope.

(** memory got from the allocator (tg.c:959-961): its cells, [None] = never written.  The NULL
    pointer is the block without cells. *)
Definition block (T : Type) := list (option T).

(** what a step of the code below does: it returns a flag with the new state;
    it writes outside the memory it owns; it asks for more than 2^50 elements,
    where cap * 1.25 (tg.c:901) is rounded and which is not modelled; or the
    loop runs longer than the fuel given *)
Inductive grown (T : Type) :=
  | Did (flag : bool) (st : T)
  | Outside
  | TooBig
  | Endless.
Arguments Did {T}. Arguments Outside {T}. Arguments TooBig {T}. Arguments Endless {T}.

(** tg.c:900-902 grow_cap.  cap * 1.25 is computed in doubles and cut off; up
    to 2^50 the product is exact.  Above that: [None]. *)
Definition grow_cap (cap init_cap : Z) : option Z :=
  if cap =? 0 then Some init_cap
  else if cap <? 1000 then Some (cap * 2)
  else if cap <=? 2 ^ 50 then Some (cap * 5 / 4)
  else None.

(** tg.c:959-961 tg_realloc, as used in tg.c:1447, 1474, 7991; [ok] is whether the allocator
    has memory left *)
Definition tg_realloc {T} (ok : bool) (d : block T) (n : nat) : option (block T) :=
  if ok then Some (firstn n d ++ repeat None (n - length d)) else None.

(** writing [vs] at position [i], as in tg.c:1451, 1459, 1467, 7996; [None] =
    outside the block *)
Definition put {T} (d : block T) (i : Z) (vs : list T) : option (block T) :=
  let k := Z.to_nat i in
  if (k + length vs <=? length d)%nat
  then Some (firstn k d ++ map Some vs ++ skipn (k + length vs) d)
  else None.

(** tg.c:1436-1439 struct tg_buf *)
Record tg_buf := TgBuf { b_data : block Z; b_len : Z; b_cap : Z }.
(** struct tg_buf buf = { 0 }, as in tg.c:7868, 8508 *)
Definition buf0 : tg_buf := TgBuf [] 0 0.

(** the loop of tg.c:1444-1446 *)
Fixpoint ensure_loop (fuel : nat) (cap len need : Z) : grown Z :=
  match fuel with
  | O => Endless
  | S k =>
      match grow_cap cap 16 with
      | None => TooBig
      | Some cap' => if cap' - len <? need then ensure_loop k cap' len need else Did true cap'
      end
  end.

(** tg.c:1441-1453 tg_buf_ensure *)
Definition tg_buf_ensure (ok : bool) (b : tg_buf) (need : Z) : grown tg_buf :=
  if need <=? b_cap b - b_len b then Did true b
  else
    match ensure_loop (S (Z.to_nat need)) (b_cap b) (b_len b) need with
    | Did _ cap =>
        match tg_realloc ok (b_data b) (Z.to_nat (cap + 1)) with
        | None => Did false b
        | Some d =>
            match put d cap [0] with
            | Some d => Did true (TgBuf d (b_len b) cap)
            | None => Outside
            end
        end
    | Outside => Outside | TooBig => TooBig | Endless => Endless
    end.

(** tg.c:1463-1470 tg_buf_append_bytes *)
Definition tg_buf_append_bytes (ok : bool) (b : tg_buf) (bytes : list Z) : grown tg_buf :=
  match tg_buf_ensure ok b (Z.of_nat (length bytes)) with
  | Did true b =>
      match put (b_data b) (b_len b) bytes with
      | Some d => Did true (TgBuf d (b_len b + Z.of_nat (length bytes)) (b_cap b))
      | None => Outside
      end
  | r => r
  end.

(** tg.c:1457-1461 tg_buf_append_byte *)
Definition tg_buf_append_byte (ok : bool) (b : tg_buf) (v : Z) : grown tg_buf :=
  match tg_buf_ensure ok b 1 with
  | Did true b =>
      match put (b_data b) (b_len b) [v] with
      | Some d => Did true (TgBuf d (b_len b + 1) (b_cap b))
      | None => Outside
      end
  | r => r
  end.

(** tg.c:1472-1480 tg_buf_trunc *)
Definition tg_buf_trunc (ok : bool) (b : tg_buf) : grown tg_buf :=
  if 8 <? b_cap b - b_len b then
    match tg_realloc ok (b_data b) (Z.to_nat (b_len b)) with
    | None => Did false b
    | Some d => Did true (TgBuf d (b_len b) (b_len b))
    end
  else Did true b.

(** one call of tg.c:1457 or 1463 with the answer of the allocator *)
Inductive call := Byte (ok : bool) (v : Z) | Bytes (ok : bool) (vs : list Z).

(** a chain of appends joined by ||, as in tg.c:7846-7849 and 8534-8540: the
    first failing one ends it *)
Fixpoint appends (b : tg_buf) (cs : list call) : grown tg_buf :=
  match cs with
  | [] => Did true b
  | c :: cs =>
      match (match c with Byte ok v => tg_buf_append_byte ok b v | Bytes ok vs => tg_buf_append_bytes ok b vs end) with
      | Did true b => appends b cs
      | r => r
      end
  end.

(** tg.c:7842-7855 buf_append_json_pair; [k1] to [k4] are the answers of the
    allocator, [key] and [val] the raw texts *)
Definition buf_append_json_pair (k1 k2 k3 k4 : bool) (b : tg_buf) (key val : list Z) : grown tg_buf :=
  match appends b [Byte k1 (if b_len b =? 0 then 123 else 44); Bytes k2 key; Byte k3 58; Bytes k4 val] with
  | Did false b' => Did false (TgBuf (b_data b') (b_len b) (b_cap b'))
  | r => r
  end.

(** tg.c:7981-7986 the struct of def_vec; [v_moved] is not in the code: it
    counts the elements that reallocations had to carry over *)
Record vec (T : Type) := Vec { v_data : block T; v_len : Z; v_cap : Z; v_moved : Z }.
Arguments Vec {T}. Arguments v_data {T}. Arguments v_len {T}. Arguments v_cap {T}. Arguments v_moved {T}.
(** an empty vector, as in tg.c:8176 *)
Definition vec0 {T} : vec T := Vec [] 0 0 0.

(** tg.c:7987-7998 the append function of def_vec *)
Definition vec_append {T} (start_cap : Z) (ok : bool) (v : vec T) (f : T) : grown (vec T) :=
  if v_len v =? v_cap v then
    match grow_cap (v_cap v) start_cap with
    | None => TooBig
    | Some cap =>
        match tg_realloc ok (v_data v) (Z.to_nat cap) with
        | None => Did false v
        | Some d =>
            match put d (v_len v) [f] with
            | Some d => Did true (Vec d (v_len v + 1) cap (v_moved v + v_len v))
            | None => Outside
            end
        end
    end
  else
    match put (v_data v) (v_len v) [f] with
    | Some d => Did true (Vec d (v_len v + 1) (v_cap v) (v_moved v))
    | None => Outside
    end.

(** a loop that appends the elements one by one and stops at the first failure,
    as in tg.c:8467-8492; every element comes with the answer of the allocator *)
Fixpoint vec_appends {T} (start_cap : Z) (v : vec T) (fs : list (bool * T)) : grown (vec T) :=
  match fs with
  | [] => Did true v
  | (ok, f) :: fs =>
      match vec_append start_cap ok v f with
      | Did true v => vec_appends start_cap v fs
      | r => r
      end
  end.
