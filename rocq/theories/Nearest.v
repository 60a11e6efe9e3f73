(** * Nearest segments: the priority queue and tg_ring_nearest_segment *)

From Coq Require Import ZArith Bool List.
From Verif Require Import F64 Geo Series Search.
Import ListNotations.

(** tg.c:14700-14709 struct nqentry; [nq_rect] is kind == NQUEUE_KIND_RECT,
    [nq_ix] is the union of seg_index and rect_index.  Simplification: the level
    is not cut to 8 bits (an index has at most 31 levels). *)
Record nqentry := NqEntry {
  nq_dist : f64; nq_rect : bool; nq_level : nat; nq_more : Z; nq_ix : nat }.
(** an entry for reads past the end of the list, of which there are none
    (struct nqentry, tg.c:14700-14709) *)
Definition nq0 : nqentry := NqEntry f_zero false 0 0 0.

(** tg.c:14713-14721 struct nqueue: the first len items, the capacity, the
    oom flag and [nq_allocs], the number of calls of tg_malloc and tg_realloc
    so far.  Simplification: maxlen is never read and left out. *)
Record nqueue := NQueue {
  nq_oom : bool; nq_items : list nqentry; nq_cap : Z; nq_allocs : nat }.

(** tg.c:14723-14728 NQUEUE_INIT *)
Definition nqueue_init : nqueue := NQueue false [] 256 0.

(** array write items[i] = v, e.g. tg.c:14737 *)
Fixpoint upd_at {A : Type} (l : list A) (i : nat) (v : A) : list A :=
  match l, i with
  | [], _ => []
  | _ :: t, O => v :: t
  | h :: t, S j => h :: upd_at t j v
  end.

(** tg.c:14735-14739 nqswap *)
Definition nqswap (l : list nqentry) (i j : nat) : list nqentry :=
  upd_at (upd_at l i (nth j l nq0)) j (nth i l nq0).

(** tg.c:14741-14745 nqcompare *)
Definition nqcompare (l : list nqentry) (i j : nat) : Z :=
  let a := nq_dist (nth i l nq0) in
  let b := nq_dist (nth j l nq0) in
  if flt a b then (-1)%Z else if fgt a b then 1%Z else 0%Z.

(** tg.c:14768-14774, the loop of nqueue_push; i halves, so [i] is fuel enough *)
Fixpoint sift_up (fuel : nat) (l : list nqentry) (i : nat) : list nqentry :=
  match fuel with
  | O => l
  | S f =>
      if (i =? 0)%nat then l
      else
        let parent := Nat.div2 (i - 1) in
        if (0 <? nqcompare l parent i)%Z then sift_up f (nqswap l parent i) parent else l
  end.

(** tg.c:14753 the new capacity; cap*1.25 is exact in a double below 2^50 *)
Definition nq_grow (cap : Z) : Z := if (cap <? 1000)%Z then (cap * 2)%Z else (cap * 5 / 4)%Z.

(** tg.c:14747-14779 nqueue_push.  [alloc k] tells whether the k-th allocation
    succeeds.  [None] is a write past the end of the items. *)
Definition nqueue_push (alloc : nat -> bool) (q : nqueue) (e : nqentry) : option nqueue :=
  if nq_oom q then Some q
  else
    let len := length (nq_items q) in
    let put cap allocs :=
      if (Z.of_nat len <? cap)%Z
      then Some (NQueue false (sift_up len (nq_items q ++ [e]) len) cap allocs)
      else None in
    if (Z.of_nat len =? nq_cap q)%Z then
      if alloc (nq_allocs q) then put (nq_grow (nq_cap q)) (S (nq_allocs q))
      else Some (NQueue true (nq_items q) (nq_cap q) (S (nq_allocs q)))
    else put (nq_cap q) (nq_allocs q).

(** tg.c:14788-14804, the loop of nqueue_pop; i grows, so the length is fuel enough *)
Fixpoint sift_down (fuel : nat) (l : list nqentry) (i : nat) : list nqentry :=
  match fuel with
  | O => l
  | S f =>
      let left := (i * 2 + 1)%nat in
      let right := (i * 2 + 2)%nat in
      let s := if (left <? length l)%nat && (nqcompare l left i <=? 0)%Z then left else i in
      let s := if (right <? length l)%nat && (nqcompare l right s <=? 0)%Z then right else s in
      if (s =? i)%nat then l else sift_down f (nqswap l s i) s
  end.

(** tg.c:14781-14806 nqueue_pop.  The item is returned by value: the C code
    returns a pointer past the new end and reads it only before the next push. *)
Definition nqueue_pop (q : nqueue) : option (nqentry * nqueue) :=
  if (length (nq_items q) =? 0)%nat || nq_oom q then None
  else
    let len := (length (nq_items q) - 1)%nat in
    let l := nqswap (nq_items q) 0 len in
    Some (nth len l nq0,
          NQueue false (sift_down len (firstn len l) 0) (nq_cap q) (nq_allocs q)).

(** tg.c:14830-14831 rect_dist and seg_dist.  Simplification: a callback is a
    function of its argument and the value of *more; it returns the distance
    and the new *more. *)
Definition rect_fn := rect -> Z -> f64 * Z.
(** tg.c:14831 seg_dist *)
Definition seg_fn := seg -> Z -> f64 * Z.
(** tg.c:14832 what one call of iter receives *)
Definition delivery := (seg * f64 * nat)%type.
(** tg.c:14832 iter: its answer may depend on every call so far, the
    latest last *)
Definition iter_fn := list delivery -> bool.

(** tg.c:14843-14853, 14936-14946: entry of rectangle i of a level *)
Definition rect_entry (rd : rect_fn) (lvl : nat) (level : list ixrect) (i : nat) : nqentry :=
  let dm := rd (ixrect_to_tg_rect (nth i level rect0)) 0%Z in
  NqEntry (fst dm) true lvl (snd dm) i.
(** tg.c:14859-14870, 14915-14926: entry of segment i *)
Definition seg_entry (r : ring) (sd : seg_fn) (i : nat) : nqentry :=
  let dm := sd (seg_at r i) 0%Z in
  NqEntry (fst dm) false 0 (snd dm) i.

(** the pushing loops, tg.c:14842-14855, 14858-14872, 14914-14928, 14935-14948 *)
Fixpoint push_all (alloc : nat -> bool) (q : nqueue) (es : list nqentry) : option nqueue :=
  match es with
  | [] => Some q
  | e :: rest =>
      match nqueue_push alloc q e with
      | Some q' => push_all alloc q' rest
      | None => None
      end
  end.

(** how a call ends: it returned [ok] after the given calls of iter, it wrote
    out of bounds (tg.c:14767) or read a null index (tg.c:14898-14908), or the
    fuel of the model ran out *)
Inductive nearest_res := NDone (ok : bool) (out : list delivery) | NBad | NFuel.

(** tg.c:14874-14950, the main loop *)
Fixpoint nearest_loop (fuel : nat) (r : ring) (rd : option rect_fn) (sd : seg_fn)
  (iter : iter_fn) (alloc : nat -> bool) (q : nqueue) (out : list delivery) : nearest_res :=
  match fuel with
  | O => NFuel
  | S f =>
      let go q out := nearest_loop f r rd sd iter alloc q out in
      match nqueue_pop q with
      | None => NDone (negb (nq_oom q)) out
      | Some (e, q) =>
          let push es := match push_all alloc q es with Some q' => go q' out | None => NBad end in
          if nq_rect e then
            match rd, r_index r with
            | Some rd, Some ix =>
                let level := nth (nq_level e) (ix_levels ix) [] in
                if negb (nq_more e =? 0)%Z then
                  let dm := rd (ixrect_to_tg_rect (nth (nq_ix e) level rect0)) (nq_more e) in
                  push [NqEntry (fst dm) true (nq_level e) (snd dm) (nq_ix e)]
                else
                  let lvl := S (nq_level e) in
                  let start := (nq_ix e * ix_spread ix)%nat in
                  if (lvl =? length (ix_levels ix))%nat
                  then push (map (seg_entry r sd) (clip start (ix_spread ix) (r_nsegs r)))
                  else
                    let below := nth lvl (ix_levels ix) [] in
                    push (map (rect_entry rd lvl below) (clip start (ix_spread ix) (length below)))
            | _, _ => NBad
            end
          else
            let s := seg_at r (nq_ix e) in
            if negb (nq_more e =? 0)%Z then
              let dm := sd s (nq_more e) in
              push [NqEntry (fst dm) false (nq_level e) (snd dm) (nq_ix e)]
            else
              let out := out ++ [(s, nq_dist e, nq_ix e)] in
              if iter out then go q out else NDone (negb (nq_oom q)) out
      end
  end.

(** tg.c:14829-14954 tg_ring_nearest_segment with ring and seg_dist not NULL,
    and tg.c:14960-14968 tg_line_nearest_segment, which is the same *)
Definition tg_ring_nearest_segment (fuel : nat) (r : ring) (rd : option rect_fn) (sd : seg_fn)
  (iter : iter_fn) (alloc : nat -> bool) : nearest_res :=
  let es :=
    match rd, r_index r with
    | Some rd, Some ix =>
        let root := nth 0 (ix_levels ix) [] in
        map (rect_entry rd 0 root) (seq 0 (length root))
    | _, _ => map (seg_entry r sd) (seq 0 (r_nsegs r))
    end in
  match push_all alloc nqueue_init es with
  | Some q => nearest_loop fuel r rd sd iter alloc q []
  | None => NBad
  end.
