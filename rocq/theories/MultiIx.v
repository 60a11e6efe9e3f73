(** * The index of a multi-geometry: Hilbert order, building and searching
    tg.c lines 1770-1775, 4420-4613 and 15283-15357. *)

From Coq Require Import ZArith Bool List.
From Verif Require Import F64 Geo Series Search Geom.
Import ListNotations.
Local Open Scope Z_scope.

(** the result of an operation on uint32_t, e.g. tg.c:4497 *)
Definition u32 (z : Z) : Z := z mod 4294967296.

(** tg.c:4475-4479, 4481-4485 one doubling round of hilbert_xy_to_index; the
    final round 4487-4489 computes the same C and D *)
Definition hil_round (s : Z) (q : Z * Z * Z * Z) : Z * Z * Z * Z :=
  let '(a, b, c, d) := q in
  (Z.lxor (Z.land a (Z.shiftr a s)) (Z.land b (Z.shiftr b s)),
   Z.lxor (Z.land a (Z.shiftr b s)) (Z.land b (Z.shiftr (Z.lxor a b) s)),
   Z.lxor c (Z.lxor (Z.land a (Z.shiftr c s)) (Z.land b (Z.shiftr d s))),
   Z.lxor d (Z.lxor (Z.land b (Z.shiftr c s)) (Z.land (Z.lxor a b) (Z.shiftr d s)))).
(** tg.c:4465-4473 the first round of hilbert_xy_to_index *)
Definition hil_first (x y : Z) : Z * Z * Z * Z :=
  let a := Z.lxor x y in
  let b := Z.lxor 65535 a in
  let c := Z.lxor 65535 (Z.lor x y) in
  let d := Z.land x (Z.lxor y 65535) in
  (Z.lor a (Z.shiftr b 1),
   Z.lxor (Z.shiftr a 1) a,
   Z.lxor (Z.lxor (Z.shiftr c 1) (Z.land b (Z.shiftr d 1))) c,
   Z.lxor (Z.lxor (Z.land a (Z.shiftr c 1)) (Z.shiftr d 1)) d).
(** tg.c:4497-4500, 4502-4505 the interleaving of hilbert_xy_to_index *)
Definition hil_spread (i : Z) : Z :=
  let i := Z.land (Z.lor i (u32 (Z.shiftl i 8))) 16711935 in
  let i := Z.land (Z.lor i (u32 (Z.shiftl i 4))) 252645135 in
  let i := Z.land (Z.lor i (u32 (Z.shiftl i 2))) 858993459 in
  Z.land (Z.lor i (u32 (Z.shiftl i 1))) 1431655765.
(** tg.c:4462-4507 hilbert_xy_to_index; the arguments are uint32_t values *)
Definition hilbert_xy_to_index (x y : Z) : Z :=
  let '(_, _, c, d) := hil_round 8 (hil_round 4 (hil_round 2 (hil_first x y))) in
  let a := Z.lxor c (Z.shiftr c 1) in
  let b := Z.lxor d (Z.shiftr d 1) in
  let i0 := Z.lxor x y in
  let i1 := Z.lor b (Z.lxor 65535 (Z.lor i0 a)) in
  Z.lor (u32 (Z.shiftl (hil_spread i1) 1)) (hil_spread i0).

(** C conversion double -> uint32_t (tg.c:4510-4511): undefined ([None])
    unless the truncated value is representable *)
Definition f_to_u32 (x : f64) : option Z :=
  match f_trunc x with
  | Some n => if (0 <=? n) && (n <=? 4294967295) then Some n else None
  | None => None
  end.

(** the constant 0xFFFF converted to double, tg.c:4510-4511 *)
Definition f_65535 : f64 := 4679239875398991872.

(** tg.c:4509-4513 tg_point_hilbert; [None] = undefined conversion *)
Definition tg_point_hilbert (p : pt) (r : rect) : option Z :=
  match
    f_to_u32 (fmul (fdiv (fsub (px p) (px (rmin r)))
                         (fsub (px (rmax r)) (px (rmin r)))) f_65535),
    f_to_u32 (fmul (fdiv (fsub (py p) (py (rmin r)))
                         (fsub (py (rmax r)) (py (rmin r)))) f_65535)
  with
  | Some ix, Some iy => Some (hilbert_xy_to_index ix iy)
  | _, _ => None
  end.

(** tg.c:4515-4518 struct hildex, as (hilbert, index) *)
Definition hildex : Type := Z * nat.

(** tg.c:4520-4524 hilsort, as "a goes before b" *)
Definition hilsort_lt (a b : hildex) : bool := fst a <? fst b.

(** tg.c:4542 the call of qsort with hilsort, one insertion *)
Fixpoint hil_insert (x : hildex) (l : list hildex) : list hildex :=
  match l with
  | [] => [x]
  | y :: rest => if hilsort_lt y x then y :: hil_insert x rest else x :: y :: rest
  end.
(** tg.c:4542 the call of qsort with hilsort.  Simplification: C leaves the
    order of equal keys open, this is one of the allowed orders; the search
    theorems are proved for every order. *)
Definition hil_qsort (l : list hildex) : list hildex := fold_right hil_insert [] l.

(** tg.c:4532-4546 the order of the children in ixgeoms.  [rs] are the
    rectangles of the children, [mr] is multi->rect. *)
Definition multi_order (rs : list rect) (mr : rect) : option (list nat) :=
  match opt_all (map (fun i => match tg_point_hilbert (tg_rect_center (nth i rs rect0)) mr with
                               | Some h => Some (h, i)
                               | None => None
                               end) (seq 0 (length rs))) with
  | Some hs => Some (map snd (hil_qsort hs))
  | None => None
  end.

(** tg.c:4553-4567 and 4577-4587: the loop that packs [spread] rectangles into
    one.  State: the current union, how many it has (j) and the finished ones,
    latest first. *)
Definition pack_step (spread : nat) (st : ixrect * nat * list ixrect) (r : ixrect)
  : ixrect * nat * list ixrect :=
  let '(cur, j, out) := st in
  if (j =? spread)%nat then (r, 1%nat, cur :: out)
  else (ixrect_expand cur r, S j, out).
(** tg.c:4548-4571 the leaf level and 4573-4591 the other levels: [nrects] is
    the size of the level being written.  An empty input does not occur. *)
Definition pack_level (spread nrects : nat) (l : list ixrect) : list ixrect :=
  match l with
  | [] => []
  | r :: rest =>
      let '(cur, _, out) := fold_left (pack_step spread) rest (r, 1%nat, []) in
      if (length out <? nrects)%nat then rev (cur :: out) else rev out
  end.
(** tg.c:4572-4592 the remaining levels, with their sizes from 2135-2140 *)
Fixpoint pack_up (spread n k lvl : nat) (below : list ixrect) : list (list ixrect) :=
  match k with
  | O => [below]
  | S k' =>
      pack_up spread n k' (S lvl)
        (pack_level spread (calc_num_keys spread (S lvl) n) below) ++ [below]
  end.

(** tg.c:4439 the spread of every multi index *)
Definition multi_spread : nat := 32.

(** tg.c:4548-4593 the levels of the index for the children in the given order *)
Definition multi_levels (rs : list rect) (order : list nat) : index :=
  let n := length rs in
  let k := (calc_num_levels multi_spread n - 1)%nat in
  Index multi_spread
    (pack_up multi_spread n (k - 1) 1
       (pack_level multi_spread (calc_num_keys multi_spread 1 n)
          (map (fun i => tg_rect_to_ixrect (nth i rs rect0)) order))).

(** tg.c:679-686 struct multi: ixgeoms and index; [None] when not indexed *)
Definition multi_index : Type := option (list nat * index).

(** tg.c:4601-4605 the rectangle of a multi-geometry; 4555 expands it once
    more by the same rectangles, which changes nothing but perhaps the sign of
    a zero, and is left out *)
Definition multi_rect (rs : list rect) : rect :=
  match rs with [] => rect0 | r :: rest => fold_left tg_rect_expand rest r end.

(** tg.c:4439-4454 of geom_new_multi and 4526-4613 multi_geom_inflate_rect:
    the index of a multi-geometry whose children have the rectangles [rs];
    [None] = undefined conversion.  Simplification: allocation succeeds. *)
Definition multi_inflate (rs : list rect) : option multi_index :=
  if (multi_spread * 2 <=? length rs)%nat then
    match multi_order rs (multi_rect rs) with
    | Some order => Some (Some (order, multi_levels rs order))
    | None => None
    end
  else Some None.

(** tg.c:15296-15304, 15345-15352 report child [i] when its rectangle meets *)
Definition msearch_leaf {A : Type} (gs : list (option geom)) (q : rect)
  (iter : A -> option geom -> nat -> bool * A) (st : A) (i : nat) : bool * A :=
  let child := nth i gs None in
  if tg_rect_intersects_rect (tg_geom_rect child) q then iter st child i else (true, st).

(** tg.c:15283-15326 multi_index_search; [lvls] are the levels from levelidx
    downwards *)
Fixpoint multi_index_search {A : Type} (gs : list (option geom)) (order : list nat)
  (spread : nat) (q : rect) (iter : A -> option geom -> nat -> bool * A)
  (lvls : list (list ixrect)) (start : nat) (st : A) : bool * A :=
  match lvls with
  | nil =>
      loop_while (fun st i => msearch_leaf gs q iter st (nth i order 0%nat))
        (clip start spread (length gs)) st
  | level :: below =>
      loop_while
        (fun st i =>
           if tg_rect_intersects_rect (ixrect_to_tg_rect (nth i level rect0)) q
           then multi_index_search gs order spread q iter below (i * spread) st
           else (true, st))
        (clip start spread (length level)) st
  end.

(** tg.c:4615-4625 geom_multi: the children; [None] = NULL *)
Definition geom_multi (g : option geom) : option (list (option geom)) :=
  match g with Some (GGMulti _ _ gs _ _) => gs | _ => None end.

(** tg.c:15334-15357 tg_geom_search (iter not NULL) on a geometry whose index
    is [mix]; the boolean is "ran to the end", which the C function drops *)
Definition tg_geom_search {A : Type} (g : option geom) (mix : multi_index) (q : rect)
  (iter : A -> option geom -> nat -> bool * A) (st : A) : bool * A :=
  match geom_multi g with
  | None => (true, st)
  | Some gs =>
      if negb (tg_rect_intersects_rect (tg_geom_rect g) q) then (true, st)
      else match mix with
           | None => loop_while (msearch_leaf gs q iter) (seq 0 (length gs)) st
           | Some (order, ix) =>
               multi_index_search gs order (ix_spread ix) q iter (ix_levels ix) 0 st
           end
  end.
