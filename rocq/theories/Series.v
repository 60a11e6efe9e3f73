(** * Rings and lines: construction, segment index, y-stripes *)

From Coq Require Import ZArith Bool List.
From Verif Require Import F64 Geo.
Import ListNotations.
Local Open Scope Z_scope.

(** tg.h:68-73 enum tg_index, the base kinds *)
Inductive ixkind := IxNone | IxNatural | IxYstripes.

(** tg.c:1573-1578 struct index: spread and the levels, root first.
    Simplification: sizes and addresses are not part of the value. *)
Record index := Index { ix_spread : nat; ix_levels : list (list ixrect) }.

(** tg.c:1667-1671 struct ystripes, 1441-1444 struct ystripe *)
Record ystripes := Ystripes { ys_n : Z; ys_stripes : list (list nat) }.

(** tg.c:616-627 struct tg_ring.  [r_points] has npoints+1 entries: the extra
    closing point of tg.c:2204 (points[npoints] = points[0]) included. *)
Record ring := Ring {
  r_closed : bool;
  r_clockwise : bool;
  r_convex : bool;
  r_area : f64;
  r_npoints : nat;
  r_nsegs : nat;
  r_rect : rect;
  r_index : option index;
  r_ystripes : option ystripes;
  r_points : list pt
}.

(** array read points[i], e.g. tg.c:2371; tg.c always reads inside the array here *)
Definition pt_at (ps : list pt) (i : nat) : pt := nth i ps pt0.

(** tg.c:1635-1637 calc_num_keys: ceil(count / spread^level).
    Simplification: exact integer arithmetic.  count < 2^31 and spread^level
    < 2^43 in every call, so pow is exact and ceil of the rounded quotient is
    the exact ceiling. *)
Definition calc_num_keys (spread level count : nat) : nat :=
  let d := (spread ^ level)%nat in ((count + d - 1) / d)%nat.

(** tg.c:1639-1646 calc_num_levels; the loop with explicit fuel (the loop
    ends before count iterations because spread >= 2) *)
Fixpoint calc_num_levels_loop (fuel spread level count : nat) : nat :=
  match fuel with
  | O => level
  | S f => if (1 <? calc_num_keys spread level count)%nat
           then calc_num_levels_loop f spread (S level) count
           else level
  end.
(** tg.c:1639-1646 calc_num_levels *)
Definition calc_num_levels (spread count : nat) : nat :=
  calc_num_levels_loop count spread 1 count.

(** tg.c:1872-1878, inner loop of fill_in_upper_index_levels: union of
    plevel->rects[s..e) *)
Definition ix_union (l : list ixrect) : ixrect :=
  match l with
  | nil => rect0
  | r :: rest => fold_left ixrect_expand rest r
  end.

(** tg.c:1869-1880, middle loop of fill_in_upper_index_levels: one level of
    [n] rects from the level below *)
Definition ix_level_up (spread n : nat) (below : list ixrect) : list ixrect :=
  map (fun i => ix_union (firstn spread (skipn (i * spread) below))) (seq 0 n).

(** tg.c:1865-1882 fill_in_upper_index_levels.  [k] counts the levels still to
    add above; a level [l] steps above the leaf rects has
    calc_num_keys spread (l+1) nsegs rects (tg.c:2127-2146 fill_index_struct). *)
Fixpoint ix_build_up (spread nsegs k lvl : nat) (below : list ixrect)
  : list (list ixrect) :=
  match k with
  | O => [below]
  | S k' =>
      let up := ix_level_up spread (calc_num_keys spread (S lvl) nsegs) below in
      ix_build_up spread nsegs k' (S lvl) up ++ [below]
  end.

(** tg.c:1889-2098 process_points: state of the big loop *)
Record pps := Pps {
  pp_rect : rect;        (* rect *)
  pp_spread : rect;      (* spreadrect *)
  pp_j : nat;            (* j *)
  pp_out : list ixrect;  (* leaf rects written so far, latest first; r = length *)
  pp_dir : Z;            (* dir *)
  pp_concave : bool;     (* concave *)
  pp_cwc : f64           (* cwc *)
}.

(** tg.c:1918-1940 step_gather_abc_nowrap/_wrap: the points b and c after a *)
Definition gather_b (ps : list pt) (n i : nat) : pt :=
  if (i =? n - 1)%nat then pt_at ps 0 else pt_at ps (i + 1).
(** tg.c:1918-1940 the point c after b *)
Definition gather_c (ps : list pt) (n i : nat) : pt :=
  if (i + 2 <? n)%nat then pt_at ps (i + 2)
  else if (i =? n - 1)%nat then pt_at ps 1
  else pt_at ps 0.

(** tg.c:1968-1970 step_calc_clockwise *)
Definition calc_clockwise (cwc : f64) (a b : pt) : f64 :=
  fadd cwc (fmul (fsub (px b) (px a)) (fadd (py b) (py a))).

(** tg.c:1972-1989 step_calc_concave: (dir, concave) after one turn.  The
    jumps to the concave section only skip later turn tests, whose result
    (concave) is already decided. *)
Definition calc_concave (dir : Z) (concave : bool) (a b c : pt) : Z * bool :=
  if concave then (dir, true)
  else
    let z := fsub (fmul (fsub (px b) (px a)) (fsub (py c) (py b)))
                  (fmul (fsub (py b) (py a)) (fsub (px c) (px b))) in
    if dir =? 0 then ((if flt z f_zero then -1 else 1), false)
    else if flt z f_zero then (dir, dir =? 1)
    else if fgt z f_zero then (dir, dir =? -1)
    else (dir, false).

(** tg.c:1942-1966 step_inflate_rect_no_index / _with_index *)
Definition pp_inflate (ixspread : option nat) (st : pps) (a b : pt) : pps :=
  match ixspread with
  | None =>
      Pps (tg_rect_expand_point (pp_rect st) a) (pp_spread st) (pp_j st)
          (pp_out st) (pp_dir st) (pp_concave st) (pp_cwc st)
  | Some spread =>
      let sr := tg_rect_expand_point (pp_spread st) a in
      let j := S (pp_j st) in
      if (j =? spread)%nat then
        let sr := tg_rect_expand_point sr b in
        Pps (tg_rect_expand (pp_rect st) sr) (Rect b b) 0
            (tg_rect_to_ixrect sr :: pp_out st)
            (pp_dir st) (pp_concave st) (pp_cwc st)
      else
        Pps (pp_rect st) sr j (pp_out st) (pp_dir st) (pp_concave st) (pp_cwc st)
  end.

(** tg.c:2018-2078, one iteration of the loops.  Simplification: the wrapped and
    unwrapped and the convex and concave copies of the loop body are one. *)
Definition pp_step (ixspread : option nat) (ps : list pt) (n : nat) (st : pps) (i : nat) : pps :=
  let a := pt_at ps i in
  let b := gather_b ps n i in
  let c := gather_c ps n i in
  let st := pp_inflate ixspread st a b in
  let cwc := calc_clockwise (pp_cwc st) a b in
  let dc := calc_concave (pp_dir st) (pp_concave st) a b c in
  Pps (pp_rect st) (pp_spread st) (pp_j st) (pp_out st) (fst dc) (snd dc) cwc.

(** tg.c:1903-1914 initial state *)
Definition pp_init (ps : list pt) : pps :=
  let p0 := pt_at ps 0 in
  Pps (Rect p0 p0) (Rect p0 p0) 0 [] 0 false f_zero.

(** the loop, tg.c:2018-2078 *)
Definition pp_loop (ixspread : option nat) (ps : list pt) (n : nat) : pps :=
  fold_left (pp_step ixspread ps n) (seq 0 n) (pp_init ps).

(** the results of process_points, tg.c:1885-1888 and 2092-2098 *)
Record ppres := PpRes {
  ppr_rect : rect; ppr_convex : bool; ppr_clockwise : bool; ppr_area : f64;
  ppr_leaves : list ixrect
}.

(** tg.c:1885-2099 process_points.  [ixspread] is the index spread when there
    is an index together with the number of leaf rects it has room for. *)
Definition process_points (ix : option (nat * nat)) (ps : list pt) (n : nat) : ppres :=
  if (n <? 2)%nat then PpRes rect0 false false f_zero []
  else
    let st := pp_loop (option_map fst ix) ps n in
    let st :=
      match ix with
      | None => st
      | Some (_, nleaves) =>
          if (length (pp_out st) =? nleaves)%nat then st
          else Pps (tg_rect_expand (pp_rect st) (pp_spread st)) (pp_spread st) (pp_j st)
                   (tg_rect_to_ixrect (pp_spread st) :: pp_out st)
                   (pp_dir st) (pp_concave st) (pp_cwc st)
      end in
    PpRes (pp_rect st) (negb (pp_concave st)) (fgt (pp_cwc st) f_zero)
          (fabs (fdiv (pp_cwc st) f_two)) (rev (pp_out st)).

(** tg.c:2100-2109 num_segments *)
Definition num_segments (ps : list pt) (n : nat) (closed : bool) : nat :=
  if closed then
    if (n <? 3)%nat then 0%nat
    else if pteq (pt_at ps (n - 1)) (pt_at ps 0) then (n - 1)%nat else n
  else if (n <? 2)%nat then 0%nat else (n - 1)%nat.

(** C constant M_PI, tg.c:14629 *)
Definition f_pi : f64 := 4614256656552045848.
(** the constant 4, tg.c:14629 *)
Definition f_four : f64 := 4616189618054758400.

(** tg.c:14602-14612 tg_ring_perimeter (the empty-ring test is in the caller) *)
Definition ring_perimeter (ps : list pt) (nsegs : nat) : f64 :=
  fold_left (fun perim i =>
    let a := pt_at ps i in let b := pt_at ps (i + 1) in
    fadd perim (flength (px a) (py a) (px b) (py b))) (seq 0 nsegs) f_zero.

(** tg.c:3090-3093 tg_ring_empty *)
Definition tg_ring_empty (r : ring) : bool :=
  (r_closed r && (r_npoints r <? 3)%nat) || (r_npoints r <? 2)%nat.

(** tg.c:14616-14631 tg_ring_polsby_popper_score *)
Definition polsby_popper (r : ring) : f64 :=
  let perim := if tg_ring_empty r then f_zero else ring_perimeter (r_points r) (r_nsegs r) in
  let area := if tg_ring_empty r then f_zero else r_area r in
  if fgt perim f_zero
  then fdiv (fmul (fmul area f_pi) f_four) (fmul perim perim)
  else f_zero.

(** tg.c:1697-1698, 2701: the stripe expression (y - rect.min.y) / height * n
    converted to int; [None] is the undefined conversion *)
Definition ystripe_of (r : rect) (n : Z) (y : f64) : option Z :=
  let height := fsub (py (rmax r)) (py (rmin r)) in
  f_to_int (fmul (fdiv (fsub y (py (rmin r))) height) (f_of_Z n)).

(** tg.c:1694-1700: stripe range of segment i, clamped *)
Definition ystripe_range (r : rect) (ps : list pt) (n : Z) (i : nat) : option (Z * Z) :=
  let y1 := py (pt_at ps i) in
  let y2 := py (pt_at ps (i + 1)) in
  match ystripe_of r n (fmin0 y1 y2), ystripe_of r n (fmax0 y1 y2) with
  | Some lo, Some hi => Some (Z.max lo 0, Z.min hi (n - 1))
  | _, _ => None
  end.

(** the ranges of tg.c:1694-1700 for all segments, or None if some conversion is undefined *)
Fixpoint opt_all {A : Type} (l : list (option A)) : option (list A) :=
  match l with
  | nil => Some nil
  | Some a :: rest => match opt_all rest with Some r => Some (a :: r) | None => None end
  | None :: _ => None
  end.

(** tg.c:1727-1737: contents of stripe j, the segment indexes i (ascending)
    whose range contains j.  Simplification: the loop pushes i on every stripe
    of its range; read per stripe that is this list. *)
Definition ystripe_fill (ranges : list (Z * Z)) (j : Z) : list nat :=
  map fst (filter (fun ir => (fst (snd ir) <=? j) && (j <=? snd (snd ir)))
                  (combine (seq 0 (length ranges)) ranges)).

(** tg.c:1674-1741 process_ystripes; [None] when a double to int conversion is
    undefined.  Memory is assumed available. *)
Definition process_ystripes (r : ring) : option ystripes :=
  match f_to_int (fmul (f_of_Z (Z.of_nat (r_nsegs r))) (polsby_popper r)) with
  | None => None
  | Some n0 =>
      let n := Z.max n0 32 in
      match opt_all (map (ystripe_range (r_rect r) (r_points r) n) (seq 0 (r_nsegs r))) with
      | None => None
      | Some ranges =>
          Some (Ystripes n (map (fun j => ystripe_fill ranges (Z.of_nat j))
                                (seq 0 (Z.to_nat n))))
      end
  end.

(** tg.c:2143-2221 series_new, after the index option has been resolved to a
    base kind and a spread.  [None] = undefined behaviour while building
    y-stripes.  Simplification: allocation succeeds (failure paths are in Heap.v). *)
Definition series_new (ps : list pt) (closed : bool) (kind : ixkind) (spread : nat)
  : option ring :=
  let n := length ps in
  let nsegs := num_segments ps n closed in
  let indexed :=
    (2 * spread <=? n)%nat && match kind with IxNone => false | _ => true end in
  let nlevels := (calc_num_levels spread nsegs - 1)%nat in
  let pr := process_points
              (if indexed then Some (spread, calc_num_keys spread 1 nsegs) else None) ps n in
  let r := {| r_closed := closed;
              r_clockwise := ppr_clockwise pr;
              r_convex := ppr_convex pr;
              r_area := ppr_area pr;
              r_npoints := n;
              r_nsegs := nsegs;
              r_rect := ppr_rect pr;
              r_index := if indexed
                         then Some (Index spread
                                (ix_build_up spread nsegs (nlevels - 1) 1 (ppr_leaves pr)))
                         else None;
              r_ystripes := None;
              r_points := ps ++ [pt_at ps 0] |} in
  if indexed && closed && match kind with IxYstripes => true | _ => false end then
    match process_ystripes r with
    | None => None
    | Some ys =>
        Some {| r_closed := r_closed r; r_clockwise := r_clockwise r;
                r_convex := r_convex r; r_area := r_area r;
                r_npoints := r_npoints r; r_nsegs := r_nsegs r;
                r_rect := r_rect r; r_index := r_index r;
                r_ystripes := Some ys; r_points := r_points r |}
    end
  else Some r.

(** tg.c:2370-2374 ring_segment_at *)
Definition seg_at (r : ring) (i : nat) : seg :=
  Seg (pt_at (r_points r) i) (pt_at (r_points r) (i + 1)).
