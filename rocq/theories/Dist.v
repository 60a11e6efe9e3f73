(** * Distances between points, segments and rectangles *)

From Coq Require Import ZArith Bool List.
From Verif Require Import F64 Geo Series.
Local Open Scope Z_scope.

(** tg.c:14668-14679 tg_point_distance_segment *)
Definition tg_point_distance_segment (p : pt) (s : seg) : f64 :=
  let a := fsub (px p) (px (sa s)) in
  let b := fsub (py p) (py (sa s)) in
  let c := fsub (px (sb s)) (px (sa s)) in
  let d := fsub (py (sb s)) (py (sa s)) in
  let e := fadd (fmul c c) (fmul d d) in
  let f := if fneb e f_zero then fdiv (fadd (fmul a c) (fmul b d)) e else f_zero in
  let g := fclamp0 f f_zero f_one in
  let dx := fsub (px p) (fadd (px (sa s)) (fmul g c)) in
  let dy := fsub (py p) (fadd (py (sa s)) (fmul g d)) in
  fsqrt (fadd (fmul dx dx) (fmul dy dy)).

(** tg.c:14681-14685 tg_rect_distance_rect *)
Definition tg_rect_distance_rect (a b : rect) : f64 :=
  let dx := fmax0 (fsub (fmax0 (px (rmin a)) (px (rmin b))) (fmin0 (px (rmax a)) (px (rmax b)))) f_zero in
  let dy := fmax0 (fsub (fmax0 (py (rmin a)) (py (rmin b))) (fmin0 (py (rmax a)) (py (rmax b)))) f_zero in
  fsqrt (fadd (fmul dx dx) (fmul dy dy)).

(** tg.c:14687-14689 tg_point_distance_rect *)
Definition tg_point_distance_rect (p : pt) (r : rect) : f64 :=
  tg_rect_distance_rect (Rect p p) r.

(** tg.c:14691-14693 tg_point_distance_point *)
Definition tg_point_distance_point (a b : pt) : f64 :=
  fsqrt (fadd (fmul (fsub (px a) (px b)) (fsub (px a) (px b)))
              (fmul (fsub (py a) (py b)) (fsub (py a) (py b)))).

(** tg.c:14603-14613 tg_ring_perimeter; tg_ring_empty(NULL) is true, tg.c:3091 *)
Definition tg_ring_perimeter (r : option ring) : f64 :=
  match r with
  | Some r => if tg_ring_empty r then f_zero else ring_perimeter (r_points r) (r_nsegs r)
  | None => f_zero
  end.
(** tg.c:15360-15362 tg_line_length *)
Definition tg_line_length (l : option ring) : f64 := tg_ring_perimeter l.
