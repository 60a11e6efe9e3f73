(** * The functions between rectangles and other things, and the small public
    wrappers around the predicates *)

From Coq Require Import ZArith Bool List.
From Verif Require Import F64 Geo Series Search RingApi Geom MultiIx Preds PredsGeom.
Import ListNotations.

(** tg.c:3252-3256 tg_rect_intersects_line *)
Definition tg_rect_intersects_line (r : rect) (l : option ring) : out bool :=
  tg_ring_intersects_line (Some (rect_to_ring r)) l true.
(** tg.c:3457-3459 tg_line_intersects_rect *)
Definition tg_line_intersects_rect (l : option ring) (r : rect) : out bool := tg_rect_intersects_line r l.
(** tg.c:3948-3953 tg_poly_intersects_rect *)
Definition tg_poly_intersects_rect (q : option poly) (r : rect) : out bool :=
  tg_poly_intersects_poly q (Some (PRing (rect_to_ring r))).
(** tg.c:3260-3262 tg_rect_intersects_poly *)
Definition tg_rect_intersects_poly (r : rect) (q : option poly) : out bool := tg_poly_intersects_rect q r.
(** tg.c:1091-1093 tg_point_intersects_rect *)
Definition tg_point_intersects_rect (p : pt) (r : rect) : bool := tg_rect_covers_point r p.
(** tg.c:1852-1855 tg_rect_covers_line *)
Definition tg_rect_covers_line (r : rect) (l : option ring) : bool :=
  negb (line_is_empty l) && tg_rect_covers_rect r (tg_ring_rect l).
(** tg.c:3266-3269 tg_rect_covers_poly *)
Definition tg_rect_covers_poly (r : rect) (q : option poly) : bool :=
  negb (tg_poly_empty q) && tg_rect_covers_rect r (tg_poly_rect q).
(** tg.c:3939-3944 tg_poly_covers_rect *)
Definition tg_poly_covers_rect (q : option poly) (r : rect) : out bool :=
  tg_poly_covers_poly q (Some (PRing (rect_to_ring r))).
(** tg.c:3447-3453 tg_line_covers_rect; the polygon on the stack has base 0, so it
    is not taken for a ring *)
Definition tg_line_covers_rect (l : option ring) (r : rect) : out bool :=
  tg_line_covers_poly l (Some (PPoly (rect_to_ring r) [])).

(** tg.c:1838-1850 tg_rect_search; the boolean is "ran to the end", which the C
    function drops *)
Definition tg_rect_search {A : Type} (r target : rect) (iter : A -> seg -> Z -> bool * A) (st : A) : bool * A :=
  loop_while (fun st i =>
    let s := tg_rect_segment_at r i in
    if tg_rect_intersects_rect (tg_segment_rect s) target then iter st s i else (true, st))
    [0; 1; 2; 3]%Z st.

(** tg.c:1063-1075 tg_point_covers_point, tg_point_contains_point and
    tg_point_intersects_point *)
Definition tg_point_covers_point (a b : pt) : bool := pteq a b.
(** tg.c:6533-6535 tg_geom_covers_xy *)
Definition tg_geom_covers_xy (g : option geom) (x y : f64) : out bool := tg_geom_covers_point g (Pt x y).
(** tg.c:6549-6551 tg_geom_intersects_xy *)
Definition tg_geom_intersects_xy (g : option geom) (x y : f64) : out bool := tg_geom_intersects_point g (Pt x y).
(** tg.c:3921-3923 tg_poly_covers_xy *)
Definition tg_poly_covers_xy (q : option poly) (x y : f64) : out bool := tg_poly_covers_point q (Pt x y).
