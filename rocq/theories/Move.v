(** * Moving points, rings, lines and polygons *)

From Coq Require Import ZArith Bool List.
From Verif Require Import F64 Geo Series RingApi Geom.
Import ListNotations.
Local Open Scope Z_scope.

(** tg.c:1257-1261 tg_point_move *)
Definition tg_point_move (p : pt) (dx dy : f64) : pt := Pt (fadd (px p) dx) (fadd (py p) dy).
(** tg.c:1263-1270 tg_segment_move *)
Definition tg_segment_move (s : seg) (dx dy : f64) : seg :=
  Seg (tg_point_move (sa s) dx dy) (tg_point_move (sb s) dx dy).
(** tg.c:3129-3135 tg_rect_move *)
Definition tg_rect_move (r : rect) (dx dy : f64) : rect :=
  Rect (tg_point_move (rmin r) dx dy) (tg_point_move (rmax r) dx dy).

(** tg.c:2232-2239 the index option of the new series, without a spread *)
Definition move_ix (r : ring) : Z :=
  match r_ystripes r with
  | Some _ => TG_YSTRIPES
  | None => match r_index r with Some _ => TG_NATURAL | None => TG_NONE end
  end.

(** tg.c:2223-2243 series_move.  [None] = undefined behaviour (y-stripes),
    [Some None] = NULL.  Simplification: allocation succeeds, also of no bytes
    for a series without points (2227). *)
Definition series_move (e : env) (r : option ring) (closed : bool) (dx dy : f64)
  : option (option ring) :=
  match r with
  | None => Some None
  | Some r =>
      match series_new_ix e
              (map (fun i => tg_point_move (pt_at (r_points r) i) dx dy) (seq 0 (r_npoints r)))
              closed (move_ix r) with
      | Some r' => Some (Some r')
      | None => None
      end
  end.
(** tg.c:3271-3275 tg_ring_move *)
Definition tg_ring_move (e : env) (r : option ring) (dx dy : f64) : option (option ring) :=
  series_move e r true dx dy.
(** tg.c:3629-3634 tg_line_move *)
Definition tg_line_move (e : env) (l : option ring) (dx dy : f64) : option (option ring) :=
  series_move e l false dx dy.

(** tg.c:4244-4247 the holes; [Some None] when one of them comes out NULL *)
Fixpoint move_holes (e : env) (hs : list (option ring)) (dx dy : f64)
  : option (option (list (option ring))) :=
  match hs with
  | [] => Some (Some [])
  | h :: rest =>
      match tg_ring_move e h dx dy with
      | None => None
      | Some None => Some None
      | Some (Some h') =>
          match move_holes e rest dx dy with
          | Some (Some l) => Some (Some (Some h' :: l))
          | other => other
          end
      end
  end.
(** tg.c:4223-4259 tg_poly_move *)
Definition tg_poly_move (e : env) (p : option poly) (dx dy : f64) : option (option poly) :=
  match p with
  | None => Some None
  | Some (PRing r) =>
      match tg_ring_move e (Some r) dx dy with
      | Some (Some r') => Some (Some (PRing r'))
      | Some None => Some None
      | None => None
      end
  | Some (PPoly ext hs) =>
      match tg_ring_move e (Some ext) dx dy with
      | None => None
      | Some None => Some None
      | Some (Some ext') =>
          match move_holes e hs dx dy with
          | None => None
          | Some None => Some None
          | Some (Some hs') => tg_poly_new (Some ext') hs' (Z.of_nat (length hs'))
          end
      end
  end.
