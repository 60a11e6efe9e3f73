(** * The points of the plane that a geometry consists of *)

From Coq Require Import ZArith Bool List Reals.
From Verif Require Import F64 F32 Geo Series Geom MultiIx SpecGeo F64Real SpecPlane SpecPreds SpecRing.
Import ListNotations.
Local Open Scope R_scope.

(** the horizontal ray from (x, y) to the right crosses the segment, the lower
    end counted and the upper end not *)
Definition ray_meets (x y : R) (s : seg) : Prop :=
  Rmin (yR (sa s)) (yR (sb s)) <= y < Rmax (yR (sa s)) (yR (sb s)) /\
  exists x', lies_on s x' y /\ x < x'.

(** (x, y) is on the border of the ring *)
Definition ring_border (ps : list pt) (x y : R) : Prop :=
  exists s, In s (ring_segments ps) /\ lies_on s x y.
(** ... or within it: the ray to the right crosses the border an odd number of times *)
Definition ring_has (ps : list pt) (x y : R) : Prop :=
  ring_border ps x y \/ exists n, counts (ray_meets x y) (ring_segments ps) n /\ Nat.odd n = true.
(** within and not on the border *)
Definition ring_interior (ps : list pt) (x y : R) : Prop :=
  ring_has ps x y /\ ~ ring_border ps x y.

(** a point; a line through points; an exterior ring with holes; several
    shapes; nothing *)
Inductive shape :=
| SPoint (p : pt)
| SLine (ps : list pt)
| SPoly (ext : list pt) (holes : list (list pt))
| SMulti (parts : list shape)
| SNone.

Definition poly_has (ext : list pt) (holes : list (list pt)) (x y : R) : Prop :=
  ring_has ext x y /\ forall h, In h holes -> ~ ring_interior h x y.

(** the closed set of points of a shape *)
Fixpoint shape_has (sh : shape) (x y : R) : Prop :=
  match sh with
  | SPoint p => x = xR p /\ y = yR p
  | SLine ps => on_line ps x y
  | SPoly ext holes => poly_has ext holes x y
  | SMulti parts => (fix some l := match l with [] => False | s :: rest => shape_has s x y \/ some rest end) parts
  | SNone => False
  end.

(** ** Rings and lines built from points of integer coordinates up to 2^24, with
    any index; the index is safe to search (C02) and safe to ask about the
    points [asked] (C01) *)
Definition ring_stands (asked ps : list pt) (r : ring) : Prop :=
  (forall q, In q ps -> int_point 24 q) /\
  exists kind spread, (2 <= spread)%nat /\ series_new ps true kind spread = Some r /\
    search_safe ps true kind spread /\ forall q, In q asked -> index_safe ps kind spread q.
Definition line_stands (ps : list pt) (l : ring) : Prop :=
  (forall q, In q ps -> int_point 24 q) /\
  exists kind spread, (2 <= spread)%nat /\ series_new ps false kind spread = Some l.

(** with any two points every point in between *)
Definition convex_set (P : R -> R -> Prop) : Prop :=
  forall ax ay bx by_ x y, P ax ay -> P bx by_ -> on_segment ax ay bx by_ x y -> P x y.
(** a hole: when tg takes the ring for convex, its interior is convex (a
    pentagram is taken for convex and is not) *)
Definition hole_stands (asked ps : list pt) (h : option ring) : Prop :=
  exists r, h = Some r /\ ring_stands asked ps r /\ (r_convex r = true -> convex_set (ring_interior ps)).

(** the borders of all rings belong to the polygon: the holes do not stick out
    of the exterior or into each other *)
Definition poly_proper (ext : list pt) (holes : list (list pt)) : Prop :=
  forall x y, ring_border ext x y \/ (exists h, In h holes /\ ring_border h x y) -> poly_has ext holes x y.

Definition poly_stands (asked : list pt) (q : poly) (ext : list pt) (holes : list (list pt)) : Prop :=
  poly_proper ext holes /\
  match q with
  | PRing r => ring_stands asked ext r /\ holes = []
  | PPoly r hs => ring_stands asked ext r /\ Forall2 (hole_stands asked) holes hs
  end.

(** the index over the children of a collection can be built and searched: the
    rectangles of the children are in order, and from 64 children on (only then
    is there an index) the conversions of C39 are defined and exact enough *)
Definition searchable (gs : list (option geom)) : Prop :=
  (forall g, In g gs -> rectangle_ok (tg_geom_rect g) /\ ordered (tg_geom_rect g)) /\
  ((64 <= length gs)%nat -> (forall g, In g gs -> rect32 (tg_geom_rect g)) /\
     multi_inflate (map tg_geom_rect gs) <> None).

(** the geometry was built from these points; [asked] are the points that its
    rings will be asked about.  A geometry flagged empty is nothing. *)
Inductive stands (asked : list pt) : option geom -> shape -> Prop :=
| st_null : stands asked None SNone
| st_point f p : int_point 24 p -> stands asked (Some (GPoint f p)) (SPoint p)
| st_line f ps l : line_stands ps l -> stands asked (Some (GLine f l)) (SLine ps)
| st_poly f q ext holes : poly_stands asked q ext holes -> stands asked (Some (GPoly f q)) (SPoly ext holes)
| st_gpoint f p z m x : is_empty f = false -> int_point 24 p -> stands asked (Some (GGPoint f p z m x)) (SPoint p)
| st_gline f ps l c x : is_empty f = false -> line_stands ps l -> stands asked (Some (GGLine f (Some l) c x)) (SLine ps)
| st_gpoly f q ext holes c x : is_empty f = false -> poly_stands asked q ext holes ->
    stands asked (Some (GGPoly f (Some q) c x)) (SPoly ext holes)
| st_empty_point f p z m x : is_empty f = true -> stands asked (Some (GGPoint f p z m x)) SNone
| st_empty_line f l c x : is_empty f = true -> stands asked (Some (GGLine f l c x)) SNone
| st_empty_poly f q c x : is_empty f = true -> stands asked (Some (GGPoly f q c x)) SNone
| st_empty_multi t f gs c x : is_empty f = true -> stands asked (Some (GGMulti t f gs c x)) SNone
| st_multi t f gs c x parts : is_empty f = false -> searchable gs -> stand_all asked gs parts ->
    stands asked (Some (GGMulti t f (Some gs) c x)) (SMulti parts)
with stand_all (asked : list pt) : list (option geom) -> list shape -> Prop :=
| st_nil : stand_all asked [] []
| st_cons g gs p parts : stands asked g p -> stand_all asked gs parts -> stand_all asked (g :: gs) (p :: parts).

(** the points a shape was given by *)
Fixpoint vertices (sh : shape) : list pt :=
  match sh with
  | SPoint p => [p]
  | SLine ps => ps
  | SPoly ext holes => ext ++ concat holes
  | SMulti parts => (fix all l := match l with [] => [] | s :: rest => vertices s ++ all rest end) parts
  | SNone => []
  end.

(** the shapes have a point of the plane in common *)
Definition share_a_point (a b : shape) : Prop := exists x y, shape_has a x y /\ shape_has b x y.

(** the first or the last point of a line that has two points or more *)
Definition line_end (ps : list pt) (x y : R) : Prop :=
  (2 <= length ps)%nat /\ exists p, (hd_error ps = Some p \/ hd_error (rev ps) = Some p) /\ x = xR p /\ y = yR p.

(** the points of a shape that are not on its boundary: the ends of a line and
    the borders of all rings of a polygon are left out *)
Fixpoint shape_inside (sh : shape) (x y : R) : Prop :=
  match sh with
  | SPoint p => x = xR p /\ y = yR p
  | SLine ps => on_line ps x y /\ ~ line_end ps x y
  | SPoly ext holes => ring_interior ext x y /\ forall h, In h holes -> ~ ring_has h x y
  | SMulti parts => (fix some l := match l with [] => False | s :: rest => shape_inside s x y \/ some rest end) parts
  | SNone => False
  end.
