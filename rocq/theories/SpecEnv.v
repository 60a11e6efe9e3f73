(** * The vertices and extra coordinates of a geometry *)

From Coq Require Import ZArith Bool List.
From Verif Require Import F64 Geo Series Geom SpecGeo.
Import ListNotations.

(** the points a ring or line was built from *)
Definition ring_vertices (r : ring) : list pt := firstn (r_npoints r) (r_points r).
(** the vertices of the outline; holes lie inside it *)
Definition outline (p : poly) : list pt :=
  match p with PRing r => ring_vertices r | PPoly e _ => ring_vertices e end.

(** all vertices of a geometry, with the vertices of all its parts *)
Fixpoint vertices (g : geom) : list pt :=
  match g with
  | GPoint _ p | GGPoint _ p _ _ _ => [p]
  | GLine _ l => ring_vertices l
  | GPoly _ p => outline p
  | GGLine _ (Some l) _ _ => ring_vertices l
  | GGPoly _ (Some p) _ _ => outline p
  | GGMulti _ _ (Some gs) _ _ =>
      flat_map (fun o => match o with Some c => vertices c | None => [] end) gs
  | _ => []
  end.

(** a ring or line built from at least two points, none NaN *)
Definition solid_ring (r : ring) : Prop :=
  exists ps closed kind spread, series_new ps closed kind spread = Some r /\
    points_ok ps /\ (2 <= spread)%nat /\ (2 <= length ps)%nat.
Definition solid_poly (p : poly) : Prop :=
  match p with PRing r => solid_ring r | PPoly e _ => solid_ring e end.
(** no part is empty *)
Fixpoint solid (g : geom) : Prop :=
  match g with
  | GPoint _ p | GGPoint _ p _ _ _ => point_ok p
  | GLine _ l => solid_ring l
  | GPoly _ p => solid_poly p
  | GGLine _ (Some l) _ _ => solid_ring l
  | GGPoly _ (Some p) _ _ => solid_poly p
  | GGMulti _ _ (Some gs) _ _ =>
      gs <> [] /\
      (fix all (l : list (option geom)) : Prop :=
         match l with
         | [] => True
         | Some c :: rest => solid c /\ all rest
         | None :: rest => False
         end) gs
  | _ => False
  end.

(** [r] is the least rectangle around the points [ps] *)
Definition envelope (ps : list pt) (r : rect) : Prop :=
  (forall p, In p ps -> in_rect r p) /\
  (exists p, In p ps /\ feqb (px p) (px (rmin r)) = true) /\
  (exists p, In p ps /\ feqb (py p) (py (rmin r)) = true) /\
  (exists p, In p ps /\ feqb (px p) (px (rmax r)) = true) /\
  (exists p, In p ps /\ feqb (py p) (py (rmax r)) = true).

(** ** Z and M *)

(** pairs of neighbours: Z and M of one vertex after the other *)
Fixpoint by_two (cs : list f64) : list (list f64) :=
  match cs with a :: b :: rest => [a; b] :: by_two rest | _ => [] end.
(** the extra coordinates that go with the vertices: none, one or two each *)
Definition extra_of (f : flags) (cs : list f64) : list (list f64) :=
  if has_z f && has_m f then by_two cs
  else if has_z f || has_m f then map (fun c => [c]) cs
  else [].
Fixpoint extras (g : geom) : list (list f64) :=
  match g with
  | GPoint _ _ | GLine _ _ | GPoly _ _ => []
  | GGPoint f _ z m _ => [(if has_z f then [z] else []) ++ (if has_m f then [m] else [])]
  | GGLine f _ cs _ | GGPoly f _ cs _ => extra_of f cs
  | GGMulti MGeoms _ (Some gs) _ _ =>
      flat_map (fun o => match o with Some c => extras c | None => [] end) gs
  | GGMulti _ f _ cs _ => extra_of f cs
  end.
(** a geometry marked as having Z or M has at least the coordinates of one vertex *)
Fixpoint extras_there (g : geom) : Prop :=
  match g with
  | GGLine f _ cs _ | GGPoly f _ cs _ => has_z f || has_m f = true -> extra_of f cs <> []
  | GGMulti MGeoms _ (Some gs) _ _ =>
      (fix all (l : list (option geom)) : Prop :=
         match l with
         | [] => True
         | Some c :: rest => extras_there c /\ all rest
         | None :: rest => all rest
         end) gs
  | GGMulti _ f _ cs _ => has_z f || has_m f = true -> extra_of f cs <> []
  | _ => True
  end.

(** the values of the [i]-th extra coordinate, of the vertices that have one *)
Definition column (es : list (list f64)) (i : nat) : list f64 :=
  flat_map (fun e => match nth_error e i with Some x => [x] | None => [] end) es.
(** the interval from [lo] to [hi] is the least one around the numbers [xs] *)
Definition hull (xs : list f64) (lo hi : f64) : Prop :=
  (forall x, In x xs -> fle lo x = true /\ fle x hi = true) /\
  (exists x, In x xs /\ feqb x lo = true) /\
  (exists x, In x xs /\ feqb x hi = true).
