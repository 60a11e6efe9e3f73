(** * Distances in the plane *)

From Coq Require Import ZArith Reals.
From Flocq Require Import Core BinarySingleNaN.
From Verif Require Import F64 Geo F64Real SpecPlane.
Local Open Scope R_scope.

(** the distance of (x, y) and (u, v) *)
Definition dist (x y u v : R) : R := sqrt ((x - u) * (x - u) + (y - v) * (y - v)).

(** D is the distance of two sets of points: that of two of their points, and
    no two of their points are nearer *)
Definition set_distance (A B : R -> R -> Prop) (D : R) : Prop :=
  (exists x y u v, A x y /\ B u v /\ D = dist x y u v) /\
  forall x y u v, A x y -> B u v -> D <= dist x y u v.

(** the single point p; the points of a rectangle *)
Definition just (p : pt) (x y : R) : Prop := x = xR p /\ y = yR p.
Definition in_rect (r : rect) (x y : R) : Prop :=
  xR (rmin r) <= x <= xR (rmax r) /\ yR (rmin r) <= y <= yR (rmax r).

(** a rectangle with corners on the integer grid, the first one at the lower left *)
Definition int_rect (k : Z) (r : rect) : Prop :=
  int_point k (rmin r) /\ int_point k (rmax r) /\
  xR (rmin r) <= xR (rmax r) /\ yR (rmin r) <= yR (rmax r).

(** d is the double nearest to D (ties to even) *)
Definition nearest_double (d : f64) (D : R) : Prop :=
  fin d /\ RV d = round radix2 (FLT_exp (-1074) 53) (Znearest (fun z => negb (Z.even z))) D.
