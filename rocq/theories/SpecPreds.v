(** * Specification vocabulary for the spatial predicates *)

From Coq Require Import ZArith Bool List Reals.
From Verif Require Import F64 Geo Series Geom MultiIx SpecGeo F64Real SpecPlane.
Import ListNotations.

(** every collection inside the geometry got its index without undefined
    behaviour (see C39 for when that is so; collections of less than 64
    children have no index) *)
Fixpoint index_defined (g : geom) : Prop :=
  match g with
  | GGMulti _ _ (Some gs) _ _ =>
      multi_inflate (map tg_geom_rect gs) <> None /\
      (fix all (l : list (option geom)) : Prop :=
         match l with
         | [] => True
         | Some c :: rest => index_defined c /\ all rest
         | None :: rest => all rest
         end) gs
  | _ => True
  end.
Definition geom_defined (g : option geom) : Prop :=
  match g with None => True | Some g => index_defined g end.

(** the point (x, y) of the plane lies on the line through the given points *)
Definition on_line (ps : list pt) (x y : R) : Prop := exists s, In s (pairs ps) /\ lies_on s x y.

(** the point is on the border of the ring, or the ray to the right of it
    crosses the border an odd number of times *)
Definition inside_ring (ps : list pt) (p : pt) : Prop :=
  (exists s, In s (ring_segments ps) /\ lies_on s (xR p) (yR p)) \/
  (exists n, counts (fun s => ray_crosses s p) (ring_segments ps) n /\ Nat.odd n = true).
