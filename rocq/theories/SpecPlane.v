(** * Segments in the real plane *)

From Coq Require Import ZArith Reals List.
From Verif Require Import F64 Geo F64Real.
Import ListNotations.
Local Open Scope R_scope.

(** the point of the plane that a pair of finite doubles stands for *)
Definition xR (p : pt) : R := RV (px p).
Definition yR (p : pt) : R := RV (py p).

(** (x, y) lies on the closed segment from (ax, ay) to (bx, by_) *)
Definition on_segment (ax ay bx by_ x y : R) : Prop :=
  exists t, 0 <= t <= 1 /\ x = ax + t * (bx - ax) /\ y = ay + t * (by_ - ay).

Definition lies_on (s : seg) (x y : R) : Prop :=
  on_segment (xR (sa s)) (yR (sa s)) (xR (sb s)) (yR (sb s)) x y.

(** the closed segments have a point of the plane in common *)
Definition have_common_point (s1 s2 : seg) : Prop :=
  exists x y, lies_on s1 x y /\ lies_on s2 x y.

(** the horizontal ray from p to the right crosses the segment, the lower end
    counted and the upper end not *)
Definition ray_crosses (s : seg) (p : pt) : Prop :=
  Rmin (yR (sa s)) (yR (sb s)) <= yR p < Rmax (yR (sa s)) (yR (sb s)) /\
  exists x, lies_on s x (yR p) /\ xR p < x.

(** the double is an integer of magnitude at most 2^k *)
Definition int_coord (k : Z) (x : f64) : Prop :=
  fin x /\ exists n, RV x = IZR n /\ (Z.abs n <= 2 ^ k)%Z.
Definition int_point (k : Z) (p : pt) : Prop := int_coord k (px p) /\ int_coord k (py p).
Definition int_segment (k : Z) (s : seg) : Prop := int_point k (sa s) /\ int_point k (sb s).

(** exactly n elements of the list satisfy P *)
Inductive counts {X : Type} (P : X -> Prop) : list X -> nat -> Prop :=
| counts_nil : counts P [] 0
| counts_yes x l n : P x -> counts P l n -> counts P (x :: l) (S n)
| counts_no x l n : ~ P x -> counts P l n -> counts P (x :: l) n.
