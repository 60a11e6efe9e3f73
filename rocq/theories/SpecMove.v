(** * Shapes moved in the plane *)

From Coq Require Import ZArith List Reals.
From Verif Require Import F64 Geo F64Real SpecPlane SpecShape.
Import ListNotations.
Local Open Scope R_scope.

(** q is p moved by (dx, dy), with no rounding *)
Definition shifted (dx dy : R) (p q : pt) : Prop := xR q = xR p + dx /\ yR q = yR p + dy.

(** a shape and the shape all points of which are moved by (dx, dy) *)
Inductive shape_shifted (dx dy : R) : shape -> shape -> Prop :=
| sh_point p q : shifted dx dy p q -> shape_shifted dx dy (SPoint p) (SPoint q)
| sh_line ps qs : Forall2 (shifted dx dy) ps qs -> shape_shifted dx dy (SLine ps) (SLine qs)
| sh_poly ext ext' hs hs' : Forall2 (shifted dx dy) ext ext' -> Forall2 (Forall2 (shifted dx dy)) hs hs' ->
    shape_shifted dx dy (SPoly ext hs) (SPoly ext' hs')
| sh_multi l l' : shapes_shifted dx dy l l' -> shape_shifted dx dy (SMulti l) (SMulti l')
| sh_none : shape_shifted dx dy SNone SNone
with shapes_shifted (dx dy : R) : list shape -> list shape -> Prop :=
| sh_nil : shapes_shifted dx dy [] []
| sh_cons s s' l l' : shape_shifted dx dy s s' -> shapes_shifted dx dy l l' ->
    shapes_shifted dx dy (s :: l) (s' :: l').
