(** * C07: rectangle algebra.  [same_rect] is equality of the four sides as
      numbers (so -0 and 0 are equal). *)

From Coq Require Import ZArith Bool List.
From Verif Require Import F64 Geo SpecGeo RectAlg SeriesExamples.

Theorem C07_expand_commutative : forall a b, rectangle_ok a -> rectangle_ok b ->
  same_rect (tg_rect_expand a b) (tg_rect_expand b a).
Proof. exact expand_comm. Qed.
Print Assumptions C07_expand_commutative.

Theorem C07_expand_associative : forall a b c, rectangle_ok a -> rectangle_ok b -> rectangle_ok c ->
  same_rect (tg_rect_expand a (tg_rect_expand b c)) (tg_rect_expand (tg_rect_expand a b) c).
Proof. exact expand_assoc. Qed.
Print Assumptions C07_expand_associative.

Theorem C07_expand_idempotent : forall a, rectangle_ok a -> same_rect (tg_rect_expand a a) a.
Proof. exact expand_idem. Qed.
Print Assumptions C07_expand_idempotent.

Theorem C07_expand_least : forall a b c, rectangle_ok a -> rectangle_ok b -> rectangle_ok c ->
  tg_rect_covers_rect (tg_rect_expand a b) a = true /\
  tg_rect_covers_rect (tg_rect_expand a b) b = true /\
  (tg_rect_covers_rect c a = true -> tg_rect_covers_rect c b = true ->
   tg_rect_covers_rect c (tg_rect_expand a b) = true).
Proof. exact expand_least. Qed.
Print Assumptions C07_expand_least.

Theorem C07_expand_point_least : forall a p c, rectangle_ok a -> point_ok p -> rectangle_ok c ->
  tg_rect_covers_rect (tg_rect_expand_point a p) a = true /\
  tg_rect_covers_point (tg_rect_expand_point a p) p = true /\
  (tg_rect_covers_rect c a = true -> tg_rect_covers_point c p = true ->
   tg_rect_covers_rect c (tg_rect_expand_point a p) = true).
Proof. exact expand_point_least. Qed.
Print Assumptions C07_expand_point_least.

Theorem C07_intersects_symmetric : forall a b, rectangle_ok a -> rectangle_ok b ->
  tg_rect_intersects_rect a b = tg_rect_intersects_rect b a.
Proof. exact intersects_sym. Qed.
Print Assumptions C07_intersects_symmetric.

Theorem C07_intersects_common_point : forall a b,
  rectangle_ok a -> rectangle_ok b -> ordered a -> ordered b ->
  (tg_rect_intersects_rect a b = true <-> exists p, point_ok p /\ in_rect a p /\ in_rect b p).
Proof. exact intersects_common. Qed.
Print Assumptions C07_intersects_common_point.

Theorem C07_covers_point : forall r p, rectangle_ok r -> point_ok p ->
  (tg_rect_covers_point r p = true <-> in_rect r p).
Proof. exact covers_point_spec. Qed.
Print Assumptions C07_covers_point.

Theorem C07_covers_partial_order : forall a b c, rectangle_ok a -> rectangle_ok b -> rectangle_ok c ->
  tg_rect_covers_rect a a = true /\
  (tg_rect_covers_rect a b = true -> tg_rect_covers_rect b c = true -> tg_rect_covers_rect a c = true) /\
  (tg_rect_covers_rect a b = true -> tg_rect_covers_rect b a = true -> same_rect a b).
Proof. exact covers_order. Qed.
Print Assumptions C07_covers_partial_order.

Theorem C07_covers_subset : forall a b, rectangle_ok a -> rectangle_ok b -> ordered b ->
  (tg_rect_covers_rect a b = true <-> forall p, point_ok p -> in_rect b p -> in_rect a p).
Proof. exact covers_rect_subset. Qed.
Print Assumptions C07_covers_subset.

Example C07_example :
  let a := Rect (P 0 0) (P 2 2) in let b := Rect (P 1 (-1)) (P 5 1) in
  rectangle_ok a /\ rectangle_ok b /\ ordered a /\ ordered b /\
  tg_rect_expand a b = Rect (P 0 (-1)) (P 5 2) /\
  tg_rect_intersects_rect a b = true /\ tg_rect_covers_rect (tg_rect_expand a b) a = true /\
  tg_rect_covers_rect a b = false /\ tg_rect_intersects_rect a (Rect (P 3 0) (P 4 1)) = false.
Proof.
  cbv zeta. split. { split; apply P_ok; vm_compute; reflexivity. }
  split. { split; apply P_ok; vm_compute; reflexivity. }
  vms.
Qed.
