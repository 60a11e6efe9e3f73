(** * Bounding rectangles of whole geometries: the rest of C06, and C21 *)

From Coq Require Import ZArith Bool List Lia.
From Verif Require Import F64 Geo Series Search Geom Geobin SpecGeo SpecEnv EnvFacts SeriesExamples.
Import ListNotations.

(** Full statement: the rectangle of every geometry made from points without NaN is
    the least one around its vertices, empty parts ignored.  It is false of the
    code when a part is empty (C06_empty_refuted).  Proved for all geometries, of
    any nesting, without an empty part.  The vertices of holes are not counted:
    they are inside of the outline in every valid polygon. *)
Theorem C06_geometry_partial :
  forall g, solid g -> envelope (vertices g) (tg_geom_rect (Some g)).
Proof. exact geom_envelope. Qed.
Print Assumptions C06_geometry_partial.

(** a collection of a point, a line and a multi point *)
Definition ex_line : option ring := series_new [P 1 9; P 4 (-3); P 2 2] false IxNone 16.
Definition ex_coll : geom :=
  GGMulti MGeoms fl0
    (Some [Some (GPoint fl0 (P 3 4));
           Some (GGLine (fl_zm true false) ex_line [f_of_Z 7; f_of_Z (-2); f_of_Z 5] None);
           Some (GGMulti MPoints (fl_zm true true) (Some [Some (GPoint fl0 (P 20 1)); Some (GPoint fl0 (P (-6) 0))])
                   [f_of_Z 1; f_of_Z 100; f_of_Z 8; f_of_Z 50] None)]) [] None.

Example C06_geometry_example :
  solid ex_coll /\
  vertices ex_coll = [P 3 4; P 1 9; P 4 (-3); P 2 2; P 20 1; P (-6) 0] /\
  tg_geom_rect (Some ex_coll) = Rect (P (-6) (-3)) (P 20 9).
Proof.
  split; [|split; vm_compute; reflexivity].
  assert (L : solid (GGLine (fl_zm true false) ex_line [f_of_Z 7; f_of_Z (-2); f_of_Z 5] None)).
  { assert (R : match ex_line with Some _ => true | None => false end = true) by (vm_compute; reflexivity).
    cbn [solid]. destruct ex_line as [r|] eqn:E; [|discriminate].
    exists [P 1 9; P 4 (-3); P 2 2], false, IxNone, 16%nat. split; [exact E|]. split; [|cbn; lia].
    apply pts_okb_ok. vm_compute. reflexivity. }
  unfold ex_coll. apply solid_multi. split; [discriminate|].
  repeat (apply Forall_cons || apply Forall_nil); eexists; (split; [reflexivity|]).
  - apply P_ok; vm_compute; reflexivity.
  - exact L.
  - apply solid_multi. split; [discriminate|].
    repeat (apply Forall_cons || apply Forall_nil); eexists; (split; [reflexivity|]); apply P_ok; vm_compute; reflexivity.
Qed.

(** the collection of the point (5, 5) and an empty line has a rectangle that
    reaches to the origin *)
Theorem C06_empty_refuted :
  exists g, points_ok (vertices g) /\ vertices g = [P 5 5] /\
    tg_geom_rect (Some g) = Rect (P 0 0) (P 5 5) /\ ~ envelope (vertices g) (tg_geom_rect (Some g)).
Proof.
  exists (GGMulti MGeoms fl0 (Some [Some (GPoint fl0 (P 5 5)); Some (GGLine fl_empty None [] None)]) [] None).
  split; [intros p [<-|[]]; apply P_ok; vm_compute; reflexivity|]. split; [reflexivity|]. split; [vm_compute; reflexivity|].
  intros (_ & (p & [<-|[]] & E) & _). vm_compute in E. discriminate.
Qed.
Print Assumptions C06_empty_refuted.

(** tg_geom_fullrect: the number of dimensions is 2 and the most extra coordinates
    any vertex has; from the third dimension on the bounds are the least interval
    around the extra coordinates in that place.  (Hypotheses: no NaN; what is
    marked as having Z or M has coordinates.) *)
Theorem C06_extra_coordinates_partial :
  forall g mn mx,
    extras_there g -> (forall e x, In e (extras g) -> In x e -> real_or_inf x) ->
    let a := tg_geom_fullrect (Some g) mn mx in
    fr_dims a = (2 + list_max (map (@length f64) (extras g)))%nat /\
    forall i, (2 <= i < fr_dims a)%nat ->
      hull (column (extras g) (i - 2)) (aget (fr_min a) i) (aget (fr_max a) i).
Proof. intros g mn mx T N. exact (fullrect_hull g T N). Qed.
Print Assumptions C06_extra_coordinates_partial.

Example C06_extra_coordinates_example :
  extras_there ex_coll /\
  extras ex_coll = [[f_of_Z 7]; [f_of_Z (-2)]; [f_of_Z 5]; [f_of_Z 1; f_of_Z 100]; [f_of_Z 8; f_of_Z 50]] /\
  tg_geom_fullrect (Some ex_coll) [] [] =
    FR 4 [f_of_Z (-6); f_of_Z (-3); f_of_Z (-2); f_of_Z 50] [f_of_Z 20; f_of_Z 9; f_of_Z 8; f_of_Z 100].
Proof. split; [cbn; repeat split; discriminate|]. split; vm_compute; reflexivity. Qed.
