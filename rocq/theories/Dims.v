(** * Dimension and type name of a geometry *)

From Coq Require Import ZArith Bool List String.
From Verif Require Import F64 Geo Series Geom.
Import ListNotations.
Local Open Scope Z_scope.

(** tg.c:15019-15048 tg_geom_de9im_dims on a geometry that is not NULL.  The
    loop of 15036-15043 asks tg_geom_num_geometries and tg_geom_geometry_at,
    which read the list of children in order (Geom.v); here it is a fold over
    that list. *)
Fixpoint dims_of_geom (g : geom) : Z :=
  match g with
  | GPoint _ _ | GGPoint _ _ _ _ _ => 0
  | GLine _ _ | GGLine _ _ _ _ => 1
  | GPoly _ _ | GGPoly _ _ _ _ => 2
  | GGMulti MPoints _ _ _ _ => 0
  | GGMulti MLines _ _ _ _ => 1
  | GGMulti MPolys _ _ _ _ => 2
  | GGMulti MGeoms _ None _ _ => -1
  | GGMulti MGeoms _ (Some gs) _ _ =>
      fold_left (fun dims child => if dims <? child then child else dims)
        (map (fun o => match o with Some g => dims_of_geom g | None => -1 end) gs) (-1)
  end.
(** tg.c:15019-15048 tg_geom_de9im_dims *)
Definition tg_geom_de9im_dims (g : option geom) : Z :=
  match g with None => -1 | Some g => dims_of_geom g end.

(** tg.c:6699-6710 tg_geom_type_string *)
Definition tg_geom_type_string (t : Z) : string :=
  if t =? TG_POINT then "Point"
  else if t =? TG_LINESTRING then "LineString"
  else if t =? TG_POLYGON then "Polygon"
  else if t =? TG_MULTIPOINT then "MultiPoint"
  else if t =? TG_MULTILINESTRING then "MultiLineString"
  else if t =? TG_MULTIPOLYGON then "MultiPolygon"
  else if t =? TG_GEOMETRYCOLLECTION then "GeometryCollection"
  else "Unknown".
