(** * Geometry values: struct tg_geom, tg_poly, tg_line and their accessors *)

From Coq Require Import ZArith Bool String List.
From Verif Require Import F64 Geo Series RingApi Bytes.
Import ListNotations.
Local Open Scope Z_scope.

(** tg.h:50-58 enum tg_geom_type *)
Definition TG_POINT : Z := 1.
(** tg.h:50-58 enum tg_geom_type *)
Definition TG_LINESTRING : Z := 2.
(** tg.h:50-58 enum tg_geom_type *)
Definition TG_POLYGON : Z := 3.
(** tg.h:50-58 enum tg_geom_type *)
Definition TG_MULTIPOINT : Z := 4.
(** tg.h:50-58 enum tg_geom_type *)
Definition TG_MULTILINESTRING : Z := 5.
(** tg.h:50-58 enum tg_geom_type *)
Definition TG_MULTIPOLYGON : Z := 6.
(** tg.h:50-58 enum tg_geom_type *)
Definition TG_GEOMETRYCOLLECTION : Z := 7.

(** tg.c:533-543 enum flags: the eight bits of head.flags, one boolean each *)
Record flags := Flags {
  has_z : bool; has_m : bool; is_error : bool; is_empty : bool;
  is_feature : bool; is_feature_col : bool; has_null_props : bool; is_unlocated : bool
}.
(** tg.c:4287 memset to zero *)
Definition fl0 : flags := Flags false false false false false false false false.
(** tg.c:4299 flags = IS_EMPTY *)
Definition fl_empty : flags := Flags false false false true false false false false.
(** tg.c:4335, 4350, 4367: flags = HAS_Z and/or HAS_M *)
Definition fl_zm (z m : bool) : flags := Flags z m false false false false false false.
(** tg.c:7784-7789 IS_EMPTY and IS_ERROR *)
Definition fl_err : flags := Flags false false true true false false false false.
(** tg.c:8529 flags |= IS_FEATURE *)
Definition set_feature (f : flags) : flags :=
  Flags (has_z f) (has_m f) (is_error f) (is_empty f) true (is_feature_col f)
        (has_null_props f) (is_unlocated f).
(** tg.c:8582 flags |= IS_FEATURE_COL *)
Definition set_feature_col (f : flags) : flags :=
  Flags (has_z f) (has_m f) (is_error f) (is_empty f) (is_feature f) true
        (has_null_props f) (is_unlocated f).

(** tg.c:672-677 struct tg_poly, or a struct tg_ring cast to it (BASE_RING,
    tg.c:3760-3764).  A hole may be NULL ([None]) when the caller passed NULL. *)
Inductive poly :=
  | PRing (r : ring)
  | PPoly (exterior : ring) (holes : list (option ring)).

(** the four multi types, tg.h:54-57 *)
Inductive mtype := MPoints | MLines | MPolys | MGeoms.

(** tg.c:720-751 struct tg_geom, struct boxed_point and the upcast bases.
    The first three constructors are the bases BASE_POINT, BASE_LINE and
    BASE_RING/BASE_POLY; the other four are BASE_GEOM with the member of the
    union that its type selects.  A C pointer that may be NULL is an option.
    Simplifications: reference counts and noheap are left out (Heap.v has them);
    struct multi (679-685) is its list of children, because its rectangle and
    index are functions of the children fixed at construction (4596-4613) and
    never changed; the head of a line or polygon is part of the geometry value,
    so tg_geom_line and tg_geom_poly do not carry the flags along.
    [xj] is the shared xjson/error string (741-744) without its NUL. *)
Inductive geom :=
  | GPoint (fl : flags) (p : pt)
  | GLine (fl : flags) (l : ring)
  | GPoly (fl : flags) (p : poly)
  | GGPoint (fl : flags) (p : pt) (z m : f64) (xj : option (list Z))
  | GGLine (fl : flags) (l : option ring) (coords : list f64) (xj : option (list Z))
  | GGPoly (fl : flags) (p : option poly) (coords : list f64) (xj : option (list Z))
  | GGMulti (mt : mtype) (fl : flags) (geoms : option (list (option geom)))
            (coords : list f64) (xj : option (list Z)).

(** tg.c:587-593 head.flags *)
Definition geom_flags (g : geom) : flags :=
  match g with
  | GPoint f _ | GLine f _ | GPoly f _ | GGPoint f _ _ _ _
  | GGLine f _ _ _ | GGPoly f _ _ _ | GGMulti _ f _ _ _ => f
  end.
(** assignment to head.flags, e.g. tg.c:8025 *)
Definition with_flags (g : geom) (f : flags) : geom :=
  match g with
  | GPoint _ p => GPoint f p
  | GLine _ l => GLine f l
  | GPoly _ p => GPoly f p
  | GGPoint _ p z m x => GGPoint f p z m x
  | GGLine _ l c x => GGLine f l c x
  | GGPoly _ p c x => GGPoly f p c x
  | GGMulti t _ gs c x => GGMulti t f gs c x
  end.

(** the type code of a multi geometry, tg.h:54-57 *)
Definition mtype_code (t : mtype) : Z :=
  match t with
  | MPoints => TG_MULTIPOINT | MLines => TG_MULTILINESTRING
  | MPolys => TG_MULTIPOLYGON | MGeoms => TG_GEOMETRYCOLLECTION
  end.
(** head.type (tg.c:587-594) of a non-NULL geometry *)
Definition head_type (g : geom) : Z :=
  match g with
  | GPoint _ _ | GGPoint _ _ _ _ _ => TG_POINT
  | GLine _ _ | GGLine _ _ _ _ => TG_LINESTRING
  | GPoly _ _ | GGPoly _ _ _ _ => TG_POLYGON
  | GGMulti t _ _ _ _ => mtype_code t
  end.
(** tg.c:5155-5158 tg_geom_typeof *)
Definition tg_geom_typeof (g : option geom) : Z :=
  match g with None => 0 | Some g => head_type g end.
(** tg.c:5164-5166, 5172-5174 *)
Definition tg_geom_is_feature (g : option geom) : bool :=
  match g with None => false | Some g => is_feature (geom_flags g) end.
(** tg.c:5172-5174 tg_geom_is_featurecollection *)
Definition tg_geom_is_featurecollection (g : option geom) : bool :=
  match g with None => false | Some g => is_feature_col (geom_flags g) end.
(** tg.c:7837-7840 tg_geom_error: a message, or NULL ([None]).  Simplification:
    for the bases that have no error member (reading it there would read outside
    the object) the answer is NULL; such objects never carry IS_ERROR. *)
Definition tg_geom_error (g : option geom) : option (list Z) :=
  match g with
  | None => Some (str "no memory")
  | Some (GGPoint f _ _ _ x) | Some (GGLine f _ _ x)
  | Some (GGPoly f _ _ x) | Some (GGMulti _ f _ _ x) =>
      if is_error f then x else None
  | _ => None
  end.

(** tg.c:3833-3839 tg_poly_exterior *)
Definition tg_poly_exterior (p : option poly) : option ring :=
  match p with
  | None => None
  | Some (PRing r) => Some r
  | Some (PPoly e _) => Some e
  end.
(** tg.c:3846-3849 tg_poly_num_holes *)
Definition tg_poly_num_holes (p : option poly) : Z :=
  match p with
  | Some (PPoly _ hs) => Z.of_nat (length hs)
  | _ => 0
  end.
(** tg.c:3857-3861 tg_poly_hole_at; the outer [None] would be a read outside *)
Definition tg_poly_hole_at (p : option poly) (i : Z) : option (option ring) :=
  match p with
  | Some (PPoly _ hs) =>
      if (i <? 0) || (Z.of_nat (length hs) <=? i) then Some None
      else nth_error hs (Z.to_nat i)
  | _ => Some None
  end.
(** tg.c:3880-3882 tg_poly_rect *)
Definition tg_poly_rect (p : option poly) : rect := tg_ring_rect (tg_poly_exterior p).

(** tg.c:3754-3788 tg_poly_new.  [holes] is the caller's array; [None] = a read
    outside it; [Some None] = NULL.  A negative count builds a polygon without
    holes.  Simplification: allocation succeeds. *)
Definition tg_poly_new (exterior : option ring) (holes : list (option ring)) (nholes : Z)
  : option (option poly) :=
  match exterior with
  | None => Some None
  | Some e =>
      if nholes =? 0 then Some (Some (PRing e))
      else if 0 <? nholes then
        if Z.of_nat (length holes) <? nholes then None
        else Some (Some (PPoly e (firstn (Z.to_nat nholes) holes)))
      else Some (Some (PPoly e []))
  end.

(** tg.c:5201-5217 tg_geom_rect, 5176-5195 geom_rect, with the rectangle of a
    multi from 4596-4606 multi_geom_inflate_rect *)
Fixpoint rect_of_geom (g : geom) : rect :=
  match g with
  | GPoint _ p | GGPoint _ p _ _ _ => tg_point_rect p
  | GLine _ l => r_rect l
  | GPoly _ p => tg_poly_rect (Some p)
  | GGLine _ l _ _ => tg_ring_rect l
  | GGPoly _ p _ _ => tg_poly_rect p
  | GGMulti _ _ None _ _ => rect0
  | GGMulti _ _ (Some gs) _ _ =>
      match map (fun o => match o with Some g => rect_of_geom g | None => rect0 end) gs with
      | [] => rect0
      | r :: rs => fold_left tg_rect_expand rs r
      end
  end.
(** tg.c:5201-5217 tg_geom_rect *)
Definition tg_geom_rect (g : option geom) : rect :=
  match g with None => rect0 | Some g => rect_of_geom g end.

(** tg.c:5226-5239 tg_geom_point *)
Definition tg_geom_point (g : option geom) : pt :=
  match g with
  | None => pt0
  | Some (GPoint _ p) => p
  | Some (GGPoint _ p _ _ _) => p
  | Some g =>
      let r := rect_of_geom g in
      Pt (fdiv (fadd (px (rmin r)) (px (rmax r))) f_two)
         (fdiv (fadd (py (rmin r)) (py (rmax r))) f_two)
  end.

(** tg.c:5308-5315 tg_geom_line *)
Definition tg_geom_line (g : option geom) : option ring :=
  match g with
  | Some (GLine _ l) => Some l
  | Some (GGLine _ l _ _) => l
  | _ => None
  end.
(** tg.c:5323-5331 tg_geom_poly *)
Definition tg_geom_poly (g : option geom) : option poly :=
  match g with
  | Some (GPoly _ p) => Some p
  | Some (GGPoly _ p _ _) => p
  | _ => None
  end.

(** the children (tg.c:679-686) of a multi geometry of the given type; multi NULL = none *)
Definition multi_geoms (t : mtype) (g : option geom) : option (list (option geom)) :=
  match g, t with
  | Some (GGMulti MPoints _ gs _ _), MPoints => gs
  | Some (GGMulti MLines _ gs _ _), MLines => gs
  | Some (GGMulti MPolys _ gs _ _), MPolys => gs
  | Some (GGMulti MGeoms _ gs _ _), MGeoms => gs
  | _, _ => None
  end.
(** number of children, 0 when there are none, as in tg.c:5343-5347 *)
Definition num_of (gs : option (list (option geom))) : Z :=
  match gs with Some l => Z.of_nat (length l) | None => 0 end.
(** tg.c:5339-5348 tg_geom_num_points; 5355-5364 tg_geom_num_lines;
    5371-5380 tg_geom_num_polys; 5390-5399 tg_geom_num_geometries *)
Definition tg_geom_num_points (g : option geom) : Z := num_of (multi_geoms MPoints g).
(** tg.c:5355-5363 tg_geom_num_lines *)
Definition tg_geom_num_lines (g : option geom) : Z := num_of (multi_geoms MLines g).
(** tg.c:5371-5379 tg_geom_num_polys *)
Definition tg_geom_num_polys (g : option geom) : Z := num_of (multi_geoms MPolys g).
(** tg.c:5390-5398 tg_geom_num_geometries *)
Definition tg_geom_num_geometries (g : option geom) : Z := num_of (multi_geoms MGeoms g).

(** the array read geoms[index] under "index >= 0 && index <= ngeoms", as in
    tg.c:5409-5413, 5426-5430, 5443-5447, 5464-5468.  Outer [None] = a read
    outside the array; [Some None] = the test failed. *)
Definition child_at (gs : option (list (option geom))) (i : Z) : option (option (option geom)) :=
  match gs with
  | None => Some None
  | Some l =>
      if (0 <=? i) && (i <=? Z.of_nat (length l))
      then match nth_error l (Z.to_nat i) with Some c => Some (Some c) | None => None end
      else Some None
  end.
(** tg.c:5407-5416 tg_geom_point_at; reading ->point of NULL is [None] *)
Definition tg_geom_point_at (g : option geom) (i : Z) : option pt :=
  match child_at (multi_geoms MPoints g) i with
  | None => None
  | Some None => Some pt0
  | Some (Some (Some (GPoint _ p))) | Some (Some (Some (GGPoint _ p _ _ _))) => Some p
  | Some (Some _) => None
  end.
(** tg.c:5424-5433 tg_geom_line_at; a child that is not a line cannot occur *)
Definition tg_geom_line_at (g : option geom) (i : Z) : option (option ring) :=
  match child_at (multi_geoms MLines g) i with
  | None => None
  | Some None => Some None
  | Some (Some c) => Some (tg_geom_line c)
  end.
(** tg.c:5441-5450 tg_geom_poly_at *)
Definition tg_geom_poly_at (g : option geom) (i : Z) : option (option poly) :=
  match child_at (multi_geoms MPolys g) i with
  | None => None
  | Some None => Some None
  | Some (Some c) => Some (tg_geom_poly c)
  end.
(** tg.c:5461-5471 tg_geom_geometry_at *)
Definition tg_geom_geometry_at (g : option geom) (i : Z) : option (option geom) :=
  match child_at (multi_geoms MGeoms g) i with
  | None => None
  | Some None => Some None
  | Some (Some c) => Some c
  end.

(** tg.c:6560-6565 tg_geom_extra_coords, 6571-6576 tg_geom_num_extra_coords *)
Definition tg_geom_extra_coords (g : option geom) : list f64 :=
  match g with
  | Some (GGLine _ _ c _) | Some (GGPoly _ _ c _) | Some (GGMulti _ _ _ c _) => c
  | _ => []
  end.
(** tg.c:6584-6590 tg_geom_dims *)
Definition dims_of (f : flags) : Z :=
  2 + (if has_z f then 1 else 0) + (if has_m f then 1 else 0).
(** tg.c:6584-6590 tg_geom_dims *)
Definition tg_geom_dims (g : option geom) : Z :=
  match g with None => 0 | Some g => dims_of (geom_flags g) end.
(** tg.c:6595-6597 tg_geom_has_z *)
Definition tg_geom_has_z (g : option geom) : bool :=
  match g with None => false | Some g => has_z (geom_flags g) end.
(** tg.c:6602-6604 tg_geom_has_m *)
Definition tg_geom_has_m (g : option geom) : bool :=
  match g with None => false | Some g => has_m (geom_flags g) end.
(** tg.c:6610-6615 tg_geom_z *)
Definition tg_geom_z (g : option geom) : f64 :=
  match g with Some (GGPoint _ _ z _ _) => z | _ => f_zero end.
(** tg.c:6621-6626 tg_geom_m *)
Definition tg_geom_m (g : option geom) : f64 :=
  match g with Some (GGPoint _ _ _ m _) => m | _ => f_zero end.

(** tg.c:5910-5953 base_geom_deep_empty, tg_geom_is_empty *)
Definition line_is_empty (l : option ring) : bool :=
  match l with None => true | Some l => tg_ring_empty l end.
(** tg.c:5910-5945 base_geom_deep_empty and tg_geom_is_empty, together by recursion *)
Fixpoint geom_is_empty (g : geom) : bool :=
  if is_empty (geom_flags g) then true
  else match g with
  | GPoint _ _ | GGPoint _ _ _ _ _ => false
  | GLine _ l => tg_ring_empty l
  | GPoly _ p => line_is_empty (tg_poly_exterior (Some p))
  | GGLine _ l _ _ => line_is_empty l
  | GGPoly _ p _ _ => line_is_empty (tg_poly_exterior p)
  | GGMulti _ _ None _ _ => true
  | GGMulti _ _ (Some gs) _ _ =>
      forallb (fun o => match o with Some g => geom_is_empty g | None => true end) gs
  end.
(** tg.c:5937-5954 tg_geom_is_empty *)
Definition tg_geom_is_empty (g : option geom) : bool :=
  match g with None => true | Some g => geom_is_empty g end.

(** ** Constructors.  Simplification: allocation succeeds. *)

(** tg.c:4309-4319 tg_geom_new_point *)
Definition tg_geom_new_point (p : pt) : geom := GPoint fl0 p.
(** tg.c:4332-4339 tg_geom_new_point_z *)
Definition tg_geom_new_point_z (p : pt) (z : f64) : geom := GGPoint (fl_zm true false) p z f_zero None.
(** tg.c:4347-4354 tg_geom_new_point_m *)
Definition tg_geom_new_point_m (p : pt) (m : f64) : geom := GGPoint (fl_zm false true) p f_zero m None.
(** tg.c:4363-4372 tg_geom_new_point_zm *)
Definition tg_geom_new_point_zm (p : pt) (z m : f64) : geom := GGPoint (fl_zm true true) p z m None.
(** tg.c:4378, 4397, 4416, 4683, 4710, 4737, 4764: the empty geometries *)
Definition tg_geom_new_point_empty : geom := GGPoint fl_empty pt0 f_zero f_zero None.
(** tg.c:4397-4399 tg_geom_new_linestring_empty *)
Definition tg_geom_new_linestring_empty : geom := GGLine fl_empty None [] None.
(** tg.c:4416-4418 tg_geom_new_polygon_empty *)
Definition tg_geom_new_polygon_empty : geom := GGPoly fl_empty None [] None.
(** tg.c:4683-4685, 4710-4712, 4737-4739, 4764-4766 the empty multi geometries *)
Definition tg_geom_new_multi_empty (t : mtype) : geom := GGMulti t fl_empty None [] None.
(** tg.c:4388-4390 tg_geom_new_linestring, 4407-4409 tg_geom_new_polygon: a
    clone of the line or polygon itself, NULL for NULL *)
Definition tg_geom_new_linestring (l : ring) : geom := GLine fl0 l.
(** tg.c:4407-4409 tg_geom_new_polygon *)
Definition tg_geom_new_polygon (p : poly) : geom := GPoly fl0 p.
(** tg.c:4768-4787 fill_extra_coords; 4797-4899 tg_geom_new_linestring_z, _m,
    _zm and tg_geom_new_polygon_z, _m, _zm *)
Definition tg_geom_new_linestring_x (z m : bool) (l : ring) (coords : list f64) : geom :=
  GGLine (fl_zm z m) (Some l) coords None.
(** tg.c:4851-4899 tg_geom_new_polygon_z, _m, _zm *)
Definition tg_geom_new_polygon_x (z m : bool) (p : poly) (coords : list f64) : geom :=
  GGPoly (fl_zm z m) (Some p) coords None.
(** tg.c:4663-4677 tg_geom_new_multipoint, with 4420-4456 geom_new_multi *)
Definition tg_geom_new_multipoint (ps : list pt) : geom :=
  GGMulti MPoints fl0 (Some (map (fun p => Some (tg_geom_new_point p)) ps)) [] None.
(** tg.c:4694-4704 tg_geom_new_multilinestring; the clone of NULL is NULL *)
Definition tg_geom_new_multilinestring (ls : list (option ring)) : geom :=
  GGMulti MLines fl0 (Some (map (option_map tg_geom_new_linestring) ls)) [] None.
(** tg.c:4721-4731 tg_geom_new_multipolygon *)
Definition tg_geom_new_multipolygon (ps : list (option poly)) : geom :=
  GGMulti MPolys fl0 (Some (map (option_map tg_geom_new_polygon) ps)) [] None.
(** tg.c:4748-4758 tg_geom_new_geometrycollection *)
Definition tg_geom_new_geometrycollection (gs : list (option geom)) : geom :=
  GGMulti MGeoms fl0 (Some gs) [] None.
(** tg.c:4768-4787 fill_extra_coords on a multi; 4906-5062 the _z, _m, _zm
    variants of the multi constructors *)
Definition fill_multi_coords (z m : bool) (coords : list f64) (g : geom) : geom :=
  match g with
  | GGMulti t _ gs _ x => GGMulti t (fl_zm z m) gs coords x
  | g => g
  end.

(** tg.c:7769-7792 make_parse_error; the message as bytes *)
Definition make_parse_error (msg : list Z) : geom := GGPoint fl_err pt0 f_zero f_zero (Some msg).

(** ** Iteration *)

(** tg.c:5473-5509 geom_foreach, tg_geom_foreach.  The callback is any function
    of the visited child and its state that also says whether to go on; the
    result is the final state and whether the iteration ran to its end. *)
Fixpoint foreach_loop {S : Type} (iter : S -> option geom -> S * bool) (s : S)
  (gs : list (option geom)) : S * bool :=
  match gs with
  | [] => (s, true)
  | c :: rest =>
      let (s', go) := iter s c in
      if go then foreach_loop iter s' rest else (s', false)
  end.
(** tg.c:5504-5509 tg_geom_foreach *)
Definition tg_geom_foreach {S : Type} (iter : S -> option geom -> S * bool) (s : S)
  (g : option geom) : S * bool :=
  match g with
  | None => (s, true)
  | Some (GGMulti _ _ None _ _) => (s, true)
  | Some (GGMulti _ _ (Some gs) _ _) => foreach_loop iter s gs
  | Some g => iter s (Some g)
  end.
