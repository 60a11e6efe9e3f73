(** * Writing GeoJSON *)

From Coq Require Import ZArith Bool String List.
From Verif Require Import F64 Geo Series RingApi Bytes Geom Writer WkbWrite Num WktWrite
  Json JsonTok GeojsonParse.
Import ListNotations.
Local Open Scope Z_scope.

(** A string literal of tg.c with each escaped quote written as an apostrophe,
    e.g. tg.c:11485 *)
Definition qstr (s : string) : list Z := map (fun c => if c =? 39 then 34 else c) (str s).

(** tg.c:7241-7251 json_parse of a text without NUL *)
Definition json_parse (s : list Z) : json := json_parsen s.

Section writer.
(** the global print_fixed_floats, tg.c:8790 *)
Variable fixed : bool.

(** write_char(wr, '[') ... write_char(wr, ']'), e.g. tg.c:11375-11380 *)
Definition wbrack (f : W) : W := write_byte 91 ;; f ;; write_byte 93.

(** tg.c:11339-11345 write_posn_geojson, 11347-11357 write_posn_geojson_3,
    11358-11370 write_posn_geojson_4, for a list of 2, 3 or 4 doubles *)
Definition write_posn_geojson (ds : list f64) : W :=
  wbrack (wsep wcomma (map (write_string_double fixed) ds)).

(** tg.c:11372-11382 write_ring_points_geojson, 11384-11397
    write_ring_points_geojson_3, 11399-11413 write_ring_points_geojson_4 ([k] = 0,
    1 or 2); reading a NULL ring is undefined *)
Definition write_ring_points_geojson (k : nat) (r : option ring) (coords : list f64) : W :=
  match r with
  | None => wundef
  | Some r => wbrack (wsep wcomma (map write_posn_geojson (with_extra k (ring_points r) coords)))
  end.

(** the rings one after the other, tg.c:11420-11425, 11436-11451, 11462-11477 *)
Fixpoint geojson_rings (k : nat) (rs : list (option ring)) (coords : list f64) : list W :=
  match rs with
  | [] => []
  | r :: rest =>
      write_ring_points_geojson k r coords
        :: geojson_rings k rest (skipn (ring_extra k r) coords)
  end.
(** tg.c:11415-11428 write_poly_points_geojson, 11430-11454
    write_poly_points_geojson_3, 11456-11480 write_poly_points_geojson_4 *)
Definition write_poly_points_geojson (k : nat) (p : option poly) (coords : list f64) : W :=
  wbrack (wsep wcomma (geojson_rings k (poly_rings p) coords)).

(** tg.c:11482-11502 write_geom_point_geojson *)
Definition write_geom_point_geojson (f : flags) (p : pt) (z m : f64) : W :=
  write_string (qstr "{'type':'Point','coordinates':") ;;
  (if is_empty f then write_string (str "[]")
   else write_posn_geojson (px p :: py p :: (if has_z f then [z] else []) ++
                                            (if has_m f then [m] else []))) ;;
  write_byte 125.

(** tg.c:11504-11526 write_geom_linestring_geojson *)
Definition write_geom_linestring_geojson (f : flags) (l : option ring) (coords : list f64) : W :=
  write_string (qstr "{'type':'LineString','coordinates':") ;;
  (if is_empty f then write_string (str "[]") else write_ring_points_geojson (xdims f) l coords) ;;
  write_byte 125.

(** tg.c:11528-11550 write_geom_polygon_geojson *)
Definition write_geom_polygon_geojson (f : flags) (p : option poly) (coords : list f64) : W :=
  write_string (qstr "{'type':'Polygon','coordinates':") ;;
  (if is_empty f then write_string (str "[]") else write_poly_points_geojson (xdims f) p coords) ;;
  write_byte 125.

(** tg.c:11562-11579 the loop of write_geom_multipoint_geojson *)
Definition geojson_points (k : nat) (gs : list (option geom)) (coords : list f64) : list W :=
  map write_posn_geojson (with_extra k (map tg_geom_point gs) coords).
(** tg.c:11593-11614 the loop of write_geom_multilinestring_geojson *)
Fixpoint geojson_lines (k : nat) (gs : list (option geom)) (coords : list f64) : list W :=
  match gs with
  | [] => []
  | g :: rest =>
      write_ring_points_geojson k (tg_geom_line g) coords
        :: geojson_lines k rest (skipn (ring_extra k (tg_geom_line g)) coords)
  end.
(** tg.c:11628-11648 the loop of write_geom_multipolygon_geojson *)
Fixpoint geojson_polys (k : nat) (gs : list (option geom)) (coords : list f64) : list W :=
  match gs with
  | [] => []
  | g :: rest =>
      write_poly_points_geojson k (tg_geom_poly g) coords
        :: geojson_polys k rest (skipn (poly_extra k (tg_geom_poly g)) coords)
  end.

(** the text before the children of a multi geometry: tg.c:11555, 11588, 11623,
    11659-11663 *)
Definition geojson_multi_head (t : mtype) (f : flags) : list Z :=
  match t with
  | MPoints => qstr "{'type':'MultiPoint','coordinates':["
  | MLines => qstr "{'type':'MultiLineString','coordinates':["
  | MPolys => qstr "{'type':'MultiPolygon','coordinates':["
  | MGeoms => if is_feature_col f then qstr "{'type':'FeatureCollection','features':["
              else qstr "{'type':'GeometryCollection','geometries':["
  end.

(** wr->count--, tg.c:11740; the byte stays in the buffer *)
Definition write_rewind : W := fun w =>
  match w_count w with O => None | S c => Some (Wr (w_dst w) c) end.

(** tg.c:11684-11694, 11703-11707: fjson and gjson *)
Definition extra_tokens (is_feat : bool) (xjson : option (list Z)) : json * json :=
  match xjson with
  | None => (JNone, JNone)
  | Some x =>
      let j := json_parse x in
      if is_feat then
        if json_type j =? JSON_ARRAY then
          let fj := json_ensure (json_first j) in (fj, json_ensure (json_next fj))
        else if json_type j =? JSON_OBJECT then (json_ensure j, JNone)
        else (JNone, JNone)
      else (JNone, json_ensure j)
  end.

(** tg.c:11695-11702 *)
Definition write_feature_head (fjson : json) : W :=
  write_string (qstr "{'type':'Feature',") ;;
  (match json_object_get fjson (str "id") with
   | None => wundef
   | Some id =>
       if json_exists id
       then write_string (qstr "'id':") ;; write_string (raw_text id) ;; write_byte 44
       else wskip
   end) ;;
  write_string (qstr "'geometry':").

(** tg.c:11734-11745 *)
Definition write_geometry_extra (gjson : json) : W :=
  if (json_type gjson =? JSON_OBJECT) && json_exists (json_first gjson)
     && (1 <? json_raw_length gjson - 1)%nat
  then write_rewind ;; write_byte 44 ;; write_string (tl (raw_text gjson))
  else wskip.

(** tg.c:11749-11766, the loop over the members.  [wrote]: wrote_props.  Gives the
    texts written and wrote_props; [None] = out of fuel. *)
Fixpoint feature_members (fuel : nat) (key : json) (wrote : bool) : option (list Z * bool) :=
  match fuel with
  | O => None
  | S fuel =>
      if json_exists key then
        let val := json_next key in
        if json_raw_comparen_eq key (qstr "'id'") then feature_members fuel (json_next val) wrote
        else
          match feature_members fuel (json_next val)
                  (wrote || json_raw_comparen_eq key (qstr "'properties'")) with
          | Some (t, wrote) => Some (44 :: raw_text key ++ 58 :: raw_text val ++ t, wrote)
          | None => None
          end
      else Some ([], wrote)
  end.
(** the properties member and the end, e.g. tg.c:11768-11773 *)
Definition write_properties (f : flags) : W :=
  write_string (qstr ",'properties':") ;;
  write_string (if has_null_props f then str "null" else str "{}").
(** tg.c:11746-11776 *)
Definition write_feature_tail (f : flags) (fjson : json) : W :=
  (if json_type fjson =? JSON_OBJECT then
     match feature_members (S (length (json_raw fjson))) (json_first fjson) false with
     | None => wundef
     | Some (t, wrote) => write_string t ;; (if wrote then wskip else write_properties f)
     end
   else write_properties f) ;;
  write_byte 125.

(** tg.c:11673-11777 write_base_geom_geojson around the geometry itself *)
Definition write_base_geom_geojson (f : flags) (xjson : option (list Z)) (body : W) : W :=
  if is_error f then write_string (qstr "{'type':'Point','coordinates':[]}")
  else
    let (fjson, gjson) := extra_tokens (is_feature f) xjson in
    (if is_feature f then write_feature_head fjson else wskip) ;;
    (if is_feature f && is_unlocated f then write_string (str "null") else body) ;;
    write_geometry_extra gjson ;;
    (if is_feature f then write_feature_tail f fjson else wskip).

(** the feature around a point, line or polygon without more: tg.c:11782-11795,
    11800-11813, 11817-11830, 11834-11847 *)
Definition write_plain_feature (f : flags) (body : W) : W :=
  if is_feature f then
    write_string (qstr "{'type':'Feature','geometry':") ;; body ;;
    write_string (qstr ",'properties':") ;;
    write_string (if has_null_props f then str "null}" else str "{}}")
  else body.

(** tg.c:11850-11868 write_geom_geojson; 11779-11796 write_point_geojson;
    11798-11814 write_line_geojson; 11816-11831 write_ring_geojson; 11833-11848
    write_poly_geojson; 11552-11583 write_geom_multipoint_geojson; 11585-11618
    write_geom_multilinestring_geojson; 11620-11652
    write_geom_multipolygon_geojson; 11656-11671
    write_geom_geometrycollection_geojson.  A NULL child of a collection is
    undefined (geom->head is read). *)
Fixpoint write_geom_geojson (g : geom) : W :=
  match g with
  | GPoint f p =>
      write_plain_feature f
        (write_string (qstr "{'type':'Point','coordinates':") ;;
         write_posn_geojson [px p; py p] ;; write_byte 125)
  | GLine f l =>
      write_plain_feature f
        (write_string (qstr "{'type':'LineString','coordinates':") ;;
         write_ring_points_geojson 0 (Some l) [] ;; write_byte 125)
  | GPoly f p =>
      write_plain_feature f
        (write_string (qstr "{'type':'Polygon','coordinates':") ;;
         write_poly_points_geojson 0 (Some p) [] ;; write_byte 125)
  | GGPoint f p z m x => write_base_geom_geojson f x (write_geom_point_geojson f p z m)
  | GGLine f l coords x => write_base_geom_geojson f x (write_geom_linestring_geojson f l coords)
  | GGPoly f p coords x => write_base_geom_geojson f x (write_geom_polygon_geojson f p coords)
  | GGMulti t f gs coords x =>
      write_base_geom_geojson f x
        (write_string (geojson_multi_head t f) ;;
         (match gs with
          | None => wskip
          | Some l =>
              wsep wcomma
                (match t with
                 | MPoints => geojson_points (xdims f) l coords
                 | MLines => geojson_lines (xdims f) l coords
                 | MPolys => geojson_polys (xdims f) l coords
                 | MGeoms => map (fun o => match o with
                                           | Some g => write_geom_geojson g
                                           | None => wundef
                                           end) l
                 end)
          end) ;;
         write_string (str "]}"))
  end.

(** tg.c:11896-11902 tg_geom_geojson: the count returned and the buffer afterwards *)
Definition tg_geom_geojson (g : option geom) (dst : list Z) : option (nat * list Z) :=
  match g with
  | None => Some (0%nat, dst)
  | Some g =>
      match (write_geom_geojson g ;; write_nullterm) (Wr dst 0) with
      | Some w => Some (w_count w, w_dst w)
      | None => None
      end
  end.
End writer.

(** tg.c:11911-11914 tg_geom_extra_json *)
Definition tg_geom_extra_json (g : option geom) : option (list Z) :=
  match g with
  | Some g => if is_error (geom_flags g) then None else geom_xjson g
  | None => None
  end.
