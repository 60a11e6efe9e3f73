(** * WKT writer of tg.c *)

From Coq Require Import ZArith Bool String List.
From Verif Require Import F64 Geo Series RingApi Bytes Geom Writer WkbWrite Num.
Import ListNotations.
Local Open Scope Z_scope.

Section writer.
(** the global print_fixed_floats, tg.c:8790 *)
Variable fixed : bool.

(** items with [sep] between them: "if (i > 0) write_char(wr, ',')" in e.g.
    tg.c:12842 *)
Fixpoint wsep (sep : W) (l : list W) : W :=
  match l with
  | [] => wskip
  | [f] => f
  | f :: r => f ;; sep ;; wsep sep r
  end.
(** write_char(wr, ','), tg.c:12842 *)
Definition wcomma : W := write_byte 44.
(** write_char(wr, '(') ... write_char(wr, ')'), e.g. tg.c:12901-12903 *)
Definition wparen (f : W) : W := write_byte 40 ;; f ;; write_byte 41.

(** tg.c:12803-12807 write_posn_wkt, 12809-12817 write_posn_wkt_3, 12819-12829
    write_posn_wkt_4, for a list of 2, 3 or 4 doubles *)
Definition write_posn_wkt (ds : list f64) : W :=
  wsep (write_byte 32) (map (write_string_double fixed) ds).

(** tg.c:12839-12846 write_ring_points_wkt, 12849-12860
    write_ring_points_wkt_3, 12862-12874 write_ring_points_wkt_4 ([k] = 0, 1 or 2);
    reading a NULL ring is undefined *)
Definition write_ring_points_wkt (k : nat) (r : option ring) (coords : list f64) : W :=
  match r with
  | None => wundef
  | Some r => wsep wcomma (map write_posn_wkt (with_extra k (ring_points r) coords))
  end.

(** the rings one after the other, in parentheses, tg.c:12894-12903, 12914-12932, 12942-12960 *)
Fixpoint wkt_rings (k : nat) (rs : list (option ring)) (coords : list f64) : list W :=
  match rs with
  | [] => []
  | r :: rest =>
      wparen (write_ring_points_wkt k r coords)
        :: wkt_rings k rest (skipn (ring_extra k r) coords)
  end.
(** tg.c:12890-12906 write_poly_points_wkt, 12908-12934 write_poly_points_wkt_3,
    12936-12962 write_poly_points_wkt_4 *)
Definition write_poly_points_wkt (k : nat) (p : option poly) (coords : list f64) : W :=
  wsep wcomma (wkt_rings k (poly_rings p) coords).

(** tg.c:12970-12976 write_zm_def_wkt *)
Definition write_zm_def_wkt (f : flags) : W :=
  if has_m f && negb (has_z f) then write_string (str " M") else wskip.

(** tg.c:12978-13000 write_geom_point_wkt *)
Definition write_geom_point_wkt (f : flags) (p : pt) (z m : f64) : W :=
  write_string (str "POINT") ;; write_zm_def_wkt f ;;
  (if is_empty f then write_string (str " EMPTY")
   else wparen (write_posn_wkt (px p :: py p :: (if has_z f then [z] else []) ++
                                               (if has_m f then [m] else [])))).

(** tg.c:13002-13026 write_geom_linestring_wkt *)
Definition write_geom_linestring_wkt (f : flags) (l : option ring) (coords : list f64) : W :=
  write_string (str "LINESTRING") ;; write_zm_def_wkt f ;;
  (if is_empty f then write_string (str " EMPTY")
   else wparen (write_ring_points_wkt (xdims f) l coords)).

(** tg.c:13028-13052 write_geom_polygon_wkt *)
Definition write_geom_polygon_wkt (f : flags) (p : option poly) (coords : list f64) : W :=
  write_string (str "POLYGON") ;; write_zm_def_wkt f ;;
  (if is_empty f then write_string (str " EMPTY")
   else wparen (write_poly_points_wkt (xdims f) p coords)).

(** tg.c:13070-13088 the loop of write_geom_multipoint_wkt *)
Definition wkt_points (k : nat) (gs : list (option geom)) (coords : list f64) : list W :=
  map write_posn_wkt (with_extra k (map tg_geom_point gs) coords).
(** tg.c:13107-13131 the loop of write_geom_multilinestring_wkt *)
Fixpoint wkt_lines (k : nat) (gs : list (option geom)) (coords : list f64) : list W :=
  match gs with
  | [] => []
  | g :: rest =>
      wparen (write_ring_points_wkt k (tg_geom_line g) coords)
        :: wkt_lines k rest (skipn (ring_extra k (tg_geom_line g)) coords)
  end.
(** tg.c:13150-13173 the loop of write_geom_multipolygon_wkt *)
Fixpoint wkt_polys (k : nat) (gs : list (option geom)) (coords : list f64) : list W :=
  match gs with
  | [] => []
  | g :: rest =>
      wparen (write_poly_points_wkt k (tg_geom_poly g) coords)
        :: wkt_polys k rest (skipn (poly_extra k (tg_geom_poly g)) coords)
  end.

(** the type names in tg.c:13057, 13095, 13138, 13182 *)
Definition wkt_multi_name (t : mtype) : list Z :=
  match t with
  | MPoints => str "MULTIPOINT"
  | MLines => str "MULTILINESTRING"
  | MPolys => str "MULTIPOLYGON"
  | MGeoms => str "GEOMETRYCOLLECTION"
  end.

(** tg.c:13054-13090 write_geom_multipoint_wkt, 13092-13133
    write_geom_multilinestring_wkt, 13135-13175 write_geom_multipolygon_wkt,
    13179-13197 write_geom_geometrycollection_wkt, 13199-13223
    write_base_geom_wkt, 13225-13243 write_geom_wkt, 12831-12837
    write_point_wkt, 12876-12881 write_line_wkt, 12883-12887 write_ring_wkt,
    12964-12968 write_poly_wkt.  A NULL child of a collection is undefined
    (geom->head is read). *)
Fixpoint write_geom_wkt (g : geom) : W :=
  match g with
  | GPoint _ p => write_string (str "POINT") ;; wparen (write_posn_wkt [px p; py p])
  | GLine _ l =>
      write_string (str "LINESTRING") ;; wparen (write_ring_points_wkt 0 (Some l) [])
  | GPoly _ p =>
      write_string (str "POLYGON") ;; wparen (write_poly_points_wkt 0 (Some p) [])
  | GGPoint f p z m _ => write_geom_point_wkt f p z m
  | GGLine f l coords _ => write_geom_linestring_wkt f l coords
  | GGPoly f p coords _ => write_geom_polygon_wkt f p coords
  | GGMulti t f gs coords _ =>
      write_string (wkt_multi_name t) ;; write_zm_def_wkt f ;;
      match gs with
      | Some ((_ :: _) as l) =>
          if is_empty f then write_string (str " EMPTY")
          else
            wparen (wsep wcomma
              (match t with
               | MPoints => wkt_points (xdims f) l coords
               | MLines => wkt_lines (xdims f) l coords
               | MPolys => wkt_polys (xdims f) l coords
               | MGeoms => map (fun o => match o with
                                         | Some g => write_geom_wkt g
                                         | None => wundef
                                         end) l
               end))
      | _ => write_string (str " EMPTY")
      end
  end.

(** tg.c:13271-13277 tg_geom_wkt: the count returned and the buffer afterwards *)
Definition tg_geom_wkt (g : option geom) (dst : list Z) : option (nat * list Z) :=
  match g with
  | None => Some (0%nat, dst)
  | Some g =>
      match (write_geom_wkt g ;; write_nullterm) (Wr dst 0) with
      | Some w => Some (w_count w, w_dst w)
      | None => None
      end
  end.
End writer.
