(** * WKB writer of tg.c *)

From Coq Require Import ZArith Bool List.
From Verif Require Import F64 Geo Series RingApi Bytes Geom Writer.
Import ListNotations.
Local Open Scope Z_scope.

(** tg.c:13957-13970 write_wkb_type *)
Definition wkb_type_code (type : Z) (f : flags) : Z :=
  if has_z f then (if has_m f then type + 3000 else type + 1000)
  else if has_m f then type + 2000 else type.
(** tg.c:13957-13970 write_wkb_type *)
Definition write_wkb_type (type : Z) (f : flags) : W :=
  write_byte 1 ;; write_uint32le (wkb_type_code type f).

(** tg.c:13972-13982 write_posn_wkb, 13984-13996 write_posn_wkb_3, 13998-14012
    write_posn_wkb_4, for a list of 2, 3 or 4 doubles.  One memcpy when there is
    room with a byte to spare, else byte by byte.  Little-endian host: the bytes
    of the doubles in memory are the bytes written. *)
Definition write_posn (ds : list f64) : W := fun w =>
  if (w_count w + 8 * length ds <? w_n w)%nat
  then write_memcpy (concat (map (le_bytes 8) ds)) w
  else wloop (map write_doublele ds) w.

(** ring->points[0..npoints), tg.c:2195 (the extra closing point is not written) *)
Definition ring_points (r : ring) : list pt := firstn (r_npoints r) (r_points r).

(** int multiplication ring->npoints*k, undefined on overflow, e.g. tg.c:14016 *)
Definition imul_ok (n : nat) (k : Z) : bool := Z.of_nat n * k <? 2147483648.

(** tg.c:14014-14033 write_ring_points_wkb *)
Definition write_ring_points_wkb (r : ring) : W :=
  write_uint32le (Z.of_nat (r_npoints r)) ;;
  (if imul_ok (r_npoints r) 16 then fun w =>
     let needed := (r_npoints r * 16)%nat in
     if (w_count w + needed <=? w_n w)%nat then
       write_memcpy (concat (map (fun p => le_bytes 8 (px p) ++ le_bytes 8 (py p))
                                 (ring_points r))) w
     else if (w_n w <=? w_count w)%nat then write_skip needed w
     else wloop (map (fun p => write_posn [px p; py p]) (ring_points r)) w
   else wundef).

(** tg.c:14046, 14064-14065: the next extra coordinate, or 0 when none is left;
    one ([k] = 1) or two ([k] = 2) per point *)
Fixpoint with_extra (k : nat) (ps : list pt) (coords : list f64) : list (list f64) :=
  match ps with
  | [] => []
  | p :: rest =>
      (px p :: py p :: map (fun i => nth i coords f_zero) (seq 0 k))
        :: with_extra k rest (skipn k coords)
  end.

(** tg.c:14035-14051 write_ring_points_wkb_3, 14053-14070 _4 ([k] = 1 or 2) *)
Definition write_ring_points_wkb_x (k : nat) (r : ring) (coords : list f64) : W :=
  write_uint32le (Z.of_nat (r_npoints r)) ;;
  (if imul_ok (r_npoints r) (16 + 8 * Z.of_nat k) then fun w =>
     let needed := (r_npoints r * (16 + 8 * k))%nat in
     if (w_n w <=? w_count w)%nat then write_skip needed w
     else wloop (map write_posn (with_extra k (ring_points r) coords)) w
   else wundef).

(** tg.c:14014-14070, the 2, 3 and 4 dimensional variants together; reading a NULL ring is undefined *)
Definition write_ring_points (k : nat) (r : option ring) (coords : list f64) : W :=
  match r with
  | None => wundef
  | Some r =>
      match k with
      | O => write_ring_points_wkb r
      | _ => write_ring_points_wkb_x k r coords
      end
  end.

(** the rings of a polygon, exterior first; tg_poly_num_holes and
    tg_poly_hole_at applied as in tg.c:14076-14081 *)
Definition poly_rings (p : option poly) : list (option ring) :=
  match p with
  | None => [None]
  | Some (PRing r) => [Some r]
  | Some (PPoly e hs) => Some e :: hs
  end.

(** number of extra coordinates used up by a ring, tg.c:14096, 14120 *)
Definition ring_extra (k : nat) (r : option ring) : nat :=
  match r with Some r => (k * r_npoints r)%nat | None => 0%nat end.

(** the rings one after the other, tg.c:14094-14106 and 14118-14130; the
    remaining coordinates are what ncoords and pcoords delimit *)
Fixpoint write_rings (k : nat) (rs : list (option ring)) (coords : list f64) : W :=
  match rs with
  | [] => wskip
  | r :: rest =>
      write_ring_points k r coords ;;
      write_rings k rest (skipn (ring_extra k r) coords)
  end.

(** tg.c:14072-14083 write_poly_points_wkb, 14085-14107 _3, 14109-14131 _4 *)
Definition write_poly_points (k : nat) (p : option poly) (coords : list f64) : W :=
  write_uint32le (1 + tg_poly_num_holes p) ;;
  write_rings k (poly_rings p) coords.

(** number of extra coordinates used by a polygon: the value returned by
    write_poly_points_wkb_3/_4 (tg.c:14106, 14130) times k *)
Definition poly_extra (k : nat) (p : option poly) : nat :=
  fold_right (fun r acc => (ring_extra k r + acc)%nat) 0%nat (poly_rings p).

(** number of coordinates beyond x and y, from tg_geom_dims (tg.c:14185) *)
Definition xdims (f : flags) : nat := Z.to_nat (dims_of f - 2).
(** the flags kept for the children of a multi, tg.c:14239 *)
Definition child_flags (f : flags) : flags := fl_zm (has_z f) (has_m f).

(** C NAN, as the compiler emits it (tg.c:14161) *)
Definition f_nan_bits : f64 := 9221120237041090560.

(** tg.c:14133-14136 write_point_wkb, 14157-14175 write_geom_point_wkb *)
Definition write_geom_point_wkb (f : flags) (p : pt) (z m : f64) : W :=
  write_wkb_type TG_POINT f ;;
  (if is_empty f then write_posn [f_nan_bits; f_nan_bits]
   else write_posn (px p :: py p :: (if has_z f then [z] else []) ++
                                    (if has_m f then [m] else []))).

(** tg.c:14177-14198 write_geom_linestring_wkb *)
Definition write_geom_linestring_wkb (f : flags) (l : option ring) (coords : list f64) : W :=
  write_wkb_type TG_LINESTRING f ;;
  (if is_empty f then write_uint32le 0
   else write_ring_points (xdims f) l coords).

(** tg.c:14200-14221 write_geom_polygon_wkb *)
Definition write_geom_polygon_wkb (f : flags) (p : option poly) (coords : list f64) : W :=
  write_wkb_type TG_POLYGON f ;;
  (if is_empty f then write_uint32le 0
   else write_poly_points (xdims f) p coords).

(** tg.c:14241-14258, the loop of write_geom_multipoint_wkb *)
Definition write_points (f : flags) (gs : list (option geom)) (coords : list f64) : W :=
  wloop (map (fun ds => write_wkb_type TG_POINT (child_flags f) ;; write_posn ds)
             (with_extra (xdims f) (map tg_geom_point gs) coords)).

(** tg.c:14278-14299, the loop of write_geom_multilinestring_wkb *)
Fixpoint write_lines (f : flags) (gs : list (option geom)) (coords : list f64) : W :=
  match gs with
  | [] => wskip
  | g :: rest =>
      write_wkb_type TG_LINESTRING (child_flags f) ;;
      write_ring_points (xdims f) (tg_geom_line g) coords ;;
      write_lines f rest (skipn (ring_extra (xdims f) (tg_geom_line g)) coords)
  end.

(** tg.c:14318-14339, the loop of write_geom_multipolygon_wkb *)
Fixpoint write_polys (f : flags) (gs : list (option geom)) (coords : list f64) : W :=
  match gs with
  | [] => wskip
  | g :: rest =>
      write_wkb_type TG_POLYGON (child_flags f) ;;
      write_poly_points (xdims f) (tg_geom_poly g) coords ;;
      write_polys f rest (skipn (poly_extra (xdims f) (tg_geom_poly g)) coords)
  end.

(** tg.c:14223-14259 write_geom_multipoint_wkb, 14261-14300
    write_geom_multilinestring_wkb, 14302-14340 write_geom_multipolygon_wkb,
    14344-14356 write_geom_geometrycollection_wkb, 14358-14382
    write_base_geom_wkb, 14384-14402 write_geom_wkb, 14138-14155 write_line_wkb,
    write_ring_wkb, write_poly_wkb.  A NULL child of a collection is undefined
    (geom->head is read). *)
Fixpoint write_geom_wkb (g : geom) : W :=
  match g with
  | GPoint f p => write_wkb_type TG_POINT f ;; write_posn [px p; py p]
  | GLine f l => write_wkb_type TG_LINESTRING f ;; write_ring_points_wkb l
  | GPoly f p => write_wkb_type TG_POLYGON f ;; write_poly_points 0 (Some p) []
  | GGPoint f p z m _ => write_geom_point_wkb f p z m
  | GGLine f l coords _ => write_geom_linestring_wkb f l coords
  | GGPoly f p coords _ => write_geom_polygon_wkb f p coords
  | GGMulti t f gs coords _ =>
      write_wkb_type (mtype_code t) f ;;
      match gs with
      | Some l =>
          if is_empty f then write_uint32le 0
          else
            write_uint32le (Z.of_nat (length l)) ;;
            match t with
            | MPoints => write_points f l coords
            | MLines => write_lines f l coords
            | MPolys => write_polys f l coords
            | MGeoms =>
                wloop (map (fun o => match o with
                                     | Some g => write_geom_wkb g
                                     | None => wundef
                                     end) l)
            end
      | None => write_uint32le 0
      end
  end.

(** tg.c:14428-14433 tg_geom_wkb: the count returned and the buffer afterwards *)
Definition tg_geom_wkb (g : option geom) (dst : list Z) : option (nat * list Z) :=
  match g with
  | None => Some (0%nat, dst)
  | Some g =>
      match write_geom_wkb g (Wr dst 0) with
      | Some w => Some (w_count w, w_dst w)
      | None => None
      end
  end.
