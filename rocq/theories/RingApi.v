(** * Index options, global settings and ring accessors *)

From Coq Require Import ZArith Bool List.
From Verif Require Import F64 Geo Series.
Import ListNotations.
Local Open Scope Z_scope.

(** tg.h:68-73 enum tg_index values *)
Definition TG_DEFAULT : Z := 0.
(** tg.h:68-73 *)
Definition TG_NONE : Z := 1.
(** tg.h:68-73 *)
Definition TG_NATURAL : Z := 2.
(** tg.h:68-73 *)
Definition TG_YSTRIPES : Z := 3.

(** tg.c:925-926 the two global settings that concern indexing *)
Record env := Env { env_index : Z; env_spread : Z }.
(** tg.c:925-926 the initial settings *)
Definition env_init : env := Env TG_NATURAL 16.

(** tg.c:976-988 tg_env_set_index *)
Definition tg_env_set_index (e : env) (ix : Z) : env :=
  if (ix =? TG_NONE) || (ix =? TG_NATURAL) || (ix =? TG_YSTRIPES)
  then Env ix (env_spread e) else e.

(** tg.c:1013-1018 tg_env_set_index_spread *)
Definition tg_env_set_index_spread (e : env) (spread : Z) : env :=
  if (2 <=? spread) && (spread <=? 4096) then Env (env_index e) spread else e.

(** tg.c:1023-1031 tg_index_with_spread *)
Definition tg_index_with_spread (ix spread : Z) : Z :=
  let spread := if spread =? 0 then spread
                else (if spread <? 2 then 2 else if 4096 <? spread then 4096 else spread) - 1 in
  Z.lor (Z.land ix 15) (Z.shiftl spread 4).

(** tg.c:1033-1046 tg_index_extract_spread: (base kind, spread) *)
Definition tg_index_extract_spread (e : env) (ix : Z) : Z * Z :=
  let s := Z.land (Z.shiftr ix 4) 4095 in
  let s := if 0 <? s then s + 1 else s in
  let s := if s =? 0 then env_spread e else s in
  (Z.land ix 15, s).

(** tg.c:2157-2182 the choice made in series_new: TG_DEFAULT is replaced by the
    global setting; any value without the TG_NONE bit is indexed, so is
    TG_YSTRIPES; y-stripes only for exactly TG_YSTRIPES. *)
Definition resolve_kind (e : env) (base : Z) : ixkind :=
  let base := if base =? TG_DEFAULT then env_index e else base in
  if base =? TG_YSTRIPES then IxYstripes
  else if (base =? TG_NATURAL) || negb (Z.land base TG_NONE =? TG_NONE) then IxNatural
  else IxNone.

(** tg.c:2143-2221 series_new with the index argument still encoded;
    tg.c:2271 tg_ring_new_ix and tg.c:3312 tg_line_new_ix call it *)
Definition series_new_ix (e : env) (ps : list pt) (closed : bool) (ix : Z) : option ring :=
  let (base, spread) := tg_index_extract_spread e ix in
  series_new ps closed (resolve_kind e base) (Z.to_nat spread).

(** tg.c:1605-1607 index_spread; tg.c:6642-6645 tg_ring_index_spread *)
Definition tg_ring_index_spread (r : option ring) : Z :=
  match r with
  | Some r => match r_index r with Some ix => Z.of_nat (ix_spread ix) | None => 0 end
  | None => 0
  end.
(** tg.c:1609-1611 index_num_levels; tg.c:6655-6658 tg_ring_index_num_levels *)
Definition tg_ring_index_num_levels (r : option ring) : Z :=
  match r with
  | Some r => match r_index r with Some ix => Z.of_nat (length (ix_levels ix)) | None => 0 end
  | None => 0
  end.
(** tg.c:1613-1617 index_level_num_rects; tg.c:6669-6672 *)
Definition tg_ring_index_level_num_rects (r : option ring) (levelidx : Z) : Z :=
  match r with
  | Some r =>
      match r_index r with
      | None => 0
      | Some ix =>
          if (levelidx <? 0) || (Z.of_nat (length (ix_levels ix)) <=? levelidx) then 0
          else Z.of_nat (length (nth (Z.to_nat levelidx) (ix_levels ix) []))
      end
  | None => 0
  end.
(** tg.c:1619-1633 index_level_rect; tg.c:6685-6690 *)
Definition tg_ring_index_level_rect (r : option ring) (levelidx rectidx : Z) : rect :=
  match r with
  | Some r =>
      match r_index r with
      | None => rect0
      | Some ix =>
          if (levelidx <? 0) || (Z.of_nat (length (ix_levels ix)) <=? levelidx) then rect0
          else
            let level := nth (Z.to_nat levelidx) (ix_levels ix) [] in
            if (rectidx <? 0) || (Z.of_nat (length level) <=? rectidx) then rect0
            else ixrect_to_tg_rect (nth (Z.to_nat rectidx) level rect0)
      end
  | None => rect0
  end.

(** tg.c:2330-2333 tg_ring_num_points *)
Definition tg_ring_num_points (r : option ring) : Z :=
  match r with Some r => Z.of_nat (r_npoints r) | None => 0 end.
(** tg.c:2339-2342 tg_ring_rect *)
Definition tg_ring_rect (r : option ring) : rect :=
  match r with Some r => r_rect r | None => rect0 end.
(** tg.c:2352-2357 tg_ring_point_at; [None] would be a read outside the array *)
Definition tg_ring_point_at (r : option ring) (i : Z) : option pt :=
  match r with
  | None => Some pt0
  | Some r =>
      if (i <? 0) || (Z.of_nat (r_npoints r) <=? i) then Some pt0
      else nth_error (r_points r) (Z.to_nat i)
  end.
(** tg.c:2364-2367 tg_ring_num_segments *)
Definition tg_ring_num_segments (r : option ring) : Z :=
  match r with Some r => Z.of_nat (r_nsegs r) | None => 0 end.
(** tg.c:2386-2391 tg_ring_segment_at; [None] would be a read outside the array *)
Definition tg_ring_segment_at (r : option ring) (i : Z) : option seg :=
  match r with
  | None => Some seg0
  | Some r =>
      if (i <? 0) || (Z.of_nat (r_nsegs r) <=? i) then Some seg0
      else match nth_error (r_points r) (Z.to_nat i), nth_error (r_points r) (Z.to_nat i + 1) with
           | Some a, Some b => Some (Seg a b)
           | _, _ => None
           end
  end.

(** tg.c:2804-2807 tg_ring_convex *)
Definition tg_ring_convex (r : option ring) : bool :=
  match r with Some r => r_convex r | None => false end.
(** tg.c:2814-2817 tg_ring_clockwise *)
Definition tg_ring_clockwise (r : option ring) : bool :=
  match r with Some r => r_clockwise r | None => false end.
(** tg.c:14597-14601 tg_ring_area (tg_ring_empty(NULL) is true, tg.c:3091) *)
Definition tg_ring_area (r : option ring) : f64 :=
  match r with
  | Some r => if tg_ring_empty r then f_zero else r_area r
  | None => f_zero
  end.
