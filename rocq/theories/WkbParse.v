(** * WKB parser of tg.c *)

From Coq Require Import ZArith Bool String List.
From Verif Require Import F64 Geo Series RingApi Bytes Geom.
Import ListNotations.
Local Open Scope Z_scope.

(** The parser's position i in wkb[0..len) is represented by the bytes from i on:
    len-i is the length of that list, and wkb+i its start.  A parsing function
    returns the bytes that remain and the geometry; PARSE_FAIL (tg.c:13322) is
    [None] for the remaining bytes.  Simplifications: allocation succeeds, and
    i+k does not overflow size_t. *)
Definition gres := out (option (list Z) * geom).

(** tg.c:13281-13283, 13318-13320, 13914: the messages *)
Definition msg_child_type : list Z := str "invalid child type".
(** tg.c:13318-13320 wkb_invalid_err *)
Definition msg_invalid : list Z := str "invalid binary".
(** tg.c:13914 *)
Definition msg_type : list Z := str "invalid type".

(** "goto invalid" in the functions that end in return PARSE_FAIL (tg.c:13917-13919) *)
Definition fail_invalid : gres := Ok (None, make_parse_error msg_invalid).

(** tg.c:13303-13308 macro read_uint32 *)
Definition p_uint32 (swap : bool) (bs : list Z) : out (Z * list Z) :=
  if (length bs <? 4)%nat then Err msg_invalid
  else match take_bytes 4 bs with
       | Some (b, rest) => Ok (rd_val swap b, rest)
       | None => Oob
       end.

(** n doubles, tg.c:13312-13315 *)
Fixpoint p_doubles (n : nat) (swap : bool) (bs : list Z) : out (list f64 * list Z) :=
  match n with
  | O => Ok ([], bs)
  | S n' =>
      match take_bytes 8 bs with
      | None => Oob
      | Some (b, rest) =>
          obind (p_doubles n' swap rest) (fun r => Ok (rd_val swap b :: fst r, snd r))
      end
  end.
(** tg.c:13310-13316 macro read_posn *)
Definition p_posn (dims : nat) (swap : bool) (bs : list Z) : out (list f64 * list Z) :=
  if (length bs <? 8 * dims)%nat then Err msg_invalid else p_doubles dims swap bs.

(** tg.c:8097-8122 check_parse_posns; [ring] is base == BASE_RING, the other
    base used is BASE_LINE *)
Definition check_parse_posns (ring : bool) (pts : list pt) : option (list Z) :=
  if ring then
    if (length pts <? 3)%nat then Some (str "rings must have three or more positions")
    else
      let p0 := pt_at pts 0 in
      let p1 := pt_at pts (length pts - 1) in
      if feqb (px p0) (px p1) && feqb (py p0) (py p1) then None
      else Some (str "rings must have matching first and last positions")
  else
    if (length pts <? 2)%nat then Some (str "lines must have two or more positions")
    else None.

(** the point of a position, tg.c:13344-13356 *)
Definition posn_pt (d : list f64) : pt := Pt (nth 0 d f_zero) (nth 1 d f_zero).

(** tg.c:13341-13353, the loop over count positions *)
Fixpoint p_posns (fuel : nat) (dims : nat) (swap : bool) (count : Z) (bs : list Z)
  : out (list (list f64) * list Z) :=
  if count =? 0 then Ok ([], bs)
  else match fuel with
  | O => NoFuel
  | S fuel' =>
      obind (p_posn dims swap bs) (fun r =>
      obind (p_posns fuel' dims swap (count - 1) (snd r)) (fun r' =>
      Ok (fst r :: fst r', snd r')))
  end.

(** what parse_wkb_posns (tg.c:13325-13365) leaves behind: remaining bytes, points, extra coordinates *)
Definition posns_res := (list Z * list pt * list f64)%type.

(** tg.c:13357-13360, the end of parse_wkb_posns *)
Definition posns_check (ring : bool) (bs : list Z) (pts : list pt) (x : list f64)
  : out posns_res :=
  match check_parse_posns ring pts with
  | Some m => Err m
  | None => Ok (bs, pts, x)
  end.

(** tg.c:13335-13339, points taken directly from the input.  count*2*8 is a
    uint32_t product.  npoints is an int and npoints*2 (tg.c:13357) must not
    overflow; a count that converts to a negative int fails the minimum number of
    positions; otherwise the points are read from the input. *)
Definition p_direct (ring : bool) (count : Z) (bs : list Z) : out posns_res :=
  let npoints := if count <? 2147483648 then count else count - 4294967296 in
  if (npoints * 2 <? -2147483648) || (2147483647 <? npoints * 2) then Ub
  else if npoints <? 0 then posns_check ring bs [] []
  else if Z.of_nat (length bs) <? 16 * npoints then Oob
  else
    obind (p_posns (S (length bs)) 2 false npoints bs) (fun r =>
    posns_check ring (skipn (Z.to_nat ((count * 16) mod 4294967296)) bs)
      (map posn_pt (fst r)) []).

(** tg.c:13325-13365 parse_wkb_posns *)
Definition parse_wkb_posns (ring : bool) (dims : nat) (swap : bool) (bs : list Z)
  : out posns_res :=
  obind (p_uint32 swap bs) (fun r =>
  let count := fst r in let bs := snd r in
  if count =? 0 then Ok (bs, [], [])
  else if (dims =? 2)%nat && negb swap &&
          ((count * 16) mod 4294967296 <=? Z.of_nat (length bs))
  then p_direct ring count bs
  else
    obind (p_posns (S (length bs)) dims swap count bs) (fun r =>
    posns_check ring (snd r) (map posn_pt (fst r)) (concat (map (skipn 2) (fst r))))).

(** tg.c:13376-13390, the loop of parse_wkb_multi_posns over count rings *)
Fixpoint p_rings (e : env) (ix : Z) (fuel : nat) (dims : nat) (swap : bool) (count : Z)
  (bs : list Z) : out (list Z * list ring * list f64) :=
  if count =? 0 then Ok (bs, [], [])
  else match fuel with
  | O => NoFuel
  | S fuel' =>
      obind (parse_wkb_posns true dims swap bs) (fun r =>
      let '(bs, pts, x) := r in
      match series_new_ix e pts true ix with
      | None => Ub
      | Some ring =>
          obind (p_rings e ix fuel' dims swap (count - 1) bs) (fun r =>
          let '(bs, rs, xs) := r in Ok (bs, ring :: rs, x ++ xs))
      end)
  end.

(** tg.c:13367-13401 parse_wkb_multi_posns; no polygon when there is no ring *)
Definition parse_wkb_multi_posns (e : env) (ix : Z) (dims : nat) (swap : bool) (bs : list Z)
  : out (list Z * option poly * list f64) :=
  obind (p_uint32 swap bs) (fun r =>
  let count := fst r in let bs := snd r in
  if count =? 0 then Ok (bs, None, [])
  else
    obind (p_rings e ix (S (length bs)) dims swap count bs) (fun r =>
    let '(bs, rs, x) := r in
    match rs with
    | [] => Ok (bs, None, x)
    | r0 :: holes =>
        match tg_poly_new (Some r0) (map Some holes) (Z.of_nat (length holes)) with
        | Some p => Ok (bs, p, x)
        | None => Oob
        end
    end)).

(** z and m to the number of dimensions, e.g. tg.c:13408 *)
Definition zm_dims (z m : bool) : nat := (2 + (if z then 1 else 0) + (if m then 1 else 0))%nat.

(** an error message of the position parsers becomes an error geometry with
    PARSE_FAIL (tg.c:13460-13463, 13514-13517) *)
Definition to_gres (x : out (option (list Z) * geom)) : gres :=
  match x with
  | Err m => Ok (None, make_parse_error m)
  | x => x
  end.

(** tg.c:13403-13443 parse_wkb_point *)
Definition parse_wkb_point (swap z m : bool) (bs : list Z) : gres :=
  to_gres (obind (p_posn (zm_dims z m) swap bs) (fun r =>
  let posn := fst r in
  if forallb f_isnan posn then Ok (Some (snd r), tg_geom_new_point_empty)
  else
    let p := posn_pt posn in
    Ok (Some (snd r),
        if z then if m then tg_geom_new_point_zm p (nth 2 posn f_zero) (nth 3 posn f_zero)
                  else tg_geom_new_point_z p (nth 2 posn f_zero)
        else if m then tg_geom_new_point_m p (nth 2 posn f_zero)
        else tg_geom_new_point p))).

(** tg.c:13445-13497 parse_wkb_linestring *)
Definition parse_wkb_linestring (e : env) (ix : Z) (swap z m : bool) (bs : list Z) : gres :=
  to_gres (obind (parse_wkb_posns false (zm_dims z m) swap bs) (fun r =>
  let '(bs, pts, x) := r in
  match pts with
  | [] => Ok (Some bs, tg_geom_new_linestring_empty)
  | _ =>
      match series_new_ix e pts false ix with
      | None => Ub
      | Some line =>
          Ok (Some bs, if z || m then tg_geom_new_linestring_x z m line x
                       else tg_geom_new_linestring line)
      end
  end)).

(** tg.c:13499-13554 parse_wkb_polygon *)
Definition parse_wkb_polygon (e : env) (ix : Z) (swap z m : bool) (bs : list Z) : gres :=
  to_gres (obind (parse_wkb_multi_posns e ix (zm_dims z m) swap bs) (fun r =>
  let '(bs, p, x) := r in
  match p with
  | None => Ok (Some bs, tg_geom_new_polygon_empty)
  | Some p =>
      Ok (Some bs, if z || m then tg_geom_new_polygon_x z m p x
                   else tg_geom_new_polygon p)
  end)).

(** tg.c:13559-13565 wkb_type_match *)
Definition wkb_type_match (g : geom) (type : Z) (z m : bool) : bool :=
  (head_type g =? type) && Bool.eqb (has_z (geom_flags g)) z && Bool.eqb (has_m (geom_flags g)) m.

(** the outcome of the loop over the children (e.g. tg.c:13586-13625): the remaining bytes and the
    children, or the position and error geometry to return *)
Definition cres := out ((list Z * list geom) + (option (list Z) * geom)).

(** the loops over count children, tg.c:13581-13611, 13660-13684, 13741-13765,
    13819-13830.  [pc] parses one child, [ok] is the test on its type.
    Simplification: the children are collected and their coordinates taken
    afterwards, instead of one at a time into growing vectors. *)
Fixpoint p_children (pc : list Z -> gres) (ok : geom -> bool) (fuel : nat) (count : Z)
  (bs : list Z) : cres :=
  if count =? 0 then Ok (inl (bs, []))
  else match fuel with
  | O => NoFuel
  | S fuel' =>
      obind (pc bs) (fun r =>
      match r with
      | (None, g) => Ok (inr (None, g))
      | (Some bs', g) =>
          match tg_geom_error (Some g) with
          | Some _ => Ok (inr (Some bs', g))
          | None =>
              if ok g then
                obind (p_children pc ok fuel' (count - 1) bs') (fun r =>
                Ok (match r with
                    | inl (bs'', gs) => inl (bs'', g :: gs)
                    | inr f => inr f
                    end))
              else Ok (inr (Some bs', make_parse_error msg_child_type))
          end
      end)
  end.

(** read the count, then the children; a missing count is reported without
    PARSE_FAIL (tg.c:13641-13643): the position stays where it was *)
Definition p_multi (pc : list Z -> gres) (ok : geom -> bool) (swap : bool)
  (build : list geom -> geom) (bs : list Z) : gres :=
  match p_uint32 swap bs with
  | Ok (count, bs) =>
      obind (p_children pc ok (S (length bs)) count bs) (fun r =>
      Ok (match r with
          | inl (bs, gs) => (Some bs, build gs)
          | inr (i, g) => (i, g)
          end))
  | Err m => Ok (Some bs, make_parse_error m)
  | Oob => Oob
  | Ub => Ub
  | NoFuel => NoFuel
  end.

(** tg.c:13593-13608 the extra coordinates of one point *)
Definition point_extra (z m : bool) (g : geom) : list f64 :=
  (if z then [tg_geom_z (Some g)] else []) ++ (if m then [tg_geom_m (Some g)] else []).

(** tg.c:13613-13631 the multipoint built from its children *)
Definition build_multipoint (z m : bool) (gs : list geom) : geom :=
  let g := tg_geom_new_multipoint (map (fun g => tg_geom_point (Some g)) gs) in
  if z || m then fill_multi_coords z m (concat (map (point_extra z m) gs)) g else g.
(** tg.c:13671-13706 *)
Definition build_multilinestring (z m : bool) (gs : list geom) : geom :=
  let g := tg_geom_new_multilinestring (map (fun g => tg_geom_line (Some g)) gs) in
  if z || m
  then fill_multi_coords z m (concat (map (fun g => tg_geom_extra_coords (Some g)) gs)) g
  else g.
(** tg.c:13752-13787 *)
Definition build_multipolygon (z m : bool) (gs : list geom) : geom :=
  let g := tg_geom_new_multipolygon (map (fun g => tg_geom_poly (Some g)) gs) in
  if z || m
  then fill_multi_coords z m (concat (map (fun g => tg_geom_extra_coords (Some g)) gs)) g
  else g.
(** tg.c:13831-13832 *)
Definition build_collection (gs : list geom) : geom :=
  tg_geom_new_geometrycollection (map Some gs).

(** tg.c:6717 *)
Definition MAXDEPTH : nat := 1024.

(** the (type, z, m) that the switch of tg.c:13882-13912 distinguishes *)
Definition wkb_kind (type : Z) : option (Z * bool * bool) :=
  let k := type mod 1000 in
  let d := type / 1000 in
  if (1 <=? k) && (k <=? 7) && (0 <=? d) && (d <=? 3)
  then Some (k, (d =? 1) || (d =? 3), (d =? 2) || (d =? 3)) else None.

(** tg.c:13852-13920 parse_wkb, with 13567-13644 parse_wkb_multipoint,
    13646-13725 parse_wkb_multilinestring, 13727-13806 parse_wkb_multipolygon and
    13808-13850 parse_wkb_geometrycollection as the calls of [p_multi].  [dfuel]
    bounds the recursion of the model. *)
Fixpoint parse_wkb (e : env) (ix : Z) (dfuel : nat) (depth : nat) (bs : list Z) : gres :=
  match dfuel with
  | O => NoFuel
  | S dfuel' =>
      match bs with
      | [] => fail_invalid
      | order :: bs =>
          if negb (Z.shiftr order 1 =? 0) then fail_invalid
          else if (MAXDEPTH <? depth)%nat then fail_invalid
          else
            let swap := order =? 0 in
            to_gres (obind (p_uint32 swap bs) (fun r =>
            let type := fst r in
            obind (if Z.testbit type 29 then p_uint32 swap (snd r) else Ok (0, snd r)) (fun r =>
            let bs := snd r in
            match wkb_kind (Z.land type 65535) with
            | None => Ok (None, make_parse_error msg_type)
            | Some (k, z, m) =>
                let child := parse_wkb e ix dfuel' (S depth) in
                if k =? 1 then parse_wkb_point swap z m bs
                else if k =? 2 then parse_wkb_linestring e ix swap z m bs
                else if k =? 3 then parse_wkb_polygon e ix swap z m bs
                else if k =? 4 then
                  p_multi child (fun g => wkb_type_match g TG_POINT z m) swap
                    (build_multipoint z m) bs
                else if k =? 5 then
                  p_multi child (fun g => wkb_type_match g TG_LINESTRING z m) swap
                    (build_multilinestring z m) bs
                else if k =? 6 then
                  p_multi child (fun g => wkb_type_match g TG_POLYGON z m) swap
                    (build_multipolygon z m) bs
                else p_multi child (fun _ => true) swap build_collection bs
            end)))
      end
  end.

(** the recursion bound: depths 0 .. MAXDEPTH+1 (tg.c:6717, 13859) *)
Definition wkb_fuel (depth : nat) : nat := (MAXDEPTH + 2 - depth)%nat.

(** tg.c:13949-13953 the error is wrapped with a prefix *)
Definition wrap_error (g : geom) : geom :=
  match is_error (geom_flags g), tg_geom_error (Some g) with
  | true, Some m => make_parse_error (str "ParseError: " ++ m)
  | _, _ => g
  end.

(** tg.c:13943-13955 tg_parse_wkb_ix (13932 tg_parse_wkb passes ix = 0) *)
Definition tg_parse_wkb_ix (e : env) (ix : Z) (bs : list Z) : out geom :=
  match parse_wkb e ix (wkb_fuel 0) 0 bs with
  | Ok (_, g) => Ok (wrap_error g)
  | Err m => Err m
  | Oob => Oob
  | Ub => Ub
  | NoFuel => NoFuel
  end.
