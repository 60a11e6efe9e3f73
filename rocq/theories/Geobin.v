(** * GeoBIN parser, writer and readers of tg.c *)

From Coq Require Import ZArith Bool String List.
From Verif Require Import F64 Geo Series RingApi Bytes Geom Writer WkbWrite WkbParse Json.
Import ListNotations.
Local Open Scope Z_scope.

(** ** Parser *)

(** tg.c:15479-15488 the bounding rectangle is skipped; [None] is "goto invalid" *)
Definition gb_skip_rect (dims : Z) (bs : list Z) : option (list Z) :=
  if dims =? 0 then Some bs
  else if (dims <? 2) || (4 <? dims) then None
  else if (length bs <=? Z.to_nat (16 * dims))%nat then None
  else Some (skipn (Z.to_nat (16 * dims)) bs).

(** tg.c:15489-15500 the bytes up to a NUL, and what follows the NUL; nothing
    follows when there is no NUL *)
Fixpoint gb_string (bs : list Z) : list Z * list Z :=
  match bs with
  | [] => ([], [])
  | b :: rest =>
      if b =? 0 then ([], rest)
      else let (s, t) := gb_string rest in (b :: s, t)
  end.

(** tg.c:15550-15565 a point, line or polygon base becomes the member of a
    struct tg_geom *)
Definition gb_wrap_base (g : geom) : geom :=
  match g with
  | GPoint _ p => GGPoint fl0 p f_zero f_zero None
  | GLine _ l => GGLine fl0 (Some l) [] None
  | GPoly _ p => GGPoly fl0 (Some p) [] None
  | g => g
  end.

(** tg.c:15569-15577 geom->xjson = a copy; only reached with a struct tg_geom *)
Definition set_xjson (g : geom) (x : list Z) : geom :=
  match g with
  | GGPoint f p z m _ => GGPoint f p z m (Some x)
  | GGLine f l c _ => GGLine f l c (Some x)
  | GGPoly f p c _ => GGPoly f p c (Some x)
  | GGMulti t f gs c _ => GGMulti t f gs c (Some x)
  | g => g
  end.

(** tg.c:15550-15579 the end of parse_geobin *)
Definition gb_finish (head : Z) (xj : list Z) (g : geom) : geom :=
  let has_xj := negb (length xj =? 0)%nat in
  let g := if has_xj || (head =? 3) then gb_wrap_base g else g in
  let g := if head =? 3 then with_flags g (set_feature (geom_flags g)) else g in
  if has_xj then set_xjson g xj else g.

(** tg.c:15518-15526 the loop over the features: the features and the rest of
    the input, or the last failed feature *)
Fixpoint p_feats (pc : list Z -> gres) (fuel : nat) (count : Z) (bs : list Z)
  : out ((list geom * list Z) + geom) :=
  if count =? 0 then Ok (inl ([], bs))
  else match fuel with
  | O => NoFuel
  | S fuel' =>
      obind (pc bs) (fun r =>
      match r with
      | (None, g) => Ok (inr g)
      | (Some bs', g) =>
          obind (p_feats pc fuel' (count - 1) bs') (fun r =>
          Ok (match r with
              | inl (gs, rest) => inl (g :: gs, rest)
              | inr g => inr g
              end))
      end)
  end.

(** tg.c:15463-15584 parse_geobin.  The position is represented by the bytes from
    there on, as in the WKB parser.  [dfuel] bounds the recursion of the model.
    Simplifications: allocation succeeds (the code returns 0, not PARSE_FAIL, and
    leaves *g alone when the array of features cannot be allocated), and there are
    fewer than 2^31 features. *)
Fixpoint parse_geobin (e : env) (ix : Z) (dfuel : nat) (depth : nat) (bs : list Z) : gres :=
  match dfuel with
  | O => NoFuel
  | S dfuel' =>
      match bs with
      | [] => fail_invalid
      | head :: rest =>
          if (MAXDEPTH <? depth)%nat then fail_invalid
          else if head =? 1 then parse_wkb e ix (wkb_fuel depth) depth bs
          else if (head <? 2) || (4 <? head) then fail_invalid
          else
            match rest with
            | [] => fail_invalid
            | dims :: bs =>
                match gb_skip_rect dims bs with
                | None => fail_invalid
                | Some bs =>
                    let (xj, bs) := gb_string bs in
                    match bs with
                    | [] => fail_invalid
                    | _ :: _ =>
                        match (if (length xj =? 0)%nat then Some true else json_validn xj) with
                        | None => Oob
                        | Some false => fail_invalid
                        | Some true =>
                            if head =? 4 then
                              match take_bytes 4 bs with
                              | None => fail_invalid
                              | Some (n, bs) =>
                                  obind (p_feats (parse_geobin e ix dfuel' (S depth))
                                           (S (length bs)) (le_val n) bs) (fun r =>
                                  match r with
                                  | inr g => Ok (None, g)
                                  | inl (gs, bs) =>
                                      let g := tg_geom_new_geometrycollection (map Some gs) in
                                      Ok (Some bs, gb_finish head xj
                                                     (with_flags g (set_feature_col (geom_flags g))))
                                  end)
                              end
                            else
                              obind (parse_wkb e ix (wkb_fuel depth) depth bs) (fun r =>
                              match r with
                              | (None, g) => Ok (None, g)
                              | (Some bs, g) => Ok (Some bs, gb_finish head xj g)
                              end)
                        end
                    end
                end
            end
      end
  end.

(** tg.c:15593-15605 tg_parse_geobin_ix (15459 tg_parse_geobin passes ix = 0) *)
Definition tg_parse_geobin_ix (e : env) (ix : Z) (bs : list Z) : out geom :=
  obind (parse_geobin e ix (wkb_fuel 0) 0 bs) (fun r => Ok (wrap_error (snd r))).

(** ** Bounding rectangle on all dimensions *)

(** tg.c:15752: the value returned by tg_geom_fullrect and its two output arrays *)
Record frect := FR { fr_dims : nat; fr_min : list f64; fr_max : list f64 }.

(** assignment to an element of an output array, e.g. tg.c:15757 *)
Definition aset (l : list f64) (i : nat) (x : f64) : list f64 :=
  firstn i l ++ x :: skipn (S i) l.
(** element of an output array, e.g. tg.c:15791 *)
Definition aget (l : list f64) (i : nat) : f64 := nth i l f_zero.

(** tg.c:15756-15765: x and y from the rectangle, the rest 0 *)
Definition fr_start (r : rect) : frect :=
  FR 2 [px (rmin r); py (rmin r); f_zero; f_zero] [px (rmax r); py (rmax r); f_zero; f_zero].

(** min[dims] = x; max[dims] = x; dims++ (tg.c:15769-15778) *)
Definition fr_push (x : f64) (a : frect) : frect :=
  FR (S (fr_dims a)) (aset (fr_min a) (fr_dims a) x) (aset (fr_max a) (fr_dims a) x).

(** dimension [i] of a child joins: it is the first one, or it expands
    (tg.c:15786-15805) *)
Definition fr_join (i : nat) (c a : frect) : frect :=
  if (S i <=? fr_dims c)%nat then
    if (fr_dims a =? i)%nat
    then FR (S (fr_dims a)) (aset (fr_min a) i (aget (fr_min c) i)) (aset (fr_max a) i (aget (fr_max c) i))
    else FR (fr_dims a) (aset (fr_min a) i (fmin0 (aget (fr_min a) i) (aget (fr_min c) i)))
                        (aset (fr_max a) i (fmax0 (aget (fr_max a) i) (aget (fr_max c) i)))
  else a.

(** tg.c:15784-15806 one child of a collection *)
Definition fr_child (a c : frect) : frect := fr_join 3 c (fr_join 2 c a).

(** tg.c:15811-15817 the loop with one extra coordinate, 15818-15829 with two *)
Fixpoint fr_extend1 (cs : list f64) (a : frect) : frect :=
  match cs with
  | [] => a
  | c :: rest =>
      fr_extend1 rest (FR (fr_dims a) (aset (fr_min a) 2 (fmin0 (aget (fr_min a) 2) c))
                                      (aset (fr_max a) 2 (fmax0 (aget (fr_max a) 2) c)))
  end.
(** tg.c:15818-15829 the loop with two extra coordinates *)
Fixpoint fr_extend2 (cs : list f64) (a : frect) : frect :=
  match cs with
  | c :: d :: rest =>
      fr_extend2 rest
        (FR (fr_dims a)
            (aset (aset (fr_min a) 2 (fmin0 (aget (fr_min a) 2) c)) 3 (fmin0 (aget (fr_min a) 3) d))
            (aset (aset (fr_max a) 2 (fmax0 (aget (fr_max a) 2) c)) 3 (fmax0 (aget (fr_max a) 3) d)))
  | _ => a
  end.

(** tg.c:15807-15829 geometries with extra coordinates *)
Definition fr_coords (f : flags) (cs : list f64) (a : frect) : frect :=
  let a := FR (fr_dims a + (if has_z f then 1 else 0) + (if has_m f then 1 else 0))%nat
              (fr_min a) (fr_max a) in
  if (fr_dims a =? 3)%nat then
    match cs with
    | c :: rest => fr_extend1 rest (FR 3 (aset (fr_min a) 2 c) (aset (fr_max a) 2 c))
    | [] => a
    end
  else if (fr_dims a =? 4)%nat then
    match cs with
    | c :: d :: rest =>
        fr_extend2 rest (FR 4 (aset (aset (fr_min a) 2 c) 3 d) (aset (aset (fr_max a) 2 c) 3 d))
    | _ => a
    end
  else a.

(** tg.c:15752-15833 tg_geom_fullrect of a geometry.  A NULL child gives 0
    dimensions, and its arrays are not looked at. *)
Fixpoint fullrect (g : geom) : frect :=
  let a := fr_start (rect_of_geom g) in
  match g with
  | GPoint _ _ | GLine _ _ | GPoly _ _ => a
  | GGPoint f _ z m _ =>
      let a := if has_z f then fr_push z a else a in
      if has_m f then fr_push m a else a
  | GGMulti MGeoms _ (Some gs) _ _ =>
      fold_left fr_child
        (map (fun o => match o with Some c => fullrect c | None => FR 0 [] [] end) gs) a
  | GGMulti _ f _ cs _ => fr_coords f cs a
  | GGLine f _ cs _ => fr_coords f cs a
  | GGPoly f _ cs _ => fr_coords f cs a
  end.
(** tg.c:15752-15833 NULL: 0 dimensions, the caller's arrays [mn], [mx] unchanged *)
Definition tg_geom_fullrect (g : option geom) (mn mx : list f64) : frect :=
  match g with
  | None => FR 0 mn mx
  | Some g => fullrect g
  end.

(** ** Writer *)

(** tg.c:11911-11914 tg_geom_extra_json *)
Definition tg_geom_extra_json (g : option geom) : option (list Z) :=
  match g with
  | Some (GGPoint f _ _ _ x) | Some (GGLine f _ _ x)
  | Some (GGPoly f _ _ x) | Some (GGMulti _ f _ _ x) => if is_error f then None else x
  | _ => None
  end.

(** tg.c:15627-15636 the mbr section *)
Definition write_mbr (a : frect) : W :=
  write_byte (Z.of_nat (fr_dims a)) ;;
  wloop (map write_doublele (firstn (fr_dims a) (fr_min a))) ;;
  wloop (map write_doublele (firstn (fr_dims a) (fr_max a))).

(** tg.c:15638-15641 the extra json section *)
Definition write_xjson (x : option (list Z)) : W :=
  (match x with Some s => write_string s | None => wskip end) ;; write_byte 0.

(** tg.c:15609-15655 write_base_geom_geobin; [feats] writes the features *)
Definition write_base_geom_geobin (g : geom) (feats : W) : W :=
  let f := geom_flags g in
  let xj := tg_geom_extra_json (Some g) in
  let body :=
    write_mbr (fullrect g) ;;
    write_xjson xj ;;
    (if is_feature_col f
     then write_uint32le (tg_geom_num_geometries (Some g)) ;; feats
     else write_geom_wkb g) in
  if is_feature_col f then write_byte 4 ;; body
  else if is_feature f then write_byte 3 ;; body
  else if (head_type g =? TG_POINT) && negb (match xj with Some _ => true | None => false end) then
    match g with
    | GGPoint f p z m _ => write_geom_point_wkb f p z m
    | _ => wundef
    end
  else write_byte 2 ;; body.

(** tg.c:15661-15667 write_geobin_rect *)
Definition write_geobin_rect (r : rect) : W :=
  write_byte 2 ;;
  write_doublele (px (rmin r)) ;; write_doublele (py (rmin r)) ;;
  write_doublele (px (rmax r)) ;; write_doublele (py (rmax r)).

(** tg.c:15690-15712 write_geom_geobin, with 15657-15659 write_point_geobin,
    15669-15688 write_line_geobin, write_ring_geobin, write_poly_geobin, and the
    loop over the features 15647-15650 (a NULL feature is read: undefined) *)
Fixpoint write_geom_geobin (g : geom) : W :=
  let feats :=
    match g with
    | GGMulti MGeoms _ (Some l) _ _ =>
        wloop (map (fun o => match o with
                             | Some c => write_geom_geobin c
                             | None => wundef
                             end) l)
    | _ => wskip
    end in
  let base := write_base_geom_geobin g feats in
  if is_feature (geom_flags g) then base
  else match g with
  | GPoint _ _ => write_geom_wkb g
  | GLine _ l =>
      write_byte 2 ;; write_geobin_rect (r_rect l) ;; write_byte 0 ;; write_geom_wkb g
  | GPoly _ p =>
      write_byte 2 ;; write_geobin_rect (tg_poly_rect (Some p)) ;; write_byte 0 ;; write_geom_wkb g
  | _ => base
  end.

(** tg.c:15739-15744 tg_geom_geobin: the count returned and the buffer afterwards *)
Definition tg_geom_geobin (g : option geom) (dst : list Z) : option (nat * list Z) :=
  match g with
  | None => Some (0%nat, dst)
  | Some g =>
      match write_geom_geobin g (Wr dst 0) with
      | Some w => Some (w_count w, w_dst w)
      | None => None
      end
  end.

(** ** Readers that do not parse *)

(** [k] doubles copied from offset [i] of the input by memcpy; [None] = a read
    outside (e.g. tg.c:15859) *)
Definition gb_doubles (k i : nat) (bs : list Z) : option (list f64) :=
  match p_doubles k false (skipn i bs) with
  | Ok (ds, _) => Some ds
  | _ => None
  end.
(** memcpy of doubles into an output array, e.g. tg.c:15865; [None] = a store outside it *)
Definition gb_store (dst ds : list f64) : option (list f64) :=
  if (length dst <? length ds)%nat then None else Some (ds ++ skipn (length ds) dst).

(** tg.c:15849-15857 dimensions of a WKB point by its type; 0 = not a point *)
Definition gb_point_dims (type : Z) : nat :=
  if type =? 1 then 2 else if (type =? 1001) || (type =? 2001) then 3
  else if type =? 3001 then 4 else 0.

(** geobin && len > 2 && geobin[0] >= 0x01 && geobin[0] <= 0x04, e.g. tg.c:15847 *)
Definition gb_headed (bs : list Z) : bool :=
  (2 <? length bs)%nat && (1 <=? nth 0 bs 0) && (nth 0 bs 0 <=? 4).

(** tg.c:15843-15870 tg_geobin_fullrect.  [None] = a read outside the input or a
    store outside the caller's arrays [mn] and [mx]. *)
Definition tg_geobin_fullrect (bs : list Z) (mn mx : list f64) : option frect :=
  if gb_headed bs then
    if (nth 0 bs 0 =? 1) && (5 <=? length bs)%nat then
      let dims := gb_point_dims (le_val (firstn 4 (skipn 1 bs))) in
      if (0 <? dims)%nat && (5 + 8 * dims <=? length bs)%nat then
        match gb_doubles dims 5 bs with
        | None => None
        | Some ds =>
            match gb_store mn ds, gb_store mx ds with
            | Some mn, Some mx => Some (FR dims mn mx)
            | _, _ => None
            end
        end
      else Some (FR dims mn mx)
    else if negb (nth 0 bs 0 =? 1) && (2 + Z.to_nat (16 * nth 1 bs 0)%Z <=? length bs)%nat then
      let dims := Z.to_nat (nth 1 bs 0) in
      match gb_doubles dims 2 bs, gb_doubles dims (2 + 8 * dims) bs with
      | Some a, Some b =>
          match gb_store mn a, gb_store mx b with
          | Some mn, Some mx => Some (FR dims mn mx)
          | _, _ => None
          end
      | _, _ => None
      end
    else Some (FR 0 mn mx)
  else Some (FR 0 mn mx).

(** tg.c:15876-15901 tg_geobin_rect; [None] = a read outside the input *)
Definition tg_geobin_rect (bs : list Z) : option rect :=
  if gb_headed bs then
    if (nth 0 bs 0 =? 1) && (21 <=? length bs)%nat then
      if (0 <? gb_point_dims (le_val (firstn 4 (skipn 1 bs))))%nat then
        match gb_doubles 2 5 bs with
        | Some [x; y] => Some (Rect (Pt x y) (Pt x y))
        | _ => None
        end
      else Some rect0
    else if negb (nth 0 bs 0 =? 1) && (2 + Z.to_nat (16 * nth 1 bs 0)%Z <=? length bs)%nat then
      let dims := Z.to_nat (nth 1 bs 0) in
      if (2 <=? dims)%nat then
        match gb_doubles 2 2 bs, gb_doubles 2 (2 + 8 * dims) bs with
        | Some [a; b], Some [c; d] => Some (Rect (Pt a b) (Pt c d))
        | _, _ => None
        end
      else Some rect0
    else Some rect0
  else Some rect0.

(** tg.c:15907-15932 tg_geobin_point.  The reads are those of tg_geobin_rect; a
    WKB point gives its position, everything else the center of the rectangle. *)
Definition tg_geobin_point (bs : list Z) : option pt :=
  if gb_headed bs then
    if (nth 0 bs 0 =? 1) && (21 <=? length bs)%nat then
      option_map rmin (tg_geobin_rect bs)
    else if negb (nth 0 bs 0 =? 1) && (2 + Z.to_nat (16 * nth 1 bs 0)%Z <=? length bs)%nat then
      option_map tg_rect_center (tg_geobin_rect bs)
    else Some pt0
  else Some pt0.
