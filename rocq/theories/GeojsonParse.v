(** * Reading GeoJSON *)

From Coq Require Import ZArith Bool String List.
From Verif Require Import F64 Geo Series RingApi Bytes Geom WkbParse Num WktParse Json JsonTok.
Import ListNotations.
Local Open Scope Z_scope.

(** ** Numbers *)

(** tg.c:7516-7522 stod, 7524-7528 parse_double_big, 7530-7534 parse_double.  The
    text is copied to a buffer, so strtod sees nothing behind it. *)
Definition parse_double (s : list Z) : f64 :=
  if (512 <=? length s)%nat then f_zero
  else match strtod s with (x, []) => x | _ => f_zero end.
(** tg.c:7578-7590 json_double.  Simplification: only its case JSON_NUMBER; every
    caller checks the type first (tg.c:8063, 8138). *)
Definition json_double (j : json) : f64 := parse_double (firstn (json_raw_length j) (json_raw j)).

(** ** The members of an object *)

(** the loop over json_first and json_next, as in tg.c:8057-8069, 8128-8167: the
    list of tokens it visits *)
Definition json_items (j : json) : out (list json) :=
  match children (S (length (json_raw j))) (json_first j) with
  | Some l => Ok l
  | None => NoFuel
  end.

(** the text of a token: tg.c:7847, 7849 *)
Definition raw_text (j : json) : list Z := firstn (json_raw_length j) (json_raw j).

(** the local variables of take_basic_geojson, tg.c:7862-7871.  [b_extra]: the
    bytes in the buffer extra; [b_null]: HAS_NULL_PROPS. *)
Record basic := Basic {
  b_target : json; b_null : bool; b_props : bool; b_id : bool; b_extra : list Z
}.
(** tg.c:7842-7855 buf_append_json_pair *)
Definition append_pair (b : basic) (key val : json) : basic :=
  Basic (b_target b) (b_null b) (b_props b) (b_id b)
    (b_extra b ++ (match b_extra b with [] => [123] | _ => [44] end)
       ++ raw_text key ++ [58] ++ raw_text val).
(** tg.c:7873-7913, the body of the loop of take_basic_geojson *)
Definition basic_member (is_feat : bool) (target_name : list Z) (b : basic) (key val : json)
  : out basic :=
  if json_string_compare_eq key (str "type") then Ok b
  else if json_string_compare_eq key target_name then
    Ok (Basic (json_ensure val) (b_null b) (b_props b) (b_id b) (b_extra b))
  else if is_feat && json_string_compare_eq key (str "properties") then
    if b_props b then Ok b
    else
      let b' null := Basic (b_target b) (b_null b || null) true (b_id b) (b_extra b) in
      if json_type val =? JSON_NULL then Ok (b' true)
      else if json_type val =? JSON_OBJECT then
        Ok (if json_exists (json_first val) then append_pair (b' false) key val else b' false)
      else Err (str "'properties' must be an object or null")
  else if is_feat && json_string_compare_eq key (str "id") then
    if b_id b then Ok b
    else if negb (json_type val =? JSON_STRING) && negb (json_type val =? JSON_NUMBER)
    then Err (str "'id' must be a string or number")
    else Ok (append_pair (Basic (b_target b) (b_null b) (b_props b) true (b_extra b)) key val)
  else Ok (append_pair b key val).
(** tg.c:7870-7916, the loop of take_basic_geojson *)
Fixpoint basic_loop (is_feat : bool) (target_name : list Z) (fuel : nat) (key : json) (b : basic)
  : out basic :=
  match fuel with
  | O => NoFuel
  | S fuel =>
      if json_exists key then
        obind (basic_member is_feat target_name b key (json_next key)) (fun b =>
        basic_loop is_feat target_name fuel (json_next (json_next key)) b)
      else Ok b
  end.
(** tg.c:8025 flags |= flags: what take_basic_geojson hands out, tg.c:7884,
    7935-7936, 7960 *)
Definition add_flags (empty null unlocated : bool) (f : flags) : flags :=
  Flags (has_z f) (has_m f) (is_error f) (is_empty f || empty) (is_feature f) (is_feature_col f)
        (has_null_props f || null) (is_unlocated f || unlocated).
(** what take_basic_geojson hands out: *targetout, the flags IS_EMPTY,
    HAS_NULL_PROPS and IS_UNLOCATED, and *extraout, tg.c:7968-7979 *)
Record taken := Taken {
  t_target : json; t_empty : bool; t_null : bool; t_unlocated : bool; t_extra : option (list Z)
}.
(** tg.c:7858-7979 take_basic_geojson *)
Definition take_basic_geojson (j : json) (target_name : list Z) : out taken :=
  let is_feat := zlist_eqb target_name (str "geometry") in
  obind (basic_loop is_feat target_name (S (length (json_raw j))) (json_first j)
           (Basic JNone false false false [])) (fun b =>
  if negb (json_exists (b_target b)) then Err (str "missing '" ++ target_name ++ str "'")
  else
    let extra := match b_extra b with [] => None | x => Some (x ++ [125]) end in
    let ttype := json_type (b_target b) in
    if is_feat then
      if ttype =? JSON_OBJECT then Ok (Taken (b_target b) false (b_null b) false extra)
      else if ttype =? JSON_NULL then Ok (Taken (b_target b) true (b_null b) true extra)
      else Err (str "'geometry' must be an object or null")
    else if negb (ttype =? JSON_ARRAY)
    then Err (str "'" ++ target_name ++ str "' must be an array")
    else Ok (Taken (b_target b) (negb (json_exists (json_first (b_target b)))) (b_null b) false extra)).

(** geom->xjson = extra, tg.c:8026.  The base types have no such member. *)
Definition set_xjson (x : option (list Z)) (g : geom) : out geom :=
  match x with
  | None => Ok g
  | Some _ =>
      match g with
      | GGPoint f p z m _ => Ok (GGPoint f p z m x)
      | GGLine f l c _ => Ok (GGLine f l c x)
      | GGPoly f p c _ => Ok (GGPoly f p c x)
      | GGMulti t f gs c _ => Ok (GGMulti t f gs c x)
      | _ => Ub
      end
  end.
(** tg.c:8021-8033 PARSE_GEOJSON_BASIC_TAIL *)
Definition basic_tail (t : taken) (g : geom) : out geom :=
  set_xjson (t_extra t) (with_flags g (add_flags (t_empty t) (t_null t) (t_unlocated t) (geom_flags g))).

(** ** Positions *)

(** the numbers of a position, at most four: tg.c:8055-8069, 8134-8148 *)
Definition posn_nums (msg : list Z) (items : list json) : out (list f64) :=
  if forallb (fun v => json_type v =? JSON_NUMBER) items
  then Ok (firstn 4 (map json_double items)) else Err msg.

(** !req_geom && !extra && dims == 2, tg.c:8077, 8192, 8273 *)
Definition plain_geom (req_geom : bool) (t : taken) (dims : nat) : bool :=
  negb req_geom && (match t_extra t with None => true | Some _ => false end) && (dims =? 2)%nat.

(** tg.c:8045-8095 parse_geojson_point *)
Definition parse_geojson_point (j : json) (req_geom : bool) : out geom :=
  obind (take_basic_geojson j (str "coordinates")) (fun t =>
  if t_empty t then basic_tail t tg_geom_new_point_empty
  else
    obind (json_items (t_target t)) (fun items =>
    obind (posn_nums (str "'coordinates' must only contain numbers") items) (fun posn =>
    let dims := length posn in
    if (dims <? 2)%nat then Err (str "'coordinates' must have two or more numbers")
    else
      let xy := posn_pt posn in
      basic_tail t
        (if plain_geom req_geom t dims then tg_geom_new_point xy
         else match dims with
              | 2%nat => GGPoint fl0 xy f_zero f_zero None
              | 3%nat => tg_geom_new_point_z xy (nth 2 posn f_zero)
              | _ => tg_geom_new_point_zm xy (nth 2 posn f_zero) (nth 3 posn f_zero)
              end)))).

(** tg.c:8035-8043 err_for_geojson_depth *)
Definition err_for_geojson_depth (depth : nat) : list Z :=
  match depth with
  | 1%nat => str "'coordinates' must be an array of positions"
  | 2%nat => str "'coordinates' must be a two deep nested array of positions"
  | _ => str "'coordinates' must be a three deep nested array of positions"
  end.

(** tg.c:8129-8167, the loop of parse_geojson_posns: dims and the positions *)
Fixpoint posns_loop (dims : nat) (depth : nat) (items : list json) : out (nat * list (list f64)) :=
  match items with
  | [] => Ok (dims, [])
  | v :: rest =>
      if negb (json_type v =? JSON_ARRAY) then Err (err_for_geojson_depth depth)
      else
        obind (json_items v) (fun its =>
        obind (posn_nums (str "each element in a position must be a number") its) (fun posn =>
        let pdims := length posn in
        let dims := if (dims =? 0)%nat then pdims else dims in
        if (pdims <? 2)%nat then Err (str "each position must have two or more numbers")
        else if negb (pdims =? dims)%nat
        then Err (str "each position must have the same number of dimensions")
        else
          obind (posns_loop dims depth rest) (fun r => Ok (fst r, posn :: snd r))))
  end.
(** tg.c:8124-8170 parse_geojson_posns: dims, the points, the extra coordinates *)
Definition parse_geojson_posns (base : wbase) (dims : nat) (depth : nat) (coords : json)
  : out (nat * list pt * list f64) :=
  obind (json_items coords) (fun items =>
  obind (posns_loop dims depth items) (fun r =>
  let pts := map posn_pt (snd r) in
  match (match base with
         | WBPoint => None
         | WBLine => check_parse_posns false pts
         | WBRing => check_parse_posns true pts
         end) with
  | Some m => Err m
  | None => Ok (fst r, pts, concat (map (skipn 2) (snd r)))
  end)).

(** one line or ring: tg.c:8184-8190, 8227-8231, 8353-8361 *)
Definition geojson_series (e : env) (ix : Z) (base : wbase) (dims : nat) (depth : nat) (coords : json)
  : out (nat * ring * list f64) :=
  obind (parse_geojson_posns base dims depth coords) (fun r =>
  let '(dims, pts, x) := r in
  match series_new_ix e pts (match base with WBRing => true | _ => false end) ix with
  | None => Ub
  | Some ring => Ok (dims, ring, x)
  end).

(** the loop over the arrays inside an array: tg.c:8221-8238, 8347-8366,
    8408-8425.  [f] reads one of them; [msg]: the error when it is no array. *)
Fixpoint groups_loop {A : Type} (f : nat -> json -> out (nat * A * list f64)) (msg : list Z)
  (dims : nat) (items : list json) : out (nat * list A * list f64) :=
  match items with
  | [] => Ok (dims, [], [])
  | v :: rest =>
      if negb (json_type v =? JSON_ARRAY) then Err msg
      else
        obind (f dims v) (fun r =>
        let '(dims, a, x) := r in
        obind (groups_loop f msg dims rest) (fun r =>
        let '(dims, al, xs) := r in Ok (dims, a :: al, x ++ xs)))
  end.
(** tg.c:8216-8252 parse_geojson_multi_posns *)
Definition parse_geojson_multi_posns (e : env) (ix : Z) (depth : nat) (dims : nat) (coords : json)
  : out (nat * poly * list f64) :=
  obind (json_items coords) (fun items =>
  obind (groups_loop (fun dims v => geojson_series e ix WBRing dims depth v)
           (str "'coordinates' must be a nested array") dims items) (fun r =>
  let '(dims, rs, x) := r in
  match rs with
  | [] => Err (str "polygons must have one or more rings")
  | r0 :: holes =>
      match tg_poly_new (Some r0) (map Some holes) (Z.of_nat (length holes)) with
      | Some (Some p) => Ok (dims, p, x)
      | _ => Oob
      end
  end)).

(** ** Geometries *)

(** tg.c:8172-8213 parse_geojson_linestring *)
Definition parse_geojson_linestring (e : env) (ix : Z) (j : json) (req_geom : bool) : out geom :=
  obind (take_basic_geojson j (str "coordinates")) (fun t =>
  if t_empty t then basic_tail t tg_geom_new_linestring_empty
  else
    obind (geojson_series e ix WBLine 0 1 (t_target t)) (fun r =>
    let '(dims, line, x) := r in
    basic_tail t
      (if plain_geom req_geom t dims then tg_geom_new_linestring line
       else match dims with
            | 2%nat => GGLine fl0 (Some line) [] None
            | 3%nat => tg_geom_new_linestring_x true false line x
            | _ => tg_geom_new_linestring_x true true line x
            end))).

(** tg.c:8254-8300 parse_geojson_polygon *)
Definition parse_geojson_polygon (e : env) (ix : Z) (j : json) (req_geom : bool) : out geom :=
  obind (take_basic_geojson j (str "coordinates")) (fun t =>
  if t_empty t then basic_tail t tg_geom_new_polygon_empty
  else
    obind (parse_geojson_multi_posns e ix 2 0 (t_target t)) (fun r =>
    let '(dims, p, x) := r in
    basic_tail t
      (if plain_geom req_geom t dims then tg_geom_new_polygon p
       else match dims with
            | 2%nat => GGPoly fl0 (Some p) [] None
            | 3%nat => tg_geom_new_polygon_x true false p x
            | _ => tg_geom_new_polygon_x true true p x
            end))).

(** the switch over dims of the multi types: tg.c:8318-8330, 8367-8381,
    8426-8440.  No position at all leaves dims = 0. *)
Definition multi_dims (dims : nat) (x : list f64) (g : geom) : geom :=
  match dims with
  | 2%nat => g
  | 3%nat => fill_multi_coords true false x g
  | _ => fill_multi_coords true true x g
  end.

(** tg.c:8302-8335 parse_geojson_multipoint *)
Definition parse_geojson_multipoint (j : json) : out geom :=
  obind (take_basic_geojson j (str "coordinates")) (fun t =>
  obind (parse_geojson_posns WBPoint 0 1 (t_target t)) (fun r =>
  let '(dims, pts, x) := r in
  basic_tail t (multi_dims dims x (tg_geom_new_multipoint pts)))).

(** tg.c:8337-8394 parse_geojson_multilinestring *)
Definition parse_geojson_multilinestring (e : env) (ix : Z) (j : json) : out geom :=
  obind (take_basic_geojson j (str "coordinates")) (fun t =>
  obind (json_items (t_target t)) (fun items =>
  obind (groups_loop (fun dims v => geojson_series e ix WBLine dims 2 v)
           (err_for_geojson_depth 2) 0 items) (fun r =>
  let '(dims, ls, x) := r in
  basic_tail t (multi_dims dims x (tg_geom_new_multilinestring (map Some ls)))))).

(** tg.c:8396-8459 parse_geojson_multipolygon *)
Definition parse_geojson_multipolygon (e : env) (ix : Z) (j : json) : out geom :=
  obind (take_basic_geojson j (str "coordinates")) (fun t =>
  obind (json_items (t_target t)) (fun items =>
  obind (groups_loop (fun dims v => parse_geojson_multi_posns e ix 3 dims v)
           (err_for_geojson_depth 3) 0 items) (fun r =>
  let '(dims, ps, x) := r in
  basic_tail t (multi_dims dims x (tg_geom_new_multipolygon (map Some ps)))))).

(** the loop over the children: tg.c:8469-8493, 8560-8579.  [ok] is the test on
    the flags of a child, [msg] the error when it fails. *)
Fixpoint geoms_loop (child : json -> out geom) (ok : flags -> bool) (msg : list Z) (items : list json)
  : out (list geom) :=
  match items with
  | [] => Ok []
  | v :: rest =>
      obind (child v) (fun g =>
      if ok (geom_flags g) then obind (geoms_loop child ok msg rest) (fun gs => Ok (g :: gs))
      else Err msg)
  end.
(** tg.c:8478-8479, 8521-8522: neither IS_FEATURE nor IS_FEATURE_COL *)
Definition not_feature (f : flags) : bool := negb (is_feature f) && negb (is_feature_col f).

(** tg.c:8464-8504 parse_geojson_geometrycollection *)
Definition parse_geojson_geometrycollection (child : json -> out geom) (j : json) : out geom :=
  obind (take_basic_geojson j (str "geometries")) (fun t =>
  obind (json_items (t_target t)) (fun items =>
  obind (geoms_loop child not_feature
           (str "'geometries' must only contain objects with the 'type' of Point, LineString, Polygon, MultiPoint, MultiLineString, MultiPolygon, or GeometryCollection")
           items) (fun gs =>
  basic_tail t (tg_geom_new_geometrycollection (map Some gs))))).

(** geom->xjson of a BASE_GEOM, tg.c:8530 *)
Definition geom_xjson (g : geom) : option (list Z) :=
  match g with
  | GGPoint _ _ _ _ x | GGLine _ _ _ x | GGPoly _ _ _ x | GGMulti _ _ _ _ x => x
  | _ => None
  end.
(** tg.c:8530-8547: extra after the two are combined.  Simplification: strlen is
    the length of the text; a checked JSON text has no NUL byte. *)
Definition combine_extra (extra gx : option (list Z)) : option (list Z) :=
  match gx with
  | None => extra
  | Some x1 =>
      let x0 := match extra with Some (c :: r) => c :: r | _ => str "{}" end in
      Some (str "[" ++ x0 ++ str "," ++ x1 ++ str "]")
  end.
(** tg.c:8506-8553 parse_geojson_feature.  [child target req_geom]. *)
Definition parse_geojson_feature (child : json -> bool -> out geom) (j : json) : out geom :=
  obind (take_basic_geojson j (str "geometry")) (fun t =>
  obind (if t_empty t then Ok tg_geom_new_point_empty
         else child (t_target t) (match t_extra t with Some _ => true | None => false end)) (fun g =>
  if not_feature (geom_flags g) then
    let g := with_flags g (set_feature (geom_flags g)) in
    basic_tail (Taken (t_target t) (t_empty t) (t_null t) (t_unlocated t)
                  (combine_extra (t_extra t) (geom_xjson g))) g
  else Err (str "'geometry' must only contain an object with the 'type' of Point, LineString, Polygon, MultiPoint, MultiLineString, MultiPolygon, or GeometryCollection"))).

(** tg.c:8555-8591 parse_geojson_featurecollection *)
Definition parse_geojson_featurecollection (child : json -> out geom) (j : json) : out geom :=
  obind (take_basic_geojson j (str "features")) (fun t =>
  obind (json_items (t_target t)) (fun items =>
  obind (geoms_loop child is_feature
           (str "'features' must only contain objects with the 'type' of Feature") items) (fun gs =>
  let g := tg_geom_new_geometrycollection (map Some gs) in
  basic_tail t (with_flags g (set_feature_col (geom_flags g)))))).

(** char type[24], tg.c:8603-8604, as a C string *)
Definition geojson_type (jtype : json) : out (list Z) :=
  match json_string_copy jtype (repeat 0 24) with
  | Some (_, buf) => Ok (cstr buf)
  | None => Oob
  end.

(** tg.c:8593-8628 parse_geojson.  [dfuel] bounds the recursion of the model; the
    code has no bound. *)
Fixpoint parse_geojson (e : env) (ix : Z) (dfuel : nat) (j : json) (req_geom : bool) : out geom :=
  match dfuel with
  | O => NoFuel
  | S dfuel =>
      if negb (json_type j =? JSON_OBJECT) then Err (str "expected an object")
      else
        match json_object_get j (str "type") with
        | None => NoFuel
        | Some jtype =>
            if negb (json_exists jtype) then Err (str "'type' is required")
            else
              obind (geojson_type jtype) (fun type =>
              let child v := parse_geojson e ix dfuel v false in
              if zlist_eqb type (str "Point") then parse_geojson_point j req_geom
              else if zlist_eqb type (str "LineString") then parse_geojson_linestring e ix j req_geom
              else if zlist_eqb type (str "Polygon") then parse_geojson_polygon e ix j req_geom
              else if zlist_eqb type (str "MultiPoint") then parse_geojson_multipoint j
              else if zlist_eqb type (str "MultiLineString") then parse_geojson_multilinestring e ix j
              else if zlist_eqb type (str "MultiPolygon") then parse_geojson_multipolygon e ix j
              else if zlist_eqb type (str "GeometryCollection") then
                parse_geojson_geometrycollection child j
              else if zlist_eqb type (str "Feature") then
                parse_geojson_feature (fun v req => parse_geojson e ix dfuel v req) j
              else if zlist_eqb type (str "FeatureCollection") then
                parse_geojson_featurecollection child j
              else Err (str "unknown type '" ++ type ++ str "'"))
        end
  end.

(** tg.c:8682-8700 tg_parse_geojsonn_ix *)
Definition tg_parse_geojsonn_ix (e : env) (ix : Z) (s : list Z) : out geom :=
  match json_validn s with
  | None => NoFuel
  | Some valid =>
      match (if valid then parse_geojson e ix (S (length s)) (json_parsen s) false
             else Err (str "invalid json")) with
      | Err m => Ok (make_parse_error (str "ParseError: " ++ m))
      | x => x
      end
  end.
