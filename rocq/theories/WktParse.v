(** * WKT parser of tg.c *)

From Coq Require Import ZArith Bool String List.
From Verif Require Import F64 Geo Series RingApi Bytes Geom WkbParse Num.
Import ListNotations.
Local Open Scope Z_scope.

(** A slice wkt[i..len) is the list of its bytes; where strtod may read on behind
    a slice, [tail] is the rest of the caller's buffer behind it.  Reading the
    first byte of an empty slice, or using the negative result of
    wkt_balance_coords, is [Oob].  [Err m] is the error geometry with message
    m.  Simplifications: allocation succeeds, and the text is shorter than 2^31
    bytes (lengths converted to int do not wrap). *)

(** tg.c:11920-11923 wkt_invalid_err *)
Definition msg_text : list Z := str "invalid text".
(** tg.c:12683 *)
Definition msg_missing : list Z := str "missing type".

(** tg.c:11925-11927 isws *)
Definition isws (c : Z) : bool := (c =? 32) || (c =? 9) || (c =? 10) || (c =? 13).
(** tg.c:11929-11931 isnum *)
Definition isnum (c : Z) : bool := (c =? 45) || ((48 <=? c) && (c <=? 57)).
(** a digit, tg.c:12045 *)
Definition isdig (c : Z) : bool := (48 <=? c) && (c <=? 57).

(** tg.c:11933-11938 wkt_trim_ws *)
Fixpoint wkt_trim_ws (l : list Z) : list Z :=
  match l with
  | c :: r => if isws c then wkt_trim_ws r else l
  | [] => []
  end.

(** the C string in a char array: the bytes before the first zero byte, as strcmp
    and strchr see it in tg.c:11995-12002 *)
Fixpoint cstr (l : list Z) : list Z :=
  match l with
  | c :: r => if c =? 0 then [] else c :: cstr r
  | [] => []
  end.

(** tg.c:11951-11967 the loop that fills name[]; [name] is what is there so far.
    The results: name[0..j), "goto bad_type", "return -1", or a write behind
    the array. *)
Inductive name_res := NName (name : list Z) | NBad | NSpec | NOob.
(** tg.c:11947 char name[32] *)
Definition NAME_SIZE : nat := 32.
(** tg.c:11951-11967; the last write is the zero byte at name[j] *)
Fixpoint wkt_name (l : list Z) (name : list Z) (nws : nat) : name_res :=
  if (NAME_SIZE <=? length name)%nat then NOob else
  match l with
  | [] => NName name
  | c :: r =>
      if (length name =? 31)%nat then NBad
      else if isws c then
        if (0 <? length name)%nat && (last name 0 =? 32) then wkt_name r name nws
        else if (2 <? S nws)%nat then NSpec
        else wkt_name r (name ++ [32]) (S nws)
      else wkt_name r (name ++ [if (97 <=? c) && (c <=? 122) then c - 32 else c]) nws
  end.

(** equality of byte strings (strcmp, tg.c:11995-12001) *)
Fixpoint zlist_eqb (a b : list Z) : bool :=
  match a, b with
  | [], [] => true
  | x :: a, y :: b => (x =? y) && zlist_eqb a b
  | _, _ => false
  end.

(** tg.c:11995-12001 the type names *)
Definition wkt_type_names : list (list Z * Z) :=
  [(str "POINT", TG_POINT); (str "LINESTRING", TG_LINESTRING);
   (str "POLYGON", TG_POLYGON); (str "MULTIPOINT", TG_MULTIPOINT);
   (str "MULTILINESTRING", TG_MULTILINESTRING);
   (str "MULTIPOLYGON", TG_MULTIPOLYGON);
   (str "GEOMETRYCOLLECTION", TG_GEOMETRYCOLLECTION)].

(** tg.c:12003-12012 the length of the bad type *)
Fixpoint bad_type_len (l : list Z) : nat :=
  match l with
  | c :: r =>
      if ((65 <=? c) && (c <=? 90)) || ((97 <=? c) && (c <=? 122))
      then S (bad_type_len r) else O
  | [] => O
  end.

(** the result of wkt2type: a type, one of the three errors of
    tg.c:12692-12703, or a write outside its array *)
Inductive wtype :=
  | WType (type : Z) (z m empty : bool)
  | WMissing | WSpec | WUnknown (n : nat) | WOob.
(** tg.c:12012 -(i+1), which is -1 for i = 0 *)
Definition wkt_bad_type (l : list Z) : wtype :=
  match bad_type_len l with O => WSpec | n => WUnknown n end.

(** the last [k] bytes, name+j-k in tg.c:11970 *)
Definition lastn (k : nat) (l : list Z) : list Z := skipn (length l - k) l.
(** the bytes without the last [k], j -= k in tg.c:11971 *)
Definition dropn (k : nat) (l : list Z) : list Z := firstn (length l - k) l.

(** tg.c:11968-11975 the EMPTY suffix *)
Definition wkt_empty (name : list Z) : list Z * bool :=
  if (6 <? length name)%nat && zlist_eqb (cstr (lastn 6 name)) (str " EMPTY")
  then (dropn 6 name, true) else (name, false).
(** tg.c:11976-11993 the Z, M, ZM suffix *)
Definition wkt_zm (name : list Z) : list Z * bool * bool :=
  if (3 <? length name)%nat then
    let c1 := last name 0 in
    let c2 := last (dropn 1 name) 0 in
    let '(name, z, m) :=
      if (c2 =? 90) && (c1 =? 77) then (dropn 2 name, true, true)
      else if c1 =? 90 then (dropn 1 name, true, false)
      else if c1 =? 77 then (dropn 1 name, false, true)
      else (name, false, false) in
    (if last name 0 =? 32 then dropn 1 name else name, z, m)
  else (name, false, false).

(** tg.c:11941-12013 wkt2type *)
Definition wkt2type (l : list Z) : wtype :=
  match wkt_name l [] 0 with
  | NSpec => WSpec
  | NBad => wkt_bad_type l
  | NOob => WOob
  | NName name =>
      let '(name, empty) := wkt_empty name in
      let '(name, z, m) := wkt_zm name in
      match name with
      | [] => WMissing
      | _ =>
          match find (fun nt => zlist_eqb (cstr name) (fst nt)) wkt_type_names with
          | Some (_, t) => WType t z m empty
          | None => if existsb (Z.eqb 32) (cstr name) then WSpec else wkt_bad_type l
          end
      end
  end.

(** tg.c:12015-12034 wkt_balance_coords on the bytes behind the '(': the bytes of
    the group without its ')' and the bytes behind it.  [None] when the result is
    negative: no matching ')', or more than MAXDEPTH groups. *)
Fixpoint wkt_balance (depth maxdepth : nat) (l : list Z) : option (list Z * list Z) :=
  match l with
  | [] => None
  | c :: r =>
      if c =? 40 then
        match wkt_balance (S depth) (S maxdepth) r with
        | Some (a, b) => Some (c :: a, b)
        | None => None
        end
      else if c =? 41 then
        match depth with
        | S O => if (MAXDEPTH <? maxdepth)%nat then None else Some ([], r)
        | _ =>
            match wkt_balance (depth - 1) maxdepth r with
            | Some (a, b) => Some (c :: a, b)
            | None => None
            end
        end
      else match wkt_balance depth maxdepth r with
           | Some (a, b) => Some (c :: a, b)
           | None => None
           end
  end.
(** tg.c:12015-12034 wkt_balance_coords *)
Definition wkt_balance_coords (l : list Z) : option (list Z * list Z) := wkt_balance 1 1 l.

(** the digits skipped in tg.c:12044-12047, 12055-12058, 12069-12072 *)
Fixpoint skip_digits (l : list Z) : list Z :=
  match l with
  | c :: r => if isdig c then skip_digits r else l
  | [] => []
  end.
(** tg.c:12060-12073 the exponent *)
Definition wkt_vexp (l : list Z) : out (list Z) :=
  match l with
  | c :: r =>
      if (c =? 101) || (c =? 69) then
        match r with
        | [] => Err msg_text
        | s :: r1 =>
            let r := if (s =? 43) || (s =? 45) then r1 else r in
            match r with
            | [] => Err msg_text
            | d :: r2 => if isdig d then Ok (skip_digits r2) else Err msg_text
            end
        end
      else Ok l
  | [] => Ok []
  end.
(** tg.c:12036-12075 wkt_vnumber: the bytes behind the number *)
Definition wkt_vnumber (l : list Z) : out (list Z) :=
  match l with
  | [] => Oob
  | c :: r =>
      let l := if c =? 45 then r else l in
      match l with
      | [] => Err msg_text
      | d :: _ =>
          if negb (isdig d) && negb (d =? 46) then Err msg_text
          else
            match skip_digits l with
            | [] => Ok []
            | x :: r =>
                if x =? 46 then
                  match r with
                  | [] => Err msg_text
                  | d :: r1 => if isdig d then wkt_vexp (skip_digits r1) else Err msg_text
                  end
                else wkt_vexp (x :: r)
            end
      end
  end.

(** tg.c:12077-12087 err_for_wkt_posn *)
Definition err_for_wkt_posn (dims : nat) : list Z :=
  match dims with
  | 2%nat => str "each position must have two numbers"
  | 3%nat => str "each position must have three numbers"
  | 4%nat => str "each position must have four numbers"
  | _ => str "each position must have two to four numbers"
  end.

(** a number at the start of a slice: tg.c:12100-12106, 12171-12178.  wkt_vnumber
    and then strtod on the buffer from there on. *)
Definition wkt_number (l tail : list Z) : out (f64 * list Z) :=
  obind (wkt_vnumber l) (fun r =>
  obind (strtod_in (l ++ tail)) (fun _ =>
  Ok (fst (strtod (l ++ tail)), r))).

(** z and m to the number of dimensions, 0 when not given, e.g. tg.c:12093 *)
Definition wkt_dims (z m : bool) : nat :=
  if z then if m then 4%nat else 3%nat else if m then 3%nat else 0%nat.

(** tg.c:12099-12114 the loop of parse_wkt_point *)
Fixpoint wkt_point_nums (fuel : nat) (dims : nat) (posn : list f64) (l tail : list Z)
  : out (list f64) :=
  match fuel with
  | O => NoFuel
  | S fuel' =>
      obind (wkt_number l tail) (fun nr =>
      if (length posn <? 4)%nat then
        let posn := posn ++ [fst nr] in
        match snd nr with
        | [] => Ok posn
        | c :: _ =>
            if isws c then
              match wkt_trim_ws (snd nr) with
              | [] => Ok posn
              | r => wkt_point_nums fuel' dims posn r tail
              end
            else Err msg_text
        end
      else Err (err_for_wkt_posn dims))
  end.

(** tg.c:12089-12139 parse_wkt_point *)
Definition parse_wkt_point (l tail : list Z) (z m : bool) : out geom :=
  let dims := wkt_dims z m in
  match wkt_trim_ws l with
  | [] => Err (err_for_wkt_posn dims)
  | l =>
      obind (wkt_point_nums (S (length l)) dims [] l tail) (fun posn =>
      let pdims := length posn in
      if (if (dims =? 0)%nat then (pdims <? 2)%nat else negb (pdims =? dims)%nat)
      then Err (err_for_wkt_posn dims)
      else
        let p := posn_pt posn in
        Ok (match pdims with
            | 2%nat => tg_geom_new_point p
            | 3%nat => if m then tg_geom_new_point_m p (nth 2 posn f_zero)
                       else tg_geom_new_point_z p (nth 2 posn f_zero)
            | _ => tg_geom_new_point_zm p (nth 2 posn f_zero) (nth 3 posn f_zero)
            end))
  end.

(** tg.c:12168-12198 the numbers of one position *)
Fixpoint wkt_nums (fuel : nat) (dims : nat) (posn : list f64) (l tail : list Z)
  : out (list f64 * list Z) :=
  match l with
  | [] => Ok (posn, [])
  | c :: _ =>
      match fuel with
      | O => NoFuel
      | S fuel' =>
          if isnum c then
            obind (wkt_number l tail) (fun nr =>
            if (length posn =? 4)%nat then Err (err_for_wkt_posn dims)
            else
              let posn := posn ++ [fst nr] in
              match snd nr with
              | [] => Ok (posn, [])
              | d :: r =>
                  if isws d then
                    match wkt_trim_ws r with
                    | [] => Ok (posn, [])
                    | (x :: _) as r =>
                        if (x =? 41) || (x =? 44) then Ok (posn, r)
                        else wkt_nums fuel' dims posn r tail
                    end
                  else Ok (posn, d :: r)
              end)
          else Err msg_text
      end
  end.

(** the '(' or ')' of MULTIPOINT ((1 2),(3 4)), tg.c:12160-12167 and 12199-12205 *)
Definition wkt_xparen (xparens : bool) (c : Z) (l : list Z) : out (list Z) :=
  if xparens then
    match l with
    | d :: r => if d =? c then Ok (wkt_trim_ws r) else Err msg_text
    | [] => Err msg_text
    end
  else Ok l.

(** tg.c:12159-12232 the loop over the positions: dims and the positions *)
Fixpoint wkt_posns (fuel : nat) (xparens : bool) (dims : nat) (l tail : list Z)
  : out (nat * list (list f64)) :=
  match l with
  | [] => Ok (dims, [])
  | _ =>
      match fuel with
      | O => NoFuel
      | S fuel' =>
          obind (wkt_xparen xparens 40 l) (fun l =>
          obind (wkt_nums (S (length l)) dims [] l tail) (fun r =>
          let posn := fst r in
          obind (wkt_xparen xparens 41 (snd r)) (fun l =>
          obind (match l with
                 | [] => Ok []
                 | c :: r =>
                     if c =? 44 then
                       match wkt_trim_ws r with [] => Err msg_text | r => Ok r end
                     else Err msg_text
                 end) (fun l =>
          obind (if (dims =? length posn)%nat then Ok dims
                 else if (dims =? 0)%nat && (2 <=? length posn)%nat then Ok (length posn)
                 else Err (err_for_wkt_posn dims)) (fun dims =>
          obind (wkt_posns fuel' xparens dims l tail) (fun r =>
          Ok (fst r, posn :: snd r)))))))
      end
  end.

(** enum base as far as the parser uses it, tg.c:12154 and 8097-8122 *)
Inductive wbase := WBPoint | WBLine | WBRing.

(** tg.c:12141-12236 parse_wkt_posns: dims, the points, the extra coordinates *)
Definition parse_wkt_posns (base : wbase) (dims : nat) (l tail : list Z)
  : out (nat * list pt * list f64) :=
  let l := wkt_trim_ws l in
  let xparens := match base, l with WBPoint, 40 :: _ => true | _, _ => false end in
  obind (wkt_posns (S (length l)) xparens dims l tail) (fun r =>
  let pts := map posn_pt (snd r) in
  let x := concat (map (skipn 2) (snd r)) in
  match (match base with
         | WBPoint => None
         | WBLine => check_parse_posns false pts
         | WBRing => check_parse_posns true pts
         end) with
  | Some m => Err m
  | None => Ok (fst r, pts, x)
  end).

(** The loop over parenthesised groups in parse_wkt_multi_posns (tg.c:12245-12277),
    parse_wkt_multilinestring (12447-12481) and parse_wkt_multipolygon
    (12534-12566).  [f] reads a group: dims, what it builds, extra coordinates. *)
Fixpoint wkt_groups {A : Type} (f : nat -> list Z -> list Z -> out (nat * A * list f64))
  (fuel : nat) (dims : nat) (l tail : list Z) : out (nat * list A * list f64) :=
  match l with
  | [] => Ok (dims, [], [])
  | c :: r =>
      match fuel with
      | O => NoFuel
      | S fuel' =>
          if c =? 40 then
            match wkt_balance_coords r with
            | None => Oob
            | Some (grp, rest) =>
                obind (f dims grp (41 :: rest ++ tail)) (fun r =>
                let '(dims, a, x) := r in
                match wkt_trim_ws rest with
                | [] => Ok (dims, [a], x)
                | c :: r =>
                    if c =? 44 then
                      match wkt_trim_ws r with
                      | [] => Err msg_text
                      | r =>
                          obind (wkt_groups f fuel' dims r tail) (fun r =>
                          let '(dims, al, xs) := r in Ok (dims, a :: al, x ++ xs))
                      end
                    else Err msg_text
                end)
            end
          else Err msg_text
      end
  end.

(** one ring or line: tg.c:12254-12265, 12455-12468 *)
Definition wkt_ring (e : env) (ix : Z) (base : wbase) (dims : nat) (l tail : list Z)
  : out (nat * ring * list f64) :=
  obind (parse_wkt_posns base dims l tail) (fun r =>
  let '(dims, pts, x) := r in
  match series_new_ix e pts (match base with WBRing => true | _ => false end) ix with
  | None => Ub
  | Some ring => Ok (dims, ring, x)
  end).

(** tg.c:12238-12289 parse_wkt_multi_posns *)
Definition parse_wkt_multi_posns (e : env) (ix : Z) (dims : nat) (l tail : list Z)
  : out (nat * poly * list f64) :=
  let l := wkt_trim_ws l in
  obind (wkt_groups (wkt_ring e ix WBRing) (S (length l)) dims l tail) (fun r =>
  let '(dims, rs, x) := r in
  match rs with
  | [] => Err (str "polygons must have one or more rings")
  | r0 :: holes =>
      match tg_poly_new (Some r0) (map Some holes) (Z.of_nat (length holes)) with
      | Some (Some p) => Ok (dims, p, x)
      | _ => Oob
      end
  end).

(** the z and m of the constructor chosen by the switch over dims, e.g.
    tg.c:12310-12324 *)
Definition dims_zm (dims : nat) (m : bool) : bool * bool :=
  match dims with
  | 2%nat => (false, false)
  | 3%nat => if m then (false, true) else (true, false)
  | _ => (true, true)
  end.

(** tg.c:12291-12335 parse_wkt_linestring *)
Definition parse_wkt_linestring (e : env) (ix : Z) (l tail : list Z) (z m : bool) : out geom :=
  obind (wkt_ring e ix WBLine (wkt_dims z m) l tail) (fun r =>
  let '(dims, line, x) := r in
  let '(z, m) := dims_zm dims m in
  Ok (if z || m then tg_geom_new_linestring_x z m line x else tg_geom_new_linestring line)).

(** tg.c:12337-12386 parse_wkt_polygon *)
Definition parse_wkt_polygon (e : env) (ix : Z) (l tail : list Z) (z m : bool) : out geom :=
  obind (parse_wkt_multi_posns e ix (wkt_dims z m) l tail) (fun r =>
  let '(dims, p, x) := r in
  let '(z, m) := dims_zm dims m in
  Ok (if z || m then tg_geom_new_polygon_x z m p x else tg_geom_new_polygon p)).

(** tg.c:12388-12434 parse_wkt_multipoint *)
Definition parse_wkt_multipoint (l tail : list Z) (z m : bool) : out geom :=
  obind (parse_wkt_posns WBPoint (wkt_dims z m) l tail) (fun r =>
  let '(dims, pts, x) := r in
  let '(z, m) := dims_zm dims m in
  let g := tg_geom_new_multipoint pts in
  Ok (if z || m then fill_multi_coords z m x g else g)).

(** tg.c:12436-12519 parse_wkt_multilinestring *)
Definition parse_wkt_multilinestring (e : env) (ix : Z) (l tail : list Z) (z m : bool)
  : out geom :=
  let l := wkt_trim_ws l in
  obind (wkt_groups (wkt_ring e ix WBLine) (S (length l)) (wkt_dims z m) l tail) (fun r =>
  let '(dims, ls, x) := r in
  let '(z, m) := dims_zm dims m in
  let g := tg_geom_new_multilinestring (map Some ls) in
  Ok (if z || m then fill_multi_coords z m x g else g)).

(** tg.c:12521-12610 parse_wkt_multipolygon *)
Definition parse_wkt_multipolygon (e : env) (ix : Z) (l tail : list Z) (z m : bool)
  : out geom :=
  let l := wkt_trim_ws l in
  obind (wkt_groups (parse_wkt_multi_posns e ix) (S (length l)) (wkt_dims z m) l tail) (fun r =>
  let '(dims, ps, x) := r in
  let '(z, m) := dims_zm dims m in
  let g := tg_geom_new_multipolygon (map Some ps) in
  Ok (if z || m then fill_multi_coords z m x g else g)).

(** tg.c:12612-12620 wkt_next_geometry: the bytes of the next geometry and the
    rest; [None] when the group is not balanced *)
Fixpoint wkt_next_geometry (l : list Z) : option (list Z * list Z) :=
  match l with
  | [] => Some ([], [])
  | c :: r =>
      if c =? 44 then Some ([], l)
      else if c =? 40 then
        match wkt_balance_coords r with
        | Some (a, b) => Some (c :: a ++ [41], b)
        | None => None
        end
      else match wkt_next_geometry r with
           | Some (a, b) => Some (c :: a, b)
           | None => None
           end
  end.

(** tg.c:12633-12658 the loop of parse_wkt_geometrycollection: the children and
    the number of commas.  [child] is parse_wkt. *)
Fixpoint wkt_geoms (child : list Z -> list Z -> out geom) (fuel : nat) (l tail : list Z)
  : out (list geom * nat) :=
  match l with
  | [] => Ok ([], 0%nat)
  | _ =>
      match fuel with
      | O => NoFuel
      | S fuel' =>
          match wkt_next_geometry l with
          | None => Oob
          | Some (item, rest) =>
              obind (match item with
                     | [] => Ok []
                     | _ => obind (child item (rest ++ tail)) (fun g => Ok [g])
                     end) (fun gs =>
              match wkt_trim_ws rest with
              | [] => Ok (gs, 0%nat)
              | c :: r =>
                  if c =? 44 then
                    obind (wkt_geoms child fuel' r tail) (fun x =>
                    Ok (gs ++ fst x, S (snd x)))
                  else Err msg_text
              end)
          end
      end
  end.
(** tg.c:12624-12679 parse_wkt_geometrycollection *)
Definition parse_wkt_geometrycollection (child : list Z -> list Z -> out geom)
  (l tail : list Z) : out geom :=
  obind (wkt_geoms child (S (length l)) l tail) (fun x =>
  if (snd x + 1 =? length (fst x))%nat
  then Ok (tg_geom_new_geometrycollection (map Some (fst x)))
  else Err msg_missing).

(** tg.c:12687 the bytes before the first '(', and the rest *)
Fixpoint split_paren (l : list Z) : list Z * list Z :=
  match l with
  | c :: r => if c =? 40 then ([], l) else let (a, b) := split_paren r in (c :: a, b)
  | [] => ([], [])
  end.
(** tg.c:12689 trailing white space dropped, but never the first byte *)
Definition trim_end (l : list Z) : list Z :=
  match l with
  | [] => []
  | c :: r => c :: rev (wkt_trim_ws (rev r))
  end.

(** tg.c:12704-12714 the empty geometry of a type *)
Definition new_empty (type : Z) : geom :=
  if type =? TG_POINT then tg_geom_new_point_empty
  else if type =? TG_LINESTRING then tg_geom_new_linestring_empty
  else if type =? TG_POLYGON then tg_geom_new_polygon_empty
  else if type =? TG_MULTIPOINT then tg_geom_new_multi_empty MPoints
  else if type =? TG_MULTILINESTRING then tg_geom_new_multi_empty MLines
  else if type =? TG_MULTIPOLYGON then tg_geom_new_multi_empty MPolys
  else tg_geom_new_multi_empty MGeoms.

(** tg.c:12681-12742 parse_wkt.  [dfuel] bounds the recursion of the model. *)
Fixpoint parse_wkt (e : env) (ix : Z) (dfuel : nat) (l tail : list Z) : out geom :=
  match dfuel with
  | O => NoFuel
  | S dfuel' =>
      match l with
      | [] => Err msg_missing
      | _ =>
          let (a, rest) := split_paren (wkt_trim_ws l) in
          let name := trim_end a in
          match wkt2type name with
          | WOob => Oob
          | WMissing => Err msg_missing
          | WSpec => Err (str "invalid type specifier, expected 'Z', 'M', 'ZM', or 'EMPTY'")
          | WUnknown n => Err (str "unknown type '" ++ firstn n name ++ str "'")
          | WType type z m empty =>
              if empty then Ok (new_empty type)
              else
                match rest with
                | 40 :: r =>
                    match wkt_balance_coords r with
                    | None => Err msg_text
                    | Some (grp, after) =>
                        if forallb isws after then
                          let tail := 41 :: after ++ tail in
                          if type =? TG_POINT then parse_wkt_point grp tail z m
                          else if type =? TG_LINESTRING then
                            parse_wkt_linestring e ix grp tail z m
                          else if type =? TG_POLYGON then parse_wkt_polygon e ix grp tail z m
                          else if type =? TG_MULTIPOINT then parse_wkt_multipoint grp tail z m
                          else if type =? TG_MULTILINESTRING then
                            parse_wkt_multilinestring e ix grp tail z m
                          else if type =? TG_MULTIPOLYGON then
                            parse_wkt_multipolygon e ix grp tail z m
                          else parse_wkt_geometrycollection (parse_wkt e ix dfuel') grp tail
                        else Err msg_text
                    end
                | _ => Err msg_text
                end
          end
      end
  end.

(** tg.c:12790-12801 tg_parse_wktn_ix: the caller's buffer is the text alone *)
Definition tg_parse_wktn_ix (e : env) (ix : Z) (l : list Z) : out geom :=
  match parse_wkt e ix (S (length l)) l [] with
  | Err m => Ok (make_parse_error (str "ParseError: " ++ m))
  | x => x
  end.
