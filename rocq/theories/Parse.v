(** * Guessing the format: tg_parse_ix *)

From Coq Require Import ZArith Bool List.
From Verif Require Import F64 Geo Series RingApi Bytes Geom WkbParse Hex Geobin WktParse GeojsonParse.
Import ListNotations.
Local Open Scope Z_scope.

(** isspace of the C locale, tg.c:15393, 15395.  The code passes a plain char, so
    bytes from 128 on are negative where char is signed; they are taken to be in no class. *)
Definition is_space (c : Z) : bool := ((9 <=? c) && (c <=? 13)) || (c =? 32).
(** isalpha of the C locale, tg.c:15405 *)
Definition is_alpha (c : Z) : bool := ((65 <=? c) && (c <=? 90)) || ((97 <=? c) && (c <=? 122)).
(** isxdigit, tg.c:15405, 15408 *)
Definition is_xdigit (c : Z) : bool :=
  ((48 <=? c) && (c <=? 57)) || ((65 <=? c) && (c <=? 70)) || ((97 <=? c) && (c <=? 102)).

(** tg.c:15420-15430, the labels *)
Inductive format := FGeojson | FWkt | FHex | FWkb | FGeobin.

(** tg.c:15394-15402, the loop over leading spaces *)
Fixpoint after_space (s : list Z) : format :=
  match s with
  | [] => FWkt
  | c :: r => if is_space c then after_space r else if c =? 123 then FGeojson else FWkt
  end.

(** tg.c:15389-15419, the label jumped to *)
Definition guess (s : list Z) : format :=
  match s with
  | [] => FGeobin
  | c :: r =>
      if c =? 123 then FGeojson
      else if is_space c then after_space r
      else if is_alpha c || is_xdigit c then
        if forallb is_xdigit (firstn 16 s) then FHex else FWkt
      else if (c =? 0) || (c =? 1) then FWkb
      else FGeobin
  end.

(** tg.c:15384-15431 tg_parse_ix (15373-15375 tg_parse passes ix = 0); [None] is
    NULL.  The data is not NULL. *)
Definition tg_parse_ix (e : env) (ix : Z) (s : list Z) : out (option geom) :=
  match s with
  | [] => Ok None
  | _ =>
      obind (match guess s with
             | FGeojson => tg_parse_geojsonn_ix e ix s
             | FWkt => tg_parse_wktn_ix e ix s
             | FHex => tg_parse_hexn_ix e ix s
             | FWkb => tg_parse_wkb_ix e ix s
             | FGeobin => tg_parse_geobin_ix e ix s
             end) (fun g => Ok (Some g))
  end.
