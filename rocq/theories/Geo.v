(** * Points, segments and rectangles of tg.c *)

From Coq Require Import ZArith Bool List.
From Verif Require Import F64.
Import ListNotations.
Local Open Scope Z_scope.

(** tg.h:16-19 struct tg_point *)
Record pt := Pt { px : f64; py : f64 }.
(** tg.h:22-25 struct tg_segment *)
Record seg := Seg { sa : pt; sb : pt }.
(** tg.h:32-35 struct tg_rect *)
Record rect := Rect { rmin : pt; rmax : pt }.

(** C zero initialiser "{ 0 }" for a point, rect, segment; e.g. tg.c:1334 *)
Definition pt0 : pt := Pt 0 0.
(** tg.h:36-39, the rectangle { 0 }, e.g. tg.c:5202 *)
Definition rect0 : rect := Rect pt0 pt0.
(** tg.h:30-33, the segment { 0 }, e.g. tg.c:6635 *)
Definition seg0 : seg := Seg pt0 pt0.

(** tg.c:836-877 collinear *)
Definition collinear (x1 y1 x2 y2 x3 y3 : f64) : bool :=
  let x1x2 := feq x1 x2 in
  let x1x3 := feq x1 x3 in
  let x2x3 := feq x2 x3 in
  let y1y2 := feq y1 y2 in
  let y1y3 := feq y1 y3 in
  let y2y3 := feq y2 y3 in
  if x1x2 then x1x3
  else if y1y2 then y1y3
  else if (x1x2 && y1y2) || (x1x3 && y1y3) || (x2x3 && y2y3) then true
  else
    let cx1 := fsub x3 x1 in
    let cy1 := fsub y3 y1 in
    let cx2 := fsub x2 x1 in
    let cy2 := fsub y2 y1 in
    let s1 := fmul cx1 cy2 in
    let s2 := fmul cy1 cx2 in
    let s3 := fsub (fdiv s1 cy2) cx1 in
    let s4 := fsub (fdiv s2 cx2) cy1 in
    let s1' := if flt s3 f_zero then f_nextdown s1
               else if fgt s3 f_zero then f_nextup s1 else s1 in
    let s2' := if flt s4 f_zero then f_nextdown s2
               else if fgt s4 f_zero then f_nextup s2 else s2 in
    eq_zero (fsub s1' s2').

(** tg.c:879-881 length *)
Definition flength (x1 y1 x2 y2 : f64) : f64 :=
  fsqrt (fadd (fmul (fsub x1 x2) (fsub x1 x2)) (fmul (fsub y1 y2) (fsub y1 y2))).

(** tg.c:1051-1053 pteq *)
Definition pteq (a b : pt) : bool := feq (px a) (px b) && feq (py a) (py b).

(** tg.c:1057-1059 tg_point_rect *)
Definition tg_point_rect (p : pt) : rect := Rect p p.

(** tg.c:1751-1754 tg_rect_covers_xy, 1758-1760 tg_rect_covers_point *)
Definition tg_rect_covers_point (r : rect) (p : pt) : bool :=
  negb (flt (px p) (px (rmin r)) || flt (py p) (py (rmin r)) ||
        fgt (px p) (px (rmax r)) || fgt (py p) (py (rmax r))).

(** tg.c:1764-1766 tg_rect_intersects_point *)
Definition tg_rect_intersects_point (r : rect) (p : pt) : bool :=
  tg_rect_covers_point r p.

(** tg.c:1770-1775 tg_rect_center *)
Definition tg_rect_center (r : rect) : pt :=
  Pt (fdiv (fadd (px (rmax r)) (px (rmin r))) f_two)
     (fdiv (fadd (py (rmax r)) (py (rmin r))) f_two).

(** tg.c:1777-1782 rect_inflate; 1796-1799 tg_rect_expand *)
Definition tg_rect_expand (r o : rect) : rect :=
  Rect (Pt (fmin0 (px (rmin r)) (px (rmin o))) (fmin0 (py (rmin r)) (py (rmin o))))
       (Pt (fmax0 (px (rmax r)) (px (rmax o))) (fmax0 (py (rmax r)) (py (rmax o)))).

(** tg.c:1784-1789 rect_inflate_point; 1806-1810 tg_rect_expand_point *)
Definition tg_rect_expand_point (r : rect) (p : pt) : rect :=
  Rect (Pt (fmin0 (px (rmin r)) (px p)) (fmin0 (py (rmin r)) (py p)))
       (Pt (fmax0 (px (rmax r)) (px p)) (fmax0 (py (rmax r)) (py p))).

(** tg.c:1285-1292 segment_fill_rect, 1296-1300 tg_segment_rect *)
Definition tg_segment_rect (s : seg) : rect :=
  Rect (Pt (fmin0 (px (sa s)) (px (sb s))) (fmin0 (py (sa s)) (py (sb s))))
       (Pt (fmax0 (px (sa s)) (px (sb s))) (fmax0 (py (sa s)) (py (sb s)))).

(** tg.c:1302-1305 rect_intersects_rect, 1309-1311 tg_rect_intersects_rect *)
Definition tg_rect_intersects_rect (a b : rect) : bool :=
  negb (fgt (px (rmin b)) (px (rmax a)) || flt (px (rmax b)) (px (rmin a)) ||
        fgt (py (rmin b)) (py (rmax a)) || flt (py (rmax b)) (py (rmin a))).

(** tg.c:1314-1317 tg_rect_covers_rect *)
Definition tg_rect_covers_rect (a b : rect) : bool :=
  negb (flt (px (rmin b)) (px (rmin a)) || fgt (px (rmax b)) (px (rmax a)) ||
        flt (py (rmin b)) (py (rmin a)) || fgt (py (rmax b)) (py (rmax a))).

(** tg.c:1167-1172 point_on_segment; 1274-1276 tg_segment_covers_point *)
Definition tg_segment_covers_point (s : seg) (p : pt) : bool :=
  if tg_rect_covers_point (tg_segment_rect s) p
  then collinear (px (sa s)) (py (sa s)) (px (sb s)) (py (sb s)) (px p) (py p)
  else false.

(** tg.c:1280-1283 tg_segment_covers_segment *)
Definition tg_segment_covers_segment (a b : seg) : bool :=
  tg_segment_covers_point a (sa b) && tg_segment_covers_point a (sb b).

(** tg.c:81-85 enum tg_raycast_result *)
Inductive ray := ROut | RIn | ROn.

(** tg.c:1174-1253 raycast, second half: everything after the early returns
    at 1178-1189 (same control flow, split only for readability) *)
Definition raycast_tail (r : rect) (a b p : pt) : ray :=
  let p := if feqb (py p) (py a) || feqb (py p) (py b)
           then Pt (px p) (f_nextup (py p)) else p in
  if flt (py p) (py a) || fgt (py p) (py b) then ROut
  else
    let slope :=
      if fge (fdiv (fsub (py p) (py a)) (fsub (px p) (px a)))
             (fdiv (fsub (py b) (py a)) (fsub (px b) (px a)))
      then RIn else ROut in
    if fgt (px a) (px b) then
      if fge (px p) (px a) then ROut
      else if fle (px p) (px b) then RIn
      else slope
    else
      if fge (px p) (px b) then ROut
      else if fle (px p) (px a) then RIn
      else slope.

(** tg.c:1190-1224 raycast, middle part *)
Definition raycast_mid (r : rect) (a b p : pt) : ray :=
  if pteq p a || pteq p b then ROn
  else if feqb (py a) (py b) && feqb (px a) (px b) then ROut
  else if feqb (py a) (py b) && feqb (py p) (py b) &&
          negb (flt (px p) (px (rmin r)) || fgt (px p) (px (rmax r))) then ROn
  else if feqb (px a) (px b) && feqb (px p) (px b) &&
          (fge (py p) (py a) && fle (py p) (py b)) then ROn
  else if collinear (px a) (py a) (px b) (py b) (px p) (py p) then
    if flt (px p) (px (rmin r)) then
      if feqb (py (rmin r)) (py (rmax r)) then ROut else ROn
    else if fgt (px p) (px (rmax r)) then ROut
    else ROn
  else raycast_tail r a b p.

(** tg.c:1174-1253 raycast *)
Definition raycast (s : seg) (p : pt) : ray :=
  let r := tg_segment_rect s in
  if flt (py p) (py (rmin r)) || fgt (py p) (py (rmax r)) then ROut
  else
    let ab := if flt (py (sb s)) (py (sa s)) then (sb s, sa s) else (sa s, sb s) in
    let mid := raycast_mid r (fst ab) (snd ab) p in
    if flt (px p) (px (rmin r)) then
      if fneb (py p) (py (rmin r)) && fneb (py p) (py (rmax r)) then RIn else mid
    else if fgt (px p) (px (rmax r)) then
      if fneb (py (rmin r)) (py (rmax r)) && fneb (px (rmin r)) (px (rmax r))
      then ROut else mid
    else mid.

(** tg.c:1367-1419 tg_segment_intersects_segment *)
Definition tg_segment_intersects_segment (s1 s2 : seg) : bool :=
  let a := sa s1 in let b := sb s1 in
  let c := sa s2 in let d := sb s2 in
  if negb (tg_rect_intersects_rect (tg_segment_rect s1) (tg_segment_rect s2))
  then false
  else if pteq a c || pteq a d || pteq b c || pteq b d then true
  else
    let cmpx := fsub (px c) (px a) in
    let cmpy := fsub (py c) (py a) in
    let rx := fsub (px b) (px a) in
    let ry := fsub (py b) (py a) in
    let cmpxr := fsub (fmul cmpx ry) (fmul cmpy rx) in
    if eq_zero cmpxr then
      (* line 1393: !((A)) || (B), as the parentheses actually group *)
      if negb (xorb (fle (fsub (px c) (px a)) f_zero) (fle (fsub (px c) (px b)) f_zero))
         || (xorb (fle (fsub (py c) (py a)) f_zero) (fle (fsub (py c) (py b)) f_zero))
      then tg_segment_covers_point s1 c || tg_segment_covers_point s1 d ||
           tg_segment_covers_point s2 a || tg_segment_covers_point s2 b
      else true
    else
      let sx := fsub (px d) (px c) in
      let sy := fsub (py d) (py c) in
      let rxs := fsub (fmul rx sy) (fmul ry sx) in
      if eq_zero rxs then false
      else
        let cmpxs := fsub (fmul cmpx sy) (fmul cmpy sx) in
        let rxsr := fdiv f_one rxs in
        let t := fmul cmpxs rxsr in
        let u := fmul cmpxr rxsr in
        fge t f_zero && fle t f_one && fge u f_zero && fle u f_one.

(** tg.c:1332-1347 tg_rect_point_at *)
Definition tg_rect_point_at (r : rect) (i : Z) : pt :=
  if i =? 0 then Pt (px (rmin r)) (py (rmin r))
  else if i =? 1 then Pt (px (rmax r)) (py (rmin r))
  else if i =? 2 then Pt (px (rmax r)) (py (rmax r))
  else if i =? 3 then Pt (px (rmin r)) (py (rmax r))
  else if i =? 4 then Pt (px (rmin r)) (py (rmin r))
  else pt0.
(** tg.c:1350-1363 tg_rect_segment_at *)
Definition tg_rect_segment_at (r : rect) (i : Z) : seg :=
  if (0 <=? i) && (i <? 4) then Seg (tg_rect_point_at r i) (tg_rect_point_at r (i + 1))
  else seg0.

(** tg.c:1490-1497 struct ixrect: four floats, held as doubles *)
Definition ixrect := rect.

(** tg.c:1528-1535 tg_rect_to_ixrect (the default, 32-bit float build) *)
Definition tg_rect_to_ixrect (r : rect) : ixrect :=
  Rect (Pt (f_to_f32 (fdown (px (rmin r)))) (f_to_f32 (fdown (py (rmin r)))))
       (Pt (f_to_f32 (fup (px (rmax r)))) (f_to_f32 (fup (py (rmax r))))).

(** tg.c:1499-1504 ixrect_expand *)
Definition ixrect_expand (r o : ixrect) : ixrect := tg_rect_expand r o.

(** tg.c:1580-1585 tg_point_to_ixpoint *)
Definition tg_point_to_ixpoint (p : pt) : pt := Pt (f_to_f32 (px p)) (f_to_f32 (py p)).

(** tg.c:1588-1595 ixrect_to_tg_rect: float to double is exact *)
Definition ixrect_to_tg_rect (r : ixrect) : rect := r.

(** tg.c:1597-1603 ixrect_intersects_ixrect *)
Definition ixrect_intersects_ixrect (a b : ixrect) : bool :=
  if fgt (py (rmin a)) (py (rmax b)) || flt (py (rmax a)) (py (rmin b)) then false
  else if fgt (px (rmin a)) (px (rmax b)) || flt (px (rmax a)) (px (rmin b)) then false
  else true.
