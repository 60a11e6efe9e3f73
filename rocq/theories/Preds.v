(** * Spatial predicates of tg.c: segments, rings, lines, polygons *)

From Coq Require Import ZArith Bool List.
From Verif Require Import F64 Geo Series Search RingApi Geom MultiIx.
Import ListNotations.

(** The outcome of a call: it returns; it does something C leaves undefined (a
    NULL dereference, or the out of range conversion of tg.c:2697-2698); or it
    never returns. *)
Inductive out (A : Type) := Ret (a : A) | Undef | Loops.
Arguments Ret {A} a.
Arguments Undef {A}.
Arguments Loops {A}.

(** sequencing of C statements (e.g. tg.c:2892-2902) *)
Definition bind_out {A B : Type} (x : out A) (f : A -> out B) : out B :=
  match x with Ret a => f a | Undef => Undef | Loops => Loops end.

(** a C loop or chain of || that stops at the first true (e.g. tg.c:3159-3165) *)
Fixpoint any_of (l : list (out bool)) : out bool :=
  match l with
  | [] => Ret false
  | x :: rest => bind_out x (fun b => if b then Ret true else any_of rest)
  end.
(** a C loop or chain of && that stops at the first false (e.g. tg.c:3123-3128) *)
Fixpoint all_of (l : list (out bool)) : out bool :=
  match l with
  | [] => Ret true
  | x :: rest => bind_out x (fun b => if b then all_of rest else Ret false)
  end.
(** C's logical negation (e.g. tg.c:14992) *)
Definition out_negb (x : out bool) : out bool := bind_out x (fun b => Ret (negb b)).

(** ** Stack rings *)

(** tg.c:1815-1828 rect_to_ring.  Only the five points are there. *)
Definition rect_to_ring (r : rect) : ring :=
  Ring true false true f_zero 5 4 r None None
       (map (fun i => tg_rect_point_at r i) [0; 1; 2; 3; 4]%Z).

(** tg.c:2371-2375 ring_segment_at over all segments of a series *)
Definition ring_segs (r : ring) : list seg := map (seg_at r) (seq 0 (r_nsegs r)).
(** tg.c:2323-2326 the points of a series, without the closing one *)
Definition ring_pts (r : ring) : list pt := firstn (r_npoints r) (r_points r).

(** ** Rings *)

(** tg.c:2784-2797 tg_ring_contains_point on a pointer; NULL is dereferenced *)
Definition contains_point (r : option ring) (p : pt) (edge : bool) : out pipst :=
  match r with
  | None => Undef
  | Some r => match tg_ring_contains_point r p edge with None => Undef | Some s => Ret s end
  end.
(** tg.c:2784-2797 the hit field of the result *)
Definition hits (r : option ring) (p : pt) (edge : bool) : out bool :=
  bind_out (contains_point r p edge) (fun s => Ret (fst s)).

(** tg.c:2824-2883 the five callbacks contsegiter1, 4, 2, 5 and 3: they differ
    in when a ring segment that meets [s] counts as a crossing *)
Definition contsegiter (crossing : seg -> bool) (s : seg) (st : bool) (s2 : seg) (_ : nat)
  : bool * bool :=
  if tg_segment_intersects_segment s s2 && crossing s2 then (false, true) else (true, st).
(** tg.c:1266-1272 tg_raycast(s, p) == TG_ON *)
Definition ray_on (s : seg) (p : pt) : bool := match raycast s p with ROn => true | _ => false end.
(** tg.c:2829-2840 contsegiter1 *)
Definition crossing1 (s s2 : seg) : bool := negb (ray_on s2 (sa s)) && negb (ray_on s2 (sb s)).
(** tg.c:2842-2852 contsegiter4 *)
Definition crossing4 (s s2 : seg) : bool := negb (ray_on s2 (sa s)).
(** tg.c:2854-2864 contsegiter2 *)
Definition crossing2 (s s2 : seg) : bool := negb (ray_on s2 (sb s)).
(** tg.c:2865-2877 contsegiter5 *)
Definition crossing5 (s s2 : seg) : bool := negb (ray_on s (sa s2)) && negb (ray_on s (sb s2)).
(** tg.c:2879-2888 contsegiter3 *)
Definition crossing3 (s s2 : seg) : bool := true.
(** tg.c:2957-2962 and its copies: search, then negate ctx.intersects *)
Definition no_crossing (r : ring) (s : seg) (crossing : seg -> seg -> bool) : bool :=
  negb (snd (tg_ring_search r (tg_segment_rect s) (contsegiter (crossing s) s) false)).

(** tg.c:2938-2947 the winding of the ring through the two ring segments *)
Definition pass_clockwise (ra rb : seg) : bool :=
  let c := calc_clockwise f_zero (sa ra) (sb ra) in
  let c := calc_clockwise c (sb ra) (sa rb) in
  let c := calc_clockwise c (sa rb) (sb rb) in
  let c := calc_clockwise c (sb rb) (sa ra) in
  fgt c f_zero.

(** tg.c:2911-2963 both ends of [s] on different segments [ia], [ib] of the ring *)
Definition contains_chord (r : ring) (s : seg) (ia ib : nat) : bool :=
  if (ib =? ia)%nat then true
  else
    let ra := seg_at r ia in
    let rb := seg_at r ib in
    if pteq (sa ra) (sa s) || pteq (sb ra) (sa s) || pteq (sa rb) (sa s) || pteq (sb rb) (sa s) ||
       pteq (sa ra) (sb s) || pteq (sb ra) (sb s) || pteq (sa rb) (sb s) || pteq (sb rb) (sb s)
    then true
    else
      let (ra, rb) := if (ib <? ia)%nat then (rb, ra) else (ra, rb) in
      if negb (Bool.eqb (pass_clockwise ra rb) (r_clockwise r)) then false
      else no_crossing r s crossing1.

(** tg.c:2885-3006 tg_ring_contains_segment *)
Definition tg_ring_contains_segment (o : option ring) (s : seg) (edge : bool) : out bool :=
  match o with
  | None => Undef
  | Some r =>
      if negb (tg_rect_covers_rect (r_rect r) (tg_segment_rect s)) then Ret false
      else bind_out (contains_point o (sa s) edge) (fun a =>
        if negb (fst a) then Ret false
        else if pteq (sb s) (sa s) then Ret true
        else bind_out (contains_point o (sb s) edge) (fun b =>
          if negb (fst b) then Ret false
          else if r_convex r then Ret true
          else if edge then
            match snd a, snd b with
            | Some ia, Some ib => Ret (contains_chord r s ia ib)
            | Some _, None => Ret (no_crossing r s crossing4)
            | None, Some _ => Ret (no_crossing r s crossing2)
            | None, None => Ret (no_crossing r s crossing5)
            end
          else Ret (no_crossing r s crossing3)))
  end.

(** tg.c:3008-3015 struct intersegiterctx: count, seg_a_on, seg_b_on *)
Definition interst : Type := nat * bool * bool.

(** tg.c:3017-3062 intersegiter *)
Definition intersegiter (s : seg) (edge : bool) (st : interst) (t : seg) (_ : nat)
  : bool * interst :=
  let '(count, aon, bon) := st in
  if negb (tg_segment_intersects_segment s t) then (true, st)
  else if edge then ((S count <? 2)%nat, (S count, aon, bon))
  else
    let a := sa s in let b := sb s in let c := sa t in let d := sb t in
    let ccol := collinear (px a) (py a) (px b) (py b) (px c) (py c) in
    let dcol := collinear (px a) (py a) (px b) (py b) (px d) (py d) in
    if ccol && dcol then (true, (O, aon, bon))
    else if negb aon && (pteq a c || pteq a d) then (true, (count, true, bon))
    else if negb bon && (pteq b c || pteq b d) then (true, (count, aon, true))
    else ((S count <? 2)%nat, (S count, aon, bon)).

(** tg.c:3064-3086 tg_ring_intersects_segment *)
Definition tg_ring_intersects_segment (o : option ring) (s : seg) (edge : bool) : out bool :=
  match o with
  | None => Undef
  | Some r =>
      if negb (tg_rect_intersects_rect (tg_segment_rect s) (r_rect r)) then Ret false
      else bind_out (any_of [hits o (sa s) edge; hits o (sb s) edge]) (fun inside =>
        if inside then Ret true
        else
          let '(count, _, _) :=
            snd (tg_ring_search r (tg_segment_rect s) (intersegiter s edge) (O, false, false)) in
          Ret (2 <=? count)%nat)
  end.

(** tg.c:3095-3129 tg_ring_contains_ring *)
Definition tg_ring_contains_ring (a b : option ring) (edge : bool) : out bool :=
  if line_is_empty a || line_is_empty b then Ret false
  else match a, b with
  | Some ra, Some rb =>
      if negb (tg_rect_covers_rect (r_rect ra) (r_rect rb)) then Ret false
      else if r_convex ra then all_of (map (fun p => hits a p edge) (ring_pts rb))
      else all_of (map (fun s => tg_ring_contains_segment a s edge) (ring_segs rb))
  | _, _ => Undef
  end.

(** tg.c:3139-3141 rect_area *)
Definition rect_area (r : rect) : f64 :=
  fmul (fsub (px (rmax r)) (px (rmin r))) (fsub (py (rmax r)) (py (rmin r))).

(** tg.c:3141-3167 tg_ring_intersects_ring *)
Definition tg_ring_intersects_ring (a b : option ring) (edge : bool) : out bool :=
  if line_is_empty a || line_is_empty b then Ret false
  else match a, b with
  | Some ra, Some rb =>
      if negb (tg_rect_intersects_rect (r_rect ra) (r_rect rb)) then Ret false
      else
        let (big, small) :=
          if fgt (rect_area (r_rect rb)) (rect_area (r_rect ra)) then (rb, ra) else (ra, rb) in
        any_of (map (fun s => tg_ring_intersects_segment (Some big) s edge) (ring_segs small))
  | _, _ => Undef
  end.

(** tg.c:3169-3223 tg_ring_contains_line; the last argument is respect_boundaries *)
Definition tg_ring_contains_line (a b : option ring) (edge bounds : bool) : out bool :=
  if line_is_empty a || line_is_empty b then Ret false
  else match a, b with
  | Some ra, Some rb =>
      if negb (tg_rect_covers_rect (r_rect ra) (r_rect rb)) then Ret false
      else if negb edge && bounds then
        all_of (map (fun s => all_of [tg_ring_contains_segment a s true;
                                      tg_ring_intersects_segment a s false]) (ring_segs rb))
      else all_of (map (fun s => tg_ring_contains_segment a s edge) (ring_segs rb))
  | _, _ => Undef
  end.

(** tg.c:3225-3248 tg_ring_intersects_line *)
Definition tg_ring_intersects_line (a b : option ring) (edge : bool) : out bool :=
  if line_is_empty a || line_is_empty b then Ret false
  else match a, b with
  | Some ra, Some rb =>
      if negb (tg_rect_intersects_rect (r_rect ra) (r_rect rb)) then Ret false
      else any_of (map (fun s => tg_ring_intersects_segment a s edge) (ring_segs rb))
  | _, _ => Undef
  end.

(** ** Lines *)

(** tg.c:3397-3408 line_covers_point_iter *)
Definition line_covers_point_iter (p : pt) (st : bool) (s : seg) (_ : nat) : bool * bool :=
  if tg_segment_covers_point s p then (false, true) else (true, st).
(** tg.c:3411-3418 tg_line_covers_point; searching NULL reports nothing *)
Definition tg_line_covers_point (l : option ring) (p : pt) : bool :=
  match l with
  | None => false
  | Some r => snd (tg_ring_search r (Rect p p) (line_covers_point_iter p) false)
  end.
(** tg.c:2386-2391 tg_line_segment_at at the ends of a line, [seg0] for NULL
    and for a line without segments *)
Definition line_first (l : option ring) : seg :=
  match l with Some r => if (r_nsegs r =? 0)%nat then seg0 else seg_at r 0 | None => seg0 end.
(** tg.c:2386-2391 the last segment *)
Definition line_last (l : option ring) : seg :=
  match l with
  | Some r => if (r_nsegs r =? 0)%nat then seg0 else seg_at r (r_nsegs r - 1)
  | None => seg0
  end.
(** tg.c:3420-3431 tg_line_contains_point *)
Definition tg_line_contains_point (l : option ring) (p : pt) : bool :=
  tg_line_covers_point l p &&
  negb (pteq p (sa (line_first l)) || pteq p (sb (line_last l))).
(** tg.c:1115-1123 tg_point_touches_line *)
Definition tg_point_touches_line (p : pt) (l : option ring) : bool :=
  match l with
  | None => false
  | Some r =>
      if (r_nsegs r =? 0)%nat then false
      else pteq p (sa (line_first l)) || pteq p (sb (line_last l))
  end.

(** tg.c:3473-3483 the first segment of [a], from number [k] on, that covers
    the first segment of [b] *)
Fixpoint first_covering (segs : list seg) (s : seg) (k : nat) : option nat :=
  match segs with
  | [] => None
  | x :: rest => if tg_segment_covers_segment x s then Some k else first_covering rest s (S k)
  end.

(** tg.c:3484-3501 one turn of the walk along both lines: the next (i, j), or
    the answer false.  "i--" and the "i++" of the loop cancel. *)
Definition walk_step (a b : ring) (i j : nat) : option (nat * nat) :=
  let sa_ := seg_at a j in
  let sb_ := seg_at b i in
  if tg_segment_covers_segment sa_ sb_ then Some (S i, j)
  else if pteq (sa sb_) (sa sa_) then
    match j with O => None | S j' => Some (i, j') end
  else if pteq (sa sb_) (sb sa_) then Some (i, S j)
  else Some (S i, j).

(** tg.c:3488-3503 the loop; [None] = the fuel ran out *)
Fixpoint walk (fuel : nat) (a b : ring) (i j : nat) : option bool :=
  if (i <? r_nsegs b)%nat && (j <? r_nsegs a)%nat then
    match fuel with
    | O => None
    | S f =>
        match walk_step a b i j with
        | None => Some false
        | Some (i', j') => walk f a b i' j'
        end
    end
  else Some true.

(** tg.c:3463-3504 tg_line_covers_line.  The loop has at most nsegs(a)*nsegs(b)
    different states before it ends, so a longer run repeats one and never
    ends. *)
Definition tg_line_covers_line (a b : option ring) : out bool :=
  if line_is_empty a || line_is_empty b then Ret false
  else match a, b with
  | Some ra, Some rb =>
      if negb (tg_rect_covers_rect (r_rect ra) (r_rect rb)) then Ret false
      else match first_covering (ring_segs ra) (seg_at rb 0) 0 with
      | None => Ret false
      | Some j =>
          match walk (r_nsegs ra * r_nsegs rb) ra rb 1 j with
          | None => Loops
          | Some v => Ret v
          end
      end
  | _, _ => Undef
  end.

(** tg.c:3524-3540 segment_touches0 *)
Definition segment_touches0 (s : seg) (a b : pt) : bool :=
  if negb (tg_segment_covers_point s a) then false
  else if negb (collinear (px (sa s)) (py (sa s)) (px (sb s)) (py (sb s)) (px b) (py b)) then true
  else if pteq (sa s) a then negb (tg_segment_covers_point (Seg a b) (sb s))
  else if pteq (sb s) a then negb (tg_segment_covers_point (Seg a b) (sa s))
  else false.
(** tg.c:3542-3549 any_touching *)
Definition any_touching (a : seg) (aidx ansegs : nat) (b : seg) (bidx bnsegs : nat) : bool :=
  ((aidx =? 0)%nat && segment_touches0 b (sa a) (sb a)) ||
  ((S aidx =? ansegs)%nat && segment_touches0 b (sb a) (sa a)) ||
  ((bidx =? 0)%nat && segment_touches0 a (sa b) (sb b)) ||
  ((S bidx =? bnsegs)%nat && segment_touches0 a (sb b) (sa b)).
(** tg.c:3551-3568 segment_intersects_iter with SI_INTERSECTS *)
Definition intersects_iter : pair_iter bool := fun _ _ _ _ _ => (false, true).
(** tg.c:3551-3568 segment_intersects_iter with SI_TOUCHES *)
Definition touches_iter (ansegs bnsegs : nat) : pair_iter bool := fun _ a i b j =>
  if any_touching a i ansegs b j bnsegs then (true, true) else (false, false).
(** tg.c:3570-3586 line_intersects_line, tg_line_intersects_line; the search of
    a NULL line reports nothing (2577) *)
Definition tg_line_intersects_line (a b : option ring) : bool :=
  match a, b with
  | Some ra, Some rb => snd (tg_line_line_search ra rb intersects_iter false)
  | _, _ => false
  end.
(** tg.c:3588-3590 tg_line_touches_line *)
Definition tg_line_touches_line (a b : option ring) : bool :=
  match a, b with
  | Some ra, Some rb =>
      snd (tg_line_line_search ra rb (touches_iter (r_nsegs ra) (r_nsegs rb)) false)
  | _, _ => false
  end.

(** tg.c:3874-3876 tg_poly_empty *)
Definition tg_poly_empty (p : option poly) : bool := line_is_empty (tg_poly_exterior p).
(** tg.c:3846-3861 the holes of a polygon, in order *)
Definition poly_holes (p : option poly) : list (option ring) :=
  match p with Some (PPoly _ hs) => hs | _ => [] end.

(** tg.c:3594-3607 tg_line_covers_poly; segment_to_ring is overwritten at once *)
Definition tg_line_covers_poly (l : option ring) (p : option poly) : out bool :=
  if line_is_empty l || tg_poly_empty p then Ret false
  else
    let r := tg_poly_rect p in
    if fneb (px (rmin r)) (px (rmax r)) && fneb (py (rmin r)) (py (rmax r)) then Ret false
    else tg_line_covers_line l (Some (rect_to_ring r)).

(** ** Points *)

(** tg.c:1085-1087 tg_point_covers_rect *)
Definition tg_point_covers_rect (p : pt) (r : rect) : bool := pteq (rmin r) p && pteq (rmax r) p.
(** tg.c:1097-1105 tg_point_covers_line and tg_point_contains_line *)
Definition tg_point_covers_line (p : pt) (l : option ring) : bool :=
  negb (line_is_empty l) && tg_point_covers_rect p (tg_ring_rect l).
(** tg.c:1127-1130 tg_point_covers_poly *)
Definition tg_point_covers_poly (p : pt) (q : option poly) : bool :=
  negb (tg_poly_empty q) && tg_point_covers_rect p (tg_poly_rect q).
(** tg.c:1146-1162 tg_point_touches_poly *)
Definition tg_point_touches_poly (p : pt) (q : option poly) : bool :=
  tg_line_covers_point (tg_poly_exterior q) p ||
  existsb (fun h => tg_line_covers_point h p) (poly_holes q).

(** ** Polygons *)

(** tg.c:3884-3908 poly_contains_point *)
Definition poly_contains_point (q : option poly) (p : pt) (edge : bool) : out bool :=
  match q with
  | Some (PRing r) => hits (Some r) p edge
  | _ =>
      if tg_poly_empty q then Ret false
      else bind_out (hits (tg_poly_exterior q) p edge) (fun inside =>
        if negb inside then Ret false
        else out_negb (any_of (map (fun h => hits h p (negb edge)) (poly_holes q))))
  end.
(** tg.c:3911-3913 tg_poly_covers_point, 3927-3930 tg_poly_intersects_point *)
Definition tg_poly_covers_point (q : option poly) (p : pt) : out bool := poly_contains_point q p true.
(** tg.c:3915-3917 tg_poly_contains_point *)
Definition tg_poly_contains_point (q : option poly) (p : pt) : out bool :=
  poly_contains_point q p false.

(** tg.c:3957-3971 tg_poly_covers_line and 3973-3987 tg_poly_contains_line, which
    differ in the two flags given to tg_ring_contains_line *)
Definition poly_has_line (edge bounds : bool) (q : option poly) (l : option ring) : out bool :=
  if tg_poly_empty q || line_is_empty l then Ret false
  else bind_out (tg_ring_contains_line (tg_poly_exterior q) l edge bounds) (fun inside =>
    if negb inside then Ret false
    else out_negb (any_of (map (fun h => tg_ring_intersects_line h l false) (poly_holes q)))).
(** tg.c:3957-3971 tg_poly_covers_line *)
Definition tg_poly_covers_line : option poly -> option ring -> out bool := poly_has_line true false.
(** tg.c:3973-3987 tg_poly_contains_line *)
Definition tg_poly_contains_line : option poly -> option ring -> out bool := poly_has_line false true.

(** tg.c:3991-4011 tg_poly_intersects_line *)
Definition tg_poly_intersects_line (q : option poly) (l : option ring) : out bool :=
  match q with
  | Some (PRing r) => tg_ring_intersects_line (Some r) l true
  | _ =>
      if tg_poly_empty q || line_is_empty l then Ret false
      else bind_out (tg_ring_intersects_line (tg_poly_exterior q) l true) (fun meets =>
        if negb meets then Ret false
        else out_negb (any_of (map (fun h => tg_ring_contains_line h l false false)
                                   (poly_holes q))))
  end.

(** tg.c:4015-4065 tg_poly_covers_poly *)
Definition tg_poly_covers_poly (a b : option poly) : out bool :=
  match a, b with
  | Some (PRing ra), Some (PRing rb) => tg_ring_contains_ring (Some ra) (Some rb) true
  | _, _ =>
      if tg_poly_empty a || tg_poly_empty b then Ret false
      else
        let ae := tg_poly_exterior a in
        let be := tg_poly_exterior b in
        bind_out (tg_ring_contains_ring ae be true) (fun inside =>
          if negb inside then Ret false
          else all_of (map (fun h =>
                 bind_out (tg_ring_intersects_ring h be false) (fun meets =>
                   if negb meets then Ret true
                   else any_of (map (fun h' => tg_ring_contains_ring h' h true) (poly_holes b))))
                 (poly_holes a)))
  end.

(** tg.c:4073-4109 tg_poly_intersects_poly *)
Definition tg_poly_intersects_poly (a b : option poly) : out bool :=
  match a, b with
  | Some (PRing ra), Some (PRing rb) => tg_ring_intersects_ring (Some ra) (Some rb) true
  | _, _ =>
      if tg_poly_empty a || tg_poly_empty b then Ret false
      else
        let ae := tg_poly_exterior a in
        let be := tg_poly_exterior b in
        bind_out (tg_ring_intersects_ring be ae true) (fun meets =>
          if negb meets then Ret false
          else bind_out (any_of (map (fun h => tg_ring_contains_ring h be false) (poly_holes a)))
            (fun inside =>
              if inside then Ret false
              else out_negb (any_of (map (fun h => tg_ring_contains_ring h ae false)
                                         (poly_holes b)))))
  end.

(** tg.c:4119-4133, 4167-4189 the first hole that contains a series decides
    whether it touches the polygon ([Some]); [None] = no such hole *)
Fixpoint hole_touch (inside : option ring -> out bool) (pts : list pt) (hs : list (option ring))
  : out (option bool) :=
  match hs with
  | [] => Ret None
  | h :: rest =>
      bind_out (inside h) (fun b =>
        if b then Ret (Some (existsb (tg_line_covers_point h) pts))
        else hole_touch inside pts rest)
  end.

(** tg.c:4111-4155 tg_poly_touches_line *)
Definition tg_poly_touches_line (q : option poly) (l : option ring) : out bool :=
  if negb (tg_rect_intersects_rect (tg_poly_rect q) (tg_ring_rect l)) then Ret false
  else
    let pts := match l with Some r => ring_pts r | None => [] end in
    let segs := match l with Some r => ring_segs r | None => [] end in
    bind_out (hole_touch (fun h => tg_ring_contains_line h l true false) pts (poly_holes q))
      (fun found =>
        match found with
        | Some v => Ret v
        | None =>
            let e := tg_poly_exterior q in
            if negb (existsb (tg_line_covers_point e) pts) then Ret false
            else out_negb (any_of (map (fun s => tg_ring_intersects_segment e s false) segs))
        end).

(** tg.c:4196-4217 one pass of the second loop: how many segments of the other
    ring only touch the ring; [None] = one of them goes through it *)
Fixpoint count_touches (e : option ring) (segs : list seg) (n : nat) : out (option nat) :=
  match segs with
  | [] => Ret (Some n)
  | s :: rest =>
      bind_out (tg_ring_intersects_segment e s true) (fun i0 =>
        bind_out (tg_ring_intersects_segment e s false) (fun i1 =>
          if i0 && negb i1 then count_touches e rest (S n)
          else if i0 || i1 then Ret None
          else count_touches e rest n))
  end.

(** tg.c:4157-4226 tg_poly_touches_poly *)
Definition tg_poly_touches_poly (a b : option poly) : out bool :=
  if negb (tg_rect_intersects_rect (tg_poly_rect a) (tg_poly_rect b)) then Ret false
  else
    let ae := tg_poly_exterior a in
    let be := tg_poly_exterior b in
    let pts o := match o with Some r => ring_pts r | None => [] end in
    let segs o := match o with Some r => ring_segs r | None => [] end in
    bind_out (hole_touch (fun h => tg_ring_contains_ring h be true) (pts be) (poly_holes a))
      (fun found =>
      match found with
      | Some v => Ret v
      | None =>
        bind_out (hole_touch (fun h => tg_ring_contains_ring h ae true) (pts ae) (poly_holes b))
          (fun found =>
          match found with
          | Some v => Ret v
          | None =>
            bind_out (count_touches ae (segs be) 0) (fun bt =>
            match bt with
            | None => Ret false
            | Some bt =>
              bind_out (count_touches be (segs ae) 0) (fun at_ =>
              match at_ with
              | None => Ret false
              | Some at_ =>
                if (0 <? at_)%nat || (0 <? bt)%nat
                then Ret (negb ((at_ =? length (segs ae))%nat && (bt =? length (segs be))%nat))
                else Ret false
              end)
            end)
          end)
      end).
