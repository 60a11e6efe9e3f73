(** * Segment searches and point-in-ring of tg.c *)

From Coq Require Import ZArith Bool List.
From Verif Require Import F64 Geo Series.
Import ListNotations.

(** A C loop "for (; i < e; i++) if (!body(i)) return false" (e.g.
    tg.c:2413-2421) over the given index list, with the callback's udata threaded as state. *)
Fixpoint loop_while {A B : Type} (body : A -> B -> bool * A) (l : list B) (st : A) : bool * A :=
  match l with
  | nil => (true, st)
  | i :: rest =>
      let (ok, st') := body st i in
      if ok then loop_while body rest st' else (false, st')
  end.

(** the C index range [s, min(s+cnt, n)), e.g. tg.c:2410-2413 *)
Definition clip (s cnt n : nat) : list nat := seq s (Nat.min (s + cnt) n - s).

(** tg.c:2393-2399 segment_rect_intersects_rect *)
Definition segment_rect_intersects_rect (s : seg) (q : rect) : bool :=
  tg_rect_intersects_rect q (tg_segment_rect s).

(** tg.c:2413-2421 leaf step: report segment i when its box meets the query *)
Definition search_leaf {A : Type} (r : ring) (q : rect)
  (iter : A -> seg -> nat -> bool * A) (st : A) (i : nat) : bool * A :=
  if segment_rect_intersects_rect (seg_at r i) q then iter st (seg_at r i) i
  else (true, st).

(** tg.c:2401-2440 index_search; [lvls] are the levels from [lvl] downwards *)
Fixpoint index_search {A : Type} (r : ring) (spread : nat) (q : rect)
  (iter : A -> seg -> nat -> bool * A)
  (lvls : list (list ixrect)) (start : nat) (st : A) : bool * A :=
  match lvls with
  | nil => loop_while (search_leaf r q iter) (clip start spread (r_nsegs r)) st
  | level :: below =>
      let iq := tg_rect_to_ixrect q in
      loop_while
        (fun st i =>
           if ixrect_intersects_ixrect (nth i level rect0) iq
           then index_search r spread q iter below (i * spread) st
           else (true, st))
        (clip start spread (length level)) st
  end.

(** tg.c:2443-2460 tg_ring_search (ring and iter not NULL).  The boolean is
    "ran to the end"; the C function drops it. *)
Definition tg_ring_search {A : Type} (r : ring) (q : rect)
  (iter : A -> seg -> nat -> bool * A) (st : A) : bool * A :=
  match r_index r with
  | Some ix => index_search r (ix_spread ix) q iter (ix_levels ix) 0 st
  | None => loop_while (search_leaf r q iter) (seq 0 (r_nsegs r)) st
  end.

(** callback type of the pair searches, tg.c:2572-2573 *)
Definition pair_iter (A : Type) := A -> seg -> nat -> seg -> nat -> bool * A.

(** tg.c:2502-2514, both leaves: all pairs of the two index ranges *)
Definition rr_leaves {A : Type} (a b : ring) (iter : pair_iter A)
  (ai bi : list nat) (st : A) : bool * A :=
  loop_while (fun st i =>
    loop_while (fun st j =>
      if tg_segment_intersects_segment (seg_at a i) (seg_at b j)
      then iter st (seg_at a i) i (seg_at b j) j
      else (true, st)) bi st) ai st.

(** tg.c:2515-2531 ring_ring_ix with A at its leaves *)
Fixpoint rr_leaf_a {A : Type} (a b : ring) (iter : pair_iter A)
  (aidx aspread : nat) (lb : list (list ixrect)) (bidx bspread : nat) (st : A) : bool * A :=
  match lb with
  | nil => rr_leaves a b iter (clip aidx aspread (r_nsegs a)) (clip bidx bspread (r_nsegs b)) st
  | level :: below =>
      loop_while (fun st i =>
        loop_while (fun st j =>
          if tg_rect_intersects_rect (tg_segment_rect (seg_at a i))
               (ixrect_to_tg_rect (nth j level rect0))
          then rr_leaf_a a b iter i 1 below (j * bspread) bspread st
          else (true, st)) (clip bidx bspread (length level)) st)
        (clip aidx aspread (r_nsegs a)) st
  end.

(** tg.c:2532-2548 ring_ring_ix with B at its leaves *)
Fixpoint rr_leaf_b {A : Type} (a b : ring) (iter : pair_iter A)
  (la : list (list ixrect)) (aidx aspread bidx bspread : nat) (st : A) : bool * A :=
  match la with
  | nil => rr_leaves a b iter (clip aidx aspread (r_nsegs a)) (clip bidx bspread (r_nsegs b)) st
  | level :: below =>
      loop_while (fun st i =>
        loop_while (fun st j =>
          if tg_rect_intersects_rect (ixrect_to_tg_rect (nth i level rect0))
               (tg_segment_rect (seg_at b j))
          then rr_leaf_b a b iter below (i * aspread) aspread j 1 st
          else (true, st)) (clip bidx bspread (r_nsegs b)) st)
        (clip aidx aspread (length level)) st
  end.

(** tg.c:2486-2566 ring_ring_ix.  The C function is one recursion on the pair
    of levels; here it is split by which side has reached its leaves. *)
Fixpoint ring_ring_ix {A : Type} (a b : ring) (iter : pair_iter A)
  (la : list (list ixrect)) (aidx aspread : nat)
  (lb : list (list ixrect)) (bidx bspread : nat) (st : A) : bool * A :=
  match la, lb with
  | nil, _ => rr_leaf_a a b iter aidx aspread lb bidx bspread st
  | _, nil => rr_leaf_b a b iter la aidx aspread bidx bspread st
  | alevel :: abelow, blevel :: bbelow =>
      loop_while (fun st i =>
        loop_while (fun st j =>
          if ixrect_intersects_ixrect (nth i alevel rect0) (nth j blevel rect0)
          then ring_ring_ix a b iter abelow (i * aspread) aspread
                            bbelow (j * bspread) bspread st
          else (true, st)) (clip bidx bspread (length blevel)) st)
        (clip aidx aspread (length alevel)) st
  end.

(** tg.c:2472-2484 ring_ring_iter: [oseg]/[oidx] is ctx->seg/ctx->index *)
Definition ring_ring_iter {A : Type} (iter : pair_iter A) (swapped : bool)
  (oseg : seg) (oidx : nat) (st : A) (s : seg) (i : nat) : bool * A :=
  if tg_segment_intersects_segment s oseg then
    if swapped then iter st oseg oidx s i else iter st s i oseg oidx
  else (true, st).

(** tg.c:2571-2619 tg_ring_ring_search (arguments not NULL).  The first
    component is false when the callback stopped the search. *)
Definition tg_ring_ring_search {A : Type} (a b : ring) (iter : pair_iter A) (st : A) : bool * A :=
  if tg_ring_empty a || tg_ring_empty b ||
     negb (tg_rect_intersects_rect (r_rect a) (r_rect b))
  then (true, st)
  else match r_index a, r_index b with
  | Some ia, Some ib =>
      ring_ring_ix a b iter (ix_levels ia) 0 (ix_spread ia) (ix_levels ib) 0 (ix_spread ib) st
  | None, Some _ =>
      loop_while (fun st i =>
        let s := seg_at a i in
        tg_ring_search b (tg_segment_rect s) (ring_ring_iter iter true s i) st)
        (seq 0 (r_nsegs a)) st
  | Some _, None =>
      loop_while (fun st i =>
        let s := seg_at b i in
        tg_ring_search a (tg_segment_rect s) (ring_ring_iter iter false s i) st)
        (seq 0 (r_nsegs b)) st
  | None, None =>
      rr_leaves a b iter (seq 0 (r_nsegs a)) (seq 0 (r_nsegs b)) st
  end.

(** tg.c:2621-2630 tg_line_line_search: a line is stored as a series, the cast
    changes nothing *)
Definition tg_line_line_search {A : Type} (a b : ring) (iter : pair_iter A) (st : A) : bool * A :=
  tg_ring_ring_search a b iter st.

(** tg.c:2632-2641 tg_ring_line_search *)
Definition tg_ring_line_search {A : Type} (a b : ring) (iter : pair_iter A) (st : A) : bool * A :=
  tg_ring_ring_search a b iter st.

(** tg.c:2689-2692 struct ring_result: (hit, idx), idx None for -1 *)
Definition pipst := (bool * option nat)%type.

(** tg.c:2645-2662 pip_eval_seg_slow *)
Definition pip_eval_seg_slow (r : ring) (p : pt) (edge : bool) (st : pipst) (i : nat) : pipst :=
  match raycast (seg_at r i) p with
  | ROut => st
  | RIn => match snd st with None => (negb (fst st), None) | Some _ => st end
  | ROn => (edge, Some i)
  end.

(** tg.c:2664-2687 pip_eval_seg *)
Definition pip_eval_seg (r : ring) (p : pt) (edge : bool) (st : pipst) (i : nat) : pipst :=
  let a := sa (seg_at r i) in
  let b := sb (seg_at r i) in
  let ymin := fmin0 (py a) (py b) in
  let ymax := fmax0 (py a) (py b) in
  if flt (py p) ymin || fgt (py p) ymax then st
  else
    let xmin := fmin0 (px a) (px b) in
    let xmax := fmax0 (px a) (px b) in
    if flt (px p) xmin && (fneb (py p) ymin && fneb (py p) ymax) then
      match snd st with Some _ => st | None => (negb (fst st), None) end
    else if negb (flt (px p) xmin) && fgt (px p) xmax && (fneb ymin ymax && fneb xmin xmax)
    then st
    else pip_eval_seg_slow r p edge st i.

(** tg.c:2694-2709 ystripes_pip; [None] = undefined double to int conversion *)
Definition ystripes_pip (r : ring) (ys : ystripes) (p : pt) (edge : bool) : option pipst :=
  match ystripe_of (r_rect r) (ys_n ys) (py p) with
  | None => None
  | Some y =>
      let y := Z.min (Z.max y 0) (ys_n ys - 1) in
      Some (fold_left (pip_eval_seg r p edge) (nth (Z.to_nat y) (ys_stripes ys) [])
                      (false, None))
  end.

(** tg.c:2711-2731 standard_pip (the unrolled scan loop is one filter test) *)
Definition standard_pip (r : ring) (p : pt) (edge : bool) : pipst :=
  fold_left (fun st i =>
    let y1 := py (sa (seg_at r i)) in
    let y2 := py (sb (seg_at r i)) in
    if negb (flt (py p) (fmin0 y1 y2) || fgt (py p) (fmax0 y1 y2))
    then pip_eval_seg_slow r p edge st i else st)
    (seq 0 (r_nsegs r)) (false, None).

(** tg.c:2733-2743 branch_maybe_in *)
Definition branch_maybe_in (p : pt) (r : ixrect) : bool :=
  if flt (py p) (py (rmin r)) || fgt (py p) (py (rmax r)) then false
  else if fgt (px p) (px (rmax r)) &&
          (fneb (py (rmin r)) (py (rmax r)) && fneb (px (rmin r)) (px (rmax r)))
       then false
  else true.

(** tg.c:2745-2773 index_pip_counter *)
Fixpoint index_pip_counter (r : ring) (spread : nat) (p : pt) (edge : bool)
  (lvls : list (list ixrect)) (start : nat) (st : pipst) : pipst :=
  match lvls with
  | nil => fold_left (pip_eval_seg r p edge) (clip start spread (r_nsegs r)) st
  | level :: below =>
      let ip := tg_point_to_ixpoint p in
      fold_left (fun st i =>
        if branch_maybe_in ip (nth i level rect0)
        then index_pip_counter r spread p edge below (i * spread) st
        else st) (clip start spread (length level)) st
  end.

(** tg.c:2784-2797 tg_ring_contains_point (with tg.c:2775-2782 index_pip) *)
Definition tg_ring_contains_point (r : ring) (p : pt) (edge : bool) : option pipst :=
  if negb (tg_rect_covers_point (r_rect r) p) then Some (false, None)
  else match r_ystripes r with
  | Some ys => ystripes_pip r ys p edge
  | None =>
      match r_index r with
      | Some ix => Some (index_pip_counter r (ix_spread ix) p edge (ix_levels ix) 0 (false, None))
      | None => Some (standard_pip r p edge)
      end
  end.
