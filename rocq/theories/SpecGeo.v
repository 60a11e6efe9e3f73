(** * Specification vocabulary for points, rectangles and segments

    Only the C comparison operators on doubles ([fle], [feqb]) and plain lists
    are used here; nothing below refers to the modelled library functions. *)

From Coq Require Import ZArith Bool List Lia.
From Verif Require Import F64 Geo.
Import ListNotations.

(** a 64-bit pattern that is not a NaN *)
Definition real_or_inf (x : f64) : Prop := (0 <= x < 2 ^ 64)%Z /\ feqb x x = true.
Definition point_ok (p : pt) : Prop := real_or_inf (px p) /\ real_or_inf (py p).
Definition points_ok (ps : list pt) : Prop := forall p, In p ps -> point_ok p.
Definition rectangle_ok (r : rect) : Prop := point_ok (rmin r) /\ point_ok (rmax r).
Definition segment_ok (s : seg) : Prop := point_ok (sa s) /\ point_ok (sb s).
(** a rectangle whose sides are in order *)
Definition ordered (r : rect) : Prop :=
  fle (px (rmin r)) (px (rmax r)) = true /\ fle (py (rmin r)) (py (rmax r)) = true.

Definition between (a b x : f64) : Prop :=
  (fle a x = true /\ fle x b = true) \/ (fle b x = true /\ fle x a = true).

(** p is in the closed rectangle r *)
Definition in_rect (r : rect) (p : pt) : Prop :=
  fle (px (rmin r)) (px p) = true /\ fle (px p) (px (rmax r)) = true /\
  fle (py (rmin r)) (py p) = true /\ fle (py p) (py (rmax r)) = true.

(** p is in the bounding box of the segment *)
Definition in_box (s : seg) (p : pt) : Prop :=
  between (px (sa s)) (px (sb s)) (px p) /\ between (py (sa s)) (py (sb s)) (py p).

(** the segment's bounding box and the rectangle have a common point *)
Definition box_meets (s : seg) (q : rect) : Prop :=
  exists p, point_ok p /\ in_box s p /\ in_rect q p.

(** numerically equal points (so -0 equals 0) *)
Definition same_point (a b : pt) : bool := feqb (px a) (px b) && feqb (py a) (py b).

(** consecutive pairs *)
Fixpoint pairs (ps : list pt) : list seg :=
  match ps with
  | a :: ((b :: _) as rest) => Seg a b :: pairs rest
  | _ => []
  end.
(** the points followed by the first one, unless it is already repeated at the end *)
Definition close_points (ps : list pt) : list pt :=
  match ps with
  | [] => []
  | a :: _ => if same_point (last ps a) a then ps else ps ++ [a]
  end.
(** segments of a line, and of a ring (a ring of less than 3 points has none) *)
Definition line_segments (ps : list pt) : list seg := pairs ps.
Definition ring_segments (ps : list pt) : list seg :=
  if (length ps <? 3)%nat then [] else pairs (close_points ps).
Definition series_segments (closed : bool) (ps : list pt) : list seg :=
  if closed then ring_segments ps else line_segments ps.

(** run a callback over a list until it answers false; false = it stopped us *)
Fixpoint run_callback {A X : Type} (cb : A -> X -> bool * A) (l : list X) (st : A) : bool * A :=
  match l with
  | [] => (true, st)
  | x :: rest => let (go, st') := cb st x in if go then run_callback cb rest st' else (false, st')
  end.

(** the list of (index, element) pairs satisfying P, in increasing index order *)
Inductive selects {X : Type} (P : X -> Prop) : nat -> list X -> list (nat * X) -> Prop :=
| sel_nil i : selects P i [] []
| sel_take i x l r : P x -> selects P (S i) l r -> selects P i (x :: l) ((i, x) :: r)
| sel_skip i x l r : ~ P x -> selects P (S i) l r -> selects P i (x :: l) r.

(** p is inside the bounding rectangle of the points *)
Definition in_bounds (ps : list pt) (p : pt) : bool :=
  existsb (fun q => fle (px q) (px p)) ps && existsb (fun q => fle (px p) (px q)) ps &&
  existsb (fun q => fle (py q) (py p)) ps && existsb (fun q => fle (py p) (py q)) ps.

(** index of the last segment the point lies on, according to the ray test of
    a single segment *)
Fixpoint last_on (i : nat) (segs : list seg) (p : pt) : option nat :=
  match segs with
  | [] => None
  | s :: rest =>
      match last_on (S i) rest p with
      | Some j => Some j
      | None => match raycast s p with ROn => Some i | _ => None end
      end
  end.
(** number of segments crossed by the ray from p *)
Fixpoint crossings (segs : list seg) (p : pt) : nat :=
  match segs with
  | [] => 0
  | s :: rest => (match raycast s p with RIn => 1 | _ => 0 end + crossings rest p)%nat
  end.
(** even-odd rule: (inside?, border segment) *)
Definition point_in_segments (segs : list seg) (p : pt) (edge : bool) : bool * option nat :=
  match last_on 0 segs p with
  | Some i => (edge, Some i)
  | None => (Nat.odd (crossings segs p), None)
  end.

(** first point repeated at the end *)
Definition explicitly_closed (ps : list pt) : Prop :=
  exists a, hd_error ps = Some a /\ same_point (last ps a) a = true.
