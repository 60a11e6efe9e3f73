(** * Spatial predicates of tg.c: geometries *)

From Coq Require Import ZArith Bool List.
From Verif Require Import F64 Geo Series Search RingApi Geom MultiIx Preds.
Import ListNotations.

(** how one base shape (a point, line or polygon) answers for a point, a line
    and a polygon (e.g. tg.c:5525-5531) *)
Record arms := Arms {
  on_point : pt -> out bool;
  on_line : option ring -> out bool;
  on_poly : option poly -> out bool
}.

(** tg.c:5520-5567, 5572-5619, 5624-5671, 6297-6344, 6349-6396: some child does.
    The recursion on the other geometry, shared by point_intersects_geom,
    line_intersects_geom, poly_intersects_geom, point_touches_geom and
    line_touches_geom. *)
Fixpoint some_child (a : arms) (g : geom) : out bool :=
  match g with
  | GPoint _ p => on_point a p
  | GLine _ l => on_line a (Some l)
  | GPoly _ p => on_poly a (Some p)
  | GGPoint fl p _ _ _ => if is_empty fl then Ret false else on_point a p
  | GGLine fl l _ _ => if is_empty fl then Ret false else on_line a l
  | GGPoly fl p _ _ => if is_empty fl then Ret false else on_poly a p
  | GGMulti _ fl gs _ _ =>
      if is_empty fl then Ret false
      else match gs with
      | None => Ret false
      | Some gs => any_of (map (fun c => match c with None => Ret false | Some c => some_child a c end) gs)
      end
  end.
(** tg.c:5743-5789, 5794-5840, 5845-5891, 6029-6079, 6084-6134, 6140-6248: there
    are children and each does.  Shared by the covers and contains functions. *)
Fixpoint each_child (a : arms) (g : geom) : out bool :=
  match g with
  | GPoint _ p => on_point a p
  | GLine _ l => on_line a (Some l)
  | GPoly _ p => on_poly a (Some p)
  | GGPoint fl p _ _ _ => if is_empty fl then Ret false else on_point a p
  | GGLine fl l _ _ => if is_empty fl then Ret false else on_line a l
  | GGPoly fl p _ _ => if is_empty fl then Ret false else on_poly a p
  | GGMulti _ fl gs _ _ =>
      if is_empty fl then Ret false
      else match gs with
      | None | Some [] => Ret false
      | Some gs => all_of (map (fun c => match c with None => Ret false | Some c => each_child a c end) gs)
      end
  end.
(** tg.c:5548-5567 a NULL geometry answers false *)
Definition on_geom (f : geom -> out bool) (g : option geom) : out bool :=
  match g with None => Ret false | Some g => f g end.

(** tg.c:5517-5567 point_intersects_geom *)
Definition point_intersects_geom (p : pt) : option geom -> out bool :=
  on_geom (some_child (Arms (fun q => Ret (pteq p q))
    (fun l => Ret (tg_line_covers_point l p)) (fun q => tg_poly_covers_point q p))).
(** tg.c:5569-5619 line_intersects_geom *)
Definition line_intersects_geom (l : option ring) : option geom -> out bool :=
  on_geom (some_child (Arms (fun p => Ret (tg_line_covers_point l p))
    (fun m => Ret (tg_line_intersects_line l m)) (fun q => tg_poly_intersects_line q l))).
(** tg.c:5621-5671 poly_intersects_geom *)
Definition poly_intersects_geom (q : option poly) : option geom -> out bool :=
  on_geom (some_child (Arms (tg_poly_covers_point q) (tg_poly_intersects_line q)
    (tg_poly_intersects_poly q))).

(** tg.c:5678-5686 multiiter: the answers of the children have been computed;
    the search picks the ones it visits, in its order *)
Definition multiiter (answers : list (out bool)) (st : out bool) (_ : option geom) (i : nat)
  : bool * out bool :=
  match nth i answers (Ret false) with
  | Ret false => (true, st)
  | x => (false, x)
  end.

(** tg.c:4596-4613 the index that the constructor built for the children;
    undefined when it converted an out of range double *)
Definition search_answers (g : geom) (gs : list (option geom)) (answers : list (out bool))
  : out bool :=
  match multi_inflate (map tg_geom_rect gs) with
  | None => Undef
  | Some mix =>
      snd (tg_geom_search (Some g) mix (tg_geom_rect (Some g)) (multiiter answers) (Ret false))
  end.

(** tg.c:5688-5732 base_geom_intersects_geom, tg_geom_intersects *)
Fixpoint geom_intersects (g : geom) (o : option geom) : out bool :=
  match g with
  | GPoint _ p => point_intersects_geom p o
  | GLine _ l => line_intersects_geom (Some l) o
  | GPoly _ p => poly_intersects_geom (Some p) o
  | GGPoint fl p _ _ _ => if is_empty fl then Ret false else point_intersects_geom p o
  | GGLine fl l _ _ => if is_empty fl then Ret false else line_intersects_geom l o
  | GGPoly fl p _ _ => if is_empty fl then Ret false else poly_intersects_geom p o
  | GGMulti _ fl gs _ _ =>
      if is_empty fl then Ret false
      else match gs with
      | None => Ret false
      | Some gs' =>
          search_answers g gs'
            (map (fun c => match c with None => Ret false | Some c => geom_intersects c o end) gs')
      end
  end.
(** tg.c:5713-5732 tg_geom_intersects *)
Definition tg_geom_intersects (g o : option geom) : out bool :=
  on_geom (fun g => geom_intersects g o) g.

(** tg.c:5740-5789 point_covers_geom *)
Definition point_covers_geom (p : pt) : option geom -> out bool :=
  on_geom (each_child (Arms (fun q => Ret (pteq p q)) (fun l => Ret (tg_point_covers_line p l))
    (fun q => Ret (tg_point_covers_poly p q)))).
(** tg.c:5791-5840 line_covers_geom *)
Definition line_covers_geom (l : option ring) : option geom -> out bool :=
  on_geom (each_child (Arms (fun p => Ret (tg_line_covers_point l p)) (tg_line_covers_line l)
    (tg_line_covers_poly l))).
(** tg.c:5842-5891 poly_covers_geom *)
Definition poly_covers_geom (q : option poly) : option geom -> out bool :=
  on_geom (each_child (Arms (tg_poly_covers_point q) (tg_poly_covers_line q)
    (tg_poly_covers_poly q))).
(** tg.c:6137-6169, 6229-6248 point_contains_geom *)
Definition point_contains_geom (p : pt) : option geom -> out bool :=
  on_geom (each_child (Arms (fun q => Ret (pteq p q)) (fun l => Ret (tg_point_covers_line p l))
    (fun _ => Ret false))).
(** tg.c:6081-6134 line_contains_geom *)
Definition line_contains_geom (l : option ring) : option geom -> out bool :=
  on_geom (each_child (Arms (fun p => Ret (tg_line_contains_point l p)) (tg_line_covers_line l)
    (fun _ => Ret false))).
(** tg.c:6026-6079 poly_contains_geom *)
Definition poly_contains_geom (q : option poly) : option geom -> out bool :=
  on_geom (each_child (Arms (tg_poly_contains_point q) (tg_poly_contains_line q)
    (tg_poly_covers_poly q))).

(** tg.c:5898-5908, 5956-5972 geom_covers_iter0 and geom_covers_iter (and the same
    for contains, 6177-6202): skip an empty geometry, otherwise one of the
    children of the first geometry must hold it.  The state is ctx->result. *)
Definition holds_iter (children : list (option geom -> out bool)) (st : out bool)
  (o : option geom) : out bool * bool :=
  if tg_geom_is_empty o then (st, true)
  else match any_of (map (fun f => f o) children) with
       | Ret true => (Ret true, true)
       | x => (x, false)
       end.
(** tg.c:5987-5993, 6217-6223 the loop over the other geometry *)
Definition holds_all (children : list (option geom -> out bool)) (o : option geom) : out bool :=
  fst (tg_geom_foreach (holds_iter children) (Ret false) o).

(** tg.c:5974-6018 base_geom_covers_geom, tg_geom_covers *)
Fixpoint geom_covers (g : geom) (o : option geom) {struct g} : out bool :=
  match g with
  | GPoint _ p => point_covers_geom p o
  | GLine _ l => line_covers_geom (Some l) o
  | GPoly _ p => poly_covers_geom (Some p) o
  | GGPoint fl p _ _ _ => if is_empty fl then Ret false else point_covers_geom p o
  | GGLine fl l _ _ => if is_empty fl then Ret false else line_covers_geom l o
  | GGPoly fl p _ _ => if is_empty fl then Ret false else poly_covers_geom p o
  | GGMulti _ fl gs _ _ =>
      if is_empty fl then Ret false
      else match gs with
      | None => holds_all [] o
      | Some gs =>
          holds_all (map (fun c o => match c with None => Ret false | Some c => geom_covers c o end) gs) o
      end
  end.
(** tg.c:6001-6018 tg_geom_covers *)
Definition tg_geom_covers (g o : option geom) : out bool := on_geom (fun g => geom_covers g o) g.

(** tg.c:6204-6274 base_geom_contains_geom, tg_geom_contains *)
Fixpoint geom_contains (g : geom) (o : option geom) {struct g} : out bool :=
  match g with
  | GPoint _ p => point_contains_geom p o
  | GLine _ l => line_contains_geom (Some l) o
  | GPoly _ p => poly_contains_geom (Some p) o
  | GGPoint fl p _ _ _ => if is_empty fl then Ret false else point_contains_geom p o
  | GGLine fl l _ _ => if is_empty fl then Ret false else line_contains_geom l o
  | GGPoly fl p _ _ => if is_empty fl then Ret false else poly_contains_geom p o
  | GGMulti _ fl gs _ _ =>
      if is_empty fl then Ret false
      else match gs with
      | None => holds_all [] o
      | Some gs =>
          holds_all (map (fun c o => match c with None => Ret false | Some c => geom_contains c o end) gs) o
      end
  end.
(** tg.c:6257-6274 tg_geom_contains *)
Definition tg_geom_contains (g o : option geom) : out bool := on_geom (fun g => geom_contains g o) g.

(** tg.c:6294-6344 point_touches_geom *)
Definition point_touches_geom (p : pt) : option geom -> out bool :=
  on_geom (some_child (Arms (fun _ => Ret false) (fun l => Ret (tg_point_touches_line p l))
    (fun q => Ret (tg_point_touches_poly p q)))).
(** tg.c:6346-6396 line_touches_geom *)
Definition line_touches_geom (l : option ring) : option geom -> out bool :=
  on_geom (some_child (Arms (fun p => Ret (tg_point_touches_line p l))
    (fun m => Ret (tg_line_touches_line l m)) (fun q => tg_poly_touches_line q l))).

(** tg.c:6417-6429, 6470-6481 every child that meets must touch, one has to;
    a child is its answer to touches and to intersects *)
Fixpoint touch_all (l : list (out bool * out bool)) (st : bool) : out bool :=
  match l with
  | [] => Ret st
  | (t, i) :: rest =>
      bind_out t (fun t =>
        if t then touch_all rest true
        else bind_out i (fun i => if i then Ret false else touch_all rest st))
  end.

(** tg.c:6398-6452 poly_touches_base_geom, poly_touches_geom *)
Fixpoint poly_touches (q : option poly) (g : geom) : out bool :=
  match g with
  | GPoint _ p => Ret (tg_point_touches_poly p q)
  | GLine _ l => tg_poly_touches_line q (Some l)
  | GPoly _ p => tg_poly_touches_poly q (Some p)
  | GGPoint fl p _ _ _ => if is_empty fl then Ret false else Ret (tg_point_touches_poly p q)
  | GGLine fl l _ _ => if is_empty fl then Ret false else tg_poly_touches_line q l
  | GGPoly fl p _ _ => if is_empty fl then Ret false else tg_poly_touches_poly q p
  | GGMulti _ fl gs _ _ =>
      if is_empty fl then Ret false
      else match gs with
      | None => Ret false
      | Some gs =>
          touch_all (map (fun c => (match c with None => Ret false | Some c => poly_touches q c end,
                                    poly_intersects_geom q c)) gs) false
      end
  end.
(** tg.c:6433-6452 poly_touches_geom *)
Definition poly_touches_geom (q : option poly) : option geom -> out bool := on_geom (poly_touches q).

(** tg.c:6454-6507 base_geom_touches_geom, tg_geom_touches *)
Fixpoint geom_touches (g : geom) (o : option geom) {struct g} : out bool :=
  match g with
  | GPoint _ p => point_touches_geom p o
  | GLine _ l => line_touches_geom (Some l) o
  | GPoly _ p => poly_touches_geom (Some p) o
  | GGPoint fl p _ _ _ => if is_empty fl then Ret false else point_touches_geom p o
  | GGLine fl l _ _ => if is_empty fl then Ret false else line_touches_geom l o
  | GGPoly fl p _ _ => if is_empty fl then Ret false else poly_touches_geom p o
  | GGMulti _ fl gs _ _ =>
      if is_empty fl then Ret false
      else match gs with
      | None => Ret false
      | Some gs =>
          touch_all (map (fun c => (match c with None => Ret false | Some c => geom_touches c o end,
                                    tg_geom_intersects c o)) gs) false
      end
  end.
(** tg.c:6490-6507 tg_geom_touches *)
Definition tg_geom_touches (g o : option geom) : out bool := on_geom (fun g => geom_touches g o) g.

(** ** The derived predicates *)

(** tg.c:15003-15005 tg_geom_within *)
Definition tg_geom_within (a b : option geom) : out bool := tg_geom_contains b a.
(** tg.c:14976-14978 tg_geom_equals *)
Definition tg_geom_equals (a b : option geom) : out bool :=
  bind_out (tg_geom_within a b) (fun v => if v then tg_geom_contains a b else Ret false).
(** tg.c:14983-14985 tg_geom_coveredby *)
Definition tg_geom_coveredby (a b : option geom) : out bool := tg_geom_covers b a.
(** tg.c:14991-14993 tg_geom_disjoint *)
Definition tg_geom_disjoint (a b : option geom) : out bool := out_negb (tg_geom_intersects a b).
(** tg.c:15007-15017 tg_geom_crosses and tg_geom_overlaps *)
Definition tg_geom_crosses (a b : option geom) : out bool := Ret false.
(** tg.c:15013-15017 tg_geom_overlaps *)
Definition tg_geom_overlaps (a b : option geom) : out bool := Ret false.
(** tg.c:15277-15281 tg_geom_intersects_rect *)
Definition tg_geom_intersects_rect (a : option geom) (r : rect) : out bool :=
  tg_geom_intersects a (Some (GPoly fl0 (PRing (rect_to_ring r)))).
(** tg.c:6523-6530 tg_geom_covers_point *)
Definition tg_geom_covers_point (a : option geom) (p : pt) : out bool :=
  tg_geom_covers a (Some (GPoint fl0 p)).
(** tg.c:6540-6547 tg_geom_intersects_point *)
Definition tg_geom_intersects_point (a : option geom) (p : pt) : out bool :=
  tg_geom_intersects a (Some (GPoint fl0 p)).
