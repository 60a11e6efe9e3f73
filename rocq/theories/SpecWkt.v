(** * Which shapes WKT can spell, independently of the code *)

From Coq Require Import ZArith Bool List.
From Verif Require Import F64 Geo Series RingApi Bytes Geom SpecWkb.
Import ListNotations.
Local Open Scope Z_scope.

(** Every coordinate of a shape replaced. *)
Fixpoint shape_map (h : f64 -> f64) (s : shape) : shape :=
  match s with
  | ShPoint d p => ShPoint d (map h p)
  | ShLine d ps => ShLine d (map (map h) ps)
  | ShPoly d rs => ShPoly d (map (map (map h)) rs)
  | ShPoints d ps => ShPoints d (map (map h) ps)
  | ShLines d ls => ShLines d (map (map (map h)) ls)
  | ShPolys d ps => ShPolys d (map (map (map (map h))) ps)
  | ShGeoms gs => ShGeoms (map (shape_map h) gs)
  end.

(** All coordinates of a shape. *)
Fixpoint coords_of (s : shape) : list f64 :=
  match s with
  | ShPoint _ p => p
  | ShLine _ ps | ShPoints _ ps => concat ps
  | ShPoly _ rs | ShLines _ rs => concat (concat rs)
  | ShPolys _ ps => concat (concat (concat ps))
  | ShGeoms gs => concat (map coords_of gs)
  end.

(** minus zero and plus zero are the same number *)
Definition minus_zero : f64 := 2 ^ 63.
Definition plus_zero (x : f64) : f64 := if x =? minus_zero then 0 else x.
(** a normal number or a zero *)
Definition plain_number (x : f64) : Prop := f_isnormal x = true \/ x = 0 \/ x = minus_zero.

(** The shapes that WKT can spell: positions of the right size, lines of two or
    more, rings that are closed; empty parts without Z and M. *)
Fixpoint wkt_fits (s : shape) : Prop :=
  match s with
  | ShPoint d p => (p = [] /\ d = xy) \/ posn_ok d p
  | ShLine d ps => (ps = [] /\ d = xy) \/ line_ok d ps
  | ShPoly d rs => (rs = [] /\ d = xy) \/ (rs <> [] /\ Forall (ring_ok d) rs)
  | ShPoints d ps => (ps = [] /\ d = xy) \/ (ps <> [] /\ Forall (posn_ok d) ps)
  | ShLines d ls => (ls = [] /\ d = xy) \/ (ls <> [] /\ Forall (line_ok d) ls)
  | ShPolys d ps =>
      (ps = [] /\ d = xy) \/
      (ps <> [] /\ Forall (fun rs => rs <> [] /\ Forall (ring_ok d) rs) ps)
  | ShGeoms gs =>
      (fix all (l : list shape) : Prop :=
         match l with [] => True | s :: rest => wkt_fits s /\ all rest end) gs
  end.

(** The number of parenthesised groups in the text of a shape. *)
Definition groups_in {A : Type} (f : A -> nat) (l : list A) : nat :=
  match l with [] => 0%nat | _ => S (list_sum (map f l)) end.
Fixpoint groups (s : shape) : nat :=
  match s with
  | ShPoint _ p => groups_in (fun _ => 0%nat) p
  | ShLine _ ps => groups_in (fun _ => 0%nat) ps
  | ShPoints _ ps => groups_in (fun _ => 0%nat) ps
  | ShPoly _ rs => groups_in (fun _ => 1%nat) rs
  | ShLines _ ls => groups_in (fun _ => 1%nat) ls
  | ShPolys _ ps => groups_in (fun rs => groups_in (fun _ => 1%nat) rs) ps
  | ShGeoms gs => groups_in groups gs
  end.

(** A line of no points that is not marked as empty is spelt LINESTRING(),
    which is not WKT. *)
Fixpoint no_bare_line (g : geom) : Prop :=
  match g with
  | GLine _ l => ring_pts l <> []
  | GGLine f (Some l) _ _ => is_empty f = false -> ring_pts l <> []
  | GGMulti _ _ (Some l) _ _ =>
      (fix all (l : list (option geom)) : Prop :=
         match l with
         | [] => True
         | Some g :: rest => no_bare_line g /\ all rest
         | None :: rest => all rest
         end) l
  | _ => True
  end.
