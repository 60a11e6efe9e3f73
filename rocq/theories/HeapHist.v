(** * Programs that use the library
    What a caller can do with the functions of Heap.v and HeapGeom.v: it holds
    references, makes objects from them and gives references back. *)

From Coq Require Import ZArith Bool List.
From Verif Require Import F64 Geo Series Geom MultiIx Heap HeapGeom.
Import ListNotations.
Local Open Scope Z_scope.

(** the static type of a handle: struct tg_ring or struct tg_line, struct
    tg_poly, struct tg_geom (tg.h:38-41).  Rings and lines are one type here,
    they are the same structure (tg.c:616-650). *)
Inductive okind := KRing | KPoly | KGeom.
(** equality of types (tg.h:38-41) *)
Definition okind_eqb (a b : okind) : bool :=
  match a, b with KRing, KRing | KPoly, KPoly | KGeom, KGeom => true | _, _ => false end.
(** the casts the library allows (tg.c:605-613, 639-646, 663-670) *)
Definition casts (a b : okind) : bool :=
  match a, b with KRing, _ | KPoly, KPoly | KPoly, KGeom | KGeom, KGeom => true | _, _ => false end.
(** a reference that the caller owns (tg.h:38-41) *)
Definition handle := (ptr * okind)%type.

(** An argument: NULL, a handle, or what an accessor returns, which the caller
    does not own: tg_poly_exterior, tg_poly_hole_at, tg_geom_line, tg_geom_poly,
    tg_geom_geometry_at (tg.h:102-111). *)
Inductive ref :=
  | RNull
  | RHeld (i : nat)
  | RExterior (r : ref)
  | RHole (r : ref) (j : nat)
  | RLine (r : ref)
  | RPoly (r : ref)
  | RChild (r : ref) (j : nat).

(** tg.c:3833-3839 tg_poly_exterior *)
Definition poly_exterior_mem (p : option ptr) : M (option ptr) :=
  match p with
  | None => ret None
  | Some p =>
      b <- load p ;;
      match b with
      | BRing _ _ _ _ => ret (Some p)
      | BPoly _ e _ _ => ret e
      | _ => ub
      end
  end.
(** array[j], e.g. tg.c:3860: undefined outside of the array *)
Definition array_at (a : option ptr) (j : nat) : M (option ptr) :=
  match a with
  | None => ub
  | Some a =>
      b <- load a ;;
      match b with
      | BPtrs l => match nth_error l j with Some o => ret o | None => ub end
      | _ => ub
      end
  end.
(** tg.c:3857-3861 tg_poly_hole_at *)
Definition poly_hole_mem (p : option ptr) (j : nat) : M (option ptr) :=
  match p with
  | None => ret None
  | Some p =>
      b <- load p ;;
      match b with
      | BRing _ _ _ _ => ret None
      | BPoly _ _ n hs => if (j <? n)%nat then array_at hs j else ret None
      | _ => ub
      end
  end.
(** tg.c:5308-5315 tg_geom_line; a line is an open series (tg.c:3299-3316) *)
Definition geom_line_mem (p : option ptr) : M (option ptr) :=
  match p with
  | None => ret None
  | Some p =>
      b <- load p ;;
      match b with
      | BRing _ r _ _ => ret (if r_closed r then None else Some p)
      | BGeom _ (PlLine l) _ _ _ => ret l
      | BGeom _ _ _ _ _ | BPoly _ _ _ _ | BPoint _ _ => ret None
      | _ => ub
      end
  end.
(** tg.c:5323-5331 tg_geom_poly *)
Definition geom_poly_mem (p : option ptr) : M (option ptr) :=
  match p with
  | None => ret None
  | Some p =>
      b <- load p ;;
      match b with
      | BRing _ r _ _ => ret (if r_closed r then Some p else None)
      | BPoly _ _ _ _ => ret (Some p)
      | BGeom _ (PlPoly q) _ _ _ => ret q
      | BGeom _ _ _ _ _ | BPoint _ _ => ret None
      | _ => ub
      end
  end.
(** tg.c:5461-5471 tg_geom_geometry_at, for an index less than
    tg_geom_num_geometries (5390-5398) or NULL otherwise; the missing test for
    the index that is one too large is in Geom.v *)
Definition geometry_at_mem (p : option ptr) (j : nat) : M (option ptr) :=
  match p with
  | None => ret None
  | Some p =>
      b <- load p ;;
      match b with
      | BGeom _ (PlMulti MGeoms (Some m)) _ _ _ =>
          bm <- load m ;;
          match bm with
          | BMulti gs n _ _ _ => if (j <? n)%nat then array_at gs j else ret None
          | _ => ub
          end
      | BRing _ _ _ _ | BGeom _ _ _ _ _ | BPoly _ _ _ _ | BPoint _ _ => ret None
      | _ => ub
      end
  end.

(** the value of an argument of type [k]; [None]: the argument is not of that
    type or there is no such handle, no C compiler would accept the call
    (tg.h:78-111) *)
Fixpoint eval (held : list handle) (r : ref) (k : okind) : M (option (option ptr)) :=
  let via k' r' (f : option ptr -> M (option ptr)) (res : okind) :=
    if okind_eqb res k then
      o <- eval held r' k' ;;
      match o with None => ret None | Some o => x <- f o ;; ret (Some x) end
    else ret None in
  match r with
  | RNull => ret (Some None)
  | RHeld i =>
      match nth_error held i with
      | Some (p, k') => ret (if casts k' k then Some (Some p) else None)
      | None => ret None
      end
  | RExterior r => via KPoly r poly_exterior_mem KRing
  | RHole r j => via KPoly r (fun p => poly_hole_mem p j) KRing
  | RLine r => via KGeom r geom_line_mem KRing
  | RPoly r => via KGeom r geom_poly_mem KPoly
  | RChild r j => via KGeom r (fun p => geometry_at_mem p j) KGeom
  end.
(** an array of arguments (tg.h:82-84) *)
Fixpoint evals (held : list handle) (rs : list ref) (k : okind) : M (option (list (option ptr))) :=
  match rs with
  | [] => ret (Some [])
  | r :: rs =>
      o <- eval held r k ;;
      os <- evals held rs k ;;
      ret (match o, os with Some o, Some os => Some (o :: os) | _, _ => None end)
  end.

(** the types of empty geometries (tg.c:4378-4418, 4683-4766) *)
Inductive emptyk := EPoint | ELine | EPoly | EMulti (t : mtype).
(** the union of an empty geometry (tg.c:4296-4301) *)
Definition empty_payload (e : emptyk) : payload :=
  match e with
  | EPoint => PlPoint pt0 f_zero f_zero
  | ELine => PlLine None
  | EPoly => PlPoly None
  | EMulti t => PlMulti t None
  end.

(** the _z, _m, _zm variants and their coordinates (tg.c:4797-5062) *)
Definition extra := (bool * bool * list f64)%type.

(** calls that return a new reference (tg.h:78-111) *)
Inductive build :=
  | MRing (ps : list pt) (closed : bool) (kind : ixkind) (spread : nat)  (** tg.c:2271-2275, 3312-3316 *)
  | MPoly (ext : ref) (holes : list ref) (neg : bool)                    (** tg.c:3754-3788 *)
  | MPoint (p : pt)                                                      (** tg.c:4309-4319 *)
  | MPointX (zd md : bool) (p : pt) (z m : f64)                          (** tg.c:4332-4372 *)
  | MEmpty (e : emptyk)                                                  (** tg.c:4378-4418 *)
  | MLineG (l : ref)                                                     (** tg.c:4388-4390 *)
  | MPolyG (p : ref)                                                     (** tg.c:4407-4409 *)
  | MLineX (zd md : bool) (l : ref) (coords : list f64)                  (** tg.c:4797-4844 *)
  | MPolyX (zd md : bool) (p : ref) (coords : list f64)                  (** tg.c:4851-4899 *)
  | MMPoints (ps : list pt) (x : option extra)                           (** tg.c:4663-4677, 4906-5062 *)
  | MMLines (ls : list ref) (x : option extra)                           (** tg.c:4694-4704 *)
  | MMPolys (ps : list ref) (x : option extra)                           (** tg.c:4721-4731 *)
  | MColl (gs : list ref) (x : option extra)                             (** tg.c:4748-4758 *)
  | MError (msg : list Z)                                                (** tg.c:15437-15439 *)
  | MClone (k : okind) (r : ref)                                         (** tg.c:2303-2310, 3819-3826, 5071-5078 *)
  | MCopy (k : okind) (r : ref).                                         (** tg.c:15057-15273 *)

(** the type of the new reference (tg.h:78-111) *)
Definition kind_of (b : build) : okind :=
  match b with
  | MRing _ _ _ _ => KRing
  | MPoly _ _ _ => KPoly
  | MClone k _ | MCopy k _ => k
  | _ => KGeom
  end.

(** with an evaluated argument (C function call, e.g. tg.c:4388-4390) *)
Definition call1 (held : list handle) (r : ref) (k : okind) (f : option ptr -> M (option ptr)) : M (option (option ptr)) :=
  o <- eval held r k ;;
  match o with None => ret None | Some o => x <- f o ;; ret (Some x) end.
(** with an evaluated array of arguments (C function call, e.g. tg.c:4694-4704) *)
Definition calls_ (held : list handle) (rs : list ref) (k : okind) (f : list (option ptr) -> M (option ptr)) : M (option (option ptr)) :=
  o <- evals held rs k ;;
  match o with None => ret None | Some o => x <- f o ;; ret (Some x) end.
(** the plain constructor or its _z, _m, _zm variant (tg.c:4906-5062) *)
Definition extras (x : option extra) (c : M (option ptr)) : M (option ptr) :=
  match x with None => c | Some (zd, md, coords) => with_coords c zd md coords end.
(** no argument (C function call, e.g. tg.c:4309-4319) *)
Definition call0 (c : M (option ptr)) : M (option (option ptr)) := x <- c ;; ret (Some x).

(** one call that returns a new reference or NULL; [None]: no such call is
    possible, or the conversions in process_ystripes (tg.c:1690-1715) are
    undefined, which Series.v is about *)
Definition run_build (held : list handle) (b : build) : M (option (option ptr)) :=
  match b with
  | MRing ps closed kind spread =>
      match series_new ps closed kind spread with
      | None => ret None
      | Some _ => call0 (series_new_mem ps closed kind spread)
      end
  | MPoly ext holes neg =>
      e <- eval held ext KRing ;;
      hs <- evals held holes KRing ;;
      match e, hs with
      | Some e, Some hs => call0 (tg_poly_new_mem e hs neg)
      | _, _ => ret None
      end
  | MPoint p => call0 (new_point_mem p)
  | MPointX zd md p z m => call0 (new_point_x_mem zd md p z m)
  | MEmpty e => call0 (geom_new_empty (empty_payload e))
  | MLineG l => call1 held l KRing tg_ring_clone
  | MPolyG p => call1 held p KPoly tg_poly_clone
  | MLineX zd md l coords => call1 held l KRing (fun l => new_linestring_x_mem zd md l coords)
  | MPolyX zd md p coords => call1 held p KPoly (fun p => new_polygon_x_mem zd md p coords)
  | MMPoints ps x => call0 (extras x (new_multipoint_mem ps))
  | MMLines ls x => calls_ held ls KRing (fun ls => extras x (new_multilinestring_mem ls))
  | MMPolys ps x => calls_ held ps KPoly (fun ps => extras x (new_multipolygon_mem ps))
  | MColl gs x => calls_ held gs KGeom (fun gs => extras x (new_collection_mem gs))
  | MError msg => call0 (make_parse_error_mem msg)
  | MClone KRing r => call1 held r KRing tg_ring_clone
  | MClone KPoly r => call1 held r KPoly tg_poly_clone
  | MClone KGeom r => call1 held r KGeom tg_geom_clone
  | MCopy KRing r => call1 held r KRing tg_ring_copy
  | MCopy KPoly r => call1 held r KPoly tg_poly_copy
  | MCopy KGeom r => call1 held r KGeom tg_geom_copy
  end.

(** tg_ring_copy, tg_poly_copy, tg_geom_copy (tg.c:15057-15273) *)
Definition copies_of (k : okind) : option ptr -> M (option ptr) :=
  match k with KRing => tg_ring_copy | KPoly => tg_poly_copy | KGeom => tg_geom_copy end.
(** tg_ring_clone, tg_poly_clone, tg_geom_clone (tg.c:2303-2310, 3819-3826, 5071-5078) *)
Definition clones_of (k : okind) : option ptr -> M (option ptr) :=
  match k with KRing => tg_ring_clone | KPoly => tg_poly_clone | KGeom => tg_geom_clone end.

(** giving a reference back: tg_ring_free, tg_poly_free, tg_geom_free
    (tg.c:2280-2284, 3795-3810, 5126-5147) *)
Definition free_handle (x : handle) : M unit :=
  match snd x with
  | KRing => tg_ring_free (Some (fst x))
  | KPoly => tg_poly_free (Some (fst x))
  | KGeom => tg_geom_free (Some (fst x))
  end.

(** what a program does with the library (tg.h:78-111) *)
Inductive op :=
  | OBuild (b : build)
  | OFree (i : nat)
  | ONoheap (i : nat).

(** the list without element [i] (the caller forgets a handle it gave back, tg.c:5122-5126) *)
Definition drop_nth {A : Type} (i : nat) (l : list A) : list A := firstn i l ++ skipn (S i) l.

(** one step: the handles before and after (tg.h:78-111) *)
Definition step (held : list handle) (o : op) : M (list handle) :=
  match o with
  | OBuild b =>
      r <- run_build held b ;;
      match r with
      | Some (Some p) => ret ((p, kind_of b) :: held)
      | _ => ret held
      end
  | OFree i =>
      match nth_error held i with
      | Some x => free_handle x ;;; ret (drop_nth i held)
      | None => ret held
      end
  | ONoheap i =>
      match nth_error held i with
      | Some (p, KGeom) => tg_geom_setnoheap p ;;; ret held
      | _ => ret held
      end
  end.
(** a whole history (tg.h:78-111) *)
Fixpoint run (held : list handle) (os : list op) : M (list handle) :=
  match os with
  | [] => ret held
  | o :: os => held <- step held o ;; run held os
  end.

(** memory at the start; [f k] tells whether the [k]-th tg_malloc succeeds
    (tg.c:955-957) *)
Definition start (f : nat -> bool) : heap := Heap [] f 0.
