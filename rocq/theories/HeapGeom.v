(** * Allocations: geometries
    tg.c lines 4285-4457, 4526-4613, 4663-5147, 7769-7792 and 15139-15273. *)

From Coq Require Import ZArith Bool List.
From Verif Require Import F64 Geo Series Geom MultiIx Heap.
Import ListNotations.
Local Open Scope Z_scope.

(** ** Release *)

(** tg.c:4321-4324 boxed_point_free *)
Definition boxed_point_free (p : ptr) : M unit :=
  s <- stays p ;;
  if s then ret tt else tg_free p.

(** tg.c:5080-5120 geom_free; [f] is tg_geom_free for the children *)
Definition geom_free (f : option ptr -> M unit) (p : ptr) : M unit :=
  s <- stays p ;;
  if s then ret tt else
  b <- load p ;;
  match b with
  | BGeom _ pl c _ xj =>
      match pl with
      | PlPoint _ _ _ => ret tt
      | PlLine l => tg_ring_free l
      | PlPoly q => tg_poly_free q
      | PlMulti _ None => ret tt
      | PlMulti _ (Some m) =>
          bm <- load m ;;
          match bm with
          | BMulti gs n _ ix ixg =>
              match gs with
              | None => ret tt
              | Some a =>
                  ba <- load a ;;
                  match ba with
                  | BPtrs l => if (n =? length l)%nat then free_each f l ;;; tg_free a else ub
                  | _ => ub
                  end
              end ;;;
              free_opt ix ;;;
              free_opt ixg ;;;
              tg_free m
          | _ => ub
          end
      end ;;;
      match pl with PlPoint _ _ _ => ret tt | _ => free_opt c end ;;;
      free_opt xj ;;;
      tg_free p
  | _ => ub
  end.

(** tg.c:5126-5147 tg_geom_free; [n] bounds the nesting *)
Fixpoint geom_free_fuel (n : nat) (p : option ptr) : M unit :=
  match n with
  | O => ub
  | S n =>
      match p with
      | None => ret tt
      | Some p =>
          b <- load p ;;
          match b with
          | BGeom _ _ _ _ _ => geom_free (geom_free_fuel n) p
          | BPoint _ _ => boxed_point_free p
          | BRing _ _ _ _ => tg_ring_free (Some p)
          | BPoly _ _ _ _ => tg_poly_free (Some p)
          | _ => ub
          end
      end
  end.
(** tg.c:5126-5147 tg_geom_free.  Nesting deeper than there are blocks would be
    a cycle, for which the C code does not end; it is counted as undefined. *)
Definition tg_geom_free (p : option ptr) : M unit :=
  fun h => geom_free_fuel (S (S (length (cells h)))) p h.

(** ** Copies *)

(** tg.c:15238-15248 boxed_point_copy *)
Definition boxed_point_copy (p : ptr) : M (option ptr) :=
  b <- load p ;;
  match b with
  | BPoint h x => tg_malloc (fun _ => BPoint (new_head (h_flags h)) x)
  | _ => ub
  end.

(** if (from) { to = tg_malloc(size); memcpy(to, from, size); }, e.g.
    tg.c:15195-15202: NULL for NULL; [None] when the allocation fails *)
Definition copy_opt (from : option ptr) (ok_kind : block -> bool) : M (option (option ptr)) :=
  match from with
  | None => ret (Some None)
  | Some q =>
      b <- load q ;;
      if ok_kind b then
        q2 <- tg_malloc (fun _ => b) ;;
        match q2 with Some q2 => ret (Some (Some q2)) | None => ret None end
      else ub
  end.
(** an index, tg.c:15195-15202 *)
Definition is_ix (b : block) : bool := match b with BIx _ _ => true | _ => false end.
(** an array of [n] ints, tg.c:15203-15211 *)
Definition is_ints (n : nat) (b : block) : bool :=
  match b with BInts l => (length l =? n)%nat | _ => false end.
(** an array of [n] doubles, tg.c:15215-15222 *)
Definition is_dbls (n : nat) (b : block) : bool :=
  match b with BDbls l => (length l =? n)%nat | _ => false end.
(** a string, tg.c:15223-15231 *)
Definition is_str (b : block) : bool := match b with BStr _ => true | _ => false end.

(** tg.c:15172-15212 the multi of geom_copy: false = goto fail.  [g2] is the
    new geometry with head [h2], [c] is tg_geom_copy for the children. *)
Definition multi_copy (c : option ptr -> M (option ptr)) (g2 : ptr) (h2 : head) (t : mtype)
  (m : ptr) : M bool :=
  bm <- load m ;;
  match bm with
  | BMulti gs n r ix ixg =>
      m2 <- tg_malloc (fun _ => BMulti None 0 r None None) ;;
      match m2 with
      | None => ret false
      | Some m2 =>
          store g2 (BGeom h2 (PlMulti t (Some m2)) None 0 None) ;;;
          a2 <- match gs with
                | None => ret (Some None)
                | Some a =>
                    ba <- load a ;;
                    match ba with
                    | BPtrs l =>
                        if (n =? length l)%nat then
                          a2 <- tg_malloc (fun _ => BPtrs (repeat None n)) ;;
                          match a2 with
                          | None => ret None
                          | Some a2 =>
                              store m2 (BMulti (Some a2) n r None None) ;;;
                              all <- fill_array c true a2 0 l ;;
                              if all : bool then ret (Some (Some a2)) else ret None
                          end
                        else ub
                    | _ => ub
                    end
                end ;;
          match a2 with
          | None => ret false
          | Some a2 =>
              let n2 := match a2 with Some _ => n | None => O end in
              ix2 <- copy_opt ix is_ix ;;
              match ix2 with
              | None => ret false
              | Some ix2 =>
                  store m2 (BMulti a2 n2 r ix2 None) ;;;
                  ixg2 <- copy_opt ixg (is_ints n) ;;
                  match ixg2 with
                  | None => ret false
                  | Some ixg2 => store m2 (BMulti a2 n2 r ix2 ixg2) ;;; ret true
                  end
              end
          end
      end
  | _ => ub
  end.

(** tg.c:15139-15236 geom_copy *)
Definition geom_copy (c : option ptr -> M (option ptr)) (p : ptr) : M (option ptr) :=
  b <- load p ;;
  match b with
  | BGeom h pl co nc xj =>
      let h2 := new_head (h_flags h) in
      let pl0 := match pl with
                 | PlPoint _ _ _ => PlPoint pt0 f_zero f_zero
                 | PlLine _ => PlLine None
                 | PlPoly _ => PlPoly None
                 | PlMulti t _ => PlMulti t None
                 end in
      g2 <- tg_malloc (fun _ => BGeom h2 pl0 None 0 None) ;;
      match g2 with
      | None => ret None
      | Some g2 =>
          let fail := tg_geom_free (Some g2) ;;; ret None in
          done <- match pl with
                  | PlPoint x z m => store g2 (BGeom h2 (PlPoint x z m) None 0 None) ;;; ret true
                  | PlLine l =>
                      l2 <- tg_ring_copy l ;;
                      store g2 (BGeom h2 (PlLine l2) None 0 None) ;;;
                      ret (match l2 with Some _ => true | None => false end)
                  | PlPoly q =>
                      q2 <- tg_poly_copy q ;;
                      store g2 (BGeom h2 (PlPoly q2) None 0 None) ;;;
                      ret (match q2 with Some _ => true | None => false end)
                  | PlMulti _ None => ret true
                  | PlMulti t (Some m) => multi_copy c g2 h2 t m
                  end ;;
          if done : bool then
            co2 <- match pl with PlPoint _ _ _ => ret (Some None) | _ => copy_opt co (is_dbls nc) end ;;
            match co2 with
            | None => fail
            | Some co2 =>
                bg <- load g2 ;;
                match bg with
                | BGeom _ pl2 _ _ _ =>
                    store g2 (BGeom h2 pl2 co2 (match co2 with Some _ => nc | None => O end) None) ;;;
                    xj2 <- copy_opt xj is_str ;;
                    match xj2 with
                    | None => fail
                    | Some xj2 =>
                        store g2 (BGeom h2 pl2 co2 (match co2 with Some _ => nc | None => O end) xj2) ;;;
                        ret (Some g2)
                    end
                | _ => ub
                end
            end
          else fail
      end
  | _ => ub
  end.

(** tg.c:15257-15273 tg_geom_copy; [n] bounds the nesting *)
Fixpoint geom_copy_fuel (n : nat) (p : option ptr) : M (option ptr) :=
  match n with
  | O => ub
  | S n =>
      match p with
      | None => ret None
      | Some p =>
          b <- load p ;;
          match b with
          | BGeom _ _ _ _ _ => geom_copy (geom_copy_fuel n) p
          | BPoint _ _ => boxed_point_copy p
          | BRing _ _ _ _ => tg_ring_copy (Some p)
          | BPoly _ _ _ _ => tg_poly_copy (Some p)
          | _ => ub
          end
      end
  end.
(** tg.c:15257-15273 tg_geom_copy, see [tg_geom_free] *)
Definition tg_geom_copy (p : option ptr) : M (option ptr) :=
  fun h => geom_copy_fuel (S (S (length (cells h)))) p h.

(** tg.c:5071-5078 tg_geom_clone *)
Definition tg_geom_clone (p : option ptr) : M (option ptr) :=
  match p with
  | None => tg_geom_copy None
  | Some p =>
      b <- load p ;;
      match head_of b with
      | Some h => if h_noheap h then tg_geom_copy (Some p) else rc_retain p ;;; ret (Some p)
      | None => ub
      end
  end.

(** ** Rectangles read from memory *)

(** tg.c:2339-2342 tg_ring_rect *)
Definition ring_rect_mem (p : option ptr) : M rect :=
  match p with
  | None => ret rect0
  | Some p => b <- load p ;; match b with BRing _ r _ _ => ret (r_rect r) | _ => ub end
  end.
(** tg.c:3880-3882 tg_poly_rect with 3833-3839 tg_poly_exterior *)
Definition poly_rect_mem (p : option ptr) : M rect :=
  match p with
  | None => ret rect0
  | Some p =>
      b <- load p ;;
      match b with
      | BRing _ r _ _ => ret (r_rect r)
      | BPoly _ e _ _ => ring_rect_mem e
      | _ => ub
      end
  end.
(** tg.c:5201-5217 tg_geom_rect, 5176-5194 geom_rect *)
Definition geom_rect_mem (p : option ptr) : M rect :=
  match p with
  | None => ret rect0
  | Some p =>
      b <- load p ;;
      match b with
      | BPoint _ x => ret (tg_point_rect x)
      | BRing _ r _ _ => ret (r_rect r)
      | BPoly _ e _ _ => ring_rect_mem e
      | BGeom _ pl _ _ _ =>
          match pl with
          | PlPoint x _ _ => ret (tg_point_rect x)
          | PlLine l => ring_rect_mem l
          | PlPoly q => poly_rect_mem q
          | PlMulti _ None => ret rect0
          | PlMulti _ (Some m) =>
              bm <- load m ;;
              match bm with BMulti _ _ r _ _ => ret r | _ => ub end
          end
      | _ => ub
      end
  end.
(** the rectangles of the children, tg.c:4601-4604 *)
Fixpoint rects_mem (l : list (option ptr)) : M (list rect) :=
  match l with
  | [] => ret []
  | p :: rest => r <- geom_rect_mem p ;; rs <- rects_mem rest ;; ret (r :: rs)
  end.

(** ** Constructors *)

(** tg.c:4285-4294 geom_new; [pl] is the union after memset, for the type *)
Definition geom_new (f : flags) (pl : payload) : M (option ptr) :=
  tg_malloc (fun _ => BGeom (new_head f) pl None 0 None).
(** tg.c:4296-4301 geom_new_empty and the empty geometries 4378, 4397, 4416,
    4683, 4710, 4737, 4764 *)
Definition geom_new_empty (pl : payload) : M (option ptr) := geom_new fl_empty pl.
(** tg.c:4309-4319 tg_geom_new_point *)
Definition new_point_mem (p : pt) : M (option ptr) := tg_malloc (fun _ => BPoint (new_head fl0) p).
(** tg.c:4332-4372 tg_geom_new_point_z, _m and _zm; a missing coordinate is 0 *)
Definition new_point_x_mem (zd md : bool) (p : pt) (z m : f64) : M (option ptr) :=
  geom_new (fl_zm zd md) (PlPoint p (if zd then z else f_zero) (if md then m else f_zero)).

(** tg.c:4768-4787 fill_extra_coords *)
Definition fill_extra_coords (g : ptr) (coords : list f64) (f : flags) : M (option ptr) :=
  b <- load g ;;
  match b with
  | BGeom h pl _ _ xj =>
      let h2 := Head (h_rc h) (h_noheap h) f in
      match coords with
      | [] => store g (BGeom h2 pl None 0 xj) ;;; ret (Some g)
      | _ =>
          store g (BGeom h2 pl None (length coords) xj) ;;;
          c <- tg_malloc (fun _ => BDbls coords) ;;
          match c with
          | None => tg_geom_free (Some g) ;;; ret None
          | Some c => store g (BGeom h2 pl (Some c) (length coords) xj) ;;; ret (Some g)
          end
      end
  | _ => ub
  end.

(** tg.c:4797-4844 tg_geom_new_linestring_z, _m, _zm *)
Definition new_linestring_x_mem (zd md : bool) (l : option ptr) (coords : list f64) : M (option ptr) :=
  g <- geom_new fl0 (PlLine None) ;;
  match g with
  | None => ret None
  | Some g =>
      l2 <- tg_ring_clone l ;;
      store g (BGeom (new_head fl0) (PlLine l2) None 0 None) ;;;
      fill_extra_coords g coords (fl_zm zd md)
  end.
(** tg.c:4851-4899 tg_geom_new_polygon_z, _m, _zm *)
Definition new_polygon_x_mem (zd md : bool) (p : option ptr) (coords : list f64) : M (option ptr) :=
  g <- geom_new fl0 (PlPoly None) ;;
  match g with
  | None => ret None
  | Some g =>
      p2 <- tg_poly_clone p ;;
      store g (BGeom (new_head fl0) (PlPoly p2) None 0 None) ;;;
      fill_extra_coords g coords (fl_zm zd md)
  end.

(** tg.c:4420-4457 geom_new_multi.  The answer also has geom->multi and
    multi->geoms, multi->index and multi->ixgeoms, which the callers read back
    from the object.  [ngeoms] is not negative (4421).  What
    malloc leaves in ixgeoms is shown as zeros, the index has no levels yet.  Simplification: tg_malloc(0) is not NULL
    unless it fails. *)
Definition geom_new_multi (t : mtype) (n : nat)
  : M (option (ptr * ptr * ptr * option (ptr * ptr))) :=
  g <- geom_new fl0 (PlMulti t None) ;;
  match g with
  | None => ret None
  | Some g =>
      m <- tg_malloc (fun _ => BMulti None 0 rect0 None None) ;;
      match m with
      | None => tg_free g ;;; ret None
      | Some m =>
          store g (BGeom (new_head fl0) (PlMulti t (Some m)) None 0 None) ;;;
          a <- tg_malloc (fun _ => BPtrs (repeat None n)) ;;
          match a with
          | None => tg_free m ;;; tg_free g ;;; ret None
          | Some a =>
              store m (BMulti (Some a) n rect0 None None) ;;;
              if (multi_spread * 2 <=? n)%nat then
                ix <- tg_malloc (fun self => BIx (Index multi_spread []) self) ;;
                ixg <- tg_malloc (fun _ => BInts (repeat O n)) ;;
                match ix, ixg with
                | Some ix, Some ixg =>
                    store m (BMulti (Some a) n rect0 (Some ix) (Some ixg)) ;;;
                    ret (Some (g, m, a, Some (ix, ixg)))
                | _, _ =>
                    free_opt ix ;;; free_opt ixg ;;; tg_free a ;;; tg_free m ;;; tg_free g ;;; ret None
                end
              else ret (Some (g, m, a, None))
          end
      end
  end.

(** tg.c:4532-4546 the order of the children.  Simplification: where the
    conversions of tg_point_hilbert (4509-4513) are undefined, which MultiIx.v
    is about, the order is that of the array; the use of memory does not depend
    on it. *)
Definition order_of (rs : list rect) : list nat :=
  match multi_order rs (multi_rect rs) with
  | Some order => order
  | None => seq 0 (length rs)
  end.

(** tg.c:4596-4613 multi_geom_inflate_rect with 4526-4594
    multi_geom_inflate_index *)
Definition multi_geom_inflate_rect (g m a : ptr) (ix : option (ptr * ptr)) : M (option ptr) :=
  ba <- load a ;;
  match ba with
  | BPtrs l =>
      rs <- rects_mem l ;;
      match ix with
      | None => store m (BMulti (Some a) (length l) (multi_rect rs) None None) ;;; ret (Some g)
      | Some (ix, ixg) =>
          store m (BMulti (Some a) (length l) (multi_rect rs) (Some ix) (Some ixg)) ;;;
          hs <- tg_malloc (fun _ => BInts []) ;;
          match hs with
          | None => tg_geom_free (Some g) ;;; ret None
          | Some hs =>
              store ixg (BInts (order_of rs)) ;;;
              tg_free hs ;;;
              store ix (BIx (multi_levels rs (order_of rs)) ix) ;;;
              ret (Some g)
          end
      end
  | _ => ub
  end.

(** tg.c:4663-4677 tg_geom_new_multipoint ([must]: the answer NULL of [f] ends
    it), 4694-4704 tg_geom_new_multilinestring, 4721-4731
    tg_geom_new_multipolygon and 4748-4758 tg_geom_new_geometrycollection *)
Definition new_multi_mem {A : Type} (t : mtype) (f : A -> M (option ptr)) (must : bool) (l : list A)
  : M (option ptr) :=
  q <- geom_new_multi t (length l) ;;
  match q with
  | None => ret None
  | Some (g, m, a, ix) =>
      all <- fill_array f must a 0 l ;;
      if all : bool then multi_geom_inflate_rect g m a ix
      else tg_geom_free (Some g) ;;; ret None
  end.
(** tg.c:4663-4677 tg_geom_new_multipoint *)
Definition new_multipoint_mem (ps : list pt) : M (option ptr) :=
  new_multi_mem MPoints new_point_mem true ps.
(** tg.c:4694-4704 tg_geom_new_multilinestring *)
Definition new_multilinestring_mem (ls : list (option ptr)) : M (option ptr) :=
  new_multi_mem MLines tg_ring_clone false ls.
(** tg.c:4721-4731 tg_geom_new_multipolygon *)
Definition new_multipolygon_mem (ps : list (option ptr)) : M (option ptr) :=
  new_multi_mem MPolys tg_poly_clone false ps.
(** tg.c:4748-4758 tg_geom_new_geometrycollection *)
Definition new_collection_mem (gs : list (option ptr)) : M (option ptr) :=
  new_multi_mem MGeoms tg_geom_clone false gs.
(** tg.c:4906-5062 the _z, _m and _zm variants of the multi constructors [c] *)
Definition with_coords (c : M (option ptr)) (zd md : bool) (coords : list f64) : M (option ptr) :=
  g <- c ;;
  match g with
  | None => ret None
  | Some g => fill_extra_coords g coords (fl_zm zd md)
  end.

(** tg.c:7769-7792 make_parse_error, 15437-15439 tg_geom_new_error *)
Definition make_parse_error_mem (msg : list Z) : M (option ptr) :=
  e <- tg_malloc (fun _ => BStr msg) ;;
  match e with
  | None => ret None
  | Some e =>
      g <- geom_new_empty (PlPoint pt0 f_zero f_zero) ;;
      match g with
      | None => tg_free e ;;; ret None
      | Some g =>
          store g (BGeom (new_head fl_err) (PlPoint pt0 f_zero f_zero) None 0 (Some e)) ;;;
          ret (Some g)
      end
  end.
