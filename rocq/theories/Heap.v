(** * Allocations: blocks, reference counts, rings and polygons
    tg.c lines 545-750, 2143-2310, 3754-3826 and 15057-15137. *)

From Coq Require Import ZArith Bool List.
From Verif Require Import F64 Geo Series Geom MultiIx.
Import ListNotations.
Local Open Scope Z_scope.

(** the result of tg_malloc (tg.c:955-957) that is not NULL: blocks are
    numbered in the order of allocation, and no number is used twice *)
Definition ptr := nat.

(** tg.c:585-591 struct head.  base and type follow from the kind of block. *)
Record head := Head { h_rc : Z; h_noheap : bool; h_flags : flags }.

(** tg.c:725-730 the first union of struct tg_geom; the member follows from
    head.type *)
Inductive payload :=
  | PlPoint (p : pt) (z m : f64)
  | PlLine (l : option ptr)
  | PlPoly (p : option ptr)
  | PlMulti (t : mtype) (m : option ptr).

(** What one allocation holds.  A pointer field is an [option ptr], NULL is [None].
    - [BRing]: tg.c:616-628 struct tg_ring with its points and, when it has one,
      its index (2184-2198).  [ix] is the block that ring->index points into.
      [r_index] of the ring is the index data in this allocation, and
      [r_ystripes] is not used: they are in the block [ys].
    - [BYs]: tg.c:1668-1672 struct ystripes; [base] is the block that the
      pointers stripes[i].indexes (1722) point into.
    - [BPoly]: tg.c:672-677 struct tg_poly.
    - [BPtrs]: an array of pointers, poly->holes or multi->geoms.
    - [BPoint]: tg.c:747-750 struct boxed_point.
    - [BGeom]: tg.c:723-745 struct tg_geom.
    - [BMulti]: tg.c:679-685 struct multi.
    - [BIx]: tg.c:1573-1578 struct index of a multi; [base] is the block that
      levels[i].rects (2138) point into.
    - [BInts], [BDbls], [BStr]: int, double and char arrays. *)
Inductive block :=
  | BRing (h : head) (r : ring) (ix ys : option ptr)
  | BYs (y : ystripes) (base : ptr)
  | BPoly (h : head) (ext : option ptr) (nholes : nat) (holes : option ptr)
  | BPtrs (l : list (option ptr))
  | BPoint (h : head) (p : pt)
  | BGeom (h : head) (pl : payload) (coords : option ptr) (ncoords : nat) (xj : option ptr)
  | BMulti (geoms : option ptr) (ngeoms : nat) (r : rect) (ix ixgeoms : option ptr)
  | BIx (i : index) (base : ptr)
  | BInts (l : list nat)
  | BDbls (l : list f64)
  | BStr (s : list Z).

(** memory: block [i] is element [i], [None] once it is freed.  [ok k] tells
    whether the [k]-th call of tg_malloc (tg.c:955-957) succeeds, [calls] counts them. *)
Record heap := Heap { cells : list (option block); ok : nat -> bool; calls : nat }.

(** a program; [None] is undefined behaviour: a block that is not allocated (any
    more) is read, written or freed, or it is of a different kind (compare the
    pointers of tg.c:723-745) *)
Definition M (A : Type) := heap -> option (A * heap).
(** C: the value of an expression without an effect (e.g. tg.c:2282) *)
Definition ret {A} (x : A) : M A := fun h => Some (x, h).
(** C: one statement after the other (e.g. tg.c:2282-2283) *)
Definition bind {A B} (m : M A) (k : A -> M B) : M B :=
  fun h => match m h with Some (x, h') => k x h' | None => None end.
(** C: statements in sequence, the first one's value named (e.g. tg.c:2188) *)
Notation "x <- m ;; k" := (bind m (fun x => k)) (at level 61, m at next level, right associativity).
(** C: statements in sequence (e.g. tg.c:2282-2283) *)
Notation "m ;;; k" := (bind m (fun _ => k)) (at level 61, right associativity).
(** undefined behaviour, e.g. of tg.c:5096 with a dangling geom->multi *)
Definition ub {A} : M A := fun _ => None.

(** the block at an address, if it is allocated (C object lifetime, e.g. tg.c:2281) *)
Definition get (h : heap) (p : ptr) : option block := nth p (cells h) None.
(** memory with element [p] replaced (C assignment through a pointer, e.g. tg.c:2193) *)
Definition upd (h : heap) (p : ptr) (b : option block) : heap :=
  Heap (firstn p (cells h) ++ b :: skipn (S p) (cells h)) (ok h) (calls h).

(** reading through a pointer, e.g. tg.c:2281 *)
Definition load (p : ptr) : M block :=
  fun h => match get h p with Some b => Some (b, h) | None => None end.
(** writing through a pointer, e.g. tg.c:2193 *)
Definition store (p : ptr) (b : block) : M unit :=
  fun h => match get h p with Some _ => Some (tt, upd h p (Some b)) | None => None end.
(** tg.c:963-965 tg_free; freeing what is not allocated is undefined *)
Definition tg_free (p : ptr) : M unit :=
  fun h => match get h p with Some _ => Some (tt, upd h p None) | None => None end.
(** tg.c:955-957 tg_malloc followed by the memset or the assignments that fill
    the block: [b self] is the block at address [self] *)
Definition tg_malloc (b : ptr -> block) : M (option ptr) :=
  fun h =>
    if ok h (calls h)
    then Some (Some (length (cells h)), Heap (cells h ++ [Some (b (length (cells h)))]) (ok h) (S (calls h)))
    else Some (None, Heap (cells h) (ok h) (S (calls h))).

(** if (p) tg_free(p), e.g. tg.c:2282 *)
Definition free_opt (p : option ptr) : M unit :=
  match p with Some p => tg_free p | None => ret tt end.

(** ** Heads and reference counts *)

(** the head of an object (tg.c:585-591), of the blocks that have one *)
Definition head_of (b : block) : option head :=
  match b with
  | BRing h _ _ _ | BPoly h _ _ _ | BPoint h _ | BGeom h _ _ _ _ => Some h
  | _ => None
  end.
(** the object with another head (tg.c:585-591) *)
Definition set_head (h : head) (b : block) : block :=
  match b with
  | BRing _ r ix ys => BRing h r ix ys
  | BPoly _ e n hs => BPoly h e n hs
  | BPoint _ p => BPoint h p
  | BGeom _ pl c n x => BGeom h pl c n x
  | b => b
  end.
(** tg.c:2188-2189, 3770-3771, 4289-4290 rc_init (569-571) and rc_retain
    (572-574) of a fresh object: the count is 1; noheap is 0 *)
Definition new_head (f : flags) : head := Head 1 false f.
(** tg.c:572-574 rc_retain.  Simplification: the count does not overflow, which
    would take 2^31 references. *)
Definition rc_retain (p : ptr) : M unit :=
  b <- load p ;;
  match head_of b with
  | Some h => store p (set_head (Head (h_rc h + 1) (h_noheap h) (h_flags h)) b)
  | None => ub
  end.
(** tg.c:575-581 rc_release: whether this was the last reference *)
Definition rc_release (p : ptr) : M bool :=
  b <- load p ;;
  match head_of b with
  | Some h =>
      store p (set_head (Head (h_rc h - 1) (h_noheap h) (h_flags h)) b) ;;;
      ret (h_rc h =? 1)
  | None => ub
  end.
(** head.noheap || !rc_release(&head.rc), e.g. tg.c:2281: whether the object
    stays *)
Definition stays (p : ptr) : M bool :=
  b <- load p ;;
  match head_of b with
  | Some h => if h_noheap h then ret true else last <- rc_release p ;; ret (negb last)
  | None => ub
  end.
(** tg.c:15443-15446 tg_geom_setnoheap *)
Definition tg_geom_setnoheap (p : ptr) : M unit :=
  b <- load p ;;
  match head_of b with
  | Some h => store p (set_head (Head 0 true (h_flags h)) b)
  | None => ub
  end.

(** ** Rings and lines *)

(** the data of a ring without its y-stripes, which are another block
    (tg.c:1738) *)
Definition no_ystripes (r : ring) : ring :=
  Ring (r_closed r) (r_clockwise r) (r_convex r) (r_area r) (r_npoints r) (r_nsegs r)
       (r_rect r) (r_index r) None (r_points r).

(** tg.c:2280-2284 tg_ring_free *)
Definition tg_ring_free (p : option ptr) : M unit :=
  match p with
  | None => ret tt
  | Some p =>
      s <- stays p ;;
      if s then ret tt else
      b <- load p ;;
      match b with
      | BRing _ _ _ ys => free_opt ys ;;; tg_free p
      | _ => ub
      end
  end.

(** tg.c:1674-1740 process_ystripes: [y] is what 1686-1737 compute *)
Definition process_ystripes_mem (p : ptr) (y : ystripes) : M bool :=
  yc <- tg_malloc (fun _ => BInts []) ;;
  match yc with
  | None => ret false
  | Some yc =>
      q <- tg_malloc (fun self => BYs y self) ;;
      match q with
      | None => tg_free yc ;;; ret false
      | Some q =>
          tg_free yc ;;;
          b <- load p ;;
          match b with
          | BRing h r ix _ => store p (BRing h r ix (Some q)) ;;; ret true
          | _ => ub
          end
      end
  end.

(** tg.c:2143-2221 series_new, also tg_ring_new_ix (2271-2275) and
    tg_line_new_ix (3312-3316).  The contents are those of [Series.series_new];
    the undefined conversions of process_ystripes are found there before
    anything is allocated. *)
Definition series_new_mem (ps : list pt) (closed : bool) (kind : ixkind) (spread : nat)
  : M (option ptr) :=
  match series_new ps closed kind spread with
  | None => ub
  | Some r =>
      p <- tg_malloc (fun self =>
             BRing (new_head fl0) (no_ystripes r)
                   (match r_index r with Some _ => Some self | None => None end) None) ;;
      match p with
      | None => ret None
      | Some p =>
          match r_ystripes r with
          | None => ret (Some p)
          | Some y =>
              done <- process_ystripes_mem p y ;;
              if done : bool then ret (Some p) else tg_ring_free (Some p) ;;; ret None
          end
      end
  end.

(** tg.c:2286-2295 ring_alloc_size, as far as it concerns memory: it reads
    index->memsz and takes the distance from the ring to its index, which is a
    size only if the index lies in the block of the ring; otherwise the memcpy of
    that many bytes (15066) is undefined *)
Definition ring_alloc_size (p : ptr) (ix : option ptr) : M unit :=
  match ix with
  | None => ret tt
  | Some q => load q ;;; if Nat.eqb q p then ret tt else ub
  end.

(** tg.c:15057-15079 tg_ring_copy, 15088-15090 tg_line_copy.  memcpy copies the
    pointer to the index unchanged. *)
Definition tg_ring_copy (p : option ptr) : M (option ptr) :=
  match p with
  | None => ret None
  | Some p =>
      b <- load p ;;
      match b with
      | BRing h r ix ys =>
          ring_alloc_size p ix ;;;
          p2 <- tg_malloc (fun _ => BRing (new_head (h_flags h)) r ix ys) ;;
          match p2 with
          | None => ret None
          | Some p2 =>
              match ys with
              | None => ret (Some p2)
              | Some q =>
                  by_ <- load q ;;
                  match by_ with
                  | BYs y base =>
                      q2 <- tg_malloc (fun _ => BYs y base) ;;
                      match q2 with
                      | None => tg_free p2 ;;; ret None
                      | Some q2 => store p2 (BRing (new_head (h_flags h)) r ix (Some q2)) ;;; ret (Some p2)
                      end
                  | _ => ub
                  end
              end
          end
      | _ => ub
      end
  end.

(** tg.c:2303-2310 tg_ring_clone, 3653-3656 tg_line_clone *)
Definition tg_ring_clone (p : option ptr) : M (option ptr) :=
  match p with
  | None => tg_ring_copy None
  | Some p =>
      b <- load p ;;
      match head_of b with
      | Some h => if h_noheap h then tg_ring_copy (Some p) else rc_retain p ;;; ret (Some p)
      | None => ub
      end
  end.

(** ** Polygons *)

(** array[i] = v in an array of pointers (e.g. tg.c:3784) *)
Definition store_at (a : ptr) (i : nat) (v : option ptr) : M unit :=
  b <- load a ;;
  match b with
  | BPtrs l => if (i <? length l)%nat then store a (BPtrs (firstn i l ++ v :: skipn (S i) l)) else ub
  | _ => ub
  end.
(** a loop over an array of pointers that frees each element (tg.c:3804-3806,
    5096-5098) *)
Fixpoint free_each (f : option ptr -> M unit) (l : list (option ptr)) : M unit :=
  match l with [] => ret tt | p :: rest => f p ;;; free_each f rest end.

(** tg.c:3795-3810 tg_poly_free *)
Definition tg_poly_free (p : option ptr) : M unit :=
  match p with
  | None => ret tt
  | Some p =>
      b <- load p ;;
      match b with
      | BRing _ _ _ _ => tg_ring_free (Some p)
      | BPoly _ _ _ _ =>
          s <- stays p ;;
          if s then ret tt else
          b <- load p ;;
          match b with
          | BPoly _ e n hs =>
              tg_ring_free e ;;;
              match hs with
              | None => ret tt
              | Some a =>
                  ba <- load a ;;
                  match ba with
                  | BPtrs l => if (n =? length l)%nat then free_each tg_ring_free l ;;; tg_free a else ub
                  | _ => ub
                  end
              end ;;;
              tg_free p
          | _ => ub
          end
      | _ => ub
      end
  end.

(** tg.c:3783-3785 and, with tg_ring_copy, 15126-15131: fill an array from slot
    [i] on with clones; [must]: stop and answer false at NULL *)
Fixpoint fill_array {A : Type} (f : A -> M (option ptr)) (must : bool) (a : ptr) (i : nat)
  (l : list A) : M bool :=
  match l with
  | [] => ret true
  | p :: rest =>
      q <- f p ;;
      store_at a i q ;;;
      match q, must with
      | None, true => ret false
      | _, _ => fill_array f must a (S i) rest
      end
  end.

(** tg.c:3754-3788 tg_poly_new; [holes] are the elements of the caller's array
    that are looked at, none when nholes is negative ([neg]) *)
Definition tg_poly_new_mem (ext : option ptr) (holes : list (option ptr)) (neg : bool) : M (option ptr) :=
  match ext with
  | None => ret None
  | Some _ =>
      if match holes with [] => negb neg | _ => false end then tg_ring_clone ext
      else
        p <- tg_malloc (fun _ => BPoly (new_head fl0) None 0 None) ;;
        match p with
        | None => ret None
        | Some p =>
            e <- tg_ring_clone ext ;;
            store p (BPoly (new_head fl0) e 0 None) ;;;
            if neg then ret (Some p) else
            a <- tg_malloc (fun _ => BPtrs (repeat None (length holes))) ;;
            match a with
            | None => tg_poly_free (Some p) ;;; ret None
            | Some a =>
                store p (BPoly (new_head fl0) e (length holes) (Some a)) ;;;
                fill_array tg_ring_clone false a 0 holes ;;;
                ret (Some p)
            end
        end
  end.

(** tg.c:15099-15137 tg_poly_copy *)
Definition tg_poly_copy (p : option ptr) : M (option ptr) :=
  match p with
  | None => ret None
  | Some p =>
      b <- load p ;;
      match b with
      | BRing _ _ _ _ => tg_ring_copy (Some p)
      | BPoly h e n hs =>
          p2 <- tg_malloc (fun _ => BPoly (new_head (h_flags h)) None 0 None) ;;
          match p2 with
          | None => ret None
          | Some p2 =>
              let fail := tg_poly_free (Some p2) ;;; ret None in
              e2 <- tg_ring_copy e ;;
              store p2 (BPoly (new_head (h_flags h)) e2 0 None) ;;;
              match e2 with
              | None => fail
              | Some _ =>
                  if (0 <? n)%nat then
                    match hs with
                    | None => ub
                    | Some a =>
                        a2 <- tg_malloc (fun _ => BPtrs (repeat None n)) ;;
                        match a2 with
                        | None => fail
                        | Some a2 =>
                            store p2 (BPoly (new_head (h_flags h)) e2 n (Some a2)) ;;;
                            ba <- load a ;;
                            match ba with
                            | BPtrs l =>
                                if (n =? length l)%nat then
                                  all <- fill_array tg_ring_copy true a2 0 l ;;
                                  if all : bool then ret (Some p2) else fail
                                else ub
                            | _ => ub
                            end
                        end
                    end
                  else ret (Some p2)
              end
          end
      | _ => ub
      end
  end.

(** tg.c:3819-3826 tg_poly_clone *)
Definition tg_poly_clone (p : option ptr) : M (option ptr) :=
  match p with
  | None => tg_poly_copy None
  | Some p =>
      b <- load p ;;
      match head_of b with
      | Some h => if h_noheap h then tg_poly_copy (Some p) else rc_retain p ;;; ret (Some p)
      | None => ub
      end
  end.
