(** * Threads that clone and free, one atomic step at a time
    tg.c lines 545-581, 2280-2310, 3795-3826 and 5071-5147. *)

From Coq Require Import ZArith Bool List.
From Verif Require Import F64 Geo Series Geom Heap HeapGeom HeapHist.
Import ListNotations.
Local Open Scope Z_scope.

(** What is left to do of a call of free.  Another thread may run between any
    two of these steps.
    - [TFree k p]: the call of tg_ring_free (tg.c:2280), tg_poly_free (3795) or
      tg_geom_free (5126); it reads head.base, head.type and head.noheap, which
      never change.
    - [TRelease p]: the atomic decrement in rc_release (575-581).
    - [TTake p]: the object is read after its last reference was given back.
    - [TArr k a n]: the loop over poly->holes (3804-3806) or multi->geoms
      (5096-5098), then tg_free of the array.  Simplification: the elements are
      read in one step.
    - [TMulti m]: geom->multi (5094-5108).
    - [TDrop q]: tg_free. *)
Inductive task :=
  | TFree (k : okind) (p : ptr)
  | TRelease (p : ptr)
  | TTake (p : ptr)
  | TArr (k : okind) (a : ptr) (n : nat)
  | TMulti (m : ptr)
  | TDrop (q : ptr).

(** a call of free with a pointer that may be NULL (tg.c:2281, 3796, 5127) *)
Definition frees (k : okind) (o : option ptr) : list task := match o with Some p => [TFree k p] | None => [] end.
(** if (p) tg_free(p) (e.g. tg.c:2282) *)
Definition drops (o : option ptr) : list task := match o with Some p => [TDrop p] | None => [] end.
(** the loop over an array, if there is one (tg.c:3803, 5095) *)
Definition arrs (k : okind) (o : option ptr) (n : nat) : list task := match o with Some a => [TArr k a n] | None => [] end.

(** which blocks the functions of HeapHist.v take (tg.c:2280, 3795-3800,
    5126-5147) *)
Definition fits_kind (k : okind) (b : block) : bool :=
  match k, b with
  | KRing, BRing _ _ _ _ => true
  | KPoly, BRing _ _ _ _ | KPoly, BPoly _ _ _ _ => true
  | KGeom, _ => match head_of b with Some _ => true | None => false end
  | _, _ => false
  end.

(** one step of a task: what is left of it.  tg_ring_free tg.c:2280-2284,
    tg_poly_free 3795-3810, boxed_point_free 4321-4324, geom_free 5080-5120,
    tg_geom_free 5126-5147 *)
Definition do_task (t : task) : M (list task) :=
  match t with
  | TFree k p =>
      b <- load p ;;
      if fits_kind k b then
        match head_of b with
        | Some h => ret (if h_noheap h then [] else [TRelease p])
        | None => ub
        end
      else ub
  | TRelease p => last <- rc_release p ;; ret (if last : bool then [TTake p] else [])
  | TTake p =>
      b <- load p ;;
      match b with
      | BRing _ _ _ ys => ret (drops ys ++ [TDrop p])
      | BPoly _ e n hs => ret (frees KRing e ++ arrs KRing hs n ++ [TDrop p])
      | BPoint _ _ => ret [TDrop p]
      | BGeom _ pl c _ xj =>
          ret (match pl with
               | PlPoint _ _ _ => []
               | PlLine l => frees KRing l
               | PlPoly q => frees KPoly q
               | PlMulti _ m => match m with Some m => [TMulti m] | None => [] end
               end ++
               match pl with PlPoint _ _ _ => [] | _ => drops c end ++
               drops xj ++ [TDrop p])
      | _ => ub
      end
  | TArr k a n =>
      b <- load a ;;
      match b with
      | BPtrs l => if (n =? length l)%nat then ret (flat_map (frees k) l ++ [TDrop a]) else ub
      | _ => ub
      end
  | TMulti m =>
      b <- load m ;;
      match b with
      | BMulti gs n _ ix ixg => ret (arrs KGeom gs n ++ drops ix ++ drops ixg ++ [TDrop m])
      | _ => ub
      end
  | TDrop q => tg_free q ;;; ret []
  end.

(** a thread: the references it holds and what is left of its call of free
    (tg.c:2280-2284, 3795-3810, 5126-5147) *)
Definition thread := (list handle * list task)%type.

(** What a thread does next.
    - [AStep i]: thread [i] goes on with its call of free.
    - [AFree i j]: thread [i], which is not in a call, frees its handle [j].
    - [AClone i k r]: it clones an object it can reach (tg.c:2303-2310,
      3819-3826, 5071-5078); the increment (572-574) is atomic, and what is read
      on the way never changes.
    - [ASend i j d]: it hands its handle [j] to thread [d]. *)
Inductive action :=
  | AStep (i : nat)
  | AFree (i j : nat)
  | AClone (i : nat) (k : okind) (r : ref)
  | ASend (i j d : nat).

(** the list with element [i] replaced (the state of the acting thread,
    tg.c:2280-2310) *)
Definition set_nth {A : Type} (i : nat) (x : A) (l : list A) : list A := firstn i l ++ x :: skipn (S i) l.

(** one action of the threads [ts]; actions that a thread cannot take do nothing
    (tg.c:2280-2310, 3795-3826, 5071-5147) *)
Definition act (ts : list thread) (a : action) : M (list thread) :=
  match a with
  | AStep i =>
      match nth_error ts i with
      | Some (held, t :: rest) => new <- do_task t ;; ret (set_nth i (held, new ++ rest) ts)
      | _ => ret ts
      end
  | AFree i j =>
      match nth_error ts i with
      | Some (held, []) =>
          match nth_error held j with
          | Some (p, k) => ret (set_nth i (drop_nth j held, [TFree k p]) ts)
          | None => ret ts
          end
      | _ => ret ts
      end
  | AClone i k r =>
      match nth_error ts i with
      | Some (held, []) =>
          o <- call1 held r k (clones_of k) ;;
          match o with
          | Some (Some p) => ret (set_nth i ((p, k) :: held, []) ts)
          | _ => ret ts
          end
      | _ => ret ts
      end
  | ASend i j d =>
      match nth_error ts i with
      | Some (held, []) =>
          match nth_error held j with
          | Some x =>
              let ts' := set_nth i (drop_nth j held, []) ts in
              match nth_error ts' d with
              | Some (hd, td) => ret (set_nth d (x :: hd, td) ts')
              | None => ret ts
              end
          | None => ret ts
          end
      | _ => ret ts
      end
  end.
(** a schedule (any order of the actions of the threads, tg.c:545-581) *)
Fixpoint acts (ts : list thread) (s : list action) : M (list thread) :=
  match s with
  | [] => ret ts
  | a :: s => ts <- act ts a ;; acts ts s
  end.

(** ** The build without atomics *)

(** A pointer to int as the address of a cell, tg.c:545-560.  Both functions take
    the pointer by value. *)
Definition cells_ := nat -> Z.
(** tg.c:548-550 rc_init *)
Definition na_init (rc : nat) (m : cells_) : cells_ := fun a => if (a =? rc)%nat then 0 else m a.
(** tg.c:551-553 rc_retain: "*rc++" is "*(rc++)": it advances the local pointer
    and reads the cell; memory stays as it is *)
Definition na_retain (rc : nat) (m : cells_) : cells_ := m.
(** tg.c:554-557 rc_release: "*rc--" moves the local pointer one cell back, then
    that cell is compared with 1.  [None]: there is no cell before the first
    cell of the object at [base], the read is out of bounds. *)
Definition na_release (base rc : nat) (m : cells_) : option bool :=
  if (rc - 1 <? base)%nat || (rc =? 0)%nat then None else Some (m (rc - 1)%nat =? 1).
