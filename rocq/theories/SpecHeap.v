(** * What may be asked of the memory
    Reachability and the state of the memory as seen from outside; nothing here
    depends on how the functions of Heap.v and HeapGeom.v work. *)

From Coq Require Import ZArith Bool List Arith.
From Verif Require Import F64 Geo Series Geom MultiIx Heap.
Import ListNotations.
Local Open Scope Z_scope.

(** a pointer field as a list *)
Definition olist (o : option ptr) : list ptr := match o with Some p => [p] | None => [] end.

(** The blocks an object is responsible for (tg.c:616-750): what the pointer
    fields of the structures point to.  ring->index points into the ring itself. *)
Definition owned (b : block) : list ptr :=
  match b with
  | BRing _ _ _ ys => olist ys
  | BPoly _ e _ hs => olist e ++ olist hs
  | BPtrs l => flat_map olist l
  | BGeom _ pl c _ xj =>
      match pl with
      | PlPoint _ _ _ => []
      | PlLine l => olist l
      | PlPoly q => olist q
      | PlMulti _ m => olist m
      end ++ olist c ++ olist xj
  | BMulti gs _ _ ix ixg => olist gs ++ olist ix ++ olist ixg
  | _ => []
  end.

(** [p] can be reached from the handles [held] *)
Inductive reach (h : heap) (held : list ptr) : ptr -> Prop :=
  | reach_held p : In p held -> reach h held p
  | reach_owned p b q : reach h held p -> get h p = Some b -> In q (owned b) -> reach h held q.

(** an object that clone copies and free leaves alone *)
Definition isnh (b : block) : bool := match head_of b with Some h => h_noheap h | None => false end.
(** the number of references to an object; the arrays and strings of an object
    have one *)
Definition refs (b : block) : Z := match head_of b with Some h => h_rc h | None => 1 end.

(** how many references there are to [p]: the handles and the pointer fields of
    the objects that are alive *)
Definition nrefs (h : heap) (held : list ptr) (p : ptr) : nat :=
  (count_occ Nat.eq_dec held p +
   list_sum (map (fun c => match c with Some b => count_occ Nat.eq_dec (owned b) p | None => O end) (cells h)))%nat.
(** the block with another count *)
Definition recount (n : Z) (b : block) : block :=
  match head_of b with Some h => set_head (Head n (h_noheap h) (h_flags h)) b | None => b end.
(** an allocation failed between [h] and [h'] *)
Definition failed (h h' : heap) : Prop := exists k, (calls h <= k < calls h')%nat /\ ok h k = false.

(** [h'] is [h] apart from blocks that were allocated and released again *)
Definition restored (h h' : heap) : Prop :=
  (forall p, get h' p = get h p).

(** ** What an object in memory stands for *)

(** a view of the memory: what is read at an address *)
Definition view := ptr -> option block.
(** only the blocks from number [n] on; everything older is gone *)
Definition fresh (n : nat) (v : view) : view := fun p => if (p <? n)%nat then None else v p.

(** the index of a ring, read through ring->index *)
Definition den_index (v : view) (i : option index) (ix : option ptr) : Prop :=
  match ix with
  | None => i = None
  | Some x => exists h r ix' ys, v x = Some (BRing h r ix' ys) /\ i = r_index r
  end.
(** the y-stripes of a ring, read through ring->ystripes and stripes[i].indexes *)
Definition den_ystripes (v : view) (y : option ystripes) (ys : option ptr) : Prop :=
  match ys with
  | None => y = None
  | Some q => exists s base s' base', v q = Some (BYs s base) /\ v base = Some (BYs s' base') /\
                y = Some (Ystripes (ys_n s) (ys_stripes s'))
  end.
(** the object at [p] is the line or ring [l] *)
Definition den_ring (v : view) (fl : flags) (l : ring) (p : ptr) : Prop :=
  exists h r ix ys, v p = Some (BRing h r ix ys) /\ h_flags h = fl /\
    den_index v (r_index l) ix /\ den_ystripes v (r_ystripes l) ys /\
    l = Ring (r_closed r) (r_clockwise r) (r_convex r) (r_area r) (r_npoints r) (r_nsegs r)
             (r_rect r) (r_index l) (r_ystripes l) (r_points r).
(** a pointer that is NULL for [None] *)
Definition den_opt {A : Type} (d : A -> ptr -> Prop) (x : option A) (o : option ptr) : Prop :=
  match x, o with
  | Some x, Some p => d x p
  | None, None => True
  | _, _ => False
  end.
(** the object at [p] is the polygon [po] *)
Definition den_poly (v : view) (fl : flags) (po : poly) (p : ptr) : Prop :=
  match po with
  | PRing r => den_ring v fl r p
  | PPoly e hs =>
      exists h pe a, v p = Some (BPoly h (Some pe) (length hs) a) /\ h_flags h = fl /\
        (exists f, den_ring v f e pe) /\
        match a with
        | None => hs = []
        | Some a => exists l, v a = Some (BPtrs l) /\
            Forall2 (den_opt (fun r q => exists f, den_ring v f r q)) hs l
        end
  end.
(** the extra coordinates and the extra JSON or error string *)
Definition den_extra (v : view) (coords : list f64) (xj : option (list Z)) (c : option ptr) (nc : nat)
  (x : option ptr) : Prop :=
  match c with
  | None => coords = []
  | Some q => v q = Some (BDbls coords) /\ length coords = nc
  end /\
  match xj, x with
  | None, None => True
  | Some s, Some q => v q = Some (BStr s)
  | _, _ => False
  end.
(** the index of a multi with [n] children, read through multi->index,
    levels[i].rects and multi->ixgeoms *)
Definition den_mindex (v : view) (n : nat) (ix ixg : option ptr) : Prop :=
  if (multi_spread * 2 <=? n)%nat then
    exists q qg i base base' l, ix = Some q /\ ixg = Some qg /\ v q = Some (BIx i base) /\
      v base = Some (BIx i base') /\ v qg = Some (BInts l) /\ length l = n
  else ix = None /\ ixg = None.
(** the object at [p] is the geometry [g] of Geom.v *)
Fixpoint den (v : view) (g : geom) (p : ptr) : Prop :=
  match g with
  | GPoint fl x => exists h, v p = Some (BPoint h x) /\ h_flags h = fl
  | GLine fl l => den_ring v fl l p
  | GPoly fl po => den_poly v fl po p
  | GGPoint fl x z m xj =>
      exists h c nc s, v p = Some (BGeom h (PlPoint x z m) c nc s) /\ h_flags h = fl /\ den_extra v [] xj None 0 s
  | GGLine fl l co xj =>
      exists h q c nc s, v p = Some (BGeom h (PlLine q) c nc s) /\ h_flags h = fl /\ den_extra v co xj c nc s /\
        den_opt (fun l q => exists f, den_ring v f l q) l q
  | GGPoly fl po co xj =>
      exists h q c nc s, v p = Some (BGeom h (PlPoly q) c nc s) /\ h_flags h = fl /\ den_extra v co xj c nc s /\
        den_opt (fun po q => exists f, den_poly v f po q) po q
  | GGMulti t fl gs co xj =>
      exists h m c nc s, v p = Some (BGeom h (PlMulti t m) c nc s) /\ h_flags h = fl /\ den_extra v co xj c nc s /\
        match gs, m with
        | None, None => True
        | Some gs, Some m =>
            exists a ix ixg l, v m = Some (BMulti (Some a) (length gs) (rect_of_geom g) ix ixg) /\
              v a = Some (BPtrs l) /\ den_mindex v (length gs) ix ixg /\
              (fix all (gs : list (option geom)) (l : list (option ptr)) : Prop :=
                 match gs, l with
                 | [], [] => True
                 | None :: gs, None :: l => all gs l
                 | Some g :: gs, Some q :: l => den v g q /\ all gs l
                 | _, _ => False
                 end) gs l
        | _, _ => False
        end
  end.

(** no part of the geometry is NULL: no empty line or polygon geometry, no
    missing hole and no missing child *)
Definition whole_poly (po : poly) : bool :=
  match po with PRing _ => true | PPoly _ hs => forallb (fun o => match o with Some _ => true | None => false end) hs end.
Fixpoint whole (g : geom) : bool :=
  match g with
  | GGLine _ None _ _ | GGPoly _ None _ _ => false
  | GPoly _ po | GGPoly _ (Some po) _ _ => whole_poly po
  | GGMulti _ _ (Some gs) _ _ => forallb (fun o => match o with Some g => whole g | None => false end) gs
  | _ => true
  end.
(** no multi of the geometry has so many children that it is indexed *)
Fixpoint few (g : geom) : bool :=
  match g with
  | GGMulti _ _ (Some gs) _ _ =>
      negb (multi_spread * 2 <=? length gs)%nat &&
      forallb (fun o => match o with Some g => few g | None => true end) gs
  | _ => true
  end.
