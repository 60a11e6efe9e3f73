(** * Sizes and places: what tg.c asks the allocator for and where it puts things *)

From Coq Require Import ZArith Bool List.
From Verif Require Import F64 Geo Series Geom MultiIx.
Import ListNotations.
Local Open Scope Z_scope.

(** the sizes and offsets that the compiler chooses for the structs of
    tg.c:585-591 (head), 616-628 (tg_ring), 672-685 (tg_poly, multi), 723-750
    (tg_geom, boxed_point), 1431-1434 (ystripe), 1567-1577 (level, index) and
    1668-1672 (ystripes) *)
Record abi := Abi {
  sz_point : Z;    (* sizeof(struct tg_point) *)
  off_points : Z;  (* offsetof(struct tg_ring, points) *)
  sz_ring : Z;     (* sizeof(struct tg_ring) *)
  sz_index : Z;    (* sizeof(struct index) *)
  sz_level : Z;    (* sizeof(struct level) *)
  sz_ixrect : Z;   (* sizeof(struct ixrect) *)
  sz_ystripes : Z; (* sizeof(struct ystripes) *)
  sz_ystripe : Z;  (* sizeof(struct ystripe) *)
  sz_int : Z;      (* sizeof(int) *)
  sz_ptr : Z;      (* sizeof(struct tg_ring* ) and sizeof(struct tg_geom* ) *)
  sz_poly : Z;     (* sizeof(struct tg_poly) *)
  sz_geom : Z;     (* sizeof(struct tg_geom) *)
  sz_multi : Z;    (* sizeof(struct multi) *)
  sz_boxed : Z;    (* sizeof(struct boxed_point) *)
  sz_double : Z    (* sizeof(double) *)
}.
(** tg.c:585-750, 1431-1434, 1537-1577: the sizes on a 64-bit machine, with
    single precision index rectangles *)
Definition lp64 : abi := Abi 16 80 80 16 16 16 16 16 4 8 32 48 64 24 8.

(** tg.c:1644-1646 aligned_size *)
Definition aligned_size (size : Z) : Z :=
  if Z.land size 7 =? 0 then size else size + 8 - Z.land size 7.

(** tg.c:2111-2120 calc_series_size.  Simplification: npoints is below INT_MAX,
    so that npoints++ is defined. *)
Definition calc_series_size (a : abi) (npoints : nat) : Z :=
  let np := Z.of_nat npoints + 1 in
  aligned_size (off_points a + sz_point a * (if np <? 5 then 5 else np)).

(** tg.c:1658-1661, 2136-2137: the number of rectangles of level i of
    [inlevels], root first *)
Definition level_keys (spread nsegs inlevels i : nat) : nat :=
  calc_num_keys spread (inlevels - i) nsegs.

(** tg.c:1653-1666 calc_index_size (without its second result, nlevels) *)
Definition calc_index_size (a : abi) (spread nsegs : nat) : Z :=
  let inlevels := (calc_num_levels spread nsegs - 1)%nat in
  aligned_size
    (fold_left (fun size i => size + Z.of_nat (level_keys spread nsegs inlevels i) * sz_ixrect a)
       (seq 0 inlevels) (sz_index a + Z.of_nat inlevels * sz_level a)).

(** tg.c:2134-2140, the loop of fill_index_struct: for each level its nrects
    and the place of its rects, counted from the index *)
Fixpoint fill_levels (a : abi) (np : Z) (keys : list nat) : list (nat * Z) :=
  match keys with
  | [] => []
  | k :: rest => (k, np) :: fill_levels a (np + Z.of_nat k * sz_ixrect a) rest
  end.
(** tg.c:2122-2141 fill_index_struct *)
Definition fill_index_struct (a : abi) (spread nsegs : nat) : list (nat * Z) :=
  let inlevels := (calc_num_levels spread nsegs - 1)%nat in
  fill_levels a (sz_index a + Z.of_nat inlevels * sz_level a)
    (map (level_keys spread nsegs inlevels) (seq 0 inlevels)).

(** tg.c:2148-2185 size and ixsize of series_new, for the ring that it makes *)
Definition series_size (a : abi) (r : ring) : Z := calc_series_size a (r_npoints r).
(** tg.c:2153, 2179-2181 ixsize *)
Definition series_ixsize (a : abi) (r : ring) : Z :=
  match r_index r with
  | None => 0
  | Some ix => calc_index_size a (ix_spread ix) (r_nsegs r)
  end.
(** tg.c:2185 the allocation *)
Definition series_alloc (a : abi) (r : ring) : Z := series_size a r + series_ixsize a r.

(** a run of bytes of a block that tg.c:2185-2204 writes: start and length *)
Definition bytes_at := (Z * Z)%type.

(** tg.c:1952-1966, 1876-1882, 2186-2200: where the members of the levels are
    written, counted from the start of the block; [at_] is the place of the index *)
Definition index_writes (a : abi) (at_ : Z) (spread nsegs : nat) : list bytes_at :=
  let ls := fill_index_struct a spread nsegs in
  (at_, sz_index a)
  :: (at_ + sz_index a, Z.of_nat (length ls) * sz_level a)
  :: map (fun l => (at_ + snd l, Z.of_nat (fst l) * sz_ixrect a)) ls.

(** tg.c:2187-2204: everything that series_new writes into its block: the
    members of the struct, the points with the extra one, the index *)
Definition series_writes (a : abi) (r : ring) : list bytes_at :=
  (0, off_points a)
  :: (off_points a, sz_point a * (Z.of_nat (r_npoints r) + 1))
  :: match r_index r with
     | None => []
     | Some ix => index_writes a (series_size a r) (ix_spread ix) (r_nsegs r)
     end.

(** ** y-stripes, as the two passes of the code *)

(** tg.c:1702, 1735: an array access a[i] that is inside the array *)
Definition upd {A : Type} (l : list A) (i : Z) (f : A -> A) : option (list A) :=
  if (0 <=? i) && (i <? Z.of_nat (length l)) then
    match nth_error l (Z.to_nat i) with
    | Some x => Some (firstn (Z.to_nat i) l ++ f x :: skipn (S (Z.to_nat i)) l)
    | None => None
    end
  else None.

(** tg.c:1701, 1733: j = min; j <= max; j++ *)
Definition stripes_of (range : Z * Z) : list Z :=
  map (fun k => fst range + Z.of_nat k) (seq 0 (Z.to_nat (snd range - fst range + 1))).

(** a loop whose body can fail, e.g. tg.c:1693-1705 *)
Fixpoint each {A B : Type} (f : B -> A -> option B) (l : list A) (b : B) : option B :=
  match l with
  | [] => Some b
  | x :: rest => match f b x with Some b' => each f rest b' | None => None end
  end.

(** tg.c:1681-1705: ycounts and nmap; [None] is a write outside ycounts *)
Definition count_stripes (n : Z) (ranges : list (Z * Z)) : option (list Z * Z) :=
  each (fun st range =>
      each (fun st j => match upd (fst st) j (fun c => c + 1) with
                        | Some cs => Some (cs, snd st + 1)
                        | None => None
                        end) (stripes_of range) st)
    ranges (repeat 0 (Z.to_nat n), 0).

(** tg.c:1720-1725: count = 0 and the place of indexes, in ints from the mark *)
Fixpoint place_stripes (pos : Z) (ycounts : list Z) : list (Z * Z) :=
  match ycounts with
  | [] => []
  | c :: rest => (0, pos) :: place_stripes (pos + c) rest
  end.

(** tg.c:1734-1735: stripe->indexes[stripe->count++] = i.  [mem] are the nmap
    ints behind the mark; [None] is an access outside the block. *)
Definition push_stripe (i : nat) (st : list (Z * Z) * list nat) (j : Z)
  : option (list (Z * Z) * list nat) :=
  match upd (fst st) j (fun s => (fst s + 1, snd s)) with
  | None => None
  | Some stripes =>
      match nth_error (fst st) (Z.to_nat j) with
      | None => None
      | Some s =>
          match upd (snd st) (snd s + fst s) (fun _ => i) with
          | Some mem => Some (stripes, mem)
          | None => None
          end
      end
  end.

(** tg.c:1681-1737: both passes; the result is the stripes (count and place)
    and the ints.  [fresh] is what the allocation holds at first. *)
Definition flat_ystripes (n : Z) (ranges : list (Z * Z)) (fresh : nat -> list nat)
  : option (list (Z * Z) * list nat) :=
  match count_stripes n ranges with
  | None => None
  | Some (ycounts, nmap) =>
      each (fun st ir => each (push_stripe (fst ir)) (stripes_of (snd ir)) st)
        (combine (seq 0 (length ranges)) ranges)
        (place_stripes 0 ycounts, fresh (Z.to_nat nmap))
  end.

(** the ints of one stripe, as tg.c:2703-2707 reads them *)
Definition stripe_ints (mem : list nat) (s : Z * Z) : list nat :=
  firstn (Z.to_nat (fst s)) (skipn (Z.to_nat (snd s)) mem).

(** tg.c:1707-1711, 1717: the size of the allocation *)
Definition ystripes_memsz (a : abi) (y : ystripes) : Z :=
  sz_ystripes a + Z.of_nat (length (ys_stripes y)) * sz_ystripe a +
  Z.of_nat (length (concat (ys_stripes y))) * sz_int a.

(** ** memsize *)

(** tg.c:2286-2295 ring_alloc_size.  Simplification: the index lies in the
    block of the ring, which is not so for a ring made by tg_ring_copy (Heap.v). *)
Definition ring_alloc_size (a : abi) (r : ring) : Z :=
  match r_index r with
  | Some ix => series_size a r + calc_index_size a (ix_spread ix) (r_nsegs r)
  | None => calc_series_size a (r_npoints r)
  end.
(** tg.c:2316-2323 tg_ring_memsize, 3672-3675 tg_line_memsize *)
Definition tg_ring_memsize (a : abi) (r : option ring) : Z :=
  match r with
  | None => 0
  | Some r =>
      ring_alloc_size a r +
      match r_ystripes r with Some y => ystripes_memsz a y | None => 0 end
  end.
(** tg.c:4265-4279 tg_poly_memsize *)
Definition tg_poly_memsize (a : abi) (p : option poly) : Z :=
  match p with
  | None => 0
  | Some (PRing r) => tg_ring_memsize a (Some r)
  | Some (PPoly e hs) =>
      fold_left (fun size h => size + tg_ring_memsize a h) hs
        (sz_poly a + tg_ring_memsize a (Some e) + Z.of_nat (length hs) * sz_ring a)
  end.
(** tg.c:5271-5278 coords and xjson *)
Definition tail_memsize (a : abi) (coords : list f64) (xj : option (list Z)) : Z :=
  Z.of_nat (length coords) * sz_double a +
  match xj with Some s => Z.of_nat (length s) + 1 | None => 0 end.
(** tg.c:5241-5279 geom_memsize, 5284-5300 tg_geom_memsize *)
Fixpoint geom_memsize (a : abi) (g : geom) : Z :=
  match g with
  | GPoint _ _ => sz_boxed a
  | GLine _ l => tg_ring_memsize a (Some l)
  | GPoly _ p => tg_poly_memsize a (Some p)
  | GGPoint _ _ _ _ xj => sz_geom a + tail_memsize a [] xj
  | GGLine _ l c xj => sz_geom a + tg_ring_memsize a l + tail_memsize a c xj
  | GGPoly _ p c xj => sz_geom a + tg_poly_memsize a p + tail_memsize a c xj
  | GGMulti _ _ None c xj => sz_geom a + tail_memsize a c xj
  | GGMulti _ _ (Some gs) c xj =>
      let n := length gs in
      sz_geom a + sz_multi a + Z.of_nat n * sz_ptr a +
      fold_left Z.add (map (fun o => match o with Some g => geom_memsize a g | None => 0 end) gs) 0 +
      (if (2 * multi_spread <=? n)%nat
       then calc_index_size a multi_spread n + Z.of_nat n * sz_int a else 0) +
      tail_memsize a c xj
  end.
(** tg.c:5284-5300 tg_geom_memsize *)
Definition tg_geom_memsize (a : abi) (g : option geom) : Z :=
  match g with None => 0 | Some g => geom_memsize a g end.
