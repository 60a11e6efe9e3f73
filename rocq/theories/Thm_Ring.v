(** * Rings and lines: point-in-ring, searches, bounding box, index shape *)

From Coq Require Import ZArith Bool List Lia Reals.
From Verif Require Import F64 F64Real F64Order F64Mono F32 Geo Series SeriesFacts Search RingApi
  SearchFacts RectFacts SpecGeo SpecFacts SpecRing RingFacts IndexFacts SeriesExamples.
Import ListNotations.

(** ** C01 *)

(** Full statement: for points without NaN and any two index kinds and spreads
    the answers agree.  It is false of the code (see the two [_refuted]
    theorems); proved whenever the index of the ring is sound for the query:
    natural index: first point repeated at the end, or number of points a
    multiple of the spread; y-stripes: no segment at the height of the point
    lies wholly in the top 2^-49 of the ring.  Rings with fewer than 2*spread
    points are never indexed. *)
Theorem C01_index_independent_partial :
  forall ps k1 s1 r1 k2 s2 r2 p edge,
    points_ok ps -> point_ok p -> (2 <= s1)%nat -> (2 <= s2)%nat ->
    series_new ps true k1 s1 = Some r1 -> series_new ps true k2 s2 = Some r2 ->
    index_safe ps k1 s1 p -> index_safe ps k2 s2 p ->
    tg_ring_contains_point r1 p edge = tg_ring_contains_point r2 p edge.
Proof.
  intros. rewrite (point_in_ring ps k1 s1 r1 p edge), (point_in_ring ps k2 s2 r2 p edge); auto.
Qed.
Print Assumptions C01_index_independent_partial.

(** ... and it is the even-odd rule over all segments of the ring *)
Theorem C01_even_odd_partial :
  forall ps kind spread r p edge,
    points_ok ps -> (2 <= spread)%nat -> point_ok p ->
    series_new ps true kind spread = Some r -> index_safe ps kind spread p ->
    tg_ring_contains_point r p edge =
    Some (if in_bounds ps p then point_in_segments (ring_segments ps) p edge else (false, None)).
Proof. exact point_in_ring. Qed.
Print Assumptions C01_even_odd_partial.

Lemma ex_square_closed : explicitly_closed ex_square.
Proof. exists (P 0 0). split; vm_compute; reflexivity. Qed.
Lemma ex_square_safe : stripe_safe ex_square (P 3 4).
Proof.
  assert (C : forall y, (0 <= y < 8)%Z -> clear_of_top ex_square (f_of_Z y)).
  { intros y Hy. apply (clear_of_top_Z ex_square y 8 8 0 0); try lia.
    - vm_compute; tauto.
    - vm_compute; tauto.
    - vm_compute; reflexivity. }
  intros s I B.
  assert (D : forallb (fun s => existsb (fun y => (py (sa s) =? f_of_Z y)%Z || (py (sb s) =? f_of_Z y)%Z)
      (zs 0 8) || negb (fle (py (sa s)) (f_of_Z 4) || fle (py (sb s)) (f_of_Z 4)))
    (ring_segments ex_square) = true) by (vm_compute; reflexivity).
  rewrite forallb_forall in D. specialize (D s I). apply orb_true_iff in D. destruct D as [D|D].
  - apply existsb_exists in D. destruct D as (y & Iy & E).
    apply in_map_iff in Iy. destruct Iy as (n & <- & In'). apply in_seq in In'.
    apply orb_true_iff in E. destruct E as [E|E]; apply Z.eqb_eq in E; rewrite E; [left|right]; apply C; lia.
  - exfalso. apply negb_true_iff, orb_false_iff in D. destruct D as [D1 D2].
    cbn [P py] in B. destruct B as [[B _]|[B _]]; congruence.
Qed.
Example C01_example :
  points_ok ex_square /\ point_ok (P 3 4) /\
  index_safe ex_square IxNone 2 (P 3 4) /\ index_safe ex_square IxNatural 16 (P 3 4) /\
  index_safe ex_square IxYstripes 4 (P 3 4) /\
  (exists r1 r2 r3, series_new ex_square true IxNone 2 = Some r1 /\
     series_new ex_square true IxNatural 16 = Some r2 /\
     series_new ex_square true IxYstripes 4 = Some r3 /\
     tg_ring_contains_point r1 (P 3 4) true = Some (true, None) /\
     tg_ring_contains_point r2 (P 3 4) true = Some (true, None) /\
     tg_ring_contains_point r3 (P 3 4) true = Some (true, None)).
Proof.
  split. { apply pts_okb_ok. vm_compute. reflexivity. }
  split. { apply P_ok. vm_compute. reflexivity. }
  split. { right; exact I. }
  split. { right; left; apply ex_square_closed. }
  split. { right; apply ex_square_safe. }
  do 3 eexists. vms.
Qed.

(** a 40 point ring whose first point is not repeated: the closing segment is
    outside the last leaf box, so TG_NATURAL answers differently *)
Theorem C01_refuted_unclosed :
  exists ps p r1 r2,
    points_ok ps /\ point_ok p /\
    series_new ps true IxNone 16 = Some r1 /\ series_new ps true IxNatural 16 = Some r2 /\
    tg_ring_contains_point r1 p true = Some (false, None) /\
    tg_ring_contains_point r2 p true = Some (true, None).
Proof.
  exists ex_unclosed, (P 1 50). do 2 eexists.
  split. { apply pts_okb_ok. vm_compute. reflexivity. }
  split. { apply P_ok. vm_compute. reflexivity. }
  vms.
Qed.
Print Assumptions C01_refuted_unclosed.

(** y-stripes leave out horizontal segments on the top edge: a border point of
    an explicitly closed square is not found *)
Theorem C01_refuted_ystripes_top :
  exists ps p r1 r2,
    points_ok ps /\ point_ok p /\ explicitly_closed ps /\
    series_new ps true IxNone 16 = Some r1 /\ series_new ps true IxYstripes 16 = Some r2 /\
    tg_ring_contains_point r1 p true = Some (true, Some 21%nat) /\
    tg_ring_contains_point r2 p true = Some (false, None).
Proof.
  exists ex_square, (P 3 8). do 2 eexists.
  split. { apply pts_okb_ok. vm_compute. reflexivity. }
  split. { apply P_ok. vm_compute. reflexivity. }
  split. { apply ex_square_closed. }
  vms.
Qed.
Print Assumptions C01_refuted_ystripes_top.

(** a ring of zero height: building y-stripes converts NaN to int (undefined
    behaviour), while without an index the ring is fine *)
Theorem C01_refuted_ystripes_flat :
  exists ps, points_ok ps /\ explicitly_closed ps /\
    series_new ps true IxYstripes 16 = None /\ series_new ps true IxNatural 16 <> None.
Proof.
  exists ex_flat. split. { apply pts_okb_ok. vm_compute. reflexivity. }
  split. { exists (P 0 5). vms. }
  split; [vm_compute; reflexivity|]. vm_compute. discriminate.
Qed.
Print Assumptions C01_refuted_ystripes_flat.

(** ** C02 *)

(** Full statement: without [search_safe].  [search_safe]: a line, or not
    indexed, or first point repeated at the end, or the number of points a
    multiple of the spread. *)
Theorem C02_rect_search_partial :
  forall (A : Type) ps closed kind spread r q (iter : A -> seg -> nat -> bool * A) st,
    points_ok ps -> (2 <= spread)%nat -> series_new ps closed kind spread = Some r ->
    search_safe ps closed kind spread -> rectangle_ok q -> ordered q ->
    exists l, selects (fun s => box_meets s q) 0 (series_segments closed ps) l /\
      tg_ring_search r q iter st = run_callback (fun st is => iter st (snd is) (fst is)) l st.
Proof. exact @series_search. Qed.
Print Assumptions C02_rect_search_partial.

(** collect the indexes and stop after [n] of them *)
Definition collect (n : nat) (st : list nat) (s : seg) (i : nat) : bool * list nat :=
  ((length st + 1 <? n)%nat, st ++ [i]).
Example C02_example :
  points_ok ex_square /\ search_safe ex_square true IxNatural 4 /\
  rectangle_ok (Rect (P 2 7) (P 3 9)) /\ ordered (Rect (P 2 7) (P 3 9)) /\
  exists r, series_new ex_square true IxNatural 4 = Some r /\
    tg_ring_search r (Rect (P 2 7) (P 3 9)) (collect 100) [] = (true, [20; 21; 22]%nat) /\
    tg_ring_search r (Rect (P 2 7) (P 3 9)) (collect 2) [] = (false, [20; 21]%nat).
Proof.
  split. { apply pts_okb_ok. vm_compute. reflexivity. }
  split. { right; right; right; left. apply ex_square_closed. }
  split. { split; apply P_ok; vm_compute; reflexivity. }
  split. { vms. }
  eexists. vms.
Qed.

(** the closing segment of an unclosed ring is missed by the indexed search *)
Theorem C02_refuted :
  exists ps q r1 r2,
    points_ok ps /\ rectangle_ok q /\ ordered q /\
    series_new ps true IxNone 16 = Some r1 /\ series_new ps true IxNatural 16 = Some r2 /\
    tg_ring_search r1 q (collect 100) [] = (true, [39]%nat) /\
    tg_ring_search r2 q (collect 100) [] = (true, []).
Proof.
  exists ex_unclosed, (Rect (P 1 1) (P 20 90)). do 2 eexists.
  split. { apply pts_okb_ok. vm_compute. reflexivity. }
  split. { split; apply P_ok; vm_compute; reflexivity. }
  split. { vms. }
  vms.
Qed.
Print Assumptions C02_refuted.

(** ** C06, rings and lines *)
Theorem C06_series_rect :
  forall ps closed kind spread r,
    points_ok ps -> (2 <= spread)%nat -> (2 <= length ps)%nat ->
    series_new ps closed kind spread = Some r ->
    let R := tg_ring_rect (Some r) in
    (forall p, In p ps -> in_rect R p) /\
    (exists p, In p ps /\ feqb (px p) (px (rmin R)) = true) /\
    (exists p, In p ps /\ feqb (py p) (py (rmin R)) = true) /\
    (exists p, In p ps /\ feqb (px p) (px (rmax R)) = true) /\
    (exists p, In p ps /\ feqb (py p) (py (rmax R)) = true).
Proof. exact series_rect_spec. Qed.
Print Assumptions C06_series_rect.

Example C06_series_example :
  points_ok ex_square /\ exists r, series_new ex_square true IxNatural 3 = Some r /\
  tg_ring_rect (Some r) = Rect (P 0 0) (P 8 8).
Proof.
  split. { apply pts_okb_ok. vm_compute. reflexivity. }
  eexists. split; vm_compute; reflexivity.
Qed.

(** ** C38 *)

(** number of levels and rectangles: no restriction on the points *)
Theorem C38_index_counts :
  forall ps closed kind spread r,
    points_ok ps -> (2 <= spread)%nat -> series_new ps closed kind spread = Some r ->
    let L := tg_ring_index_num_levels (Some r) in
    let n := length (series_segments closed ps) in
    (L = 0%Z <-> kind = IxNone \/ (length ps < 2 * spread)%nat) /\
    (forall k, (k < 0 \/ L <= k)%Z -> tg_ring_index_level_num_rects (Some r) k = 0%Z) /\
    (L <> 0%Z -> tg_ring_index_spread (Some r) = Z.of_nat spread /\
       (tg_ring_index_level_num_rects (Some r) 0 <= Z.of_nat spread)%Z /\
       (2 <= tg_ring_index_level_num_rects (Some r) 0)%Z) /\
    (forall k, (0 <= k < L)%Z ->
       exists c, tg_ring_index_level_num_rects (Some r) k = Z.of_nat c /\ (1 <= c)%nat /\
         ((c - 1) * spread ^ (Z.to_nat (L - k)) < n <= c * spread ^ (Z.to_nat (L - k)))%nat).
Proof. exact index_shape. Qed.
Print Assumptions C38_index_counts.

(** covering: for sound rings whose coordinates are zero or normal floats in
    magnitude ([pt32]); the full statement has neither hypothesis *)
Theorem C38_index_covers_partial :
  forall ps closed kind spread r k i j p,
    points_ok ps -> (2 <= spread)%nat -> series_new ps closed kind spread = Some r ->
    search_safe ps closed kind spread -> (forall a, In a ps -> pt32 a) ->
    let L := tg_ring_index_num_levels (Some r) in
    (0 <= k < L)%Z -> (0 <= i < tg_ring_index_level_num_rects (Some r) k)%Z ->
    let w := (spread ^ Z.to_nat (L - k))%nat in
    (Z.to_nat i * w <= j < (Z.to_nat i + 1) * w)%nat ->
    (j < length (series_segments closed ps))%nat ->
    point_ok p -> in_box (nth j (series_segments closed ps) seg0) p ->
    in_rect (tg_ring_index_level_rect (Some r) k i) p.
Proof. exact index_cover. Qed.
Print Assumptions C38_index_covers_partial.

Example C38_example :
  points_ok ex_square /\ (forall a, In a ex_square -> pt32 a) /\
  search_safe ex_square true IxNatural 3 /\
  exists r, series_new ex_square true IxNatural 3 = Some r /\
    tg_ring_index_num_levels (Some r) = 3%Z /\
    map (tg_ring_index_level_num_rects (Some r)) [0; 1; 2; 3]%Z = [2; 4; 11; 0]%Z.
Proof.
  split. { apply pts_okb_ok. vm_compute. reflexivity. }
  split. { exact ex_square_32. }
  split. { right; right; right; left. apply ex_square_closed. }
  eexists. vms.
Qed.

(** beyond the float range the rectangle of the level does not cover the
    segments below it: all x = 1e300, whose float image is infinite *)
Theorem C38_refuted_large :
  exists ps r p, points_ok ps /\ explicitly_closed ps /\ point_ok p /\
    series_new ps true IxNatural 2 = Some r /\
    in_box (nth 0 (ring_segments ps) seg0) p /\
    ~ in_rect (tg_ring_index_level_rect (Some r) 0 0) p.
Proof.
  exists (map (fun i => Pt (9097319542389891116)%Z (f_of_Z i)) [0; 1; 2; 1; 0]%Z).
  eexists. exists (Pt (9097319542389891116)%Z 0%Z).
  split. { apply pts_okb_ok. vm_compute. reflexivity. }
  split. { eexists. vms. }
  split. { apply (pts_okb_ok [Pt (9097319542389891116)%Z 0%Z]); [vm_compute; reflexivity|left; reflexivity]. }
  split; [vm_compute; reflexivity|].
  split. { split; left; vm_compute; auto. }
  intros [H _]. vm_compute in H. discriminate.
Qed.
Print Assumptions C38_refuted_large.
