(** * Searching for the pairs of intersecting segments of two series *)

From Coq Require Import ZArith Reals Bool List Lia Lra.
From Flocq Require Import Core.
From Verif Require Import F64 Geo Series RingApi Search F64Order F64Real F64Mono F32 SpecGeo SpecFacts SpecRing RingFacts
  SpecPlane SegExact SegMeet SegRay SegRing SeriesExamples PairSearch Thm_Ring Thm_Seg.
Import ListNotations.

(** the callback is called on the pair of segments numbered (i, j) *)
Definition call_pair {A} (segs_a segs_b : list seg) (iter : A -> seg -> nat -> seg -> nat -> bool * A)
  (st : A) (ij : nat * nat) : bool * A :=
  iter st (nth (fst ij) segs_a seg0) (fst ij) (nth (snd ij) segs_b seg0) (snd ij).

(** ** C03 *)

(** Full statement: the same for all points without NaN, and the pairs are those
    with a common point whatever the indexes.  It is false of the code (see the
    [_refuted] theorems).  Proved: a fixed list of pairs, each once, is reported
    in order until the callback answers false; a pair is in the list exactly
    when the segment test says so.  [search_safe] as in C02; when both series
    are indexed, coordinates are 0 or have a magnitude between 2^-125 and the
    largest float (a range with a margin around the normal floats); the
    arguments of the test are exchanged when only the second series is
    indexed. *)
Theorem C03_pairs_partial :
  forall pa ca ka na a pb cb kb nb b,
    points_ok pa -> points_ok pb -> (2 <= na)%nat -> (2 <= nb)%nat ->
    series_new pa ca ka na = Some a -> series_new pb cb kb nb = Some b ->
    search_safe pa ca ka na -> search_safe pb cb kb nb ->
    (has_index pa ka na && has_index pb kb nb = true -> forall p, In p pa \/ In p pb -> pt32 p) ->
    exists L, NoDup L /\
      (forall i j, In (i, j) L <-> exists s t,
         nth_error (series_segments ca pa) i = Some s /\ nth_error (series_segments cb pb) j = Some t /\
         (if negb (has_index pa ka na) && has_index pb kb nb
          then tg_segment_intersects_segment t s else tg_segment_intersects_segment s t) = true) /\
      forall A (iter : pair_iter A) st, tg_ring_ring_search a b iter st =
        run_callback (call_pair (series_segments ca pa) (series_segments cb pb) iter) L st.
Proof. exact series_pairs. Qed.
Print Assumptions C03_pairs_partial.

(** On integer coordinates up to 2^24 the answer is exact and does not depend on
    the index kinds and spreads; likewise for the two other entry points *)
Lemma int_pt32 p : int_point 24 p -> pt32 p.
Proof.
  assert (C : forall x, int_coord 24 x -> f32_range x).
  { intros x (F & n & E & B). split; [exact F|].
    destruct (Z.eq_dec n 0) as [->|N]; [left; exact E|right]. rewrite E, <- abs_IZR. split.
    - apply Rle_trans with 1%R; [|apply IZR_le; lia]. change 1%R with (bpow radix2 0). apply bpow_le. lia.
    - apply Rle_trans with (IZR (2 ^ 24)); [apply IZR_le; lia|].
      unfold F2R. cbn [Fnum Fexp]. apply Rle_trans with (IZR 16777215 * bpow radix2 1)%R.
      + change (bpow radix2 1) with 2%R. rewrite <- mult_IZR. apply IZR_le. lia.
      + apply Rmult_le_compat_l; [apply IZR_le; lia|]. apply bpow_le. lia. }
  intros [X Y]. split; apply C; assumption.
Qed.

Theorem C03_pairs_exact_partial :
  forall pa ca ka na a pb cb kb nb b,
    (forall p, In p pa \/ In p pb -> int_point 24 p) -> (2 <= na)%nat -> (2 <= nb)%nat ->
    series_new pa ca ka na = Some a -> series_new pb cb kb nb = Some b ->
    search_safe pa ca ka na -> search_safe pb cb kb nb ->
    exists L, NoDup L /\
      (forall i j, In (i, j) L <-> exists s t,
         nth_error (series_segments ca pa) i = Some s /\ nth_error (series_segments cb pb) j = Some t /\
         have_common_point s t) /\
      forall A (iter : pair_iter A) st,
        tg_ring_ring_search a b iter st =
          run_callback (call_pair (series_segments ca pa) (series_segments cb pb) iter) L st /\
        tg_ring_line_search a b iter st =
          run_callback (call_pair (series_segments ca pa) (series_segments cb pb) iter) L st /\
        tg_line_line_search a b iter st =
          run_callback (call_pair (series_segments ca pa) (series_segments cb pb) iter) L st.
Proof.
  intros pa ca ka na a pb cb kb nb b HI S1 S2 Ea Eb Fa Fb.
  assert (Oa : points_ok pa) by (intros p Hp; apply (int_ok 24); apply HI; auto).
  assert (Ob : points_ok pb) by (intros p Hp; apply (int_ok 24); apply HI; auto).
  destruct (series_pairs pa ca ka na a pb cb kb nb b Oa Ob S1 S2 Ea Eb Fa Fb) as (L & N & I & S).
  { intros _ p Hp. apply int_pt32. apply HI. exact Hp. }
  assert (INT : forall c ps s i, nth_error (series_segments c ps) i = Some s ->
     (forall p, In p ps -> int_point 24 p) -> int_segment 24 s).
  { intros c ps s i E H. apply nth_error_In in E. unfold series_segments in E.
    assert (X : In (sa s) ps /\ In (sb s) ps) by (destruct c; [apply ring_segments_in|apply pairs_in]; exact E).
    destruct X. split; apply H; assumption. }
  exists L. split; [exact N|]. split.
  - intros i j. rewrite I. split; intros (s & t & E1 & E2 & T); exists s, t; (split; [exact E1|]); (split; [exact E2|]);
      (assert (IS : int_segment 24 s) by (eapply INT; [exact E1|]; intros; apply HI; auto));
      (assert (IT : int_segment 24 t) by (eapply INT; [exact E2|]; intros; apply HI; auto)).
    + destruct (negb _ && _); [apply common_sym|]; apply intersects_exact; assumption.
    + destruct (negb _ && _); apply intersects_exact; try assumption. apply common_sym. exact T.
  - intros A iter st. split; [apply S|]. split; apply S.
Qed.
Print Assumptions C03_pairs_exact_partial.

(** collect the pairs reported and stop after [n] of them *)
Definition collect_pairs (n : nat) (st : list (nat * nat)) (s : seg) (i : nat) (t : seg) (j : nat) : bool * list (nat * nat) :=
  ((length st + 1 <? n)%nat, st ++ [(i, j)]).
Definition zigzag : list pt := map (fun i => P (i - 3) (if Z.even i then 1 else 7)%Z) (zs 0 12).
Example C03_example :
  (forall p, In p ex_square \/ In p zigzag -> int_point 24 p) /\
  search_safe ex_square true IxNatural 4 /\ search_safe zigzag false IxNatural 2 /\
  has_index ex_square IxNatural 4 = true /\ has_index zigzag IxNatural 2 = true /\
  exists a a' b b', series_new ex_square true IxNatural 4 = Some a /\ series_new ex_square true IxNone 16 = Some a' /\
    series_new zigzag false IxNatural 2 = Some b /\ series_new zigzag false IxYstripes 16 = Some b' /\
    tg_ring_line_search a b (collect_pairs 100) [] = (true, [(14, 10); (15, 10); (24, 2); (24, 3); (25, 2); (25, 3)]%nat) /\
    tg_ring_line_search a b' (collect_pairs 100) [] = (true, [(24, 2); (25, 2); (24, 3); (25, 3); (14, 10); (15, 10)]%nat) /\
    tg_ring_line_search a' b (collect_pairs 1) [] = (false, [(14, 10)]%nat).
Proof.
  split.
  { assert (Z : forall i n, In i (zs 0 n) -> (0 <= i < Z.of_nat n)%Z).
    { intros i n I. apply in_map_iff in I. destruct I as (m & <- & I). apply in_seq in I. lia. }
    intros p [H|H].
    - unfold ex_square in H. rewrite !in_app_iff, !in_map_iff in H.
      destruct H as [H|[H|[H|H]]]; destruct H as (i & <- & I); apply Z in I; apply P_int; lia.
    - unfold zigzag in H. apply in_map_iff in H. destruct H as (i & <- & I). apply Z in I.
      apply P_int; destruct (Z.even i); lia. }
  split; [right; right; right; left; apply ex_square_closed|]. split; [left; reflexivity|].
  split; [reflexivity|]. split; [reflexivity|].
  do 4 eexists. vms.
Qed.

(** Both series indexed, trees of different height, coordinates above the largest
    float: the raw rectangle of the smaller tree is compared with a float
    rectangle whose corners became infinite, and nothing is found.  Without an
    index they are. *)
Definition big (z : Z) : f64 := fmul (f_of_Z z) 5192650370358181888%Z.
Theorem C03_huge_refuted :
  exists pa pb a b a' b',
    points_ok pa /\ points_ok pb /\
    series_new pa false IxNatural 2 = Some a /\ series_new pb false IxNatural 2 = Some b /\
    series_new pa false IxNone 2 = Some a' /\ series_new pb false IxNone 2 = Some b' /\
    tg_line_line_search a b (collect_pairs 100) [] = (true, []) /\
    snd (tg_line_line_search a' b' (collect_pairs 100) []) <> [].
Proof.
  exists (map (fun i => Pt (big (i + 1)%Z) (big 1)) (zs 0 4)), (map (fun i => Pt (big (i + 1)%Z) (big 1)) (zs 0 16)).
  do 4 eexists.
  split. { apply pts_okb_ok. vm_compute. reflexivity. }
  split. { apply pts_okb_ok. vm_compute. reflexivity. }
  split; [vm_compute; reflexivity|]. split; [vm_compute; reflexivity|].
  split; [vm_compute; reflexivity|]. split; [vm_compute; reflexivity|].
  split; [vm_compute; reflexivity|]. vm_compute. discriminate.
Qed.
Print Assumptions C03_huge_refuted.

(** The segment test is not symmetric (C08), and its arguments are exchanged when
    only the second series is indexed: the same two lines meet or do not meet
    depending on the index. *)
Theorem C03_order_refuted :
  exists pa pb a b b',
    points_ok pa /\ points_ok pb /\ series_new pa false IxNone 16 = Some a /\
    series_new pb false IxNatural 2 = Some b /\ series_new pb false IxNone 2 = Some b' /\
    snd (tg_line_line_search a b (collect_pairs 100) []) <> snd (tg_line_line_search a b' (collect_pairs 100) []).
Proof.
  exists [Pt d02 d02; Pt d05 f_zero], [Pt f_zero d04; Pt d04 f_zero; P 7 9; P 8 8].
  do 3 eexists.
  split. { apply pts_okb_ok. vm_compute. reflexivity. }
  split. { apply pts_okb_ok. vm_compute. reflexivity. }
  split; [vm_compute; reflexivity|]. split; [vm_compute; reflexivity|]. split; [vm_compute; reflexivity|].
  vm_compute. discriminate.
Qed.
Print Assumptions C03_order_refuted.
