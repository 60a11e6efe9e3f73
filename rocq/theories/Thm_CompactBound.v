(** * A bound for the compactness score on the integer grid *)

From Coq Require Import ZArith Bool List Lia Reals Lra Psatz Rgeom.
From Flocq Require Import Core.
From Verif Require Import F64 F64Real Geo Series RingApi SpecGeo SpecPlane SpecTurn RingTurn
  SeriesExamples Dist SpecDist Thm_Turn Thm_Length Thm_Compact Thm_CompactGrid.
Import ListNotations.
Local Open Scope R_scope.

(** spec: distance of two vertices and length of a path through vertices *)
Definition vdist (a b : vertex) : R := dist (IZR (fst a)) (IZR (snd a)) (IZR (fst b)) (IZR (snd b)).
(** spec: the length of a path *)
Fixpoint plen (vs : list vertex) : R :=
  match vs with
  | a :: ((b :: _) as rest) => vdist a b + plen rest
  | _ => 0
  end.
(** spec: cross product of two vertices *)
Definition cross (a b : vertex) : Z := fst a * snd b - fst b * snd a.

Lemma vdist_pos a b : 0 <= vdist a b.
Proof. apply sqrt_pos. Qed.
Lemma vdist_triangle a b c : vdist a c <= vdist a b + vdist b c.
Proof. apply (triangle (IZR (fst a)) (IZR (snd a)) (IZR (fst c)) (IZR (snd c)) (IZR (fst b)) (IZR (snd b))). Qed.
Lemma plen_pos vs : 0 <= plen vs.
Proof.
  induction vs as [|a [|b vs] IH]; [cbn; lra|cbn; lra|].
  change (plen (a :: b :: vs)) with (vdist a b + plen (b :: vs)). pose proof (vdist_pos a b). lra.
Qed.
Lemma cauchy x y u v : Rabs (x * v - u * y) <= sqrt (x * x + y * y) * sqrt (u * u + v * v).
Proof.
  rewrite <- sqrt_mult by nra. rewrite <- sqrt_Rsqr_abs. apply sqrt_le_1_alt. unfold Rsqr.
  assert (0 <= (x * u + y * v) * (x * u + y * v)) by apply Rle_0_sqr. lra.
Qed.
Lemma fan o a b : Rabs (IZR (cross o a + cross a b - cross o b)) <= vdist o a * vdist a b.
Proof.
  unfold cross, vdist, dist. eapply Rle_trans; [|apply cauchy].
  apply Req_le. f_equal. rewrite ?minus_IZR, ?plus_IZR, ?minus_IZR, ?mult_IZR. ring.
Qed.

(** the area swept out from the first vertex *)
Lemma swept : forall vs a o s, vdist o a <= s ->
  Rabs (IZR (cross o a + shoelace_path (a :: vs ++ [o]))) <= s * plen (a :: vs) + plen (a :: vs) * plen (a :: vs) / 2.
Proof.
  induction vs as [|b vs IH]; intros a o s H.
  - cbn [app shoelace_path plen]. replace (_ + _)%Z with 0%Z by (unfold cross; ring). rewrite Rabs_R0. lra.
  - change (shoelace_path (a :: (b :: vs) ++ [o])) with (cross a b + shoelace_path (b :: vs ++ [o]))%Z.
    change (plen (a :: b :: vs)) with (vdist a b + plen (b :: vs)).
    replace (cross o a + (cross a b + shoelace_path (b :: vs ++ [o])))%Z with
      ((cross o a + cross a b - cross o b) + (cross o b + shoelace_path (b :: vs ++ [o])))%Z by ring.
    rewrite plus_IZR. eapply Rle_trans; [apply Rabs_triang|].
    pose proof (fan o a b) as F. pose proof (vdist_pos a b) as D. pose proof (plen_pos (b :: vs)) as PL.
    specialize (IH b o (s + vdist a b)). pose proof (vdist_triangle o a b) as TR.
    specialize (IH ltac:(lra)).
    assert (F2 : vdist o a * vdist a b <= s * vdist a b) by (apply Rmult_le_compat_r; lra).
    set (l := vdist a b) in *. set (q := plen (b :: vs)) in *.
    assert (0 <= l * l) by (apply Rmult_le_pos; lra). lra.
Qed.
Lemma shoelace_plen vs : IZR (Z.abs (shoelace vs)) <= plen vs * plen vs / 2.
Proof.
  destruct vs as [|o vs]; [cbn; lra|]. pose proof (swept vs o o 0) as H.
  assert (Z0 : vdist o o <= 0).
  { unfold vdist, dist. replace (_ + _) with 0 by ring. rewrite sqrt_0. lra. }
  specialize (H Z0). replace (cross o o) with 0%Z in H by (unfold cross; ring).
  rewrite Z.add_0_l in H. change (shoelace (o :: vs)) with (shoelace_path (o :: vs ++ [o])). rewrite abs_IZR. lra.
Qed.

Lemma total_pos l : 0 <= total_length l.
Proof. induction l as [|s l IH]; [cbn; lra|]. cbn. assert (0 <= seg_length s) by apply sqrt_pos. lra. Qed.
Lemma stand_plen ps vs : points_stand_for ps vs -> total_length (pairs ps) = plen vs.
Proof.
  intros S. induction S as [|p v ps vs H S IH]; [reflexivity|].
  destruct S as [|q w ps vs H2 S]; [reflexivity|].
  change (pairs (p :: q :: ps)) with (Seg p q :: pairs (q :: ps)). cbn [total_length]. rewrite IH.
  change (plen (v :: w :: vs)) with (vdist v w + plen (w :: vs)). f_equal.
  destruct H as [[_ X] [_ Y]]. destruct H2 as [[_ X2] [_ Y2]].
  unfold seg_length, vdist, xR, yR. cbn [sa sb]. now rewrite X, Y, X2, Y2.
Qed.
Lemma pairs_app ps qs : total_length (pairs ps) <= total_length (pairs (ps ++ qs)).
Proof.
  induction ps as [|a [|b ps] IH]; [apply total_pos|apply total_pos|].
  change (pairs (a :: b :: ps)) with (Seg a b :: pairs (b :: ps)).
  change (pairs ((a :: b :: ps) ++ qs)) with (Seg a b :: pairs ((b :: ps) ++ qs)). cbn [total_length]. lra.
Qed.
Lemma plen_total ps vs closed : points_stand_for ps vs -> 0 < total_length (series_segments closed ps) ->
  plen vs <= total_length (series_segments closed ps).
Proof.
  intros S L. rewrite <- (stand_plen ps vs S). unfold series_segments, ring_segments, line_segments in *.
  destruct closed; [|apply Rle_refl]. destruct (length ps <? 3)%nat; [cbn in L; lra|].
  unfold close_points. destruct ps as [|a ps]; [apply Rle_refl|]. destruct (same_point _ _); [apply Rle_refl|apply pairs_app].
Qed.

(** Of the full claim "at most 1" for rings this is the part proved: on the grid of
    [C67_grid] the score of every ring and line is below 3.15 (Pi, up to rounding).
    For lines no bound below 2 holds (half a circle).  Missing: the
    isoperimetric inequality, which gives 1 for rings. *)
Theorem C67_bounded_partial :
  forall e ps vs m closed ix r, points_stand_for ps vs -> within m vs -> (0 <= m <= 2 ^ 24)%Z ->
    (4 * (m * m) * Z.of_nat (length ps) <= 2 ^ 53)%Z -> (Z.of_nat (length ps) < 33554432)%Z ->
    series_new_ix e ps closed ix = Some r -> 0 < total_length (series_segments closed ps) ->
    fin (polsby_popper r) /\ 0 <= RV (polsby_popper r) <= 315 / 100.
Proof.
  intros e ps vs m closed ix r S W M B LB N L0.
  destruct (C67_grid e ps vs m closed ix r S W M B LB N L0) as [F E]. split; [exact F|].
  pose proof (plen_total ps vs closed S L0) as PT. pose proof (shoelace_plen vs) as SP. pose proof (plen_pos vs) as P0.
  pose proof (segments_length closed ps) as SL.
  set (L := total_length (series_segments closed ps)) in *.
  set (n := INR (length (series_segments closed ps))) in *.
  assert (N0 : 0 <= n) by apply pos_INR.
  assert (NB : n <= 33554432) by (unfold n; rewrite INR_IZR_INZ; apply IZR_le; lia).
  set (a := IZR (Z.abs (shoelace vs))) in *. assert (A0 : 0 <= a) by (apply IZR_le; lia).
  assert (LL : 0 < L * L) by nra. assert (AL : a <= L * L / 2) by nra.
  set (T := 4 * pi64 * (a / 2) / (L * L)) in *.
  assert (TB : 0 <= T <= pi64).
  { unfold T. split.
    - apply Rmult_le_pos; [unfold pi64; lra|left; now apply Rinv_0_lt_compat].
    - apply Rmult_le_reg_r with (L * L); [exact LL|]. unfold Rdiv at 1. rewrite Rmult_assoc, Rinv_l, Rmult_1_r by lra.
      unfold pi64. lra. }
  change (2 ^ 49)%Z with 562949953421312%Z in E.
  assert (TE : T * (n + 1) / 562949953421312 <= T * / 8388608).
  { unfold Rdiv. rewrite Rmult_assoc. apply Rmult_le_compat_l; lra. }
  apply Rabs_le_inv in E. unfold pi64 in TB. split; lra.
Qed.
Print Assumptions C67_bounded_partial.

(** the bound and the hypotheses: the square of [C67_grid_example] has a path of
    length 30 and shoelace sum -200, and 200 is no more than 30^2 / 2; the other
    hypotheses are met in [C67_grid_example] *)
Example C67_bounded_example :
  let vs := [(0, 0); (0, 10); (10, 10); (10, 0)]%Z in plen vs = 30 /\ IZR (Z.abs (shoelace vs)) = 200.
Proof.
  cbv zeta. split; [|reflexivity]. cbn [plen]. unfold vdist, dist. cbn [fst snd].
  replace ((0 - 0) * (0 - 0) + (0 - 10) * (0 - 10)) with (10 * 10) by ring.
  replace ((0 - 10) * (0 - 10) + (10 - 10) * (10 - 10)) with (10 * 10) by ring.
  replace ((10 - 10) * (10 - 10) + (10 - 0) * (10 - 0)) with (10 * 10) by ring.
  rewrite !sqrt_square by lra. lra.
Qed.
