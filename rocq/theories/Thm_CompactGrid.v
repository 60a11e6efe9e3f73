(** * The compactness score of rings and lines on the integer grid *)

From Coq Require Import ZArith Bool List Lia Reals Lra Psatz.
From Flocq Require Import Core.
From Verif Require Import F64 F64Real F64Mono Geo Series RingApi SeriesFacts SearchFacts SpecGeo SpecPlane SpecTurn RingTurn
  SeriesExamples Dist SpecDist DistFacts GeomFacts Thm_Turn Thm_Preds Thm_Length Thm_Compact.
Import ListNotations.
Local Open Scope R_scope.

Lemma path_bound m vs : within m vs -> (0 <= m)%Z -> (Z.abs (shoelace_path vs) <= 2 * (m * m) * Z.of_nat (length vs))%Z.
Proof.
  intros W M. induction vs as [|a vs IH]; [cbn; lia|].
  assert (W' : within m vs) by (intros v I; apply W; now right). specialize (IH W').
  destruct vs as [|b vs]; [cbn [shoelace_path length]; nia|].
  destruct (W a (or_introl eq_refl)) as [A1 A2]. destruct (W b (or_intror (or_introl eq_refl))) as [B1 B2].
  change (shoelace_path (a :: b :: vs)) with (fst a * snd b - fst b * snd a + shoelace_path (b :: vs))%Z.
  set (rest := b :: vs) in *. cbn [length]. rewrite Nat2Z.inj_succ.
  assert (Z.abs (fst a * snd b) <= m * m)%Z by (rewrite Z.abs_mul; apply Z.mul_le_mono_nonneg; lia).
  assert (Z.abs (fst b * snd a) <= m * m)%Z by (rewrite Z.abs_mul; apply Z.mul_le_mono_nonneg; lia).
  lia.
Qed.
Lemma shoelace_bound m vs : within m vs -> (0 <= m)%Z -> (Z.abs (shoelace vs) <= 2 * (m * m) * (Z.of_nat (length vs) + 1))%Z.
Proof.
  intros W M. unfold shoelace. destruct vs as [|a vs]; [assert (0 <= m * m)%Z by (apply Z.mul_nonneg_nonneg; lia); change (Z.abs 0) with 0%Z; cbn [length Z.of_nat]; lia|].
  assert (W' : within m ((a :: vs) ++ [a])).
  { intros v I. apply in_app_or in I. destruct I as [I|[<-|[]]]; [now apply W|apply W; now left]. }
  pose proof (path_bound m _ W' M) as H. rewrite app_length, Nat2Z.inj_add in H. exact H.
Qed.
Lemma stand_int ps vs m : points_stand_for ps vs -> within m vs -> (m <= 2 ^ 24)%Z -> forall p, In p ps -> int_point 24 p.
Proof.
  intros S W M. induction S as [|p v ps vs [[X1 X2] [Y1 Y2]] S IH]; [contradiction|].
  intros q [<-|I].
  - destruct (W v (or_introl eq_refl)). split; (split; [assumption|]); eexists; (split; [eassumption|lia]).
  - apply IH; [|exact I]. intros w J. apply W. now right.
Qed.
Lemma total_bounds l : (forall s, In s l -> int_segment 24 s) ->
  unit_or_zero (total_length l) /\ 0 <= total_length l <= INR (length l) * 67108864.
Proof.
  induction l as [|s l IH]; intros I; [cbn; split; [now left|lra]|].
  destruct IH as [U B]; [intros x J; apply I; now right|].
  destruct (seg_len_Z s (I s (or_introl eq_refl))) as (n & N0 & NV & NB).
  pose proof (root_unit n N0) as UL. rewrite <- NV in UL. cbn [total_length length]. rewrite S_INR.
  unfold unit_or_zero in *. split; [|destruct UL; lra]. destruct UL, U; [left|right|right|right]; lra.
Qed.

(** the score of a ring or line with integer coordinates up to m <= 2^24 and
    4 * m^2 * n <= 2^53, n the number of points, that is not a single place: it is
    finite, and within k / 2^49, relatively, k one more than the number of segments, of
    4 * M_PI * area / length^2, the area by the shoelace formula and the length by
    the distances *)
Theorem C67_grid :
  forall e ps vs m closed ix r, points_stand_for ps vs -> within m vs -> (0 <= m <= 2 ^ 24)%Z ->
    (4 * (m * m) * Z.of_nat (length ps) <= 2 ^ 53)%Z -> (Z.of_nat (length ps) < 33554432)%Z ->
    series_new_ix e ps closed ix = Some r ->
    let segs := series_segments closed ps in
    let L := total_length segs in
    let T := 4 * pi64 * (IZR (Z.abs (shoelace vs)) / 2) / (L * L) in
    0 < L ->
    fin (polsby_popper r) /\ Rabs (RV (polsby_popper r) - T) <= T * (INR (length segs) + 1) / IZR (2 ^ 49).
Proof.
  intros e ps vs m closed ix r S W M B LB N segs L T L0.
  destruct (C60_length e ps closed ix r (stand_int _ _ _ S W ltac:(lia)) ltac:(lia) N) as (FP & EP & _).
  fold segs in EP. fold L in EP.
  destruct (series_new_ix_inv _ _ _ _ _ N) as (k & s & NW).
  destruct (winding ps vs m closed k s r S W B NW) as (_ & FA & VA).
  pose proof (total_bounds segs) as TB. destruct TB as [TU TL].
  { intros x I. apply segments_in in I. split; apply (stand_int _ _ _ S W ltac:(lia)); tauto. }
  fold L in TU, TL. destruct TU as [TU|TU]; [lra|].
  set (n := INR (length segs)) in *.
  assert (N0 : 0 <= n) by apply pos_INR.
  assert (NB : n <= 33554432).
  { unfold n. rewrite INR_IZR_INZ. apply IZR_le. pose proof (segments_length closed ps). fold segs in H. lia. }
  change (2 ^ 51)%Z with 2251799813685248%Z in EP. change (2 ^ 49)%Z with 562949953421312%Z.
  set (p := RV (tg_ring_perimeter (Some r))) in *.
  assert (DE : Rabs (p / L - 1) <= n / 2251799813685248).
  { replace (p / L - 1) with ((p - L) * / L) by (field; lra).
    rewrite Rabs_mult, (Rabs_pos_eq (/ L)) by (left; apply Rinv_0_lt_compat; lra).
    replace (n / 2251799813685248) with (n * L / 2251799813685248 * / L) by (field; lra).
    apply Rmult_le_compat_r; [left; apply Rinv_0_lt_compat; lra|exact EP]. }
  set (d := p / L - 1) in *. assert (PE : p = L * (1 + d)) by (unfold d; field; lra).
  apply Rabs_le_inv in DE. assert (DS : - / 67108864 <= d <= / 67108864) by lra.
  assert (PB : 1 / 2 <= p <= 2 * L) by (rewrite PE; split; nra).
  assert (EM : tg_ring_empty r = false).
  { destruct (tg_ring_empty r) eqn:E; [|reflexivity]. exfalso. unfold p in PB. cbn [tg_ring_perimeter] in PB. rewrite E in PB.
    change (RV f_zero) with 0 in PB. lra. }
  assert (AE : tg_ring_area (Some r) = r_area r) by (cbn [tg_ring_area]; now rewrite EM).
  set (a := IZR (Z.abs (shoelace vs)) / 2) in *.
  assert (AB : a = 0 \/ 1 / 2 <= a <= 18014398509481984 * 4).
  { unfold a. destruct (Z.eq_dec (shoelace vs) 0) as [->|NZ]; [left; cbn; lra|right].
    pose proof (shoelace_bound m vs W ltac:(lia)) as SB. rewrite <- (stand_length _ _ S) in SB.
    assert (SB' : (Z.abs (shoelace vs) <= 18014398509481984)%Z) by nia.
    apply IZR_le in SB'. assert (1 <= IZR (Z.abs (shoelace vs))) by (apply IZR_le; lia). lra. }
  destruct (C67_value r) as [FS ES].
  { now rewrite AE. }
  { exact FP. }
  { rewrite AE, VA. change (2 ^ 100)%Z with 1267650600228229401496703205376%Z. destruct AB; [now left|right; lra]. }
  { fold p. change (2 ^ 40)%Z with 1099511627776%Z. change (2 ^ 60)%Z with 1152921504606846976%Z. lra. }
  split; [exact FS|]. rewrite AE, VA in ES. fold p in ES. change (2 ^ 50)%Z with 1125899906842624%Z in ES.
  set (sc := RV (polsby_popper r)) in *. clearbody sc.
  assert (T0 : 0 <= T).
  { unfold T, Rdiv. apply Rmult_le_pos; [|left; apply Rinv_0_lt_compat; nra]. unfold pi64. destruct AB; lra. }
  set (g := / ((1 + d) * (1 + d))).
  assert (TE : 4 * pi64 * a / (p * p) = T * g) by (unfold T, g; rewrite PE; field; split; lra).
  rewrite TE in ES.
  set (h := n / 2251799813685248) in *.
  assert (HB : 0 <= h <= / 67108864) by (unfold h; lra).
  assert (Q : 1 - 2 * h <= (1 + d) * (1 + d) <= 1 + 2 * h + h * h) by (split; nra).
  assert (HH : h * h <= h * / 67108864) by (apply Rmult_le_compat_l; lra).
  assert (G : 1 - 3 * h <= g <= 1 + 3 * h).
  { unfold g. set (q := (1 + d) * (1 + d)) in *. assert (QP : 0 < q) by lra. split.
    - apply Rmult_le_reg_r with q; [exact QP|]. rewrite Rinv_l by lra. nra.
    - apply Rmult_le_reg_r with q; [exact QP|]. rewrite Rinv_l by lra. nra. }
  replace (T * (n + 1) / 562949953421312) with (T * (4 * h + 4 / 2251799813685248)) by (unfold h; field).
  apply Rabs_le_inv in ES. apply Rabs_le.
  assert (TG1 : T * g <= T * (1 + 3 * h)) by (apply Rmult_le_compat_l; lra).
  assert (TG2 : T * (1 - 3 * h) <= T * g) by (apply Rmult_le_compat_l; lra).
  assert (TH : 0 <= T * h) by (apply Rmult_le_pos; lra).
  assert (TH2 : T * h <= T * / 67108864) by (apply Rmult_le_compat_l; lra).
  split; lra.
Qed.
Print Assumptions C67_grid.

(** the hypotheses: a square of side 10, as a ring without the repeated point *)
Example C67_grid_example :
  let ps := [P 0 0; P 0 10; P 10 10; P 10 0] in let vs := [(0, 0); (0, 10); (10, 10); (10, 0)]%Z in
  points_stand_for ps vs /\ within 10 vs /\ shoelace vs = (-200)%Z /\
  (exists r, series_new_ix env_init ps true 1 = Some r) /\ 0 < total_length (series_segments true ps).
Proof.
  cbv zeta. split; [stands|]. split; [small|]. split; [reflexivity|]. split; [vm_compute; eexists; reflexivity|].
  replace (series_segments true [P 0 0; P 0 10; P 10 10; P 10 0]) with
    [Seg (P 0 0) (P 0 10); Seg (P 0 10) (P 10 10); Seg (P 10 10) (P 10 0); Seg (P 10 0) (P 0 0)] by (vm_compute; reflexivity).
  cbn [total_length]. apply Rplus_lt_le_0_compat.
  - unfold seg_length. cbn [sa sb]. destruct (P_R 0 0) as [-> ->]; try lia. destruct (P_R 0 10) as [-> ->]; try lia.
    unfold dist. apply sqrt_lt_R0. lra.
  - assert (NN : forall s, 0 <= seg_length s) by (intros s; apply sqrt_pos).
    repeat (apply Rplus_le_le_0_compat; [apply NN|]). apply Rle_refl.
Qed.
