(** * Perimeters and lengths (C60) *)

From Coq Require Import ZArith Bool List Lia ZifyBool Reals Lra Psatz PeanoNat.
From Flocq Require Import Core BinarySingleNaN Relative.
From Verif Require Import F64 Geo Series RingApi F64Order F64Real F64Mono SeriesFacts SearchFacts SegExact SpecGeo SpecFacts
  SpecPlane SeriesExamples Thm_Preds Dist SpecDist DistFacts Thm_Dist.
Import ListNotations.
Local Open Scope R_scope.

(** the sum of the lengths of segments *)
Definition seg_length (s : seg) : R := dist (xR (sa s)) (yR (sa s)) (xR (sb s)) (yR (sb s)).
Fixpoint total_length (l : list seg) : R :=
  match l with [] => 0 | s :: rest => seg_length s + total_length rest end.

(** relative errors only: zero, or no smaller than one *)
Definition unit_or_zero (x : R) : Prop := x = 0 \/ 1 <= x.
Lemma rel_err x : unit_or_zero x -> Rabs (rnd64 x - x) <= u53 * x /\ unit_or_zero (rnd64 x).
Proof.
  intros [->|H].
  - rewrite rnd64_0, Rminus_0_r, Rabs_R0, Rmult_0_r. split; [lra|now left].
  - split.
    + change (SpecFloat.fexp 53 1024) with (FLT_exp (-1074) 53).
      change (round_mode mode_NE) with (Znearest (fun z => negb (Z.even z))).
      eapply Rle_trans; [apply (relative_error_N_FLT radix2 (-1074) 53 eq_refl (fun z => negb (Z.even z)) x)|].
      * rewrite Rabs_pos_eq by lra. apply Rle_trans with 1; [|exact H]. change 1 with (bpow radix2 0). apply bpow_le. lia.
      * rewrite (Rabs_pos_eq x) by lra. apply Rmult_le_compat_r; [lra|]. unfold u53.
        replace (-53)%Z with (- (53) + 1 + -1)%Z by reflexivity. rewrite (bpow_plus radix2 (- (53) + 1) (-1)).
        change (bpow radix2 (-1)) with (/ 2). lra.
    + right. rewrite <- rnd64_1. now apply rnd64_le.
Qed.

Lemma seg_len_Z s : int_segment 24 s -> exists n, (0 <= n)%Z /\ seg_length s = sqrt (IZR n) /\ seg_length s <= 67108864.
Proof.
  intros [[AX AY] [BX BY]]. apply int_isz in AX, AY, BX, BY.
  destruct AX as (ax & AX & AX'), AY as (ay & AY & AY'), BX as (bx & BX & BX'), BY as (b_y & BY & BY').
  exists ((ax - bx) * (ax - bx) + (ay - b_y) * (ay - b_y))%Z. split; [apply sum_sq_nonneg|].
  unfold seg_length, dist, xR, yR. rewrite (proj2 AX), (proj2 AY), (proj2 BX), (proj2 BY).
  rewrite <- !minus_IZR. split; [now rewrite plus_IZR, !mult_IZR|].
  eapply Rle_trans; [apply norm_le|]. rewrite <- !abs_IZR, <- plus_IZR. apply IZR_le. lia.
Qed.
Lemma root_unit n : (0 <= n)%Z -> unit_or_zero (sqrt (IZR n)).
Proof.
  intros N. destruct (Z.eq_dec n 0) as [->|NZ]; [left; apply sqrt_0|right].
  rewrite <- sqrt_1. apply sqrt_le_1_alt. apply IZR_le. lia.
Qed.

(** the loop of the perimeter *)
Definition add_length (acc : f64) (s : seg) : f64 := fadd acc (flength (px (sa s)) (py (sa s)) (px (sb s)) (py (sb s))).
Lemma sum_near : forall l S k T, (forall s, In s l -> int_segment 24 s) -> fin S -> unit_or_zero (RV S) -> 0 <= T ->
  T <= INR k * 67108864 -> (Z.of_nat (k + length l) <= 67108864)%Z -> Rabs (RV S - T) <= 3 * u53 * INR k * T ->
  fin (fold_left add_length l S) /\
  Rabs (RV (fold_left add_length l S) - (T + total_length l)) <= 3 * u53 * INR (k + length l) * (T + total_length l).
Proof.
  induction l as [|s l IH]; intros S k T IN FS US T0 TB KB E.
  - cbn. rewrite Rplus_0_r, Nat.add_0_r. split; assumption.
  - cbn [fold_left total_length length] in *. 
    destruct (seg_len_Z s (IN s (or_introl eq_refl))) as (n & N0 & NV & NB).
    pose proof (root_unit n N0) as UL. rewrite <- NV in UL.
    destruct (C59_point_point (sa s) (sb s)) as [FL VL]; try (apply (IN s); now left).
    change (tg_point_distance_point (sa s) (sb s)) with (flength (px (sa s)) (py (sa s)) (px (sb s)) (py (sb s))) in *.
    set (lf := flength (px (sa s)) (py (sa s)) (px (sb s)) (py (sb s))) in *.
    change (RV lf = rnd64 (seg_length s)) in VL.
    destruct (rel_err _ UL) as [EL ULr]. rewrite <- VL in EL, ULr.
    set (L := seg_length s) in *. assert (L0 : 0 <= L) by apply dist_nonneg.
    assert (U0 : 0 < u53) by apply bpow_gt_0. assert (UV : u53 = / 9007199254740992) by reflexivity.
    assert (KR : INR k <= 67108864) by (rewrite INR_IZR_INZ; apply IZR_le; lia).
    assert (K0 : 0 <= INR k) by apply pos_INR.
    assert (KT : 3 * u53 * INR k <= / 4096) by (rewrite UV; lra).
    assert (KT0 : 0 <= 3 * u53 * INR k) by (apply Rmult_le_pos; lra).
    assert (E4 : 3 * u53 * INR k * T <= / 4096 * T) by (apply Rmult_le_compat_r; lra).
    assert (TBIG : T <= 4503599627370496) by lra.
    assert (L4 : u53 * L <= / 4096 * L) by (apply Rmult_le_compat_r; lra).
    apply Rabs_le_inv in E. apply Rabs_le_inv in EL.
    assert (SP : 0 <= RV S) by (destruct US; lra). assert (LP : 0 <= RV lf) by (destruct ULr; lra).
    assert (UX : unit_or_zero (RV S + RV lf)) by (destruct US, ULr; [left|right|right|right]; lra).
    assert (IB : 1152921504606846976 <= IZR (2 ^ 200)) by (apply IZR_le; now vm_compute).
    destruct (fadd_err S lf FS FL) as [FA VA]; [unfold mid; rewrite Rabs_pos_eq by lra; lra|]. clear IB.
    destruct (rel_err _ UX) as [EA UA]. rewrite <- VA in EA, UA. apply Rabs_le_inv in EA.
    assert (UE : u53 * (RV S + RV lf) <= u53 * (3 / 2 * (T + L))) by (apply Rmult_le_compat_l; lra).
    assert (KL : 0 <= 3 * u53 * INR k * L) by (apply Rmult_le_pos; lra).
    assert (UT0 : 0 <= u53 * T) by (apply Rmult_le_pos; lra).
    assert (UL0 : 0 <= u53 * L) by (apply Rmult_le_pos; lra).
    change (add_length S s) with (fadd S lf).
    specialize (IH (fadd S lf) (k + 1)%nat (T + L)).
    replace (T + (L + total_length l)) with (T + L + total_length l) by ring.
    replace (k + Datatypes.S (length l))%nat with (k + 1 + length l)%nat by lia.
    apply IH; [intros s' I; apply IN; now right|exact FA|exact UA|lra| |lia|]; rewrite plus_INR; change (INR 1) with 1; [lra|].
    apply Rabs_le. split; lra.
Qed.

Lemma fold_map {A B C : Type} (f : C -> B -> C) (g : A -> B) l : forall c,
  fold_left (fun c a => f c (g a)) l c = fold_left f (map g l) c.
Proof. induction l as [|a l IH]; intros c; cbn; auto. Qed.

Lemma perimeter_near l S0 : S0 = f_zero -> (forall s, In s l -> int_segment 24 s) -> (Z.of_nat (length l) <= 67108864)%Z ->
  fin (fold_left add_length l S0) /\
  Rabs (RV (fold_left add_length l S0) - total_length l) <= INR (length l) * total_length l / IZR (2 ^ 51).
Proof.
  intros -> I B. pose proof isz_zero as [F0 V0].
  destruct (sum_near l f_zero 0 0) as [F E]; auto.
  - left. exact V0.
  - lra.
  - cbn. lra.
  - rewrite V0. cbn. rewrite Rminus_0_r, Rabs_R0. lra.
  - split; [exact F|]. rewrite Rplus_0_l in E. cbn [Nat.add] in E. eapply Rle_trans; [exact E|].
    change u53 with (/ 9007199254740992). change (IZR (2 ^ 51)) with 2251799813685248.
    assert (0 <= total_length l).
    { clear. induction l; cbn; [lra|]. pose proof (dist_nonneg (xR (sa a)) (yR (sa a)) (xR (sb a)) (yR (sb a))). unfold seg_length. lra. }
    assert (0 <= INR (length l) * total_length l) by (apply Rmult_le_pos; [apply pos_INR|assumption]). lra.
Qed.

Lemma pairs_in ps s : In s (pairs ps) -> In (sa s) ps /\ In (sb s) ps.
Proof.
  induction ps as [|a [|b ps] IH]; cbn [pairs]; try contradiction.
  intros [<-|I]; [cbn; auto|]. destruct (IH I). split; now right.
Qed.
Lemma segments_in closed ps s : In s (series_segments closed ps) -> In (sa s) ps /\ In (sb s) ps.
Proof.
  unfold series_segments, ring_segments, line_segments. destruct closed; [|apply pairs_in].
  destruct (length ps <? 3)%nat; [contradiction|]. intros I. apply pairs_in in I.
  unfold close_points in I. destruct ps as [|a ps]; [cbn in I; tauto|].
  destruct (same_point _ _); [exact I|]. destruct I as [I1 I2].
  split; [apply in_app_or in I1; destruct I1 as [I1|[<-|[]]]|apply in_app_or in I2; destruct I2 as [I2|[<-|[]]]]; auto; now left.
Qed.
Lemma pairs_length' ps : (length (pairs ps) <= length ps)%nat.
Proof. induction ps as [|a [|b ps] IH]; cbn [pairs length] in *; lia. Qed.
Lemma segments_length closed ps : (length (series_segments closed ps) <= length ps + 1)%nat.
Proof.
  unfold series_segments, ring_segments, line_segments. destruct closed; [|pose proof (pairs_length' ps); lia].
  destruct (length ps <? 3)%nat; [cbn; lia|]. pose proof (pairs_length' (close_points ps)) as H.
  unfold close_points in *. destruct ps as [|a ps]; [cbn in *; lia|].
  destruct (same_point _ _); [lia|]. rewrite app_length in H. cbn [length] in *. lia.
Qed.

(** whatever index was asked for, the perimeter of a ring and the length of a
    line of n segments on the grid are within n * 2^-51, relatively, of the sum of
    the lengths of the segments *)
Theorem C60_length :
  forall e ps closed ix r, (forall p, In p ps -> int_point 24 p) -> (Z.of_nat (length ps) < 67108864)%Z ->
    series_new_ix e ps closed ix = Some r ->
    let L := total_length (series_segments closed ps) in
    let n := INR (length (series_segments closed ps)) in
    fin (tg_ring_perimeter (Some r)) /\ Rabs (RV (tg_ring_perimeter (Some r)) - L) <= n * L / IZR (2 ^ 51) /\
    tg_line_length (Some r) = tg_ring_perimeter (Some r).
Proof.
  intros e ps closed ix r IP LB N L n. split; [|split; [|reflexivity]].
  all: unfold series_new_ix in N; destruct (tg_index_extract_spread e ix) as [base spread].
  all: pose proof (series_new_fields _ _ _ _ _ N) as F; cbv zeta in F; destruct F as (FC & FN & FS & FP & _).
  all: assert (OK : pts_ok ps) by
    (apply Forall_forall; intros p I; destruct (IP p I) as [[A _] [B _]]; split; apply fin_ok; assumption).
  all: assert (E : tg_ring_perimeter (Some r) = fold_left add_length (series_segments closed ps) f_zero).
  1,3: cbn [tg_ring_perimeter]; rewrite (series_segments_spec ps closed OK), <- FS;
    destruct (tg_ring_empty r) eqn:EM;
    [ assert (Z0 : r_nsegs r = 0%nat);
      [ unfold tg_ring_empty in EM; rewrite FC, FN in EM; rewrite FS; unfold num_segments;
        destruct closed; cbn [andb orb] in EM;
        [destruct (length ps <? 3)%nat eqn:Q; [reflexivity|cbn in EM; lia]|now rewrite EM]
      | rewrite Z0; reflexivity]
    | unfold ring_perimeter; rewrite FP; rewrite <- fold_map; reflexivity ].
  all: rewrite E; destruct (perimeter_near (series_segments closed ps) f_zero eq_refl) as [A B];
    [intros s I; apply segments_in in I; split; apply IP; tauto|pose proof (segments_length closed ps); lia|].
  - exact A.
  - exact B.
Qed.
Print Assumptions C60_length.

(** a 3-4-5 triangle, open and closed *)
Example C60_example :
  (forall p, In p [P 0 0; P 3 0; P 3 4] -> int_point 24 p) /\
  total_length (series_segments true [P 0 0; P 3 0; P 3 4]) = 12 /\
  (exists r, series_new_ix env_init [P 0 0; P 3 0; P 3 4] true 0 = Some r /\ tg_ring_perimeter (Some r) = f_of_Z 12) /\
  (exists r, series_new_ix env_init [P 0 0; P 3 0; P 3 4] false 0 = Some r /\ tg_line_length (Some r) = f_of_Z 7).
Proof.
  split. { intros p I. repeat (destruct I as [<-|I]; [apply P_int24; lia|]). destruct I. }
  split.
  { replace (series_segments true [P 0 0; P 3 0; P 3 4]) with [Seg (P 0 0) (P 3 0); Seg (P 3 0) (P 3 4); Seg (P 3 4) (P 0 0)] by (vm_compute; reflexivity).
    cbn [total_length]. unfold seg_length. cbn [sa sb].
    destruct (P_R 0 0) as [-> ->]; try lia. destruct (P_R 3 0) as [-> ->]; try lia. destruct (P_R 3 4) as [-> ->]; try lia.
    unfold dist.
    replace ((0 - 3) * (0 - 3) + (0 - 0) * (0 - 0)) with (3 * 3) by lra.
    replace ((3 - 3) * (3 - 3) + (0 - 4) * (0 - 4)) with (4 * 4) by lra.
    replace ((3 - 0) * (3 - 0) + (4 - 0) * (4 - 0)) with (5 * 5) by lra.
    rewrite !sqrt_square by lra. lra. }
  assert (H : forall closed n, match series_new_ix env_init [P 0 0; P 3 0; P 3 4] closed 0 with
      | Some r => tg_ring_perimeter (Some r) | None => f_one end = f_of_Z n -> f_of_Z n <> f_one ->
      exists r, series_new_ix env_init [P 0 0; P 3 0; P 3 4] closed 0 = Some r /\ tg_ring_perimeter (Some r) = f_of_Z n).
  { intros closed n. destruct (series_new_ix _ _ _ _) as [r|]; [now exists r|congruence]. }
  split; apply H; vm_compute; (reflexivity || discriminate).
Qed.
