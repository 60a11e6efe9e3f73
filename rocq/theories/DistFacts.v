(** * Square roots and rounding errors of distances *)

From Coq Require Import ZArith Bool List Lia ZifyBool Reals Lra Psatz.
From Coq Require Import Floats.SpecFloat.
From Flocq Require Import Core BinarySingleNaN Relative.
From Verif Require Import F64 Geo F64Order F64Real F64Mono SegExact.
Local Open Scope R_scope.

Lemma SFsqrt_equiv (x : bf) : SFsqrt 53 1024 (B2SF x) = B2SF (Bsqrt mode_NE x).
Proof.
  case x as [sx|sx| |sx mx ex Bx]; [reflexivity|now destruct sx|reflexivity|].
  destruct sx; [reflexivity|]. simpl. rewrite B2SF_SF2B.
  set (melz := SFsqrt_core_binary _ _ _ _). case melz as [[mz ez] lz]. apply binary_round_aux_equiv.
Qed.

(** fsqrt rounds the real square root *)
Lemma fsqrt_correct x : fin x -> 0 <= RV x -> fin (fsqrt x) /\ RV (fsqrt x) = rnd64 (sqrt (RV x)).
Proof.
  intros Fx NN. unfold fsqrt. rewrite <- (B2SF_toB x (proj1 Fx)), SFsqrt_equiv.
  pose proof (Bsqrt_correct 53 1024 _ _ mode_NE (toB x (proj1 Fx))) as (C1 & C2 & _).
  rewrite B2R_toB in C1.
  assert (FT : is_finite (Bsqrt mode_NE (toB x (proj1 Fx))) = true).
  { rewrite C2. pose proof (fin_isfinite x Fx) as I. pose proof (B2R_toB x (proj1 Fx)) as V.
    destruct (toB x (proj1 Fx)) as [s|s| |[|] m e B]; try reflexivity; try discriminate I.
    exfalso. cbn [B2R] in V. rewrite <- V in NN. revert NN. apply Rlt_not_le. now apply F2R_lt_0. }
  destruct (B2SF_finite_enc _ FT) as [A B]. split; [exact A|]. now rewrite B.
Qed.

(** one rounding: a relative error and one of underflow *)
Definition u53 : R := bpow radix2 (-53).
Definition tiny : R := bpow radix2 (-1075).
Lemma rnd_err x : Rabs (rnd64 x - x) <= u53 * Rabs x + tiny.
Proof.
  destruct (error_N_FLT radix2 (-1074) 53 eq_refl (fun z => negb (Z.even z)) x) as (eps & eta & E1 & E2 & E3 & E4).
  change (SpecFloat.fexp 53 1024) with (FLT_exp (-1074) 53).
  change (round_mode mode_NE) with (Znearest (fun z => negb (Z.even z))).
  rewrite E4. replace (x * (1 + eps) + eta - x) with (x * eps + eta) by ring.
  eapply Rle_trans; [apply Rabs_triang|]. rewrite Rabs_mult. apply Rplus_le_compat.
  - rewrite Rmult_comm. apply Rmult_le_compat_r; [apply Rabs_pos|]. eapply Rle_trans; [exact E1|].
    unfold u53, u_ro. replace (-53)%Z with (- (53) + 1 + -1)%Z by reflexivity.
    rewrite (bpow_plus radix2 (- (53) + 1) (-1)). change (bpow radix2 (-1)) with (/ 2). lra.
  - eapply Rle_trans; [exact E2|]. unfold tiny.
    change (-1075)%Z with (-1074 + -1)%Z. rewrite bpow_plus. change (bpow radix2 (-1)) with (/ 2). lra.
Qed.

Lemma u53_val : u53 = / IZR (2 ^ 53).
Proof. reflexivity. Qed.
Lemma tiny_pos : 0 < tiny.
Proof. apply bpow_gt_0. Qed.
Lemma tiny_small : tiny <= / IZR (2 ^ 200).
Proof. unfold tiny. change (/ IZR (2 ^ 200)) with (bpow radix2 (-200)). apply bpow_le. lia. Qed.

(** a value below 2^1000 does not overflow *)
Definition big : R := bpow radix2 1000.
Lemma rnd_fits x : Rabs x <= big -> Rlt_bool (Rabs (rnd64 x)) (bpow radix2 1024) = true.
Proof.
  intros H. apply Rlt_bool_true. apply Rle_lt_trans with big.
  - apply abs_round_le_generic; try typeclasses eauto; [|exact H].
    apply generic_format_bpow. unfold SpecFloat.fexp, SpecFloat.emin. lia.
  - apply bpow_lt. lia.
Qed.
Lemma big_ge : IZR (2 ^ 200) <= big.
Proof. change (IZR (2 ^ 200)) with (bpow radix2 200). apply bpow_le. lia. Qed.

(** operations on values of moderate size *)
Definition mid (x : R) : Prop := Rabs x <= IZR (2 ^ 200).
Lemma fadd_err x y : fin x -> fin y -> mid (RV x + RV y) ->
  fin (fadd x y) /\ RV (fadd x y) = rnd64 (RV x + RV y).
Proof.
  intros Fx Fy M. pose proof (fadd_correct x y Fx Fy) as C. cbv zeta in C.
  rewrite rnd_fits in C by (eapply Rle_trans; [exact M|exact big_ge]). exact C.
Qed.
Lemma fsub_err x y : fin x -> fin y -> mid (RV x - RV y) ->
  fin (fsub x y) /\ RV (fsub x y) = rnd64 (RV x - RV y).
Proof.
  intros Fx Fy M. pose proof (fsub_correct x y Fx Fy) as C. cbv zeta in C.
  rewrite rnd_fits in C by (eapply Rle_trans; [exact M|exact big_ge]). exact C.
Qed.
Lemma fmul_err x y : fin x -> fin y -> mid (RV x * RV y) ->
  fin (fmul x y) /\ RV (fmul x y) = rnd64 (RV x * RV y).
Proof.
  intros Fx Fy M. pose proof (fmul_correct x y Fx Fy) as C. cbv zeta in C.
  rewrite rnd_fits in C by (eapply Rle_trans; [exact M|exact big_ge]). exact C.
Qed.
Lemma fdiv_err x y : fin x -> fin y -> RV y <> 0 -> mid (RV x / RV y) ->
  fin (fdiv x y) /\ RV (fdiv x y) = rnd64 (RV x / RV y).
Proof.
  intros Fx Fy NZ M. pose proof (fdiv_correct x y Fx Fy NZ) as C. cbv zeta in C.
  rewrite rnd_fits in C by (eapply Rle_trans; [exact M|exact big_ge]). exact C.
Qed.

(** ** The length of a vector with rounding *)

Lemma root_near w q k h : 0 <= w -> 0 <= q -> 0 <= k -> 0 <= h -> Rabs (w - q) <= k * q + h * h ->
  Rabs (sqrt w - sqrt q) <= k * sqrt q + h.
Proof.
  intros W Q K H E. pose proof (sqrt_pos w) as R1. pose proof (sqrt_pos q) as R2.
  set (r := sqrt w) in *. set (s := sqrt q) in *.
  assert (WR : w = r * r) by (symmetry; now apply sqrt_sqrt). assert (QS : q = s * s) by (symmetry; now apply sqrt_sqrt).
  rewrite WR, QS in E. clearbody r s. clear WR QS W Q w q.
  replace (r * r - s * s) with ((r - s) * (r + s)) in E by ring. rewrite Rabs_mult, (Rabs_pos_eq (r + s)) in E by lra.
  assert (D : Rabs (r - s) <= r + s) by (apply Rabs_le; lra).
  set (d := Rabs (r - s)) in *. clearbody d. destruct (Rle_or_lt d (k * s + h)) as [L|L]; [exact L|exfalso].
  assert (A : k * s * s <= k * s * (r + s)) by (apply Rmult_le_compat_l; [now apply Rmult_le_pos|lra]).
  assert (0 <= k * s) by now apply Rmult_le_pos.
  assert (B : h * h <= h * (r + s)) by (apply Rmult_le_compat_l; lra).
  assert (C : (k * s + h) * (r + s) < d * (r + s)) by (apply Rmult_lt_compat_r; lra). lra.
Qed.

Lemma norm_le x y : sqrt (x * x + y * y) <= Rabs x + Rabs y.
Proof.
  pose proof (Rabs_pos x). pose proof (Rabs_pos y).
  rewrite <- (sqrt_square (Rabs x + Rabs y)) by lra. apply sqrt_le_1_alt.
  assert (X : x * x = Rabs x * Rabs x) by (rewrite <- Rabs_mult; symmetry; apply Rabs_pos_eq; nra).
  assert (Y : y * y = Rabs y * Rabs y) by (rewrite <- Rabs_mult; symmetry; apply Rabs_pos_eq; nra).
  rewrite X, Y. nra.
Qed.
(** moving the vector by (p, q) changes its length by |p| + |q| at most *)
Lemma norm_add x y p q : sqrt ((x + p) * (x + p) + (y + q) * (y + q)) <= sqrt (x * x + y * y) + (Rabs p + Rabs q).
Proof.
  eapply Rle_trans; [|apply Rplus_le_compat_l, norm_le].
  set (a := sqrt (x * x + y * y)). set (b := sqrt (p * p + q * q)).
  assert (A0 : 0 <= a) by apply sqrt_pos. assert (B0 : 0 <= b) by apply sqrt_pos.
  rewrite <- (sqrt_square (a + b)) by lra. apply sqrt_le_1_alt.
  assert (A : a * a = x * x + y * y) by (apply sqrt_sqrt; nra).
  assert (B : b * b = p * p + q * q) by (apply sqrt_sqrt; nra).
  assert (C : x * p + y * q <= a * b).
  { apply Rle_trans with (Rabs (x * p + y * q)); [apply Rle_abs|].
    apply Rsqr_incr_0_var; [|now apply Rmult_le_pos]. rewrite <- Rsqr_abs. unfold Rsqr.
    replace (a * b * (a * b)) with ((a * a) * (b * b)) by ring. rewrite A, B.
    pose proof (Rle_0_sqr (x * q - y * p)) as Z. unfold Rsqr in Z. lra. }
  replace ((a + b) * (a + b)) with (a * a + 2 * (a * b) + b * b) by ring. rewrite A, B. lra.
Qed.
Lemma norm_near x y x' y' : Rabs (sqrt (x * x + y * y) - sqrt (x' * x' + y' * y')) <= Rabs (x - x') + Rabs (y - y').
Proof.
  apply Rabs_le. split.
  - pose proof (norm_add x y (x' - x) (y' - y)) as H.
    replace (x + (x' - x)) with x' in H by ring. replace (y + (y' - y)) with y' in H by ring.
    rewrite (Rabs_minus_sym x), (Rabs_minus_sym y). lra.
  - pose proof (norm_add x' y' (x - x') (y - y')) as H.
    replace (x' + (x - x')) with x in H by ring. replace (y' + (y - y')) with y in H by ring. lra.
Qed.

(** rounding in products, a sum and a root *)
Lemma length_near dx dy m : fin dx -> fin dy -> Rabs (RV dx) <= m -> Rabs (RV dy) <= m -> 1 <= m -> m <= 67108864 ->
  fin (fsqrt (fadd (fmul dx dx) (fmul dy dy))) /\
  Rabs (RV (fsqrt (fadd (fmul dx dx) (fmul dy dy))) - sqrt (RV dx * RV dx + RV dy * RV dy)) <= 7 * u53 * m.
Proof.
  intros Fx Fy X Y M1 M2. set (x := RV dx) in *. set (y := RV dy) in *.
  pose proof tiny_pos as TP. pose proof tiny_small as TS. pose proof u53_val as UV.
  assert (XX : 0 <= x * x <= m * m).
  { split; [nra|]. rewrite <- (Rabs_pos_eq (x * x)) by nra. rewrite Rabs_mult. pose proof (Rabs_pos x). nra. }
  assert (YY : 0 <= y * y <= m * m).
  { split; [nra|]. rewrite <- (Rabs_pos_eq (y * y)) by nra. rewrite Rabs_mult. pose proof (Rabs_pos y). nra. }
  assert (MM : m * m <= 4503599627370496) by nra.
  assert (U0 : 0 < u53) by apply bpow_gt_0.
  assert (US : u53 <= / 9007199254740992) by (rewrite UV; apply Rle_refl).
  assert (T2 : tiny <= / 9007199254740992).
  { eapply Rle_trans; [exact TS|]. change (/ 9007199254740992) with (bpow radix2 (-53)). change (/ IZR (2 ^ 200)) with (bpow radix2 (-200)). apply bpow_le. lia. }
  assert (IB : 1152921504606846976 <= IZR (2 ^ 200)) by (apply IZR_le; now vm_compute).
  set (B := IZR (2 ^ 200)) in *.
  destruct (fmul_err dx dx Fx Fx) as [F1 V1]; [fold x; unfold mid; rewrite Rabs_pos_eq by lra; fold B; lra|].
  destruct (fmul_err dy dy Fy Fy) as [F2 V2]; [fold y; unfold mid; rewrite Rabs_pos_eq by lra; fold B; lra|].
  fold x in V1. fold y in V2.
  pose proof (rnd_err (x * x)) as E1. rewrite <- V1, (Rabs_pos_eq (x * x)) in E1 by lra.
  pose proof (rnd_err (y * y)) as E2. rewrite <- V2, (Rabs_pos_eq (y * y)) in E2 by lra.
  assert (P1 : 0 <= RV (fmul dx dx)) by (rewrite V1, <- rnd64_0; now apply rnd64_le).
  assert (P2 : 0 <= RV (fmul dy dy)) by (rewrite V2, <- rnd64_0; now apply rnd64_le).
  set (a := RV (fmul dx dx)) in *. set (b := RV (fmul dy dy)) in *.
  apply Rabs_le_inv in E1. apply Rabs_le_inv in E2.
  assert (H1 : u53 * (x * x) <= 1 * (x * x)) by (apply Rmult_le_compat_r; lra).
  assert (H2 : u53 * (y * y) <= 1 * (y * y)) by (apply Rmult_le_compat_r; lra).
  destruct (fadd_err _ _ F1 F2) as [F3 V3]; [fold a b; unfold mid; rewrite Rabs_pos_eq by lra; fold B; lra|]. fold a b in V3.
  pose proof (rnd_err (a + b)) as E3. rewrite <- V3, (Rabs_pos_eq (a + b)) in E3 by lra. apply Rabs_le_inv in E3.
  assert (P3 : 0 <= RV (fadd (fmul dx dx) (fmul dy dy))) by (rewrite V3, <- rnd64_0; apply rnd64_le; lra).
  set (w := RV (fadd (fmul dx dx) (fmul dy dy))) in *.
  destruct (fsqrt_correct _ F3 P3) as [F4 V4]. fold w in V4. split; [exact F4|].
  rewrite V4. pose proof (rnd_err (sqrt w)) as E4. rewrite (Rabs_pos_eq (sqrt w)) in E4 by apply sqrt_pos.
  set (q := x * x + y * y) in *.
  assert (N : Rabs (w - q) <= (3 * u53) * q + bpow radix2 (-99) * bpow radix2 (-99)).
  { rewrite <- bpow_plus.
    assert (Q4 : 4 * / B <= bpow radix2 (-99 + -99)).
    { unfold B. change (/ IZR (2 ^ 200)) with (bpow radix2 (-200)). change 4 with (bpow radix2 2). rewrite <- bpow_plus. apply bpow_le. lia. }
    set (h := bpow radix2 (-99 + -99)) in *.
    assert (UQ : u53 * (a + b) <= u53 * (2 * q + 2 * tiny)) by (apply Rmult_le_compat_l; unfold q; lra).
    assert (UT : u53 * tiny <= / 4 * tiny) by (apply Rmult_le_compat_r; lra).
    unfold q in *. apply Rabs_le. split; lra. }
  assert (Q0 : 0 <= q) by (unfold q; lra).
  assert (H0 : 0 <= bpow radix2 (-99)) by apply bpow_ge_0.
  pose proof (root_near w q (3 * u53) (bpow radix2 (-99)) P3 Q0 ltac:(lra) H0 N) as E5.
  assert (QM : sqrt q <= 3 / 2 * m).
  { rewrite <- (sqrt_square (3 / 2 * m)) by lra. apply sqrt_le_1_alt. unfold q. lra. }
  pose proof (sqrt_pos q) as SQ.
  assert (HS : bpow radix2 (-99) <= / 4096 * u53) by (change (/ 4096) with (bpow radix2 (-12)); unfold u53; rewrite <- bpow_plus; apply bpow_le; lia).
  assert (TU : tiny <= / 4096 * u53) by (change (/ 4096) with (bpow radix2 (-12)); unfold u53, tiny; rewrite <- bpow_plus; apply bpow_le; lia).
  set (h := bpow radix2 (-99)) in *. clearbody h.
  assert (K1 : u53 * sqrt q <= u53 * (3 / 2 * m)) by (apply Rmult_le_compat_l; lra).
  assert (UM : u53 * 1 <= u53 * m) by (apply Rmult_le_compat_l; lra).
  apply Rabs_le_inv in E5. apply Rabs_le_inv in E4.
  assert (SW : sqrt w <= 2 * m).
  { assert (u53 * m <= / 4096 * m) by (apply Rmult_le_compat_r; lra). lra. }
  assert (K2 : u53 * sqrt w <= u53 * (2 * m)) by (apply Rmult_le_compat_l; lra).
  apply Rabs_le. split; lra.
Qed.

(** ** A point and a segment *)

Definition clampR (t : R) : R := Rmin (Rmax t 0) 1.
Lemma clampR_range t : 0 <= clampR t <= 1.
Proof. unfold clampR. split; [apply Rmin_glb; [apply Rmax_r|lra]|apply Rmin_r]. Qed.
Lemma rnd64_1 : rnd64 1 = 1.
Proof. rewrite <- RV_one. now apply rnd64_RV. Qed.
(** rounding and clamping commute *)
Lemma clamp_rnd t : clampR (rnd64 t) = rnd64 (clampR t).
Proof.
  pose proof rnd64_0 as Z. pose proof rnd64_1 as O. unfold clampR.
  destruct (Rle_or_lt t 0) as [A|A].
  - assert (rnd64 t <= 0) by (rewrite <- Z; now apply rnd64_le).
    rewrite !Rmax_right by assumption. rewrite Rmin_left by lra. now rewrite Z.
  - assert (0 <= rnd64 t) by (rewrite <- Z; apply rnd64_le; lra). rewrite !Rmax_left by lra.
    destruct (Rle_or_lt t 1) as [B|B].
    + assert (rnd64 t <= 1) by (rewrite <- O; now apply rnd64_le). now rewrite !Rmin_left.
    + assert (1 <= rnd64 t) by (rewrite <- O; apply rnd64_le; lra). rewrite !Rmin_right by lra. now rewrite O.
Qed.
Lemma fclamp_R f : fin f -> fin (fclamp0 f f_zero f_one) /\ RV (fclamp0 f f_zero f_one) = clampR (RV f).
Proof.
  intros F. pose proof isz_zero as [F0 V0]. pose proof isz_one as [F1 V1].
  assert (LT : forall x y, fin x -> fin y -> flt x y = true <-> RV x < RV y).
  { intros x y Fx Fy. rewrite flt_key by (apply fin_ok; assumption).
    rewrite Z.ltb_lt. pose proof (key_le_R y x Fy Fx) as K. split; intros H.
    - apply Rnot_le_lt. intros L. apply K in L. lia.
    - apply Z.nle_gt. intros L. apply K in L. lra. }
  unfold fclamp0, fmin0, fmax0, clampR, fgt.
  assert (M : fin (if flt f_zero f then f else f_zero) /\ RV (if flt f_zero f then f else f_zero) = Rmax (RV f) 0).
  { pose proof (LT f_zero f F0 F) as L. rewrite V0 in L. change (IZR 0) with 0 in L.
    destruct (flt f_zero f).
    - split; [exact F|]. rewrite Rmax_left; [reflexivity|]. apply Rlt_le. now apply L.
    - split; [exact F0|]. rewrite Rmax_right; [exact V0|]. apply Rnot_lt_le. intros C. apply L in C. discriminate C. }
  destruct M as [FM VM]. set (k := if flt f_zero f then f else f_zero) in *.
  pose proof (LT k f_one FM F1) as L. rewrite V1 in L. destruct (flt k f_one).
  - split; [exact FM|]. rewrite <- VM, Rmin_left; [reflexivity|]. apply Rlt_le. now apply L.
  - split; [exact F1|]. rewrite V1, <- VM, Rmin_right; [reflexivity|]. apply Rnot_lt_le. intros C. apply L in C. discriminate C.
Qed.

(** one coordinate of the difference to the foot of the perpendicular *)
Lemma foot_near p a c g P A C T : isz p P -> isz a A -> isz c C ->
  (Z.abs P <= 2 ^ 24)%Z -> (Z.abs A <= 2 ^ 24)%Z -> (Z.abs (A + C) <= 2 ^ 24)%Z ->
  fin g -> 0 <= T <= 1 -> RV g = rnd64 T ->
  fin (fsub p (fadd a (fmul g c))) /\
  Rabs (RV (fsub p (fadd a (fmul g c))) - (IZR P - (IZR A + T * IZR C))) <= / 44739242 /\
  Rabs (RV (fsub p (fadd a (fmul g c)))) <= 33554433.
Proof.
  intros [Fp Vp] [Fa Va] [Fc Vc] BP BA BC Fg TR Vg.
  assert (RP : -16777216 <= IZR P <= 16777216) by (split; apply IZR_le; lia).
  assert (RA : -16777216 <= IZR A <= 16777216) by (split; apply IZR_le; lia).
  assert (RC : -16777216 <= IZR A + IZR C <= 16777216) by (rewrite <- plus_IZR; split; apply IZR_le; lia).
  clear BP BA BC.
  assert (IB : 1152921504606846976 <= IZR (2 ^ 200)) by (apply IZR_le; now vm_compute).
  assert (U0 : 0 < u53) by apply bpow_gt_0.
  assert (US : u53 = / 9007199254740992) by reflexivity.
  pose proof tiny_pos as TP.
  assert (TU : tiny <= / 4096 * u53) by (change (/ 4096) with (bpow radix2 (-12)); unfold u53, tiny; rewrite <- bpow_plus; apply bpow_le; lia).
  set (B := IZR (2 ^ 200)) in *.
  set (p' := IZR P) in *. set (a' := IZR A) in *. set (c' := IZR C) in *. clearbody p' a' c'.
  pose proof (rnd_err T) as E0. rewrite <- Vg, (Rabs_pos_eq T) in E0 by lra. apply Rabs_le_inv in E0.
  assert (G01 : 0 <= RV g <= 1).
  { rewrite Vg. split; [rewrite <- rnd64_0|rewrite <- rnd64_1]; apply rnd64_le; lra. }
  assert (UT : u53 * T <= u53 * 1) by (apply Rmult_le_compat_l; lra).
  set (G := RV g) in *.
  assert (GC : Rabs (G * c') <= Rabs c') by (rewrite Rabs_mult, (Rabs_pos_eq G) by lra; pose proof (Rabs_pos c'); nra).
  assert (CC : Rabs c' <= 33554432) by (apply Rabs_le; lra).
  destruct (fmul_err g c Fg Fc) as [F1 V1]; [rewrite Vc; fold G; unfold mid; fold B; lra|].
  rewrite Vc in V1. fold G in V1. pose proof (rnd_err (G * c')) as E1. rewrite <- V1 in E1. clear V1.
  assert (K1 : u53 * Rabs (G * c') <= u53 * 33554432) by (apply Rmult_le_compat_l; lra). apply Rabs_le_inv in E1.
  assert (D1 : Rabs ((G - T) * c') <= 2 * u53 * 33554432).
  { rewrite Rabs_mult. apply Rmult_le_compat; try apply Rabs_pos; [|exact CC]. apply Rabs_le. lra. }
  apply Rabs_le_inv in D1.
  assert (TC : -16777216 <= a' + T * c' <= 16777216).
  { assert (0 <= (1 - T) * (a' + 16777216)) by (apply Rmult_le_pos; lra).
    assert (0 <= (1 - T) * (16777216 - a')) by (apply Rmult_le_pos; lra).
    assert (0 <= T * (a' + c' + 16777216)) by (apply Rmult_le_pos; lra).
    assert (0 <= T * (16777216 - (a' + c'))) by (apply Rmult_le_pos; lra). lra. }
  set (m := RV (fmul g c)) in *.
  assert (AM : Rabs (a' + m) <= 16777217) by (apply Rabs_le; lra).
  destruct (fadd_err a _ Fa F1) as [F2 V2]; [rewrite Va; fold m; unfold mid; fold B; lra|].
  rewrite Va in V2. fold m in V2. pose proof (rnd_err (a' + m)) as E2. rewrite <- V2 in E2. clear V2.
  assert (K2 : u53 * Rabs (a' + m) <= u53 * 16777217) by (apply Rmult_le_compat_l; lra). apply Rabs_le_inv in E2.
  set (n := RV (fadd a (fmul g c))) in *.
  assert (PN : Rabs (p' - n) <= 33554432 + / 2) by (apply Rabs_le; lra).
  destruct (fsub_err p _ Fp F2) as [F3 V3]; [rewrite Vp; fold n; unfold mid; fold B; lra|].
  rewrite Vp in V3. fold n in V3. pose proof (rnd_err (p' - n)) as E3. rewrite <- V3 in E3. clear V3.
  assert (K3 : u53 * Rabs (p' - n) <= u53 * (33554432 + / 2)) by (apply Rmult_le_compat_l; lra). apply Rabs_le_inv in E3.
  split; [exact F3|]. rewrite US in *. split; apply Rabs_le; split; lra.
Qed.
