(** * Y-stripes: the stripe of a point contains every segment the point can meet *)

From Coq Require Import ZArith Bool List Lia ZifyBool Reals Lra PeanoNat.
From Coq Require Import Floats.SpecFloat.
From Flocq Require Import Core Operations BinarySingleNaN Relative Plus_error.
From Verif Require Import F64 Geo Series Search F64Order F64Real F64Mono SeriesFacts SearchFacts RectFacts.
Import ListNotations.
Local Open Scope Z_scope.

(** ** conversions *)
Lemma f_trunc_correct x : fin x -> f_trunc x = Some (Ztrunc (RV x)).
Proof.
  intros F. unfold f_trunc, RV. pose proof (fin_dec x F) as S.
  destruct (f_dec x) as [s|s| |s m e]; try (inversion S; fail).
  - cbn. rewrite Ztrunc_IZR || (change 0%R with (IZR 0); rewrite Ztrunc_IZR). reflexivity.
  - cbn [SF2R]. f_equal.
    assert (P : Ztrunc (F2R (Float radix2 (Zpos m) e)) = if 0 <=? e then Zpos m * 2 ^ e else Zpos m / 2 ^ (- e)).
    { destruct (0 <=? e) eqn:E.
      - unfold F2R. cbn [Fnum Fexp]. rewrite <- IZR_Zpower by lia. rewrite <- mult_IZR, Ztrunc_IZR. reflexivity.
      - rewrite Ztrunc_floor by (apply F2R_ge_0; cbn; lia).
        unfold F2R. cbn [Fnum Fexp].
        assert (B : bpow radix2 e = (/ IZR (Zpower radix2 (- e)))%R).
        { rewrite IZR_Zpower by lia. rewrite <- bpow_opp, Z.opp_involutive. reflexivity. }
        rewrite B.
        change (IZR (Zpos m) * / IZR (Zpower radix2 (- e)))%R with (IZR (Zpos m) / IZR (Zpower radix2 (- e)))%R.
        rewrite Zfloor_div; [reflexivity|]. change (radix_val radix2) with 2. apply Z.pow_nonzero; lia. }
    destruct s; cbn [cond_Zopp].
    + rewrite F2R_Zopp, Ztrunc_opp, P. reflexivity.
    + rewrite P. reflexivity.
Qed.

Lemma f_of_Z_correct n : Z.abs n < 9007199254740992 -> fin (f_of_Z n) /\ RV (f_of_Z n) = IZR n.
Proof.
  intros H. unfold f_of_Z. rewrite binary_normalize_equiv.
  pose proof (binary_normalize_correct 53 1024 Hprec53 Hmax1024 mode_NE n 0 false) as C.
  assert (G : rnd64 (F2R (Float radix2 n 0)) = IZR n).
  { unfold F2R. cbn [Fnum Fexp bpow]. rewrite Rmult_1_r. apply round_generic; [typeclasses eauto|].
    change (SpecFloat.fexp 53 1024) with (FLT_exp (-1074) 53).
    apply generic_format_FLT. exists (Float radix2 n 0); cbn; [|exact H|lia].
    unfold F2R; cbn. rewrite Rmult_1_r. reflexivity. }
  cbv zeta in C. rewrite G in C. rewrite Rlt_bool_true in C.
  2:{ rewrite <- abs_IZR. apply Rlt_trans with (IZR 9007199254740992).
      apply IZR_lt; auto. change 9007199254740992 with (Zpower radix2 53).
      rewrite IZR_Zpower by lia. apply bpow_lt. lia. }
  destruct C as (C1 & C2 & _). destruct (B2SF_finite_enc _ C2) as [D1 D2].
  split; auto. rewrite D2. exact C1.
Qed.

(** ** the stripe function over the reals *)
Section Stripe.
Variables (mn mx : f64) (n : Z).
Hypothesis Fmn : fin mn.
Hypothesis Fmx : fin mx.
Hypothesis Fh : fin (fsub mx mn).
Hypothesis Hpos : (0 < RV (fsub mx mn))%R.
Hypothesis Hn : 0 < n < 2147483648.

Let H := RV (fsub mx mn).
Definition stripeR (H m : R) (n : Z) (y : R) : R := rnd64 (rnd64 (rnd64 (y - m) / H) * IZR n).

Lemma n_fin : fin (f_of_Z n) /\ RV (f_of_Z n) = IZR n.
Proof. apply f_of_Z_correct. lia. Qed.

Lemma H_eq : H = rnd64 (RV mx - RV mn).
Proof.
  unfold H. pose proof (fsub_correct mx mn Fmx Fmn) as C. cbv zeta in C.
  destruct (Rlt_bool _ _).
  - apply C.
  - exfalso. rewrite C in Fh. destruct Fh as [_ Q]. destruct (f_sign mx); discriminate.
Qed.

Lemma one_format : rnd64 1%R = 1%R.
Proof.
  assert (E : RV f_one = 1%R).
  { rewrite (RV_pos_bits false 4503599627370496 (-52)) by reflexivity. unfold F2R; cbn. lra. }
  rewrite <- E. apply rnd64_RV. reflexivity.
Qed.
Lemma n_format : rnd64 (IZR n) = IZR n.
Proof. destruct n_fin as [[W _] <-]. apply rnd64_RV; auto. Qed.

Lemma stripe_mono y1 y2 : (y1 <= y2)%R -> (stripeR H (RV mn) n y1 <= stripeR H (RV mn) n y2)%R.
Proof.
  intros L. unfold stripeR. apply rnd64_le. apply Rmult_le_compat_r; [apply IZR_le; lia|].
  apply rnd64_le. apply Rmult_le_compat_r; [left; apply Rinv_0_lt_compat; exact Hpos|].
  apply rnd64_le. lra.
Qed.
Lemma stripe_min : stripeR H (RV mn) n (RV mn) = 0%R.
Proof. unfold stripeR. rewrite Rminus_diag_eq by auto. rewrite rnd64_0. unfold Rdiv.
  rewrite Rmult_0_l, rnd64_0, Rmult_0_l, rnd64_0. reflexivity. Qed.
Lemma stripe_max : stripeR H (RV mn) n (RV mx) = IZR n.
Proof. unfold stripeR. rewrite <- H_eq. unfold Rdiv. rewrite Rinv_r by (unfold H; lra).
  rewrite one_format, Rmult_1_l. apply n_format. Qed.

Lemma q_range y : (RV mn <= y <= RV mx)%R ->
  (0 <= rnd64 (y - RV mn) <= H)%R /\ (0 <= rnd64 (rnd64 (y - RV mn) / H) <= 1)%R.
Proof.
  intros L. assert (A : (0 <= rnd64 (y - RV mn) <= H)%R).
  { split; [rewrite <- rnd64_0; apply rnd64_le; lra|]. rewrite H_eq. apply rnd64_le. lra. }
  split; auto. split.
  - rewrite <- rnd64_0. apply rnd64_le. apply Rmult_le_pos; [lra|]. left. apply Rinv_0_lt_compat. exact Hpos.
  - rewrite <- one_format. apply rnd64_le. unfold Rdiv.
    apply Rmult_le_reg_r with H; [exact Hpos|]. rewrite Rmult_assoc, Rinv_l by (unfold H; lra). lra.
Qed.

Lemma IZR_n_bound : (0 < IZR n < 2147483648)%R.
Proof. split; apply IZR_lt; lia. Qed.

Lemma bp1024 : (2147483648 <= bpow radix2 1024)%R.
Proof. change 2147483648%R with (IZR (Zpower radix2 31)). rewrite IZR_Zpower by lia. apply bpow_le. lia. Qed.

Lemma small_ok z : (0 <= z <= IZR n)%R -> Rlt_bool (Rabs z) (bpow radix2 1024) = true.
Proof.
  intros L. apply Rlt_bool_true. rewrite Rabs_pos_eq by lra. pose proof bp1024. pose proof IZR_n_bound. lra.
Qed.

Lemma stripe_of_correct r y : py (rmin r) = mn -> py (rmax r) = mx -> fin y ->
  (RV mn <= RV y <= RV mx)%R ->
  ystripe_of r n y = Some (Ztrunc (stripeR H (RV mn) n (RV y))) /\
  (0 <= Ztrunc (stripeR H (RV mn) n (RV y)) <= n)%Z.
Proof.
  intros E1 E2 Fy L. unfold ystripe_of. rewrite E1, E2.
  destruct (q_range (RV y) L) as [A B].
  destruct n_fin as [Nf NR].
  pose proof (fsub_correct y mn Fy Fmn) as C1. cbv zeta in C1.
  rewrite Rlt_bool_true in C1.
  2:{ rewrite Rabs_pos_eq by lra. apply Rle_lt_trans with H; [lra|]. unfold H.
      pose proof (RV_lt_max _ Fh) as Q. rewrite Rabs_pos_eq in Q; lra. }
  destruct C1 as [F1 V1].
  pose proof (fdiv_correct (fsub y mn) (fsub mx mn) F1 Fh) as C2. cbv zeta in C2.
  fold H in C2. rewrite V1 in C2. specialize (C2 ltac:(unfold H; lra)).
  rewrite Rlt_bool_true in C2.
  2:{ rewrite Rabs_pos_eq by lra. pose proof bp1024. lra. }
  destruct C2 as [F2 V2].
  pose proof (fmul_correct _ _ F2 Nf) as C3. cbv zeta in C3. rewrite V2, NR in C3.
  assert (S : (0 <= stripeR H (RV mn) n (RV y) <= IZR n)%R).
  { pose proof stripe_max as S1. pose proof stripe_min as S2.
    pose proof (stripe_mono (RV mn) (RV y) ltac:(lra)). pose proof (stripe_mono (RV y) (RV mx) ltac:(lra)). lra. }
  fold (stripeR H (RV mn) n (RV y)) in C3.
  rewrite small_ok in C3 by exact S. destruct C3 as [F3 V3].
  unfold f_to_int. rewrite f_trunc_correct by auto. rewrite V3.
  assert (T : 0 <= Ztrunc (stripeR H (RV mn) n (RV y)) <= n).
  { split.
    - rewrite <- (Ztrunc_IZR 0). apply Ztrunc_le. lra.
    - rewrite <- (Ztrunc_IZR n) at 2. apply Ztrunc_le. lra. }
  split; auto.
  replace ((-2147483648 <=? Ztrunc (stripeR H (RV mn) n (RV y))) && (Ztrunc (stripeR H (RV mn) n (RV y)) <=? 2147483647)) with true by lia.
  reflexivity.
Qed.

(** below the top sliver the stripe number is less than n *)
Lemma stripe_below_top y : fin y -> (RV mn <= RV y)%R ->
  (RV y <= RV mx - (RV mx - RV mn) * bpow radix2 (-49))%R ->
  Ztrunc (stripeR H (RV mn) n (RV y)) < n.
Proof.
  intros Fy L1 L2.
  assert (B49 : bpow radix2 (-49) = (/ 562949953421312)%R) by (cbn; lra).
  rewrite B49 in L2.
  set (D := (RV mx - RV mn)%R) in *.
  assert (FN : forall u v, fin u -> fin v -> exists e, (Rabs e <= / 9007199254740992)%R /\ rnd64 (RV u - RV v) = ((RV u - RV v) * (1 + e))%R).
  { intros u v Fu Fv. pose proof (RV_format u (proj1 Fu)) as Gu. pose proof (RV_format v (proj1 Fv)) as Gv.
    change (SpecFloat.fexp 53 1024) with (FLT_exp (-1074) 53) in Gu, Gv |- *.
    apply generic_format_opp in Gv.
    destruct (FLT_plus_error_N_ex radix2 (-1074) 53 (fun x => negb (Z.even x)) _ _ Gu Gv) as (e & E1 & E2).
    exists e. split.
    - eapply Rle_trans; [exact E1|]. unfold u_ro. cbn. 
      apply Rle_trans with (/ 2 * / 4503599627370496 / 1)%R; [|lra].
      unfold Rdiv. apply Rmult_le_compat_l; [lra|]. apply Rinv_le; lra.
    - exact E2. }
  destruct (FN y mn Fy Fmn) as (e1 & E1 & Q1).
  destruct (FN mx mn Fmx Fmn) as (e2 & E2 & Q2). fold D in Q2.
  apply Rabs_le_inv in E1. apply Rabs_le_inv in E2.
  assert (HD : H = (D * (1 + e2))%R) by (rewrite H_eq; exact Q2).
  assert (Dpos : (0 < D)%R).
  { assert (P := Hpos). fold H in P. rewrite HD in P. nra. }
  set (c := (1 - / 1125899906842624)%R).
  assert (R1 : (rnd64 (RV y - RV mn) / H <= c)%R).
  { apply Rmult_le_reg_r with H; [exact Hpos|]. unfold Rdiv.
    rewrite Rmult_assoc, Rinv_l by (unfold H; lra). rewrite Rmult_1_r, Q1, HD.
    apply Rle_trans with ((D * (1 - / 562949953421312)) * (1 + / 9007199254740992))%R.
    - apply Rmult_le_compat; unfold D in *; try lra.
    - rewrite <- Rmult_assoc. rewrite (Rmult_comm c D), !Rmult_assoc.
      apply Rmult_le_compat_l; [lra|]. unfold c.
      apply Rle_trans with ((1 - / 1125899906842624) * (1 - / 9007199254740992))%R; [lra|].
      apply Rmult_le_compat_l; lra. }
  assert (GC : rnd64 c = c).
  { apply round_generic; [typeclasses eauto|].
    change (SpecFloat.fexp 53 1024) with (FLT_exp (-1074) 53).
    apply generic_format_FLT. exists (Float radix2 1125899906842623 (-50)); cbn; [|lia|lia].
    unfold F2R, c; cbn. lra. }
  assert (R2 : (rnd64 (rnd64 (RV y - RV mn) / H) <= c)%R).
  { rewrite <- GC. apply rnd64_le. exact R1. }
  pose proof IZR_n_bound as NB.
  assert (N1 : (1 <= IZR n)%R) by (apply IZR_le; lia).
  assert (R3 : (stripeR H (RV mn) n (RV y) <= rnd64 (c * IZR n))%R).
  { unfold stripeR. apply rnd64_le. apply Rmult_le_compat_r; lra. }
  assert (R4 : (rnd64 (c * IZR n) < IZR n)%R).
  { destruct (error_N_FLT radix2 (-1074) 53 ltac:(lia) (fun x => negb (Z.even x)) (c * IZR n)) as (ep & et & P1 & P2 & _ & P3).
    change (SpecFloat.fexp 53 1024) with (FLT_exp (-1074) 53).
    cbn [round_mode]. rewrite P3.
    apply Rabs_le_inv in P1. apply Rabs_le_inv in P2.
    assert (Q52 : bpow radix2 (-52) = (/ 4503599627370496)%R) by (cbn; lra).
    change (bpow radix2 (- (53) + 1)) with (bpow radix2 (-52)) in P1. rewrite Q52 in P1.
    assert (Q1074 : (bpow radix2 (-1074) <= / 4503599627370496)%R).
    { rewrite <- Q52. apply bpow_le. lia. }
    assert (CP : (0 <= c * IZR n <= c * IZR n)%R) by (unfold c; nra).
    assert ((c * IZR n) * (1 + ep) <= (c * IZR n) * (1 + / 2 * / 4503599627370496))%R.
    { apply Rmult_le_compat_l; lra. }
    unfold c in *. lra. }
  assert (0 <= stripeR H (RV mn) n (RV y))%R.
  { rewrite <- stripe_min. apply stripe_mono. lra. }
  apply lt_IZR. rewrite Ztrunc_floor by auto.
  eapply Rle_lt_trans; [apply Zfloor_lb|]. lra.
Qed.
End Stripe.

(** ** a successful build means the ring has a finite positive height *)
Lemma dec_inf x : fok x -> f_isinf x = true -> f_dec x = S754_infinity (f_sign x).
Proof.
  intros _ I. unfold f_isinf in I. apply Z.eqb_eq in I. unfold f_dec. rewrite <- I. reflexivity.
Qed.
Lemma dec_inf_of s : f_dec (inf_of s) = S754_infinity s.
Proof. apply f_dec_enc. reflexivity. Qed.
Lemma fok_dec x : fok x -> fin x \/ exists s, f_dec x = S754_infinity s.
Proof.
  intros O. destruct (fok_cases x O) as [F|[I W]]; auto. right. exists (f_sign x). apply dec_inf; auto.
Qed.
Lemma sub_dec x y : f_wf x = true -> f_wf y = true -> f_dec (fsub x y) = SFsub 53 1024 (f_dec x) (f_dec y).
Proof.
  intros Hx Hy. unfold fsub. apply f_dec_enc.
  rewrite <- (B2SF_toB x Hx), <- (B2SF_toB y Hy), SFsub_equiv. apply valid_binary_B2SF.
Qed.
Lemma div_dec x y : f_wf x = true -> f_wf y = true -> f_dec (fdiv x y) = SFdiv 53 1024 (f_dec x) (f_dec y).
Proof.
  intros Hx Hy. unfold fdiv. apply f_dec_enc.
  rewrite <- (B2SF_toB x Hx), <- (B2SF_toB y Hy), SFdiv_equiv. apply valid_binary_B2SF.
Qed.
Lemma mul_dec x y : f_wf x = true -> f_wf y = true -> f_dec (fmul x y) = SFmul 53 1024 (f_dec x) (f_dec y).
Proof.
  intros Hx Hy. unfold fmul. apply f_dec_enc.
  rewrite <- (B2SF_toB x Hx), <- (B2SF_toB y Hy), SFmul_equiv. apply valid_binary_B2SF.
Qed.
Lemma f_wf_of_Z n : Z.abs n < 9007199254740992 -> f_wf (f_of_Z n) = true.
Proof. intros H. apply (f_of_Z_correct n H). Qed.

(** equal keys: same pattern, or two zeros *)
Lemma key_eq_cases x y : fok x -> fok y -> f_key x = f_key y ->
  x = y \/ ((exists s, f_dec x = S754_zero s) /\ (exists s, f_dec y = S754_zero s)).
Proof.
  intros [Wx Nx] [Wy Ny] E. pose proof (mag_bounds x Wx). pose proof (mag_bounds y Wy).
  assert (Z0 : forall u, f_wf u = true -> f_mag u = 0 -> exists s, f_dec u = S754_zero s).
  { intros u _ M. exists (f_sign u). unfold f_dec. rewrite M. reflexivity. }
  unfold f_key in E. unfold f_mag in * |-.
  destruct (f_sign x) eqn:Sx, (f_sign y) eqn:Sy.
  - left. lia.
  - right. split; apply Z0; auto; unfold f_mag; rewrite ?Sx, ?Sy; lia.
  - right. split; apply Z0; auto; unfold f_mag; rewrite ?Sx, ?Sy; lia.
  - left. lia.
Qed.

(** decoded values only: if the quotient of the top row is a number, the height is a nonzero finite *)
Lemma height_sf (y mx mn : spec_float) :
  (y = mx \/ (exists s, y = S754_zero s) /\ (exists s, mx = S754_zero s)) ->
  SFdiv 53 1024 (SFsub 53 1024 y mn) (SFsub 53 1024 mx mn) <> S754_nan ->
  exists s m e, SFsub 53 1024 mx mn = S754_finite s m e.
Proof.
  intros H Q. remember (SFsub 53 1024 mx mn) as h eqn:Eh.
  destruct H as [->|[[s1 ->] [s2 ->]]].
  - rewrite <- Eh in Q. destruct h as [s|s| |s m e]; eauto; exfalso; apply Q; reflexivity.
  - destruct mn as [s|s| |s m e]; cbn in Eh, Q; subst h.
    + exfalso. apply Q. destruct s1, s2, s; reflexivity.
    + exfalso. apply Q. reflexivity.
    + exfalso. apply Q. reflexivity.
    + eauto.
Qed.
Lemma sub_finite_args (mx mn : spec_float) s m e : SFsub 53 1024 mx mn = S754_finite s m e ->
  (forall t, mx <> S754_infinity t) /\ (forall t, mn <> S754_infinity t).
Proof.
  intros E. split; intros t ->.
  - destruct mn as [u|u| |u mm ee]; cbn in E; try discriminate. destruct (Bool.eqb t (negb u)); discriminate.
  - destruct mx as [u|u| |u mm ee]; cbn in E; try discriminate. destruct (Bool.eqb u (negb t)); discriminate.
Qed.

Lemma f_to_int_nan x z : f_to_int x = Some z -> f_dec x <> S754_nan.
Proof. unfold f_to_int, f_trunc. intros H E. rewrite E in H. discriminate. Qed.

Lemma quot_gen mn mx y N z : f_wf mn = true -> f_wf mx = true -> f_wf y = true -> f_wf N = true ->
  f_to_int (fmul (fdiv (fsub y mn) (fsub mx mn)) N) = Some z ->
  SFdiv 53 1024 (SFsub 53 1024 (f_dec y) (f_dec mn)) (SFsub 53 1024 (f_dec mx) (f_dec mn)) <> S754_nan.
Proof.
  intros Wmn Wmx Wy Wn S Q.
  apply (f_to_int_nan _ _ S).
  rewrite (mul_dec _ _ (fdiv_wf _ _ (fsub_wf _ _ Wy Wmn) (fsub_wf _ _ Wmx Wmn)) Wn).
  rewrite (div_dec _ _ (fsub_wf _ _ Wy Wmn) (fsub_wf _ _ Wmx Wmn)).
  rewrite (sub_dec _ _ Wy Wmn), (sub_dec _ _ Wmx Wmn).
  rewrite Q. destruct (f_dec N); reflexivity.
Qed.
Lemma ystripe_of_quot r n y z : fok (py (rmin r)) -> fok (py (rmax r)) -> fok y ->
  0 < n < 2147483648 -> ystripe_of r n y = Some z ->
  SFdiv 53 1024 (SFsub 53 1024 (f_dec y) (f_dec (py (rmin r))))
                (SFsub 53 1024 (f_dec (py (rmax r))) (f_dec (py (rmin r)))) <> S754_nan.
Proof.
  intros [Wmn _] [Wmx _] [Wy _] Hn S.
  assert (An : Z.abs n < 9007199254740992) by lia.
  exact (quot_gen _ _ _ _ _ Wmn Wmx Wy (f_wf_of_Z n An) S).
Qed.

Lemma height_ok r n y z : fok (py (rmin r)) -> fok (py (rmax r)) -> fok y ->
  f_key (py (rmin r)) <= f_key (py (rmax r)) -> f_key y = f_key (py (rmax r)) ->
  0 < n < 2147483648 -> ystripe_of r n y = Some z ->
  fin (py (rmin r)) /\ fin (py (rmax r)) /\ fin (fsub (py (rmax r)) (py (rmin r))) /\
  (0 < RV (fsub (py (rmax r)) (py (rmin r))))%R.
Proof.
  intros Omn Omx Oy L E Hn S.
  pose proof (ystripe_of_quot r n y z Omn Omx Oy Hn S) as Q. clear S.
  remember (py (rmin r)) as mn eqn:Emn. remember (py (rmax r)) as mx eqn:Emx. clear Emn Emx.
  assert (HF : exists s m e, SFsub 53 1024 (f_dec mx) (f_dec mn) = S754_finite s m e).
  { apply (height_sf (f_dec y)); auto.
    destruct (key_eq_cases y mx Oy Omx E) as [->|[Z1 Z2]]; auto. }
  destruct HF as (s & m & e & HF).
  destruct (sub_finite_args _ _ _ _ _ HF) as [I1 I2].
  rewrite <- sub_dec in HF by (apply Omx || apply Omn).
  assert (Fmx : fin mx).
  { destruct (fok_dec mx Omx) as [F|[s' F]]; auto. exfalso. eapply I1; eauto. }
  assert (Fmn : fin mn).
  { destruct (fok_dec mn Omn) as [F|[s' F]]; auto. exfalso. eapply I2; eauto. }
  pose proof (fsub_correct mx mn Fmx Fmn) as C. cbv zeta in C.
  remember (fsub mx mn) as h eqn:Eh. clear Eh.
  destruct (Rlt_bool _ _).
  2:{ exfalso. rewrite C, dec_inf_of in HF. discriminate. }
  destruct C as [Fh Vh]. split; auto. split; auto. split; auto.
  assert (P : (0 <= RV h)%R).
  { rewrite Vh, <- rnd64_0. apply rnd64_le. apply key_le_R in L; auto. lra. }
  destruct P as [P|P]; auto. exfalso.
  rewrite (RV_pos_bits s m e) in P by auto. symmetry in P. apply eq_0_F2R in P.
  destruct s; discriminate.
Qed.

(** ** stripes of a built ring *)
Lemma opt_all_spec {A} (l : list (option A)) r : opt_all l = Some r ->
  length r = length l /\ forall i d, (i < length l)%nat -> nth i l None = Some (nth i r d).
Proof.
  revert r. induction l as [|[a|] l IH]; cbn; intros r E.
  - injection E as <-. split; auto. intros; lia.
  - destruct (opt_all l) as [r'|]; [|discriminate]. injection E as <-.
    destruct (IH r' eq_refl) as [L N]. split; [cbn; lia|].
    intros [|i] d Hi; cbn; auto. apply N. lia.
  - discriminate.
Qed.

Lemma process_ystripes_spec r ys : process_ystripes r = Some ys ->
  exists n ranges, ys_n ys = n /\ 32 <= n < 2147483648 /\ length ranges = r_nsegs r /\
  ys_stripes ys = map (fun j => ystripe_fill ranges (Z.of_nat j)) (seq 0 (Z.to_nat n)) /\
  forall i, (i < r_nsegs r)%nat -> ystripe_range (r_rect r) (r_points r) n i = Some (nth i ranges (0, 0)).
Proof.
  unfold process_ystripes. destruct (f_to_int _) as [n0|] eqn:E0; [|discriminate].
  set (n := Z.max n0 32). destruct (opt_all _) as [ranges|] eqn:E1; [|discriminate].
  intros E. injection E as <-. exists n, ranges. cbn.
  apply opt_all_spec in E1. rewrite map_length, seq_length in E1. destruct E1 as [L N].
  split; auto. split.
  { unfold f_to_int in E0. destruct (f_trunc _) as [k|]; [|discriminate].
    destruct (_ && _) eqn:B in E0; [|discriminate]. injection E0 as <-. lia. }
  split; auto. split; auto. intros i Hi. rewrite <- (N i (0, 0) Hi).
  set (f := ystripe_range _ _ _).
  rewrite (nth_indep _ None (f 0%nat)) by (rewrite map_length, seq_length; auto).
  rewrite map_nth, seq_nth by auto. reflexivity.
Qed.

Lemma fold_left_filter {A B} (body : A -> B -> A) (f : B -> bool) l st :
  (forall st x, In x l -> f x = false -> body st x = st) ->
  fold_left body l st = fold_left body (filter f l) st.
Proof.
  revert st. induction l as [|x l IH]; intros st H; cbn; auto.
  destruct (f x) eqn:E; cbn.
  - apply IH. intros. apply H; auto. right; auto.
  - rewrite H; [|left; auto|auto]. apply IH. intros. apply H; auto. right; auto.
Qed.

Lemma ystripe_fill_filter ranges j :
  ystripe_fill ranges j =
  filter (fun i => (fst (nth i ranges (0, 0)) <=? j) && (j <=? snd (nth i ranges (0, 0))))
         (seq 0 (length ranges)).
Proof.
  unfold ystripe_fill.
  assert (G : forall pre l, 
    map fst (filter (fun ir : nat * (Z * Z) => (fst (snd ir) <=? j) && (j <=? snd (snd ir)))
       (combine (seq (length pre) (length l)) l)) =
    filter (fun i => (fst (nth i (pre ++ l) (0, 0)) <=? j) && (j <=? snd (nth i (pre ++ l) (0, 0))))
       (seq (length pre) (length l))).
  { intros pre l. revert pre. induction l as [|a l IH]; intros pre; auto.
    cbn [length seq combine filter map fst snd].
    rewrite app_nth2, Nat.sub_diag by lia. cbn [nth].
    specialize (IH (pre ++ [a])). rewrite app_length in IH. cbn [length] in IH.
    rewrite Nat.add_1_r in IH. rewrite <- app_assoc in IH. cbn [app] in IH.
    destruct ((fst a <=? j) && (j <=? snd a)); cbn [map fst]; rewrite IH; reflexivity. }
  apply (G [] ranges).
Qed.

Lemma series_ystripes ps closed kind spread r ys : series_new ps closed kind spread = Some r ->
  r_ystripes r = Some ys -> process_ystripes r = Some ys /\ closed = true /\ (2 * spread <= length ps)%nat.
Proof.
  intros E Y. pose proof (series_new_fields _ _ _ _ _ E) as F. cbv zeta in F.
  revert E. unfold series_new. cbv zeta.
  set (ind := (2 * spread <=? length ps)%nat && _) in *.
  set (nsegs := num_segments ps (length ps) closed) in *.
  set (pr := process_points _ ps (length ps)) in *.
  destruct (ind && closed && _) eqn:C.
  - match goal with |- context [process_ystripes ?x] => set (r0 := x) end.
    destruct (process_ystripes r0) as [ys'|] eqn:P; [|discriminate].
    intros E. injection E as <-. cbn in Y. injection Y as <-.
    split; [exact P|]. apply andb_true_iff in C. destruct C as [C _].
    apply andb_true_iff in C. destruct C as [C1 C2]. split; auto.
    unfold ind in C1. apply andb_true_iff in C1. destruct C1 as [C1 _]. lia.
  - intros E. injection E as <-. discriminate.
Qed.

(** every point of an (at least 3 point) closed series is the end of a segment *)
Lemma point_on_seg ps t : (3 <= length ps)%nat -> (t < length ps)%nat ->
  exists i, (i < num_segments ps (length ps) true)%nat /\ (t = i \/ t = i + 1)%nat.
Proof.
  intros L Ht. unfold num_segments. replace (length ps <? 3)%nat with false by lia.
  destruct (pteq _ _).
  - destruct (Nat.eq_dec t (length ps - 1)) as [->|N].
    + exists (length ps - 2)%nat. lia.
    + exists t. lia.
  - exists t. lia.
Qed.

Lemma ystripes_finite ps kind spread r ys :
  series_new ps true kind spread = Some r -> pts_ok ps -> (2 <= spread)%nat ->
  r_ystripes r = Some ys -> fin (py (rmin (r_rect r))) /\ fin (py (rmax (r_rect r))).
Proof.
  intros E Hok S2 Y.
  destruct (series_ystripes _ _ _ _ _ _ E Y) as (PY & _ & L2).
  pose proof (series_rect _ _ _ _ _ E Hok S2 ltac:(lia)) as (OR & AT & KI).
  pose proof (series_new_fields _ _ _ _ _ E) as F. cbv zeta in F.
  destruct F as (_ & _ & NS & PT & _).
  destruct (process_ystripes_spec _ _ PY) as (n & ranges & YN & Bn & LR & ST & RG).
  set (mn := py (rmin (r_rect r))) in *. set (mx := py (rmax (r_rect r))) in *.
  assert (KP : forall t, (t <= length ps)%nat -> kin (r_rect r) (pt_at (r_points r) t)).
  { intros t Ht. rewrite PT. destruct (Nat.eq_dec t (length ps)) as [->|N].
    - rewrite ringpts_last. apply KI. lia.
    - rewrite ringpts_lt by lia. apply KI. lia. }
  assert (NSn : (r_nsegs r <= length ps)%nat).
  { rewrite NS. unfold num_segments. destruct (length ps <? 3)%nat; [lia|]. destruct (pteq _ _); lia. }
  assert (OP : forall t, pt_ok (pt_at (r_points r) t)).
  { intros t. rewrite PT. apply pt_at_ok, ringpts_ok; auto. }
  destruct AT as (_ & _ & _ & (q & Iq & Kq)).
  destruct (In_nth _ _ pt0 Iq) as (t & Ht & Et).
  destruct (point_on_seg ps t ltac:(lia) Ht) as (i & Hi & Hti). rewrite <- NS in Hi.
  pose proof (RG i Hi) as RGi. unfold ystripe_range in RGi.
  set (hi := fmax0 (py (pt_at (r_points r) i)) (py (pt_at (r_points r) (i + 1)))) in *.
  assert (Khi : f_key hi = Z.max (f_key (py (pt_at (r_points r) i))) (f_key (py (pt_at (r_points r) (i + 1))))).
  { apply key_fmax0; apply OP. }
  assert (Ohi : fok hi) by (apply fok_fmax0; apply OP).
  destruct (ystripe_of _ _ (fmin0 _ _)) as [zl|]; [|discriminate].
  destruct (ystripe_of _ _ hi) as [zh|] eqn:EH; [|discriminate].
  assert (Ep : pt_at (r_points r) t = q).
  { rewrite PT, ringpts_lt by auto. exact Et. }
  destruct OR as [[_ Omn] [_ Omx]].
  pose proof (KP i ltac:(lia)) as K1. pose proof (KP (i + 1)%nat ltac:(lia)) as K2.
  unfold kin in K1, K2. fold mn mx in K1, K2.
  destruct (height_ok (r_rect r) n hi zh) as (A & B & _); auto; try lia.
  - fold mn mx. lia.
  - fold mx. fold mx in Kq. 
    destruct Hti as [->| ->]; rewrite Ep in *; lia.
Qed.

Theorem ystripes_scan ps kind spread r ys p edge :
  series_new ps true kind spread = Some r -> pts_ok ps -> (2 <= spread)%nat -> pt_ok p ->
  r_ystripes r = Some ys -> tg_rect_covers_point (r_rect r) p = true ->
  let ymin := RV (py (rmin (r_rect r))) in let ymax := RV (py (rmax (r_rect r))) in
  exists st, ystripes_pip r ys p edge = Some st /\
  ((forall i, (i < r_nsegs r)%nat -> let b := tg_segment_rect (seg_at r i) in
      f_key (py (rmin b)) <= f_key (py p) <= f_key (py (rmax b)) ->
      (RV (py (rmin b)) <= ymax - (ymax - ymin) * bpow radix2 (-49))%R) ->
   st = fold_left (pip_eval_seg r p edge) (seq 0 (r_nsegs r)) (false, None)).
Proof.
  intros E Hok S2 Op Y Cov. cbv zeta.
  destruct (series_ystripes _ _ _ _ _ _ E Y) as (PY & _ & L2).
  pose proof (series_rect _ _ _ _ _ E Hok S2 ltac:(lia)) as (OR & AT & KI).
  pose proof (series_new_fields _ _ _ _ _ E) as F. cbv zeta in F.
  destruct F as (_ & _ & NS & PT & _).
  destruct (process_ystripes_spec _ _ PY) as (n & ranges & YN & Bn & LR & ST & RG).
  set (mn := py (rmin (r_rect r))) in *. set (mx := py (rmax (r_rect r))) in *.
  assert (SO : forall i, seg_ok (seg_at r i)).
  { intros i. rewrite (seg_at_pseg ps) by auto. apply pseg_ok; auto. }
  assert (KP : forall t, (t <= length ps)%nat -> kin (r_rect r) (pt_at (r_points r) t)).
  { intros t Ht. rewrite PT. destruct (Nat.eq_dec t (length ps)) as [->|N].
    - rewrite ringpts_last. apply KI. lia.
    - rewrite ringpts_lt by lia. apply KI. lia. }
  assert (NSn : (r_nsegs r <= length ps)%nat).
  { rewrite NS. unfold num_segments. destruct (length ps <? 3)%nat; [lia|]. destruct (pteq _ _); lia. }
  (* the two y ends of a segment *)
  set (lo := fun i => fmin0 (py (pt_at (r_points r) i)) (py (pt_at (r_points r) (i + 1)))).
  set (hi := fun i => fmax0 (py (pt_at (r_points r) i)) (py (pt_at (r_points r) (i + 1)))).
  assert (OP : forall t, pt_ok (pt_at (r_points r) t)).
  { intros t. rewrite PT. apply pt_at_ok, ringpts_ok; auto. }
  assert (Olo : forall i, fok (lo i)) by (intros i; apply fok_fmin0; apply OP).
  assert (Ohi : forall i, fok (hi i)) by (intros i; apply fok_fmax0; apply OP).
  assert (Klo : forall i, f_key (lo i) = Z.min (f_key (py (pt_at (r_points r) i))) (f_key (py (pt_at (r_points r) (i + 1))))).
  { intros i. apply key_fmin0; apply OP. }
  assert (Khi : forall i, f_key (hi i) = Z.max (f_key (py (pt_at (r_points r) i))) (f_key (py (pt_at (r_points r) (i + 1))))).
  { intros i. apply key_fmax0; apply OP. }
  assert (Rseg : forall i, (i < r_nsegs r)%nat ->
     f_key mn <= f_key (lo i) /\ f_key (lo i) <= f_key (hi i) /\ f_key (hi i) <= f_key mx).
  { intros i Hi. rewrite Klo, Khi. pose proof (KP i ltac:(lia)) as K1.
    pose proof (KP (i + 1)%nat ltac:(lia)) as K2. unfold kin in K1, K2. fold mn mx in K1, K2. lia. }
  (* finite height *)
  assert (Hh : fin mn /\ fin mx /\ fin (fsub mx mn) /\ (0 < RV (fsub mx mn))%R).
  { destruct AT as (_ & _ & _ & (q & Iq & Kq)).
    destruct (In_nth _ _ pt0 Iq) as (t & Ht & Et).
    destruct (point_on_seg ps t ltac:(lia) Ht) as (i & Hi & Hti). rewrite <- NS in Hi.
    pose proof (RG i Hi) as RGi. unfold ystripe_range in RGi. fold (lo i) (hi i) in RGi.
    destruct (ystripe_of _ _ (lo i)) as [zl|]; [|discriminate].
    destruct (ystripe_of _ _ (hi i)) as [zh|] eqn:EH; [|discriminate].
    assert (Ep : pt_at (r_points r) t = q).
    { rewrite PT, ringpts_lt by auto. exact Et. }
    destruct OR as [[_ Omn] [_ Omx]].
    apply (height_ok (r_rect r) n (hi i) zh); auto; try lia.
    - pose proof (Rseg i Hi). unfold mn, mx in *. lia.
    - pose proof (Rseg i Hi). fold mx in Kq |- *. rewrite Khi in *.
      destruct Hti as [->| ->]; rewrite Ep in *; lia. }
  destruct Hh as (Fmn & Fmx & Fh & Hpos).
  assert (Fin_between : forall y, fok y -> f_key mn <= f_key y <= f_key mx -> fin y).
  { intros y Oy K. destruct (fok_cases y Oy) as [Fy|[I W]]; auto. exfalso.
    rewrite (key_inf y I) in K. pose proof (key_fin mn Fmn). pose proof (key_fin mx Fmx).
    destruct (f_sign y); lia. }
  apply covers_point_iff in Cov; [|apply rect_ok_nn; auto|apply pt_ok_nn; auto].
  destruct Cov as [_ Ky]. fold mn mx in Ky. destruct Op as [Opx Opy].
  assert (Fy := Fin_between (py p) Opy Ky).
  assert (Ry : (RV mn <= RV (py p) <= RV mx)%R) by (split; apply key_le_R; auto; lia).
  pose (G := fun y => Ztrunc (stripeR (RV (fsub mx mn)) (RV mn) n (RV y))).
  assert (SC : forall y, fin y -> (RV mn <= RV y <= RV mx)%R ->
     ystripe_of (r_rect r) n y = Some (G y) /\ (0 <= G y <= n)).
  { intros y Fy' L. apply (stripe_of_correct mn mx n Fmn Fmx Fh Hpos ltac:(lia) (r_rect r) y); auto. }
  assert (GM : forall y1 y2, (RV y1 <= RV y2)%R -> G y1 <= G y2).
  { intros y1 y2 L. unfold G. apply Ztrunc_le. apply (stripe_mono mn mx n); auto; lia. }
  destruct (SC (py p) Fy Ry) as [EY BY].
  unfold ystripes_pip. rewrite YN, EY.
  eexists. split; [reflexivity|]. intros Top.
  set (yy := Z.min (Z.max (G (py p)) 0) (n - 1)). assert (Byy : 0 <= yy <= n - 1) by lia.
  rewrite ST. set (f := fun j => ystripe_fill ranges (Z.of_nat j)).
  rewrite (nth_indep _ [] (f 0%nat)) by (rewrite map_length, seq_length; lia).
  rewrite map_nth, seq_nth by lia. unfold f. cbn [Nat.add]. rewrite Z2Nat.id by lia.
  rewrite ystripe_fill_filter, LR.
  symmetry. apply fold_left_filter. intros st i Hi HF. apply in_seq in Hi.
  assert (Hi' : (i < r_nsegs r)%nat) by lia.
  pose proof (RG i Hi') as RGi. unfold ystripe_range in RGi. fold (lo i) (hi i) in RGi.
  pose proof (Rseg i Hi') as (K1 & K2 & K3).
  assert (Flo : fin (lo i)) by (apply Fin_between; auto; lia).
  assert (Fhi : fin (hi i)) by (apply Fin_between; auto; lia).
  destruct (SC (lo i) Flo) as [EL BL]. { split; apply key_le_R; auto; lia. }
  destruct (SC (hi i) Fhi) as [EH BH]. { split; apply key_le_R; auto; lia. }
  rewrite EL, EH in RGi. injection RGi as RGi. rewrite <- RGi in HF. cbn [fst snd] in HF.
  apply pip_eval_seg_out; [apply seg_ok_nn; auto|apply pt_ok_nn; split; auto|].
  cbn [tg_segment_rect rmin rmax px py seg_at sa sb]. fold (lo i) (hi i).
  destruct (Z.lt_ge_cases (f_key (py p)) (f_key (lo i))) as [A|A]; auto.
  destruct (Z.lt_ge_cases (f_key (hi i)) (f_key (py p))) as [B|B]; auto.
  exfalso.
  assert (GT : G (lo i) < n).
  { pose proof (Top i Hi') as T. cbv zeta in T.
    cbn [tg_segment_rect rmin rmax px py seg_at sa sb] in T. fold (lo i) (hi i) in T.
    specialize (T ltac:(lia)).
    apply (stripe_below_top mn mx n); auto; try lia; try lra; try (apply key_le_R; auto; lia). }
  assert (G (lo i) <= G (py p)) by (apply GM; apply key_le_R; auto; lia).
  assert (G (py p) <= G (hi i)) by (apply GM; apply key_le_R; auto; lia).
  lia.
Qed.
