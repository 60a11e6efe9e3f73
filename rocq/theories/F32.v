(** * The float conversions of the index bound the double from outside
      (inside the range of normal floats) *)

From Coq Require Import ZArith Bool List Lia ZifyBool Reals Lra Psatz.
From Coq Require Import Floats.SpecFloat.
From Flocq Require Import Core Operations Relative BinarySingleNaN.
From Verif Require Import F64 Geo F64Order F64Real F64Mono.
Local Open Scope Z_scope.

(** zero, or between 2^-125 and the largest float in magnitude *)
Definition f32_range (x : f64) : Prop :=
  fin x /\ (RV x = 0%R \/
  (bpow radix2 (-125) <= Rabs (RV x) /\ Rabs (RV x) <= F2R (Float radix2 16777215 104))%R).

Lemma rel32 y : (bpow radix2 (-126) <= Rabs y)%R -> exists d, (Rabs d <= / 16777216)%R /\ rnd32 y = (y * (1 + d))%R.
Proof.
  intros H. destruct (relative_error_N_FLT_ex radix2 (-149) 24 ltac:(lia) (fun x => negb (Z.even x)) y) as (d & D1 & D2).
  { exact H. }
  exists d. split; [|exact D2]. eapply Rle_trans; [exact D1|]. cbn. lra.
Qed.
Lemma rel64 y : (bpow radix2 (-1022) <= Rabs y)%R -> exists d, (Rabs d <= / 9007199254740992)%R /\ rnd64 y = (y * (1 + d))%R.
Proof.
  intros H. destruct (relative_error_N_FLT_ex radix2 (-1074) 53 ltac:(lia) (fun x => negb (Z.even x)) y) as (d & D1 & D2).
  { exact H. }
  exists d. split; [|exact D2]. eapply Rle_trans; [exact D1|]. cbn. lra.
Qed.

Lemma fltmax_lt : (F2R (Float radix2 16777215 104) < bpow radix2 128)%R.
Proof.
  unfold F2R. cbn [Fnum Fexp]. replace (bpow radix2 128) with (16777216 * bpow radix2 104)%R.
  - apply Rmult_lt_compat_r; [apply bpow_gt_0|]. lra.
  - replace 128 with (24 + 104) by lia. rewrite bpow_plus. f_equal.
Qed.

Lemma mul_f32 x c : f32_range x -> RV x <> 0%R -> (c = fvals0 \/ c = fvals1) ->
  fin (fmul x c) /\ exists k, (1 - / 8388608 < k < 1 + / 8388608)%R /\
  (RV c * k < 1 <-> c = fvals0)%R /\ (RV c * k > 1 <-> c = fvals1)%R /\
  rnd32 (RV (fmul x c)) = (RV x * RV c * k)%R /\ (RV (fmul x c) * RV x > 0)%R.
Proof.
  intros [F [Z|[L U]]] NZ Hc; [congruence|].
  assert (Fc : fin c) by (destruct Hc as [-> | ->]; [apply fin_vals0|apply fin_vals1]).
  assert (Bc : (1/2 <= RV c <= 3/2)%R).
  { destruct Hc as [-> | ->]; [rewrite RV_vals0|rewrite RV_vals1]; lra. }
  set (X := RV x) in *.
  assert (PX : (0 < Rabs X)%R) by (apply Rabs_pos_lt; auto).
  assert (AC : Rabs (X * RV c) = (Rabs X * RV c)%R).
  { rewrite Rabs_mult. f_equal. apply Rabs_pos_eq. lra. }
  assert (B126 : bpow radix2 (-125) = (2 * bpow radix2 (-126))%R).
  { replace (-125) with (1 + -126) by lia. rewrite bpow_plus. f_equal. }
  assert (P126 := bpow_gt_0 radix2 (-126)).
  destruct (rel64 (X * RV c)) as (d & D1 & D2).
  { rewrite AC. apply Rle_trans with (bpow radix2 (-126)). apply bpow_le; lia. nra. }
  assert (Bd : (- / 9007199254740992 <= d <= / 9007199254740992)%R) by (apply Rabs_le_inv; auto).
  pose proof (fmul_correct x c F Fc) as C. cbv zeta in C. fold X in C. rewrite D2 in C.
  assert (AY : Rabs (X * RV c * (1 + d)) = (Rabs X * RV c * (1 + d))%R).
  { rewrite Rabs_mult, AC. f_equal. apply Rabs_pos_eq. lra. }
  assert (PC : (0 < Rabs X * RV c)%R) by nra.
  rewrite Rlt_bool_true in C.
  2:{ rewrite AY. apply Rlt_trans with (bpow radix2 130); [|apply bpow_lt; lia].
      replace 130 with (2 + 128) by lia. rewrite bpow_plus. change (bpow radix2 2) with 4%R.
      pose proof fltmax_lt. assert (Rabs X < bpow radix2 128)%R by lra.
      assert (RV c * (1 + d) <= 2)%R by nra. rewrite Rmult_assoc. nra. }
  destruct C as [Fy EY].
  split; auto. rewrite EY.
  destruct (rel32 (X * RV c * (1 + d))) as (d' & D1' & D2').
  { rewrite AY, B126 in *. assert (99/100 <= RV c * (1 + d))%R.
    { destruct Hc as [-> | ->]; [rewrite RV_vals0|rewrite RV_vals1]; nra. }
    rewrite Rmult_assoc. nra. }
  assert (Bd' : (- / 16777216 <= d' <= / 16777216)%R) by (apply Rabs_le_inv; auto).
  exists ((1 + d) * (1 + d'))%R.
  assert (BK : (1 - / 16777216 - / 4503599627370496 <= (1 + d) * (1 + d') <= 1 + / 16777216 + / 4503599627370496)%R) by nra.
  split; [lra|].
  assert (c = fvals0 -> RV c * ((1 + d) * (1 + d')) < 1)%R by (intros ->; rewrite RV_vals0; nra).
  assert (c = fvals1 -> RV c * ((1 + d) * (1 + d')) > 1)%R by (intros ->; rewrite RV_vals1; nra).
  split; [split; [intros G; destruct Hc as [E|E]; auto; specialize (H0 E); lra|auto]|].
  split; [split; [intros G; destruct Hc as [E|E]; auto; specialize (H E); lra|auto]|].
  split; [rewrite D2'; ring|].
  assert (0 < RV c * (1 + d))%R by nra.
  assert (0 < X * X)%R by nra. replace (X * RV c * (1 + d) * X)%R with (X * X * (RV c * (1 + d)))%R by ring.
  nra.
Qed.

Lemma f_to_f32_zero x : fin x -> RV x = 0%R -> fin (f_to_f32 x) /\ RV (f_to_f32 x) = 0%R.
Proof.
  intros F Z. pose proof (f_to_f32_correct x F) as C. cbv zeta in C.
  rewrite Z, rnd32_0, Rabs_R0, Rlt_bool_true in C by apply bpow_gt_0. auto.
Qed.
Lemma fmul_zero x c : fin x -> RV x = 0%R -> (c = fvals0 \/ c = fvals1) -> fin (fmul x c) /\ RV (fmul x c) = 0%R.
Proof.
  intros F Z Hc. assert (Fc : fin c) by (destruct Hc as [-> | ->]; [apply fin_vals0|apply fin_vals1]).
  pose proof (fmul_correct x c F Fc) as C. cbv zeta in C.
  rewrite Z, Rmult_0_l, rnd64_0, Rabs_R0, Rlt_bool_true in C by apply bpow_gt_0. auto.
Qed.

Lemma sign_neg x : fin x -> (RV x < 0)%R -> f_sign x = true.
Proof. intros F L. pose proof (sign_RV x F). destruct (f_sign x); auto. lra. Qed.
Lemma sign_pos x : fin x -> (RV x > 0)%R -> f_sign x = false.
Proof. intros F L. pose proof (sign_RV x F). destruct (f_sign x); auto. lra. Qed.

Lemma f32_down x : f32_range x -> f_key (f_to_f32 (fdown x)) <= f_key x.
Proof.
  intros R. assert (F : fin x) by apply R. unfold fdown.
  set (c := if flt x f_zero then fvals1 else fvals0).
  assert (Hc : c = fvals0 \/ c = fvals1) by (unfold c; destruct (flt x f_zero); auto).
  destruct (Req_dec (RV x) 0) as [Z|NZ].
  { destruct (fmul_zero x c F Z Hc) as [F1 Z1]. destruct (f_to_f32_zero _ F1 Z1) as [F2 Z2].
    apply key_le_R; auto. lra. }
  destruct (mul_f32 x c R NZ Hc) as (Fy & k & Bk & K0 & K1 & E & S).
  pose proof (f_to_f32_correct _ Fy) as C. cbv zeta in C. rewrite E in C.
  destruct R as [_ [Z|[L U]]]; [congruence|].
  unfold c in *. destruct (flt x f_zero) eqn:FL.
  - apply sign_key in FL; auto. destruct (Rlt_bool _ _) eqn:LT.
    + destruct C as [F2 C2]. apply key_le_R; auto. rewrite C2. pose proof (proj2 K1 eq_refl). nra.
    + rewrite C, sign_neg; auto; [|nra]. destruct (inf_of_ok true) as [_ ->].
      pose proof (key_fin x F). lia.
  - assert (P : (0 < RV x)%R).
    { apply Rnot_le_lt. intros P. assert (RV x < 0)%R by lra. apply sign_key in H; auto. congruence. }
    pose proof (proj2 K0 eq_refl) as K. pose proof RV_vals0.
    assert (0 < RV fvals0 * k)%R by nra.
    assert (RV x * RV fvals0 * k <= RV x)%R by (rewrite Rmult_assoc; nra).
    assert (0 <= RV x * RV fvals0 * k)%R by (rewrite Rmult_assoc; nra).
    rewrite (Rabs_pos_eq (RV x)) in U by lra. pose proof fltmax_lt.
    rewrite Rlt_bool_true in C by (rewrite Rabs_pos_eq by lra; lra).
    destruct C as [F2 C2]. apply key_le_R; auto. lra.
Qed.

Lemma f32_up x : f32_range x -> f_key x <= f_key (f_to_f32 (fup x)).
Proof.
  intros R. assert (F : fin x) by apply R. unfold fup.
  set (c := if flt x f_zero then fvals0 else fvals1).
  assert (Hc : c = fvals0 \/ c = fvals1) by (unfold c; destruct (flt x f_zero); auto).
  destruct (Req_dec (RV x) 0) as [Z|NZ].
  { destruct (fmul_zero x c F Z Hc) as [F1 Z1]. destruct (f_to_f32_zero _ F1 Z1) as [F2 Z2].
    apply key_le_R; auto. lra. }
  destruct (mul_f32 x c R NZ Hc) as (Fy & k & Bk & K0 & K1 & E & S).
  pose proof (f_to_f32_correct _ Fy) as C. cbv zeta in C. rewrite E in C.
  destruct R as [_ [Z|[L U]]]; [congruence|].
  unfold c in *. destruct (flt x f_zero) eqn:FL.
  - apply sign_key in FL; auto.
    pose proof (proj2 K0 eq_refl) as K. pose proof RV_vals0.
    assert (0 < RV fvals0 * k)%R by nra.
    assert (RV x <= RV x * RV fvals0 * k)%R by (rewrite Rmult_assoc; nra).
    assert (RV x * RV fvals0 * k <= 0)%R by (rewrite Rmult_assoc; nra).
    rewrite (Rabs_left1 (RV x)) in U by lra. pose proof fltmax_lt.
    rewrite Rlt_bool_true in C by (rewrite Rabs_left1 by lra; lra).
    destruct C as [F2 C2]. apply key_le_R; auto. lra.
  - assert (P : (0 < RV x)%R).
    { apply Rnot_le_lt. intros P. assert (RV x < 0)%R by lra. apply sign_key in H; auto. congruence. }
    destruct (Rlt_bool _ _) eqn:LT.
    + destruct C as [F2 C2]. apply key_le_R; auto. rewrite C2. pose proof (proj2 K1 eq_refl). nra.
    + rewrite C, sign_pos; auto; [|nra]. destruct (inf_of_ok false) as [_ ->].
      pose proof (key_fin x F). lia.
Qed.

(** ** rectangles *)
Definition pt32 (p : pt) : Prop := f32_range (px p) /\ f32_range (py p).
Definition rect32 (r : rect) : Prop := pt32 (rmin r) /\ pt32 (rmax r).

Lemma f32_fmin0 x y : f32_range x -> f32_range y -> f32_range (fmin0 x y).
Proof. unfold fmin0; destruct (flt x y); auto. Qed.
Lemma f32_fmax0 x y : f32_range x -> f32_range y -> f32_range (fmax0 x y).
Proof. unfold fmax0; destruct (fgt x y); auto. Qed.
Lemma f32_range_ok x : f32_range x -> fok x.
Proof. intros [F _]. apply fin_ok; auto. Qed.
Lemma ixrect_covers r : rect32 r -> kcov (tg_rect_to_ixrect r) r.
Proof.
  intros [[? ?] [? ?]]. unfold kcov. cbn.
  repeat split; apply f32_down || apply f32_up; auto.
Qed.

Lemma fmul_vals_mono x y c d : fok x -> fok y -> f_key x <= f_key y ->
  (c = fvals0 \/ c = fvals1) -> (d = fvals0 \/ d = fvals1) ->
  (fin x -> fin y -> (RV x * RV c <= RV y * RV d)%R) ->
  f_key (fmul x c) <= f_key (fmul y d).
Proof.
  intros Ox Oy L Hc Hd M.
  assert (Fc : fin c) by (destruct Hc as [-> | ->]; [apply fin_vals0|apply fin_vals1]).
  assert (Fd : fin d) by (destruct Hd as [-> | ->]; [apply fin_vals0|apply fin_vals1]).
  assert (BND : forall z, fok z -> - inf_mag <= f_key z <= inf_mag).
  { intros z Oz. destruct (fok_cases z Oz) as [F|[I W]]. pose proof (key_fin z F). lia.
    rewrite (key_inf z I). assert (0 < inf_mag) by reflexivity. destruct (f_sign z); lia. }
  pose proof (BND _ (fmul_vals_ok x c Ox Hc)). pose proof (BND _ (fmul_vals_ok y d Oy Hd)).
  destruct (fok_cases x Ox) as [Fx|[I W]].
  2:{ rewrite fok_mul_inf in * by auto. rewrite (key_inf x I) in *. destruct (f_sign x); [lia|].
      destruct (fok_cases y Oy) as [Fy|[I' W']]. pose proof (key_fin y Fy). lia.
      rewrite fok_mul_inf in * by auto. lia. }
  destruct (fok_cases y Oy) as [Fy|[I W]].
  2:{ rewrite (fok_mul_inf y) in * by auto. rewrite (key_inf y I) in *. destruct (f_sign y); [|lia].
      pose proof (key_fin x Fx). lia. }
  pose proof (fmul_correct x c Fx Fc) as C. pose proof (fmul_correct y d Fy Fd) as D.
  cbv zeta in C, D. rewrite xorb_vals in C, D by auto.
  eapply ovf_mono; [ | | apply (fmul_vals_sign x c Fx Hc) | apply (fmul_vals_sign y d Fy Hd) | exact C | exact D ].
  - apply bpow_gt_0.
  - apply rnd64_le. auto.
Qed.
Lemma nflt_nonneg x : fin x -> flt x f_zero = false -> (0 <= RV x)%R.
Proof. intros F E. apply Rnot_lt_le. intros L. apply sign_key in L; auto. congruence. Qed.
Lemma fdown_mono x y : fok x -> fok y -> f_key x <= f_key y -> f_key (fdown x) <= f_key (fdown y).
Proof.
  intros Ox Oy L. unfold fdown.
  apply fmul_vals_mono; auto; try (destruct (flt _ f_zero); auto; fail).
  intros Fx Fy. apply key_le_R in L; auto. pose proof RV_vals0. pose proof RV_vals1.
  destruct (flt x f_zero) eqn:Ex, (flt y f_zero) eqn:Ey;
  try (apply sign_key in Ex; auto); try (apply sign_key in Ey; auto);
  try (apply nflt_nonneg in Ex; auto); try (apply nflt_nonneg in Ey; auto); nra.
Qed.
Lemma fup_mono x y : fok x -> fok y -> f_key x <= f_key y -> f_key (fup x) <= f_key (fup y).
Proof.
  intros Ox Oy L. unfold fup.
  apply fmul_vals_mono; auto; try (destruct (flt _ f_zero); auto; fail).
  intros Fx Fy. apply key_le_R in L; auto. pose proof RV_vals0. pose proof RV_vals1.
  destruct (flt x f_zero) eqn:Ex, (flt y f_zero) eqn:Ey;
  try (apply sign_key in Ex; auto); try (apply sign_key in Ey; auto);
  try (apply nflt_nonneg in Ex; auto); try (apply nflt_nonneg in Ey; auto); nra.
Qed.
Lemma ixrect_mono a b : rect_ok a -> rect_ok b -> kcov a b -> kcov (tg_rect_to_ixrect a) (tg_rect_to_ixrect b).
Proof.
  intros [[? ?] [? ?]] [[? ?] [? ?]] (? & ? & ? & ?). unfold kcov. cbn.
  repeat split; apply f_to_f32_mono; auto with fok; apply fdown_mono || apply fup_mono; auto.
Qed.
