(** * Hilbert cells of centres are always defined for rectangles with extent *)

From Coq Require Import ZArith Bool List Lia ZifyBool PeanoNat Permutation Reals Lra.
From Flocq Require Import Core Operations Plus_error BinarySingleNaN.
From Verif Require Import F64 Geo Series Search Geom MultiIx F64Order F64Real F64Mono F32 SeriesFacts
  SearchFacts StripeFacts MultiFacts.
Import ListNotations.
Local Open Scope Z_scope.

Lemma two_fin : fin f_two /\ RV f_two = 2%R.
Proof.
  split; [split; reflexivity|]. rewrite (RV_pos_bits false 4503599627370496 (-51)) by reflexivity.
  unfold F2R; cbn. lra.
Qed.
Lemma format_double x : generic_format radix2 (SpecFloat.fexp 53 1024) x ->
  generic_format radix2 (SpecFloat.fexp 53 1024) (2 * x)%R.
Proof.
  intros H. change (SpecFloat.fexp 53 1024) with (FLT_exp (-1074) 53) in *.
  apply FLT_format_generic in H; [|reflexivity]. destruct H as [[m e] E M L]. cbn in M, L.
  apply generic_format_FLT. exists (Float radix2 m (e + 1)); [|exact M|cbn; lia].
  rewrite E. unfold F2R. cbn [Fnum Fexp]. rewrite bpow_plus. change (bpow radix2 1) with 2%R. lra.
Qed.
Lemma rnd64_double x : f_wf x = true -> rnd64 (2 * RV x) = (2 * RV x)%R.
Proof. intros W. apply round_generic; [typeclasses eauto|]. apply format_double, RV_format; auto. Qed.

Definition small (x : f64) : Prop := fin x /\ (Rabs (RV x) < bpow radix2 128)%R.
Lemma f32_small x : f32_range x -> small x.
Proof.
  intros [F [Z|[_ U]]]; split; auto.
  - rewrite Z, Rabs_R0. apply bpow_gt_0.
  - pose proof fltmax_lt. lra.
Qed.
Lemma bp_130 : (4 * bpow radix2 128 < bpow radix2 1024)%R.
Proof.
  replace (4 * bpow radix2 128)%R with (bpow radix2 130).
  - apply bpow_lt. lia.
  - replace 130 with (2 + 128) by lia. rewrite bpow_plus. change (bpow radix2 2) with 4%R. reflexivity.
Qed.

Lemma center_between a b : small a -> small b -> (RV a <= RV b)%R ->
  fin (fdiv (fadd b a) f_two) /\ (RV a <= RV (fdiv (fadd b a) f_two) <= RV b)%R.
Proof.
  intros [Fa Ba] [Fb Bb] L. destruct two_fin as [F2 V2].
  pose proof (fadd_correct b a Fb Fa) as C. cbv zeta in C.
  assert (A1 : (2 * RV a <= rnd64 (RV b + RV a) <= 2 * RV b)%R).
  { split.
    - rewrite <- (rnd64_double a) by apply Fa. apply rnd64_le. lra.
    - rewrite <- (rnd64_double b) by apply Fb. apply rnd64_le. lra. }
  apply Rabs_lt_inv in Ba, Bb. pose proof bp_130 as B130.
  rewrite Rlt_bool_true in C by (apply Rabs_lt; lra). destruct C as [Fs Vs].
  pose proof (fdiv_correct (fadd b a) f_two Fs F2 ltac:(lra)) as D. cbv zeta in D. rewrite Vs, V2 in D.
  assert (A2 : (RV a <= rnd64 (rnd64 (RV b + RV a) / 2) <= RV b)%R).
  { split.
    - rewrite <- (rnd64_RV a) at 1 by apply Fa. apply rnd64_le. lra.
    - rewrite <- (rnd64_RV b) at 2 by apply Fb. apply rnd64_le. lra. }
  rewrite Rlt_bool_true in D by (apply Rabs_lt; lra). destruct D as [Fd Vd]. rewrite Vd. auto.
Qed.

Lemma f_65535_is : f_65535 = f_of_Z 65535.
Proof. vm_compute. reflexivity. Qed.

Lemma u32_of_int v z : f_to_int v = Some z -> 0 <= z -> f_to_u32 v = Some z.
Proof.
  unfold f_to_int, f_to_u32. destruct (f_trunc v) as [k|]; [|discriminate].
  destruct ((-2147483648 <=? k) && (k <=? 2147483647)) eqn:B; [|discriminate]. intros [= ->] H.
  replace ((0 <=? z) && (z <=? 4294967295)) with true by lia. reflexivity.
Qed.
Lemma ystripe_of_eq mn mx n y :
  ystripe_of (Rect (Pt mn mn) (Pt mx mx)) n y = f_to_int (fmul (fdiv (fsub y mn) (fsub mx mn)) (f_of_Z n)).
Proof. reflexivity. Qed.

Lemma cell_ok mn mx y : small mn -> small mx -> (RV mn < RV mx)%R -> fin y ->
  (RV mn <= RV y <= RV mx)%R ->
  exists k, f_to_u32 (fmul (fdiv (fsub y mn) (fsub mx mn)) f_65535) = Some k /\ 0 <= k < 65536.
Proof.
  intros [Fn Bn] [Fx Bx] L Fy Hy.
  pose proof (fsub_correct mx mn Fx Fn) as C. cbv zeta in C.
  apply Rabs_lt_inv in Bn, Bx. pose proof bp_130 as B130.
  assert (P : (0 < rnd64 (RV mx - RV mn))%R).
  { assert (N : (rnd64 (RV mx - RV mn) <> 0)%R).
    { apply (round_plus_neq_0 radix2 (SpecFloat.fexp 53 1024) (round_mode mode_NE) (RV mx) (- RV mn)).
      - apply RV_format, Fx.
      - apply generic_format_opp, RV_format, Fn.
      - lra. }
    assert (0 <= rnd64 (RV mx - RV mn))%R by (rewrite <- rnd64_0; apply rnd64_le; lra). lra. }
  assert (U : (rnd64 (RV mx - RV mn) <= bpow radix2 130)%R).
  { apply round_le_generic; try typeclasses eauto.
    - apply generic_format_bpow. vm_compute. discriminate.
    - replace (bpow radix2 130) with (4 * bpow radix2 128)%R; [lra|].
      replace 130 with (2 + 128) by lia. rewrite bpow_plus. change (bpow radix2 2) with 4%R. reflexivity. }
  rewrite Rlt_bool_true in C.
  2:{ rewrite Rabs_pos_eq by lra. eapply Rle_lt_trans; [exact U|]. apply bpow_lt. lia. }
  destruct C as [Fh Vh].
  assert (P2 : (0 < RV (fsub mx mn))%R) by (rewrite Vh; exact P).
  rewrite f_65535_is. generalize (eq_refl 65535). generalize 65535 at 1 3. intros n En.
  assert (Hn : 0 < n < 2147483648) by lia.
  destruct (stripe_of_correct mn mx n Fn Fx Fh P2 Hn (Rect (Pt mn mn) (Pt mx mx)) y eq_refl eq_refl Fy Hy) as [E R].
  rewrite ystripe_of_eq in E. eexists. split; [apply u32_of_int; [exact E|apply R]|]. lia.
Qed.

(** rectangles used as keys *)
Lemma keys_RV x y : f32_range x -> f32_range y -> (f_key x <= f_key y)%Z -> (RV x <= RV y)%R.
Proof. intros [Fx _] [Fy _] H. apply key_le_R; auto. Qed.
Lemma keys_RV_lt x y : f32_range x -> f32_range y -> (f_key x < f_key y)%Z -> (RV x < RV y)%R.
Proof. intros [Fx _] [Fy _] H. apply key_lt_R; auto. Qed.

Lemma point_hilbert_ok r mr : rect32 r -> rect32 mr -> kcov mr r ->
  (f_key (px (rmin r)) <= f_key (px (rmax r)))%Z -> (f_key (py (rmin r)) <= f_key (py (rmax r)))%Z ->
  (f_key (px (rmin mr)) < f_key (px (rmax mr)))%Z -> (f_key (py (rmin mr)) < f_key (py (rmax mr)))%Z ->
  exists ix iy, tg_point_hilbert (tg_rect_center r) mr = Some (hilbert_xy_to_index ix iy) /\
    0 <= ix < 65536 /\ 0 <= iy < 65536.
Proof.
  intros [[X1 Y1] [X2 Y2]] [[MX1 MY1] [MX2 MY2]] K OX OY WX WY.
  unfold kcov in K. destruct K as (K1 & K2 & K3 & K4).
  assert (C : forall lo hi mn mx, f32_range lo -> f32_range hi -> f32_range mn -> f32_range mx ->
    (f_key mn <= f_key lo)%Z -> (f_key lo <= f_key hi)%Z -> (f_key hi <= f_key mx)%Z -> (f_key mn < f_key mx)%Z ->
    exists k, f_to_u32 (fmul (fdiv (fsub (fdiv (fadd hi lo) f_two) mn) (fsub mx mn)) f_65535) = Some k /\ 0 <= k < 65536).
  { intros lo hi mn mx A1 A2 A3 A4 B1 B2 B3 B4.
    destruct (center_between lo hi (f32_small _ A1) (f32_small _ A2) (keys_RV _ _ A1 A2 B2)) as [F L].
    pose proof (keys_RV _ _ A3 A1 B1). pose proof (keys_RV _ _ A2 A4 B3).
    apply cell_ok; auto using f32_small, keys_RV_lt. lra. }
  destruct (C (px (rmin r)) (px (rmax r)) (px (rmin mr)) (px (rmax mr))) as (ix & Ex & Rx); auto.
  destruct (C (py (rmin r)) (py (rmax r)) (py (rmin mr)) (py (rmax mr))) as (iy & Ey & Ry); auto.
  exists ix, iy. split; [|auto]. unfold tg_point_hilbert, tg_rect_center. cbn [px py]. rewrite Ex, Ey. reflexivity.
Qed.

Lemma opt_all_some {A} (l : list (option A)) : (forall x, In x l -> x <> None) -> exists r, opt_all l = Some r.
Proof.
  induction l as [|[a|] l IH]; intros H; cbn.
  - eauto.
  - destruct IH as [r ->]; [intros; apply H; right; auto|]. eauto.
  - exfalso. apply (H None); [left; auto|auto].
Qed.

Lemma fold_expand32 rs : forall r, rect32 r -> Forall rect32 rs -> rect32 (fold_left tg_rect_expand rs r).
Proof.
  induction rs as [|o rs IH]; intros r H F; cbn; auto. inversion F; subst. apply IH; auto.
  destruct H as [[? ?] [? ?]], H2 as [[? ?] [? ?]].
  split; split; cbn; auto using f32_fmin0, f32_fmax0.
Qed.

Theorem multi_inflate_ok rs :
  Forall rect32 rs ->
  (forall r, In r rs -> (f_key (px (rmin r)) <= f_key (px (rmax r)))%Z /\ (f_key (py (rmin r)) <= f_key (py (rmax r)))%Z) ->
  (exists a b, In a rs /\ In b rs /\ (f_key (px (rmin a)) < f_key (px (rmax b)))%Z) ->
  (exists a b, In a rs /\ In b rs /\ (f_key (py (rmin a)) < f_key (py (rmax b)))%Z) ->
  exists mix, multi_inflate rs = Some mix.
Proof.
  intros F O WX WY. unfold multi_inflate. destruct (_ <=? _)%nat; [|eauto].
  assert (NE : rs <> []) by (destruct WX as (a & _ & I & _); intros ->; destruct I).
  assert (R32 : forall r, rect32 r -> rect_ok r).
  { intros r [[? ?] [? ?]]. repeat split; apply f32_range_ok; auto. }
  assert (M32 : rect32 (multi_rect rs)).
  { destruct rs as [|r rs]; [congruence|]. inversion F; subst. apply fold_expand32; auto. }
  assert (KC : forall r, In r rs -> kcov (multi_rect rs) r).
  { destruct rs as [|r0 rs]; [congruence|]. inversion F; subst.
    destruct (ix_union_fold rs r0 (R32 _ H1)) as (A & B & C).
    { apply Forall_forall. intros x I. apply R32. rewrite Forall_forall in H2. auto. }
    change ixrect_expand with tg_rect_expand in *. intros r [<-|I]; auto. }
  destruct WX as (ax & bx & IAX & IBX & LX), WY as (ay & by_ & IAY & IBY & LY).
  assert (WX : (f_key (px (rmin (multi_rect rs))) < f_key (px (rmax (multi_rect rs))))%Z).
  { pose proof (KC _ IAX) as Q1. pose proof (KC _ IBX) as Q2. unfold kcov in Q1, Q2. lia. }
  assert (WY : (f_key (py (rmin (multi_rect rs))) < f_key (py (rmax (multi_rect rs))))%Z).
  { pose proof (KC _ IAY) as Q1. pose proof (KC _ IBY) as Q2. unfold kcov in Q1, Q2. lia. }
  unfold multi_order.
  match goal with |- context [opt_all ?l] => destruct (opt_all_some l) as [hs ->] end; [|eauto].
  intros x I. apply in_map_iff in I. destruct I as (i & <- & Hi). apply in_seq in Hi.
  assert (IR : In (nth i rs rect0) rs) by (apply nth_In; lia).
  destruct (point_hilbert_ok (nth i rs rect0) (multi_rect rs)) as (ix & iy & -> & _);
    [rewrite Forall_forall in F; auto|auto|auto|apply O; auto|apply O; auto|auto|auto|discriminate].
Qed.
