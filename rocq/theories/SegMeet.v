(** * Intersection of two segments with integer coordinates *)

From Coq Require Import ZArith Reals Bool List Lia Lra ZifyBool.
From Flocq Require Import Core Relative BinarySingleNaN.
From Verif Require Import F64 Geo F64Order F64Real F64Mono SpecPlane SegExact.
Local Open Scope Z_scope.

(** ** Rounding errors *)

Lemma rel_err r : (bpow radix2 (-1022) <= Rabs r)%R ->
  (Rabs (rnd64 r - r) <= bpow radix2 (-53) * Rabs r)%R.
Proof.
  intros H.
  change (SpecFloat.fexp 53 1024) with (FLT_exp (-1074) 53).
  pose proof (relative_error_N_FLT radix2 (-1074) 53 ltac:(reflexivity) (fun x => negb (Z.even x)) r H) as E.
  replace (/ 2 * bpow radix2 (- (53) + 1))%R with (bpow radix2 (-53)) in E; [exact E|].
  change (-53) with (-(1) + (- (53) + 1)). rewrite bpow_plus. reflexivity.
Qed.

Lemma tie_one : rnd64 (1 + bpow radix2 (-53)) = 1%R.
Proof.
  assert (F1 : fin f_one) by (split; reflexivity).
  assert (F2 : fin 4368491638549381120) by (split; reflexivity).
  assert (V2 : RV 4368491638549381120 = bpow radix2 (-53)).
  { rewrite (RV_pos_bits false 4503599627370496 (-105)) by reflexivity.
    change 4503599627370496%positive with (2 ^ 52)%positive. unfold F2R. cbn [Fnum Fexp cond_Zopp].
    change (IZR (Z.pos (2 ^ 52))) with (bpow radix2 52). rewrite <- bpow_plus. reflexivity. }
  pose proof (fadd_correct _ _ F1 F2) as C. cbv zeta in C. rewrite RV_one, V2 in C.
  assert (B : (Rabs (rnd64 (1 + bpow radix2 (-53))) < bpow radix2 1024)%R).
  { apply small_bound. apply Rle_trans with 2%R.
    - assert (L : (0 <= 1 + bpow radix2 (-53) <= 2)%R).
      { pose proof (bpow_gt_0 radix2 (-53)). pose proof (bpow_le radix2 (-53) 0 ltac:(lia)).
        change (bpow radix2 0) with 1%R in *. lra. }
      assert (rnd64 2 = 2%R) by (apply (rnd_int 2); lia).
      pose proof (rnd64_le _ _ (proj1 L)) as L1. pose proof (rnd64_le _ _ (proj2 L)) as L2.
      rewrite rnd64_0 in L1. rewrite H in L2. rewrite Rabs_pos_eq; lra.
    - change 2%R with (bpow radix2 1). apply bpow_le. lia. }
  rewrite Rlt_bool_true in C by exact B. destruct C as [_ C]. rewrite <- C.
  replace (fadd f_one 4368491638549381120) with f_one by (vm_compute; reflexivity). exact RV_one.
Qed.

Lemma pow_pos_IZR n : 0 <= n -> bpow radix2 n = IZR (2 ^ n).
Proof. intros. symmetry. apply (IZR_Zpower radix2). lia. Qed.

(** ** The parameter test: t = N * (1 / D) is in [0, 1] *)
Lemma param_test (n d : f64) (N D : Z) :
  isz n N -> isz d D -> D <> 0 -> Z.abs N <= 2 ^ 51 -> Z.abs D <= 2 ^ 51 ->
  let t := fmul n (fdiv f_one d) in
  fge t f_zero && fle t f_one = true <-> (0 <= IZR N / IZR D <= 1)%R.
Proof.
  intros [Fn Vn] [Fd Vd] ND BN BD.
  assert (RD : (IZR D <> 0)%R) by now apply IZR_neq.
  assert (F1 : fin f_one) by (split; reflexivity).
  assert (NV : (RV d <> 0)%R) by now rewrite Vd.
  pose proof (fdiv_correct _ _ F1 Fd NV) as C. cbv zeta in C. rewrite RV_one, Vd in C.
  set (q := rnd64 (1 / IZR D)) in *.
  assert (AD : (1 <= Rabs (IZR D) <= bpow radix2 51)%R).
  { rewrite <- abs_IZR. rewrite pow_pos_IZR by lia. split; apply IZR_le; lia. }
  assert (AQ : (bpow radix2 (-51) <= Rabs (1 / IZR D) <= 1)%R).
  { unfold Rdiv. rewrite Rmult_1_l, Rabs_inv. split.
    - replace (bpow radix2 (-51)) with (/ bpow radix2 51)%R by (rewrite <- bpow_opp; reflexivity).
      apply Rinv_le; [lra|apply AD].
    - rewrite <- Rinv_1. apply Rinv_le; [lra|apply AD]. }
  pose proof (bpow_gt_0 radix2 (-53)) as E0.
  assert (E1 : (bpow radix2 (-53) < / 8)%R).
  { replace (/ 8)%R with (bpow radix2 (-3)) by (cbn; lra). apply bpow_lt. lia. }
  assert (QE : (Rabs (q - 1 / IZR D) <= bpow radix2 (-53) * Rabs (1 / IZR D))%R).
  { apply rel_err. eapply Rle_trans; [|apply AQ]. apply bpow_le. lia. }
  assert (QB : (Rabs q < bpow radix2 1024)%R).
  { apply small_bound. apply Rle_trans with 2%R.
    - replace q with (q - 1 / IZR D + 1 / IZR D)%R by ring.
      eapply Rle_trans; [apply Rabs_triang|]. nra.
    - change 2%R with (bpow radix2 1). apply bpow_le. lia. }
  rewrite Rlt_bool_true in C by exact QB. destruct C as [Fq Vq].
  (* e = q D *)
  set (e := (q * IZR D)%R).
  assert (Ee : (Rabs (e - 1) <= bpow radix2 (-53))%R).
  { unfold e. replace (q * IZR D - 1)%R with ((q - 1 / IZR D) * IZR D)%R by (field; exact RD).
    rewrite Rabs_mult. apply Rle_trans with (bpow radix2 (-53) * Rabs (1 / IZR D) * Rabs (IZR D))%R.
    - apply Rmult_le_compat_r; [apply Rabs_pos|exact QE].
    - rewrite Rmult_assoc, <- Rabs_mult.
      replace (1 / IZR D * IZR D)%R with 1%R by (field; exact RD). rewrite Rabs_R1. lra. }
  assert (Eb : (1 - bpow radix2 (-53) <= e <= 1 + bpow radix2 (-53))%R).
  { apply Rabs_le_inv in Ee. lra. }
  pose proof (fmul_correct _ _ Fn Fq) as M. cbv zeta in M. rewrite Vn, Vq in M.
  assert (NQ : (IZR N * q = IZR N / IZR D * e)%R) by (unfold e; field; exact RD).
  set (v := (IZR N / IZR D)%R) in *.
  assert (AV : (Rabs v <= bpow radix2 51)%R).
  { unfold v, Rdiv. rewrite Rabs_mult. rewrite <- (Rmult_1_r (bpow radix2 51)).
    apply Rmult_le_compat; try apply Rabs_pos.
    - rewrite <- abs_IZR, pow_pos_IZR by lia. apply IZR_le. lia.
    - rewrite Rabs_inv. rewrite <- Rinv_1. apply Rinv_le; [lra|apply AD]. }
  assert (TB : (Rabs (rnd64 (IZR N * q)) < bpow radix2 1024)%R).
  { rewrite NQ. apply small_bound.
    assert (AE : (Rabs e <= 2)%R) by (rewrite Rabs_pos_eq; lra).
    assert (AVE : (Rabs (v * e) <= bpow radix2 52)%R).
    { rewrite Rabs_mult. change 52 with (51 + 1). rewrite bpow_plus. change (bpow radix2 1) with 2%R.
      apply Rmult_le_compat; try apply Rabs_pos; assumption. }
    apply Rle_trans with (bpow radix2 52); [|apply bpow_le; lia].
    rewrite pow_pos_IZR in * by lia. apply Rabs_le. apply Rabs_le_inv in AVE.
    destruct AVE as [A1 A2]. apply rnd64_le in A1, A2. rewrite <- opp_IZR in *.
    rewrite rnd_int in A1 by lia. rewrite rnd_int in A2 by lia. lra. }
  rewrite Rlt_bool_true in M by exact TB. destruct M as [Ft Vt]. rewrite NQ in Vt.
  cbv zeta. set (t := fmul n (fdiv f_one d)) in *. clearbody t.
  assert (TT : fge t f_zero && fle t f_one = true <-> (0 <= RV t <= 1)%R).
  { assert (Z0 : fin f_zero) by (split; reflexivity).
    unfold fge. rewrite fle_key by (apply fin_ok; assumption). rewrite fle_key by (apply fin_ok; assumption).
    rewrite andb_true_iff, !Z.leb_le. rewrite !key_le_R by assumption.
    rewrite RV_one. replace (RV f_zero) with 0%R by reflexivity. tauto. }
  rewrite TT, Vt. split.
  - intros [L U].
    destruct (Rlt_le_dec v 0) as [Lv|Lv].
    + (* negative *)
      exfalso.
      assert (LL : (v <= - bpow radix2 (-51))%R).
      { assert (AN : (1 <= Rabs (IZR N))%R).
        { rewrite <- abs_IZR. apply IZR_le. assert (N <> 0); [|lia].
          intros ->. unfold v in Lv. lra. }
        assert (bpow radix2 (-51) <= Rabs v)%R.
        { unfold v, Rdiv. rewrite Rabs_mult. rewrite Rabs_inv.
          rewrite <- (Rmult_1_l (bpow radix2 (-51))). apply Rmult_le_compat; try lra; [apply bpow_ge_0|].
          replace (bpow radix2 (-51)) with (/ bpow radix2 51)%R by (rewrite <- bpow_opp; reflexivity).
          apply Rinv_le; [lra|apply AD]. }
        rewrite Rabs_left in H by exact Lv. lra. }
      assert (P : (v * e <= - bpow radix2 (-52))%R).
      { replace (bpow radix2 (-52)) with (bpow radix2 (-51) * / 2)%R
          by (change (-52) with (-51 + -1); rewrite bpow_plus; reflexivity).
        pose proof (bpow_gt_0 radix2 (-51)). nra. }
      apply rnd64_le in P.
      assert (G : rnd64 (- bpow radix2 (-52)) = (- bpow radix2 (-52))%R).
      { apply round_generic; [typeclasses eauto|]. apply generic_format_opp. apply generic_format_bpow.
        rewrite fexp53. lia. }
      rewrite G in P. pose proof (bpow_gt_0 radix2 (-52)). lra.
    + split; [exact Lv|]. destruct (Rle_lt_dec v 1) as [Uv|Uv]; [exact Uv|]. exfalso.
      assert (LL : (1 + bpow radix2 (-51) <= v)%R).
      { assert (K : (Z.abs D + 1 <= Z.abs N)).
        { assert (KR : (Rabs (IZR D) < Rabs (IZR N))%R).
          { replace (IZR N) with (v * IZR D)%R by (unfold v; field; exact RD).
            rewrite Rabs_mult. rewrite (Rabs_pos_eq v) by lra.
            assert (0 < Rabs (IZR D))%R by lra. nra. }
          rewrite <- !abs_IZR in KR. apply lt_IZR in KR. lia. }
        assert (V : v = (Rabs (IZR N) / Rabs (IZR D))%R).
        { rewrite <- (Rabs_pos_eq v) by lra. unfold v, Rdiv. rewrite Rabs_mult, Rabs_inv.
          reflexivity. }
        rewrite V. apply IZR_le in K. rewrite plus_IZR, !abs_IZR in K.
        apply Rmult_le_reg_r with (Rabs (IZR D)); [lra|].
        unfold Rdiv. rewrite Rmult_assoc, Rinv_l by lra.
        assert (bpow radix2 (-51) * Rabs (IZR D) <= 1)%R.
        { apply Rle_trans with (bpow radix2 (-51) * bpow radix2 51)%R.
          - apply Rmult_le_compat_l; [apply bpow_ge_0|apply AD].
          - rewrite <- bpow_plus. cbn. lra. }
        lra. }
      assert (P : (1 + bpow radix2 (-52) <= v * e)%R).
      { assert (bpow radix2 (-51) = 4 * bpow radix2 (-53))%R
          by (change (-51) with (2 + -53); rewrite bpow_plus; reflexivity).
        assert (bpow radix2 (-52) = 2 * bpow radix2 (-53))%R
          by (change (-52) with (1 + -53); rewrite bpow_plus; reflexivity).
        set (w := bpow radix2 (-53)) in *. nra. }
      apply rnd64_le in P.
      assert (G : rnd64 (1 + bpow radix2 (-52)) = (1 + bpow radix2 (-52))%R).
      { apply round_generic; [typeclasses eauto|].
        replace (1 + bpow radix2 (-52))%R with (F2R (Float radix2 (2 ^ 52 + 1) (-52))).
        - apply generic_format_F2R. intros _. unfold cexp. rewrite fexp53.
          assert (M : (mag radix2 (F2R (Float radix2 (2 ^ 52 + 1) (-52))) <= 1)%Z).
          { apply mag_le_bpow.
            - apply F2R_neq_0. cbn. lia.
            - unfold F2R. cbn [Fnum Fexp]. rewrite Rabs_mult, <- abs_IZR.
              rewrite (Rabs_pos_eq (bpow _ _)) by apply bpow_ge_0.
              apply Rmult_lt_reg_r with (bpow radix2 52); [apply bpow_gt_0|].
              rewrite Rmult_assoc, <- !bpow_plus. change (bpow radix2 (-52 + 52)) with 1%R.
              change (bpow radix2 (1 + 52)) with (IZR (2 ^ 53)). rewrite Rmult_1_r. apply IZR_lt. reflexivity. }
          lia.
        - unfold F2R. cbn [Fnum Fexp]. rewrite plus_IZR, Rmult_plus_distr_r.
          change (IZR (2 ^ 52)) with (bpow radix2 52). rewrite <- bpow_plus.
          rewrite Rmult_1_l. reflexivity. }
      rewrite G in P. pose proof (bpow_gt_0 radix2 (-52)). lra.
  - intros [L U]. split.
    + rewrite <- rnd64_0. apply rnd64_le. nra.
    + apply Rle_trans with (rnd64 (1 + bpow radix2 (-53))); [|rewrite tie_one; lra].
      apply rnd64_le. nra.
Qed.

(** ** Exactness *)

Lemma int_point_Z k p : int_point k p -> exists x y, ispt p x y /\ bnd k x /\ bnd k y.
Proof.
  intros [[F (n & V & B)] [G (m & W & C)]]. exists n, m. unfold bnd.
  apply Z.abs_le in B, C. unfold ispt, isz. tauto.
Qed.

Lemma IZR_min a b : IZR (Z.min a b) = Rmin (IZR a) (IZR b).
Proof.
  destruct (Z.le_ge_cases a b) as [H|H].
  - rewrite Z.min_l, Rmin_left by (try apply IZR_le; lia). reflexivity.
  - rewrite Z.min_r, Rmin_right by (try apply IZR_le; lia). reflexivity.
Qed.
Lemma IZR_max a b : IZR (Z.max a b) = Rmax (IZR a) (IZR b).
Proof.
  destruct (Z.le_ge_cases a b) as [H|H].
  - rewrite Z.max_r, Rmax_right by (try apply IZR_le; lia). reflexivity.
  - rewrite Z.max_l, Rmax_left by (try apply IZR_le; lia). reflexivity.
Qed.

Definition onZ (x1 y1 x2 y2 x y : Z) : Prop :=
  on_segment (IZR x1) (IZR y1) (IZR x2) (IZR y2) (IZR x) (IZR y).

Lemma cross_IZR x1 y1 x2 y2 x3 y3 :
  ((IZR x3 - IZR x1) * (IZR y2 - IZR y1) - (IZR y3 - IZR y1) * (IZR x2 - IZR x1))%R =
  IZR (cross x1 y1 x2 y2 x3 y3).
Proof. unfold cross. now rewrite minus_IZR, !mult_IZR, !minus_IZR. Qed.

Lemma onZ_iff x1 y1 x2 y2 x y : onZ x1 y1 x2 y2 x y <->
  Z.min x1 x2 <= x <= Z.max x1 x2 /\ Z.min y1 y2 <= y <= Z.max y1 y2 /\ cross x1 y1 x2 y2 x y = 0.
Proof.
  unfold onZ. rewrite on_segment_iff, cross_IZR, <- !IZR_min, <- !IZR_max.
  split.
  - intros ([A B] & [C D] & E). apply le_IZR in A, B, C, D. apply eq_IZR in E. lia.
  - intros ([A B] & [C D] & ->). repeat split; now apply IZR_le.
Qed.

Lemma covers_onZ s p x1 y1 x2 y2 x y :
  ispt (sa s) x1 y1 -> ispt (sb s) x2 y2 -> ispt p x y ->
  bnd 24 x1 -> bnd 24 y1 -> bnd 24 x2 -> bnd 24 y2 -> bnd 24 x -> bnd 24 y ->
  tg_segment_covers_point s p = true <-> onZ x1 y1 x2 y2 x y.
Proof. intros. rewrite onZ_iff. now apply covers_Z. Qed.

Lemma lies_on_Z s x1 y1 x2 y2 x y : ispt (sa s) x1 y1 -> ispt (sb s) x2 y2 ->
  lies_on s x y <-> on_segment (IZR x1) (IZR y1) (IZR x2) (IZR y2) x y.
Proof.
  intros [[_ A] [_ B]] [[_ C] [_ D]]. unfold lies_on, xR, yR. rewrite A, B, C, D. tauto.
Qed.

Theorem covers_exact s p : int_segment 24 s -> int_point 24 p ->
  tg_segment_covers_point s p = true <-> lies_on s (xR p) (yR p).
Proof.
  intros [Ha Hb] Hp.
  destruct (int_point_Z _ _ Ha) as (x1 & y1 & A & ? & ?).
  destruct (int_point_Z _ _ Hb) as (x2 & y2 & B & ? & ?).
  destruct (int_point_Z _ _ Hp) as (x & y & C & ? & ?).
  rewrite (covers_onZ s p x1 y1 x2 y2 x y) by assumption.
  rewrite (lies_on_Z s x1 y1 x2 y2) by assumption. unfold onZ, xR, yR.
  destruct C as [[_ ->] [_ ->]]. tauto.
Qed.

Lemma mul_exact u v m n : isz u m -> isz v n -> Z.abs m <= 2 ^ 25 -> Z.abs n <= 2 ^ 25 ->
  isz (fmul u v) (m * n) /\ Z.abs (m * n) <= 2 ^ 50.
Proof.
  intros U V M N. pose proof (prod_bound m n (2 ^ 25) (2 ^ 25) M N) as PB.
  change (2 ^ 25 * 2 ^ 25) with (2 ^ 50) in PB. split; [|exact PB]. apply isz_mul; [assumption..|].
  eapply Z.le_trans; [exact PB|]. apply Z.pow_le_mono_r; lia.
Qed.
Lemma det_exact u v w z m n o q : isz u m -> isz v n -> isz w o -> isz z q ->
  Z.abs m <= 2 ^ 25 -> Z.abs n <= 2 ^ 25 -> Z.abs o <= 2 ^ 25 -> Z.abs q <= 2 ^ 25 ->
  isz (fsub (fmul u v) (fmul w z)) (m * n - o * q) /\ Z.abs (m * n - o * q) <= 2 ^ 51.
Proof.
  intros U V W Z Hm Hn Ho Hq. destruct (mul_exact u v m n U V Hm Hn) as [M1 B1].
  destruct (mul_exact w z o q W Z Ho Hq) as [M2 B2].
  assert (BB : Z.abs (m * n - o * q) <= 2 ^ 51).
  { clear - B1 B2. generalize dependent (m * n). generalize dependent (o * q). intros. lia. }
  split; [|exact BB]. apply isz_sub; [assumption..|].
  eapply Z.le_trans; [exact BB|]. apply Z.pow_le_mono_r; lia.
Qed.

Theorem intersects_exact s1 s2 : int_segment 24 s1 -> int_segment 24 s2 ->
  tg_segment_intersects_segment s1 s2 = true <-> have_common_point s1 s2.
Proof.
  intros [Ha Hb] [Hc Hd].
  destruct (int_point_Z _ _ Ha) as (ax & ay & A & Bax & Bay).
  destruct (int_point_Z _ _ Hb) as (bx & by_ & B & Bbx & Bby).
  destruct (int_point_Z _ _ Hc) as (cx & cy & C & Bcx & Bcy).
  destruct (int_point_Z _ _ Hd) as (dx & dy & D & Bdx & Bdy).
  assert (HM : have_common_point s1 s2 <->
    exists x y, on_segment (IZR ax) (IZR ay) (IZR bx) (IZR by_) x y /\
                on_segment (IZR cx) (IZR cy) (IZR dx) (IZR dy) x y).
  { unfold have_common_point. split; intros (x & y & P & Q); exists x, y; split;
      apply (lies_on_Z _ _ _ _ _ x y A B) || apply (lies_on_Z _ _ _ _ _ x y C D); assumption. }
  rewrite HM. clear HM.
  unfold tg_segment_intersects_segment.
  rewrite (pteq_Z _ _ _ _ _ _ A C), (pteq_Z _ _ _ _ _ _ A D), (pteq_Z _ _ _ _ _ _ B C), (pteq_Z _ _ _ _ _ _ B D).
  pose proof (covers_onZ s1 (sa s2) _ _ _ _ _ _ A B C Bax Bay Bbx Bby Bcx Bcy) as Vc.
  pose proof (covers_onZ s1 (sb s2) _ _ _ _ _ _ A B D Bax Bay Bbx Bby Bdx Bdy) as Vd.
  pose proof (covers_onZ s2 (sa s1) _ _ _ _ _ _ C D A Bcx Bcy Bdx Bdy Bax Bay) as Va.
  pose proof (covers_onZ s2 (sb s1) _ _ _ _ _ _ C D B Bcx Bcy Bdx Bdy Bbx Bby) as Vb.
  destruct A as [Ax Ay], B as [Bx By], C as [Cx Cy], D as [Dx Dy].
  unfold tg_rect_intersects_rect, tg_segment_rect. cbn [rmin rmax px py].
  rewrite (isz_fgt _ _ _ _ (isz_min _ _ _ _ Cy Dy) (isz_max _ _ _ _ Ay By)),
    (isz_flt _ _ _ _ (isz_max _ _ _ _ Cy Dy) (isz_min _ _ _ _ Ay By)),
    (isz_fgt _ _ _ _ (isz_min _ _ _ _ Cx Dx) (isz_max _ _ _ _ Ax Bx)),
    (isz_flt _ _ _ _ (isz_max _ _ _ _ Cx Dx) (isz_min _ _ _ _ Ax Bx)).
  match goal with |- (if ?c then _ else _) = _ <-> _ => destruct c eqn:RB end.
  { split; [discriminate|]. intros (x & y & P & Q). exfalso.
    apply on_segment_iff in P, Q. rewrite <- !IZR_min, <- !IZR_max in P, Q.
    destruct P as ([P1 P2] & [P3 P4] & _), Q as ([Q1 Q2] & [Q3 Q4] & _).
    pose proof (le_IZR _ _ (Rle_trans _ _ _ P1 Q2)). pose proof (le_IZR _ _ (Rle_trans _ _ _ Q1 P2)).
    pose proof (le_IZR _ _ (Rle_trans _ _ _ P3 Q4)). pose proof (le_IZR _ _ (Rle_trans _ _ _ Q3 P4)).
    lia. }
  match goal with |- (if ?c then _ else _) = _ <-> _ => destruct c eqn:PE end.
  { split; [intros _|reflexivity].
    clear - PE. rewrite !orb_true_iff, !andb_true_iff, !Z.eqb_eq in PE.
    destruct PE as [[[[-> ->]|[-> ->]]|[-> ->]]|[-> ->]].
    - exists (IZR cx), (IZR cy). split; apply on_segment_a.
    - exists (IZR dx), (IZR dy). split; [apply on_segment_a|apply on_segment_b].
    - exists (IZR cx), (IZR cy). split; [apply on_segment_b|apply on_segment_a].
    - exists (IZR dx), (IZR dy). split; apply on_segment_b. }
  clear PE. unfold bnd in *.
  assert (S1 : isz (fsub (px (sa s2)) (px (sa s1))) (cx - ax)) by (apply isz_sub; [assumption..|lia]).
  assert (S2 : isz (fsub (py (sa s2)) (py (sa s1))) (cy - ay)) by (apply isz_sub; [assumption..|lia]).
  assert (S3 : isz (fsub (px (sb s1)) (px (sa s1))) (bx - ax)) by (apply isz_sub; [assumption..|lia]).
  assert (S4 : isz (fsub (py (sb s1)) (py (sa s1))) (by_ - ay)) by (apply isz_sub; [assumption..|lia]).
  assert (S5 : isz (fsub (px (sb s2)) (px (sa s2))) (dx - cx)) by (apply isz_sub; [assumption..|lia]).
  assert (S6 : isz (fsub (py (sb s2)) (py (sa s2))) (dy - cy)) by (apply isz_sub; [assumption..|lia]).
  assert (S7 : isz (fsub (px (sa s2)) (px (sb s1))) (cx - bx)) by (apply isz_sub; [assumption..|lia]).
  assert (S8 : isz (fsub (py (sa s2)) (py (sb s1))) (cy - by_)) by (apply isz_sub; [assumption..|lia]).
  destruct (det_exact _ _ _ _ _ _ _ _ S1 S4 S2 S3) as [CR BCR]; try (clear - Bax Bay Bbx Bby Bcx Bcy Bdx Bdy; lia).
  destruct (det_exact _ _ _ _ _ _ _ _ S3 S6 S4 S5) as [RS BRS]; try (clear - Bax Bay Bbx Bby Bcx Bcy Bdx Bdy; lia).
  destruct (det_exact _ _ _ _ _ _ _ _ S1 S6 S2 S5) as [CS BCS]; try (clear - Bax Bay Bbx Bby Bcx Bcy Bdx Bdy; lia).
  cbv zeta.
  rewrite (isz_eq_zero _ _ CR), (isz_eq_zero _ _ RS).
  rewrite (isz_fle _ _ _ _ S1 isz_zero), (isz_fle _ _ _ _ S7 isz_zero),
    (isz_fle _ _ _ _ S2 isz_zero), (isz_fle _ _ _ _ S8 isz_zero).
  assert (ICR := cross_IZR ax ay bx by_ cx cy). unfold cross in ICR.
  destruct (Z.eqb_spec ((cx - ax) * (by_ - ay) - (cy - ay) * (bx - ax)) 0) as [E|E].
  - rewrite E in ICR. clear CR RS CS BCR BRS BCS E.
    match goal with |- (if ?c then _ else _) = _ <-> _ => destruct c eqn:XY end.
    + rewrite !orb_true_iff, Vc, Vd, Va, Vb. unfold onZ. split.
      * intros [[[H|H]|H]|H].
        -- exists (IZR cx), (IZR cy). split; [exact H|apply on_segment_a].
        -- exists (IZR dx), (IZR dy). split; [exact H|apply on_segment_b].
        -- exists (IZR ax), (IZR ay). split; [apply on_segment_a|exact H].
        -- exists (IZR bx), (IZR by_). split; [apply on_segment_b|exact H].
      * intros H. apply meet_on_line in H; [|exact ICR].
        destruct H as [H|[H|[H|H]]]; [left; left; left|left; left; right|left; right|right]; exact H.
    + split; [intros _|reflexivity].
      assert (K : ax <> bx /\ Z.min ax bx <= cx <= Z.max ax bx) by (clear - XY; lia).
      exists (IZR cx), (IZR cy). split; [|apply on_segment_a].
      apply on_segment_x.
      * apply IZR_neq, K.
      * rewrite <- IZR_min, <- IZR_max. split; apply IZR_le, K.
      * exact ICR.
  - assert (NE : ((IZR cx - IZR ax) * (IZR by_ - IZR ay) - (IZR cy - IZR ay) * (IZR bx - IZR ax) <> 0)%R).
    { rewrite ICR. now apply IZR_neq. }
    assert (IRS : ((IZR bx - IZR ax) * (IZR dy - IZR cy) - (IZR by_ - IZR ay) * (IZR dx - IZR cx))%R =
       IZR ((bx - ax) * (dy - cy) - (by_ - ay) * (dx - cx))).
    { now rewrite minus_IZR, !mult_IZR, !minus_IZR. }
    assert (ICS : ((IZR cx - IZR ax) * (IZR dy - IZR cy) - (IZR cy - IZR ay) * (IZR dx - IZR cx))%R =
       IZR ((cx - ax) * (dy - cy) - (cy - ay) * (dx - cx))).
    { now rewrite minus_IZR, !mult_IZR, !minus_IZR. }
    destruct (Z.eqb_spec ((bx - ax) * (dy - cy) - (by_ - ay) * (dx - cx)) 0) as [F|F].
    + split; [discriminate|]. intros H. exfalso. revert H.
      apply meet_parallel; [|exact NE]. now rewrite IRS, F.
    + rewrite meet_cross by (rewrite IRS; now apply IZR_neq). rewrite IRS, ICS, ICR.
      pose proof (param_test _ _ _ _ CS RS F BCS BRS) as PT.
      pose proof (param_test _ _ _ _ CR RS F BCR BRS) as PU. cbv zeta in PT, PU.
      rewrite <- PT, <- PU, !andb_true_iff. clear. tauto.
Qed.
