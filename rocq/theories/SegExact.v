(** * Segment predicates on integer coordinates *)

From Coq Require Import ZArith Reals Bool List Lia Lra ZifyBool.
From Flocq Require Import Core Relative BinarySingleNaN.
From Verif Require Import F64 Geo F64Order F64Real F64Mono SpecPlane.
Local Open Scope Z_scope.

(** ** Doubles that are integers *)

Definition isz (x : f64) (n : Z) : Prop := fin x /\ RV x = IZR n.

Lemma isz_nn x n : isz x n -> nn x.
Proof. intros [H _]. apply (fin_ok x H). Qed.

Lemma int_format n : Z.abs n <= 2 ^ 53 -> generic_format radix2 (SpecFloat.fexp 53 1024) (IZR n).
Proof.
  intros H. destruct (Z.eq_dec (Z.abs n) (2 ^ 53)) as [E|E].
  - assert (K : n = 2 ^ 53 \/ n = - 2 ^ 53) by lia.
    assert (P : generic_format radix2 (SpecFloat.fexp 53 1024) (IZR (2 ^ 53))).
    { change (IZR (2 ^ 53)) with (bpow radix2 53). apply generic_format_bpow. rewrite fexp53. lia. }
    destruct K as [->| ->]; [exact P|]. rewrite opp_IZR. now apply generic_format_opp.
  - replace (IZR n) with (F2R (Float radix2 n 0)) by (unfold F2R; cbn; lra).
    apply generic_format_F2R. cbn [Fnum]. intros Hn. unfold cexp. rewrite fexp53.
    assert (M : (mag radix2 (F2R (Float radix2 n 0)) <= 53)%Z).
    { apply mag_le_bpow.
      - unfold F2R; cbn. intros K. apply Hn. apply eq_IZR. lra.
      - unfold F2R; cbn [Fnum Fexp]. change (bpow radix2 0) with 1%R. rewrite Rmult_1_r.
        rewrite <- abs_IZR. change (bpow radix2 53) with (IZR (2 ^ 53)). apply IZR_lt. lia. }
    lia.
Qed.

Lemma rnd_int n : Z.abs n <= 2 ^ 53 -> rnd64 (IZR n) = IZR n.
Proof. intros H. apply round_generic; [typeclasses eauto|now apply int_format]. Qed.

Lemma small_bound r : (Rabs r <= bpow radix2 1000)%R -> (Rabs r < bpow radix2 1024)%R.
Proof. intros H. eapply Rle_lt_trans; [exact H|]. apply bpow_lt. lia. Qed.

Lemma int_bound n : Z.abs n <= 2 ^ 53 -> (Rabs (IZR n) < bpow radix2 1024)%R.
Proof.
  intros H. apply small_bound. rewrite <- abs_IZR. eapply Rle_trans; [apply IZR_le, H|].
  change (IZR (2 ^ 53)) with (bpow radix2 53). apply bpow_le. lia.
Qed.

Lemma isz_sub x y n m : isz x n -> isz y m -> Z.abs (n - m) <= 2 ^ 53 -> isz (fsub x y) (n - m).
Proof.
  intros [Fx Vx] [Fy Vy] H. pose proof (fsub_correct x y Fx Fy) as C. cbv zeta in C.
  rewrite Vx, Vy, <- minus_IZR, rnd_int in C by exact H.
  rewrite Rlt_bool_true in C by now apply int_bound. exact C.
Qed.

Lemma isz_add x y n m : isz x n -> isz y m -> Z.abs (n + m) <= 2 ^ 53 -> isz (fadd x y) (n + m).
Proof.
  intros [Fx Vx] [Fy Vy] H. pose proof (fadd_correct x y Fx Fy) as C. cbv zeta in C.
  rewrite Vx, Vy, <- plus_IZR, rnd_int in C by exact H.
  rewrite Rlt_bool_true in C by now apply int_bound. exact C.
Qed.

Lemma isz_mul x y n m : isz x n -> isz y m -> Z.abs (n * m) <= 2 ^ 53 -> isz (fmul x y) (n * m).
Proof.
  intros [Fx Vx] [Fy Vy] H. pose proof (fmul_correct x y Fx Fy) as C. cbv zeta in C.
  rewrite Vx, Vy, <- mult_IZR, rnd_int in C by exact H.
  rewrite Rlt_bool_true in C by now apply int_bound. exact C.
Qed.

(** exact division *)
Lemma isz_div x y k m : isz x (k * m) -> isz y m -> m <> 0 -> Z.abs k <= 2 ^ 53 -> isz (fdiv x y) k.
Proof.
  intros [Fx Vx] [Fy Vy] Hm H.
  assert (Nm : (IZR m <> 0)%R) by now apply IZR_neq.
  assert (NV : (RV y <> 0)%R) by now rewrite Vy.
  pose proof (fdiv_correct x y Fx Fy NV) as C. cbv zeta in C.
  rewrite Vx, Vy, mult_IZR in C.
  replace (IZR k * IZR m / IZR m)%R with (IZR k) in C by now field.
  rewrite rnd_int in C by exact H.
  rewrite Rlt_bool_true in C by now apply int_bound. exact C.
Qed.

Lemma isz_key_lt x y n m : isz x n -> isz y m -> (f_key x < f_key y <-> n < m).
Proof.
  intros [Fx Vx] [Fy Vy]. rewrite key_lt_R by assumption. rewrite Vx, Vy.
  split; [apply lt_IZR|apply IZR_lt].
Qed.

Lemma isz_flt x y n m : isz x n -> isz y m -> flt x y = (n <? m).
Proof.
  intros Hx Hy. rewrite flt_key by eauto using isz_nn.
  apply eq_iff_eq_true. rewrite !Z.ltb_lt. now apply isz_key_lt.
Qed.
Lemma isz_fgt x y n m : isz x n -> isz y m -> fgt x y = (m <? n).
Proof. intros. unfold fgt. now apply isz_flt. Qed.
Lemma isz_fle x y n m : isz x n -> isz y m -> fle x y = (n <=? m).
Proof.
  intros Hx Hy. rewrite fle_key by eauto using isz_nn.
  pose proof (isz_key_lt y x m n Hy Hx). lia.
Qed.
Lemma isz_fge x y n m : isz x n -> isz y m -> fge x y = (m <=? n).
Proof. intros. unfold fge. now apply isz_fle. Qed.
Lemma isz_feqb x y n m : isz x n -> isz y m -> feqb x y = (n =? m).
Proof.
  intros [Fx Vx] [Fy Vy]. rewrite feqb_key by (apply fin_ok; assumption).
  apply eq_iff_eq_true. rewrite !Z.eqb_eq. rewrite key_eq_R by assumption. rewrite Vx, Vy.
  split; [apply eq_IZR|now intros ->].
Qed.
Lemma isz_fneb x y n m : isz x n -> isz y m -> fneb x y = negb (n =? m).
Proof. intros. unfold fneb. now rewrite (isz_feqb x y n m). Qed.
Lemma isz_feq x y n m : isz x n -> isz y m -> feq x y = (n =? m).
Proof.
  intros Hx Hy. unfold feq. rewrite (isz_flt x y n m), (isz_fgt x y n m) by assumption. lia.
Qed.
Lemma isz_zero : isz f_zero 0.
Proof. split; [split; reflexivity|reflexivity]. Qed.
Lemma RV_one : RV f_one = 1%R.
Proof. rewrite (RV_pos_bits false 4503599627370496 (-52)) by reflexivity. unfold F2R; cbn. lra. Qed.
Lemma isz_one : isz f_one 1.
Proof. split; [split; reflexivity|exact RV_one]. Qed.
Lemma isz_eq_zero x n : isz x n -> eq_zero x = (n =? 0).
Proof. intros H. apply isz_feq; [exact H|apply isz_zero]. Qed.
Lemma isz_min x y n m : isz x n -> isz y m -> isz (fmin0 x y) (Z.min n m).
Proof.
  intros Hx Hy. unfold fmin0. rewrite (isz_flt x y n m) by assumption.
  destruct (Z.ltb_spec n m); [rewrite Z.min_l by lia|rewrite Z.min_r by lia]; assumption.
Qed.
Lemma isz_max x y n m : isz x n -> isz y m -> isz (fmax0 x y) (Z.max n m).
Proof.
  intros Hx Hy. unfold fmax0. rewrite (isz_fgt x y n m) by assumption.
  destruct (Z.ltb_spec m n); [rewrite Z.max_l by lia|rewrite Z.max_r by lia]; assumption.
Qed.

(** ** Points and segments with integer coordinates *)

Definition ispt (p : pt) (x y : Z) : Prop := isz (px p) x /\ isz (py p) y.

Lemma pteq_Z p q x y x' y' : ispt p x y -> ispt q x' y' -> pteq p q = (x =? x') && (y =? y').
Proof.
  intros [A B] [C D]. unfold pteq. now rewrite (isz_feq _ _ _ _ A C), (isz_feq _ _ _ _ B D).
Qed.

(** the three points are on a line, or the first two coincide *)
Definition cross (x1 y1 x2 y2 x3 y3 : Z) : Z := (x3 - x1) * (y2 - y1) - (y3 - y1) * (x2 - x1).

Definition bnd (k x : Z) : Prop := - 2 ^ k <= x <= 2 ^ k.

Lemma prod_bound a b A B : Z.abs a <= A -> Z.abs b <= B -> Z.abs (a * b) <= A * B.
Proof. intros. rewrite Z.abs_mul. apply Z.mul_le_mono_nonneg; lia. Qed.

Lemma collinear_Z p1 p2 p3 x1 y1 x2 y2 x3 y3 :
  ispt p1 x1 y1 -> ispt p2 x2 y2 -> ispt p3 x3 y3 ->
  bnd 24 x1 -> bnd 24 y1 -> bnd 24 x2 -> bnd 24 y2 -> bnd 24 x3 -> bnd 24 y3 ->
  collinear (px p1) (py p1) (px p2) (py p2) (px p3) (py p3) =
  if x1 =? x2 then x1 =? x3 else cross x1 y1 x2 y2 x3 y3 =? 0.
Proof.
  intros [A1 B1] [A2 B2] [A3 B3]. unfold bnd. intros. unfold collinear.
  rewrite (isz_feq _ _ _ _ A1 A2), (isz_feq _ _ _ _ A1 A3), (isz_feq _ _ _ _ A2 A3),
    (isz_feq _ _ _ _ B1 B2), (isz_feq _ _ _ _ B1 B3), (isz_feq _ _ _ _ B2 B3).
  destruct (Z.eqb_spec x1 x2) as [E12|E12]; [reflexivity|]. unfold cross.
  destruct (Z.eqb_spec y1 y2) as [F12|F12].
  { subst y2. apply eq_iff_eq_true. rewrite !Z.eqb_eq.
    replace ((x3 - x1) * (y1 - y1) - (y3 - y1) * (x2 - x1)) with ((y1 - y3) * (x2 - x1)) by ring.
    split; [intros ->; ring|]. intros K. apply Z.mul_eq_0 in K. lia. }
  cbn [andb orb].
  destruct ((x1 =? x3) && (y1 =? y3) || (x2 =? x3) && (y2 =? y3)) eqn:E.
  { symmetry. apply Z.eqb_eq. apply orb_prop in E. destruct E as [E|E]; apply andb_prop in E;
      destruct E as [Ea Eb]; apply Z.eqb_eq in Ea, Eb; subst; ring. }
  assert (S1 : isz (fsub (px p3) (px p1)) (x3 - x1)) by (apply isz_sub; [assumption..|lia]).
  assert (S2 : isz (fsub (py p3) (py p1)) (y3 - y1)) by (apply isz_sub; [assumption..|lia]).
  assert (S3 : isz (fsub (px p2) (px p1)) (x2 - x1)) by (apply isz_sub; [assumption..|lia]).
  assert (S4 : isz (fsub (py p2) (py p1)) (y2 - y1)) by (apply isz_sub; [assumption..|lia]).
  set (dx3 := x3 - x1) in *. set (dy3 := y3 - y1) in *.
  set (dx2 := x2 - x1) in *. set (dy2 := y2 - y1) in *.
  assert (P1 : Z.abs (dx3 * dy2) <= 2 ^ 25 * 2 ^ 25) by (apply prod_bound; lia).
  assert (P2 : Z.abs (dy3 * dx2) <= 2 ^ 25 * 2 ^ 25) by (apply prod_bound; lia).
  assert (M1 : isz (fmul (fsub (px p3) (px p1)) (fsub (py p2) (py p1))) (dx3 * dy2))
    by (apply isz_mul; [assumption..|lia]).
  assert (M2 : isz (fmul (fsub (py p3) (py p1)) (fsub (px p2) (px p1))) (dy3 * dx2))
    by (apply isz_mul; [assumption..|lia]).
  assert (Q1 := isz_div _ _ dx3 dy2 M1 S4 ltac:(lia) ltac:(lia)).
  assert (Q2 := isz_div _ _ dy3 dx2 M2 S3 ltac:(lia) ltac:(lia)).
  assert (Z1 : isz (fsub (fdiv (fmul (fsub (px p3) (px p1)) (fsub (py p2) (py p1)))
                               (fsub (py p2) (py p1))) (fsub (px p3) (px p1))) (dx3 - dx3))
    by (apply isz_sub; [assumption..|lia]).
  assert (Z2 : isz (fsub (fdiv (fmul (fsub (py p3) (py p1)) (fsub (px p2) (px p1)))
                               (fsub (px p2) (px p1))) (fsub (py p3) (py p1))) (dy3 - dy3))
    by (apply isz_sub; [assumption..|lia]).
  rewrite (isz_flt _ _ _ _ Z1 isz_zero), (isz_fgt _ _ _ _ Z1 isz_zero),
    (isz_flt _ _ _ _ Z2 isz_zero), (isz_fgt _ _ _ _ Z2 isz_zero).
  replace (dx3 - dx3 <? 0) with false by lia. replace (0 <? dx3 - dx3) with false by lia.
  replace (dy3 - dy3 <? 0) with false by lia. replace (0 <? dy3 - dy3) with false by lia.
  assert (D : isz (fsub (fmul (fsub (px p3) (px p1)) (fsub (py p2) (py p1)))
                        (fmul (fsub (py p3) (py p1)) (fsub (px p2) (px p1)))) (dx3 * dy2 - dy3 * dx2))
    by (apply isz_sub; [assumption..|lia]).
  apply (isz_eq_zero _ _ D).
Qed.

Lemma covers_Z s p x1 y1 x2 y2 x y :
  ispt (sa s) x1 y1 -> ispt (sb s) x2 y2 -> ispt p x y ->
  bnd 24 x1 -> bnd 24 y1 -> bnd 24 x2 -> bnd 24 y2 -> bnd 24 x -> bnd 24 y ->
  tg_segment_covers_point s p = true <->
  Z.min x1 x2 <= x <= Z.max x1 x2 /\ Z.min y1 y2 <= y <= Z.max y1 y2 /\ cross x1 y1 x2 y2 x y = 0.
Proof.
  intros H1 H2 H3. intros. unfold tg_segment_covers_point.
  rewrite (collinear_Z _ _ _ x1 y1 x2 y2 x y) by assumption.
  unfold tg_rect_covers_point, tg_segment_rect. cbn [rmin rmax px py].
  destruct H1 as [A1 B1], H2 as [A2 B2], H3 as [A3 B3].
  rewrite (isz_flt _ _ _ _ A3 (isz_min _ _ _ _ A1 A2)), (isz_flt _ _ _ _ B3 (isz_min _ _ _ _ B1 B2)),
    (isz_fgt _ _ _ _ A3 (isz_max _ _ _ _ A1 A2)), (isz_fgt _ _ _ _ B3 (isz_max _ _ _ _ B1 B2)).
  unfold cross. destruct (Z.eqb_spec x1 x2) as [->|E].
  - replace ((x - x2) * (y2 - y1) - (y - y1) * (x2 - x2)) with ((x - x2) * (y2 - y1)) by ring.
    destruct (negb _) eqn:N.
    + rewrite Z.eqb_eq. split; [intros <-|lia].
      assert ((x2 - x2) * (y2 - y1) = 0) by ring. lia.
    + split; [discriminate|]. lia.
  - destruct (negb _) eqn:N.
    + rewrite Z.eqb_eq. lia.
    + split; [discriminate|]. lia.
Qed.

(** ** The plane *)

Section Plane.
Local Open Scope R_scope.

Lemma on_segment_iff ax ay bx by_ x y :
  on_segment ax ay bx by_ x y <->
  Rmin ax bx <= x <= Rmax ax bx /\ Rmin ay by_ <= y <= Rmax ay by_ /\
  (x - ax) * (by_ - ay) - (y - ay) * (bx - ax) = 0.
Proof.
  split.
  - intros (t & T & -> & ->).
    assert (I : forall u v, Rmin u v <= u + t * (v - u) <= Rmax u v).
    { intros u v. destruct (Rle_dec u v) as [L|L].
      - rewrite Rmin_left, Rmax_right by lra. split; nra.
      - rewrite Rmin_right, Rmax_left by lra. split; nra. }
    split; [apply I|]. split; [apply I|]. ring.
  - intros (X & Y & C).
    assert (K : forall u v w, u <> v -> Rmin u v <= w <= Rmax u v -> 0 <= (w - u) / (v - u) <= 1).
    { intros u v w N B. destruct (Rlt_dec u v) as [L|L].
      - rewrite Rmin_left, Rmax_right in B by lra. split.
        + apply Rmult_le_pos; [lra|]. apply Rlt_le, Rinv_0_lt_compat. lra.
        + apply Rmult_le_reg_r with (v - u); [lra|]. unfold Rdiv. rewrite Rmult_assoc, Rinv_l by lra. lra.
      - rewrite Rmin_right, Rmax_left in B by lra.
        replace ((w - u) / (v - u)) with ((u - w) / (u - v)) by (field; lra). split.
        + apply Rmult_le_pos; [lra|]. apply Rlt_le, Rinv_0_lt_compat. lra.
        + apply Rmult_le_reg_r with (u - v); [lra|]. unfold Rdiv. rewrite Rmult_assoc, Rinv_l by lra. lra. }
    destruct (Req_dec ax bx) as [Ex|Nx].
    + subst bx. rewrite Rmin_left, Rmax_left in X by lra. assert (x = ax) by lra. subst x.
      destruct (Req_dec ay by_) as [Ey|Ny].
      * subst by_. rewrite Rmin_left, Rmax_left in Y by lra. exists 0. repeat split; lra.
      * exists ((y - ay) / (by_ - ay)). split; [apply K; assumption|]. split; [ring|field; lra].
    + exists ((x - ax) / (bx - ax)). split; [apply K; assumption|]. split; [field; lra|].
      apply Rmult_eq_reg_r with (bx - ax); [|lra].
      replace ((ay + (x - ax) / (bx - ax) * (by_ - ay)) * (bx - ax))
        with (ay * (bx - ax) + (x - ax) * (by_ - ay)) by (field; lra). lra.
Qed.

Lemma on_segment_a ax ay bx by_ : on_segment ax ay bx by_ ax ay.
Proof. exists 0. repeat split; lra. Qed.
Lemma on_segment_b ax ay bx by_ : on_segment ax ay bx by_ bx by_.
Proof. exists 1. repeat split; lra. Qed.

(** a point of the line through a and b with its x coordinate in between *)
Lemma on_segment_x ax ay bx by_ x y : ax <> bx -> Rmin ax bx <= x <= Rmax ax bx ->
  (x - ax) * (by_ - ay) - (y - ay) * (bx - ax) = 0 -> on_segment ax ay bx by_ x y.
Proof.
  intros N X C. apply on_segment_iff. split; [exact X|]. split; [|exact C].
  assert (S : on_segment ax ay bx by_ x y).
  { exists ((x - ax) / (bx - ax)). split.
    - destruct (Rlt_dec ax bx) as [L|L].
      + rewrite Rmin_left, Rmax_right in X by lra. split.
        * apply Rmult_le_pos; [lra|]. apply Rlt_le, Rinv_0_lt_compat. lra.
        * apply Rmult_le_reg_r with (bx - ax); [lra|]. unfold Rdiv. rewrite Rmult_assoc, Rinv_l by lra. lra.
      + rewrite Rmin_right, Rmax_left in X by lra.
        replace ((x - ax) / (bx - ax)) with ((ax - x) / (ax - bx)) by (field; lra). split.
        * apply Rmult_le_pos; [lra|]. apply Rlt_le, Rinv_0_lt_compat. lra.
        * apply Rmult_le_reg_r with (ax - bx); [lra|]. unfold Rdiv. rewrite Rmult_assoc, Rinv_l by lra. lra.
    - split; [field; lra|]. apply Rmult_eq_reg_r with (bx - ax); [|lra].
      replace ((ay + (x - ax) / (bx - ax) * (by_ - ay)) * (bx - ax))
        with (ay * (bx - ax) + (x - ax) * (by_ - ay)) by (field; lra). lra. }
  apply on_segment_iff in S. apply S.
Qed.

(** intervals *)
Lemma interval_ends a b c d : Rmin c d <= Rmax a b -> Rmin a b <= Rmax c d ->
  Rmin a b <= c <= Rmax a b \/ Rmin a b <= d <= Rmax a b \/
  Rmin c d <= a <= Rmax c d \/ Rmin c d <= b <= Rmax c d.
Proof. unfold Rmin, Rmax. repeat destruct (Rle_dec _ _); lra. Qed.

(** when c is on the line through a and b (or a = b), the segments meet exactly
    when an end of one lies on the other *)
Lemma meet_on_line ax ay bx by_ cx cy dx dy :
  (cx - ax) * (by_ - ay) - (cy - ay) * (bx - ax) = 0 ->
  (exists x y, on_segment ax ay bx by_ x y /\ on_segment cx cy dx dy x y) ->
  on_segment ax ay bx by_ cx cy \/ on_segment ax ay bx by_ dx dy \/
  on_segment cx cy dx dy ax ay \/ on_segment cx cy dx dy bx by_.
Proof.
  intros C (x & y & A & B). destruct A as (t & T & X & Y). destruct B as (u & U & X' & Y').
  destruct (Req_dec ((dx - cx) * (by_ - ay) - (dy - cy) * (bx - ax)) 0) as [E|E].
  - (* all on one line *)
    destruct (Req_dec ax bx) as [Ex|Nx]; [destruct (Req_dec ay by_) as [Ey|Ny]|].
    + subst bx by_. right; right; left. exists u. split; [exact U|].
      replace ax with x by lra. replace ay with y by lra. split; assumption.
    + subst bx. assert (cx = ax) by (apply Rmult_eq_reg_r with (by_ - ay); lra). subst cx.
      assert (dx = ax) by (apply Rmult_eq_reg_r with (by_ - ay); lra). subst dx.
      assert (O : Rmin cy dy <= Rmax ay by_ /\ Rmin ay by_ <= Rmax cy dy).
      { assert (I : Rmin ay by_ <= y <= Rmax ay by_).
        { apply (on_segment_iff ax ay ax by_ x y). exists t. tauto. }
        assert (J : Rmin cy dy <= y <= Rmax cy dy).
        { apply (on_segment_iff ax cy ax dy x y). exists u. tauto. }
        split; lra. }
      destruct (interval_ends _ _ _ _ (proj1 O) (proj2 O)) as [I|[I|[I|I]]];
        [left|right; left|right; right; left|right; right; right];
        apply on_segment_iff; (split; [rewrite Rmin_left, Rmax_left by lra; lra|split; [exact I|ring]]).
    + assert (O : Rmin cx dx <= Rmax ax bx /\ Rmin ax bx <= Rmax cx dx).
      { assert (I : Rmin ax bx <= x <= Rmax ax bx).
        { apply (on_segment_iff ax ay bx by_ x y). exists t. tauto. }
        assert (J : Rmin cx dx <= x <= Rmax cx dx).
        { apply (on_segment_iff cx cy dx dy x y). exists u. tauto. }
        split; lra. }
      assert (K : forall z w, (z - ax) * (by_ - ay) - (w - ay) * (bx - ax) = 0 ->
                  w = ay + (z - ax) * ((by_ - ay) / (bx - ax))).
      { intros z w H. apply Rmult_eq_reg_r with (bx - ax); [|lra].
        replace ((ay + (z - ax) * ((by_ - ay) / (bx - ax))) * (bx - ax))
          with (ay * (bx - ax) + (z - ax) * (by_ - ay)) by (field; lra). lra. }
      assert (D : (dx - ax) * (by_ - ay) - (dy - ay) * (bx - ax) = 0) by nra.
      set (k := (by_ - ay) / (bx - ax)) in *.
      assert (Kb : by_ = ay + (bx - ax) * k) by (unfold k; field; lra).
      assert (Kc := K _ _ C). assert (Kd := K _ _ D). clearbody k. clear K.
      destruct (interval_ends _ _ _ _ (proj1 O) (proj2 O)) as [I|[I|[I|I]]].
      * left. now apply on_segment_x.
      * right; left. now apply on_segment_x.
      * right; right; left. destruct (Req_dec cx dx) as [Ec|Nc].
        { subst dx. rewrite Rmin_left, Rmax_left in I by lra. assert (ax = cx) by lra. subst cx.
          replace cy with ay by (rewrite Kc; ring). apply on_segment_a. }
        { apply on_segment_x; [exact Nc|exact I|]. rewrite Kc, Kd. ring. }
      * right; right; right. destruct (Req_dec cx dx) as [Ec|Nc].
        { subst dx. rewrite Rmin_left, Rmax_left in I by lra. assert (bx = cx) by lra. subst cx.
          replace cy with by_ by (rewrite Kc; exact Kb). apply on_segment_a. }
        { apply on_segment_x; [exact Nc|exact I|]. rewrite Kc, Kd, Kb. ring. }
  - left. assert (P : (x - ax) * (by_ - ay) - (y - ay) * (bx - ax) = 0) by (subst x y; ring).
    assert (u = 0).
    { rewrite X', Y' in P.
      assert (u * ((dx - cx) * (by_ - ay) - (dy - cy) * (bx - ax)) = 0) by lra.
      apply Rmult_integral in H. destruct H; [assumption|contradiction]. }
    subst u. assert (x = cx) by lra. assert (y = cy) by lra. subst cx cy.
    exists t. now repeat split.
Qed.

(** segments that are not parallel *)
Lemma meet_cross ax ay bx by_ cx cy dx dy :
  let rxs := (bx - ax) * (dy - cy) - (by_ - ay) * (dx - cx) in
  let cs := (cx - ax) * (dy - cy) - (cy - ay) * (dx - cx) in
  let cr := (cx - ax) * (by_ - ay) - (cy - ay) * (bx - ax) in
  rxs <> 0 ->
  ((exists x y, on_segment ax ay bx by_ x y /\ on_segment cx cy dx dy x y) <->
   0 <= cs / rxs <= 1 /\ 0 <= cr / rxs <= 1).
Proof.
  intros rxs cs cr N. split.
  - intros (x & y & (t & T & X & Y) & (u & U & X' & Y')).
    assert (cs = t * rxs).
    { unfold cs, rxs. rewrite X' in X. rewrite Y' in Y.
      replace (cx - ax) with (t * (bx - ax) - u * (dx - cx)) by lra.
      replace (cy - ay) with (t * (by_ - ay) - u * (dy - cy)) by lra. ring. }
    assert (cr = u * rxs).
    { unfold cr, rxs. rewrite X' in X. rewrite Y' in Y.
      replace (cx - ax) with (t * (bx - ax) - u * (dx - cx)) by lra.
      replace (cy - ay) with (t * (by_ - ay) - u * (dy - cy)) by lra. ring. }
    rewrite H, H0. replace (t * rxs / rxs) with t by (field; exact N).
    replace (u * rxs / rxs) with u by (field; exact N). split; assumption.
  - intros [T U].
    exists (ax + cs / rxs * (bx - ax)), (ay + cs / rxs * (by_ - ay)). split.
    + exists (cs / rxs). now repeat split.
    + exists (cr / rxs). split; [exact U|].
      split; apply Rmult_eq_reg_r with rxs; try exact N.
      * replace ((ax + cs / rxs * (bx - ax)) * rxs) with (ax * rxs + cs * (bx - ax)) by (field; exact N).
        replace ((cx + cr / rxs * (dx - cx)) * rxs) with (cx * rxs + cr * (dx - cx)) by (field; exact N).
        unfold cs, cr, rxs. ring.
      * replace ((ay + cs / rxs * (by_ - ay)) * rxs) with (ay * rxs + cs * (by_ - ay)) by (field; exact N).
        replace ((cy + cr / rxs * (dy - cy)) * rxs) with (cy * rxs + cr * (dy - cy)) by (field; exact N).
        unfold cs, cr, rxs. ring.
Qed.

Lemma meet_parallel ax ay bx by_ cx cy dx dy :
  (bx - ax) * (dy - cy) - (by_ - ay) * (dx - cx) = 0 ->
  (cx - ax) * (by_ - ay) - (cy - ay) * (bx - ax) <> 0 ->
  ~ exists x y, on_segment ax ay bx by_ x y /\ on_segment cx cy dx dy x y.
Proof.
  intros P N (x & y & (t & _ & X & Y) & (u & _ & X' & Y')). apply N.
  rewrite X' in X. rewrite Y' in Y.
  replace (cx - ax) with (t * (bx - ax) - u * (dx - cx)) by lra.
  replace (cy - ay) with (t * (by_ - ay) - u * (dy - cy)) by lra.
  replace ((t * (bx - ax) - u * (dx - cx)) * (by_ - ay) - (t * (by_ - ay) - u * (dy - cy)) * (bx - ax))
    with (u * ((bx - ax) * (dy - cy) - (by_ - ay) * (dx - cx))) by ring. rewrite P. ring.
Qed.
End Plane.
