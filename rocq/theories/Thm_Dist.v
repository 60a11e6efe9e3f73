(** * Distances (C59) *)

From Coq Require Import ZArith Bool List Lia ZifyBool Reals Lra Psatz.
From Flocq Require Import Core BinarySingleNaN.
From Verif Require Import F64 Geo F64Order F64Real F64Mono SegExact SpecPlane SeriesExamples Thm_Preds Dist SpecDist DistFacts.
Local Open Scope R_scope.

Lemma int_isz k x : int_coord k x -> exists n, isz x n /\ (Z.abs n <= 2 ^ k)%Z.
Proof. intros [F (n & V & B)]. exists n. split; [split; assumption|exact B]. Qed.

Lemma dist_nonneg x y u v : 0 <= dist x y u v.
Proof. apply sqrt_pos. Qed.
Lemma dist_sym x y u v : dist x y u v = dist u v x y.
Proof. unfold dist. f_equal. ring. Qed.

(** the square root of an exactly computed sum of two squares *)
Lemma root_Z dx dy n m : isz dx n -> isz dy m -> (Z.abs n <= 2 ^ 26)%Z -> (Z.abs m <= 2 ^ 25)%Z ->
  fin (fsqrt (fadd (fmul dx dx) (fmul dy dy))) /\
  RV (fsqrt (fadd (fmul dx dx) (fmul dy dy))) = rnd64 (sqrt (IZR (n * n + m * m))).
Proof.
  intros X Y BN BM.
  assert (NN : (0 <= n * n <= 2 ^ 52)%Z) by (change (2 ^ 52)%Z with (2 ^ 26 * 2 ^ 26)%Z; nia).
  assert (MM : (0 <= m * m <= 2 ^ 50)%Z) by (change (2 ^ 50)%Z with (2 ^ 25 * 2 ^ 25)%Z; nia).
  assert (X2 : isz (fmul dx dx) (n * n)) by (apply isz_mul; auto; lia).
  assert (Y2 : isz (fmul dy dy) (m * m)) by (apply isz_mul; auto; lia).
  assert (S2 : isz (fadd (fmul dx dx) (fmul dy dy)) (n * n + m * m)) by (apply isz_add; auto; lia).
  destruct S2 as [F V]. rewrite <- V. apply fsqrt_correct; [exact F|]. rewrite V. apply IZR_le. lia.
Qed.

Lemma nearest_of d n m x y u v : fin d -> RV d = rnd64 (sqrt (IZR (n * n + m * m))) ->
  x - u = IZR n -> y - v = IZR m -> nearest_double d (dist x y u v).
Proof.
  intros F V X Y. split; [exact F|]. rewrite V. unfold dist. rewrite X, Y.
  rewrite plus_IZR, !mult_IZR. reflexivity.
Qed.

(** the distance of two points on the grid is the double nearest to the real one *)
Theorem C59_point_point :
  forall a b, int_point 24 a -> int_point 24 b ->
    nearest_double (tg_point_distance_point a b) (dist (xR a) (yR a) (xR b) (yR b)).
Proof.
  intros a b [AX AY] [BX BY]. apply int_isz in AX, AY, BX, BY.
  destruct AX as (ax & AX & AX'), AY as (ay & AY & AY'), BX as (bx & BX & BX'), BY as (b_y & BY & BY').
  assert (DX : isz (fsub (px a) (px b)) (ax - bx)) by (apply isz_sub; auto; lia).
  assert (DY : isz (fsub (py a) (py b)) (ay - b_y)) by (apply isz_sub; auto; lia).
  destruct (root_Z _ _ _ _ DX DY ltac:(lia) ltac:(lia)) as [F V].
  apply (nearest_of _ _ _ _ _ _ _ F V); unfold xR, yR; rewrite minus_IZR.
  - now rewrite (proj2 AX), (proj2 BX).
  - now rewrite (proj2 AY), (proj2 BY).
Qed.

(** how far two intervals are apart *)
Definition gap (a1 a2 b1 b2 : Z) : Z := Z.max (Z.max a1 b1 - Z.min a2 b2) 0.
Lemma gap_at a1 a2 b1 b2 : (a1 <= a2)%Z -> (b1 <= b2)%Z ->
  exists x u, (a1 <= x <= a2)%Z /\ (b1 <= u <= b2)%Z /\ Z.abs (x - u) = gap a1 a2 b1 b2.
Proof.
  intros A B. unfold gap. destruct (Z_lt_le_dec a2 b1); [|destruct (Z_lt_le_dec b2 a1)].
  - exists a2, b1. lia.
  - exists a1, b2. lia.
  - exists (Z.max a1 b1), (Z.max a1 b1). lia.
Qed.
Lemma gap_least a1 a2 b1 b2 x u : IZR a1 <= x <= IZR a2 -> IZR b1 <= u <= IZR b2 ->
  IZR (gap a1 a2 b1 b2) <= Rabs (x - u).
Proof.
  intros A B. unfold gap.
  destruct (Z_lt_le_dec a2 b1); [|destruct (Z_lt_le_dec b2 a1)].
  - replace (Z.max _ 0) with (b1 - a2)%Z by (assert (IZR a1 <= IZR a2) as E1%le_IZR by lra; assert (IZR b1 <= IZR b2) as E2%le_IZR by lra; lia).
    rewrite minus_IZR, Rabs_minus_sym. eapply Rle_trans; [|apply Rle_abs]. lra.
  - replace (Z.max _ 0) with (a1 - b2)%Z by (assert (IZR a1 <= IZR a2) as E1%le_IZR by lra; assert (IZR b1 <= IZR b2) as E2%le_IZR by lra; lia).
    rewrite minus_IZR. eapply Rle_trans; [|apply Rle_abs]. lra.
  - replace (Z.max _ 0) with 0%Z by (assert (IZR a1 <= IZR a2) as E1%le_IZR by lra; assert (IZR b1 <= IZR b2) as E2%le_IZR by lra; lia).
    apply Rabs_pos.
Qed.
Lemma gap_sym a1 a2 b1 b2 : gap a1 a2 b1 b2 = gap b1 b2 a1 a2.
Proof. unfold gap. lia. Qed.
Lemma sq_le g x : (0 <= g)%Z -> IZR g <= Rabs x -> IZR g * IZR g <= x * x.
Proof.
  intros G H. apply IZR_le in G. replace (x * x) with (Rabs x * Rabs x) by (rewrite <- Rabs_mult; apply Rabs_pos_eq; nra).
  apply Rmult_le_compat; assumption.
Qed.
Lemma sq_abs a g : Z.abs a = g -> (a * a = g * g)%Z.
Proof. intros <-. nia. Qed.
Lemma sum_sq_zero a b : (a * a + b * b = 0)%Z -> a = 0%Z /\ b = 0%Z.
Proof. intros. split; nia. Qed.
Lemma sum_sq_nonneg a b : (0 <= a * a + b * b)%Z.
Proof. nia. Qed.
Lemma gap_nonneg a1 a2 b1 b2 : (0 <= gap a1 a2 b1 b2)%Z.
Proof. apply Z.le_max_r. Qed.
(** the rounded root of a natural number is zero only for zero *)
Lemma root_zero n : (0 <= n)%Z -> (rnd64 (sqrt (IZR n)) = 0 <-> n = 0%Z).
Proof.
  intros N. split; [|intros ->; rewrite sqrt_0; apply rnd64_0].
  intros E. destruct (Z.eq_dec n 0) as [Z|Z]; [exact Z|exfalso].
  assert (1 <= IZR n) by (apply IZR_le; lia).
  assert (1 <= sqrt (IZR n)) by (rewrite <- sqrt_1; now apply sqrt_le_1_alt).
  assert (rnd64 1 <= rnd64 (sqrt (IZR n))) as L by now apply rnd64_le.
  rewrite E, <- RV_one, rnd64_RV, RV_one in L by reflexivity. lra.
Qed.
Lemma gap_isz a1 a2 b1 b2 n1 n2 m1 m2 : isz a1 n1 -> isz a2 n2 -> isz b1 m1 -> isz b2 m2 ->
  (Z.abs n1 <= 2 ^ 24)%Z -> (Z.abs n2 <= 2 ^ 24)%Z -> (Z.abs m1 <= 2 ^ 24)%Z -> (Z.abs m2 <= 2 ^ 24)%Z ->
  isz (fmax0 (fsub (fmax0 a1 b1) (fmin0 a2 b2)) f_zero) (gap n1 n2 m1 m2) /\ (Z.abs (gap n1 n2 m1 m2) <= 2 ^ 25)%Z.
Proof.
  intros A1 A2 B1 B2 L1 L2 L3 L4. split; [|unfold gap; lia].
  apply isz_max; [|exact isz_zero]. apply isz_sub; [now apply isz_max|now apply isz_min|lia].
Qed.

(** the distance of two rectangles is the double nearest to the distance of
    their nearest points; it is zero exactly if they have a point in common *)
Theorem C59_rect_rect :
  forall a b, int_rect 24 a -> int_rect 24 b ->
    (exists D, set_distance (in_rect a) (in_rect b) D /\ nearest_double (tg_rect_distance_rect a b) D) /\
    (RV (tg_rect_distance_rect a b) = 0 <-> exists x y, in_rect a x y /\ in_rect b x y) /\
    RV (tg_rect_distance_rect a b) = RV (tg_rect_distance_rect b a).
Proof.
  intros [[a1 a2] [a3 a4]] [[b1 b2] [b3 b4]] ([A1 A2] & [A3 A4] & AX & AY) ([B1 B2] & [B3 B4] & BX & BY).
  cbn [rmin rmax px py] in *.
  apply int_isz in A1, A2, A3, A4, B1, B2, B3, B4.
  destruct A1 as (n1 & A1 & LA1), A2 as (n2 & A2 & LA2), A3 as (n3 & A3 & LA3), A4 as (n4 & A4 & LA4).
  destruct B1 as (m1 & B1 & LB1), B2 as (m2 & B2 & LB2), B3 as (m3 & B3 & LB3), B4 as (m4 & B4 & LB4).
  unfold xR, yR in AX, AY, BX, BY. cbn [px py] in *.
  rewrite (proj2 A1), (proj2 A3) in AX. rewrite (proj2 A2), (proj2 A4) in AY.
  rewrite (proj2 B1), (proj2 B3) in BX. rewrite (proj2 B2), (proj2 B4) in BY.
  apply le_IZR in AX, AY, BX, BY.
  set (gx := gap n1 n3 m1 m3). set (gy := gap n2 n4 m2 m4).
  assert (V1 : fin (tg_rect_distance_rect (Rect (Pt a1 a2) (Pt a3 a4)) (Rect (Pt b1 b2) (Pt b3 b4))) /\
               RV (tg_rect_distance_rect (Rect (Pt a1 a2) (Pt a3 a4)) (Rect (Pt b1 b2) (Pt b3 b4))) = rnd64 (sqrt (IZR (gx * gx + gy * gy)))).
  { destruct (gap_isz _ _ _ _ _ _ _ _ A1 A3 B1 B3 LA1 LA3 LB1 LB3) as [X LX].
    destruct (gap_isz _ _ _ _ _ _ _ _ A2 A4 B2 B4 LA2 LA4 LB2 LB4) as [Y LY].
    apply (root_Z _ _ _ _ X Y); [|exact LY]. lia. }
  assert (V2 : RV (tg_rect_distance_rect (Rect (Pt b1 b2) (Pt b3 b4)) (Rect (Pt a1 a2) (Pt a3 a4))) = rnd64 (sqrt (IZR (gx * gx + gy * gy)))).
  { destruct (gap_isz _ _ _ _ _ _ _ _ B1 B3 A1 A3 LB1 LB3 LA1 LA3) as [X LX].
    destruct (gap_isz _ _ _ _ _ _ _ _ B2 B4 A2 A4 LB2 LB4 LA2 LA4) as [Y LY].
    destruct (root_Z _ _ _ _ X Y ltac:(lia) LY) as [_ V]. unfold tg_rect_distance_rect. cbn [rmin rmax px py]. rewrite V.
    unfold gx, gy. now rewrite (gap_sym n1), (gap_sym n2). }
  destruct V1 as [F V].
  assert (IA : forall x y, in_rect (Rect (Pt a1 a2) (Pt a3 a4)) x y <-> (IZR n1 <= x <= IZR n3 /\ IZR n2 <= y <= IZR n4)).
  { intros x y. unfold in_rect, xR, yR. cbn [rmin rmax px py].
    now rewrite (proj2 A1), (proj2 A2), (proj2 A3), (proj2 A4). }
  assert (IB : forall x y, in_rect (Rect (Pt b1 b2) (Pt b3 b4)) x y <-> (IZR m1 <= x <= IZR m3 /\ IZR m2 <= y <= IZR m4)).
  { intros x y. unfold in_rect, xR, yR. cbn [rmin rmax px py].
    now rewrite (proj2 B1), (proj2 B2), (proj2 B3), (proj2 B4). }
  split; [|split].
  - exists (sqrt (IZR (gx * gx + gy * gy))). split; [|split; [exact F|rewrite V; reflexivity]]. split.
    + destruct (gap_at n1 n3 m1 m3 AX BX) as (x & u & X1 & U1 & E1).
      destruct (gap_at n2 n4 m2 m4 AY BY) as (y & v & Y1 & W1 & E2). fold gx in E1. fold gy in E2.
      exists (IZR x), (IZR y), (IZR u), (IZR v). split; [|split].
      * apply IA. repeat split; apply IZR_le; lia.
      * apply IB. repeat split; apply IZR_le; lia.
      * unfold dist. f_equal. rewrite <- !minus_IZR, <- !mult_IZR, <- plus_IZR. f_equal.
        now rewrite (sq_abs _ _ E1), (sq_abs _ _ E2).
    + intros x y u v IX IU. apply IA in IX. apply IB in IU. unfold dist. apply sqrt_le_1_alt.
      rewrite plus_IZR, !mult_IZR. apply Rplus_le_compat.
      * apply sq_le; [apply gap_nonneg|]. now apply gap_least.
      * apply sq_le; [apply gap_nonneg|]. now apply gap_least.
  - assert (GX : (0 <= gx)%Z) by apply Z.le_max_r. assert (GY : (0 <= gy)%Z) by apply Z.le_max_r.
    rewrite V, root_zero by apply sum_sq_nonneg. split.
    + intros E. destruct (sum_sq_zero _ _ E) as [E1 E2].
      destruct (gap_at n1 n3 m1 m3 AX BX) as (x & u & X1 & U1 & Q1).
      destruct (gap_at n2 n4 m2 m4 AY BY) as (y & v & Y1 & W1 & Q2). fold gx in Q1. fold gy in Q2.
      rewrite E1 in Q1. rewrite E2 in Q2. assert (u = x) by (clear - Q1; lia). assert (v = y) by (clear - Q2; lia). subst u v.
      exists (IZR x), (IZR y). split; [apply IA|apply IB]; repeat split; apply IZR_le; tauto.
    + intros (x & y & HA & HB). apply IA in HA. apply IB in HB.
      pose proof (gap_least n1 n3 m1 m3 x x (proj1 HA) (proj1 HB)) as L1.
      pose proof (gap_least n2 n4 m2 m4 y y (proj2 HA) (proj2 HB)) as L2.
      rewrite Rminus_eq_0, Rabs_R0 in L1, L2. apply le_IZR in L1, L2. fold gx in L1. fold gy in L2.
      clear - L1 L2 GX GY. replace gx with 0%Z by lia. now replace gy with 0%Z by lia.
  - now rewrite V, V2.
Qed.
Print Assumptions C59_rect_rect.

(** a point and a rectangle *)
Theorem C59_point_rect :
  forall p r, int_point 24 p -> int_rect 24 r ->
    (exists D, set_distance (just p) (in_rect r) D /\ nearest_double (tg_point_distance_rect p r) D) /\
    (RV (tg_point_distance_rect p r) = 0 <-> in_rect r (xR p) (yR p)).
Proof.
  intros p r P Rr. assert (PR : int_rect 24 (Rect p p)) by (repeat split; try apply P; cbn; lra).
  assert (J : forall x y, in_rect (Rect p p) x y <-> just p x y).
  { intros x y. unfold in_rect, just. cbn [rmin rmax]. split; [|lra]. intros [A B]. split; lra. }
  destruct (C59_rect_rect (Rect p p) r PR Rr) as ((D & [(x & y & u & v & A & B & E) L] & N) & Z & _). split.
  - exists D. split; [|exact N]. split.
    + exists x, y, u, v. split; [now apply J|]. now split.
    + intros x' y' u' v' A' B'. apply L; [now apply J|exact B'].
  - unfold tg_point_distance_rect. rewrite Z. split.
    + intros (x' & y' & A' & B'). apply J in A'. destruct A' as [-> ->]. exact B'.
    + intros I. exists (xR p), (yR p). split; [now apply J|exact I].
Qed.

(** the point of a segment that is nearest to another point *)
Lemma foot_least (x y ax ay c d k : R) : 0 <= k <= 1 ->
  let e := c * c + d * d in
  let t := if Req_EM_T e 0 then 0 else ((x - ax) * c + (y - ay) * d) / e in
  (x - (ax + clampR t * c)) * (x - (ax + clampR t * c)) + (y - (ay + clampR t * d)) * (y - (ay + clampR t * d)) <=
  (x - (ax + k * c)) * (x - (ax + k * c)) + (y - (ay + k * d)) * (y - (ay + k * d)).
Proof.
  intros K e t. set (n := (x - ax) * c + (y - ay) * d).
  assert (Q : forall g, (x - (ax + g * c)) * (x - (ax + g * c)) + (y - (ay + g * d)) * (y - (ay + g * d)) =
              (x - ax) * (x - ax) + (y - ay) * (y - ay) - 2 * g * n + g * g * e) by (intros; unfold n, e; ring).
  rewrite !Q. assert (E0 : 0 <= e) by (unfold e; nra).
  destruct (Req_EM_T e 0) as [Z|NZ].
  - assert (c = 0 /\ d = 0) as [-> ->] by (unfold e in Z; split; nra). unfold n, e. lra.
  - assert (TE : t * e = n) by (unfold t, n; field; exact NZ). clearbody t n e. clear Q. rewrite <- TE. clear TE n.
    assert (C : (k - clampR t) * (k + clampR t - 2 * t) >= 0).
    { unfold clampR. destruct (Rle_or_lt t 0) as [A|A].
      - rewrite Rmax_right, Rmin_left by lra. nra.
      - rewrite Rmax_left by lra. destruct (Rle_or_lt t 1).
        + rewrite Rmin_left by lra. replace ((k - t) * (k + t - 2 * t)) with ((k - t) * (k - t)) by ring. apply Rle_ge, Rle_0_sqr.
        + rewrite Rmin_right by lra. nra. }
    assert (P : 0 <= e * ((k - clampR t) * (k + clampR t - 2 * t))) by (apply Rmult_le_pos; lra). lra.
Qed.

Lemma dot_Z a b c d A B C D : isz a A -> isz b B -> isz c C -> isz d D ->
  (Z.abs A <= 2 ^ 25)%Z -> (Z.abs B <= 2 ^ 25)%Z -> (Z.abs C <= 2 ^ 25)%Z -> (Z.abs D <= 2 ^ 25)%Z ->
  isz (fadd (fmul a b) (fmul c d)) (A * B + C * D) /\ (Z.abs (A * B + C * D) <= 2251799813685248)%Z.
Proof.
  intros IA IB IC ID LA LB LC LD.
  assert (P1 : (Z.abs (A * B) <= 2 ^ 50)%Z) by (rewrite Z.abs_mul; change (2 ^ 50)%Z with (2 ^ 25 * 2 ^ 25)%Z; apply Z.mul_le_mono_nonneg; lia).
  assert (P2 : (Z.abs (C * D) <= 2 ^ 50)%Z) by (rewrite Z.abs_mul; change (2 ^ 50)%Z with (2 ^ 25 * 2 ^ 25)%Z; apply Z.mul_le_mono_nonneg; lia).
  set (m1 := (A * B)%Z) in *. set (m2 := (C * D)%Z) in *.
  assert (I1 : isz (fmul a b) m1) by (apply isz_mul; auto; fold m1; lia).
  assert (I2 : isz (fmul c d) m2) by (apply isz_mul; auto; fold m2; lia).
  clearbody m1 m2. split; [apply isz_add; auto; lia|lia].
Qed.

(** the distance of a point and a segment on the grid: within 2^-23 of the distance
    to the nearest point of the segment *)
Theorem C59_point_segment :
  forall p s, int_point 24 p -> int_segment 24 s ->
    exists D, set_distance (just p) (lies_on s) D /\ fin (tg_point_distance_segment p s) /\
      Rabs (RV (tg_point_distance_segment p s) - D) <= / IZR (2 ^ 23).
Proof.
  intros [x y] [[ax ay] [bx b_y]] [PX PY] [[AX AY] [BX BY]]. cbn [px py sa sb] in *.
  apply int_isz in PX, PY, AX, AY, BX, BY.
  destruct PX as (X & PX & LX), PY as (Y & PY & LY), AX as (A1 & AX & L1), AY as (A2 & AY & L2),
    BX as (B1 & BX & L3), BY as (B2 & BY & L4).
  assert (IA : isz (fsub x ax) (X - A1)) by (apply isz_sub; auto; lia).
  assert (IB : isz (fsub y ay) (Y - A2)) by (apply isz_sub; auto; lia).
  assert (IC : isz (fsub bx ax) (B1 - A1)) by (apply isz_sub; auto; lia).
  assert (ID : isz (fsub b_y ay) (B2 - A2)) by (apply isz_sub; auto; lia).
  set (a := fsub x ax) in *. set (b := fsub y ay) in *. set (c := fsub bx ax) in *. set (d := fsub b_y ay) in *.
  assert (LC : (Z.abs (B1 - A1) <= 2 ^ 25)%Z) by lia. assert (LD : (Z.abs (B2 - A2) <= 2 ^ 25)%Z) by lia.
  assert (LA : (Z.abs (X - A1) <= 2 ^ 25)%Z) by lia. assert (LB : (Z.abs (Y - A2) <= 2 ^ 25)%Z) by lia.
  assert (E1 : (Z.abs (A1 + (B1 - A1)) <= 2 ^ 24)%Z) by lia. assert (E2 : (Z.abs (A2 + (B2 - A2)) <= 2 ^ 24)%Z) by lia.
  set (C := (B1 - A1)%Z) in *. set (Dd := (B2 - A2)%Z) in *.
  set (Ma := (X - A1)%Z) in *. set (Mb := (Y - A2)%Z) in *.
  destruct (dot_Z _ _ _ _ _ _ _ _ IC IC ID ID LC LC LD LD) as [IE _].
  destruct (dot_Z _ _ _ _ _ _ _ _ IA IC IB ID LA LC LB LD) as [IN BN].
  set (e := fadd (fmul c c) (fmul d d)) in *. set (n := fadd (fmul a c) (fmul b d)) in *.
  set (t := if Req_EM_T (IZR C * IZR C + IZR Dd * IZR Dd) 0 then 0
            else ((IZR X - IZR A1) * IZR C + (IZR Y - IZR A2) * IZR Dd) / (IZR C * IZR C + IZR Dd * IZR Dd)).
  assert (EV : RV e = IZR C * IZR C + IZR Dd * IZR Dd) by (rewrite (proj2 IE), plus_IZR, !mult_IZR; reflexivity).
  assert (NV : RV n = (IZR X - IZR A1) * IZR C + (IZR Y - IZR A2) * IZR Dd)
    by (rewrite (proj2 IN), plus_IZR, !mult_IZR; unfold Ma, Mb; rewrite !minus_IZR; reflexivity).
  assert (FV : fin (if fneb e f_zero then fdiv n e else f_zero) /\ RV (if fneb e f_zero then fdiv n e else f_zero) = rnd64 t).
  { rewrite (isz_fneb _ _ _ _ IE isz_zero). unfold t. rewrite <- EV, <- NV.
    destruct (Z.eqb_spec (C * C + Dd * Dd) 0) as [Z|NZ]; cbn [negb].
    - destruct (Req_EM_T (RV e) 0) as [_|W]; [|exfalso; apply W; rewrite (proj2 IE), Z; reflexivity].
      split; [apply isz_zero|]. rewrite rnd64_0. apply isz_zero.
    - assert (NE : RV e <> 0) by (rewrite (proj2 IE); intros W; apply NZ; now apply eq_IZR).
      destruct (Req_EM_T (RV e) 0) as [W|_]; [contradiction|].
      apply fdiv_err; [apply IN|apply IE|exact NE|]. unfold mid.
      assert (E1' : 1 <= RV e) by (rewrite (proj2 IE); apply IZR_le; clear - NZ; nia).
      assert (N1 : Rabs (RV n) <= 2251799813685248).
      { rewrite (proj2 IN), <- abs_IZR. apply IZR_le. exact BN. }
      assert (IBG : 2251799813685248 <= IZR (2 ^ 200)) by (apply IZR_le; now vm_compute).
      unfold Rdiv. rewrite Rabs_mult, Rabs_inv, (Rabs_pos_eq (RV e)) by lra.
      apply Rle_trans with (Rabs (RV n) * 1); [|lra]. apply Rmult_le_compat_l; [apply Rabs_pos|].
      rewrite <- Rinv_1. apply Rinv_le; lra. }
  destruct FV as [FF FV]. destruct (fclamp_R _ FF) as [GF GV]. rewrite FV, clamp_rnd in GV.
  set (g := fclamp0 (if fneb e f_zero then fdiv n e else f_zero) f_zero f_one) in *.
  pose proof (clampR_range t) as TR. set (T := clampR t) in *.
  destruct (foot_near x ax c g X A1 C T PX AX IC LX L1 E1 GF TR GV) as (FX & DX & SX).
  destruct (foot_near y ay d g Y A2 Dd T PY AY ID LY L2 E2 GF TR GV) as (FY & DY & SY).
  set (dx := fsub x (fadd ax (fmul g c))) in *. set (dy := fsub y (fadd ay (fmul g d))) in *.
  destruct (length_near dx dy 33554433 FX FY SX SY ltac:(lra) ltac:(lra)) as [FL NL].
  set (QX := IZR X - (IZR A1 + T * IZR C)) in *. set (QY := IZR Y - (IZR A2 + T * IZR Dd)) in *.
  pose proof (norm_near (RV dx) (RV dy) QX QY) as NN.
  exists (sqrt (QX * QX + QY * QY)). split; [|split; [exact FL|]].
  - assert (VC : RV bx - RV ax = IZR C) by (rewrite (proj2 AX), (proj2 BX); unfold C; now rewrite minus_IZR).
    assert (VD : RV b_y - RV ay = IZR Dd) by (rewrite (proj2 AY), (proj2 BY); unfold Dd; now rewrite minus_IZR).
    unfold set_distance, just, lies_on, on_segment, xR, yR. cbn [px py sa sb]. rewrite VC, VD, (proj2 PX), (proj2 PY), (proj2 AX), (proj2 AY).
    split.
    + exists (IZR X), (IZR Y), (IZR A1 + T * IZR C), (IZR A2 + T * IZR Dd). split; [auto|]. split; [|reflexivity].
      exists T. auto.
    + intros x1 y1 u v [-> ->] (k & K & -> & ->). unfold dist. apply sqrt_le_1_alt. apply foot_least. exact K.
  - change (tg_point_distance_segment (Pt x y) (Seg (Pt ax ay) (Pt bx b_y))) with (fsqrt (fadd (fmul dx dx) (fmul dy dy))).
    change (/ IZR (2 ^ 23)) with (/ 8388608). change u53 with (/ 9007199254740992) in NL.
    apply Rabs_le_inv in NL. apply Rabs_le_inv in NN. apply Rabs_le. split; lra.
Qed.

(** off the grid the distances are not even right about zero or the order of
    magnitude: squares overflow and underflow.  Two finite points whose distance
    comes out infinite, and two different points at distance zero; the
    distances to a segment and a rectangle suffer in the same way *)
Definition fin_point (p : pt) : Prop := fin (px p) /\ fin (py p).
Theorem C59_unbounded_refuted :
  (exists a b, fin_point a /\ fin_point b /\ f_isfinite (tg_point_distance_point a b) = false /\
     dist (xR a) (yR a) (xR b) (yR b) = xR a) /\
  (exists a b, fin_point a /\ fin_point b /\ tg_point_distance_point a b = f_zero /\
     tg_point_distance_segment a (Seg b b) = f_zero /\ tg_point_distance_rect a (Rect b b) = f_zero /\
     0 < dist (xR a) (yR a) (xR b) (yR b)).
Proof.
  assert (D : forall x, 0 <= x -> dist x 0 0 0 = x).
  { intros x X. unfold dist. rewrite !Rminus_0_r, Rmult_0_r, Rplus_0_r. now apply sqrt_square. }
  assert (Z0 : RV f_zero = 0) by apply isz_zero.
  split.
  - exists (Pt 7598952565167317594%Z f_zero), (Pt f_zero f_zero).
    split; [repeat split; reflexivity|]. split; [repeat split; reflexivity|]. split; [vm_compute; reflexivity|].
    unfold xR, yR. cbn [px py]. rewrite Z0. apply D. rewrite <- Z0.
    apply key_le_R; [split; reflexivity|split; reflexivity|]. vm_compute. discriminate.
  - exists (Pt 1614679632300144556%Z f_zero), (Pt f_zero f_zero).
    split; [repeat split; reflexivity|]. split; [repeat split; reflexivity|].
    split; [vm_compute; reflexivity|]. split; [vm_compute; reflexivity|]. split; [vm_compute; reflexivity|].
    unfold xR, yR. cbn [px py]. rewrite Z0.
    assert (L : 0 < RV 1614679632300144556%Z).
    { rewrite <- Z0. apply Rnot_le_lt. intros L. apply key_le_R in L; [|split; reflexivity|split; reflexivity]. vm_compute in L. now apply L. }
    rewrite D; [exact L|lra].
Qed.
Print Assumptions C59_point_point.
Print Assumptions C59_point_rect.
Print Assumptions C59_point_segment.
Print Assumptions C59_unbounded_refuted.

(** (0,0) is 5 from (3,4), 13 from the rectangle (5,12)-(20,20), and 5 from the
    segment (5,-3)-(5,9), whose nearest point is within it *)
Example C59_example :
  int_point 24 (P 0 0) /\ int_point 24 (P 3 4) /\ int_rect 24 (Rect (P 5 12) (P 20 20)) /\
  int_segment 24 (Seg (P 5 (-3)) (P 5 9)) /\
  tg_point_distance_point (P 0 0) (P 3 4) = f_of_Z 5 /\
  tg_point_distance_rect (P 0 0) (Rect (P 5 12) (P 20 20)) = f_of_Z 13 /\
  tg_rect_distance_rect (Rect (P (-1) (-1)) (P 8 14)) (Rect (P 5 12) (P 20 20)) = f_zero /\
  tg_point_distance_segment (P 0 0) (Seg (P 5 (-3)) (P 5 9)) = f_of_Z 5.
Proof.
  split; [apply P_int24; lia|]. split; [apply P_int24; lia|]. split.
  { split; [apply P_int24; lia|]. split; [apply P_int24; lia|]. cbn [rmin rmax].
    destruct (P_R 5 12) as [-> ->]; try lia. destruct (P_R 20 20) as [-> ->]; try lia. lra. }
  split; [split; apply P_int24; lia|]. repeat split; vm_compute; reflexivity.
Qed.
