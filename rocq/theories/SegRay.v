(** * The ray test on integer coordinates *)

From Coq Require Import ZArith Reals Bool List Lia Lra ZifyBool.
From Flocq Require Import Core Relative BinarySingleNaN.
From Verif Require Import F64 Geo F64Order F64Real F64Mono SpecPlane SegExact SegMeet.
Import ListNotations.
Local Open Scope Z_scope.

(** ** Quotients *)

Lemma quot_real x y n d : isz x n -> isz y d -> d <> 0 -> Z.abs n <= 2 ^ 25 -> Z.abs d <= 2 ^ 25 ->
  fin (fdiv x y) /\ RV (fdiv x y) = rnd64 (IZR n / IZR d) /\
  (Rabs (RV (fdiv x y) - IZR n / IZR d) <= bpow radix2 (-53) * (IZR (Z.abs n) / IZR (Z.abs d)))%R.
Proof.
  intros [Fx Vx] [Fy Vy] ND BN BD.
  assert (RD : (IZR d <> 0)%R) by now apply IZR_neq.
  assert (NV : (RV y <> 0)%R) by now rewrite Vy.
  pose proof (fdiv_correct _ _ Fx Fy NV) as C. cbv zeta in C. rewrite Vx, Vy in C.
  assert (AQ : (Rabs (IZR n / IZR d) = IZR (Z.abs n) / IZR (Z.abs d))%R).
  { unfold Rdiv. now rewrite Rabs_mult, Rabs_inv, !abs_IZR. }
  assert (E : (Rabs (rnd64 (IZR n / IZR d) - IZR n / IZR d) <=
     bpow radix2 (-53) * (IZR (Z.abs n) / IZR (Z.abs d)))%R).
  { destruct (Z.eq_dec n 0) as [->|Nn].
    - replace (0 / IZR d)%R with 0%R by (unfold Rdiv; ring). rewrite rnd64_0, Rminus_0_r, Rabs_R0.
      cbn [Z.abs]. unfold Rdiv. rewrite Rmult_0_l. lra.
    - rewrite <- AQ. apply rel_err. rewrite AQ.
      apply Rle_trans with (1 * bpow radix2 (-25))%R; [rewrite Rmult_1_l; apply bpow_le; lia|].
      unfold Rdiv. apply Rmult_le_compat; [lra|apply bpow_ge_0|apply IZR_le; lia|].
      replace (bpow radix2 (-25)) with (/ IZR (2 ^ 25))%R
        by (rewrite <- pow_pos_IZR by lia; rewrite <- bpow_opp; reflexivity).
      apply Rinv_le; [apply IZR_lt; lia|apply IZR_le; lia]. }
  assert (B : (Rabs (IZR n / IZR d) <= IZR (2 ^ 25))%R).
  { rewrite AQ. rewrite <- (Rmult_1_r (IZR (2 ^ 25))). unfold Rdiv.
    apply Rmult_le_compat; [apply IZR_le; lia| |apply IZR_le; lia|].
    - apply Rlt_le, Rinv_0_lt_compat, IZR_lt. lia.
    - rewrite <- Rinv_1. apply Rinv_le; [lra|apply IZR_le; lia]. }
  assert (RB : (Rabs (rnd64 (IZR n / IZR d)) < bpow radix2 1024)%R).
  { apply small_bound. apply Rle_trans with (IZR (2 ^ 25)).
    - apply Rabs_le_inv in B. destruct B as [B1 B2]. apply rnd64_le in B1, B2.
      rewrite <- opp_IZR in B1. rewrite rnd_int in B1 by lia. rewrite rnd_int in B2 by lia.
      apply Rabs_le. rewrite <- opp_IZR. lra.
    - rewrite <- pow_pos_IZR by lia. apply bpow_le. lia. }
  rewrite Rlt_bool_true in C by exact RB. destruct C as [F V].
  split; [exact F|]. split; [exact V|]. rewrite V. exact E.
Qed.

Lemma quot_cmp x y n d x' y' n' d' :
  isz x n -> isz y d -> isz x' n' -> isz y' d' -> 0 < d * d' ->
  Z.abs n <= 2 ^ 25 -> Z.abs d <= 2 ^ 25 -> Z.abs n' <= 2 ^ 25 -> Z.abs d' <= 2 ^ 25 ->
  fge (fdiv x y) (fdiv x' y') = (n' * d <=? n * d').
Proof.
  intros X Y X' Y' DD BN BD BN' BD'.
  assert (D0 : d <> 0) by (intros ->; lia).
  assert (D0' : d' <> 0) by (intros ->; lia).
  destruct (quot_real _ _ _ _ X Y D0 BN BD) as (F & V & E).
  destruct (quot_real _ _ _ _ X' Y' D0' BN' BD') as (F' & V' & E').
  assert (R0 : (IZR d <> 0)%R) by now apply IZR_neq.
  assert (R0' : (IZR d' <> 0)%R) by now apply IZR_neq.
  assert (PD : (0 < IZR d * IZR d')%R) by (rewrite <- mult_IZR; now apply IZR_lt).
  assert (I : (IZR n / IZR d - IZR n' / IZR d' = IZR (n * d' - n' * d) / (IZR d * IZR d'))%R).
  { rewrite minus_IZR, !mult_IZR. field. split; assumption. }
  unfold fge. rewrite fle_key by (apply fin_ok; assumption).
  apply eq_iff_eq_true. rewrite !Z.leb_le. rewrite key_le_R by assumption.
  destruct (Z.le_gt_cases (n' * d) (n * d')) as [L|L].
  - split; [intros _; exact L|intros _]. rewrite V, V'. apply rnd64_le.
    assert (0 <= IZR n / IZR d - IZR n' / IZR d')%R; [|lra]. rewrite I.
    apply Rmult_le_pos; [apply IZR_le; lia|]. apply Rlt_le, Rinv_0_lt_compat, PD.
  - split; [|lia]. intros H. exfalso.
    assert (AD : (IZR (Z.abs d) * IZR (Z.abs d') = IZR d * IZR d')%R).
    { rewrite <- mult_IZR, <- Z.abs_mul, Z.abs_eq, mult_IZR by lia. reflexivity. }
    assert (Pa : (0 < IZR (Z.abs d))%R) by (apply IZR_lt; lia).
    assert (Pb : (0 < IZR (Z.abs d'))%R) by (apply IZR_lt; lia).
    assert (G : (IZR n / IZR d - IZR n' / IZR d' <= - 1 / (IZR d * IZR d'))%R).
    { rewrite I. apply Rmult_le_compat_r; [apply Rlt_le, Rinv_0_lt_compat, PD|].
      apply IZR_le. lia. }
    assert (S : (IZR (Z.abs n) / IZR (Z.abs d) + IZR (Z.abs n') / IZR (Z.abs d') <=
                 IZR (2 ^ 51) / (IZR d * IZR d'))%R).
    { rewrite <- AD.
      replace (IZR (Z.abs n) / IZR (Z.abs d) + IZR (Z.abs n') / IZR (Z.abs d'))%R
        with (IZR (Z.abs n * Z.abs d' + Z.abs n' * Z.abs d) / (IZR (Z.abs d) * IZR (Z.abs d')))%R
        by (rewrite plus_IZR, !mult_IZR; field; lra).
      apply Rmult_le_compat_r; [apply Rlt_le, Rinv_0_lt_compat; rewrite AD; exact PD|].
      apply IZR_le.
      pose proof (prod_bound n d' (2 ^ 25) (2 ^ 25) BN BD') as P1.
      pose proof (prod_bound n' d (2 ^ 25) (2 ^ 25) BN' BD) as P2.
      rewrite Z.abs_mul in P1, P2.
      generalize dependent (Z.abs n * Z.abs d'). generalize dependent (Z.abs n' * Z.abs d).
      clear. intros. lia. }
    apply Rabs_le_inv in E, E'.
    set (A := (IZR (Z.abs n) / IZR (Z.abs d))%R) in *. set (B := (IZR (Z.abs n') / IZR (Z.abs d'))%R) in *.
    assert (T : (bpow radix2 (-53) * (A + B) <= / 4 * / (IZR d * IZR d'))%R).
    { apply Rle_trans with (bpow radix2 (-53) * (IZR (2 ^ 51) / (IZR d * IZR d')))%R.
      - apply Rmult_le_compat_l; [apply bpow_ge_0|exact S].
      - rewrite <- pow_pos_IZR by lia. unfold Rdiv. rewrite <- Rmult_assoc, <- bpow_plus.
        change (bpow radix2 (-53 + 51)) with (/ IZR (2 * 2))%R. replace (IZR (2 * 2)) with 4%R by reflexivity. lra. }
    assert (P : (0 < / (IZR d * IZR d'))%R) by apply Rinv_0_lt_compat, PD.
    unfold Rdiv in G. lra.
Qed.

(** ** The next double *)

Lemma nextup_succ x : fin x -> f_key x < inf_mag - 1 ->
  fin (f_nextup x) /\ f_key (f_nextup x) = f_key x + 1.
Proof.
  unfold fin, f_wf, f_isfinite, f_nextup, f_isnan, f_key, f_mag, f_sign, p63, p64, inf_mag.
  repeat match goal with |- context [if ?c then _ else _] =>
    lazymatch c with context [if _ then _ else _] => fail | _ => destruct c eqn:? end end; intros; lia.
Qed.

Definition eps : f64 := 4481081629233643520.  (* 2^-28 *)
Lemma eps_fin : fin eps. Proof. split; reflexivity. Qed.
Lemma eps_RV : RV eps = bpow radix2 (-28).
Proof.
  rewrite (RV_pos_bits false 4503599627370496 (-80)) by (vm_compute; reflexivity).
  change 4503599627370496%positive with (2 ^ 52)%positive. unfold F2R. cbn [Fnum Fexp cond_Zopp].
  change (IZR (Z.pos (2 ^ 52))) with (bpow radix2 52). rewrite <- bpow_plus. reflexivity.
Qed.

Lemma nextup_close x n : isz x n -> bnd 24 n ->
  fin (f_nextup x) /\ (IZR n < RV (f_nextup x) <= IZR n + bpow radix2 (-28))%R.
Proof.
  intros [F V] B. unfold bnd in B.
  pose proof (fadd_correct _ _ F eps_fin) as C. cbv zeta in C. rewrite V, eps_RV in C.
  assert (G : rnd64 (IZR n + bpow radix2 (-28)) = (IZR n + bpow radix2 (-28))%R).
  { apply round_generic; [typeclasses eauto|].
    replace (IZR n + bpow radix2 (-28))%R with (F2R (Float radix2 (n * 2 ^ 28 + 1) (-28))).
    - apply generic_format_F2R. intros NZ. unfold cexp. rewrite fexp53.
      assert (M : (mag radix2 (F2R (Float radix2 (n * 2 ^ 28 + 1) (-28))) <= 25)%Z).
      { apply mag_le_bpow.
        - apply F2R_neq_0. exact NZ.
        - unfold F2R. cbn [Fnum Fexp]. rewrite Rabs_mult, <- abs_IZR.
          rewrite (Rabs_pos_eq (bpow _ _)) by apply bpow_ge_0.
          apply Rmult_lt_reg_r with (bpow radix2 28); [apply bpow_gt_0|].
          rewrite Rmult_assoc, <- !bpow_plus. change (bpow radix2 (-28 + 28)) with 1%R.
          change (bpow radix2 (25 + 28)) with (IZR (2 ^ 53)). rewrite Rmult_1_r. apply IZR_lt. lia. }
      lia.
    - unfold F2R. cbn [Fnum Fexp]. rewrite plus_IZR, mult_IZR, Rmult_plus_distr_r.
      change (IZR (2 ^ 28)) with (bpow radix2 28). rewrite Rmult_assoc, <- bpow_plus.
      change (bpow radix2 (28 + -28)) with 1%R. lra. }
  rewrite G in C.
  assert (A : (Rabs (IZR n + bpow radix2 (-28)) < bpow radix2 1024)%R).
  { apply small_bound. apply Rle_trans with (IZR (2 ^ 24) + 1)%R.
    - eapply Rle_trans; [apply Rabs_triang|]. apply Rplus_le_compat.
      + rewrite <- abs_IZR. apply IZR_le. lia.
      + rewrite Rabs_pos_eq by apply bpow_ge_0. change 1%R with (bpow radix2 0). apply bpow_le. lia.
    - change 1%R with (IZR 1). rewrite <- plus_IZR. apply Rle_trans with (IZR (2 ^ 25)); [apply IZR_le; lia|].
      rewrite <- pow_pos_IZR by lia. apply bpow_le. lia. }
  rewrite Rlt_bool_true in C by exact A. destruct C as [Fz Vz].
  set (z := fadd x eps) in *.
  pose proof (bpow_gt_0 radix2 (-28)) as E0.
  assert (K : f_key x < f_key z).
  { apply key_lt_R; [assumption..|]. rewrite V, Vz. lra. }
  pose proof (key_fin z Fz) as KZ.
  destruct (nextup_succ x F ltac:(lia)) as [Fn Kn]. split; [exact Fn|]. split.
  - rewrite <- V. apply key_lt_R; [assumption..|]. lia.
  - rewrite <- Vz. apply key_le_R; [assumption..|]. lia.
Qed.


(** a step of at most 2^-28 from height a, over d, against the slope m / e *)
Lemma tiny_cmp y' y a x' d n m e' e :
  isz y a -> isz x' d -> isz n m -> isz e' e -> bnd 24 a -> d <> 0 -> 0 < d * e -> 0 < m ->
  Z.abs d <= 2 ^ 25 -> Z.abs m <= 2 ^ 25 -> Z.abs e <= 2 ^ 25 ->
  fin y' -> (IZR a < RV y' <= IZR a + bpow radix2 (-28))%R ->
  fge (fdiv (fsub y' y) x') (fdiv n e') = (d <? 0).
Proof.
  intros Y X N E Ba D0 DE M0 BD BM BE Fy' Vy'.
  assert (E0 : e <> 0) by (intros ->; lia).
  destruct (quot_real _ _ _ _ N E E0 BM BE) as (Fq & Vq & _).
  destruct Y as [Fy Vy], X as [Fx Vx].
  pose proof (bpow_gt_0 radix2 (-28)) as P28.
  assert (F28 : forall s : bool, rnd64 (if s then - bpow radix2 (-28) else bpow radix2 (-28)) =
     (if s then - bpow radix2 (-28) else bpow radix2 (-28))%R).
  { assert (generic_format radix2 (SpecFloat.fexp 53 1024) (bpow radix2 (-28))).
    { apply generic_format_bpow. rewrite fexp53. lia. }
    intros [|]; (apply round_generic; [typeclasses eauto|]); [now apply generic_format_opp|assumption]. }
  pose proof (F28 true) as Fm. pose proof (F28 false) as Fp. cbn iota in Fm, Fp. clear F28.
  (* the difference *)
  pose proof (fsub_correct _ _ Fy' Fy) as C. cbv zeta in C. rewrite Vy in C.
  assert (L1 : (0 <= rnd64 (RV y' - IZR a) <= bpow radix2 (-28))%R).
  { split; [rewrite <- rnd64_0|rewrite <- Fp]; apply rnd64_le; lra. }
  assert (S28 : (bpow radix2 (-28) <= bpow radix2 1000)%R) by (apply bpow_le; lia).
  rewrite Rlt_bool_true in C by (apply small_bound; rewrite Rabs_pos_eq; lra).
  destruct C as [Fs Vs]. set (sd := fsub y' y) in *. clearbody sd.
  (* the quotient *)
  assert (RD : (IZR d <> 0)%R) by now apply IZR_neq.
  assert (NV : (RV x' <> 0)%R) by now rewrite Vx.
  pose proof (fdiv_correct _ _ Fs Fx NV) as Q. cbv zeta in Q. rewrite Vx, Vs in Q.
  set (w := rnd64 (RV y' - IZR a)) in *. clearbody w.
  assert (AD : (0 < Rabs (/ IZR d) <= 1)%R).
  { split; [apply Rabs_pos_lt; now apply Rinv_neq_0_compat|]. rewrite Rabs_inv, <- Rinv_1, <- abs_IZR.
    apply Rinv_le; [lra|apply IZR_le; lia]. }
  assert (AQ : (Rabs (w / IZR d) <= bpow radix2 (-28))%R).
  { unfold Rdiv. rewrite Rabs_mult, (Rabs_pos_eq w) by lra. nra. }
  assert (L2 : (- bpow radix2 (-28) <= rnd64 (w / IZR d) <= bpow radix2 (-28))%R).
  { apply Rabs_le_inv in AQ. split; [rewrite <- Fm at 1|rewrite <- Fp]; apply rnd64_le; lra. }
  rewrite Rlt_bool_true in Q by (apply small_bound; apply Rabs_le; lra).
  destruct Q as [Ft Vt]. rewrite <- Vt in L2.
  unfold fge. rewrite fle_key by (apply fin_ok; assumption).
  assert (P25 : (bpow radix2 (-28) < bpow radix2 (-25))%R) by (apply bpow_lt; lia).
  assert (F25 : rnd64 (bpow radix2 (-25)) = bpow radix2 (-25)).
  { apply round_generic; [typeclasses eauto|]. apply generic_format_bpow. rewrite fexp53. lia. }
  assert (F25m : rnd64 (- bpow radix2 (-25)) = (- bpow radix2 (-25))%R).
  { apply round_generic; [typeclasses eauto|]. apply generic_format_opp, generic_format_bpow.
    rewrite fexp53. lia. }
  assert (I25 : bpow radix2 (-25) = (/ IZR (2 ^ 25))%R)
    by (rewrite <- pow_pos_IZR by lia; rewrite <- bpow_opp; reflexivity).
  assert (M1 : (1 <= IZR m)%R) by (apply IZR_le; lia).
  apply eq_iff_eq_true. rewrite Z.leb_le, Z.ltb_lt, key_le_R by assumption. split.
  - intros H. destruct (Z.lt_ge_cases d 0) as [L|L]; [exact L|exfalso].
    assert (0 < e) by nia.
    assert (K : (bpow radix2 (-25) <= IZR m / IZR e)%R).
    { unfold Rdiv. rewrite <- (Rmult_1_l (bpow radix2 (-25))).
      apply Rmult_le_compat; [lra|apply bpow_ge_0|exact M1|].
      rewrite I25. apply Rinv_le; [apply IZR_lt; lia|apply IZR_le; lia]. }
    apply rnd64_le in K. rewrite F25, <- Vq in K. lra.
  - intros H. assert (e < 0) by nia.
    assert (K : (IZR m / IZR e <= - bpow radix2 (-25))%R).
    { assert (bpow radix2 (-25) <= IZR m / IZR (- e))%R.
      { unfold Rdiv. rewrite <- (Rmult_1_l (bpow radix2 (-25))).
        apply Rmult_le_compat; [lra|apply bpow_ge_0|exact M1|].
        rewrite I25. apply Rinv_le; [apply IZR_lt; lia|apply IZR_le; lia]. }
      replace (IZR m / IZR e)%R with (- (IZR m / IZR (- e)))%R; [lra|].
      rewrite opp_IZR. field. now apply IZR_neq. }
    apply rnd64_le in K. rewrite F25m, <- Vq in K. lra.
Qed.

(** ** The control flow of the ray test in integers *)

Definition tailZ (ax ay bx by_ x y : Z) : ray :=
  if y =? by_ then ROut
  else
    let slope := if cross ax ay bx by_ x y <=? 0 then RIn else ROut in
    if bx <? ax then
      if ax <=? x then ROut else if x <=? bx then RIn else slope
    else
      if bx <=? x then ROut else if x <=? ax then RIn else slope.

Definition boundp (p : pt) (x y : Z) : Prop := ispt p x y /\ bnd 24 x /\ bnd 24 y.

Lemma tail_Z r a b p ax ay bx by_ x y :
  boundp a ax ay -> boundp b bx by_ -> boundp p x y ->
  ay < by_ -> ay <= y <= by_ ->
  raycast_tail r a b p = tailZ ax ay bx by_ x y.
Proof.
  intros [[Ax Ay] [Bax Bay]] [[Bx By] [Bbx Bby]] [[Px Py] [Bpx Bpy]] L [L1 L2].
  unfold bnd in *.
  assert (S1 : isz (fsub (px p) (px a)) (x - ax)) by (apply isz_sub; [assumption..|lia]).
  assert (S2 : isz (fsub (py b) (py a)) (by_ - ay)) by (apply isz_sub; [assumption..|lia]).
  assert (S3 : isz (fsub (px b) (px a)) (bx - ax)) by (apply isz_sub; [assumption..|lia]).
  assert (S4 : isz (fsub (py p) (py a)) (y - ay)) by (apply isz_sub; [assumption..|lia]).
  assert (NU : fin (f_nextup (py p)) /\
     (IZR y < RV (f_nextup (py p)) <= IZR y + bpow radix2 (-28))%R) by (apply nextup_close; [assumption|exact Bpy]).
  destruct NU as [Fn Vn].
  unfold raycast_tail, tailZ.
  rewrite (isz_feqb _ _ _ _ Py Ay), (isz_feqb _ _ _ _ Py By).
  destruct (Z.eqb_spec y by_) as [Eb|Nb].
  { rewrite orb_true_r. cbn [px py]. subst y.
    assert (G : fgt (f_nextup (py p)) (py b) = true).
    { unfold fgt. destruct By as [FB VB]. rewrite flt_key by (apply fin_ok; assumption).
      apply Z.ltb_lt. apply key_lt_R; [assumption..|]. rewrite VB. apply Vn. }
    rewrite G, orb_true_r. reflexivity. }
  rewrite orb_false_r.
  rewrite (isz_fgt _ _ _ _ Ax Bx).
  destruct (Z.eqb_spec y ay) as [Ea|Na].
  - cbn [px py]. subst y.
    assert (G : flt (f_nextup (py p)) (py a) || fgt (f_nextup (py p)) (py b) = false).
    { apply orb_false_iff. unfold fgt. destruct By as [FB VB]. destruct Ay as [FA VA].
      rewrite !flt_key by (apply fin_ok; assumption). rewrite !Z.ltb_ge.
      split; (apply key_le_R; [assumption..|]).
      - rewrite VA. lra.
      - rewrite VB. apply Rle_trans with (IZR ay + 1)%R.
        + assert (bpow radix2 (-28) <= bpow radix2 0)%R by (apply bpow_le; lia).
          change (bpow radix2 0) with 1%R in *. lra.
        + change 1%R with (IZR 1). rewrite <- plus_IZR. apply IZR_le. lia. }
    rewrite G.
    rewrite (isz_fge _ _ _ _ Px Ax), (isz_fle _ _ _ _ Px Bx), (isz_fge _ _ _ _ Px Bx), (isz_fle _ _ _ _ Px Ax).
    assert (T : (bx < x < ax \/ ax < x < bx) ->
      fge (fdiv (fsub (f_nextup (py p)) (py a)) (fsub (px p) (px a)))
          (fdiv (fsub (py b) (py a)) (fsub (px b) (px a))) = (x - ax <? 0)).
    { intros O. apply (tiny_cmp _ _ ay _ _ _ (by_ - ay) _ (bx - ax)); try assumption; try lia. nia. }
    assert (CC : cross ax ay bx by_ x ay = (x - ax) * (by_ - ay)) by (unfold cross; ring).
    rewrite CC.
    destruct (Z.ltb_spec bx ax) as [O|O].
    + destruct (Z.leb_spec ax x); [reflexivity|]. destruct (Z.leb_spec x bx); [reflexivity|].
      rewrite T by lia. replace (x - ax <? 0) with true by lia.
      replace ((x - ax) * (by_ - ay) <=? 0) with true by nia. reflexivity.
    + destruct (Z.leb_spec bx x); [reflexivity|]. destruct (Z.leb_spec x ax); [reflexivity|].
      rewrite T by lia. replace (x - ax <? 0) with false by lia.
      replace ((x - ax) * (by_ - ay) <=? 0) with false by nia. reflexivity.
  - rewrite (isz_flt _ _ _ _ Py Ay), (isz_fgt _ _ _ _ Py By).
    replace ((y <? ay) || (by_ <? y)) with false by lia.
    rewrite (isz_fge _ _ _ _ Px Ax), (isz_fle _ _ _ _ Px Bx), (isz_fge _ _ _ _ Px Bx), (isz_fle _ _ _ _ Px Ax).
    assert (T : (bx < x < ax \/ ax < x < bx) ->
      fge (fdiv (fsub (py p) (py a)) (fsub (px p) (px a)))
          (fdiv (fsub (py b) (py a)) (fsub (px b) (px a))) = (cross ax ay bx by_ x y <=? 0)).
    { intros O. rewrite (quot_cmp _ _ _ _ _ _ _ _ S4 S1 S2 S3); try lia; [|nia].
      unfold cross. lia. }
    destruct (Z.ltb_spec bx ax) as [O|O].
    + destruct (Z.leb_spec ax x); [reflexivity|]. destruct (Z.leb_spec x bx); [reflexivity|].
      rewrite T by lia. reflexivity.
    + destruct (Z.leb_spec bx x); [reflexivity|]. destruct (Z.leb_spec x ax); [reflexivity|].
      rewrite T by lia. reflexivity.
Qed.

Lemma tailZ_spec ax ay bx by_ x y : ay < by_ -> ay <= y <= by_ -> cross ax ay bx by_ x y <> 0 ->
  tailZ ax ay bx by_ x y = if (y <? by_) && (cross ax ay bx by_ x y <? 0) then RIn else ROut.
Proof.
  intros L B N. unfold tailZ.
  destruct (Z.eqb_spec y by_) as [->|Ny]; [now rewrite Z.ltb_irrefl|].
  replace (y <? by_) with true by lia. cbn [andb].
  destruct (Z.ltb_spec bx ax) as [O|O].
  - destruct (Z.leb_spec ax x).
    { replace (cross ax ay bx by_ x y <? 0) with false by (unfold cross; nia). reflexivity. }
    destruct (Z.leb_spec x bx).
    { replace (cross ax ay bx by_ x y <? 0) with true; [reflexivity|]. unfold cross in *.
      symmetry. apply Z.ltb_lt. nia. }
    destruct (Z.leb_spec (cross ax ay bx by_ x y) 0), (Z.ltb_spec (cross ax ay bx by_ x y) 0); lia || reflexivity.
  - destruct (Z.leb_spec bx x).
    { replace (cross ax ay bx by_ x y <? 0) with false; [reflexivity|]. unfold cross in *.
      symmetry. apply Z.ltb_ge. nia. }
    destruct (Z.leb_spec x ax).
    { replace (cross ax ay bx by_ x y <? 0) with true; [reflexivity|]. unfold cross in *.
      symmetry. apply Z.ltb_lt. nia. }
    destruct (Z.leb_spec (cross ax ay bx by_ x y) 0), (Z.ltb_spec (cross ax ay bx by_ x y) 0); lia || reflexivity.
Qed.

Definition onb (ax ay bx by_ x y : Z) : bool :=
  (Z.min ax bx <=? x) && (x <=? Z.max ax bx) && (Z.min ay by_ <=? y) && (y <=? Z.max ay by_) &&
  (cross ax ay bx by_ x y =? 0).

Lemma onb_iff ax ay bx by_ x y : onb ax ay bx by_ x y = true <-> onZ ax ay bx by_ x y.
Proof. rewrite onZ_iff. unfold onb. rewrite !andb_true_iff, !Z.leb_le, Z.eqb_eq. tauto. Qed.

Lemma onb_swap ax ay bx by_ x y : onb bx by_ ax ay x y = onb ax ay bx by_ x y.
Proof.
  unfold onb. rewrite (Z.min_comm bx), (Z.max_comm bx), (Z.min_comm by_), (Z.max_comm by_).
  f_equal. apply eq_iff_eq_true. rewrite !Z.eqb_eq. unfold cross. nia.
Qed.

Lemma onb_line ax ay bx by_ x y : ay < by_ -> ay <= y <= by_ -> cross ax ay bx by_ x y = 0 ->
  Z.min ax bx <= x <= Z.max ax bx.
Proof. unfold cross. intros L B C. destruct (Z.le_gt_cases ax bx); nia. Qed.

Definition rectp (r : rect) (x0 y0 x1 y1 : Z) : Prop := ispt (rmin r) x0 y0 /\ ispt (rmax r) x1 y1.

Lemma mid_Z r a b p ax ay bx by_ x y :
  rectp r (Z.min ax bx) ay (Z.max ax bx) by_ ->
  boundp a ax ay -> boundp b bx by_ -> boundp p x y ->
  ay <= by_ -> ay <= y <= by_ ->
  raycast_mid r a b p =
  if onb ax ay bx by_ x y then ROn
  else if (y <? by_) && (cross ax ay bx by_ x y <? 0) then RIn else ROut.
Proof.
  intros [[R1 R2] [R3 R4]] HA HB HP L B.
  pose proof HA as [PA [Bax Bay]]. pose proof HB as [PB [Bbx Bby]]. pose proof HP as [PP [Bpx Bpy]].
  unfold raycast_mid.
  rewrite (pteq_Z _ _ _ _ _ _ PP PA), (pteq_Z _ _ _ _ _ _ PP PB).
  rewrite (collinear_Z _ _ _ _ _ _ _ _ _ PA PB PP) by assumption.
  destruct PA as [Ax Ay], PB as [Bx By], PP as [Px Py].
  rewrite (isz_feqb _ _ _ _ Ay By), (isz_feqb _ _ _ _ Ax Bx), (isz_feqb _ _ _ _ Py By),
    (isz_feqb _ _ _ _ Px Bx), (isz_fge _ _ _ _ Py Ay), (isz_fle _ _ _ _ Py By),
    (isz_flt _ _ _ _ Px R1), (isz_fgt _ _ _ _ Px R3), (isz_feqb _ _ _ _ R2 R4).
  assert (EA : forall u v, cross u v bx by_ u v = 0) by (intros; unfold cross; ring).
  assert (EB : forall u v, cross ax ay u v u v = 0) by (intros; unfold cross; ring).
  destruct (((x =? ax) && (y =? ay)) || ((x =? bx) && (y =? by_))) eqn:E1.
  { assert (O : onb ax ay bx by_ x y = true); [|now rewrite O].
    apply onb_iff, onZ_iff. apply orb_true_iff in E1. rewrite !andb_true_iff, !Z.eqb_eq in E1.
    destruct E1 as [[-> ->]|[-> ->]]; [rewrite EA|rewrite EB]; lia. }
  destruct ((ay =? by_) && (ax =? bx)) eqn:E2.
  { assert (ax = bx /\ ay = by_) as [<- <-] by lia.
    assert (O : onb ax ay ax ay x y = false).
    { apply not_true_iff_false. rewrite onb_iff, onZ_iff. lia. }
    rewrite O. replace (y <? ay) with false by lia. reflexivity. }
  destruct ((ay =? by_) && (y =? by_) && negb ((x <? Z.min ax bx) || (Z.max ax bx <? x))) eqn:E3.
  { assert (ay = by_ /\ y = by_ /\ Z.min ax bx <= x <= Z.max ax bx) as (<- & -> & X) by lia.
    assert (O : onb ax ay bx ay x ay = true); [|now rewrite O].
    apply onb_iff, onZ_iff. unfold cross. split; [exact X|]. split; [lia|ring]. }
  destruct ((ax =? bx) && (x =? bx) && ((ay <=? y) && (y <=? by_))) eqn:E4.
  { assert (ax = bx /\ x = bx) as (<- & ->) by lia.
    assert (O : onb ax ay ax by_ ax y = true); [|now rewrite O].
    apply onb_iff, onZ_iff. unfold cross. split; [lia|]. split; [lia|ring]. }
  destruct (Z.eq_dec ay by_) as [EY|NY].
  - (* horizontal, p not over it *)
    subst by_. assert (y = ay) by lia. subst y.
    assert (NX : ax <> bx) by lia.
    replace (ax =? bx) with false by lia.
    replace (cross ax ay bx ay x ay =? 0) with true by (unfold cross; lia).
    rewrite !Z.eqb_refl, !Z.ltb_irrefl. cbn [andb].
    assert (O : onb ax ay bx ay x ay = false).
    { apply not_true_iff_false. rewrite onb_iff, onZ_iff. lia. }
    rewrite O. destruct (x <? Z.min ax bx); [reflexivity|].
    destruct (Z.max ax bx <? x) eqn:?; [reflexivity|]. exfalso. lia.
  - assert (LY : ay < by_) by lia.
    destruct (if ax =? bx then ax =? x else cross ax ay bx by_ x y =? 0) eqn:E5.
    + assert (C0 : cross ax ay bx by_ x y = 0).
      { destruct (Z.eqb_spec ax bx) as [<-|]; [|lia]. apply Z.eqb_eq in E5. subst x. unfold cross. ring. }
      pose proof (onb_line _ _ _ _ _ _ LY B C0) as OL.
      assert (O : onb ax ay bx by_ x y = true).
      { apply onb_iff, onZ_iff. lia. }
      rewrite O. replace (x <? Z.min ax bx) with false by lia. replace (Z.max ax bx <? x) with false by lia.
      reflexivity.
    + assert (C0 : cross ax ay bx by_ x y <> 0).
      { destruct (Z.eqb_spec ax bx) as [<-|]; [|lia]. apply Z.eqb_neq in E5. unfold cross.
        replace ((x - ax) * (by_ - ay) - (y - ay) * (ax - ax)) with ((x - ax) * (by_ - ay)) by ring.
        intros H. apply Z.mul_eq_0 in H. lia. }
      rewrite (tail_Z r a b p ax ay bx by_ x y) by (assumption || lia).
      rewrite tailZ_spec by assumption.
      assert (O : onb ax ay bx by_ x y = false).
      { unfold onb. replace (cross ax ay bx by_ x y =? 0) with false by lia. apply andb_false_r. }
      now rewrite O.
Qed.

(** lower end first *)
Definition crossb (ax ay bx by_ x y : Z) : bool :=
  if by_ <? ay then (by_ <=? y) && (y <? ay) && (cross bx by_ ax ay x y <? 0)
  else (ay <=? y) && (y <? by_) && (cross ax ay bx by_ x y <? 0).

Lemma raycast_Z s p ax ay bx by_ x y :
  boundp (sa s) ax ay -> boundp (sb s) bx by_ -> boundp p x y ->
  raycast s p = if onb ax ay bx by_ x y then ROn
                else if crossb ax ay bx by_ x y then RIn else ROut.
Proof.
  intros HA HB HP.
  pose proof HA as [[Ax Ay] _]. pose proof HB as [[Bx By] _]. pose proof HP as [[Px Py] _].
  assert (RP : rectp (tg_segment_rect s) (Z.min ax bx) (Z.min ay by_) (Z.max ax bx) (Z.max ay by_)).
  { split; split; cbn [tg_segment_rect rmin rmax px py]; (apply isz_min || apply isz_max); assumption. }
  pose proof RP as [[R1 R2] [R3 R4]].
  unfold raycast. set (r := tg_segment_rect s) in *. cbv zeta.
  rewrite (isz_flt _ _ _ _ Py R2), (isz_fgt _ _ _ _ Py R4).
  destruct ((y <? Z.min ay by_) || (Z.max ay by_ <? y)) eqn:E.
  { assert (O : onb ax ay bx by_ x y = false) by (unfold onb; lia). rewrite O.
    assert (C : crossb ax ay bx by_ x y = false).
    { unfold crossb. destruct (Z.ltb_spec by_ ay); lia. }
    now rewrite C. }
  rewrite (isz_flt _ _ _ _ By Ay), (isz_flt _ _ _ _ Px R1), (isz_fgt _ _ _ _ Px R3),
    (isz_fneb _ _ _ _ Py R2), (isz_fneb _ _ _ _ Py R4), (isz_fneb _ _ _ _ R2 R4), (isz_fneb _ _ _ _ R1 R3).
  assert (M : raycast_mid r (fst (if by_ <? ay then (sb s, sa s) else (sa s, sb s)))
      (snd (if by_ <? ay then (sb s, sa s) else (sa s, sb s))) p =
      if onb ax ay bx by_ x y then ROn else if crossb ax ay bx by_ x y then RIn else ROut).
  { unfold crossb. destruct (Z.ltb_spec by_ ay) as [L|L]; cbn [fst snd].
    - rewrite (mid_Z r (sb s) (sa s) p bx by_ ax ay x y); try assumption; try lia.
      + rewrite onb_swap. replace (by_ <=? y) with true by lia. reflexivity.
      + rewrite (Z.min_comm bx), (Z.max_comm bx). rewrite (Z.min_r ay), (Z.max_l ay) in RP by lia. exact RP.
    - rewrite (mid_Z r (sa s) (sb s) p ax ay bx by_ x y); try assumption; try lia.
      + replace (ay <=? y) with true by lia. reflexivity.
      + rewrite (Z.min_l ay), (Z.max_r ay) in RP by lia. exact RP. }
  rewrite M. clear M.
  destruct (Z.ltb_spec x (Z.min ax bx)) as [X|X].
  - destruct (negb (y =? Z.min ay by_) && negb (y =? Z.max ay by_)) eqn:E6; [|reflexivity].
    assert (O : onb ax ay bx by_ x y = false) by (unfold onb; lia). rewrite O.
    assert (C : crossb ax ay bx by_ x y = true); [|now rewrite C].
    unfold crossb, cross. destruct (Z.ltb_spec by_ ay) as [L|L].
    + replace (by_ <=? y) with true by lia. replace (y <? ay) with true by lia. cbn [andb].
      apply Z.ltb_lt. nia.
    + replace (ay <=? y) with true by lia. replace (y <? by_) with true by lia. cbn [andb].
      apply Z.ltb_lt. nia.
  - destruct (Z.ltb_spec (Z.max ax bx) x) as [X'|X']; [|reflexivity].
    destruct (negb (Z.min ay by_ =? Z.max ay by_) && negb (Z.min ax bx =? Z.max ax bx)) eqn:E7; [|reflexivity].
    assert (O : onb ax ay bx by_ x y = false) by (unfold onb; lia). rewrite O.
    assert (C : crossb ax ay bx by_ x y = false); [|now rewrite C].
    unfold crossb, cross. destruct (Z.ltb_spec by_ ay) as [L|L].
    + apply andb_false_iff. right. apply Z.ltb_ge. nia.
    + apply andb_false_iff. right. apply Z.ltb_ge. nia.
Qed.

Lemma ray_crosses_Z s p ax ay bx by_ x y : ispt (sa s) ax ay -> ispt (sb s) bx by_ -> ispt p x y ->
  ray_crosses s p <-> crossb ax ay bx by_ x y = true.
Proof.
  intros A B [[_ Vx] [_ Vy]]. unfold ray_crosses, xR, yR.
  assert (LO := fun u v => lies_on_Z s ax ay bx by_ u v A B).
  destruct A as [[_ Ax] [_ Ay]], B as [[_ Bx] [_ By]]. rewrite Ax, Bx, Ay, By, Vx, Vy || rewrite Ay, By, Vx, Vy.
  rewrite <- IZR_min, <- IZR_max.
  assert (K : forall ux uy vx vy, uy <= y < vy ->
    (exists u, on_segment (IZR ux) (IZR uy) (IZR vx) (IZR vy) u (IZR y) /\ (IZR x < u)%R) <->
    cross ux uy vx vy x y < 0).
  { intros ux uy vx vy R.
    assert (P : (0 < IZR vy - IZR uy)%R) by (rewrite <- minus_IZR; apply IZR_lt; lia).
    split.
    - intros (u & (t & T & U & Y) & H).
      apply lt_IZR. rewrite <- cross_IZR.
      replace ((IZR y - IZR uy) * (IZR vx - IZR ux))%R with ((u - IZR ux) * (IZR vy - IZR uy))%R; [nra|].
      rewrite U, Y. ring.
    - intros C. apply IZR_lt in C. rewrite <- cross_IZR in C.
      set (t := ((IZR y - IZR uy) / (IZR vy - IZR uy))%R).
      assert (ET : (t * (IZR vy - IZR uy) = IZR y - IZR uy)%R) by (unfold t; field; lra).
      assert (R1 : (0 <= IZR y - IZR uy)%R) by (rewrite <- minus_IZR; apply IZR_le; lia).
      assert (R2 : (IZR y - IZR uy <= IZR vy - IZR uy)%R) by (rewrite <- !minus_IZR; apply IZR_le; lia).
      exists (IZR ux + t * (IZR vx - IZR ux))%R. split.
      + exists t. split; [|split; [reflexivity|lra]]. split; nra.
      + rewrite <- ET in C. apply Rmult_lt_reg_r with (IZR vy - IZR uy)%R; [exact P|]. nra. }
  assert (SW : forall u v, lies_on s u v <-> on_segment (IZR bx) (IZR by_) (IZR ax) (IZR ay) u v).
  { intros u v. rewrite LO, !on_segment_iff.
    rewrite (Rmin_comm (IZR bx)), (Rmax_comm (IZR bx)), (Rmin_comm (IZR by_)), (Rmax_comm (IZR by_)).
    split; intros (H1 & H2 & H3); (split; [exact H1|split; [exact H2|lra]]). }
  unfold crossb. destruct (Z.ltb_spec by_ ay) as [L|L].
  - rewrite Z.min_r, Z.max_l by lia. rewrite !andb_true_iff, Z.leb_le, !Z.ltb_lt. split.
    + intros ([L1 L2] & u & H1 & H2). apply le_IZR in L1. apply lt_IZR in L2.
      split; [lia|]. apply K; [lia|]. exists u. rewrite <- SW. now split.
    + intros ([L1 L2] & C). split; [split; [now apply IZR_le|now apply IZR_lt]|].
      apply K in C; [|lia]. destruct C as (u & H1 & H2). exists u. rewrite SW. now split.
  - rewrite Z.min_l, Z.max_r by lia. rewrite !andb_true_iff, Z.leb_le, !Z.ltb_lt. split.
    + intros ([L1 L2] & u & H1 & H2). apply le_IZR in L1. apply lt_IZR in L2.
      split; [lia|]. apply K; [lia|]. exists u. rewrite <- LO. now split.
    + intros ([L1 L2] & C). split; [split; [now apply IZR_le|now apply IZR_lt]|].
      apply K in C; [|lia]. destruct C as (u & H1 & H2). exists u. rewrite LO. now split.
Qed.

Lemma int_point_bound p : int_point 24 p -> exists x y, boundp p x y.
Proof. intros H. destruct (int_point_Z _ _ H) as (x & y & A & B & C). exists x, y. now split. Qed.

Theorem raycast_exact s p : int_segment 24 s -> int_point 24 p ->
  (raycast s p = ROn <-> lies_on s (xR p) (yR p)) /\
  (raycast s p = RIn <-> ~ lies_on s (xR p) (yR p) /\ ray_crosses s p).
Proof.
  intros [Ha Hb] Hp.
  destruct (int_point_bound _ Ha) as (ax & ay & A). destruct (int_point_bound _ Hb) as (bx & by_ & B).
  destruct (int_point_bound _ Hp) as (x & y & P).
  rewrite (raycast_Z s p ax ay bx by_ x y A B P).
  rewrite (ray_crosses_Z s p ax ay bx by_ x y (proj1 A) (proj1 B) (proj1 P)).
  rewrite (lies_on_Z s _ _ _ _ _ _ (proj1 A) (proj1 B)). unfold xR, yR.
  destruct P as [[[_ ->] [_ ->]] _]. change (on_segment _ _ _ _ _ _) with (onZ ax ay bx by_ x y).
  rewrite <- onb_iff.
  destruct (onb ax ay bx by_ x y), (crossb ax ay bx by_ x y); intuition congruence.
Qed.
