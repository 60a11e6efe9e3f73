(** * strtod rounds back to the double whose rounding interval holds the decimal *)

From Coq Require Import ZArith Bool String List Lia ZifyBool Reals Lra Psatz.
From Coq Require Import Floats.SpecFloat.
From Flocq Require Import Core Operations BinarySingleNaN.
From Verif Require Import F64 Geo F64Order F64Real Bytes Writer Num NumFacts.
Import ListNotations.
Local Open Scope Z_scope.

Lemma DR_pos_exp m e : 0 <= e -> DR m e = IZR (m * 10 ^ e).
Proof.
  intros H. unfold DR, F2R. cbn [Fnum Fexp]. rewrite mult_IZR.
  now rewrite (IZR_Zpower radix10 e H : IZR (10 ^ e) = bpow radix10 e).
Qed.
Lemma DR_neg_exp m e : e <= 0 -> DR m e = (IZR m / IZR (10 ^ (- e)))%R.
Proof.
  intros H. unfold DR, F2R. cbn [Fnum Fexp].
  rewrite (IZR_Zpower radix10 (- e) ltac:(lia) : IZR (10 ^ (- e)) = bpow radix10 (- e)).
  replace e with (- - e) at 1 by lia. now rewrite (bpow_opp radix10 (- e)).
Qed.

Definition cond_Ropp (b : bool) (x : R) : R := if b then (- x)%R else x.

Lemma F2R_int p neg : F2R (Float radix2 (cond_Zopp neg (Zpos p)) 0) = cond_Ropp neg (IZR (Zpos p)).
Proof.
  unfold F2R. cbn [Fnum Fexp bpow]. rewrite Rmult_1_r. destruct neg; cbn [cond_Zopp cond_Ropp];
  [now rewrite opp_IZR|reflexivity].
Qed.

Lemma dec_round_correct neg m e : 0 < m ->
  let v := rnd64 (cond_Ropp neg (DR m e)) in
  (Rabs v < bpow radix2 1024)%R ->
  fin (dec_round neg m e) /\ RV (dec_round neg m e) = v /\ f_sign (dec_round neg m e) = neg.
Proof.
  intros Hm v Hv. destruct m as [|p|p]; try lia. unfold dec_round.
  assert (Fin : forall z, valid_binary 53 1024 z = true -> SF2R radix2 z = v -> is_finite_SF z = true ->
                sign_SF z = neg ->
                fin (f_enc z) /\ RV (f_enc z) = v /\ f_sign (f_enc z) = neg).
  { intros z Z1 Z2 Z3 Z4. split; [now apply finite_SF_fin|]. split; [now rewrite RV_enc|].
    pose proof (finite_SF_fin z Z1 Z3) as F. pose proof (fin_dec _ F) as S.
    rewrite (f_dec_enc z Z1) in S.
    rewrite <- Z4. clear - S. revert S. generalize (f_enc z). intros x S. destruct S; assumption. }
  destruct (0 <=? e) eqn:E.
  - assert (Hp : 0 < Zpos p * 10 ^ e).
    { apply Z.mul_pos_pos; [lia|]. apply Z.pow_pos_nonneg; lia. }
    destruct (Zpos p * 10 ^ e) as [|n|n] eqn:En; try lia.
    rewrite binary_round_equiv.
    pose proof (binary_round_correct 53 1024 _ _ mode_NE neg n 0) as C. cbv zeta in C.
    destruct C as [C1 C2].
    rewrite F2R_int, <- En, <- DR_pos_exp in C2 by lia. fold v in C2.
    rewrite Rlt_bool_true in C2 by assumption. destruct C2 as (C2 & C3 & C4).
    now apply Fin.
  - assert (Hp : 0 < 10 ^ (- e)) by (apply Z.pow_pos_nonneg; lia).
    destruct (10 ^ (- e)) as [|d|d] eqn:Ed; try lia.
    pose proof (Bdiv_correct_aux 53 1024 _ _ mode_NE neg p 0 false d 0) as C. cbv zeta in C.
    destruct (SFdiv_core_binary 53 1024 (Zpos p) 0 (Zpos d) 0) as [[mz ez] lz].
    rewrite binary_round_aux_equiv. rewrite xorb_false_r in C.
    destruct C as [C1 C2]. rewrite !F2R_int in C2. cbn [cond_Ropp] in C2.
    assert (Hq : (cond_Ropp neg (IZR (Zpos p)) / IZR (Zpos d))%R = cond_Ropp neg (DR (Zpos p) e)).
    { rewrite DR_neg_exp, Ed by lia. unfold cond_Ropp, Rdiv. destruct neg; ring. }
    rewrite Hq in C2. fold v in C2.
    rewrite Rlt_bool_true in C2 by assumption. destruct C2 as (C2 & C3 & C4).
    now apply Fin.
Qed.

Lemma fin_eq x y : fin x -> fin y -> RV x = RV y -> f_sign x = f_sign y -> x = y.
Proof.
  intros Fx Fy HR HS. pose proof (proj2 (key_eq_R x y Fx Fy) HR) as K.
  unfold f_key, f_mag in K. rewrite HS in K. destruct (f_sign y); lia.
Qed.

(** ** The rounding interval of m2 * 2^E *)
Section interval.
Variables (m2 E : Z).
Hypothesis Hm : p52 <= m2 < 2 * p52.
Hypothesis HE : -1074 <= E <= 971.

Let B (k : Z) : R := bpow radix2 k.
(** n quarters of the last place *)
Definition quarter (n : Z) : R := F2R (Float radix2 n (E - 2)).

Lemma quarter_4 n : quarter (4 * n) = F2R (Float radix2 n E).
Proof.
  unfold quarter, F2R. cbn [Fnum Fexp]. rewrite mult_IZR.
  replace E with (2 + (E - 2)) at 2 by lia. rewrite bpow_plus.
  change (bpow radix2 2) with 4%R. ring.
Qed.
Lemma quarter_le a b : a <= b -> (quarter a <= quarter b)%R.
Proof. intros. now apply F2R_le. Qed.

Lemma mag_quarter x k : 0 < k -> (quarter (2 ^ (k - 1)) <= x < quarter (2 ^ k))%R ->
  mag radix2 x = k + (E - 2) :> Z.
Proof.
  intros Hk H. apply mag_unique_pos. unfold quarter, F2R in H. cbn [Fnum Fexp] in H.
  rewrite !(IZR_Zpower radix2 _ : _ -> IZR (2 ^ _) = _) in H by lia.
  rewrite <- !bpow_plus in H.
  replace (k + (E - 2) - 1) with (k - 1 + (E - 2)) by lia. exact H.
Qed.

Lemma rnd_at x k : 53 <= k -> -1074 <= k + (E - 2) - 53 -> (quarter (2 ^ (k - 1)) <= x < quarter (2 ^ k))%R ->
  rnd64 x = F2R (Float radix2 (ZnearestE (x * bpow radix2 (- (k + (E - 2) - 53)))) (k + (E - 2) - 53)).
Proof.
  intros Hk He H. unfold round, scaled_mantissa, cexp.
  rewrite (mag_quarter x k ltac:(lia) H). rewrite fexp53.
  replace (Z.max (k + (E - 2) - 53) (-1074)) with (k + (E - 2) - 53) by lia. reflexivity.
Qed.

Lemma near_half n s : (s = 1 \/ s = -1) -> Z.even n = true ->
  ZnearestE (IZR n + IZR s / 2) = n.
Proof.
  intros Hs Hn. unfold Znearest. destruct Hs as [->| ->].
  - assert (Zfloor (IZR n + IZR 1 / 2) = n).
    { apply Zfloor_imp. rewrite plus_IZR. lra. }
    rewrite H. rewrite Rcompare_Eq by lra. now rewrite Hn.
  - assert (Zfloor (IZR n + IZR (-1) / 2) = n - 1).
    { apply Zfloor_imp. rewrite plus_IZR, minus_IZR. lra. }
    rewrite H, minus_IZR. rewrite Rcompare_Eq by lra.
    replace (Z.even (n - 1)) with false by (rewrite Z.even_sub, Hn; reflexivity). cbn [negb].
    apply Zceil_imp. rewrite minus_IZR. lra.
Qed.

Lemma quarter_scaled n : (quarter n * bpow radix2 (- E) = IZR n / 4)%R.
Proof.
  unfold quarter, F2R. cbn [Fnum Fexp]. rewrite Rmult_assoc, <- bpow_plus.
  replace (E - 2 + - E) with (-2) by lia. change (bpow radix2 (-2)) with (/ 4)%R. reflexivity.
Qed.

Lemma rnd_E x : (quarter (4 * p52) <= x < quarter (8 * p52))%R ->
  rnd64 x = F2R (Float radix2 (ZnearestE (x * bpow radix2 (- E))) E).
Proof.
  intros H. rewrite (rnd_at x 55).
  - replace (55 + (E - 2) - 53) with E by lia. reflexivity.
  - lia.
  - lia.
  - exact H.
Qed.

(** the lower bound of the interval: half a place below, or a quarter at a power
    of two whose lower neighbour has a smaller exponent *)
Definition low : Z := 4 * m2 - (if (m2 =? p52) && negb (E =? -1074) then 1 else 2).

Lemma rnd_x : rnd64 (quarter (4 * m2)) = F2R (Float radix2 m2 E).
Proof.
  rewrite rnd_E.
  - f_equal. f_equal. rewrite quarter_scaled, mult_IZR.
    replace (4 * IZR m2 / 4)%R with (IZR m2) by lra. apply Zrnd_IZR. apply valid_rnd_N.
  - split; [apply quarter_le; lia|]. apply F2R_lt. lia.
Qed.

Lemma rnd_high : Z.even m2 = true -> rnd64 (quarter (4 * m2 + 2)) = F2R (Float radix2 m2 E).
Proof.
  intros Hev. rewrite rnd_E.
  - f_equal. f_equal. rewrite quarter_scaled, plus_IZR, mult_IZR.
    replace ((4 * IZR m2 + 2) / 4)%R with (IZR m2 + IZR 1 / 2)%R by lra.
    now apply near_half; [left|].
  - split; [apply quarter_le; lia|]. apply F2R_lt. lia.
Qed.

Lemma rnd_low : Z.even m2 = true -> rnd64 (quarter low) = F2R (Float radix2 m2 E).
Proof.
  intros Hev. unfold low. destruct (m2 =? p52) eqn:E1.
  - apply Z.eqb_eq in E1. destruct (E =? -1074) eqn:E2; cbn [andb negb].
    + apply Z.eqb_eq in E2. unfold round, scaled_mantissa, cexp.
      assert (Hmag : mag radix2 (quarter (4 * m2 - 2)) = 54 + (E - 2) :> Z).
      { apply mag_quarter; [lia|]. rewrite E1. split.
        - apply quarter_le. unfold p52. lia.
        - apply F2R_lt. unfold p52. lia. }
      rewrite Hmag, fexp53. replace (Z.max (54 + (E - 2) - 53) (-1074)) with E by lia.
      f_equal. f_equal. rewrite quarter_scaled, minus_IZR, mult_IZR.
      replace ((4 * IZR m2 - 2) / 4)%R with (IZR m2 + IZR (-1) / 2)%R by lra.
      now apply near_half; [right|].
    + rewrite (rnd_at _ 54).
      * replace (54 + (E - 2) - 53) with (E - 1) by lia.
        assert (Hs : (quarter (4 * m2 - 1) * bpow radix2 (- (E - 1)) = IZR (2 * m2) + IZR (-1) / 2)%R).
        { replace (- (E - 1)) with (1 + - E) by lia. rewrite bpow_plus, (Rmult_comm (bpow radix2 1)).
          rewrite <- Rmult_assoc, quarter_scaled. change (bpow radix2 1) with 2%R.
          rewrite minus_IZR, !mult_IZR. lra. }
        rewrite Hs. rewrite near_half; [|now right|now rewrite Z.even_mul].
        unfold F2R. cbn [Fnum Fexp]. rewrite mult_IZR.
        replace E with (1 + (E - 1)) at 2 by lia. rewrite bpow_plus.
        change (bpow radix2 1) with 2%R. ring.
      * lia.
      * lia.
      * rewrite E1. split; [apply quarter_le; unfold p52; lia|apply F2R_lt; unfold p52; lia].
  - cbn [andb]. rewrite rnd_E.
    + f_equal. f_equal. rewrite quarter_scaled, minus_IZR, mult_IZR.
      replace ((4 * IZR m2 - 2) / 4)%R with (IZR m2 + IZR (-1) / 2)%R by lra.
      now apply near_half; [right|].
    + split; [apply quarter_le; lia|]. apply F2R_lt. lia.
Qed.

Lemma rnd_interval v :
  (if Z.even m2 then (quarter low <= v <= quarter (4 * m2 + 2))%R
   else (quarter low < v < quarter (4 * m2 + 2))%R) ->
  rnd64 v = F2R (Float radix2 m2 E).
Proof.
  destruct (Z.even m2) eqn:Hev.
  - intros [H1 H2]. apply Rle_antisym.
    + rewrite <- (rnd_high Hev). apply round_le; [apply fexp_correct; exact Hprec53|apply valid_rnd_round_mode|assumption].
    + rewrite <- (rnd_low Hev). apply round_le; [apply fexp_correct; exact Hprec53|apply valid_rnd_round_mode|assumption].
  - intros [H1 H2].
    assert (Hne : m2 <> p52) by (intros ->; vm_compute in Hev; discriminate).
    unfold low in H1. replace (m2 =? p52) with false in H1 by lia. cbn [andb] in H1.
    rewrite rnd_E.
    + f_equal. f_equal. apply Znearest_imp.
      assert (L : forall a b, (a < b)%R -> (a * bpow radix2 (- E) < b * bpow radix2 (- E))%R).
      { intros a b. apply Rmult_lt_compat_r, bpow_gt_0. }
      apply L in H1. apply L in H2. rewrite quarter_scaled in H1, H2.
      rewrite minus_IZR, mult_IZR in H1. rewrite plus_IZR, mult_IZR in H2.
      apply Rabs_lt. lra.
    + split.
      * apply Rlt_le. eapply Rle_lt_trans; [|exact H1]. apply quarter_le. lia.
      * eapply Rlt_le_trans; [exact H2|]. apply quarter_le. lia.
Qed.
End interval.

(** ** for a normal double *)
Definition man (x : f64) : Z := f_mag x mod p52.
Definition exq (x : f64) : Z := f_mag x / p52.

Lemma normal_parts x : f_wf x = true -> f_isnormal x = true ->
  fin x /\ 1 <= exq x <= 2046 /\ 0 <= man x < p52 /\
  RV x = cond_Ropp (f_sign x) (F2R (Float radix2 (p52 + man x) (exq x - 1075))).
Proof.
  intros W N. unfold f_isnormal in N.
  assert (F : fin x). { split; [assumption|]. unfold f_isfinite. lia. }
  assert (Hq : 1 <= exq x <= 2046 /\ 0 <= man x < p52).
  { unfold exq, man. pose proof (Z.div_mod (f_mag x) p52). pose proof (Z.mod_pos_bound (f_mag x) p52).
    unfold p52, inf_mag in *. lia. }
  split; [assumption|]. split; [tauto|]. split; [tauto|].
  unfold RV, f_dec. fold (exq x) (man x).
  replace (exq x =? 0) with false by lia. replace (exq x =? 2047) with false by lia.
  destruct (man x + p52) as [|p|p] eqn:Ep; try lia.
  cbn [SF2R]. replace (p52 + man x) with (Zpos p) by lia.
  destruct (f_sign x); cbn [cond_Zopp cond_Ropp]; [now rewrite F2R_Zopp|reflexivity].
Qed.

(** the decimal m*10^e lies in the rounding interval of x *)
Definition in_interval (x : f64) (m e : Z) : Prop :=
  let m2 := p52 + man x in let E := exq x - 1075 in
  if Z.even m2 then (quarter E (low m2 E) <= DR m e <= quarter E (4 * m2 + 2))%R
  else (quarter E (low m2 E) < DR m e < quarter E (4 * m2 + 2))%R.

Lemma DR_pos m e : 0 < m -> (0 < DR m e)%R.
Proof. intros H. unfold DR. now apply F2R_gt_0. Qed.

Theorem dec_round_interval x m e : f_wf x = true -> f_isnormal x = true -> 0 < m ->
  in_interval x m e -> dec_round (f_sign x) m e = x.
Proof.
  intros W N M HI. destruct (normal_parts x W N) as (F & HQ & HM & HV).
  pose proof (rnd_interval (p52 + man x) (exq x - 1075) ltac:(lia) ltac:(lia) (DR m e) HI) as HR.
  assert (HR' : rnd64 (cond_Ropp (f_sign x) (DR m e)) = RV x).
  { rewrite HV. destruct (f_sign x); cbn [cond_Ropp]; [|exact HR].
    rewrite <- HR. exact (round_NE_opp radix2 (SpecFloat.fexp 53 1024) (DR m e)). }
  destruct (dec_round_correct (f_sign x) m e M) as (D1 & D2 & D3).
  - rewrite HR', HV. replace (Rabs (cond_Ropp (f_sign x) _)) with (Rabs (F2R (Float radix2 (p52 + man x) (exq x - 1075)))).
    2:{ destruct (f_sign x); cbn [cond_Ropp]; [now rewrite Rabs_Ropp|reflexivity]. }
    rewrite <- F2R_Zabs, Z.abs_eq by lia.
    apply Rlt_le_trans with (F2R (Float radix2 (2 ^ 53) (exq x - 1075))).
    { apply F2R_lt. unfold p52 in *. lia. }
    unfold F2R. cbn [Fnum Fexp]. rewrite (IZR_Zpower radix2 53 : _ -> IZR (2 ^ 53) = _) by lia.
    rewrite <- bpow_plus. apply bpow_le. lia.
  - apply fin_eq; auto. congruence.
Qed.
