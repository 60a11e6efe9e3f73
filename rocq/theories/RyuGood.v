(** * The Ryu code of tg.c prints every normal double into its rounding interval *)

From Coq Require Import ZArith Bool List Lia ZifyBool Znumtheory Zpow_facts Reals Lra.
From Flocq Require Import Core.
From Verif Require Import F64 Num Pow5Tab NumFacts NumRound NumPrint RyuTab RyuStep.
Import ListNotations.
Local Open Scope Z_scope.

(** ** Divisibility by powers of five *)

Lemma pow5Factor_ok : forall fuel v c, 0 < v < 2 ^ 64 -> v < 5 ^ Z.of_nat fuel ->
  exists k, pow5Factor fuel v c = Some (c + k) /\ 0 <= k /\ (5 ^ k | v) /\ ~ (5 ^ (k + 1) | v).
Proof.
  induction fuel as [|fuel IH]; intros v c Hv Hf; [change (5 ^ Z.of_nat 0) with 1 in Hf; lia|].
  cbn [pow5Factor]. replace (v =? 0) with false by lia.
  set (w := u64 (v * 14757395258967641293)).
  assert (Hw : 0 <= w < 2 ^ 64) by (apply Z.mod_pos_bound; reflexivity).
  assert (H5 : (5 * w) mod 2 ^ 64 = v).
  { unfold w, u64. change 18446744073709551616 with (2 ^ 64). rewrite Zmult_mod_idemp_r.
    replace (5 * (v * 14757395258967641293)) with (v + v * 4 * 2 ^ 64) by ring.
    rewrite Z.mod_add by discriminate. apply Z.mod_small. lia. }
  clearbody w. change (2 ^ 64) with 18446744073709551616 in *.
  destruct (Z.ltb_spec 3689348814741910323 w) as [L|L].
  - exists 0. split; [f_equal; lia|]. split; [lia|]. split; [exists v; ring|].
    change (5 ^ (0 + 1)) with 5. intros [u Hu]. Z.to_euclidean_division_equations; lia.
  - rewrite Z.mod_small in H5 by lia.
    destruct (IH w (c + 1)) as (k & E & K0 & [a Ka] & Kn).
    + lia.
    + rewrite Nat2Z.inj_succ, Z.pow_succ_r in Hf by lia. lia.
    + exists (k + 1). split; [rewrite E; f_equal; lia|]. split; [lia|].
      rewrite !(Z.pow_add_r 5 _ 1) by lia. change (5 ^ 1) with 5. split.
      * exists a. rewrite <- H5, Ka. ring.
      * intros [b Hb]. apply Kn. exists b. rewrite (Z.pow_add_r 5 k 1) in * by lia. change (5 ^ 1) with 5 in *. lia.
Qed.

Lemma pow5_ok v p : 0 < v < 2 ^ 64 -> 0 <= p ->
  exists b, multipleOfPowerOf5 v p = Some b /\ (b = true <-> (5 ^ p | v)).
Proof.
  intros Hv Hp. unfold multipleOfPowerOf5. destruct (pow5Factor_ok 65 v 0 Hv) as (k & -> & K0 & K1 & K2).
  { change (5 ^ Z.of_nat 65) with (2 ^ 64 * 146936793852785938496 + 17009398069047099333 + (5 ^ Z.of_nat 65 - (2 ^ 64 * 146936793852785938496 + 17009398069047099333))).
    assert (2 ^ 64 < 5 ^ 65) by reflexivity. change (Z.of_nat 65) with 65. lia. }
  exists (p <=? 0 + k). split; [reflexivity|]. rewrite Z.leb_le. split; intros H.
  - apply Z.divide_trans with (5 ^ k); [|assumption]. exists (5 ^ (k - p)). rewrite <- Z.pow_add_r by lia. f_equal. lia.
  - destruct (Z.le_gt_cases p k) as [L|L]; [lia|exfalso]. apply K2.
    apply Z.divide_trans with (5 ^ p); [|assumption]. exists (5 ^ (p - (k + 1))). rewrite <- Z.pow_add_r by lia. f_equal. lia.
Qed.

Lemma gauss a b k x : rel_prime a b -> 0 <= k -> 0 <= x -> forall n, (a ^ x | n * b ^ k) -> (a ^ x | n).
Proof.
  intros HR Hk Hx n H. rewrite Z.mul_comm in H. apply Gauss with (b ^ k); [assumption|].
  apply rel_prime_Zpower; assumption.
Qed.
Lemma rp52 : rel_prime 5 2. Proof. apply Zgcd_1_rel_prime. reflexivity. Qed.
Lemma rp25 : rel_prime 2 5. Proof. apply Zgcd_1_rel_prime. reflexivity. Qed.

(** ** Step 3 *)

Lemma mulShift64_ok n mul j : word (fst mul) = true -> word (snd mul) = true -> 64 <= j < 192 ->
  0 <= n < 2 ^ 64 -> mulShift64 n mul j = Some (u64 (n * (fst mul + snd mul * 2 ^ 64) / 2 ^ j)).
Proof.
  intros W1 W2 Hj Hn. unfold mulShift64. replace ((0 <=? j - 64) && (j - 64 <? 128)) with true by lia.
  destruct mul as [lo hi]; cbn [fst snd] in *. unfold word in W1, W2.
  assert (Hs : 0 <= n * lo / 2 ^ 64 + n * hi < 2 ^ 128).
  { change (2 ^ 128) with (2 ^ 64 * 2 ^ 64). change (2 ^ 64) with 18446744073709551616 in *.
    assert (0 <= n * lo / 18446744073709551616) by (apply Z.div_pos; nia).
    assert (n * lo / 18446744073709551616 < 18446744073709551616) by (apply Z.div_lt_upper_bound; nia).
    nia. }
  rewrite Z.mod_small by assumption. do 2 f_equal.
  replace (n * (lo + hi * 2 ^ 64)) with (n * lo + n * hi * 2 ^ 64) by ring.
  rewrite <- Z.div_add by discriminate.
  rewrite Z.div_div; [|discriminate|apply Z.pow_pos_nonneg; lia].
  rewrite <- Z.pow_add_r by lia. do 2 f_equal. lia.
Qed.

Lemma shift_all m2 mul j A D sh : 0 < D -> good_row mul j A D ->
  p52 <= m2 < 2 * p52 -> 0 <= sh <= 1 ->
  D <= A /\ NMAX * A < (2 ^ 64 - 1) * D /\
  mulShiftAll64 m2 mul j sh = Some (4 * m2 * A / D, (4 * m2 + 2) * A / D, (4 * m2 - 1 - sh) * A / D).
Proof.
  intros HD [H HC] Hm Hs. unfold chk_size in H.
  rewrite !andb_true_iff in H. destruct H as (((((W1 & W2) & J1) & J2) & HA) & HB).
  split; [lia|]. split; [lia|].
  assert (HM : forall n, 0 < n <= NMAX -> mulShift64 (u64 n) mul j = Some (n * A / D)).
  { intros n Hn. unfold u64 at 1. rewrite Z.mod_small by (unfold NMAX in *; lia).
    rewrite mulShift64_ok; [|assumption|assumption|lia|unfold NMAX in *; lia].
    assert (HS : 0 < 2 ^ j) by (apply Z.pow_pos_nonneg; lia).
    replace (n * (fst mul + snd mul * 2 ^ 64) / 2 ^ j) with (n * A / D).
    - f_equal. unfold u64. apply Z.mod_small. change 18446744073709551616 with (2 ^ 64).
      split; [apply Z.div_pos; nia|]. apply Z.div_lt_upper_bound; [assumption|].
      assert (n * A <= NMAX * A) by nia. lia.
    - symmetry. now apply HC. }
  unfold mulShiftAll64. unfold p52 in Hm.
  rewrite !HM by (unfold NMAX; lia). reflexivity.
Qed.

Section step3.
Variables m2 sh : Z.
Hypothesis Hm : p52 <= m2 < 2 * p52.
Hypothesis Hs : 0 <= sh <= 1.
Let ab := m2 mod 2 =? 0.
Let mm := 4 * m2 - 1 - sh.
Let mp := 4 * m2 + 2.

Lemma vp_big A D : 0 < D -> D <= A -> 1 <= mp * A / D.
Proof. intros HD HA. apply Z.div_le_lower_bound; [assumption|]. unfold mp, p52 in *. nia. Qed.

Lemma pred_vp A D : 0 < D -> D <= A -> NMAX * A < (2 ^ 64 - 1) * D -> u64 (mp * A / D - 1) = mp * A / D - 1.
Proof.
  intros HD HA HN. unfold u64. apply Z.mod_small. pose proof (vp_big A D HD HA).
  assert (mp * A / D < 2 ^ 64).
  { apply Z.div_lt_upper_bound; [assumption|]. unfold mp, NMAX, p52 in *. nia. }
  change 18446744073709551616 with (2 ^ 64). lia.
Qed.

Lemma pos_ok e2 : 0 <= e2 <= 969 ->
  exists s A D e10, d2d_pos m2 e2 sh ab = Some (s, e10) /\ 0 < D /\ D <= A /\ NMAX * A < (2 ^ 64 - 1) * D /\
    start D (mm * A) (4 * m2 * A) (mp * A) ab s /\ -400 <= e10 <= 400 /\
    (bpow radix2 e2 * IZR D = IZR A * bpow radix10 e10)%R.
Proof.
  intros He.
  destruct (all_pos e2 ltac:(lia)) as (q0 & mul0 & j0 & R & Hq1 & Hq2 & HC).
  unfold row_pos in R. unfold d2d_pos.
  destruct (log10Pow2 e2) as [l|]; [|discriminate]. cbv zeta in *. set (q := u32 (l - b2z (3 <? e2))) in *.
  destruct (pow5bits q) as [b|]; [|discriminate].
  destruct (nth_error DOUBLE_POW5_INV_SPLIT (Z.to_nat q)) as [mul|]; [|discriminate].
  match type of R with Some (_, _, ?x) = _ => set (jj := x) in *; clearbody jj end.
  injection R as <- <- <-.
  assert (Hq : 0 <= q <= e2 /\ q <= 400) by lia. clear Hq1 Hq2. clearbody q.
  set (A := 2 ^ (e2 - q)) in *. set (D := 5 ^ q) in *.
  assert (HD : 0 < D) by (apply Z.pow_pos_nonneg; lia).
  destruct (shift_all _ _ _ _ _ sh HD HC Hm Hs) as (HA & HN & ->). fold mp mm.
  assert (V64 : forall n, 0 < n <= NMAX -> 0 < n < 2 ^ 64) by (intros; unfold NMAX in *; lia).
  assert (B1 : 0 < mm <= NMAX) by (unfold mm, NMAX, p52 in *; lia).
  assert (B2 : 0 < 4 * m2 <= NMAX) by (unfold NMAX, p52 in *; lia).
  assert (B3 : 0 < mp <= NMAX) by (unfold mp, NMAX, p52 in *; lia).
  assert (DIV : forall n, (5 ^ q | n) -> (D | n * A)).
  { intros n H. apply Z.divide_mul_l. exact H. }
  assert (DIV2 : forall n, (D | n * A) -> (5 ^ q | n)).
  { intros n H. apply (gauss 5 2 (e2 - q) q rp52); [lia|lia|exact H]. }
  assert (DIV10 : forall n, (10 * D | n * A) -> (5 ^ (q + 1) | n)).
  { intros n H. apply (gauss 5 2 (e2 - q) (q + 1) rp52); [lia|lia|].
    apply Z.divide_trans with (10 * D); [|exact H]. exists 2. unfold D. rewrite Z.pow_add_r by lia.
    change (5 ^ 1) with 5. ring. }
  assert (HR : (bpow radix2 e2 * IZR D = IZR A * bpow radix10 q)%R).
  { rewrite <- (IZR_Zpower radix2 e2), <- (IZR_Zpower radix10 q) by lia. rewrite <- !mult_IZR. f_equal.
    change (radix2 ^ e2) with (2 ^ e2). change (radix10 ^ q) with (10 ^ q). unfold A, D.
    replace (2 ^ e2) with (2 ^ (e2 - q) * 2 ^ q) by (rewrite <- Z.pow_add_r by lia; f_equal; lia).
    change 10 with (2 * 5). rewrite Z.pow_mul_l. ring. }
  assert (FIN : forall s, start D (mm * A) (4 * m2 * A) (mp * A) ab s ->
    exists s' A0 D0 e10, Some (s, q) = Some (s', e10) /\ 0 < D0 /\ D0 <= A0 /\ NMAX * A0 < (2 ^ 64 - 1) * D0 /\
    start D0 (mm * A0) (4 * m2 * A0) (mp * A0) ab s' /\ -400 <= e10 <= 400 /\
    (bpow radix2 e2 * IZR D0 = IZR A0 * bpow radix10 e10)%R).
  { intros s St. exists s, A, D, q. repeat (split; [assumption || reflexivity || lia|]). assumption. }
  assert (ODD : q >= 22 -> ab = false -> ~ (10 * D | mp * A)).
  { intros Q O H. apply DIV10 in H.
    assert (H' : (5 ^ 23 | mp)).
    { apply Z.divide_trans with (5 ^ (q + 1)); [|exact H]. exists (5 ^ (q + 1 - 23)).
      rewrite <- Z.pow_add_r by lia. f_equal. lia. }
    destruct H' as [k Hk]. unfold ab in O. assert (M : m2 mod 2 = 1).
    { pose proof (Z.mod_pos_bound m2 2). lia. }
    assert (M8 : mp mod 8 = 6) by (unfold mp; clear -M; Z.to_euclidean_division_equations; lia).
    change (5 ^ 23) with 11920928955078125 in Hk. clear -Hk M8 B3. unfold NMAX in B3.
    Z.to_euclidean_division_equations; lia. }
  destruct (Z.leb_spec q 21) as [Q|Q].
  - rewrite mod32_mod by lia. destruct (Z.eqb_spec ((4 * m2) mod 5) 0) as [M5|M5].
    + destruct (pow5_ok (4 * m2) q) as (b5 & -> & _); [now apply V64|lia|]. apply FIN.
      constructor; cbn [d_vr d_vp d_vm d_vmz d_vrz d_last d_removed]; try reflexivity; [discriminate|].
      left. split; [reflexivity|]. intros _ H. apply DIV10 in H.
      assert (H' : (5 | mp)).
      { apply Z.divide_trans with (5 ^ (q + 1)); [|exact H]. exists (5 ^ q). rewrite Z.pow_add_r by lia. reflexivity. }
      destruct H' as [k Hk]. unfold mp in Hk. clear -Hk M5. Z.to_euclidean_division_equations; lia.
    + destruct ab eqn:EA.
      * destruct (pow5_ok mm q) as (b5 & E5 & HB); [now apply V64|lia|]. fold mm. rewrite E5. apply FIN.
        constructor; cbn [d_vr d_vp d_vm d_vmz d_vrz d_last d_removed]; try reflexivity.
        -- intros ->. split; [reflexivity|]. apply DIV. now apply HB.
        -- left. split; [reflexivity|discriminate].
      * destruct (pow5_ok mp q) as (b5 & E5 & HB); [now apply V64|lia|]. fold mp. rewrite E5. apply FIN.
        constructor; cbn [d_vr d_vp d_vm d_vmz d_vrz d_last d_removed]; try reflexivity; [discriminate|].
        destruct b5; cbn [b2z].
        -- right. rewrite pred_vp by assumption. split; [reflexivity|]. split; [reflexivity|]. apply DIV. now apply HB.
        -- left. rewrite Z.sub_0_r. split.
           ++ unfold u64. apply Z.mod_small. change 18446744073709551616 with (2 ^ 64).
              pose proof (vp_big A D HD HA). split; [lia|]. apply Z.div_lt_upper_bound; [assumption|].
              assert (mp * A <= NMAX * A) by nia. lia.
           ++ intros _ H. apply DIV10 in H.
              assert (false = true); [|discriminate]. apply HB.
              apply Z.divide_trans with (5 ^ (q + 1)); [|exact H]. exists 5. rewrite Z.pow_add_r by lia. ring.
  - apply FIN.
    constructor; cbn [d_vr d_vp d_vm d_vmz d_vrz d_last d_removed]; try reflexivity; [discriminate|].
    left. split; [reflexivity|]. apply ODD. lia.
Qed.

Lemma neg_ok e2 : -1076 <= e2 < 0 ->
  exists s A D e10, d2d_neg m2 e2 sh ab = Some (s, e10) /\ 0 < D /\ D <= A /\ NMAX * A < (2 ^ 64 - 1) * D /\
    start D (mm * A) (4 * m2 * A) (mp * A) ab s /\ -400 <= e10 <= 400 /\
    (bpow radix2 e2 * IZR D = IZR A * bpow radix10 e10)%R.
Proof.
  intros He.
  destruct (all_neg e2 ltac:(lia)) as (q0 & mul0 & j0 & R & Hq1 & Hq2 & HC).
  unfold row_neg in R. unfold d2d_neg.
  destruct (log10Pow5 (- e2)) as [l|]; [|discriminate]. cbv zeta in *. set (q := u32 (l - b2z (1 <? - e2))) in *.
  destruct (pow5bits (- e2 - q)) as [b|]; [|discriminate].
  destruct (nth_error DOUBLE_POW5_SPLIT (Z.to_nat (- e2 - q))) as [mul|]; [|discriminate].
  match type of R with Some (_, _, ?x) = _ => set (jj := x) in *; clearbody jj end.
  injection R as <- <- <-.
  assert (Hq : 0 <= q <= - e2 /\ - e2 - q <= 400) by lia. clear Hq1 Hq2. clearbody q.
  set (i := - e2 - q) in *.
  set (A := 5 ^ i) in *. set (D := 2 ^ q) in *.
  assert (HD : 0 < D) by (apply Z.pow_pos_nonneg; lia).
  destruct (shift_all _ _ _ _ _ sh HD HC Hm Hs) as (HA & HN & ->). fold mp mm.
  assert (HR : (bpow radix2 e2 * IZR D = IZR A * bpow radix10 (q + e2))%R).
  { replace (q + e2) with (- i) by (unfold i; lia). replace e2 with (- i - q) by (unfold i; lia).
    assert (Hi : 0 <= i) by (unfold i; lia). clearbody i. unfold D, A.
    change (2 ^ q) with (radix2 ^ q). rewrite IZR_Zpower by lia. rewrite <- bpow_plus.
    replace (- i - q + q) with (- i) by lia. rewrite !bpow_opp.
    rewrite <- (IZR_Zpower radix2 i), <- (IZR_Zpower radix10 i) by lia.
    change (radix2 ^ i) with (2 ^ i). change (radix10 ^ i) with ((2 * 5) ^ i). rewrite Z.pow_mul_l, mult_IZR.
    assert (IZR (2 ^ i) <> 0%R) by (apply IZR_neq; pose proof (Z.pow_pos_nonneg 2 i); lia).
    assert (IZR (5 ^ i) <> 0%R) by (apply IZR_neq; pose proof (Z.pow_pos_nonneg 5 i); lia).
    field. now split. }
  assert (FIN : forall s, start D (mm * A) (4 * m2 * A) (mp * A) ab s ->
    exists s' A0 D0 e10, Some (s, q + e2) = Some (s', e10) /\ 0 < D0 /\ D0 <= A0 /\ NMAX * A0 < (2 ^ 64 - 1) * D0 /\
    start D0 (mm * A0) (4 * m2 * A0) (mp * A0) ab s' /\ -400 <= e10 <= 400 /\
    (bpow radix2 e2 * IZR D0 = IZR A0 * bpow radix10 e10)%R).
  { intros s St. exists s, A, D, (q + e2). repeat (split; [assumption || reflexivity || lia|]). assumption. }
  assert (N10 : 2 <= q -> ~ (10 * D | mp * A)).
  { intros Q H. assert (H' : (2 ^ 2 | mp)).
    { apply (gauss 2 5 i 2 rp25); [lia|lia|]. fold A. apply Z.divide_trans with (10 * D); [|exact H].
      exists (10 * 2 ^ (q - 2)). unfold D. rewrite <- Z.mul_assoc, <- Z.pow_add_r by lia. do 2 f_equal. lia. }
    destruct H' as [k Hk]. change (2 ^ 2) with 4 in Hk. unfold mp in Hk. lia. }
  assert (DEV : forall n, q <= 1 -> (2 | n) -> (D | n * A)).
  { intros n Q [k ->]. assert (C : q = 0 \/ q = 1) by lia. unfold D. destruct C as [-> | ->].
    - exists (k * 2 * A). change (2 ^ 0) with 1. ring.
    - exists (k * A). change (2 ^ 1) with 2. ring. }
  destruct (Z.leb_spec q 1) as [Q|Q].
  - destruct ab eqn:EA; apply FIN;
      (constructor; cbn [d_vr d_vp d_vm d_vmz d_vrz d_last d_removed]; try reflexivity; try discriminate).
    + intros H. split; [reflexivity|]. apply DEV; [assumption|]. exists (2 * m2 - 1). unfold mm. lia.
    + left. split; [reflexivity|discriminate].
    + right. rewrite pred_vp by assumption. split; [reflexivity|]. split; [reflexivity|].
      apply DEV; [assumption|]. exists (2 * m2 + 1). unfold mp. lia.
  - assert (ST : forall z, start D (mm * A) (4 * m2 * A) (mp * A) ab
      (D2 (4 * m2 * A / D) (mp * A / D) (mm * A / D) false z 0 0)).
    { intros z. constructor; cbn [d_vr d_vp d_vm d_vmz d_vrz d_last d_removed]; try reflexivity; [discriminate|].
      left. split; [reflexivity|]. intros _. apply N10. lia. }
    destruct (Z.ltb_spec q 63) as [Q2|Q2]; [|apply FIN, ST].
    unfold multipleOfPowerOf2. replace ((4 * m2 =? 0) || (64 <=? q)) with false by (unfold p52 in *; lia).
    apply FIN, ST.
Qed.
End step3.

(** ** The whole of d2d *)

Lemma inside_interval A D e2 e10 o r : 0 < D ->
  (bpow radix2 e2 * IZR D = IZR A * bpow radix10 e10)%R -> 0 <= r ->
  (forall n, n * A <= o * 10 ^ r * D -> (F2R (Float radix2 n e2) <= DR o (e10 + r))%R) /\
  (forall n, n * A < o * 10 ^ r * D -> (F2R (Float radix2 n e2) < DR o (e10 + r))%R) /\
  (forall n, o * 10 ^ r * D <= n * A -> (DR o (e10 + r) <= F2R (Float radix2 n e2))%R) /\
  (forall n, o * 10 ^ r * D < n * A -> (DR o (e10 + r) < F2R (Float radix2 n e2))%R).
Proof.
  intros HD HR Hr.
  assert (PD : (0 < IZR D)%R) by (apply IZR_lt; assumption).
  pose proof (bpow_gt_0 radix10 e10) as PX.
  assert (E1 : forall n, (F2R (Float radix2 n e2) * IZR D = IZR (n * A) * bpow radix10 e10)%R).
  { intros n. unfold F2R. cbn [Fnum Fexp]. rewrite Rmult_assoc, HR, mult_IZR. ring. }
  assert (E2 : (DR o (e10 + r) * IZR D = IZR (o * 10 ^ r * D) * bpow radix10 e10)%R).
  { rewrite <- DR_scale by assumption. unfold DR, F2R. cbn [Fnum Fexp]. rewrite (mult_IZR _ D). ring. }
  repeat split; intros n Hn.
  - apply Rmult_le_reg_r with (IZR D); [assumption|]. rewrite E1, E2. apply Rmult_le_compat_r; [lra|]. now apply IZR_le.
  - apply Rmult_lt_reg_r with (IZR D); [assumption|]. rewrite E1, E2. apply Rmult_lt_compat_r; [lra|]. now apply IZR_lt.
  - apply Rmult_le_reg_r with (IZR D); [assumption|]. rewrite E1, E2. apply Rmult_le_compat_r; [lra|]. now apply IZR_le.
  - apply Rmult_lt_reg_r with (IZR D); [assumption|]. rewrite E1, E2. apply Rmult_lt_compat_r; [lra|]. now apply IZR_lt.
Qed.

Theorem d2d_always_good x : f_wf x = true -> f_isnormal x = true -> d2d_good x.
Proof.
  intros W N. destruct (normal_parts x W N) as (_ & HQ & HM & _). unfold d2d_good, d2d, in_interval.
  set (m2 := p52 + man x). set (E := exq x - 1075). replace (exq x =? 0) with false by lia. cbv zeta.
  replace (exq x - 1023 - 52 - 2) with (E - 2) by (unfold E; lia).
  set (sh := b2z (negb (man x =? 0) || (exq x <=? 1))). fold m2.
  assert (Hm : p52 <= m2 < 2 * p52) by (unfold m2; lia).
  assert (Hs : 0 <= sh <= 1) by (unfold sh; destruct (_ || _); cbn; lia).
  assert (Hlow : low m2 E = 4 * m2 - 1 - sh).
  { unfold low, sh, m2, E. destruct (Z.eqb_spec (man x) 0) as [E0|E0]; cbn [negb orb].
    - rewrite E0, Z.add_0_r, Z.eqb_refl. cbn [andb]. destruct (Z.leb_spec (exq x) 1); cbn [b2z].
      + replace (exq x - 1075 =? -1074) with true by lia. cbn [negb b2z]. lia.
      + replace (exq x - 1075 =? -1074) with false by lia. cbn [negb b2z]. lia.
    - replace (p52 + man x =? p52) with false by lia. cbn [andb b2z]. lia. }
  assert (Hsh : sh = 0 -> m2 = p52).
  { unfold sh, m2. destruct (Z.eqb_spec (man x) 0) as [E0|E0]; cbn [negb orb b2z]; lia. }
  rewrite Hlow. clear Hlow. clearbody sh. set (ab := m2 mod 2 =? 0).
  assert (HE2 : Z.even m2 = ab) by (unfold ab; rewrite Zmod_even; destruct (Z.even m2); reflexivity).
  assert (S3 : exists s A D e10, (if 0 <=? E - 2 then d2d_pos m2 (E - 2) sh ab else d2d_neg m2 (E - 2) sh ab) = Some (s, e10)
    /\ 0 < D /\ D <= A /\ NMAX * A < (2 ^ 64 - 1) * D /\
    start D ((4 * m2 - 1 - sh) * A) (4 * m2 * A) ((4 * m2 + 2) * A) ab s /\ -400 <= e10 <= 400 /\
    (bpow radix2 (E - 2) * IZR D = IZR A * bpow radix10 e10)%R).
  { destruct (Z.leb_spec 0 (E - 2)); [apply (pos_ok m2 sh Hm Hs); unfold E in *; lia|apply (neg_ok m2 sh Hm Hs); unfold E in *; lia]. }
  destruct S3 as (s & A & D & e10 & -> & HD & HA & HN & St & He & HR).
  assert (S4 : exists o r, (if d_vmz s || d_vrz s then d2d_general ab s else d2d_common s) = Some (o, r) /\
    inside D ((4 * m2 - 1 - sh) * A) ((4 * m2 + 2) * A) ab o r /\ 0 < o < 100000000000000000 /\ 0 <= r <= 50).
  { assert (X1 : 4 * m2 * A - 2 * A <= (4 * m2 - 1 - sh) * A <= 4 * m2 * A - A) by (clear -HA HD Hs; nia).
    assert (X2 : 0 < (4 * m2 - 1 - sh) * A) by (unfold p52 in Hm; clear -HA HD Hs Hm; nia).
    assert (X3 : (4 * m2 + 2) * A - (4 * m2 - 1 - sh) * A = (3 + sh) * A) by ring.
    assert (X4 : 0 < 3 + sh /\ 0 <= 4 * m2 + 2 /\ 11 * (4 * m2 + 2) <= (3 + sh) * 100000000000000000).
    { unfold p52 in *. destruct (Z.eq_dec sh 0) as [->|]; [rewrite Hsh by reflexivity; lia|]. assert (sh = 1) by lia. subst sh. lia. }
    assert (X5 : (4 * m2 + 2) * A < 2 ^ 64 * D).
    { assert ((4 * m2 + 2) * A <= NMAX * A) by (unfold NMAX, p52 in *; clear -HA HD Hm; nia). lia. }
    assert (X6 : (4 * m2 + 2) * A = 4 * m2 * A + 2 * A) by ring.
    destruct (d_vmz s || d_vrz s).
    - apply (general_ok D A ((4 * m2 - 1 - sh) * A) (4 * m2 * A) ((4 * m2 + 2) * A) (4 * m2 + 2) (3 + sh) ab); try assumption; reflexivity.
    - apply (common_ok D A ((4 * m2 - 1 - sh) * A) (4 * m2 * A) ((4 * m2 + 2) * A) (4 * m2 + 2) (3 + sh) ab); try assumption; reflexivity. }
  destruct S4 as (o & r & -> & HI & Ho & Hr).
  exists o, (e10 + r). split; [reflexivity|]. split; [assumption|]. split; [lia|].
  rewrite HE2. unfold inside in HI. unfold quarter.
  destruct (inside_interval A D (E - 2) e10 o r HD HR ltac:(lia)) as (I1 & I2 & I3 & I4).
  destruct ab; split; auto; first [apply I1|apply I2|apply I3|apply I4]; apply HI.
Qed.
