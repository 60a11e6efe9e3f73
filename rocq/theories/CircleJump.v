(** * Many equal additions at once *)

From Coq Require Import ZArith Bool List Lia ZifyBool Reals Lra PeanoNat.
From Coq Require Import Floats.SpecFloat.
From Flocq Require Import Core Operations BinarySingleNaN.
From Verif Require Import F64 Geo Series RingApi F64Order F64Real F64Mono StripeFacts Circle CircleFacts.
Import ListNotations.
Local Open Scope Z_scope.

(** the positive normal double of exponent field e and bits b *)
Lemma normal_bits e b : 1 <= e <= 2046 -> e * p52 <= b < (e + 1) * p52 ->
  fin b /\ f_sign b = false /\ RV b = (IZR (b - (e - 1) * p52) * bpow radix2 (e - 1075))%R.
Proof.
  intros E B.
  assert (S : f_sign b = false) by (unfold f_sign, p63, p52 in *; lia).
  assert (M : f_mag b = b) by (unfold f_mag; now rewrite S).
  assert (F : fin b) by (split; [unfold f_wf, p64, p52 in *; lia|unfold f_isfinite; rewrite M; unfold inf_mag, p52 in *; lia]).
  split; [exact F|]. split; [exact S|].
  assert (D : b / p52 = e) by (symmetry; apply (Z.div_unique _ _ _ (b - e * p52)); unfold p52 in *; lia).
  assert (R : b mod p52 = b - e * p52) by (rewrite Z.mod_eq by (unfold p52; lia); rewrite D; ring).
  unfold RV, f_dec. rewrite M, S, D, R.
  destruct (Z.eqb_spec e 0); [lia|]. destruct (Z.eqb_spec e 2047); [lia|].
  destruct (b - e * p52 + p52) as [|p|p] eqn:Q; [unfold p52 in *; lia| |unfold p52 in *; lia].
  cbn [SF2R cond_Zopp]. unfold F2R. cbn [Fnum Fexp]. rewrite <- Q. do 2 f_equal. ring.
Qed.

(** adding inc moves every double of the binade by q units *)
Lemma fadd_uniform e ei b inc q : 1 <= ei -> ei < e <= 2046 ->
  ei * p52 <= inc < (ei + 1) * p52 -> e * p52 <= b -> b + q < (e + 1) * p52 -> 0 <= q ->
  2 * Z.abs (2 ^ (e - ei) * q - (inc - (ei - 1) * p52)) < 2 ^ (e - ei) ->
  fadd b inc = b + q.
Proof.
  intros E1 E2 BI B1 B2 Q0 H.
  destruct (normal_bits ei inc ltac:(lia) BI) as (FI & SI & RI).
  destruct (normal_bits e b ltac:(lia) ltac:(lia)) as (FB & SB & RB).
  destruct (normal_bits e (b + q) ltac:(lia) ltac:(lia)) as (FQ & SQ & RQ).
  set (u := bpow radix2 (e - 1075)) in *. assert (U : (0 < u)%R) by apply bpow_gt_0.
  set (M := inc - (ei - 1) * p52) in *. set (W := 2 ^ (e - ei)) in *.
  assert (W0 : 0 < W) by (apply Z.pow_pos_nonneg; lia).
  assert (BE : bpow radix2 (ei - 1075) = (u * / IZR W)%R).
  { unfold u, W. change (2 ^ (e - ei)) with (Zpower radix2 (e - ei)). rewrite IZR_Zpower by lia.
    rewrite <- bpow_opp, <- bpow_plus. f_equal. lia. }
  assert (WR : (0 < IZR W)%R) by (apply IZR_lt; lia).
  (* the sum in units *)
  set (x := (RV b + RV inc)%R).
  set (r := (IZR M * / IZR W - IZR q)%R).
  assert (RR : (Rabs r < / 2)%R).
  { assert (A : (2 * Rabs (IZR W * IZR q - IZR M) < IZR W)%R).
    { rewrite <- mult_IZR, <- minus_IZR, <- abs_IZR, <- mult_IZR. apply IZR_lt. exact H. }
    replace r with (- ((IZR W * IZR q - IZR M) * / IZR W))%R by (unfold r; field; lra).
    rewrite Rabs_Ropp, Rabs_mult, (Rabs_pos_eq (/ IZR W)) by (left; now apply Rinv_0_lt_compat).
    apply Rmult_lt_reg_r with (IZR W); [lra|]. rewrite Rmult_assoc, Rinv_l by lra. lra. }
  assert (X : x = ((IZR (b + q - (e - 1) * p52) + r) * u)%R).
  { unfold x. rewrite RB, RI, BE. unfold r. rewrite !minus_IZR, plus_IZR. ring. }
  set (m := b + q - (e - 1) * p52) in *.
  assert (MR : p52 <= m < 2 * p52) by (unfold m; lia).
  apply Rabs_def2 in RR.
  assert (B53 : (IZR m + r < IZR (2 * p52))%R).
  { assert (IZR m <= IZR (2 * p52 - 1))%R by (apply IZR_le; lia). rewrite minus_IZR in H0. lra. }
  assert (X0 : (0 < x)%R).
  { rewrite X. apply Rmult_lt_0_compat; [|exact U]. assert (IZR p52 <= IZR m)%R by (apply IZR_le; lia). unfold p52 in H0. lra. }
  (* rounding *)
  assert (RND : rnd64 x = (IZR m * u)%R).
  { assert (MAG : mag radix2 x = (e - 1022)%Z :> Z).
    { apply mag_unique_pos. split.
      - replace (bpow radix2 (e - 1022 - 1)) with (IZR p52 * u)%R.
        2:{ unfold u. change p52 with (Zpower radix2 52). rewrite IZR_Zpower by lia. rewrite <- bpow_plus. f_equal. lia. }
        unfold x. rewrite RB, RI. assert (IZR p52 <= IZR (b - (e - 1) * p52))%R by (apply IZR_le; lia).
        assert (0 <= IZR M)%R by (apply IZR_le; unfold M, p52 in *; lia).
        assert (IZR p52 * u <= IZR (b - (e - 1) * p52) * u)%R by (apply Rmult_le_compat_r; lra).
        assert (0 <= IZR M * bpow radix2 (ei - 1075))%R by (apply Rmult_le_pos; [lra|apply bpow_ge_0]). lra.
      - replace (bpow radix2 (e - 1022)) with (IZR (2 * p52) * u)%R.
        2:{ unfold u. change (2 * p52) with (Zpower radix2 53). rewrite IZR_Zpower by lia. rewrite <- bpow_plus. f_equal. lia. }
        rewrite X. apply Rmult_lt_compat_r; [exact U|exact B53]. }
    unfold round, scaled_mantissa, cexp. rewrite MAG, fexp53.
    replace (Z.max (e - 1022 - 53) (-1074)) with (e - 1075) by lia. fold u.
    assert (SM : (x * bpow radix2 (- (e - 1075)) = IZR m + r)%R).
    { rewrite X, bpow_opp. fold u. field. lra. }
    rewrite SM. unfold F2R. cbn [Fnum Fexp]. fold u. f_equal. f_equal. cbn [round_mode].
    apply Znearest_imp. replace (IZR m + r - IZR m)%R with r by ring. apply Rabs_def1; lra. }
  pose proof (fadd_correct b inc FB FI) as C. cbv zeta in C. fold x in C. rewrite RND in C.
  rewrite Rlt_bool_true in C.
  2:{ rewrite Rabs_pos_eq by (apply Rmult_le_pos; [apply IZR_le; unfold p52 in *; lia|lra]).
      apply Rlt_le_trans with (IZR (2 * p52) * u)%R; [apply Rmult_lt_compat_r; [exact U|apply IZR_lt; lia]|].
      unfold u. change (2 * p52) with (Zpower radix2 53). rewrite IZR_Zpower by lia. rewrite <- bpow_plus. apply bpow_le. lia. }
  destruct C as [FA RA].
  assert (KE : f_key (fadd b inc) = f_key (b + q)).
  { apply key_eq_R; [exact FA|exact FQ|]. rewrite RA, RQ. reflexivity. }
  unfold f_key in KE at 2. rewrite SQ in KE. unfold f_mag in KE at 1. rewrite SQ in KE.
  unfold f_key in KE. destruct (f_sign (fadd b inc)) eqn:SA.
  - pose proof (mag_bounds (fadd b inc) (proj1 FA)). unfold p52 in *. lia.
  - unfold f_mag in KE. rewrite SA in KE. exact KE.
Qed.

(** ** The angles by jumps *)

(** the angle after [target - n] more turns, all angles before it being at most
    360; [None] when that is not found *)
Fixpoint jumps (fuel : nat) (inc th n target : Z) : option Z :=
  match fuel with
  | O => None
  | S fuel =>
    if n =? target then Some th
    else if (f_360 <? th) || (th <? 0) then None
    else
      let e := th / p52 in
      let ei := inc / p52 in
      let w := 2 ^ (e - ei) in
      let m := inc - (ei - 1) * p52 in
      let q := (m + w / 2) / w in
      let k := Z.min (target - n) ((Z.min f_360 ((e + 1) * p52 - 1) - th) / q) in
      if (1 <=? ei) && (ei <? e) && (e <=? 2046) && (0 <? q) && (2 * Z.abs (w * q - m) <? w) && (0 <? k)
      then jumps fuel inc (th + k * q) (n + k) target
      else jumps fuel inc (fadd th inc) (n + 1) target
  end.

Lemma turned_uniform inc q th k : (forall j, 0 <= j < Z.of_nat k -> fadd (th + j * q) inc = th + j * q + q) ->
  forall i, (i <= k)%nat -> turned inc i th = th + Z.of_nat i * q.
Proof.
  intros H. induction i as [|i IH]; intros L; [cbn; lia|]. rewrite turned_S, IH by lia. rewrite H by lia. lia.
Qed.

Lemma jumps_sound fuel : forall inc th n target t, n <= target -> 0 <= inc -> jumps fuel inc th n target = Some t ->
  turned inc (Z.to_nat (target - n)) th = t /\
  forall j, (j < Z.to_nat (target - n))%nat -> 0 <= turned inc j th <= f_360.
Proof.
  induction fuel as [|fuel IH]; intros inc th n target t NT I0; cbn [jumps]; [discriminate|].
  destruct (Z.eqb_spec n target) as [->|NE].
  { intros [= <-]. rewrite Z.sub_diag. split; [reflexivity|]. intros j J. cbn in J. lia. }
  destruct (Z.ltb_spec f_360 th) as [|LE]; [discriminate|]. cbn [orb].
  destruct (Z.ltb_spec th 0) as [|T0]; [discriminate|].
  set (e := th / p52). set (ei := inc / p52). set (w := 2 ^ (e - ei)). set (m := inc - (ei - 1) * p52).
  set (q := (m + w / 2) / w). set (L := Z.min f_360 ((e + 1) * p52 - 1)). set (k := Z.min (target - n) ((L - th) / q)).
  destruct (_ && _) eqn:C.
  - rewrite !andb_true_iff in C. destruct C as (((((C1 & C2) & C3) & C4) & C5) & C6).
    apply Z.leb_le in C1, C3. apply Z.ltb_lt in C2, C4, C5, C6.
    assert (BI : ei * p52 <= inc < (ei + 1) * p52).
    { unfold ei. pose proof (Z.div_mod inc p52 ltac:(discriminate)) as A. pose proof (Z.mod_pos_bound inc p52 ltac:(reflexivity)) as B.
      clear - A B. rewrite Z.mul_add_distr_r, (Z.mul_comm _ p52). lia. }
    assert (BT : e * p52 <= th).
    { unfold e. rewrite Z.mul_comm. apply Z.mul_div_le. reflexivity. }
    assert (L1 : L <= f_360) by apply Z.le_min_l. assert (L2 : L <= (e + 1) * p52 - 1) by apply Z.le_min_r.
    assert (K1 : k <= target - n) by apply Z.le_min_l. assert (K2 : k <= (L - th) / q) by apply Z.le_min_r.
    assert (KQ : k * q <= L - th).
    { apply Z.le_trans with ((L - th) / q * q); [apply Z.mul_le_mono_nonneg_r; lia|]. rewrite Z.mul_comm. now apply Z.mul_div_le. }
    assert (SM : forall j, 0 <= j <= k -> 0 <= j * q <= k * q).
    { intros j J. split; [apply Z.mul_nonneg_nonneg; lia|apply Z.mul_le_mono_nonneg_r; lia]. }
    assert (C5' : 2 * Z.abs (2 ^ (e - ei) * q - (inc - (ei - 1) * p52)) < 2 ^ (e - ei)) by exact C5.
    clear C5. clearbody k q L w m. clearbody e ei.
    assert (U : forall j, 0 <= j < k -> fadd (th + j * q) inc = th + j * q + q).
    { intros j J. pose proof (SM j ltac:(lia)) as A. pose proof (SM (j + 1) ltac:(lia)) as B. rewrite Z.mul_add_distr_r in B.
      apply (fadd_uniform e ei); [exact C1|split; [exact C2|exact C3]|exact BI| | |clear - C4; lia|exact C5'].
      - clear - A BT. apply Z.le_trans with th; [exact BT|]. lia.
      - clear - B KQ L2. generalize dependent ((e + 1) * p52). intros z. lia. }
    assert (TU : forall i, (i <= Z.to_nat k)%nat -> turned inc i th = th + Z.of_nat i * q).
    { apply (turned_uniform inc q th (Z.to_nat k)). rewrite Z2Nat.id by (clear - C6; lia). exact U. }
    intros J. apply IH in J; [|clear - K1; lia|exact I0].
    destruct J as [J1 J2].
    assert (TK : turned inc (Z.to_nat k) th = th + k * q) by (rewrite TU by lia; rewrite Z2Nat.id by lia; reflexivity).
    replace (Z.to_nat (target - n)) with (Z.to_nat k + Z.to_nat (target - (n + k)))%nat by (clear - K1 C6; lia).
    split; [rewrite turned_add, TK; exact J1|].
    intros j Jj. destruct (Nat.lt_ge_cases j (Z.to_nat k)) as [G|G].
    + rewrite TU by lia. pose proof (SM (Z.of_nat j) ltac:(lia)) as A. clear - A L1 KQ T0. lia.
    + replace j with (Z.to_nat k + (j - Z.to_nat k))%nat by lia. rewrite turned_add, TK. apply J2. lia.
  - intros J. apply IH in J; [|lia|exact I0]. destruct J as [J1 J2].
    replace (Z.to_nat (target - n)) with (S (Z.to_nat (target - (n + 1)))) by (clear - NT NE; lia). cbn [turned]. split; [exact J1|].
    intros [|j] Jj; [cbn [turned]; split; assumption|]. cbn [turned]. apply J2. lia.
Qed.
