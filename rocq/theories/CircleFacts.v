(** * The angles of a circle *)

From Coq Require Import ZArith Bool List Lia ZifyBool Reals Lra PeanoNat.
From Coq Require Import Floats.SpecFloat.
From Flocq Require Import Core Operations BinarySingleNaN Relative Plus_error.
From Verif Require Import F64 Geo Series RingApi F64Order F64Real F64Mono StripeFacts Circle.
Import ListNotations.
Local Open Scope Z_scope.

(** the angle after k turns *)
Fixpoint turned (inc : f64) (k : nat) (th : f64) : f64 :=
  match k with O => th | S k => turned inc k (fadd th inc) end.

Lemma turned_S inc k th : turned inc (S k) th = fadd (turned inc k th) inc.
Proof. revert th. induction k as [|k IH]; intros th; [reflexivity|]. change (turned inc (S k) (fadd th inc) = fadd (turned inc k (fadd th inc)) inc). apply IH. Qed.
Lemma turned_add inc j k th : turned inc (j + k) th = turned inc k (turned inc j th).
Proof. revert th. induction j as [|j IH]; intros th; [reflexivity|]. cbn [Nat.add turned]. apply IH. Qed.

(** the angles of the first k turns *)
Definition angles (inc : f64) (k : nat) (th : f64) : list f64 := map (fun j => turned inc j th) (seq 0 k).
Lemma angles_S inc k th : angles inc (S k) th = th :: angles inc k (fadd th inc).
Proof.
  unfold angles. cbn [seq map turned]. f_equal. rewrite <- seq_shift, map_map. reflexivity.
Qed.
Lemma angles_length inc k th : length (angles inc k th) = k.
Proof. unfold angles. now rewrite map_length, seq_length. Qed.

Section Loop.
Variables (cs sn : f64 -> f64) (c : pt) (radius inc : f64) (steps : Z).
Notation loop := (fun fuel => circle_loop fuel cs sn c radius inc steps).

Lemma loop_turns k : forall fuel th i acc, (forall j, (j < k)%nat -> fle (turned inc j th) f_360 = true) -> i + Z.of_nat k <= steps + 1 ->
  loop (k + fuel)%nat th i acc = loop fuel (turned inc k th) (i + Z.of_nat k) (rev (map (circle_point cs sn c radius) (angles inc k th)) ++ acc).
Proof.
  induction k as [|k IH]; intros fuel th i acc H R.
  - cbn [Nat.add turned angles seq map rev app]. now rewrite Z.add_0_r.
  - cbn [Nat.add circle_loop]. rewrite (H O ltac:(lia) : fle th f_360 = true). cbn [negb].
    destruct (Z.ltb_spec steps i) as [|L]; [lia|].
    rewrite IH; [|intros j J; exact (H (S j) ltac:(lia))|lia].
    cbn [turned]. rewrite angles_S. cbn [map rev]. rewrite <- app_assoc. cbn [app]. f_equal. lia.
Qed.
End Loop.

(** ** How far the angles are from where they should be *)

Definition halfulp : R := bpow radix2 (-45).

Lemma rnd_err x : (Rabs x < 512)%R -> (Rabs (rnd64 x - x) <= halfulp)%R.
Proof.
  intros H. eapply Rle_trans; [apply error_le_half_ulp; typeclasses eauto|].
  unfold halfulp. replace (bpow radix2 (-45)) with (/2 * bpow radix2 (-44))%R.
  2:{ change (-44) with (-45 + 1). rewrite bpow_plus_1. change (IZR radix2) with 2%R. lra. }
  apply Rmult_le_compat_l; [lra|].
  destruct (Req_dec x 0) as [->|NZ].
  - change (SpecFloat.fexp 53 1024) with (FLT_exp (-1074) 53). rewrite ulp_FLT_0 by reflexivity. apply bpow_le. lia.
  - rewrite ulp_neq_0 by exact NZ. apply bpow_le. unfold cexp. rewrite fexp53.
    assert (mag radix2 x <= 9); [|lia]. apply mag_le_bpow; [exact NZ|]. change (bpow radix2 9) with 512%R. exact H.
Qed.

Lemma rnd_le_512 x : (Rabs x <= 512)%R -> (Rabs (rnd64 x) <= 512)%R.
Proof.
  intros H. change 512%R with (bpow radix2 9) in *. apply abs_round_le_generic; [typeclasses eauto|typeclasses eauto| |exact H].
  change (SpecFloat.fexp 53 1024) with (FLT_exp (-1074) 53). apply generic_format_bpow. unfold FLT_exp. lia.
Qed.
Lemma lt_max x : (Rabs x <= 512)%R -> Rlt_bool (Rabs x) (bpow radix2 1024) = true.
Proof. intros H. apply Rlt_bool_true. eapply Rle_lt_trans; [exact H|]. change 512%R with (bpow radix2 9). apply bpow_lt. lia. Qed.

Lemma fadd_near x y : fin x -> fin y -> (Rabs (RV x + RV y) < 512)%R ->
  fin (fadd x y) /\ (Rabs (RV (fadd x y) - (RV x + RV y)) <= halfulp)%R.
Proof.
  intros Fx Fy B. pose proof (fadd_correct x y Fx Fy) as C. cbv zeta in C.
  rewrite lt_max in C by (apply rnd_le_512; lra). destruct C as [F ->]. split; [exact F|]. now apply rnd_err.
Qed.

Lemma RV_360 : fin f_360 /\ RV f_360 = 360%R.
Proof. change f_360 with (f_of_Z 360). apply (f_of_Z_correct 360). reflexivity. Qed.

Lemma inc_near n : 3 <= n <= 2147483647 -> fin (fdiv f_360 (f_of_Z n)) /\
  (Rabs (RV (fdiv f_360 (f_of_Z n)) - 360 / IZR n) <= 360 / IZR n * bpow radix2 (-53))%R.
Proof.
  intros N. destruct (f_of_Z_correct n) as [Fn Rn]; [lia|]. destruct RV_360 as [F3 R3].
  assert (P : (3 <= IZR n)%R) by (apply IZR_le; lia).
  pose proof (fdiv_correct f_360 (f_of_Z n) F3 Fn ltac:(rewrite Rn; lra)) as C. cbv zeta in C. rewrite R3, Rn in C.
  assert (Q : (0 < 360 / IZR n <= 120)%R).
  { split; [apply Rdiv_lt_0_compat; lra|]. apply Rmult_le_reg_r with (IZR n); [lra|]. unfold Rdiv. rewrite Rmult_assoc, Rinv_l by lra. lra. }
  assert (QL : (/ 2147483647 <= / IZR n)%R) by (apply Rinv_le; [lra|apply IZR_le; lia]).
  rewrite lt_max in C by (apply rnd_le_512; rewrite Rabs_pos_eq; lra). destruct C as [F ->]. split; [exact F|].
  replace (360 / IZR n * bpow radix2 (-53))%R with (/2 * bpow radix2 (-53 + 1) * Rabs (360 / IZR n))%R.
  2:{ rewrite bpow_plus_1, (Rabs_pos_eq (360 / IZR n)) by lra. change (IZR radix2) with 2%R. lra. }
  change (SpecFloat.fexp 53 1024) with (FLT_exp (-1074) 53).
  apply relative_error_N_FLT; [reflexivity|]. rewrite Rabs_pos_eq by lra.
  apply Rle_trans with (bpow radix2 (-31)); [apply bpow_le; lia|].
  change (bpow radix2 (-31)) with (/ 2147483648)%R. unfold Rdiv. lra.
Qed.

Lemma small_53 : (0 < bpow radix2 (-53) <= halfulp * / 256)%R.
Proof.
  split; [apply bpow_gt_0|]. unfold halfulp. change (/ 256)%R with (bpow radix2 (-8)). rewrite <- bpow_plus. apply bpow_le. lia.
Qed.
Lemma half_val : (halfulp = / 35184372088832)%R.
Proof. reflexivity. Qed.

(** the angle after k turns, in turns of 360 / n *)
Theorem turned_near n k : 3 <= n <= 67108864 -> Z.of_nat k <= n + 1 ->
  let inc := fdiv f_360 (f_of_Z n) in
  fin (turned inc k f_zero) /\
  (Rabs (RV (turned inc k f_zero) - 360 * IZR (Z.of_nat k) / IZR n) <= IZR (Z.of_nat k) * (halfulp * 2))%R.
Proof.
  intros N K inc. destruct (inc_near n ltac:(lia)) as [FI EI]. fold inc in FI, EI.
  assert (P : (3 <= IZR n)%R) by (apply IZR_le; lia).
  assert (Q : (0 < 360 / IZR n <= 120)%R).
  { split; [apply Rdiv_lt_0_compat; lra|]. apply Rmult_le_reg_r with (IZR n); [lra|]. unfold Rdiv. rewrite Rmult_assoc, Rinv_l by lra. lra. }
  assert (EI' : (Rabs (RV inc - 360 / IZR n) <= halfulp)%R).
  { eapply Rle_trans; [exact EI|]. pose proof small_53.
    apply Rle_trans with (120 * bpow radix2 (-53))%R; [apply Rmult_le_compat_r; lra|]. lra. }
  clear EI. induction k as [|k IH].
  - cbn [turned]. split; [split; reflexivity|]. replace (RV f_zero) with 0%R by reflexivity.
    change (Z.of_nat 0) with 0%Z. replace (0 - 360 * 0 / IZR n)%R with 0%R by (field; lra). rewrite Rabs_R0. lra.
  - destruct IH as [FK EK]; [lia|]. rewrite turned_S. set (t := turned inc k f_zero) in *.
    assert (KR : (0 <= IZR (Z.of_nat k) <= IZR n)%R) by (split; apply IZR_le; lia).
    assert (KN : (0 <= 360 * IZR (Z.of_nat k) / IZR n <= 360)%R).
    { split; [apply Rmult_le_pos; [lra|left; apply Rinv_0_lt_compat; lra]|].
      apply Rmult_le_reg_r with (IZR n); [lra|]. unfold Rdiv. rewrite Rmult_assoc, Rinv_l by lra. lra. }
    assert (KB : (IZR (Z.of_nat k) * (halfulp * 2) <= 1)%R).
    { rewrite half_val. assert (IZR (Z.of_nat k) <= 67108864)%R by (apply IZR_le; lia). lra. }
    rewrite half_val in EI'.
    destruct (fadd_near t inc FK FI) as [FA EA].
    { apply Rabs_le_inv in EK, EI'. apply Rabs_lt. lra. }
    split; [exact FA|]. rewrite Nat2Z.inj_succ, succ_IZR.
    replace (360 * (IZR (Z.of_nat k) + 1) / IZR n)%R with (360 * IZR (Z.of_nat k) / IZR n + 360 / IZR n)%R by (field; lra).
    rewrite half_val in *. apply Rabs_le_inv in EK, EI', EA. apply Rabs_le. lra.
Qed.

Lemma fle_R x y : fin x -> fin y -> fle x y = true <-> (RV x <= RV y)%R.
Proof. intros Fx Fy. rewrite fle_key by (apply fin_ok; assumption || auto with nn). rewrite Z.leb_le. now apply key_le_R. Qed.

(** the first n angles are at most 360, the one after the next is not *)
Theorem turned_ends n : 3 <= n <= 67108864 ->
  let inc := fdiv f_360 (f_of_Z n) in
  (forall j, Z.of_nat j < n -> fle (turned inc j f_zero) f_360 = true) /\
  fle (turned inc (Z.to_nat (n + 1)) f_zero) f_360 = false.
Proof.
  intros N inc. destruct RV_360 as [F3 R3].
  assert (P : (3 <= IZR n <= 67108864)%R) by (split; apply IZR_le; lia).
  assert (QI : (/ 67108864 <= / IZR n)%R) by (apply Rinv_le; lra).
  assert (NI : (IZR n * / IZR n = 1)%R) by (apply Rinv_r; lra).
  split.
  - intros j J. destruct (turned_near n j N ltac:(lia)) as [F E]. fold inc in F, E.
    apply fle_R; auto. rewrite R3. apply Rabs_le_inv in E. rewrite half_val in E.
    assert (JR : (0 <= IZR (Z.of_nat j) <= IZR n - 1)%R).
    { rewrite <- minus_IZR. split; apply IZR_le; lia. }
    assert (B : (360 * IZR (Z.of_nat j) / IZR n <= 360 - 360 * / IZR n)%R).
    { replace (360 - 360 * / IZR n)%R with (360 * (IZR n - 1) * / IZR n)%R by (field; lra).
      unfold Rdiv. apply Rmult_le_compat_r; lra. }
    lra.
  - destruct (turned_near n (Z.to_nat (n + 1)) N ltac:(lia)) as [F E]. fold inc in F, E.
    rewrite Z2Nat.id in E by lia. destruct (fle _ _) eqn:L; [exfalso|reflexivity].
    apply fle_R in L; auto. rewrite R3 in L. apply Rabs_le_inv in E. rewrite half_val, plus_IZR in E.
    replace (360 * (IZR n + 1) / IZR n)%R with (360 + 360 * / IZR n)%R in E by (field; lra). lra.
Qed.
