(** * Concrete rings used as examples and counterexamples *)

From Coq Require Import ZArith Bool List Lia Reals Lra.
From Flocq Require Import Core.
From Verif Require Import F64 F64Real F64Mono F32 Geo Series SeriesFacts StripeFacts SpecGeo SpecFacts SpecRing.
Import ListNotations.
Local Open Scope Z_scope.

(** integer points *)
Definition P (x y : Z) : pt := Pt (f_of_Z x) (f_of_Z y).
Definition zs (a n : nat) : list Z := map Z.of_nat (seq a n).

(** an explicitly closed 8x8 square of 33 points *)
Definition ex_square : list pt :=
  map (fun i => P i 0) (zs 0 8) ++ map (fun i => P 8 i) (zs 0 8) ++
  map (fun i => P (8 - i) 8) (zs 0 8) ++ map (fun i => P 0 (8 - i)) (zs 0 9).
(** 40 points, first point not repeated *)
Definition ex_unclosed : list pt :=
  P 0 0 :: P 100 0 :: map (fun i => P (100 - i) 100) (zs 0 38).
(** 40 points on a horizontal line, closed *)
Definition ex_flat : list pt := map (fun i => P i 5) (zs 0 39) ++ [P 0 5].

Definition pts_okb (ps : list pt) : bool :=
  forallb (fun p => f_wf (px p) && f_wf (py p) && negb (f_isnan (px p)) && negb (f_isnan (py p))) ps.
Lemma pts_okb_ok ps : pts_okb ps = true -> points_ok ps.
Proof.
  intros H. apply points_ok_iff. apply Forall_forall. intros p I. unfold pts_okb in H.
  rewrite forallb_forall in H. specialize (H p I). rewrite !andb_true_iff, !negb_true_iff in H.
  destruct H as [[[? ?] ?] ?]. repeat split; auto.
Qed.
Lemma P_ok x y : pts_okb [P x y] = true -> point_ok (P x y).
Proof. intros H. apply (pts_okb_ok _ H). left; auto. Qed.

Lemma RV_f_of_Z z : Z.abs z < 2 ^ 31 -> fin (f_of_Z z) /\ RV (f_of_Z z) = IZR z.
Proof. intros H. apply f_of_Z_correct. lia. Qed.

Lemma clear_of_top_Z ps y x1 t x2 b : Z.abs y < 2 ^ 31 -> Z.abs t < 2 ^ 31 -> Z.abs b < 2 ^ 31 ->
  In (P x1 t) ps -> In (P x2 b) ps ->
  forallb (fun q => fle (f_of_Z b) (py q) && fle (py q) (f_of_Z t)) ps = true ->
  y < t -> clear_of_top ps (f_of_Z y).
Proof.
  intros By Bt Bb I1 I2 H L. exists (P x1 t), (P x2 b). split; auto. split; auto. split.
  - intros q I. rewrite forallb_forall in H. specialize (H q I). apply andb_true_iff in H. exact H.
  - cbn [py P]. destruct (RV_f_of_Z y By) as [_ ->]. destruct (RV_f_of_Z t Bt) as [_ ->].
    destruct (RV_f_of_Z b Bb) as [_ ->].
    assert (IZR y <= IZR t - 1)%R by (rewrite <- minus_IZR; apply IZR_le; lia).
    assert (IZR t - IZR b <= 2 ^ 32)%R.
    { rewrite <- minus_IZR. replace (2 ^ 32)%R with (IZR 4294967296) by (cbn; lra). apply IZR_le. lia. }
    assert ((IZR t - IZR b) / 2 ^ 49 <= 1)%R.
    { unfold Rdiv. apply Rmult_le_reg_r with (2 ^ 49)%R. apply pow_lt; lra.
      rewrite Rmult_assoc, Rinv_l by (apply pow_nonzero; lra). cbn in *. lra. }
    lra.
Qed.

Lemma f32_range_Z z : Z.abs z <= 16777216 -> f32_range (f_of_Z z).
Proof.
  intros H. destruct (RV_f_of_Z z ltac:(lia)) as [F E]. split; auto. rewrite E.
  destruct (Z.eq_dec z 0) as [->|N]; [left; reflexivity|right].
  rewrite <- abs_IZR. split.
  - apply Rle_trans with (bpow radix2 0); [apply bpow_le; lia|]. cbn. apply IZR_le. lia.
  - apply Rle_trans with (IZR 16777216); [apply IZR_le; lia|].
    unfold F2R. cbn [Fnum Fexp].
    apply Rle_trans with (16777215 * bpow radix2 1)%R; [cbn; lra|].
    apply Rmult_le_compat_l; [lra|]. apply bpow_le. lia.
Qed.
Lemma pt32_P x y : Z.abs x <= 16777216 -> Z.abs y <= 16777216 -> pt32 (P x y).
Proof. intros. split; apply f32_range_Z; auto. Qed.

Lemma ex_square_32 a : In a ex_square -> pt32 a.
Proof.
  unfold ex_square, zs. rewrite !in_app_iff, !in_map_iff.
  intros [(z & <- & I)|[(z & <- & I)|[(z & <- & I)|(z & <- & I)]]];
  apply in_map_iff in I; destruct I as (n & <- & I); apply in_seq in I; apply pt32_P; lia.
Qed.

(** conjunctions of computations, left to right *)
Ltac vms := lazymatch goal with
  | |- _ /\ _ => split; [vms | vms]
  | |- _ = _ => vm_compute; reflexivity
  | |- _ => split; vms
  end.
