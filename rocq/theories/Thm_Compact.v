(** * The compactness score of rings and lines *)

From Coq Require Import ZArith Bool List Lia Reals Lra Psatz SpecFloat.
From Flocq Require Import Core BinarySingleNaN Relative.
From Verif Require Import F64 F64Order F64Real F64Mono Geo Series SeriesFacts SeriesExamples SearchFacts RingTurn Dist DistFacts RingApi GeomFacts.
Import ListNotations.
Local Open Scope Z_scope.

(** spec: the sign of a value; None of NaN *)
Definition sf_sign (v : spec_float) : option bool :=
  match v with
  | S754_zero s | S754_infinity s | S754_finite s _ _ => Some s
  | S754_nan => None
  end.

Lemma dec_sign x s : sf_sign (f_dec x) = Some s -> f_sign x = s.
Proof.
  unfold f_dec. destruct (f_mag x / p52 =? 0).
  - destruct (f_mag x mod p52); cbn; congruence.
  - destruct (f_mag x / p52 =? 2047).
    + destruct (f_mag x mod p52 =? 0); cbn; congruence.
    + destruct (f_mag x mod p52 + p52); cbn; congruence.
Qed.
Lemma enc_plus v : valid_binary 53 1024 v = true -> sf_sign v <> Some true -> f_sign (f_enc v) = false.
Proof.
  intros V S. destruct (sf_sign v) as [[|]|] eqn:E; [congruence| |].
  - apply dec_sign. now rewrite (f_dec_enc v V).
  - destruct v; try discriminate. reflexivity.
Qed.
Lemma round_plus m e l : sf_sign (SpecFloat.binary_round_aux 53 1024 false m e l) <> Some true.
Proof.
  unfold SpecFloat.binary_round_aux. destruct (shr_fexp 53 1024 m e l) as [a b].
  destruct (shr_fexp _ _ _ _ _) as [c d]. destruct (shr_m c) as [|p|p]; [discriminate| |discriminate].
  match goal with |- context [if ?b then _ else _] => destruct b end; discriminate.
Qed.
(** spec: no two different signs *)
Definition same_sign (v w : spec_float) : Prop :=
  match sf_sign v, sf_sign w with Some a, Some b => a = b | _, _ => True end.
Lemma mul_plus v w : same_sign v w -> sf_sign (SFmul 53 1024 v w) <> Some true.
Proof.
  destruct v as [s|s| |s m e], w as [t|t| |t n f]; cbn [SFmul sf_sign same_sign]; intros E; unfold same_sign in E; cbn in E;
    try discriminate; subst; rewrite ?xorb_nilpotent; try discriminate.
  apply round_plus.
Qed.
Lemma div_plus v w : same_sign v w -> sf_sign (SFdiv 53 1024 v w) <> Some true.
Proof.
  destruct v as [s|s| |s m e], w as [t|t| |t n f]; intros E; unfold same_sign in E; cbn in E;
    try (cbn; discriminate); subst; unfold SFdiv; rewrite ?xorb_nilpotent; try (cbn; discriminate).
  destruct (SFdiv_core_binary _ _ _ _ _ _) as [[a b] c]. apply round_plus.
Qed.

Lemma dec_sign' x : sf_sign (f_dec x) = None \/ sf_sign (f_dec x) = Some (f_sign x).
Proof.
  destruct (sf_sign (f_dec x)) eqn:E; [right|now left]. f_equal. symmetry. now apply dec_sign.
Qed.
Lemma same_dec x y : f_sign x = f_sign y -> same_sign (f_dec x) (f_dec y).
Proof.
  intros E. unfold same_sign. destruct (dec_sign' x) as [->| ->]; [exact I|].
  destruct (dec_sign' y) as [->| ->]; [exact I|exact E].
Qed.
Lemma fmul_plus x y : f_wf x = true -> f_wf y = true -> f_sign x = f_sign y -> f_sign (fmul x y) = false.
Proof.
  intros X Y E. unfold fmul. apply enc_plus; [|now apply mul_plus, same_dec].
  rewrite <- (B2SF_toB x X), <- (B2SF_toB y Y), SFmul_equiv. apply valid_binary_B2SF.
Qed.
Lemma fdiv_plus x y : f_wf x = true -> f_wf y = true -> f_sign x = f_sign y -> f_sign (fdiv x y) = false.
Proof.
  intros X Y E. unfold fdiv. apply enc_plus; [|now apply div_plus, same_dec].
  rewrite <- (B2SF_toB x X), <- (B2SF_toB y Y), SFdiv_equiv. apply valid_binary_B2SF.
Qed.
Lemma fsqrt_wf x : f_wf x = true -> f_wf (fsqrt x) = true.
Proof.
  intros X. unfold fsqrt. rewrite <- (B2SF_toB x X), SFsqrt_equiv. apply f_wf_enc, valid_binary_B2SF.
Qed.
Lemma perimeter_wf ps n : Forall wf_pt ps -> f_wf (ring_perimeter ps n) = true.
Proof.
  intros W. unfold ring_perimeter.
  enough (G : forall l a, f_wf a = true ->
    f_wf (fold_left (fun perim i => let a := pt_at ps i in let b := pt_at ps (i + 1) in
      fadd perim (flength (px a) (py a) (px b) (py b))) l a) = true) by now apply G.
  induction l as [|i l IH]; intros a A; [exact A|]. cbn [fold_left]. apply IH. cbv zeta.
  destruct (wf_at ps i W) as [A1 A2]. destruct (wf_at ps (i + 1) W) as [B1 B2].
  apply fadd_wf; [exact A|]. unfold flength. apply fsqrt_wf, fadd_wf; apply fmul_wf; now apply fsub_wf.
Qed.
Lemma area_plus ps closed kind spread r : Forall wf_pt ps -> series_new ps closed kind spread = Some r ->
  f_wf (r_area r) = true /\ f_sign (r_area r) = false.
Proof.
  intros WF NW. pose proof (series_new_fields _ _ _ _ _ NW) as F. cbv zeta in F.
  destruct F as (_ & _ & _ & _ & _ & _ & _ & AR & _). rewrite AR. clear AR.
  match goal with |- context [process_points ?x ps _] => set (ix := x); clearbody ix end.
  destruct (Nat.le_gt_cases 2 (length ps)) as [N|N].
  - destruct (process_fields ix ps (length ps) N) as (_ & -> & _). unfold fabs.
    match goal with |- context [f_mag ?x] => assert (W : f_wf x = true) by (apply fdiv_wf; [now apply cwc_wf|reflexivity]);
      pose proof (mag_bounds x W) as B end.
    split; [|now apply sign_small]. unfold f_wf, p64. unfold p63 in B. lia.
  - destruct (process_short ix ps (length ps) N) as (_ & -> & _). now split.
Qed.
Lemma plus_not_neg x : f_wf x = true -> f_sign x = false -> flt x f_zero = false.
Proof.
  intros W S. unfold flt. apply andb_false_iff. right. unfold f_key at 1. rewrite S.
  change (f_key f_zero) with 0. apply Z.ltb_ge. pose proof (mag_bounds x W). lia.
Qed.

(** The full claim is "the score of every ring and line is a number between 0
    and 1".  Proved here, for all points (also infinities and NaN), every index
    and rings and lines alike: the score is a double without a minus sign, so
    never below 0.  Missing: the bound 1 of closed rings; the claim as a whole is
    refuted below. *)
Theorem C67_not_negative_partial :
  forall e ps closed ix r, Forall wf_pt ps -> series_new_ix e ps closed ix = Some r ->
    f_wf (polsby_popper r) = true /\ f_sign (polsby_popper r) = false /\ flt (polsby_popper r) f_zero = false.
Proof.
  intros e ps closed ix r W N. destruct (series_new_ix_inv _ _ _ _ _ N) as (k & s & NW).
  enough (G : f_wf (polsby_popper r) = true /\ f_sign (polsby_popper r) = false)
    by (destruct G; repeat split; auto; now apply plus_not_neg).
  destruct (area_plus _ _ _ _ _ W NW) as [AW AS].
  pose proof (series_new_fields _ _ _ _ _ NW) as F. cbv zeta in F. destruct F as (_ & _ & _ & FP & _).
  unfold polsby_popper. destruct (tg_ring_empty r); [now split|]. rewrite FP.
  assert (WR : Forall wf_pt (ringpts ps)) by (apply Forall_app; split; [exact W|constructor; [now apply wf_at|constructor]]).
  pose proof (perimeter_wf (ringpts ps) (r_nsegs r) WR) as PW. destruct (fgt _ _); [|now split].
  assert (M1 : f_wf (fmul (r_area r) f_pi) = true) by now apply fmul_wf.
  assert (S1 : f_sign (fmul (r_area r) f_pi) = false) by now apply fmul_plus.
  assert (M2 : f_wf (fmul (fmul (r_area r) f_pi) f_four) = true) by now apply fmul_wf.
  assert (S2 : f_sign (fmul (fmul (r_area r) f_pi) f_four) = false) by now apply fmul_plus.
  split.
  - apply fdiv_wf; [exact M2|now apply fmul_wf].
  - apply fdiv_plus; [exact M2|now apply fmul_wf|]. rewrite S2. symmetry. now apply fmul_plus.
Qed.
Print Assumptions C67_not_negative_partial.

Lemma loop_cwc ix ix' ps n k :
  pp_cwc (fold_left (pp_step ix ps n) (seq 0 k) (pp_init ps)) =
  pp_cwc (fold_left (pp_step ix' ps n) (seq 0 k) (pp_init ps)).
Proof.
  induction k as [|k IH]; [reflexivity|].
  rewrite seq_S, !fold_left_app. cbn [fold_left]. now rewrite !pp_step_cwc, IH.
Qed.
Lemma area_index ix ix' ps n : ppr_area (process_points ix ps n) = ppr_area (process_points ix' ps n).
Proof.
  destruct (Nat.le_gt_cases 2 n) as [N|N].
  - destruct (process_fields ix ps n N) as (_ & -> & _). destruct (process_fields ix' ps n N) as (_ & -> & _).
    unfold pp_loop. now rewrite (loop_cwc (option_map fst ix) (option_map fst ix')).
  - destruct (process_short ix ps n N) as (_ & -> & _). now destruct (process_short ix' ps n N) as (_ & -> & _).
Qed.

(** the area, the perimeter and the score do not depend on the index asked for,
    nor on the settings of the library *)
Theorem C67_index :
  forall e e' ps closed ix ix' r r', series_new_ix e ps closed ix = Some r -> series_new_ix e' ps closed ix' = Some r' ->
    tg_ring_area (Some r) = tg_ring_area (Some r') /\
    tg_ring_perimeter (Some r) = tg_ring_perimeter (Some r') /\ polsby_popper r = polsby_popper r'.
Proof.
  intros e e' ps closed ix ix' r r' N N'.
  destruct (series_new_ix_inv _ _ _ _ _ N) as (k & s & NW). destruct (series_new_ix_inv _ _ _ _ _ N') as (k' & s' & NW').
  pose proof (series_new_fields _ _ _ _ _ NW) as F. pose proof (series_new_fields _ _ _ _ _ NW') as F'. cbv zeta in F, F'.
  destruct F as (F1 & F2 & F3 & F4 & _ & _ & _ & AR & _). destruct F' as (G1 & G2 & G3 & G4 & _ & _ & _ & AR' & _).
  assert (EM : tg_ring_empty r = tg_ring_empty r') by (unfold tg_ring_empty; now rewrite F1, F2, G1, G2).
  assert (AE : r_area r = r_area r') by (rewrite AR, AR'; apply area_index).
  unfold tg_ring_area, tg_ring_perimeter, polsby_popper. rewrite EM, AE, F3, F4, G3, G4. repeat split.
Qed.
Print Assumptions C67_index.

(** ** The value of the score *)

Lemma rel_ex x : (x = 0 \/ / IZR (2 ^ 300) <= x)%R ->
  exists d, (Rabs d <= / IZR (2 ^ 53))%R /\ rnd64 x = (x * (1 + d))%R.
Proof.
  intros [->|H].
  - exists 0%R. rewrite rnd64_0, Rabs_R0. split; [|ring]. left. apply Rinv_0_lt_compat. apply IZR_lt. lia.
  - destruct (relative_error_N_FLT_ex radix2 (-1074) 53 eq_refl (fun z => negb (Z.even z)) x) as (d & D & E).
    + change (/ IZR (2 ^ 300))%R with (bpow radix2 (-300)) in H. eapply Rle_trans; [|eapply Rle_trans; [exact H|apply Rle_abs]].
      apply bpow_le. lia.
    + exists d. split; [|exact E]. eapply Rle_trans; [exact D|].
      change (/ IZR (2 ^ 53))%R with (bpow radix2 (-1 + (- (53) + 1))). rewrite (bpow_plus radix2 (-1) (- (53) + 1)). apply Rle_refl.
Qed.
Lemma RV_four : fin f_four /\ RV f_four = 4%R.
Proof. split; [now split|]. rewrite (RV_pos_bits false 4503599627370496 (-50)) by reflexivity. unfold F2R; cbn; lra. Qed.
(** M_PI (tg.c:14629) as a fraction *)
Definition pi64 : R := (7074237752028440 / 2251799813685248)%R.
Lemma RV_pi : fin f_pi /\ RV f_pi = pi64.
Proof. split; [now split|]. rewrite (RV_pos_bits false 7074237752028440 (-51)) by reflexivity. unfold F2R, pi64; cbn; lra. Qed.
Lemma lt_RV x y : fin x -> fin y -> flt x y = true <-> (RV x < RV y)%R.
Proof.
  intros Fx Fy. rewrite flt_key by (apply fin_ok; assumption).
  rewrite Z.ltb_lt. pose proof (key_le_R y x Fy Fx) as K. split; intros H.
  - apply Rnot_le_lt. intros L. apply K in L. lia.
  - apply Z.nle_gt. intros L. apply K in L. lra.
Qed.

(** the score of every ring and line whose area is 0 or within 2^-100 and 2^100,
    and whose perimeter is within 2^-40 and 2^60, is 4 * M_PI * area / perimeter^2
    up to a relative error of 2^-50; M_PI is the double of the C constant *)
Theorem C67_value :
  forall r, let a := RV (tg_ring_area (Some r)) in let p := RV (tg_ring_perimeter (Some r)) in
    fin (tg_ring_area (Some r)) -> fin (tg_ring_perimeter (Some r)) ->
    (a = 0 \/ / IZR (2 ^ 100) <= a <= IZR (2 ^ 100))%R -> (/ IZR (2 ^ 40) <= p <= IZR (2 ^ 60))%R ->
    fin (polsby_popper r) /\
    (Rabs (RV (polsby_popper r) - 4 * pi64 * a / (p * p)) <= 4 * pi64 * a / (p * p) / IZR (2 ^ 50))%R.
Proof.
  intros r a p FA FP A B.
  assert (U : polsby_popper r = if fgt (tg_ring_perimeter (Some r)) f_zero
    then fdiv (fmul (fmul (tg_ring_area (Some r)) f_pi) f_four) (fmul (tg_ring_perimeter (Some r)) (tg_ring_perimeter (Some r)))
    else f_zero) by reflexivity.
  rewrite U. clear U. unfold a, p in *. clear a p.
  set (fa := tg_ring_area (Some r)) in *. set (fp := tg_ring_perimeter (Some r)) in *. clearbody fa fp. clear r.
  destruct RV_four as [F4 V4]. destruct RV_pi as [FPI VPI].
  assert (P1 : (3 <= pi64 <= 4)%R) by (unfold pi64; lra).
  assert (PP : (0 < RV fp)%R) by (eapply Rlt_le_trans; [|apply B]; apply Rinv_0_lt_compat, IZR_lt; lia).
  assert (G : fgt fp f_zero = true).
  { unfold fgt. apply lt_RV; [now split|exact FP|]. exact PP. }
  rewrite G. clear G.
  change (2 ^ 100)%Z with 1267650600228229401496703205376%Z in A. change (2 ^ 40)%Z with 1099511627776%Z in B. change (2 ^ 60)%Z with 1152921504606846976%Z in B.
  set (a := RV fa) in *. set (p := RV fp) in *.
  assert (I200 : IZR (2 ^ 200) = 1606938044258990275541962092341162602522202993782792835301376%R) by (apply f_equal; reflexivity).
  assert (I300 : (/ IZR (2 ^ 300) <= / 1809251394333065553493296640760748560207343510400633813116524750123642650624)%R)
    by (apply Rinv_le; [lra|apply IZR_le; vm_compute; discriminate]).
  assert (U53 : IZR (2 ^ 53) = 9007199254740992%R) by (apply f_equal; reflexivity).
  assert (NE : forall d, (Rabs d <= / IZR (2 ^ 53) -> 1 - / 9007199254740992 <= 1 + d <= 1 + / 9007199254740992)%R).
  { intros d D. rewrite U53 in D. apply Rabs_le_inv in D. lra. }
  (* area * M_PI *)
  assert (X1 : (a * pi64 = 0 \/ / 1267650600228229401496703205376 <= a * pi64 <= 4 * 1267650600228229401496703205376)%R).
  { destruct A as [->|A]; [left; ring|right]. split; nra. }
  assert (H1 : (0 <= a * pi64 <= 4 * 1267650600228229401496703205376)%R) by (destruct X1; lra).
  destruct (fmul_err fa f_pi FA FPI) as [G1 V1]; [unfold mid; fold a; rewrite VPI, I200, Rabs_pos_eq; lra|].
  fold a in V1. rewrite VPI in V1.
  destruct (rel_ex (a * pi64)%R) as (d1 & D1 & E1); [destruct X1; [now left|right; lra]|].
  rewrite E1 in V1. clear E1. apply NE in D1 as N1.
  set (x1 := (a * pi64)%R) in *. set (y1 := (x1 * (1 + d1))%R) in *.
  assert (X2 : (y1 = 0 \/ / 2535301200456458802993406410752 <= y1 <= 8 * 1267650600228229401496703205376)%R).
  { unfold y1. destruct X1 as [->|X1]; [left; ring|right]. split; nra. }
  (* times 4 *)
  assert (H2 : (0 <= y1 <= 8 * 1267650600228229401496703205376)%R) by (destruct X2; lra).
  destruct (fmul_err (fmul fa f_pi) f_four G1 F4) as [G2 V2]; [unfold mid; rewrite V1, V4, I200, Rabs_pos_eq; lra|].
  rewrite V1, V4 in V2.
  destruct (rel_ex (y1 * 4)%R) as (d2 & D2 & E2); [destruct X2 as [->|X2]; [left; ring|right; lra]|].
  rewrite E2 in V2. clear E2. apply NE in D2 as N2.
  set (y2 := (y1 * 4 * (1 + d2))%R) in *.
  assert (X3 : (y2 = 0 \/ / 2535301200456458802993406410752 <= y2 <= 64 * 1267650600228229401496703205376)%R).
  { unfold y2. destruct X2 as [->|X2]; [left; ring|right]. split; nra. }
  (* perim * perim *)
  assert (Q : (/ 1208925819614629174706176 <= p * p <= 1329227995784915872903807060280344576)%R) by (split; nra).
  destruct (fmul_err fp fp FP FP) as [G3 V3]; [unfold mid; fold p; rewrite I200, Rabs_pos_eq; lra|]. fold p in V3.
  destruct (rel_ex (p * p)%R) as (d3 & D3 & E3); [right; lra|].
  rewrite E3 in V3. clear E3. apply NE in D3 as N3.
  set (q := (p * p)%R) in *. set (y3 := (q * (1 + d3))%R) in *.
  assert (X4 : (/ 2417851639229258349412352 <= y3 <= 2 * 1329227995784915872903807060280344576)%R) by (unfold y3; split; nra).
  assert (Y3 : (/ (2 * 1329227995784915872903807060280344576) <= / y3 <= 2417851639229258349412352)%R).
  { split; [apply Rinv_le; lra|]. rewrite <- (Rinv_inv 2417851639229258349412352). apply Rinv_le; lra. }
  (* the quotient *)
  assert (X5 : (y2 / y3 = 0 \/ / 1809251394333065553493296640760748560207343510400633813116524750123642650624 <= y2 / y3 <= 1606938044258990275541962092341162602522202993782792835301376)%R).
  { unfold Rdiv. destruct X3 as [->|X3]; [left; ring|right].
    assert (Y0 : (0 < / y3)%R) by (apply Rinv_0_lt_compat; lra). split.
    - apply Rle_trans with (/ 2535301200456458802993406410752 * / (2 * 1329227995784915872903807060280344576))%R; [lra|].
      apply Rmult_le_compat; [lra|lra|apply X3|apply Y3].
    - apply Rle_trans with (64 * 1267650600228229401496703205376 * 2417851639229258349412352)%R; [|lra].
      apply Rmult_le_compat; [lra|lra|apply X3|apply Y3]. }
  assert (H5 : (0 <= y2 / y3 <= 1606938044258990275541962092341162602522202993782792835301376)%R) by (destruct X5; lra).
  destruct (fdiv_err _ _ G2 G3) as [G4 VV]; [rewrite V3; lra|unfold mid; rewrite V2, V3, I200, Rabs_pos_eq; [apply H5|apply H5]|].
  rewrite V2, V3 in VV.
  destruct (rel_ex (y2 / y3)%R) as (d4 & D4 & E4); [destruct X5; [now left|right; lra]|].
  rewrite E4 in VV. clear E4. apply NE in D4 as N4.
  split; [exact G4|]. rewrite VV.
  assert (QP : (0 < q)%R) by lra.
  set (t := (4 * pi64 * a / q)%R).
  assert (T0 : (0 <= t)%R).
  { unfold t, Rdiv. apply Rmult_le_pos; [|left; now apply Rinv_0_lt_compat]. unfold x1 in H1. lra. }
  replace (y2 / y3 * (1 + d4))%R with (t * ((1 + d1) * (1 + d2) * (1 + d4) / (1 + d3)))%R
    by (unfold t, y2, y3, y1, x1; field; split; lra).
  set (w := ((1 + d1) * (1 + d2) * (1 + d4) / (1 + d3))%R).
  assert (W : (Rabs (w - 1) <= / IZR (2 ^ 50))%R).
  { replace (w - 1)%R with (((1 + d1) * (1 + d2) * (1 + d4) - (1 + d3)) * / (1 + d3))%R by (unfold w; field; lra).
    rewrite Rabs_mult, (Rabs_pos_eq (/ (1 + d3))) by (left; apply Rinv_0_lt_compat; lra).
    apply Rle_trans with (5 * / 9007199254740992 * / (1 + d3))%R.
    - apply Rmult_le_compat_r; [left; apply Rinv_0_lt_compat; lra|]. rewrite U53 in *.
      replace ((1 + d1) * (1 + d2) * (1 + d4) - (1 + d3))%R with (d1 + d2 + d4 - d3 + (d1 * d2 + d1 * d4 + d2 * d4 + d1 * d2 * d4))%R by ring.
      assert (PR : forall u v m, (Rabs u <= / 9007199254740992 -> Rabs v <= m -> 0 <= m -> Rabs (u * v) <= / 9007199254740992 * m)%R).
      { intros u v m HU HV M0. rewrite Rabs_mult. apply Rmult_le_compat; auto using Rabs_pos. }
      assert (Q1 := PR d1 d2 _ D1 D2 ltac:(lra)). assert (Q2 := PR d1 d4 _ D1 D4 ltac:(lra)). assert (Q3 := PR d2 d4 _ D2 D4 ltac:(lra)).
      assert (Q4 := PR d1 (d2 * d4)%R _ D1 Q3 ltac:(lra)). rewrite <- Rmult_assoc in Q4.
      apply Rabs_le_inv in D1, D2, D3, D4, Q1, Q2, Q3, Q4. apply Rabs_le. split; lra.
    - change (2 ^ 50)%Z with 1125899906842624%Z.
      assert (I3 : (/ (1 + d3) <= / (1 - / 9007199254740992))%R) by (apply Rinv_le; lra). lra. }
  replace (t * w - t)%R with (t * (w - 1))%R by ring. rewrite Rabs_mult, (Rabs_pos_eq t) by exact T0.
  unfold Rdiv at 1. apply Rmult_le_compat_l; [exact T0|exact W].
Qed.
Print Assumptions C67_value.

(** a square of side 2^652: the area and the square of the perimeter overflow and
    the score is not a number *)
Definition far : f64 := f_enc (S754_finite false 4503599627370496 600).
(** the square, with its first point repeated *)
Definition far_square : list pt := [Pt f_zero f_zero; Pt far f_zero; Pt far far; Pt f_zero far; Pt f_zero f_zero].
Theorem C67_number_refuted :
  exists ps r, Forall wf_pt ps /\ Forall (fun p => f_isfinite (px p) = true /\ f_isfinite (py p) = true) ps /\
    series_new_ix env_init ps true 0 = Some r /\ f_isnan (polsby_popper r) = true.
Proof.
  exists far_square. destruct (series_new_ix env_init far_square true 0) as [r|] eqn:E; [|vm_compute in E; discriminate].
  exists r. split; [|split; [|split; [reflexivity|]]].
  - repeat constructor.
  - repeat constructor.
  - vm_compute in E. injection E as <-. vm_compute. reflexivity.
Qed.
Print Assumptions C67_number_refuted.

(** the area of a line is that of the line closed up, but its length has no
    closing segment: two sides of a square score more than 1 *)
Theorem C67_at_most_one_refuted :
  exists ps r, Forall wf_pt ps /\ series_new_ix env_init ps false 0 = Some r /\ fgt (polsby_popper r) (f_of_Z 1) = true.
Proof.
  exists [P 0 10; P 0 0; P 10 0].
  destruct (series_new_ix env_init [P 0 10; P 0 0; P 10 0] false 0) as [r|] eqn:E; [|vm_compute in E; discriminate].
  exists r. split; [repeat constructor|]. split; [reflexivity|].
  vm_compute in E. injection E as <-. vm_compute. reflexivity.
Qed.
Print Assumptions C67_at_most_one_refuted.

(** a square of side 10, with an index and without: the score of both is the
    double 7074237752028440 * 2^-53, which is Pi / 4 *)
Example C67_example :
  let ps := [P 0 0; P 0 10; P 10 10; P 10 0; P 0 0] in
  Forall wf_pt ps /\
  exists r r', series_new_ix env_init ps true 1 = Some r /\ series_new_ix env_init ps true 2 = Some r' /\
    f_dec (polsby_popper r) = S754_finite false 7074237752028440 (-53) /\ polsby_popper r' = polsby_popper r.
Proof.
  cbv zeta. split; [repeat constructor|].
  destruct (series_new_ix env_init [P 0 0; P 0 10; P 10 10; P 10 0; P 0 0] true 1) as [r|] eqn:E; [|vm_compute in E; discriminate].
  destruct (series_new_ix env_init [P 0 0; P 0 10; P 10 10; P 10 0; P 0 0] true 2) as [r'|] eqn:E'; [|vm_compute in E'; discriminate].
  exists r, r'. split; [reflexivity|]. split; [reflexivity|].
  vm_compute in E, E'. injection E as <-. injection E' as <-. vm_compute. split; reflexivity.
Qed.

(** the hypotheses of [C67_value]: the area of the square is 100, its perimeter 40 *)
Example C67_value_example :
  exists r, series_new_ix env_init [P 0 0; P 0 10; P 10 10; P 10 0; P 0 0] true 1 = Some r /\
    fin (tg_ring_area (Some r)) /\ fin (tg_ring_perimeter (Some r)) /\
    RV (tg_ring_area (Some r)) = 100%R /\ RV (tg_ring_perimeter (Some r)) = 40%R.
Proof.
  destruct (series_new_ix env_init [P 0 0; P 0 10; P 10 10; P 10 0; P 0 0] true 1) as [r|] eqn:E; [|vm_compute in E; discriminate].
  exists r. split; [reflexivity|].
  assert (A : tg_ring_area (Some r) = f_of_Z 100) by (vm_compute in E; injection E as <-; vm_compute; reflexivity).
  assert (B : tg_ring_perimeter (Some r) = f_of_Z 40) by (vm_compute in E; injection E as <-; vm_compute; reflexivity).
  rewrite A, B. destruct (RV_f_of_Z 100) as [A1 A2]; [lia|]. destruct (RV_f_of_Z 40) as [B1 B2]; [lia|]. now repeat split.
Qed.
