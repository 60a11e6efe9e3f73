(** * Winding direction, area and convexity computed by process_points *)

From Coq Require Import ZArith Reals Bool List Lia Lra ZifyBool.
From Flocq Require Import Core BinarySingleNaN Mult_error.
From Verif Require Import F64 Geo Series RingApi F64Order F64Real F64Mono SearchFacts
  SegExact SegMeet SpecTurn.
Import ListNotations.
Local Open Scope Z_scope.

Definition vat (vs : list vertex) (i : nat) : vertex := nth i vs (0, 0).

Lemma isz_pt0 : stands_for pt0 (0, 0).
Proof. split; apply isz_zero. Qed.

Lemma stand_nth ps vs i : points_stand_for ps vs -> stands_for (pt_at ps i) (vat vs i).
Proof.
  intros H. revert i. induction H as [|p v ps vs P H IH]; intros i.
  - destruct i; apply isz_pt0.
  - destruct i; [exact P|apply IH].
Qed.
Lemma stand_length ps vs : points_stand_for ps vs -> length ps = length vs.
Proof. induction 1; cbn; congruence. Qed.

Lemma within_vat m vs i : 0 <= m -> within m vs -> Z.abs (fst (vat vs i)) <= m /\ Z.abs (snd (vat vs i)) <= m.
Proof.
  intros M W. unfold vat. destruct (nth_in_or_default i vs (0, 0)) as [I| ->]; [now apply W|cbn; lia].
Qed.

Definition zb (vs : list vertex) (n i : nat) : vertex := if (i =? n - 1)%nat then vat vs 0 else vat vs (i + 1).
Definition zc (vs : list vertex) (n i : nat) : vertex :=
  if (i + 2 <? n)%nat then vat vs (i + 2) else if (i =? n - 1)%nat then vat vs 1 else vat vs 0.
Lemma stand_b ps vs n i : points_stand_for ps vs -> stands_for (gather_b ps n i) (zb vs n i).
Proof. intros H. unfold gather_b, zb. destruct (i =? n - 1)%nat; now apply stand_nth. Qed.
Lemma stand_c ps vs n i : points_stand_for ps vs -> stands_for (gather_c ps n i) (zc vs n i).
Proof.
  intros H. unfold gather_c, zc. destruct (i + 2 <? n)%nat; [now apply stand_nth|].
  destruct (i =? n - 1)%nat; now apply stand_nth.
Qed.
Lemma within_zb m vs n i : 0 <= m -> within m vs -> Z.abs (fst (zb vs n i)) <= m /\ Z.abs (snd (zb vs n i)) <= m.
Proof. intros. unfold zb. destruct (_ =? _)%nat; now apply within_vat. Qed.
Lemma within_zc m vs n i : 0 <= m -> within m vs -> Z.abs (fst (zc vs n i)) <= m /\ Z.abs (snd (zc vs n i)) <= m.
Proof. intros. unfold zc. destruct (_ <? _)%nat; [|destruct (_ =? _)%nat]; now apply within_vat. Qed.

(** ** The running sum *)

Definition term (a b : vertex) : Z := (fst b - fst a) * (snd b + snd a).
Fixpoint sum_to (f : nat -> Z) (k : nat) : Z :=
  match k with O => 0 | S k => sum_to f k + f k end.

Lemma pp_inflate_fields ix st a b :
  pp_cwc (pp_inflate ix st a b) = pp_cwc st /\ pp_dir (pp_inflate ix st a b) = pp_dir st /\
  pp_concave (pp_inflate ix st a b) = pp_concave st.
Proof. unfold pp_inflate. destruct ix as [sp|]; [destruct (S (pp_j st) =? sp)%nat|]; cbn; auto. Qed.

Lemma pp_step_cwc ix ps n st i :
  pp_cwc (pp_step ix ps n st i) = calc_clockwise (pp_cwc st) (pt_at ps i) (gather_b ps n i).
Proof. unfold pp_step. cbv zeta. cbn [pp_cwc]. now rewrite (proj1 (pp_inflate_fields _ _ _ _)). Qed.
Lemma pp_step_turn ix ps n st i :
  (pp_dir (pp_step ix ps n st i), pp_concave (pp_step ix ps n st i)) =
  calc_concave (pp_dir st) (pp_concave st) (pt_at ps i) (gather_b ps n i) (gather_c ps n i).
Proof.
  unfold pp_step. cbv zeta. cbn [pp_dir pp_concave].
  destruct (pp_inflate_fields ix st (pt_at ps i) (gather_b ps n i)) as (_ & -> & ->).
  now destruct (calc_concave _ _ _ _ _).
Qed.

Lemma term_bound m a b : Z.abs (fst a) <= m -> Z.abs (snd a) <= m -> Z.abs (fst b) <= m -> Z.abs (snd b) <= m ->
  Z.abs (term a b) <= 4 * (m * m).
Proof.
  intros. unfold term.
  pose proof (prod_bound (fst b - fst a) (snd b + snd a) (2 * m) (2 * m)). lia.
Qed.

Lemma cwc_exact ix ps vs n m k : points_stand_for ps vs -> 0 <= m -> within m vs ->
  4 * (m * m) * Z.of_nat n <= 2 ^ 53 -> (k <= n)%nat ->
  let st := fold_left (pp_step ix ps n) (seq 0 k) (pp_init ps) in
  isz (pp_cwc st) (sum_to (fun i => term (vat vs i) (zb vs n i)) k) /\
  Z.abs (sum_to (fun i => term (vat vs i) (zb vs n i)) k) <= 4 * (m * m) * Z.of_nat k.
Proof.
  intros S M W B K. cbv zeta. induction k as [|k IH].
  - cbn [seq fold_left pp_init pp_cwc sum_to]. split; [apply isz_zero|]. lia.
  - rewrite seq_S, fold_left_app. cbn [fold_left]. rewrite Nat.add_0_l.
    set (st := fold_left _ _ _) in *. destruct IH as [IH1 IH2]; [lia|].
    rewrite pp_step_cwc. unfold calc_clockwise. cbn [sum_to].
    destruct (stand_nth ps vs k S) as [Ax Ay]. destruct (stand_b ps vs n k S) as [Bx By].
    destruct (within_vat m vs k M W) as [Wa1 Wa2]. destruct (within_zb m vs n k M W) as [Wb1 Wb2].
    pose proof (term_bound m _ _ Wa1 Wa2 Wb1 Wb2) as TB.
    set (f := fun i => term (vat vs i) (zb vs n i)) in *.
    assert (N0 : 4 * (m * m) * 1 <= 4 * (m * m) * Z.of_nat n) by (apply Z.mul_le_mono_nonneg_l; nia).
    assert (MM : 2 * m <= 2 ^ 53) by nia.
    assert (T : isz (fmul (fsub (px (gather_b ps n k)) (px (pt_at ps k)))
       (fadd (py (gather_b ps n k)) (py (pt_at ps k)))) (f k)).
    { unfold f, term. apply isz_mul; [apply isz_sub|apply isz_add|unfold term in TB]; try assumption; lia. }
    assert (BN : 4 * (m * m) * Z.of_nat (Datatypes.S k) <= 4 * (m * m) * Z.of_nat n) by (apply Z.mul_le_mono_nonneg_l; nia).
    assert (AB : Z.abs (sum_to f k + f k) <= 4 * (m * m) * Z.of_nat (Datatypes.S k)).
    { change (f k) with (term (vat vs k) (zb vs n k)). rewrite Nat2Z.inj_succ.
      generalize dependent (sum_to f k). intros. generalize dependent (4 * (m * m)). intros. lia. }
    split; [|exact AB]. apply isz_add; [assumption..|lia].
Qed.

(** the terms telescope to the shoelace sum *)
Lemma shoelace_path_app vs a b : shoelace_path (vs ++ [a; b]) = shoelace_path (vs ++ [a]) + (fst a * snd b - fst b * snd a).
Proof.
  induction vs as [|c vs IH]; [cbn; ring|].
  destruct vs as [|d vs]; [cbn [app shoelace_path]; ring|].
  change ((c :: d :: vs) ++ [a; b]) with (c :: (d :: vs) ++ [a; b]).
  change ((c :: d :: vs) ++ [a]) with (c :: (d :: vs) ++ [a]).
  cbn [app] in IH |- *. cbn [shoelace_path] in IH |- *. rewrite IH. ring.
Qed.

Lemma shoelace_firstn vs k : (k < length vs)%nat ->
  shoelace_path (firstn (S k) vs) = sum_to (fun i => fst (vat vs i) * snd (vat vs (i + 1)) - fst (vat vs (i + 1)) * snd (vat vs i)) k.
Proof.
  induction k as [|k IH]; intros K.
  - destruct vs; [cbn in K; lia|reflexivity].
  - cbn [sum_to]. rewrite <- IH by lia.
    assert (E : firstn (S (S k)) vs = firstn k vs ++ [vat vs k; vat vs (k + 1)]).
    { clear IH. revert vs K. induction k as [|k IHk]; intros vs K.
      - destruct vs as [|a [|b vs]]; cbn in K; try lia. reflexivity.
      - destruct vs as [|a vs]; [cbn in K; lia|].
        change (firstn (S (S (S k))) (a :: vs)) with (a :: firstn (S (S k)) vs).
        rewrite (IHk vs) by (cbn in K; lia). reflexivity. }
    assert (E1 : firstn (S k) vs = firstn k vs ++ [vat vs k]).
    { clear IH E. revert vs K. induction k as [|k IHk]; intros vs K.
      - destruct vs; [cbn in K; lia|reflexivity].
      - destruct vs as [|a vs]; [cbn in K; lia|].
        change (firstn (S (S k)) (a :: vs)) with (a :: firstn (S k) vs).
        rewrite (IHk vs) by (cbn in K; lia). reflexivity. }
    rewrite E, E1, shoelace_path_app. ring.
Qed.

Lemma sum_to_ext f g k : (forall i, (i < k)%nat -> f i = g i) -> sum_to f k = sum_to g k.
Proof. induction k as [|k IH]; intros H; [reflexivity|]. cbn [sum_to]. rewrite IH, H; auto. Qed.

Lemma terms_shoelace vs : (1 <= length vs)%nat ->
  sum_to (fun i => term (vat vs i) (zb vs (length vs) i)) (length vs) = - shoelace vs.
Proof.
  intros L. set (n := length vs) in *.
  assert (SH : shoelace vs = shoelace_path (vs ++ [vat vs 0])).
  { destruct vs as [|a vs0]; [cbn in n; lia|reflexivity]. }
  rewrite SH.
  assert (V : forall i, (i < n)%nat -> vat (vs ++ [vat vs 0]) i = vat vs i).
  { intros i H. unfold vat. apply app_nth1. exact H. }
  assert (Vn : vat (vs ++ [vat vs 0]) n = vat vs 0).
  { unfold vat at 1. rewrite app_nth2 by (fold n; lia). fold n. now rewrite Nat.sub_diag. }
  assert (ZB : forall i, (i < n)%nat -> zb vs n i = vat (vs ++ [vat vs 0]) (i + 1)).
  { intros i H. unfold zb. destruct (Nat.eqb_spec i (n - 1)) as [->|N].
    - replace (n - 1 + 1)%nat with n by lia. now rewrite Vn.
    - now rewrite V by lia. }
  set (ws := vs ++ [vat vs 0]) in *.
  assert (LW : length ws = S n) by (unfold ws; rewrite app_length; cbn [length]; apply Nat.add_1_r).
  assert (F : shoelace_path ws = sum_to (fun i => fst (vat ws i) * snd (vat ws (i + 1)) - fst (vat ws (i + 1)) * snd (vat ws i)) n).
  { rewrite <- shoelace_firstn by (rewrite LW; apply Nat.lt_succ_diag_r).
    rewrite <- LW. now rewrite firstn_all. }
  rewrite F.
  rewrite (sum_to_ext _ (fun i => term (vat ws i) (vat ws (i + 1)))).
  2:{ intros i H. cbn beta. rewrite (ZB i H), (V i H). reflexivity. }
  assert (T : forall k, sum_to (fun i => term (vat ws i) (vat ws (i + 1))) k =
     fst (vat ws k) * snd (vat ws k) - fst (vat ws 0) * snd (vat ws 0) -
     sum_to (fun i => fst (vat ws i) * snd (vat ws (i + 1)) - fst (vat ws (i + 1)) * snd (vat ws i)) k).
  { induction k as [|k IH]; cbn [sum_to]; [ring|]. rewrite IH. unfold term.
    replace (S k) with (k + 1)%nat by lia. ring. }
  rewrite T, Vn, V by lia. lia.
Qed.

Lemma process_fields ix ps n : (2 <= n)%nat ->
  let st := pp_loop (option_map fst ix) ps n in
  ppr_clockwise (process_points ix ps n) = fgt (pp_cwc st) f_zero /\
  ppr_area (process_points ix ps n) = fabs (fdiv (pp_cwc st) f_two) /\
  ppr_convex (process_points ix ps n) = negb (pp_concave st).
Proof.
  intros N. cbv zeta. unfold process_points. replace (n <? 2)%nat with false by lia.
  destruct ix as [[sp nl]|]; [|now repeat split]. cbn [option_map fst].
  destruct (length (pp_out (pp_loop (Some sp) ps n)) =? nl)%nat; now repeat split.
Qed.

Lemma shoelace_single a : shoelace [a] = 0.
Proof. cbn. ring. Qed.


Lemma RV_two : fin f_two /\ RV f_two = 2%R.
Proof.
  split; [split; reflexivity|].
  rewrite (RV_pos_bits false 4503599627370496 (-51)) by reflexivity. unfold F2R; cbn; lra.
Qed.

Lemma half_format z : Z.abs z <= 2 ^ 53 -> rnd64 (IZR z / 2) = (IZR z / 2)%R.
Proof.
  intros H. apply round_generic; [typeclasses eauto|].
  pose proof (int_format z H) as IF.
  destruct (Z.eq_dec z 0) as [->|NZ].
  { unfold Rdiv. rewrite Rmult_0_l. apply generic_format_0. }
  replace (IZR z / 2)%R with (IZR z * bpow radix2 (-1))%R by (cbn; lra).
  apply mult_bpow_exact_FLT with (emin := -1074) (prec := 53).
  - replace (FLT_exp (-1074) 53) with (SpecFloat.fexp 53 1024) by reflexivity. exact IF.
  - assert (1 <= mag radix2 (IZR z)); [|lia].
    apply mag_ge_bpow. rewrite <- abs_IZR. change (bpow radix2 (1 - 1)) with (IZR 1). apply IZR_le. lia.
Qed.

Lemma sign_small g : 0 <= g < p63 -> f_sign g = false /\ f_mag g = g.
Proof.
  intros H. assert (S : f_sign g = false) by (apply Z.leb_gt; lia).
  split; [exact S|]. unfold f_mag. now rewrite S.
Qed.

Lemma RV_fabs d : fin d -> fin (fabs d) /\ RV (fabs d) = Rabs (RV d).
Proof.
  intros Fd. destruct (RV_mag d Fd) as [Rd Pd].
  pose proof Fd as [Wd Id]. pose proof (mag_bounds d Wd) as B.
  unfold fabs. destruct (sign_small _ B) as [SA MA].
  assert (FA : fin (f_mag d)).
  { split.
    - generalize dependent (f_mag d). intros g. intros. unfold f_wf, p63, p64 in *. lia.
    - unfold f_isfinite in *. now rewrite MA. }
  split; [exact FA|].
  destruct (RV_mag (f_mag d) FA) as [Ra Pa].
  rewrite SA in Ra. rewrite Ra.
  rewrite (magR_eq (f_mag d) d FA Fd MA), Rd.
  destruct (f_sign d); [rewrite Rabs_Ropp|]; now rewrite Rabs_pos_eq.
Qed.

Lemma half_abs c z : isz c z -> Z.abs z <= 2 ^ 53 ->
  fin (fabs (fdiv c f_two)) /\ RV (fabs (fdiv c f_two)) = (IZR (Z.abs z) / 2)%R.
Proof.
  intros [Fc Vc] H. destruct RV_two as [F2 V2].
  assert (N2 : (RV f_two <> 0)%R) by (rewrite V2; lra).
  pose proof (fdiv_correct _ _ Fc F2 N2) as D. cbv zeta in D. rewrite V2, Vc in D.
  rewrite (half_format z H) in D. rewrite Rlt_bool_true in D.
  2:{ apply Rle_lt_trans with (IZR (2 ^ 53)); [|rewrite <- pow_pos_IZR by lia; apply bpow_lt; lia].
      unfold Rdiv. rewrite Rabs_mult, <- abs_IZR. rewrite (Rabs_pos_eq (/ 2)) by lra.
      apply IZR_le in H. pose proof (IZR_le 0 (Z.abs z) ltac:(lia)). lra. }
  destruct D as [Fd Vd]. destruct (RV_fabs _ Fd) as [FA RA]. split; [exact FA|].
  rewrite RA, Vd. unfold Rdiv. rewrite Rabs_mult, <- abs_IZR, (Rabs_pos_eq (/ 2)) by lra. reflexivity.
Qed.

Lemma process_short ix ps n : (n < 2)%nat ->
  ppr_clockwise (process_points ix ps n) = false /\ ppr_area (process_points ix ps n) = f_zero /\
  ppr_convex (process_points ix ps n) = false.
Proof. intros N. unfold process_points. replace (n <? 2)%nat with true by lia. now repeat split. Qed.

Lemma process_winding ix ps vs m : points_stand_for ps vs -> within m vs ->
  4 * (m * m) * Z.of_nat (length ps) <= 2 ^ 53 ->
  ppr_clockwise (process_points ix ps (length ps)) = (shoelace vs <? 0) /\
  fin (ppr_area (process_points ix ps (length ps))) /\
  RV (ppr_area (process_points ix ps (length ps))) = (IZR (Z.abs (shoelace vs)) / 2)%R.
Proof.
  intros S W B. pose proof (stand_length _ _ S) as L.
  destruct (Nat.le_gt_cases 2 (length ps)) as [N|N].
  - destruct (process_fields ix ps (length ps) N) as (-> & -> & _).
    assert (M : 0 <= m).
    { destruct vs as [|v vs]; [cbn in L; lia|]. destruct (W v (or_introl eq_refl)). lia. }
    destruct (cwc_exact (option_map fst ix) ps vs (length ps) m (length ps) S M W B ltac:(lia)) as [I A].
    fold (pp_loop (option_map fst ix) ps (length ps)) in I.
    rewrite L in I, A. rewrite terms_shoelace in I, A by lia. rewrite <- L in I, A.
    rewrite (isz_fgt _ _ _ _ I isz_zero). split; [lia|].
    rewrite <- (Z.abs_opp (shoelace vs)).
    apply half_abs; [exact I|]. eapply Z.le_trans; [exact A|exact B].
  - destruct (process_short ix ps (length ps) N) as (-> & -> & _).
    assert (Z0 : shoelace vs = 0).
    { destruct vs as [|v [|w vs]]; [reflexivity|apply shoelace_single|cbn in L; lia]. }
    rewrite Z0. split; [reflexivity|]. destruct isz_zero as [F V]. split; [exact F|]. rewrite V. cbn. lra.
Qed.

Theorem winding ps vs m closed kind spread r :
  points_stand_for ps vs -> within m vs -> 4 * (m * m) * Z.of_nat (length ps) <= 2 ^ 53 ->
  series_new ps closed kind spread = Some r ->
  r_clockwise r = (shoelace vs <? 0) /\
  fin (r_area r) /\ RV (r_area r) = (IZR (Z.abs (shoelace vs)) / 2)%R.
Proof.
  intros S W B NW.
  pose proof (series_new_fields _ _ _ _ _ NW) as F. cbv zeta in F.
  destruct F as (_ & _ & _ & _ & _ & _ & CW & AR & _).
  rewrite CW, AR. now apply process_winding with m.
Qed.

(** ** Convexity *)

Definition zturn (vs : list vertex) (n i : nat) : Z := turn (vat vs i) (zb vs n i) (zc vs n i).

Lemma calc_concave_exact dir cc a b c va vb vc :
  stands_for a va -> stands_for b vb -> stands_for c vc ->
  within (2 ^ 24) [va; vb; vc] ->
  calc_concave dir cc a b c =
  if cc then (dir, true)
  else if dir =? 0 then ((if turn va vb vc <? 0 then -1 else 1), false)
  else if turn va vb vc <? 0 then (dir, dir =? 1)
  else if 0 <? turn va vb vc then (dir, dir =? -1)
  else (dir, false).
Proof.
  intros [Ax Ay] [Bx By] [Cx Cy] W.
  destruct (W va) as [Wa1 Wa2]; [cbn; auto|]. destruct (W vb) as [Wb1 Wb2]; [cbn; auto|].
  destruct (W vc) as [Wc1 Wc2]; [cbn; auto|].
  unfold calc_concave. destruct cc; [reflexivity|]. cbv zeta.
  assert (T : isz (fsub (fmul (fsub (px b) (px a)) (fsub (py c) (py b)))
                  (fmul (fsub (py b) (py a)) (fsub (px c) (px b)))) (turn va vb vc)).
  { refine (proj1 (det_exact _ _ _ _ _ _ _ _ _ _ _ _ _ _ _ _)); try (apply isz_sub; [assumption..|]); lia. }
  rewrite (isz_flt _ _ _ _ T isz_zero), (isz_fgt _ _ _ _ T isz_zero).
  change (fin (px a) /\ RV (px a) = IZR (fst va)) in Ax.
  destruct (dir =? 0); [reflexivity|]. destruct (turn va vb vc <? 0); [reflexivity|].
  now destruct (0 <? turn va vb vc) eqn:?; replace (turn va vb vc >? 0) with (0 <? turn va vb vc) by lia.
Qed.

Definition one_sign (t : nat -> Z) (k : nat) : Prop :=
  (forall i, (i < k)%nat -> 0 <= t i) \/ (t 0%nat < 0 /\ forall i, (i < k)%nat -> t i <= 0).

Lemma concave_exact ix ps vs n k : points_stand_for ps vs -> within (2 ^ 24) vs -> (1 <= k)%nat ->
  let st := fold_left (pp_step ix ps n) (seq 0 k) (pp_init ps) in
  pp_dir st = (if zturn vs n 0 <? 0 then -1 else 1) /\
  (pp_concave st = false <-> one_sign (zturn vs n) k).
Proof.
  intros S W K. cbv zeta. induction k as [|k IH]; [lia|].
  rewrite seq_S, fold_left_app. cbn [fold_left]. rewrite Nat.add_0_l.
  set (st := fold_left _ _ _) in *.
  pose proof (pp_step_turn ix ps n st k) as ST.
  rewrite (calc_concave_exact _ _ _ _ _ _ _ _ (stand_nth ps vs k S) (stand_b ps vs n k S) (stand_c ps vs n k S)) in ST.
  2:{ intros v [<-|[<-|[<-|[]]]]; [apply within_vat|apply within_zb|apply within_zc]; auto; lia. }
  fold (zturn vs n k) in ST.
  destruct k as [|k].
  - assert (D0 : pp_dir st = 0) by reflexivity. assert (C0 : pp_concave st = false) by reflexivity.
    rewrite D0, C0 in ST. cbn [Z.eqb] in ST.
    apply pair_equal_spec in ST; destruct ST as [D C]. rewrite D, C. split; [reflexivity|]. split; [intros _|reflexivity].
    unfold one_sign. destruct (Z.lt_ge_cases (zturn vs n 0) 0) as [L|G].
    + right. split; [exact L|]. intros i Hi. replace i with 0%nat by lia. lia.
    + left. intros i Hi. replace i with 0%nat by lia. exact G.
  - destruct IH as [D C]; [lia|]. rewrite D in ST.
    set (t := zturn vs n) in *. clearbody t. clear D.
    assert (DZ : (if t 0%nat <? 0 then -1 else 1) =? 0 = false) by (destruct (t 0%nat <? 0); reflexivity).
    rewrite DZ in ST.
    destruct (pp_concave st) eqn:CC.
    + apply pair_equal_spec in ST; destruct ST as [D' C']. rewrite D', C'. split; [reflexivity|].
      split; [discriminate|]. intros O. apply C. destruct O as [O|[O1 O2]]; [left|right].
      * intros i Hi. apply O. lia.
      * split; [exact O1|]. intros i Hi. apply O2. lia.
    + assert (C0 : one_sign t (Datatypes.S k)) by (now apply C). clear C.
      assert (EX : one_sign t (Datatypes.S (Datatypes.S k)) <->
        (if t 0%nat <? 0 then t (Datatypes.S k) <= 0 else 0 <= t (Datatypes.S k))).
      { unfold one_sign. destruct (t 0%nat <? 0) eqn:T0.
        - split.
          + intros [O|[_ O]]; [specialize (O 0%nat); lia|apply O; lia].
          + intros H. right. split; [lia|]. intros i Hi.
            destruct C0 as [C0|[_ C0]]; [specialize (C0 0%nat); lia|].
            destruct (Nat.eq_dec i (Datatypes.S k)) as [->|]; [exact H|apply C0; lia].
        - split.
          + intros [O|[O _]]; [apply O; lia|lia].
          + intros H. left. intros i Hi.
            destruct C0 as [C0|[C0 _]]; [|lia].
            destruct (Nat.eq_dec i (Datatypes.S k)) as [->|]; [exact H|apply C0; lia]. }
      rewrite EX. clear EX C0. generalize dependent (t (Datatypes.S k)). intros tk ST.
      destruct (t 0%nat <? 0); destruct (tk <? 0) eqn:E1; [|destruct (0 <? tk) eqn:E2| |destruct (0 <? tk) eqn:E2];
        cbn [Z.eqb Pos.eqb] in ST; apply pair_equal_spec in ST; destruct ST as [D' C']; rewrite D', C'; (split; [reflexivity|]); split; intros; try lia; discriminate || reflexivity.
Qed.

(** the gathered triples are the consecutive vertices around the polygon *)
Lemma zturn_after vs i : (2 <= length vs)%nat -> (i < length vs)%nat ->
  zturn vs (length vs) i = turn_after vs i.
Proof.
  intros N I. unfold zturn, turn_after, vertex_at. set (n := length vs) in *.
  assert (A : (i mod n = i)%nat) by (apply Nat.mod_small; lia).
  assert (B : zb vs n i = nth ((i + 1) mod n) vs (0, 0)).
  { unfold zb, vat. destruct (Nat.eqb_spec i (n - 1)) as [->|Q].
    - replace (n - 1 + 1)%nat with n by lia. rewrite Nat.mod_same by lia. reflexivity.
    - rewrite Nat.mod_small by lia. reflexivity. }
  assert (C : zc vs n i = nth ((i + 2) mod n) vs (0, 0)).
  { unfold zc, vat. destruct (Nat.ltb_spec (i + 2) n) as [Q|Q]; [now rewrite Nat.mod_small by lia|].
    destruct (Nat.eqb_spec i (n - 1)) as [->|Q2].
    - destruct (Nat.eq_dec n 2) as [N2|N2].
      + rewrite N2. reflexivity.
      + replace (n - 1 + 2)%nat with (1 + 1 * n)%nat by lia. rewrite Nat.mod_add, Nat.mod_small by lia. reflexivity.
    - replace (i + 2)%nat with n by lia. rewrite Nat.mod_same by lia. reflexivity. }
  now rewrite A, B, C.
Qed.

Theorem convex_exact ps vs closed kind spread r :
  points_stand_for ps vs -> within (2 ^ 24) vs -> (2 <= length ps)%nat ->
  series_new ps closed kind spread = Some r ->
  (r_convex r = true <-> one_sign (turn_after vs) (length vs)).
Proof.
  intros S W N NW. pose proof (stand_length _ _ S) as L.
  pose proof (series_new_fields _ _ _ _ _ NW) as F. cbv zeta in F.
  destruct F as (_ & _ & _ & _ & _ & CV & _ & _ & _). rewrite CV. clear CV.
  match goal with |- context [process_points ?x ps _] => set (ix := x); clearbody ix end.
  destruct (process_fields ix ps (length ps) N) as (_ & _ & ->).
  destruct (concave_exact (option_map fst ix) ps vs (length ps) (length ps) S W ltac:(lia)) as [_ C].
  fold (pp_loop (option_map fst ix) ps (length ps)) in C.
  rewrite negb_true_iff, C, <- L. unfold one_sign.
  rewrite L in *.
  assert (E : forall i, (i < length vs)%nat -> zturn vs (length vs) i = turn_after vs i) by (intros; now apply zturn_after).
  rewrite (E 0%nat) by lia.
  split; (intros [O|[O1 O2]]; [left|right]); [|split; [assumption|]| |split; [assumption|]]; intros i Hi;
    first [rewrite <- E by assumption|rewrite E by assumption]; auto.
Qed.

(** turn_after has the period of the polygon *)
Lemma turn_after_mod vs i : vs <> [] -> turn_after vs i = turn_after vs (i mod length vs).
Proof.
  intros NE. assert (length vs <> 0)%nat by (destruct vs; cbn; congruence).
  unfold turn_after, vertex_at. rewrite Nat.mod_mod by assumption.
  rewrite (Nat.add_mod i 1), (Nat.add_mod (i mod _) 1) by assumption.
  rewrite (Nat.add_mod i 2), (Nat.add_mod (i mod _) 2) by assumption.
  now rewrite !Nat.mod_mod by assumption.
Qed.

Lemma one_sign_one_way vs : vs <> [] -> one_sign (turn_after vs) (length vs) -> turns_one_way vs.
Proof.
  intros NE O (i & j & Hi & Hj).
  assert (length vs <> 0)%nat by (destruct vs; cbn; congruence).
  rewrite turn_after_mod in Hi, Hj by assumption.
  destruct O as [O|[_ O]].
  - specialize (O (j mod length vs)%nat). pose proof (Nat.mod_upper_bound j (length vs)). lia.
  - specialize (O (i mod length vs)%nat). pose proof (Nat.mod_upper_bound i (length vs)). lia.
Qed.

(** repeating the first vertex at the end *)
Lemma closed_turns c cs k : (k + 2 <= length (c :: cs))%nat ->
  turn_after ((c :: cs) ++ [c]) k = turn_after (c :: cs) k.
Proof.
  intros K. unfold turn_after, vertex_at. rewrite app_length. cbn [length] in *.
  set (m := length cs) in *.
  rewrite !(Nat.mod_small k), !(Nat.mod_small (k + 1)) by lia.
  rewrite (Nat.mod_small (k + 2) (S m + 1)) by lia.
  rewrite !(app_nth1 (c :: cs) [c]) by (cbn; lia).
  f_equal. destruct (Nat.eq_dec (k + 2) (S m)) as [E|E].
  - rewrite E, Nat.mod_same by lia. rewrite app_nth2 by (cbn; lia). cbn [length]. fold m.
    now rewrite Nat.sub_diag.
  - rewrite Nat.mod_small by lia. rewrite app_nth1 by (cbn; lia). reflexivity.
Qed.

Lemma shoelace_closed c cs : shoelace ((c :: cs) ++ [c]) = shoelace (c :: cs).
Proof.
  unfold shoelace. cbn [app]. change (c :: (cs ++ [c]) ++ [c]) with ((c :: cs ++ [c]) ++ [c]).
  change (c :: cs ++ [c]) with ((c :: cs) ++ [c]). rewrite <- app_assoc. cbn [app].
  change (c :: cs ++ [c; c]) with ((c :: cs) ++ [c; c]). rewrite shoelace_path_app. cbn [app]. ring.
Qed.

(** the area has its sign bit cleared, so it is never negative *)
Definition wf_pt (p : pt) : Prop := f_wf (px p) = true /\ f_wf (py p) = true.
Lemma wf_at ps i : Forall wf_pt ps -> wf_pt (pt_at ps i).
Proof.
  intros H. unfold pt_at. destruct (nth_in_or_default i ps pt0) as [I| ->].
  - rewrite Forall_forall in H. now apply H.
  - split; reflexivity.
Qed.
Lemma cwc_wf ix ps n k : Forall wf_pt ps ->
  f_wf (pp_cwc (fold_left (pp_step ix ps n) (seq 0 k) (pp_init ps))) = true.
Proof.
  intros H. induction k as [|k IH]; [reflexivity|].
  rewrite seq_S, fold_left_app. cbn [fold_left]. rewrite pp_step_cwc. unfold calc_clockwise.
  destruct (wf_at ps (0 + k) H) as [A1 A2].
  assert (B : wf_pt (gather_b ps n (0 + k))) by (unfold gather_b; destruct (_ =? _)%nat; now apply wf_at).
  destruct B as [B1 B2].
  apply fadd_wf; [exact IH|]. apply fmul_wf; [now apply fsub_wf|now apply fadd_wf].
Qed.
Lemma fabs_not_neg x : f_wf x = true -> flt (fabs x) f_zero = false.
Proof.
  intros W. unfold fabs. pose proof (mag_bounds x W) as B. destruct (sign_small _ B) as [S M].
  unfold flt. apply andb_false_iff. right. unfold f_key at 1. rewrite S, M.
  change (f_key f_zero) with 0. apply Z.ltb_ge. lia.
Qed.
Lemma area_not_negative ps closed kind spread r : Forall wf_pt ps -> series_new ps closed kind spread = Some r ->
  flt (r_area r) f_zero = false.
Proof.
  intros WF NW. pose proof (series_new_fields _ _ _ _ _ NW) as F. cbv zeta in F.
  destruct F as (_ & _ & _ & _ & _ & _ & _ & AR & _). rewrite AR. clear AR.
  match goal with |- context [process_points ?x ps _] => set (ix := x); clearbody ix end.
  destruct (Nat.le_gt_cases 2 (length ps)) as [N|N].
  - destruct (process_fields ix ps (length ps) N) as (_ & -> & _). apply fabs_not_neg.
    apply fdiv_wf; [now apply cwc_wf|reflexivity].
  - destruct (process_short ix ps (length ps) N) as (_ & -> & _). reflexivity.
Qed.
