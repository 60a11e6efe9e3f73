(** * C31, C47: coordinates in text *)

From Coq Require Import ZArith Bool String List Lia ZifyBool Reals Lra.
From Coq Require Import Floats.SpecFloat.
From Flocq Require Import Core.
From Verif Require Import F64 Geo F64Order F64Real SegExact Bytes Writer Num NumFacts NumRound
  NumPrint SpecText TextFacts RyuGood.
Import ListNotations.
Local Open Scope Z_scope.

Definition one : f64 := 4607182418800017408.
Lemma RV_one : fin one /\ RV one = 1%R.
Proof.
  assert (W : f_wf one = true) by reflexivity. assert (N : f_isnormal one = true) by reflexivity.
  destruct (normal_parts one W N) as (F & _ & _ & HV). split; [exact F|]. rewrite HV.
  replace (man one) with 0 by reflexivity. replace (exq one) with 1023 by reflexivity.
  replace (f_sign one) with false by reflexivity. cbn [cond_Ropp].
  change (1023 - 1075) with (-52). unfold F2R. cbn [Fnum Fexp].
  change (IZR (p52 + 0)) with (IZR (Zpower radix2 52)). rewrite IZR_Zpower by lia.
  rewrite <- bpow_plus. reflexivity.
Qed.

Lemma isz_normal x n : isz x n -> n <> 0 -> f_isnormal x = true.
Proof.
  intros [F V] Hn. destruct F as [W Fi].
  destruct (Z.lt_ge_cases (f_mag x) p52) as [L|L].
  - exfalso. destruct RV_one as [F1 V1].
    assert (Lm : (magR x < magR one)%R).
    { apply magR_lt; [split; assumption|assumption|]. change (f_mag one) with 4607182418800017408.
      unfold p52 in L. lia. }
    destruct (RV_mag x (conj W Fi)) as [R1 P1]. destruct (RV_mag one F1) as [R2 P2].
    replace (f_sign one) with false in R2 by reflexivity.
    assert (A : (1 <= Rabs (RV x))%R).
    { rewrite V, <- abs_IZR. apply (IZR_le 1). lia. }
    assert (B : (Rabs (RV x) <= magR x)%R).
    { rewrite R1. destruct (f_sign x); [rewrite Rabs_Ropp|]; rewrite Rabs_pos_eq; lra. }
    lra.
  - unfold f_isnormal. unfold f_isfinite in Fi. lia.
Qed.

Lemma isz_small x n : isz x n -> n <> 0 -> Z.abs n < 2 ^ 53 ->
  d2d_small_int (man x) (exq x) = Some (Z.abs n) /\ (if f_sign x then - Z.abs n else Z.abs n) = n.
Proof.
  intros HI Hn Hb. pose proof (isz_normal x n HI Hn) as N. destruct HI as [[W Fi] V].
  destruct (normal_parts x W N) as (_ & HQ & HM & HV). rewrite V in HV.
  set (m2 := p52 + man x) in *. set (E := exq x - 1075) in *.
  assert (P : (0 < F2R (Float radix2 m2 E))%R) by (apply F2R_gt_0; cbn [Fnum]; unfold m2, p52 in *; lia).
  assert (HA : F2R (Float radix2 m2 E) = IZR (Z.abs n) /\ (if f_sign x then - Z.abs n else Z.abs n) = n).
  { destruct (f_sign x); cbn [cond_Ropp] in HV.
    - assert (n < 0) by (apply lt_IZR; lra). rewrite Z.abs_neq by lia. split; [|lia].
      rewrite opp_IZR. lra.
    - assert (0 < n) by (apply lt_IZR; lra). rewrite Z.abs_eq by lia. split; [|lia]. lra. }
  destruct HA as [HA HS]. split; [|exact HS].
  set (a := Z.abs n) in *. clearbody a. unfold F2R in HA. cbn [Fnum Fexp] in HA.
  assert (E0 : E <= 0).
  { destruct (Z.le_gt_cases E 0) as [L|L]; [exact L|exfalso].
    rewrite <- (IZR_Zpower radix2 E) in HA by lia. rewrite <- mult_IZR in HA. apply eq_IZR in HA.
    assert (2 ^ 1 <= 2 ^ E) by (apply Z.pow_le_mono_r; lia).
    change (radix2 ^ E) with (2 ^ E) in HA. unfold m2, p52 in *. change (2 ^ 1) with 2 in *.
    change (2 ^ 53) with 9007199254740992 in *. nia. }
  assert (HA' : m2 = a * 2 ^ (- E)).
  { apply eq_IZR. rewrite mult_IZR, <- HA. change (2 ^ (- E)) with (radix2 ^ (- E)).
    rewrite IZR_Zpower by lia. rewrite Rmult_assoc, <- bpow_plus. rewrite Z.add_opp_diag_r. cbn [bpow]. ring. }
  assert (E1 : -52 <= E).
  { destruct (Z.le_gt_cases (-52) E) as [L|L]; [exact L|exfalso].
    assert (2 ^ 53 <= 2 ^ (- E)) by (apply Z.pow_le_mono_r; lia).
    change (2 ^ 53) with 9007199254740992 in *. unfold m2, p52 in *.
    assert (1 <= a). { destruct (Z.le_gt_cases 1 a); [assumption|]. nia. } nia. }
  unfold d2d_small_int. fold m2. replace (exq x - 1023 - 52) with E by (unfold E; lia).
  replace (0 <? E) with false by lia. replace (E <? -52) with false by lia.
  assert (Pk : 0 < 2 ^ (- E)) by (apply Z.pow_pos_nonneg; lia).
  replace (2 ^ (- E) - 1) with (Z.ones (- E)) by (rewrite Z.ones_equiv; lia).
  rewrite Z.land_ones by lia. rewrite HA'. rewrite Z.mod_mul by lia. cbn [negb Z.eqb].
  f_equal. apply Z.div_mul. lia.
Qed.

(** The printed text of an integer parses back to the same value, in both modes
    and in front of anything that cannot continue a number. *)
Theorem C31_integer_text_reads_back : forall fixed x n, isz x n -> Z.abs n < 2 ^ 53 ->
  exists t, printed (write_string_double fixed x ;; write_nullterm) t /\
    forall rest, stops rest ->
      exists x', strtod (t ++ rest) = (x', rest) /\ isz x' n /\ (n <> 0 -> x' = x).
Proof.
  intros fixed x n HI Hb. destruct (Z.eq_dec n 0) as [->|Hn].
  - assert (N : f_isnormal x = false).
    { destruct (f_isnormal x) eqn:N; [exfalso|reflexivity]. destruct HI as [[W Fi] V].
      destruct (normal_parts x W N) as (_ & _ & HM & HV). rewrite V in HV.
      assert (P : (0 < F2R (Float radix2 (p52 + man x) (exq x - 1075)))%R)
        by (apply F2R_gt_0; cbn [Fnum]; unfold p52 in *; lia).
      destruct (f_sign x); cbn [cond_Ropp] in HV; lra. }
    exists [48]. split; [apply printed_types, types_zero, N|].
    intros rest S. exists 0.
    pose proof (strtod_parts false [48] [] rest 0 rest) as H. cbn [app sgn frac_chars] in H.
    change ([48] ++ rest) with (48 :: rest). rewrite H.
    + split; [reflexivity|]. split; [|intros; contradiction].
      split; [split; reflexivity|]. unfold RV. change (f_dec 0) with (S754_zero false). reflexivity.
    + repeat constructor; unfold digit; lia.
    + discriminate.
    + constructor.
    + now left.
    + now apply dec_exp_none.
  - pose proof (isz_normal x n HI Hn) as N. destruct (isz_small x n HI Hn Hb) as [S1 S2].
    destruct (int_texts (negb fixed) x _ (proj1 (proj1 HI)) N S1) as (t1 & t2 & T & R1 & R2 & _).
    eexists. split.
    + apply printed_types. apply (types_double fixed x t1 t2 N T); [apply R1|].
      intros t Ht. apply (R2 t Ht).
    + intros rest S. exists x. split; [|auto].
      destruct t2 as [t|]; [apply (R2 t eq_refl)|apply R1]; exact S.
Qed.
Print Assumptions C31_integer_text_reads_back.

(** With tg_env_set_print_fixed_floats(true) the text is the plain decimal; in
    the default mode it is unless the integer is a multiple of 1000. *)
Theorem C31_integer_text_plain_partial : forall fixed x n, isz x n -> Z.abs n < 2 ^ 53 ->
  fixed = true \/ n mod 1000 <> 0 ->
  exists t, printed (write_string_double fixed x ;; write_nullterm) t /\ plain_decimal n t.
Proof.
  intros fixed x n HI Hb HC. destruct (Z.eq_dec n 0) as [->|Hn].
  - exists [48]. split.
    + apply printed_types, types_zero. destruct (f_isnormal x) eqn:N; [exfalso|reflexivity].
      destruct HI as [[W Fi] V].
      destruct (normal_parts x W N) as (_ & _ & HM & HV). rewrite V in HV.
      assert (P : (0 < F2R (Float radix2 (p52 + man x) (exq x - 1075)))%R)
        by (apply F2R_gt_0; cbn [Fnum]; unfold p52 in *; lia).
      destruct (f_sign x); cbn [cond_Ropp] in HV; lra.
    + exists 48, []. split; [reflexivity|]. split; [intros c [<-|[]]; lia|]. split; reflexivity.
  - pose proof (isz_normal x n HI Hn) as N. destruct (isz_small x n HI Hn Hb) as [S1 S2].
    destruct (int_texts (negb fixed) x _ (proj1 (proj1 HI)) N S1) as (t1 & t2 & T & R1 & R2 & R3 & R4).
    rewrite S2 in R3.
    assert (t2 = None).
    { destruct HC as [->|HC].
      - destruct T as (buf & _ & T). unfold fp_utoa_text in T. cbn [negb andb] in T.
        destruct (split_exp _) as [[a b]|]; congruence.
      - apply R4. intros X. apply HC. destruct (Z.abs_eq_or_opp n) as [Y|Y]; rewrite Y in X.
        + exact X.
        + apply Z.mod_divide; [lia|]. apply Z.mod_divide in X; [|lia].
          now apply (proj1 (Z.divide_opp_r 1000 n)). }
    subst t2. exists t1. split; [|exact R3].
    apply printed_types. apply (types_double fixed x t1 None N T); [apply R1|discriminate].
Qed.
Print Assumptions C31_integer_text_plain_partial.

(** In the default mode 1000 is printed as 1e3. *)
Theorem C31_integer_text_plain_refuted : exists x n, isz x n /\ Z.abs n < 2 ^ 53 /\
  ~ exists t, printed (write_string_double false x ;; write_nullterm) t /\ plain_decimal n t.
Proof.
  exists (f_of_Z 1000), 1000. split; [|split; [reflexivity|]].
  - assert (W : f_wf (f_of_Z 1000) = true) by (vm_compute; reflexivity).
    assert (N : f_isnormal (f_of_Z 1000) = true) by (vm_compute; reflexivity).
    destruct (normal_parts _ W N) as (F & _ & _ & HV). split; [exact F|]. rewrite HV.
    replace (man (f_of_Z 1000)) with 4292493394837504 by (vm_compute; reflexivity).
    replace (exq (f_of_Z 1000)) with 1032 by (vm_compute; reflexivity).
    replace (f_sign (f_of_Z 1000)) with false by (vm_compute; reflexivity).
    cbn [cond_Ropp]. change (1032 - 1075) with (-43). unfold F2R. cbn [Fnum Fexp].
    change (p52 + 4292493394837504) with (1000 * Zpower radix2 43). rewrite mult_IZR, IZR_Zpower by lia.
    rewrite Rmult_assoc, <- bpow_plus. cbn [bpow Z.add Z.opp]. apply Rmult_1_r.
  - intros (t & HP & HD). destruct (HP (repeat 1 6)) as (w & E & C & _ & HT).
    assert (X : (write_string_double false (f_of_Z 1000) ;; write_nullterm) (Wr (repeat 1 6) 0)
                = Some (Wr [49; 101; 51; 0; 0; 1] 3)) by (vm_compute; reflexivity).
    rewrite X in E. apply (f_equal (fun o => match o with Some z => z | None => Wr [] 0 end)) in E.
    cbv beta iota in E. subst w. cbn [w_count] in C.
    destruct HT as [tail HT]; [discriminate|]. cbn [w_dst] in HT.
    destruct t as [|a [|b [|c [|]]]]; try discriminate C.
    cbn in HT. injection HT as <- <- <- _.
    destruct HD as (d & ds & Ht & Hdig & _). change (1000 <? 0) with false in Ht. cbn [app] in Ht.
    injection Ht as <- <-. specialize (Hdig 101 (or_intror (or_introl eq_refl))). lia.
Qed.
Print Assumptions C31_integer_text_plain_refuted.

(** -2^53+1 in both modes; 120 in the default mode *)
Example C31_example :
  write_string_double false (f_of_Z (- (2 ^ 53 - 1))) (Wr (repeat 1 20) 0)
  = Some (Wr (str "-9007199254740991" ++ [0; 1; 1]) 17)
  /\ write_string_double false (f_of_Z 120) (Wr (repeat 1 5) 0) = Some (Wr (str "120" ++ [0; 1]) 3)
  /\ write_string_double true (f_of_Z 1000) (Wr (repeat 1 5) 0) = Some (Wr (str "1000" ++ [0]) 4)
  /\ strtod (str "1e3,") = (f_of_Z 1000, str ",")
  /\ strtod (str "-9007199254740991]") = (f_of_Z (- (2 ^ 53 - 1)), str "]").
Proof. vm_compute. repeat split; reflexivity. Qed.

(** ** C47 *)

(** Every normal double: the text, in both modes and in front of anything that
    cannot continue a number, is read back as that very double. *)
Theorem C47_reads_back_partial : forall fixed x, f_wf x = true -> f_isnormal x = true ->
  exists t, printed (write_string_double fixed x ;; write_nullterm) t /\
    forall rest, stops rest -> strtod (t ++ rest) = (x, rest).
Proof.
  intros fixed x W N.
  destruct (double_texts (negb fixed) x W N (fun _ => d2d_always_good x W N)) as (t1 & t2 & T & R1 & R2).
  eexists. split.
  - apply printed_types. apply (types_double fixed x t1 t2 N T); [apply R1|]. intros t Ht. apply (R2 t Ht).
  - intros rest S. destruct t2 as [t|]; [apply (R2 t eq_refl)|apply R1]; exact S.
Qed.
Print Assumptions C47_reads_back_partial.

(** The smallest positive double is finite, is printed as 0 and is read back as 0. *)
Theorem C47_refuted : exists x, f_wf x = true /\ f_isfinite x = true /\ 0 < f_mag x /\
  forall fixed, printed (write_string_double fixed x ;; write_nullterm) (str "0") /\
    strtod (str "0") = (0, []).
Proof.
  exists 1. repeat (split; [reflexivity|]). intros fixed. split; [|vm_compute; reflexivity].
  apply printed_types, types_zero. reflexivity.
Qed.
Print Assumptions C47_refuted.

(** 0.1, the largest double, and 2^-1022 *)
Example C47_example :
  let x := 4591870180066957722 in
  f_wf x = true /\ f_isnormal x = true /\
  write_string_double false x (Wr (repeat 1 5) 0) = Some (Wr (str "0.1" ++ [0; 1]) 3) /\
  strtod (str "0.1 ") = (x, str " ") /\
  write_string_double false 9218868437227405311 (Wr (repeat 1 23) 0)
  = Some (Wr (str "1.7976931348623157e308" ++ [0]) 22) /\
  write_string_double false 4503599627370496 (Wr (repeat 1 24) 0)
  = Some (Wr (str "2.2250738585072014e-308" ++ [0]) 23).
Proof. vm_compute. repeat split; reflexivity. Qed.
