(** * Real-number facts about the doubles of F64.v, through Flocq *)

From Coq Require Import ZArith Bool List Lia ZifyBool Reals Lra Psatz.
From Coq Require Import Floats.SpecFloat.
From Flocq Require Import Core Operations BinarySingleNaN.
From Verif Require Import F64 Geo F64Order.
Local Open Scope Z_scope.

Lemma Hprec53 : Prec_gt_0 53. Proof. reflexivity. Qed.
Lemma Hmax1024 : Prec_lt_emax 53 1024. Proof. reflexivity. Qed.
Lemma Hprec24 : Prec_gt_0 24. Proof. reflexivity. Qed.
Lemma Hmax128 : Prec_lt_emax 24 128. Proof. reflexivity. Qed.
#[global] Existing Instance Hprec53.
#[global] Existing Instance Hmax1024.

Notation bf := (binary_float 53 1024).

(** ** digits *)
Lemma digits2_pos_bounds p : 2 ^ (Zpos (digits2_pos p) - 1) <= Zpos p < 2 ^ Zpos (digits2_pos p).
Proof.
  rewrite Zpos_digits2_pos.
  pose proof (Zdigits_correct radix2 (Zpos p)) as H.
  change (Z.abs (Zpos p)) with (Zpos p) in H. exact H.
Qed.
Lemma digits2_pos_unique p n : 2 ^ (n - 1) <= Zpos p < 2 ^ n -> Zpos (digits2_pos p) = n.
Proof.
  intros H. pose proof (digits2_pos_bounds p) as B.
  assert (0 < n). { destruct (Z.lt_ge_cases 0 n); auto. rewrite (Z.pow_neg_r 2 (n-1)) in H by lia.
    assert (2 ^ n <= 1). { destruct (Z.eq_dec n 0). subst; reflexivity. rewrite Z.pow_neg_r; lia. } lia. }
  assert (n - 1 < Zpos (digits2_pos p)).
  { apply (Z.pow_lt_mono_r_iff 2); lia. }
  assert (Zpos (digits2_pos p) - 1 < n).
  { apply (Z.pow_lt_mono_r_iff 2); lia. }
  lia.
Qed.

Lemma fexp53 e : SpecFloat.fexp 53 1024 e = Z.max (e - 53) (-1074).
Proof. reflexivity. Qed.

Ltac Zify.zify_post_hook ::= Z.div_mod_to_equations.

Lemma mag_bounds x : f_wf x = true -> 0 <= f_mag x < p63.
Proof. unfold f_wf, f_mag, f_sign, p63, p64. intros H. destruct (9223372036854775808 <=? x) eqn:E; lia. Qed.

Lemma f_dec_valid x : f_wf x = true -> valid_binary 53 1024 (f_dec x) = true.
Proof.
  intros H. pose proof (mag_bounds x H) as B. unfold f_dec.
  destruct (f_mag x / p52 =? 0) eqn:E0.
  - destruct (f_mag x mod p52) eqn:Em; try reflexivity.
    cbn. unfold bounded, canonical_mantissa. rewrite fexp53.
    pose proof (digits2_pos_bounds p) as D.
    assert (Zpos p < p52) by (unfold p52 in *; lia).
    assert (Zpos (digits2_pos p) <= 52).
    { destruct (Z.le_gt_cases (Zpos (digits2_pos p)) 52); auto.
      assert (2 ^ 52 <= 2 ^ (Zpos (digits2_pos p) - 1)) by (apply Z.pow_le_mono_r; lia).
      unfold p52 in *. change (2^52) with 4503599627370496 in *. lia. }
    apply andb_true_intro; split; [|reflexivity].
    apply Zeq_is_eq_bool. lia.
  - destruct (f_mag x / p52 =? 2047) eqn:E1.
    + destruct (f_mag x mod p52 =? 0); reflexivity.
    + destruct (f_mag x mod p52 + p52) eqn:Em; try reflexivity.
      cbn. unfold bounded, canonical_mantissa. rewrite fexp53.
      assert (Zpos (digits2_pos p) = 53).
      { apply digits2_pos_unique. change (2 ^ (53-1)) with p52. change (2^53) with (2 * p52).
        unfold p52 in *; lia. }
      unfold p52, p63 in *.
      apply andb_true_intro; split.
      * apply Zeq_is_eq_bool. lia.
      * apply Zle_is_le_bool. lia.
Qed.

Definition toB (x : f64) (H : f_wf x = true) : bf := SF2B (f_dec x) (f_dec_valid x H).

Lemma B2SF_toB x H : B2SF (toB x H) = f_dec x.
Proof. unfold toB. apply B2SF_SF2B. Qed.

(** ** encoding *)
Lemma bounded_inv m e : bounded 53 1024 m e = true ->
  -1074 <= e <= 971 /\ Zpos m < 2 * p52 /\ (Zpos m < p52 -> e = -1074).
Proof.
  unfold bounded, canonical_mantissa. intros H. apply andb_prop in H. destruct H as [H1 H2].
  apply Zeq_bool_eq in H1. apply Zle_bool_imp_le in H2. rewrite fexp53 in H1.
  pose proof (digits2_pos_bounds m) as D.
  assert (Zpos (digits2_pos m) <= 53) by lia.
  assert (2 ^ Zpos (digits2_pos m) <= 2 ^ 53) by (apply Z.pow_le_mono_r; lia).
  change (2 ^ 53) with (2 * p52) in *.
  repeat split; try lia.
  intros Hm. destruct (Z.eq_dec (Zpos (digits2_pos m)) 53) as [E|E]; [|lia].
  rewrite E in D. change (2 ^ (53 - 1)) with p52 in D. lia.
Qed.

Lemma enc_finite_mag m e : bounded 53 1024 m e = true ->
  0 < (e + 1074) * p52 + Zpos m < inf_mag.
Proof. intros H. apply bounded_inv in H. unfold p52, inf_mag in *. nia. Qed.

Lemma f_sign_enc s g : 0 <= g < p63 -> f_sign (f_signbit s + g) = s /\ f_mag (f_signbit s + g) = g
   /\ f_wf (f_signbit s + g) = true.
Proof.
  intros H. unfold f_mag, f_sign, f_signbit, f_wf, p64. unfold p63 in *.
  destruct s.
  - destruct (9223372036854775808 <=? 9223372036854775808 + g) eqn:E; lia.
  - destruct (9223372036854775808 <=? 0 + g) eqn:E; lia.
Qed.

Lemma f_wf_enc v : valid_binary 53 1024 v = true -> f_wf (f_enc v) = true.
Proof.
  destruct v; intros H; try (destruct s; reflexivity); try reflexivity.
  cbn [f_enc]. pose proof (enc_finite_mag _ _ H) as B. unfold inf_mag in B.
  apply f_sign_enc. unfold p63; lia.
Qed.

Lemma f_dec_enc v : valid_binary 53 1024 v = true -> f_dec (f_enc v) = v.
Proof.
  destruct v; intros H; try (destruct s; reflexivity); try reflexivity.
  cbn [f_enc]. pose proof (enc_finite_mag _ _ H) as B.
  destruct (f_sign_enc s ((e + 1074) * p52 + Zpos m)) as (S1 & S2 & _).
  { unfold inf_mag, p63 in *; lia. }
  unfold f_dec. rewrite S1, S2. apply bounded_inv in H. destruct H as (He & Hm & Hs).
  destruct (Z.lt_ge_cases (Zpos m) p52) as [L|L].
  - specialize (Hs L). subst e.
    replace ((-1074 + 1074) * p52 + Zpos m) with (Zpos m) by lia.
    rewrite Z.div_small by lia. rewrite Z.mod_small by lia. reflexivity.
  - replace ((e + 1074) * p52 + Zpos m) with (Zpos m - p52 + (e + 1075) * p52) by lia.
    rewrite Z.div_add, Z.mod_add by (unfold p52; lia).
    rewrite Z.div_small, Z.mod_small by lia.
    replace (0 + (e + 1075) =? 0) with false by lia.
    replace (0 + (e + 1075) =? 2047) with false by lia.
    replace (Zpos m - p52 + p52) with (Zpos m) by lia.
    f_equal. lia.
Qed.

(** ** the value of a finite double *)
Definition fin (x : f64) : Prop := f_wf x = true /\ f_isfinite x = true.
Definition fok (x : f64) : Prop := f_wf x = true /\ nn x.
Definition RV (x : f64) : R := SF2R radix2 (f_dec x).

Lemma fin_ok x : fin x -> fok x.
Proof. unfold fin, fok, nn, f_isfinite, f_isnan. intros [H F]. split; [exact H|lia]. Qed.

Lemma B2R_toB x H : B2R (toB x H) = RV x.
Proof. unfold toB, RV. apply B2R_SF2B. Qed.

(** decoded shape of a finite double *)
Inductive fin_shape (x : f64) : spec_float -> Prop :=
| fs_zero s : f_sign x = s -> f_mag x = 0 -> fin_shape x (S754_zero s)
| fs_fin s m e : f_sign x = s -> f_mag x = (e + 1074) * p52 + Zpos m ->
    -1074 <= e <= 971 -> Zpos m < 2 * p52 -> (Zpos m < p52 -> e = -1074) ->
    fin_shape x (S754_finite s m e).

Lemma fin_dec x : fin x -> fin_shape x (f_dec x).
Proof.
  intros [H F]. pose proof (mag_bounds x H) as B. unfold f_isfinite in F. unfold f_dec.
  assert (F' : f_mag x < 2047 * p52) by (apply Z.ltb_lt in F; exact F). clear F H.
  destruct B as [B _].
  pose proof (Z.div_mod (f_mag x) p52 ltac:(discriminate)) as E.
  pose proof (Z.mod_pos_bound (f_mag x) p52 eq_refl) as M.
  assert (Q : 0 <= f_mag x / p52) by (apply Z.div_pos; [exact B|reflexivity]).
  generalize dependent (f_mag x / p52). intros q E Q.
  generalize dependent (f_mag x mod p52). intros r E M.
  assert (P : 0 < p52) by reflexivity.
  destruct (q =? 0) eqn:E0.
  - apply Z.eqb_eq in E0. subst q. destruct r as [|r|r].
    + apply fs_zero; [reflexivity|]. lia.
    + apply fs_fin; try reflexivity; try lia.
    + lia.
  - apply Z.eqb_neq in E0. destruct (q =? 2047) eqn:E1.
    + apply Z.eqb_eq in E1. subst q. lia.
    + destruct (r + p52) eqn:Em; try lia.
      apply fs_fin; try reflexivity; try nia.
Qed.

(** ** key order is the order of the values *)
Definition pow2 (e : Z) : R := bpow radix2 e.

Lemma mag_lt_R m1 e1 m2 e2 :
  -1074 <= e1 -> Zpos m1 < 2 * p52 -> (Zpos m1 < p52 -> e1 = -1074) ->
  -1074 <= e2 -> Zpos m2 < 2 * p52 -> (Zpos m2 < p52 -> e2 = -1074) ->
  (e1 + 1074) * p52 + Zpos m1 < (e2 + 1074) * p52 + Zpos m2 ->
  (F2R (Float radix2 (Zpos m1) e1) < F2R (Float radix2 (Zpos m2) e2))%R.
Proof.
  intros. unfold p52 in *.
  assert (e1 <= e2) by nia.
  unfold F2R; cbn [Fnum Fexp].
  replace (bpow radix2 e2) with (bpow radix2 (e2 - e1) * bpow radix2 e1)%R.
  2:{ rewrite <- bpow_plus. f_equal. lia. }
  rewrite <- Rmult_assoc.
  apply Rmult_lt_compat_r; [apply bpow_gt_0|].
  rewrite <- (IZR_Zpower radix2) by lia. rewrite <- mult_IZR. apply IZR_lt.
  change (Zpower radix2 (e2 - e1)) with (2 ^ (e2 - e1)).
  destruct (Z.eq_dec e1 e2) as [->|N].
  - rewrite Z.sub_diag. lia.
  - assert (Zpos m2 >= 4503599627370496) by lia.
    assert (2 ^ 1 <= 2 ^ (e2 - e1)) by (apply Z.pow_le_mono_r; lia).
    nia.
Qed.

Lemma RV_shape x v : fin_shape x v ->
  SF2R radix2 v = (if f_sign x then - (SF2R radix2 (SFabs v)) else SF2R radix2 (SFabs v))%R
  /\ (0 <= SF2R radix2 (SFabs v))%R.
Proof.
  intros S. destruct S as [s Hs Hm | s m e Hs Hm He Hm1 Hm2]; rewrite Hs.
  - cbn. destruct s; split; lra.
  - cbn. destruct s; unfold cond_Zopp.
    + split.
      * rewrite <- F2R_Zopp. reflexivity.
      * apply F2R_ge_0. cbn. lia.
    + split; [reflexivity|]. apply F2R_ge_0. cbn. lia.
Qed.

Definition magR (x : f64) : R := SF2R radix2 (SFabs (f_dec x)).

Lemma RV_mag x : fin x -> RV x = (if f_sign x then - magR x else magR x)%R /\ (0 <= magR x)%R.
Proof. intros F. apply RV_shape, fin_dec, F. Qed.

Lemma magR_lt x y : fin x -> fin y -> f_mag x < f_mag y -> (magR x < magR y)%R.
Proof.
  intros Fx Fy L. unfold magR. pose proof (fin_dec x Fx) as Sx. pose proof (fin_dec y Fy) as Sy.
  destruct Sx as [s Hs Hm | s m e Hs Hm He Hm1 Hm2];
  destruct Sy as [s' Hs' Hm' | s' m' e' Hs' Hm' He' Hm1' Hm2']; rewrite Hm, Hm' in L; cbn.
  - lia.
  - apply F2R_gt_0. cbn; lia.
  - unfold p52 in *; nia.
  - apply mag_lt_R; lia.
Qed.
Lemma magR_eq x y : fin x -> fin y -> f_mag x = f_mag y -> magR x = magR y.
Proof.
  intros Fx Fy L. unfold magR. pose proof (fin_dec x Fx) as Sx. pose proof (fin_dec y Fy) as Sy.
  destruct Sx as [s Hs Hm | s m e Hs Hm He Hm1 Hm2];
  destruct Sy as [s' Hs' Hm' | s' m' e' Hs' Hm' He' Hm1' Hm2']; rewrite Hm, Hm' in L; cbn; try reflexivity.
  - unfold p52 in *; nia.
  - unfold p52 in *; nia.
  - assert (e = e') by (unfold p52 in *; nia). subst.
    assert (Zpos m = Zpos m') by lia. congruence.
Qed.
Lemma magR_zero x : fin x -> f_mag x = 0 -> magR x = 0%R.
Proof.
  intros Fx L. unfold magR. pose proof (fin_dec x Fx) as Sx.
  destruct Sx as [s Hs Hm | s m e Hs Hm He Hm1 Hm2]; cbn; auto. unfold p52 in *; nia.
Qed.
Lemma magR_pos x : fin x -> 0 < f_mag x -> (0 < magR x)%R.
Proof.
  intros Fx L. unfold magR. pose proof (fin_dec x Fx) as Sx.
  destruct Sx as [s Hs Hm | s m e Hs Hm He Hm1 Hm2]; cbn. lia. apply F2R_gt_0; cbn; lia.
Qed.

Lemma key_lt_R x y : fin x -> fin y -> (f_key x < f_key y <-> (RV x < RV y)%R).
Proof.
  intros Fx Fy.
  assert (HL : forall a b, fin a -> fin b -> f_key a < f_key b -> (RV a < RV b)%R).
  { clear. intros x y Fx Fy L.
    destruct (RV_mag x Fx) as [-> Px]. destruct (RV_mag y Fy) as [-> Py].
    pose proof (mag_bounds x (proj1 Fx)). pose proof (mag_bounds y (proj1 Fy)).
    unfold f_key in L.
    destruct (f_sign x), (f_sign y).
    - assert (f_mag y < f_mag x) as L' by lia. apply magR_lt in L'; auto; lra.
    - destruct (Z.eq_dec (f_mag x) 0).
      + assert (0 < f_mag y) as P by lia. apply magR_pos in P; auto; lra.
      + assert (0 < f_mag x) as P by lia. apply magR_pos in P; auto; lra.
    - lia.
    - apply magR_lt in L; auto. }
  assert (HE : forall a b, fin a -> fin b -> f_key a = f_key b -> (RV a = RV b)%R).
  { clear. intros x y Fx Fy L.
    destruct (RV_mag x Fx) as [-> Px]. destruct (RV_mag y Fy) as [-> Py].
    pose proof (mag_bounds x (proj1 Fx)). pose proof (mag_bounds y (proj1 Fy)).
    unfold f_key in L.
    destruct (f_sign x), (f_sign y).
    - assert (f_mag x = f_mag y) as L' by lia. apply magR_eq in L'; auto; lra.
    - rewrite (magR_zero x), (magR_zero y) by (auto; lia). lra.
    - rewrite (magR_zero x), (magR_zero y) by (auto; lia). lra.
    - apply magR_eq in L; auto. }
  split; [auto|].
  intros L. destruct (Z.lt_trichotomy (f_key x) (f_key y)) as [G|[G|G]]; auto.
  - apply HE in G; auto; lra.
  - apply HL in G; auto; lra.
Qed.
Lemma key_le_R x y : fin x -> fin y -> (f_key x <= f_key y <-> (RV x <= RV y)%R).
Proof.
  intros Fx Fy. pose proof (key_lt_R y x Fy Fx) as H. split; intros.
  - apply Rnot_lt_le. intros C. apply H in C. lia.
  - destruct (Z.le_gt_cases (f_key x) (f_key y)); auto. apply H in H1. lra.
Qed.
Lemma key_eq_R x y : fin x -> fin y -> (f_key x = f_key y <-> (RV x = RV y)%R).
Proof.
  intros Fx Fy. pose proof (key_le_R x y Fx Fy). pose proof (key_le_R y x Fy Fx).
  split; intros.
  - apply Rle_antisym; [apply H | apply H0]; lia.
  - assert (f_key x <= f_key y) by (apply H; lra). assert (f_key y <= f_key x) by (apply H0; lra). lia.
Qed.

(** infinities *)
Lemma fok_cases x : fok x -> fin x \/ (f_isinf x = true /\ f_wf x = true).
Proof.
  unfold fok, fin, nn, f_isnan, f_isinf, f_isfinite. intros [H N].
  destruct (f_mag x <? inf_mag) eqn:E; auto. right. split; auto. lia.
Qed.
Lemma key_fin x : fin x -> - inf_mag < f_key x < inf_mag.
Proof.
  intros [H F]. pose proof (mag_bounds x H). unfold f_isfinite in F. unfold f_key.
  destruct (f_sign x); lia.
Qed.
Lemma key_inf x : f_isinf x = true -> f_key x = if f_sign x then - inf_mag else inf_mag.
Proof. unfold f_isinf, f_key. intros. destruct (f_sign x); lia. Qed.
Lemma key_ok x : fok x -> - inf_mag <= f_key x <= inf_mag.
Proof.
  intros H. destruct (fok_cases x H) as [F|[I _]].
  - apply key_fin in F. lia.
  - rewrite (key_inf x I). destruct (f_sign x); unfold inf_mag; lia.
Qed.
Lemma fok_enc_inf s : fok (f_enc (S754_infinity s)) /\ f_key (f_enc (S754_infinity s)) = if s then - inf_mag else inf_mag.
Proof. destruct s; repeat split; reflexivity. Qed.

Lemma finite_SF_fin v : valid_binary 53 1024 v = true -> is_finite_SF v = true -> fin (f_enc v).
Proof.
  intros V F. destruct v; try discriminate.
  - destruct s; split; reflexivity.
  - cbn [f_enc]. pose proof (enc_finite_mag _ _ V) as B. unfold fin.
    destruct (f_sign_enc s ((e + 1074) * p52 + Zpos m)) as (S1 & S2 & S3).
    { unfold inf_mag, p63 in *; lia. }
    split; auto. unfold f_isfinite. rewrite S2. lia.
Qed.
Lemma RV_enc v : valid_binary 53 1024 v = true -> RV (f_enc v) = SF2R radix2 v.
Proof. intros V. unfold RV. rewrite f_dec_enc; auto. Qed.

Lemma fin_isfinite x (F : fin x) : is_finite (toB x (proj1 F)) = true.
Proof.
  rewrite <- is_finite_SF_B2SF, B2SF_toB. pose proof (fin_dec x F) as S.
  destruct S; reflexivity.
Qed.
Lemma sign_toB x (F : fin x) : Bsign (toB x (proj1 F)) = f_sign x.
Proof.
  unfold toB. rewrite Bsign_SF2B. pose proof (fin_dec x F) as S. destruct S; cbn; auto.
Qed.

(** ** operations *)
Lemma round_nearest_even_equiv s m l :
  round_nearest_even m l = choice_mode mode_NE s m l.
Proof.
  case l; [reflexivity|intro c]. case c; [ | reflexivity..].
  now simpl; unfold Round.cond_incr; case Z.even.
Qed.
Lemma binary_round_aux_equiv prec emax sx mx ex lx :
  SpecFloat.binary_round_aux prec emax sx mx ex lx
  = binary_round_aux prec emax mode_NE sx mx ex lx.
Proof.
  unfold SpecFloat.binary_round_aux, binary_round_aux.
  set (mrse' := shr_fexp _ _ _). case mrse'; intros mrs' e'; simpl.
  now rewrite (round_nearest_even_equiv sx).
Qed.
Lemma binary_round_equiv prec emax s m e :
  SpecFloat.binary_round prec emax s m e = binary_round prec emax mode_NE s m e.
Proof.
  unfold SpecFloat.binary_round, binary_round, shl_align_fexp.
  set (mez := shl_align _ _ _); case mez as [mz ez]. apply binary_round_aux_equiv.
Qed.
Lemma binary_normalize_equiv m e szero :
  SpecFloat.binary_normalize 53 1024 m e szero
  = B2SF (binary_normalize 53 1024 Hprec53 Hmax1024 mode_NE m e szero).
Proof.
  case m as [ | p | p].
  - now simpl.
  - simpl; rewrite B2SF_SF2B; apply binary_round_equiv.
  - simpl; rewrite B2SF_SF2B; apply binary_round_equiv.
Qed.

Lemma SFmul_equiv (x y : bf) : SFmul 53 1024 (B2SF x) (B2SF y) = B2SF (Bmult mode_NE x y).
Proof.
  case x as [sx|sx| |sx mx ex Bx]; case y as [sy|sy| |sy my ey By]; [now trivial.. | ].
  simpl. rewrite B2SF_SF2B. apply binary_round_aux_equiv.
Qed.
Lemma SFadd_equiv (x y : bf) : SFadd 53 1024 (B2SF x) (B2SF y) = B2SF (Bplus mode_NE x y).
Proof.
  case x as [sx|sx| |sx mx ex Bx]; case y as [sy|sy| |sy my ey By];
  [now (trivial || simpl; case Bool.eqb).. | ].
  apply binary_normalize_equiv.
Qed.
Lemma SFsub_equiv (x y : bf) : SFsub 53 1024 (B2SF x) (B2SF y) = B2SF (Bminus mode_NE x y).
Proof.
  case x as [sx|sx| |sx mx ex Bx]; case y as [sy|sy| |sy my ey By];
  [now (trivial || simpl; case Bool.eqb).. | ].
  simpl. unfold Zminus. rewrite <- cond_Zopp_negb. apply binary_normalize_equiv.
Qed.
Lemma SFdiv_equiv (x y : bf) : SFdiv 53 1024 (B2SF x) (B2SF y) = B2SF (Bdiv mode_NE x y).
Proof.
  case x as [sx|sx| |sx mx ex Bx]; case y as [sy|sy| |sy my ey By];
  [now (trivial || simpl; case Bool.eqb).. | ].
  simpl. rewrite B2SF_SF2B. set (melz := SFdiv_core_binary _ _ _ _ _ _).
  case melz as [[mz ez] lz]. apply binary_round_aux_equiv.
Qed.

Notation rnd64 := (round radix2 (SpecFloat.fexp 53 1024) (round_mode mode_NE)).
Notation rnd32 := (round radix2 (SpecFloat.fexp 24 128) (round_mode mode_NE)).

Lemma overflow_NE s : binary_overflow 53 1024 mode_NE s = S754_infinity s.
Proof. destruct s; reflexivity. Qed.

Definition inf_of (s : bool) : f64 := f_enc (S754_infinity s).

Lemma fmul_wf x y : f_wf x = true -> f_wf y = true -> f_wf (fmul x y) = true.
Proof.
  intros Hx Hy. unfold fmul. rewrite <- (B2SF_toB x Hx), <- (B2SF_toB y Hy), SFmul_equiv.
  apply f_wf_enc, valid_binary_B2SF.
Qed.
Lemma fadd_wf x y : f_wf x = true -> f_wf y = true -> f_wf (fadd x y) = true.
Proof.
  intros Hx Hy. unfold fadd. rewrite <- (B2SF_toB x Hx), <- (B2SF_toB y Hy), SFadd_equiv.
  apply f_wf_enc, valid_binary_B2SF.
Qed.
Lemma fsub_wf x y : f_wf x = true -> f_wf y = true -> f_wf (fsub x y) = true.
Proof.
  intros Hx Hy. unfold fsub. rewrite <- (B2SF_toB x Hx), <- (B2SF_toB y Hy), SFsub_equiv.
  apply f_wf_enc, valid_binary_B2SF.
Qed.
Lemma fdiv_wf x y : f_wf x = true -> f_wf y = true -> f_wf (fdiv x y) = true.
Proof.
  intros Hx Hy. unfold fdiv. rewrite <- (B2SF_toB x Hx), <- (B2SF_toB y Hy), SFdiv_equiv.
  apply f_wf_enc, valid_binary_B2SF.
Qed.

Lemma B2SF_finite_enc (b : bf) : is_finite b = true ->
  fin (f_enc (B2SF b)) /\ RV (f_enc (B2SF b)) = B2R b.
Proof.
  intros F. split.
  - apply finite_SF_fin. apply valid_binary_B2SF. now rewrite is_finite_SF_B2SF.
  - rewrite RV_enc by apply valid_binary_B2SF. apply SF2R_B2SF.
Qed.

Lemma fmul_correct x y : fin x -> fin y ->
  let z := rnd64 (RV x * RV y)%R in
  if Rlt_bool (Rabs z) (bpow radix2 1024)
  then fin (fmul x y) /\ RV (fmul x y) = z
  else fmul x y = inf_of (xorb (f_sign x) (f_sign y)).
Proof.
  intros Fx Fy z. unfold fmul. rewrite <- (B2SF_toB x (proj1 Fx)), <- (B2SF_toB y (proj1 Fy)), SFmul_equiv.
  pose proof (Bmult_correct 53 1024 _ _ mode_NE (toB x (proj1 Fx)) (toB y (proj1 Fy))) as C.
  rewrite !B2R_toB in C. fold z in C.
  destruct (Rlt_bool (Rabs z) (bpow radix2 1024)).
  - destruct C as (C1 & C2 & _). rewrite !fin_isfinite in C2.
    destruct (B2SF_finite_enc _ C2) as [A B]. split; auto. now rewrite B.
  - rewrite C, !sign_toB, overflow_NE. reflexivity.
Qed.

Lemma fsub_correct x y : fin x -> fin y ->
  let z := rnd64 (RV x - RV y)%R in
  if Rlt_bool (Rabs z) (bpow radix2 1024)
  then fin (fsub x y) /\ RV (fsub x y) = z
  else fsub x y = inf_of (f_sign x).
Proof.
  intros Fx Fy z. unfold fsub. rewrite <- (B2SF_toB x (proj1 Fx)), <- (B2SF_toB y (proj1 Fy)), SFsub_equiv.
  pose proof (Bminus_correct 53 1024 _ _ mode_NE (toB x (proj1 Fx)) (toB y (proj1 Fy))
     (fin_isfinite _ _) (fin_isfinite _ _)) as C.
  rewrite !B2R_toB in C. fold z in C.
  destruct (Rlt_bool (Rabs z) (bpow radix2 1024)).
  - destruct C as (C1 & C2 & _).
    destruct (B2SF_finite_enc _ C2) as [A B]. split; auto. now rewrite B.
  - destruct C as [C _]. rewrite C, !sign_toB, overflow_NE. reflexivity.
Qed.

Lemma fadd_correct x y : fin x -> fin y ->
  let z := rnd64 (RV x + RV y)%R in
  if Rlt_bool (Rabs z) (bpow radix2 1024)
  then fin (fadd x y) /\ RV (fadd x y) = z
  else fadd x y = inf_of (f_sign x).
Proof.
  intros Fx Fy z. unfold fadd. rewrite <- (B2SF_toB x (proj1 Fx)), <- (B2SF_toB y (proj1 Fy)), SFadd_equiv.
  pose proof (Bplus_correct 53 1024 _ _ mode_NE (toB x (proj1 Fx)) (toB y (proj1 Fy))
     (fin_isfinite _ _) (fin_isfinite _ _)) as C.
  rewrite !B2R_toB in C. fold z in C.
  destruct (Rlt_bool (Rabs z) (bpow radix2 1024)).
  - destruct C as (C1 & C2 & _).
    destruct (B2SF_finite_enc _ C2) as [A B]. split; auto. now rewrite B.
  - destruct C as [C _]. rewrite C, !sign_toB, overflow_NE. reflexivity.
Qed.

Lemma fdiv_correct x y : fin x -> fin y -> RV y <> 0%R ->
  let z := rnd64 (RV x / RV y)%R in
  if Rlt_bool (Rabs z) (bpow radix2 1024)
  then fin (fdiv x y) /\ RV (fdiv x y) = z
  else fdiv x y = inf_of (xorb (f_sign x) (f_sign y)).
Proof.
  intros Fx Fy NZ z. unfold fdiv. rewrite <- (B2SF_toB x (proj1 Fx)), <- (B2SF_toB y (proj1 Fy)), SFdiv_equiv.
  assert (NZ' : B2R (toB y (proj1 Fy)) <> 0%R) by now rewrite B2R_toB.
  pose proof (Bdiv_correct 53 1024 _ _ mode_NE (toB x (proj1 Fx)) (toB y (proj1 Fy)) NZ') as C.
  rewrite !B2R_toB in C. fold z in C.
  destruct (Rlt_bool (Rabs z) (bpow radix2 1024)).
  - destruct C as (C1 & C2 & _). rewrite !fin_isfinite in C2.
    destruct (B2SF_finite_enc _ C2) as [A B]. split; auto. now rewrite B.
  - rewrite C, !sign_toB, overflow_NE. reflexivity.
Qed.
