(** * Monotonicity of the float conversions used by the index *)

From Coq Require Import ZArith Bool List Lia ZifyBool Reals Lra Psatz.
From Coq Require Import Floats.SpecFloat.
From Flocq Require Import Core Operations Relative BinarySingleNaN.
From Verif Require Import F64 Geo F64Order F64Real.
Local Open Scope Z_scope.

Lemma overflow_NE32 s : binary_overflow 24 128 mode_NE s = S754_infinity s.
Proof. destruct s; reflexivity. Qed.

Lemma f_dec_fin x : fin x -> (exists s, f_dec x = S754_zero s) \/ (exists s m e, f_dec x = S754_finite s m e /\ f_sign x = s).
Proof. intros F. pose proof (fin_dec x F) as S. destruct S; eauto 6. Qed.

Global Instance fexp64_valid : Valid_exp (SpecFloat.fexp 53 1024).
Proof. exact (BinarySingleNaN.fexp_correct 53 1024 Hprec53). Qed.
Global Instance fexp32_valid : Valid_exp (SpecFloat.fexp 24 128).
Proof. exact (BinarySingleNaN.fexp_correct 24 128 Hprec24). Qed.

Lemma format32_64 r : generic_format radix2 (SpecFloat.fexp 24 128) r ->
  generic_format radix2 (SpecFloat.fexp 53 1024) r.
Proof.
  apply generic_inclusion_mag. intros _. unfold SpecFloat.fexp, SpecFloat.emin. lia.
Qed.

(** conversion to float of a finite double *)
Lemma f_to_f32_correct x : fin x ->
  let z := rnd32 (RV x) in
  if Rlt_bool (Rabs z) (bpow radix2 128)
  then fin (f_to_f32 x) /\ RV (f_to_f32 x) = z
  else f_to_f32 x = inf_of (f_sign x).
Proof.
  intros F. cbv zeta.
  destruct (f_dec_fin x F) as [[s E]|(s & m & e & E & Hs)].
  - assert (Z0 : RV x = 0%R) by (unfold RV; rewrite E; reflexivity).
    rewrite Z0, round_0 by typeclasses eauto.
    rewrite Rabs_R0. rewrite Rlt_bool_true by apply bpow_gt_0.
    unfold f_to_f32. rewrite E. destruct s; repeat split; reflexivity.
  - unfold f_to_f32. rewrite E. set (z := rnd32 (RV x)).
    rewrite binary_round_equiv.
    pose proof (binary_round_correct 24 128 Hprec24 Hmax128 mode_NE s m e) as C.
    cbv zeta in C. destruct C as [V C].
    change (F2R {| Fnum := cond_Zopp s (Zpos m); Fexp := e |}) with (SF2R radix2 (S754_finite s m e)) in C.
    rewrite <- E in C. fold (RV x) in C. fold z in C.
    destruct (Rlt_bool (Rabs z) (bpow radix2 128)) eqn:LT.
    + destruct C as (C1 & C2 & C3).
      destruct (binary_round 24 128 mode_NE s m e) as [s'|s'| |s' m' e'] eqn:R; try discriminate.
      * cbn in C1. split; [destruct s'; split; reflexivity|].
        rewrite <- C1. destruct s'; reflexivity.
      * rewrite binary_round_equiv.
        pose proof (binary_round_correct 53 1024 Hprec53 Hmax1024 mode_NE s' m' e') as C'.
        cbv zeta in C'. destruct C' as [V' C'].
        change (F2R {| Fnum := cond_Zopp s' (Zpos m'); Fexp := e' |}) with (SF2R radix2 (S754_finite s' m' e')) in C'.
        rewrite C1 in C'.
        assert (G : generic_format radix2 (SpecFloat.fexp 53 1024) z).
        { apply format32_64. unfold z. apply generic_format_round; typeclasses eauto. }
        rewrite round_generic in C' by (try typeclasses eauto; exact G).
        assert (LT' : (Rabs z < bpow radix2 1024)%R).
        { apply Rlt_trans with (bpow radix2 128).
          - destruct (Rlt_bool_spec (Rabs z) (bpow radix2 128)); auto; discriminate.
          - apply bpow_lt. lia. }
        rewrite Rlt_bool_true in C' by exact LT'.
        destruct C' as (D1 & D2 & _).
        split; [apply finite_SF_fin; auto|].
        rewrite RV_enc; auto.
    + rewrite C, overflow_NE32, Hs. reflexivity.
Qed.

Lemma f_to_f32_inf x : f_isinf x = true -> f_wf x = true -> f_to_f32 x = x.
Proof.
  intros I W. unfold f_isinf in I. apply Z.eqb_eq in I.
  unfold f_mag, f_sign in I. destruct (p63 <=? x).
  - replace x with (p63 + inf_mag) by lia. reflexivity.
  - subst x. reflexivity.
Qed.

Lemma inf_of_ok s : fok (inf_of s) /\ f_key (inf_of s) = if s then - inf_mag else inf_mag.
Proof. apply fok_enc_inf. Qed.

Lemma fok_to_f32 x : fok x -> fok (f_to_f32 x).
Proof.
  intros H. destruct (fok_cases x H) as [F|[I W]].
  - pose proof (f_to_f32_correct x F) as C. cbv zeta in C.
    destruct (Rlt_bool _ _).
    + apply fin_ok, C.
    + rewrite C. apply inf_of_ok.
  - rewrite f_to_f32_inf; auto.
Qed.

Lemma sign_RV x : fin x -> if f_sign x then (RV x <= 0)%R else (0 <= RV x)%R.
Proof. intros F. destruct (RV_mag x F) as [E P]. rewrite E. destruct (f_sign x); lra. Qed.

Lemma rnd64_le a b : (a <= b)%R -> (rnd64 a <= rnd64 b)%R.
Proof. apply round_le; typeclasses eauto. Qed.
Lemma rnd32_le a b : (a <= b)%R -> (rnd32 a <= rnd32 b)%R.
Proof. apply round_le; typeclasses eauto. Qed.
Lemma rnd64_0 : rnd64 0%R = 0%R. Proof. apply round_0; typeclasses eauto. Qed.
Lemma rnd32_0 : rnd32 0%R = 0%R. Proof. apply round_0; typeclasses eauto. Qed.

(** monotone "round or overflow to infinity" *)
Lemma ovf_mono (bound : R) (x y : f64) (rx ry : R) (sx sy : bool) :
  (0 < bound)%R -> (rx <= ry)%R ->
  (if sx then (rx <= 0)%R else (0 <= rx)%R) ->
  (if sy then (ry <= 0)%R else (0 <= ry)%R) ->
  (if Rlt_bool (Rabs rx) bound then fin x /\ RV x = rx else x = inf_of sx) ->
  (if Rlt_bool (Rabs ry) bound then fin y /\ RV y = ry else y = inf_of sy) ->
  f_key x <= f_key y.
Proof.
  intros Hb L Sx Sy Hx Hy.
  destruct (Rlt_bool_spec (Rabs rx) bound) as [Bx|Bx];
  destruct (Rlt_bool_spec (Rabs ry) bound) as [By|By].
  - destruct Hx as [Fx <-]. destruct Hy as [Fy <-]. apply key_le_R; auto.
  - destruct Hx as [Fx <-]. subst y. destruct (inf_of_ok sy) as [_ ->].
    destruct sy.
    + apply Rabs_def2 in Bx. rewrite Rabs_left1 in By by auto. lra.
    + apply key_fin in Fx. lia.
  - destruct Hy as [Fy <-]. subst x. destruct (inf_of_ok sx) as [_ ->].
    destruct sx.
    + apply key_fin in Fy. lia.
    + apply Rabs_def2 in By. rewrite Rabs_right in Bx by lra. lra.
  - subst x y. destruct (inf_of_ok sx) as [_ ->]. destruct (inf_of_ok sy) as [_ ->].
    destruct sx, sy; unfold inf_mag; try lia.
    rewrite Rabs_right in Bx by lra. lra.
Qed.

Lemma f_to_f32_mono x y : fok x -> fok y -> f_key x <= f_key y ->
  f_key (f_to_f32 x) <= f_key (f_to_f32 y).
Proof.
  intros Hx Hy L.
  pose proof (key_ok _ (fok_to_f32 x Hx)) as Kx. pose proof (key_ok _ (fok_to_f32 y Hy)) as Ky.
  pose proof (key_ok _ Hx) as Kx0. pose proof (key_ok _ Hy) as Ky0.
  destruct (fok_cases x Hx) as [Fx|[Ix Wx]].
  2:{ rewrite (f_to_f32_inf x) in * by auto. pose proof (key_inf x Ix) as E.
      destruct (f_sign x); [lia|].
      destruct (fok_cases y Hy) as [Fy|[Iy Wy]].
      - apply key_fin in Fy. lia.
      - rewrite (f_to_f32_inf y) by auto. lia. }
  destruct (fok_cases y Hy) as [Fy|[Iy Wy]].
  2:{ rewrite (f_to_f32_inf y) in * by auto. pose proof (key_inf y Iy) as E.
      destruct (f_sign y); [|lia].
      apply key_fin in Fx. lia. }
  apply key_le_R in L; auto.
  apply (ovf_mono (bpow radix2 128) _ _ (rnd32 (RV x)) (rnd32 (RV y)) (f_sign x) (f_sign y)).
  - apply bpow_gt_0.
  - apply rnd32_le; auto.
  - pose proof (sign_RV x Fx) as S. destruct (f_sign x); rewrite <- rnd32_0; apply rnd32_le; auto.
  - pose proof (sign_RV y Fy) as S. destruct (f_sign y); rewrite <- rnd32_0; apply rnd32_le; auto.
  - apply (f_to_f32_correct x Fx).
  - apply (f_to_f32_correct y Fy).
Qed.

(** ** fdown and fup *)
Lemma fin_vals0 : fin fvals0. Proof. split; reflexivity. Qed.
Lemma fin_vals1 : fin fvals1. Proof. split; reflexivity. Qed.

Lemma RV_pos_bits s m e x : f_dec x = S754_finite s m e ->
  RV x = F2R (Float radix2 (cond_Zopp s (Zpos m)) e).
Proof. intros E. unfold RV. rewrite E. reflexivity. Qed.

Lemma RV_vals0 : RV fvals0 = (1 - / 8388608)%R.
Proof.
  rewrite (RV_pos_bits false 9007198180999168 (-53)) by reflexivity.
  unfold F2R; cbn. lra.
Qed.
Lemma RV_vals1 : RV fvals1 = (1 + / 8388608)%R.
Proof.
  rewrite (RV_pos_bits false 4503600164241408 (-52)) by reflexivity.
  unfold F2R; cbn. lra.
Qed.

Lemma RV_format x : f_wf x = true -> generic_format radix2 (SpecFloat.fexp 53 1024) (RV x).
Proof. intros W. rewrite <- (B2R_toB x W). apply generic_format_B2R. Qed.
Lemma rnd64_RV x : f_wf x = true -> rnd64 (RV x) = RV x.
Proof. intros W. apply round_generic; [typeclasses eauto|apply RV_format; auto]. Qed.

Lemma RV_lt_max x : fin x -> (Rabs (RV x) < bpow radix2 1024)%R.
Proof. intros [W F]. rewrite <- (B2R_toB x W). apply abs_B2R_lt_emax. Qed.

Lemma sign_key x : fin x -> (flt x f_zero = true <-> (RV x < 0)%R).
Proof.
  intros F. rewrite flt_key by (apply fin_ok in F; destruct F; auto with nn).
  rewrite Z.ltb_lt. assert (F0 : fin f_zero) by (split; reflexivity).
  rewrite (key_lt_R x f_zero F F0). replace (RV f_zero) with 0%R by reflexivity. reflexivity.
Qed.

Lemma fok_mul_inf x c : f_isinf x = true -> f_wf x = true -> (c = fvals0 \/ c = fvals1) -> fmul x c = x.
Proof.
  intros I W Hc. unfold f_isinf in I. apply Z.eqb_eq in I.
  unfold f_mag, f_sign in I. destruct (p63 <=? x).
  - replace x with (p63 + inf_mag) by lia. destruct Hc; subst; reflexivity.
  - subst x. destruct Hc; subst; reflexivity.
Qed.

Lemma fmul_vals_ok x c : fok x -> (c = fvals0 \/ c = fvals1) -> fok (fmul x c).
Proof.
  intros H Hc. destruct (fok_cases x H) as [F|[I W]].
  - assert (Fc : fin c) by (destruct Hc; subst; [apply fin_vals0|apply fin_vals1]).
    pose proof (fmul_correct x c F Fc) as C. cbv zeta in C. destruct (Rlt_bool _ _).
    + apply fin_ok, C.
    + rewrite C. apply inf_of_ok.
  - rewrite fok_mul_inf; auto.
Qed.
Lemma fok_fdown x : fok x -> fok (fdown x).
Proof. intros H. unfold fdown. apply fmul_vals_ok; auto. destruct (flt x f_zero); auto. Qed.
Lemma fok_fup x : fok x -> fok (fup x).
Proof. intros H. unfold fup. apply fmul_vals_ok; auto. destruct (flt x f_zero); auto. Qed.

Lemma xorb_vals x c : (c = fvals0 \/ c = fvals1) -> xorb (f_sign x) (f_sign c) = f_sign x.
Proof. intros [->| ->]; cbn; apply xorb_false_r. Qed.

Lemma RV_vals_pos c : (c = fvals0 \/ c = fvals1) -> (0 < RV c)%R.
Proof. intros [->| ->]; [rewrite RV_vals0|rewrite RV_vals1]; lra. Qed.

(** x * c compared with x, c one of the two factors *)
Lemma fmul_vals_sign x c : fin x -> (c = fvals0 \/ c = fvals1) ->
  if f_sign x then (rnd64 (RV x * RV c) <= 0)%R else (0 <= rnd64 (RV x * RV c))%R.
Proof.
  intros F Hc. pose proof (sign_RV x F) as S. pose proof (RV_vals_pos c Hc) as P.
  destruct (f_sign x); rewrite <- rnd64_0; apply rnd64_le; nra.
Qed.

Lemma self_correct x : fin x ->
  if Rlt_bool (Rabs (RV x)) (bpow radix2 1024) then fin x /\ RV x = RV x else x = inf_of (f_sign x).
Proof. intros F. rewrite Rlt_bool_true by (apply RV_lt_max; auto). auto. Qed.

Lemma fdown_le x : fok x -> f_key (fdown x) <= f_key x.
Proof.
  intros H. destruct (fok_cases x H) as [F|[I W]].
  2:{ unfold fdown. rewrite fok_mul_inf; auto. lia. destruct (flt x f_zero); auto. }
  unfold fdown. set (c := if flt x f_zero then fvals1 else fvals0).
  assert (Hc : c = fvals0 \/ c = fvals1) by (unfold c; destruct (flt x f_zero); auto).
  assert (Fc : fin c) by (destruct Hc as [-> | ->]; [apply fin_vals0|apply fin_vals1]).
  pose proof (fmul_correct x c F Fc) as C. cbv zeta in C. rewrite xorb_vals in C by auto.
  eapply ovf_mono; [ | | apply (fmul_vals_sign x c F Hc) | apply (sign_RV x F) | exact C | apply (self_correct x F)].
  - apply bpow_gt_0.
  - rewrite <- (rnd64_RV x) at 2 by apply F. apply rnd64_le.
    unfold c. destruct (flt x f_zero) eqn:E.
    + apply sign_key in E; auto. rewrite RV_vals1. lra.
    + assert (0 <= RV x)%R. { apply Rnot_lt_le. intros L. apply sign_key in L; auto. congruence. }
      rewrite RV_vals0. lra.
Qed.

Lemma le_fup x : fok x -> f_key x <= f_key (fup x).
Proof.
  intros H. destruct (fok_cases x H) as [F|[I W]].
  2:{ unfold fup. rewrite fok_mul_inf; auto. lia. destruct (flt x f_zero); auto. }
  unfold fup. set (c := if flt x f_zero then fvals0 else fvals1).
  assert (Hc : c = fvals0 \/ c = fvals1) by (unfold c; destruct (flt x f_zero); auto).
  assert (Fc : fin c) by (destruct Hc as [-> | ->]; [apply fin_vals0|apply fin_vals1]).
  pose proof (fmul_correct x c F Fc) as C. cbv zeta in C. rewrite xorb_vals in C by auto.
  eapply ovf_mono; [ | | apply (sign_RV x F) | apply (fmul_vals_sign x c F Hc) | apply (self_correct x F) | exact C].
  - apply bpow_gt_0.
  - rewrite <- (rnd64_RV x) at 1 by apply F. apply rnd64_le.
    unfold c. destruct (flt x f_zero) eqn:E.
    + apply sign_key in E; auto. rewrite RV_vals0. lra.
    + assert (0 <= RV x)%R. { apply Rnot_lt_le. intros L. apply sign_key in L; auto. congruence. }
      rewrite RV_vals1. lra.
Qed.

(** ** index rectangles *)
Definition pt_ok (p : pt) : Prop := fok (px p) /\ fok (py p).
Definition rect_ok (r : rect) : Prop := pt_ok (rmin r) /\ pt_ok (rmax r).
Definition seg_ok (s : seg) : Prop := pt_ok (sa s) /\ pt_ok (sb s).

Lemma pt_ok_nn p : pt_ok p -> pt_nn p.
Proof. unfold pt_ok, pt_nn, fok; tauto. Qed.
Lemma rect_ok_nn r : rect_ok r -> rect_nn r.
Proof. unfold rect_ok, rect_nn; intros [A B]; split; apply pt_ok_nn; auto. Qed.
Lemma seg_ok_nn r : seg_ok r -> seg_nn r.
Proof. unfold seg_ok, seg_nn; intros [A B]; split; apply pt_ok_nn; auto. Qed.

Lemma fok_fmin0 x y : fok x -> fok y -> fok (fmin0 x y).
Proof. unfold fmin0; destruct (flt x y); auto. Qed.
Lemma fok_fmax0 x y : fok x -> fok y -> fok (fmax0 x y).
Proof. unfold fmax0; destruct (fgt x y); auto. Qed.
Global Hint Resolve fok_fmin0 fok_fmax0 fok_fdown fok_fup fok_to_f32 : fok.

Lemma ok_expand_point r p : rect_ok r -> pt_ok p -> rect_ok (tg_rect_expand_point r p).
Proof. unfold rect_ok, pt_ok; intros [[? ?] [? ?]] [? ?]; cbn; auto 6 with fok. Qed.
Lemma ok_expand r o : rect_ok r -> rect_ok o -> rect_ok (tg_rect_expand r o).
Proof. unfold rect_ok, pt_ok; intros [[? ?] [? ?]] [[? ?] [? ?]]; cbn; auto 6 with fok. Qed.
Lemma ok_segment_rect s : seg_ok s -> rect_ok (tg_segment_rect s).
Proof. unfold rect_ok, seg_ok, pt_ok; intros [[? ?] [? ?]]; cbn; auto 6 with fok. Qed.
Lemma ok_Rect p q : pt_ok p -> pt_ok q -> rect_ok (Rect p q).
Proof. unfold rect_ok; auto. Qed.
Lemma ok_to_ixrect r : rect_ok r -> rect_ok (tg_rect_to_ixrect r).
Proof. unfold rect_ok, pt_ok; intros [[? ?] [? ?]]; cbn; auto 8 with fok. Qed.
Lemma ok_to_ixpoint p : pt_ok p -> pt_ok (tg_point_to_ixpoint p).
Proof. unfold pt_ok; intros [? ?]; cbn; auto 8 with fok. Qed.
Global Hint Resolve ok_expand_point ok_expand ok_segment_rect ok_Rect ok_to_ixrect ok_to_ixpoint : fok.

(** a <= b implies float(fdown a) <= float(fup b), and float in between *)
Lemma ix_le a b : fok a -> fok b -> f_key a <= f_key b ->
  f_key (f_to_f32 (fdown a)) <= f_key (f_to_f32 (fup b)).
Proof.
  intros Ha Hb L. apply f_to_f32_mono; auto with fok.
  pose proof (fdown_le a Ha). pose proof (le_fup b Hb). lia.
Qed.
Lemma ix_le_point_down a b : fok a -> fok b -> f_key a <= f_key b ->
  f_key (f_to_f32 (fdown a)) <= f_key (f_to_f32 b).
Proof.
  intros Ha Hb L. apply f_to_f32_mono; auto with fok.
  pose proof (fdown_le a Ha). lia.
Qed.
Lemma ix_le_point_up a b : fok a -> fok b -> f_key a <= f_key b ->
  f_key (f_to_f32 a) <= f_key (f_to_f32 (fup b)).
Proof.
  intros Ha Hb L. apply f_to_f32_mono; auto with fok.
  pose proof (le_fup b Hb). lia.
Qed.

(** rectangles that meet still meet after conversion *)
Lemma ix_meet a b : rect_ok a -> rect_ok b -> kmeet a b ->
  kmeet (tg_rect_to_ixrect a) (tg_rect_to_ixrect b).
Proof.
  unfold rect_ok, pt_ok, kmeet; intros [[? ?] [? ?]] [[? ?] [? ?]] (? & ? & ? & ?); cbn.
  repeat split; apply ix_le; auto.
Qed.
