(** * The GeoBIN readers that do not parse *)

From Coq Require Import ZArith Reals Bool List Lia ZifyBool.
From Coq Require Import Floats.SpecFloat.
From Flocq Require Import Core.Core IEEE754.BinarySingleNaN.
From Verif Require Import F64 Geo Series RingApi Bytes Geom Writer WkbWrite WkbParse Json Geobin.
From Verif Require Import F64Order F64Real F64Mono.
From Verif Require Import SpecWkb SpecJson SpecBin WriterFacts GeomFacts WkbWriteFacts WkbParseFacts.
From Verif Require Import WkbRoundFacts WkbSafe WkbReach GeobinFacts GeobinSafe.
Import ListNotations.
Local Open Scope Z_scope.

Lemma fadd_comm x y : fadd x y = fadd y x.
Proof.
  unfold fadd. f_equal. destruct (f_dec x) as [[]|[]| |[] m e], (f_dec y) as [[]|[]| |[] m' e'];
    cbn [SFadd]; try reflexivity; rewrite (Z.min_comm e e'); f_equal; apply Z.add_comm.
Qed.

Lemma RV_two : RV f_two = 2%R.
Proof.
  rewrite (RV_pos_bits false 4503599627370496 (-51)) by reflexivity. unfold F2R; cbn. Lra.lra.
Qed.
Lemma fin_two : fin f_two.
Proof. split; reflexivity. Qed.

Lemma double_format x : f_wf x = true -> generic_format radix2 (SpecFloat.fexp 53 1024) (2 * RV x)%R.
Proof.
  intros W. destruct (Req_dec (RV x) 0) as [Z|Z].
  { rewrite Z, Rmult_0_r. apply generic_format_0. }
  pose proof (RV_format x W) as G. unfold generic_format in G.
  rewrite G. unfold F2R. cbn [Fnum Fexp].
  replace (2 * (IZR (Ztrunc (scaled_mantissa radix2 (SpecFloat.fexp 53 1024) (RV x))) *
                bpow radix2 (cexp radix2 (SpecFloat.fexp 53 1024) (RV x))))%R
    with (F2R (Float radix2 (Ztrunc (scaled_mantissa radix2 (SpecFloat.fexp 53 1024) (RV x)))
           (cexp radix2 (SpecFloat.fexp 53 1024) (RV x) + 1))).
  2:{ unfold F2R. cbn [Fnum Fexp]. rewrite bpow_plus. cbn [bpow]. cbn. Lra.lra. }
  apply generic_format_F2R. intros _.
  set (e := cexp radix2 (SpecFloat.fexp 53 1024) (RV x)).
  replace (F2R (Float radix2 (Ztrunc (scaled_mantissa radix2 (SpecFloat.fexp 53 1024) (RV x))) (e + 1)))
    with (RV x * bpow radix2 1)%R.
  2:{ rewrite G at 1. unfold F2R. cbn [Fnum Fexp]. fold e. rewrite bpow_plus. ring. }
  unfold cexp at 1. rewrite mag_mult_bpow by exact Z. unfold e, cexp.
  rewrite !fexp53. lia.
Qed.

Lemma fin_unique x y : fin x -> fin y -> RV x = RV y -> RV x <> 0%R -> x = y.
Proof.
  intros Fx Fy E N. assert (K : f_key x = f_key y) by now apply key_eq_R.
  assert (K0 : f_key x <> 0).
  { intros H. apply N. replace 0%R with (RV f_zero).
    - apply key_eq_R; [assumption|split; reflexivity|exact H].
    - reflexivity. }
  unfold f_key, f_mag in *. destruct Fx as [Wx _], Fy as [Wy _]. unfold f_wf, f_sign in *.
  destruct (p63 <=? x) eqn:E1, (p63 <=? y) eqn:E2; lia.
Qed.

Lemma mag0 x : f_wf x = true -> f_mag x = 0 -> x = 0 \/ x = p63.
Proof. unfold f_wf, f_mag, f_sign. intros W. destruct (p63 <=? x) eqn:E; lia. Qed.

(** the center of a point is the point, short of overflow *)
Lemma half_double x : fin x -> (Rabs (RV x) < bpow radix2 1023)%R -> fdiv (fadd x x) f_two = x.
Proof.
  intros F B. destruct (Req_dec (RV x) 0) as [Z|Z].
  - assert (f_mag x = 0).
    { assert (K : f_key x = f_key f_zero) by (apply key_eq_R; [assumption|split; reflexivity|exact Z]).
      change (f_key f_zero) with 0 in K. unfold f_key in K. destruct (f_sign x); lia. }
    destruct (mag0 x (proj1 F) H) as [->| ->]; vm_compute; reflexivity.
  - pose proof (fadd_correct x x F F) as A. cbv zeta in A.
    replace (RV x + RV x)%R with (2 * RV x)%R in A by ring.
    assert (R2 : rnd64 (2 * RV x) = (2 * RV x)%R).
    { apply round_generic; [typeclasses eauto|]. apply double_format, F. }
    rewrite R2 in A. rewrite Rlt_bool_true in A.
    2:{ rewrite Rabs_mult, (Rabs_pos_eq 2) by Lra.lra.
        replace (bpow radix2 1024) with (2 * bpow radix2 1023)%R; [Lra.lra|].
        change 1024 with (1 + 1023). rewrite bpow_plus. reflexivity. }
    destruct A as [A1 A2].
    pose proof (fdiv_correct (fadd x x) f_two A1 fin_two) as D. rewrite RV_two in D.
    specialize (D ltac:(Lra.lra)). cbv zeta in D.
    rewrite A2 in D. replace (2 * RV x / 2)%R with (RV x) in D by field.
    rewrite rnd64_RV in D by apply F.
    rewrite Rlt_bool_true in D by now apply RV_lt_max.
    destruct D as [D1 D2]. apply fin_unique; congruence || assumption.
Qed.

(** ** Reading the doubles back *)

Lemma gb_doubles_at i pre ds t k : length pre = i -> length ds = k -> Forall bits64 ds ->
  gb_doubles k i (pre ++ doubles ds ++ t) = Some ds.
Proof.
  intros <- <- H. unfold gb_doubles. rewrite skipn_exact by reflexivity.
  rewrite doubles_posn, p_doubles_ok by exact H. reflexivity.
Qed.

Lemma doubles_app2 a b : doubles (a ++ b) = doubles a ++ doubles b.
Proof. unfold doubles. now rewrite map_app, concat_app. Qed.

Lemma gb_store_ok dst ds : (length ds <= length dst)%nat ->
  gb_store dst ds = Some (ds ++ skipn (length ds) dst).
Proof. intros H. unfold gb_store. now rewrite (proj2 (Nat.ltb_ge _ _) H). Qed.

(** all bounds are 64 bit patterns *)
Definition bits_rect (a : frect) : Prop := Forall bits64 (fr_min a) /\ Forall bits64 (fr_max a).

Lemma Forall_firstn {A} (P : A -> Prop) k l : Forall P l -> Forall P (firstn k l).
Proof. intros H. rewrite <- (firstn_skipn k l) in H. apply Forall_app in H. apply H. Qed.

Section Wrapped.
Variable head : Z.
Variable a : frect.
Variable t : list Z.
Hypothesis Hh : 2 <= head <= 4.
Hypothesis Ha : fr_ok a.
Hypothesis Hb : bits_rect a.
Let w := head :: mbr_bytes a ++ t.

Lemma wrapped_layout :
  w = [head; Z.of_nat (fr_dims a)] ++ doubles (firstn (fr_dims a) (fr_min a)) ++
      (doubles (firstn (fr_dims a) (fr_max a)) ++ t).
Proof. unfold w, mbr_bytes. cbn [app]. now rewrite <- app_assoc. Qed.

Lemma wrapped_length : (2 + 16 * fr_dims a <= length w)%nat.
Proof.
  destruct Ha as (H1 & H2 & H3). rewrite wrapped_layout, !app_length, !doubles_length.
  rewrite !firstn_length_le by lia. cbn [length]. lia.
Qed.

Lemma wrapped_headed : gb_headed w = true.
Proof.
  unfold gb_headed. pose proof wrapped_length. destruct Ha as [D _]. unfold w at 2 3. cbn [nth].
  replace (2 <? length w)%nat with true by (symmetry; apply Nat.ltb_lt; lia). lia.
Qed.

Lemma wrapped_tests :
  (nth 0 w 0 =? 1) = false /\
  (2 + Z.to_nat (16 * nth 1 w 0)%Z <=? length w)%nat = true /\ Z.to_nat (nth 1 w 0) = fr_dims a.
Proof.
  pose proof wrapped_length as L. rewrite wrapped_layout in *. cbn [app nth] in *.
  repeat split; [lia| |lia]. apply Nat.leb_le. lia.
Qed.

Lemma wrapped_min k : (k <= fr_dims a)%nat ->
  gb_doubles k 2 w = Some (firstn k (fr_min a)).
Proof.
  intros Hk. destruct Ha as (D & L1 & L2). rewrite wrapped_layout.
  rewrite <- (firstn_skipn k (firstn (fr_dims a) (fr_min a))).
  rewrite doubles_app2, <- app_assoc.
  rewrite firstn_firstn, Nat.min_l by exact Hk.
  apply gb_doubles_at; [reflexivity|now apply firstn_length_le; lia|apply Forall_firstn, Hb].
Qed.

Lemma wrapped_max k : (k <= fr_dims a)%nat ->
  gb_doubles k (2 + 8 * fr_dims a) w = Some (firstn k (fr_max a)).
Proof.
  intros Hk. destruct Ha as (D & L1 & L2). rewrite wrapped_layout, app_assoc.
  rewrite <- (firstn_skipn k (firstn (fr_dims a) (fr_max a))).
  rewrite (doubles_app2 _ (skipn k (firstn (fr_dims a) (fr_max a)))), <- (app_assoc (doubles _)).
  rewrite firstn_firstn, Nat.min_l by exact Hk.
  apply gb_doubles_at; [|now apply firstn_length_le; lia|apply Forall_firstn, Hb].
  rewrite app_length, doubles_length, firstn_length_le by lia. reflexivity.
Qed.

Lemma wrapped_rect :
  tg_geobin_rect w = Some (Rect (Pt (aget (fr_min a) 0) (aget (fr_min a) 1))
                                (Pt (aget (fr_max a) 0) (aget (fr_max a) 1))).
Proof.
  destruct wrapped_tests as (T1 & T2 & T3). destruct Ha as (D & L1 & L2).
  unfold tg_geobin_rect. rewrite wrapped_headed, T1, T2, T3. cbn [andb negb].
  rewrite (proj2 (Nat.leb_le _ _) (proj1 D)). rewrite wrapped_min, wrapped_max by lia.
  destruct (fr_min a) as [|x1 [|y1 l1]]; try discriminate L1.
  destruct (fr_max a) as [|x2 [|y2 l2]]; try discriminate L2. reflexivity.
Qed.

Lemma wrapped_point :
  tg_geobin_point w = option_map tg_rect_center (tg_geobin_rect w).
Proof.
  destruct wrapped_tests as (T1 & T2 & T3). unfold tg_geobin_point.
  rewrite wrapped_headed, T1, T2. reflexivity.
Qed.

Lemma wrapped_fullrect mn mx : (4 <= length mn)%nat -> (4 <= length mx)%nat ->
  tg_geobin_fullrect w mn mx =
  Some (FR (fr_dims a) (firstn (fr_dims a) (fr_min a) ++ skipn (fr_dims a) mn)
                       (firstn (fr_dims a) (fr_max a) ++ skipn (fr_dims a) mx)).
Proof.
  intros M1 M2. destruct wrapped_tests as (T1 & T2 & T3). destruct Ha as (D & L1 & L2).
  unfold tg_geobin_fullrect. rewrite wrapped_headed, T1, T2, T3. cbn [andb negb].
  rewrite wrapped_min, wrapped_max by lia.
  rewrite !gb_store_ok by (rewrite firstn_length_le; lia).
  rewrite !firstn_length_le by lia. reflexivity.
Qed.
End Wrapped.

(** ** A plain point *)

Section Plain.
Variable d : dim.
Variable p : posn.
Hypothesis Hp : posn_ok d p.
Let w := e_head false 1 d ++ e_posn false p.

Lemma plain_shape : exists x y r, p = x :: y :: r /\ length r = xdim d.
Proof.
  destruct Hp as [L _]. unfold ndim in L. destruct p as [|x [|y r]]; cbn in L; try lia.
  exists x, y, r. split; [reflexivity|lia].
Qed.

Lemma plain_length : length w = (5 + 8 * ndim d)%nat.
Proof.
  unfold w. rewrite app_length, e_posn_length. destruct Hp as [-> _].
  unfold e_head. cbn [length]. rewrite e_int_length. reflexivity.
Qed.

Lemma plain_type : nth 0 w 0 = 1 /\
  gb_point_dims (le_val (firstn 4 (skipn 1 w))) = ndim d.
Proof. unfold w. destruct d as [[] []]; split; reflexivity. Qed.

Lemma plain_headed : gb_headed w = true.
Proof.
  unfold gb_headed. rewrite plain_length. destruct plain_type as [-> _].
  pose proof (ndim_ge d). replace (2 <? _)%nat with true by (symmetry; apply Nat.ltb_lt; lia). reflexivity.
Qed.

Lemma plain_doubles k : (k <= ndim d)%nat -> gb_doubles k 5 w = Some (firstn k p).
Proof.
  intros Hk. destruct Hp as [L B]. unfold w.
  rewrite <- (firstn_skipn k p) at 1. rewrite <- doubles_posn.
  rewrite doubles_app2.
  apply gb_doubles_at; [|apply firstn_length_le; lia|now apply Forall_firstn].
  unfold e_head. cbn [length]. now rewrite e_int_length.
Qed.

Lemma plain_rect : tg_geobin_rect w = Some (Rect (posn_point p) (posn_point p)).
Proof.
  unfold tg_geobin_rect. rewrite plain_headed. destruct plain_type as [-> ->]. rewrite plain_length.
  pose proof (ndim_ge d). change (1 =? 1) with true. cbn [andb].
  rewrite (proj2 (Nat.leb_le 21 _)) by lia.
  rewrite (proj2 (Nat.ltb_lt 0 (ndim d))) by lia. rewrite plain_doubles by lia.
  destruct plain_shape as (x & y & r & E & _). unfold posn_point. rewrite E. reflexivity.
Qed.

Lemma plain_point_read : tg_geobin_point w = Some (posn_point p).
Proof.
  unfold tg_geobin_point. rewrite plain_headed, plain_rect. destruct plain_type as [-> _].
  rewrite plain_length. pose proof (ndim_ge d). change (1 =? 1) with true. cbn [andb].
  rewrite (proj2 (Nat.leb_le 21 _)) by lia. reflexivity.
Qed.

Lemma plain_fullrect mn mx : (4 <= length mn)%nat -> (4 <= length mx)%nat ->
  tg_geobin_fullrect w mn mx = Some (FR (ndim d) (p ++ skipn (ndim d) mn) (p ++ skipn (ndim d) mx)).
Proof.
  intros M1 M2. unfold tg_geobin_fullrect. rewrite plain_headed. destruct plain_type as [-> ->].
  rewrite plain_length. pose proof (ndim_ge d).
  assert (N4 : (ndim d <= 4)%nat) by (unfold ndim, xdim; destruct (dz d), (dm d); lia).
  change (1 =? 1) with true. cbn [andb].
  rewrite (proj2 (Nat.leb_le 5 _)) by lia.
  rewrite (proj2 (Nat.ltb_lt 0 (ndim d))) by lia.
  rewrite (proj2 (Nat.leb_le (5 + 8 * ndim d) _)) by lia. cbn [andb].
  rewrite plain_doubles by lia. destruct Hp as [L B].
  rewrite firstn_all2 by lia. rewrite !gb_store_ok by lia. rewrite L. reflexivity.
Qed.
End Plain.

(** ** Together *)

(** two rectangles agree on their dimensions *)
Definition same_bounds (a b : frect) : Prop :=
  fr_dims a = fr_dims b /\
  firstn (fr_dims a) (fr_min a) = firstn (fr_dims a) (fr_min b) /\
  firstn (fr_dims a) (fr_max a) = firstn (fr_dims a) (fr_max b).

Lemma fullrect_rect g :
  Rect (Pt (aget (fr_min (fullrect g)) 0) (aget (fr_min (fullrect g)) 1))
       (Pt (aget (fr_max (fullrect g)) 0) (aget (fr_max (fullrect g)) 1)) = rect_of_geom g.
Proof.
  assert (S : forall a, fr_ok a -> forall i x, (2 <= i < 4)%nat ->
    forall l, length l = 4%nat -> aget (aset l i x) 0 = aget l 0 /\ aget (aset l i x) 1 = aget l 1).
  { intros a _ i x Hi l L. destruct l as [|l0 [|l1 [|l2 [|l3 [|]]]]]; try discriminate L.
    destruct i as [|[|[|[|]]]]; try lia; split; reflexivity. }
  set (Q := fun a => fr_ok a /\
       Rect (Pt (aget (fr_min a) 0) (aget (fr_min a) 1)) (Pt (aget (fr_max a) 0) (aget (fr_max a) 1))
       = rect_of_geom g).
  assert (Q0 : Q (fr_start (rect_of_geom g))).
  { split; [apply fr_start_ok|]. destruct (rect_of_geom g) as [[] []]. reflexivity. }
  assert (QA : forall n a i x y, Q a -> (2 <= n <= 4)%nat -> (2 <= i < 4)%nat ->
             Q (FR n (aset (fr_min a) i x) (aset (fr_max a) i y))).
  { intros n a i x y [Ha Hr] Hn Hi. destruct (Ha) as (D & L1 & L2).
    destruct (S a Ha i x Hi _ L1) as [S1 S2]. destruct (S a Ha i y Hi _ L2) as [S3 S4].
    split.
    - unfold fr_ok; cbn [fr_dims fr_min fr_max]. rewrite !aset_length by lia. lia.
    - cbn [fr_min fr_max]. rewrite S1, S2, S3, S4. exact Hr. }
  assert (QD : forall n a, Q a -> (2 <= n <= 4)%nat -> Q (FR n (fr_min a) (fr_max a))).
  { intros n a [(D & L1 & L2) Hr] Hn. split; [|exact Hr]. now repeat split. }
  assert (QJ : forall i c a, Q a -> (2 <= i < 4)%nat -> Q (fr_join i c a)).
  { intros i c a Ha Hi. unfold fr_join. destruct (_ <=? _)%nat; [|exact Ha].
    destruct (fr_dims a =? i)%nat eqn:E; apply QA; try exact Ha; try lia.
    destruct Ha as [(D & _) _]. lia. }
  assert (QE1 : forall cs a, Q a -> Q (fr_extend1 cs a)).
  { induction cs as [|c cs IH]; intros a Ha; [exact Ha|]. cbn [fr_extend1]. apply IH, QA; [exact Ha| |lia].
    destruct Ha as [(D & _) _]. lia. }
  assert (QE2 : forall n cs a, (length cs <= n)%nat -> Q a -> Q (fr_extend2 cs a)).
  { induction n as [|n IH]; intros [|c [|dd cs]] a L Ha; try exact Ha; cbn in L; try lia.
    cbn [fr_extend2]. apply IH; [lia|].
    apply (QA (fr_dims a) (FR (fr_dims a) (aset (fr_min a) 2 (fmin0 (aget (fr_min a) 2) c))
                  (aset (fr_max a) 2 (fmax0 (aget (fr_max a) 2) c)))); [| |lia].
    - apply QA; [exact Ha| |lia]. destruct Ha as [(D & _) _]. lia.
    - destruct Ha as [(D & _) _]. lia. }
  assert (QC : forall f cs a, Q a -> fr_dims a = 2%nat -> Q (fr_coords f cs a)).
  { intros f cs a Ha D. unfold fr_coords. rewrite D. cbn [fr_dims].
    destruct (has_z f), (has_m f); cbn [Nat.add Nat.eqb].
    - destruct cs as [|c [|dd cs]]; [apply QD; [exact Ha|lia]..|].
      apply (QE2 (length cs)); [lia|]. cbn [fr_min fr_max].
      apply (QA 4%nat (FR 4 (aset (fr_min a) 2 c) (aset (fr_max a) 2 c))); [|lia|lia].
      apply QA; [exact Ha|lia|lia].
    - destruct cs as [|c cs]; [apply QD; [exact Ha|lia]|]. apply QE1.
      apply (QA 3%nat a 2%nat c c); [exact Ha|lia|lia].
    - destruct cs as [|c cs]; [apply QD; [exact Ha|lia]|]. apply QE1.
      apply (QA 3%nat a 2%nat c c); [exact Ha|lia|lia].
    - apply QD; [exact Ha|lia]. }
  enough (Q (fullrect g)) by apply H.
  destruct g as [f p|f l|f p|f p z m x|f l c x|f p c x|t f gs c x]; cbn [fullrect];
    try exact Q0; try (apply QC; [exact Q0|reflexivity]).
  - destruct (has_z f), (has_m f); try exact Q0.
    + apply (QA 4%nat (fr_push z (fr_start (rect_of_geom (GGPoint f p z m x)))) 3%nat m m); [|lia|lia].
      apply (QA 3%nat _ 2%nat z z); [exact Q0|lia|lia].
    + apply (QA 3%nat _ 2%nat z z); [exact Q0|lia|lia].
    + apply (QA 3%nat _ 2%nat m m); [exact Q0|lia|lia].
  - assert (QF : forall l a, Q a -> Q (fold_left fr_child l a)).
    { induction l as [|c' l IH]; intros a Ha; [exact Ha|]. cbn [fold_left]. apply IH.
      unfold fr_child. apply QJ; [|lia]. apply QJ; [exact Ha|lia]. }
    destruct t; try (apply QC; [exact Q0|reflexivity]).
    destruct gs as [gs|]; [|apply QC; [exact Q0|reflexivity]].
    apply QF, Q0.
Qed.

(** a plain point is written as its WKB *)
Lemma plain_bytes g s w : geom_made g -> plain_point g -> shape_of g = Some s -> fits 0 s ->
  emits (write_geom_wkb g) w -> is_empty (geom_flags g) = false ->
  exists d p, w = e_head false 1 d ++ e_posn false p /\ posn_ok d p /\ s = ShPoint d p /\
    tg_geom_point (Some g) = posn_point p /\ fr_dims (fullrect g) = ndim d /\
    firstn (ndim d) (fr_min (fullrect g)) = p /\ firstn (ndim d) (fr_max (fullrect g)) = p.
Proof.
  intros Hm (_ & _ & _ & Ht) Hs Hf He Em.
  destruct g as [f p|f l|f p|f p z m x|f l c x|f p c x|t f gs c x]; cbn [head_type] in Ht;
    try discriminate Ht; try (destruct t; discriminate Ht).
  - cbn [shape_of] in Hs. destruct (is_xy f) eqn:Ef; [|discriminate]. injection Hs as <-.
    destruct Hf as [_ [[[=] _]|Hf]].
    exists xy, [px p; py p]. repeat split; try apply Hf.
    + eapply emits_unique; [exact He|]. cbn [write_geom_wkb]. rewrite <- (dim_xy f Ef).
      apply emits_seq; [apply emits_head|apply emits_posn].
    + destruct p; reflexivity.
  - cbn [shape_of geom_flags] in *. rewrite Em in Hs. injection Hs as <-.
    destruct Hf as [_ [[[=] _]|Hf]].
    exists (dim_of f), (px p :: py p :: (if has_z f then [z] else []) ++ (if has_m f then [m] else [])).
    split; [|split; [apply Hf|split; [reflexivity|split; [destruct p; reflexivity|]]]].
    + eapply emits_unique; [exact He|]. cbn [write_geom_wkb]. unfold write_geom_point_wkb. rewrite Em.
      apply emits_seq; [apply emits_head|apply emits_posn].
    + cbn [fullrect]. unfold dim_of, ndim, xdim. cbn [dz dm rect_of_geom].
      destruct (has_z f), (has_m f); destruct p; repeat split; reflexivity.
Qed.

Theorem readers_agree g o w mn mx : geom_made g -> object_of g = Some o -> obj_fits 0 o ->
  bits_rect (fullrect g) ->
  (plain_point g -> is_empty (geom_flags g) = false) ->
  emits (write_geom_geobin g) w ->
  (4 <= length mn)%nat -> (4 <= length mx)%nat ->
  tg_geobin_rect w = Some (tg_geom_rect (Some g)) /\
  (exists a, tg_geobin_fullrect w mn mx = Some a /\ same_bounds a (tg_geom_fullrect (Some g) mn mx) /\
     length (fr_min a) = length mn /\ length (fr_max a) = length mx /\
     skipn (fr_dims a) (fr_min a) = skipn (fr_dims a) mn /\
     skipn (fr_dims a) (fr_max a) = skipn (fr_dims a) mx) /\
  (plain_point g \/ head_type g <> TG_POINT \/
   (fin (px (tg_geom_point (Some g))) /\ fin (py (tg_geom_point (Some g))) /\
    (Rabs (RV (px (tg_geom_point (Some g)))) < bpow radix2 1023)%R /\
    (Rabs (RV (py (tg_geom_point (Some g)))) < bpow radix2 1023)%R) ->
   tg_geobin_point w = Some (tg_geom_point (Some g))).
Proof.
  intros Hm Ho Hf Hbits Hne Hw M1 M2.
  destruct (emits_geobin g 0 o Hm Ho Hf) as (w' & Hw' & _ & HD).
  assert (w' = w) by (eapply emits_unique; eauto). subst w'.
  destruct HD as [[Hp Hwk]|[Hnp (head & t & Hh & ->)]].
  - specialize (Hne Hp).
    assert (Hs : exists s, shape_of g = Some s /\ fits 0 s).
    { destruct (object_inv g o Ho) as [_ [(Ec & _)|(_ & _ & s & -> & Hs)]].
      - destruct Hp as (_ & Hp & _). congruence.
      - exists s. split; [exact Hs|]. apply Hf. }
    destruct Hs as (s & Hs & Hfs).
    destruct (plain_bytes g s w Hm Hp Hs Hfs Hwk Hne) as (d & p & -> & Hok & -> & Ept & Ed & E1 & E2).
    rewrite plain_rect, plain_point_read by exact Hok. rewrite (plain_fullrect d p Hok mn mx M1 M2).
    assert (N4 : (2 <= ndim d <= 4)%nat) by (unfold ndim, xdim; destruct (dz d), (dm d); lia).
    destruct Hok as [L B].
    split; [|split].
    + rewrite <- Ept. unfold tg_geom_rect. destruct Hp as (_ & _ & _ & Ht).
      destruct g as [f q|f l|f q|f q z m x|f l c x|f q c x|mt f gs c x]; cbn [head_type] in Ht;
        try discriminate Ht; try (destruct mt; discriminate Ht); reflexivity.
    + eexists. split; [reflexivity|]. cbn [tg_geom_fullrect]. unfold same_bounds. cbn [fr_dims fr_min fr_max].
      rewrite !app_length, !skipn_length, E1, E2, !firstn_exact, !skipn_exact by exact L.
      repeat split; try lia; congruence.
    + intros _. now rewrite Ept.
  - pose proof (fullrect_ok g) as Hok. pose proof (fullrect_rect g) as HR.
    pose proof Hok as (D & L1 & L2).
    assert (RR : tg_geobin_rect (head :: mbr_bytes (fullrect g) ++ t) = Some (rect_of_geom g)).
    { rewrite wrapped_rect by assumption. now rewrite HR. }
    split; [exact RR|]. split.
    + rewrite wrapped_fullrect by assumption. eexists. split; [reflexivity|].
      assert (F1 : length (firstn (fr_dims (fullrect g)) (fr_min (fullrect g))) = fr_dims (fullrect g))
        by (apply firstn_length_le; lia).
      assert (F2 : length (firstn (fr_dims (fullrect g)) (fr_max (fullrect g))) = fr_dims (fullrect g))
        by (apply firstn_length_le; lia).
      cbn [tg_geom_fullrect]. unfold same_bounds. cbn [fr_dims fr_min fr_max].
      rewrite !app_length, !skipn_length, !firstn_exact, !skipn_exact by assumption.
      rewrite F1, F2. repeat split; lia.
    + intros Hc. rewrite wrapped_point by assumption. rewrite RR. cbn [option_map]. f_equal.
      unfold tg_rect_center.
      destruct g as [f q|f l|f q|f q z m x|f l c x|f q c x|mt f gs c x].
      * destruct Hc as [Hc|[Hc|(C1 & C2 & C3 & C4)]]; [contradiction|now cbn in Hc|].
        cbn [tg_geom_point rect_of_geom tg_point_rect rmin rmax] in *.
        rewrite !half_double by assumption. destruct q; reflexivity.
      * cbn [tg_geom_point]. rewrite !(fadd_comm (_ (rmax _))). reflexivity.
      * cbn [tg_geom_point]. rewrite !(fadd_comm (_ (rmax _))). reflexivity.
      * destruct Hc as [Hc|[Hc|(C1 & C2 & C3 & C4)]]; [contradiction|now cbn in Hc|].
        cbn [tg_geom_point rect_of_geom tg_point_rect rmin rmax] in *.
        rewrite !half_double by assumption. destruct q; reflexivity.
      * cbn [tg_geom_point]. rewrite !(fadd_comm (_ (rmax _))). reflexivity.
      * cbn [tg_geom_point]. rewrite !(fadd_comm (_ (rmax _))). reflexivity.
      * cbn [tg_geom_point]. rewrite !(fadd_comm (_ (rmax _))). reflexivity.
Qed.

(** ** Any bytes *)

Lemma p_doubles_some k : forall bs, (8 * k <= length bs)%nat ->
  exists ds rest, p_doubles k false bs = Ok (ds, rest) /\ length ds = k.
Proof.
  induction k as [|k IH]; intros bs L; cbn [p_doubles].
  - exists [], bs. auto.
  - unfold take_bytes. rewrite (proj2 (Nat.ltb_ge _ _)) by lia.
    destruct (IH (skipn 8 bs)) as (ds & rest & -> & Hl); [rewrite skipn_length; lia|].
    cbn [obind]. do 2 eexists. split; [reflexivity|]. cbn; lia.
Qed.

Lemma gb_doubles_some k i bs : (i + 8 * k <= length bs)%nat ->
  exists ds, gb_doubles k i bs = Some ds /\ length ds = k.
Proof.
  intros L. unfold gb_doubles.
  destruct (p_doubles_some k (skipn i bs)) as (ds & rest & -> & Hl); [rewrite skipn_length; lia|].
  now exists ds.
Qed.

Lemma point_dims_cases t : gb_point_dims t = 0%nat \/ (2 <= gb_point_dims t <= 4)%nat.
Proof. unfold gb_point_dims. repeat destruct (_ =? _); cbn [orb]; lia. Qed.

Theorem readers_in_bounds bs : Forall is_byte bs ->
  tg_geobin_rect bs <> None /\ tg_geobin_point bs <> None /\
  (forall mn mx, (4 <= length mn)%nat -> (4 <= length mx)%nat ->
     nth 0 bs 0 = 1 \/ nth 1 bs 0 <= 4 ->
     exists a, tg_geobin_fullrect bs mn mx = Some a /\ (fr_dims a <= 4)%nat /\
       length (fr_min a) = length mn /\ length (fr_max a) = length mx /\
       skipn 4 (fr_min a) = skipn 4 mn /\ skipn 4 (fr_max a) = skipn 4 mx).
Proof.
  intros HB.
  assert (D0 : 0 <= nth 1 bs 0).
  { destruct bs as [|a [|b bs]]; cbn; try lia. inversion HB as [|? ? ? HB2]; subst.
    inversion HB2 as [|? ? Hb]; subst. red in Hb. lia. }
  assert (R : tg_geobin_rect bs <> None).
  { unfold tg_geobin_rect. destruct (gb_headed bs); [|discriminate].
    destruct ((nth 0 bs 0 =? 1) && (21 <=? length bs)%nat) eqn:E1.
    - apply andb_prop in E1. destruct E1 as [_ E1]. apply Nat.leb_le in E1.
      destruct (_ <? _)%nat; [|discriminate].
      destruct (gb_doubles_some 2 5 bs) as (ds & -> & L); [lia|].
      destruct ds as [|x [|y [|]]]; try discriminate L. discriminate.
    - match goal with |- context [if negb ?x && ?y then _ else _] => destruct (negb x && y) eqn:E2 end; [|discriminate]. apply andb_prop in E2. destruct E2 as [_ E2].
      apply Nat.leb_le in E2. destruct (2 <=? _)%nat eqn:E3; [|discriminate]. apply Nat.leb_le in E3.
      destruct (gb_doubles_some 2 2 bs) as (ds & -> & L); [lia|].
      destruct ds as [|x [|y [|]]]; try discriminate L.
      destruct (gb_doubles_some 2 (2 + 8 * Z.to_nat (nth 1 bs 0)) bs) as (ds & -> & L'); [lia|].
      destruct ds as [|x' [|y' [|]]]; try discriminate L'. discriminate. }
  split; [exact R|]. split.
  { unfold tg_geobin_point. destruct (gb_headed bs); [|discriminate].
    destruct (tg_geobin_rect bs); [|congruence].
    repeat match goal with |- context [if ?b then _ else _] => destruct b end; discriminate. }
  intros mn mx M1 M2 HD. unfold tg_geobin_fullrect.
  assert (K : forall d, (d <= 4)%nat -> exists a, Some (FR d mn mx) = Some a /\ (fr_dims a <= 4)%nat /\
       length (fr_min a) = length mn /\ length (fr_max a) = length mx /\
       skipn 4 (fr_min a) = skipn 4 mn /\ skipn 4 (fr_max a) = skipn 4 mx).
  { intros d Hd. eexists. split; [reflexivity|]. now repeat split. }
  assert (ST : forall dst ds, (length ds <= 4)%nat -> (4 <= length dst)%nat ->
     exists r, gb_store dst ds = Some r /\ length r = length dst /\ skipn 4 r = skipn 4 dst).
  { intros dst ds L1 L2. rewrite gb_store_ok by lia. eexists. split; [reflexivity|]. split.
    - rewrite app_length, skipn_length. lia.
    - rewrite skipn_app, skipn_all2 by lia. cbn [app]. rewrite skipn_add. f_equal. lia. }
  destruct (gb_headed bs); [|apply K; lia].
  destruct ((nth 0 bs 0 =? 1) && (5 <=? length bs)%nat) eqn:E1.
  - destruct (point_dims_cases (le_val (firstn 4 (skipn 1 bs)))) as [->|HC]; [apply K; lia|].
    set (dims := gb_point_dims _) in *.
    destruct ((0 <? dims)%nat && _) eqn:E2; [|apply K; lia].
    apply andb_prop in E2. destruct E2 as [_ E2]. apply Nat.leb_le in E2.
    destruct (gb_doubles_some dims 5 bs) as (ds & -> & L); [lia|].
    destruct (ST mn ds) as (r1 & -> & R1 & R2); [lia|lia|].
    destruct (ST mx ds) as (r2 & -> & R3 & R4); [lia|lia|].
    eexists. split; [reflexivity|]. cbn [fr_dims fr_min fr_max]. repeat split; try assumption. lia.
  - destruct (negb _ && _) eqn:E2; [|apply K; lia].
    apply andb_prop in E2. destruct E2 as [E3 E2]. apply Nat.leb_le in E2.
    assert (HD4 : (Z.to_nat (nth 1 bs 0%Z) <= 4)%nat) by lia.
    destruct (gb_doubles_some (Z.to_nat (nth 1 bs 0)) 2 bs) as (ds & -> & L); [lia|].
    destruct (gb_doubles_some (Z.to_nat (nth 1 bs 0)) (2 + 8 * Z.to_nat (nth 1 bs 0)) bs)
      as (ds2 & -> & L'); [lia|].
    destruct (ST mn ds) as (r1 & -> & R1 & R2); [lia|lia|].
    destruct (ST mx ds2) as (r2 & -> & R3 & R4); [lia|lia|].
    eexists. split; [reflexivity|]. cbn [fr_dims fr_min fr_max]. repeat split; try assumption.
Qed.

(** ** Writing any geometry: the same for every buffer *)

Lemma settled_string s : settled (write_string s).
Proof. apply settled_loop. intros; apply settled_byte. Qed.

Lemma settled_xjson x : settled (write_xjson x).
Proof.
  apply settled_seq; [|apply settled_byte]. destruct x; [apply settled_string|apply settled_skip].
Qed.

Lemma settled_mbr a : settled (write_mbr a).
Proof.
  apply settled_seq; [apply settled_byte|].
  apply settled_seq; apply settled_loop; intros x _; exact (settled_le 8 x).
Qed.

Lemma settled_base g feats : geom_made g -> settled feats -> settled (write_base_geom_geobin g feats).
Proof.
  intros Hm Hf. pose proof (settled_geom g Hm) as Hw. unfold write_base_geom_geobin.
  assert (B : settled (write_mbr (fullrect g) ;; write_xjson (tg_geom_extra_json (Some g)) ;;
    (if is_feature_col (geom_flags g)
     then write_uint32le (tg_geom_num_geometries (Some g)) ;; feats else write_geom_wkb g))).
  { apply settled_seq; [apply settled_mbr|]. apply settled_seq; [apply settled_xjson|].
    destruct (is_feature_col (geom_flags g)); [|exact Hw].
    apply settled_seq; [apply settled_u32|exact Hf]. }
  destruct (is_feature_col (geom_flags g)).
  { apply settled_seq; [apply settled_byte|exact B]. }
  destruct (is_feature (geom_flags g)).
  { apply settled_seq; [apply settled_byte|exact B]. }
  destruct (_ && _).
  - destruct g; try apply settled_undef. exact Hw.
  - apply settled_seq; [apply settled_byte|exact B].
Qed.

Lemma settled_rect r k : settled k -> settled (write_geobin_rect r ;; k).
Proof.
  intros H. apply settled_seq; [|exact H]. unfold write_geobin_rect.
  apply settled_seq; [apply settled_byte|]. unfold write_doublele.
  do 3 (apply settled_seq; [exact (settled_le 8 _)|]). exact (settled_le 8 _).
Qed.

Theorem settled_geobin g : geom_made g -> settled (write_geom_geobin g).
Proof.
  induction g as [f p|f l|f p|f p z m x|f l c x|f p c x|t f c x|t f gs c x IH]
    using geom_ind_deep; intros Hm; cbn [write_geom_geobin].
  1-3: match goal with |- settled (if _ then _ else ?k) =>
         assert (settled k); [|match goal with |- settled (if ?b then _ else _) =>
           destruct b; [apply settled_base; [exact Hm|apply settled_skip]|assumption] end] end.
  - exact (settled_geom _ Hm).
  - apply settled_seq; [apply settled_byte|]. apply settled_rect.
    apply settled_seq; [apply settled_byte|]. exact (settled_geom _ Hm).
  - apply settled_seq; [apply settled_byte|]. apply settled_rect.
    apply settled_seq; [apply settled_byte|]. exact (settled_geom _ Hm).
  - destruct (is_feature _); apply settled_base; [exact Hm|apply settled_skip|exact Hm|apply settled_skip].
  - destruct (is_feature _); apply settled_base; [exact Hm|apply settled_skip|exact Hm|apply settled_skip].
  - destruct (is_feature _); apply settled_base; [exact Hm|apply settled_skip|exact Hm|apply settled_skip].
  - assert (settled (match t with MGeoms => wskip | _ => wskip end)) by (destruct t; apply settled_skip).
    destruct (is_feature _); apply settled_base; try exact Hm; destruct t; apply settled_skip.
  - assert (S : settled (match t with
      | MGeoms => wloop (map (fun o => match o with
                             | Some c => write_geom_geobin c | None => wundef end) gs)
      | _ => wskip end)).
    { destruct t; try apply settled_skip. apply settled_loop. intros [g|] Hg; [|apply settled_undef].
      apply made_multi in Hm. rewrite Forall_forall in IH, Hm. apply (IH _ Hg). apply (Hm _ Hg). }
    destruct (is_feature _); apply settled_base; try exact Hm; exact S.
Qed.

(** ** Collections nested too deep *)

(** the start of a collection of [n] features *)
Definition feats_head (h : list Z * option (list Z) * Z) : list Z :=
  let '(m, x, n) := h in 4 :: m ++ xj_text x ++ 0 :: le_bytes 4 n.
Definition feats_head_ok (h : list Z * option (list Z) * Z) : Prop :=
  let '(m, x, n) := h in mbr_enc m /\ xj_ok x /\ 0 < n < 2 ^ 32.

Lemma gb_too_deep e ix fuel depth bs : (1024 < depth)%nat ->
  parse_geobin e ix (S fuel) depth bs = fail_invalid.
Proof.
  intros H. destruct bs; [reflexivity|]. cbn [parse_geobin].
  destruct (Nat.ltb_spec MAXDEPTH depth) as [L|L]; [reflexivity|]. unfold MAXDEPTH in L. lia.
Qed.

Lemma gb_parse_deep e ix : forall hs depth fuel rest,
  Forall feats_head_ok hs -> (1024 < depth + length hs)%nat ->
  (1026 <= fuel + depth)%nat -> (depth <= 1025)%nat ->
  parse_geobin e ix fuel depth (concat (map feats_head hs) ++ rest) = fail_invalid.
Proof.
  induction hs as [|[[m x] n] hs IH]; intros depth fuel rest HF HL Hf Hd;
    (destruct fuel as [|fuel]; [lia|]).
  - cbn [length] in HL. apply gb_too_deep. lia.
  - destruct (Nat.leb_spec depth 1024) as [L|L]; [|now apply gb_too_deep].
    inversion HF as [|? ? Hh HF']; subst. cbn [feats_head_ok] in Hh. destruct Hh as (Hm & Hx & Hn). cbn [length] in HL.
    cbn [map concat feats_head]. set (tl := concat (map feats_head hs) ++ rest) in *.
    set (n4 := le_bytes 4 n).
    replace (((4 :: m ++ xj_text x ++ 0 :: n4) ++ concat (map feats_head hs)) ++ rest)
      with (4 :: m ++ xj_text x ++ 0 :: (n4 ++ tl))
      by (unfold tl; cbn [app]; f_equal; repeat (rewrite <- ?app_assoc; cbn [app]); reflexivity).
    assert (L4 : length n4 = 4%nat) by apply le_bytes_length.
    rewrite parse_gb_head; [|assumption|lia|assumption|assumption|].
    2:{ destruct n4; discriminate. }
    unfold gb_body. change (4 =? 4) with true. cbn match.
    rewrite take_app by exact L4. unfold n4. rewrite le_val_bytes.
    2:{ change (256 ^ Z.of_nat 4) with (2 ^ 32). lia. }
    cbn [p_feats]. replace (n =? 0) with false by lia.
    unfold tl. rewrite IH; [reflexivity|assumption|lia|lia|lia].
Qed.

Lemma written_unique f a b : written f a -> written f b -> a = b.
Proof.
  intros HA HB. specialize (HA (repeat 0 (length a))). specialize (HB (repeat 0 (length a))).
  rewrite HA in HB. injection HB as E1 E2. rewrite repeat_length in E2. rewrite <- E1 in E2.
  rewrite firstn_all, (firstn_all2 b) in E2 by lia.
  rewrite skipn_all2 in E2 by (rewrite repeat_length; lia). now rewrite !app_nil_r in E2.
Qed.
