(** * Rectangles as rings, for examples of shapes *)

From Coq Require Import ZArith Reals Bool List Lia Lra PeanoNat.
From Verif Require Import F64 Geo Series SpecGeo SpecPlane SpecPreds SpecRing SpecShape F64Real SegExact
  SeriesExamples Thm_Preds Jordan JordanRing MeetFacts.
Import ListNotations.

Definition box (x1 y1 x2 y2 : Z) : list pt := [P x1 y1; P x2 y1; P x2 y2; P x1 y2; P x1 y1].
Definition small (z : Z) : Prop := (Z.abs z <= 16777216)%Z.

Lemma same_self x y : small x -> small y -> same_point (P x y) (P x y) = true.
Proof.
  intros X Y. unfold small in *. destruct (P_int24 x y X Y) as [[F1 (a & A & _)] [F2 (b & B & _)]].
  unfold same_point. rewrite (isz_feqb (px (P x y)) (px (P x y)) a a), (isz_feqb (py (P x y)) (py (P x y)) b b), !Z.eqb_refl; try (split; assumption).
Qed.

Section Box.
Variables x1 y1 x2 y2 : Z.
Hypothesis S1 : small x1. Hypothesis S2 : small y1. Hypothesis S3 : small x2. Hypothesis S4 : small y2.
Hypothesis LX : (x1 < x2)%Z. Hypothesis LY : (y1 < y2)%Z.
Local Open Scope R_scope.

Lemma box_int q : In q (box x1 y1 x2 y2) -> int_point 24 q.
Proof. unfold box. intros [<-|[<-|[<-|[<-|[<-|[]]]]]]; apply P_int24; assumption. Qed.

Lemma box_segments : ring_segments (box x1 y1 x2 y2) =
  [Seg (P x1 y1) (P x2 y1); Seg (P x2 y1) (P x2 y2); Seg (P x2 y2) (P x1 y2); Seg (P x1 y2) (P x1 y1)].
Proof.
  unfold ring_segments, box. cbn [length Nat.ltb Nat.leb]. unfold close_points. cbn [last hd app]. 
  rewrite same_self by assumption. reflexivity.
Qed.
Lemma corner a b : small a -> small b -> xR (P a b) = IZR a /\ yR (P a b) = IZR b.
Proof. unfold small. intros A B. apply P_R; lia. Qed.

Lemma box_border x y : ring_border (box x1 y1 x2 y2) x y <->
  (IZR x1 <= x <= IZR x2 /\ IZR y1 <= y <= IZR y2) /\ (x = IZR x1 \/ x = IZR x2 \/ y = IZR y1 \/ y = IZR y2).
Proof.
  apply IZR_lt in LX as LX'. apply IZR_lt in LY as LY'.
  destruct (corner x1 y1 S1 S2) as [A1 B1], (corner x2 y1 S3 S2) as [A2 B2], (corner x2 y2 S3 S4) as [A3 B3], (corner x1 y2 S1 S4) as [A4 B4].
  unfold ring_border. rewrite box_segments. unfold lies_on. split.
  - intros (s & [<-|[<-|[<-|[<-|[]]]]] & L); cbn [sa sb] in L; rewrite ?A1, ?A2, ?A3, ?A4, ?B1, ?B2, ?B3, ?B4 in L;
      apply on_segment_iff in L; destruct L as (L1 & L2 & L3); unfold Rmin, Rmax in *; repeat destruct (Rle_dec _ _); lra.
  - intros [[X Y] [E|[E|[E|E]]]].
    + exists (Seg (P x1 y2) (P x1 y1)). split; [cbn; tauto|]. cbn [sa sb]. rewrite A1, A4, B1, B4. apply on_segment_iff.
      subst x. unfold Rmin, Rmax. repeat destruct (Rle_dec _ _); repeat split; try lra.
    + exists (Seg (P x2 y1) (P x2 y2)). split; [cbn; tauto|]. cbn [sa sb]. rewrite A2, A3, B2, B3. apply on_segment_iff.
      subst x. unfold Rmin, Rmax. repeat destruct (Rle_dec _ _); repeat split; try lra.
    + exists (Seg (P x1 y1) (P x2 y1)). split; [cbn; tauto|]. cbn [sa sb]. rewrite A1, A2, B1, B2. apply on_segment_iff.
      subst y. unfold Rmin, Rmax. repeat destruct (Rle_dec _ _); repeat split; try lra.
    + exists (Seg (P x2 y2) (P x1 y2)). split; [cbn; tauto|]. cbn [sa sb]. rewrite A3, A4, B3, B4. apply on_segment_iff.
      subst y. unfold Rmin, Rmax. repeat destruct (Rle_dec _ _); repeat split; try lra.
Qed.

Lemma box_odd x y : odd_at (box x1 y1 x2 y2) x y = true <-> IZR y1 <= y < IZR y2 /\ IZR x1 <= x < IZR x2.
Proof.
  apply IZR_lt in LX as LX'. apply IZR_lt in LY as LY'.
  destruct (corner x1 y1 S1 S2) as [A1 B1], (corner x2 y1 S3 S2) as [A2 B2], (corner x2 y2 S3 S4) as [A3 B3], (corner x1 y2 S1 S4) as [A4 B4].
  unfold odd_at. rewrite box_segments. unfold par. cbn [fold_right]. unfold rayb. cbn [sa sb]. rewrite A1, A2, A3, A4, B1, B2, B3, B4.
  unfold crossb.
  destruct (leb (IZR y1) y) eqn:E1; destruct (leb (IZR y2) y) eqn:E2; cbn [andb negb orb xorb];
    (apply leb_true in E1 || apply leb_false in E1); (apply leb_true in E2 || apply leb_false in E2);
    try (exfalso; lra); try (split; [discriminate|lra]).
  assert (T1 : posb (turn (IZR x2) (IZR y1) (IZR x2) (IZR y2) x y) = true <-> x < IZR x2).
  { rewrite posb_true. unfold turn. replace ((IZR x2 - IZR x2) * (y - IZR y1) - (IZR y2 - IZR y1) * (x - IZR x2)) with ((IZR y2 - IZR y1) * (IZR x2 - x)) by ring.
    split; intros H.
    - assert (0 < IZR x2 - x); [|lra]. apply Rmult_lt_reg_l with (IZR y2 - IZR y1); lra.
    - apply Rmult_lt_0_compat; lra. }
  assert (T2 : posb (- turn (IZR x1) (IZR y2) (IZR x1) (IZR y1) x y) = true <-> x < IZR x1).
  { rewrite posb_true. unfold turn. replace (- ((IZR x1 - IZR x1) * (y - IZR y2) - (IZR y1 - IZR y2) * (x - IZR x1))) with ((IZR y2 - IZR y1) * (IZR x1 - x)) by ring.
    split; intros H.
    - assert (0 < IZR x1 - x); [|lra]. apply Rmult_lt_reg_l with (IZR y2 - IZR y1); lra.
    - apply Rmult_lt_0_compat; lra. }
  destruct (posb (turn (IZR x2) (IZR y1) (IZR x2) (IZR y2) x y)); destruct (posb (- turn (IZR x1) (IZR y2) (IZR x1) (IZR y1) x y)); cbn [orb andb xorb].
  - assert (x < IZR x1) by (now apply T2). split; [discriminate|lra].
  - assert (x < IZR x2) by (now apply T1). assert (~ x < IZR x1) by (intros H1; apply T2 in H1; discriminate). split; [lra|reflexivity].
  - assert (x < IZR x1) by (now apply T2). assert (~ x < IZR x2) by (intros H1; apply T1 in H1; discriminate). lra.
  - assert (~ x < IZR x2) by (intros H1; apply T1 in H1; discriminate). split; [discriminate|lra].
Qed.

Lemma box_has x y : ring_has (box x1 y1 x2 y2) x y <-> IZR x1 <= x <= IZR x2 /\ IZR y1 <= y <= IZR y2.
Proof.
  rewrite ring_has_odd, box_border, box_odd. split; [lra|]. intros H.
  destruct (Req_dec x (IZR x2)); [left; split; [exact H|tauto]|].
  destruct (Req_dec y (IZR y2)); [left; split; [exact H|tauto]|]. right. lra.
Qed.
Lemma box_interior x y : ring_interior (box x1 y1 x2 y2) x y <-> IZR x1 < x < IZR x2 /\ IZR y1 < y < IZR y2.
Proof. unfold ring_interior. rewrite box_has, box_border. lra. Qed.
Lemma box_convex : convex_set (ring_interior (box x1 y1 x2 y2)).
Proof.
  intros ax ay bx by_ x y H1 H2 O. apply box_interior in H1, H2. apply box_interior.
  apply on_segment_iff in O. destruct O as (X & Y & _). unfold Rmin, Rmax in *. repeat destruct (Rle_dec _ _); lra.
Qed.

(** a hole with all its corners within the box makes a proper polygon *)
Lemma box_proper h : fin_points h -> (forall q, In q h -> IZR x1 < xR q < IZR x2 /\ IZR y1 < yR q < IZR y2) ->
  poly_proper (box x1 y1 x2 y2) [h].
Proof.
  intros F W.
  assert (IN : forall x y, ring_has h x y -> IZR x1 < x < IZR x2 /\ IZR y1 < y < IZR y2).
  { intros x y H. destruct (has_span h x y F H) as ((a & Ia & La) & (b & Ib & Lb) & (c & Ic & Lc) & (d & Id & Ld)).
    pose proof (W a Ia). pose proof (W b Ib). pose proof (W c Ic). pose proof (W d Id). lra. }
  intros x y [B|(h' & [<-|[]] & B)].
  - split; [now left|]. intros h' [<-|[]] [H _]. apply IN in H. apply box_border in B. lra.
  - split; [|intros h' [<-|[]] [_ N]; contradiction]. apply box_has. assert (H : ring_has h x y) by now left. apply IN in H. lra.
Qed.
End Box.
