(** * The stack ring of a rectangle behaves like the ring built from its corners *)

From Coq Require Import ZArith Reals Bool List Lia Lra PeanoNat.
From Verif Require Import F64 Geo Series Search RingApi Geom MultiIx Preds PredsFacts PredsGeom F64Order F64Real
  SeriesFacts SearchFacts RectFacts RingFacts SpecGeo SpecFacts SpecPlane SpecPreds SpecRing SpecShape SpecDist
  SegExact SegRing  Thm_Preds JordanRing MeetFacts RingMeet PolyMeet.
Import ListNotations.

(** ** Rings that differ only where intersects does not look *)

Definition keq (x y : f64) : Prop := f_isnan x = f_isnan y /\ f_key x = f_key y.
Definition req (a b : rect) : Prop :=
  keq (px (rmin a)) (px (rmin b)) /\ keq (py (rmin a)) (py (rmin b)) /\
  keq (px (rmax a)) (px (rmax b)) /\ keq (py (rmax a)) (py (rmax b)).

Definition alike (a b : ring) : Prop :=
  r_closed a = r_closed b /\ r_npoints a = r_npoints b /\ r_nsegs a = r_nsegs b /\
  req (r_rect a) (r_rect b) /\ keq (rect_area (r_rect a)) (rect_area (r_rect b)) /\
  (r_index a = None /\ r_index b = None) /\ (r_ystripes a = None /\ r_ystripes b = None) /\
  (forall i, (i < r_nsegs a)%nat -> seg_at a i = seg_at b i) /\
  Preds.ring_pts a = Preds.ring_pts b.

Lemma keq_flt x y u v : keq x y -> keq u v -> flt x u = flt y v.
Proof. intros [N K] [N' K']. unfold flt. now rewrite N, K, N', K'. Qed.
Lemma keq_refl x : keq x x.
Proof. split; reflexivity. Qed.
Lemma keq_sym x y : keq x y -> keq y x.
Proof. intros [? ?]. split; symmetry; assumption. Qed.
Lemma req_sym a b : req a b -> req b a.
Proof. intros (A & B & C & D). repeat split; apply keq_sym; assumption. Qed.
Lemma alike_sym a b : alike a b -> alike b a.
Proof.
  intros (C & NP & NS & RC & AR & (X1 & X2) & (Y1 & Y2) & SG & PT).
  repeat (split; [first [congruence|now apply req_sym|now apply keq_sym|now split]|]).
  split; [|congruence]. intros i Hi. symmetry. apply SG. lia.
Qed.

Lemma req_covers_point a b p : req a b -> tg_rect_covers_point a p = tg_rect_covers_point b p.
Proof.
  intros (A & B & C & D). unfold tg_rect_covers_point, fgt.
  now rewrite (keq_flt _ _ _ _ (keq_refl (px p)) A), (keq_flt _ _ _ _ (keq_refl (py p)) B),
    (keq_flt _ _ _ _ C (keq_refl (px p))), (keq_flt _ _ _ _ D (keq_refl (py p))).
Qed.
Lemma req_intersects_r a b q : req a b -> tg_rect_intersects_rect q a = tg_rect_intersects_rect q b.
Proof.
  intros (A & B & C & D). unfold tg_rect_intersects_rect, fgt.
  now rewrite (keq_flt _ _ _ _ (keq_refl (px (rmax q))) A), (keq_flt _ _ _ _ (keq_refl (py (rmax q))) B),
    (keq_flt _ _ _ _ C (keq_refl (px (rmin q)))), (keq_flt _ _ _ _ D (keq_refl (py (rmin q)))).
Qed.
Lemma req_intersects_l a b q : req a b -> tg_rect_intersects_rect a q = tg_rect_intersects_rect b q.
Proof.
  intros (A & B & C & D). unfold tg_rect_intersects_rect, fgt.
  now rewrite (keq_flt _ _ _ _ (keq_refl (px (rmax q))) A), (keq_flt _ _ _ _ (keq_refl (py (rmax q))) B),
    (keq_flt _ _ _ _ C (keq_refl (px (rmin q)))), (keq_flt _ _ _ _ D (keq_refl (py (rmin q)))).
Qed.
Lemma req_covers_r a b q : req a b -> tg_rect_covers_rect q a = tg_rect_covers_rect q b.
Proof.
  intros (A & B & C & D). unfold tg_rect_covers_rect, fgt.
  now rewrite (keq_flt _ _ _ _ A (keq_refl (px (rmin q)))), (keq_flt _ _ _ _ B (keq_refl (py (rmin q)))),
    (keq_flt _ _ _ _ (keq_refl (px (rmax q))) C), (keq_flt _ _ _ _ (keq_refl (py (rmax q))) D).
Qed.

Lemma fold_left_same {A B} (f g : A -> B -> A) l : (forall st x, In x l -> f st x = g st x) ->
  forall st, fold_left f l st = fold_left g l st.
Proof.
  induction l as [|x l IH]; intros H st; cbn [fold_left]; [reflexivity|].
  rewrite H by (left; reflexivity). apply IH. intros. apply H. now right.
Qed.
Lemma loop_while_same {A B} (f g : A -> B -> bool * A) l : (forall st x, In x l -> f st x = g st x) ->
  forall st, loop_while f l st = loop_while g l st.
Proof.
  induction l as [|x l IH]; intros H st; cbn [loop_while]; [reflexivity|].
  rewrite H by (left; reflexivity). destruct (g st x) as [[] st']; [|reflexivity].
  apply IH. intros. apply H. now right.
Qed.

Section Alike.
  Variables a b : ring.
  Hypothesis AL : alike a b.

  Lemma alike_segs : ring_segs a = ring_segs b.
  Proof.
    destruct AL as (_ & _ & NS & _ & _ & _ & _ & SG & _). unfold ring_segs. rewrite <- NS.
    apply map_ext_in. intros i Hi. apply SG. apply in_seq in Hi. lia.
  Qed.
  Lemma alike_empty : line_is_empty (Some a) = line_is_empty (Some b).
  Proof. destruct AL as (C & NP & _). cbn [line_is_empty]. unfold tg_ring_empty. now rewrite C, NP. Qed.
  Lemma alike_contains p e : contains_point (Some a) p e = contains_point (Some b) p e.
  Proof.
    destruct AL as (_ & _ & NS & RC & _ & (X1 & X2) & (Y1 & Y2) & SG & _). unfold contains_point, tg_ring_contains_point.
    rewrite (req_covers_point _ _ p RC), X1, X2, Y1, Y2. destruct (negb _); [reflexivity|].
    unfold standard_pip. rewrite <- NS.
    f_equal.
    apply fold_left_same. intros st i Hi. apply in_seq in Hi. unfold pip_eval_seg_slow. rewrite SG by lia. reflexivity.
  Qed.
  Lemma alike_hits p e : hits (Some a) p e = hits (Some b) p e.
  Proof. unfold hits. now rewrite alike_contains. Qed.
  Lemma alike_search A q iter (st : A) : tg_ring_search a q iter st = tg_ring_search b q iter st.
  Proof.
    destruct AL as (_ & _ & NS & _ & _ & (X1 & X2) & _ & SG & _). unfold tg_ring_search. rewrite X1, X2, <- NS.
    apply loop_while_same. intros st' i Hi. apply in_seq in Hi. unfold search_leaf. now rewrite SG by lia.
  Qed.
  Lemma alike_segment s e : tg_ring_intersects_segment (Some a) s e = tg_ring_intersects_segment (Some b) s e.
  Proof.
    destruct AL as (_ & _ & _ & RC & _). unfold tg_ring_intersects_segment.
    now rewrite (req_intersects_r _ _ _ RC), !alike_hits, alike_search.
  Qed.
  Lemma alike_ring_ring_l c e : tg_ring_intersects_ring (Some a) c e = tg_ring_intersects_ring (Some b) c e.
  Proof.
    destruct AL as (_ & _ & _ & RC & AR & _). unfold tg_ring_intersects_ring. rewrite alike_empty.
    destruct (_ || _); [reflexivity|]. destruct c as [c|]; [|reflexivity].
    rewrite (req_intersects_l _ _ _ RC). destruct (negb _); [reflexivity|].
    unfold fgt. rewrite (keq_flt _ _ _ _ AR (keq_refl (rect_area (r_rect c)))).
    destruct (flt _ _); [now rewrite alike_segs|]. f_equal. apply map_ext. intros s. apply alike_segment.
  Qed.
  Lemma alike_ring_ring_r c e : tg_ring_intersects_ring c (Some a) e = tg_ring_intersects_ring c (Some b) e.
  Proof.
    destruct AL as (_ & _ & _ & RC & AR & _). unfold tg_ring_intersects_ring. rewrite alike_empty.
    destruct (_ || _); [reflexivity|]. destruct c as [c|]; [|reflexivity].
    rewrite (req_intersects_r _ _ _ RC). destruct (negb _); [reflexivity|].
    unfold fgt. rewrite (keq_flt _ _ _ _ (keq_refl (rect_area (r_rect c))) AR).
    destruct (flt _ _); [|now rewrite alike_segs]. f_equal. apply map_ext. intros s. apply alike_segment.
  Qed.
  Lemma alike_ring_line c e : tg_ring_intersects_line (Some a) c e = tg_ring_intersects_line (Some b) c e.
  Proof.
    destruct AL as (_ & _ & _ & RC & _). unfold tg_ring_intersects_line. rewrite alike_empty.
    destruct (_ || _); [reflexivity|]. destruct c as [c|]; [|reflexivity].
    rewrite (req_intersects_l _ _ _ RC). destruct (negb _); [reflexivity|].
    f_equal. apply map_ext. intros s. apply alike_segment.
  Qed.
  Lemma alike_contained c e : tg_ring_contains_ring c (Some a) e = tg_ring_contains_ring c (Some b) e.
  Proof.
    destruct AL as (_ & _ & _ & RC & _ & _ & _ & _ & PT). unfold tg_ring_contains_ring. rewrite alike_empty.
    destruct (_ || _); [reflexivity|]. destruct c as [c|]; [|reflexivity].
    now rewrite (req_covers_r _ _ _ RC), alike_segs, PT.
  Qed.

  Lemma alike_poly q : tg_poly_intersects_poly q (Some (PRing a)) = tg_poly_intersects_poly q (Some (PRing b)).
  Proof.
    unfold tg_poly_intersects_poly. destruct q as [[r|r hs]|].
    - apply alike_ring_ring_r.
    - cbn [tg_poly_exterior poly_holes map any_of]. unfold tg_poly_empty. cbn [tg_poly_exterior].
      rewrite alike_empty. destruct (_ || _); [reflexivity|].
      rewrite alike_ring_ring_l.
      rewrite (map_ext (fun h => tg_ring_contains_ring h (Some a) false) (fun h => tg_ring_contains_ring h (Some b) false))
        by (intros h; apply alike_contained). reflexivity.
    - unfold tg_poly_empty. cbn [tg_poly_exterior]. reflexivity.
  Qed.

  Lemma alike_intersects_point f p : point_intersects_geom p (Some (GPoly f (PRing a))) = point_intersects_geom p (Some (GPoly f (PRing b))).
  Proof. unfold point_intersects_geom. cbn [on_geom some_child on_poly]. apply alike_hits. Qed.
  Lemma alike_intersects_line f l : line_intersects_geom l (Some (GPoly f (PRing a))) = line_intersects_geom l (Some (GPoly f (PRing b))).
  Proof. unfold line_intersects_geom. cbn [on_geom some_child on_poly]. apply alike_ring_line. Qed.
  Lemma alike_intersects_poly f q : poly_intersects_geom q (Some (GPoly f (PRing a))) = poly_intersects_geom q (Some (GPoly f (PRing b))).
  Proof. unfold poly_intersects_geom. cbn [on_geom some_child on_poly]. apply alike_poly. Qed.

  Fixpoint alike_intersects f (g : geom) {struct g} :
    geom_intersects g (Some (GPoly f (PRing a))) = geom_intersects g (Some (GPoly f (PRing b))).
  Proof.
    destruct g as [| | | | | |ty fl gs co ex]; cbn [geom_intersects];
      rewrite ?alike_intersects_point, ?alike_intersects_line, ?alike_intersects_poly; try reflexivity.
    destruct (is_empty _); [reflexivity|]. destruct gs as [gs|]; [|reflexivity]. f_equal.
    induction gs as [|[c|] gs IH]; cbn [map]; [reflexivity| |].
    - rewrite (alike_intersects f c), IH. reflexivity.
    - rewrite IH. reflexivity.
  Qed.
  Lemma alike_geom f g : tg_geom_intersects g (Some (GPoly f (PRing a))) = tg_geom_intersects g (Some (GPoly f (PRing b))).
  Proof. destruct g; [|reflexivity]. apply alike_intersects. Qed.
End Alike.

(** ** The corners of a rectangle *)

Definition corners (r : rect) : list pt := map (tg_rect_point_at r) [0; 1; 2; 3; 4]%Z.

Lemma corners_int r : int_rect 24 r -> forall q, In q (corners r) -> int_point 24 q.
Proof.
  intros ([A B] & [C D] & _) q I. unfold corners in I. cbn [map In tg_rect_point_at Z.eqb Pos.eqb] in I.
  destruct I as [<-|[<-|[<-|[<-|[<-|[]]]]]]; split; assumption.
Qed.
Lemma corners_segments r : int_rect 24 r -> ring_segments (corners r) =
  [Seg (Pt (px (rmin r)) (py (rmin r))) (Pt (px (rmax r)) (py (rmin r)));
   Seg (Pt (px (rmax r)) (py (rmin r))) (Pt (px (rmax r)) (py (rmax r)));
   Seg (Pt (px (rmax r)) (py (rmax r))) (Pt (px (rmin r)) (py (rmax r)));
   Seg (Pt (px (rmin r)) (py (rmax r))) (Pt (px (rmin r)) (py (rmin r)))].
Proof.
  intros ([A B] & _). unfold ring_segments, close_points, corners. cbn [map length Nat.ltb Nat.leb last tg_rect_point_at Z.eqb Pos.eqb].
  assert (E : same_point (Pt (px (rmin r)) (py (rmin r))) (Pt (px (rmin r)) (py (rmin r))) = true).
  { unfold same_point. cbn [px py]. rewrite !feqb_key by (apply fin_ok; first [apply A|apply B]).
    now rewrite !Z.eqb_refl. }
  rewrite E. reflexivity.
Qed.

Lemma int_isz k x : int_coord k x -> exists n, isz x n /\ (Z.abs n <= 2 ^ k)%Z.
Proof. intros [F (n & V & B)]. exists n. split; [split; assumption|assumption]. Qed.
Lemma isz_keq x y n : isz x n -> isz y n -> keq x y.
Proof.
  intros X Y. split.
  - now rewrite (isz_nn x n X), (isz_nn y n Y).
  - destruct X as [FX VX], Y as [FY VY]. apply key_eq_R; auto. congruence.
Qed.

Lemma pteq_int_refl k p : int_point k p -> pteq p p = true.
Proof.
  intros [X Y]. destruct (int_isz _ _ X) as (n & N & _), (int_isz _ _ Y) as (m & M & _).
  unfold pteq. now rewrite (isz_feq _ _ n n N N), (isz_feq _ _ m m M M), !Z.eqb_refl.
Qed.

Lemma rect_ring_alike r : int_rect 24 r ->
  exists b, series_new (corners r) true IxNone 16 = Some b /\ alike (rect_to_ring r) b.
Proof.
  intros IR. pose proof IR as (IA & IB & OX & OY).
  assert (IC := corners_int r IR).
  destruct (series_new (corners r) true IxNone 16) as [b|] eqn:N; [|cbn in N; discriminate].
  exists b. split; [reflexivity|].
  destruct (rect_extent (corners r) true IxNone 16 b IC ltac:(lia) ltac:(cbn; lia) N) as (x1 & y1 & x2 & y2 & EX & (Bx1 & By1 & Bx2 & By2) & Z1 & Z2 & Z3 & Z4).
  assert (EV : xR (rmin r) = IZR x1 /\ xR (rmax r) = IZR x2 /\ yR (rmin r) = IZR y1 /\ yR (rmax r) = IZR y2).
  { destruct EX as (ALL & (q1 & I1 & E1) & (q2 & I2 & E2) & (q3 & I3 & E3) & (q4 & I4 & E4)).
    destruct (ALL (tg_rect_point_at r 0) ltac:(left; reflexivity)) as [L1 L2].
    destruct (ALL (tg_rect_point_at r 2) ltac:(right; right; left; reflexivity)) as [L3 L4].
    change (xR (tg_rect_point_at r 0)) with (xR (rmin r)) in L1.
    change (yR (tg_rect_point_at r 0)) with (yR (rmin r)) in L2.
    change (xR (tg_rect_point_at r 2)) with (xR (rmax r)) in L3.
    change (yR (tg_rect_point_at r 2)) with (yR (rmax r)) in L4.
    assert (BX : forall q, In q (corners r) -> (xR (rmin r) <= xR q <= xR (rmax r) /\ yR (rmin r) <= yR q <= yR (rmax r))%R).
    { intros q I. unfold corners in I. cbn [map In tg_rect_point_at Z.eqb Pos.eqb] in I. unfold xR, yR in *.
      destruct I as [<-|[<-|[<-|[<-|[<-|[]]]]]]; cbn [px py]; repeat split; lra. }
    pose proof (BX _ I1). pose proof (BX _ I2). pose proof (BX _ I3). pose proof (BX _ I4). repeat split; lra. }
  destruct EV as (E1 & E2 & E3 & E4). unfold xR, yR in *.
  destruct (int_fin _ _ IA) as [FA1 FA2], (int_fin _ _ IB) as [FB1 FB2].
  assert (RQ : req r (r_rect b)).
  { repeat split; eapply isz_keq; try eassumption; split; assumption. }
  destruct (short_none (corners r) true IxNone 16 b N ltac:(cbn; lia)) as [YN XN].
  pose proof (series_new_fields _ _ _ _ _ N) as (FC & FP & FS & FPT & _). cbv zeta in FS.
  assert (NS : r_nsegs b = 4%nat).
  { rewrite FS. unfold num_segments, corners. cbn [map length Nat.ltb Nat.leb]. unfold pt_at. cbn [nth Nat.sub].
    change (tg_rect_point_at r 4) with (tg_rect_point_at r 0).
    rewrite (pteq_int_refl 24); [reflexivity|]. apply IC. left; reflexivity. }
  unfold alike. rewrite FC, FP, NS, YN, XN.
  split; [reflexivity|]. split; [reflexivity|]. split; [reflexivity|]. split; [exact RQ|].
  split; [|split; [split; reflexivity|split; [split; reflexivity|split]]].
  - cbn [r_rect rect_to_ring]. apply (isz_keq _ _ ((x2 - x1) * (y2 - y1))); unfold rect_area;
      (apply isz_mul; [apply isz_sub; [first [eassumption|split; assumption]|first [eassumption|split; assumption]|lia]|apply isz_sub; [first [eassumption|split; assumption]|first [eassumption|split; assumption]|lia]|nia]).
  - intros i Hi. change (r_nsegs (rect_to_ring r)) with 4%nat in Hi. unfold seg_at. rewrite FPT.
    do 4 (destruct i as [|i]; [reflexivity|]). lia.
  - unfold Preds.ring_pts. rewrite FP, FPT. reflexivity.
Qed.

(** ** The ring of the corners is the rectangle *)
Local Open Scope R_scope.

Lemma flat_meets ax ay bx x y : ~ ray_meets x y (Seg (Pt ax ay) (Pt bx ay)).
Proof. unfold ray_meets, yR. cbn [sa sb py]. intros [[A B] _]. rewrite Rmin_left, Rmax_left in * by lra. lra. Qed.
Lemma steep_meets ax ay by_ x y : RV ay <= RV by_ ->
  (ray_meets x y (Seg (Pt ax ay) (Pt ax by_)) <-> RV ay <= y < RV by_ /\ x < RV ax) /\
  (ray_meets x y (Seg (Pt ax by_) (Pt ax ay)) <-> RV ay <= y < RV by_ /\ x < RV ax).
Proof.
  intros O. unfold ray_meets, lies_on, on_segment, xR, yR. cbn [sa sb px py].
  rewrite (Rmin_left _ _ O), (Rmax_right _ _ O), (Rmin_right _ _ O), (Rmax_left _ _ O).
  split; (split; [intros (B & x' & (t & T & X & Y) & L); split; [exact B|]; lra|]); intros (B & L); (split; [exact B|]);
    exists (RV ax); (split; [|exact L]).
  - exists ((y - RV ay) / (RV by_ - RV ay)). split; [|split; [lra|field; lra]].
    split; [apply Rle_mult_inv_pos; lra|]. apply (Rmult_le_reg_r (RV by_ - RV ay)); [lra|].
    unfold Rdiv. rewrite Rmult_assoc, Rinv_l by lra. lra.
  - exists ((RV by_ - y) / (RV by_ - RV ay)). split; [|split; [lra|field; lra]].
    split; [apply Rle_mult_inv_pos; lra|]. apply (Rmult_le_reg_r (RV by_ - RV ay)); [lra|].
    unfold Rdiv. rewrite Rmult_assoc, Rinv_l by lra. lra.
Qed.
(** the part of an axis between two values *)
Lemma between_param a b x : a <= x <= b -> exists t, 0 <= t <= 1 /\ x = a + t * (b - a).
Proof.
  intros H. destruct (Rle_lt_or_eq_dec a b ltac:(lra)) as [L|E].
  - exists ((x - a) / (b - a)). split; [|field; lra].
    split; [apply Rle_mult_inv_pos; lra|]. apply (Rmult_le_reg_r (b - a)); [lra|].
    unfold Rdiv. rewrite Rmult_assoc, Rinv_l by lra. lra.
  - exists 0. lra.
Qed.
Lemma param_between a b t : a <= b -> 0 <= t <= 1 -> a <= a + t * (b - a) <= b.
Proof. intros. assert (0 <= t * (b - a) <= 1 * (b - a)); [|lra]. split; [apply Rmult_le_pos; lra|apply Rmult_le_compat_r; lra]. Qed.
Lemma param_between' a b t : a <= b -> 0 <= t <= 1 -> a <= b + t * (a - b) <= b.
Proof. intros. replace (b + t * (a - b)) with (a + (1 - t) * (b - a)) by ring. apply param_between; lra. Qed.

Theorem rect_ring_has r : int_rect 24 r -> forall x y, ring_has (corners r) x y <-> in_rect r x y.
Proof.
  intros IR x y. pose proof IR as (IA & IB & OX & OY).
  unfold ring_has, ring_border, in_rect. rewrite (corners_segments r IR). unfold xR, yR in *.
  pose proof (steep_meets (px (rmax r)) _ _ x y OY) as [M1 _].
  pose proof (steep_meets (px (rmin r)) _ _ x y OY) as [_ M3].
  split.
  - intros [(s & I & L)|(n & C & OD)].
    + unfold lies_on, on_segment, xR, yR in L.
      destruct I as [<-|[<-|[<-|[<-|[]]]]]; cbn [sa sb px py] in L; destruct L as (t & T & -> & ->);
        pose proof (param_between _ _ t OX T); pose proof (param_between _ _ t OY T);
        pose proof (param_between' _ _ t OX T); pose proof (param_between' _ _ t OY T); repeat split; lra.
    + inversion C as [|s0 l0 n0 P0 C0|s0 l0 n0 P0 C0]; subst; clear C; [now apply flat_meets in P0|].
      inversion C0 as [|s1 l1 n1 P1 C1|s1 l1 n1 P1 C1]; subst; clear C0;
      (inversion C1 as [|s2 l2 n2 P2 C2|s2 l2 n2 P2 C2]; subst; clear C1; [now apply flat_meets in P2|]);
      (inversion C2 as [|s3 l3 n3 P3 C3|s3 l3 n3 P3 C3]; subst; clear C2; inversion C3; subst; clear C3);
      try discriminate OD; rewrite ?M1, ?M3 in *.
      * destruct P1 as [Y X]. assert (~ x < RV (px (rmin r))) by (intros ?; apply P3; split; assumption). repeat split; lra.
      * destruct P3 as [Y X]. exfalso. apply P1. split; [exact Y|]. lra.
  - intros [X Y].
    destruct (Rle_lt_or_eq_dec _ _ (proj1 X)) as [X1|X1]; [destruct (Rle_lt_or_eq_dec _ _ (proj2 X)) as [X2|X2]|];
      [destruct (Rle_lt_or_eq_dec _ _ (proj1 Y)) as [Y1|Y1]; [destruct (Rle_lt_or_eq_dec _ _ (proj2 Y)) as [Y2|Y2]|]| |].
    + right. exists 1%nat. split; [|reflexivity].
      apply counts_no; [apply flat_meets|]. apply counts_yes; [apply M1; lra|].
      apply counts_no; [apply flat_meets|]. apply counts_no; [rewrite M3; lra|]. constructor.
    + left. eexists. split; [right; right; left; reflexivity|]. unfold lies_on, on_segment, xR, yR. cbn [sa sb px py].
      destruct (between_param _ _ x X) as (t & T & E). exists (1 - t). split; [lra|]. split; [rewrite E; ring|lra].
    + left. eexists. split; [left; reflexivity|]. unfold lies_on, on_segment, xR, yR. cbn [sa sb px py].
      destruct (between_param _ _ x X) as (t & T & E). exists t. split; [lra|]. split; [exact E|lra].
    + left. eexists. split; [right; left; reflexivity|]. unfold lies_on, on_segment, xR, yR. cbn [sa sb px py].
      destruct (between_param _ _ y Y) as (t & T & E). exists t. split; [lra|]. split; [lra|exact E].
    + left. eexists. split; [right; right; right; left; reflexivity|]. unfold lies_on, on_segment, xR, yR. cbn [sa sb px py].
      destruct (between_param _ _ y Y) as (t & T & E). exists (1 - t). split; [lra|]. split; [lra|rewrite E; ring].
Qed.

Lemma rect_stands asked r b : int_rect 24 r -> series_new (corners r) true IxNone 16 = Some b ->
  poly_stands asked (PRing b) (corners r) [].
Proof.
  intros IR N. split.
  - intros x y [B|(h & [] & _)]. split; [left; exact B|intros h []].
  - split; [|reflexivity]. split; [now apply corners_int|]. exists IxNone, 16%nat. split; [lia|]. split; [exact N|].
    split; [right; left; reflexivity|]. intros q _. right. exact I.
Qed.
