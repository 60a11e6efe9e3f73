(** * Two rings meeting on integer coordinates *)

From Coq Require Import ZArith Reals Bool List Lia Lra PeanoNat.
From Verif Require Import F64 Geo Series Search RingApi Geom MultiIx Preds PredsFacts F64Order F64Real F64Mono
  SeriesFacts SearchFacts RectFacts RingFacts SpecGeo SpecFacts SpecPlane SpecPreds SpecRing SpecShape
  SegExact SegMeet SegRay SegRing Thm_Ring Thm_Seg Thm_Pairs Thm_Preds Jordan JordanRing MeetFacts.
Import ListNotations.

(** ** The first segment that a horizontal ray hits *)

Section Hit.
Local Open Scope R_scope.

Lemma hit_one s x y : (exists x', x <= x' /\ lies_on s x' y) ->
  exists x', x <= x' /\ lies_on s x' y /\ forall x'', x <= x'' -> lies_on s x'' y -> x' <= x''.
Proof.
  intros (x1 & L1 & O1). destruct (Req_dec (yR (sa s)) (yR (sb s))) as [E|E].
  - pose proof O1 as B. apply on_segment_iff in B. destruct B as (BX & BY & _).
    exists (Rmax x (Rmin (xR (sa s)) (xR (sb s)))). split; [apply Rmax_l|]. split.
    + apply on_segment_iff. split; [|split].
      * unfold Rmax, Rmin in *. repeat destruct (Rle_dec _ _); lra.
      * exact BY.
      * rewrite E in *. rewrite Rmin_left, Rmax_left in BY by lra. assert (y = yR (sb s)) by lra. subst y. ring.
    + intros x2 L2 O2. apply on_segment_iff in O2. destruct O2 as (B2 & _). apply Rmax_lub; [exact L2|apply B2].
  - exists x1. split; [exact L1|]. split; [exact O1|]. intros x2 _ O2.
    destruct O1 as (t & _ & X1 & Y1). destruct O2 as (u & _ & X2 & Y2).
    assert (t = u).
    { apply Rmult_eq_reg_r with (yR (sb s) - yR (sa s)); lra. }
    subst u. lra.
Qed.

Lemma first_hit l x y : (exists s x', In s l /\ x <= x' /\ lies_on s x' y) ->
  exists s x', In s l /\ x <= x' /\ lies_on s x' y /\
    forall t x'', In t l -> x <= x'' -> lies_on t x'' y -> x' <= x''.
Proof.
  induction l as [|s l IH]; intros (s0 & x0 & I0 & L0 & O0); [destruct I0|].
  destruct (Classical_Prop.classic (exists x', x <= x' /\ lies_on s x' y)) as [H|H].
  - destruct (hit_one s x y H) as (x1 & L1 & O1 & M1).
    destruct (Classical_Prop.classic (exists t x', In t l /\ x <= x' /\ lies_on t x' y)) as [H'|H'].
    + destruct (IH H') as (t & x2 & I2 & L2 & O2 & M2). destruct (Rle_dec x1 x2) as [C|C].
      * exists s, x1. split; [now left|]. split; [exact L1|]. split; [exact O1|].
        intros u x3 [<-|I3] L3 O3; [now apply M1|]. pose proof (M2 u x3 I3 L3 O3). lra.
      * exists t, x2. split; [now right|]. split; [exact L2|]. split; [exact O2|].
        intros u x3 [<-|I3] L3 O3; [pose proof (M1 x3 L3 O3); lra|]. now apply (M2 u).
    + exists s, x1. split; [now left|]. split; [exact L1|]. split; [exact O1|].
      intros u x3 [<-|I3] L3 O3; [now apply M1|]. exfalso. apply H'. exists u, x3. auto.
  - destruct I0 as [<-|I0]; [exfalso; apply H; exists x0; auto|].
    destruct IH as (t & x2 & I2 & L2 & O2 & M2); [exists s0, x0; auto|].
    exists t, x2. split; [now right|]. split; [exact L2|]. split; [exact O2|].
    intros u x3 [<-|I3] L3 O3; [|now apply (M2 u)]. exfalso. apply H. exists x3. auto.
Qed.

(** from a point of both closed rings, going right, the first border met is a
    border point inside the other ring *)
Lemma border_of_either pa pb x y : fin_points pa -> fin_points pb -> ring_has pa x y -> ring_has pb x y ->
  (exists x', ring_border pa x' y /\ ring_has pb x' y) \/ (exists x', ring_border pb x' y /\ ring_has pa x' y).
Proof.
  intros FA FB HA HB.
  destruct (Classical_Prop.classic (ring_border pa x y)) as [BA|BA]; [left; exists x; auto|].
  destruct (Classical_Prop.classic (ring_border pb x y)) as [BB|BB]; [right; exists x; auto|].
  apply ring_has_odd in HA, HB. destruct HA as [|OA]; [contradiction|]. destruct HB as [|OB]; [contradiction|].
  destruct (first_hit (ring_segments pa ++ ring_segments pb) x y) as (s & x1 & I & L & O & M).
  { destruct (odd_right pa x y OA) as (s & I & _ & x' & O & X). exists s, x'. split; [apply in_or_app; auto|]. split; [lra|exact O]. }
  assert (K : forall p, (forall t, In t (ring_segments p) -> In t (ring_segments pa ++ ring_segments pb)) -> fin_points p ->
    odd_at p x y = true -> ring_has p x1 y).
  { intros p SUB F OD. apply ring_has_odd.
    destruct (Classical_Prop.classic (ring_border p x1 y)) as [B|B]; [now left|right]. rewrite <- OD. symmetry.
    apply along_none; [exact F|]. intros t It (u & v & U & V).
    assert (EV : v = y) by (destruct U as (k & _ & _ & ->); ring). subst v.
    assert (EU : x <= u <= x1).
    { apply on_segment_iff in U. destruct U as (U & _). rewrite Rmin_left, Rmax_right in U by lra. exact U. }
    pose proof (M t u (SUB t It) ltac:(lra) V) as LE. assert (u = x1) by lra. subst u.
    apply B. exists t. split; assumption. }
  apply in_app_or in I. destruct I as [I|I].
  - left. exists x1. split; [exists s; auto|]. apply K; auto. intros t It. apply in_or_app. auto.
  - right. exists x1. split; [exists s; auto|]. apply K; auto. intros t It. apply in_or_app. auto.
Qed.

(** a border that never meets the border of another ring stays on one side of it *)
Lemma path_side (Q : R -> R -> bool) ps a : 
  (forall s, In s (pairs (a :: ps)) -> Q (xR (sa s)) (yR (sa s)) = Q (xR (sb s)) (yR (sb s))) ->
  forall v, In v (a :: ps) -> Q (xR v) (yR v) = Q (xR a) (yR a).
Proof.
  revert a. induction ps as [|b ps IH]; intros a H v I.
  - destruct I as [<-|[]]. reflexivity.
  - change (pairs (a :: b :: ps)) with (Seg a b :: pairs (b :: ps)) in H. destruct I as [<-|I]; [reflexivity|].
    rewrite (IH b (fun s J => H s (or_intror J)) v I). symmetry. exact (H (Seg a b) (or_introl eq_refl)).
Qed.
Lemma close_has ps q : In q ps -> In q (close_points ps).
Proof.
  destruct ps as [|a ps]; [intros []|]. cbn [close_points]. destruct (same_point _ _); [trivial|].
  intros I. apply in_or_app. now left.
Qed.
Lemma border_side ps qs : fin_points qs -> 
  (forall x y, ring_border ps x y -> ~ ring_border qs x y) ->
  forall s x y v, In s (ring_segments ps) -> lies_on s x y -> In v ps -> odd_at qs (xR v) (yR v) = odd_at qs x y.
Proof.
  intros F D s x y v I L IV.
  assert (SEG : forall t u w u' w', In t (ring_segments ps) -> lies_on t u w -> lies_on t u' w' -> odd_at qs u w = odd_at qs u' w').
  { intros t u w u' w' It L1 L2. apply along_none; [exact F|]. intros z Iz (p & q & P & Q).
    apply (D p q); [|exists z; auto]. exists t. split; [exact It|].
    destruct L1 as (t1 & T1 & -> & ->). destruct L2 as (t2 & T2 & -> & ->). destruct P as (k & K & -> & ->).
    exists (t1 + k * (t2 - t1)). split; [|split; ring].
    assert (0 <= k * t2) by (apply Rmult_le_pos; lra). assert (0 <= (1 - k) * t1) by (apply Rmult_le_pos; lra).
    assert (0 <= k * (1 - t2)) by (apply Rmult_le_pos; lra). assert (0 <= (1 - k) * (1 - t1)) by (apply Rmult_le_pos; lra).
    lra. }
  assert (A : odd_at qs (xR (sa s)) (yR (sa s)) = odd_at qs x y) by (apply (SEG s); auto; apply on_segment_a).
  rewrite <- A.
  unfold ring_segments in *. destruct (length ps <? 3)%nat; [destruct I|].
  apply close_has in IV. destruct (close_points ps) as [|a c] eqn:E; [destruct IV|].
  assert (S' : forall t, In t (pairs (a :: c)) -> odd_at qs (xR (sa t)) (yR (sa t)) = odd_at qs (xR (sb t)) (yR (sb t))).
  { intros t It. apply (SEG t); [exact It|apply on_segment_a|apply on_segment_b]. }
  rewrite (path_side (odd_at qs) c a S' v IV). symmetry. apply (path_side (odd_at qs) c a S'). apply pairs_in in I. apply I.
Qed.
End Hit.

(** ** The areas of the bounding rectangles *)

Lemma isz_key x q n : fok x -> isz q n -> f_key x = f_key q -> isz x n.
Proof.
  intros OX [F V] K. destruct (fok_cases x OX) as [FX|[IX W]].
  - split; [exact FX|]. rewrite <- V. apply key_eq_R; assumption.
  - exfalso. apply key_inf in IX. apply key_fin in F. rewrite K in IX. destruct (f_sign x); lia.
Qed.

(** the least and greatest coordinates of a list of points *)
Definition extent (ps : list pt) (x1 y1 x2 y2 : Z) : Prop :=
  (forall q, In q ps -> IZR x1 <= xR q <= IZR x2 /\ IZR y1 <= yR q <= IZR y2)%R /\
  (exists q, In q ps /\ xR q = IZR x1) /\ (exists q, In q ps /\ xR q = IZR x2) /\
  (exists q, In q ps /\ yR q = IZR y1) /\ (exists q, In q ps /\ yR q = IZR y2).

Lemma rect_extent ps closed kind spread r : (forall q, In q ps -> int_point 24 q) -> (2 <= spread)%nat -> (2 <= length ps)%nat ->
  series_new ps closed kind spread = Some r ->
  exists x1 y1 x2 y2, extent ps x1 y1 x2 y2 /\
    (Z.abs x1 <= 2 ^ 24 /\ Z.abs y1 <= 2 ^ 24 /\ Z.abs x2 <= 2 ^ 24 /\ Z.abs y2 <= 2 ^ 24)%Z /\
    isz (px (rmin (r_rect r))) x1 /\ isz (py (rmin (r_rect r))) y1 /\
    isz (px (rmax (r_rect r))) x2 /\ isz (py (rmax (r_rect r))) y2.
Proof.
  intros IP S L E. assert (OK : pts_ok ps) by (apply points_ok_iff, ints_ok, IP).
  destruct (series_rect _ _ _ _ _ E OK S L) as (O & (A1 & A2 & A3 & A4) & K).
  destruct O as [[O1 O2] [O3 O4]].
  destruct A1 as (q1 & I1 & E1), A2 as (q2 & I2 & E2), A3 as (q3 & I3 & E3), A4 as (q4 & I4 & E4).
  destruct (proj1 (IP _ I1)) as [F1 (x1 & V1 & B1)]. destruct (proj2 (IP _ I2)) as [F2 (y1 & V2 & B2)].
  destruct (proj1 (IP _ I3)) as [F3 (x2 & V3 & B3)]. destruct (proj2 (IP _ I4)) as [F4 (y2 & V4 & B4)].
  assert (Z1 : isz (px (rmin (r_rect r))) x1) by (apply (isz_key _ (px q1)); [exact O1|split; assumption|symmetry; exact E1]).
  assert (Z2 : isz (py (rmin (r_rect r))) y1) by (apply (isz_key _ (py q2)); [exact O2|split; assumption|symmetry; exact E2]).
  assert (Z3 : isz (px (rmax (r_rect r))) x2) by (apply (isz_key _ (px q3)); [exact O3|split; assumption|symmetry; exact E3]).
  assert (Z4 : isz (py (rmax (r_rect r))) y2) by (apply (isz_key _ (py q4)); [exact O4|split; assumption|symmetry; exact E4]).
  exists x1, y1, x2, y2. split; [|auto 10]. split.
  - intros q I. destruct (In_nth _ _ pt0 I) as (i & Hi & <-). specialize (K i Hi). unfold pt_at in K.
    destruct (int_fin _ _ (IP _ I)) as [FX FY]. destruct K as [[KX1 KX2] [KY1 KY2]].
    unfold xR, yR. rewrite <- (proj2 Z1), <- (proj2 Z2), <- (proj2 Z3), <- (proj2 Z4).
    repeat split; apply key_le_R; auto; first [apply Z1|apply Z2|apply Z3|apply Z4].
  - repeat split; [exists q1|exists q3|exists q2|exists q4]; auto.
Qed.

Lemma area_extent ps closed kind spread r : (forall q, In q ps -> int_point 24 q) -> (2 <= spread)%nat -> (2 <= length ps)%nat ->
  series_new ps closed kind spread = Some r ->
  exists x1 y1 x2 y2, extent ps x1 y1 x2 y2 /\ isz (rect_area (r_rect r)) ((x2 - x1) * (y2 - y1)).
Proof.
  intros IP S L E. destruct (rect_extent ps closed kind spread r IP S L E) as (x1 & y1 & x2 & y2 & X & B & Z1 & Z2 & Z3 & Z4).
  exists x1, y1, x2, y2. split; [exact X|]. change (2 ^ 24)%Z with 16777216%Z in B.
  unfold rect_area. apply isz_mul; [apply isz_sub; auto; lia|apply isz_sub; auto; lia|].
  rewrite Z.abs_mul. change (2 ^ 53)%Z with (134217728 * 67108864)%Z. nia.
Qed.

(** the border of [pb] is inside [pa] without touching it: its box is smaller *)
Lemma inner_smaller pa pb ax1 ay1 ax2 ay2 bx1 by1 bx2 by2 : fin_points pa ->
  extent pa ax1 ay1 ax2 ay2 -> extent pb bx1 by1 bx2 by2 ->
  (forall v, In v pb -> odd_at pa (xR v) (yR v) = true) ->
  ((bx2 - bx1) * (by2 - by1) < (ax2 - ax1) * (ay2 - ay1))%Z.
Proof.
  intros F (BA & _) (BB & (q1 & I1 & E1) & (q2 & I2 & E2) & (q3 & I3 & E3) & (q4 & I4 & E4)) H.
  assert (W : forall v, In v pb -> (IZR ax1 <= xR v < IZR ax2 /\ IZR ay1 <= yR v < IZR ay2)%R).
  { intros v I. specialize (H v I). destruct (odd_left _ _ _ F H) as (q & Iq & Lq). pose proof (BA q Iq) as [Bq _].
    destruct (odd_right _ _ _ H) as (s & Is & Y & x' & O & X). apply ring_segments_in in Is. destruct Is as [Ia Ib].
    pose proof (BA _ Ia) as [A1 A2]. pose proof (BA _ Ib) as [B1 B2].
    apply on_segment_iff in O. destruct O as (OX & _).
    unfold Rmin, Rmax in *. repeat destruct (Rle_dec _ _); lra. }
  pose proof (W _ I1) as W1. pose proof (W _ I2) as W2. pose proof (W _ I3) as W3. pose proof (W _ I4) as W4.
  rewrite E1 in W1. rewrite E2 in W2. rewrite E3 in W3. rewrite E4 in W4.
  destruct W1 as [[L1 _] _], W2 as [[_ L2] _], W3 as [_ [L3 _]], W4 as [_ [_ L4]].
  apply le_IZR in L1, L3. apply lt_IZR in L2, L4.
  pose proof (BB _ I1) as [X1 _]. rewrite E1 in X1. assert (bx1 <= bx2)%Z by (apply le_IZR; lra).
  pose proof (BB _ I3) as [_ Y1]. rewrite E3 in Y1. assert (by1 <= by2)%Z by (apply le_IZR; lra).
  nia.
Qed.

(** ** tg_ring_intersects_ring *)

Theorem ring_ring_exact pa a pb b : ring_stands pb pa a -> ring_stands pa pb b ->
  exists v, tg_ring_intersects_ring (Some a) (Some b) true = Ret v /\
    (v = true <-> exists x y, ring_has pa x y /\ ring_has pb x y).
Proof.
  intros HA HB. destruct (ring_stands_facts _ _ _ HA) as (SA & EA & BA). destruct (ring_stands_facts _ _ _ HB) as (SB & EB & BB).
  pose proof (proj1 HA) as IA. pose proof (proj1 HB) as IB. unfold tg_ring_intersects_ring. rewrite EA, EB.
  destruct ((length pa <? 3)%nat || (length pb <? 3)%nat) eqn:E.
  { exists false. split; [reflexivity|]. split; [discriminate|]. intros (x & y & H1 & H2).
    apply has_three in H1, H2. apply orb_true_iff in E. rewrite !Nat.ltb_lt in E. lia. }
  apply orb_false_iff in E. rewrite !Nat.ltb_ge in E. destruct E as [LA LB].
  destruct (BA LA) as [NA KA]. destruct (BB LB) as [NB KB].
  destruct (tg_rect_intersects_rect (r_rect a) (r_rect b)) eqn:RB; cbn [negb].
  2:{ exists false. split; [reflexivity|]. split; [discriminate|]. intros (x & y & H1 & H2). exfalso.
      assert (X : tg_rect_intersects_rect (r_rect a) (r_rect b) = true); [|congruence].
      apply (boxes_meet _ _ pa pb x y); auto using ints_fin, has_span. }
  assert (K : forall pg g ps s, ring_stands ps pg g -> ring_stands pg ps s -> (3 <= length pg)%nat -> (3 <= length ps)%nat ->
    fgt (rect_area (r_rect s)) (rect_area (r_rect g)) = false ->
    exists v, any_of (map (fun t => tg_ring_intersects_segment (Some g) t true) (ring_segs s)) = Ret v /\
      (v = true <-> exists x y, ring_has pg x y /\ ring_has ps x y)).
  { clear. intros pg g ps s HG HS LG LS AR.
    pose proof (proj1 HG) as IG. pose proof (proj1 HS) as IS. destruct (ring_stands_facts _ _ _ HS) as (SS & _).
    pose proof (ints_fin _ IG) as FG. pose proof (ints_fin _ IS) as FS.
    rewrite SS.
    destruct (any_of_iff (fun t => tg_ring_intersects_segment (Some g) t true)
      (fun t => exists x y, lies_on t x y /\ ring_has pg x y) (ring_segments ps)) as (v & V & P).
    { intros t I. apply ring_segments_in in I. apply ring_segment_exact; [split; apply IS, I|].
      eapply ring_stands_less; [exact HG|]. intros q [<-|[<-|[]]]; apply I. }
    exists v. split; [exact V|]. rewrite P. split.
    - intros (t & I & x & y & L & H). exists x, y. split; [exact H|]. left. exists t. auto.
    - intros (x & y & HX & HY).
      destruct (Classical_Prop.classic (exists t, In t (ring_segments ps) /\ exists x y, lies_on t x y /\ ring_has pg x y)) as [|NO]; [assumption|].
      exfalso.
      assert (D : forall u w, ring_border ps u w -> ~ ring_has pg u w).
      { intros u w (t & I & L) H. apply NO. exists t. split; [exact I|]. exists u, w. auto. }
      destruct (border_of_either pg ps x y FG FS HX HY) as [(x' & B & H)|(x' & B & H)].
      2:{ exact (D _ _ B H). }
      assert (NB : forall u w, ring_border pg u w -> ~ ring_border ps u w).
      { intros u w B1 B2. apply (D _ _ B2). now left. }
      apply ring_has_odd in H. destruct H as [H|H]; [exact (NB _ _ B H)|].
      destruct B as (t & It & Lt).
      assert (ALL : forall w, In w pg -> odd_at ps (xR w) (yR w) = true).
      { intros w Iw. rewrite <- H. exact (border_side pg ps FS NB t x' y w It Lt Iw). }
      destruct HG as (_ & kg & ng & Sg & Ng & _). destruct HS as (_ & ks & ns & Ss & Ns & _).
      destruct (area_extent pg true kg ng g IG Sg ltac:(lia) Ng) as (gx1 & gy1 & gx2 & gy2 & XG & AG).
      destruct (area_extent ps true ks ns s IS Ss ltac:(lia) Ns) as (sx1 & sy1 & sx2 & sy2 & XS & AS).
      pose proof (inner_smaller ps pg _ _ _ _ _ _ _ _ FS XS XG ALL) as LT.
      rewrite (isz_fgt _ _ _ _ AS AG) in AR. apply Z.ltb_ge in AR. lia. }
  destruct (fgt (rect_area (r_rect b)) (rect_area (r_rect a))) eqn:AR.
  - destruct (K pb b pa a HB HA LB LA) as (v & V & P).
    { destruct HA as (_ & ka & na & Sa & Na & _). destruct HB as (_ & kb & nb & Sb & Nb & _).
      destruct (area_extent pa true ka na a IA Sa ltac:(lia) Na) as (gx1 & gy1 & gx2 & gy2 & _ & AG).
      destruct (area_extent pb true kb nb b IB Sb ltac:(lia) Nb) as (sx1 & sy1 & sx2 & sy2 & _ & AS).
      rewrite (isz_fgt _ _ _ _ AS AG) in AR. rewrite (isz_fgt _ _ _ _ AG AS). apply Z.ltb_lt in AR. apply Z.ltb_ge. lia. }
    exists v. split; [exact V|]. rewrite P. split; intros (x & y & H1 & H2); exists x, y; auto.
  - exact (K pa a pb b HA HB LA LB AR).
Qed.
