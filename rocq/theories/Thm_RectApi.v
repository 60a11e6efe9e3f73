(** * C61: rectangles against the other geometries *)

From Coq Require Import ZArith Reals Bool List Lia Lra PeanoNat.
From Verif Require Import F64 Geo Series Search RingApi Geom MultiIx Preds PredsFacts PredsGeom RectApi F64Order F64Real F64Mono
  SeriesFacts SearchFacts SeriesExamples RectFacts RingFacts SpecGeo SpecFacts SpecPlane SpecPreds SpecRing SpecShape SpecDist
  SegExact SegMeet SegRing Thm_Preds Jordan JordanRing MeetFacts RingMeet PolyMeet ShapeBox Thm_Shapes Thm_Touch RectRing.
Import ListNotations.
Local Open Scope R_scope.

(** ** intersects *)

(** A geometry on the grid is said to meet a rectangle exactly when one of its
    points is in the rectangle, sides and degenerate rectangles included. *)
Theorem C61_geom_intersects_rect_partial :
  forall g a r, int_rect 24 r -> stands (corners r) g a ->
    exists v, tg_geom_intersects_rect g r = Ret v /\
      (v = true <-> exists x y, shape_has a x y /\ in_rect r x y).
Proof.
  intros g a r IR SG. destruct (rect_ring_alike r IR) as (b & N & AL).
  assert (SO : stands (vertices a) (Some (GPoly fl0 (PRing b))) (SPoly (corners r) [])).
  { constructor. now apply rect_stands. }
  assert (SG' : stands (vertices (SPoly (corners r) [])) g a).
  { eapply stands_less; [|exact SG]. intros p. cbn [vertices concat map]. rewrite ?app_nil_r. auto. }
  destruct (C49_intersects_exact_partial g a _ _ SG' SO) as (v & V & E).
  exists v. split. { unfold tg_geom_intersects_rect. rewrite (alike_geom _ _ AL). exact V. }
  rewrite E. unfold share_a_point. split; intros (x & y & A & B); exists x, y; (split; [exact A|]).
  - destruct B as [B _]. now apply rect_ring_has in B.
  - split; [now apply rect_ring_has|intros h []].
Qed.
Print Assumptions C61_geom_intersects_rect_partial.

(** the same for the functions that take a line, a polygon or a point *)
Theorem C61_parts_intersect_rect_partial :
  (forall ps l r, int_rect 24 r -> line_stands ps l ->
     exists v, tg_rect_intersects_line r (Some l) = Ret v /\ tg_line_intersects_rect (Some l) r = Ret v /\
       (v = true <-> exists x y, on_line ps x y /\ in_rect r x y)) /\
  (forall ext holes q r, int_rect 24 r -> poly_stands (corners r) q ext holes ->
     exists v, tg_poly_intersects_rect (Some q) r = Ret v /\ tg_rect_intersects_poly r (Some q) = Ret v /\
       (v = true <-> exists x y, poly_has ext holes x y /\ in_rect r x y)) /\
  (forall p r, int_rect 24 r -> int_point 24 p ->
     tg_point_intersects_rect p r = true <-> in_rect r (xR p) (yR p)).
Proof.
  split; [|split].
  - intros ps l r IR SL. destruct (C61_geom_intersects_rect_partial (Some (GLine fl0 l)) (SLine ps) r IR) as (v & V & E);
      [constructor; exact SL|]. exists v. split; [exact V|]. split; [exact V|exact E].
  - intros ext holes q r IR SP. destruct (C61_geom_intersects_rect_partial (Some (GPoly fl0 q)) (SPoly ext holes) r IR) as (v & V & E);
      [constructor; exact SP|]. exists v. split; [exact V|]. split; [exact V|exact E].
  - intros p r (IA & IB & _) IP. destruct (int_fin _ _ IA), (int_fin _ _ IB), (int_fin _ _ IP).
    unfold tg_point_intersects_rect, tg_rect_covers_point, fgt, in_rect, xR, yR.
    rewrite !flt_key by (apply fin_ok; assumption). rewrite <- !key_le_R by assumption. lia.
Qed.
Print Assumptions C61_parts_intersect_rect_partial.

(** ** covers *)

Definition fin_rect (r : rect) : Prop :=
  fin (px (rmin r)) /\ fin (py (rmin r)) /\ fin (px (rmax r)) /\ fin (py (rmax r)).

Lemma fin_points_ok ps : fin_points ps -> pts_ok ps.
Proof. intros F. apply Forall_forall. intros q I. destruct (F q I). split; now apply fin_ok. Qed.

Lemma covers_all ps closed kind spread l r : fin_points ps -> (2 <= spread)%nat -> (2 <= length ps)%nat ->
  series_new ps closed kind spread = Some l -> fin_rect r ->
  (tg_rect_covers_rect r (r_rect l) = true <-> forall q, In q ps -> in_rect r (xR q) (yR q)).
Proof.
  intros F S L N (F1 & F2 & F3 & F4).
  destruct (series_rect _ _ _ _ _ N (fin_points_ok _ F) S L) as (O & (A1 & A2 & A3 & A4) & K).
  rewrite covers_rect_iff; [|split; split; now apply fin_ok|now apply rect_ok_nn]. unfold kcov, in_rect, xR, yR.
  split.
  - intros (C1 & C2 & C3 & C4) q I. destruct (F q I). destruct (In_nth _ _ pt0 I) as (i & Hi & E). specialize (K i Hi).
    unfold pt_at in K. rewrite E in K. destruct K as [[K1 K2] [K3 K4]]. repeat split; apply key_le_R; auto; lia.
  - intros H. destruct A1 as (q1 & I1 & E1), A2 as (q2 & I2 & E2), A3 as (q3 & I3 & E3), A4 as (q4 & I4 & E4).
    destruct (F _ I1), (F _ I2), (F _ I3), (F _ I4).
    rewrite <- E1, <- E2, <- E3, <- E4. repeat split; apply key_le_R; auto; apply H; assumption.
Qed.

Lemma span_in_rect ps r x y : (forall q, In q ps -> in_rect r (xR q) (yR q)) -> span ps x y -> in_rect r x y.
Proof.
  intros H ((q1 & I1 & L1) & (q2 & I2 & L2) & (q3 & I3 & L3) & (q4 & I4 & L4)).
  pose proof (H _ I1). pose proof (H _ I2). pose proof (H _ I3). pose proof (H _ I4). unfold in_rect in *. repeat split; lra.
Qed.

(** A rectangle covers a line exactly when the line has two points or more and
    no point of it is outside, for all finite doubles; and likewise a polygon
    whose exterior has three points or more. *)
Theorem C61_rect_covers :
  (forall ps kind spread l r, fin_points ps -> (2 <= spread)%nat -> fin_rect r ->
     series_new ps false kind spread = Some l ->
     (tg_rect_covers_line r (Some l) = true <->
        (2 <= length ps)%nat /\ forall x y, on_line ps x y -> in_rect r x y)) /\
  (forall ext holes kind spread e q r, fin_points ext -> (2 <= spread)%nat -> fin_rect r ->
     series_new ext true kind spread = Some e -> tg_poly_exterior (Some q) = Some e -> poly_proper ext holes ->
     (tg_rect_covers_poly r (Some q) = true <->
        (3 <= length ext)%nat /\ forall x y, poly_has ext holes x y -> in_rect r x y)).
Proof.
  split.
  - intros ps kind spread l r F S FR N. unfold tg_rect_covers_line. rewrite andb_true_iff, negb_true_iff.
    assert (EM : line_is_empty (Some l) = (length ps <? 2)%nat).
    { apply series_new_fields in N. cbv zeta in N. destruct N as (FC & FP & _). cbn [line_is_empty].
      unfold tg_ring_empty. now rewrite FC, FP. }
    rewrite EM, Nat.ltb_ge. cbn [RingApi.tg_ring_rect].
    split; intros [L H]; (split; [exact L|]).
    + intros x y O. apply (span_in_rect ps); [|now apply line_span]. now apply (covers_all ps false kind spread l r).
    + apply (covers_all ps false kind spread l r); auto. intros q I. apply H. apply line_vertex; [lia|exact I].
  - intros ext holes kind spread e q r F S FR N EX PR. unfold tg_rect_covers_poly, tg_poly_empty, tg_poly_rect.
    rewrite EX, andb_true_iff, negb_true_iff.
    assert (EM : line_is_empty (Some e) = (length ext <? 3)%nat).
    { apply series_new_fields in N. cbv zeta in N. destruct N as (FC & FP & _). cbn [line_is_empty].
      unfold tg_ring_empty. rewrite FC, FP. cbn [andb]. lia. }
    rewrite EM, Nat.ltb_ge. cbn [RingApi.tg_ring_rect].
    split; intros [L H]; (split; [exact L|]).
    + intros x y [O _]. apply (span_in_rect ext); [|now apply has_span]. apply (covers_all ext true kind spread e r); auto. lia.
    + apply (covers_all ext true kind spread e r); auto; [lia|]. intros p I. apply H. apply PR. left.
      unfold ring_border, ring_segments. replace (length ext <? 3)%nat with false by lia.
      destruct (pairs_cover (close_points ext) p) as (s & Is & E).
      { unfold close_points. destruct ext as [|a ext]; [destruct I|]. destruct (same_point _ _); [lia|]. rewrite app_length. lia. }
      { unfold close_points. destruct ext as [|a ext]; [destruct I|]. destruct (same_point _ _); [exact I|]. apply in_or_app. now left. }
      exists s. split; [exact Is|]. destruct E as [->| ->]; [apply on_segment_a|apply on_segment_b].
Qed.
Print Assumptions C61_rect_covers.

(** ** search *)

(** the four sides of a rectangle in the order of the corners *)
Definition sides (r : rect) : list seg :=
  let a := rmin r in let c := rmax r in
  let b := Pt (px c) (py a) in let d := Pt (px a) (py c) in [Seg a b; Seg b c; Seg c d; Seg d a].

Lemma box_side s t : fin (px (sa s)) -> fin (py (sa s)) -> fin (px (sb s)) -> fin (py (sb s)) -> fin_rect t ->
  xR (rmin t) <= xR (rmax t) -> yR (rmin t) <= yR (rmax t) ->
  xR (sa s) = xR (sb s) \/ yR (sa s) = yR (sb s) ->
  (tg_rect_intersects_rect (tg_segment_rect s) t = true <-> exists x y, lies_on s x y /\ in_rect t x y).
Proof.
  intros F1 F2 F3 F4 (T1 & T2 & T3 & T4) OX OY AX.
  assert (MM : forall x y, fin x -> fin y -> (fin (fmin0 x y) /\ RV (fmin0 x y) = Rmin (RV x) (RV y)) /\
                                          (fin (fmax0 x y) /\ RV (fmax0 x y) = Rmax (RV x) (RV y))).
  { intros x y X Y. unfold fmin0, fmax0, fgt. rewrite !flt_key by (now apply fin_ok).
    pose proof (key_le_R x y X Y). pose proof (key_le_R y x Y X). split.
    - destruct (f_key x <? f_key y)%Z eqn:E; (split; [assumption|]); [rewrite Rmin_left|rewrite Rmin_right]; auto; apply H || apply H0; lia.
    - destruct (f_key y <? f_key x)%Z eqn:E; (split; [assumption|]); [rewrite Rmax_left|rewrite Rmax_right]; auto; apply H || apply H0; lia. }
  destruct (MM _ _ F1 F3) as [[M1 V1] [M2 V2]], (MM _ _ F2 F4) as [[M3 V3] [M4 V4]].
  rewrite intersects_rect_iff; [|repeat split; apply fin_ok; assumption|repeat split; apply fin_ok; assumption].
  unfold kmeet, tg_segment_rect. cbn [rmin rmax px py]. rewrite !key_le_R by assumption. rewrite V1, V2, V3, V4.
  unfold lies_on, in_rect, xR, yR in *. split.
  - intros (A & B & C & D).
    (* the point of the box nearest to the middle of the target *)
    set (x := Rmax (Rmin (RV (px (sa s))) (RV (px (sb s)))) (RV (px (rmin t)))).
    set (y := Rmax (Rmin (RV (py (sa s))) (RV (py (sb s)))) (RV (py (rmin t)))).
    assert (X : Rmin (RV (px (sa s))) (RV (px (sb s))) <= x <= Rmax (RV (px (sa s))) (RV (px (sb s)))).
    { unfold x. split; [apply Rmax_l|]. apply Rmax_lub; [|exact B]. eapply Rle_trans; [apply Rmin_l|apply Rmax_l]. }
    assert (Y : Rmin (RV (py (sa s))) (RV (py (sb s))) <= y <= Rmax (RV (py (sa s))) (RV (py (sb s)))).
    { unfold y. split; [apply Rmax_l|]. apply Rmax_lub; [|exact D]. eapply Rle_trans; [apply Rmin_l|apply Rmax_l]. }
    exists x, y. split.
    + apply on_segment_iff. split; [exact X|]. split; [exact Y|].
      destruct AX as [E|E]; rewrite E in *.
      * rewrite Rmin_left, Rmax_left in X by lra. assert (x = RV (px (sb s))) as -> by lra. ring.
      * rewrite Rmin_left, Rmax_left in Y by lra. assert (y = RV (py (sb s))) as -> by lra. ring.
    + repeat split; unfold x, y; first [apply Rmax_r|apply Rmax_lub; assumption].
  - intros (x & y & L & IN). apply on_segment_iff in L. destruct L as (X & Y & _). repeat split; lra.
Qed.

(** tg_rect_search calls back for the sides that have a point in the target, in
    order, with their numbers, until the callback answers false. *)
Theorem C61_rect_search :
  forall (A : Type) r t (iter : A -> seg -> Z -> bool * A) st, fin_rect r -> fin_rect t ->
    xR (rmin t) <= xR (rmax t) -> yR (rmin t) <= yR (rmax t) ->
    exists found, selects (fun s => exists x y, lies_on s x y /\ in_rect t x y) 0 (sides r) found /\
      tg_rect_search r t iter st =
      run_callback (fun st c => iter st (snd c) (Z.of_nat (fst c))) found st.
Proof.
  intros A r t iter st (F1 & F2 & F3 & F4) FT OX OY.
  set (P := fun s => exists x y, lies_on s x y /\ in_rect t x y).
  assert (B : forall s, In s (sides r) -> (tg_rect_intersects_rect (tg_segment_rect s) t = true <-> P s)).
  { intros s I. unfold sides in I. destruct I as [<-|[<-|[<-|[<-|[]]]]]; apply box_side; auto; cbn [sa sb px py xR yR]; unfold xR, yR; auto. }
  assert (G : forall n l st, (forall s, In s l -> (tg_rect_intersects_rect (tg_segment_rect s) t = true <-> P s)) ->
    exists found, selects P n l found /\
      loop_while (fun st c => if tg_rect_intersects_rect (tg_segment_rect (snd c)) t then iter st (snd c) (fst c) else (true, st))
        (combine (map Z.of_nat (seq n (length l))) l) st =
      run_callback (fun st c => iter st (snd c) (Z.of_nat (fst c))) found st).
  { clear. intros n l. revert n. induction l as [|s l IH]; intros n st H; [exists []; split; [constructor|reflexivity]|].
    cbn [length seq map combine loop_while snd fst].
    destruct (tg_rect_intersects_rect (tg_segment_rect s) t) eqn:E.
    - apply (H s (or_introl eq_refl)) in E. destruct (iter st s (Z.of_nat n)) as [go st'] eqn:IT.
      destruct (IH (S n) st' (fun s I => H s (or_intror I))) as (found & SE & R).
      exists ((n, s) :: found). split; [now constructor|]. cbn [run_callback snd fst]. rewrite IT.
      destruct go; [exact R|reflexivity].
    - destruct (IH (S n) st (fun s I => H s (or_intror I))) as (found & SE & R). exists found.
      split; [|exact R]. apply sel_skip; [|exact SE]. intros C. apply (H s (or_introl eq_refl)) in C. congruence. }
  destruct (G 0%nat (sides r) st B) as (found & SE & R). exists found. split; [exact SE|]. rewrite <- R.
  unfold tg_rect_search. destruct r as [[a b] [c d]]. reflexivity.
Qed.
Print Assumptions C61_rect_search.

(** ** A line covering a rectangle *)

(** The path (0,0), (10,0), (10,10) is said to cover the upright segment from
    (5,0) to (5,3), whose end is not on it.  The path (0,0), (5,0), (10,0) is
    said not to cover the flat rectangle from (2,0) to (8,0), all of which is on
    it. *)
Definition bent : list pt := [P 0 0; P 10 0; P 10 10].
Definition straight : list pt := [P 0 0; P 5 0; P 10 0].
Theorem C61_line_covers_rect_refuted :
  exists l1 l2, line_stands bent l1 /\ line_stands straight l2 /\
    (let r := Rect (P 5 0) (P 5 3) in int_rect 24 r /\
     tg_line_covers_rect (Some l1) r = Ret true /\ in_rect r 5 3 /\ ~ on_line bent 5 3) /\
    (let r := Rect (P 2 0) (P 8 0) in int_rect 24 r /\
     tg_line_covers_rect (Some l2) r = Ret false /\ forall x y, in_rect r x y -> on_line straight x y).
Proof.
  assert (I1 : forall q, In q bent -> int_point 24 q) by (unfold bent; intros q [<-|[<-|[<-|[]]]]; apply P_int24; lia).
  assert (I2 : forall q, In q straight -> int_point 24 q) by (unfold straight; intros q [<-|[<-|[<-|[]]]]; apply P_int24; lia).
  assert (E : match series_new bent false IxNone 16, series_new straight false IxNone 16 with
    | Some l1, Some l2 => match tg_line_covers_rect (Some l1) (Rect (P 5 0) (P 5 3)),
        tg_line_covers_rect (Some l2) (Rect (P 2 0) (P 8 0)) with Ret true, Ret false => true | _, _ => false end
    | _, _ => false end = true) by (vm_compute; reflexivity).
  destruct (series_new bent false IxNone 16) as [l1|] eqn:N1; [|discriminate].
  destruct (series_new straight false IxNone 16) as [l2|] eqn:N2; [|discriminate].
  exists l1, l2. cbv zeta. split; [split; [exact I1|exists IxNone, 16%nat; split; [lia|exact N1]]|].
  split; [split; [exact I2|exists IxNone, 16%nat; split; [lia|exact N2]]|].
  destruct (tg_line_covers_rect (Some l1) _) as [[|]| |]; try discriminate.
  destruct (tg_line_covers_rect (Some l2) _) as [[|]| |]; try discriminate.
  destruct (P_R 5 0 ltac:(lia) ltac:(lia)) as [A1 A2], (P_R 5 3 ltac:(lia) ltac:(lia)) as [B1 B2],
    (P_R 2 0 ltac:(lia) ltac:(lia)) as [C1 C2], (P_R 8 0 ltac:(lia) ltac:(lia)) as [D1 D2],
    (P_R 0 0 ltac:(lia) ltac:(lia)) as [G1 G2], (P_R 10 0 ltac:(lia) ltac:(lia)) as [H1 H2].
  unfold int_rect, in_rect. cbn [rmin rmax]. rewrite A1, A2, B1, B2, C1, C2, D1, D2.
  split.
  - split; [split; [apply P_int24; lia|split; [apply P_int24; lia|lra]]|].
    split; [reflexivity|]. split; [lra|]. apply (not_on bent 5 3); [exact I1|lia|lia|vm_compute; reflexivity].
  - split; [split; [apply P_int24; lia|split; [apply P_int24; lia|lra]]|].
    split; [reflexivity|]. intros x y [X Y]. unfold on_line, straight. cbn [pairs].
    destruct (Rle_dec x 5) as [L|L].
    + exists (Seg (P 0 0) (P 5 0)). split; [left; reflexivity|]. unfold lies_on. cbn [sa sb].
      rewrite A1, A2, G1, G2. exists (x / 5). split; [lra|]. split; [field|lra].
    + exists (Seg (P 5 0) (P 10 0)). split; [right; left; reflexivity|]. unfold lies_on. cbn [sa sb].
      rewrite A1, A2, H1, H2. exists ((x - 5) / 5). split; [lra|]. split; [field|lra].
Qed.
Print Assumptions C61_line_covers_rect_refuted.

(** ** Example: a triangle around a corner of the rectangle, and one beside it *)
Definition tri (x : Z) : list pt := [P x 0; P (x + 4) 0; P x 4; P x 0].
Example C61_example :
  exists r1 r2, let r := Rect (P 1 1) (P 9 9) in
    int_rect 24 r /\ fin_rect r /\
    poly_stands (corners r) (PRing r1) (tri 0) [] /\ poly_stands (corners r) (PRing r2) (tri 10) [] /\
    tg_poly_intersects_rect (Some (PRing r1)) r = Ret true /\ tg_poly_intersects_rect (Some (PRing r2)) r = Ret false /\
    tg_rect_covers_poly r (Some (PRing r1)) = false /\
    tg_rect_covers_poly (Rect (P 0 0) (P 4 4)) (Some (PRing r1)) = true.
Proof.
  assert (IT : forall x, (Z.abs x <= 100)%Z -> forall q, In q (tri x) -> int_point 24 q)
    by (unfold tri; intros x X q [<-|[<-|[<-|[<-|[]]]]]; apply P_int24; lia).
  assert (E : match series_new (tri 0) true IxNone 16, series_new (tri 10) true IxNone 16 with
    | Some r1, Some r2 => let r := Rect (P 1 1) (P 9 9) in
        match tg_poly_intersects_rect (Some (PRing r1)) r, tg_poly_intersects_rect (Some (PRing r2)) r,
          tg_rect_covers_poly r (Some (PRing r1)), tg_rect_covers_poly (Rect (P 0 0) (P 4 4)) (Some (PRing r1)) with
        | Ret true, Ret false, false, true => true | _, _, _, _ => false end
    | _, _ => false end = true) by (vm_compute; reflexivity).
  destruct (series_new (tri 0) true IxNone 16) as [r1|] eqn:N1; [|discriminate].
  destruct (series_new (tri 10) true IxNone 16) as [r2|] eqn:N2; [|discriminate].
  exists r1, r2. cbv zeta in E |- *.
  destruct (tg_poly_intersects_rect (Some (PRing r1)) _) as [[|]| |]; try discriminate.
  destruct (tg_poly_intersects_rect (Some (PRing r2)) _) as [[|]| |]; try discriminate.
  destruct (tg_rect_covers_poly _ _); [discriminate|]. destruct (tg_rect_covers_poly _ _); [|discriminate].
  assert (IR : int_rect 24 (Rect (P 1 1) (P 9 9))).
  { destruct (P_R 1 1 ltac:(lia) ltac:(lia)) as [A1 A2], (P_R 9 9 ltac:(lia) ltac:(lia)) as [B1 B2].
    split; [apply P_int24; lia|]. split; [apply P_int24; lia|]. cbn [rmin rmax]. rewrite A1, A2, B1, B2. lra. }
  split; [exact IR|].
  split. { destruct IR as (A & B & _). destruct (int_fin _ _ A), (int_fin _ _ B). repeat split; assumption. }
  assert (ST : forall x b asked, (Z.abs x <= 100)%Z -> series_new (tri x) true IxNone 16 = Some b ->
    poly_stands asked (PRing b) (tri x) []).
  { intros x b asked X N. split.
    - intros u v [B|(h & [] & _)]. split; [left; exact B|intros h []].
    - split; [|reflexivity]. split; [now apply IT|]. exists IxNone, 16%nat. split; [lia|]. split; [exact N|].
      split; [right; left; reflexivity|]. intros q _. right. exact I. }
  split; [apply ST; [lia|exact N1]|]. split; [apply ST; [lia|exact N2]|].
  repeat split; reflexivity.
Qed.
