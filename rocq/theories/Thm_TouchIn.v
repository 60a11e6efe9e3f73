(** * What touches says about the insides: polygons without holes *)

From Coq Require Import ZArith Reals Bool List Lia Lra PeanoNat.
From Verif Require Import F64 F32 Geo Series Search RingApi Geom MultiIx Preds PredsFacts PredsGeom F64Order F64Real
  SeriesFacts SearchFacts SeriesExamples SpecGeo SpecFacts SpecPlane SpecPreds SpecRing SpecShape
  SegExact SegRing Thm_Ring Thm_Seg Thm_Multi Thm_Pairs Thm_Preds Jordan JordanRing MeetFacts RingMeet PolyMeet ShapeBox Thm_Shapes
  TouchMeet Thm_Touch.
Import ListNotations.
Local Open Scope R_scope.

(** the segments that a shape without holes is drawn with *)
Definition outline (sh : shape) : list seg :=
  match sh with SLine ps => pairs ps | SPoly ext _ => ring_segments ext | _ => [] end.

Lemma any_false l : any_of l = Ret false -> forall x, In x l -> x = Ret false.
Proof.
  induction l as [|y l IH]; [intros _ x []|]. cbn [any_of]. destruct y as [[|]| |]; cbn [bind_out]; try discriminate.
  intros H x [<-|I]; auto.
Qed.

Lemma count_touches_none e segs n m : count_touches e segs n = Ret (Some m) ->
  forall s, In s segs -> tg_ring_intersects_segment e s false = Ret false.
Proof.
  revert n. induction segs as [|s segs IH]; intros n; cbn [count_touches]; [intros _ s []|].
  destruct (tg_ring_intersects_segment e s true) as [i0| |] eqn:E0; cbn [bind_out]; try discriminate.
  destruct (tg_ring_intersects_segment e s false) as [i1| |] eqn:E1; cbn [bind_out]; try discriminate.
  destruct i0, i1; cbn [andb orb negb]; try discriminate; intros H t [<-|I]; auto; eapply IH; eauto.
Qed.

Lemma line_segs ps l : line_stands ps l -> ring_segs l = pairs ps.
Proof. intros (IP & kind & spread & S2 & N). exact (series_segs ps false kind spread l (line_pts_ok ps IP) N). Qed.

Lemma poly_line_out asked q ext pl l : poly_stands asked q ext [] -> (forall p, In p pl -> In p asked) -> line_stands pl l ->
  cross_only (pairs pl) (ring_segments ext) -> tg_poly_touches_line (Some q) (Some l) = Ret true ->
  forall x y, on_line pl x y -> ~ ring_interior ext x y.
Proof.
  intros HQ AS HL CO. unfold tg_poly_touches_line.
  destruct (tg_rect_intersects_rect _ _); cbn [negb]; [|discriminate].
  assert (HN : poly_holes (Some q) = []).
  { destruct HQ as [_ HQ]. destruct q as [r|r hs]; [reflexivity|]. destruct HQ as [_ HQ]. inversion HQ. reflexivity. }
  rewrite HN. cbn [hole_touch bind_out]. destruct (poly_ext _ _ _ _ HQ) as (r & -> & R).
  rewrite (line_segs pl l HL). destruct (existsb _ _); cbn [negb]; [|discriminate].
  destruct (any_of _) as [[|]| |] eqn:A; cbn [out_negb bind_out]; try discriminate. intros _.
  pose proof HL as (IL & _). intros x y (s & Is & Ls).
  pose proof (pairs_in _ _ Is) as [I1 I2].
  apply (enters_found ext r s); auto.
  - split; auto.
  - eapply ring_stands_less; [exact R|]. intros p [<-|[<-|[]]]; auto.
  - intros t It C. apply (CO s t Is It C).
  - apply (any_false _ A). apply in_map_iff. exists s. auto.
Qed.

Lemma poly_poly_out aska askb qa ea qb eb : poly_stands aska qa ea [] -> poly_stands askb qb eb [] ->
  (forall p, In p eb -> In p aska) -> (forall p, In p ea -> In p askb) -> cross_only (ring_segments ea) (ring_segments eb) ->
  tg_poly_touches_poly (Some qa) (Some qb) = Ret true ->
  forall x y, ring_interior ea x y -> ~ ring_interior eb x y.
Proof.
  intros QA QB SA SB CO.
  destruct (poly_ext _ _ _ _ QA) as (ra & EA & RA). destruct (poly_ext _ _ _ _ QB) as (rb & EB & RB).
  pose proof RA as (IA & _). pose proof RB as (IB & _).
  assert (HN : forall ask q e, poly_stands ask q e [] -> poly_holes (Some q) = []).
  { intros ask q e [_ HQ]. destruct q as [r|r hs]; [reflexivity|]. destruct HQ as [_ HQ]. inversion HQ. reflexivity. }
  unfold tg_poly_touches_poly. rewrite EA, EB. cbv zeta.
  destruct (tg_rect_intersects_rect _ _); cbn [negb]; [|discriminate].
  rewrite (HN _ _ _ QA), (HN _ _ _ QB). cbn [hole_touch bind_out].
  destruct (ring_stands_facts _ _ _ RA) as (-> & _). destruct (ring_stands_facts _ _ _ RB) as (-> & _).
  destruct (count_touches _ (ring_segments eb) 0) as [[bt|]| |] eqn:CB; cbn [bind_out]; try discriminate.
  destruct (count_touches _ (ring_segments ea) 0) as [[at_|]| |] eqn:CA; cbn [bind_out]; try discriminate.
  intros _. apply insides_apart; auto using ints_fin.
  - intros x y (s & Is & Ls). pose proof (ring_segments_in _ _ Is) as [I1 I2].
    apply (enters_found eb rb s); auto.
    + split; auto.
    + eapply ring_stands_less; [exact RB|]. intros p [<-|[<-|[]]]; auto.
    + intros t It C. apply (CO s t Is It C).
    + exact (count_touches_none _ _ _ _ CA s Is).
  - intros x y (s & Is & Ls). pose proof (ring_segments_in _ _ Is) as [I1 I2].
    apply (enters_found ea ra s); auto.
    + split; auto.
    + eapply ring_stands_less; [exact RA|]. intros p [<-|[<-|[]]]; auto.
    + intros t It (x' & y' & C1 & C2). apply (CO t s It Is). exists x', y'. auto.
    + exact (count_touches_none _ _ _ _ CB s Is).
Qed.

Lemma cross_flip l m : cross_only l m -> cross_only m l.
Proof. intros H s t I J (x & y & A & B). destruct (H t s J I); [exists x, y; auto|auto]. Qed.

(** a polygon or a line: what tg_geom_touches comes down to *)
Lemma poly_geom asked g ext hs : stands asked g (SPoly ext hs) -> exists q, poly_stands asked q ext hs /\
  (forall o, tg_geom_touches g o = poly_touches_geom (Some q) o) /\
  (forall l, line_touches_geom l g = tg_poly_touches_line (Some q) l) /\
  (forall p, poly_touches_geom p g = tg_poly_touches_poly p (Some q)).
Proof.
  intros S. inversion S; subst; exists q; (split; [assumption|]);
    unfold tg_geom_touches, line_touches_geom, poly_touches_geom;
    cbn [on_geom geom_touches some_child poly_touches on_poly PredsGeom.on_line on_point];
    try match goal with H : is_empty _ = _ |- _ => rewrite H end; auto.
Qed.
Lemma line_geom asked g ps : stands asked g (SLine ps) -> exists l, line_stands ps l /\
  (forall o, tg_geom_touches g o = line_touches_geom (Some l) o) /\
  (forall p, poly_touches_geom p g = tg_poly_touches_line p (Some l)).
Proof.
  intros S. inversion S; subst; exists l; (split; [assumption|]);
    unfold tg_geom_touches, line_touches_geom, poly_touches_geom;
    cbn [on_geom geom_touches some_child poly_touches on_poly PredsGeom.on_line on_point];
    try match goal with H : is_empty _ = _ |- _ => rewrite H end; auto.
Qed.

(** Proved, for two polygons without holes, and for a line and a polygon
    without holes, whose outlines cross or meet but nowhere run along each
    other: an answer true means that they have a common point and no point
    inside both.  (Where the outlines do run along each other the answer can
    be wrong, see C54_refuted.) *)
Theorem C54_insides_partial :
  forall g a o b, stands (vertices b) g a -> stands (vertices a) o b -> real_lines a -> real_lines b ->
    (exists ea eb, a = SPoly ea [] /\ b = SPoly eb []) \/
    (exists pl e, a = SLine pl /\ b = SPoly e [] \/ a = SPoly e [] /\ b = SLine pl) ->
    cross_only (outline a) (outline b) ->
    tg_geom_touches g o = Ret true -> only_touch a b.
Proof.
  intros g a o b SG SO RA RB K CO T. split; [exact (proj1 (C54_shares_partial g a o b SG SO RA RB T))|].
  intros (x & y & IA & IB). destruct K as [(ea & eb & -> & ->)|(pl & e & [[-> ->]|[-> ->]])]; cbn [outline shape_inside] in *.
  - destruct (poly_geom _ _ _ _ SG) as (qa & QA & E1 & _). destruct (poly_geom _ _ _ _ SO) as (qb & QB & _ & _ & E2).
    rewrite E1, E2 in T. cbn [vertices concat] in *. rewrite app_nil_r in *.
    apply (poly_poly_out _ _ _ _ _ _ QA QB (fun p I => I) (fun p I => I) CO T x y); tauto.
  - destruct (line_geom _ _ _ SG) as (l & HL & E1 & _). destruct (poly_geom _ _ _ _ SO) as (q & Q & _ & E2 & _).
    rewrite E1, E2 in T. cbn [vertices concat] in *.
    apply (poly_line_out _ _ _ _ _ Q (fun p I => I) HL CO T x y); tauto.
  - destruct (poly_geom _ _ _ _ SG) as (q & Q & E1 & _). destruct (line_geom _ _ _ SO) as (l & HL & _ & E2).
    rewrite E1, E2 in T. cbn [vertices concat] in *.
    apply (poly_line_out _ _ _ _ _ Q (fun p I => I) HL (cross_flip _ _ CO) T x y); tauto.
Qed.
Print Assumptions C54_insides_partial.

(** a square and a triangle that meet in a corner, and a line that starts at a corner *)
Example C54_insides_example :
  let corner := [P 10 10; P 20 12; P 12 20; P 10 10] in
  let away := [P 10 10; P 20 15] in
  stands (vertices (SPoly corner [])) (plain_geom wall) (SPoly wall []) /\
  stands (vertices (SPoly wall [])) (plain_geom corner) (SPoly corner []) /\
  stands (vertices (SPoly wall [])) (plain_path away) (SLine away) /\
  cross_only (outline (SPoly wall [])) (outline (SPoly corner [])) /\
  cross_only (outline (SLine away)) (outline (SPoly wall [])) /\
  match tg_geom_touches (plain_geom wall) (plain_geom corner), tg_geom_touches (plain_path away) (plain_geom wall),
    tg_geom_touches (plain_geom wall) (plain_geom (box 9 9 20 20)), tg_geom_touches (plain_path [P 10 10; P 5 5]) (plain_geom wall)
  with Ret true, Ret true, Ret false, Ret false => true | _, _, _, _ => false end = true.
Proof.
  cbv zeta. split; [apply plain_poly; [unfold wall; smalls|cbn; lia]|]. split; [apply plain_poly; [smalls|cbn; lia]|].
  split; [apply st_line, plain_line; [smalls|cbn; lia]|].
  destruct (P_R 0 0 ltac:(lia) ltac:(lia)) as [X0 Y0]. destruct (P_R 10 0 ltac:(lia) ltac:(lia)) as [X1 Y1].
  destruct (P_R 10 10 ltac:(lia) ltac:(lia)) as [X2 Y2]. destruct (P_R 0 10 ltac:(lia) ltac:(lia)) as [X3 Y3].
  destruct (P_R 20 12 ltac:(lia) ltac:(lia)) as [X4 Y4]. destruct (P_R 12 20 ltac:(lia) ltac:(lia)) as [X5 Y5].
  destruct (P_R 20 15 ltac:(lia) ltac:(lia)) as [X6 Y6].
  split; [|split; [|vm_compute; reflexivity]].
  - change (outline (SPoly wall [])) with [Seg (P 0 0) (P 10 0); Seg (P 10 0) (P 10 10); Seg (P 10 10) (P 0 10); Seg (P 0 10) (P 0 0)].
    change (outline (SPoly _ [])) with [Seg (P 10 10) (P 20 12); Seg (P 20 12) (P 12 20); Seg (P 12 20) (P 10 10)].
    intros s t Is It _. unfold runs_along. cbn [In] in Is, It. 
    repeat destruct Is as [<-|Is]; try contradiction; repeat destruct It as [<-|It]; try contradiction; cbn [sa sb];
      rewrite ?X0, ?Y0, ?X1, ?Y1, ?X2, ?Y2, ?X3, ?Y3, ?X4, ?Y4, ?X5, ?Y5; lra.
  - change (outline (SPoly wall [])) with [Seg (P 0 0) (P 10 0); Seg (P 10 0) (P 10 10); Seg (P 10 10) (P 0 10); Seg (P 0 10) (P 0 0)].
    change (outline (SLine _)) with [Seg (P 10 10) (P 20 15)].
    intros s t Is It _. unfold runs_along. cbn [In] in Is, It.
    repeat destruct Is as [<-|Is]; try contradiction; repeat destruct It as [<-|It]; try contradiction; cbn [sa sb];
      rewrite ?X0, ?Y0, ?X1, ?Y1, ?X2, ?Y2, ?X3, ?Y3, ?X6, ?Y6; lra.
Qed.

(** a ring with a step, and a line along the upper part of the step that goes
    on through the inside of the ring *)
Definition step : list pt := [P 8 (-4); P 8 4; P 0 4; P 0 0; P 4 0; P 4 (-4); P 8 (-4)].
Definition through : list pt := [P 0 0; P 8 0].

(** without the condition on the outlines an answer true can be wrong: the
    line is found to touch, but from (4, 0) to (8, 0) it is inside the ring *)
Theorem C54_refuted_along :
  exists g a o b, stands (vertices b) g a /\ stands (vertices a) o b /\ real_lines a /\ real_lines b /\
    a = SLine through /\ b = SPoly step [] /\
    tg_geom_touches g o = Ret true /\ ~ only_touch a b /\
    shape_inside a 6 0 /\ shape_inside b 6 0.
Proof.
  assert (I1 : small_ints step) by (unfold step; smalls). assert (I2 : small_ints through) by (unfold through; smalls).
  exists (plain_path through), (SLine through), (plain_geom step), (SPoly step []).
  split; [apply st_line, plain_line; [exact I2|cbn; lia]|]. split; [apply plain_poly; [exact I1|cbn; lia]|].
  split; [cbn; lia|]. split; [exact Logic.I|]. split; [reflexivity|]. split; [reflexivity|]. split; [vm_compute; reflexivity|].
  destruct (P_R 0 0 ltac:(lia) ltac:(lia)) as [X0 Y0]. destruct (P_R 8 0 ltac:(lia) ltac:(lia)) as [X8 Y8].
  destruct (P_R 6 0 ltac:(lia) ltac:(lia)) as [X6 Y6].
  assert (IA : shape_inside (SLine through) 6 0).
  { split.
    - exists (Seg (P 0 0) (P 8 0)). split; [now left|]. unfold lies_on. cbn [sa sb]. rewrite X0, Y0, X8, Y8. exists (6/8). lra.
    - intros (_ & p & [E|E] & EX & EY); cbn in E; injection E as <-; lra. }
  assert (IB : shape_inside (SPoly step []) 6 0).
  { split; [|intros h []]. rewrite <- X6, <- Y6.
    assert (RS : ring_stands [P 6 0] step (plain true step)) by (apply plain_ring; [exact I1|cbn; lia]).
    destruct (stands_hits [P 6 0] step _ (P 6 0) false RS (or_introl eq_refl)) as (v & V & E); [apply P_int24; lia|].
    apply E. vm_compute in V. injection V as <-. reflexivity. }
  split; [|split; assumption]. intros [_ N]. apply N. exists 6, 0. auto.
Qed.
Print Assumptions C54_refuted_along.
