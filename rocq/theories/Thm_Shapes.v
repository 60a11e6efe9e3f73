(** * Geometries as sets of points of the plane: intersects, covers, contains
    and touches give the right answer on integer coordinates *)

From Coq Require Import ZArith Reals Bool List Lia Lra PeanoNat.
From Verif Require Import F64 F32 Geo Series Search RingApi Geom MultiIx Preds PredsFacts PredsGeom F64Order F64Real
  SeriesFacts SearchFacts SeriesExamples SpecGeo SpecFacts SpecPlane SpecPreds SpecRing SpecShape
  SegExact Thm_Ring Thm_Seg Thm_Multi Thm_Preds Jordan JordanRing MeetFacts RingMeet PolyMeet ShapeBox.
Import ListNotations.

Scheme stands_mind := Minimality for stands Sort Prop with stand_all_mind := Minimality for stand_all Sort Prop.
Combined Scheme stands_both from stands_mind, stand_all_mind.

Lemma stands_less asked asked' : (forall p, In p asked' -> In p asked) ->
  (forall g s, stands asked g s -> stands asked' g s) /\ (forall gs ss, stand_all asked gs ss -> stand_all asked' gs ss).
Proof.
  intros S. apply stands_both; intros; try (constructor; auto; fail).
  - constructor. now apply (poly_stands_less asked).
  - constructor; [assumption|]. now apply (poly_stands_less asked).
Qed.

Lemma pteq_int_iff p q : int_point 24 p -> int_point 24 q -> (pteq p q = true <-> xR p = xR q /\ yR p = yR q).
Proof.
  intros IP IQ. split; [now apply pteq_int|].
  destruct IP as [[P1 (a & A & _)] [P2 (b & B & _)]], IQ as [[Q1 (c & C & _)] [Q2 (d & D & _)]].
  unfold xR, yR. rewrite A, B, C, D. intros [E1 E2]. apply eq_IZR in E1, E2. unfold pteq.
  rewrite (isz_feq _ _ a c), (isz_feq _ _ b d) by (split; assumption). subst. now rewrite !Z.eqb_refl.
Qed.

Lemma multi_has parts x y : shape_has (SMulti parts) x y <-> exists s, In s parts /\ shape_has s x y.
Proof.
  induction parts as [|s parts IH]; [split; [intros []|intros (t & [] & _)]|]. 
  change (shape_has (SMulti (s :: parts)) x y) with (shape_has s x y \/ shape_has (SMulti parts) x y). rewrite IH. split.
  - intros [H|(t & I & H)]; [exists s; split; [now left|exact H]|exists t; split; [now right|exact H]].
  - intros (t & [<-|I] & H); [now left|right; eauto].
Qed.
Lemma multi_inside parts x y : shape_inside (SMulti parts) x y <-> exists s, In s parts /\ shape_inside s x y.
Proof.
  induction parts as [|s parts IH]; [split; [intros []|intros (t & [] & _)]|]. 
  change (shape_inside (SMulti (s :: parts)) x y) with (shape_inside s x y \/ shape_inside (SMulti parts) x y). rewrite IH. split.
  - intros [H|(t & I & H)]; [exists s; split; [now left|exact H]|exists t; split; [now right|exact H]].
  - intros (t & [<-|I] & H); [now left|right; eauto].
Qed.
Lemma multi_vertices s parts : vertices (SMulti (s :: parts)) = vertices s ++ vertices (SMulti parts).
Proof. reflexivity. Qed.

(** ** A point, a line or a polygon against any geometry *)

Lemma some_child_exact (A : arms) (P : R -> R -> Prop) (mine asked : list pt) :
  (forall p, int_point 24 p -> In p asked -> exists v, on_point A p = Ret v /\ (v = true <-> P (xR p) (yR p))) ->
  (forall pl l, line_stands pl l -> (forall p, In p pl -> In p asked) ->
     exists v, PredsGeom.on_line A (Some l) = Ret v /\ (v = true <-> exists x y, P x y /\ on_line pl x y)) ->
  (forall q ext holes, poly_stands mine q ext holes -> (forall p, In p (ext ++ concat holes) -> In p asked) ->
     exists v, on_poly A (Some q) = Ret v /\ (v = true <-> exists x y, P x y /\ poly_has ext holes x y)) ->
  (forall o s, stands mine o s -> (forall p, In p (vertices s) -> In p asked) ->
     exists v, on_geom (some_child A) o = Ret v /\ (v = true <-> exists x y, P x y /\ shape_has s x y)) /\
  (forall gs parts, stand_all mine gs parts -> (forall p, In p (vertices (SMulti parts)) -> In p asked) ->
     exists v, any_of (map (on_geom (some_child A)) gs) = Ret v /\ (v = true <-> exists x y, P x y /\ shape_has (SMulti parts) x y)).
Proof.
  intros HP HL HQ.
  assert (NONE : exists v, Ret false = Ret v /\ (v = true <-> exists x y, P x y /\ shape_has SNone x y)).
  { exists false. split; [reflexivity|]. split; [discriminate|]. intros (x & y & _ & []). }
  assert (PT : forall p, int_point 24 p -> In p asked ->
    exists v, on_point A p = Ret v /\ (v = true <-> exists x y, P x y /\ shape_has (SPoint p) x y)).
  { intros p I J. destruct (HP p I J) as (v & V & E). exists v. split; [exact V|]. rewrite E. cbn [shape_has]. split.
    - intros H. exists (xR p), (yR p). auto.
    - intros (x & y & H & -> & ->). exact H. }
  apply stands_both; intros; try match goal with |- context [on_geom _ ?o] => cbn [on_geom some_child] end;
    try match goal with H : is_empty _ = _ |- _ => rewrite H end; try exact NONE.
  - apply PT; auto. apply H0. now left.
  - now apply HL.
  - now apply HQ.
  - apply PT; auto. apply H1. now left.
  - now apply HL.
  - now apply HQ.
  - now apply H2.
  - destruct H0 as (v & V & E); [intros q I; apply H3; rewrite multi_vertices; apply in_or_app; auto|].
    destruct H2 as (w & W & F); [intros q I; apply H3; rewrite multi_vertices; apply in_or_app; auto|].
    cbn [map any_of]. rewrite V. cbn [bind_out]. destruct v.
    + exists true. split; [reflexivity|]. split; [|reflexivity]. intros _. destruct (proj1 E eq_refl) as (x & y & Q & S).
      exists x, y. split; [exact Q|]. now left.
    + exists w. split; [exact W|]. rewrite F. split; intros (x & y & Q & S); exists x, y; (split; [exact Q|]).
      * now right.
      * destruct S as [S|S]; [|exact S]. exfalso. assert (X : false = true) by (apply E; eauto). discriminate.
Qed.

Lemma point_exact asked o s p : stands asked o s -> In p asked -> int_point 24 p ->
  exists v, point_intersects_geom p o = Ret v /\ (v = true <-> share_a_point (SPoint p) s).
Proof.
  intros S I IP. unfold point_intersects_geom, share_a_point. cbn [shape_has].
  refine (proj1 (some_child_exact (Arms _ _ _) (fun x y => x = xR p /\ y = yR p) asked (vertices s) _ _ _) o s S (fun _ H => H)); cbn [on_point PredsGeom.on_line on_poly].
  - intros q Iq _. eexists. split; [reflexivity|]. rewrite (pteq_int_iff p q IP Iq). split; intros [? ?]; auto.
  - intros pl l HL _. eexists. split; [reflexivity|]. rewrite (line_point_exact pl l p HL IP). split.
    + intros H. exists (xR p), (yR p). auto.
    + intros (x & y & [-> ->] & H). exact H.
  - intros q ext holes HQ _. destruct (proj1 (poly_point_exact asked q ext holes p HQ I IP)) as (v & V & E). exists v.
    split; [exact V|]. rewrite E. split.
    + intros H. exists (xR p), (yR p). auto.
    + intros (x & y & [-> ->] & H). exact H.
Qed.

Lemma line_exact asked o s pl l : stands asked o s -> (forall p, In p pl -> In p asked) -> line_stands pl l ->
  exists v, line_intersects_geom (Some l) o = Ret v /\ (v = true <-> share_a_point (SLine pl) s).
Proof.
  intros S I HL. unfold line_intersects_geom, share_a_point. cbn [shape_has].
  refine (proj1 (some_child_exact (Arms _ _ _) (fun x y => on_line pl x y) asked (vertices s) _ _ _) o s S (fun _ H => H)); cbn [on_point PredsGeom.on_line on_poly].
  - intros q Iq _. eexists. split; [reflexivity|]. apply line_point_exact; assumption.
  - intros pm m HM _. eexists. split; [reflexivity|]. apply line_line_exact; assumption.
  - intros q ext holes HQ _. destruct (poly_line_exact pl l q ext holes HL (poly_stands_less _ _ _ _ _ HQ I)) as (v & V & E). exists v.
    split; [exact V|]. rewrite E. split; intros (x & y & H1 & H2); exists x, y; auto.
Qed.

Lemma poly_exact asked o s q ext holes : stands asked o s -> (forall p, In p (ext ++ concat holes) -> In p asked) ->
  poly_stands (vertices s) q ext holes ->
  exists v, poly_intersects_geom (Some q) o = Ret v /\ (v = true <-> share_a_point (SPoly ext holes) s).
Proof.
  intros S I HQ. unfold poly_intersects_geom, share_a_point. cbn [shape_has].
  refine (proj1 (some_child_exact (Arms _ _ _) (fun x y => poly_has ext holes x y) asked (vertices s) _ _ _) o s S (fun _ H => H)); cbn [on_point PredsGeom.on_line on_poly].
  - intros p Ip Hp. exact (proj1 (poly_point_exact (vertices s) q ext holes p HQ Hp Ip)).
  - intros pl l HL Hl. apply poly_line_exact; [exact HL|]. now apply (poly_stands_less (vertices s)).
  - intros q' e' h' HQ' H'. apply (poly_poly_exact (vertices s) asked); auto.
    + intros p J. apply H', in_or_app. now left.
    + intros p J. apply I, in_or_app. now left.
Qed.

(** ** Intersects *)

Lemma searchable_index gs : searchable gs ->
  (forall g, In g gs -> proper_rect (tg_geom_rect g)) /\
  (64 <= length gs -> forall g, In g gs -> rect32 (tg_geom_rect g))%nat /\ multi_inflate (map tg_geom_rect gs) <> None.
Proof.
  intros [A B]. split; [exact A|]. split; [intros L; apply B, L|].
  destruct (Nat.le_gt_cases 64 (length gs)) as [L|L]; [apply B, L|]. unfold multi_inflate. rewrite map_length.
  destruct (multi_spread * 2 <=? length gs)%nat eqn:E; [|discriminate]. apply Nat.leb_le in E. unfold multi_spread in E. lia.
Qed.

(** Full statement: for all valid polygons and any index.  It is false of the
    code: see C49_refuted below (a hole taken for convex) and C01.  Proved:
    Two geometries of integer coordinates up to 2^24, with any indexes that are
    safe (C01, C02), proper polygons with any holes, and nested collections:
    tg_geom_intersects always returns, and returns true exactly when some point
    of the plane belongs to both. *)
Theorem C49_intersects_exact_partial :
  forall g a o b, stands (vertices b) g a -> stands (vertices a) o b ->
    exists v, tg_geom_intersects g o = Ret v /\ (v = true <-> share_a_point a b).
Proof.
  intros g a o b SG SO.
  cut ((forall g s, stands (vertices b) g s -> (forall p, In p (vertices s) -> In p (vertices a)) ->
          exists v, tg_geom_intersects g o = Ret v /\ (v = true <-> share_a_point s b)) /\
       (forall gs parts, stand_all (vertices b) gs parts -> (forall p, In p (vertices (SMulti parts)) -> In p (vertices a)) ->
          (forall g, In g gs -> exists v, tg_geom_intersects g o = Ret v) /\
          ((exists g, In g gs /\ tg_geom_intersects g o = Ret true) <-> share_a_point (SMulti parts) b))).
  { intros [H _]. apply H; auto. }
  clear g SG.
  assert (NONE : exists v, Ret false = Ret v /\ (v = true <-> share_a_point SNone b)).
  { exists false. split; [reflexivity|]. split; [discriminate|]. intros (x & y & [] & _). }
  apply stands_both; intros; try (cbn [tg_geom_intersects on_geom geom_intersects];
    try match goal with H : is_empty _ = _ |- _ => rewrite H end; try exact NONE).
  - apply (point_exact (vertices a)); auto. apply H0. now left.
  - apply (line_exact (vertices a)); auto.
  - apply (poly_exact (vertices a)); auto.
  - apply (point_exact (vertices a)); auto. apply H1. now left.
  - apply (line_exact (vertices a)); auto.
  - apply (poly_exact (vertices a)); auto.
  - destruct (searchable_index gs H0) as (A & B & C). destruct (H2 H3) as [RET EX].
    destruct (C45_intersects t f gs c x o H A B C RET) as (v & V & E).
    exists v. split; [|rewrite E; exact EX].
    rewrite <- V. cbn [tg_geom_intersects on_geom geom_intersects]. rewrite H. reflexivity.
  - split; [intros g []|]. split; [intros (g & [] & _)|]. intros (x & y & [] & _).
  - destruct H0 as (v & V & E); [intros q I; apply H3; rewrite multi_vertices; apply in_or_app; auto|].
    destruct H2 as [RET EX]; [intros q I; apply H3; rewrite multi_vertices; apply in_or_app; auto|]. split.
    + intros g' [<-|I]; [eauto|auto].
    + split.
      * intros (g' & [<-|I] & T).
        -- rewrite T in V. injection V as <-. destruct (proj1 E eq_refl) as (x & y & X & Y). exists x, y. split; [now left|exact Y].
        -- destruct (proj1 EX ltac:(eauto)) as (x & y & X & Y). exists x, y. split; [now right|exact Y].
      * intros (x & y & [X|X] & Y).
        -- exists g. split; [now left|]. rewrite V. f_equal. apply E. exists x, y. auto.
        -- destruct (proj2 EX) as (g' & I & T); [exists x, y; auto|]. exists g'. split; [now right|exact T].
Qed.
Print Assumptions C49_intersects_exact_partial.

(** ** Points of lines and polygons *)

Lemma line_ends_exact ps l p : line_stands ps l -> int_point 24 p -> (2 <= length ps)%nat ->
  (pteq p (sa (line_first (Some l))) || pteq p (sb (line_last (Some l))) = true <-> line_end ps (xR p) (yR p)) /\ r_nsegs l <> 0%nat.
Proof.
  intros (IL & kind & spread & S2 & N) IP L. pose proof (line_pts_ok ps IL) as OK.
  destruct (line_segs _ _ _ _ OK N) as (_ & NS & _). apply series_new_fields in N. cbv zeta in N.
  destruct N as (_ & _ & _ & EP & _).
  assert (LP : length (pairs ps) = (length ps - 1)%nat).
  { clear. induction ps as [|a [|b ps] IH]; [reflexivity..|]. change (pairs (a :: b :: ps)) with (Seg a b :: pairs (b :: ps)).
    cbn [length] in *. lia. }
  rewrite LP in NS. split; [|lia]. unfold line_first, line_last, seg_at. rewrite NS, EP.
  destruct (length ps - 1 =? 0)%nat eqn:Z; [apply Nat.eqb_eq in Z; lia|]. cbn [sa sb].
  assert (H0 : exists a, hd_error ps = Some a /\ pt_at (ringpts ps) 0 = a /\ In a ps).
  { destruct ps as [|a ps]; [cbn in L; lia|]. exists a. cbn. auto. }
  assert (H1 : exists b, hd_error (rev ps) = Some b /\ pt_at (ringpts ps) (length ps - 1 - 1 + 1) = b /\ In b ps).
  { replace (length ps - 1 - 1 + 1)%nat with (length ps - 1)%nat by lia.
    destruct (rev ps) as [|b rs] eqn:R.
    { apply (f_equal (@rev pt)) in R. rewrite rev_involutive in R. subst ps. cbn in L. lia. }
    apply (f_equal (@rev pt)) in R. rewrite rev_involutive in R. cbn [rev] in R. exists b. split; [reflexivity|].
    subst ps. rewrite app_length. cbn [length]. split; [|apply in_or_app; right; now left].
    unfold ringpts, pt_at. rewrite <- app_assoc, app_nth2 by lia.
    replace (length (rev rs) + 1 - 1 - length (rev rs))%nat with 0%nat by lia. reflexivity. }
  destruct H0 as (a & A & -> & IA), H1 as (b & B & -> & IB).
  rewrite orb_true_iff, (pteq_int_iff p a IP (IL a IA)), (pteq_int_iff p b IP (IL b IB)). unfold line_end. rewrite A, B. split.
  - intros [[X Y]|[X Y]]; (split; [exact L|]); [exists a|exists b]; auto.
  - intros (_ & q & [[= <-]|[= <-]] & X & Y); auto.
Qed.
Lemma line_end_on ps x y : line_end ps x y -> on_line ps x y.
Proof.
  intros (L & p & E & -> & ->).
  assert (I : In p ps).
  { destruct E as [E|E]; [|apply in_rev].
    - destruct ps; [discriminate|]. injection E as ->. now left.
    - destruct (rev ps); [discriminate|]. injection E as ->. now left. }
  destruct (pairs_cover ps p L I) as (s & Is & [->| ->]); exists s; (split; [exact Is|]); [apply on_segment_a|apply on_segment_b].
Qed.
Lemma line_contains_exact ps l p : line_stands ps l -> int_point 24 p ->
  (tg_line_contains_point (Some l) p = true <-> shape_inside (SLine ps) (xR p) (yR p)) /\
  (tg_point_touches_line p (Some l) = true <-> shape_has (SLine ps) (xR p) (yR p) /\ ~ shape_inside (SLine ps) (xR p) (yR p)).
Proof.
  intros HL IP. cbn [shape_has shape_inside]. unfold tg_line_contains_point, tg_point_touches_line.
  pose proof (line_point_exact ps l p HL IP) as C.
  destruct (Nat.le_gt_cases 2 (length ps)) as [L|L].
  - destruct (line_ends_exact ps l p HL IP L) as [E NZ]. split.
    + rewrite andb_true_iff, C, negb_true_iff. rewrite <- E.
      destruct (pteq p (sa (line_first (Some l))) || pteq p (sb (line_last (Some l)))); intuition congruence.
    + apply Nat.eqb_neq in NZ. rewrite NZ, E. split.
      * intros H. split; [now apply line_end_on|]. intros [_ X]. contradiction.
      * intros [H NI]. destruct (Classical_Prop.classic (line_end ps (xR p) (yR p))) as [|X]; [assumption|]. exfalso. apply NI. auto.
  - assert (NO : forall x y, ~ on_line ps x y) by (intros x y H; apply on_line_two in H; lia).
    destruct HL as (IL & kind & spread & S2 & N). pose proof (line_pts_ok ps IL) as OK.
    destruct (line_segs _ _ _ _ OK N) as (_ & NS & _).
    assert (LP : length (pairs ps) = 0%nat) by (destruct ps as [|a [|b ps]]; [reflexivity..|cbn in L; lia]).
    rewrite LP in NS. rewrite NS. cbn [Nat.eqb]. split.
    + split; [|intros [H _]; destruct (NO _ _ H)]. intros H. apply andb_true_iff in H. destruct H as [H _]. apply C in H. destruct (NO _ _ H).
    + split; [discriminate|]. intros [H _]. destruct (NO _ _ H).
Qed.

Lemma poly_touches_exact asked q ext holes p : poly_stands asked q ext holes -> int_point 24 p ->
  (tg_point_touches_poly p (Some q) = true <->
   shape_has (SPoly ext holes) (xR p) (yR p) /\ ~ shape_inside (SPoly ext holes) (xR p) (yR p)).
Proof.
  intros [PP Q] IP. cbn [shape_has shape_inside].
  assert (B : tg_point_touches_poly p (Some q) = true <->
    ring_border ext (xR p) (yR p) \/ exists h, In h holes /\ ring_border h (xR p) (yR p)).
  { unfold tg_point_touches_poly. destruct q as [r|r hs]; cbn [tg_poly_exterior poly_holes].
    - destruct Q as [R ->]. cbn [existsb]. rewrite orb_false_r, (border_point_exact asked ext r p R IP).
      split; [auto|]. intros [H|(h & [] & _)]. exact H.
    - destruct Q as [R HS]. rewrite orb_true_iff, (border_point_exact asked ext r p R IP), existsb_exists.
      split; (intros [H|H]; [now left|right]).
      + destruct H as (o & I & H). destruct (Forall2_in_r _ _ _ _ HS I) as (h & J & r' & -> & R' & _).
        exists h. split; [exact J|]. now apply (border_point_exact asked h r').
      + destruct H as (h & I & H). destruct (Forall2_in_l _ _ _ _ HS I) as (o & J & r' & -> & R' & _).
        exists (Some r'). split; [exact J|]. now apply (border_point_exact asked h r'). }
  rewrite B. split.
  - intros H. split; [now apply PP|]. intros [[_ NE] NH]. destruct H as [H|(h & I & H)]; [contradiction|].
    apply (NH h I). now left.
  - intros [[HE HH] NI]. destruct (Classical_Prop.classic (ring_border ext (xR p) (yR p))) as [|NB]; [now left|right].
    destruct (Classical_Prop.classic (exists h, In h holes /\ ring_has h (xR p) (yR p))) as [(h & I & H)|NO].
    + exists h. split; [exact I|]. destruct (Classical_Prop.classic (ring_border h (xR p) (yR p))) as [|NB']; [assumption|].
      exfalso. apply (HH h I). split; assumption.
    + exfalso. apply NI. split; [split; assumption|]. intros h I H. apply NO. exists h. auto.
Qed.

Lemma inside_has_shape s x y : shape_inside s x y -> shape_has s x y.
Proof.
  revert s. fix IH 1. intros [p|ps|ext holes|parts|]; cbn [shape_inside shape_has].
  - auto.
  - intros [H _]. exact H.
  - intros [[H _] N]. split; [exact H|]. intros h I [B _]. exact (N h I B).
  - induction parts as [|s parts IHp]; [auto|]. intros [H|H]; [left; now apply IH|right; now apply IHp].
  - auto.
Qed.

Lemma touch_all_iff {X} (f : X -> out bool * out bool) (T I : X -> Prop) l st :
  (forall x, In x l -> (exists t, fst (f x) = Ret t /\ (t = true <-> T x)) /\ (exists i, snd (f x) = Ret i /\ (i = true <-> I x))) ->
  exists v, touch_all (map f l) st = Ret v /\
    (v = true <-> (st = true \/ exists x, In x l /\ T x) /\ forall x, In x l -> T x \/ ~ I x).
Proof.
  revert st. induction l as [|a l IH]; intros st H; cbn [map touch_all].
  - exists st. split; [reflexivity|]. split.
    + intros ->. split; [now left|intros x []].
    + intros [[E|(x & [] & _)] _]. exact E.
  - destruct (H a (or_introl eq_refl)) as [(t & Et & Tt) (i & Ei & Ti)]. destruct (f a) as [ft fi]. cbn [fst snd] in *. subst ft fi.
    cbn [bind_out]. destruct t.
    + destruct (IH true) as (v & V & E); [intros x J; apply H; now right|]. exists v. split; [exact V|]. rewrite E. split.
      * intros [_ A]. split; [right; exists a; split; [now left|now apply Tt]|]. intros x [<-|J]; [left; now apply Tt|now apply A].
      * intros [_ A]. split; [now left|]. intros x J. apply A. now right.
    + assert (NT : ~ T a) by (intros X1; apply Tt in X1; discriminate). destruct i.
      * exists false. split; [reflexivity|]. split; [discriminate|]. intros [_ A]. exfalso.
        destruct (A a (or_introl eq_refl)) as [|B]; [contradiction|]. apply B. now apply Ti.
      * assert (NI : ~ I a) by (intros X1; apply Ti in X1; discriminate).
        destruct (IH st) as (v & V & E); [intros x J; apply H; now right|]. exists v. split; [exact V|]. rewrite E. split.
        -- intros [[S|(x & J & B)] A]; (split; [|intros x' [<-|J']; [now right|now apply A]]); [now left|right; exists x; split; [now right|exact B]].
        -- intros [[S|(x & [<-|J] & B)] A]; (split; [|intros x' J'; apply A; now right]); [now left|contradiction|right; eauto].
Qed.

(** Points: a geometry covers a point exactly when the point belongs to it,
    contains it exactly when it belongs to it and is not on its boundary, and
    touches it exactly when it belongs to it and is on the boundary of every part
    it belongs to. *)
Theorem C50_points_exact :
  forall g a p, stands [p] g a -> int_point 24 p ->
    let o := Some (GPoint fl0 p) in
    (exists v, tg_geom_covers g o = Ret v /\ (v = true <-> shape_has a (xR p) (yR p))) /\
    (exists v, tg_geom_contains g o = Ret v /\ (v = true <-> shape_inside a (xR p) (yR p))) /\
    (exists v, tg_geom_touches g o = Ret v /\
       (v = true <-> shape_has a (xR p) (yR p) /\ ~ shape_inside a (xR p) (yR p))).
Proof.
  intros g a p SG IP o.
  assert (ME : forall g s, stands [p] g s -> exists v, tg_geom_intersects g o = Ret v /\ (v = true <-> shape_has s (xR p) (yR p))).
  { intros g' s' S'. destruct (C49_intersects_exact_partial g' s' o (SPoint p) S' (st_point _ _ _ IP)) as (v & V & E).
    exists v. split; [exact V|]. rewrite E. unfold share_a_point. cbn [shape_has]. split.
    - intros (x & y & H & -> & ->). exact H.
    - intros H. exists (xR p), (yR p). auto. }
  cut ((forall g s, stands [p] g s ->
    (exists v, tg_geom_covers g o = Ret v /\ (v = true <-> shape_has s (xR p) (yR p))) /\
    (exists v, tg_geom_contains g o = Ret v /\ (v = true <-> shape_inside s (xR p) (yR p))) /\
    (exists v, tg_geom_touches g o = Ret v /\
       (v = true <-> shape_has s (xR p) (yR p) /\ ~ shape_inside s (xR p) (yR p)))) /\
    (forall gs parts, stand_all [p] gs parts -> Forall2 (fun g s => stands [p] g s /\ 
    (exists v, tg_geom_covers g o = Ret v /\ (v = true <-> shape_has s (xR p) (yR p))) /\
    (exists v, tg_geom_contains g o = Ret v /\ (v = true <-> shape_inside s (xR p) (yR p))) /\
    (exists v, tg_geom_touches g o = Ret v /\
       (v = true <-> shape_has s (xR p) (yR p) /\ ~ shape_inside s (xR p) (yR p)))) gs parts)).
  { intros [H _]. apply H, SG. }
  clear g a SG.
  assert (NONE : (exists v, Ret false = Ret v /\ (v = true <-> shape_has SNone (xR p) (yR p))) /\
    (exists v, Ret false = Ret v /\ (v = true <-> shape_inside SNone (xR p) (yR p))) /\
    (exists v, Ret false = Ret v /\ (v = true <-> shape_has SNone (xR p) (yR p) /\ ~ shape_inside SNone (xR p) (yR p)))).
  { repeat split; exists false; (split; [reflexivity|]); (split; [discriminate|]); [intros []|intros []|intros [[] _]]. }
  assert (PT : forall q, int_point 24 q ->
    (exists v, Ret (pteq q p) = Ret v /\ (v = true <-> shape_has (SPoint q) (xR p) (yR p))) /\
    (exists v, Ret (pteq q p) = Ret v /\ (v = true <-> shape_inside (SPoint q) (xR p) (yR p))) /\
    (exists v, Ret false = Ret v /\ (v = true <-> shape_has (SPoint q) (xR p) (yR p) /\ ~ shape_inside (SPoint q) (xR p) (yR p)))).
  { intros q IQ. pose proof (pteq_int_iff q p IQ IP) as E. cbn [shape_has shape_inside].
    split; [|split]; eexists; (split; [reflexivity|]); [rewrite E; intuition congruence..|].
    split; [discriminate|]. intros [H1 H2]. contradiction. }
  assert (LN : forall ps l, line_stands ps l ->
    (exists v, Ret (tg_line_covers_point (Some l) p) = Ret v /\ (v = true <-> shape_has (SLine ps) (xR p) (yR p))) /\
    (exists v, Ret (tg_line_contains_point (Some l) p) = Ret v /\ (v = true <-> shape_inside (SLine ps) (xR p) (yR p))) /\
    (exists v, Ret (tg_point_touches_line p (Some l)) = Ret v /\ (v = true <-> shape_has (SLine ps) (xR p) (yR p) /\ ~ shape_inside (SLine ps) (xR p) (yR p)))).
  { intros ps l HL. destruct (line_contains_exact ps l p HL IP) as [C T].
    split; [|split]; eexists; (split; [reflexivity|]); [exact (line_point_exact ps l p HL IP)|exact C|exact T]. }
  assert (PL : forall q ext holes, poly_stands [p] q ext holes ->
    (exists v, tg_poly_covers_point (Some q) p = Ret v /\ (v = true <-> shape_has (SPoly ext holes) (xR p) (yR p))) /\
    (exists v, tg_poly_contains_point (Some q) p = Ret v /\ (v = true <-> shape_inside (SPoly ext holes) (xR p) (yR p))) /\
    (exists v, Ret (tg_point_touches_poly p (Some q)) = Ret v /\ (v = true <-> shape_has (SPoly ext holes) (xR p) (yR p) /\ ~ shape_inside (SPoly ext holes) (xR p) (yR p)))).
  { intros q ext holes HQ. destruct (poly_point_exact [p] q ext holes p HQ (or_introl eq_refl) IP) as [C T].
    split; [exact C|]. split; [exact T|]. eexists. split; [reflexivity|]. apply (poly_touches_exact [p]); assumption. }
  apply stands_both; intros; try (cbn [tg_geom_covers tg_geom_contains tg_geom_touches on_geom geom_covers geom_contains geom_touches];
    try match goal with H : is_empty _ = _ |- _ => rewrite H end; try exact NONE).
  - exact (PT p0 H).
  - exact (LN ps l H).
  - exact (PL q ext holes H).
  - exact (PT p0 H0).
  - exact (LN ps l H0).
  - exact (PL q ext holes H0).
  - (* collections *)
    rename H2 into ALL.
    assert (CV : forall (pred : option geom -> option geom -> out bool) (Q : shape -> R -> R -> Prop),
      (forall parts x y, Q (SMulti parts) x y <-> exists s, In s parts /\ Q s x y) ->
      Forall2 (fun g s => exists v, pred g o = Ret v /\ (v = true <-> Q s (xR p) (yR p))) gs parts ->
      ((forall g p, In g gs -> In p (Thm_Preds.parts o) -> tg_geom_is_empty p = false -> exists v, pred g p = Ret v) ->
        exists v, pred (Some (GGMulti t f (Some gs) c x)) o = Ret v /\
        (v = true <-> (exists p, In p (Thm_Preds.parts o) /\ tg_geom_is_empty p = false) /\
          forall p, In p (Thm_Preds.parts o) -> tg_geom_is_empty p = false -> Thm_Preds.held pred gs p)) ->
      exists v, pred (Some (GGMulti t f (Some gs) c x)) o = Ret v /\ (v = true <-> Q (SMulti parts) (xR p) (yR p))).
    { intros pred Q HQ F HC. destruct HC as (v & V & E).
      { intros g q I [<-|[]] _. destruct (Forall2_in_l _ _ _ _ F I) as (s & _ & v & V & _). eauto. }
      exists v. split; [exact V|]. rewrite E, HQ. split.
      - intros [_ B]. destruct (B o (or_introl eq_refl) eq_refl) as (g & I & T).
        destruct (Forall2_in_l _ _ _ _ F I) as (s & J & w & W & X). exists s. split; [exact J|]. apply X. congruence.
      - intros (s & J & X). split; [exists o; split; [now left|reflexivity]|]. intros q [<-|[]] _.
        destruct (Forall2_in_r _ _ _ _ F J) as (g & I & w & W & Y). exists g. split; [exact I|]. transitivity (Ret w); [exact W|]. f_equal. now apply Y. }
    pose proof (C45_covers t f gs c x o H) as CC. inversion CC as [|? ? C1 CC']; subst. inversion CC' as [|? ? C2 _]; subst. clear CC CC'.
    assert (X1 : Forall2 (fun g s => exists v, tg_geom_covers g o = Ret v /\ (v = true <-> shape_has s (xR p) (yR p))) gs parts)
      by (eapply Forall2_imp; [exact ALL|]; intros g s (_ & K & _); exact K).
    assert (X2 : Forall2 (fun g s => exists v, tg_geom_contains g o = Ret v /\ (v = true <-> shape_inside s (xR p) (yR p))) gs parts)
      by (eapply Forall2_imp; [exact ALL|]; intros g s (_ & _ & K & _); exact K).
    pose proof (CV tg_geom_covers shape_has multi_has X1 C1) as D1.
    pose proof (CV tg_geom_contains shape_inside multi_inside X2 C2) as D2.
    cbn [tg_geom_covers tg_geom_contains on_geom geom_covers geom_contains] in D1, D2. rewrite H in D1, D2.
    split; [exact D1|]. split; [exact D2|].
    destruct (touch_all_iff (fun c0 : option geom => (match c0 with Some c1 => geom_touches c1 o | None => Ret false end, tg_geom_intersects c0 o))
      (fun g => tg_geom_touches g o = Ret true) (fun g => tg_geom_intersects g o = Ret true) gs false) as (v & V & E).
    { intros g I. destruct (Forall2_in_l _ _ _ _ ALL I) as (s & J & S & _ & _ & (w & W & _)). destruct (ME g s S) as (i & Ei & _). cbn [fst snd].
      split; [exists w|exists i]; (split; [|rewrite ?W, ?Ei; split; congruence]); [|exact Ei]. destruct g; exact W. }
    exists v. split; [exact V|]. rewrite E, multi_has, multi_inside. clear V E. split.
    + intros [[B|(g & I & T)] A]; [discriminate|].
      destruct (Forall2_in_l _ _ _ _ ALL I) as (s & J & S & _ & _ & (w & W & Y)).
      split; [exists s; split; [exact J|]; apply Y; congruence|]. intros (s' & J' & N).
      destruct (Forall2_in_r _ _ _ _ ALL J') as (g' & I' & S' & _ & _ & (w' & W' & Y')).
      destruct (ME g' s' S') as (i & Ei & Yi). destruct (A g' I') as [T'|T'].
      * assert (w' = true) by congruence. apply Y' in H2. apply H2, N.
      * apply T'. rewrite Ei. f_equal. apply Yi. now apply inside_has_shape.
    + intros [(s & J & B) N]. destruct (Forall2_in_r _ _ _ _ ALL J) as (g & I & S & _ & _ & (w & W & Y)). split.
      * right. exists g. split; [exact I|]. rewrite W. f_equal. apply Y. split; [exact B|]. intros X. apply N. eauto.
      * intros g' I'. destruct (Forall2_in_l _ _ _ _ ALL I') as (s' & J' & S' & _ & _ & (w' & W' & Y')).
        destruct (ME g' s' S') as (i & Ei & Yi). destruct i.
        -- left. rewrite W'. f_equal. apply Y'. split; [now apply Yi|]. intros X. apply N. eauto.
        -- right. congruence.
  - constructor.
  - constructor; auto.
Qed.
Print Assumptions C50_points_exact.

(** ** What follows *)

(** intersects is symmetric, and disjoint is its opposite *)
Theorem C49_symmetric_partial :
  forall g a o b, stands (vertices b) g a -> stands (vertices a) o b ->
    tg_geom_intersects g o = tg_geom_intersects o g /\
    exists v, tg_geom_disjoint g o = Ret v /\ (v = true <-> forall x y, shape_has a x y -> ~ shape_has b x y).
Proof.
  intros g a o b SG SO.
  destruct (C49_intersects_exact_partial g a o b SG SO) as (v & V & E).
  destruct (C49_intersects_exact_partial o b g a SO SG) as (w & W & F). split.
  - rewrite V, W. f_equal. apply eq_true_iff_eq. rewrite E, F. unfold share_a_point.
    split; intros (x & y & H1 & H2); exists x, y; auto.
  - unfold tg_geom_disjoint. destruct (out_negb_ret _ _ _ V E) as (u & U & N). exists u. split; [exact U|]. rewrite N.
    unfold share_a_point. split.
    + intros H x y H1 H2. apply H. exists x, y. auto.
    + intros H (x & y & H1 & H2). exact (H x y H1 H2).
Qed.
Print Assumptions C49_symmetric_partial.

(** The index chosen for the rings, lines and collections does not change an
    answer.  Full statement: for any index (false: C51_refuted). *)
Theorem C51_index_independent_partial :
  forall g g' a o o' b, stands (vertices b) g a -> stands (vertices b) g' a ->
    stands (vertices a) o b -> stands (vertices a) o' b ->
    tg_geom_intersects g o = tg_geom_intersects g' o'.
Proof.
  intros g g' a o o' b SG SG' SO SO'.
  destruct (C49_intersects_exact_partial g a o b SG SO) as (v & V & E).
  destruct (C49_intersects_exact_partial g' a o' b SG' SO') as (w & W & F).
  rewrite V, W. f_equal. apply eq_true_iff_eq. now rewrite E, F.
Qed.
Print Assumptions C51_index_independent_partial.
Theorem C51_points_partial :
  forall g g' a p, stands [p] g a -> stands [p] g' a -> int_point 24 p ->
    Forall (fun f : option geom -> option geom -> out bool => f g (Some (GPoint fl0 p)) = f g' (Some (GPoint fl0 p)))
      [tg_geom_covers; tg_geom_contains; tg_geom_touches].
Proof.
  intros g g' a p S S' IP.
  destruct (C50_points_exact g a p S IP) as ((v1 & V1 & E1) & (v2 & V2 & E2) & (v3 & V3 & E3)).
  destruct (C50_points_exact g' a p S' IP) as ((w1 & W1 & F1) & (w2 & W2 & F2) & (w3 & W3 & F3)).
  repeat apply Forall_cons; [..|apply Forall_nil];
    [rewrite V1, W1|rewrite V2, W2|rewrite V3, W3]; f_equal; apply eq_true_iff_eq;
    [now rewrite E1, F1|now rewrite E2, F2|now rewrite E3, F3].
Qed.
Print Assumptions C51_points_partial.

(** the square of C01 with and without y-stripes, and a point on its top edge *)
Theorem C51_refuted :
  exists r1 r2, (forall q, In q (P 3 8 :: ex_square) -> int_point 24 q) /\
    series_new ex_square true IxNone 16 = Some r1 /\ series_new ex_square true IxYstripes 16 = Some r2 /\
    tg_geom_intersects (polygon r1) (Some (GPoint fl0 (P 3 8))) = Ret true /\
    tg_geom_intersects (polygon r2) (Some (GPoint fl0 (P 3 8))) = Ret false.
Proof.
  assert (E : match series_new ex_square true IxNone 16, series_new ex_square true IxYstripes 16 with
    | Some r1, Some r2 => match tg_geom_intersects (polygon r1) (Some (GPoint fl0 (P 3 8))),
        tg_geom_intersects (polygon r2) (Some (GPoint fl0 (P 3 8))) with Ret true, Ret false => true | _, _ => false end
    | _, _ => false end = true) by (vm_compute; reflexivity).
  destruct (series_new ex_square true IxNone 16) as [r1|]; [|discriminate].
  destruct (series_new ex_square true IxYstripes 16) as [r2|]; [|discriminate]. exists r1, r2.
  split.
  { assert (F : forallb (fun q => existsb (fun x => existsb (fun y => (px q =? f_of_Z x)%Z && (py q =? f_of_Z y)%Z) (zs 0 9)) (zs 0 9)) (P 3 8 :: ex_square) = true)
      by (vm_compute; reflexivity).
    clear E. intros [qx qy] I. rewrite forallb_forall in F. specialize (F _ I). apply existsb_exists in F. destruct F as (x & X & F).
    apply existsb_exists in F. destruct F as (y & Y & F). cbn [px py] in F. apply andb_true_iff in F. destruct F as [F1 F2].
    apply Z.eqb_eq in F1, F2. rewrite F1, F2. unfold zs in X, Y. apply in_map_iff in X, Y.
    destruct X as (i & <- & X), Y as (j & <- & Y). apply in_seq in X, Y. apply P_int24; lia. }
  split; [reflexivity|]. split; [reflexivity|].
  destruct (tg_geom_intersects (polygon r1) _) as [[|]| |]; try discriminate E.
  destruct (tg_geom_intersects (polygon r2) _) as [[|]| |]; try discriminate E. auto.
Qed.
Print Assumptions C51_refuted.

(** ** Refuted: a hole in the form of a dart is taken for convex (its first
    corner points inwards).  A line from one arm of the dart to the other leaves
    the dart in between, where it lies in the polygon, and tg finds it disjoint. *)
Definition dart : list pt := [P 10 10; P 0 40; P 0 0; P 40 0; P 10 10].
Definition dart_line : list pt := [P 2 30; P 30 2].
Definition dart_box : list pt := box (-100) (-100) 100 100.
Definition small_ints (ps : list pt) : Prop := forall q, In q ps -> exists x y, q = P x y /\ small x /\ small y.
Lemma small_int ps q : small_ints ps -> In q ps -> int_point 24 q.
Proof. intros S I. destruct (S q I) as (x & y & -> & X & Y). apply P_int24; assumption. Qed.
Ltac smalls := let q := fresh "q" in let I := fresh "I" in
  intros q I; cbn [In app box] in I; repeat destruct I as [<-|I]; [..|destruct I];
  eexists; eexists; (split; [reflexivity|split; unfold small; lia]).

Theorem C49_refuted :
  exists r rh l,
    ring_stands dart_line dart_box r /\ ring_stands dart_line dart rh /\ line_stands dart_line l /\
    poly_proper dart_box [dart] /\
    tg_geom_intersects (Some (GPoly fl0 (PPoly r [Some rh]))) (Some (GLine fl0 l)) = Ret false /\
    share_a_point (SPoly dart_box [dart]) (SLine dart_line).
Proof.
  assert (E : match series_new dart_box true IxNone 16, series_new dart true IxNone 16, series_new dart_line false IxNone 16 with
    | Some r, Some rh, Some l => match tg_geom_intersects (Some (GPoly fl0 (PPoly r [Some rh]))) (Some (GLine fl0 l)), hits (Some rh) (P 16 16) false with
        | Ret false, Ret false => true | _, _ => false end
    | _, _, _ => false end = true) by (vm_compute; reflexivity).
  destruct (series_new dart_box true IxNone 16) as [r|] eqn:ER; [|discriminate].
  destruct (series_new dart true IxNone 16) as [rh|] eqn:EH; [|discriminate].
  destruct (series_new dart_line false IxNone 16) as [l|] eqn:EL; [|discriminate].
  assert (I1 : small_ints dart_box) by (unfold dart_box; smalls).
  assert (I2 : small_ints dart) by (unfold dart; smalls).
  assert (I3 : small_ints dart_line) by (unfold dart_line; smalls).
  exists r, rh, l.
  split. { split; [intros q I; exact (small_int _ q I1 I)|]. exists IxNone, 16%nat. split; [lia|]. split; [exact ER|].
    split; [right; left; reflexivity|]. intros q _. right. exact Logic.I. }
  split. { split; [intros q I; exact (small_int _ q I2 I)|]. exists IxNone, 16%nat. split; [lia|]. split; [exact EH|].
    split; [right; left; reflexivity|]. intros q _. right. exact Logic.I. }
  split. { split; [intros q I; exact (small_int _ q I3 I)|]. exists IxNone, 16%nat. split; [lia|]. exact EL. }
  split.
  { apply box_proper; try (unfold small; lia).
    - apply ints_fin. intros q I. exact (small_int _ q I2 I).
    - intros q I. unfold dart in I. cbn [In] in I. repeat destruct I as [<-|I]; [..|destruct I];
        match goal with |- context [P ?x ?y] => destruct (P_R x y ltac:(lia) ltac:(lia)) as [-> ->] end; lra. }
  destruct (tg_geom_intersects _ _) as [[|]| |]; try discriminate E. split; [reflexivity|].
  destruct (P_R 16 16 ltac:(lia) ltac:(lia)) as [PX PY].
  exists 16%R, 16%R. split.
  - split.
    + apply box_has; try (unfold small; lia). lra.
    + intros h [<-|[]] H. destruct (hits_interior dart IxNone 16 rh (P 16 16)) as (v & V & X); auto.
      * intros q I. exact (small_int _ q I2 I).
      * apply P_int24; lia.
      * lia.
      * right. exact Logic.I.
      * rewrite PX, PY in X. apply X in H. subst v. rewrite V in E. discriminate.
  - exists (Seg (P 2 30) (P 30 2)). split; [now left|]. unfold lies_on. cbn [sa sb].
    destruct (P_R 2 30 ltac:(lia) ltac:(lia)) as [-> ->]. destruct (P_R 30 2 ltac:(lia) ltac:(lia)) as [-> ->].
    exists (1/2)%R. lra.
Qed.
Print Assumptions C49_refuted.

(** ** Examples: a square with a square hole and a point in a collection; all
    rings have a natural index with leaves of two segments *)
Definition ring_of (ps : list pt) : ring :=
  match series_new ps true IxNatural 2 with Some r => r | None => rect_to_ring rect0 end.
Definition line_made (ps : list pt) : ring :=
  match series_new ps false IxNatural 2 with Some r => r | None => rect_to_ring rect0 end.
Definition ex_parts : list (option geom) :=
  [Some (GPoint fl0 (P 200 0)); Some (GPoly fl0 (PPoly (ring_of (box 0 0 100 100)) [Some (ring_of (box 20 20 60 60))]))].
Definition ex_shape : shape := SMulti [SPoint (P 200 0); SPoly (box 0 0 100 100) [box 20 20 60 60]].
Definition ex_geom : option geom := Some (GGMulti MGeoms fl0 (Some ex_parts) [] None).

Lemma box_stands asked x1 y1 x2 y2 r : small x1 -> small y1 -> small x2 -> small y2 ->
  series_new (box x1 y1 x2 y2) true IxNatural 2 = Some r -> ring_stands asked (box x1 y1 x2 y2) r.
Proof.
  intros A B C D E.
  assert (X : explicitly_closed (box x1 y1 x2 y2)).
  { exists (P x1 y1). split; [reflexivity|]. cbn [box last]. now apply same_self. }
  split; [intros q I; exact (box_int x1 y1 x2 y2 A B C D q I)|]. exists IxNatural, 2%nat. split; [lia|]. split; [exact E|].
  split; [right; right; right; left; exact X|]. intros q _. right. left. exact X.
Qed.
Lemma ex_stands asked : stands asked ex_geom ex_shape.
Proof.
  unfold ex_geom, ex_shape. apply st_multi.
  - reflexivity.
  - split; [apply all_proper; vm_compute; reflexivity|]. cbn [ex_parts length]. lia.
  - unfold ex_parts. repeat apply st_cons; [..|apply st_nil].
    + apply st_point, P_int24; lia.
    + apply st_poly. split.
      * apply box_proper; try (unfold small; lia); [apply ints_fin, box_int; unfold small; lia|].
        intros q I. cbn [box In] in I. repeat destruct I as [<-|I]; [..|destruct I];
          match goal with |- context [P ?x ?y] => destruct (P_R x y ltac:(lia) ltac:(lia)) as [-> ->] end; lra.
      * split; [apply box_stands; try (unfold small; lia); vm_compute; reflexivity|].
        constructor; [|constructor]. eexists. split; [reflexivity|]. split.
        -- apply box_stands; try (unfold small; lia); vm_compute; reflexivity.
        -- intros _. apply box_convex; unfold small; lia.
Qed.

(** a square inside the hole is disjoint from it, a line through the hole is not *)
Example C49_example :
  let inner := polygon (ring_of (box 30 30 40 40)) in
  let line := Some (GLine fl0 (line_made [P 40 40; P 70 50; P 80 90])) in
  stands (vertices (SPoly (box 30 30 40 40) [])) ex_geom ex_shape /\
  stands (vertices ex_shape) inner (SPoly (box 30 30 40 40) []) /\
  stands (vertices ex_shape) line (SLine [P 40 40; P 70 50; P 80 90]) /\
  match tg_geom_intersects ex_geom inner, tg_geom_intersects inner ex_geom,
        tg_geom_intersects ex_geom line, tg_geom_intersects line ex_geom with
  | Ret false, Ret false, Ret true, Ret true => true | _, _, _, _ => false end = true.
Proof.
  cbv zeta. split; [apply ex_stands|]. split; [|split; [|vm_compute; reflexivity]].
  - apply st_poly. split.
    + intros x y [B|(h & [] & _)]. split; [now left|intros h []].
    + split; [|reflexivity]. apply box_stands; try (unfold small; lia). vm_compute. reflexivity.
  - apply st_line. split.
    + intros q I. apply (small_int [P 40 40; P 70 50; P 80 90]); [smalls|exact I].
    + exists IxNatural, 2%nat. split; [lia|]. vm_compute. reflexivity.
Qed.

(** its points: in the hole, on the border of the hole, between the rings, and
    the point of the collection *)
Example C50_example :
  (forall p, stands [p] ex_geom ex_shape) /\
  map (fun p => (tg_geom_covers ex_geom (Some (GPoint fl0 p)), tg_geom_contains ex_geom (Some (GPoint fl0 p)),
                 tg_geom_touches ex_geom (Some (GPoint fl0 p))))
    [P 30 30; P 20 30; P 10 10; P 0 100; P 200 0] =
  [(Ret false, Ret false, Ret false); (Ret true, Ret false, Ret true); (Ret true, Ret true, Ret false);
   (Ret true, Ret false, Ret true); (Ret true, Ret true, Ret false)].
Proof. split; [intros p; apply ex_stands|vm_compute; reflexivity]. Qed.

(** the same geometry without indexes gives the same answers *)
Example C51_example :
  match series_new (box 0 0 100 100) true IxNone 16, series_new (box 20 20 60 60) true IxNone 16 with
  | Some r, Some h =>
      let plain := Some (GPoly fl0 (PPoly r [Some h])) in
      let indexed := Some (GPoly fl0 (PPoly (ring_of (box 0 0 100 100)) [Some (ring_of (box 20 20 60 60))])) in
      forallb (fun p => match tg_geom_intersects plain (Some (GPoint fl0 p)), tg_geom_intersects indexed (Some (GPoint fl0 p)) with
        | Ret v, Ret w => Bool.eqb v w | _, _ => false end) [P 30 30; P 20 30; P 10 10; P 0 100; P 200 0]
  | _, _ => false end = true.
Proof. vm_compute. reflexivity. Qed.

(** ** Touches *)

(** Full statement: tg_geom_touches is symmetric.  Proved for a point and a
    geometry that is not a collection; false for collections. *)
Definition is_collection (g : geom) : bool := match g with GGMulti _ _ _ _ _ => true | _ => false end.
Theorem C52_touches_symmetric_partial :
  forall g p, is_collection g = false ->
    tg_geom_touches (Some g) (Some (GPoint fl0 p)) = tg_geom_touches (Some (GPoint fl0 p)) (Some g).
Proof.
  intros [f q|f l|f q|f q z m x|f l c x|f q c x|t f gs c x] p H; try discriminate H; cbn;
    try reflexivity; destruct (is_empty f); reflexivity.
Qed.
Print Assumptions C52_touches_symmetric_partial.

(** a line that ends at a point and a square around it: the point touches the
    collection, the collection does not touch the point *)
Theorem C52_refuted :
  exists l r, line_stands [P 5 5; P 50 5] l /\ ring_stands [P 5 5] (box 0 0 10 10) r /\
    let g := Some (GGMulti MGeoms fl0 (Some [Some (GLine fl0 l); polygon r]) [] None) in
    tg_geom_touches (Some (GPoint fl0 (P 5 5))) g = Ret true /\
    tg_geom_touches g (Some (GPoint fl0 (P 5 5))) = Ret false.
Proof.
  assert (E : match series_new [P 5 5; P 50 5] false IxNone 16, series_new (box 0 0 10 10) true IxNatural 2 with
    | Some l, Some r => let g := Some (GGMulti MGeoms fl0 (Some [Some (GLine fl0 l); polygon r]) [] None) in
        match tg_geom_touches (Some (GPoint fl0 (P 5 5))) g, tg_geom_touches g (Some (GPoint fl0 (P 5 5))) with
        | Ret true, Ret false => true | _, _ => false end
    | _, _ => false end = true) by (vm_compute; reflexivity).
  destruct (series_new [P 5 5; P 50 5] false IxNone 16) as [l|] eqn:EL; [|discriminate].
  destruct (series_new (box 0 0 10 10) true IxNatural 2) as [r|] eqn:ER; [|discriminate]. exists l, r.
  split. { split; [intros q I; apply (small_int [P 5 5; P 50 5]); [smalls|exact I]|]. exists IxNone, 16%nat. split; [lia|exact EL]. }
  split. { apply box_stands; try (unfold small; lia). exact ER. }
  cbv zeta in *. destruct (tg_geom_touches (Some (GPoint fl0 (P 5 5))) _) as [[|]| |]; try discriminate E.
  destruct (tg_geom_touches _ _) as [[|]| |]; try discriminate E. auto.
Qed.
Print Assumptions C52_refuted.
Example C52_example :
  match series_new [P 5 5; P 50 5] false IxNone 16 with
  | Some l => match tg_geom_touches (Some (GLine fl0 l)) (Some (GPoint fl0 (P 50 5))),
                    tg_geom_touches (Some (GPoint fl0 (P 50 5))) (Some (GLine fl0 l)) with
              | Ret true, Ret true => true | _, _ => false end
  | None => false end = true.
Proof. vm_compute. reflexivity. Qed.
