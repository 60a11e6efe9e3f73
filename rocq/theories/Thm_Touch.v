(** * What touches means: a common point, and no common interior point *)

From Coq Require Import ZArith Reals Bool List Lia Lra PeanoNat.
From Verif Require Import F64 F32 Geo Series Search RingApi Geom MultiIx Preds PredsFacts PredsGeom F64Order F64Real
  SeriesFacts SearchFacts SeriesExamples SpecGeo SpecFacts SpecPlane SpecPreds SpecRing SpecShape
  SegExact SegRing Thm_Ring Thm_Seg Thm_Multi Thm_Pairs Thm_Preds Jordan JordanRing MeetFacts RingMeet PolyMeet ShapeBox Thm_Shapes.
Import ListNotations.

(** the shapes have points in common, but none that is inside both *)
Definition only_touch (a b : shape) : Prop :=
  share_a_point a b /\ ~ exists x y, shape_inside a x y /\ shape_inside b x y.

(** no line of the shape is made of a single point *)
Fixpoint real_lines (sh : shape) : Prop :=
  match sh with
  | SLine ps => length ps <> 1%nat
  | SMulti parts => (fix all l := match l with [] => True | s :: rest => real_lines s /\ all rest end) parts
  | _ => True
  end.

(** ** What an answer true says *)

Lemma any_true l : any_of l = Ret true -> In (Ret true) l.
Proof.
  induction l as [|x l IH]; cbn [any_of]; [discriminate|]. destruct x as [[|]| |]; cbn [bind_out]; try discriminate; [now left|].
  intros H. right. auto.
Qed.
Lemma touch_all_true l st : touch_all l st = Ret true -> st = true \/ exists ti, In ti l /\ fst ti = Ret true.
Proof.
  revert st. induction l as [|[t i] l IH]; intros st; cbn [touch_all]; [intros [= ->]; now left|].
  destruct t as [[|]| |]; cbn [bind_out]; try discriminate.
  - intros _. right. exists (Ret true, i). split; [now left|reflexivity].
  - destruct i as [[|]| |]; cbn [bind_out]; try discriminate. intros H. destruct (IH _ H) as [|(ti & I & E)]; [now left|].
    right. exists ti. split; [now right|exact E].
Qed.
Lemma hole_touch_true f pts hs : hole_touch f pts hs = Ret (Some true) ->
  exists h, In h hs /\ f h = Ret true /\ existsb (tg_line_covers_point h) pts = true.
Proof.
  induction hs as [|h hs IH]; cbn [hole_touch]; [discriminate|]. destruct (f h) as [[|]| |] eqn:F; cbn [bind_out]; try discriminate.
  - intros [= E]. exists h. split; [now left|]. auto.
  - intros H. destruct (IH H) as (h' & I & R). exists h'. split; [now right|exact R].
Qed.
Lemma count_touches_more e segs n m : count_touches e segs n = Ret (Some m) -> (n < m)%nat ->
  exists s, In s segs /\ tg_ring_intersects_segment e s true = Ret true /\ tg_ring_intersects_segment e s false = Ret false.
Proof.
  revert n. induction segs as [|s segs IH]; intros n; cbn [count_touches]; [intros [= ->]; lia|].
  destruct (tg_ring_intersects_segment e s true) as [i0| |] eqn:E0; cbn [bind_out]; try discriminate.
  destruct (tg_ring_intersects_segment e s false) as [i1| |] eqn:E1; cbn [bind_out]; try discriminate.
  destruct i0, i1; cbn [andb orb negb]; try discriminate; intros H L.
  - exists s. split; [now left|auto].
  - destruct (IH _ H L) as (s' & I & R). exists s'. split; [now right|exact R].
Qed.

Lemma line_pts ps l : line_stands ps l -> Preds.ring_pts l = ps.
Proof.
  intros (_ & kind & spread & _ & N). apply series_new_fields in N. cbv zeta in N. destruct N as (_ & EN & _ & EP & _).
  unfold Preds.ring_pts. rewrite EN, EP. unfold ringpts. rewrite firstn_app, Nat.sub_diag, firstn_all. cbn. apply app_nil_r.
Qed.
Lemma ring_stands_pts asked ps r : ring_stands asked ps r -> Preds.ring_pts r = ps.
Proof.
  intros (_ & kind & spread & _ & N & _). apply series_new_fields in N. cbv zeta in N. destruct N as (_ & EN & _ & EP & _).
  unfold Preds.ring_pts. rewrite EN, EP. unfold ringpts. rewrite firstn_app, Nat.sub_diag, firstn_all. cbn. apply app_nil_r.
Qed.
Lemma line_vertex ps q : length ps <> 1%nat -> In q ps -> on_line ps (xR q) (yR q).
Proof.
  intros L I. assert (L2 : (2 <= length ps)%nat) by (destruct ps as [|a [|b ps]]; [destruct I|cbn in L; lia|cbn; lia]).
  destruct (pairs_cover ps q L2 I) as (s & Is & [->| ->]); exists s; (split; [exact Is|]); [apply on_segment_a|apply on_segment_b].
Qed.

(** a segment that is found to meet a ring, but not its inside, meets its border *)
Lemma touching_border ps r s : int_segment 24 s -> ring_stands [sa s; sb s] ps r ->
  tg_ring_intersects_segment (Some r) s true = Ret true -> tg_ring_intersects_segment (Some r) s false = Ret false ->
  exists x y, lies_on s x y /\ ring_border ps x y.
Proof.
  intros IS HR T F. pose proof HR as (IR & _).
  destruct (ring_segment_exact ps r s IS HR) as (v & V & E). rewrite T in V. injection V as <-.
  destruct (proj1 E eq_refl) as (x & y & L & H).
  destruct (Classical_Prop.classic (exists u w, lies_on s u w /\ ring_border ps u w)) as [|NO]; [assumption|exfalso].
  assert (D : forall u w, on_line [sa s; sb s] u w -> ~ ring_border ps u w).
  { intros u w (t & [<-|[]] & O) B. apply NO. exists u, w. destruct s. auto. }
  assert (ON : on_line [sa s; sb s] x y) by (exists (Seg (sa s) (sb s)); split; [now left|]; destruct s; exact L).
  assert (IN : ring_interior ps (xR (sa s)) (yR (sa s))).
  { apply (line_inside [sa s; sb s] ps x y); auto; [now apply ints_fin|split; [exact H|now apply D]|].
    exists (Seg (sa s) (sb s)). split; [now left|]. apply on_segment_a. }
  unfold tg_ring_intersects_segment in T, F.
  destruct (tg_rect_intersects_rect (tg_segment_rect s) (r_rect r)) eqn:RB; cbn [negb] in T, F; [|discriminate T].
  destruct (stands_hits _ ps r (sa s) false HR (or_introl eq_refl) (proj1 IS)) as (v & V & E').
  cbn [any_of] in F. rewrite V in F. apply E' in IN. subst v. cbn [bind_out] in F. discriminate.
Qed.

(** the borders of the rings belong to the polygon *)
Lemma ext_vertex ext holes q : poly_proper ext holes -> (3 <= length ext)%nat -> In q ext -> poly_has ext holes (xR q) (yR q).
Proof. intros PP L I. apply PP. left. now apply border_vertex. Qed.

Lemma poly_hole asked q ext holes h : poly_stands asked q ext holes -> In h (poly_holes (Some q)) ->
  exists ph r, In ph holes /\ h = Some r /\ ring_stands asked ph r.
Proof.
  intros [_ Q] I. destruct q as [r|r hs]; cbn [poly_holes] in I; [destruct I|]. destruct Q as [_ HS].
  destruct (Forall2_in_r _ _ _ _ HS I) as (ph & J & r' & -> & R & _). eauto.
Qed.
Lemma poly_ext asked q ext holes : poly_stands asked q ext holes ->
  exists r, tg_poly_exterior (Some q) = Some r /\ ring_stands asked ext r.
Proof. intros [_ Q]. destruct q as [r|r hs]; exists r; (split; [reflexivity|]); apply Q. Qed.

Lemma poly_line_touches asked q ext holes pl l : poly_stands asked q ext holes -> line_stands pl l -> length pl <> 1%nat ->
  tg_poly_touches_line (Some q) (Some l) = Ret true ->
  exists x y, poly_has ext holes x y /\ on_line pl x y.
Proof.
  intros HQ HL L1. pose proof HQ as [PP _]. pose proof HL as (IL & _). unfold tg_poly_touches_line.
  destruct (tg_rect_intersects_rect _ _); cbn [negb]; [|discriminate]. rewrite (line_pts pl l HL).
  destruct (hole_touch _ _ _) as [o| |] eqn:HT; cbn [bind_out]; try discriminate. destruct o as [v|].
  - intros [= ->]. destruct (hole_touch_true _ _ _ HT) as (h & I & _ & X).
    destruct (poly_hole _ _ _ _ _ HQ I) as (ph & r & J & -> & R). apply existsb_exists in X. destruct X as (p & Ip & C).
    apply (border_point_exact asked ph r p R (IL p Ip)) in C. exists (xR p), (yR p). split; [|now apply line_vertex].
    apply PP. right. eauto.
  - destruct (poly_ext _ _ _ _ HQ) as (r & -> & R). destruct (existsb _ pl) eqn:X; cbn [negb]; [|discriminate].
    intros _. apply existsb_exists in X. destruct X as (p & Ip & C).
    apply (border_point_exact asked ext r p R (IL p Ip)) in C. exists (xR p), (yR p). split; [|now apply line_vertex].
    apply PP. now left.
Qed.

Lemma in_ring_three ps r asked (x : ring) e : ring_stands asked ps r -> tg_ring_contains_ring (Some x) (Some r) e = Ret true -> (3 <= length ps)%nat.
Proof.
  intros R. destruct (ring_stands_facts _ _ _ R) as (_ & E & _). unfold tg_ring_contains_ring. rewrite E.
  destruct (length ps <? 3)%nat eqn:L; [rewrite orb_true_r; discriminate|]. apply Nat.ltb_ge in L. auto.
Qed.

Lemma poly_poly_touches aska askb qa ea ha qb eb hb : poly_stands aska qa ea ha -> poly_stands askb qb eb hb ->
  (forall p, In p eb -> In p aska) -> (forall p, In p ea -> In p askb) ->
  tg_poly_touches_poly (Some qa) (Some qb) = Ret true ->
  exists x y, poly_has ea ha x y /\ poly_has eb hb x y.
Proof.
  intros QA QB SA SB. pose proof QA as [PA _]. pose proof QB as [PB _].
  destruct (poly_ext _ _ _ _ QA) as (ra & EA & RA). destruct (poly_ext _ _ _ _ QB) as (rb & EB & RB).
  pose proof RA as (IA & _). pose proof RB as (IB & _).
  unfold tg_poly_touches_poly. rewrite EA, EB. cbv zeta.
  destruct (tg_rect_intersects_rect _ _); cbn [negb]; [|discriminate].
  rewrite (ring_stands_pts _ _ _ RA), (ring_stands_pts _ _ _ RB).
  destruct (ring_stands_facts _ _ _ RA) as (-> & _). destruct (ring_stands_facts _ _ _ RB) as (-> & _).
  destruct (hole_touch _ eb _) as [o| |] eqn:HT; cbn [bind_out]; try discriminate. destruct o as [v|].
  { intros [= ->]. destruct (hole_touch_true _ _ _ HT) as (h & I & C3 & X).
    destruct (poly_hole _ _ _ _ _ QA I) as (ph & r & J & -> & R). apply (in_ring_three eb rb askb) in C3; [|exact RB].
    apply existsb_exists in X. destruct X as (p & Ip & C).
    apply (border_point_exact aska ph r p R (IB p Ip)) in C. exists (xR p), (yR p). split; [|now apply ext_vertex].
    apply PA. right. eauto. }
  clear HT. destruct (hole_touch _ ea _) as [o| |] eqn:HT; cbn [bind_out]; try discriminate. destruct o as [v|].
  { intros [= ->]. destruct (hole_touch_true _ _ _ HT) as (h & I & C3 & X).
    destruct (poly_hole _ _ _ _ _ QB I) as (ph & r & J & -> & R). apply (in_ring_three ea ra aska) in C3; [|exact RA].
    apply existsb_exists in X. destruct X as (p & Ip & C).
    apply (border_point_exact askb ph r p R (IA p Ip)) in C. exists (xR p), (yR p). split; [now apply ext_vertex|].
    apply PB. right. eauto. }
  clear HT.
  assert (CT : forall pr r ps ask n, ring_stands ask pr r -> (forall q, In q ps -> In q ask) -> (forall q, In q ps -> int_point 24 q) ->
    count_touches (Some r) (ring_segments ps) 0 = Ret (Some n) -> (0 < n)%nat -> exists x y, ring_border pr x y /\ ring_border ps x y).
  { intros pr r ps ask n R S I C L. destruct (count_touches_more _ _ _ _ C L) as (s & Is & T & F).
    pose proof (ring_segments_in _ _ Is) as [Ia Ib].
    destruct (touching_border pr r s) as (x & y & A & B); auto.
    - split; auto.
    - eapply ring_stands_less; [exact R|]. intros q [<-|[<-|[]]]; auto.
    - exists x, y. split; [exact B|]. exists s. auto. }
  destruct (count_touches _ (ring_segments eb) 0) as [[bt|]| |] eqn:CB; cbn [bind_out]; try discriminate.
  destruct (count_touches _ (ring_segments ea) 0) as [[at_|]| |] eqn:CA; cbn [bind_out]; try discriminate.
  destruct (0 <? at_)%nat eqn:LA; cbn [orb].
  - intros _. apply Nat.ltb_lt in LA. destruct (CT _ _ _ _ _ RB SB IA CA LA) as (x & y & B1 & B2). exists x, y. split; [apply PA|apply PB]; now left.
  - destruct (0 <? bt)%nat eqn:LB; [|discriminate]. intros _. apply Nat.ltb_lt in LB.
    destruct (CT _ _ _ _ _ RA SA IB CB LB) as (x & y & B1 & B2). exists x, y. split; [apply PA|apply PB]; now left.
Qed.

Lemma line_line_touches pa a pb b : line_stands pa a -> line_stands pb b ->
  tg_line_touches_line (Some a) (Some b) = true -> exists x y, on_line pa x y /\ on_line pb x y.
Proof.
  intros HA HB. pose proof (line_line_exact pa a pb b HA HB) as LL.
  destruct HA as (IA & ka & na & SA & NA), HB as (IB & kb & nb & SB & NB).
  destruct (C03_pairs_exact_partial pa false ka na a pb false kb nb b) as (L & _ & HL & RUN); auto.
  { intros p [I|I]; auto. }
  { left. reflexivity. } { left. reflexivity. }
  destruct (RUN _ (touches_iter (r_nsegs a) (r_nsegs b)) false) as (_ & _ & E). unfold tg_line_touches_line. rewrite E.
  destruct L as [|[i j] L]; [discriminate|]. intros _.
  destruct (proj1 (HL i j) (or_introl eq_refl)) as (s & t & I & J & x & y & A & B).
  apply nth_error_In in I, J. exists x, y. split; [exists s|exists t]; auto.
Qed.

(** ** Any two geometries *)

Lemma real_multi s parts : real_lines (SMulti (s :: parts)) <-> real_lines s /\ real_lines (SMulti parts).
Proof. reflexivity. Qed.

Lemma some_child_true (A : arms) (P : R -> R -> Prop) (mine asked : list pt) :
  (forall p, int_point 24 p -> In p asked -> on_point A p = Ret true -> P (xR p) (yR p)) ->
  (forall pl l, line_stands pl l -> length pl <> 1%nat -> (forall p, In p pl -> In p asked) ->
     PredsGeom.on_line A (Some l) = Ret true -> exists x y, P x y /\ on_line pl x y) ->
  (forall q ext holes, poly_stands mine q ext holes -> (forall p, In p (ext ++ concat holes) -> In p asked) ->
     on_poly A (Some q) = Ret true -> exists x y, P x y /\ poly_has ext holes x y) ->
  (forall o s, stands mine o s -> real_lines s -> (forall p, In p (vertices s) -> In p asked) ->
     on_geom (some_child A) o = Ret true -> exists x y, P x y /\ shape_has s x y) /\
  (forall gs parts, stand_all mine gs parts -> real_lines (SMulti parts) -> (forall p, In p (vertices (SMulti parts)) -> In p asked) ->
     any_of (map (on_geom (some_child A)) gs) = Ret true -> exists x y, P x y /\ shape_has (SMulti parts) x y).
Proof.
  intros HP HL HQ.
  assert (PT : forall p, int_point 24 p -> In p asked -> on_point A p = Ret true -> exists x y, P x y /\ shape_has (SPoint p) x y).
  { intros p I J E. exists (xR p), (yR p). split; [now apply HP|]. split; reflexivity. }
  apply stands_both; intros; repeat match goal with X : on_geom _ _ = _ |- _ => cbn [on_geom some_child] in X end;
    try match goal with H : is_empty _ = _, X : _ = Ret true |- _ => rewrite H in X end; try discriminate.
  - apply PT; auto. apply H1. now left.
  - now apply (HL ps l).
  - now apply (HQ q ext holes).
  - apply PT; auto. apply H2. now left.
  - now apply (HL ps l).
  - now apply (HQ q ext holes).
  - now apply H2.
  - apply real_multi in H3. destruct H3 as [R1 R2]. cbn [map any_of] in H5.
    destruct (on_geom (some_child A) g) as [[|]| |] eqn:E; cbn [bind_out] in H5; try discriminate.
    + destruct H0 as (x & y & Q & S); auto; [intros q I; apply H4; rewrite multi_vertices; apply in_or_app; auto|].
      exists x, y. split; [exact Q|]. now left.
    + destruct H2 as (x & y & Q & S); auto; [intros q I; apply H4; rewrite multi_vertices; apply in_or_app; auto|].
      exists x, y. split; [exact Q|]. now right.
Qed.

Lemma point_touches_true asked o s p : stands asked o s -> int_point 24 p -> real_lines s ->
  point_touches_geom p o = Ret true -> share_a_point (SPoint p) s.
Proof.
  intros S IP RL. unfold point_touches_geom, share_a_point. cbn [shape_has]. intros T.
  refine (proj1 (some_child_true (Arms _ _ _) (fun x y => x = xR p /\ y = yR p) asked (vertices s) _ _ _) o s S RL (fun _ H => H) T); cbn [on_point PredsGeom.on_line on_poly].
  - discriminate.
  - intros pl l HL _ _ [= E]. apply (proj2 (line_contains_exact pl l p HL IP)) in E. exists (xR p), (yR p). split; [auto|]. apply E.
  - intros q ext holes HQ _ [= E]. apply (poly_touches_exact asked q ext holes p HQ IP) in E. exists (xR p), (yR p). split; [auto|]. apply E.
Qed.

Lemma line_touches_true asked o s pl l : stands asked o s -> (forall p, In p pl -> In p asked) -> line_stands pl l ->
  length pl <> 1%nat -> real_lines s -> line_touches_geom (Some l) o = Ret true -> share_a_point (SLine pl) s.
Proof.
  intros S I HL L1 RL. unfold line_touches_geom, share_a_point. cbn [shape_has]. intros T.
  refine (proj1 (some_child_true (Arms _ _ _) (fun x y => on_line pl x y) asked (vertices s) _ _ _) o s S RL (fun _ H => H) T); cbn [on_point PredsGeom.on_line on_poly].
  - intros p Ip _ [= E]. apply (proj2 (line_contains_exact pl l p HL Ip)) in E. apply E.
  - intros pm m HM _ _ [= E]. now apply (line_line_touches pl l pm m).
  - intros q ext holes HQ _ E. destruct (poly_line_touches _ _ _ _ _ _ HQ HL L1 E) as (x & y & A & B). exists x, y. auto.
Qed.

Lemma poly_touches_true asked mine q ext holes : poly_stands mine q ext holes -> (forall p, In p (ext ++ concat holes) -> In p asked) ->
  (forall o s, stands asked o s -> (forall p, In p (vertices s) -> In p mine) -> real_lines s ->
     poly_touches_geom (Some q) o = Ret true -> share_a_point (SPoly ext holes) s) /\
  (forall gs parts, stand_all asked gs parts -> (forall p, In p (vertices (SMulti parts)) -> In p mine) -> real_lines (SMulti parts) ->
     forall g, In g gs -> poly_touches_geom (Some q) g = Ret true -> share_a_point (SPoly ext holes) (SMulti parts)).
Proof.
  intros HQ I.
  assert (PT : forall p, int_point 24 p -> Ret (tg_point_touches_poly p (Some q)) = Ret true -> share_a_point (SPoly ext holes) (SPoint p)).
  { intros p IP [= E]. apply (poly_touches_exact mine q ext holes p HQ IP) in E. exists (xR p), (yR p).
    split; [apply E|split; reflexivity]. }
  apply stands_both; intros; repeat match goal with X : poly_touches_geom _ _ = _ |- _ => unfold poly_touches_geom in X; cbn [on_geom poly_touches] in X end;
    try match goal with H : is_empty _ = _, X : _ = Ret true |- _ => rewrite H in X end; try discriminate.
  - now apply PT.
  - eapply poly_line_touches; eauto.
  - eapply (poly_poly_touches mine asked); eauto; intros p J; [apply H0|apply I]; apply in_or_app; now left.
  - now apply PT.
  - eapply poly_line_touches; eauto.
  - eapply (poly_poly_touches mine asked); eauto; intros p J; [apply H1|apply I]; apply in_or_app; now left.
  - destruct (touch_all_true _ _ H5) as [|(ti & J & E)]; [discriminate|]. apply in_map_iff in J. destruct J as (g & <- & J). cbn [fst] in E.
    apply (H2 H3 H4 g J). destruct g; [exact E|discriminate E].
  - match goal with X : In _ [] |- _ => destruct X end.
  - apply real_multi in H4. destruct H4 as [R1 R2]. destruct H5 as [<-|J].
    + destruct (H0 ltac:(intros pp K; apply H3; rewrite multi_vertices; apply in_or_app; now left) R1 H6) as (x & y & A & B).
      exists x, y. split; [exact A|]. now left.
    + destruct (H2 ltac:(intros pp K; apply H3; rewrite multi_vertices; apply in_or_app; now right) R2 _ J H6) as (x & y & A & B).
      exists x, y. split; [exact A|]. now right.
Qed.

(** Full statement: tg_geom_touches answers true exactly when the geometries
    have a point in common and none inside both.  It is false both ways, see
    C54_refuted.  Proved, for the geometries of C49 whose lines have two points
    or more: an answer true means that there is a common point; so geometries
    that touch intersect. *)
Theorem C54_shares_partial :
  forall g a o b, stands (vertices b) g a -> stands (vertices a) o b -> real_lines a -> real_lines b ->
    tg_geom_touches g o = Ret true -> share_a_point a b /\ tg_geom_intersects g o = Ret true.
Proof.
  intros g a o b SG SO RA RB T.
  cut (share_a_point a b).
  { intros H. split; [exact H|]. destruct (C49_intersects_exact_partial g a o b SG SO) as (v & -> & E). f_equal. now apply E. }
  cut ((forall g a', stands (vertices b) g a' -> (forall p, In p (vertices a') -> In p (vertices a)) -> real_lines a' ->
          tg_geom_touches g o = Ret true -> share_a_point a' b) /\
       (forall gs parts, stand_all (vertices b) gs parts -> (forall p, In p (vertices (SMulti parts)) -> In p (vertices a)) -> real_lines (SMulti parts) ->
          forall g, In g gs -> tg_geom_touches g o = Ret true -> share_a_point (SMulti parts) b)).
  { intros [H _]. apply (H g a); auto. }
  clear g SG RA T.
  assert (FLIP : forall s t, share_a_point s t -> share_a_point t s) by (intros s t (x & y & H1 & H2); exists x, y; auto).
  apply stands_both; intros; repeat match goal with X : tg_geom_touches _ _ = _ |- _ => unfold tg_geom_touches in X; cbn [on_geom geom_touches] in X end;
    try match goal with H : is_empty _ = _, X : _ = Ret true |- _ => rewrite H in X end; try discriminate.
  - now apply (point_touches_true (vertices a) o b p).
  - now apply (line_touches_true (vertices a) o b ps l).
  - apply (proj1 (poly_touches_true (vertices a) (vertices b) q ext holes H H0) o b); auto.
  - now apply (point_touches_true (vertices a) o b p).
  - now apply (line_touches_true (vertices a) o b ps l).
  - apply (proj1 (poly_touches_true (vertices a) (vertices b) q ext holes H0 H1) o b); auto.
  - destruct (touch_all_true _ _ H5) as [|(ti & J & E)]; [discriminate|]. apply in_map_iff in J. destruct J as (g & <- & J). cbn [fst] in E.
    apply (H2 H3 H4 g J). destruct g; [exact E|discriminate E].
  - match goal with X : In _ [] |- _ => destruct X end.
  - apply real_multi in H4. destruct H4 as [R1 R2]. destruct H5 as [<-|J].
    + destruct (H0 ltac:(intros pp K; apply H3; rewrite multi_vertices; apply in_or_app; now left) R1 H6) as (x & y & A & B).
      exists x, y. split; [now left|exact B].
    + destruct (H2 ltac:(intros pp K; apply H3; rewrite multi_vertices; apply in_or_app; now right) R2 _ J H6) as (x & y & A & B).
      exists x, y. split; [now right|exact B].
Qed.
Print Assumptions C54_shares_partial.

(** ** Two lines *)

(** no segment of no length *)
Definition no_stops (ps : list pt) : Prop :=
  forall s, In s (pairs ps) -> ~ (xR (sa s) = xR (sb s) /\ yR (sa s) = yR (sb s)).
(** the line does not come back to its ends *)
Definition free_ends (ps : list pt) : Prop :=
  forall i s p, nth_error (pairs ps) i = Some s -> lies_on s (xR p) (yR p) ->
    (hd_error ps = Some p -> i = 0%nat) /\ (hd_error (rev ps) = Some p -> S i = length (pairs ps)).
(** a segment of one and a segment of the other have at most one point in common *)
Definition meet_once (pa pb : list pt) : Prop :=
  forall s t x y x' y', In s (pairs pa) -> In t (pairs pb) ->
    lies_on s x y -> lies_on t x y -> lies_on s x' y' -> lies_on t x' y' -> x = x' /\ y = y'.

Lemma collinear_on t q : int_segment 24 t -> int_point 24 q -> ~ (xR (sa t) = xR (sb t) /\ yR (sa t) = yR (sb t)) ->
  collinear (px (sa t)) (py (sa t)) (px (sb t)) (py (sb t)) (px q) (py q) = true ->
  exists m, (xR q = xR (sa t) + m * (xR (sb t) - xR (sa t)) /\ yR q = yR (sa t) + m * (yR (sb t) - yR (sa t)))%R.
Proof.
  intros [[[F1 (x1 & X1 & B1)] [G1 (y1 & Y1 & C1)]] [[F2 (x2 & X2 & B2)] [G2 (y2 & Y2 & C2)]]] [[F3 (x3 & X3 & B3)] [G3 (y3 & Y3 & C3)]].
  unfold xR, yR. rewrite X1, Y1, X2, Y2, X3, Y3. intros ND.
  rewrite (collinear_Z _ _ _ x1 y1 x2 y2 x3 y3); try (split; split; assumption); unfold bnd; try (apply Z.abs_le; assumption).
  destruct (Z.eqb_spec x1 x2) as [<-|NE].
  - intros E. apply Z.eqb_eq in E. subst x3. exists ((IZR y3 - IZR y1) / (IZR y2 - IZR y1))%R.
    assert (IZR y2 - IZR y1 <> 0)%R by (intros E; apply ND; split; [reflexivity|lra]). split; [field; assumption|field; assumption].
  - intros E. apply Z.eqb_eq in E. unfold cross in E. exists ((IZR x3 - IZR x1) / (IZR x2 - IZR x1))%R.
    assert (D : (IZR x2 - IZR x1 <> 0)%R) by (intros K; apply NE, eq_IZR; lra).
    apply (f_equal IZR) in E. rewrite minus_IZR, !mult_IZR, !minus_IZR in E.
    split; [field; exact D|]. apply (Rmult_eq_reg_r (IZR x2 - IZR x1)%R); [|exact D]. field_simplify; [|exact D]. lra.
Qed.

Lemma touches0_exact t p q : int_segment 24 t -> int_point 24 p -> int_point 24 q ->
  ~ (xR (sa t) = xR (sb t) /\ yR (sa t) = yR (sb t)) -> ~ (xR p = xR q /\ yR p = yR q) ->
  (forall x y x' y', lies_on (Seg p q) x y -> lies_on t x y -> lies_on (Seg p q) x' y' -> lies_on t x' y' -> x = x' /\ y = y') ->
  segment_touches0 t p q = true <-> lies_on t (xR p) (yR p).
Proof.
  intros IT IP IQ NT NP ONE. pose proof (C10_covers_exact_24 t p IT IP) as C. unfold segment_touches0.
  destruct (tg_segment_covers_point t p) eqn:EC; cbn [negb].
  2:{ split; [discriminate|]. intros H. apply C in H. discriminate. }
  assert (ON : lies_on t (xR p) (yR p)) by now apply C. clear C EC. split; [auto|]. intros _.
  destruct (collinear _ _ _ _ _ _) eqn:CO; cbn [negb]; [|reflexivity].
  assert (PQ : lies_on (Seg p q) (xR p) (yR p)) by apply on_segment_a.
  assert (IPQ : int_segment 24 (Seg p q)) by (split; assumption).
  destruct (pteq (sa t) p) eqn:EA.
  { apply pteq_int in EA; [|apply IT|exact IP]. destruct (tg_segment_covers_point (Seg p q) (sb t)) eqn:K; [|reflexivity].
    apply (C10_covers_exact_24 _ _ IPQ (proj2 IT)) in K. exfalso.
    destruct (ONE _ _ _ _ PQ ON K (on_segment_b _ _ _ _)) as [E1 E2]. apply NT. split; [rewrite (proj1 EA)|rewrite (proj2 EA)]; assumption. }
  destruct (pteq (sb t) p) eqn:EB.
  { apply pteq_int in EB; [|apply IT|exact IP]. destruct (tg_segment_covers_point (Seg p q) (sa t)) eqn:K; [|reflexivity].
    apply (C10_covers_exact_24 _ _ IPQ (proj1 IT)) in K. exfalso.
    destruct (ONE _ _ _ _ PQ ON K (on_segment_a _ _ _ _)) as [E1 E2]. apply NT. split; [rewrite (proj1 EB)|rewrite (proj2 EB)]; symmetry; assumption. }
  exfalso.
  assert (NA : ~ (xR (sa t) = xR p /\ yR (sa t) = yR p)).
  { intros H. apply (pteq_int_iff _ _ (proj1 IT) IP) in H. congruence. }
  assert (NB : ~ (xR (sb t) = xR p /\ yR (sb t) = yR p)).
  { intros H. apply (pteq_int_iff _ _ (proj2 IT) IP) in H. congruence. }
  clear EA EB. destruct (collinear_on t q IT IQ NT CO) as (m & QX & QY). pose proof ON as (k & K & PX & PY).
  assert (K0 : k <> 0%R) by (intros ->; apply NA; lra). assert (K1 : k <> 1%R) by (intros ->; apply NB; lra).
  assert (KM : (m - k <> 0)%R) by (intros E; assert (m = k) by lra; subst m; apply NP; lra).
  assert (EX : exists n : R, ((n = m /\ 0 <= m <= 1) \/ (n = 1 /\ 1 <= m) \/ (n = 0 /\ m <= 0))%R).
  { destruct (Rle_dec 1 m); [exists 1%R; lra|]. destruct (Rle_dec m 0); [exists 0%R; lra|exists m; lra]. }
  destruct EX as (n & EN).
  assert (N01 : (0 <= n <= 1)%R) by lra. assert (NK : (n - k <> 0)%R) by lra.
  assert (E01 : (0 <= (n - k) / (m - k) <= 1)%R).
  { assert (Q : forall u w, (0 <= u <= w -> 0 < w -> 0 <= u / w <= 1)%R).
    { intros u w U W. assert (0 < / w)%R by now apply Rinv_0_lt_compat. split; [apply Rmult_le_pos; lra|].
      apply (Rmult_le_reg_r w); [exact W|]. unfold Rdiv. rewrite Rmult_assoc, Rinv_l by lra. lra. }
    destruct (Rlt_le_dec 0 (m - k)) as [S|S]; [apply Q; lra|].
    replace ((n - k) / (m - k))%R with ((k - n) / (k - m))%R by (field; lra). apply Q; lra. }
  set (dx := (xR (sb t) - xR (sa t))%R) in *. set (dy := (yR (sb t) - yR (sa t))%R) in *.
  destruct (ONE (xR p) (yR p) (xR (sa t) + n * dx)%R (yR (sa t) + n * dy)%R PQ ON) as [E1 E2].
  - exists ((n - k) / (m - k))%R. cbn [sa sb]. split; [exact E01|]. rewrite QX, QY, PX, PY. split; field; exact KM.
  - exists n. split; [exact N01|]. split; reflexivity.
  - rewrite PX in E1. rewrite PY in E2.
    assert (Z1 : ((n - k) * dx = 0)%R) by lra. assert (Z2 : ((n - k) * dy = 0)%R) by lra.
    apply Rmult_integral in Z1, Z2. apply NT. unfold dx, dy in *. destruct Z1 as [Z1|Z1], Z2 as [Z2|Z2]; try contradiction. lra.
Qed.

Lemma lies_flip p q x y : lies_on (Seg p q) x y -> lies_on (Seg q p) x y.
Proof. intros (k & K & -> & ->). exists (1 - k)%R. cbn [sa sb]. split; [lra|]. split; ring. Qed.

Lemma first_pair ps s : nth_error (pairs ps) 0 = Some s -> hd_error ps = Some (sa s).
Proof. destruct ps as [|a [|b ps]]; try discriminate. intros [= <-]. reflexivity. Qed.
Lemma last_pair ps s i : nth_error (pairs ps) i = Some s -> S i = length (pairs ps) -> hd_error (rev ps) = Some (sb s).
Proof.
  revert i. induction ps as [|a ps IH]; intros i; [destruct i; discriminate|]. destruct ps as [|b ps]; [destruct i; discriminate|].
  intros N L. change (pairs (a :: b :: ps)) with (Seg a b :: pairs (b :: ps)) in *. cbn [rev].
  assert (X : forall (l : list pt) c p, hd_error l = Some p -> hd_error (l ++ [c]) = Some p) by (intros [|? ?] ? ?; [discriminate|auto]).
  destruct i as [|i].
  - injection N as <-. cbn [length] in L. destruct ps as [|c ps]; [reflexivity|]. cbn in L. lia.
  - apply X. apply (IH i); [exact N|]. cbn [length] in L. lia.
Qed.

Lemma run_touches sa_ sb_ n m L : forall st,
  snd (run_callback (call_pair sa_ sb_ (touches_iter n m)) L st) = true <->
  (L = [] /\ st = true) \/ (L <> [] /\ forall i j, In (i, j) L -> any_touching (nth i sa_ seg0) i n (nth j sb_ seg0) j m = true).
Proof.
  induction L as [|[i j] L IH]; intros st; cbn [run_callback].
  - cbn [snd]. split; [auto|]. intros [[_ H]|[H _]]; [exact H|congruence].
  - unfold call_pair at 1, touches_iter at 1. cbn [fst snd]. destruct (any_touching _ i n _ j m) eqn:E; cbn [snd].
    + rewrite IH. split.
      * intros [[-> _]|[_ H]]; right; (split; [discriminate|]); intros i' j' J; (destruct J as [K|J]; [injection K as <- <-; exact E|]); [destruct J|now apply H].
      * intros [[K _]|[_ H]]; [discriminate|]. destruct L as [|x L]; [left; auto|right]. split; [discriminate|]. intros i' j' J. apply H. now right.
    + split; [discriminate|]. intros [[K _]|[_ H]]; [discriminate|]. rewrite (H i j (or_introl eq_refl)) in E. discriminate.
Qed.

(** Proved in full for lines of integer coordinates up to 2^24 and any index:
    lines without segments of no length, that do not come back to their ends and
    whose segments meet each other in single points.  Without the last see
    C54_refuted. *)
Theorem C54_lines_partial :
  forall pa a pb b, line_stands pa a -> line_stands pb b -> no_stops pa -> no_stops pb ->
    free_ends pa -> free_ends pb -> meet_once pa pb ->
    exists v, tg_geom_touches (Some (GLine fl0 a)) (Some (GLine fl0 b)) = Ret v /\ (v = true <-> only_touch (SLine pa) (SLine pb)).
Proof.
  intros pa a pb b HA HB ZA ZB FA FB M1.
  cbn [tg_geom_touches on_geom geom_touches]. unfold line_touches_geom. cbn [on_geom some_child PredsGeom.on_line].
  eexists. split; [reflexivity|].
  destruct HA as (IA & ka & na & SA & NA), HB as (IB & kb & nb & SB & NB).
  pose proof (line_segs _ _ _ _ (line_pts_ok pa IA) NA) as (_ & LA & _). pose proof (line_segs _ _ _ _ (line_pts_ok pb IB) NB) as (_ & LB & _).
  destruct (C03_pairs_exact_partial pa false ka na a pb false kb nb b) as (L & _ & HL & RUN); auto.
  { intros p [I|I]; auto. }
  { left. reflexivity. } { left. reflexivity. }
  destruct (RUN _ (touches_iter (r_nsegs a) (r_nsegs b)) false) as (_ & _ & E). unfold tg_line_touches_line. rewrite E, run_touches, LA, LB.
  change (series_segments false pa) with (pairs pa) in *. change (series_segments false pb) with (pairs pb) in *. clear E RUN LA LB.
  assert (AT : forall i j s t x y, nth_error (pairs pa) i = Some s -> nth_error (pairs pb) j = Some t -> lies_on s x y -> lies_on t x y ->
    any_touching (nth i (pairs pa) seg0) i (length (pairs pa)) (nth j (pairs pb) seg0) j (length (pairs pb)) = true <->
    line_end pa x y \/ line_end pb x y).
  { intros i j s t x y N1 N2 O1 O2. rewrite (nth_error_nth _ _ seg0 N1), (nth_error_nth _ _ seg0 N2).
    pose proof (nth_error_In _ _ N1) as J1. pose proof (nth_error_In _ _ N2) as J2.
    pose proof (pairs_int pa IA s J1) as [P1 P2]. pose proof (pairs_int pb IB t J2) as [Q1 Q2].
    pose proof (ZA s J1) as D1. pose proof (ZB t J2) as D2.
    assert (ONE : forall u w u' w', lies_on s u w -> lies_on t u w -> lies_on s u' w' -> lies_on t u' w' -> u = u' /\ w = w')
      by (intros u w u' w'; apply M1; assumption).
    assert (T2a : (2 <= length pa)%nat) by (destruct pa as [|? [|? ?]]; [destruct J1..|cbn; lia]).
    assert (T2b : (2 <= length pb)%nat) by (destruct pb as [|? [|? ?]]; [destruct J2..|cbn; lia]).
    destruct s as [s1 s2], t as [t1 t2]. cbn [sa sb] in *. unfold any_touching. cbn [sa sb].
    rewrite !orb_true_iff, !andb_true_iff, !Nat.eqb_eq.
    rewrite (touches0_exact (Seg t1 t2) s1 s2), (touches0_exact (Seg t1 t2) s2 s1), (touches0_exact (Seg s1 s2) t1 t2), (touches0_exact (Seg s1 s2) t2 t1);
      cbn [sa sb]; try assumption; try (split; assumption); try (intros [? ?]; tauto);
      try (intros; eapply ONE; eauto using lies_flip; fail).
    2:{ intros [K1 K2]. apply D2. auto. }
    2:{ intros [K1 K2]. apply D1. auto. }
    assert (A1 : lies_on (Seg s1 s2) (xR s1) (yR s1)) by apply on_segment_a. assert (A2 : lies_on (Seg s1 s2) (xR s2) (yR s2)) by apply on_segment_b.
    assert (B1 : lies_on (Seg t1 t2) (xR t1) (yR t1)) by apply on_segment_a. assert (B2 : lies_on (Seg t1 t2) (xR t2) (yR t2)) by apply on_segment_b.
    split.
    - intros [[[[-> C]|[K C]]|[-> C]]|[K C]]; [left|left|right|right]; (split; [assumption|]).
      + exists s1. split; [left; exact (first_pair _ _ N1)|]. exact (ONE _ _ _ _ O1 O2 A1 C).
      + exists s2. split; [right; exact (last_pair _ _ _ N1 K)|]. exact (ONE _ _ _ _ O1 O2 A2 C).
      + exists t1. split; [left; exact (first_pair _ _ N2)|]. exact (ONE _ _ _ _ O1 O2 C B1).
      + exists t2. split; [right; exact (last_pair _ _ _ N2 K)|]. exact (ONE _ _ _ _ O1 O2 C B2).
    - intros [(_ & p & [H|H] & -> & ->)|(_ & p & [H|H] & -> & ->)].
      + pose proof (proj1 (FA _ _ _ N1 O1) H) as ->. pose proof (first_pair _ _ N1) as H'. cbn [sa] in H'.
        assert (p = s1) by congruence. subst p. auto.
      + pose proof (proj2 (FA _ _ _ N1 O1) H) as K. pose proof (last_pair _ _ _ N1 K) as H'. cbn [sb] in H'.
        assert (p = s2) by congruence. subst p. auto.
      + pose proof (proj1 (FB _ _ _ N2 O2) H) as ->. pose proof (first_pair _ _ N2) as H'. cbn [sa] in H'.
        assert (p = t1) by congruence. subst p. auto.
      + pose proof (proj2 (FB _ _ _ N2 O2) H) as K. pose proof (last_pair _ _ _ N2 K) as H'. cbn [sb] in H'.
        assert (p = t2) by congruence. subst p. auto. }
  split.
  - intros [[_ H]|[NE ALL]]; [discriminate|]. split.
    + destruct L as [|[i j] L]; [congruence|]. destruct (proj1 (HL i j) (or_introl eq_refl)) as (s & t & N1 & N2 & x & y & O1 & O2).
      exists x, y. split; [exists s|exists t]; (split; [eapply nth_error_In; eassumption|assumption]).
    + intros (x & y & [(s & J1 & O1) NE1] & [(t & J2 & O2) NE2]).
      destruct (In_nth_error _ _ J1) as (i & N1). destruct (In_nth_error _ _ J2) as (j & N2).
      assert (H : In (i, j) L) by (apply HL; exists s, t; split; [exact N1|split; [exact N2|exists x, y; auto]]).
      apply ALL in H. apply (AT i j s t x y N1 N2 O1 O2) in H. tauto.
  - intros [(x & y & (s & J1 & O1) & (t & J2 & O2)) NI]. right. split.
    + destruct (In_nth_error _ _ J1) as (i & N1). destruct (In_nth_error _ _ J2) as (j & N2).
      intros ->. apply (HL i j). exists s, t. split; [exact N1|split; [exact N2|exists x, y; auto]].
    + clear x y s t J1 J2 O1 O2. intros i j H. apply HL in H. destruct H as (s & t & N1 & N2 & x & y & O1 & O2).
      apply (AT i j s t x y N1 N2 O1 O2).
      destruct (Classical_Prop.classic (line_end pa x y)) as [|E1]; [now left|]. destruct (Classical_Prop.classic (line_end pb x y)) as [|E2]; [now right|].
      exfalso. apply NI. exists x, y. split; (split; [|assumption]); [exists s|exists t]; (split; [eapply nth_error_In; eassumption|assumption]).
Qed.
Print Assumptions C54_lines_partial.

(** ** Refutations *)

Definition plain (closed : bool) (ps : list pt) : ring :=
  match series_new ps closed IxNone 16 with Some r => r | None => rect_to_ring rect0 end.
Lemma plain_ring asked ps : small_ints ps -> (2 <= length ps)%nat -> ring_stands asked ps (plain true ps).
Proof.
  intros S L. unfold plain. destruct (series_new ps true IxNone 16) as [r|] eqn:E.
  - split; [intros q I; exact (small_int ps q S I)|]. exists IxNone, 16%nat. split; [lia|]. split; [exact E|].
    split; [right; left; reflexivity|]. intros q _. right. exact Logic.I.
  - unfold series_new in E. rewrite andb_false_r in E. discriminate E.
Qed.
Lemma plain_line ps : small_ints ps -> (2 <= length ps)%nat -> line_stands ps (plain false ps).
Proof.
  intros S L. unfold plain. destruct (series_new ps false IxNone 16) as [r|] eqn:E.
  - split; [intros q I; exact (small_int ps q S I)|]. exists IxNone, 16%nat. split; [lia|exact E].
  - unfold series_new in E. rewrite andb_false_r in E. discriminate E.
Qed.
Lemma whole_proper ext : poly_proper ext [].
Proof. intros x y [B|(h & [] & _)]. split; [now left|intros h []]. Qed.
Lemma plain_poly asked ext : small_ints ext -> (2 <= length ext)%nat -> stands asked (Some (GPoly fl0 (PRing (plain true ext)))) (SPoly ext []).
Proof. intros S L. apply st_poly. split; [apply whole_proper|]. split; [now apply plain_ring|reflexivity]. Qed.

(** two rectangles side by side, the side of the smaller within the side of the larger *)
Definition wall : list pt := box 0 0 10 10.
Definition shed : list pt := box 10 2 20 8.
(** a line past a corner of the first *)
Definition past : list pt := [P 5 15; P 15 5].
(** a line and the first half of it *)
Definition half : list pt := [P 0 0; P 5 0].
Definition full : list pt := [P 0 0; P 10 0].
(** a hole like an L, and a triangle with its long side across the corner of the L *)
Definition ell : list pt := [P 0 0; P 10 0; P 10 5; P 5 5; P 5 10; P 0 10; P 0 0].
Definition yard : list pt := box (-10) (-10) 20 20.
Definition tent : list pt := [P 0 0; P 10 5; P 5 10; P 0 0].

Definition plain_geom (ext : list pt) : option geom := Some (GPoly fl0 (PRing (plain true ext))).
Definition plain_path (ps : list pt) : option geom := Some (GLine fl0 (plain false ps)).

Lemma past_line x y : on_line past x y -> (x + y = 20)%R.
Proof.
  intros (s & [<-|[]] & t & T & -> & ->). cbn [sa sb]. destruct (P_R 5 15 ltac:(lia) ltac:(lia)) as [-> ->].
  destruct (P_R 15 5 ltac:(lia) ltac:(lia)) as [-> ->]. lra.
Qed.

Theorem C54_refuted :
  Forall (fun '(g, a, o, b, v) =>
    stands (vertices b) g a /\ stands (vertices a) o b /\ real_lines a /\ real_lines b /\
    tg_geom_touches g o = Ret v /\ (v = true -> ~ only_touch a b) /\ (v = false -> only_touch a b))
    [(plain_geom wall, SPoly wall [], plain_geom shed, SPoly shed [], false);
     (plain_geom wall, SPoly wall [], plain_path past, SLine past, false);
     (plain_path half, SLine half, plain_path full, SLine full, true);
     (Some (GPoly fl0 (PPoly (plain true yard) [Some (plain true ell)])), SPoly yard [ell], plain_geom tent, SPoly tent [], true)].
Proof.
  assert (I1 : small_ints wall) by (unfold wall; smalls). assert (I2 : small_ints shed) by (unfold shed; smalls).
  assert (I3 : small_ints past) by (unfold past; smalls). assert (I4 : small_ints half) by (unfold half; smalls).
  assert (I5 : small_ints full) by (unfold full; smalls). assert (I6 : small_ints ell) by (unfold ell; smalls).
  assert (I7 : small_ints yard) by (unfold yard; smalls). assert (I8 : small_ints tent) by (unfold tent; smalls).
  repeat apply Forall_cons; [..|apply Forall_nil].
  - split; [apply plain_poly; [exact I1|cbn; lia]|]. split; [apply plain_poly; [exact I2|cbn; lia]|]. split; [exact I|]. split; [exact I|].
    split; [vm_compute; reflexivity|]. split; [discriminate|]. intros _. split.
    + exists 10%R, 5%R. split; (split; [|intros h []]); (apply box_has; [unfold small; lia..|lia|lia|lra]).
    + intros (x & y & [A _] & [B _]). apply box_interior in A; [|unfold small; lia..]. apply box_interior in B; [|unfold small; lia..]. lra.
  - split; [apply plain_poly; [exact I1|cbn; lia]|]. split; [apply st_line, plain_line; [exact I3|cbn; lia]|]. split; [exact I|]. split; [cbn; lia|].
    split; [vm_compute; reflexivity|]. split; [discriminate|]. intros _. split.
    + exists 10%R, 10%R. split; [split; [|intros h []]; apply box_has; [unfold small; lia..|lia|lia|lra]|].
      exists (Seg (P 5 15) (P 15 5)). split; [now left|]. unfold lies_on. cbn [sa sb].
      destruct (P_R 5 15 ltac:(lia) ltac:(lia)) as [-> ->]. destruct (P_R 15 5 ltac:(lia) ltac:(lia)) as [-> ->]. exists (1/2)%R. lra.
    + intros (x & y & [A _] & [B _]). apply box_interior in A; [|unfold small; lia..]. apply past_line in B. lra.
  - split; [apply st_line, plain_line; [exact I4|cbn; lia]|]. split; [apply st_line, plain_line; [exact I5|cbn; lia]|]. split; [cbn; lia|]. split; [cbn; lia|].
    split; [vm_compute; reflexivity|]. split; [|discriminate]. intros _ [_ N]. apply N. exists 1%R, 0%R.
    destruct (P_R 0 0 ltac:(lia) ltac:(lia)) as [X0 Y0]. destruct (P_R 5 0 ltac:(lia) ltac:(lia)) as [X5 Y5].
    destruct (P_R 10 0 ltac:(lia) ltac:(lia)) as [X10 Y10].
    split; split.
    + exists (Seg (P 0 0) (P 5 0)). split; [now left|]. unfold lies_on. cbn [sa sb]. rewrite X0, Y0, X5, Y5. exists (1/5)%R. lra.
    + intros (_ & p & [E|E] & EX & EY); cbn in E; injection E as <-; lra.
    + exists (Seg (P 0 0) (P 10 0)). split; [now left|]. unfold lies_on. cbn [sa sb]. rewrite X0, Y0, X10, Y10. exists (1/10)%R. lra.
    + intros (_ & p & [E|E] & EX & EY); cbn in E; injection E as <-; lra.
  - assert (RE : forall asked, ring_stands asked ell (plain true ell)) by (intros; apply plain_ring; [exact I6|cbn; lia]).
    assert (RT : forall asked, ring_stands asked tent (plain true tent)) by (intros; apply plain_ring; [exact I8|cbn; lia]).
    split.
    { apply st_poly. split.
      - apply box_proper; try (unfold small; lia).
        + apply ints_fin. intros q J. exact (small_int _ q I6 J).
        + intros q J. unfold ell in J. cbn [In] in J. repeat destruct J as [<-|J]; [..|destruct J];
          match goal with |- context [P ?x ?y] => destruct (P_R x y ltac:(lia) ltac:(lia)) as [-> ->] end; lra.
      - split; [apply plain_ring; [exact I7|cbn; lia]|]. constructor; [|constructor]. eexists. split; [reflexivity|]. split; [apply RE|].
        intros C. vm_compute in C. discriminate C. }
    split; [apply plain_poly; [exact I8|cbn; lia]|]. split; [exact I|]. split; [exact I|].
    split; [vm_compute; reflexivity|]. split; [|discriminate]. intros _ [_ N]. apply N.
    assert (I77 : int_point 24 (P 7 7)) by (apply P_int24; lia).
    destruct (P_R 7 7 ltac:(lia) ltac:(lia)) as [X7 Y7]. exists (xR (P 7 7)), (yR (P 7 7)). split; split.
    + rewrite X7, Y7. apply box_interior; [unfold small; lia..|lia|lia|lra].
    + intros h [<-|[]] H. destruct (stands_hits [P 7 7] ell _ (P 7 7) true (RE _) (or_introl eq_refl) I77) as (v & V & E).
      apply E in H. subst v. vm_compute in V. discriminate V.
    + destruct (stands_hits [P 7 7] tent _ (P 7 7) false (RT _) (or_introl eq_refl) I77) as (v & V & E).
      apply E. vm_compute in V. injection V as <-. reflexivity.
    + intros h [].
Qed.
Print Assumptions C54_refuted.

(** geometries that touch: the two rectangles share a whole side, or a corner *)
Example C54_example :
  let corner := box 10 10 20 20 in
  stands (vertices (SPoly corner [])) (plain_geom wall) (SPoly wall []) /\
  stands (vertices (SPoly wall [])) (plain_geom corner) (SPoly corner []) /\
  match tg_geom_touches (plain_geom wall) (plain_geom corner) with Ret true => true | _ => false end = true.
Proof.
  cbv zeta. split; [apply plain_poly; [unfold wall; smalls|cbn; lia]|]. split; [apply plain_poly; [smalls|cbn; lia]|].
  vm_compute. reflexivity.
Qed.
(** a line that starts on another one touches it; if it starts below, it does not *)
Definition base_line : list pt := [P 0 0; P 10 0].
Definition stem_line : list pt := [P 5 0; P 5 10; P 20 20].
Definition long_line : list pt := [P 5 (-1); P 5 10; P 20 20].
Example C54_lines_example :
  let geoms l := Some (GLine fl0 (plain false l)) in
  line_stands base_line (plain false base_line) /\ line_stands stem_line (plain false stem_line) /\
  no_stops base_line /\ no_stops stem_line /\ free_ends base_line /\ free_ends stem_line /\ meet_once base_line stem_line /\
  match tg_geom_touches (geoms base_line) (geoms stem_line), tg_geom_touches (geoms base_line) (geoms long_line) with
  | Ret true, Ret false => true | _, _ => false end = true.
Proof.
  cbv zeta.
  destruct (P_R 0 0 ltac:(lia) ltac:(lia)) as [X1 Y1]. destruct (P_R 10 0 ltac:(lia) ltac:(lia)) as [X2 Y2].
  destruct (P_R 5 0 ltac:(lia) ltac:(lia)) as [X3 Y3]. destruct (P_R 5 10 ltac:(lia) ltac:(lia)) as [X4 Y4].
  destruct (P_R 20 20 ltac:(lia) ltac:(lia)) as [X5 Y5].
  split; [apply plain_line; [unfold base_line; smalls|cbn; lia]|]. split; [apply plain_line; [unfold stem_line; smalls|cbn; lia]|].
  split; [intros s [<-|[]]; cbn [sa sb]; lra|]. split; [intros s [<-|[<-|[]]]; cbn [sa sb]; lra|].
  split; [|split; [|split; [|vm_compute; reflexivity]]].
  - intros [|[|i]] s p; try discriminate. intros _ _. split; intros _; reflexivity.
  - intros [|[|[|i]]] s p N; try discriminate; injection N as <-; intros (k & K & X & Y); cbn [sa sb] in X, Y; split; intros H; cbn in H; injection H as <-;
      try reflexivity; exfalso; rewrite ?X3, ?Y3, ?X4, ?Y4, ?X5, ?Y5 in *; lra.
  - intros s t x y x' y' [<-|[]] [<-|[<-|[]]] (k & K & X & Y) (m & M & U & W) (k' & K' & X' & Y') (m' & M' & U' & W'); cbn [sa sb] in *;
      rewrite ?X1, ?Y1, ?X2, ?Y2, ?X3, ?Y3, ?X4, ?Y4, ?X5, ?Y5 in *; lra.
Qed.
