(** * Polygons with holes meeting points, lines and polygons *)

From Coq Require Import ZArith Reals Bool List Lia Lra PeanoNat.
From Verif Require Import F64 Geo Series Search RingApi Geom MultiIx Preds PredsFacts F64Order F64Real F64Mono
  SeriesFacts SearchFacts RectFacts RingFacts SpecGeo SpecFacts SpecPlane SpecPreds SpecRing SpecShape
  SegExact SegMeet SegRay SegRing Thm_Ring Thm_Seg Thm_Pairs Thm_Preds Jordan JordanRing MeetFacts RingMeet.
Import ListNotations.

(** ** Points *)

Lemma hits_interior ps kind spread r p :
  (forall q, In q ps -> int_point 24 q) -> int_point 24 p -> (2 <= spread)%nat ->
  series_new ps true kind spread = Some r -> index_safe ps kind spread p ->
  exists v, hits (Some r) p false = Ret v /\ (v = true <-> ring_interior ps (xR p) (yR p)).
Proof.
  intros I Ip S N X. destruct (C10_ring_even_odd ps kind spread r p false I Ip S N X) as (b & o & n & E & C & ON & OFF).
  exists b. unfold hits, contains_point. rewrite E. split; [reflexivity|]. unfold ring_interior.
  destruct (Classical_Prop.classic (ring_border ps (xR p) (yR p))) as [B|NB].
  - destruct B as (s & IS & L). rewrite (ON s IS L). split; [discriminate|]. intros [_ H]. exfalso. apply H. exists s. auto.
  - assert (NO : forall s, In s (ring_segments ps) -> ~ lies_on s (xR p) (yR p)) by (intros s IS L; apply NB; exists s; auto).
    rewrite (OFF NO).
    assert (C' : counts (ray_meets (xR p) (yR p)) (ring_segments ps) n).
    { revert C. apply counts_same. intros s IS. specialize (NO s IS). unfold ray_crosses, ray_meets. tauto. }
    split.
    + intros O. split; [right; eauto|exact NB].
    + intros [[B|(m & D & O)] _]; [contradiction|]. rewrite (counts_unique _ _ _ _ C' D). exact O.
Qed.

Lemma stands_hits asked ps r p edge : ring_stands asked ps r -> In p asked -> int_point 24 p ->
  exists v, hits (Some r) p edge = Ret v /\
    (v = true <-> if edge then ring_has ps (xR p) (yR p) else ring_interior ps (xR p) (yR p)).
Proof.
  intros (IP & kind & spread & S2 & N & SS & IX) I Ip. destruct edge.
  - destruct (hits_inside ps kind spread r p IP Ip S2 N (IX p I)) as (v & V & E). exists v. split; [exact V|]. exact E.
  - apply (hits_interior ps kind spread r p); auto.
Qed.

Lemma out_negb_ret x v (P : Prop) : x = Ret v -> (v = true <-> P) -> exists w, out_negb x = Ret w /\ (w = true <-> ~ P).
Proof.
  intros -> E. exists (negb v). split; [reflexivity|]. rewrite <- E. destruct v; split; intros H; try discriminate; try reflexivity.
  exfalso. apply H. reflexivity.
Qed.

Lemma Forall2_in_l {X Y} (R : X -> Y -> Prop) l m x : Forall2 R l m -> In x l -> exists y, In y m /\ R x y.
Proof.
  intros F. induction F as [|a b l m H F IH]; intros I; [destruct I|]. destruct I as [<-|I]; [exists b; split; [now left|exact H]|].
  destruct (IH I) as (y & J & K). exists y. split; [now right|exact K].
Qed.
Lemma Forall2_in_r {X Y} (R : X -> Y -> Prop) l m y : Forall2 R l m -> In y m -> exists x, In x l /\ R x y.
Proof.
  intros F. induction F as [|a b l m H F IH]; intros I; [destruct I|]. destruct I as [<-|I]; [exists a; split; [now left|exact H]|].
  destruct (IH I) as (x & J & K). exists x. split; [now right|exact K].
Qed.

(** some hole answers: the disjunction over the holes of what each answers *)
Lemma some_hole (f : option ring -> out bool) (P : list pt -> Prop) asked holes hs :
  Forall2 (hole_stands asked) holes hs ->
  (forall ps r, ring_stands asked ps r -> (r_convex r = true -> convex_set (ring_interior ps)) ->
     exists v, f (Some r) = Ret v /\ (v = true <-> P ps)) ->
  exists v, any_of (map f hs) = Ret v /\ (v = true <-> exists h, In h holes /\ P h).
Proof.
  intros F H. induction F as [|ps h holes hs (r & -> & R1 & R2) F IH]; cbn [map any_of].
  - exists false. split; [reflexivity|]. split; [discriminate|]. intros (x & [] & _).
  - destruct (H ps r R1 R2) as (v & E & V). rewrite E. cbn [bind_out]. destruct v.
    + exists true. split; [reflexivity|]. split; [|reflexivity]. intros _. exists ps. split; [now left|now apply V].
    + destruct IH as (w & E' & W). exists w. split; [exact E'|]. rewrite W. split.
      * intros (y & I & Py). exists y. split; [now right|exact Py].
      * intros (y & [<-|I] & Py); [apply V in Py; discriminate|]. exists y. auto.
Qed.

Theorem poly_point_exact asked q ext holes p : poly_stands asked q ext holes -> In p asked -> int_point 24 p ->
  (exists v, tg_poly_covers_point (Some q) p = Ret v /\ (v = true <-> poly_has ext holes (xR p) (yR p))) /\
  (exists v, tg_poly_contains_point (Some q) p = Ret v /\
     (v = true <-> ring_interior ext (xR p) (yR p) /\ forall h, In h holes -> ~ ring_has h (xR p) (yR p))).
Proof.
  intros (_ & Q) Ia Ip.
  assert (K : forall edge, exists v, poly_contains_point (Some q) p edge = Ret v /\
    (v = true <-> (if edge then ring_has ext (xR p) (yR p) else ring_interior ext (xR p) (yR p)) /\
       forall h, In h holes -> ~ if edge then ring_interior h (xR p) (yR p) else ring_has h (xR p) (yR p))).
  { intros edge. unfold poly_contains_point. destruct q as [r|r hs].
    - destruct Q as [R ->]. destruct (stands_hits asked ext r p edge R Ia Ip) as (v & V & E). exists v. split; [exact V|].
      rewrite E. split; [intros H; split; [exact H|intros h []]|intros [H _]; exact H].
    - destruct Q as [R HS]. unfold tg_poly_empty. cbn [tg_poly_exterior poly_holes].
      destruct (ring_stands_facts _ _ _ R) as (_ & -> & _). destruct (length ext <? 3)%nat eqn:L.
      { exists false. split; [reflexivity|]. split; [discriminate|]. intros [H _].
        assert (H3 : ring_has ext (xR p) (yR p)) by (destruct edge; [exact H|apply H]). apply has_three in H3.
        apply Nat.ltb_lt in L. lia. }
      destruct (stands_hits asked ext r p edge R Ia Ip) as (v & V & E). rewrite V. cbn [bind_out]. destruct v; cbn [negb].
      2:{ exists false. split; [reflexivity|]. split; [discriminate|]. intros [H _]. apply E in H. discriminate. }
      destruct (some_hole (fun h => hits h p (negb edge)) (fun ps => if negb edge then ring_has ps (xR p) (yR p) else ring_interior ps (xR p) (yR p)) asked holes hs HS) as (w & W & EW).
      { intros ps r' R' _. apply (stands_hits asked ps r' p (negb edge)); assumption. }
      destruct (out_negb_ret _ _ _ W EW) as (u & U & EU). exists u. split; [exact U|]. rewrite EU. split.
      + intros N. split; [now apply E|]. intros h Ih B. apply N. exists h. split; [exact Ih|]. destruct edge; exact B.
      + intros [_ N] (h & Ih & B). apply (N h Ih). destruct edge; exact B. }
  split; [apply (K true)|apply (K false)].
Qed.

(** ** Segments and lines inside a ring *)

(** the search finds every border segment that meets the segment *)
Lemma no_crossing_exact asked ps r s : ring_stands asked ps r -> int_segment 24 s ->
  (no_crossing r s crossing3 = true <-> forall t, In t (ring_segments ps) -> ~ have_common_point s t).
Proof.
  intros (IP & kind & spread & S2 & N & SS & IX) IS. pose proof (seg_int_ok s IS) as OKs. pose proof (seg_ok_nn _ OKs) as NNs.
  assert (ISR : forall t, In t (ring_segments ps) -> int_segment 24 t).
  { intros t I. apply ring_segments_in in I. split; apply IP, I. }
  assert (BX : forall t, In t (ring_segments ps) -> have_common_point s t -> box_meets t (tg_segment_rect s)).
  { intros t I (x & y & T1 & T2). pose proof (ISR t I) as IT. pose proof (seg_ok_nn _ (seg_int_ok t IT)) as NNt.
    apply box_meets_iff; [now apply seg_int_ok|auto with fok| |].
    { apply ordered_key; [auto with nn|]. apply segment_rect_ordered; auto. }
    unfold segment_rect_intersects_rect. pose proof (seg_int_fin s IS). pose proof (seg_int_fin t IT).
    apply (boxes_meet _ _ [sa s; sb s] [sa t; sb t] x y); auto using segment_held, lies_span with nn. }
  unfold no_crossing.
  destruct (C02_rect_search_partial _ ps true kind spread r (tg_segment_rect s) (contsegiter (crossing3 s) s) false (ints_ok ps IP) S2 N SS) as (l & SEL & ->).
  { apply rectangle_ok_iff. auto with fok. }
  { apply ordered_key; [auto with nn|]. apply segment_rect_ordered; auto. }
  cbn [series_segments] in SEL. rewrite negb_true_iff. revert SEL ISR BX. generalize (ring_segments ps) 0%nat. clear - IS.
  intros segs i SEL. induction SEL as [|i x l r Q S IH|i x l r Q S IH]; intros ISR BX.
  - cbn. split; [intros _ t []|reflexivity].
  - cbn [run_callback contsegiter fst snd]. unfold contsegiter at 1, crossing3. rewrite andb_true_r.
    pose proof (C09_intersects_exact s x IS (ISR x (or_introl eq_refl))) as CX.
    destruct (tg_segment_intersects_segment s x).
    + cbn [snd]. split; [discriminate|]. intros H. exfalso. apply (H x (or_introl eq_refl)). now apply CX.
    + rewrite IH by (intros; first [apply ISR; now right | apply BX; [now right|assumption]]). split.
      * intros H t [<-|I]; [intros C; apply CX in C; discriminate|now apply H].
      * intros H t I. apply H. now right.
  - rewrite IH by (intros; first [apply ISR; now right | apply BX; [now right|assumption]]). split.
    + intros H t [<-|I]; [intros C; apply Q, BX; [now left|exact C]|now apply H].
    + intros H t I. apply H. now right.
Qed.

(** the rectangle of a ring covers what lies inside *)
Lemma covers_span ra rb pa pb : rect_nn ra -> rect_nn rb -> fin_points pa -> fin_points pb -> held ra pa -> attained pb rb ->
  (forall q, In q pb -> span pa (xR q) (yR q)) -> tg_rect_covers_rect ra rb = true.
Proof.
  intros Na Nb Fa Fb Ha (A1 & A2 & A3 & A4) SP. apply covers_rect_iff; auto.
  assert (K : forall q, In q pb -> kin ra q).
  { intros q I. destruct (SP q I) as ((a1 & I1 & L1) & (a2 & I2 & L2) & (a3 & I3 & L3) & (a4 & I4 & L4)).
    pose proof (Ha _ I1). pose proof (Ha _ I2). pose proof (Ha _ I3). pose proof (Ha _ I4).
    apply key_le_R in L1, L2, L3, L4; try (apply Fa; assumption); try (apply Fb; assumption). unfold kin in *. lia. }
  destruct A1 as (q1 & I1 & E1), A2 as (q2 & I2 & E2), A3 as (q3 & I3 & E3), A4 as (q4 & I4 & E4).
  pose proof (K _ I1). pose proof (K _ I2). pose proof (K _ I3). pose proof (K _ I4). unfold kin, kcov in *. lia.
Qed.
Lemma segment_attained s : seg_nn s -> attained [sa s; sb s] (tg_segment_rect s).
Proof.
  intros N. unnn. unfold attained. cbn.
  repeat split; keys;
  match goal with |- exists p, _ /\ _ = ?m (f_key (?f (sa s))) _ =>
    destruct (Z.le_gt_cases (f_key (f (sa s))) (f_key (f (sb s)))) end;
  first [ exists (sa s); split; [now left|lia] | exists (sb s); split; [right; now left|lia] ].
Qed.

Theorem contains_segment_exact ps r s : int_segment 24 s -> ring_stands [sa s; sb s] ps r ->
  (r_convex r = true -> convex_set (ring_interior ps)) ->
  exists v, tg_ring_contains_segment (Some r) s false = Ret v /\
    (v = true <-> forall x y, lies_on s x y -> ring_interior ps x y).
Proof.
  intros IS HR CV. pose proof HR as (IP & kind & spread & S2 & N & SS & IX).
  pose proof (seg_int_ok s IS) as OKs. pose proof (seg_ok_nn _ OKs) as NNs. pose proof (seg_int_fin s IS) as Fs.
  pose proof (ints_ok ps IP) as OK. pose proof (ints_fin ps IP) as F.
  assert (LA : lies_on s (xR (sa s)) (yR (sa s))) by apply on_segment_a.
  assert (LB : lies_on s (xR (sb s)) (yR (sb s))) by apply on_segment_b.
  unfold tg_ring_contains_segment. destruct (tg_rect_covers_rect (r_rect r) (tg_segment_rect s)) eqn:RB; cbn [negb].
  2:{ exists false. split; [reflexivity|]. split; [discriminate|]. intros H. exfalso.
      pose proof (has_three _ _ _ (proj1 (H _ _ LA))) as L3.
      destruct (series_held ps true kind spread r OK S2 ltac:(lia) N) as [RN RH].
      assert (E : tg_rect_covers_rect (r_rect r) (tg_segment_rect s) = true); [|congruence].
      apply (covers_span _ _ ps [sa s; sb s]); auto using segment_attained with nn.
      intros q [<-|[<-|[]]]; apply has_span; auto; apply H; assumption. }
  destruct (stands_hits _ ps r (sa s) false HR (or_introl eq_refl) (proj1 IS)) as (va & HA & VA).
  destruct (stands_hits _ ps r (sb s) false HR (or_intror (or_introl eq_refl)) (proj2 IS)) as (vb & HB & VB).
  unfold hits in HA, HB.
  destruct (contains_point (Some r) (sa s) false) as [[a ia]| |]; cbn [bind_out fst snd] in *; try discriminate. injection HA as ->.
  destruct va; cbn [negb].
  2:{ exists false. split; [reflexivity|]. split; [discriminate|]. intros H. apply VA, H, LA. }
  destruct (pteq (sb s) (sa s)) eqn:PE.
  { exists true. split; [reflexivity|]. split; [|reflexivity]. intros _ x y L.
    destruct (pteq_int _ _ (proj2 IS) (proj1 IS) PE) as [E1 E2]. destruct L as (t & _ & X & Y).
    replace x with (xR (sa s)) by (rewrite X, E1; ring). replace y with (yR (sa s)) by (rewrite Y, E2; ring). now apply VA. }
  destruct (contains_point (Some r) (sb s) false) as [[b ib]| |]; cbn [bind_out fst snd] in *; try discriminate. injection HB as ->.
  destruct vb; cbn [negb].
  2:{ exists false. split; [reflexivity|]. split; [discriminate|]. intros H. apply VB, H, LB. }
  destruct (r_convex r) eqn:RC.
  { exists true. split; [reflexivity|]. split; [|reflexivity]. intros _ x y L.
    apply (CV eq_refl (xR (sa s)) (yR (sa s)) (xR (sb s)) (yR (sb s))); [now apply VA|now apply VB|exact L]. }
  exists (no_crossing r s crossing3). split; [reflexivity|]. rewrite (no_crossing_exact _ ps r s HR IS). split.
  - intros H x y L. destruct (proj1 VA eq_refl) as [HA' BA]. apply ring_has_odd in HA'. destruct HA' as [|OA]; [contradiction|].
    assert (NB : ~ ring_border ps x y).
    { intros (t & I & T). apply (H t I). exists x, y. auto. }
    split; [|exact NB]. apply ring_has_odd. right. rewrite <- OA. symmetry. apply along_none; [exact F|].
    intros t I (u & v & U & V). apply (H t I). exists u, v. split; [|exact V].
    destruct L as (k & K & -> & ->). destruct U as (w & W & -> & ->).
    exists (w * k)%R. split; [split; [apply Rmult_le_pos; lra|]|split; ring].
    replace 1%R with (1 * 1)%R by ring. apply Rmult_le_compat; lra.
  - intros H t I (x & y & L & T). destruct (H x y L) as [_ NB]. apply NB. exists t. auto.
Qed.

Lemma all_of_iff {X} (f : X -> out bool) (P : X -> Prop) l :
  (forall x, In x l -> exists v, f x = Ret v /\ (v = true <-> P x)) ->
  exists v, all_of (map f l) = Ret v /\ (v = true <-> forall x, In x l -> P x).
Proof.
  induction l as [|x l IH]; intros H; cbn [map all_of].
  - exists true. split; [reflexivity|]. split; [intros _ x []|reflexivity].
  - destruct (H x (or_introl eq_refl)) as (v & E & V). rewrite E. cbn [bind_out].
    destruct v.
    + destruct IH as (w & E' & W); [intros y I; apply H; now right|]. exists w. split; [exact E'|]. rewrite W. split.
      * intros K y [<-|I]; [now apply V|now apply K].
      * intros K y I. apply K. now right.
    + exists false. split; [reflexivity|]. split; [discriminate|]. intros K. apply V, K. now left.
Qed.

Lemma stands_attained asked ps r : ring_stands asked ps r -> (2 <= length ps)%nat -> attained ps (r_rect r).
Proof.
  intros (IP & kind & spread & S2 & N & _) L.
  destruct (series_rect _ _ _ _ _ N (proj1 (points_ok_iff ps) (ints_ok ps IP)) S2 L) as (_ & A & _). exact A.
Qed.
Lemma line_attained ps r : line_stands ps r -> (2 <= length ps)%nat -> attained ps (r_rect r).
Proof.
  intros (IP & kind & spread & S2 & N) L.
  destruct (series_rect _ _ _ _ _ N (proj1 (points_ok_iff ps) (ints_ok ps IP)) S2 L) as (_ & A & _). exact A.
Qed.

Theorem contains_line_exact ps r pl l : line_stands pl l -> ring_stands pl ps r ->
  (r_convex r = true -> convex_set (ring_interior ps)) ->
  exists v, tg_ring_contains_line (Some r) (Some l) false false = Ret v /\
    (v = true <-> (2 <= length pl)%nat /\ forall x y, on_line pl x y -> ring_interior ps x y).
Proof.
  intros HL HR CV. destruct (line_stands_facts _ _ HL) as (SL & EL & BL). destruct (ring_stands_facts _ _ _ HR) as (SR & ER & BR).
  pose proof HL as (IL & _). pose proof HR as (IR & _). unfold tg_ring_contains_line. rewrite EL, ER.
  assert (VTX : (2 <= length pl)%nat -> forall q, In q pl -> on_line pl (xR q) (yR q)).
  { intros L q I. destruct (pairs_cover pl q L I) as (s & Is & [->| ->]); exists s; (split; [exact Is|]);
      [apply on_segment_a|apply on_segment_b]. }
  destruct ((length ps <? 3)%nat || (length pl <? 2)%nat) eqn:E.
  { exists false. split; [reflexivity|]. split; [discriminate|]. intros [L H].
    destruct pl as [|a pl]; [cbn in L; lia|].
    pose proof (has_three _ _ _ (proj1 (H _ _ (VTX L a (or_introl eq_refl))))).
    apply orb_true_iff in E. rewrite !Nat.ltb_lt in E. lia. }
  apply orb_false_iff in E. rewrite !Nat.ltb_ge in E. destruct E as [L3 L2].
  destruct (BL L2) as [NL KL]. destruct (BR L3) as [NR KR].
  destruct (tg_rect_covers_rect (r_rect r) (r_rect l)) eqn:RB; cbn [negb].
  2:{ exists false. split; [reflexivity|]. split; [discriminate|]. intros [_ H]. exfalso.
      assert (X : tg_rect_covers_rect (r_rect r) (r_rect l) = true); [|congruence].
      apply (covers_span _ _ ps pl); auto using ints_fin, line_attained.
      intros q I. apply has_span; [now apply ints_fin|]. apply H. now apply VTX. }
  cbn [andb]. rewrite SL.
  destruct (all_of_iff (fun s => tg_ring_contains_segment (Some r) s false)
    (fun s => forall x y, lies_on s x y -> ring_interior ps x y) (pairs pl)) as (v & V & P).
  { intros s I. apply contains_segment_exact; [now apply (pairs_int pl)| |exact CV].
    eapply ring_stands_less; [exact HR|]. apply pairs_in in I. intros q [<-|[<-|[]]]; apply I. }
  exists v. split; [exact V|]. rewrite P. split.
  - intros H. split; [exact L2|]. intros x y (s & I & L). exact (H s I x y L).
  - intros [_ H] s I x y L. apply H. exists s. auto.
Qed.

Lemma border_vertex ps q : (3 <= length ps)%nat -> In q ps -> ring_border ps (xR q) (yR q).
Proof.
  intros L I. unfold ring_border, ring_segments. apply Nat.ltb_ge in L as L'. rewrite L'.
  assert (LC : (2 <= length (close_points ps))%nat).
  { destruct ps as [|a ps]; [cbn in L; lia|]. cbn [close_points]. destruct (same_point _ _); [|rewrite app_length]; cbn [length] in *; lia. }
  destruct (pairs_cover (close_points ps) q LC (close_has ps q I)) as (s & Is & [->| ->]); exists s; (split; [exact Is|]);
    [apply on_segment_a|apply on_segment_b].
Qed.

Theorem contains_ring_exact ps r pb b : ring_stands [] pb b -> ring_stands pb ps r ->
  (r_convex r = true -> convex_set (ring_interior ps)) ->
  exists v, tg_ring_contains_ring (Some r) (Some b) false = Ret v /\
    (v = true <-> (3 <= length pb)%nat /\ forall x y, ring_border pb x y -> ring_interior ps x y).
Proof.
  intros HL HR CV. destruct (ring_stands_facts _ _ _ HL) as (SL & EL & BL). destruct (ring_stands_facts _ _ _ HR) as (SR & ER & BR).
  pose proof HL as (IL & _). pose proof HR as (IR & _). unfold tg_ring_contains_ring. rewrite EL, ER.
  destruct ((length ps <? 3)%nat || (length pb <? 3)%nat) eqn:E.
  { exists false. split; [reflexivity|]. split; [discriminate|]. intros [L H].
    destruct pb as [|a pb]; [cbn in L; lia|].
    pose proof (has_three _ _ _ (proj1 (H _ _ (border_vertex (a :: pb) a L (or_introl eq_refl))))).
    apply orb_true_iff in E. rewrite !Nat.ltb_lt in E. lia. }
  apply orb_false_iff in E. rewrite !Nat.ltb_ge in E. destruct E as [L3 L2].
  destruct (BL L2) as [NL KL]. destruct (BR L3) as [NR KR].
  destruct (tg_rect_covers_rect (r_rect r) (r_rect b)) eqn:RB; cbn [negb].
  2:{ exists false. split; [reflexivity|]. split; [discriminate|]. intros [_ H]. exfalso.
      assert (X : tg_rect_covers_rect (r_rect r) (r_rect b) = true); [|congruence].
      apply (covers_span _ _ ps pb); auto using ints_fin.
      - apply (stands_attained [] pb b HL). lia.
      - intros q I. apply has_span; [now apply ints_fin|]. apply H. now apply border_vertex. }
  assert (SEGS : (forall s, In s (ring_segments pb) -> forall x y, lies_on s x y -> ring_interior ps x y) <->
     (3 <= length pb)%nat /\ forall x y, ring_border pb x y -> ring_interior ps x y).
  { split.
    - intros H. split; [exact L2|]. intros x y (s & I & L). exact (H s I x y L).
    - intros [_ H] s I x y L. apply H. exists s. auto. }
  assert (RP : ring_pts b = pb).
  { destruct HL as (_ & kind & spread & S2 & N & _). unfold ring_pts. apply series_new_fields in N. cbv zeta in N.
    destruct N as (_ & EN & _ & EP & _). rewrite EN, EP. unfold ringpts.
    rewrite firstn_app, firstn_all, Nat.sub_diag. cbn [firstn]. apply app_nil_r. }
  destruct (r_convex r) eqn:RC.
  - destruct (all_of_iff (fun p => hits (Some r) p false) (fun p => ring_interior ps (xR p) (yR p)) (ring_pts b)) as (v & V & P).
    { intros p I. apply (stands_hits pb ps r p false); rewrite ?RP in I; auto. }
    exists v. split; [exact V|]. rewrite P, <- SEGS. split.
    + rewrite RP. intros H s I x y L. pose proof (ring_segments_in _ _ I) as [Ja Jb].
      apply (CV eq_refl (xR (sa s)) (yR (sa s)) (xR (sb s)) (yR (sb s))); [now apply H|now apply H|exact L].
    + intros H p I. apply SEGS in H. apply H. apply border_vertex; [exact L2|now rewrite <- RP].
  - rewrite SL.
    destruct (all_of_iff (fun s => tg_ring_contains_segment (Some r) s false)
      (fun s => forall x y, lies_on s x y -> ring_interior ps x y) (ring_segments pb)) as (v & V & P).
    { intros s I. apply ring_segments_in in I. apply contains_segment_exact; [split; apply IL, I| |intros; congruence].
      eapply ring_stands_less; [exact HR|]. intros q [<-|[<-|[]]]; apply I. }
    exists v. split; [exact V|]. rewrite P. exact SEGS.
Qed.

(** ** A path that never meets a border stays on one side of it *)

Section Sides.
Local Open Scope R_scope.

Lemma line_side ps qs : fin_points qs -> (forall x y, on_line ps x y -> ~ ring_border qs x y) ->
  forall x y u w, on_line ps x y -> on_line ps u w -> odd_at qs x y = odd_at qs u w.
Proof.
  intros F D.
  assert (SEG : forall t u w u' w', In t (pairs ps) -> lies_on t u w -> lies_on t u' w' -> odd_at qs u w = odd_at qs u' w').
  { intros t u w u' w' It L1 L2. apply along_none; [exact F|]. intros z Iz (p & q & P & Q).
    apply (D p q); [|exists z; auto]. exists t. split; [exact It|].
    destruct L1 as (t1 & T1 & -> & ->). destruct L2 as (t2 & T2 & -> & ->). destruct P as (k & K & -> & ->).
    exists (t1 + k * (t2 - t1)). split; [|split; ring].
    assert (0 <= k * t2) by (apply Rmult_le_pos; lra). assert (0 <= (1 - k) * t1) by (apply Rmult_le_pos; lra).
    assert (0 <= k * (1 - t2)) by (apply Rmult_le_pos; lra). assert (0 <= (1 - k) * (1 - t1)) by (apply Rmult_le_pos; lra).
    lra. }
  destruct ps as [|a c]; [intros x y u w (s & [] & _)|].
  assert (S' : forall t, In t (pairs (a :: c)) -> odd_at qs (xR (sa t)) (yR (sa t)) = odd_at qs (xR (sb t)) (yR (sb t))).
  { intros t It. apply (SEG t); [exact It|apply on_segment_a|apply on_segment_b]. }
  assert (ST : forall x y, on_line (a :: c) x y -> odd_at qs x y = odd_at qs (xR a) (yR a)).
  { intros x y (s & I & L). rewrite <- (path_side (odd_at qs) c a S' (sa s)) by (apply pairs_in in I; apply I).
    apply (SEG s); [exact I|exact L|apply on_segment_a]. }
  intros x y u w H1 H2. rewrite (ST x y H1), (ST u w H2). reflexivity.
Qed.

Lemma border_line ps x y : ring_border ps x y <-> (3 <= length ps)%nat /\ on_line (close_points ps) x y.
Proof.
  unfold ring_border, ring_segments, on_line. destruct (length ps <? 3)%nat eqn:E.
  - apply Nat.ltb_lt in E. split; [intros (s & [] & _)|lia].
  - apply Nat.ltb_ge in E. tauto.
Qed.
Lemma border_same ps qs : fin_points qs -> (forall x y, ring_border ps x y -> ~ ring_border qs x y) ->
  forall x y u w, ring_border ps x y -> ring_border ps u w -> odd_at qs x y = odd_at qs u w.
Proof.
  intros F D x y u w H1 H2. apply border_line in H1, H2. destruct H1 as [L H1], H2 as [_ H2].
  apply (line_side (close_points ps)); auto. intros p q H. apply D, border_line. auto.
Qed.

(** a path with one point in the interior that keeps off the border is inside *)
Lemma line_inside ps qs x y : fin_points qs -> (forall u w, on_line ps u w -> ~ ring_border qs u w) ->
  on_line ps x y -> ring_interior qs x y -> forall u w, on_line ps u w -> ring_interior qs u w.
Proof.
  intros F D O [H N] u w O'. split; [|now apply D]. apply ring_has_odd. right.
  apply ring_has_odd in H. destruct H as [|H]; [contradiction|]. rewrite <- H. now apply (line_side ps).
Qed.
Lemma border_inside ps qs x y : fin_points qs -> (forall u w, ring_border ps u w -> ~ ring_border qs u w) ->
  ring_border ps x y -> ring_interior qs x y -> forall u w, ring_border ps u w -> ring_interior qs u w.
Proof.
  intros F D O [H N] u w O'. split; [|now apply D]. apply ring_has_odd. right.
  apply ring_has_odd in H. destruct H as [|H]; [contradiction|]. rewrite <- H. now apply (border_same ps).
Qed.

(** ** A ring whose border is inside another is inside it altogether *)

Lemma filled asked asked' ph h pe e : ring_stands asked ph h -> ring_stands asked' pe e -> (3 <= length ph)%nat -> (3 <= length pe)%nat ->
  (forall x y, ring_border pe x y -> ring_interior ph x y) -> forall x y, ring_has pe x y -> ring_interior ph x y.
Proof.
  intros HH HE LH LE IN x y HX.
  pose proof (ints_fin _ (proj1 HH)) as FH. pose proof (ints_fin _ (proj1 HE)) as FE.
  destruct (Classical_Prop.classic (ring_interior ph x y)) as [|NI]; [assumption|exfalso].
  assert (NB : ~ ring_border pe x y) by (intros B; apply NI, IN, B).
  apply ring_has_odd in HX. destruct HX as [|OX]; [contradiction|].
  assert (D : forall u w, ring_border ph u w -> ~ ring_border pe u w).
  { intros u w B1 B2. apply (IN u w B2). exact B1. }
  assert (W : exists u w, ring_border ph u w /\ odd_at pe u w = true).
  { destruct (Classical_Prop.classic (ring_border ph x y)) as [B|B]; [exists x, y; auto|].
    assert (OH : odd_at ph x y = false).
    { destruct (odd_at ph x y) eqn:E; [|reflexivity]. exfalso. apply NI. split; [|exact B]. apply ring_has_odd. now right. }
    destruct (first_hit (ring_segments pe) x y) as (s & x1 & I & L & O & M).
    { destruct (odd_right pe x y OX) as (s & I & _ & x' & O & X). exists s, x'. split; [exact I|]. split; [lra|exact O]. }
    assert (Z : ring_border pe x1 y) by (exists s; auto).
    destruct (IN _ _ Z) as [HZ BZ]. apply ring_has_odd in HZ. destruct HZ as [|HZ]; [contradiction|].
    destruct (Classical_Prop.classic (exists t, In t (ring_segments ph) /\ meets_seg x y x1 y t)) as [(t & It & u & v & U & V)|NO].
    2:{ exfalso. assert (X : odd_at ph x y = odd_at ph x1 y); [|congruence]. apply along_none; [exact FH|].
        intros t It C. apply NO. exists t. auto. }
    assert (EV : v = y) by (destruct U as (k & _ & _ & ->); ring). subst v.
    assert (EU : x <= u <= x1).
    { apply on_segment_iff in U. destruct U as (U & _). rewrite Rmin_left, Rmax_right in U by lra. exact U. }
    assert (BU : ring_border ph u y) by (exists t; auto).
    exists u, y. split; [exact BU|]. rewrite <- OX. symmetry. apply along_none; [exact FE|].
    intros z Iz (p & q & P & Q).
    assert (EQ : q = y) by (destruct P as (k & _ & _ & ->); ring). subst q.
    assert (EP : x <= p <= u).
    { apply on_segment_iff in P. destruct P as (P & _). rewrite Rmin_left, Rmax_right in P by lra. exact P. }
    pose proof (M z p Iz ltac:(lra) Q). assert (p = u) by lra. subst p. apply (D u y BU). exists z. auto. }
  destruct W as (u & w & B & O).
  assert (ALLH : forall v, In v ph -> odd_at pe (xR v) (yR v) = true).
  { intros v I. rewrite <- O. apply (border_same ph pe FE D); [now apply border_vertex|exact B]. }
  assert (ALLE : forall v, In v pe -> odd_at ph (xR v) (yR v) = true).
  { intros v I. destruct (IN _ _ (border_vertex pe v LE I)) as [H N]. apply ring_has_odd in H. tauto. }
  destruct HH as (IH & kh & nh & Sh & Nh & _). destruct HE as (IE & ke & ne & Se & Ne & _).
  destruct (area_extent ph true kh nh h IH Sh ltac:(lia) Nh) as (gx1 & gy1 & gx2 & gy2 & XG & _).
  destruct (area_extent pe true ke ne e IE Se ltac:(lia) Ne) as (sx1 & sy1 & sx2 & sy2 & XS & _).
  pose proof (inner_smaller _ _ _ _ _ _ _ _ _ _ FE XS XG ALLH). pose proof (inner_smaller _ _ _ _ _ _ _ _ _ _ FH XG XS ALLE). lia.
Qed.
End Sides.

(** ** Polygons and lines *)

Lemma hole_less asked asked' ps h : hole_stands asked ps h -> (forall q, In q asked' -> In q asked) -> hole_stands asked' ps h.
Proof. intros (r & -> & R & C) S. exists r. split; [reflexivity|]. split; [now apply (ring_stands_less asked)|exact C]. Qed.
Lemma Forall2_imp {X Y} (R S : X -> Y -> Prop) l m : Forall2 R l m -> (forall x y, R x y -> S x y) -> Forall2 S l m.
Proof. intros F H. induction F; constructor; auto. Qed.
Lemma poly_stands_less asked asked' q ext holes : poly_stands asked q ext holes -> (forall p, In p asked' -> In p asked) ->
  poly_stands asked' q ext holes.
Proof.
  intros [P Q] S. split; [exact P|]. destruct q.
  - destruct Q as [Q E]. split; [now apply (ring_stands_less asked)|exact E].
  - destruct Q as [Q E]. split; [now apply (ring_stands_less asked)|]. eapply Forall2_imp; [exact E|]. intros x y H. now apply (hole_less asked).
Qed.
Lemma hole_fin asked holes hs h : Forall2 (hole_stands asked) holes hs -> In h holes -> fin_points h.
Proof. intros F I. destruct (Forall2_in_l _ _ _ _ F I) as (o & _ & r & _ & R & _). apply ints_fin, R. Qed.
Lemma interior_three ps x y : ring_interior ps x y -> (3 <= length ps)%nat.
Proof. intros [H _]. exact (has_three _ _ _ H). Qed.

Theorem poly_line_exact pl l q ext holes : line_stands pl l -> poly_stands pl q ext holes ->
  exists v, tg_poly_intersects_line (Some q) (Some l) = Ret v /\
    (v = true <-> exists x y, poly_has ext holes x y /\ on_line pl x y).
Proof.
  intros HL [PP Q]. unfold tg_poly_intersects_line. destruct q as [r|r hs].
  - destruct Q as [R ->]. destruct (ring_line_exact ext r pl l HL R) as (v & V & E). exists v. split; [exact V|]. rewrite E.
    split; intros (x & y & H & O); exists x, y; (split; [|exact O]); [split; [exact H|intros h []]|apply H].
  - destruct Q as [R HS]. unfold tg_poly_empty. cbn [tg_poly_exterior poly_holes].
    destruct (ring_stands_facts _ _ _ R) as (_ & -> & _). destruct (line_stands_facts _ _ HL) as (_ & -> & _).
    destruct ((length ext <? 3)%nat || (length pl <? 2)%nat) eqn:E.
    { exists false. split; [reflexivity|]. split; [discriminate|]. intros (x & y & [H _] & O).
      apply has_three in H. apply on_line_two in O. apply orb_true_iff in E. rewrite !Nat.ltb_lt in E. lia. }
    apply orb_false_iff in E. rewrite !Nat.ltb_ge in E. destruct E as [LE LL].
    destruct (ring_line_exact ext r pl l HL R) as (v & V & EV). rewrite V. cbn [bind_out]. destruct v; cbn [negb].
    2:{ exists false. split; [reflexivity|]. split; [discriminate|]. intros (x & y & [H _] & O). apply EV. exists x, y. auto. }
    destruct (some_hole (fun h => tg_ring_contains_line h (Some l) false false)
      (fun ps => (2 <= length pl)%nat /\ forall x y, on_line pl x y -> ring_interior ps x y) pl holes hs HS) as (w & W & EW).
    { intros ps r' R' C. apply contains_line_exact; assumption. }
    destruct (out_negb_ret _ _ _ W EW) as (u & U & EU). exists u. split; [exact U|]. rewrite EU. split.
    + intros NO. destruct (proj1 EV eq_refl) as (x & y & H & O).
      destruct (Classical_Prop.classic (exists x y, poly_has ext holes x y /\ on_line pl x y)) as [|NC]; [assumption|exfalso].
      assert (K : exists h, In h holes /\ ring_interior h x y).
      { destruct (Classical_Prop.classic (exists h, In h holes /\ ring_interior h x y)) as [|K]; [assumption|exfalso].
        apply NC. exists x, y. split; [|exact O]. split; [exact H|]. intros h I B. apply K. exists h. auto. }
      destruct K as (h & I & B). apply NO. exists h. split; [exact I|]. split; [exact LL|].
      apply (line_inside pl h x y); auto.
      * eapply hole_fin; eassumption.
      * intros p q' O' B'. apply NC. exists p, q'. split; [|exact O']. apply PP. right. exists h. auto.
    + intros (x & y & [_ H] & O) (h & I & _ & B). apply (H h I), B, O.
Qed.

(** ** Polygons and polygons *)

Theorem poly_poly_exact aska askb qa ea ha qb eb hb : poly_stands aska qa ea ha -> poly_stands askb qb eb hb ->
  (forall p, In p eb -> In p aska) -> (forall p, In p ea -> In p askb) ->
  exists v, tg_poly_intersects_poly (Some qa) (Some qb) = Ret v /\
    (v = true <-> exists x y, poly_has ea ha x y /\ poly_has eb hb x y).
Proof.
  intros QA QB SA SB. apply (poly_stands_less _ eb) in QA; [|exact SA]. apply (poly_stands_less _ ea) in QB; [|exact SB].
  destruct QA as [PA QA], QB as [PB QB].
  (* what both kinds of polygon have in common *)
  assert (GEN : forall ra hsa rb hsb, ring_stands eb ea ra -> ring_stands ea eb rb ->
    Forall2 (hole_stands eb) ha hsa -> Forall2 (hole_stands ea) hb hsb ->
    exists v, (if line_is_empty (Some ra) || line_is_empty (Some rb) then Ret false
      else bind_out (tg_ring_intersects_ring (Some rb) (Some ra) true) (fun meets =>
          if negb meets then Ret false
          else bind_out (any_of (map (fun h => tg_ring_contains_ring h (Some rb) false) hsa)) (fun inside =>
              if inside then Ret false
              else out_negb (any_of (map (fun h => tg_ring_contains_ring h (Some ra) false) hsb))))) = Ret v /\
    (v = true <-> exists x y, poly_has ea ha x y /\ poly_has eb hb x y)).
  { intros ra hsa rb hsb RA RB HA HB. clear QA QB.
    destruct (ring_stands_facts _ _ _ RA) as (_ & -> & _). destruct (ring_stands_facts _ _ _ RB) as (_ & -> & _).
    destruct ((length ea <? 3)%nat || (length eb <? 3)%nat) eqn:E.
    { exists false. split; [reflexivity|]. split; [discriminate|]. intros (x & y & [H1 _] & [H2 _]).
      apply has_three in H1, H2. apply orb_true_iff in E. rewrite !Nat.ltb_lt in E. lia. }
    apply orb_false_iff in E. rewrite !Nat.ltb_ge in E. destruct E as [LA LB].
    destruct (ring_ring_exact eb rb ea ra RB RA) as (v & V & EV). rewrite V. cbn [bind_out]. destruct v; cbn [negb].
    2:{ exists false. split; [reflexivity|]. split; [discriminate|]. intros (x & y & [H1 _] & [H2 _]). apply EV. exists x, y. auto. }
    destruct (some_hole (fun h => tg_ring_contains_ring h (Some rb) false)
      (fun ps => (3 <= length eb)%nat /\ forall x y, ring_border eb x y -> ring_interior ps x y) eb ha hsa HA) as (wa & WA & EA).
    { intros ps r' R' C. apply contains_ring_exact; [now apply (ring_stands_less ea)|exact R'|exact C]. }
    destruct (some_hole (fun h => tg_ring_contains_ring h (Some ra) false)
      (fun ps => (3 <= length ea)%nat /\ forall x y, ring_border ea x y -> ring_interior ps x y) ea hb hsb HB) as (wb & WB & EB).
    { intros ps r' R' C. apply contains_ring_exact; [now apply (ring_stands_less eb)|exact R'|exact C]. }
    assert (OUT : forall asked asked' e2 h2s hs2 pe2 r r2, ring_stands asked e2 pe2 -> ring_stands asked' r r2 -> Forall2 (hole_stands asked) h2s hs2 -> (3 <= length r)%nat ->
      (exists h, In h h2s /\ (3 <= length r)%nat /\ forall x y, ring_border r x y -> ring_interior h x y) ->
      forall x y, ring_has r x y -> (forall h, In h h2s -> ~ ring_interior h x y) -> False).
    { clear. intros asked asked' e2 h2s hs2 pe2 r r2 R2 R F L (h & I & _ & B) x y H N.
      destruct (Forall2_in_l _ _ _ _ F I) as (o & _ & rh & _ & RH & _).
      apply (N h I). apply (filled asked asked' h rh r r2 RH R); auto.
      destruct r as [|v r]; [cbn in L; lia|]. apply (interior_three h (xR v) (yR v)), B, border_vertex; [exact L|now left]. }
    destruct (any_of (map (fun h => tg_ring_contains_ring h (Some rb) false) hsa)) as [w| |]; try discriminate. injection WA as ->.
    cbn [bind_out]. destruct wa.
    { exists false. split; [reflexivity|]. split; [discriminate|]. intros (x & y & [_ H1] & [H2 _]). exfalso.
      exact (OUT eb ea ea ha hsa ra eb rb RA RB HA LB (proj1 EA eq_refl) x y H2 H1). }
    destruct (out_negb_ret _ _ _ WB EB) as (u & U & EU). exists u. split; [exact U|]. rewrite EU. split.
    - intros NO. destruct (proj1 EV eq_refl) as (x & y & H2 & H1).
      destruct (Classical_Prop.classic (exists x y, poly_has ea ha x y /\ poly_has eb hb x y)) as [|NC]; [assumption|exfalso].
      assert (NOA : ~ exists h, In h ha /\ (3 <= length eb)%nat /\ forall x y, ring_border eb x y -> ring_interior h x y).
      { intros H. apply EA in H. discriminate. }
      assert (STEP : forall e1 h1s e2 h2s (F2 : forall h, In h h2s -> fin_points h), poly_proper e1 h1s -> poly_proper e2 h2s -> (3 <= length e1)%nat ->
        (~ exists x y, poly_has e1 h1s x y /\ poly_has e2 h2s x y) ->
        (~ exists h, In h h2s /\ (3 <= length e1)%nat /\ forall x y, ring_border e1 x y -> ring_interior h x y) ->
        forall x y, ring_border e1 x y -> ring_has e2 x y -> False).
      { clear. intros e1 h1s e2 h2s F2 P1 P2 L1 NC NH x y B H.
        assert (K : exists h, In h h2s /\ ring_interior h x y).
        { destruct (Classical_Prop.classic (exists h, In h h2s /\ ring_interior h x y)) as [|K]; [assumption|exfalso].
          apply NC. exists x, y. split; [apply P1; now left|]. split; [exact H|]. intros h I C. apply K. exists h. auto. }
        destruct K as (h & I & C). apply NH. exists h. split; [exact I|]. split; [exact L1|].
        apply (border_inside e1 h x y); auto.
        intros p q B1 B2. apply NC. exists p, q. split; [apply P1; now left|]. apply P2. right. exists h. auto. }
      destruct (border_of_either ea eb x y (ints_fin _ (proj1 RA)) (ints_fin _ (proj1 RB)) H1 H2) as [(x' & B & H)|(x' & B & H)].
      + apply (STEP ea ha eb hb) with (x := x') (y := y); auto. intros h I. exact (hole_fin _ _ _ _ HB I).
      + apply (STEP eb hb ea ha) with (x := x') (y := y); auto; [intros h I; exact (hole_fin _ _ _ _ HA I)|].
        intros (p & q & C1 & C2). apply NC. exists p, q. auto.
    - intros (x & y & [H1 _] & [_ H2]) H. exact (OUT ea eb eb hb hsb rb ea ra RB RA HB LA H x y H1 H2). }
  unfold tg_poly_intersects_poly. unfold tg_poly_empty.
  destruct qa as [ra|ra hsa], qb as [rb|rb hsb]; cbn [tg_poly_exterior poly_holes].
  - destruct QA as [RA ->], QB as [RB ->]. destruct (ring_ring_exact ea ra eb rb RA RB) as (v & V & E). exists v.
    split; [exact V|]. rewrite E. split; intros (x & y & H1 & H2); exists x, y; [split; (split; [assumption|intros h []])|split; [apply H1|apply H2]].
  - destruct QA as [RA E], QB as [RB HB]. rewrite E in *. apply (GEN ra [] rb hsb); auto.
  - destruct QA as [RA HA], QB as [RB E]. rewrite E in *. apply (GEN ra hsa rb []); auto.
  - destruct QA as [RA HA], QB as [RB HB]. apply (GEN ra hsa rb hsb); auto.
Qed.
