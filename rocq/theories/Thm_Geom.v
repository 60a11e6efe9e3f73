(** * Geometry accessors, iteration and the polygon constructor *)

From Coq Require Import ZArith Bool List Lia ZifyBool.
From Verif Require Import F64 Geo Series RingApi Bytes Geom SpecWkb SearchFacts GeomFacts SeriesExamples.
Import ListNotations.
Local Open Scope Z_scope.

(** ** C33 *)

(** the children of a multi geometry of type [t], as a list *)
Definition children (t : mtype) (g : option geom) : list (option geom) :=
  match multi_geoms t g with Some l => l | None => [] end.

Lemma child_at_spec t g i : i <> Z.of_nat (length (children t g)) \/ multi_geoms t g = None ->
  child_at (multi_geoms t g) i =
  Some (if (0 <=? i) && (i <? Z.of_nat (length (children t g)))
        then nth_error (children t g) (Z.to_nat i) else None).
Proof.
  unfold children, child_at. destruct (multi_geoms t g) as [l|].
  - intros [H|H]; [|discriminate]. cbn [length].
    destruct (Z.leb_spec 0 i) as [L|L]; cbn [andb].
    + destruct (Z.leb_spec i (Z.of_nat (length l))) as [L2|L2].
      * replace (i <? Z.of_nat (length l)) with true by lia.
        destruct (nth_error l (Z.to_nat i)) eqn:E; [reflexivity|].
        apply nth_error_None in E. lia.
      * replace (i <? Z.of_nat (length l)) with false by lia. reflexivity.
    + reflexivity.
  - intros _. cbn [length]. destruct (Z.leb_spec 0 i); cbn [andb]; [|reflexivity].
    replace (i <? Z.of_nat 0) with false by lia. reflexivity.
Qed.

Lemma series_new_points ps closed kind spread r : series_new ps closed kind spread = Some r ->
  r_npoints r = length ps /\ r_points r = ps ++ [pt_at ps 0] /\ (r_nsegs r <= length ps)%nat.
Proof.
  intros E. apply series_new_fields in E. cbv zeta in E. destruct E as (_ & E1 & E2 & E3 & _).
  split; [assumption|]. split; [assumption|]. rewrite E2. unfold num_segments.
  destruct closed; [destruct (_ <? 3)%nat; [lia|]; destruct (pteq _ _); lia|].
  destruct (_ <? 2)%nat; lia.
Qed.

(** Full statement: every index.  It is false for index = count (next theorem):
    the test is "<=".  For every other index, negative ones included, the child is
    returned when there is one and the empty value otherwise. *)
Theorem C33_children_partial :
  forall g i,
    (i <> tg_geom_num_points g -> Forall (fun o => exists f p, o = Some (GPoint f p)) (children MPoints g) ->
     tg_geom_point_at g i =
     Some (match (if i <? 0 then None else nth_error (children MPoints g) (Z.to_nat i)) with
           | Some (Some (GPoint _ p)) => p | _ => pt0 end)) /\
    (i <> tg_geom_num_lines g ->
     tg_geom_line_at g i =
     Some (match (if i <? 0 then None else nth_error (children MLines g) (Z.to_nat i)) with
           | Some c => tg_geom_line c | None => None end)) /\
    (i <> tg_geom_num_polys g ->
     tg_geom_poly_at g i =
     Some (match (if i <? 0 then None else nth_error (children MPolys g) (Z.to_nat i)) with
           | Some c => tg_geom_poly c | None => None end)) /\
    (i <> tg_geom_num_geometries g ->
     tg_geom_geometry_at g i =
     Some (match (if i <? 0 then None else nth_error (children MGeoms g) (Z.to_nat i)) with
           | Some c => c | None => None end)).
Proof.
  intros g i.
  assert (K : forall t, i <> num_of (multi_geoms t g) ->
    child_at (multi_geoms t g) i =
    Some (if i <? 0 then None else nth_error (children t g) (Z.to_nat i))).
  { intros t H. rewrite child_at_spec.
    - f_equal. destruct (Z.leb_spec 0 i), (Z.ltb_spec i 0); try lia; cbn [andb]; [|reflexivity].
      destruct (Z.ltb_spec i (Z.of_nat (length (children t g)))); [reflexivity|].
      symmetry. apply nth_error_None. lia.
    - unfold children, num_of in *. destruct (multi_geoms t g); auto. }
  repeat split.
  - intros H HF. unfold tg_geom_point_at. rewrite (K MPoints H). destruct (i <? 0); [reflexivity|].
    destruct (nth_error _ _) as [c|] eqn:E; [|reflexivity].
    apply nth_error_In in E. rewrite Forall_forall in HF. destruct (HF c E) as (f & p & ->).
    reflexivity.
  - intros H. unfold tg_geom_line_at. rewrite (K MLines H). destruct (i <? 0); [reflexivity|].
    destruct (nth_error _ _); reflexivity.
  - intros H. unfold tg_geom_poly_at. rewrite (K MPolys H). destruct (i <? 0); [reflexivity|].
    destruct (nth_error _ _); reflexivity.
  - intros H. unfold tg_geom_geometry_at. rewrite (K MGeoms H). destruct (i <? 0); [reflexivity|].
    destruct (nth_error _ _); reflexivity.
Qed.
Print Assumptions C33_children_partial.

(** index = count reads one element beyond the array, for each of the four *)
Theorem C33_refuted :
  exists g1 g2 g3 g4,
    tg_geom_point_at (Some g1) (tg_geom_num_points (Some g1)) = None /\
    tg_geom_line_at (Some g2) (tg_geom_num_lines (Some g2)) = None /\
    tg_geom_poly_at (Some g3) (tg_geom_num_polys (Some g3)) = None /\
    tg_geom_geometry_at (Some g4) (tg_geom_num_geometries (Some g4)) = None.
Proof.
  exists (tg_geom_new_multipoint [P 1 2; P 3 4]), (tg_geom_new_multilinestring []),
    (tg_geom_new_multipolygon []), (tg_geom_new_geometrycollection [Some (tg_geom_new_point (P 1 2))]).
  vms.
Qed.
Print Assumptions C33_refuted.

(** points of rings and lines, and holes: every index *)
Theorem C33_rings_and_holes_partial :
  (forall r i, ring_made r ->
     tg_ring_point_at (Some r) i =
     Some (if (0 <=? i) && (i <? tg_ring_num_points (Some r))
           then nth (Z.to_nat i) (ring_pts r) pt0 else pt0)) /\
  (forall r i, ring_made r ->
     tg_ring_segment_at (Some r) i =
     Some (if (0 <=? i) && (i <? tg_ring_num_segments (Some r))
           then Seg (nth (Z.to_nat i) (ring_pts r) pt0)
                    (nth (Z.to_nat i + 1) (ring_pts r ++ firstn 1 (ring_pts r)) pt0)
           else seg0)) /\
  (forall p i,
     tg_poly_hole_at p i =
     Some (if (0 <=? i) && (i <? tg_poly_num_holes p)
           then match p with Some (PPoly _ hs) => nth (Z.to_nat i) hs None | _ => None end
           else None)).
Proof.
  split; [|split].
  - intros r i H. unfold tg_ring_point_at, tg_ring_num_points, ring_pts.
    destruct H as (ps & cl & k & sp & E).
    pose proof (series_new_points _ _ _ _ _ E) as (E1 & E2 & _). rewrite E1, E2.
    destruct (Z.ltb_spec i 0), (Z.leb_spec 0 i); try lia; cbn [orb andb]; [reflexivity|].
    destruct (Z.leb_spec (Z.of_nat (length ps)) i), (Z.ltb_spec i (Z.of_nat (length ps))); try lia;
      [reflexivity|].
    rewrite nth_error_app1 by lia. rewrite firstn_app, firstn_all, Nat.sub_diag. cbn [firstn].
    rewrite app_nil_r. apply nth_error_nth'. lia.
  - intros r i H. unfold tg_ring_segment_at, tg_ring_num_segments. destruct H as (ps & cl & k & sp & E).
    pose proof (series_new_points _ _ _ _ _ E) as (E1 & E2 & E3).
    assert (EP : ring_pts r = ps).
    { unfold ring_pts. rewrite E1, E2, firstn_app, firstn_all, Nat.sub_diag. apply app_nil_r. }
    rewrite EP, E2.
    destruct (Z.ltb_spec i 0), (Z.leb_spec 0 i); try lia; cbn [orb andb]; [reflexivity|].
    destruct (Z.leb_spec (Z.of_nat (r_nsegs r)) i), (Z.ltb_spec i (Z.of_nat (r_nsegs r))); try lia;
      [reflexivity|].
    assert (EF : firstn 1 ps = [pt_at ps 0]).
    { destruct ps; [cbn in E3; lia|reflexivity]. }
    rewrite EF, (nth_error_nth' (ps ++ [pt_at ps 0]) pt0 (n := Z.to_nat i)) by (rewrite app_length; cbn; lia).
    rewrite (nth_error_nth' (ps ++ [pt_at ps 0]) pt0 (n := Z.to_nat i + 1)) by (rewrite app_length; cbn; lia).
    rewrite app_nth1 by lia. reflexivity.
  - intros p i. unfold tg_poly_hole_at, tg_poly_num_holes. destruct p as [[r|e hs]|].
    + destruct (_ && _); reflexivity.
    + destruct (Z.ltb_spec i 0), (Z.leb_spec 0 i); try lia; cbn [orb andb]; [reflexivity|].
      destruct (Z.leb_spec (Z.of_nat (length hs)) i), (Z.ltb_spec i (Z.of_nat (length hs))); try lia;
        [reflexivity|].
      apply nth_error_nth'. lia.
    + destruct (_ && _); reflexivity.
Qed.
Print Assumptions C33_rings_and_holes_partial.

Example C33_example :
  let g := Some (tg_geom_new_multipoint [P 1 2; P 3 4]) in
  tg_geom_point_at g 1 = Some (P 3 4) /\ tg_geom_point_at g (-1) = Some pt0 /\
  tg_geom_point_at g 3 = Some pt0 /\ tg_geom_num_points g = 2 /\
  exists r, series_new ex_square true IxNatural 4 = Some r /\
    tg_ring_point_at (Some r) 3 = Some (P 3 0) /\ tg_ring_point_at (Some r) 33 = Some pt0.
Proof.
  cbv zeta. do 4 (split; [vm_compute; reflexivity|]). eexists. vms.
Qed.

(** ** C40 *)

(** what the callback sees: the children of a multi geometry or collection in
    order, any other geometry itself *)
Definition parts (g : geom) : list (option geom) :=
  match g with
  | GGMulti _ _ (Some l) _ _ => l
  | GGMulti _ _ None _ _ => []
  | g => [Some g]
  end.
(** calling a function on each element until it says stop *)
Inductive visits {S : Type} (iter : S -> option geom -> S * bool) : S -> list (option geom) -> S -> Prop :=
  | v_end s : visits iter s [] s
  | v_stop s c l s' : iter s c = (s', false) -> visits iter s (c :: l) s'
  | v_go s c l s1 s' : iter s c = (s1, true) -> visits iter s1 l s' -> visits iter s (c :: l) s'.

(** Proved: the direct children are visited in order, once each, until the
    callback returns false.  The full statement also says that nested collections
    are descended into and that empty geometries are left out; both are false
    (next theorem). *)
Theorem C40_visits_partial :
  forall (S : Type) (iter : S -> option geom -> S * bool) s g,
    visits iter s (parts g) (fst (tg_geom_foreach iter s (Some g))).
Proof.
  intros S iter s g.
  assert (L : forall l s, visits iter s l (fst (foreach_loop iter s l))).
  { induction l as [|c l IH]; intros s0; cbn [foreach_loop]; [constructor|].
    destruct (iter s0 c) as [s1 []] eqn:E; [eapply v_go; eauto|now apply v_stop]. }
  assert (K : forall c, visits iter s [c] (fst (iter s c))).
  { intros c. destruct (iter s c) as [s1 []] eqn:E; cbn [fst]; [|now apply v_stop].
    eapply v_go; [eassumption|constructor]. }
  destruct g as [| | | | | |t f [l|] c x]; cbn [parts tg_geom_foreach]; try apply K; [apply L|constructor].
Qed.
Print Assumptions C40_visits_partial.

(** the list of what a never-stopping callback sees *)
Definition seen (g : geom) : list (option geom) :=
  fst (tg_geom_foreach (fun s c => (s ++ [c], true)) [] (Some g)).
(** a point inside a nested collection is not visited, the inner collection is;
    an empty point is visited *)
Theorem C40_refuted :
  exists inner p,
    (let g := tg_geom_new_geometrycollection [Some inner] in
     parts inner = [Some p] /\ seen g = [Some inner] /\ ~ In (Some p) (seen g)) /\
    (exists e, tg_geom_is_empty (Some e) = true /\ seen e = [Some e]).
Proof.
  exists (tg_geom_new_geometrycollection [Some (tg_geom_new_point (P 1 2))]),
    (tg_geom_new_point (P 1 2)). cbv zeta. split; [|exists tg_geom_new_point_empty; vms].
  split; [reflexivity|]. split; [reflexivity|]. vm_compute. intros [H|[]]. discriminate.
Qed.
Print Assumptions C40_refuted.

Example C40_example :
  seen (tg_geom_new_multipoint [P 1 2; P 3 4]) =
    [Some (tg_geom_new_point (P 1 2)); Some (tg_geom_new_point (P 3 4))] /\
  tg_geom_foreach (fun n c => (n + 1, n <? 1)) 0 (Some (tg_geom_new_multipoint [P 1 2; P 3 4; P 5 6]))
  = (2, false).
Proof. vms. Qed.

(** ** C42 *)

(** Full statement: NULL when the exterior or any hole is NULL, otherwise the
    polygon of the given rings.  Proved for a NULL exterior and for holes that are
    all there; a NULL hole is not noticed (next theorem). *)
Theorem C42_poly_new_partial :
  forall exterior holes nholes,
    0 <= nholes <= Z.of_nat (length holes) ->
    let p := tg_poly_new exterior holes nholes in
    match exterior with
    | None => p = Some None
    | Some e =>
        (forall h, In h (firstn (Z.to_nat nholes) holes) -> h <> None) ->
        exists q, p = Some (Some q) /\ tg_poly_exterior (Some q) = Some e /\
          tg_poly_num_holes (Some q) = nholes /\
          (forall i, 0 <= i < nholes ->
             tg_poly_hole_at (Some q) i = Some (nth (Z.to_nat i) holes None))
    end.
Proof.
  intros ext holes n H. cbv zeta. destruct ext as [e|]; [|reflexivity]. intros HN.
  unfold tg_poly_new. destruct (Z.eqb_spec n 0) as [E|E].
  - exists (PRing e). split; [reflexivity|]. split; [reflexivity|]. split; [now subst|]. intros i Hi. lia.
  - replace (0 <? n) with true by lia. replace (Z.of_nat (length holes) <? n) with false by lia.
    eexists. split; [reflexivity|]. split; [reflexivity|].
    assert (L : length (firstn (Z.to_nat n) holes) = Z.to_nat n) by (rewrite firstn_length; lia).
    split; [cbn [tg_poly_num_holes]; lia|]. intros i Hi. cbn [tg_poly_hole_at].
    rewrite L. replace (i <? 0) with false by lia. replace (Z.of_nat (Z.to_nat n) <=? i) with false by lia.
    cbn [orb]. rewrite <- (firstn_skipn (Z.to_nat n) holes) at 2.
    rewrite app_nth1 by lia. apply nth_error_nth'. lia.
Qed.
Print Assumptions C42_poly_new_partial.

(** a NULL hole gives a polygon with a NULL hole in it *)
Theorem C42_refuted :
  exists ext p, tg_poly_new (Some ext) [None] 1 = Some (Some p) /\
    tg_poly_num_holes (Some p) = 1 /\ tg_poly_hole_at (Some p) 0 = Some None.
Proof.
  destruct (series_new ex_square true IxNone 16) as [r|] eqn:E; [|vm_compute in E; discriminate].
  exists r. eexists. split; [reflexivity|]. split; reflexivity.
Qed.
Print Assumptions C42_refuted.

Example C42_example : exists r1 r2 p,
  series_new ex_square true IxNatural 4 = Some r1 /\ series_new ex_flat true IxNone 4 = Some r2 /\
  tg_poly_new (Some r1) [Some r2; Some r1] 2 = Some (Some p) /\
  tg_poly_hole_at (Some p) 1 = Some (Some r1) /\ tg_poly_hole_at (Some p) 2 = Some None.
Proof. do 3 eexists. vms. Qed.
