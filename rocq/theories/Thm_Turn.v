(** * Winding direction, area and convexity of rings *)

From Coq Require Import ZArith Reals Bool List Lia Lra.
From Verif Require Import F64 Geo Series RingApi F64Order F64Real F64Mono SegExact SpecTurn RingTurn SeriesExamples.
Import ListNotations.
Local Open Scope Z_scope.

Lemma P_stands x y : Z.abs x < 2 ^ 31 -> Z.abs y < 2 ^ 31 -> stands_for (P x y) (x, y).
Proof. intros X Y. split; now apply RV_f_of_Z. Qed.
Ltac stands := repeat (constructor; [apply P_stands; lia|]); constructor.
Ltac small := let H := fresh in intros v H; repeat (destruct H as [<-|H]; [cbn; lia|]); destruct H.

(** ** C36 *)

Theorem C36_winding :
  forall ps vs m kind spread r,
    points_stand_for ps vs -> within m vs -> 4 * (m * m) * Z.of_nat (length ps) <= 2 ^ 53 ->
    series_new ps true kind spread = Some r ->
    (tg_ring_clockwise (Some r) = true <-> shoelace vs < 0) /\
    RV (tg_ring_area (Some r)) = (IZR (Z.abs (shoelace vs)) / 2)%R.
Proof.
  intros ps vs m kind spread r S W B NW.
  destruct (winding ps vs m true kind spread r S W B NW) as (C & _ & A).
  split; [cbn [tg_ring_clockwise]; rewrite C; lia|].
  cbn [tg_ring_area]. destruct (tg_ring_empty r) eqn:E; [|exact A].
  pose proof (SearchFacts.series_new_fields _ _ _ _ _ NW) as F. cbv zeta in F.
  destruct F as (EC & EN & _). unfold tg_ring_empty in E. rewrite EC, EN in E.
  rewrite (stand_length _ _ S) in E.
  assert (Z0 : shoelace vs = 0).
  { destruct vs as [|a [|b [|c vs]]]; [reflexivity|cbn; ring|cbn; ring|cbn in E; discriminate]. }
  rewrite Z0. destruct isz_zero as [_ ->]. cbn. lra.
Qed.
Print Assumptions C36_winding.

Theorem C36_repeated_first_point :
  forall ps qs c cs m k1 s1 r k2 s2 q,
    points_stand_for ps (c :: cs) -> points_stand_for qs ((c :: cs) ++ [c]) ->
    within m (c :: cs) -> 4 * (m * m) * Z.of_nat (length qs) <= 2 ^ 53 ->
    series_new ps true k1 s1 = Some r -> series_new qs true k2 s2 = Some q ->
    tg_ring_clockwise (Some r) = tg_ring_clockwise (Some q) /\
    RV (tg_ring_area (Some r)) = RV (tg_ring_area (Some q)).
Proof.
  intros ps qs c cs m k1 s1 r k2 s2 q SP SQ W B NP NQ.
  assert (WQ : within m ((c :: cs) ++ [c])).
  { intros v I. apply W. apply in_app_iff in I. destruct I as [I|[<-|[]]]; [exact I|now left]. }
  assert (BP : 4 * (m * m) * Z.of_nat (length ps) <= 2 ^ 53).
  { eapply Z.le_trans; [|exact B]. apply Z.mul_le_mono_nonneg_l; [nia|].
    rewrite (stand_length _ _ SP), (stand_length _ _ SQ), app_length. lia. }
  destruct (C36_winding ps (c :: cs) m k1 s1 r SP W BP NP) as [C1 A1].
  destruct (C36_winding qs ((c :: cs) ++ [c]) m k2 s2 q SQ WQ B NQ) as [C2 A2].
  rewrite shoelace_closed in C2, A2. split; [|congruence].
  destruct (tg_ring_clockwise (Some r)), (tg_ring_clockwise (Some q)); try reflexivity;
    [symmetry; apply C2, C1|apply C1, C2]; reflexivity.
Qed.
Print Assumptions C36_repeated_first_point.

(** no bound on the coordinates is needed for the sign of the area *)
Theorem C36_area_not_negative :
  forall ps closed kind spread r, Forall wf_pt ps -> series_new ps closed kind spread = Some r ->
    flt (tg_ring_area (Some r)) f_zero = false.
Proof.
  intros ps closed kind spread r W NW. cbn [tg_ring_area].
  destruct (tg_ring_empty r); [reflexivity|]. now apply (area_not_negative ps closed kind spread).
Qed.
Print Assumptions C36_area_not_negative.

(** a clockwise triangle far from the origin with a large coordinate *)
Example C36_example :
  let ps := [P (-10000000) 9999999; P 10000000 10000000; P 10000000 9999998; P (-10000000) 9999999] in
  let vs := [(-10000000, 9999999); (10000000, 10000000); (10000000, 9999998); (-10000000, 9999999)] in
  points_stand_for ps vs /\ within 10000000 vs /\
  4 * (10000000 * 10000000) * Z.of_nat (length ps) <= 2 ^ 53 /\ shoelace vs = -40000000 /\
  exists r, series_new ps true IxNone 16 = Some r /\
    tg_ring_clockwise (Some r) = true /\ tg_ring_area (Some r) = f_of_Z 20000000.
Proof.
  cbv zeta. split; [stands|]. split; [small|]. split; [cbn; lia|]. split; [reflexivity|].
  eexists. vms.
Qed.

(** ** C35 *)

(** the answer is the exact sign test over all consecutive triples of the
    point list, the first triple deciding when it is not a left turn *)
Theorem C35_convex_sign_test :
  forall ps vs closed kind spread r,
    points_stand_for ps vs -> within (2 ^ 24) vs -> (2 <= length ps)%nat ->
    series_new ps closed kind spread = Some r ->
    (tg_ring_convex (Some r) = true <->
     (forall i, (i < length vs)%nat -> 0 <= turn_after vs i) \/
     (turn_after vs 0 < 0 /\ forall i, (i < length vs)%nat -> turn_after vs i <= 0)).
Proof. intros. cbn [tg_ring_convex]. now apply (convex_exact ps vs closed kind spread). Qed.
Print Assumptions C35_convex_sign_test.

(** full claim: tg_ring_convex (Some r) = true -> turns_one_way (corners vs).
    Proved when no vertex is repeated next to itself (implicitly closed). *)
Theorem C35_convex_turns_partial :
  forall ps vs kind spread r,
    points_stand_for ps vs -> within (2 ^ 24) vs -> corners vs = vs ->
    series_new ps true kind spread = Some r -> tg_ring_convex (Some r) = true ->
    turns_one_way (corners vs).
Proof.
  intros ps vs kind spread r S W E NW C. rewrite E.
  destruct (Nat.le_gt_cases 2 (length ps)) as [N|N].
  - apply one_sign_one_way; [destruct vs; [rewrite (stand_length _ _ S) in N; cbn in N; lia|congruence]|].
    now apply (convex_exact ps vs true kind spread r).
  - cbn [tg_ring_convex] in C. pose proof (SearchFacts.series_new_fields _ _ _ _ _ NW) as F. cbv zeta in F.
    destruct F as (_ & _ & _ & _ & _ & CV & _). rewrite CV in C.
    match type of C with context [process_points ?x ps _] =>
      destruct (process_short x ps (length ps) N) as (_ & _ & Q) end. congruence.
Qed.
Print Assumptions C35_convex_turns_partial.

(** with the first point repeated at the end, the turn at the first vertex is
    the one that is not looked at *)
Theorem C35_closed_turns_partial :
  forall ps c cs kind spread r,
    points_stand_for ps ((c :: cs) ++ [c]) -> within (2 ^ 24) (c :: cs) ->
    series_new ps true kind spread = Some r -> tg_ring_convex (Some r) = true ->
    ~ exists i j, (i + 2 <= length (c :: cs))%nat /\ (j + 2 <= length (c :: cs))%nat /\
        0 < turn_after (c :: cs) i /\ turn_after (c :: cs) j < 0.
Proof.
  intros ps c cs kind spread r S W NW C (i & j & Hi & Hj & Ti & Tj).
  assert (WQ : within (2 ^ 24) ((c :: cs) ++ [c])).
  { intros v I. apply W. apply in_app_iff in I. destruct I as [I|[<-|[]]]; [exact I|now left]. }
  assert (L : length ((c :: cs) ++ [c]) = Datatypes.S (length (c :: cs))) by (rewrite app_length; apply Nat.add_1_r).
  apply (convex_exact ps _ true kind spread r S WQ) in C; [|rewrite (stand_length _ _ S), L; cbn [length]; lia|exact NW].
  rewrite <- closed_turns in Ti, Tj by assumption. rewrite L in C.
  destruct C as [C|[_ C]]; [specialize (C j)|specialize (C i)]; lia.
Qed.
Print Assumptions C35_closed_turns_partial.

(** an octagon-like convex ring, and the same ring with a dent *)
Example C35_example :
  let vs := [(0, 0); (16777216, -1); (16777216, 5); (3, 16777216); (-1, 9)] in
  let ps := [P 0 0; P 16777216 (-1); P 16777216 5; P 3 16777216; P (-1) 9] in
  points_stand_for ps vs /\ within (2 ^ 24) vs /\ corners vs = vs /\
  (exists r, series_new ps true IxNone 16 = Some r /\ tg_ring_convex (Some r) = true) /\
  (exists r, series_new (ps ++ [P 1 1]) true IxNone 16 = Some r /\ tg_ring_convex (Some r) = false).
Proof.
  cbv zeta. split; [stands|]. split; [small|]. split; [reflexivity|].
  split; eexists; vms.
Qed.

(** a dart whose reflex corner is the repeated first point *)
Theorem C35_closed_refuted :
  exists ps vs r, points_stand_for ps vs /\ within 4 vs /\
    corners vs = removelast vs /\ series_new ps true IxNone 16 = Some r /\
    tg_ring_convex (Some r) = true /\ ~ turns_one_way (corners vs).
Proof.
  exists [P 1 1; P 0 4; P 0 0; P 4 0; P 1 1], [(1, 1); (0, 4); (0, 0); (4, 0); (1, 1)].
  eexists. split; [stands|]. split; [small|]. split; [reflexivity|]. split; [vm_compute; reflexivity|].
  split; [reflexivity|]. intros T. apply T. exists 0%nat, 3%nat. split; vm_compute; reflexivity.
Qed.
Print Assumptions C35_closed_refuted.

(** a dart whose reflex corner is listed twice *)
Theorem C35_repeated_point_refuted :
  exists ps vs r, points_stand_for ps vs /\ within 4 vs /\
    hd (0, 0) vs <> last vs (0, 0) /\ series_new ps true IxNone 16 = Some r /\
    tg_ring_convex (Some r) = true /\ ~ turns_one_way (corners vs).
Proof.
  exists [P 0 4; P 0 0; P 4 0; P 1 1; P 1 1], [(0, 4); (0, 0); (4, 0); (1, 1); (1, 1)].
  eexists. split; [stands|]. split; [small|]. split; [cbn; congruence|]. split; [vm_compute; reflexivity|].
  split; [reflexivity|]. intros T. apply T. exists 0%nat, 2%nat. split; vm_compute; reflexivity.
Qed.
Print Assumptions C35_repeated_point_refuted.
