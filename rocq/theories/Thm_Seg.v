(** * Segments: intersection, covering a point, the ray test *)

From Coq Require Import ZArith Reals Bool List Lia Lra.
From Verif Require Import F64 Geo Series RingApi Search F64Order F64Real F64Mono SpecGeo SpecFacts SpecRing
  SpecPlane SegExact SegMeet SegRay SegRing SeriesExamples.
Import ListNotations.
Local Open Scope Z_scope.

Definition reverse (s : seg) : seg := Seg (sb s) (sa s).
Definition share_endpoint (s1 s2 : seg) : Prop :=
  same_point (sa s1) (sa s2) = true \/ same_point (sa s1) (sb s2) = true \/
  same_point (sb s1) (sa s2) = true \/ same_point (sb s1) (sb s2) = true.

(** ** C08 *)

(** one part of C08 holds for all segments without NaN *)
Theorem C08_shared_endpoint :
  forall s1 s2, segment_ok s1 -> segment_ok s2 -> share_endpoint s1 s2 ->
    tg_segment_intersects_segment s1 s2 = true.
Proof.
  intros s1 s2 H1 H2 S. apply segment_ok_iff in H1, H2. destruct H1 as [A B], H2 as [C D].
  assert (NA : pt_nn (sa s1)) by (destruct A as [[? ?] [? ?]]; split; assumption).
  assert (NB : pt_nn (sb s1)) by (destruct B as [[? ?] [? ?]]; split; assumption).
  assert (NC : pt_nn (sa s2)) by (destruct C as [[? ?] [? ?]]; split; assumption).
  assert (ND : pt_nn (sb s2)) by (destruct D as [[? ?] [? ?]]; split; assumption).
  unfold share_endpoint in S. rewrite !same_point_pteq in S by assumption.
  unfold tg_segment_intersects_segment.
  assert (R : tg_rect_intersects_rect (tg_segment_rect s1) (tg_segment_rect s2) = true).
  { apply intersects_rect_iff; [apply nn_segment_rect; split; assumption..|].
    unfold pteq in S.
    assert (K : forall p q, pt_nn p -> pt_nn q -> feq (px p) (px q) && feq (py p) (py q) = true ->
              f_key (px p) = f_key (px q) /\ f_key (py p) = f_key (py q)).
    { intros p q [? ?] [? ?] E. rewrite !feq_key in E by assumption. lia. }
    assert (EE : exists p q, pt_nn p /\ pt_nn q /\ kin (tg_segment_rect s1) p /\ kin (tg_segment_rect s2) q /\
       f_key (px p) = f_key (px q) /\ f_key (py p) = f_key (py q)).
    { destruct S as [S|[S|[S|S]]]; (apply K in S; [|assumption..]); do 2 eexists;
        (split; [|split; [|split; [|split; [|exact S]]]]); try assumption;
        (apply kin_segment_rect_a || apply kin_segment_rect_b); split; assumption. }
    destruct EE as (p & q & _ & _ & K1 & K2 & E1 & E2). unfold kin in *. unfold kmeet. lia. }
  rewrite R. cbn [negb].
  assert (O : pteq (sa s1) (sa s2) || pteq (sa s1) (sb s2) || pteq (sb s1) (sa s2) || pteq (sb s1) (sb s2) = true).
  { rewrite !orb_true_iff. tauto. }
  now rewrite O.
Qed.
Print Assumptions C08_shared_endpoint.

Definition d01 : f64 := 4591870180066957722.
Definition d02 : f64 := 4596373779694328218.
Definition d03 : f64 := 4599075939470750515.
Definition d04 : f64 := 4600877379321698714.
Definition d05 : f64 := 4602678819172646912.
Definition d06 : f64 := 4603579539098121011.

(** an endpoint that is not at a representable integer, negative zero against zero *)
Example C08_shared_endpoint_example :
  let s1 := Seg (Pt d01 f_zero) (Pt d06 d03) in
  let s2 := Seg (Pt d04 d02) (Pt d01 9223372036854775808) in
  segment_ok s1 /\ segment_ok s2 /\ share_endpoint s1 s2 /\ sa s1 <> sb s2 /\
  tg_segment_intersects_segment s1 s2 = true.
Proof.
  cbv zeta. split; [vm_compute; intuition congruence|]. split; [vm_compute; intuition congruence|].
  split; [right; left; vm_compute; reflexivity|]. split; [discriminate|vm_compute; reflexivity].
Qed.

(** Full statement: for every pair of segments without NaN the order of the
    segments and their directions do not matter.  False of the code (theorems
    below); proved for integer coordinates up to 2^24. *)
Lemma common_sym s1 s2 : have_common_point s1 s2 <-> have_common_point s2 s1.
Proof. split; intros (x & y & A & B); exists x, y; now split. Qed.
Lemma lies_on_reverse s x y : lies_on (reverse s) x y <-> lies_on s x y.
Proof.
  assert (K : forall s, lies_on s x y -> lies_on (reverse s) x y).
  { clear s. intros [a b] (t & T & X & Y). cbn [sa sb reverse] in *. exists (1 - t)%R. cbn [sa sb reverse].
    split; [lra|]. split; lra. }
  split; [|apply K]. intros H. apply K in H. destruct s. exact H.
Qed.
Lemma common_reverse s1 s2 : have_common_point (reverse s1) s2 <-> have_common_point s1 s2.
Proof. split; intros (x & y & A & B); exists x, y; (split; [now apply lies_on_reverse|exact B]). Qed.

Theorem C08_symmetric_partial :
  forall s1 s2, int_segment 24 s1 -> int_segment 24 s2 ->
    tg_segment_intersects_segment s2 s1 = tg_segment_intersects_segment s1 s2 /\
    tg_segment_intersects_segment (reverse s1) s2 = tg_segment_intersects_segment s1 s2 /\
    tg_segment_intersects_segment s1 (reverse s2) = tg_segment_intersects_segment s1 s2.
Proof.
  intros s1 s2 H1 H2.
  assert (R1 : int_segment 24 (reverse s1)) by (destruct H1; split; assumption).
  assert (R2 : int_segment 24 (reverse s2)) by (destruct H2; split; assumption).
  split; [|split]; apply eq_iff_eq_true; rewrite !intersects_exact by assumption.
  - apply common_sym.
  - apply common_reverse.
  - rewrite (common_sym s1 (reverse s2)), common_reverse. apply common_sym.
Qed.
Print Assumptions C08_symmetric_partial.

Theorem C08_symmetric_refuted :
  exists s1 s2, segment_ok s1 /\ segment_ok s2 /\
    tg_segment_intersects_segment s1 s2 = true /\ tg_segment_intersects_segment s2 s1 = false.
Proof.
  exists (Seg (Pt d02 d02) (Pt d05 f_zero)), (Seg (Pt f_zero d04) (Pt d04 f_zero)).
  split; [vm_compute; intuition congruence|]. split; [vm_compute; intuition congruence|].
  split; vm_compute; reflexivity.
Qed.
Print Assumptions C08_symmetric_refuted.

(** reversing the first segment *)
Theorem C08_direction_refuted :
  exists s1 s2, segment_ok s1 /\ segment_ok s2 /\
    tg_segment_intersects_segment s1 s2 = true /\ tg_segment_intersects_segment (reverse s1) s2 = false.
Proof.
  exists (Seg (Pt d06 d06) (Pt f_zero f_zero)), (Seg (Pt d04 d05) (Pt d03 d03)).
  split; [vm_compute; intuition congruence|]. split; [vm_compute; intuition congruence|].
  split; vm_compute; reflexivity.
Qed.
Print Assumptions C08_direction_refuted.

(** reversing the second segment *)
Theorem C08_direction_second_refuted :
  exists s1 s2, segment_ok s1 /\ segment_ok s2 /\
    tg_segment_intersects_segment s1 s2 = false /\ tg_segment_intersects_segment s1 (reverse s2) = true.
Proof.
  exists (Seg (Pt d04 d01) (Pt d04 d01)), (Seg (Pt d05 f_zero) (Pt d01 d04)).
  split; [vm_compute; intuition congruence|]. split; [vm_compute; intuition congruence|].
  split; vm_compute; reflexivity.
Qed.
Print Assumptions C08_direction_second_refuted.

(** ** C09 *)

Theorem C09_intersects_exact :
  forall s1 s2, int_segment 24 s1 -> int_segment 24 s2 ->
    (tg_segment_intersects_segment s1 s2 = true <-> have_common_point s1 s2).
Proof. exact intersects_exact. Qed.
Print Assumptions C09_intersects_exact.

Lemma P_int k x y : 0 <= k <= 30 -> Z.abs x <= 2 ^ k -> Z.abs y <= 2 ^ k -> int_point k (P x y).
Proof.
  intros K X Y. assert (2 ^ k <= 2 ^ 30) by (apply Z.pow_le_mono_r; lia).
  destruct (RV_f_of_Z x ltac:(lia)) as [Fx Vx]. destruct (RV_f_of_Z y ltac:(lia)) as [Fy Vy].
  split; (split; [assumption|eexists; split; [eassumption|assumption]]).
Qed.

(** a pair whose crossing point is within 2^-24 of an end, and a near miss *)
Example C09_example :
  let s1 := Seg (P (-16777216) (-16777215)) (P 16777216 16777215) in
  let s2 := Seg (P 0 16777216) (P 0 0) in
  let s3 := Seg (P 5 16777216) (P 1 1) in
  int_segment 24 s1 /\ int_segment 24 s2 /\ int_segment 24 s3 /\
  tg_segment_intersects_segment s1 s2 = true /\ tg_segment_intersects_segment s1 s3 = false.
Proof.
  cbv zeta. repeat (split; [split; apply P_int; lia|]). split; vm_compute; reflexivity.
Qed.
Example C09_example_plane :
  have_common_point (Seg (P (-16777216) (-16777215)) (P 16777216 16777215)) (Seg (P 0 16777216) (P 0 0)).
Proof. apply C09_intersects_exact; [split; apply P_int; lia..|]. vm_compute. reflexivity. Qed.

(** the exactness does not extend to all doubles: a plus sign of size 2e-160 *)
Theorem C09_tiny_refuted :
  exists s1 s2, segment_ok s1 /\ segment_ok s2 /\ have_common_point s1 s2 /\
    tg_segment_intersects_segment s1 s2 = false.
Proof.
  exists (Seg (Pt 2213095475689254516 f_zero) (Pt 2213095475689254516 2217599075316625012)),
    (Seg (Pt f_zero 2213095475689254516) (Pt 2217599075316625012 2213095475689254516)).
  split; [vm_compute; intuition congruence|]. split; [vm_compute; intuition congruence|].
  split; [|vm_compute; reflexivity].
  set (a := 2213095475689254516). set (b := 2217599075316625012).
  assert (Fa : fin a) by (split; reflexivity). assert (Fb : fin b) by (split; reflexivity).
  assert (A0 : (0 < RV a)%R).
  { replace 0%R with (RV f_zero) by reflexivity. apply key_lt_R; [split; reflexivity|exact Fa|]. reflexivity. }
  assert (AB : (RV a < RV b)%R) by (apply key_lt_R; [exact Fa|exact Fb|reflexivity]).
  assert (Z0 : RV f_zero = 0%R) by reflexivity.
  assert (T : (0 <= RV a / RV b <= 1)%R).
  { split.
    - apply Rmult_le_pos; [lra|]. apply Rlt_le, Rinv_0_lt_compat. lra.
    - apply Rmult_le_reg_r with (RV b); [lra|]. unfold Rdiv. rewrite Rmult_assoc, Rinv_l by lra. lra. }
  exists (RV a), (RV a). split; exists (RV a / RV b)%R; cbn [sa sb px py xR yR];
    unfold xR, yR; cbn [px py]; rewrite Z0; (split; [exact T|split; field; lra]).
Qed.
Print Assumptions C09_tiny_refuted.

(** ** C10 *)

Theorem C10_covers_exact :
  forall s p, int_segment 20 s -> int_point 20 p ->
    (tg_segment_covers_point s p = true <-> lies_on s (xR p) (yR p)).
Proof.
  assert (W : forall p, int_point 20 p -> int_point 24 p).
  { intros p [[F (n & V & B)] [G (m & U & C)]]. split; (split; [assumption|]).
    - exists n. split; [exact V|lia].
    - exists m. split; [exact U|lia]. }
  intros s p [A B] C. apply covers_exact; [split|]; now apply W.
Qed.
Print Assumptions C10_covers_exact.

Theorem C10_covers_exact_24 :
  forall s p, int_segment 24 s -> int_point 24 p ->
    (tg_segment_covers_point s p = true <-> lies_on s (xR p) (yR p)).
Proof. exact covers_exact. Qed.
Print Assumptions C10_covers_exact_24.

(** the ray test of one segment: "on" exactly for points of the closed segment,
    "in" exactly for other points whose rightward ray crosses it *)
Theorem C10_ray_exact :
  forall s p, int_segment 24 s -> int_point 24 p ->
    (raycast s p = ROn <-> lies_on s (xR p) (yR p)) /\
    (raycast s p = RIn <-> ~ lies_on s (xR p) (yR p) /\ ray_crosses s p).
Proof. exact raycast_exact. Qed.
Print Assumptions C10_ray_exact.

(** point in ring: on the border the answer is the caller's choice, elsewhere
    the parity of the number of segments the ray crosses *)
Theorem C10_ring_even_odd :
  forall ps kind spread r p edge,
    (forall q, In q ps -> int_point 24 q) -> int_point 24 p -> (2 <= spread)%nat ->
    series_new ps true kind spread = Some r -> index_safe ps kind spread p ->
    exists b o n, tg_ring_contains_point r p edge = Some (b, o) /\
      counts (fun s => ~ lies_on s (xR p) (yR p) /\ ray_crosses s p) (ring_segments ps) n /\
      (forall s, In s (ring_segments ps) -> lies_on s (xR p) (yR p) -> b = edge) /\
      ((forall s, In s (ring_segments ps) -> ~ lies_on s (xR p) (yR p)) -> b = Nat.odd n).
Proof. exact ring_even_odd. Qed.
Print Assumptions C10_ring_even_odd.

(** a segment almost along the diagonal of the largest square, and points next to it *)
Example C10_example :
  let s := Seg (P (-16777216) (-16777216)) (P 16777215 16777216) in
  int_segment 24 s /\ int_point 24 (P (-1) 0) /\
  raycast s (P (-1) 0) = RIn /\ raycast s (P 0 0) = ROut /\
  raycast s (P 16777215 16777216) = ROn /\ tg_segment_covers_point s (P 0 0) = false.
Proof.
  cbv zeta. split; [split; apply P_int; lia|]. split; [apply P_int; lia|].
  repeat split; vm_compute; reflexivity.
Qed.
Example C10_ring_example :
  let ps := [P 0 0; P 16777216 1; P 3 16777216; P 0 0] in
  (forall q, In q ps -> int_point 24 q) /\ int_point 24 (P 2 1) /\
  index_safe ps IxNone 2 (P 2 1) /\
  exists r, series_new ps true IxNone 2 = Some r /\
    tg_ring_contains_point r (P 2 1) true = Some (true, None) /\
    tg_ring_contains_point r (P 16777216 1) false = Some (false, Some 1%nat).
Proof.
  cbv zeta. split.
  { intros q [<-|[<-|[<-|[<-|[]]]]]; apply P_int; lia. }
  split; [apply P_int; lia|]. split; [right; exact I|]. eexists. vms.
Qed.
