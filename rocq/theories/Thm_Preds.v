(** * Spatial predicates: lines covering lines, derived predicates, collections *)

From Coq Require Import ZArith Bool List Lia ZifyBool PeanoNat Permutation Reals Lra.
From Verif Require Import F64 Geo Series Search RingApi Geom MultiIx Preds PredsGeom PredsFacts GeomFacts
  F64Order F64Real F64Mono F32 SeriesFacts SearchFacts StripeFacts MultiFacts SpecGeo SpecFacts SpecPlane
  SpecPreds SpecRing SegExact SegMeet SegRing SeriesExamples Thm_Seg Thm_Multi.
Import ListNotations.
Local Open Scope nat_scope.

(** ** C34 *)

(** Full statement: tg_geom_covers returns for every two linestrings, and when it
    answers true every point of the second lies on the first.  Both halves are
    false of the code. *)

Definition loop_a : list pt := [P 0 0; P 1 0; P 2 0; P 2 1].
Definition loop_b : list pt := [P 2 0; P 1 0; P 1 1].
Definition line_of (ps : list pt) : option ring := series_new ps false IxNone 16.
Definition line_geom (l : ring) : option geom := Some (tg_geom_new_linestring l).

Lemma some_match {A} (o : option A) (Q : A -> bool) :
  match o with Some x => Q x | None => false end = true -> exists x, o = Some x /\ Q x = true.
Proof. destruct o as [x|]; [eauto|discriminate]. Qed.

Lemma covers_lines a b : tg_geom_covers (line_geom a) (line_geom b) = tg_line_covers_line (Some a) (Some b).
Proof. reflexivity. Qed.

(** the segment walk goes back and forth between two states for ever *)
Theorem C34_returns_refuted :
  exists a b j, line_of loop_a = Some a /\ line_of loop_b = Some b /\
    points_ok loop_a /\ points_ok loop_b /\
    first_covering (ring_segs a) (seg_at b 0) 0 = Some j /\
    (forall turns, walk turns a b 1 j = None) /\
    tg_geom_covers (line_geom a) (line_geom b) = Loops.
Proof.
  assert (E : match line_of loop_a with Some a => match line_of loop_b with Some b =>
      match first_covering (ring_segs a) (seg_at b 0) 0 with Some j =>
        match walk (r_nsegs a * r_nsegs b) a b 1 j, tg_line_covers_line (Some a) (Some b) with
        | None, Loops => true | _, _ => false end
      | None => false end | None => false end | None => false end = true) by (vm_compute; reflexivity).
  destruct (line_of loop_a) as [a|]; [|discriminate]. destruct (line_of loop_b) as [b|]; [|discriminate].
  destruct (first_covering (ring_segs a) (seg_at b 0) 0) as [j|] eqn:F; [|discriminate].
  destruct (walk (r_nsegs a * r_nsegs b) a b 1 j) eqn:W; [discriminate|].
  exists a, b, j. split; [reflexivity|]. split; [reflexivity|].
  split. { apply pts_okb_ok. vm_compute. reflexivity. }
  split. { apply pts_okb_ok. vm_compute. reflexivity. }
  split; [exact F|]. split; [apply walk_bound, W|]. rewrite covers_lines.
  destruct (tg_line_covers_line (Some a) (Some b)); [discriminate|discriminate|reflexivity].
Qed.
Print Assumptions C34_returns_refuted.

Lemma P_R x y : (Z.abs x < 2 ^ 31)%Z -> (Z.abs y < 2 ^ 31)%Z -> xR (P x y) = IZR x /\ yR (P x y) = IZR y.
Proof.
  intros X Y. unfold xR, yR. cbn [P px py]. destruct (RV_f_of_Z x X) as [_ ->]. destruct (RV_f_of_Z y Y) as [_ ->]. auto.
Qed.
Lemma P_int24 x y : (Z.abs x <= 16777216)%Z -> (Z.abs y <= 16777216)%Z -> int_point 24 (P x y).
Proof. intros X Y. apply P_int; lia. Qed.

Lemma not_on ps x y : (forall q, In q ps -> int_point 24 q) -> (Z.abs x <= 16777216)%Z -> (Z.abs y <= 16777216)%Z ->
  forallb (fun s => negb (tg_segment_covers_point s (P x y))) (pairs ps) = true -> ~ on_line ps (IZR x) (IZR y).
Proof.
  intros H X Y F (s & I & L). rewrite forallb_forall in F. specialize (F s I).
  assert (S : int_segment 24 s).
  { clear - H I. induction ps as [|a [|b ps] IH]; cbn [pairs] in I; [destruct I..|].
    destruct I as [<-|I].
    - split; apply H; cbn; auto.
    - apply IH; auto. intros q Q. apply H. right; auto. }
  destruct (P_R x y) as [EX EY]; [lia|lia|].
  rewrite <- EX, <- EY in L. apply C10_covers_exact_24 in L; [|exact S|now apply P_int24].
  rewrite L in F. discriminate.
Qed.

(** A true answer although the second line leaves the first: at a right angle;
    at the end of the first line; and although the first line is one segment *)
Definition wrong_pairs : list (list pt * list pt * (Z * Z)) :=
  [([P 0 0; P 10 0; P 10 10], [P 0 0; P 5 0; P 5 5], (5, 5)%Z);
   ([P 0 0; P 10 10], [P 0 0; P 10 10; P 0 5], (0, 5)%Z)].
Theorem C34_sound_refuted :
  Forall (fun '(psa, psb, (x, y)) =>
  exists a b, line_of psa = Some a /\ line_of psb = Some b /\
    (forall q, In q (psa ++ psb) -> int_point 24 q) /\
    tg_geom_covers (line_geom a) (line_geom b) = Ret true /\
    In (P x y) psb /\ on_line psb (IZR x) (IZR y) /\ ~ on_line psa (IZR x) (IZR y)) wrong_pairs.
Proof.
  assert (D : forall psa psb x y,
    match line_of psa with Some a => match line_of psb with Some b =>
      match tg_line_covers_line (Some a) (Some b) with Ret v => v | _ => false end
    | None => false end | None => false end = true ->
    (forall q, In q (psa ++ psb) -> int_point 24 q) -> (Z.abs x <= 16777216)%Z -> (Z.abs y <= 16777216)%Z ->
    In (P x y) psb -> on_line psb (IZR x) (IZR y) ->
    forallb (fun s => negb (tg_segment_covers_point s (P x y))) (pairs psa) = true ->
    exists a b, line_of psa = Some a /\ line_of psb = Some b /\
    (forall q, In q (psa ++ psb) -> int_point 24 q) /\
    tg_geom_covers (line_geom a) (line_geom b) = Ret true /\
    In (P x y) psb /\ on_line psb (IZR x) (IZR y) /\ ~ on_line psa (IZR x) (IZR y)).
  { intros psa psb x y E I X Y M O N.
    destruct (line_of psa) as [a|]; [|discriminate]. destruct (line_of psb) as [b|]; [|discriminate].
    exists a, b. split; [reflexivity|]. split; [reflexivity|]. split; [exact I|]. rewrite covers_lines.
    split. { destruct (tg_line_covers_line (Some a) (Some b)) as [[|]| |]; try discriminate. reflexivity. }
    split; [exact M|]. split; [exact O|]. apply not_on; auto. intros q Q. apply I, in_or_app. auto. }
  assert (L : forall p q r x y, r = P x y -> (Z.abs x < 2 ^ 31)%Z -> (Z.abs y < 2 ^ 31)%Z -> on_line [p; q; r] (IZR x) (IZR y)).
  { intros p q r x y -> X Y. exists (Seg q (P x y)). split; [right; left; reflexivity|].
    destruct (P_R x y X Y) as [<- <-]. exists 1%R. cbn [sa sb]. split; [lra|]. split; lra. }
  assert (I3 : forall ps, forallb (fun q => existsb (fun '(x, y) => (px q =? f_of_Z x)%Z && (py q =? f_of_Z y)%Z)
    [(0, 0); (10, 0); (10, 10); (5, 0); (5, 5); (0, 5)]%Z) ps = true -> forall q, In q ps -> int_point 24 q).
  { intros ps F [qx qy] Q. rewrite forallb_forall in F. specialize (F _ Q). apply existsb_exists in F.
    destruct F as ([x y] & I & F). cbn [px py] in F. apply andb_true_iff in F. destruct F as [F1 F2].
    apply Z.eqb_eq in F1, F2. rewrite F1, F2. apply P_int24; cbn [In] in I;
      (repeat (destruct I as [I|I]; [apply pair_equal_spec in I; lia|]); destruct I). }
  unfold wrong_pairs. apply Forall_cons; [|apply Forall_cons; [|apply Forall_nil]].
  - apply D; [vm_compute; reflexivity|apply I3; vm_compute; reflexivity|lia|lia|right; right; left; reflexivity| |vm_compute; reflexivity].
    apply L; [reflexivity|lia|lia].
  - apply D; [vm_compute; reflexivity|apply I3; vm_compute; reflexivity|lia|lia|right; right; left; reflexivity| |vm_compute; reflexivity].
    apply L; [reflexivity|lia|lia].
Qed.
Print Assumptions C34_sound_refuted.

Lemma line_pts_ok ps : (forall q, In q ps -> int_point 24 q) -> pts_ok ps.
Proof.
  intros H. apply Forall_forall. intros q I. destruct (H q I) as [[A _] [B _]].
  split; apply fin_ok; assumption.
Qed.

Lemma line_segs ps kind spread r : pts_ok ps -> series_new ps false kind spread = Some r ->
  ring_segs r = pairs ps /\ (r_nsegs r = length (pairs ps))%nat /\ r_npoints r = length ps /\ r_closed r = false.
Proof.
  intros OK E. apply series_new_fields in E. cbv zeta in E. destruct E as (EC & EN & ES & EP & _).
  pose proof (series_segments_spec ps false OK) as S. cbn [series_segments] in S. unfold line_segments in S.
  rewrite S. unfold ring_segs. rewrite ES. rewrite map_length, seq_length.
  repeat split; auto. apply map_ext. intros i. apply seg_at_pseg; auto.
Qed.
Lemma line_empty ps kind spread r : pts_ok ps -> series_new ps false kind spread = Some r ->
  line_is_empty (Some r) = (length ps <? 2)%nat.
Proof.
  intros OK E. destruct (line_segs _ _ _ _ OK E) as (_ & _ & N & C).
  cbn [line_is_empty]. unfold tg_ring_empty. rewrite N, C. reflexivity.
Qed.
Lemma nth_ring_segs r i : (i < r_nsegs r)%nat -> nth_error (ring_segs r) i = Some (seg_at r i).
Proof.
  intros L. unfold ring_segs. apply map_nth_error. rewrite nth_error_nth' with (d := 0%nat) by (rewrite seq_length; exact L).
  rewrite seq_nth by exact L. reflexivity.
Qed.
Lemma pairs_length ps : length (pairs ps) = (length ps - 1)%nat.
Proof.
  induction ps as [|a ps IH]; [reflexivity|]. destruct ps as [|b ps]; [reflexivity|].
  change (pairs (a :: b :: ps)) with (Seg a b :: pairs (b :: ps)). cbn [length] in *. rewrite IH. lia.
Qed.
Lemma pairs_int ps : (forall q, In q ps -> int_point 24 q) -> forall s, In s (pairs ps) -> int_segment 24 s.
Proof.
  induction ps as [|a [|b ps] IH]; intros H s I; [destruct I..|].
  change (In s (Seg a b :: pairs (b :: ps))) in I. destruct I as [<-|I].
  - split; apply H; cbn; auto.
  - apply IH; auto. intros q Q. apply H. right; auto.
Qed.

(** both ends on a segment: the whole of it *)
Lemma segment_inside s t x y : lies_on s (xR (sa t)) (yR (sa t)) -> lies_on s (xR (sb t)) (yR (sb t)) ->
  lies_on t x y -> lies_on s x y.
Proof.
  unfold lies_on, on_segment.
  generalize (xR (sa t)) (yR (sa t)) (xR (sb t)) (yR (sb t)) (xR (sa s)) (yR (sa s)) (xR (sb s)) (yR (sb s)).
  intros tx ty ux uy ax ay bx by_ (u & U & -> & ->) (v & V & -> & ->) (w & W & -> & ->).
  exists (u + w * (v - u))%R. split; [|split; ring].
  assert (0 <= w * v)%R by (apply Rmult_le_pos; lra). assert (0 <= (1 - w) * u)%R by (apply Rmult_le_pos; lra).
  assert (0 <= w * (1 - v))%R by (apply Rmult_le_pos; lra). assert (0 <= (1 - w) * (1 - u))%R by (apply Rmult_le_pos; lra).
  lra.
Qed.

(** A true answer does mean that the first segment of the second line lies on
    the first line. *)
Theorem C34_first_segment_partial :
  forall psa ka na a psb kb nb b s x y,
    (forall q, In q (psa ++ psb) -> int_point 24 q) ->
    series_new psa false ka na = Some a -> series_new psb false kb nb = Some b ->
    tg_geom_covers (line_geom a) (line_geom b) = Ret true ->
    hd_error (pairs psb) = Some s -> lies_on s x y -> on_line psa x y.
Proof.
  intros psa ka na a psb kb nb b s x y I EA EB H HS O. rewrite covers_lines in H.
  assert (IA : forall q, In q psa -> int_point 24 q) by (intros; apply I, in_or_app; auto).
  assert (IB : forall q, In q psb -> int_point 24 q) by (intros; apply I, in_or_app; auto).
  destruct (line_segs _ _ _ _ (line_pts_ok _ IA) EA) as (SA & NA & _).
  destruct (line_segs _ _ _ _ (line_pts_ok _ IB) EB) as (SB & NB & _).
  unfold tg_line_covers_line in H. destruct (_ || _); [discriminate|].
  destruct (negb _); [discriminate|].
  destruct (first_covering (ring_segs a) (seg_at b 0) 0) as [j|] eqn:F; [|discriminate]. clear H.
  apply first_covering_spec in F. destruct F as (t & N & _ & C).
  assert (S0 : seg_at b 0 = s).
  { assert (L : (0 < r_nsegs b)%nat) by (rewrite NB; destruct (pairs psb); [discriminate|cbn; lia]).
    pose proof (nth_ring_segs b 0 L) as E. rewrite SB in E. destruct (pairs psb) as [|z l]; [discriminate|].
    cbn [nth_error hd_error] in *. congruence. }
  rewrite S0 in C. rewrite SA in N. apply nth_error_In in N.
  assert (IS : int_segment 24 s) by (apply (pairs_int psb IB); destruct (pairs psb); [discriminate|]; injection HS as <-; left; auto).
  pose proof (pairs_int psa IA t N) as IT.
  unfold tg_segment_covers_segment in C. apply andb_true_iff in C. destruct C as [C1 C2].
  apply C10_covers_exact_24 in C1; [|exact IT|apply IS]. apply C10_covers_exact_24 in C2; [|exact IT|apply IS].
  exists t. split; [exact N|]. eapply segment_inside; eauto.
Qed.
Print Assumptions C34_first_segment_partial.

(** For a second line of one segment the full statement holds. *)
Theorem C34_two_points_partial :
  forall psa ka na a p q kb nb b,
    (forall r, In r (p :: q :: psa) -> int_point 24 r) ->
    series_new psa false ka na = Some a -> series_new [p; q] false kb nb = Some b ->
    exists v, tg_geom_covers (line_geom a) (line_geom b) = Ret v /\
      (v = true -> forall x y, on_line [p; q] x y -> on_line psa x y).
Proof.
  intros psa ka na a p q kb nb b I EA EB.
  assert (IB : forall r, In r [p; q] -> int_point 24 r) by (intros r [<-|[<-|[]]]; apply I; cbn; auto).
  assert (R : exists v, tg_geom_covers (line_geom a) (line_geom b) = Ret v).
  { rewrite covers_lines. unfold tg_line_covers_line.
    destruct (line_segs _ _ _ _ (line_pts_ok _ IB) EB) as (_ & NB & _). cbn [pairs length] in NB.
    destruct (_ || _); [eauto|]. destruct (negb _); [eauto|].
    destruct (first_covering (ring_segs a) (seg_at b 0) 0) as [j|]; [|eauto].
    rewrite walk_dead; [eauto|]. unfold live. rewrite NB. reflexivity. }
  destruct R as [v R]. exists v. split; [exact R|]. intros -> x y (s & [<-|[]] & L).
  eapply (C34_first_segment_partial psa ka na a [p; q] kb nb b); eauto.
  - intros r Q. apply I. apply in_app_or in Q. destruct Q as [Q|Q]; [right; right; exact Q|].
    destruct Q as [<-|[<-|[]]]; cbn; auto.
  - reflexivity.
Qed.
Print Assumptions C34_two_points_partial.

(** ... and the call returns whenever no later segment of the second line
    starts where a segment of the first line starts. *)
Theorem C34_returns_partial :
  forall psa ka na a psb kb nb b,
    points_ok psa -> points_ok psb ->
    series_new psa false ka na = Some a -> series_new psb false kb nb = Some b ->
    (forall s t, In s (tl (pairs psb)) -> In t (pairs psa) -> same_point (sa s) (sa t) = false) ->
    exists v, tg_geom_covers (line_geom a) (line_geom b) = Ret v.
Proof.
  intros psa ka na a psb kb nb b OA OB EA EB H. apply points_ok_iff in OA, OB. rewrite covers_lines.
  destruct (line_segs _ _ _ _ OA EA) as (SA & NA & _). destruct (line_segs _ _ _ _ OB EB) as (SB & NB & _).
  unfold tg_line_covers_line. destruct (_ || _); [eauto|]. destruct (negb _); [eauto|].
  destruct (first_covering (ring_segs a) (seg_at b 0) 0) as [j|]; [|eauto].
  assert (W : forall f, (r_nsegs b - 1 + (r_nsegs a - j) <= f)%nat -> walk f a b 1 j <> None).
  { intros f L. apply walk_forward; [|exact L]. intros k m K M.
    pose proof (nth_ring_segs b k ltac:(lia)) as EK. pose proof (nth_ring_segs a m M) as EM.
    rewrite SB in EK. rewrite SA in EM. apply nth_error_In in EM.
    assert (IK : In (seg_at b k) (tl (pairs psb))).
    { destruct (pairs psb) as [|z l]; [destruct k; discriminate|]. destruct k as [|k]; [lia|].
      cbn [tl nth_error] in *. eapply nth_error_In; eauto. }
    specialize (H _ _ IK EM). rewrite <- H. symmetry.
    assert (NP : forall ps r kd sp i, pts_ok ps -> series_new ps false kd sp = Some r -> pt_nn (sa (seg_at r i))).
    { intros ps r kd sp i OK E. apply series_new_fields in E. cbv zeta in E. destruct E as (_ & _ & _ & EP & _).
      rewrite (seg_at_pseg ps) by auto. apply pt_ok_nn, pseg_ok; auto. }
    apply same_point_pteq; [apply (NP psb _ _ _ k OB EB)|apply (NP psa _ _ _ m OA EA)]. }
  destruct (walk (r_nsegs a * r_nsegs b) a b 1 j) as [v|] eqn:E; [eauto|]. exfalso.
  apply (W (r_nsegs b - 1 + (r_nsegs a - j))%nat); [lia|]. apply (walk_bound _ _ _ _ E).
Qed.
Print Assumptions C34_returns_partial.

(** a line of 5 segments along an L, read backwards over two of the segments *)
Example C34_example :
  let psa := [P 0 0; P 4 0; P 8 0; P 8 4; P 8 8] in
  let psb := [P 7 0; P 5 0] in
  let psc := [P 1 0; P 3 0; P 2 0] in
  (forall s t, In s (tl (pairs psc)) -> In t (pairs psa) -> same_point (sa s) (sa t) = false) /\
  (match line_of psa with Some a => match line_of psb with Some b => match line_of psc with Some c =>
    match tg_geom_covers (line_geom a) (line_geom b), tg_geom_covers (line_geom a) (line_geom c) with
    | Ret true, Ret true => true | _, _ => false end
   | None => false end | None => false end | None => false end = true).
Proof.
  cbv zeta. split; [|vm_compute; reflexivity].
  assert (E : forallb (fun s => forallb (fun t => negb (same_point (sa s) (sa t)))
    (pairs [P 0 0; P 4 0; P 8 0; P 8 4; P 8 8])) (tl (pairs [P 1 0; P 3 0; P 2 0])) = true) by (vm_compute; reflexivity).
  intros s t S T. rewrite forallb_forall in E. specialize (E s S). rewrite forallb_forall in E. specialize (E t T).
  apply negb_true_iff in E. exact E.
Qed.

(** ** C32 *)

(** Full statement: the four derived predicates are what their names say, equals
    is symmetric, and NULL answers false (disjoint true).  Symmetry fails when
    one of the calls does not return (see below); everything else is proved. *)

(** [f a b] and [g a b] return together, with the answers related by [h] *)
Definition answers_like (h : bool -> bool) (x y : out bool) : Prop :=
  forall v, x = Ret v <-> y = Ret (h v).

Lemma equals_iff a b : tg_geom_equals a b = Ret true <-> tg_geom_within a b = Ret true /\ tg_geom_contains a b = Ret true.
Proof.
  unfold tg_geom_equals. destruct (tg_geom_within a b) as [[|]| |]; cbn [bind_out]; intuition congruence.
Qed.

Theorem C32_derived_partial :
  forall a b,
    answers_like negb (tg_geom_disjoint a b) (tg_geom_intersects a b) /\
    answers_like (fun v => v) (tg_geom_within a b) (tg_geom_contains b a) /\
    answers_like (fun v => v) (tg_geom_coveredby a b) (tg_geom_covers b a) /\
    (tg_geom_equals a b = Ret true <-> tg_geom_within a b = Ret true /\ tg_geom_within b a = Ret true) /\
    (forall v w, tg_geom_equals a b = Ret v -> tg_geom_equals b a = Ret w -> v = w).
Proof.
  intros a b. unfold answers_like. split; [|split; [|split; [|split]]].
  - unfold tg_geom_disjoint. intros v. destruct (tg_geom_intersects a b) as [u| |]; cbn [out_negb bind_out];
      [|split; discriminate..].
    split; intros [= H]; f_equal; [subst v; rewrite negb_involutive; auto|subst u; rewrite negb_involutive; auto].
  - intros v. unfold tg_geom_within. tauto.
  - intros v. unfold tg_geom_coveredby. tauto.
  - rewrite equals_iff. unfold tg_geom_within at 3. tauto.
  - intros v w V W.
    assert (S : tg_geom_equals a b = Ret true <-> tg_geom_equals b a = Ret true).
    { rewrite !equals_iff. unfold tg_geom_within. tauto. }
    rewrite V, W in S. destruct v, w; auto; [destruct S as [S _]; specialize (S eq_refl)|destruct S as [_ S]; specialize (S eq_refl)];
      discriminate.
Qed.
Print Assumptions C32_derived_partial.

(** not symmetric: one way the answer is false, the other way the call never returns *)
Theorem C32_symmetric_refuted :
  exists a b, line_of loop_a = Some a /\ line_of loop_b = Some b /\
    tg_geom_equals (line_geom a) (line_geom b) = Ret false /\
    tg_geom_equals (line_geom b) (line_geom a) = Loops.
Proof.
  assert (E : match line_of loop_a with Some a => match line_of loop_b with Some b =>
      match tg_geom_equals (line_geom a) (line_geom b), tg_geom_equals (line_geom b) (line_geom a) with
      | Ret false, Loops => true | _, _ => false end
      | None => false end | None => false end = true) by (vm_compute; reflexivity).
  destruct (line_of loop_a) as [a|]; [|discriminate]. destruct (line_of loop_b) as [b|]; [|discriminate].
  exists a, b. split; [reflexivity|]. split; [reflexivity|].
  destruct (tg_geom_equals (line_geom a) (line_geom b)) as [[|]| |]; try discriminate.
  destruct (tg_geom_equals (line_geom b) (line_geom a)); try discriminate. auto.
Qed.
Print Assumptions C32_symmetric_refuted.

Theorem C32_null :
  forall g, geom_defined g ->
    Forall (fun f => f g None = Ret false /\ f None g = Ret false)
      [tg_geom_intersects; tg_geom_covers; tg_geom_contains; tg_geom_touches;
       tg_geom_within; tg_geom_coveredby; tg_geom_equals] /\
    tg_geom_disjoint g None = Ret true /\ tg_geom_disjoint None g = Ret true.
Proof.
  intros g D.
  assert (I : tg_geom_intersects g None = Ret false) by (destruct g as [g|]; [apply intersects_null, D|reflexivity]).
  assert (V : tg_geom_covers g None = Ret false) by (destruct g as [g|]; [apply covers_null|reflexivity]).
  assert (C : tg_geom_contains g None = Ret false) by (destruct g as [g|]; [apply contains_null|reflexivity]).
  assert (T : tg_geom_touches g None = Ret false) by (destruct g as [g|]; [apply touches_null, D|reflexivity]).
  split.
  - repeat (apply Forall_cons; [split; unfold tg_geom_equals, tg_geom_within, tg_geom_coveredby; try rewrite C; cbn [bind_out tg_geom_contains on_geom]; auto|]).
    apply Forall_nil.
  - unfold tg_geom_disjoint. rewrite I. split; reflexivity.
Qed.
Print Assumptions C32_null.

(** the square and itself with another corner first: equal both ways; and a
    collection of 80 points for the NULL theorem *)
Example C32_example :
  (match series_new ex_square true IxNatural 16 with
   | Some r => match series_new (skipn 2 ex_square ++ firstn 3 (tl ex_square)) true IxNone 16 with
     | Some s => match tg_geom_equals (Some (GPoly fl0 (PRing r))) (Some (GPoly fl0 (PRing s))),
                       tg_geom_disjoint (Some (GPoly fl0 (PRing r))) (Some (GPoint fl0 (P 900 900))) with
                 | Ret true, Ret true => true | _, _ => false end
     | None => false end
   | None => false end = true) /\
  geom_defined (Some (GGMulti MPoints fl0 (Some ex_grid) [] None)).
Proof.
  split; [vm_compute; reflexivity|]. apply index_defined_multi. split.
  - assert (E : match multi_inflate (map tg_geom_rect ex_grid) with Some _ => true | None => false end = true) by (vm_compute; reflexivity).
    intros N. rewrite N in E. discriminate E.
  - intros c I. unfold ex_grid in I. apply in_flat_map in I. destruct I as (y & _ & I). apply in_map_iff in I.
    destruct I as (x & E & _). injection E as <-. exact Logic.I.
Qed.

(** ** C45 *)

Lemma index_or_not gs mix : multi_inflate (map tg_geom_rect gs) = Some mix ->
  (forall g, In g gs -> rect32 (tg_geom_rect g)) \/ mix = None ->
  mix = None \/ (Forall rect32 (map tg_geom_rect gs) /\ 64 <= length gs /\
     exists order, Permutation order (seq 0 (length gs)) /\
       mix = Some (order, multi_levels (map tg_geom_rect gs) order)).
Proof.
  intros E [G| ->]; [|left; reflexivity]. unfold multi_inflate in E. rewrite map_length in E.
  destruct (multi_spread * 2 <=? length gs)%nat eqn:L; [|injection E as <-; left; reflexivity]. right.
  destruct (multi_order _ _) as [order|] eqn:O; [|discriminate]. injection E as <-.
  destruct (multi_order_spec _ _ _ O) as (hs & _ & _ & P & _). rewrite map_length in P. unfold multi_spread in L.
  split. { apply Forall_forall. intros r I. apply in_map_iff in I. destruct I as (g & <- & I). apply G; auto. }
  split; [lia|]. exists order. auto.
Qed.

(** A collection meets a geometry exactly when one of its children does.
    Hypotheses: the rectangles of the children have no NaN and ordered corners;
    from 64 children on (where there is an index) their coordinates are 0 or have
    a magnitude between 2^-125 and the largest float, and building the index was
    defined. *)
Theorem C45_intersects :
  forall t f gs c x o,
    is_empty f = false ->
    (forall g, In g gs -> proper_rect (tg_geom_rect g)) ->
    (64 <= length gs -> forall g, In g gs -> rect32 (tg_geom_rect g)) ->
    multi_inflate (map tg_geom_rect gs) <> None ->
    (forall g, In g gs -> exists v, tg_geom_intersects g o = Ret v) ->
    exists v, tg_geom_intersects (Some (GGMulti t f (Some gs) c x)) o = Ret v /\
      (v = true <-> exists g, In g gs /\ tg_geom_intersects g o = Ret true).
Proof.
  intros t f gs c x o EM PR R32 MI RET.
  destruct (multi_inflate (map tg_geom_rect gs)) as [mix|] eqn:MX; [clear MI|congruence].
  assert (F : Forall rect_ok (map tg_geom_rect gs)).
  { apply Forall_forall. intros r I. apply in_map_iff in I. destruct I as (g & <- & I). apply rectangle_ok_iff, (PR g I). }
  pose proof (geom_rect_children gs t f c x F) as [OQ COV].
  assert (M : mix = None \/ (Forall rect32 (map tg_geom_rect gs) /\ 64 <= length gs /\
     exists order, Permutation order (seq 0 (length gs)) /\
       mix = Some (order, multi_levels (map tg_geom_rect gs) order))).
  { apply index_or_not; auto. destruct (le_lt_dec 64 (length gs)) as [L|L]; [left; auto|right].
    unfold multi_inflate in MX. rewrite map_length in MX.
    destruct (multi_spread * 2 <=? length gs)%nat eqn:E; [unfold multi_spread in E; lia|congruence]. }
  cbn [tg_geom_intersects on_geom geom_intersects]. rewrite EM. unfold search_answers. rewrite MX.
  destruct (geom_search_scan gs t f c x mix _ (multiiter (map (answer o) gs)) (Ret false) OQ F M) as (order & P & _ & _ & E).
  change (map (fun c0 => match c0 with Some c1 => geom_intersects c1 o | None => Ret false end) gs) with (map (answer o) gs).
  rewrite E. clear E.
  assert (AN : forall g, answer o g = tg_geom_intersects g o) by (intros [g|]; reflexivity).
  rewrite multi_loop.
  2:{ intros i. destruct (Nat.lt_ge_cases i (length gs)) as [L|L].
      - rewrite AN. apply RET, nth_In, L.
      - rewrite nth_overflow by exact L. exists false. reflexivity. }
  set (l := filter _ order).
  assert (IL : forall i, In i l <-> i < length gs).
  { intros i. unfold l. rewrite filter_In. split.
    - intros [I _]. apply (Permutation_in _ P), in_seq in I. lia.
    - intros L. split; [apply (Permutation_in _ (Permutation_sym P)), in_seq; lia|].
      assert (IG : In (nth i gs None) gs) by (apply nth_In, L).
      destruct (PR _ IG) as [R1 R2]. apply rectangle_ok_iff in R1.
      apply intersects_rect_iff; [apply rect_ok_nn, R1|apply rect_ok_nn, OQ|].
      apply kmeet_sym. apply (kcov_meet _ _ _ (COV i L)).
      apply ordered_key in R2; [|apply rect_ok_nn, R1]. unfold kmeet. clear - R2. lia. }
  exists (existsb (fun i => match answer o (nth i gs None) with Ret true => true | _ => false end) l).
  split. { destruct (existsb _ l); reflexivity. }
  rewrite existsb_exists. split.
  - intros (i & I & A). apply IL in I. exists (nth i gs None). split; [apply nth_In, I|]. rewrite <- AN.
    destruct (answer o (nth i gs None)) as [[|]| |]; try discriminate. reflexivity.
  - intros (g & I & A). destruct (In_nth _ _ None I) as (i & L & <-). exists i. split; [apply IL, L|].
    rewrite AN, A. reflexivity.
Qed.
Print Assumptions C45_intersects.

(** the parts of a geometry: its children, or itself *)
Definition parts (o : option geom) : list (option geom) :=
  match o with
  | None => []
  | Some (GGMulti _ _ gs _ _) => match gs with Some gs => gs | None => [] end
  | Some g => [Some g]
  end.
(** a part has been put in one of [gs] by the predicate *)
Definition held (pred : option geom -> option geom -> out bool) (gs : list (option geom)) (p : option geom) : Prop :=
  exists g, In g gs /\ pred g p = Ret true.

Lemma any_spec {A} (f : A -> out bool) l : (forall x, In x l -> exists v, f x = Ret v) ->
  exists v, any_of (map f l) = Ret v /\ (v = true <-> exists x, In x l /\ f x = Ret true).
Proof.
  induction l as [|a l IH]; intros H; cbn [map any_of].
  - exists false. split; [reflexivity|]. split; [discriminate|intros (? & [] & _)].
  - destruct (H a (or_introl eq_refl)) as [v V]. rewrite V. cbn [bind_out]. destruct v.
    + exists true. split; [reflexivity|]. split; [intros _; exists a; split; [left; auto|exact V]|auto].
    + destruct IH as (v & E & S); [intros; apply H; right; auto|]. exists v. split; [exact E|]. rewrite S.
      split; intros (y & I & Y); [exists y; split; [right|]; auto|]. destruct I as [<-|I]; [congruence|eauto].
Qed.

Lemma holds_loop (pred : option geom -> option geom -> out bool) gs :
  forall l st, (forall g p, In g gs -> In p l -> tg_geom_is_empty p = false -> exists v, pred g p = Ret v) ->
  exists v, fst (foreach_loop (holds_iter (map pred gs)) (Ret st) l) = Ret v /\
    (v = true <-> (st = true \/ exists p, In p l /\ tg_geom_is_empty p = false) /\
      forall p, In p l -> tg_geom_is_empty p = false -> held pred gs p).
Proof.
  induction l as [|a l IH]; intros st H; cbn [foreach_loop].
  - exists st. split; [reflexivity|]. split; [intros ->; split; [auto|intros p []]|intros [[?|(? & [] & _)] _]; auto].
  - unfold holds_iter at 1. destruct (tg_geom_is_empty a) eqn:EA.
    + destruct (IH st) as (v & E & S); [intros; apply H; cbn; auto|]. exists v. split; [exact E|]. rewrite S.
      split; intros [A B]; (split; [destruct A as [A|(p & I & N)]; [left; auto|right]|]).
      * exists p. cbn; auto.
      * intros p [<-|I] N; [congruence|auto].
      * destruct I as [<-|I]; [congruence|eauto].
      * intros p I N. apply B; cbn; auto.
    + rewrite map_map. destruct (any_spec (fun g => pred g a) gs) as (v & E & S).
      { intros g I. apply H; cbn; auto. }
      rewrite E. destruct v.
      * destruct (IH true) as (w & E' & S'); [intros; apply H; cbn; auto|]. exists w. split; [exact E'|]. rewrite S'.
        split; intros [A B]; (split; [|]).
        -- right. exists a. cbn; auto.
        -- intros p [<-|I] N; [apply S; reflexivity|auto].
        -- auto.
        -- intros p I N. apply B; cbn; auto.
      * exists false. split; [reflexivity|]. split; [discriminate|]. intros [_ B].
        apply S. apply (B a); cbn; auto.
Qed.
Lemma foreach_parts {S} (iter : S -> option geom -> S * bool) st o :
  fst (tg_geom_foreach iter st o) = fst (foreach_loop iter st (parts o)).
Proof.
  destruct o as [[| | | | | |t f gs c x]|]; cbn [tg_geom_foreach parts foreach_loop];
    try (destruct (iter _ _) as [? []]; reflexivity); [|reflexivity].
  destruct gs as [gs|]; reflexivity.
Qed.

(** A collection covers (contains) a geometry exactly when that geometry has a
    part that is not empty and every part that is not empty is covered
    (contained) by one child. *)
Theorem C45_covers :
  forall t f gs c x o,
    is_empty f = false ->
    Forall (fun pred : option geom -> option geom -> out bool =>
      (forall g p, In g gs -> In p (parts o) -> tg_geom_is_empty p = false -> exists v, pred g p = Ret v) ->
      exists v, pred (Some (GGMulti t f (Some gs) c x)) o = Ret v /\
        (v = true <-> (exists p, In p (parts o) /\ tg_geom_is_empty p = false) /\
          forall p, In p (parts o) -> tg_geom_is_empty p = false -> held pred gs p))
    [tg_geom_covers; tg_geom_contains].
Proof.
  intros t f gs c x o EM. repeat apply Forall_cons; [..|apply Forall_nil]; intros H.
  - cbn [tg_geom_covers on_geom geom_covers]. rewrite EM. unfold holds_all. rewrite foreach_parts.
    change (map (fun c0 o0 => match c0 with Some c1 => geom_covers c1 o0 | None => Ret false end) gs) with (map tg_geom_covers gs).
    destruct (holds_loop tg_geom_covers gs (parts o) false H) as (v & E & S). exists v. split; [exact E|]. rewrite S.
    split; intros [A B]; (split; [|exact B]); [destruct A as [A|A]; [discriminate|exact A]|right; exact A].
  - cbn [tg_geom_contains on_geom geom_contains]. rewrite EM. unfold holds_all. rewrite foreach_parts.
    change (map (fun c0 o0 => match c0 with Some c1 => geom_contains c1 o0 | None => Ret false end) gs) with (map tg_geom_contains gs).
    destruct (holds_loop tg_geom_contains gs (parts o) false H) as (v & E & S). exists v. split; [exact E|]. rewrite S.
    split; intros [A B]; (split; [|exact B]); [destruct A as [A|A]; [discriminate|exact A]|right; exact A].
Qed.
Print Assumptions C45_covers.

(** an indexed collection of 80 points and a line that meets one of them *)
Example C45_example :
  let a := Some (GGMulti MPoints fl0 (Some ex_grid) [] None) in
  (forall g, In g ex_grid -> exists v, tg_geom_intersects g (Some (GPoint fl0 (P 7 5))) = Ret v) /\
  (match tg_geom_intersects a (Some (GPoint fl0 (P 7 5))), tg_geom_intersects a (Some (GPoint fl0 (P 7 50))),
     tg_geom_covers a (Some (GGMulti MPoints fl0 (Some [Some (GPoint fl0 (P 1 1)); Some (GPoint fl_empty (P 1 1)); Some (GPoint fl0 (P 9 7))]) [] None)) with
   | Ret true, Ret false, Ret true => true | _, _, _ => false end = true).
Proof.
  split; [|vm_compute; reflexivity]. intros g I. unfold ex_grid in I. apply in_flat_map in I.
  destruct I as (y & _ & I). apply in_map_iff in I. destruct I as (x & <- & _). eexists. reflexivity.
Qed.

(** ** C46 *)

(** Full statement: when a polygon covers a line or a polygon, every point of
    that lies in the polygon.  False of the code (see below).  Proved: every
    vertex does, for rings without holes and integer coordinates up to 2^24. *)

Lemma counts_unique {X} (Q : X -> Prop) l n m : counts Q l n -> counts Q l m -> n = m.
Proof.
  intros C. revert m. induction C; intros m D; inversion D; subst; auto; contradiction.
Qed.
Lemma counts_same {X} (Q R : X -> Prop) l n : (forall x, In x l -> (Q x <-> R x)) -> counts Q l n -> counts R l n.
Proof.
  intros H C. induction C.
  - constructor.
  - apply counts_yes; [apply H; cbn; auto|apply IHC; intros; apply H; cbn; auto].
  - apply counts_no; [rewrite <- H; cbn; auto|apply IHC; intros; apply H; cbn; auto].
Qed.

Lemma hits_inside ps kind spread r p :
  (forall q, In q ps -> int_point 24 q) -> int_point 24 p -> 2 <= spread ->
  series_new ps true kind spread = Some r -> index_safe ps kind spread p ->
  exists v, hits (Some r) p true = Ret v /\ (v = true <-> inside_ring ps p).
Proof.
  intros I Ip S N X. destruct (C10_ring_even_odd ps kind spread r p true I Ip S N X) as (b & o & n & E & C & ON & OFF).
  exists b. unfold hits, contains_point. rewrite E. split; [reflexivity|].
  destruct (Classical_Prop.classic (exists s, In s (ring_segments ps) /\ lies_on s (xR p) (yR p))) as [(s & IS & L)|NO].
  - rewrite (ON s IS L). split; [intros _; left; eauto|auto].
  - assert (NO' : forall s, In s (ring_segments ps) -> ~ lies_on s (xR p) (yR p)) by (intros s IS L; apply NO; eauto).
    rewrite (OFF NO').
    assert (C' : counts (fun s => ray_crosses s p) (ring_segments ps) n).
    { revert C. apply counts_same. intros s IS. specialize (NO' s IS). tauto. }
    split; [intros O; right; eauto|]. intros [B|(m & D & O)]; [contradiction|].
    rewrite (counts_unique _ _ _ _ C' D). exact O.
Qed.

Lemma all_of_true l : all_of l = Ret true -> forall x, In x l -> x = Ret true.
Proof.
  induction l as [|a l IH]; intros H x I; [destruct I|]. cbn [all_of] in H.
  destruct a as [[|]| |]; cbn [bind_out] in H; try discriminate. destruct I as [<-|I]; auto.
Qed.
Lemma contains_segment_ends r s : tg_ring_contains_segment r s true = Ret true ->
  hits r (sa s) true = Ret true /\ (hits r (sb s) true = Ret true \/ pteq (sb s) (sa s) = true).
Proof.
  unfold tg_ring_contains_segment, hits. destruct r as [r|]; [|discriminate].
  destruct (negb _); [discriminate|].
  destruct (contains_point (Some r) (sa s) true) as [[a ia]| |]; cbn [bind_out fst]; try discriminate.
  destruct a; cbn [negb]; [|discriminate]. destruct (pteq (sb s) (sa s)); [intros _; auto|].
  destruct (contains_point (Some r) (sb s) true) as [[b ib]| |]; cbn [bind_out fst]; try discriminate.
  destruct b; cbn [negb]; [|discriminate]. auto.
Qed.
Lemma pteq_int p q : int_point 24 p -> int_point 24 q -> pteq p q = true -> xR p = xR q /\ yR p = yR q.
Proof.
  intros [[P1 (a & A & _)] [P2 (b & B & _)]] [[Q1 (c & C & _)] [Q2 (d & D & _)]] E.
  unfold pteq in E. apply andb_true_iff in E. destruct E as [E1 E2]. unfold xR, yR. rewrite A, B, C, D.
  rewrite (isz_feq _ _ a c) in E1 by (split; assumption). rewrite (isz_feq _ _ b d) in E2 by (split; assumption).
  apply Z.eqb_eq in E1, E2. subst. auto.
Qed.

Definition polygon (r : ring) : option geom := Some (GPoly fl0 (PRing r)).

Lemma pairs_cover ps q : 2 <= length ps -> In q ps -> exists s, In s (pairs ps) /\ (q = sa s \/ q = sb s).
Proof.
  induction ps as [|a [|b ps] IH]; intros L I; [destruct I|cbn in L; lia|].
  change (pairs (a :: b :: ps)) with (Seg a b :: pairs (b :: ps)). destruct I as [<-|I].
  - exists (Seg a b). split; [left; auto|left; auto].
  - destruct ps as [|c ps].
    + destruct I as [<-|[]]. exists (Seg a b). split; [left; auto|right; auto].
    + destruct IH as (s & IS & Q); [cbn; lia|exact I|]. exists s. split; [right; auto|auto].
Qed.

Theorem C46_line_vertices_partial :
  forall ps kind spread r psb kb nb b q,
    (forall q, In q (ps ++ psb) -> int_point 24 q) -> 2 <= spread ->
    (forall q, In q psb -> index_safe ps kind spread q) ->
    series_new ps true kind spread = Some r -> series_new psb false kb nb = Some b ->
    tg_geom_covers (polygon r) (line_geom b) = Ret true ->
    In q psb -> inside_ring ps q.
Proof.
  intros ps kind spread r psb kb nb b q I SP SAFE ER EB H Q.
  assert (IA : forall q, In q ps -> int_point 24 q) by (intros; apply I, in_or_app; auto).
  assert (IB : forall q, In q psb -> int_point 24 q) by (intros; apply I, in_or_app; auto).
  destruct (line_segs _ _ _ _ (line_pts_ok _ IB) EB) as (SB & _ & _ & _).
  pose proof (line_empty _ _ _ _ (line_pts_ok _ IB) EB) as EMB.
  change (tg_geom_covers (polygon r) (line_geom b)) with (tg_poly_covers_line (Some (PRing r)) (Some b)) in H.
  unfold tg_poly_covers_line, poly_has_line in H.
  destruct (tg_poly_empty (Some (PRing r)) || line_is_empty (Some b)) eqn:EM; [discriminate|].
  apply orb_false_iff in EM. destruct EM as [EMR EM]. rewrite EMB in EM. apply Nat.ltb_ge in EM.
  change (tg_poly_exterior (Some (PRing r))) with (Some r) in H.
  unfold tg_ring_contains_line in H. rewrite EMB in H.
  change (line_is_empty (Some r)) with (tg_poly_empty (Some (PRing r))) in H. rewrite EMR in H.
  assert (LT : (length psb <? 2) = false) by (apply Nat.ltb_ge; exact EM). rewrite LT in H. cbn [orb] in H.
  destruct (negb _); [discriminate|]. cbn [negb andb] in H. rewrite SB in H.
  assert (A : all_of (map (fun s => tg_ring_contains_segment (Some r) s true) (pairs psb)) = Ret true).
  { destruct (all_of _) as [[|]| |]; cbn [bind_out negb] in H; try discriminate. reflexivity. }
  clear H. destruct (pairs_cover psb q EM Q) as (s & IS & E).
  pose proof (pairs_int psb IB s IS) as [SA1 SB1].
  assert (C : tg_ring_contains_segment (Some r) s true = Ret true).
  { apply (all_of_true _ A). apply in_map_iff. eauto. }
  apply contains_segment_ends in C. destruct C as [C1 C2].
  assert (MEM : In (sa s) psb /\ In (sb s) psb).
  { clear - IS. induction psb as [|x [|y l] IH]; cbn [pairs] in IS; [destruct IS..|].
    destruct IS as [<-|IS]; [cbn; auto|]. destruct (IH IS). split; right; auto. }
  assert (H1 : inside_ring ps (sa s)).
  { destruct (hits_inside ps kind spread r (sa s) IA SA1 SP ER) as (v & E1 & E2); [apply SAFE, MEM|].
    apply E2. congruence. }
  destruct E as [->| ->]; [exact H1|]. destruct C2 as [C2|C2].
  - destruct (hits_inside ps kind spread r (sb s) IA SB1 SP ER) as (v & E1 & E2); [apply SAFE, MEM|].
    apply E2. congruence.
  - apply pteq_int in C2; [|assumption..]. destruct C2 as [X Y].
    unfold inside_ring, ray_crosses in *. rewrite X, Y. exact H1.
Qed.
Print Assumptions C46_line_vertices_partial.

(** Two rings that cover a segment which leaves them: an L, where both ends of
    the segment are corners; and a dart, which is taken for convex *)
Definition wrong_chords : list (list pt * list pt * pt) :=
  [([P 0 0; P 4 0; P 4 2; P 2 2; P 2 4; P 0 4; P 0 0], [P 4 2; P 2 4], P 3 3);
   ([P 1 1; P 0 4; P 0 0; P 4 0; P 1 1], [P 0 4; P 4 0], P 2 2)].
Theorem C46_refuted :
  Forall (fun '(ps, psb, q) =>
    exists r b, series_new ps true IxNone 16 = Some r /\ line_of psb = Some b /\
      (forall q, In q (ps ++ psb) -> int_point 24 q) /\
      tg_geom_covers (polygon r) (line_geom b) = Ret true /\
      on_line psb (xR q) (yR q) /\ int_point 24 q /\ ~ inside_ring ps q) wrong_chords.
Proof.
  assert (D : forall ps psb q,
    (match series_new ps true IxNone 16 with Some r => match line_of psb with Some b =>
      match tg_geom_covers (polygon r) (line_geom b), hits (Some r) q true with Ret true, Ret false => true | _, _ => false end
     | None => false end | None => false end = true) ->
    existsb (fun s => tg_segment_covers_point s q) (pairs psb) = true ->
    (forall x, In x (q :: ps ++ psb) -> int_point 24 x) ->
    exists r b, series_new ps true IxNone 16 = Some r /\ line_of psb = Some b /\
      (forall q, In q (ps ++ psb) -> int_point 24 q) /\
      tg_geom_covers (polygon r) (line_geom b) = Ret true /\
      on_line psb (xR q) (yR q) /\ int_point 24 q /\ ~ inside_ring ps q).
  { intros ps psb q E ON I. destruct (series_new ps true IxNone 16) as [r|] eqn:ER; [|discriminate].
    destruct (line_of psb) as [b|] eqn:EB; [|discriminate]. exists r, b. split; [reflexivity|]. split; [reflexivity|].
    split; [intros; apply I; right; auto|].
    destruct (tg_geom_covers (polygon r) (line_geom b)) as [[|]| |]; try discriminate E. split; [reflexivity|].
    assert (IQ : int_point 24 q) by (apply I; left; auto).
    split.
    { apply existsb_exists in ON. destruct ON as (s & IS & C). exists s. split; [exact IS|].
      apply C10_covers_exact_24; auto. apply (pairs_int psb); auto. intros; apply I. right. apply in_or_app; auto. }
    split; [exact IQ|]. intros IN.
    destruct (hits_inside ps IxNone 16 r q) as (v & E1 & E2); auto.
    - intros; apply I. right. apply in_or_app; auto.
    - lia.
    - right. exact Logic.I.
    - rewrite E1 in E. destruct v; [discriminate|]. apply E2 in IN. discriminate. }
  assert (I3 : forall ps, forallb (fun q => existsb (fun '(x, y) => (px q =? f_of_Z x)%Z && (py q =? f_of_Z y)%Z)
    (flat_map (fun x => map (fun y => (x, y)) [0; 1; 2; 3; 4]%Z) [0; 1; 2; 3; 4]%Z)) ps = true -> forall q, In q ps -> int_point 24 q).
  { intros ps F [qx qy] Q. rewrite forallb_forall in F. specialize (F _ Q). apply existsb_exists in F.
    destruct F as ([x y] & I & F). cbn [px py] in F. apply andb_true_iff in F. destruct F as [F1 F2].
    apply Z.eqb_eq in F1, F2. rewrite F1, F2. apply in_flat_map in I. destruct I as (x' & IX & I).
    apply in_map_iff in I. destruct I as (y' & E & IY). apply pair_equal_spec in E. cbn [In] in IX, IY.
    apply P_int24; lia. }
  unfold wrong_chords. apply Forall_cons; [|apply Forall_cons; [|apply Forall_nil]];
    (apply D; [vm_compute; reflexivity|vm_compute; reflexivity|apply I3; vm_compute; reflexivity]).
Qed.
Print Assumptions C46_refuted.

(** the L and a line inside it, with an index of any kind *)
Example C46_example :
  let ps := [P 0 0; P 4 0; P 4 2; P 2 2; P 2 4; P 0 4; P 0 0] in
  let psb := [P 1 4; P 1 1; P 4 1] in
  (forall q, In q psb -> index_safe ps IxYstripes 16 q) /\
  (match series_new ps true IxYstripes 16 with Some r => match line_of psb with Some b =>
      match tg_geom_covers (polygon r) (line_geom b) with Ret true => true | _ => false end
   | None => false end | None => false end = true).
Proof.
  cbv zeta. split; [|vm_compute; reflexivity]. intros q _. left. cbn [length]. lia.
Qed.
