(** * Crossings of a closed path along a segment of the plane *)

From Coq Require Import Reals Bool List Lra Psatz.
From Verif Require Import SpecPlane SegExact.
Local Open Scope R_scope.

(** twice the signed area of the triangle a b v *)
Definition turn (ax ay bx by_ x y : R) : R := (bx - ax) * (y - ay) - (by_ - ay) * (x - ax).

Definition leb (a b : R) : bool := if Rle_dec a b then true else false.
Definition posb (a : R) : bool := if Rlt_dec 0 a then true else false.
Lemma leb_true a b : leb a b = true <-> a <= b.
Proof. unfold leb. destruct (Rle_dec a b); intuition congruence. Qed.
Lemma leb_false a b : leb a b = false <-> b < a.
Proof. unfold leb. destruct (Rle_dec a b); split; intros; try lra; congruence. Qed.
Lemma posb_true a : posb a = true <-> 0 < a.
Proof. unfold posb. destruct (Rlt_dec 0 a); intuition congruence. Qed.
Lemma posb_false a : posb a = false <-> a <= 0.
Proof. unfold posb. destruct (Rlt_dec 0 a); split; intros; try lra; congruence. Qed.

(** the ray from (x, y) to the right crosses the segment c d, lower end counted *)
Definition crossb (cx cy dx dy x y : R) : bool :=
  (leb cy y && negb (leb dy y) && posb (turn cx cy dx dy x y)) ||
  (negb (leb cy y) && leb dy y && posb (- turn cx cy dx dy x y)).

Lemma crossb_iff cx cy dx dy x y :
  crossb cx cy dx dy x y = true <->
  Rmin cy dy <= y < Rmax cy dy /\ exists x', on_segment cx cy dx dy x' y /\ x < x'.
Proof.
  assert (K : forall cx cy dx dy x, cy <= y < dy ->
    (0 < turn cx cy dx dy x y <-> exists x', on_segment cx cy dx dy x' y /\ x < x')).
  { clear. intros cx cy dx dy x H.
    assert (E : forall x', on_segment cx cy dx dy x' y -> (dy - cy) * (x' - x) = turn cx cy dx dy x y).
    { intros x' (t & _ & X & Y). unfold turn. subst. ring. }
    split.
    - intros T. assert (O : on_segment cx cy dx dy (cx + (y - cy) / (dy - cy) * (dx - cx)) y).
      { exists ((y - cy) / (dy - cy)). split; [|split; [reflexivity|field; lra]]. split.
        - apply Rmult_le_pos; [lra|]. apply Rlt_le, Rinv_0_lt_compat. lra.
        - apply Rmult_le_reg_r with (dy - cy); [lra|]. unfold Rdiv. rewrite Rmult_assoc, Rinv_l by lra. lra. }
      eexists. split; [exact O|]. apply E in O.
      assert (0 < (dy - cy) * (cx + (y - cy) / (dy - cy) * (dx - cx) - x)) by lra.
      assert (0 < cx + (y - cy) / (dy - cy) * (dx - cx) - x); [|lra].
      apply Rmult_lt_reg_l with (dy - cy); lra.
    - intros (x' & O & L). rewrite <- (E x' O). apply Rmult_lt_0_compat; lra. }
  unfold crossb.
  destruct (leb cy y) eqn:C; destruct (leb dy y) eqn:D; cbn [andb negb orb];
    (apply leb_true in C || apply leb_false in C); (apply leb_true in D || apply leb_false in D).
  - split; [discriminate|]. intros [H _]. unfold Rmin, Rmax in H. destruct (Rle_dec cy dy); lra.
  - rewrite orb_false_r, posb_true. rewrite Rmin_left, Rmax_right by lra. rewrite K by lra. tauto.
  - rewrite posb_true. rewrite Rmin_right, Rmax_left by lra.
    replace (- turn cx cy dx dy x y) with (turn dx dy cx cy x y) by (unfold turn; ring). rewrite K by lra.
    split.
    + intros (x' & O & L). split; [lra|]. exists x'. split; [|exact L].
      destruct O as (t & T & X & Y). exists (1 - t). split; [lra|]. split; [rewrite X|rewrite Y]; ring.
    + intros (_ & x' & O & L). exists x'. split; [|exact L].
      destruct O as (t & T & X & Y). exists (1 - t). split; [lra|]. split; [rewrite X|rewrite Y]; ring.
  - split; [discriminate|]. intros [H _]. unfold Rmin, Rmax in H. destruct (Rle_dec cy dy); lra.
Qed.

Definition meets (ax ay bx by_ cx cy dx dy : R) : Prop :=
  exists x y, on_segment ax ay bx by_ x y /\ on_segment cx cy dx dy x y.

Lemma on_sym ax ay bx by_ x y : on_segment ax ay bx by_ x y -> on_segment bx by_ ax ay x y.
Proof. intros (t & T & X & Y). exists (1 - t). split; [lra|]. split; [rewrite X|rewrite Y]; ring. Qed.

Lemma opposite p q : p * q < 0 -> p < 0 < q \/ q < 0 < p.
Proof.
  intros H. destruct (Rlt_dec p 0) as [L|L].
  - left. split; [exact L|]. nra.
  - right. assert (p <> 0) by (intros ->; lra). split; [|lra]. nra.
Qed.
Lemma opposite_iff p q : p * q < 0 <-> p < 0 < q \/ q < 0 < p.
Proof. split; [apply opposite|]. intros [H|H]; nra. Qed.

Lemma on_segment_y ax ay bx by_ x y : ay < by_ -> ay <= y <= by_ -> turn ax ay bx by_ x y = 0 ->
  on_segment ax ay bx by_ x y.
Proof.
  intros L H E. exists ((y - ay) / (by_ - ay)). split; [|split; [|field; lra]].
  - split.
    + apply Rmult_le_pos; [lra|]. apply Rlt_le, Rinv_0_lt_compat. lra.
    + apply Rmult_le_reg_r with (by_ - ay); [lra|]. unfold Rdiv. rewrite Rmult_assoc, Rinv_l by lra. lra.
  - apply Rmult_eq_reg_r with (by_ - ay); [|lra].
    replace ((ax + (y - ay) / (by_ - ay) * (bx - ax)) * (by_ - ay)) with (ax * (by_ - ay) + (y - ay) * (bx - ax)) by (field; lra).
    unfold turn in E. lra.
Qed.

(** segments that do not touch with an end meet exactly when they cross *)
Lemma meets_cross ax ay bx by_ cx cy dx dy :
  ~ on_segment ax ay bx by_ cx cy -> ~ on_segment ax ay bx by_ dx dy ->
  ~ on_segment cx cy dx dy ax ay -> ~ on_segment cx cy dx dy bx by_ ->
  (meets ax ay bx by_ cx cy dx dy <->
   (turn ax ay bx by_ cx cy) * (turn ax ay bx by_ dx dy) < 0 /\
   (turn cx cy dx dy ax ay) * (turn cx cy dx dy bx by_) < 0).
Proof.
  intros C D A B. split.
  - intros M.
    assert (NC : turn ax ay bx by_ cx cy <> 0).
    { intros E. destruct (meet_on_line ax ay bx by_ cx cy dx dy) as [H|[H|[H|H]]]; auto. unfold turn in E. lra. }
    assert (NA : turn cx cy dx dy ax ay <> 0).
    { intros E. destruct (meet_on_line cx cy dx dy ax ay bx by_) as [H|[H|[H|H]]]; auto.
      - unfold turn in E. lra.
      - destruct M as (x & y & M1 & M2). exists x, y. auto. }
    destruct M as (x & y & M1 & M2).
    assert (K : forall ax ay bx by_ cx cy dx dy x y, on_segment ax ay bx by_ x y -> on_segment cx cy dx dy x y ->
      turn ax ay bx by_ cx cy <> 0 -> ~ on_segment ax ay bx by_ dx dy ->
      turn ax ay bx by_ cx cy * turn ax ay bx by_ dx dy < 0).
    { clear. intros ax ay bx by_ cx cy dx dy x y O (u & U & X & Y) NC ND.
      assert (Z : turn ax ay bx by_ x y = 0) by (destruct O as (t & _ & -> & ->); unfold turn; ring).
      assert (E : (1 - u) * turn ax ay bx by_ cx cy + u * turn ax ay bx by_ dx dy = 0).
      { rewrite <- Z, X, Y. unfold turn. ring. }
      assert (u <> 1).
      { intros ->. apply ND. replace dx with x by lra. replace dy with y by lra. exact O. }
      assert (u <> 0) by (intros ->; apply NC; lra).
      assert (Q : u * (turn ax ay bx by_ cx cy * turn ax ay bx by_ dx dy) = - ((1 - u) * (turn ax ay bx by_ cx cy * turn ax ay bx by_ cx cy))) by nra.
      assert (0 < turn ax ay bx by_ cx cy * turn ax ay bx by_ cx cy) by nra.
      assert (0 < (1 - u) * (turn ax ay bx by_ cx cy * turn ax ay bx by_ cx cy)) by (apply Rmult_lt_0_compat; lra).
      apply Rmult_lt_reg_l with u; lra. }
    split; eapply K; eauto.
  - intros [H1 H2].
    assert (R : (bx - ax) * (dy - cy) - (by_ - ay) * (dx - cx) = turn ax ay bx by_ dx dy - turn ax ay bx by_ cx cy)
      by (unfold turn; ring).
    assert (R' : (bx - ax) * (dy - cy) - (by_ - ay) * (dx - cx) = turn cx cy dx dy ax ay - turn cx cy dx dy bx by_)
      by (unfold turn; ring).
    set (p := turn ax ay bx by_ cx cy) in *. set (q := turn ax ay bx by_ dx dy) in *.
    set (r := turn cx cy dx dy ax ay) in *. set (s := turn cx cy dx dy bx by_) in *.
    assert (Hpq := opposite _ _ H1). assert (Hrs := opposite _ _ H2).
    apply meet_cross; [rewrite R; lra|].
    replace ((cx - ax) * (dy - cy) - (cy - ay) * (dx - cx)) with r by (unfold r, turn; ring).
    replace ((cx - ax) * (by_ - ay) - (cy - ay) * (bx - ax)) with (- p) by (unfold p, turn; ring).
    assert (K : forall n d, 0 < d -> 0 <= n <= d -> 0 <= n / d <= 1).
    { clear. intros n d D0 N. split.
      - apply Rmult_le_pos; [lra|]. apply Rlt_le, Rinv_0_lt_compat. lra.
      - apply Rmult_le_reg_r with d; [lra|]. unfold Rdiv. rewrite Rmult_assoc, Rinv_l by lra. lra. }
    assert (K' : forall n d, d < 0 -> d <= n <= 0 -> 0 <= n / d <= 1).
    { intros n d D0 N. replace (n / d) with ((- n) / (- d)) by (field; lra). apply K; lra. }
    rewrite R'. split.
    + destruct Hrs; [apply K'|apply K]; lra.
    + destruct Hpq; [apply K|apply K']; lra.
Qed.

Lemma outside_pos a b c : ~ (Rmin a b <= c <= Rmax a b) -> 0 <= (c - a) * (c - b).
Proof.
  intros X. unfold Rmin, Rmax in X. destruct (Rle_dec a b), (Rlt_dec c a), (Rlt_dec c b); try nra; exfalso; apply X; lra.
Qed.

Ltac prodsign a b := first
  [ assert (a * b = 0) by (replace b with 0 by lra; ring)
  | assert (0 < a * b) by (apply Rmult_lt_0_compat; lra)
  | assert (0 < (- a) * (- b)) by (apply Rmult_lt_0_compat; lra)
  | assert (0 < (- a) * b) by (apply Rmult_lt_0_compat; lra)
  | assert (0 < a * (- b)) by (apply Rmult_lt_0_compat; lra)
  | assert (0 <= a * b) by (apply Rmult_le_pos; lra)
  | assert (0 <= (- a) * b) by (apply Rmult_le_pos; lra)
  | assert (0 <= a * (- b)) by (apply Rmult_le_pos; lra)
  | assert (0 <= (- a) * (- b)) by (apply Rmult_le_pos; lra)
  | idtac ].
Ltac signs x := destruct (Rtotal_order x 0) as [?|[?|?]]; try contradiction.

(** which side of the strip between the rays of a (below) and b (above) *)
Definition strip (ax ay bx by_ vx vy : R) : bool :=
  negb (leb vy ay) && leb vy by_ && posb (- turn ax ay bx by_ vx vy).

Lemma seg_parity ax ay bx by_ cx cy dx dy : ay <= by_ ->
  ~ on_segment ax ay bx by_ cx cy -> ~ on_segment ax ay bx by_ dx dy ->
  ~ on_segment cx cy dx dy ax ay -> ~ on_segment cx cy dx dy bx by_ ->
  (meets ax ay bx by_ cx cy dx dy <->
   xorb (xorb (crossb cx cy dx dy ax ay) (crossb cx cy dx dy bx by_))
        (xorb (strip ax ay bx by_ cx cy) (strip ax ay bx by_ dx dy)) = true).
Proof.
  intros L NC ND NA NB. rewrite meets_cross by assumption.
  assert (I1 : (dy - ay) * turn ax ay bx by_ cx cy + (ay - cy) * turn ax ay bx by_ dx dy = - (by_ - ay) * turn cx cy dx dy ax ay)
    by (unfold turn; ring).
  assert (I2 : (dy - by_) * turn ax ay bx by_ cx cy + (by_ - cy) * turn ax ay bx by_ dx dy = - (by_ - ay) * turn cx cy dx dy bx by_)
    by (unfold turn; ring).
  assert (ZC : ay < by_ -> ay <= cy <= by_ -> turn ax ay bx by_ cx cy <> 0).
  { intros S H E. apply NC. apply on_segment_y; assumption. }
  assert (ZD : ay < by_ -> ay <= dy <= by_ -> turn ax ay bx by_ dx dy <> 0).
  { intros S H E. apply ND. apply on_segment_y; assumption. }
  assert (ZA : cy <= ay <= dy \/ dy <= ay <= cy -> cy <> dy -> turn cx cy dx dy ax ay <> 0).
  { intros [H|H] N E; apply NA; [|apply on_sym]; apply on_segment_y; try lra. unfold turn in *. lra. }
  assert (ZB : cy <= by_ <= dy \/ dy <= by_ <= cy -> cy <> dy -> turn cx cy dx dy bx by_ <> 0).
  { intros [H|H] N E; apply NB; [|apply on_sym]; apply on_segment_y; try lra. unfold turn in *. lra. }
  rewrite !opposite_iff.
  unfold crossb, strip.
  assert (FLAT : ay = by_ -> turn cx cy dx dy ax ay - turn cx cy dx dy bx by_ = (dy - cy) * (bx - ax) /\
     turn ax ay bx by_ cx cy = (bx - ax) * (cy - ay) /\ turn ax ay bx by_ dx dy = (bx - ax) * (dy - ay)).
  { intros <-. unfold turn. repeat split; ring. }
  assert (HB : cy = by_ -> dy = by_ -> turn ax ay bx by_ cx cy * turn ax ay bx by_ dx dy >= 0).
  { intros -> ->. assert (X : ~ (Rmin cx dx <= bx <= Rmax cx dx)).
    { intros X. apply NB. apply on_segment_iff. rewrite (Rmin_left by_), (Rmax_left by_) by lra. split; [exact X|]. split; [lra|ring]. }
    unfold turn. replace (_ * _) with ((by_ - ay) * (by_ - ay) * ((bx - cx) * (bx - dx))) by ring.
    assert (0 <= (by_ - ay) * (by_ - ay)) by apply Rle_0_sqr.
    assert (0 <= (bx - cx) * (bx - dx)) by (apply outside_pos, X).
    apply Rle_ge, Rmult_le_pos; assumption. }
  assert (FC : ay = by_ -> cy = ay -> cy <> dy -> turn cx cy dx dy ax ay * turn cx cy dx dy bx by_ >= 0).
  { intros <- -> N. assert (X : ~ (Rmin ax bx <= cx <= Rmax ax bx)).
    { intros X. apply NC. apply on_segment_iff. rewrite (Rmin_left ay), (Rmax_left ay) by lra. split; [exact X|]. split; [lra|ring]. }
    unfold turn. replace (_ * _) with ((dy - ay) * (dy - ay) * ((cx - ax) * (cx - bx))) by ring.
    assert (0 <= (dy - ay) * (dy - ay)) by apply Rle_0_sqr.
    assert (0 <= (cx - ax) * (cx - bx)) by (apply outside_pos, X).
    apply Rle_ge, Rmult_le_pos; assumption. }
  assert (FD : ay = by_ -> dy = ay -> cy <> dy -> turn cx cy dx dy ax ay * turn cx cy dx dy bx by_ >= 0).
  { intros <- -> N. assert (X : ~ (Rmin ax bx <= dx <= Rmax ax bx)).
    { intros X. apply ND. apply on_segment_iff. rewrite (Rmin_left ay), (Rmax_left ay) by lra. split; [exact X|]. split; [lra|ring]. }
    unfold turn. replace (_ * _) with ((ay - cy) * (ay - cy) * ((dx - ax) * (dx - bx))) by ring.
    assert (0 <= (ay - cy) * (ay - cy)) by apply Rle_0_sqr.
    assert (0 <= (dx - ax) * (dx - bx)) by (apply outside_pos, X).
    apply Rle_ge, Rmult_le_pos; assumption. }
  set (p := turn ax ay bx by_ cx cy) in *. set (q := turn ax ay bx by_ dx dy) in *.
  set (r := turn cx cy dx dy ax ay) in *. set (s := turn cx cy dx dy bx by_) in *.
  clearbody p q r s. clear NC ND NA NB.
  destruct (Rle_lt_or_eq_dec _ _ L) as [S|S].
  - clear FLAT FC FD. specialize (ZC S). specialize (ZD S). clear L.
    destruct (leb cy ay) eqn:C1; destruct (leb dy ay) eqn:D1; destruct (leb cy by_) eqn:C2; destruct (leb dy by_) eqn:D2;
      cbn [andb negb orb xorb];
      rewrite ?leb_true, ?leb_false in *; try lra.
    all: rewrite ?orb_false_r, ?xorb_false_r, ?xorb_false_l.
    all: try (assert (p <> 0) by (apply ZC; lra)); try (assert (q <> 0) by (apply ZD; lra));
      try (assert (r <> 0) by (apply ZA; lra)); try (assert (s <> 0) by (apply ZB; lra)); clear ZA ZB ZC ZD.
    all: signs p; signs q; signs r; signs s; unfold posb;
      repeat (destruct (Rlt_dec _ _); [|]); try lra; cbn [xorb];
      first [ split; [intros _; reflexivity|intros _; split; (left; lra) || (right; lra)]
            | split; [intros [[?|?] [?|?]]; exfalso; lra|discriminate]
            | exfalso; prodsign (dy - ay) p; prodsign (ay - cy) q; prodsign (dy - by_) p; prodsign (by_ - cy) q;
              prodsign (by_ - ay) r; prodsign (by_ - ay) s; lra
            | exfalso; assert (dy - by_ = 0) by nra; assert (by_ - cy = 0) by nra; assert (p * q >= 0) by (apply HB; lra); nra ].
  - destruct (FLAT S) as (E1 & E2 & E3). specialize (FC S). specialize (FD S). clear FLAT L I1 I2 ZC ZD HB. subst by_.
    destruct (leb cy ay) eqn:C1; destruct (leb dy ay) eqn:D1; cbn [andb negb orb xorb];
      rewrite ?leb_true, ?leb_false in *.
    + split; [|discriminate]. intros [H _]. exfalso. apply opposite_iff in H.
      assert (0 <= (bx - ax) * (bx - ax)) by apply Rle_0_sqr.
      assert (0 <= (ay - cy) * (ay - dy)) by (apply Rmult_le_pos; lra).
      assert (0 <= p * q); [|lra]. rewrite E2, E3.
      replace (_ * _) with ((bx - ax) * (bx - ax) * ((ay - cy) * (ay - dy))) by ring. now apply Rmult_le_pos.
    + rewrite ?orb_false_r, ?xorb_false_r. assert (r <> 0) by (apply ZA; lra). assert (s <> 0) by (apply ZB; lra).
      assert (K : r * s < 0 -> p * q < 0).
      { intros H1. assert (cy <> ay) by (intros ->; specialize (FC eq_refl); lra).
        assert (dy <> ay) by (intros ->; specialize (FD eq_refl); lra).
        assert (bx - ax <> 0) by (intros Z; rewrite Z in E1; assert (r = s) by lra; subst s; nra).
        assert (0 < (bx - ax) * (bx - ax)) by (apply Rsqr_pos_lt; assumption).
        assert (0 < (ay - cy) * (dy - ay)) by (apply Rmult_lt_0_compat; lra).
        assert (0 < - (p * q)); [|lra]. rewrite E2, E3.
        replace (- (_)) with ((bx - ax) * (bx - ax) * ((ay - cy) * (dy - ay))) by ring. now apply Rmult_lt_0_compat. }
      rewrite !opposite_iff in K. clear FC FD E1 E2 E3.
      signs r; signs s; unfold posb; repeat (destruct (Rlt_dec _ _); [|]); try lra; cbn [xorb];
      first [ split; [intros _; reflexivity|intros _; split; [apply K|]; (left; lra) || (right; lra)]
            | split; [intros [_ [?|?]]; exfalso; lra|discriminate] ].
    + rewrite ?orb_false_r, ?xorb_false_r. assert (r <> 0) by (apply ZA; lra). assert (s <> 0) by (apply ZB; lra).
      assert (K : r * s < 0 -> p * q < 0).
      { intros H1. assert (cy <> ay) by (intros ->; specialize (FC eq_refl); lra).
        assert (dy <> ay) by (intros ->; specialize (FD eq_refl); lra).
        assert (bx - ax <> 0) by (intros Z; rewrite Z in E1; assert (r = s) by lra; subst s; nra).
        assert (0 < (bx - ax) * (bx - ax)) by (apply Rsqr_pos_lt; assumption).
        assert (0 < (cy - ay) * (ay - dy)) by (apply Rmult_lt_0_compat; lra).
        assert (0 < - (p * q)); [|lra]. rewrite E2, E3.
        replace (- (_)) with ((bx - ax) * (bx - ax) * ((cy - ay) * (ay - dy))) by ring. now apply Rmult_lt_0_compat. }
      rewrite !opposite_iff in K. clear FC FD E1 E2 E3.
      signs r; signs s; unfold posb; repeat (destruct (Rlt_dec _ _); [|]); try lra; cbn [xorb];
      first [ split; [intros _; reflexivity|intros _; split; [apply K|]; (left; lra) || (right; lra)]
            | split; [intros [_ [?|?]]; exfalso; lra|discriminate] ].
    + split; [|discriminate]. intros [H _]. exfalso. apply opposite_iff in H.
      assert (0 <= (bx - ax) * (bx - ax)) by apply Rle_0_sqr.
      assert (0 <= (cy - ay) * (dy - ay)) by (apply Rmult_le_pos; lra).
      assert (0 <= p * q); [|lra]. rewrite E2, E3.
      replace (_ * _) with ((bx - ax) * (bx - ax) * ((cy - ay) * (dy - ay))) by ring. now apply Rmult_le_pos.
Qed.

(** the same without the order of the heights *)
Lemma seg_parity_any ax ay bx by_ : exists f : R -> R -> bool, forall cx cy dx dy,
  ~ on_segment ax ay bx by_ cx cy -> ~ on_segment ax ay bx by_ dx dy ->
  ~ on_segment cx cy dx dy ax ay -> ~ on_segment cx cy dx dy bx by_ ->
  (meets ax ay bx by_ cx cy dx dy <->
   xorb (xorb (crossb cx cy dx dy ax ay) (crossb cx cy dx dy bx by_)) (xorb (f cx cy) (f dx dy)) = true).
Proof.
  destruct (Rle_dec ay by_) as [L|L].
  - exists (strip ax ay bx by_). intros. now apply seg_parity.
  - exists (strip bx by_ ax ay). intros cx cy dx dy NC ND NA NB.
    rewrite (xorb_comm (crossb cx cy dx dy ax ay)). rewrite <- seg_parity; auto using on_sym; try lra.
    split; intros (x & y & M1 & M2); exists x, y; auto using on_sym.
Qed.
