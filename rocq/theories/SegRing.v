(** * Point in ring on integer coordinates *)

From Coq Require Import ZArith Reals Bool List Lia Lra.
From Verif Require Import F64 Geo Series RingApi Search F64Order F64Real F64Mono SpecGeo SpecFacts SpecRing RingFacts
  SpecPlane SegExact SegMeet SegRay.
Import ListNotations.

Lemma counts_ext {X} (P Q : X -> Prop) l n : (forall x, In x l -> (P x <-> Q x)) -> counts P l n -> counts Q l n.
Proof.
  intros H C. induction C as [|x l n Px C IH|x l n Px C IH].
  - constructor.
  - apply counts_yes; [apply H; [left; reflexivity|exact Px]|]. apply IH. intros y I. apply H. now right.
  - apply counts_no; [rewrite <- (H x); [exact Px|now left]|]. apply IH. intros y I. apply H. now right.
Qed.

Lemma crossings_counts segs p :
  counts (fun s => raycast s p = RIn) segs (crossings segs p).
Proof.
  induction segs as [|s rest IH]; cbn [crossings]; [constructor|].
  destruct (raycast s p) eqn:E; cbn [Nat.add].
  - apply counts_no; [congruence|exact IH].
  - apply counts_yes; assumption.
  - apply counts_no; [congruence|exact IH].
Qed.

Lemma last_on_none i segs p : last_on i segs p = None <-> forall s, In s segs -> raycast s p <> ROn.
Proof.
  revert i. induction segs as [|s rest IH]; intros i; cbn [last_on].
  - split; [intros _ s []|reflexivity].
  - destruct (last_on (S i) rest p) eqn:E.
    + split; [discriminate|]. intros H. exfalso.
      assert (N : last_on (S i) rest p = None) by (apply IH; intros t I; apply H; now right). congruence.
    + pose proof (proj1 (IH (S i)) E) as K. destruct (raycast s p) eqn:R.
      * split; [|reflexivity]. intros _ t [<-|I]; [congruence|now apply K].
      * split; [|reflexivity]. intros _ t [<-|I]; [congruence|now apply K].
      * split; [discriminate|]. intros H. exfalso. apply (H s); [now left|exact R].
Qed.

(** ** A closed path crosses a height an even number of times *)

Definition low (p q : pt) : bool := if Rle_dec (yR q) (yR p) then true else false.
Lemma low_iff p q : low p q = true <-> (yR q <= yR p)%R.
Proof. unfold low. destruct (Rle_dec _ _); intuition congruence. Qed.

Lemma path_parity p ps a : exists n,
  counts (fun s => low p (sa s) <> low p (sb s)) (pairs (a :: ps)) n /\
  Nat.odd n = xorb (low p a) (low p (last (a :: ps) a)).
Proof.
  revert a. induction ps as [|b rest IH]; intros a.
  - exists 0%nat. split; [constructor|]. cbn. now rewrite xorb_nilpotent.
  - destruct (IH b) as (n & C & O). cbn [pairs].
    assert (L : last (a :: b :: rest) a = last (b :: rest) b).
    { change (last (a :: b :: rest) a) with (last (b :: rest) a).
      clear. revert b. induction rest as [|c rest IH]; intros b; [reflexivity|].
      change (last (b :: c :: rest) a) with (last (c :: rest) a).
      change (last (b :: c :: rest) b) with (last (c :: rest) b).
      clear IH. revert c. induction rest as [|d rest IH]; intros c; [reflexivity|]. exact (IH d). }
    rewrite L. destruct (Bool.bool_dec (low p a) (low p b)) as [E|E].
    + exists n. split; [apply counts_no; [cbn [sa sb]; congruence|exact C]|]. now rewrite E.
    + exists (S n). split; [apply counts_yes; [exact E|exact C]|].
      rewrite Nat.odd_succ, <- Nat.negb_odd, O. destruct (low p a), (low p b), (low p (last (b :: rest) b)); congruence || reflexivity.
Qed.

Lemma counts_none {X} (P : X -> Prop) l : (forall x, In x l -> ~ P x) -> counts P l 0.
Proof.
  induction l as [|x l IH]; intros H; [constructor|].
  apply counts_no; [apply H; now left|]. apply IH. intros y I. apply H. now right.
Qed.

Lemma pairs_in s ps : In s (pairs ps) -> In (sa s) ps /\ In (sb s) ps.
Proof.
  induction ps as [|a [|b rest] IH]; cbn [pairs]; [intros []|intros []|].
  intros [<-|I]; [split; [left|right; left]; reflexivity|].
  destruct (IH I). split; now right.
Qed.
Lemma close_in q ps : In q (close_points ps) -> In q ps.
Proof.
  destruct ps as [|a ps]; cbn [close_points]; [intros []|].
  destruct (same_point _ _); [trivial|]. rewrite in_app_iff. intros [H|[<-|[]]]; [exact H|now left].
Qed.
Lemma ring_segments_in s ps : In s (ring_segments ps) -> In (sa s) ps /\ In (sb s) ps.
Proof.
  unfold ring_segments. destruct (length ps <? 3)%nat; [intros []|]. intros I.
  apply pairs_in in I. split; apply close_in, I.
Qed.

Lemma ring_parity p ps : (forall q, In q ps -> fin (px q) /\ fin (py q)) -> exists n,
  counts (fun s => low p (sa s) <> low p (sb s)) (ring_segments ps) n /\ Nat.odd n = false.
Proof.
  intros F. unfold ring_segments. destruct (length ps <? 3)%nat.
  { exists 0%nat. split; [constructor|reflexivity]. }
  destruct ps as [|a ps]; [exists 0%nat; split; [constructor|reflexivity]|].
  cbn [close_points]. destruct (same_point (last (a :: ps) a) a) eqn:S.
  - destruct (path_parity p ps a) as (n & C & O). exists n. split; [exact C|]. rewrite O.
    assert (I : In (last (a :: ps) a) (a :: ps)).
    { destruct (exists_last (l := a :: ps) ltac:(discriminate)) as (l & z & ->).
      rewrite last_last. apply in_or_app. right. now left. }
    destruct (F _ I) as [_ F1]. destruct (F a (or_introl eq_refl)) as [_ F2].
    unfold same_point in S. apply andb_true_iff in S. destruct S as [_ S].
    rewrite feqb_key in S by (apply fin_ok; assumption). apply Z.eqb_eq in S. apply key_eq_R in S; [|assumption..].
    assert (E : low p (last (a :: ps) a) = low p a) by (unfold low, yR; rewrite S; reflexivity).
    rewrite E. apply xorb_nilpotent.
  - destruct (path_parity p (ps ++ [a]) a) as (n & C & O). exists n. split; [exact C|]. rewrite O.
    rewrite app_comm_cons, last_last. apply xorb_nilpotent.
Qed.

Lemma int_fin k q : int_point k q -> fin (px q) /\ fin (py q).
Proof. intros [[A _] [B _]]. now split. Qed.

(** outside the bounding box *)
Lemma outside_even p ps : (forall q, In q ps -> int_point 24 q) -> int_point 24 p ->
  in_bounds ps p = false ->
  (forall s, In s (ring_segments ps) -> ~ lies_on s (xR p) (yR p)) /\
  exists n, counts (fun s => ray_crosses s p) (ring_segments ps) n /\ Nat.odd n = false.
Proof.
  intros IP Ip OB.
  assert (Fp : fin (px p) /\ fin (py p)) by now apply int_fin in Ip. destruct Fp as [Fpx Fpy].
  assert (NE : forall (f : pt -> bool), existsb f ps = false -> forall q, In q ps -> f q = false).
  { intros f H q I. destruct (f q) eqn:E; [|reflexivity].
    assert (existsb f ps = true) by (apply existsb_exists; now exists q). congruence. }
  assert (LE : forall x y, fin x -> fin y -> fle x y = false -> (RV y < RV x)%R).
  { intros x y Fx Fy H. rewrite fle_key in H by (apply fin_ok; assumption).
    apply Z.leb_gt in H. now apply key_lt_R. }
  assert (CS : (forall q, In q ps -> (xR p < xR q)%R) \/ (forall q, In q ps -> (xR q < xR p)%R) \/
               (forall q, In q ps -> (yR p < yR q)%R) \/ (forall q, In q ps -> (yR q < yR p)%R)).
  { unfold in_bounds in OB. rewrite !andb_false_iff in OB. unfold xR, yR.
    destruct OB as [[[H|H]|H]|H]; [left|right; left|right; right; left|right; right; right];
      intros q I; destruct (int_fin _ _ (IP q I)); apply LE; try assumption;
      exact (NE _ H q I). }
  assert (RI : forall s, In s (ring_segments ps) -> In (sa s) ps /\ In (sb s) ps) by (intros; now apply ring_segments_in).
  assert (BX : forall s x y, lies_on s x y ->
     (Rmin (xR (sa s)) (xR (sb s)) <= x <= Rmax (xR (sa s)) (xR (sb s)) /\
      Rmin (yR (sa s)) (yR (sb s)) <= y <= Rmax (yR (sa s)) (yR (sb s)))%R).
  { intros s x y H. apply on_segment_iff in H. tauto. }
  assert (MM : forall a b c : R, ((c < a -> c < b -> c < Rmin a b) /\ (a < c -> b < c -> Rmax a b < c))%R).
  { intros a b c. unfold Rmin, Rmax. destruct (Rle_dec a b); split; intros; lra. }
  split.
  - intros s I H. destruct (RI s I) as [I1 I2]. apply BX in H.
    destruct CS as [C|[C|[C|C]]]; pose proof (C _ I1) as C1; pose proof (C _ I2) as C2.
    + pose proof (proj1 (MM _ _ _) C1 C2). lra.
    + pose proof (proj2 (MM _ _ _) C1 C2). lra.
    + pose proof (proj1 (MM _ _ _) C1 C2). lra.
    + pose proof (proj2 (MM _ _ _) C1 C2). lra.
  - assert (ZERO : (forall s, In s (ring_segments ps) -> ~ ray_crosses s p) ->
      exists n, counts (fun s => ray_crosses s p) (ring_segments ps) n /\ Nat.odd n = false).
    { intros H. exists 0%nat. split; [now apply counts_none|reflexivity]. }
    destruct CS as [C|[C|[C|C]]].
    + destruct (ring_parity p ps (fun q I => int_fin _ _ (IP q I))) as (n & CN & O).
      exists n. split; [|exact O]. revert CN. apply counts_ext. intros s I. destruct (RI s I) as [I1 I2].
      pose proof (C _ I1) as C1. pose proof (C _ I2) as C2. pose proof (proj1 (MM _ _ _) C1 C2) as C3.
      unfold ray_crosses, low.
      assert (XX : (Rmin (yR (sa s)) (yR (sb s)) <= yR p < Rmax (yR (sa s)) (yR (sb s)))%R ->
         exists x, lies_on s x (yR p) /\ (xR p < x)%R).
      { intros Hy. set (a := yR (sa s)) in *. set (b := yR (sb s)) in *. set (h := yR p) in *.
        assert (NB : (a <> b)%R) by (intros E; rewrite E, Rmin_left, Rmax_left in Hy; lra).
        assert (T : (0 <= (h - a) / (b - a) <= 1)%R).
        { destruct (Rlt_dec a b) as [L|L].
          - rewrite Rmin_left, Rmax_right in Hy by lra. split.
            + apply Rmult_le_pos; [lra|]. apply Rlt_le, Rinv_0_lt_compat. lra.
            + apply Rmult_le_reg_r with (b - a)%R; [lra|]. unfold Rdiv. rewrite Rmult_assoc, Rinv_l by lra. lra.
          - rewrite Rmin_right, Rmax_left in Hy by lra.
            replace ((h - a) / (b - a))%R with ((a - h) / (a - b))%R by (field; lra). split.
            + apply Rmult_le_pos; [lra|]. apply Rlt_le, Rinv_0_lt_compat. lra.
            + apply Rmult_le_reg_r with (a - b)%R; [lra|]. unfold Rdiv. rewrite Rmult_assoc, Rinv_l by lra. lra. }
        assert (LI : lies_on s (xR (sa s) + (h - a) / (b - a) * (xR (sb s) - xR (sa s)))%R h).
        { exists ((h - a) / (b - a))%R. split; [exact T|]. split; [reflexivity|].
          fold a b. field. lra. }
        eexists. split; [exact LI|]. apply BX in LI. lra. }
      assert (YY : (Rmin (yR (sa s)) (yR (sb s)) <= yR p < Rmax (yR (sa s)) (yR (sb s)))%R <->
                   (if Rle_dec (yR (sa s)) (yR p) then true else false) <>
                   (if Rle_dec (yR (sb s)) (yR p) then true else false)).
      { unfold Rmin, Rmax. destruct (Rle_dec (yR (sa s)) (yR (sb s))), (Rle_dec (yR (sa s)) (yR p)),
          (Rle_dec (yR (sb s)) (yR p)); split; intros H; try congruence; try lra; split; lra. }
      rewrite <- YY. tauto.
    + apply ZERO. intros s I (_ & x & H & L). destruct (RI s I) as [I1 I2]. apply BX in H.
      pose proof (proj2 (MM _ _ _) (C _ I1) (C _ I2)). lra.
    + apply ZERO. intros s I (H & _). destruct (RI s I) as [I1 I2].
      pose proof (proj1 (MM _ _ _) (C _ I1) (C _ I2)). lra.
    + apply ZERO. intros s I (H & _). destruct (RI s I) as [I1 I2].
      pose proof (proj2 (MM _ _ _) (C _ I1) (C _ I2)). lra.
Qed.

Lemma int_ok k q : int_point k q -> point_ok q.
Proof. intros [[A _] [B _]]. apply fin_ok in A, B. apply point_ok_iff. split; assumption. Qed.

Theorem ring_even_odd ps kind spread r p edge :
  (forall q, In q ps -> int_point 24 q) -> int_point 24 p -> (2 <= spread)%nat ->
  series_new ps true kind spread = Some r -> index_safe ps kind spread p ->
  exists b o n, tg_ring_contains_point r p edge = Some (b, o) /\
    counts (fun s => ~ lies_on s (xR p) (yR p) /\ ray_crosses s p) (ring_segments ps) n /\
    (forall s, In s (ring_segments ps) -> lies_on s (xR p) (yR p) -> b = edge) /\
    ((forall s, In s (ring_segments ps) -> ~ lies_on s (xR p) (yR p)) -> b = Nat.odd n).
Proof.
  intros IP Ip Sp NW IS.
  assert (RX : forall s, In s (ring_segments ps) -> 
    (raycast s p = ROn <-> lies_on s (xR p) (yR p)) /\
    (raycast s p = RIn <-> ~ lies_on s (xR p) (yR p) /\ ray_crosses s p)).
  { intros s I. apply raycast_exact; [|exact Ip]. destruct (ring_segments_in s ps I). split; now apply IP. }
  rewrite (point_in_ring ps kind spread r p edge); [|intros q I; eapply int_ok, IP, I|exact Sp|eapply int_ok, Ip|exact NW|exact IS].
  assert (CR : counts (fun s => ~ lies_on s (xR p) (yR p) /\ ray_crosses s p) (ring_segments ps)
    (crossings (ring_segments ps) p)).
  { eapply counts_ext; [|apply crossings_counts]. intros s I. apply (RX s I). }
  destruct (in_bounds ps p) eqn:B.
  - unfold point_in_segments. destruct (last_on 0 (ring_segments ps) p) as [i|] eqn:LO.
    + exists edge, (Some i), (crossings (ring_segments ps) p). split; [reflexivity|]. split; [exact CR|].
      split; [reflexivity|]. intros H. exfalso.
      assert (N : last_on 0 (ring_segments ps) p = None).
      { apply last_on_none. intros s I R. apply (H s I). now apply (proj1 (RX s I)). }
      congruence.
    + exists (Nat.odd (crossings (ring_segments ps) p)), None, (crossings (ring_segments ps) p).
      split; [reflexivity|]. split; [exact CR|]. split; [|reflexivity].
      intros s I L. exfalso. apply (proj1 (last_on_none _ _ _) LO s I). now apply (proj1 (RX s I)).
  - destruct (outside_even p ps IP Ip B) as (NO & n & C & O).
    exists false, None, n. split; [reflexivity|]. split.
    + revert C. apply counts_ext. intros s I. pose proof (NO s I). tauto.
    + split; [|now rewrite O]. intros s I L. exfalso. now apply (NO s I).
Qed.
