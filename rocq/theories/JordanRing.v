(** * Crossings of a ring along a segment *)

From Coq Require Import ZArith Reals Bool List Lia Lra PeanoNat.
From Verif Require Import F64 Geo F64Order F64Real F64Mono SpecGeo SpecFacts SpecPlane SpecPreds SpecShape SegExact SegRing Jordan.
Import ListNotations.

Definition par {X} (g : X -> bool) (l : list X) : bool := fold_right (fun x b => xorb (g x) b) false l.

Lemma par_counts {X} (P : X -> Prop) (g : X -> bool) l n :
  (forall x, In x l -> (P x <-> g x = true)) -> counts P l n -> Nat.odd n = par g l.
Proof.
  intros H C. induction C as [|x l n Px C IH|x l n Px C IH]; [reflexivity| |]; cbn [par fold_right];
    fold (par g l); rewrite <- IH by (intros; apply H; now right).
  - rewrite (proj1 (H x (or_introl eq_refl)) Px). rewrite Nat.odd_succ, <- Nat.negb_odd. now destruct (Nat.odd n).
  - destruct (g x) eqn:E; [|now destruct (Nat.odd n)]. exfalso. apply Px, H; [now left|exact E].
Qed.
Lemma counts_par {X} (P : X -> Prop) (g : X -> bool) l :
  (forall x, In x l -> (P x <-> g x = true)) -> exists n, counts P l n /\ Nat.odd n = par g l.
Proof.
  intros H. assert (E : exists n, counts P l n).
  { clear - H. induction l as [|x l IH]; [exists 0%nat; constructor|].
    destruct IH as (n & C); [intros; apply H; now right|]. destruct (g x) eqn:E.
    - exists (S n). apply counts_yes; [apply H; [now left|exact E]|exact C].
    - exists n. apply counts_no; [|exact C]. intros Px. apply H in Px; [congruence|now left]. }
  destruct E as (n & C). exists n. split; [exact C|]. eapply par_counts; eauto.
Qed.
Lemma par_xor {X} (g h : X -> bool) l : par (fun x => xorb (g x) (h x)) l = xorb (par g l) (par h l).
Proof.
  induction l as [|x l IH]; [reflexivity|]. cbn [par fold_right]. fold (par (fun x => xorb (g x) (h x)) l) (par g l) (par h l).
  rewrite IH. destruct (g x), (h x), (par g l), (par h l); reflexivity.
Qed.
Lemma par_ext {X} (g h : X -> bool) l : (forall x, In x l -> g x = h x) -> par g l = par h l.
Proof.
  induction l as [|x l IH]; intros H; [reflexivity|]. cbn [par fold_right]. fold (par g l) (par h l).
  rewrite IH by (intros; apply H; now right). now rewrite (H x (or_introl eq_refl)).
Qed.

Lemma last_two {X} (a b : X) l d e : last (a :: b :: l) d = last (b :: l) e.
Proof.
  change (last (a :: b :: l) d) with (last (b :: l) d). revert b. induction l as [|c l IH]; intros b; [reflexivity|].
  exact (IH c).
Qed.

Lemma par_path (f : pt -> bool) ps a :
  par (fun s => xorb (f (sa s)) (f (sb s))) (pairs (a :: ps)) = xorb (f a) (f (last (a :: ps) a)).
Proof.
  revert a. induction ps as [|b ps IH]; intros a; [cbn; now rewrite xorb_nilpotent|].
  change (pairs (a :: b :: ps)) with (Seg a b :: pairs (b :: ps)). cbn [par fold_right].
  fold (par (fun s => xorb (f (sa s)) (f (sb s))) (pairs (b :: ps))). rewrite IH. cbn [sa sb].
  rewrite (last_two a b ps a b). destruct (f a), (f b), (f (last (b :: ps) b)); reflexivity.
Qed.

Definition fin_points (ps : list pt) : Prop := forall q, In q ps -> fin (px q) /\ fin (py q).

Lemma same_R p q : fin (px p) /\ fin (py p) -> fin (px q) /\ fin (py q) -> same_point p q = true -> xR p = xR q /\ yR p = yR q.
Proof.
  intros [A B] [C D] S. unfold same_point in S. apply andb_true_iff in S. destruct S as [S1 S2].
  rewrite feqb_key in S1, S2 by (apply fin_ok; assumption). apply Z.eqb_eq in S1, S2.
  unfold xR, yR. split; apply key_eq_R; assumption.
Qed.

(** the points of the closed path: the ends are at the same place *)
Lemma close_ends ps a : fin_points ps -> hd_error ps = Some a ->
  exists rest, close_points ps = a :: rest /\
    xR (last (a :: rest) a) = xR a /\ yR (last (a :: rest) a) = yR a /\ (length ps <= S (length rest))%nat.
Proof.
  intros F H. destruct ps as [|b ps]; [discriminate|]. injection H as ->. cbn [close_points].
  destruct (same_point (last (a :: ps) a) a) eqn:S.
  - exists ps. split; [reflexivity|].
    assert (I : In (last (a :: ps) a) (a :: ps)).
    { destruct (exists_last (l := a :: ps) ltac:(discriminate)) as (l & z & ->).
      rewrite last_last. apply in_or_app. right. now left. }
    destruct (same_R _ _ (F _ I) (F a (or_introl eq_refl)) S). cbn. auto.
  - exists (ps ++ [a]). split; [reflexivity|]. rewrite app_comm_cons, last_last. rewrite app_length. cbn. repeat split. lia.
Qed.

Lemma par_ring (f : R -> R -> bool) ps : fin_points ps ->
  par (fun s => xorb (f (xR (sa s)) (yR (sa s))) (f (xR (sb s)) (yR (sb s)))) (ring_segments ps) = false.
Proof.
  intros F. unfold ring_segments. destruct (length ps <? 3)%nat; [reflexivity|].
  destruct ps as [|a ps]; [reflexivity|]. destruct (close_ends (a :: ps) a F eq_refl) as (rest & -> & X & Y & _).
  rewrite (par_path (fun q => f (xR q) (yR q))). rewrite X, Y. apply xorb_nilpotent.
Qed.

(** the ray test as a boolean *)
Definition rayb (x y : R) (s : seg) : bool := crossb (xR (sa s)) (yR (sa s)) (xR (sb s)) (yR (sb s)) x y.
Lemma rayb_iff x y s : rayb x y s = true <-> ray_meets x y s.
Proof. unfold rayb, ray_meets, lies_on. apply crossb_iff. Qed.
Definition odd_at (ps : list pt) (x y : R) : bool := par (rayb x y) (ring_segments ps).
Lemma ring_has_odd ps x y : ring_has ps x y <-> ring_border ps x y \/ odd_at ps x y = true.
Proof.
  unfold ring_has, odd_at. split; (intros [H|H]; [now left|right]).
  - destruct H as (n & C & O). rewrite <- O. symmetry. eapply par_counts; [|exact C]. intros. symmetry. apply rayb_iff.
  - destruct (counts_par (ray_meets x y) (rayb x y) (ring_segments ps)) as (n & C & O).
    { intros. symmetry. apply rayb_iff. }
    exists n. split; [exact C|]. now rewrite O.
Qed.
Lemma inside_has ps p : inside_ring ps p <-> ring_has ps (xR p) (yR p).
Proof. reflexivity. Qed.

Lemma counts_zero {X} (P : X -> Prop) l n : counts P l n -> (forall x, In x l -> ~ P x) -> n = 0%nat.
Proof.
  intros C. induction C as [|x l n Px C IH|x l n Px C IH]; intros N; [reflexivity| |].
  - exfalso. apply (N x); [now left|exact Px].
  - apply IH. intros y I. apply N. now right.
Qed.

(** ** Along a segment *)

Definition meets_seg (ax ay bx by_ : R) (s : seg) : Prop :=
  meets ax ay bx by_ (xR (sa s)) (yR (sa s)) (xR (sb s)) (yR (sb s)).

Lemma along ps ax ay bx by_ : fin_points ps ->
  ~ ring_border ps ax ay -> ~ ring_border ps bx by_ ->
  (forall s, In s (ring_segments ps) ->
    ~ on_segment ax ay bx by_ (xR (sa s)) (yR (sa s)) /\ ~ on_segment ax ay bx by_ (xR (sb s)) (yR (sb s))) ->
  exists m, counts (meets_seg ax ay bx by_) (ring_segments ps) m /\
    Nat.odd m = xorb (odd_at ps ax ay) (odd_at ps bx by_).
Proof.
  intros F NA NB NV. destruct (seg_parity_any ax ay bx by_) as (f & K).
  set (g := fun s => xorb (xorb (rayb ax ay s) (rayb bx by_ s))
     (xorb (f (xR (sa s)) (yR (sa s))) (f (xR (sb s)) (yR (sb s))))).
  destruct (counts_par (meets_seg ax ay bx by_) g (ring_segments ps)) as (m & C & O).
  { intros s I. destruct (NV s I) as [V1 V2]. apply K; auto.
    - intros H. apply NA. exists s. split; assumption.
    - intros H. apply NB. exists s. split; assumption. }
  exists m. split; [exact C|]. rewrite O. unfold g.
  rewrite (par_xor (fun s => xorb (rayb ax ay s) (rayb bx by_ s))), (par_xor (rayb ax ay)), (par_ring f ps F). now rewrite xorb_false_r.
Qed.

(** no segment of the ring meets the segment: both ends are on the same side *)
Lemma along_none ps ax ay bx by_ : fin_points ps ->
  (forall s, In s (ring_segments ps) -> ~ meets_seg ax ay bx by_ s) ->
  odd_at ps ax ay = odd_at ps bx by_.
Proof.
  intros F N.
  assert (A : ~ ring_border ps ax ay).
  { intros (s & I & L). apply (N s I). exists ax, ay. split; [apply on_segment_a|exact L]. }
  assert (B : ~ ring_border ps bx by_).
  { intros (s & I & L). apply (N s I). exists bx, by_. split; [apply on_segment_b|exact L]. }
  destruct (along ps ax ay bx by_ F A B) as (m & C & O).
  { intros s I. split; intros H; apply (N s I).
    - exists (xR (sa s)), (yR (sa s)). split; [exact H|apply on_segment_a].
    - exists (xR (sb s)), (yR (sb s)). split; [exact H|apply on_segment_b]. }
  assert (m = 0%nat) by (eapply counts_zero; eauto).
  subst m. cbn in O. destruct (odd_at ps ax ay), (odd_at ps bx by_); congruence || discriminate.
Qed.

(** ** Vertices belong to two segments *)

Lemma nth_pairs ps i s : nth_error (pairs ps) i = Some s <->
  nth_error ps i = Some (sa s) /\ nth_error ps (S i) = Some (sb s).
Proof.
  revert ps. induction i as [|i IH]; intros [|a [|b ps]]; cbn [pairs nth_error].
  - split; [discriminate|intros [? _]; discriminate].
  - split; [discriminate|intros [_ ?]; discriminate].
  - destruct s as [u v]. cbn [sa sb]. split; [intros [= -> ->]; auto|intros [[= ->] [= ->]]; auto].
  - split; [discriminate|intros [? _]; discriminate].
  - split; [discriminate|intros [_ ?]; discriminate].
  - apply (IH (b :: ps)).
Qed.

Definition at_ (x y : R) (p : pt) : Prop := xR p = x /\ yR p = y.

Lemma two_segments ps s v : fin_points ps -> In s (ring_segments ps) -> v = sa s \/ v = sb s ->
  exists i j t u, i <> j /\ nth_error (ring_segments ps) i = Some t /\ nth_error (ring_segments ps) j = Some u /\
    (at_ (xR v) (yR v) (sa t) \/ at_ (xR v) (yR v) (sb t)) /\ (at_ (xR v) (yR v) (sa u) \/ at_ (xR v) (yR v) (sb u)).
Proof.
  intros F I V. unfold ring_segments in *. destruct (length ps <? 3)%nat eqn:L; [destruct I|]. apply Nat.ltb_ge in L.
  destruct ps as [|a ps]; [cbn in L; lia|]. destruct (close_ends (a :: ps) a F eq_refl) as (rest & E & X & Y & LEN).
  rewrite E in *. clear E. cbn [length] in L, LEN.
  set (c := a :: rest) in *. assert (LC : (3 <= length c)%nat) by (unfold c; cbn [length]; lia).
  assert (SEG : forall k, (S k < length c)%nat -> exists t, nth_error (pairs c) k = Some t /\
     nth_error c k = Some (sa t) /\ nth_error c (S k) = Some (sb t)).
  { intros k Hk. destruct (nth_error c k) as [p|] eqn:E1; [|apply nth_error_None in E1; lia].
    destruct (nth_error c (S k)) as [q|] eqn:E2; [|apply nth_error_None in E2; lia].
    exists (Seg p q). split; [apply nth_pairs; auto|auto]. }
  assert (VTX : forall k, (k < length c)%nat -> nth_error c k = Some v ->
    exists i j t u, i <> j /\ nth_error (pairs c) i = Some t /\ nth_error (pairs c) j = Some u /\
    (at_ (xR v) (yR v) (sa t) \/ at_ (xR v) (yR v) (sb t)) /\ (at_ (xR v) (yR v) (sa u) \/ at_ (xR v) (yR v) (sb u))).
  { intros k Hk Ek. assert (LAST : nth_error c (length c - 1) = Some (last c a)).
    { destruct (exists_last (l := c) ltac:(discriminate)) as (l & z & El). rewrite El at 1 2. rewrite El, last_last.
      rewrite app_length. cbn [length]. rewrite nth_error_app2 by lia.
      replace (length l + 1 - 1 - length l)%nat with 0%nat by lia. reflexivity. }
    destruct (Nat.eq_dec k 0) as [->|K0]; [|destruct (Nat.eq_dec k (length c - 1)) as [K1|K1]].
    - destruct (SEG 0%nat ltac:(lia)) as (t & T1 & T2 & _). destruct (SEG (length c - 2)%nat ltac:(lia)) as (u & U1 & _ & U2).
      exists 0%nat, (length c - 2)%nat, t, u. split; [lia|]. split; [exact T1|]. split; [exact U1|].
      assert (EV : v = a) by (unfold c in Ek; cbn in Ek; congruence). assert (H : sa t = a) by congruence. rewrite EV.
      replace (S (length c - 2)) with (length c - 1)%nat in U2 by lia. rewrite LAST in U2. injection U2 as U2.
      split; [left; rewrite H; split; reflexivity|right]. unfold at_. rewrite <- U2. split; assumption.
    - subst k. destruct (SEG 0%nat ltac:(lia)) as (t & T1 & T2 & _). destruct (SEG (length c - 2)%nat ltac:(lia)) as (u & U1 & _ & U2).
      exists 0%nat, (length c - 2)%nat, t, u. split; [lia|]. split; [exact T1|]. split; [exact U1|].
      replace (S (length c - 2)) with (length c - 1)%nat in U2 by lia. rewrite LAST in Ek. injection Ek as Ek.
      rewrite LAST in U2. injection U2 as U2. assert (H : sb u = v) by (rewrite <- U2; exact Ek). assert (H0 : sa t = a) by (unfold c in T2; cbn in T2; congruence).
      split; [left; unfold at_; rewrite H0, <- Ek; split; symmetry; assumption|right; rewrite H; split; reflexivity].
    - destruct (SEG k ltac:(lia)) as (t & T1 & T2 & _). destruct (SEG (k - 1)%nat ltac:(lia)) as (u & U1 & _ & U2).
      replace (S (k - 1)) with k in U2 by lia.
      exists k, (k - 1)%nat, t, u. split; [lia|]. split; [exact T1|]. split; [exact U1|].
      assert (H : sa t = v) by congruence. assert (H0 : sb u = v) by congruence.
      split; [left; rewrite H|right; rewrite H0]; split; reflexivity. }
  apply In_nth_error in I. destruct I as (k & Ek). apply nth_pairs in Ek. destruct Ek as [E1 E2].
  destruct V as [->| ->]; [apply (VTX k)|apply (VTX (S k))]; auto; apply nth_error_Some; congruence.
Qed.

Lemma counts_ge1 {X} (P : X -> Prop) l n i x : counts P l n -> nth_error l i = Some x -> P x -> (1 <= n)%nat.
Proof.
  intros C. revert i. induction C as [|y l n Py C IH|y l n Py C IH]; intros i E Px.
  - destruct i; discriminate.
  - lia.
  - destruct i; cbn in E; [injection E as ->; contradiction|]. eapply IH; eauto.
Qed.
Lemma counts_ge2 {X} (P : X -> Prop) l n i j x y : counts P l n -> i <> j ->
  nth_error l i = Some x -> nth_error l j = Some y -> P x -> P y -> (2 <= n)%nat.
Proof.
  intros C. revert i j. induction C as [|z l n Pz C IH|z l n Pz C IH]; intros i j N E1 E2 Px Py.
  - destruct i; discriminate.
  - assert (1 <= n)%nat; [|lia]. destruct i as [|i]; destruct j as [|j]; [lia| | |]; cbn in E1, E2; eapply counts_ge1; eauto.
  - destruct i as [|i]; destruct j as [|j]; [lia| | |]; cbn in E1, E2; try (injection E1 as ->; contradiction); try (injection E2 as ->; contradiction).
    eapply IH; [|eauto..]. lia.
Qed.

(** ** The segment meets the closed ring *)

Theorem meets_ring ps ax ay bx by_ m : fin_points ps ->
  counts (meets_seg ax ay bx by_) (ring_segments ps) m ->
  ((exists x y, on_segment ax ay bx by_ x y /\ ring_has ps x y) <->
   ring_has ps ax ay \/ ring_has ps bx by_ \/ (2 <= m)%nat).
Proof.
  intros F C. split.
  - intros (x & y & O & H).
    destruct (Nat.lt_ge_cases m 2) as [L|L]; [|tauto].
    destruct (Classical_Prop.classic (ring_has ps ax ay)) as [|NA]; [tauto|].
    destruct (Classical_Prop.classic (ring_has ps bx by_)) as [|NB]; [tauto|]. exfalso.
    rewrite ring_has_odd in NA, NB.
    assert (BA : ~ ring_border ps ax ay) by tauto. assert (BB : ~ ring_border ps bx by_) by tauto.
    assert (OA : odd_at ps ax ay = false) by (destruct (odd_at ps ax ay); tauto).
    assert (OB : odd_at ps bx by_ = false) by (destruct (odd_at ps bx by_); tauto).
    assert (V : forall s v, In s (ring_segments ps) -> v = sa s \/ v = sb s -> ~ on_segment ax ay bx by_ (xR v) (yR v)).
    { intros s v I Ev Ov. destruct (two_segments ps s v F I Ev) as (i & j & t & u & N & E1 & E2 & K1 & K2).
      assert (W : forall t, at_ (xR v) (yR v) (sa t) \/ at_ (xR v) (yR v) (sb t) -> meets_seg ax ay bx by_ t).
      { intros w [[W1 W2]|[W1 W2]]; exists (xR v), (yR v); (split; [exact Ov|]); rewrite <- W1, <- W2;
          [apply on_segment_a|apply on_segment_b]. }
      assert (2 <= m)%nat by (eapply counts_ge2; [exact C|exact N|exact E1|exact E2|apply W, K1|apply W, K2]). lia. }
    destruct (along ps ax ay bx by_ F BA BB) as (m' & C' & O').
    { intros s I. split; eapply V; eauto. }
    assert (m' = m).
    { clear - C C'. revert m' C'. induction C; intros m' C'; inversion C'; subst; auto; contradiction. }
    subst m'. rewrite OA, OB in O'. cbn in O'. assert (m = 0)%nat by (destruct m as [|[|m]]; [reflexivity|discriminate|lia]). subst m.
    assert (NM : forall s, In s (ring_segments ps) -> ~ meets_seg ax ay bx by_ s).
    { intros s I M. apply In_nth_error in I. destruct I as (i & E). pose proof (counts_ge1 _ _ _ _ _ C E M). lia. }
    rewrite ring_has_odd in H. destruct H as [(s & I & H)|H].
    + apply (NM s I). exists x, y. split; assumption.
    + assert (E : odd_at ps ax ay = odd_at ps x y); [|congruence].
      apply along_none; [exact F|]. intros s I (u & v & U & V'). apply (NM s I). exists u, v. split; [|exact V'].
      clear - O U. destruct O as (t & T & -> & ->). destruct U as (w & W & -> & ->).
      exists (w * t)%R. split; [split; [apply Rmult_le_pos; lra|]|split; ring].
      replace 1%R with (1 * 1)%R by ring. apply Rmult_le_compat; lra.
  - intros [H|[H|H]].
    + exists ax, ay. split; [apply on_segment_a|exact H].
    + exists bx, by_. split; [apply on_segment_b|exact H].
    + assert (E : exists s, In s (ring_segments ps) /\ meets_seg ax ay bx by_ s).
      { clear - C H. induction C as [|x l n Px C IH|x l n Px C IH]; [lia|exists x; split; [now left|exact Px]|].
        destruct IH as (s & I & M); [exact H|]. exists s. split; [now right|exact M]. }
      destruct E as (s & I & x & y & O1 & O2). exists x, y. split; [exact O1|]. left. exists s. split; assumption.
Qed.
