(** * A segment that is not found to enter a ring does not enter it *)

From Coq Require Import ZArith Reals Bool List Lia Lra PeanoNat.
From Verif Require Import F64 Geo Series Search RingApi Geom MultiIx Preds PredsFacts F64Order F64Real F64Mono
  SeriesFacts SearchFacts RectFacts RingFacts SpecGeo SpecFacts SpecPlane SpecPreds SpecRing SpecShape
  SegExact SegMeet SegRay SegRing Thm_Ring Thm_Seg Thm_Pairs Thm_Preds Jordan JordanRing MeetFacts RingMeet PolyMeet Thm_Shapes.
Import ListNotations.
Local Open Scope R_scope.

(** the segment t lies on the line of s *)
Definition runs_along (s t : seg) : Prop :=
  let on p := (xR (sb s) - xR (sa s)) * (yR p - yR (sa s)) = (yR (sb s) - yR (sa s)) * (xR p - xR (sa s)) in
  on (sa t) /\ on (sb t).

(** ** The callback *)

Definition ends_at (a : pt) (t : seg) : Prop := pteq a (sa t) || pteq a (sb t) = true.
Definition met (s : seg) (x : nat * seg) : Prop := tg_segment_intersects_segment s (snd x) = true.
Definition col (s t : seg) : bool :=
  collinear (px (sa s)) (py (sa s)) (px (sb s)) (py (sb s)) (px (sa t)) (py (sa t)) &&
  collinear (px (sa s)) (py (sa s)) (px (sb s)) (py (sb s)) (px (sb t)) (py (sb t)).

Lemma interseg_few s (l : list (nat * seg)) :
  (forall x, In x l -> met s x -> col s (snd x) = false) -> forall c a b, (c < 2)%nat ->
  let '(n, _, _) := snd (run_callback (fun st is => intersegiter s false st (snd is) (fst is)) l (c, a, b)) in
  (n < 2)%nat -> exists C A B : list (nat * seg),
    (length C <= 1 - c)%nat /\ (length A <= if a then 0 else 1)%nat /\ (length B <= if b then 0 else 1)%nat /\
    (forall x, In x A -> ends_at (sa s) (snd x)) /\ (forall x, In x B -> ends_at (sb s) (snd x)) /\
    (forall x, In x l -> met s x -> In x C \/ In x A \/ In x B).
Proof.
  induction l as [|[i t] l IH]; intros NC c a b L.
  - cbn. intros _. exists [], [], []. cbn. repeat split; try lia; intros ? []; contradiction.
  - assert (NC' : forall x, In x l -> met s x -> col s (snd x) = false) by (intros x I; apply NC; now right).
    specialize (IH NC'). cbn [run_callback snd fst]. unfold intersegiter at 1.
    destruct (tg_segment_intersects_segment s t) eqn:T; cbn [negb].
    + pose proof (NC (i, t) (or_introl eq_refl) T) as CO. unfold col in CO. cbn [snd] in CO. cbn zeta. rewrite CO.
      destruct (negb a && (pteq (sa s) (sa t) || pteq (sa s) (sb t))) eqn:EA.
      * apply andb_true_iff in EA. destruct EA as [NA EA]. apply negb_true_iff in NA. subst a.
        specialize (IH c true b L). destruct (snd _) as [[n a'] b']. intros N.
        destruct (IH N) as (C & A & B & LC & LA & LB & HA & HB & COV).
        exists C, ((i, t) :: A), B. cbn [length]. split; [exact LC|]. split; [lia|]. split; [exact LB|].
        split; [intros x [<-|I]; [exact EA|auto]|]. split; [exact HB|].
        intros x [<-|I] M; [right; left; now left|]. destruct (COV x I M) as [?|[?|?]]; auto. right. left. now right.
      * destruct (negb b && (pteq (sb s) (sa t) || pteq (sb s) (sb t))) eqn:EB.
        -- apply andb_true_iff in EB. destruct EB as [NB EB]. apply negb_true_iff in NB. subst b.
           specialize (IH c a true L). destruct (snd _) as [[n a'] b']. intros N.
           destruct (IH N) as (C & A & B & LC & LA & LB & HA & HB & COV).
           exists C, A, ((i, t) :: B). cbn [length]. split; [exact LC|]. split; [exact LA|]. split; [lia|].
           split; [exact HA|]. split; [intros x [<-|I]; [exact EB|auto]|].
           intros x [<-|I] M; [right; right; now left|]. destruct (COV x I M) as [?|[?|?]]; auto. right. right. now right.
        -- destruct (S c <? 2)%nat eqn:E.
           ++ apply Nat.ltb_lt in E. specialize (IH (S c) a b E). destruct (snd _) as [[n a'] b']. intros N.
              destruct (IH N) as (C & A & B & LC & LA & LB & HA & HB & COV).
              exists ((i, t) :: C), A, B. cbn [length]. split; [lia|]. split; [exact LA|]. split; [exact LB|].
              split; [exact HA|]. split; [exact HB|].
              intros x [<-|I] M; [left; now left|]. destruct (COV x I M) as [?|[?|?]]; auto. left. now right.
           ++ apply Nat.ltb_ge in E. cbn [snd]. lia.
    + specialize (IH c a b L). destruct (snd _) as [[n a'] b']. intros N.
      destruct (IH N) as (C & A & B & LC & LA & LB & HA & HB & COV).
      exists C, A, B. repeat (split; [assumption|]). intros x [<-|I] M; [|auto]. unfold met in M. cbn in M. congruence.
Qed.

Lemma selects_nth {X} (Q : X -> Prop) i l r : selects Q i l r -> forall k x, nth_error l k = Some x -> Q x -> In ((i + k)%nat, x) r.
Proof.
  induction 1 as [|i x l r Qx SL IH|i x l r Qx SL IH]; intros k z E Qz.
  - destruct k; discriminate.
  - destruct k; cbn in E; [injection E as <-; left; f_equal; lia|]. right. replace (i + S k)%nat with (S i + k)%nat by lia. auto.
  - destruct k; cbn in E; [injection E as <-; contradiction|]. replace (i + S k)%nat with (S i + k)%nat by lia. auto.
Qed.
Lemma selects_in {X} (Q : X -> Prop) i l r : selects Q i l r -> forall x, In x r -> In (snd x) l.
Proof.
  induction 1 as [|i x l r Qx SL IH|i x l r Qx SL IH]; intros z I; [destruct I| |].
  - destruct I as [<-|I]; [now left|right; auto].
  - right. auto.
Qed.

Lemma one_only {X} (l : list X) x y : (length l <= 1)%nat -> In x l -> In y l -> x = y.
Proof. destruct l as [|z [|w l]]; cbn; [intros _ []|intros _ [->|[]] [->|[]]; reflexivity|lia]. Qed.

(** ** Points on either side of a point of the segment *)

(** t meets the part of the segment from a to before the point at parameter k *)
Definition before (ax ay bx by_ k : R) (t : seg) : Prop :=
  exists u, 0 <= u < k /\ lies_on t (ax + u * (bx - ax)) (ay + u * (by_ - ay)).
Definition after (ax ay bx by_ k : R) (t : seg) : Prop :=
  exists u, k < u <= 1 /\ lies_on t (ax + u * (bx - ax)) (ay + u * (by_ - ay)).

Lemma both_sides ax ay bx by_ k t : 0 <= k <= 1 -> before ax ay bx by_ k t -> after ax ay bx by_ k t ->
  lies_on t (ax + k * (bx - ax)) (ay + k * (by_ - ay)).
Proof.
  intros K (u & U & v & V & X1 & Y1) (w & W & z & Z & X2 & Y2).
  set (r := (k - u) / (w - u)).
  assert (R01 : 0 <= r <= 1).
  { unfold r. split; [apply Rmult_le_pos; [lra|left; apply Rinv_0_lt_compat; lra]|].
    apply Rmult_le_reg_r with (w - u); [lra|]. unfold Rdiv. rewrite Rmult_assoc, Rinv_l by lra. lra. }
  assert (KE : k = u + r * (w - u)) by (unfold r; field; lra).
  exists (v + r * (z - v)). split.
  - split; [|].
    + replace (v + r * (z - v)) with ((1 - r) * v + r * z) by ring. apply Rplus_le_le_0_compat; apply Rmult_le_pos; lra.
    + replace (v + r * (z - v)) with ((1 - r) * v + r * z) by ring.
      assert ((1 - r) * v <= (1 - r) * 1) by (apply Rmult_le_compat_l; lra).
      assert (r * z <= r * 1) by (apply Rmult_le_compat_l; lra). lra.
  - split.
    + replace (ax + k * (bx - ax)) with ((1 - r) * (ax + u * (bx - ax)) + r * (ax + w * (bx - ax))) by (rewrite KE; ring).
      rewrite X1, X2. ring.
    + replace (ay + k * (by_ - ay)) with ((1 - r) * (ay + u * (by_ - ay)) + r * (ay + w * (by_ - ay))) by (rewrite KE; ring).
      rewrite Y1, Y2. ring.
Qed.

Lemma leaves_before ps ax ay bx by_ k : fin_points ps -> 0 <= k <= 1 ->
  ring_interior ps (ax + k * (bx - ax)) (ay + k * (by_ - ay)) -> ~ ring_interior ps ax ay ->
  exists t, In t (ring_segments ps) /\ before ax ay bx by_ k t.
Proof.
  intros F K [H NB] NI.
  destruct (Classical_Prop.classic (exists t, In t (ring_segments ps) /\ before ax ay bx by_ k t)) as [|NO]; [assumption|exfalso].
  assert (K0 : 0 < k).
  { destruct (Rle_lt_or_eq_dec 0 k (proj1 K)) as [|E]; [assumption|]. exfalso. apply NI. subst k.
    replace (ax + 0 * (bx - ax)) with ax in * by ring. replace (ay + 0 * (by_ - ay)) with ay in * by ring. split; assumption. }
  assert (NM : forall s, In s (ring_segments ps) -> ~ meets_seg ax ay (ax + k * (bx - ax)) (ay + k * (by_ - ay)) s).
  { intros s I (x & y & (u & U & X & Y) & L). destruct (Req_dec u 1) as [->|N1].
    - apply NB. exists s. split; [exact I|]. unfold lies_on. rewrite X, Y in L.
      replace (ax + 1 * (ax + k * (bx - ax) - ax)) with (ax + k * (bx - ax)) in L by ring.
      replace (ay + 1 * (ay + k * (by_ - ay) - ay)) with (ay + k * (by_ - ay)) in L by ring. exact L.
    - apply NO. exists s. split; [exact I|]. exists (u * k). split.
      { split; [apply Rmult_le_pos; lra|]. rewrite <- (Rmult_1_l k) at 2. apply Rmult_lt_compat_r; lra. }
      unfold lies_on. replace (ax + u * k * (bx - ax)) with x by (rewrite X; ring).
      replace (ay + u * k * (by_ - ay)) with y by (rewrite Y; ring). exact L. }
  pose proof (along_none ps _ _ _ _ F NM) as E. apply ring_has_odd in H. destruct H as [H|H]; [contradiction|].
  apply NI. split; [apply ring_has_odd; right; congruence|].
  intros (s & I & L). apply (NM s I). exists ax, ay. split; [apply on_segment_a|exact L].
Qed.

Lemma leaves_after ps ax ay bx by_ k : fin_points ps -> 0 <= k <= 1 ->
  ring_interior ps (ax + k * (bx - ax)) (ay + k * (by_ - ay)) -> ~ ring_interior ps bx by_ ->
  exists t, In t (ring_segments ps) /\ after ax ay bx by_ k t.
Proof.
  intros F K H N. destruct (leaves_before ps bx by_ ax ay (1 - k) F) as (t & I & u & U & L); [lra| |exact N|].
  - replace (bx + (1 - k) * (ax - bx)) with (ax + k * (bx - ax)) by ring.
    replace (by_ + (1 - k) * (ay - by_)) with (ay + k * (by_ - ay)) by ring. exact H.
  - exists t. split; [exact I|]. exists (1 - u). split; [lra|].
    replace (ax + (1 - u) * (bx - ax)) with (bx + u * (ax - bx)) by ring.
    replace (ay + (1 - u) * (by_ - ay)) with (by_ + u * (ay - by_)) by ring. exact L.
Qed.

Lemma col_runs s t : int_segment 24 s -> int_segment 24 t -> col s t = true -> runs_along s t.
Proof.
  intros [A B] [C D]. unfold col, runs_along.
  destruct (int_point_Z 24 (sa s) A) as (ax & ay & PA & BA1 & BA2).
  destruct (int_point_Z 24 (sb s) B) as (bx & by_ & PB & BB1 & BB2).
  destruct (int_point_Z 24 (sa t) C) as (cx & cy & PC & BC1 & BC2).
  destruct (int_point_Z 24 (sb t) D) as (dx & dy & PD & BD1 & BD2).
  rewrite (collinear_Z _ _ _ ax ay bx by_ cx cy), (collinear_Z _ _ _ ax ay bx by_ dx dy) by assumption.
  rewrite andb_true_iff. unfold ispt, isz in *. unfold xR, yR.
  repeat match goal with H : _ /\ _ |- _ => destruct H end.
  repeat match goal with H : RV ?a = IZR _ |- _ => rewrite H; clear H end.
  rewrite <- !minus_IZR, <- !mult_IZR. unfold cross.
  destruct (Z.eqb_spec ax bx) as [E|E]; rewrite !Z.eqb_eq; intros [E1 E2]; split; f_equal; subst; lia.
Qed.

(** ** The search with the border left out is sound *)
Theorem enters_found ps r s : int_segment 24 s -> ring_stands [sa s; sb s] ps r ->
  (forall t, In t (ring_segments ps) -> have_common_point s t -> ~ runs_along s t) ->
  tg_ring_intersects_segment (Some r) s false = Ret false ->
  forall x y, lies_on s x y -> ~ ring_interior ps x y.
Proof.
  intros IS HR NR T x y ON H.
  pose proof (stands_hits _ ps r (sa s) false HR (or_introl eq_refl) (proj1 IS)) as (va & HA & VA).
  pose proof (stands_hits _ ps r (sb s) false HR (or_intror (or_introl eq_refl)) (proj2 IS)) as (vb & HB & VB).
  destruct HR as (IP & kind & spread & S2 & N & SS & IX).
  pose proof (seg_int_ok s IS) as OKs. pose proof (seg_ok_nn _ OKs) as NNs. pose proof (seg_int_fin s IS) as Fs.
  pose proof (ints_ok ps IP) as OK. pose proof (ints_fin ps IP) as F.
  assert (ISR : forall t, In t (ring_segments ps) -> int_segment 24 t).
  { intros t I. apply ring_segments_in in I. split; apply IP, I. }
  unfold tg_ring_intersects_segment in T.
  assert (RB : tg_rect_intersects_rect (tg_segment_rect s) (r_rect r) = true).
  { pose proof (has_three _ _ _ (proj1 H)) as L3.
    destruct (series_held ps true kind spread r OK S2 ltac:(lia) N) as [RN RH].
    apply (boxes_meet _ _ [sa s; sb s] ps x y); auto using segment_held, lies_span with nn.
    apply has_span; [exact F|apply H]. }
  rewrite RB in T. cbn [negb any_of] in T. rewrite HA, HB in T.
  destruct va; cbn [bind_out] in T; [discriminate|]. destruct vb; cbn [bind_out] in T; [discriminate|].
  assert (NA : ~ ring_interior ps (xR (sa s)) (yR (sa s))) by (intros G; apply VA in G; discriminate).
  assert (NB : ~ ring_interior ps (xR (sb s)) (yR (sb s))) by (intros G; apply VB in G; discriminate).
  destruct (C02_rect_search_partial _ ps true kind spread r (tg_segment_rect s) (intersegiter s false) (O, false, false) OK S2 N SS) as (l & SEL & E).
  { apply rectangle_ok_iff. auto with fok. }
  { apply ordered_key; [auto with nn|]. apply segment_rect_ordered; auto. }
  rewrite E in T. clear E. cbn [series_segments] in SEL.
  assert (INL : forall k t, nth_error (ring_segments ps) k = Some t -> have_common_point s t -> In (k, t) l /\ met s (k, t)).
  { intros k t Ek HC. pose proof (ISR t (nth_error_In _ _ Ek)) as IT.
    assert (M : tg_segment_intersects_segment s t = true) by now apply C09_intersects_exact.
    split; [|exact M]. change k with (0 + k)%nat. apply (selects_nth _ _ _ _ SEL k t Ek).
    apply box_meets_iff; [now apply seg_int_ok|auto with fok| |].
    { apply ordered_key; [auto with nn|]. apply segment_rect_ordered; auto. }
    destruct HC as (u & v & T1 & T2).
    unfold segment_rect_intersects_rect. pose proof (seg_ok_nn _ (seg_int_ok t IT)) as NNt.
    apply (boxes_meet _ _ [sa s; sb s] [sa t; sb t] u v); auto using segment_held, lies_span, seg_int_fin with nn. }
  assert (NC : forall z, In z l -> met s z -> col s (snd z) = false).
  { intros z I M. pose proof (selects_in _ _ _ _ SEL z I) as J. pose proof (ISR _ J) as IT.
    destruct (col s (snd z)) eqn:C; [|reflexivity]. exfalso. apply (NR (snd z) J); [|now apply col_runs].
    now apply C09_intersects_exact. }
  pose proof (interseg_few s l NC 0 false false ltac:(lia)) as K.
  destruct (snd _) as [[n a'] b']. apply (f_equal (fun o => match o with Ret v => v | _ => true end)) in T. change ((2 <=? n)%nat = false) in T. apply Nat.leb_gt in T.
  destruct (K T) as (C & A & B & LC & LA & LB & EA & EB & COV). clear K.
  destruct ON as (k & K01 & -> & ->).
  set (ax := xR (sa s)) in *. set (ay := yR (sa s)) in *. set (bx := xR (sb s)) in *. set (by_ := yR (sb s)) in *.
  assert (MB : forall t, before ax ay bx by_ k t -> have_common_point s t).
  { intros t (u & U & L). eexists _, _. split; [|exact L]. exists u. split; [lra|]. split; reflexivity. }
  assert (MA : forall t, after ax ay bx by_ k t -> have_common_point s t).
  { intros t (u & U & L). eexists _, _. split; [|exact L]. exists u. split; [lra|]. split; reflexivity. }
  assert (K1 : k < 1).
  { destruct (Rle_lt_or_eq_dec k 1 (proj2 K01)) as [|E]; [assumption|]. exfalso. apply NB. subst k.
    replace bx with (ax + 1 * (bx - ax)) by ring. replace by_ with (ay + 1 * (by_ - ay)) by ring. exact H. }
  assert (K0 : 0 < k).
  { destruct (Rle_lt_or_eq_dec 0 k (proj1 K01)) as [|E]; [assumption|]. exfalso. apply NA. subst k.
    replace ax with (ax + 0 * (bx - ax)) by ring. replace ay with (ay + 0 * (by_ - ay)) by ring. exact H. }
  assert (APART : forall t, In t (ring_segments ps) -> before ax ay bx by_ k t -> after ax ay bx by_ k t -> False).
  { intros t I P Q. apply (proj2 H). exists t. split; [exact I|]. now apply both_sides. }
  assert (END : forall p t, int_point 24 p -> In t (ring_segments ps) -> ends_at p t ->
    exists v, (v = sa t \/ v = sb t) /\ xR v = xR p /\ yR v = yR p).
  { intros p t Ip It Ee. destruct (ISR t It) as [I1 I2]. unfold ends_at in Ee. apply orb_true_iff in Ee.
    destruct Ee as [Ee|Ee]; apply pteq_int_iff in Ee; auto; [exists (sa t)|exists (sb t)]; intuition. }
  assert (VTX : forall t v, (v = sa t \/ v = sb t) -> lies_on t (xR v) (yR v)).
  { intros t v [->| ->]; [apply on_segment_a|apply on_segment_b]. }
  (* a counted segment on either side *)
  assert (SA : exists z, In z C /\ In (snd z) (ring_segments ps) /\ before ax ay bx by_ k (snd z)).
  { destruct (leaves_before ps ax ay bx by_ k F K01 H NA) as (t & I & P).
    assert (TRY : forall i t, nth_error (ring_segments ps) i = Some t -> before ax ay bx by_ k t -> In (i, t) C \/ In (i, t) A).
    { intros i t' Ei P'. destruct (INL i t' Ei (MB _ P')) as [J M]. destruct (COV _ J M) as [?|[?|Z]]; [now left|now right|exfalso].
      pose proof (EB _ Z) as Ee. cbn [snd] in Ee. destruct (END _ _ (proj2 IS) (nth_error_In _ _ Ei) Ee) as (v & V & X & Y).
      apply (APART t' (nth_error_In _ _ Ei) P'). exists 1. split; [lra|].
      replace (ax + 1 * (bx - ax)) with (xR v) by (rewrite X; unfold bx; ring). replace (ay + 1 * (by_ - ay)) with (yR v) by (rewrite Y; unfold by_; ring).
      now apply VTX. }
    apply In_nth_error in I. destruct I as (i & Ei). destruct (TRY i t Ei P) as [Z|Z]; [exists (i, t); split; [exact Z|split; [exact (nth_error_In _ _ Ei)|exact P]]|].
    destruct (END _ _ (proj1 IS) (nth_error_In _ _ Ei) (EA _ Z)) as (v & V & X & Y).
    destruct (two_segments ps t v F (nth_error_In _ _ Ei) V) as (i1 & i2 & t1 & t2 & NE & E1 & E2 & W1 & W2).
    assert (P0 : forall t, at_ (xR v) (yR v) (sa t) \/ at_ (xR v) (yR v) (sb t) -> before ax ay bx by_ k t).
    { intros t' W. exists 0. split; [lra|]. replace (ax + 0 * (bx - ax)) with (xR v) by (rewrite X; unfold ax; ring).
      replace (ay + 0 * (by_ - ay)) with (yR v) by (rewrite Y; unfold ay; ring).
      destruct W as [[<- <-]|[<- <-]]; [apply on_segment_a|apply on_segment_b]. }
    destruct (TRY _ _ E1 (P0 _ W1)) as [?|Z1]; [exists (i1, t1); split; [assumption|split; [exact (nth_error_In _ _ E1)|exact (P0 _ W1)]]|].
    destruct (TRY _ _ E2 (P0 _ W2)) as [?|Z2]; [exists (i2, t2); split; [assumption|split; [exact (nth_error_In _ _ E2)|exact (P0 _ W2)]]|].
    exfalso. pose proof (one_only A _ _ LA Z1 Z2) as Q. congruence. }
  assert (SB : exists z, In z C /\ after ax ay bx by_ k (snd z)).
  { destruct (leaves_after ps ax ay bx by_ k F K01 H NB) as (t & I & P).
    assert (TRY : forall i t, nth_error (ring_segments ps) i = Some t -> after ax ay bx by_ k t -> In (i, t) C \/ In (i, t) B).
    { intros i t' Ei P'. destruct (INL i t' Ei (MA _ P')) as [J M]. destruct (COV _ J M) as [?|[Z|?]]; [now left|exfalso|now right].
      pose proof (EA _ Z) as Ee. cbn [snd] in Ee. destruct (END _ _ (proj1 IS) (nth_error_In _ _ Ei) Ee) as (v & V & X & Y).
      apply (APART t' (nth_error_In _ _ Ei)); [|exact P']. exists 0. split; [lra|].
      replace (ax + 0 * (bx - ax)) with (xR v) by (rewrite X; unfold ax; ring). replace (ay + 0 * (by_ - ay)) with (yR v) by (rewrite Y; unfold ay; ring).
      now apply VTX. }
    apply In_nth_error in I. destruct I as (i & Ei). destruct (TRY i t Ei P) as [Z|Z]; [exists (i, t); auto|].
    destruct (END _ _ (proj2 IS) (nth_error_In _ _ Ei) (EB _ Z)) as (v & V & X & Y).
    destruct (two_segments ps t v F (nth_error_In _ _ Ei) V) as (i1 & i2 & t1 & t2 & NE & E1 & E2 & W1 & W2).
    assert (P0 : forall t, at_ (xR v) (yR v) (sa t) \/ at_ (xR v) (yR v) (sb t) -> after ax ay bx by_ k t).
    { intros t' W. exists 1. split; [lra|]. replace (ax + 1 * (bx - ax)) with (xR v) by (rewrite X; unfold bx; ring).
      replace (ay + 1 * (by_ - ay)) with (yR v) by (rewrite Y; unfold by_; ring).
      destruct W as [[<- <-]|[<- <-]]; [apply on_segment_a|apply on_segment_b]. }
    destruct (TRY _ _ E1 (P0 _ W1)) as [?|Z1]; [exists (i1, t1); split; [assumption|exact (P0 _ W1)]|].
    destruct (TRY _ _ E2 (P0 _ W2)) as [?|Z2]; [exists (i2, t2); split; [assumption|exact (P0 _ W2)]|].
    exfalso. pose proof (one_only B _ _ LB Z1 Z2) as Q. congruence. }
  destruct SA as (z1 & Z1 & I1 & P1), SB as (z2 & Z2 & P2).
  assert (z1 = z2) by (eapply one_only; [|exact Z1|exact Z2]; lia). subst z2.
  exact (APART _ I1 P1 P2).
Qed.

(** ** Two rings whose borders keep out of each other's inside have no common inside *)

(** where segments of one meet segments of the other, they do not lie on one line *)
Definition cross_only (l m : list seg) : Prop :=
  forall s t, In s l -> In t m -> have_common_point s t -> ~ runs_along s t /\ ~ runs_along t s.

Lemma cross_once s t x y x' y' : ~ runs_along s t ->
  lies_on s x y -> lies_on t x y -> lies_on s x' y' -> lies_on t x' y' -> x = x' /\ y = y'.
Proof.
  intros NR (k & _ & X1 & Y1) (m & _ & X2 & Y2) (k' & _ & X3 & Y3) (m' & _ & X4 & Y4).
  destruct (Req_dec m m') as [->|NE]; [subst; split; congruence|exfalso]. apply NR. unfold runs_along.
  set (f := fun u v => (xR (sb s) - xR (sa s)) * (v - yR (sa s)) - (yR (sb s) - yR (sa s)) * (u - xR (sa s))).
  assert (A : (1 - m) * f (xR (sa t)) (yR (sa t)) + m * f (xR (sb t)) (yR (sb t)) = 0).
  { transitivity (f x y); [unfold f; rewrite X2, Y2; ring|unfold f; rewrite X1, Y1; ring]. }
  assert (B : (1 - m') * f (xR (sa t)) (yR (sa t)) + m' * f (xR (sb t)) (yR (sb t)) = 0).
  { transitivity (f x' y'); [unfold f; rewrite X4, Y4; ring|unfold f; rewrite X3, Y3; ring]. }
  assert (C : (m' - m) * (f (xR (sb t)) (yR (sb t)) - f (xR (sa t)) (yR (sa t))) = 0).
  { replace 0 with (0 - 0) by ring. rewrite <- A at 2. rewrite <- B at 1. ring. }
  apply Rmult_integral in C. destruct C as [C|C]; [lra|].
  assert (D : f (xR (sb t)) (yR (sb t)) = f (xR (sa t)) (yR (sa t))) by lra. rewrite D in A.
  assert (E : f (xR (sa t)) (yR (sa t)) = 0) by lra. rewrite E in D. unfold f in D, E. split; lra.
Qed.

Lemma common_heights (L : list (seg * seg)) : (forall s t, In (s, t) L -> have_common_point s t -> ~ runs_along s t) ->
  exists H : list R, forall s t x y, In (s, t) L -> lies_on s x y -> lies_on t x y -> In y H.
Proof.
  induction L as [|[s t] L IH]; intros NR; [exists []; intros ? ? ? ? []|].
  destruct IH as (H & HH); [intros; apply NR; [now right|assumption]|].
  destruct (Classical_Prop.classic (have_common_point s t)) as [C|C].
  - pose proof (NR s t (or_introl eq_refl) C) as N. destruct C as (x0 & y0 & A & B). exists (y0 :: H).
    intros s' t' x y [[= <- <-]|I] U V; [|right; eauto]. left. apply (cross_once s t x0 y0 x y N); assumption.
  - exists H. intros s' t' x y [[= <- <-]|I] U V; [|eauto]. exfalso. apply C. exists x, y. auto.
Qed.

Lemma gap_one s x y : ~ lies_on s x y -> exists e, 0 < e /\ forall w, y <= w < y + e -> ~ lies_on s x w.
Proof.
  intros N. destruct (Classical_Prop.classic (exists w, y <= w /\ lies_on s x w)) as [(w & W & L)|NO].
  2:{ exists 1. split; [lra|]. intros w W L. apply NO. exists w. split; [lra|exact L]. }
  destruct (Req_dec (xR (sa s)) (xR (sb s))) as [E|E].
  - assert (Q : y < Rmin (yR (sa s)) (yR (sb s))).
    { apply Rnot_le_lt. intros Q. apply N. unfold lies_on in *. apply on_segment_iff in L. apply on_segment_iff.
      destruct L as (LX & LY & T). split; [exact LX|]. split; [lra|].
      assert (x = xR (sa s)) by (unfold Rmin, Rmax in LX; repeat destruct (Rle_dec _ _); lra).
      unfold turn. subst x. rewrite E. ring. }
    exists (Rmin (yR (sa s)) (yR (sb s)) - y). split; [lra|]. intros v V L'. apply on_segment_iff in L'. lra.
  - exists (w - y). assert (NE : w <> y) by (intros ->; contradiction). split; [lra|]. intros v V L'.
    destruct L as (k & _ & X1 & Y1), L' as (m & _ & X2 & Y2).
    assert (K : (k - m) * (xR (sb s) - xR (sa s)) = 0) by lra. apply Rmult_integral in K. destruct K as [K|K]; [|lra].
    assert (k = m) by lra. subst m. lra.
Qed.
Lemma gap_list l x y : (forall s, In s l -> ~ lies_on s x y) ->
  exists e, 0 < e /\ forall s w, In s l -> y <= w < y + e -> ~ lies_on s x w.
Proof.
  induction l as [|s l IH]; intros N; [exists 1; split; [lra|intros ? ? []]|].
  destruct (gap_one s x y (N s (or_introl eq_refl))) as (e1 & P1 & G1).
  destruct IH as (e2 & P2 & G2); [intros; apply N; now right|].
  exists (Rmin e1 e2). split; [apply Rmin_pos; assumption|]. pose proof (Rmin_l e1 e2). pose proof (Rmin_r e1 e2).
  intros t w [<-|I] W; [apply G1; lra|apply (G2 t); [exact I|lra]].
Qed.
Lemma free_height (H : list R) y e : 0 < e -> exists w, y < w < y + e /\ ~ In w H.
Proof.
  intros P. assert (G : exists d, 0 < d <= e /\ forall h, In h H -> ~ (y < h < y + d)).
  { induction H as [|h H IH]; [exists e; split; [lra|intros ? []]|]. destruct IH as (d & D & G).
    destruct (Rlt_dec y h) as [L|L].
    - exists (Rmin d (h - y)). pose proof (Rmin_l d (h - y)). pose proof (Rmin_r d (h - y)).
      split; [split; [apply Rmin_pos; lra|lra]|]. intros h' [<-|I]; [lra|]. intros Q. apply (G h' I). lra.
    - exists d. split; [exact D|]. intros h' [<-|I]; [lra|now apply G]. }
  destruct G as (d & D & G). exists (y + d / 2). split; [lra|]. intros I. apply (G _ I). lra.
Qed.

Lemma insides_apart pa pb : fin_points pa -> fin_points pb -> cross_only (ring_segments pa) (ring_segments pb) ->
  (forall x y, ring_border pa x y -> ~ ring_interior pb x y) -> (forall x y, ring_border pb x y -> ~ ring_interior pa x y) ->
  forall x y, ring_interior pa x y -> ~ ring_interior pb x y.
Proof.
  intros FA FB CO NA NB x y [HA BA] [HB BB].
  assert (OFF : forall s, In s (ring_segments pa ++ ring_segments pb) -> ~ lies_on s x y).
  { intros s I L. apply in_app_or in I. destruct I as [I|I]; [apply BA|apply BB]; exists s; auto. }
  destruct (gap_list _ x y OFF) as (e & E & G).
  destruct (common_heights (list_prod (ring_segments pa) (ring_segments pb))) as (H & HH).
  { intros s t I C. apply in_prod_iff in I. apply (CO s t); tauto. }
  destruct (free_height H y e E) as (w & W & NH).
  assert (UP : forall p, (forall t, In t (ring_segments p) -> In t (ring_segments pa ++ ring_segments pb)) -> fin_points p ->
    ring_has p x y -> ~ ring_border p x y -> ring_has p x w).
  { intros p SUB F HP BP. apply ring_has_odd in HP. destruct HP as [HP|HP]; [contradiction|].
    apply ring_has_odd. right. rewrite <- HP. symmetry. apply along_none; [exact F|]. intros t It (u & v & U & V).
    assert (EU : u = x) by (destruct U as (k & _ & -> & _); ring). subst u.
    assert (EV : y <= v <= w).
    { apply on_segment_iff in U. destruct U as (_ & U & _). rewrite Rmin_left, Rmax_right in U by lra. exact U. }
    apply (G t v (SUB t It)); [lra|exact V]. }
  assert (HA' : ring_has pa x w) by (apply UP; auto; intros; apply in_or_app; auto).
  assert (HB' : ring_has pb x w) by (apply UP; auto; intros; apply in_or_app; auto).
  assert (ONE : forall u, ring_border pa u w -> ring_border pb u w -> False).
  { intros u (s & Is & Ls) (t & It & Lt). apply NH. apply (HH s t u w); auto. apply in_prod_iff. auto. }
  destruct (border_of_either pa pb x w FA FB HA' HB') as [(u & B & I)|(u & B & I)].
  - apply (NA u w B). split; [exact I|]. intros B'. exact (ONE u B B').
  - apply (NB u w B). split; [exact I|]. intros B'. exact (ONE u B' B).
Qed.
