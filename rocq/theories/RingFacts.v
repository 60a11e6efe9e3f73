(** * Rings against the specification vocabulary *)

From Coq Require Import ZArith Bool List Lia Reals Lra.
From Flocq Require Import Core.
From Verif Require Import F64 F64Order F64Real F64Mono Geo Series SeriesFacts Search SearchFacts
  RectFacts StripeFacts SpecGeo SpecFacts SpecRing.
Import ListNotations.
Local Open Scope nat_scope.

(** ** the scan is the even-odd rule *)
Lemma raycast_outside s p : seg_nn s -> pt_nn p ->
  (flt (py p) (fmin0 (py (sa s)) (py (sb s))) || fgt (py p) (fmax0 (py (sa s)) (py (sb s)))) = true ->
  raycast s p = ROut.
Proof. intros _ _ H. unfold raycast. cbn [tg_segment_rect rmin rmax py px]. rewrite H. reflexivity. Qed.

Lemma pip_step r p edge st i : seg_nn (seg_at r i) -> pt_nn p ->
  pip_eval_seg r p edge st i = pip_eval_seg_slow r p edge st i.
Proof.
  intros Hs Hp. rewrite pip_eval_seg_slow_eq by auto.
  destruct (flt _ _ || fgt _ _) eqn:E; cbn [negb]; auto.
  unfold pip_eval_seg_slow. rewrite raycast_outside; auto.
Qed.

Lemma pip_fold_gen r p edge : (forall i, seg_nn (seg_at r i)) -> pt_nn p -> forall n k st,
  fold_left (pip_eval_seg r p edge) (seq k n) st =
  match last_on k (map (seg_at r) (seq k n)) p with
  | Some i => (edge, Some i)
  | None => match snd st with
            | Some _ => st
            | None => (xorb (fst st) (Nat.odd (crossings (map (seg_at r) (seq k n)) p)), None)
            end
  end.
Proof.
  intros Hs Hp. induction n; intros k st; cbn [seq map fold_left last_on crossings].
  - destruct st as [h [j|]]; cbn; auto. rewrite xorb_false_r. reflexivity.
  - rewrite IHn, pip_step by auto. destruct (last_on (S k) _ p); auto.
    unfold pip_eval_seg_slow. destruct (raycast (seg_at r k) p); cbn [fst snd Nat.add]; auto.
    destruct st as [h [j|]]; cbn [fst snd]; auto.
    rewrite Nat.odd_succ, <- Nat.negb_odd. destruct h, (Nat.odd _); reflexivity.
Qed.

Lemma pip_fold r p edge n : (forall i, seg_nn (seg_at r i)) -> pt_nn p ->
  fold_left (pip_eval_seg r p edge) (seq 0 n) (false, None) =
  point_in_segments (map (seg_at r) (seq 0 n)) p edge.
Proof.
  intros Hs Hp. rewrite pip_fold_gen by auto. unfold point_in_segments. cbn [fst snd].
  destruct (last_on 0 _ p); [|destruct (Nat.odd _)]; reflexivity.
Qed.

(** ** bounding rectangle *)
Lemma in_bounds_rect ps r p : pts_ok ps -> rect_ok r -> pt_ok p -> attained ps r ->
  (forall i, i < length ps -> kin r (pt_at ps i)) ->
  tg_rect_covers_point r p = in_bounds ps p.
Proof.
  intros Hok Or Op (A1 & A2 & A3 & A4) K.
  assert (Nr := rect_ok_nn _ Or). assert (Np := pt_ok_nn _ Op).
  assert (K' : forall q, In q ps -> kin r q /\ pt_nn q).
  { intros q I. destruct (In_nth _ _ pt0 I) as (i & Hi & <-). split. apply K; auto.
    apply pt_ok_nn. eapply Forall_forall in Hok; eauto. }
  apply eq_true_iff_eq. rewrite covers_point_iff by auto.
  unfold in_bounds. rewrite !andb_true_iff, !existsb_exists.
  split.
  - intros [Hx Hy].
    destruct A1 as (q1 & I1 & E1), A2 as (q2 & I2 & E2), A3 as (q3 & I3 & E3), A4 as (q4 & I4 & E4).
    destruct (K' _ I1) as [_ [? ?]], (K' _ I2) as [_ [? ?]], (K' _ I3) as [_ [? ?]], (K' _ I4) as [_ [? ?]].
    destruct Np as [? ?].
    repeat split; [exists q1|exists q3|exists q2|exists q4]; (split; [auto|]); apply fle_iff; auto; lia.
  - intros [[[(q1 & I1 & E1) (q2 & I2 & E2)] (q3 & I3 & E3)] (q4 & I4 & E4)].
    destruct (K' _ I1) as [U1 [? ?]], (K' _ I2) as [U2 [? ?]], (K' _ I3) as [U3 [? ?]], (K' _ I4) as [U4 [? ?]].
    destruct Np as [? ?]. apply fle_iff in E1, E2, E3, E4; auto.
    unfold kin in *. lia.
Qed.

Lemma explicitly_closed_pteq ps : pts_ok ps -> explicitly_closed ps ->
  1 <= length ps /\ pteq (pt_at ps (length ps - 1)) (pt_at ps 0) = true.
Proof.
  intros Hok (a & H & S). destruct ps as [|b ps']; [discriminate|]. injection H as ->.
  split; [cbn; lia|]. rewrite last_pt_at in S by discriminate.
  rewrite same_point_pteq in S; auto. apply pt_ok_nn, pt_at_ok; auto.
  inversion Hok; subst. apply pt_ok_nn; auto.
Qed.

Lemma short_none ps closed kind spread r : series_new ps closed kind spread = Some r ->
  length ps < 2 * spread -> r_ystripes r = None /\ r_index r = None.
Proof.
  intros E L. unfold series_new in E. cbv zeta in E.
  replace (2 * spread <=? length ps) with false in E by lia. cbn [andb] in E.
  injection E as <-. auto.
Qed.

Lemma kind_ystripes ps closed kind spread r ys : series_new ps closed kind spread = Some r ->
  r_ystripes r = Some ys -> kind = IxYstripes.
Proof.
  intros E Y. unfold series_new in E. cbv zeta in E. destruct kind; auto;
  rewrite !andb_false_r in E; injection E as <-; discriminate.
Qed.
Lemma kind_no_ystripes ps spread r : series_new ps true IxYstripes spread = Some r ->
  2 * spread <= length ps -> exists ys, r_ystripes r = Some ys.
Proof.
  intros E L. unfold series_new in E. cbv zeta in E.
  replace (2 * spread <=? length ps) with true in E by lia. cbn [andb] in E.
  destruct (process_ystripes _) as [ys|]; [|discriminate]. injection E as <-.
  exists ys. reflexivity.
Qed.

Lemma ix_ok_when_safe ps closed kind spread r : series_new ps closed kind spread = Some r ->
  pts_ok ps -> 2 <= spread ->
  (r_index r <> None -> idx_sound spread (length ps) (num_segments ps (length ps) closed)) ->
  ring_ix_ok r.
Proof.
  intros E Hok S2 H. destruct (r_index r) as [ix|] eqn:EI.
  - eapply series_new_ix_ok; eauto. apply H. discriminate.
  - split; [|rewrite EI; auto]. intros i. apply series_new_fields in E. cbv zeta in E.
    destruct E as (_ & _ & _ & EP & _). rewrite (seg_at_pseg ps) by auto. apply pseg_ok; auto.
Qed.

Lemma clear_top_key ps r y : pts_ok ps -> rect_ok r -> attained ps r ->
  (forall i, i < length ps -> kin r (pt_at ps i)) ->
  fin (py (rmin r)) -> fin (py (rmax r)) -> clear_of_top ps y ->
  (RV y <= RV (py (rmax r)) - (RV (py (rmax r)) - RV (py (rmin r))) * bpow radix2 (-49))%R.
Proof.
  intros Hok Or (_ & A2 & _ & A4) K F1 F2 (t & b & It & Ib & Hq & Hy).
  assert (K' : forall q, In q ps -> kin r q /\ fok (py q)).
  { intros q I. destruct (In_nth _ _ pt0 I) as (i & Hi & <-). split. apply K; auto.
    eapply Forall_forall in Hok; eauto. apply Hok. }
  assert (NN : forall q, In q ps -> nn (py q)) by (intros q I; apply K'; auto).
  destruct A2 as (q2 & I2 & E2), A4 as (q4 & I4 & E4).
  assert (FB : forall q, In q ps -> fin (py q)).
  { intros q I. destruct (K' q I) as [[_ Ky] Oy].
    destruct (fok_cases _ Oy) as [Fy|[I' W]]; auto. exfalso.
    rewrite (key_inf _ I') in Ky. pose proof (key_fin _ F1). pose proof (key_fin _ F2).
    destruct (f_sign (py q)); lia. }
  assert (ET : f_key (py t) = f_key (py (rmax r))).
  { destruct (K' t It) as [[_ Ky] _]. pose proof (proj2 (Hq _ I4)) as L.
    apply fle_iff in L; auto. lia. }
  assert (EB : f_key (py b) = f_key (py (rmin r))).
  { destruct (K' b Ib) as [[_ Ky] _]. pose proof (proj1 (Hq _ I2)) as L.
    apply fle_iff in L; auto. lia. }
  apply key_eq_R in ET, EB; auto. rewrite <- ET, <- EB.
  replace (bpow radix2 (-49)) with (/ 2 ^ 49)%R. exact Hy.
  cbn. lra.
Qed.

Theorem point_in_ring ps kind spread r p edge :
  points_ok ps -> 2 <= spread -> point_ok p ->
  series_new ps true kind spread = Some r -> index_safe ps kind spread p ->
  tg_ring_contains_point r p edge =
  Some (if in_bounds ps p then point_in_segments (ring_segments ps) p edge else (false, None)).
Proof.
  intros Hok S2 Op E Safe. apply points_ok_iff in Hok. apply point_ok_iff in Op.
  pose proof (series_new_fields _ _ _ _ _ E) as F. cbv zeta in F.
  destruct F as (_ & NP & NS & PT & RC & _ & _ & _ & IX).
  change (ring_segments ps) with (series_segments true ps).
  rewrite series_segments_spec by auto.
  assert (SA : forall i, seg_at r i = pseg ps i) by (intros; apply seg_at_pseg; auto).
  assert (SO : forall i, seg_ok (seg_at r i)) by (intros i; rewrite SA; apply pseg_ok; auto).
  assert (SN : forall i, seg_nn (seg_at r i)) by (intros; apply seg_ok_nn; auto).
  assert (PN := pt_ok_nn _ Op).
  assert (MAP : map (pseg ps) (seq 0 (num_segments ps (length ps) true)) =
                map (seg_at r) (seq 0 (r_nsegs r))).
  { rewrite NS. apply map_ext. intros; rewrite SA; auto. }
  rewrite MAP, <- pip_fold by auto.
  destruct (Nat.lt_ge_cases (length ps) 2) as [L2|L2].
  { (* no segments at all *)
    assert (N0 : r_nsegs r = 0).
    { rewrite NS. unfold num_segments. replace (length ps <? 3) with true by lia. reflexivity. }
    rewrite N0. cbn [seq fold_left].
    destruct (short_none _ _ _ _ _ E ltac:(lia)) as [Y X].
    unfold tg_ring_contains_point. rewrite Y, X. unfold standard_pip. rewrite N0. cbn [seq fold_left].
    destruct (negb _), (in_bounds ps p); reflexivity. }
  destruct (series_rect _ _ _ _ _ E Hok S2 L2) as (Or & At & Ki).
  rewrite <- (in_bounds_rect ps (r_rect r) p) by auto.
  destruct (r_ystripes r) as [ys|] eqn:Y.
  - pose proof (kind_ystripes _ _ _ _ _ _ E Y) as ->.
    unfold tg_ring_contains_point. rewrite Y. destruct (tg_rect_covers_point _ p) eqn:Cov; cbn [negb]; auto.
    destruct (ystripes_scan ps _ spread r ys p edge E Hok S2 Op Y Cov) as (st & -> & H).
    f_equal. apply H. intros i Hi. cbv zeta. intros Kb.
    destruct Safe as [L|Safe].
    { destruct (short_none _ _ _ _ _ E L). congruence. }
    assert (I : In (pseg ps i) (ring_segments ps)).
    { change (ring_segments ps) with (series_segments true ps).
      rewrite series_segments_spec by auto. apply in_map. apply in_seq. rewrite <- NS. lia. }
    specialize (Safe _ I). rewrite <- SA in Safe.
    destruct (ystripes_finite _ _ _ _ _ E Hok S2 Y) as [F1 F2].
    assert (OB : fok (py (sa (seg_at r i))) /\ fok (py (sb (seg_at r i)))).
    { specialize (SO i). destruct SO as [[_ ?] [_ ?]]. auto. }
    destruct OB as [O1 O2].
    assert (KI2 : forall t, t <= length ps -> kin (r_rect r) (pt_at (r_points r) t)).
    { intros t Ht. rewrite PT. destruct (Nat.eq_dec t (length ps)) as [->|N].
      - rewrite ringpts_last. apply Ki. lia.
      - rewrite ringpts_lt by lia. apply Ki. lia. }
    assert (NL : r_nsegs r <= length ps).
    { rewrite NS. unfold num_segments. destruct (length ps <? 3); [lia|]. destruct (pteq _ _); lia. }
    pose proof (KI2 i ltac:(lia)) as K1. pose proof (KI2 (i + 1) ltac:(lia)) as K2.
    assert (FB : forall y, fok y -> (f_key (py (rmin (r_rect r))) <= f_key y <= f_key (py (rmax (r_rect r))))%Z -> fin y).
    { intros y Oy Ky. destruct (fok_cases _ Oy) as [Fy|[I' W]]; auto. exfalso.
      rewrite (key_inf _ I') in Ky. pose proof (key_fin _ F1). pose proof (key_fin _ F2).
      destruct (f_sign y); lia. }
    assert (Fa : fin (py (sa (seg_at r i)))) by (apply FB; auto; unfold kin in K1; cbn [seg_at sa sb]; lia).
    assert (Fb : fin (py (sb (seg_at r i)))) by (apply FB; auto; unfold kin in K2; cbn [seg_at sa sb]; lia).
    set (ya := py (sa (seg_at r i))) in *. set (yb := py (sb (seg_at r i))) in *.
    assert (Kmin : f_key (py (rmin (tg_segment_rect (seg_at r i)))) = Z.min (f_key ya) (f_key yb)).
    { cbn [tg_segment_rect rmin rmax py px]. apply key_fmin0; [apply O1|apply O2]. }
    assert (Kmax : f_key (py (rmax (tg_segment_rect (seg_at r i)))) = Z.max (f_key ya) (f_key yb)).
    { cbn [tg_segment_rect rmin rmax py px]. apply key_fmax0; [apply O1|apply O2]. }
    assert (Fm : fin (py (rmin (tg_segment_rect (seg_at r i))))).
    { apply FB. { cbn [tg_segment_rect rmin py]. apply fok_fmin0; auto. }
      rewrite Kmin. unfold kin in K1, K2. cbn [seg_at sa sb] in ya, yb. unfold ya, yb. lia. }
    assert (BT : between ya yb (py p)).
    { unfold between. rewrite !fle_iff by (apply O1 || apply O2 || apply Op). lia. }
    destruct (Safe BT) as [C|C]; apply (clear_top_key ps (r_rect r)) in C; auto;
      (eapply Rle_trans; [|exact C]); apply key_le_R; auto; lia.
  - assert (RI : ring_ix_ok r).
    { eapply ix_ok_when_safe; eauto. intros NI. destruct Safe as [L|Safe].
      { destruct (short_none _ _ _ _ _ E L). congruence. }
      destruct kind.
      - rewrite IX in NI. rewrite andb_false_r in NI. congruence.
      - destruct Safe as [C|M].
        + destruct (explicitly_closed_pteq _ Hok C). apply idx_sound_closed; auto.
        + right; auto.
      - destruct (Nat.lt_ge_cases (length ps) (2 * spread)) as [L|L].
        + destruct (short_none _ _ _ _ _ E L). congruence.
        + destruct (kind_no_ystripes _ _ _ E L). congruence. }
    rewrite ring_contains_point_scan by auto. destruct (tg_rect_covers_point _ p); auto.
Qed.

Theorem series_rect_spec ps closed kind spread r :
  points_ok ps -> 2 <= spread -> 2 <= length ps -> series_new ps closed kind spread = Some r ->
  let R := RingApi.tg_ring_rect (Some r) in
  (forall p, In p ps -> in_rect R p) /\
  (exists p, In p ps /\ feqb (px p) (px (rmin R)) = true) /\
  (exists p, In p ps /\ feqb (py p) (py (rmin R)) = true) /\
  (exists p, In p ps /\ feqb (px p) (px (rmax R)) = true) /\
  (exists p, In p ps /\ feqb (py p) (py (rmax R)) = true).
Proof.
  intros Hok S2 L E. cbv zeta. cbn [RingApi.tg_ring_rect]. apply points_ok_iff in Hok.
  destruct (series_rect _ _ _ _ _ E Hok S2 L) as (Or & (A1 & A2 & A3 & A4) & Ki).
  assert (N : forall p, In p ps -> pt_nn p).
  { intros p I. eapply Forall_forall in Hok; eauto. apply pt_ok_nn; auto. }
  assert (NR := rect_ok_nn _ Or). destruct NR as [[R1 R2] [R3 R4]].
  split.
  { intros p I. apply in_rect_kin; auto. repeat split; auto.
    destruct (In_nth _ _ pt0 I) as (i & Hi & <-). apply Ki; auto. }
  destruct A1 as (p1 & I1 & E1), A2 as (p2 & I2 & E2), A3 as (p3 & I3 & E3), A4 as (p4 & I4 & E4).
  destruct (N _ I1), (N _ I2), (N _ I3), (N _ I4).
  repeat split; [exists p1|exists p2|exists p3|exists p4]; (split; [auto|]); rewrite feqb_key by auto; lia.
Qed.
