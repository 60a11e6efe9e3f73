(** * Searches, index shape and index options against the specification *)

From Coq Require Import ZArith Bool List Lia ZifyBool.
From Verif Require Import F64 F64Order F64Real F64Mono F32 Geo Series SeriesFacts Search SearchFacts
  RectFacts SpecGeo SpecFacts SpecRing RingFacts RingApi.
Import ListNotations.
Local Open Scope nat_scope.

Lemma search_safe_ok ps closed kind spread r : points_ok ps -> 2 <= spread ->
  series_new ps closed kind spread = Some r -> search_safe ps closed kind spread -> ring_ix_ok r.
Proof.
  intros Hok S2 E Safe. apply points_ok_iff in Hok.
  eapply ix_ok_when_safe; eauto. intros NI.
  destruct Safe as [->|[->|[L|[C|M]]]].
  - apply idx_sound_line. destruct (Nat.lt_ge_cases (length ps) (2 * spread)); [|lia].
    destruct (short_none _ _ _ _ _ E H). congruence.
  - pose proof (series_new_fields _ _ _ _ _ E) as F. cbv zeta in F.
    destruct F as (_ & _ & _ & _ & _ & _ & _ & _ & IX).
    rewrite andb_false_r in IX. congruence.
  - destruct (short_none _ _ _ _ _ E L). congruence.
  - destruct (explicitly_closed_pteq _ Hok C). destruct closed.
    + apply idx_sound_closed; auto.
    + apply idx_sound_line; auto.
  - right; auto.
Qed.

Theorem series_search {A} ps closed kind spread r q (iter : A -> seg -> nat -> bool * A) st :
  points_ok ps -> 2 <= spread -> series_new ps closed kind spread = Some r ->
  search_safe ps closed kind spread -> rectangle_ok q -> ordered q ->
  exists l, selects (fun s => box_meets s q) 0 (series_segments closed ps) l /\
    tg_ring_search r q iter st = run_callback (fun st is => iter st (snd is) (fst is)) l st.
Proof.
  intros Hok S2 E Safe Oq Ord.
  pose proof (search_safe_ok _ _ _ _ _ Hok S2 E Safe) as RI.
  apply rectangle_ok_iff in Oq. apply points_ok_iff in Hok.
  pose proof (series_new_fields _ _ _ _ _ E) as F. cbv zeta in F.
  destruct F as (_ & NP & NS & PT & _).
  rewrite ring_search_scan by auto. rewrite series_segments_spec by auto. rewrite <- NS.
  exists (map (fun i => (i, pseg ps i)) (filter (fun i => segment_rect_intersects_rect (seg_at r i) q) (seq 0 (r_nsegs r)))).
  split.
  - apply selects_filter. intros i Hi. rewrite box_meets_iff; auto.
    + assert (X : seg_at r i = pseg ps i) by (apply seg_at_pseg; auto). rewrite X. reflexivity.
    + apply pseg_ok; auto.
  - etransitivity; [|symmetry; apply run_callback_loop]. rewrite loop_while_map. cbn [fst snd].
    rewrite (scan_filter r q iter).
    apply loop_while_ext. intros st' i _. rewrite (seg_at_pseg ps) by auto. reflexivity.
Qed.

(** ** index shape *)
Lemma levels_ok_nth segs s nsegs : forall lvls k, levels_ok segs s nsegs lvls -> k < length lvls ->
  level_ok segs s (length lvls - k) nsegs (nth k lvls []).
Proof.
  induction lvls as [|a lvls IH]; intros k H Hk; [cbn in Hk; lia|].
  destruct H as [A B]. destruct k; cbn [nth length].
  - rewrite Nat.sub_0_r. exact A.
  - cbn [length] in Hk. apply (IH k B). lia.
Qed.

(** level sizes do not depend on the coordinates *)
Fixpoint sizes_ok_from (s nsegs l : nat) (lvls : list (list ixrect)) : Prop :=
  match lvls with
  | nil => True
  | level :: below => length level = calc_num_keys s (length below + l) nsegs /\ sizes_ok_from s nsegs l below
  end.
Lemma sizes_ok_snoc s nsegs l lvls level :
  sizes_ok_from s nsegs (S l) lvls -> length level = calc_num_keys s l nsegs ->
  sizes_ok_from s nsegs l (lvls ++ [level]).
Proof.
  induction lvls as [|a lvls IH]; cbn; intros H1 H2; auto.
  destruct H1 as [A B]. split; [|apply IH; auto].
  rewrite app_length. cbn. replace (length lvls + 1 + l) with (length lvls + S l) by lia. exact A.
Qed.
Lemma build_up_sizes s nsegs k : forall l below, length below = calc_num_keys s l nsegs ->
  sizes_ok_from s nsegs l (ix_build_up s nsegs k l below).
Proof.
  induction k; intros l below H; cbn; auto.
  apply sizes_ok_snoc; auto. apply IHk. unfold ix_level_up. rewrite map_length, seq_length. reflexivity.
Qed.
Lemma sizes_nth s nsegs l : forall lvls k, sizes_ok_from s nsegs l lvls -> k < length lvls ->
  length (nth k lvls []) = calc_num_keys s (length lvls - k + l - 1) nsegs.
Proof.
  induction lvls as [|a lvls IH]; intros k H Hk; [cbn in Hk; lia|].
  destruct H as [A B]. destruct k; cbn [nth length].
  - rewrite A. f_equal. lia.
  - cbn [length] in Hk. rewrite (IH k B) by lia. f_equal.
Qed.

Lemma pp_out_length s ps : s <> 0 -> ps <> [] -> pts_ok ps ->
  length (pp_out (pp_loop (Some s) ps (length ps))) = length ps / s.
Proof. intros A B C. destruct (pp_inv_loop s ps A B C) as [L _ _ _ _ _ _]. exact L. Qed.

Lemma leaves_length ps s nsegs : 2 <= s -> 2 <= length ps -> pts_ok ps ->
  (nsegs = length ps \/ nsegs = length ps - 1) ->
  length (ppr_leaves (process_points (Some (s, calc_num_keys s 1 nsegs)) ps (length ps))) = calc_num_keys s 1 nsegs.
Proof.
  intros Hs Hn Hok Hns. rewrite keys1.
  assert (Hps : ps <> []) by (intros ->; cbn in Hn; lia).
  pose proof (pp_out_length s ps ltac:(lia) Hps Hok) as L.
  unfold process_points. replace (length ps <? 2)%nat with false by lia.
  cbn [option_map fst]. set (st := pp_loop (Some s) ps (length ps)) in *.
  destruct (ceil_full s (length ps) nsegs Hs Hn Hns) as [C1 C2].
  rewrite L. destruct (length ps / s =? (nsegs + s - 1) / s)%nat eqn:E; cbn [ppr_leaves pp_out].
  - apply Nat.eqb_eq in E. rewrite rev_length, L. auto.
  - apply Nat.eqb_neq in E. cbn [rev]. rewrite app_length, rev_length, L. cbn [length]. lia.
Qed.

Lemma index_fields ps closed kind spread r ix : series_new ps closed kind spread = Some r ->
  pts_ok ps -> 2 <= spread -> r_index r = Some ix ->
  2 * spread <= length ps /\ kind <> IxNone /\ ix_spread ix = spread /\
  length (ix_levels ix) = calc_num_levels spread (r_nsegs r) - 1 /\ 1 <= length (ix_levels ix) /\
  sizes_ok_from spread (r_nsegs r) 1 (ix_levels ix).
Proof.
  intros E Hok S2 IX. pose proof (series_new_fields _ _ _ _ _ E) as F. cbv zeta in F.
  destruct F as (_ & _ & NS & _ & _ & _ & _ & _ & EI). rewrite EI in IX.
  destruct ((2 * spread <=? length ps) && _) eqn:IND; [|discriminate].
  apply andb_true_iff in IND. destruct IND as [L K]. injection IX as <-. cbn [ix_spread ix_levels].
  assert (N : num_segments ps (length ps) closed = length ps \/ num_segments ps (length ps) closed = length ps - 1).
  { unfold num_segments. destruct closed.
    - replace (length ps <? 3) with false by lia. destruct (pteq _ _); lia.
    - replace (length ps <? 2) with false by lia. lia. }
  rewrite NS. pose proof (calc_num_levels_ge2 spread (num_segments ps (length ps) closed) S2 ltac:(lia)).
  repeat split; try lia.
  - intros ->. discriminate.
  - rewrite build_up_length. lia.
  - rewrite build_up_length. lia.
  - apply build_up_sizes. apply leaves_length; auto; lia.
Qed.

Lemma index_none ps closed kind spread r : series_new ps closed kind spread = Some r ->
  r_index r = None -> length ps < 2 * spread \/ kind = IxNone.
Proof.
  intros E IX. pose proof (series_new_fields _ _ _ _ _ E) as F. cbv zeta in F.
  destruct F as (_ & _ & _ & _ & _ & _ & _ & _ & EI). rewrite EI in IX.
  destruct ((2 * spread <=? length ps) && _) eqn:IND; [discriminate|].
  destruct kind; auto; left; lia.
Qed.

(** minimality of the number of levels *)
Lemma calc_num_levels_loop_min s n : 2 <= s -> forall fuel l,
  (l = 1 \/ s ^ (l - 1) < n) -> 1 <= l ->
  let L := calc_num_levels_loop fuel s l n in L = 1 \/ s ^ (L - 1) < n.
Proof.
  intros Hs. induction fuel; intros l Hl H1; cbn [calc_num_levels_loop]; cbv zeta; auto.
  destruct (1 <? calc_num_keys s l n)%nat eqn:E; auto.
  apply IHfuel; [|lia]. right. replace (S l - 1) with l by lia.
  apply Nat.ltb_lt in E. apply num_keys_spec in E; lia.
Qed.

Theorem index_shape ps closed kind spread r :
  points_ok ps -> 2 <= spread -> series_new ps closed kind spread = Some r ->
  let L := tg_ring_index_num_levels (Some r) in
  let n := length (series_segments closed ps) in
  (L = 0%Z <-> kind = IxNone \/ length ps < 2 * spread) /\
  (forall k, (k < 0 \/ L <= k)%Z -> tg_ring_index_level_num_rects (Some r) k = 0%Z) /\
  (L <> 0%Z -> tg_ring_index_spread (Some r) = Z.of_nat spread /\
     (tg_ring_index_level_num_rects (Some r) 0 <= Z.of_nat spread)%Z /\
     (2 <= tg_ring_index_level_num_rects (Some r) 0)%Z) /\
  (forall k, (0 <= k < L)%Z ->
     exists c, tg_ring_index_level_num_rects (Some r) k = Z.of_nat c /\ 1 <= c /\
       (c - 1) * spread ^ (Z.to_nat (L - k)) < n <= c * spread ^ (Z.to_nat (L - k))).
Proof.
  intros Hok S2 E. apply points_ok_iff in Hok. cbv zeta.
  rewrite series_segments_spec by auto. rewrite map_length, seq_length.
  pose proof (series_new_fields _ _ _ _ _ E) as F. cbv zeta in F.
  destruct F as (_ & _ & NS & _ & _ & _ & _ & _ & EI). rewrite <- NS.
  unfold tg_ring_index_num_levels, tg_ring_index_level_num_rects, tg_ring_index_spread.
  destruct (r_index r) as [ix|] eqn:IX.
  2:{ clear EI. pose proof (index_none _ _ _ _ _ E IX).
      repeat split; try lia; auto. tauto. }
  clear EI.
  destruct (index_fields _ _ _ _ _ _ E Hok S2 IX) as (L2 & KN & SP & LL & L1 & SZ).
  assert (KEYS : forall k, (0 <= k < Z.of_nat (length (ix_levels ix)))%Z ->
     length (nth (Z.to_nat k) (ix_levels ix) []) =
     calc_num_keys spread (length (ix_levels ix) - Z.to_nat k) (r_nsegs r)).
  { intros k Hk. rewrite (sizes_nth spread (r_nsegs r) 1) by (auto; lia). f_equal. lia. }
  destruct (calc_num_levels_spec spread (r_nsegs r) S2) as [P1 P2].
  assert (PM : spread ^ (calc_num_levels spread (r_nsegs r) - 1) < r_nsegs r).
  { destruct (calc_num_levels_loop_min spread (r_nsegs r) S2 (r_nsegs r) 1 ltac:(auto) ltac:(lia)) as [M|M]; auto.
    change (calc_num_levels_loop (r_nsegs r) spread 1 (r_nsegs r)) with (calc_num_levels spread (r_nsegs r)) in M. lia. }
  split. { split; [lia|]. intros [->|L]; [congruence|lia]. }
  split. { intros k Hk. replace ((k <? 0)%Z || _) with true by lia. reflexivity. }
  assert (ROOT : length (nth (Z.to_nat 0) (ix_levels ix) []) <= spread /\ 2 <= length (nth (Z.to_nat 0) (ix_levels ix) [])).
  { rewrite KEYS by lia. cbn [Z.to_nat]. rewrite Nat.sub_0_r, LL. set (M := calc_num_levels spread (r_nsegs r)) in *.
    split.
    - apply Nat.nlt_ge. intros H. apply num_keys_spec in H; [|lia].
      replace M with (S (M - 1)) in P1 by lia. cbn [Nat.pow] in P1. lia.
    - apply num_keys_spec; [lia|]. lia. }
  split.
  { intros _. replace ((0 <? 0)%Z || _) with false by lia. repeat split; try lia. }
  intros k Hk. replace ((k <? 0)%Z || _) with false by lia.
  eexists. split; [reflexivity|]. rewrite KEYS by lia.
  replace (Z.to_nat (Z.of_nat (length (ix_levels ix)) - k)) with (length (ix_levels ix) - Z.to_nat k) by lia.
  set (p := length (ix_levels ix) - Z.to_nat k). set (c := calc_num_keys spread p (r_nsegs r)).
  assert (C1 : 1 <= c) by (apply num_keys_spec; lia).
  split; auto. split.
  - apply num_keys_spec; [lia|]. fold c. lia.
  - apply Nat.nlt_ge. intros H. apply (proj2 (num_keys_spec spread p (r_nsegs r) c ltac:(lia))) in H. fold c in H. lia.
Qed.

(** every box of a segment is inside the rectangles above it *)
Lemma ixcov_covers R s : ixcov R s -> seg_ok s -> pt32 (sa s) -> pt32 (sb s) -> kcov R (tg_segment_rect s).
Proof.
  intros [OR (B & OB & C1 & C2)] Os A1 A2.
  eapply kcov_trans; [exact C2|].
  eapply kcov_trans; [apply (ixrect_mono B (tg_segment_rect s)); auto with fok|].
  apply ixrect_covers. destruct A1, A2. split; split; cbn; auto using f32_fmin0, f32_fmax0.
Qed.

Theorem index_cover ps closed kind spread r k i j p :
  points_ok ps -> 2 <= spread -> series_new ps closed kind spread = Some r ->
  search_safe ps closed kind spread -> (forall a, In a ps -> pt32 a) ->
  let L := tg_ring_index_num_levels (Some r) in
  (0 <= k < L)%Z -> (0 <= i < tg_ring_index_level_num_rects (Some r) k)%Z ->
  let w := spread ^ Z.to_nat (L - k) in
  Z.to_nat i * w <= j < (Z.to_nat i + 1) * w -> j < length (series_segments closed ps) ->
  point_ok p -> in_box (nth j (series_segments closed ps) seg0) p ->
  in_rect (tg_ring_index_level_rect (Some r) k i) p.
Proof.
  intros Hok S2 E Safe R32. cbv zeta. intros Hk Hi Hj Hjn Op IB.
  pose proof (search_safe_ok _ _ _ _ _ Hok S2 E Safe) as [SO RI].
  apply points_ok_iff in Hok. apply point_ok_iff in Op.
  rewrite series_segments_spec in * by auto. rewrite map_length, seq_length in Hjn.
  pose proof (series_new_fields _ _ _ _ _ E) as F. cbv zeta in F.
  destruct F as (_ & _ & NS & PT & _). rewrite <- NS in *.
  rewrite (nth_indep _ seg0 (pseg ps 0)) in IB by (rewrite map_length, seq_length; auto).
  rewrite map_nth, seq_nth in IB by auto. cbn [Nat.add] in IB.
  unfold tg_ring_index_num_levels, tg_ring_index_level_num_rects, tg_ring_index_level_rect in *.
  destruct (r_index r) as [ix|] eqn:IX; [|lia].
  destruct (index_fields _ _ _ _ _ _ E Hok S2 IX) as (L2 & KN & SP & LL & L1 & SZ).
  destruct RI as (S2' & LV & _). rewrite SP in *.
  set (nl := length (ix_levels ix)) in *.
  replace ((k <? 0)%Z || (Z.of_nat nl <=? k)%Z) with false in * by lia.
  set (level := nth (Z.to_nat k) (ix_levels ix) []) in *.
  replace ((i <? 0)%Z || (Z.of_nat (length level) <=? i)%Z) with false by lia.
  pose proof (levels_ok_nth _ _ _ _ (Z.to_nat k) LV ltac:(lia)) as [LN CV]. fold level in LN, CV. fold nl in LN, CV.
  replace (Z.to_nat (Z.of_nat nl - k)) with (nl - Z.to_nat k) in Hj by lia.
  specialize (CV (Z.to_nat i) j ltac:(lia) Hj Hjn). rewrite (seg_at_pseg ps) in CV by auto.
  assert (P32 : forall t, t <= length ps -> pt32 (pt_at (ringpts ps) t)).
  { intros t Ht. destruct (Nat.eq_dec t (length ps)) as [->|N].
    - rewrite ringpts_last. apply R32. apply nth_In. lia.
    - rewrite ringpts_lt by lia. apply R32. apply nth_In. lia. }
  assert (NL : r_nsegs r <= length ps).
  { rewrite NS. unfold num_segments. destruct closed.
    - destruct (length ps <? 3); [lia|]. destruct (pteq _ _); lia.
    - destruct (length ps <? 2); lia. }
  assert (OS := pseg_ok ps j Hok).
  pose proof (ixcov_covers _ _ CV OS (P32 j ltac:(lia)) (P32 (j + 1) ltac:(lia))) as KC.
  apply in_box_kin in IB; [|apply seg_ok_nn; auto|apply pt_ok_nn; auto].
  apply in_rect_kin; [|apply pt_ok_nn; auto|].
  - apply rect_ok_nn. apply CV.
  - eapply kin_cov; eauto.
Qed.

(** ** index options *)
Local Open Scope Z_scope.
Lemma land15 ix : 0 <= Z.land ix 15 < 16.
Proof. change 15 with (Z.ones 4). rewrite Z.land_ones by lia. apply Z.mod_pos_bound. lia. Qed.

Lemma with_spread_value ix s : 
  tg_index_with_spread ix s = Z.land ix 15 + 16 * (if s =? 0 then 0 else clamp_spread s - 1).
Proof.
  unfold tg_index_with_spread. set (t := if s =? 0 then s else _).
  assert (Ht : t = if s =? 0 then 0 else clamp_spread s - 1).
  { unfold t, clamp_spread. destruct (s =? 0) eqn:E0; [lia|].
    destruct (s <? 2) eqn:E1; [lia|]. destruct (4096 <? s) eqn:E2; lia. }
  rewrite <- Ht. rewrite Z.shiftl_mul_pow2 by lia.
  assert (D : Z.land (Z.land ix 15) (t * 2 ^ 4) = 0).
  2:{ rewrite <- Z.lxor_lor, <- Z.add_nocarry_lxor by exact D. lia. }
  apply Z.bits_inj'. intros n Hn. rewrite Z.land_spec, Z.bits_0.
  rewrite <- Z.shiftl_mul_pow2 by lia.
  destruct (Z.lt_ge_cases n 4).
  - rewrite Z.shiftl_spec_low by lia. apply andb_false_r.
  - rewrite Z.land_spec. change 15 with (Z.ones 4). rewrite Z.ones_spec_high by lia.
    rewrite andb_false_r. reflexivity.
Qed.

Lemma extract_with e ix s :
  tg_index_extract_spread e (tg_index_with_spread ix s) =
  (Z.land ix 15, if s =? 0 then env_spread e else clamp_spread s).
Proof.
  unfold tg_index_extract_spread. rewrite with_spread_value.
  pose proof (land15 ix) as B. set (b := Z.land ix 15) in *.
  set (t := if s =? 0 then 0 else clamp_spread s - 1).
  assert (Bt : 0 <= t <= 4095) by (unfold t, clamp_spread; destruct (s =? 0); lia).
  rewrite Z.shiftr_div_pow2 by lia. change (2 ^ 4) with 16.
  replace ((b + 16 * t) / 16) with t by (rewrite Z.mul_comm, Z.div_add by lia; rewrite Z.div_small; lia).
  assert (LT : Z.land t 4095 = t).
  { change 4095 with (Z.ones 12). rewrite Z.land_ones by lia. apply Z.mod_small. lia. }
  rewrite LT. f_equal.
  - change 15 with (Z.ones 4). rewrite Z.land_ones by lia. change (2 ^ 4) with 16.
    rewrite Z.mul_comm, Z.mod_add by lia. apply Z.mod_small. lia.
  - unfold t, clamp_spread. destruct (s =? 0) eqn:E; [reflexivity|].
    set (c := Z.max 2 (Z.min 4096 s)). assert (2 <= c) by lia. clearbody c.
    destruct (0 <? c - 1) eqn:E1; [|lia]. destruct (c - 1 + 1 =? 0) eqn:E2; lia.
Qed.

(** histories of environment calls *)

Lemma env_history ops : forall e,
  (env_index (fold_left env_step ops e) = last (env_index e :: flat_map (fun o => match o with
     | SetIndex ix => if (1 <=? ix) && (ix <=? 3) then [ix] else [] | _ => [] end) ops) 0) /\
  (env_spread (fold_left env_step ops e) = last (env_spread e :: flat_map (fun o => match o with
     | SetSpread s => if (2 <=? s) && (s <=? 4096) then [s] else [] | _ => [] end) ops) 0).
Proof.
  induction ops as [|o ops IH]; intros e; [split; reflexivity|].
  cbn [fold_left]. destruct (IH (env_step e o)) as [-> ->].
  destruct o as [ix|s]; cbn [env_step flat_map app].
  - unfold tg_env_set_index, TG_NONE, TG_NATURAL, TG_YSTRIPES.
    destruct ((ix =? 1) || (ix =? 2) || (ix =? 3)) eqn:E1; destruct ((1 <=? ix) && (ix <=? 3)) eqn:E2; try lia;
    split; reflexivity.
  - unfold tg_env_set_index_spread. destruct ((2 <=? s) && (s <=? 4096)) eqn:E; split; reflexivity.
Qed.

Lemma env_history' ops e :
  env_index (fold_left env_step ops e) = last_index e ops /\
  env_spread (fold_left env_step ops e) = last_spread e ops.
Proof. apply env_history. Qed.

Lemma env_step_range e o : 1 <= env_index e <= 3 /\ 2 <= env_spread e <= 4096 ->
  1 <= env_index (env_step e o) <= 3 /\ 2 <= env_spread (env_step e o) <= 4096.
Proof.
  intros H. destruct o as [ix|s]; cbn [env_step].
  - unfold tg_env_set_index, TG_NONE, TG_NATURAL, TG_YSTRIPES.
    destruct ((ix =? 1) || (ix =? 2) || (ix =? 3)) eqn:E1; cbn; lia.
  - unfold tg_env_set_index_spread. destruct ((2 <=? s) && (s <=? 4096)) eqn:E; cbn; lia.
Qed.
Lemma env_range ops : let e := fold_left env_step ops env_init in
  1 <= env_index e <= 3 /\ 2 <= env_spread e <= 4096.
Proof.
  cbv zeta. assert (H : 1 <= env_index env_init <= 3 /\ 2 <= env_spread env_init <= 4096) by (unfold env_init, TG_NATURAL; cbn [env_index env_spread]; lia).
  revert H. generalize env_init. induction ops as [|o ops IH]; intros e H; cbn [fold_left]; auto.
  apply IH. apply env_step_range; auto.
Qed.

Lemma ring_uses_option ops ps closed ix s : 0 <= ix <= 3 ->
  let e := fold_left env_step ops env_init in
  series_new_ix e ps closed (tg_index_with_spread ix s) =
  series_new ps closed
    (kind_of (if ix =? 0 then last_index env_init ops else ix))
    (Z.to_nat (if s =? 0 then last_spread env_init ops else clamp_spread s)).
Proof.
  intros H. cbv zeta. destruct (env_range ops) as [R1 R2].
  destruct (env_history' ops env_init) as [E1 E2]. rewrite E1 in R1. rewrite E2 in R2.
  unfold series_new_ix. rewrite extract_with, E2.
  replace (Z.land ix 15) with ix.
  2:{ change 15 with (Z.ones 4). rewrite Z.land_ones by lia. rewrite Z.mod_small; lia. }
  unfold resolve_kind. rewrite E1. unfold TG_DEFAULT. set (k := if ix =? 0 then _ else ix).
  assert (Hk : k = 1 \/ k = 2 \/ k = 3) by (unfold k; destruct (ix =? 0) eqn:E0; lia).
  destruct Hk as [->|[->| ->]]; reflexivity.
Qed.

Lemma ring_reports_spread ops ps closed ix s r : 0 <= ix <= 3 -> points_ok ps ->
  let e := fold_left env_step ops env_init in
  series_new_ix e ps closed (tg_index_with_spread ix s) = Some r ->
  let k := if ix =? 0 then last_index env_init ops else ix in
  let sp := if s =? 0 then last_spread env_init ops else clamp_spread s in
  tg_ring_index_spread (Some r) =
  if (k =? TG_NONE) || (Z.of_nat (length ps) <? 2 * sp) then 0 else sp.
Proof.
  intros H Hok e E k sp. unfold e in E. rewrite ring_uses_option in E by auto. fold k sp in E.
  destruct (env_range ops) as [R1 R2]. destruct (env_history' ops env_init) as [E1 E2].
  rewrite E1 in R1. rewrite E2 in R2.
  assert (Bs : 2 <= sp <= 4096) by (unfold sp, clamp_spread; destruct (s =? 0); lia).
  assert (Bk : 1 <= k <= 3) by (unfold k; destruct (ix =? 0) eqn:?; lia).
  destruct (index_shape _ _ _ _ _ Hok (ltac:(lia) : (2 <= Z.to_nat sp)%nat) E) as (A & _ & B & _).
  unfold TG_NONE. destruct ((k =? 1) || (Z.of_nat (length ps) <? 2 * sp)) eqn:C.
  - assert (Z0 : tg_ring_index_num_levels (Some r) = 0).
    { apply A. unfold kind_of. destruct (k =? 1); [left; reflexivity|right; lia]. }
    unfold tg_ring_index_num_levels, tg_ring_index_spread in *.
    destruct (r_index r) as [i|] eqn:IX; auto.
    apply points_ok_iff in Hok.
    destruct (index_fields _ _ _ _ _ _ E Hok (ltac:(lia) : (2 <= Z.to_nat sp)%nat) IX) as (_ & _ & _ & _ & L1 & _). lia.
  - destruct B as [B _]; [|lia]. intros Z0. apply A in Z0.
    unfold kind_of in Z0. destruct Z0 as [Z0|Z0]; [|lia].
    destruct (k =? 1) eqn:K1; [lia|]. destruct (k =? 3); discriminate.
Qed.
